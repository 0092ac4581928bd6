(** Proofs about the profile in which dead stripes are looked for (C134). *)
From Verif Require Import Np P_Np M_utility S_utility P_utility M_io_load M_conversion P_conversion M_correction M_calculation M_removal S_removal P_removal P_removal2 P_removal3 M_blob P_blob M_allstripe S_allstripe P_allstripe P_allstripe2 P_allstripe3 P_allstripe5.
From Coq Require Import QArith Qround Qabs String ZArith Lia Lqa.
From Coq Require Import List. Import ListNotations.
Open Scope Z_scope.

Lemma median_below l : (0 < List.length l)%nat -> (List.length (filter (fun x => Qltb x (median_value l)) l) <= Nat.div (List.length l) 2)%nat.
Proof.
  intros Hn. set (M := median_value l). unfold median_value in M. set (q := qsorted l) in *. set (h := Nat.div (List.length l) 2) in *.
  assert (L : List.length q = List.length l) by apply qsorted_length. pose proof (half_lt _ Hn) as Hh. fold h in Hh.
  rewrite (filter_perm_length _ l q (qsorted_perm l)), <- (firstn_skipn h q), filter_app, app_length.
  assert (E : filter (fun x => Qltb x M) (skipn h q) = []).
  { destruct (filter _ (skipn h q)) as [|x t] eqn:E; [reflexivity|exfalso].
    assert (Hx : In x (filter (fun x => Qltb x M) (skipn h q))) by (rewrite E; left; reflexivity).
    apply filter_In in Hx as [Hx Hx2]. apply Qltb_lt in Hx2. destruct (In_skipn_nth q h x Hx) as (i & [I1 I2] & ->).
    pose proof (sorted_nth q (qsorted_sorted l) h i ltac:(lia)). unfold M in Hx2. lra. }
  rewrite E. cbn [List.length]. pose proof (filter_le (fun x => Qltb x M) (fun _ => true) (firstn h q) (fun _ _ _ => eq_refl)) as F.
  rewrite (filter_all (fun _ => true) (firstn h q) (fun _ _ => eq_refl)), firstn_length in F. lia.
Qed.
Lemma median_in l : (0 < List.length l)%nat -> In (median_value l) l.
Proof.
  intros Hn. apply (Permutation.Permutation_in _ (Permutation.Permutation_sym (qsorted_perm l))). unfold median_value. apply nth_In. rewrite qsorted_length. apply half_lt. exact Hn.
Qed.
Lemma moving_median_value n size (f g : Z -> Q) i : 1 <= n -> 1 <= size -> (forall k, in_rng n k -> (f k == g k)%Q) ->
  moving_median n size g i (median_value (map (fun d => f (reflect_idx n (i - size / 2 + d))) (zrange 0 size))).
Proof.
  intros Hn Hs Hfg w Hw. set (l := map _ _). assert (Hl : List.length l = Z.to_nat size) by (unfold l; rewrite map_length, zrange_length; reflexivity).
  assert (EW : forall d, 0 <= d < size -> w d = reflect_idx n (i - size / 2 + d)) by (intros d Hd; apply (shows_det n (i - size / 2 + d)); [exact Hn|apply Hw; exact Hd|apply reflect_shows; exact Hn]).
  assert (EV : forall d, 0 <= d < size -> (g (w d) == f (reflect_idx n (i - size / 2 + d)))%Q) by (intros d Hd; rewrite (EW d Hd); symmetry; apply Hfg; apply (reflect_shows n); exact Hn).
  assert (H0 : (0 < List.length l)%nat) by lia. pose proof (Nat.div_mod (Z.to_nat size) 2 ltac:(lia)) as D. pose proof (Nat.mod_upper_bound (Z.to_nat size) 2 ltac:(lia)) as D2. split; [|split].
  - destruct (proj1 (in_map_iff _ _ _) (median_in l H0)) as (d & E & Hd). apply zrange_In in Hd. exists d. split; [lia|]. rewrite (EV d) by lia. rewrite E. reflexivity.
  - pose proof (median_below l H0) as B. set (m := median_value l) in *. rewrite Hl in B. unfold l in B. rewrite filter_map_length in B.
    assert (E : List.length (filter (fun d => Qltb (g (w d)) m) (zrange 0 size)) = List.length (filter (fun d => Qltb (f (reflect_idx n (i - size / 2 + d))) m) (zrange 0 size))).
    { f_equal. apply filter_ext_in. intros d Hd. apply zrange_In in Hd. apply Qltb_ext; [apply EV; lia|reflexivity]. }
    rewrite E. lia.
  - pose proof (median_above l H0) as B. set (m := median_value l) in *. rewrite Hl in B. unfold l in B. rewrite filter_map_length in B.
    assert (E : List.length (filter (fun d => Qltb m (g (w d))) (zrange 0 size)) = List.length (filter (fun d => Qltb m (f (reflect_idx n (i - size / 2 + d)))) (zrange 0 size))).
    { f_equal. apply filter_ext_in. intros d Hd. apply zrange_In in Hd. apply Qltb_ext; [reflexivity|apply EV; lia]. }
    rewrite E. lia.
Qed.
Lemma moving_mean_value n size (f : Z -> Q) i a : 1 <= n -> 1 <= size -> moving_mean n size f i a -> (qmean size (fun d => f (reflect_idx n (i - size / 2 + d))) == a)%Q.
Proof.
  intros Hn Hs H. specialize (H (fun d => reflect_idx n (i - size / 2 + d)) (fun d _ => reflect_shows n _ Hn)). unfold qmean. cbn beta in H. rewrite <- H. field. apply inject_Z_neq0. lia.
Qed.

Definition fluctuation (sino : img Q) (avg : Z -> Z -> Q) (j : Z) : Q := qsum (nrow sino) (fun i => Qabs (px sino i j - avg i j)).
Lemma list_diff_is strength (sino : img Q) avg : 1 <= nrow sino -> 1 <= strength ->
  (forall i j, in_rng (nrow sino) i -> in_rng (ncol sino) j -> moving_mean (nrow sino) strength (fun k => px sino k j) i (avg i j)) ->
  forall j, in_rng (ncol sino) j -> (vat (list_diff strength sino) j == fluctuation sino avg j)%Q.
Proof.
  intros Hr Hs H j Hj. cbn [list_diff vat]. apply qsum_ext. intros i Hi. cbn [smooth_columns px].
  rewrite (moving_mean_value (nrow sino) strength (fun k => px sino k j) i (avg i j) Hr Hs (H i j Hi Hj)). reflexivity.
Qed.
Lemma qsum_nonneg n f : (forall i, in_rng n i -> (0 <= f i)%Q) -> (0 <= qsum n f)%Q.
Proof.
  intros H. destruct (Z_le_gt_dec n 0) as [L|G].
  - unfold qsum. replace (Z.to_nat n) with 0%nat by lia. cbn. lra.
  - apply Qle_trans with (qsum n (fun _ => 0%Q)); [rewrite qsum_const by lia; lra|]. apply qsum_le. exact H.
Qed.
Lemma dead_profile_is (asort : argsort_fn) size strength (sino : img Q) snr out avg : 1 <= size -> 1 <= strength -> 1 <= nrow sino -> 2 <= ncol sino ->
  (forall i j, in_rng (nrow sino) i -> in_rng (ncol sino) j -> moving_mean (nrow sino) strength (fun k => px sino k j) i (avg i j)) ->
  remove_dead_stripe_full asort sino snr size false strength = Ok out ->
  let fluct := fluctuation sino avg in
  exists (med : Z -> Q) profile mask,
    (forall j, in_rng (ncol sino) j -> moving_median (ncol sino) size fluct j (med j)) /\
    vlen profile = ncol sino /\ vlen mask = ncol sino /\
    (forall j, in_rng (ncol sino) j -> ~ (med j == 0)%Q -> (vat profile j == fluct j / med j)%Q) /\
    (forall j, in_rng (ncol sino) j -> (med j == 0)%Q -> (vat profile j == fluct j / qmean (ncol sino) med)%Q) /\
    (~ (qmean (ncol sino) med == 0)%Q -> detect_stripe asort profile snr = Ok mask) /\
    ((qmean (ncol sino) med == 0)%Q -> forall j, vat mask j = 0%Q) /\
    nrow out = nrow sino /\ ncol out = ncol sino /\
    (forall j, in_rng (ncol sino) j -> ~ marked_near mask j \/ j < 2 \/ ncol sino - 2 <= j -> forall i, px out i j = px sino i j) /\
    forall affected : Z -> bool, (forall j, in_rng (ncol sino) j -> (affected j = true <-> marked_near mask j /\ 2 <= j < ncol sino - 2)) ->
      let number := Z.of_nat (List.length (filter affected (zrange 0 (ncol sino)))) in
      (number < ncol sino / 3 -> forall j, in_rng (ncol sino) j -> affected j = true -> forall i, bridged (ncol sino) mask (px sino i) (px out i) j) /\
      (ncol sino / 3 <= number -> forall j, in_rng (ncol sino) j -> forall i, px out i j = px sino i j).
Proof.
  intros Hsz Hst Hr Hc Havg E fluct. unfold remove_dead_stripe_full in E.
  set (med := vat (median_line size (list_diff strength sino))).
  set (detect := fun v : vec Q => if Qeq_bool (diff_mean size strength sino) 0 then Ok (mkvec (vlen v) (fun _ => 0%Q)) else detect_stripe asort v snr) in *.
  destruct (remove_dead_stripe (dead_profile size strength) detect sino) as [s|] eqn:Ed; cbn [bindr] in E; [|discriminate]. apply Ok_inj in E. subst s.
  assert (Hlen : forall v m, detect v = Ok m -> vlen m = vlen v).
  { intros v m Hd. unfold detect in Hd. destruct (Qeq_bool _ 0); [apply Ok_inj in Hd; subst m; reflexivity|apply (detect_len asort v snr); exact Hd]. }
  destruct (dead_stripe_spec _ detect sino out Ed Hc Hlen eq_refl) as (mask & D1 & D2 & D3 & D4 & _ & D5).
  assert (HL : forall j, in_rng (ncol sino) j -> (vat (list_diff strength sino) j == fluct j)%Q) by (apply list_diff_is; assumption).
  assert (HM : forall j, in_rng (ncol sino) j -> moving_median (ncol sino) size fluct j (med j)) by (intros j Hj; apply (moving_median_value (ncol sino) size (vat (list_diff strength sino)) fluct j); [lia|exact Hsz|exact HL]).
  assert (F0 : forall j, (0 <= fluct j)%Q) by (intros j; apply qsum_nonneg; intros i _; apply Qabs_nonneg).
  assert (M0 : forall j, in_rng (ncol sino) j -> (0 <= med j)%Q).
  { intros j Hj. destruct (HM j Hj (fun d => reflect_idx (ncol sino) (j - size / 2 + d)) (fun d _ => reflect_shows (ncol sino) _ ltac:(lia))) as ((d & _ & Ev) & _). rewrite <- Ev. apply F0. }
  assert (EM : (diff_mean size strength sino == qmean (ncol sino) med)%Q).
  { unfold diff_mean, qmean. cbv zeta. change (vlen (median_line size (list_diff strength sino))) with (ncol sino). fold med. rewrite (qsum_ext (ncol sino) (fun j => Qabs (med j)) med); [reflexivity|]. intros j Hj. apply Qabs_pos, M0, Hj. }
  exists med, (dead_profile size strength sino), mask. split; [exact HM|]. split; [reflexivity|]. split; [rewrite (Hlen _ _ D1); reflexivity|]. split; [|split; [|split; [|split] ] ].
  - intros j Hj N. cbn [dead_profile vat]. fold med. destruct (Qeq_bool (med j) 0) eqn:EB; [apply Qeq_bool_iff in EB; contradiction|]. rewrite (HL j Hj). reflexivity.
  - intros j Hj N. cbn [dead_profile vat]. fold med. destruct (Qeq_bool (med j) 0) eqn:EB; [|apply Qeq_bool_neq in EB; contradiction]. rewrite (HL j Hj), EM. reflexivity.
  - intros N. unfold detect in D1. destruct (Qeq_bool (diff_mean size strength sino) 0) eqn:EB; [apply Qeq_bool_iff in EB; rewrite EM in EB; contradiction|exact D1].
  - intros N j. unfold detect in D1. destruct (Qeq_bool (diff_mean size strength sino) 0) eqn:EB; [apply Ok_inj in D1; subst mask; reflexivity|]. apply Qeq_bool_neq in EB. rewrite EM in EB. contradiction.
  - split; [exact D2|]. split; [exact D3|]. split; [exact D4|exact D5].
Qed.
