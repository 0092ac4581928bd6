(** Proofs for remove_all_stripe: median filters, mirrored windows, the steps one by one. *)
From Verif Require Import Np P_Np M_utility S_utility P_utility M_io_load M_conversion P_conversion M_correction M_calculation M_removal S_removal P_removal P_removal2 P_removal3 M_allstripe S_allstripe.
From Coq Require Import QArith Qround Qabs String ZArith Lia Lqa Psatz Permutation Sorting.Sorted.
From Coq Require Import List. Import ListNotations.
Open Scope Z_scope.

(** ** sorted lists of rationals *)
Lemma qput_perm a l : Permutation (a :: l) (qput a l).
Proof. induction l as [|b t IH]; cbn; [apply Permutation_refl|]. destruct (Qle_bool a b); [apply Permutation_refl|]. eapply perm_trans; [apply perm_swap|]. apply perm_skip, IH. Qed.
Lemma qsorted_perm l : Permutation l (qsorted l).
Proof. induction l as [|a t IH]; cbn; [constructor|]. eapply perm_trans; [apply perm_skip, IH|]. apply qput_perm. Qed.
Lemma qput_sorted a l : StronglySorted Qle l -> StronglySorted Qle (qput a l).
Proof.
  induction l as [|b t IH]; intros H; cbn; [constructor; constructor|]. inversion H as [|? ? H1 H2]; subst.
  destruct (Qle_bool a b) eqn:E.
  - apply Qle_bool_iff in E. constructor; [exact H|]. constructor; [exact E|]. eapply Forall_impl; [|exact H2]. intros c Hc. cbn beta in Hc. lra.
  - assert (L : (b <= a)%Q). { destruct (Qlt_le_dec b a) as [G|G]; [lra|]. apply Qle_bool_iff in G. congruence. }
    constructor; [apply IH, H1|]. apply (Permutation_Forall (qput_perm a t)). constructor; [exact L|exact H2].
Qed.
Lemma qsorted_sorted l : StronglySorted Qle (qsorted l).
Proof. induction l; cbn; [constructor|apply qput_sorted; assumption]. Qed.
Lemma qsorted_length l : length (qsorted l) = length l.
Proof. symmetry. apply Permutation_length, qsorted_perm. Qed.
Lemma sorted_nth l : StronglySorted Qle l -> forall a b, (a <= b < length l)%nat -> (nth a l 0 <= nth b l 0)%Q.
Proof.
  induction 1 as [|x t H1 IH H2]; intros a b Hab; cbn in Hab; [lia|].
  destruct b as [|b]; [assert (a = 0)%nat as -> by lia; apply Qle_refl|].
  destruct a as [|a]; cbn [nth]. { rewrite Forall_forall in H2. apply H2, nth_In. lia. }
  apply IH. lia.
Qed.
Lemma filter_perm_length {A} (f : A -> bool) l l' : Permutation l l' -> length (filter f l) = length (filter f l').
Proof. induction 1; cbn; try destruct (f x); try destruct (f y); cbn; congruence. Qed.
Lemma filter_all {A} (f : A -> bool) l : (forall x, In x l -> f x = true) -> filter f l = l.
Proof. induction l as [|a t IH]; intros H; cbn; [reflexivity|]. rewrite (H a (or_introl eq_refl)). f_equal. apply IH. intros x Hx. apply H. right. exact Hx. Qed.
Lemma filter_le {A} (f g : A -> bool) l : (forall x, In x l -> f x = true -> g x = true) -> (length (filter f l) <= length (filter g l))%nat.
Proof.
  induction l as [|a t IH]; intros H; cbn; [lia|]. specialize (IH (fun x Hx => H x (or_intror Hx))). specialize (H a (or_introl eq_refl)).
  destruct (f a); [rewrite (H eq_refl)|destruct (g a)]; cbn; lia.
Qed.
Lemma filter_map_length {A B} (f : B -> bool) (g : A -> B) l : length (filter f (map g l)) = length (filter (fun x => f (g x)) l).
Proof. induction l as [|a t IH]; cbn; [reflexivity|]. destruct (f (g a)); cbn; congruence. Qed.
Lemma In_firstn_nth (l : list Q) n x : In x (firstn n l) -> exists i, (i < n)%nat /\ (i < length l)%nat /\ x = nth i l 0%Q.
Proof.
  intros H. destruct (In_nth _ _ 0%Q H) as (i & Hi & E). rewrite firstn_length in Hi. exists i. split; [lia|]. split; [lia|].
  rewrite <- E. rewrite <- (firstn_skipn n l) at 2. rewrite app_nth1; [reflexivity|]. rewrite firstn_length. lia.
Qed.
Lemma In_skipn_nth (l : list Q) n x : In x (skipn n l) -> exists i, (n <= i < length l)%nat /\ x = nth i l 0%Q.
Proof.
  intros H. destruct (In_nth _ _ 0%Q H) as (i & Hi & E). rewrite skipn_length in Hi. exists (n + i)%nat. split; [lia|].
  rewrite <- E. rewrite <- (firstn_skipn n l) at 2. rewrite app_nth2; rewrite firstn_length; [|lia]. f_equal. lia.
Qed.
Lemma half_lt n : (0 < n)%nat -> (Nat.div n 2 < n)%nat.
Proof. intros H. apply Nat.div_lt; lia. Qed.

Lemma median_lower l a : (0 < length l)%nat -> (length (filter (fun x => Qltb x a) l) <= Nat.div (length l) 2)%nat -> (a <= median_value l)%Q.
Proof.
  intros Hn H. unfold median_value. set (q := qsorted l). set (h := Nat.div (length l) 2) in *.
  destruct (Qlt_le_dec (nth h q 0%Q) a) as [G|G]; [exfalso|exact G].
  assert (L : length q = length l) by apply qsorted_length. pose proof (half_lt _ Hn) as Hh. fold h in Hh.
  rewrite (filter_perm_length _ l q (qsorted_perm l)) in H. rewrite <- (firstn_skipn (S h) q), filter_app, app_length in H.
  rewrite (filter_all _ (firstn (S h) q)) in H.
  - rewrite firstn_length in H. lia.
  - intros x Hx. destruct (In_firstn_nth q (S h) x Hx) as (i & I1 & I2 & ->). apply Qltb_lt.
    pose proof (sorted_nth q (qsorted_sorted l) i h ltac:(lia)). lra.
Qed.
Lemma median_upper l b : (0 < length l)%nat -> (length (filter (fun x => Qltb b x) l) < length l - Nat.div (length l) 2)%nat -> (median_value l <= b)%Q.
Proof.
  intros Hn H. unfold median_value. set (q := qsorted l). set (h := Nat.div (length l) 2) in *.
  destruct (Qlt_le_dec b (nth h q 0%Q)) as [G|G]; [exfalso|exact G].
  assert (L : length q = length l) by apply qsorted_length. pose proof (half_lt _ Hn) as Hh. fold h in Hh.
  rewrite (filter_perm_length _ l q (qsorted_perm l)) in H. rewrite <- (firstn_skipn h q), filter_app, app_length in H.
  rewrite (filter_all _ (skipn h q)) in H.
  - rewrite skipn_length in H. lia.
  - intros x Hx. destruct (In_skipn_nth q h x Hx) as (i & I1 & ->). apply Qltb_lt.
    pose proof (sorted_nth q (qsorted_sorted l) h i ltac:(lia)). lra.
Qed.
Lemma median_above l : (0 < length l)%nat -> (length (filter (fun x => Qltb (median_value l) x) l) < length l - Nat.div (length l) 2)%nat.
Proof.
  intros Hn. set (M := median_value l). unfold median_value in M. set (q := qsorted l) in *. set (h := Nat.div (length l) 2) in *.
  assert (L : length q = length l) by apply qsorted_length. pose proof (half_lt _ Hn) as Hh. fold h in Hh.
  rewrite (filter_perm_length _ l q (qsorted_perm l)), <- (firstn_skipn (S h) q), filter_app, app_length.
  assert (E : filter (fun x => Qltb M x) (firstn (S h) q) = []).
  { destruct (filter _ (firstn (S h) q)) as [|x t] eqn:E; [reflexivity|exfalso].
    assert (Hx : In x (filter (fun x => Qltb M x) (firstn (S h) q))) by (rewrite E; left; reflexivity).
    apply filter_In in Hx as [Hx Hx2]. apply Qltb_lt in Hx2. destruct (In_firstn_nth q (S h) x Hx) as (i & I1 & I2 & ->).
    pose proof (sorted_nth q (qsorted_sorted l) i h ltac:(lia)). unfold M in Hx2. lra. }
  rewrite E. cbn [length]. pose proof (filter_le (fun x => Qltb M x) (fun _ => true) (skipn (S h) q) (fun _ _ _ => eq_refl)) as F.
  rewrite (filter_all (fun _ => true) (skipn (S h) q) (fun _ _ => eq_refl)), skipn_length in F. lia.
Qed.
Lemma median_mono {A} (f g : A -> Q) l : l <> [] -> (forall x, In x l -> (f x <= g x)%Q) -> (median_value (map f l) <= median_value (map g l))%Q.
Proof.
  intros Hl H. assert (Hn : (0 < length (map g l))%nat) by (rewrite map_length; destruct l; cbn; [congruence|lia]).
  apply median_upper; rewrite map_length in *; [exact Hn|].
  pose proof (median_above (map g l)) as B. rewrite map_length in B. specialize (B Hn).
  rewrite filter_map_length in *. eapply Nat.le_lt_trans; [|exact B]. apply filter_le. intros x Hx G. apply Qltb_lt in G. apply Qltb_lt. specialize (H x Hx). lra.
Qed.
(** a median lies between bounds met by more than half of the values *)
Lemma median_between {A} (f : A -> Q) (bad : A -> bool) l a b :
  (2 * length (filter bad l) < length l)%nat -> (forall x, In x l -> bad x = false -> (a <= f x <= b)%Q) -> (a <= median_value (map f l) <= b)%Q.
Proof.
  intros Hc H. assert (Hn : (0 < length (map f l))%nat) by (rewrite map_length; lia). pose proof (Nat.div_mod (length l) 2 ltac:(lia)) as D. pose proof (Nat.mod_upper_bound (length l) 2 ltac:(lia)) as D2.
  split; [apply median_lower|apply median_upper]; try exact Hn; rewrite map_length, filter_map_length.
  - assert (F : (length (filter (fun x => Qltb (f x) a) l) <= length (filter bad l))%nat).
    { apply filter_le. intros x Hx G. apply Qltb_lt in G. destruct (bad x) eqn:E; [reflexivity|]. specialize (H x Hx E). lra. }
    lia.
  - assert (F : (length (filter (fun x => Qltb b (f x)) l) <= length (filter bad l))%nat).
    { apply filter_le. intros x Hx G. apply Qltb_lt in G. destruct (bad x) eqn:E; [reflexivity|]. specialize (H x Hx E). lra. }
    lia.
Qed.

(** ** mirrored windows *)
Lemma reflect_shows n k : 1 <= n -> shows n k (reflect_idx n k).
Proof.
  intros Hn. unfold shows, reflect_idx, in_rng. pose proof (Z.mod_pos_bound k (2 * n) ltac:(lia)) as B.
  destruct (n <=? 1) eqn:E; [assert (n = 1) as -> by lia; lia|]. cbv zeta. destruct (k mod (2 * n) <? n) eqn:E2; lia.
Qed.
Lemma reflect_near n k j : in_rng n j -> Z.abs (reflect_idx n k - j) <= Z.abs (k - j).
Proof.
  unfold in_rng. intros Hj. pose proof (reflect_shows n k ltac:(lia)) as [H1 H2]. unfold in_rng in H1.
  pose proof (Z.mod_pos_bound k (2 * n) ltac:(lia)) as B. pose proof (Z.div_mod k (2 * n) ltac:(lia)) as D.
  set (q := k / (2 * n)) in *. set (m := k mod (2 * n)) in *. set (x := reflect_idx n k) in *.
  assert (q = 0 \/ q = -1 \/ 1 <= q \/ q <= -2) as [Q0 | [Q0 | [Q0 | Q0] ] ] by lia.
  - rewrite Q0 in D. lia.
  - rewrite Q0 in D. lia.
  - assert (2 * n <= 2 * n * q) by (rewrite <- (Z.mul_1_r (2 * n)) at 1; apply Z.mul_le_mono_nonneg_l; lia). lia.
  - assert (2 * n * q <= 2 * n * (-2)) by (apply Z.mul_le_mono_nonneg_l; lia). lia.
Qed.
Lemma window_near n size j d : in_rng n j -> 0 <= d < size -> 2 * Z.abs (reflect_idx n (j - size / 2 + d) - j) <= size.
Proof.
  intros Hj Hd. pose proof (reflect_near n (j - size / 2 + d) j Hj) as H. pose proof (Z.div_mod size 2 ltac:(lia)). pose proof (Z.mod_pos_bound size 2 ltac:(lia)). lia.
Qed.
Lemma shows_det n k a b : 1 <= n -> shows n k a -> shows n k b -> a = b.
Proof. intros Hn [A1 A2] [B1 B2]. unfold in_rng in *. lia. Qed.
Lemma few_bad_reflect n size bad j : 1 <= n -> 1 <= size -> few_bad n size bad j ->
  (2 * length (filter (fun d => bad (reflect_idx n (j - size / 2 + d))) (zrange 0 size)) < length (zrange 0 size))%nat.
Proof.
  intros Hn Hs H. specialize (H (fun d => reflect_idx n (j - size / 2 + d)) (fun d _ => reflect_shows n _ Hn)). cbn beta in H. rewrite zrange_length. lia.
Qed.
Lemma median_rows_between size (m : img Q) bad i j a b : 1 <= size -> in_rng (ncol m) j -> few_bad (ncol m) size bad j ->
  (forall c, in_rng (ncol m) c -> bad c = false -> 2 * Z.abs (c - j) <= size -> (a <= px m i c <= b)%Q) ->
  (a <= px (median_along_rows size m) i j <= b)%Q.
Proof.
  intros Hs Hj Hf H. assert (Hn : 1 <= ncol m) by (unfold in_rng in Hj; lia). unfold median_along_rows. cbn [px].
  apply (median_between _ (fun d => bad (reflect_idx (ncol m) (j - size / 2 + d)))); [apply few_bad_reflect; assumption|].
  intros d Hd Hb. apply zrange_In in Hd. apply H; [apply (reflect_shows _ _ Hn)|exact Hb|apply window_near; [exact Hj|lia] ].
Qed.
Lemma median_rows_mono size (m : img Q) i i' j : 1 <= size -> 1 <= ncol m -> (forall c, in_rng (ncol m) c -> (px m i c <= px m i' c)%Q) ->
  (px (median_along_rows size m) i j <= px (median_along_rows size m) i' j)%Q.
Proof.
  intros Hs Hn H. unfold median_along_rows. cbn [px]. apply median_mono.
  - intros E. apply (f_equal (@length Z)) in E. rewrite zrange_length in E. cbn in E. lia.
  - intros d _. apply H, (reflect_shows _ _ Hn).
Qed.
