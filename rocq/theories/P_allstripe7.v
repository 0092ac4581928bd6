(** The windows of the sorting methods and the order of the three steps of remove_all_stripe. *)
From Verif Require Import Np P_Np M_utility S_utility P_utility M_io_load M_conversion P_conversion M_correction M_calculation M_removal S_removal P_removal P_removal2 P_removal3 P_argsort M_blob P_blob M_allstripe S_allstripe P_allstripe P_allstripe2 P_allstripe3 P_allstripe6.
From Coq Require Import QArith Lqa ZArith Lia Bool.
From Coq Require Import List. Import ListNotations.
Open Scope Z_scope.

Lemma flat_map_pairs {A B C} (F : A -> B -> C) l1 l2 : flat_map (fun e => map (fun d => F e d) l2) l1 = map (fun p => F (fst p) (snd p)) (list_prod l1 l2).
Proof.
  induction l1 as [|x t IH]; [reflexivity|]. cbn [flat_map list_prod]. rewrite map_app, IH, map_map. reflexivity.
Qed.
Lemma median_square_value h w size (f : Z -> Z -> Q) i j : 1 <= h -> 1 <= w -> 1 <= size ->
  square_median h w size f i j (median_value (flat_map (fun e => map (fun d => f (reflect_idx h (i - size / 2 + e)) (reflect_idx w (j - size / 2 + d))) (zrange 0 size)) (zrange 0 size))).
Proof.
  intros Hh Hw Hs r c Hr Hc places. rewrite (flat_map_pairs (fun e d => f (reflect_idx h (i - size / 2 + e)) (reflect_idx w (j - size / 2 + d)))). fold places.
  set (l := map _ places). assert (Lp : List.length places = (Z.to_nat size * Z.to_nat size)%nat) by (unfold places; rewrite prod_length, !zrange_length; reflexivity).
  assert (Hl : List.length l = (Z.to_nat size * Z.to_nat size)%nat) by (unfold l; rewrite map_length; exact Lp).
  assert (In2 : forall p, In p places -> 0 <= fst p < size /\ 0 <= snd p < size).
  { intros [a b] Hp. apply in_prod_iff in Hp. cbn [fst snd]. rewrite !zrange_In in Hp. lia. }
  assert (EV : forall p, In p places -> f (r (fst p)) (c (snd p)) = f (reflect_idx h (i - size / 2 + fst p)) (reflect_idx w (j - size / 2 + snd p))).
  { intros p Hp. destruct (In2 p Hp) as [P1 P2].
    rewrite (shows_det h (i - size / 2 + fst p) (r (fst p)) (reflect_idx h (i - size / 2 + fst p))) by (first [exact Hh|apply Hr; exact P1|apply reflect_shows; exact Hh]).
    rewrite (shows_det w (j - size / 2 + snd p) (c (snd p)) (reflect_idx w (j - size / 2 + snd p))) by (first [exact Hw|apply Hc; exact P2|apply reflect_shows; exact Hw]). reflexivity. }
  assert (Sq : (Z.of_nat (Z.to_nat size * Z.to_nat size) = size * size)%Z) by (rewrite Nat2Z.inj_mul, !Z2Nat.id by lia; reflexivity).
  set (N := (Z.to_nat size * Z.to_nat size)%nat) in *.
  assert (Hpos : 1 <= size * size) by (pose proof (Z.mul_le_mono_nonneg 1 size 1 size ltac:(lia) Hs ltac:(lia) Hs); lia).
  assert (H0 : (0 < List.length l)%nat) by lia. pose proof (Nat.div_mod N 2 ltac:(lia)) as D. pose proof (Nat.mod_upper_bound N 2 ltac:(lia)) as D2. split; [|split].
  - destruct (proj1 (in_map_iff _ _ _) (median_in l H0)) as (p & E & Hp). exists p. split; [exact Hp|]. rewrite (EV p Hp), E. reflexivity.
  - pose proof (median_below l H0) as B. set (m := median_value l) in *. rewrite Hl in B. unfold l in B. rewrite filter_map_length in B.
    rewrite (filter_ext_in _ (fun p => Qltb (f (reflect_idx h (i - size / 2 + fst p)) (reflect_idx w (j - size / 2 + snd p))) m)) by (intros p Hp; rewrite (EV p Hp); reflexivity). lia.
  - pose proof (median_above l H0) as B. set (m := median_value l) in *. rewrite Hl in B. unfold l in B. rewrite filter_map_length in B.
    rewrite (filter_ext_in _ (fun p => Qltb m (f (reflect_idx h (i - size / 2 + fst p)) (reflect_idx w (j - size / 2 + snd p))))) by (intros p Hp; rewrite (EV p Hp); reflexivity). lia.
Qed.
Lemma square_shape size : keeps_shape (median_square size). Proof. intros m. split; reflexivity. Qed.
Section sort.
Context (asort : argsort_fn) (Hs : forall v, is_argsort v (asort v)).
Lemma sorting_rows size (m : img Q) : 1 <= size ->
  let out := remove_stripe_based_sorting asort (median_along_rows size) m in
  nrow out = nrow m /\ ncol out = ncol m /\
  exists s rank, sorted_columns m s rank /\ forall j k, in_rng (ncol m) j -> in_rng (nrow m) k -> moving_median (ncol m) size (fun c => px s k c) j (px out (rank j k) j).
Proof.
  intros H1 out. destruct (sort_step asort Hs _ m (median_shape size)) as (A & B & s & rank & Hc & Hp). split; [exact A|]. split; [exact B|].
  exists s, rank. split; [exact Hc|]. intros j k Hj Hk. unfold out. rewrite (Hp j k Hj Hk). cbn [median_along_rows px]. pose proof Hc as (S1 & S2 & _). rewrite S2.
  apply (moving_median_value (ncol m) size (fun c => px s k c)); [unfold in_rng in Hj; lia|exact H1|]. intros; reflexivity.
Qed.
Lemma sorting_square size (m : img Q) : 1 <= size ->
  let out := remove_stripe_based_sorting asort (median_square size) m in
  nrow out = nrow m /\ ncol out = ncol m /\
  exists s rank, sorted_columns m s rank /\ forall j k, in_rng (ncol m) j -> in_rng (nrow m) k -> square_median (nrow m) (ncol m) size (px s) k j (px out (rank j k) j).
Proof.
  intros H1 out. destruct (sort_step asort Hs _ m (square_shape size)) as (A & B & s & rank & Hc & Hp). split; [exact A|]. split; [exact B|].
  exists s, rank. split; [exact Hc|]. intros j k Hj Hk. unfold out. rewrite (Hp j k Hj Hk). cbn [median_square px]. pose proof Hc as (S1 & S2 & _). rewrite S1, S2.
  apply median_square_value; unfold in_rng in *; lia.
Qed.
Lemma sorting_option (g : img Q -> img Q) (m : img Q) : (forall a, nrow (g a) = nrow a /\ ncol (g a) = ncol a) ->
  let out := remove_stripe_based_sorting asort g m in
  nrow out = nrow m /\ ncol out = ncol m /\
  exists s rank, sorted_columns m s rank /\ forall j k, in_rng (ncol m) j -> in_rng (nrow m) k -> px out (rank j k) j = px (g s) k j.
Proof. intros Hg. exact (sort_step asort Hs g m Hg). Qed.
End sort.
Lemma all_steps (asort : argsort_fn) (Hs : forall v, is_argsort v (asort v)) (sino out : img Q) snr la_size sm_size ratio dim options : 1 <= sm_size ->
  (forall g, options = Some g -> forall a, nrow (g a) = nrow a /\ ncol (g a) = ncol a) ->
  remove_all_stripe asort sino snr la_size sm_size ratio dim options = Ok out ->
  exists s1 s2, remove_dead_stripe_full asort sino snr la_size false 10 = Ok s1 /\
    remove_large_stripe asort (match options with Some g => g | None => median_along_rows la_size end) (fun v => detect_stripe asort v snr) s1 ratio true = Ok s2 /\
    nrow out = nrow s2 /\ ncol out = ncol s2 /\
    exists s rank, sorted_columns s2 s rank /\ forall j k, in_rng (ncol s2) j -> in_rng (nrow s2) k ->
      match options with
      | Some g => px out (rank j k) j = px (g s) k j
      | None => if dim =? 2 then square_median (nrow s2) (ncol s2) sm_size (px s) k j (px out (rank j k) j)
                else moving_median (ncol s2) sm_size (fun c => px s k c) j (px out (rank j k) j)
      end.
Proof.
  intros H1 Hg. unfold remove_all_stripe. cbv zeta. destruct (remove_dead_stripe_full asort sino snr la_size false 10) as [s1|]; [|discriminate]. cbn [bindr].
  destruct (remove_large_stripe _ _ _ s1 ratio true) as [s2|] eqn:E; [|discriminate]. cbn [bindr]. intros Q. apply Ok_inj in Q. subst out. exists s1, s2. split; [reflexivity|]. split.
  { rewrite <- E. destruct options; reflexivity. }
  destruct options as [g|].
  - destruct (sorting_option asort Hs g s2 (Hg g eq_refl)) as (A & B & C). split; [exact A|]. split; [exact B|]. exact C.
  - destruct (dim =? 2).
    + destruct (sorting_square asort Hs sm_size s2 H1) as (A & B & C). split; [exact A|]. split; [exact B|]. exact C.
    + destruct (sorting_rows asort Hs sm_size s2 H1) as (A & B & C). split; [exact A|]. split; [exact B|]. exact C.
Qed.
