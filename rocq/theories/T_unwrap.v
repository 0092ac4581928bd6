(** Theorems for C117: FFT-based phase unwrapping. *)
From Coq Require Import Reals ZArith Lia Lra Bool List.
From Verif Require Import Np M_phase_R P_phase_R M_unwrap S_fresnel S_unwrap P_unwrap3 P_unwrap4 P_unwrap5 P_unwrap6 P_unwrap7.
Open Scope Z_scope.

Lemma img_via (f g u v : img R) : img_eq f u -> img_eq g v -> img_eq u v -> img_eq f g.
Proof. intros (A & B & C) (D & E & F) (G & H & I). split; [congruence|]. split; [congruence|]. intros i j Hi Hj. rewrite C, F, I by congruence. reflexivity. Qed.
(** the results, as an image *)
Lemma plain_result (m : img R) f : 0 < nrow m -> 0 < ncol m -> unwrap_fft m None None = Ok f -> nrow f = nrow m /\ ncol f = ncol m /\ forall i j, in_rng (nrow m) i -> in_rng (ncol m) j -> px f i j = px (unw m) i j.
Proof. intros Hh Hw E. destruct (unw_is m Hh Hw) as (g & G & _ & R & C & V). assert (g = f) by congruence. subst g. cbn [unw nrow ncol] in R, C. rewrite R, C in *. split; [reflexivity|]. split; [reflexivity|exact V]. Qed.
Lemma iter_result (m : img R) n f : 0 < nrow m -> 0 < ncol m -> unwrap_iterative m n None None None = Ok f -> nrow f = nrow m /\ ncol f = ncol m /\ forall i j, in_rng (nrow m) i -> in_rng (ncol m) j -> px f i j = px (iterate (Z.to_nat n) m (unw m)) i j.
Proof.
  intros Hh Hw E. destruct (iterative_is m n Hh Hw) as (g & G & R & C & V). assert (g = f) by congruence. subst g. destruct (iterate_size (Z.to_nat n) m (unw m)) as [SR SC]. cbn [unw nrow ncol] in SR, SC. rewrite SR in R. rewrite SC in C. rewrite R, C in *.
  split; [reflexivity|]. split; [reflexivity|exact V].
Qed.
Lemma to_eq (f m u : img R) : nrow f = nrow m -> ncol f = ncol m -> nrow u = nrow m -> ncol u = ncol m -> (forall i j, in_rng (nrow m) i -> in_rng (ncol m) j -> px f i j = px u i j) -> img_eq f u.
Proof. intros A B C D E. split; [congruence|]. split; [congruence|]. rewrite A, B. exact E. Qed.

(** Every non-empty image is unwrapped, to an image of the same size and mean zero; so does any number of iterations, with or without a weight map *)
Theorem unwrapping_keeps_the_size_and_removes_the_mean (m : img R) (n : Z) (weight : option (img R)) : 0 < nrow m -> 0 < ncol m ->
  (exists f, unwrap_fft m None None = Ok f /\ nrow f = nrow m /\ ncol f = ncol m /\ average f = 0%R) /\
  (exists f, unwrap_iterative m n None None weight = Ok f /\ nrow f = nrow m /\ ncol f = ncol m /\ average f = 0%R).
Proof.
  intros Hh Hw. split.
  - destruct (unw_is m Hh Hw) as (f & E & _). destruct (plain_result m f Hh Hw E) as (R & C & V). exists f. split; [exact E|]. split; [exact R|]. split; [exact C|]. apply average_zero.
    rewrite <- (unw_mean m Hh Hw). rewrite R, C. apply rsum_ext. intros i Hi. apply rsum_ext. intros j Hj. apply V; assumption.
  - destruct weight as [wt|].
    + destruct (weighted_is m wt n Hh Hw) as (f & E & R & C & S). exists f. split; [exact E|]. split; [exact R|]. split; [exact C|]. apply average_zero. rewrite R, C. exact S.
    + destruct (iterative_is m n Hh Hw) as (f & E & _). destruct (iter_result m n f Hh Hw E) as (R & C & V). exists f. split; [exact E|]. split; [exact R|]. split; [exact C|]. apply average_zero.
      rewrite <- (iterated_mean (Z.to_nat n) m Hh Hw). rewrite R, C. apply rsum_ext. intros i Hi. apply rsum_ext. intros j Hj. apply V; assumption.
Qed.
Print Assumptions unwrapping_keeps_the_size_and_removes_the_mean.
Example unwrapping_size_case : exists f, unwrap_fft (mkimg 2 3 (fun i j => IZR (i * j))) None None = Ok f /\ nrow f = 2 /\ ncol f = 3 /\ average f = 0%R.
Proof. exact (proj1 (unwrapping_keeps_the_size_and_removes_the_mean (mkimg 2 3 (fun i j => IZR (i * j))) 0 None eq_refl eq_refl)). Qed.

(** Whole turns at any pixels, and one constant, added to the phase do not change the result (no weight map) *)
Theorem unwrapping_ignores_whole_turns_and_a_constant (m m' : img R) (c : R) (n : Z) f f' g g' : 0 < nrow m -> 0 < ncol m -> congruent c m m' ->
  unwrap_fft m None None = Ok f -> unwrap_fft m' None None = Ok f' -> unwrap_iterative m n None None None = Ok g -> unwrap_iterative m' n None None None = Ok g' ->
  img_eq f' f /\ img_eq g' g.
Proof.
  intros Hh Hw K F F' G G'. assert (R' := proj1 K). assert (C' := proj1 (proj2 K)). split.
  - destruct (unw_is m Hh Hw) as (x & E & _ & X). destruct (unw_is m') as (x' & E' & _ & X'); try congruence. assert (x = f) by congruence. assert (x' = f') by congruence. subst x x'.
    apply (img_via _ _ (unw m') (unw m)); try assumption. apply (unw_congruent c); assumption.
  - destruct (iterative_is m n Hh Hw) as (x & E & X). destruct (iterative_is m' n) as (x' & E' & X'); try congruence. assert (x = g) by congruence. assert (x' = g') by congruence. subst x x'.
    apply (img_via _ _ _ _ X' X). apply (iterated_congruent _ c); assumption.
Qed.
Print Assumptions unwrapping_ignores_whole_turns_and_a_constant.
Example whole_turns_case : congruent 1 (mkimg 1 2 (fun _ j => IZR j)) (mkimg 1 2 (fun _ j => IZR j + 1 + 2 * PI * IZR (3 * j))%R).
Proof. split; [reflexivity|]. split; [reflexivity|]. intros i j _ _. exists (3 * j). cbn [px]. ring. Qed.

(** The same with a weight map: not true, the map multiplies the phase itself *)
Theorem weighted_unwrapping_ignores_whole_turns_refuted : ~ (forall (m m' weight : img R) f f', 0 < nrow m -> 0 < ncol m -> nrow weight = nrow m -> ncol weight = ncol m ->
  congruent 0 m m' -> unwrap_iterative m 0 None None (Some weight) = Ok f -> unwrap_iterative m' 0 None None (Some weight) = Ok f' -> img_eq f' f).
Proof.
  intros H. set (wt := mkimg 1 2 (fun _ j => if j =? 1 then / 4 else 1)%R). set (m := mkimg 1 2 (fun _ _ => 0%R)). set (m' := mkimg 1 2 (fun _ j => if j =? 1 then 2 * PI else 0)%R).
  assert (X : forall p : img R, nrow p = 1 -> ncol p = 2 -> exists f, unwrap_iterative p 0 None None (Some wt) = Ok f /\ img_eq f (unw (map2 Rmult p wt))).
  { intros p PR PC. unfold unwrap_iterative. destruct (unw_is (map2 Rmult p wt)) as (f & _ & E & Q); try (cbn [map2 nrow ncol]; rewrite ?PR, ?PC; lia). cbn [map2 nrow ncol] in E. exists f. split; [|exact Q]. rewrite E. reflexivity. }
  destruct (X m eq_refl eq_refl) as (f & F & FR0 & FC0 & FV). destruct (X m' eq_refl eq_refl) as (f' & F' & FR & FC & FV').
  destruct (H m m' wt f f') as (_ & _ & E); try assumption; try (cbn; lia).
  { split; [reflexivity|]. split; [reflexivity|]. intros i j _ _. cbn [m m' px]. destruct (j =? 1); [exists 1|exists 0]; ring. }
  cbn [unw map2 m m' nrow ncol] in FR, FC, FR0, FC0. rewrite FR, FC in *. rewrite FR0, FC0 in *.
  assert (I0 : in_rng 1 0) by (unfold in_rng; lia). assert (I1 : in_rng 2 1) by (unfold in_rng; lia). assert (I2 : in_rng 2 0) by (unfold in_rng; lia).
  assert (E1 := E 0 1 I0 I1). assert (E0 := E 0 0 I0 I2). rewrite FV, FV' in E1, E0 by assumption.
  assert (W : forall x (q : img R), nrow q = 1 -> ncol q = 2 -> (forall i j, px q i j = 0 + x * bit (j =? 1))%R -> (px (unw q) 0 1 - px (unw q) 0 0 = sin x)%R).
  { intros x q QR QC V. rewrite !(unw_two q (fun _ j => j =? 1) x 0); rewrite ?QR, ?QC; try assumption; try lia; try (intros; apply V). cbn [Z.eqb bit]. unfold bit. cbn. ring. }
  assert (A := W 0%R (map2 Rmult m wt) eq_refl eq_refl). assert (B := W (PI / 2)%R (map2 Rmult m' wt) eq_refl eq_refl).
  rewrite E1, E0 in B. rewrite A in B.
  - rewrite sin_0, sin_PI2 in B. assert (0 = 1)%R; [|lra]. apply B. intros i j. cbn [map2 m' wt px]. destruct (j =? 1); unfold bit; lra.
  - intros i j. cbn [map2 m wt px]. destruct (j =? 1); unfold bit; lra.
Qed.
Print Assumptions weighted_unwrapping_ignores_whole_turns_refuted.

(** The opposite phase gives the opposite result; a mirrored, upside-down or transposed image gives the mirrored, upside-down or transposed result *)
Theorem unwrapping_treats_sides_and_signs_alike (m m' : img R) (n : Z) f f' g g' : 0 < nrow m -> 0 < ncol m ->
  unwrap_fft m None None = Ok f -> unwrap_fft m' None None = Ok f' -> unwrap_iterative m n None None None = Ok g -> unwrap_iterative m' n None None None = Ok g' ->
  (negated m m' -> negated f f' /\ negated g g') /\ (mirrored m m' -> mirrored f f' /\ mirrored g g') /\
  (upside_down m m' -> upside_down f f' /\ upside_down g g') /\ (transposed m m' -> transposed f f' /\ transposed g g').
Proof.
  intros Hh Hw F F' G G'. destruct (plain_result m f Hh Hw F) as (FR & FC & FV). destruct (iter_result m n g Hh Hw G) as (GR & GC & GV).
  destruct (iterate_size (Z.to_nat n) m (unw m)) as [SR SC]. destruct (iterate_size (Z.to_nat n) m' (unw m')) as [SR' SC']. cbn [unw nrow ncol] in SR, SC, SR', SC'.
  split; [|split; [|split] ].
  - intros T. assert (R := proj1 T). assert (C := proj1 (proj2 T)). destruct (plain_result m' f') as (FR' & FC' & FV'); try congruence. destruct (iter_result m' n g') as (GR' & GC' & GV'); try congruence.
    split.
    + destruct (unw_negated m m' Hh Hw T) as (_ & _ & V). split; [congruence|]. split; [congruence|]. rewrite FR, FC. intros i j Hi Hj. rewrite FV', FV by congruence. apply V; assumption.
    + destruct (iterated_negated (Z.to_nat n) m m' Hh Hw T) as (_ & _ & V). rewrite SR, SC in V. split; [congruence|]. split; [congruence|]. rewrite GR, GC. intros i j Hi Hj. rewrite GV', GV by congruence. apply V; assumption.
  - intros T. assert (R := proj1 T). assert (C := proj1 (proj2 T)). destruct (plain_result m' f') as (FR' & FC' & FV'); try congruence. destruct (iter_result m' n g') as (GR' & GC' & GV'); try congruence.
    split.
    + destruct (unw_mirrored m m' Hh Hw T) as (_ & _ & V). cbn [unw nrow ncol] in V. split; [congruence|]. split; [congruence|]. rewrite FR', FC', R, C, FC in *. intros i j Hi Hj. rewrite FV', FV by (unfold in_rng in *; lia). apply V; assumption.
    + destruct (iterated_mirrored (Z.to_nat n) m m' Hh Hw T) as (_ & _ & V). rewrite SR', SC', SC in V. split; [congruence|]. split; [congruence|]. rewrite GR', GC', R, C, GC in *. intros i j Hi Hj. rewrite GV', GV by (unfold in_rng in *; lia). apply V; assumption.
  - intros T. assert (R := proj1 T). assert (C := proj1 (proj2 T)). destruct (plain_result m' f') as (FR' & FC' & FV'); try congruence. destruct (iter_result m' n g') as (GR' & GC' & GV'); try congruence.
    split.
    + destruct (unw_upside m m' Hh Hw T) as (_ & _ & V). cbn [unw nrow ncol] in V. split; [congruence|]. split; [congruence|]. rewrite FR', FC', R, C, FR in *. intros i j Hi Hj. rewrite FV', FV by (unfold in_rng in *; lia). apply V; assumption.
    + destruct (iterated_upside (Z.to_nat n) m m' Hh Hw T) as (_ & _ & V). rewrite SR', SC', SR in V. split; [congruence|]. split; [congruence|]. rewrite GR', GC', R, C, GR in *. intros i j Hi Hj. rewrite GV', GV by (unfold in_rng in *; lia). apply V; assumption.
  - intros T. assert (R := proj1 T). assert (C := proj1 (proj2 T)). destruct (plain_result m' f') as (FR' & FC' & FV'); try congruence. destruct (iter_result m' n g') as (GR' & GC' & GV'); try congruence.
    split.
    + destruct (unw_transposed m m' Hh Hw T) as (_ & _ & V). cbn [unw nrow ncol] in V. split; [congruence|]. split; [congruence|]. rewrite FR', FC', R, C in *. intros i j Hi Hj. rewrite FV', FV by assumption. apply V; assumption.
    + destruct (iterated_transposed (Z.to_nat n) m m' Hh Hw T) as (_ & _ & V). rewrite SR', SC' in V. split; [congruence|]. split; [congruence|]. rewrite GR', GC', R, C in *. intros i j Hi Hj. rewrite GV', GV by assumption. apply V; assumption.
Qed.
Print Assumptions unwrapping_treats_sides_and_signs_alike.
Example sides_case : mirrored (mkimg 1 2 (fun _ j => IZR j)) (mkimg 1 2 (fun _ j => IZR (1 - j))) /\ transposed (mkimg 1 2 (fun _ j => IZR j)) (mkimg 2 1 (fun i _ => IZR i)).
Proof. split; (split; [reflexivity|]); (split; [reflexivity|]); intros i j _ _; cbn [px ncol]; f_equal; lia. Qed.

(** The step between two phase values t and t + x comes back as a step of sin x, whatever the shape of the region; the iteration adds the sine of what is missing *)
Theorem unwrapping_of_two_phase_values (m : img R) M t x (n : Z) f g : 0 < nrow m -> 0 < ncol m -> two_level t x M m ->
  unwrap_fft m None None = Ok f -> unwrap_iterative m n None None None = Ok g ->
  forall i j, in_rng (nrow m) i -> in_rng (ncol m) j ->
    (x * px f i j = sin x * (px m i j - average m))%R /\ (x * px g i j = step_after (Z.to_nat n) x * (px m i j - average m))%R.
Proof.
  intros Hh Hw V F G i j Hi Hj. destruct (plain_result m f Hh Hw F) as (_ & _ & FV). destruct (iter_result m n g Hh Hw G) as (_ & _ & GV). rewrite FV, GV by assumption. split.
  - apply (result_two m M x t 0 Hh Hw V); assumption.
  - apply (result_two m M x t (Z.to_nat n) Hh Hw V); assumption.
Qed.
Print Assumptions unwrapping_of_two_phase_values.
Example two_values_case : two_level 0 (PI / 2) (fun _ j => j =? 1) (mkimg 3 2 (fun _ j => if j =? 1 then PI / 2 else 0)%R).
Proof. intros i j _ _. cbn [px]. destruct (j =? 1); lra. Qed.

(** A phase whose neighbours differ by less than half a turn comes back up to its mean: not true, a step of a quarter turn comes back as 1 *)
Theorem unwrapping_recovers_a_smooth_phase_refuted : ~ (forall (m f : img R), 0 < nrow m -> 0 < ncol m ->
  (forall i j i' j', in_rng (nrow m) i -> in_rng (ncol m) j -> in_rng (nrow m) i' -> in_rng (ncol m) j' -> (Rabs (px m i j - px m i' j') < PI)%R) ->
  unwrap_fft m None None = Ok f -> img_eq f (centred m)).
Proof.
  intros H. set (m := mkimg 1 2 (fun _ j => if j =? 1 then PI / 2 else 0)%R). assert (Hh : 0 < nrow m) by (cbn; lia). assert (Hw : 0 < ncol m) by (cbn; lia).
  destruct (unw_is m Hh Hw) as (f & F & _). destruct (plain_result m f Hh Hw F) as (FR & FC & FV).
  destruct (H m f Hh Hw) as (_ & _ & E); [|exact F|].
  - intros i j i' j' _ _ _ _. cbn [m px]. assert (P := PI_RGT_0). apply Rabs_def1; destruct (j =? 1), (j' =? 1); lra.
  - rewrite FR, FC in E. assert (I0 : in_rng 1 0) by (unfold in_rng; lia). assert (I1 : in_rng 2 1) by (unfold in_rng; lia). assert (I2 : in_rng 2 0) by (unfold in_rng; lia).
    assert (E1 := E 0 1 I0 I1). assert (E0 := E 0 0 I0 I2). rewrite FV in E1, E0 by assumption. cbn [centred px] in E1, E0.
    assert (V : forall i j, in_rng (nrow m) i -> in_rng (ncol m) j -> px m i j = (0 + PI / 2 * bit (j =? 1))%R) by (intros i j _ _; cbn [m px]; destruct (j =? 1); unfold bit; lra).
    rewrite (unw_two m (fun _ j => j =? 1) (PI / 2) 0 Hh Hw V) in E1, E0 by assumption. rewrite sin_PI2 in *. cbn [m px] in E1, E0. rewrite Z.eqb_refl in E1. change (0 =? 1) with false in E0. unfold bit in E1, E0.
    assert (PI / 2 = 1)%R by lra. assert (B := PI2_1). lra.
Qed.
Print Assumptions unwrapping_recovers_a_smooth_phase_refuted.

(** What does hold: a weak phase comes back without its mean up to an error of third order, with one factor for each image size *)
Theorem unwrapping_recovers_a_weak_phase_partial (height width : Z) : 0 < height -> 0 < width -> exists C : R, forall (m f : img R) (e : R), nrow m = height -> ncol m = width -> (e <= 1)%R ->
  (forall i j, in_rng (nrow m) i -> in_rng (ncol m) j -> (Rabs (px m i j) <= e)%R) -> unwrap_fft m None None = Ok f -> within (C * e ^ 3) (centred m) f.
Proof.
  intros Hh Hw. exists (weak_bound height width). intros m f e <- <- E1 B F. destruct (plain_result m f Hh Hw F) as (FR & FC & FV). split; [exact FR|]. split; [exact FC|]. cbn [centred nrow ncol px].
  intros i j Hi Hj. rewrite FV by assumption. apply unw_weak; assumption.
Qed.
Print Assumptions unwrapping_recovers_a_weak_phase_partial.
Example weak_case : exists f, unwrap_fft (mkimg 2 2 (fun i j => IZR (i * j) / 10)%R) None None = Ok f.
Proof. destruct (unw_is (mkimg 2 2 (fun i j => IZR (i * j) / 10)%R)) as (f & F & _); try (cbn; lia). exists f. exact F. Qed.

(** The iteration: no iterations is the plain unwrapping; each adds the unwrapping of what is still missing; a result that is the input up to a constant and whole turns is kept *)
Theorem iteration_unwraps_what_is_missing (m : img R) (n : Z) g : 0 < nrow m -> 0 < ncol m -> unwrap_iterative m n None None None = Ok g ->
  (n <= 0 -> forall f, unwrap_fft m None None = Ok f -> img_eq g f) /\
  (0 <= n -> forall g' d, unwrap_iterative m (n + 1) None None None = Ok g' -> unwrap_fft (mkimg (nrow m) (ncol m) (fun i j => px m i j - px g i j)%R) None None = Ok d ->
    combination 1 1 g d g' /\ (forall c, congruent c m g -> img_eq g' g)).
Proof.
  intros Hh Hw G. destruct (iter_result m n g Hh Hw G) as (GR & GC & GV). destruct (iterate_size (Z.to_nat n) m (unw m)) as [SR SC]. cbn [unw nrow ncol] in SR, SC. split.
  - intros N f F. destruct (plain_result m f Hh Hw F) as (FR & FC & FV). split; [congruence|]. split; [congruence|]. rewrite GR, GC. intros i j Hi Hj. rewrite GV, FV by assumption. replace (Z.to_nat n) with O by lia. reflexivity.
  - intros N g' d G' D. destruct (iter_result m (n + 1) g' Hh Hw G') as (GR' & GC' & GV'). destruct (plain_result (mkimg (nrow m) (ncol m) (fun i j => px m i j - px g i j)%R) d Hh Hw D) as (DR & DC & DV). cbn [nrow ncol] in DR, DC, DV.
    replace (Z.to_nat (n + 1)) with (S (Z.to_nat n)) in GV' by lia. rewrite iterate_S in GV'. cbn [map2 px] in GV'. set (u := iterate (Z.to_nat n) m (unw m)) in *.
    assert (Q : forall i j, in_rng (nrow m) i -> in_rng (ncol m) j -> px d i j = px (unw (map2 Rminus m u)) i j).
    { intros i j Hi Hj. rewrite DV by assumption. destruct (unw_same (map2 Rminus m u) (mkimg (nrow m) (ncol m) (fun i j => px m i j - px g i j)%R) Hh Hw) as (_ & _ & K); [|apply K; assumption].
      split; [reflexivity|]. split; [reflexivity|]. cbn [map2 nrow ncol px]. intros a b Ha Hb. rewrite GV by assumption. reflexivity. }
    split.
    + split; [congruence|]. split; [congruence|]. split; [congruence|]. split; [congruence|]. rewrite GR', GC'. intros i j Hi Hj. rewrite GV', GV, Q by assumption. ring.
    + intros c (_ & _ & K). assert (K' : congruent c m u). { split; [exact SR|]. split; [exact SC|]. intros i j Hi Hj. destruct (K i j Hi Hj) as (k & E). exists k. rewrite <- GV by assumption. exact E. }
      destruct (iterate_fixed c m u Hh Hw SR SC K') as (_ & _ & X). cbn [map2 nrow ncol px] in X. rewrite SR, SC in X. split; [congruence|]. split; [congruence|]. rewrite GR', GC'. intros i j Hi Hj. rewrite GV', GV by assumption. apply X; assumption.
Qed.
Print Assumptions iteration_unwraps_what_is_missing.
Example iteration_case : exists g, unwrap_iterative (mkimg 2 2 (fun i j => IZR (i * j))) 4 None None None = Ok g.
Proof. destruct (iterative_is (mkimg 2 2 (fun i j => IZR (i * j))) 4) as (f & F & _); try (cbn; lia). exists f. exact F. Qed.

(** Iterated often enough, the result is the input up to a constant and whole turns: not true, a step of half a turn stays unseen for ever *)
Theorem iterated_unwrapping_approaches_the_phase_refuted : ~ (forall (m : img R), 0 < nrow m -> 0 < ncol m -> exists n, 0 <= n /\ forall f, unwrap_iterative m n None None None = Ok f ->
  exists p c, congruent c m p /\ within 1 p f).
Proof.
  intros H. set (m := mkimg 1 2 (fun _ j => if j =? 1 then PI else 0)%R). assert (Hh : 0 < nrow m) by (cbn; lia). assert (Hw : 0 < ncol m) by (cbn; lia).
  destruct (H m Hh Hw) as (n & N & K). destruct (iterative_is m n Hh Hw) as (f & F & _). destruct (K f F) as (p & c & (PR & PC & P) & _ & _ & W). destruct (iter_result m n f Hh Hw F) as (_ & _ & V).
  rewrite PR, PC in W. assert (I0 : in_rng 1 0) by (unfold in_rng; lia). assert (I1 : in_rng 2 1) by (unfold in_rng; lia). assert (I2 : in_rng 2 0) by (unfold in_rng; lia).
  assert (S : forall k, step_after k PI = 0%R). { induction k; cbn [step_after]; [apply sin_PI|]. rewrite IHk, Rminus_0_r, sin_PI. ring. }
  assert (T : two_level 0 PI (fun _ j => j =? 1) m) by (intros i j _ _; cbn [m px]; destruct (j =? 1); lra).
  assert (W1 := W 0 1 I0 I1). assert (W0 := W 0 0 I0 I2). rewrite V in W1, W0 by assumption.
  rewrite (iterated_two (Z.to_nat n) m (fun _ j => j =? 1) PI 0 Hh Hw T) in W1, W0 by assumption. rewrite S, Rmult_0_l in W1, W0.
  destruct (P 0 1 I0 I1) as (k1 & E1). destruct (P 0 0 I0 I2) as (k0 & E0). cbn [m px] in E1, E0. rewrite Z.eqb_refl in E1. change (0 =? 1) with false in E0. cbn iota in E0.
  assert (A1 := Rle_trans _ _ _ (Rle_abs _) W1). assert (A0 := Rle_trans _ _ _ (Rle_abs _) W0). rewrite <- Rabs_Ropp in W1, W0. assert (B1 := Rle_trans _ _ _ (Rle_abs _) W1). assert (B0 := Rle_trans _ _ _ (Rle_abs _) W0).
  assert (D : (-2 <= PI * IZR (1 + 2 * (k1 - k0)) <= 2)%R) by (rewrite plus_IZR, mult_IZR, minus_IZR; lra).
  assert (P2 := PI2_1). assert (PP : (2 < PI)%R) by lra. destruct (Z_le_gt_dec 0 (k1 - k0)) as [L|L].
  - assert (X : (1 <= IZR (1 + 2 * (k1 - k0)))%R) by (apply (IZR_le 1); lia). assert (PI * 1 <= PI * IZR (1 + 2 * (k1 - k0)))%R by (apply Rmult_le_compat_l; lra). lra.
  - assert (X : (IZR (1 + 2 * (k1 - k0)) <= -1)%R) by (apply (IZR_le _ (-1)); lia). assert (PI * IZR (1 + 2 * (k1 - k0)) <= PI * -1)%R by (apply Rmult_le_compat_l; lra). lra.
Qed.
Print Assumptions iterated_unwrapping_approaches_the_phase_refuted.

(** What does hold: for phases close enough to their mean (a bound for each image size) the error halves in each round; and two values less than half a turn apart are recovered in the limit *)
Theorem iterated_unwrapping_recovers_weak_phases_partial (height width : Z) : 0 < height -> 0 < width -> exists e : R, (0 < e)%R /\ forall (m f : img R) (n : Z), nrow m = height -> ncol m = width -> 0 <= n ->
  within e m (mkimg height width (fun _ _ => average m)) -> unwrap_iterative m n None None None = Ok f -> within (e / 2 ^ (Z.to_nat n + 1)) (centred m) f.
Proof.
  intros Hh Hw. assert (B := weak_bound height width). set (W := weak_bound height width).
  assert (W0 : (0 <= W)%R). { unfold W, weak_bound. apply Rmult_le_pos; [apply mass_nonneg|]. apply Rmult_le_pos; [apply mass_nonneg|lra]. }
  exists (/ (2 * (W + 1)))%R. assert (E0 : (0 < / (2 * (W + 1)))%R) by (apply Rinv_0_lt_compat; lra).
  assert (E1 : (/ (2 * (W + 1)) * (2 * (W + 1)) = 1)%R) by (apply Rinv_l; lra). set (e := (/ (2 * (W + 1)))%R) in *. split; [exact E0|].
  assert (EL : (e <= / 2)%R) by nra. assert (EW : (W * e ^ 2 <= / 2)%R) by (simpl; nra).
  intros m f n <- <- N (_ & _ & V) F. destruct (iter_result m n f Hh Hw F) as (FR & FC & FV). split; [exact FR|]. split; [exact FC|]. cbn [centred nrow ncol px]. intros i j Hi Hj. rewrite FV by assumption.
  replace (e / 2 ^ (Z.to_nat n + 1))%R with (e * (/ 2) ^ S (Z.to_nat n))%R by (rewrite pow_inv by lra; rewrite Nat.add_1_r; reflexivity). apply iterated_weak; try assumption; try lra.
  intros a b Ha Hb. rewrite Rabs_minus_sym. apply (V a b Ha Hb).
Qed.
Print Assumptions iterated_unwrapping_recovers_weak_phases_partial.
Example weak_iterated_case : exists (e : R) (m : img R), (0 < e)%R /\ within e m (mkimg 1 2 (fun _ _ => average m)) /\ px m 0 0 <> px m 0 1.
Proof.
  exists 1%R, (mkimg 1 2 (fun _ j => IZR j)). split; [lra|]. split; [|cbn [px]; lra]. split; [reflexivity|]. split; [reflexivity|]. intros i j Hi Hj. cbn [px nrow ncol] in *.
  assert (A : average (mkimg 1 2 (fun _ j => IZR j)) = (/ 2)%R) by (unfold average, rsum; cbn [nrow ncol px]; change (Z.to_nat 1) with 1%nat; change (Z.to_nat 2) with 2%nat; cbn [rsumn]; change (Z.of_nat 0) with 0; change (Z.of_nat 1) with 1; lra). rewrite A. assert (j = 0 \/ j = 1) as [-> | ->] by (unfold in_rng in *; lia); apply Rabs_le; lra.
Qed.
Theorem iterated_unwrapping_recovers_two_phase_values_partial (m : img R) M t x : 0 < nrow m -> 0 < ncol m -> (Rabs x < PI)%R -> two_level t x M m ->
  forall e, (0 < e)%R -> exists N, forall n f, N <= n -> unwrap_iterative m n None None None = Ok f -> within e (centred m) f.
Proof.
  intros Hh Hw X V e E. destruct (step_limit x X (e / 2)%R) as (N & L); [lra|]. exists (Z.of_nat N). intros n f Hn F. destruct (iter_result m n f Hh Hw F) as (FR & FC & FV). split; [exact FR|]. split; [exact FC|]. cbn [centred nrow ncol px].
  intros i j Hi Hj. rewrite FV by assumption. rewrite (iterated_two (Z.to_nat n) m M x t Hh Hw V i j Hi Hj), (bits_mean m M t x Hh Hw V), V, bit_if by assumption.
  set (b := mean_of (bits (nrow m) (ncol m) M)). replace (step_after (Z.to_nat n) x * (bit (M i j) - b) - (t + x * bit (M i j) - (t + x * b)))%R with ((step_after (Z.to_nat n) x - x) * (bit (M i j) - b))%R by ring.
  assert (L' := L (Z.to_nat n) ltac:(lia)). unfold R_dist in L'. rewrite Rabs_mult. apply Rle_trans with (e / 2 * 2)%R; [|lra].
  apply Rmult_le_compat; try apply Rabs_pos; [lra|].
  assert (B : (0 <= b <= 1)%R).
  { unfold b, mean_of, bits. cbn [nrow ncol px]. assert (0 < IZR (nrow m))%R by (apply (IZR_lt 0); assumption). assert (0 < IZR (ncol m))%R by (apply (IZR_lt 0); assumption).
    assert (P : (0 < IZR (nrow m) * IZR (ncol m))%R) by (apply Rmult_lt_0_compat; assumption).
    assert (LO : (0 <= rsum (nrow m) (fun i => rsum (ncol m) (fun j => bit (M i j))))%R) by (apply P_calib3.rsum_nonneg; intros; apply P_calib3.rsum_nonneg; intros; unfold bit; destruct (M _ _); lra).
    assert (HI : (rsum (nrow m) (fun i => rsum (ncol m) (fun j => bit (M i j))) <= IZR (nrow m) * IZR (ncol m))%R).
    { rewrite <- (Rmult_1_r (IZR (ncol m))). rewrite <- rsum_const by lia. apply rsum_le. intros a _. rewrite <- rsum_const by lia. apply rsum_le. intros; unfold bit; destruct (M _ _); lra. }
    split; [apply Rmult_le_pos; [exact LO|left; apply Rinv_0_lt_compat; exact P]|]. apply Rmult_le_reg_r with (IZR (nrow m) * IZR (ncol m))%R; [exact P|]. unfold Rdiv. rewrite Rmult_assoc, Rinv_l by lra. lra. }
  unfold bit. apply Rabs_le. destruct (M i j); lra.
Qed.
Print Assumptions iterated_unwrapping_recovers_two_phase_values_partial.
Example two_values_limit_case : two_level 0 3 (fun i j => i =? j) (mkimg 3 3 (fun i j => if i =? j then 3 else 0)%R) /\ (Rabs 3 < PI)%R.
Proof. split; [intros i j _ _; cbn [px]; destruct (i =? j); lra|]. assert (P := PI_ineq 0). rewrite Rabs_right by lra. assert (Q := PI2_3_2). lra. Qed.

(** Windows given by the user: the ones of the right size are used, others are rejected *)
Theorem unwrapping_windows (m : img R) (n : Z) (weight : option (img R)) f : 0 < nrow m -> 0 < ncol m -> unwrap_fft m None None = Ok f ->
  unwrap_fft m (Some (make_window (2 * nrow m) (2 * ncol m) true)) (Some (make_window (2 * nrow m) (2 * ncol m) false)) = Ok f /\
  (forall w o, (nrow w <> 2 * nrow m \/ ncol w <> 2 * ncol m) -> unwrap_fft m (Some w) o = Err ValueError /\ unwrap_iterative m n (Some w) o weight = Err ValueError) /\
  (forall w, (nrow w <> 2 * nrow m \/ ncol w <> 2 * ncol m) -> unwrap_fft m None (Some w) = Err ValueError /\ unwrap_iterative m n None (Some w) weight = Err ValueError).
Proof.
  intros Hh Hw F. split; [destruct (unw_is m Hh Hw) as (g & G & G' & _); congruence|].
  assert (B : forall w : img R, nrow w <> 2 * nrow m \/ ncol w <> 2 * ncol m -> (nrow w =? 2 * nrow m) && (ncol w =? 2 * ncol m) = false).
  { intros w D. destruct (Z.eqb_spec (nrow w) (2 * nrow m)), (Z.eqb_spec (ncol w) (2 * ncol m)); cbn; lia. }
  split; [intros w o D|intros w D]; specialize (B w D); unfold unwrap_iterative, unwrap_fft, check_window; cbn [map2 M_surface.double_image_R nrow ncol make_window bindr]; rewrite ?Z.eqb_refl; cbn [andb negb]; rewrite B; cbn [negb bindr]; split; reflexivity.
Qed.
Print Assumptions unwrapping_windows.
