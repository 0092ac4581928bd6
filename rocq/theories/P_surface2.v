(** Proofs for C115: the periodic least-squares problem and its solution. *)
From Coq Require Import Reals ZArith Lia Lra Bool List.
From Verif Require P_calib3.
From Verif Require Import Np P_Np M_phase_R P_phase_R P_simR M_calib P_calib8 M_fourier P_fourier P_fresnel M_surface S_surface P_surface.
Open Scope Z_scope.

Definition periodic (n : Z) (f : Z -> R) : Prop := forall k, f (k mod n) = f k.
Lemma by_parts n (e d : Z -> R) : 0 < n -> periodic n e -> periodic n d ->
  rsum n (fun j => e j * (d (j + 1)%Z - d j))%R = rsum n (fun j => (e (j - 1)%Z - e j) * d j)%R.
Proof.
  intros Hn Pe Pd. rewrite (rsum_ext n _ (fun j => e j * d (j + 1)%Z - e j * d j)%R) by (intros; ring).
  rewrite (rsum_ext n (fun j => (e (j - 1)%Z - e j) * d j)%R (fun j => e (j - 1)%Z * d j - e j * d j)%R) by (intros; ring).
  rewrite !rsum_sub. f_equal. rewrite <- (rsum_cyclic n 1 (fun j => e (j - 1)%Z * d j)%R) by assumption. apply rsum_ext. intros j _.
  rewrite Pd. rewrite <- (Pe ((j + 1) mod n - 1)). rewrite Zminus_mod_idemp_l. rewrite Pe. f_equal. f_equal. lia.
Qed.
Lemma rsum_nn n f : (forall k, 0 <= k < n -> (0 <= f k)%R) -> (0 <= rsum n f)%R.
Proof. apply P_calib3.rsum_nonneg. Qed.

Section Energy.
Variables (h w : Z) (f gx gy : Z -> Z -> R).
Hypothesis Hh : 0 < h. Hypothesis Hw : 0 < w.
Definition per2 (m : Z -> Z -> R) : Prop := (forall i, periodic w (m i)) /\ (forall j, periodic h (fun i => m i j)).
Hypothesis Pf : per2 f. Hypothesis Pgx : per2 gx. Hypothesis Pgy : per2 gy.
Hypothesis Poi : forall a b, (4 * f a b - f a (b + 1)%Z - f a (b - 1)%Z - f (a + 1)%Z b - f (a - 1)%Z b =
   (gx a (b - 1)%Z - gx a (b + 1)%Z) / 2 + (gy (a - 1)%Z b - gy (a + 1)%Z b) / 2)%R.
Definition ex (m : Z -> Z -> R) i j : R := (m i (j + 1)%Z - m i j - (gx i j + gx i (j + 1)%Z) / 2)%R.
Definition ey (m : Z -> Z -> R) i j : R := (m (i + 1)%Z j - m i j - (gy i j + gy (i + 1)%Z j) / 2)%R.
Definition energy (m : Z -> Z -> R) : R := rsum h (fun i => rsum w (fun j => ex m i j ^ 2 + ey m i j ^ 2)%R).
Definition rough (d : Z -> Z -> R) : R := rsum h (fun i => rsum w (fun j => (d i (j + 1)%Z - d i j) ^ 2 + (d (i + 1)%Z j - d i j) ^ 2)%R).

Lemma per_step (m : Z -> R) n k : periodic n m -> m (k mod n + 1)%Z = m (k + 1)%Z.
Proof using. intros P. rewrite <- (P (k mod n + 1)), <- (P (k + 1)). rewrite Zplus_mod_idemp_l. reflexivity. Qed.
Lemma ex_per i : periodic w (ex f i).
Proof using Pf Pgx. intros k. unfold ex. destruct Pf as [P _]. destruct Pgx as [Q _]. rewrite (P i k), (Q i k), (per_step (f i) w k (P i)), (per_step (gx i) w k (Q i)). reflexivity. Qed.
Lemma ey_per j : periodic h (fun i => ey f i j).
Proof using Pf Pgy.
  intros k. unfold ey. destruct Pf as [_ P]. destruct Pgy as [_ Q].
  rewrite (per_step (fun i => f i j) h k (P j)), (per_step (fun i => gy i j) h k (Q j)). rewrite (P j k), (Q j k). reflexivity.
Qed.
Lemma cross d : per2 d -> rsum h (fun i => rsum w (fun j => ex f i j * (d i (j + 1)%Z - d i j) + ey f i j * (d (i + 1)%Z j - d i j))%R) = 0%R.
Proof using Hh Hw Pf Pgx Pgy Poi.
  intros [D1 D2].
  rewrite (rsum_ext h _ (fun i => rsum w (fun j => ex f i j * (d i (j + 1)%Z - d i j))%R + rsum w (fun j => ey f i j * (d (i + 1)%Z j - d i j))%R)%R) by (intros i _; apply rsum_add).
  rewrite rsum_add. rewrite (rsum_swap h w (fun i j => ey f i j * (d (i + 1)%Z j - d i j))%R).
  rewrite (rsum_ext h _ (fun i => rsum w (fun j => (ex f i (j - 1)%Z - ex f i j) * d i j)%R)) by (intros i _; apply by_parts; [assumption|apply ex_per|apply D1]).
  rewrite (rsum_ext w _ (fun j => rsum h (fun i => (ey f (i - 1)%Z j - ey f i j) * d i j)%R)).
  2:{ intros j _. apply (by_parts h (fun i => ey f i j) (fun i => d i j)); [assumption|apply ey_per|apply D2]. }
  rewrite (rsum_swap w h). rewrite <- rsum_add. rewrite (rsum_ext h _ (fun _ => 0%R)); [apply rsum_zero|]. intros i _. rewrite <- rsum_add.
  rewrite (rsum_ext w _ (fun _ => 0%R)); [apply rsum_zero|]. intros j _.
  replace ((ex f i (j - 1)%Z - ex f i j) * d i j + (ey f (i - 1)%Z j - ey f i j) * d i j)%R with ((ex f i (j - 1)%Z - ex f i j + (ey f (i - 1)%Z j - ey f i j)) * d i j)%R by ring.
  unfold ex, ey. replace (j - 1 + 1) with j by lia. replace (i - 1 + 1) with i by lia. assert (P := Poi i j).
  replace (_ + _)%R with 0%R by lra. ring.
Qed.
Lemma energy_split g : per2 g -> energy g = (energy f + rough (fun i j => g i j - f i j))%R.
Proof using Hh Hw Pf Pgx Pgy Poi.
  intros G. set (d := fun i j => (g i j - f i j)%R).
  assert (D : per2 d). { destruct G as [G1 G2], Pf as [F1 F2]. split; intros i k; unfold d; [rewrite (G1 i k), (F1 i k)|rewrite (G2 i k), (F2 i k)]; reflexivity. }
  assert (C := cross d D). unfold energy, rough.
  rewrite (rsum_ext h (fun i => rsum w (fun j => ex g i j ^ 2 + ey g i j ^ 2)%R)
    (fun i => rsum w (fun j => ex f i j ^ 2 + ey f i j ^ 2)%R + 2 * rsum w (fun j => ex f i j * (d i (j + 1)%Z - d i j) + ey f i j * (d (i + 1)%Z j - d i j))%R + rsum w (fun j => (d i (j + 1)%Z - d i j) ^ 2 + (d (i + 1)%Z j - d i j) ^ 2)%R)%R).
  - rewrite !rsum_add. rewrite rsum_scal, C. ring.
  - intros i _. rewrite <- rsum_scal, <- !rsum_add. apply rsum_ext. intros j _. unfold ex, ey, d. ring.
Qed.
Lemma rough_nonneg d : (0 <= rough d)%R.
Proof using. apply rsum_nn. intros i _. apply rsum_nn. intros j _. apply Rplus_le_le_0_compat; apply pow2_ge_0. Qed.
Lemma rough_zero d : rough d = 0%R -> forall i j, in_rng h i -> in_rng w j -> d i j = d 0 0.
Proof using Hh Hw.
  clear Poi Pf Pgx Pgy. clear f gx gy. intros R0. assert (S : forall i j, in_rng h i -> in_rng w j -> (d i (j + 1)%Z = d i j /\ d (i + 1)%Z j = d i j)%R).
  { intros i j Hi Hj. set (q := fun i j => ((d i (j + 1)%Z - d i j) ^ 2 + (d (i + 1)%Z j - d i j) ^ 2)%R). change (rsum h (fun i => rsum w (fun j => q i j)) = 0%R) in R0.
    assert (Q : forall i j, (0 <= q i j)%R) by (intros; unfold q; apply Rplus_le_le_0_compat; apply pow2_ge_0).
    assert (A := P_calib3.rsum_zero_each h (fun i => rsum w (fun j => q i j)) i (fun i _ => rsum_nn w _ (fun j _ => Q i j)) ltac:(lra) Hi). cbv beta in A.
    assert (B := P_calib3.rsum_zero_each w (fun j => q i j) j (fun j _ => Q i j) ltac:(lra) Hj). cbv beta in B. unfold q in B.
    assert (X := pow2_ge_0 (d i (j + 1)%Z - d i j)). assert (Y := pow2_ge_0 (d (i + 1)%Z j - d i j)).
    assert (X0 : ((d i (j + 1)%Z - d i j) ^ 2 = 0)%R) by lra. assert (Y0 : ((d (i + 1)%Z j - d i j) ^ 2 = 0)%R) by lra.
    simpl in X0, Y0. rewrite Rmult_1_r in X0, Y0. apply Rmult_integral in X0. apply Rmult_integral in Y0. split; [destruct X0|destruct Y0]; lra. }
  assert (J : forall i j, in_rng h i -> 0 <= j -> j < w -> d i j = d i 0).
  { intros i j Hi. revert j. apply (natlike_ind (fun j => j < w -> d i j = d i 0)); [reflexivity|]. intros j Hj IH L. rewrite <- IH by lia. apply (proj1 (S i j Hi ltac:(unfold in_rng; lia))). }
  assert (I : forall i, 0 <= i -> i < h -> d i 0 = d 0 0).
  { apply (natlike_ind (fun i => i < h -> d i 0 = d 0 0)); [reflexivity|]. intros i Hi IH L. rewrite <- IH by lia. apply (proj2 (S i 0 ltac:(unfold in_rng; lia) ltac:(unfold in_rng; lia))). }
  intros i j Hi Hj. unfold in_rng in *. rewrite J by (unfold in_rng; lia). apply I; lia.
Qed.
End Energy.

(** ** in terms of images *)
Lemma at_in (m : img R) i j : in_rng (nrow m) i -> in_rng (ncol m) j -> at_ m i j = px m i j.
Proof. unfold in_rng, at_. intros Hi Hj. rewrite !Z.mod_small by lia. reflexivity. Qed.
Lemma at_per (m : img R) : 0 < nrow m -> 0 < ncol m -> per2 (nrow m) (ncol m) (at_ m).
Proof. intros A B. split; intros i k; unfold at_; rewrite Z.mod_mod by lia; reflexivity. Qed.
Lemma slope_energy gx gy (f : img R) : same_size f gx -> same_size f gy ->
  slope_error gx gy f = energy (nrow f) (ncol f) (at_ gx) (at_ gy) (at_ f).
Proof.
  intros [A1 A2] [B1 B2]. unfold slope_error, energy, ex, ey. cbv zeta. apply rsum_ext. intros i Hi. apply rsum_ext. intros j Hj.
  unfold at_, next. rewrite <- A1, <- A2, <- B1, <- B2. rewrite !(Z.mod_small i), !(Z.mod_small j) by lia. reflexivity.
Qed.

Definition scs_image (gx gy : img R) : img R := mkimg (nrow gx) (ncol gx) (fun a b => scs_at (nrow gx) (ncol gx) gx gy a b).
Lemma scs_default np gx gy : same_size gx gy ->
  surface_SCS np gx gy false None 0 = Ok (mkimg (nrow gx) (ncol gx) (px (scs_image gx gy))).
Proof.
  intros [A B]. unfold surface_SCS. rewrite <- A, <- B, !Z.eqb_refl. cbn [andb negb]. replace (0 <? 0) with false by lia.
  cbn [bindr]. unfold make_window_SCS at 1. cbn [bindr lift_negative]. reflexivity.
Qed.
Section Minimal.
Variables (gx gy : img R).
Hypothesis Hh : 0 < nrow gx. Hypothesis Hw : 0 < ncol gx. Hypothesis S : same_size gx gy.
Let h := nrow gx. Let w := ncol gx.
Let F := scs_image gx gy.
Lemma scs_at_image a b : at_ F a b = scs_at h w gx gy a b.
Proof using Hh Hw. unfold at_, F, scs_image. cbn [px nrow ncol]. apply scs_mod; assumption. Qed.
Lemma scs_poisson a b : (4 * at_ F a b - at_ F a (b + 1)%Z - at_ F a (b - 1)%Z - at_ F (a + 1)%Z b - at_ F (a - 1)%Z b =
   (at_ gx a (b - 1)%Z - at_ gx a (b + 1)%Z) / 2 + (at_ gy (a - 1)%Z b - at_ gy (a + 1)%Z b) / 2)%R.
Proof using Hh Hw S. rewrite !scs_at_image. destruct S as [A B]. apply poisson; try assumption; split; first [reflexivity | symmetry; assumption]. Qed.
Lemma scs_energy (s : img R) : same_size s gx ->
  slope_error gx gy s = (slope_error gx gy F + rough h w (fun i j => at_ s i j - at_ F i j))%R.
Proof using Hh Hw S.
  intros T. assert (T' : same_size s gy) by (destruct S, T; split; congruence). assert (U : same_size F gx) by (split; reflexivity). assert (U' : same_size F gy) by (destruct S; split; assumption).
  rewrite !slope_energy by assumption. destruct T as [T1 T2]. rewrite T1, T2. change (nrow F) with h. change (ncol F) with w. fold h w.
  apply energy_split; try assumption.
  - apply (at_per F); assumption.
  - apply (at_per gx); assumption.
  - destruct S as [A B]. unfold h, w. rewrite A, B. apply (at_per gy); lia.
  - intros a b. apply scs_poisson.
  - unfold h, w. rewrite <- T1, <- T2. apply (at_per s); lia.
Qed.
Lemma scs_mean : mean_value F = 0%R.
Proof using Hh Hw. unfold mean_value. cbn [F scs_image nrow ncol px]. unfold F, scs_image. cbn [nrow ncol px]. rewrite scs_total by assumption. unfold Rdiv. ring. Qed.
Lemma scs_least (s : img R) : same_size s gx -> (slope_error gx gy F <= slope_error gx gy s)%R /\
  (slope_error gx gy s = slope_error gx gy F -> raised (mean_value s) F s).
Proof using Hh Hw S.
  intros T. rewrite (scs_energy s T). assert (N := rough_nonneg h w (fun i j => at_ s i j - at_ F i j)%R). split; [lra|]. intros E.
  assert (Z0 := rough_zero h w Hh Hw (fun i j => at_ s i j - at_ F i j)%R ltac:(lra)). cbv beta in Z0. set (c := (at_ s 0 0 - at_ F 0 0)%R) in *. destruct T as [T1 T2].
  assert (X : forall i j, in_rng h i -> in_rng w j -> px s i j = (px F i j + c)%R).
  { intros i j Hi Hj. assert (Y := Z0 i j Hi Hj). rewrite !at_in in Y by (try assumption; unfold h, w in *; rewrite ?T1, ?T2; assumption). lra. }
  assert (M : mean_value s = c).
  { assert (MF := scs_mean). unfold mean_value in *. cbn [nrow ncol F scs_image] in MF. change (nrow F) with h in MF. change (ncol F) with w in MF. rewrite T1, T2. fold h w. fold h w in MF.
    rewrite (rsum_ext h _ (fun i => rsum w (fun j => px F i j) + IZR w * c)%R).
    - rewrite rsum_add, rsum_const by (unfold h; lia). assert (0 < IZR h)%R by (apply (IZR_lt 0); assumption). assert (0 < IZR w)%R by (apply (IZR_lt 0); assumption).
      unfold Rdiv in *. rewrite Rmult_plus_distr_r, MF. field. lra.
    - intros i Hi. rewrite (rsum_ext w _ (fun j => px F i j + c)%R) by (intros j Hj; apply X; assumption). rewrite rsum_add, rsum_const by (unfold w; lia). reflexivity. }
  rewrite M. split; [split; symmetry; assumption|]. exact X.
Qed.
End Minimal.
