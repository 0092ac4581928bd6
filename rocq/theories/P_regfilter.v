(** Proofs about the regularisation filter. *)
From Coq Require Import Reals Lra Lia ZArith.
From Verif Require Import Np P_Np M_regularization P_regularization M_regfilter S_regfilter.
From Coq Require Import List. Import ListNotations.
Open Scope Z_scope.

Lemma total_rsum n f : total n f = rsum n f. Proof. induction n as [|n IH]; [reflexivity|]. cbn [total rsum]. rewrite IH. reflexivity. Qed.
Lemma rsum_ext' n f g : (forall j, 0 <= j < Z.of_nat n -> f j = g j) -> rsum n f = rsum n g.
Proof. induction n as [|n IH]; intros H; cbn [rsum]; [reflexivity|]. rewrite IH, H by (intros; try apply H; lia). reflexivity. Qed.
Lemma rsum_lin n f g a b : (rsum n (fun j => a * f j + b * g j) = a * rsum n f + b * rsum n g)%R.
Proof. induction n as [|n IH]; cbn [rsum]; [ring|]. rewrite IH. ring. Qed.
Lemma rsum_const n c : rsum n (fun _ => c) = (INR n * c)%R.
Proof. induction n as [|n IH]; cbn [rsum]; [cbn; ring|]. rewrite IH, S_INR. ring. Qed.

(** ** the lines of the result *)
Lemma line_ok (m : img R) alpha : 2 <= ncol m ->
  exists r, apply_regularization_filter m alpha 1 = Ok r /\ nrow r = nrow m /\ ncol r = ncol m /\
    forall i j, in_rng (nrow m) i -> in_rng (ncol m) j -> px r i j = (px m i j + profile_correction (ncol m) alpha (px m i) j)%R.
Proof.
  intros H. unfold apply_regularization_filter. cbn [Z.eqb].
  set (g := fun i => mkvec (ncol m) (fun j => (px m i j + profile_correction (ncol m) alpha (px m i) j)%R)).
  rewrite (mapr_total _ g).
  - cbn [bindr]. eexists. split; [reflexivity|]. cbn [nrow ncol px]. split; [reflexivity|]. split; [reflexivity|]. intros i j Hi Hj. unfold in_rng in Hi.
    rewrite (nth_indep _ _ (g 0)) by (rewrite map_length, zrange_length; lia). rewrite map_nth.
    replace (nth (Z.to_nat i) (zrange 0 (nrow m)) 0) with i; [reflexivity|]. rewrite zrange_nth by lia. lia.
  - intros i _. unfold apply_1d_regularizer, irow. cbn [vlen vat]. destruct (Z.ltb_spec (ncol m) 2); [lia|reflexivity].
Qed.
Lemma line_short (m : img R) alpha : ncol m < 2 -> 1 <= nrow m -> apply_regularization_filter m alpha 1 = Err IndexError.
Proof.
  intros H R. unfold apply_regularization_filter. cbn [Z.eqb]. rewrite zrange_cons by lia. cbn [mapr]. unfold apply_1d_regularizer, irow at 1. cbn [vlen].
  destruct (Z.ltb_spec (ncol m) 2); [reflexivity|lia].
Qed.
Lemma axis0 (m : img R) alpha : apply_regularization_filter m alpha 0 = (do r <- apply_regularization_filter (itrans m) alpha 1; Ok (itrans r)).
Proof. unfold apply_regularization_filter. cbn [Z.eqb]. destruct (mapr _ _) as [l|e]; reflexivity. Qed.
Lemma axis_other (m : img R) alpha axis : axis <> 0 -> apply_regularization_filter m alpha axis = apply_regularization_filter m alpha 1.
Proof. intros H. unfold apply_regularization_filter. destruct (Z.eqb_spec axis 0); [contradiction|reflexivity]. Qed.

(** ** the correction *)
Lemma correction_ext n alpha p q i : 2 <= n -> (forall j, 0 <= j < n -> p j = q j) -> profile_correction n alpha p i = profile_correction n alpha q i.
Proof.
  intros H E. unfold profile_correction. apply rsum_ext'. intros j Hj. f_equal. unfold list_grad. rewrite Z2Nat.id in Hj by lia.
  destruct (Z.eqb_spec j 0); [rewrite !E by lia; reflexivity|]. destruct (Z.eqb_spec j (n - 1)); rewrite !E by lia; reflexivity.
Qed.
Lemma correction_lin n alpha p q a b i : (profile_correction n alpha (fun j => a * p j + b * q j) i = a * profile_correction n alpha p i + b * profile_correction n alpha q i)%R.
Proof.
  unfold profile_correction. rewrite <- rsum_lin. apply rsum_ext'. intros j _. unfold list_grad. destruct (j =? 0); [ring|]. destruct (j =? n - 1); ring.
Qed.
Lemma correction_const n alpha c i : profile_correction n alpha (fun _ => c) i = 0%R.
Proof. unfold profile_correction. apply rsum_zero. intros j _. unfold list_grad. destruct (j =? 0); [ring|]. destruct (j =? n - 1); ring. Qed.

(** ** the sum of the correction of a ramp *)
Lemma cosh_opp' x : cosh (- x) = cosh x. Proof. unfold cosh. rewrite Ropp_involutive. lra. Qed.
Lemma rsum_rev n f : rsum n (fun j => f (Z.of_nat n - 1 - j)) = rsum n f.
Proof.
  revert f. induction n as [|n IH]; intros f; [reflexivity|]. rewrite rsum_head. cbn [rsum].
  rewrite (rsum_ext' n (fun j => f (Z.of_nat (S n) - 1 - (j + 1))) (fun j => f (Z.of_nat n - 1 - j))) by (intros; f_equal; lia). rewrite IH.
  replace (Z.of_nat (S n) - 1 - 0) with (Z.of_nat n) by lia. ring.
Qed.
Lemma rsum_minus n f g : (rsum n (fun j => f j - g j) = rsum n f - rsum n g)%R.
Proof. induction n as [|n IH]; cbn [rsum]; [ring|]. rewrite IH. ring. Qed.
Lemma rsum_shift n f : (rsum n (fun j => f (j + 1)%Z) = rsum n f + f (Z.of_nat n) - f 0%Z)%R.
Proof. pose proof (rsum_head n f) as H. cbn [rsum] in H. lra. Qed.
Lemma rsum_back n f : (rsum (S n) (fun j => f (j - 1)%Z) = f (-1)%Z + rsum n f)%R.
Proof. rewrite rsum_head. f_equal. apply rsum_ext'. intros j _. f_equal. lia. Qed.
Lemma ramp_sum n alpha c s : 2 <= n ->
  let tau := reg_tau alpha in
  (rsum (Z.to_nat n) (profile_correction n alpha (fun j => c - s * IZR j)) =
   - s * (tanh (/ 2 * tau) / (alpha * sinh (IZR n * tau))) * (cosh (IZR (n - 1) * tau) + cosh (IZR n * tau) - 1 - cosh tau))%R.
Proof.
  intros H tau. rewrite (rsum_ext' _ _ (fun i => (s * (calculate_regularization_coefficient n alpha i 0 - calculate_regularization_coefficient n alpha i (n - 1)))%R)) by (intros; apply ramp_correction; exact H).
  set (k := (tanh (/ 2 * tau) / (alpha * sinh (IZR n * tau)))%R). set (c' := fun z => cosh (IZR z * tau)).
  rewrite (rsum_ext' _ _ (fun i => (- s * k) * (c' (n - 1 - i)%Z + c' (n - i)%Z) + (s * k) * (c' i + c' (i - 1)%Z))%R).
  2:{ intros i Hi. rewrite Z2Nat.id in Hi by lia. unfold calculate_regularization_coefficient. fold tau. fold k. unfold c'.
      replace (n - 1 - Z.abs (i - 0)) with (n - 1 - i) by lia. replace (n - (i + 0)) with (n - i) by lia.
      replace (n - 1 - Z.abs (i - (n - 1))) with i by lia. replace (n - (i + (n - 1))) with (- (i - 1)) by lia. rewrite (opp_IZR (i - 1)).
      replace (- IZR (i - 1) * tau)%R with (- (IZR (i - 1) * tau))%R by ring. rewrite cosh_opp'. ring. }
  rewrite rsum_lin. rewrite (rsum_ext' _ (fun j => (c' (n - 1 - j)%Z + c' (n - j)%Z)%R) (fun j => (1 * c' (n - 1 - j)%Z + 1 * c' (n - j)%Z)%R)) by (intros; ring).
  rewrite (rsum_ext' _ (fun j => (c' j + c' (j - 1)%Z)%R) (fun j => (1 * c' j + 1 * c' (j - 1)%Z)%R)) by (intros; ring). rewrite !rsum_lin.
  assert (Hn : Z.of_nat (Z.to_nat n) = n) by lia.
  assert (A : rsum (Z.to_nat n) (fun j => c' (n - 1 - j)) = rsum (Z.to_nat n) c') by (rewrite <- (rsum_rev _ c'), Hn; reflexivity).
  assert (B : (rsum (Z.to_nat n) (fun j => c' (n - j)%Z) = rsum (Z.to_nat n) c' + c' n - c' 0%Z)%R).
  { pose proof (rsum_shift (Z.to_nat n) c') as X. rewrite Hn in X. rewrite <- X. rewrite <- (rsum_rev _ (fun j => c' (j + 1))), Hn. apply rsum_ext'. intros j _. f_equal. lia. }
  assert (D : (rsum (Z.to_nat n) (fun j => c' (j - 1)%Z) = c' (-1)%Z + rsum (Z.to_nat n) c' - c' (n - 1)%Z)%R).
  { replace (Z.to_nat n) with (S (Z.to_nat (n - 1))) by lia. rewrite rsum_back. cbn [rsum]. rewrite Z2Nat.id by lia. ring. }
  rewrite A, B, D. assert (E0 : c' 0%Z = 1%R) by (unfold c'; rewrite Rmult_0_l; apply cosh_0). assert (E1 : c' (-1)%Z = cosh tau) by (unfold c'; replace (-1 * tau)%R with (- tau)%R by ring; apply cosh_opp').
  rewrite E0, E1. unfold c'. ring.
Qed.
Lemma ramp_sum_nonzero n alpha c s : 2 <= n -> (0 < alpha)%R -> s <> 0%R -> rsum (Z.to_nat n) (profile_correction n alpha (fun j => (c - s * IZR j)%R)) <> 0%R.
Proof.
  intros Hn Ha Hs. rewrite ramp_sum by exact Hn. pose proof (tau_pos alpha Ha) as Ht. set (tau := reg_tau alpha) in *.
  assert (N : (2 <= IZR n)%R) by (apply (IZR_le 2 n); exact Hn).
  assert (K : (0 < tanh (/ 2 * tau) / (alpha * sinh (IZR n * tau)))%R).
  { apply Rdiv_lt_0_compat; [apply tanh_pos; lra|]. apply Rmult_lt_0_compat; [exact Ha|]. apply sinh_pos. nra. }
  assert (C1 : (cosh tau < cosh (IZR n * tau))%R) by (apply cosh_lt; rewrite Rabs_pos_eq by lra; nra).
  assert (C2 : (1 < cosh (IZR (n - 1) * tau))%R) by (rewrite <- cosh_0; apply cosh_lt; rewrite Rabs_R0, minus_IZR; nra).
  set (k := (tanh (/ 2 * tau) / (alpha * sinh (IZR n * tau)))%R) in *. set (d := (cosh (IZR (n - 1) * tau) + cosh (IZR n * tau) - 1 - cosh tau)%R). assert (D : (0 < d)%R) by (unfold d; lra).
  intros E. apply Rmult_integral in E as [E|E]; [|lra]. apply Rmult_integral in E as [E|E]; lra.
Qed.

(** ** the problem that the filter should solve *)
Lemma energy_shift n alpha p x t : 0 <= n ->
  (energy n alpha p (fun i => x i + t) = energy n alpha p x + 2 * alpha * t * (rsum (Z.to_nat n) x - rsum (Z.to_nat n) p) + alpha * IZR n * t * t)%R.
Proof.
  intros H. unfold energy. change total with rsum. cbv beta.
  rewrite (rsum_ext' (Z.to_nat (n - 1)) (fun i => ((x (i + 1)%Z + t - (x i + t)) * (x (i + 1)%Z + t - (x i + t)))%R) (fun i => ((x (i + 1)%Z - x i) * (x (i + 1)%Z - x i))%R)) by (intros; ring).
  rewrite (rsum_ext' _ (fun i => ((x i + t - p i) * (x i + t - p i))%R) (fun i => (1 * ((x i - p i) * (x i - p i)) + 1 * ((2 * t) * (x i - p i) + 1 * (t * t)))%R)) by (intros; ring).
  rewrite rsum_lin, rsum_lin, rsum_minus, rsum_const. rewrite INR_IZR_INZ, Z2Nat.id by exact H. ring.
Qed.
Lemma regularised_sum n alpha p x : 1 <= n -> (0 < alpha)%R -> regularised n alpha p x -> rsum (Z.to_nat n) x = rsum (Z.to_nat n) p.
Proof.
  intros Hn Ha R. set (d := (rsum (Z.to_nat n) x - rsum (Z.to_nat n) p)%R). assert (N : (1 <= IZR n)%R) by (apply (IZR_le 1 n); exact Hn).
  specialize (R (fun i => x i + (- d / IZR n))%R). rewrite energy_shift in R by lia. fold d in R.
  assert (E : (2 * alpha * (- d / IZR n) * d + alpha * IZR n * (- d / IZR n) * (- d / IZR n) = - (alpha / IZR n * (d * d)))%R) by (field; lra).
  assert (K : (0 < alpha / IZR n)%R) by (apply Rdiv_lt_0_compat; lra). assert (Q : (alpha / IZR n * (d * d) <= 0)%R) by lra.
  assert (D : (d * d <= 0)%R). { apply Rnot_lt_le. intros L. pose proof (Rmult_lt_0_compat _ _ K L). lra. }
  assert (Z : (d = 0)%R). { apply Rle_antisym; nra. } unfold d in Z. lra.
Qed.
Lemma rsum_nonneg' n f : (forall i, (0 <= f i)%R) -> (0 <= rsum n f)%R.
Proof. intros H. induction n as [|n IH]; cbn [rsum]; [lra|]. specialize (H (Z.of_nat n)). lra. Qed.
Lemma regularised_const n alpha c : (0 < alpha)%R -> regularised n alpha (fun _ => c) (fun _ => c).
Proof.
  intros Ha y. unfold energy. change total with rsum. cbv beta. rewrite (rsum_zero (Z.to_nat n) (fun _ => ((c - c) * (c - c))%R)) by (intros; ring). rewrite (rsum_zero _ (fun _ => ((c - c) * (c - c))%R)) by (intros; ring).
  assert (A : (0 <= rsum (Z.to_nat n) (fun i => ((y i - c) * (y i - c))))%R) by (apply rsum_nonneg'; intros; apply Rle_0_sqr). assert (B : (0 <= rsum (Z.to_nat (n - 1)) (fun i => ((y (i + 1)%Z - y i) * (y (i + 1)%Z - y i))))%R) by (apply rsum_nonneg'; intros; apply Rle_0_sqr).
  nra.
Qed.
