From Verif Require Import M_regularization.
From Coq Require Import Reals ZArith Lia Lra Psatz.
Open Scope R_scope.
Lemma cosh_lt a b : Rabs b < a -> cosh b < cosh a.
Proof.
  intros H. assert (Hb : -a < b < a) by (apply Rabs_def2 in H; lra).
  unfold cosh. assert (E1 : exp b < exp a) by (apply exp_increasing; lra).
  assert (E2 : 1 < exp (a + b)) by (rewrite <- exp_0; apply exp_increasing; lra).
  rewrite exp_plus in E2. pose proof (exp_pos a). pose proof (exp_pos b).
  rewrite !exp_Ropp.
  assert (D : exp a + / exp a - (exp b + / exp b) = (exp a - exp b) * (1 - / (exp a * exp b))) by (field; lra).
  assert (I : / (exp a * exp b) < 1). { rewrite <- Rinv_1. apply Rinv_1_lt_contravar; lra. }
  assert (0 < (exp a - exp b) * (1 - / (exp a * exp b))) by (apply Rmult_lt_0_compat; lra). lra.
Qed.
Lemma tau_pos alpha : 0 < alpha -> 0 < reg_tau alpha.
Proof.
  intros H. unfold reg_tau. rewrite <- arcsinh_0 at 1.
  assert (0 < sqrt alpha) by (apply sqrt_lt_R0; lra).
  assert (arcsinh 0 < arcsinh (sqrt alpha * / 2)) by (apply arcsinh_lt; lra). rewrite arcsinh_0 in *. lra.
Qed.
Lemma sinh_pos x : 0 < x -> 0 < sinh x.
Proof. intros H. rewrite <- sinh_0. apply sinh_lt; exact H. Qed.
Lemma tanh_pos x : 0 < x -> 0 < tanh x.
Proof.
  intros H. unfold tanh. pose proof (sinh_pos x H). apply Rdiv_lt_0_compat; [assumption|].
  unfold cosh. pose proof (exp_pos x). pose proof (exp_pos (-x)). lra.
Qed.
Lemma coe_sym n alpha i j : calculate_regularization_coefficient n alpha i j = calculate_regularization_coefficient n alpha j i.
Proof.
  unfold calculate_regularization_coefficient. replace (Z.abs (j - i)) with (Z.abs (i - j)) by lia.
  replace (n - (j + i))%Z with (n - (i + j))%Z by lia. reflexivity.
Qed.
Lemma coe_corners n alpha : (2 <= n)%Z -> 0 < alpha ->
  calculate_regularization_coefficient n alpha 0 0 < calculate_regularization_coefficient n alpha (n - 1) (n - 1).
Proof.
  intros Hn Ha. unfold calculate_regularization_coefficient.
  pose proof (tau_pos alpha Ha) as Ht. set (tau := reg_tau alpha) in *.
  assert (Hn' : 2 <= IZR n) by (apply IZR_le; lia).
  replace (n - 1 - (n - 1))%Z with 0%Z by lia. change (0 - 0)%Z with 0%Z. change (Z.abs 0) with 0%Z. change (0 + 0)%Z with 0%Z.
  replace (n - 1 - 0)%Z with (n - 1)%Z by lia. replace (n - 0)%Z with n by lia.
  replace (n - (n - 1 + (n - 1)))%Z with (2 - n)%Z by lia.
  set (k := tanh (/ 2 * tau) / (alpha * sinh (IZR n * tau))).
  assert (Hk : 0 < k).
  { unfold k. apply Rdiv_lt_0_compat; [apply tanh_pos; lra|]. apply Rmult_lt_0_compat; [exact Ha|]. apply sinh_pos. nra. }
  assert (Hc : cosh (IZR (2 - n) * tau) < cosh (IZR n * tau)).
  { apply cosh_lt. rewrite minus_IZR. rewrite Rabs_mult, (Rabs_pos_eq tau) by lra.
    rewrite Rabs_left1 by (simpl IZR; lra). simpl IZR. nra. }
  nra.
Qed.
Lemma rsum_zero n f : (forall j, (0 <= j < Z.of_nat n)%Z -> f j = 0) -> rsum n f = 0.
Proof. induction n as [|n IH]; intros H; cbn [rsum]; [reflexivity|]. rewrite IH, H by (intros; try apply H; lia). lra. Qed.
Lemma rsum_head n f : rsum (S n) f = f 0%Z + rsum n (fun j => f (j + 1)%Z).
Proof.
  induction n as [|n IH]; [cbn [rsum Z.of_nat]; lra|]. cbn [rsum] in IH |- *. rewrite IH.
  replace (Z.of_nat (S n)) with (Z.of_nat n + 1)%Z by lia. lra.
Qed.
Lemma ramp_correction n alpha c s i : (2 <= n)%Z ->
  profile_correction n alpha (fun j => c - s * IZR j) i =
  s * (calculate_regularization_coefficient n alpha i 0 - calculate_regularization_coefficient n alpha i (n - 1)).
Proof.
  intros Hn. unfold profile_correction. set (M := calculate_regularization_coefficient n alpha i).
  destruct (Z.to_nat n) as [|[|k] ] eqn:E; try lia. rewrite rsum_head. cbn [rsum].
  assert (En : (Z.of_nat k + 1 = n - 1)%Z) by lia. rewrite En.
  rewrite rsum_zero.
  - unfold list_grad at 1. change (0 =? 0)%Z with true. cbv iota.
    unfold list_grad. replace (n - 1 =? 0)%Z with false by lia. rewrite Z.eqb_refl. rewrite !minus_IZR. ring.
  - intros j Hj. unfold list_grad. replace (j + 1 =? 0)%Z with false by lia. replace (j + 1 =? n - 1)%Z with false by lia.
    rewrite !plus_IZR, !minus_IZR, !plus_IZR. ring.
Qed.
Lemma not_mirror n alpha : (2 <= n)%Z -> 0 < alpha ->
  exists m : Z -> R, profile_correction n alpha (fun j => m (n - 1 - j)%Z) 0 <> profile_correction n alpha m (n - 1)%Z.
Proof.
  intros Hn Ha. exists (fun j => 0 - 1 * IZR j).
  assert (E : profile_correction n alpha (fun j => 0 - 1 * IZR (n - 1 - j)) 0 = profile_correction n alpha (fun j => - IZR (n - 1) - (-1) * IZR j) 0).
  { unfold profile_correction.
    assert (L : forall k, rsum k (fun j => list_grad n (fun j => 0 - 1 * IZR (n - 1 - j)) j * calculate_regularization_coefficient n alpha 0 j)
                 = rsum k (fun j => list_grad n (fun j => - IZR (n - 1) - (-1) * IZR j) j * calculate_regularization_coefficient n alpha 0 j)).
    { induction k as [|k IH]; cbn [rsum]; [reflexivity|]. rewrite IH. f_equal. f_equal. unfold list_grad.
      destruct (_ =? 0)%Z; [|destruct (_ =? n - 1)%Z]; rewrite !minus_IZR; ring. }
    apply L. }
  rewrite E, !ramp_correction by assumption. pose proof (coe_corners n alpha Hn Ha) as Hc.
  rewrite (coe_sym n alpha (n - 1) 0). lra.
Qed.
