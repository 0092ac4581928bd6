(** Proofs about the projections of simulation.py: discrete Fourier transforms. *)
From Coq Require Import Reals Lra ZArith Lia Bool FunctionalExtensionality.
From Verif Require Import Np P_Np M_phase_R P_phase_R M_simR S_simR.
Open Scope Z_scope.

(** ** sums of cosines and sines over a full period *)
Lemma sin_2pi_int k : sin (2 * PI * IZR k) = 0%R.
Proof. replace (2 * PI * IZR k)%R with (PI * IZR (2 * k))%R by (rewrite mult_IZR; ring). apply sin_kpi. Qed.
Lemma cos_2pi_int k : cos (2 * PI * IZR k) = 1%R.
Proof.
  replace (2 * PI * IZR k)%R with (PI * IZR (2 * k))%R by (rewrite mult_IZR; ring). rewrite cos_kpi.
  rewrite Z.even_mul. reflexivity.
Qed.
Lemma cos_shift_2pi x k : cos (x + 2 * PI * IZR k) = cos x.
Proof. rewrite cos_plus, sin_2pi_int, cos_2pi_int. ring. Qed.
Lemma sin_shift_2pi x k : sin (x + 2 * PI * IZR k) = sin x.
Proof. rewrite sin_plus, sin_2pi_int, cos_2pi_int. ring. Qed.
(** angles that differ by whole turns when the integers are equal modulo n *)
Lemma turn_mod n a b : n <> 0 -> a mod n = b mod n -> exists k, (2 * PI * IZR a / IZR n = 2 * PI * IZR b / IZR n + 2 * PI * IZR k)%R.
Proof.
  intros Hn H. exists (a / n - b / n). assert (IZR n <> 0)%R by (apply not_0_IZR; exact Hn).
  rewrite (Z.div_mod a n Hn) at 1. rewrite H. rewrite minus_IZR.
  replace (IZR b) with (IZR (n * (b / n) + b mod n)) by (f_equal; symmetry; apply Z.div_mod, Hn).
  rewrite !plus_IZR, !mult_IZR. field. assumption.
Qed.
Lemma cos_mod n a b : n <> 0 -> a mod n = b mod n -> cos (2 * PI * IZR a / IZR n) = cos (2 * PI * IZR b / IZR n).
Proof. intros Hn H. destruct (turn_mod n a b Hn H) as (k & ->). apply cos_shift_2pi. Qed.
Lemma sin_mod n a b : n <> 0 -> a mod n = b mod n -> sin (2 * PI * IZR a / IZR n) = sin (2 * PI * IZR b / IZR n).
Proof. intros Hn H. destruct (turn_mod n a b Hn H) as (k & ->). apply sin_shift_2pi. Qed.
Lemma half_turn_sin n d : 0 < n -> 0 < d < n -> (sin (PI * IZR d / IZR n) <> 0)%R.
Proof.
  intros Hn Hd. assert (P := PI_RGT_0). assert (N : (0 < IZR n)%R) by (apply IZR_lt; lia).
  assert (D : (0 < IZR d)%R) by (apply IZR_lt; lia). assert (D2 : (IZR d < IZR n)%R) by (apply IZR_lt; lia).
  apply Rgt_not_eq, sin_gt_0.
  - apply Rmult_lt_0_compat; [apply Rmult_lt_0_compat; lra|apply Rinv_0_lt_compat, N].
  - replace PI with (PI * IZR n / IZR n)%R at 2 by (field; lra). unfold Rdiv. apply Rmult_lt_compat_r; [apply Rinv_0_lt_compat, N|].
    apply Rmult_lt_compat_l; lra.
Qed.
Lemma cos_sum_pos n d : 0 < n -> 0 < d < n -> rsum n (fun k => cos (2 * PI * IZR (k * d) / IZR n)) = 0%R.
Proof.
  intros Hn Hd. assert (N : (IZR n <> 0)%R) by (apply not_0_IZR; lia).
  assert (S := half_turn_sin n d Hn Hd). set (t := (PI * IZR d / IZR n)%R) in *.
  apply (Rmult_eq_reg_l (2 * sin t)); [|lra]. rewrite Rmult_0_r, <- rsum_scal.
  transitivity (rsum n (fun k => sin (IZR (2 * (k + 1) - 1) * t) - sin (IZR (2 * k - 1) * t)))%R.
  - apply rsum_ext. intros k _.
    replace (2 * PI * IZR (k * d) / IZR n)%R with (IZR (2 * k) * t)%R by (unfold t; rewrite !mult_IZR; field; exact N).
    replace (IZR (2 * (k + 1) - 1) * t)%R with (IZR (2 * k) * t + t)%R by (rewrite minus_IZR, !mult_IZR, plus_IZR; ring).
    replace (IZR (2 * k - 1) * t)%R with (IZR (2 * k) * t - t)%R by (rewrite minus_IZR; ring).
    rewrite sin_plus, sin_minus. ring.
  - rewrite (rsum_tele n (fun k => sin (IZR (2 * k - 1) * t))) by lia.
    replace (IZR (2 * n - 1) * t)%R with (IZR (2 * 0 - 1) * t + 2 * PI * IZR d)%R.
    + rewrite sin_shift_2pi. ring.
    + unfold t. rewrite !minus_IZR, !mult_IZR. field. exact N.
Qed.
Lemma sin_sum n d : 0 < n -> rsum n (fun k => sin (2 * PI * IZR (k * d) / IZR n)) = 0%R.
Proof.
  intros Hn. assert (N : (IZR n <> 0)%R) by (apply not_0_IZR; lia).
  destruct (Z.eq_dec (d mod n) 0) as [E|E].
  - transitivity (rsum n (fun _ => 0%R)); [|apply rsum_zero]. apply rsum_ext. intros k _.
    rewrite (sin_mod n (k * d) 0) by (try lia; rewrite <- Zmult_mod_idemp_r, E; rewrite Z.mul_0_r; reflexivity).
    replace (2 * PI * 0 / IZR n)%R with 0%R by (field; exact N). apply sin_0.
  - assert (B := Z.mod_pos_bound d n Hn). assert (S := half_turn_sin n (d mod n) Hn ltac:(lia)). set (e := d mod n) in *. set (t := (PI * IZR e / IZR n)%R) in *.
    transitivity (rsum n (fun k => sin (2 * PI * IZR (k * e) / IZR n))).
    { apply rsum_ext. intros k _. apply sin_mod; [lia|]. unfold e. rewrite Zmult_mod_idemp_r. reflexivity. }
    apply (Rmult_eq_reg_l (2 * sin t)); [|lra]. rewrite Rmult_0_r, <- rsum_scal.
    transitivity (rsum n (fun k => - cos (IZR (2 * (k + 1) - 1) * t) - - cos (IZR (2 * k - 1) * t)))%R.
    + apply rsum_ext. intros k _.
      replace (2 * PI * IZR (k * e) / IZR n)%R with (IZR (2 * k) * t)%R by (unfold t; rewrite !mult_IZR; field; exact N).
      replace (IZR (2 * (k + 1) - 1) * t)%R with (IZR (2 * k) * t + t)%R by (rewrite minus_IZR, !mult_IZR, plus_IZR; ring).
      replace (IZR (2 * k - 1) * t)%R with (IZR (2 * k) * t - t)%R by (rewrite minus_IZR; ring).
      rewrite cos_plus, cos_minus. ring.
    + rewrite (rsum_tele n (fun k => - cos (IZR (2 * k - 1) * t))%R) by lia.
      replace (IZR (2 * n - 1) * t)%R with (IZR (2 * 0 - 1) * t + 2 * PI * IZR e)%R.
      * rewrite cos_shift_2pi. ring.
      * unfold t. rewrite !minus_IZR, !mult_IZR. field. exact N.
Qed.
Lemma cos_sum n d : 0 < n -> rsum n (fun k => cos (2 * PI * IZR (k * d) / IZR n)) = if d mod n =? 0 then IZR n else 0%R.
Proof.
  intros Hn. assert (N : (IZR n <> 0)%R) by (apply not_0_IZR; lia).
  assert (B := Z.mod_pos_bound d n Hn).
  transitivity (rsum n (fun k => cos (2 * PI * IZR (k * (d mod n)) / IZR n))).
  { apply rsum_ext. intros k _. apply cos_mod; [lia|]. rewrite Zmult_mod_idemp_r. reflexivity. }
  destruct (d mod n =? 0) eqn:E.
  - replace (d mod n) with 0 by lia. transitivity (rsum n (fun _ => 1%R)).
    + apply rsum_ext. intros k _. rewrite Z.mul_0_r. replace (2 * PI * 0 / IZR n)%R with 0%R by (field; exact N). apply cos_0.
    + rewrite rsum_const by lia. ring.
  - apply cos_sum_pos; lia.
Qed.

(** ** sums over a line do not depend on where the (cyclic) line starts or on its direction *)
Lemma rsum_app n m f : 0 <= n -> 0 <= m -> (rsum (n + m) f = rsum n f + rsum m (fun k => f (n + k)%Z))%R.
Proof.
  intros Hn Hm. unfold rsum. rewrite Z2Nat.inj_add by lia.
  rewrite <- (Z2Nat.id m Hm) at 1 2. generalize (Z.to_nat m) as k. intros k. rewrite Nat2Z.id.
  induction k as [|k IH].
  - rewrite Nat.add_0_r. cbn. ring.
  - rewrite Nat.add_succ_r. cbn [rsumn]. rewrite IH. rewrite Nat2Z.inj_add, Z2Nat.id by lia. ring.
Qed.
Lemma rsum_cyclic n s f : 0 < n -> rsum n (fun k => f ((k + s) mod n)) = rsum n f.
Proof.
  intros Hn. assert (B := Z.mod_pos_bound s n Hn). set (e := s mod n) in *.
  transitivity (rsum n (fun k => f ((k + e) mod n))).
  { apply rsum_ext. intros k _. unfold e. rewrite Zplus_mod_idemp_r. reflexivity. }
  assert (S1 : forall g, (rsum n g = rsum (n - e) g + rsum e (fun k => g (n - e + k)%Z))%R).
  { intros g. rewrite <- rsum_app by lia. f_equal. lia. }
  assert (S2 : forall g, (rsum n g = rsum e g + rsum (n - e) (fun k => g (e + k)%Z))%R).
  { intros g. rewrite <- rsum_app by lia. f_equal. lia. }
  rewrite S1, (S2 f), Rplus_comm. f_equal.
  - apply rsum_ext. intros k Hk. replace (n - e + k + e) with (k + 1 * n) by lia. rewrite Z_mod_plus_full, Z.mod_small by lia. reflexivity.
  - apply rsum_ext. intros k Hk. rewrite Z.mod_small by lia. f_equal. lia.
Qed.
Lemma rsum_rev n f : 0 <= n -> rsum n (fun k => f (n - 1 - k)%Z) = rsum n f.
Proof.
  intros Hn. unfold rsum. transitivity (rsumn (Z.to_nat n) (fun k => f (Z.of_nat (Z.to_nat n) - 1 - k)%Z)).
  { apply rsumn_ext. intros i Hi. f_equal. lia. }
  generalize (Z.to_nat n) as m. clear n Hn.
  induction m as [|m IH]; [reflexivity|].
  assert (L : forall k g, rsumn (S k) g = (g 0%Z + rsumn k (fun i => g (i + 1)%Z))%R).
  { clear. induction k as [|k IH]; intros g; [cbn; ring|]. change (rsumn (S (S k)) g) with (rsumn (S k) g + g (Z.of_nat (S k)))%R. rewrite IH.
    cbn [rsumn]. replace (Z.of_nat k + 1) with (Z.of_nat (S k)) by lia. ring. }
  rewrite L. cbn [rsumn]. rewrite Rplus_comm. f_equal.
  - rewrite <- IH. apply rsumn_ext. intros i Hi. f_equal. lia.
  - f_equal. lia.
Qed.

(** ** the inverse transform gives back a real line *)
Definition dft_re (n : Z) (p : Z -> R) (k : Z) : R := rsum n (fun b => p b * cos (2 * PI * IZR (k * b) / IZR n))%R.
Definition dft_im (n : Z) (p : Z -> R) (k : Z) : R := (- rsum n (fun b => p b * sin (2 * PI * IZR (k * b) / IZR n)))%R.
Lemma real_ifft_ext n re im re' im' x : (forall k, 0 <= k < n -> re k = re' k /\ im k = im' k) -> real_ifft n re im x = real_ifft n re' im' x.
Proof. intros H. unfold real_ifft. f_equal. apply rsum_ext. intros k Hk. destruct (H k Hk) as [-> ->]. reflexivity. Qed.
Lemma real_ifft_inverse n p x : 0 < n -> 0 <= x < n -> real_ifft n (dft_re n p) (dft_im n p) x = p x.
Proof.
  intros Hn Hx. assert (N : (IZR n <> 0)%R) by (apply not_0_IZR; lia). unfold real_ifft.
  transitivity (/ IZR n * rsum n (fun k => rsum n (fun b => p b * cos (2 * PI * IZR (k * (x - b)) / IZR n))))%R.
  { f_equal. apply rsum_ext. intros k _. unfold dft_re, dft_im.
    rewrite <- rsum_scal_r. rewrite Ropp_mult_distr_l_reverse. unfold Rminus. rewrite Ropp_involutive, <- rsum_scal_r, <- rsum_add.
    apply rsum_ext. intros b _.
    replace (2 * PI * IZR (k * (x - b)) / IZR n)%R with (2 * PI * IZR (k * x) / IZR n - 2 * PI * IZR (k * b) / IZR n)%R
      by (rewrite !mult_IZR, minus_IZR; field; exact N).
    rewrite cos_minus. ring. }
  rewrite rsum_swap. transitivity (/ IZR n * rsum n (fun b => p b * (if (x - b) mod n =? 0 then IZR n else 0)))%R.
  { f_equal. apply rsum_ext. intros b _. rewrite rsum_scal. f_equal. apply cos_sum, Hn. }
  rewrite (rsum_single n _ x Hx).
  - rewrite Z.sub_diag, Z.mod_0_l by lia. cbn [Z.eqb]. field. exact N.
  - intros b Hb D. replace ((x - b) mod n =? 0) with false; [ring|]. symmetry. apply Z.eqb_neq. intros E.
    apply Z.mod_divide in E; [|lia]. destruct E as (q & E). assert (q = 0) by nia. lia.
Qed.
(** the sum over the line is the value at frequency zero *)
Lemma real_ifft_total n re im : 0 < n -> rsum n (real_ifft n re im) = re 0.
Proof.
  intros Hn. assert (N : (IZR n <> 0)%R) by (apply not_0_IZR; lia). unfold real_ifft. rewrite rsum_scal, rsum_swap.
  transitivity (/ IZR n * rsum n (fun k => re k * (if k mod n =? 0 then IZR n else 0)))%R.
  { f_equal. apply rsum_ext. intros k _. rewrite rsum_sub, !rsum_scal.
    transitivity (re k * rsum n (fun x => cos (2 * PI * IZR (x * k) / IZR n)) - im k * rsum n (fun x => sin (2 * PI * IZR (x * k) / IZR n)))%R.
    { f_equal; f_equal; apply rsum_ext; intros x _; rewrite (Z.mul_comm k x); reflexivity. }
    rewrite cos_sum, sin_sum by exact Hn. ring. }
  rewrite (rsum_single n _ 0) by (try lia; intros k Hk D; rewrite Z.mod_small by lia; replace (k =? 0) with false by lia; ring).
  rewrite Z.mod_0_l by lia. cbn [Z.eqb]. field. exact N.
Qed.
(** reversed frequencies give the reversed line *)
Lemma real_ifft_mirror n re im x : 0 < n -> real_ifft n (fun k => re ((- k) mod n)) (fun k => im ((- k) mod n)) x = real_ifft n re im (- x).
Proof.
  intros Hn. unfold real_ifft. f_equal.
  set (h := fun k => (re (k mod n) * cos (2 * PI * IZR (k * - x) / IZR n) - im (k mod n) * sin (2 * PI * IZR (k * - x) / IZR n))%R).
  assert (P : forall k, h k = h (k mod n)).
  { intros k. unfold h. rewrite Zmod_mod. f_equal; f_equal; [apply cos_mod|apply sin_mod]; try lia; rewrite Zmult_mod_idemp_l; reflexivity. }
  transitivity (rsum n (fun k => h ((k + 1) mod n))).
  - rewrite <- (rsum_rev n (fun k => h ((k + 1) mod n))) by lia. apply rsum_ext. intros k Hk. rewrite <- P.
    rewrite (P (n - 1 - k + 1)). replace (n - 1 - k + 1) with (- k + 1 * n) by lia. rewrite Z_mod_plus_full, <- P. unfold h.
    replace (- k * - x) with (k * x) by ring. reflexivity.
  - rewrite rsum_cyclic by exact Hn. apply rsum_ext. intros k Hk. unfold h. rewrite Z.mod_small by lia. reflexivity.
Qed.
