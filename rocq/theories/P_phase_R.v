(** Proofs for the real-number part of phase.py: wrapping and the cosine-transform unwrapping. *)
From Coq Require Import Reals ZArith Lia Lra Psatz.
From Verif Require Import Np M_phase_R.
From Coq Require Import List. Import ListNotations.
Open Scope Z_scope.

(** ** wrapping *)
Lemma two_pi_pos : (0 < 2 * PI)%R.
Proof. pose proof PI_RGT_0. lra. Qed.
Lemma Int_part_unique r z : (IZR z <= r < IZR z + 1)%R -> Int_part r = z.
Proof.
  intros [H1 H2]. destruct (base_Int_part r) as [B1 B2].
  assert (IZR (Int_part r) < IZR z + 1)%R by lra. assert (IZR z < IZR (Int_part r) + 1)%R by lra.
  assert (Int_part r < z + 1) by (apply lt_IZR; rewrite plus_IZR; lra).
  assert (z < Int_part r + 1) by (apply lt_IZR; rewrite plus_IZR; lra). lia.
Qed.
Lemma wrap_range x : (- PI <= wrap_to_pi x < PI)%R.
Proof.
  unfold wrap_to_pi, rmod. pose proof two_pi_pos as P. set (q := ((x + PI) / (2 * PI))%R).
  destruct (base_Int_part q) as [B1 B2].
  assert (E : (x + PI = 2 * PI * q)%R) by (unfold q; field; lra).
  rewrite E. clearbody q. set (k := IZR (Int_part q)) in *. clearbody k. clear E.
  assert (0 <= 2 * PI * (q - k))%R by (apply Rmult_le_pos; lra).
  assert (2 * PI * (q - k) < 2 * PI * 1)%R by (apply Rmult_lt_compat_l; lra). lra.
Qed.
Lemma wrap_mod x : exists k, (wrap_to_pi x = x + 2 * PI * IZR k)%R.
Proof. exists (- Int_part ((x + PI) / (2 * PI))). unfold wrap_to_pi, rmod. rewrite opp_IZR. ring. Qed.
Lemma wrap_unique x y k : (- PI <= y < PI)%R -> (x = y + 2 * PI * IZR k)%R -> wrap_to_pi x = y.
Proof.
  intros [H1 H2] ->. unfold wrap_to_pi, rmod. pose proof two_pi_pos as P.
  rewrite (Int_part_unique _ k); [lra|].
  assert (E : ((y + 2 * PI * IZR k + PI) / (2 * PI) = (y + PI) / (2 * PI) + IZR k)%R) by (field; lra).
  rewrite E. split.
  - assert (0 <= (y + PI) / (2 * PI))%R by (apply Rmult_le_pos; [lra|left; apply Rinv_0_lt_compat; lra]). lra.
  - assert ((y + PI) / (2 * PI) < 1)%R by (apply Rmult_lt_reg_r with (2 * PI)%R; [lra|]; unfold Rdiv; rewrite Rmult_assoc, Rinv_l; lra). lra.
Qed.
Lemma wrap_periodic x k : wrap_to_pi (x + 2 * PI * IZR k) = wrap_to_pi x.
Proof.
  destruct (wrap_mod x) as [q E]. apply (wrap_unique _ _ (k - q)); [apply wrap_range|]. rewrite E, minus_IZR. ring.
Qed.

(** ** finite sums *)
Lemma rsumn_ext n f g : (forall i, 0 <= i < Z.of_nat n -> f i = g i) -> rsumn n f = rsumn n g.
Proof. induction n as [|n IH]; intros H; cbn [rsumn]; [reflexivity|]. rewrite IH, H by (intros; try apply H; lia). reflexivity. Qed.
Lemma rsum_ext n f g : (forall i, 0 <= i < n -> f i = g i) -> rsum n f = rsum n g.
Proof. intros H. unfold rsum. apply rsumn_ext. intros i Hi. apply H. lia. Qed.
Lemma rsum_add n f g : rsum n (fun i => f i + g i)%R = (rsum n f + rsum n g)%R.
Proof. unfold rsum. induction (Z.to_nat n) as [|k IH]; cbn [rsumn]; [ring|]. rewrite IH. ring. Qed.
Lemma rsum_sub n f g : rsum n (fun i => f i - g i)%R = (rsum n f - rsum n g)%R.
Proof. unfold rsum. induction (Z.to_nat n) as [|k IH]; cbn [rsumn]; [ring|]. rewrite IH. ring. Qed.
Lemma rsum_scal n c f : rsum n (fun i => c * f i)%R = (c * rsum n f)%R.
Proof. unfold rsum. induction (Z.to_nat n) as [|k IH]; cbn [rsumn]; [ring|]. rewrite IH. ring. Qed.
Lemma rsum_scal_r n c f : rsum n (fun i => f i * c)%R = (rsum n f * c)%R.
Proof. unfold rsum. induction (Z.to_nat n) as [|k IH]; cbn [rsumn]; [ring|]. rewrite IH. ring. Qed.
Lemma rsum_zero n : rsum n (fun _ => 0%R) = 0%R.
Proof. unfold rsum. induction (Z.to_nat n) as [|k IH]; cbn [rsumn]; [ring|]. rewrite IH. ring. Qed.
Lemma rsum_const n c : 0 <= n -> rsum n (fun _ => c) = (IZR n * c)%R.
Proof.
  intros H. unfold rsum. rewrite <- (Z2Nat.id n H) at 2. induction (Z.to_nat n) as [|k IH]; cbn [rsumn]; [ring|].
  rewrite IH, Nat2Z.inj_succ, succ_IZR. ring.
Qed.
Lemma rsum_swap n m f : rsum n (fun i => rsum m (fun j => f i j)) = rsum m (fun j => rsum n (fun i => f i j)).
Proof.
  unfold rsum at 1. unfold rsum at 3. induction (Z.to_nat n) as [|k IH]; cbn [rsumn]; [rewrite rsum_zero; reflexivity|].
  rewrite IH. rewrite rsum_add. reflexivity.
Qed.
Lemma rsum_tele n (W : Z -> R) : 0 <= n -> rsum n (fun i => W (i + 1)%Z - W i)%R = (W n - W 0%Z)%R.
Proof.
  intros H. unfold rsum. rewrite <- (Z2Nat.id n H) at 2. induction (Z.to_nat n) as [|k IH]; cbn [rsumn]; [change (Z.of_nat 0) with 0; ring|].
  rewrite IH, Nat2Z.inj_succ. unfold Z.succ. ring.
Qed.
(** a sum with a single non-zero term *)
Lemma rsum_single n f k : 0 <= k < n -> (forall i, 0 <= i < n -> i <> k -> f i = 0%R) -> rsum n f = f k.
Proof.
  intros Hk H. unfold rsum. replace n with (Z.of_nat (Z.to_nat n)) in Hk, H by lia.
  induction (Z.to_nat n) as [|m IH]; [lia|]. cbn [rsumn]. destruct (Z.eq_dec k (Z.of_nat m)) as [->|Hne].
  - rewrite (rsumn_ext m f (fun _ => 0%R)) by (intros i Hi; apply H; lia).
    pose proof (rsum_zero (Z.of_nat m)) as Z0. unfold rsum in Z0. rewrite Nat2Z.id in Z0. rewrite Z0. ring.
  - rewrite IH; [|lia|intros; apply H; lia]. rewrite (H (Z.of_nat m)) by lia. ring.
Qed.

(** ** the cosine basis: eigenfunctions of the second difference with mirrored ends *)
Lemma cosb_step n k i : 1 <= n ->
  (cosb n k (i + 1) + cosb n k (i - 1) = 2 * cos (PI * IZR k / IZR n) * cosb n k i)%R.
Proof.
  intros Hn. assert (N : IZR n <> 0%R) by (apply not_0_IZR; lia). unfold cosb. rewrite plus_IZR, minus_IZR.
  set (t := (PI * IZR k * (2 * IZR i + 1) / (2 * IZR n))%R). set (h := (PI * IZR k / IZR n)%R).
  replace (PI * IZR k * (2 * (IZR i + 1) + 1) / (2 * IZR n))%R with (t + h)%R by (unfold t, h; field; exact N).
  replace (PI * IZR k * (2 * (IZR i - 1) + 1) / (2 * IZR n))%R with (t - h)%R by (unfold t, h; field; exact N).
  rewrite cos_plus, cos_minus. ring.
Qed.
Lemma cosb_left n k : 1 <= n -> cosb n k (-1) = cosb n k 0.
Proof.
  intros Hn. assert (N : IZR n <> 0%R) by (apply not_0_IZR; lia). unfold cosb.
  rewrite <- (cos_neg (PI * IZR k * (2 * 0 + 1) / (2 * IZR n))). f_equal. field. exact N.
Qed.
Lemma sin_kpi k : sin (PI * IZR k) = 0%R.
Proof. rewrite Rmult_comm. apply sin_eq_0_1. exists k. reflexivity. Qed.
Lemma cosb_right n k : 1 <= n -> cosb n k n = cosb n k (n - 1).
Proof.
  intros Hn. assert (N : IZR n <> 0%R) by (apply not_0_IZR; lia). unfold cosb. rewrite minus_IZR.
  set (h := (PI * IZR k / (2 * IZR n))%R).
  replace (PI * IZR k * (2 * IZR n + 1) / (2 * IZR n))%R with (PI * IZR k + h)%R by (unfold h; field; exact N).
  replace (PI * IZR k * (2 * (IZR n - 1) + 1) / (2 * IZR n))%R with (PI * IZR k - h)%R by (unfold h; field; exact N).
  rewrite cos_plus, cos_minus, sin_kpi. ring.
Qed.
(** the second difference built from the differences between neighbours, zero flux at the ends *)
Definition lap (n : Z) (x : Z -> R) (j : Z) : R := diff0 n (fun j' => x (j' + 1)%Z - x j')%R j.
Definition edge_ext (n : Z) (x : Z -> R) (j : Z) : R := x (clipZ j 0 (n - 1)).
Lemma lap_edge n x j : 0 <= j < n -> lap n x j = (edge_ext n x (j + 1)%Z - 2 * x j + edge_ext n x (j - 1)%Z)%R.
Proof.
  intros Hj. unfold lap, diff0, ext0, edge_ext.
  destruct (Z.eq_dec j 0) as [->|N0].
  - change ((1 <=? 0) && (0 <=? n - 1)) with false. cbv iota. change (0 + 1) with 1. change (0 - 1) with (-1).
    replace (clipZ (-1) 0 (n - 1)) with 0 by (unfold clipZ; lia).
    destruct (Z.eq_dec n 1) as [->|N1].
    + cbn. ring.
    + replace ((1 <=? 1) && (1 <=? n - 1)) with true by lia. replace (clipZ 1 0 (n - 1)) with 1 by (unfold clipZ; lia).
      change (1 - 1) with 0. cbv beta. change (0 + 1) with 1. ring.
  - replace ((1 <=? j) && (j <=? n - 1)) with true by lia. replace (clipZ (j - 1) 0 (n - 1)) with (j - 1) by (unfold clipZ; lia).
    replace (j - 1 + 1) with j by lia.
    destruct (Z.eq_dec j (n - 1)) as [E|N1].
    + replace ((1 <=? j + 1) && (j + 1 <=? n - 1)) with false by lia. replace (clipZ (j + 1) 0 (n - 1)) with j by (unfold clipZ; lia). cbv beta; try ring.
    + replace ((1 <=? j + 1) && (j + 1 <=? n - 1)) with true by lia. replace (clipZ (j + 1) 0 (n - 1)) with (j + 1) by (unfold clipZ; lia).
      replace (j + 1 - 1) with j by lia. cbv beta; try ring.
Qed.
Lemma clip_in_id j n : 0 <= j < n -> clipZ j 0 (n - 1) = j.
Proof. unfold clipZ. lia. Qed.
Lemma dct_lap n x k : 1 <= n ->
  rsum n (fun i => lap n x i * cosb n k i)%R = ((2 * cos (PI * IZR k / IZR n) - 2) * rsum n (fun i => x i * cosb n k i))%R.
Proof.
  intros Hn. set (lam := (2 * cos (PI * IZR k / IZR n) - 2)%R). rewrite <- rsum_scal.
  apply Rminus_diag_uniq. rewrite <- rsum_sub.
  set (e := edge_ext n x). set (W := fun i => (e i * cosb n k (i - 1)%Z - e (i - 1)%Z * cosb n k i)%R).
  rewrite (rsum_ext n _ (fun i => W (i + 1)%Z - W i)%R).
  - rewrite rsum_tele by lia. unfold W.
    change (0 - 1) with (-1). rewrite cosb_left by exact Hn. rewrite cosb_right by exact Hn.
    assert (E1 : e n = e (n - 1)) by (unfold e, edge_ext, clipZ; f_equal; lia).
    assert (E2 : e (-1) = e 0) by (unfold e, edge_ext, clipZ; f_equal; lia).
    rewrite E1, E2. ring.
  - intros i Hi. rewrite lap_edge by exact Hi. fold e. unfold W. replace (i + 1 - 1) with i by lia.
    assert (Ei : e i = x i) by (unfold e, edge_ext; rewrite clip_in_id by lia; reflexivity). rewrite Ei.
    pose proof (cosb_step n k i Hn) as S. unfold lam.
    replace ((2 * cos (PI * IZR k / IZR n) - 2) * (x i * cosb n k i))%R
      with (x i * (2 * cos (PI * IZR k / IZR n) * cosb n k i) - 2 * (x i * cosb n k i))%R by ring.
    rewrite <- S. ring.
Qed.

(** ** orthogonality: the inverse transform *)
Definition dirich (n : Z) (t : R) : R := (rsum n (fun k => half k * cos (IZR k * t)))%R.
Lemma dirich_sin n t : 1 <= n -> (2 * sin (t / 2) * dirich n t = sin ((IZR n - / 2) * t))%R.
Proof.
  intros Hn. unfold dirich. rewrite <- rsum_scal.
  set (W := fun k => if k =? 0 then 0%R else sin ((IZR k - / 2) * t)).
  rewrite (rsum_ext n _ (fun k => W (k + 1)%Z - W k)%R).
  - rewrite rsum_tele by lia. unfold W. replace (n =? 0) with false by lia. change (0 =? 0) with true. cbv iota. ring.
  - intros k Hk. unfold W, half. replace (k + 1 =? 0) with false by lia. rewrite plus_IZR.
    destruct (Z.eqb_spec k 0) as [->|Nk].
    + replace ((0 + 1 - / 2) * t)%R with (t / 2)%R by field. rewrite Rmult_0_l, cos_0. field.
    + replace ((IZR k + 1 - / 2) * t)%R with (IZR k * t + t / 2)%R by field.
      replace ((IZR k - / 2) * t)%R with (IZR k * t - t / 2)%R by field.
      rewrite sin_plus, sin_minus. ring.
Qed.
Lemma dirich_0 n : 1 <= n -> dirich n 0 = (IZR n - / 2)%R.
Proof.
  intros Hn. unfold dirich. rewrite (rsum_ext n _ (fun k => 1 - (if Z.eqb k 0 then / 2 else 0))%R).
  - rewrite rsum_sub, rsum_const by lia. rewrite (rsum_single n _ 0); [|lia|intros i Hi Ni; replace (i =? 0) with false by lia; reflexivity].
    change (0 =? 0) with true. cbv iota. ring.
  - intros k _. rewrite Rmult_0_r, cos_0. unfold half. destruct (k =? 0); field.
Qed.
Lemma cos_kpi k : cos (PI * IZR k) = if Z.even k then 1%R else (-1)%R.
Proof.
  assert (E : forall q, cos (PI * IZR (2 * q)) = 1%R).
  { intros q. rewrite mult_IZR. replace (PI * (2 * IZR q))%R with (2 * (PI * IZR q))%R by ring. rewrite cos_2a, sin_kpi.
    pose proof (sin2_cos2 (PI * IZR q)) as S. rewrite sin_kpi in S. unfold Rsqr in S. lra. }
  destruct (Z.even k) eqn:Ev.
  - apply Z.even_spec in Ev as [q ->]. apply E.
  - rewrite <- Z.negb_odd in Ev. apply Bool.negb_false_iff in Ev. apply Z.odd_spec in Ev as [q ->].
    rewrite plus_IZR. replace (PI * (IZR (2 * q) + 1))%R with (PI * IZR (2 * q) + PI)%R by ring.
    rewrite cos_plus, E, cos_PI, sin_PI. ring.
Qed.
Lemma dirich_p n p : 1 <= n -> 0 < p < 2 * n ->
  dirich n (PI * IZR p / IZR n) = (if Z.even p then - / 2 else / 2)%R.
Proof.
  intros Hn Hp. assert (N : (0 < IZR n)%R) by (apply IZR_lt; lia).
  pose proof (dirich_sin n (PI * IZR p / IZR n) Hn) as S.
  set (h := (PI * IZR p / IZR n / 2)%R) in *.
  replace ((IZR n - / 2) * (PI * IZR p / IZR n))%R with (PI * IZR p - h)%R in S by (unfold h; field; lra).
  rewrite sin_minus, sin_kpi, cos_kpi in S.
  assert (Hh : (0 < h < PI)%R).
  { pose proof PI_RGT_0 as PP. assert (E : h = (PI * (IZR p / (2 * IZR n)))%R) by (unfold h; field; lra).
    assert (0 < IZR p / (2 * IZR n) < 1)%R.
    { split; [apply Rdiv_lt_0_compat; [apply IZR_lt; lia|lra]|].
      apply Rmult_lt_reg_r with (2 * IZR n)%R; [lra|]. unfold Rdiv. rewrite Rmult_assoc, Rinv_l, Rmult_1_r, Rmult_1_l by lra.
      rewrite <- mult_IZR. apply IZR_lt. lia. }
    rewrite E. split; [apply Rmult_lt_0_compat; lra|]. rewrite <- (Rmult_1_r PI) at 2. apply Rmult_lt_compat_l; lra. }
  pose proof (sin_gt_0 h (proj1 Hh) (proj2 Hh)) as Sp.
  apply Rmult_eq_reg_l with (2 * sin h)%R; [|lra]. rewrite S. destruct (Z.even p); field.
Qed.
(** sum over the frequencies of the product of two samples *)
Lemma cos_ortho n i m : 1 <= n -> 0 <= i < n -> 0 <= m < n ->
  rsum n (fun k => half k * (cosb n k m * cosb n k i))%R = (if i =? m then IZR n / 2 else 0)%R.
Proof.
  intros Hn Hi Hm. assert (N : (0 < IZR n)%R) by (apply IZR_lt; lia).
  set (p := Z.abs (i - m)). set (q := i + m + 1).
  assert (E : rsum n (fun k => half k * (cosb n k m * cosb n k i))%R
    = (/ 2 * (dirich n (PI * IZR p / IZR n) + dirich n (PI * IZR q / IZR n)))%R).
  { unfold dirich. rewrite <- rsum_add, <- rsum_scal. apply rsum_ext. intros k _. unfold cosb.
    set (a := (PI * IZR k * (2 * IZR i + 1) / (2 * IZR n))%R). set (b := (PI * IZR k * (2 * IZR m + 1) / (2 * IZR n))%R).
    assert (E1 : cos (IZR k * (PI * IZR p / IZR n)) = cos (a - b)).
    { unfold p. destruct (Z_le_gt_dec m i).
      - rewrite Z.abs_eq, minus_IZR by lia. f_equal. unfold a, b. field. lra.
      - rewrite Z.abs_neq, opp_IZR, minus_IZR by lia. rewrite <- cos_neg. f_equal. unfold a, b. field. lra. }
    assert (E2 : cos (IZR k * (PI * IZR q / IZR n)) = cos (a + b)).
    { unfold q. rewrite !plus_IZR. f_equal. unfold a, b. field. lra. }
    rewrite E1, E2, cos_plus, cos_minus. field. }
  rewrite E. rewrite (dirich_p n q Hn) by (unfold q; lia).
  destruct (Z.eqb_spec i m) as [->|Ne].
  - unfold p. rewrite Z.sub_diag. change (IZR (Z.abs 0)) with 0%R.
    replace (PI * 0 / IZR n)%R with 0%R by (field; lra). rewrite dirich_0 by exact Hn.
    assert (Ev : Z.even q = false).
    { unfold q. replace (m + m + 1) with (1 + 2 * m) by lia. rewrite Z.even_add_mul_2. reflexivity. }
    rewrite Ev. field.
  - rewrite (dirich_p n p Hn) by (unfold p; lia).
    assert (Ev : Z.even q = negb (Z.even p)).
    { unfold p, q. replace (i + m + 1) with ((i - m) + (2 * m + 1)) by lia. rewrite Z.even_add.
      replace (2 * m + 1) with (1 + 2 * m) by lia. rewrite Z.even_add_mul_2. change (Z.even 1) with false.
      assert (Ea : Z.even (Z.abs (i - m)) = Z.even (i - m)) by (destruct (Z.abs_eq_or_opp (i - m)) as [-> | ->]; [reflexivity|apply Z.even_opp]). rewrite Ea. destruct (Z.even (i - m)); reflexivity. }
    rewrite Ev. destruct (Z.even p); cbn [negb]; field.
Qed.
Lemma rsum_exp4 n m (a b : Z -> R) : (rsum n a * rsum m b = rsum n (fun i => rsum m (fun j => a i * b j)))%R.
Proof.
  rewrite <- rsum_scal_r. apply rsum_ext. intros i _. rewrite <- rsum_scal. reflexivity.
Qed.
(** scipy's inverse pair, proved from the formulas *)
Lemma idctn_dctn (m y : img R) : 1 <= nrow m -> 1 <= ncol m -> nrow y = nrow m -> ncol y = ncol m ->
  (forall k l, in_rng (nrow m) k -> in_rng (ncol m) l -> px y k l = px (dctn m) k l) ->
  forall i j, in_rng (nrow m) i -> in_rng (ncol m) j -> px (idctn y) i j = px m i j.
Proof.
  unfold in_rng. intros H1 H2 Hr Hc Hy i j Hi Hj. unfold idctn. cbn [px]. rewrite Hr, Hc. set (h := nrow m) in *. set (w := ncol m) in *.
  assert (Nh : (0 < IZR h)%R) by (apply IZR_lt; lia). assert (Nw : (0 < IZR w)%R) by (apply IZR_lt; lia).
  assert (E : rsum h (fun k => rsum w (fun l => half k * half l * px y k l * cosb h k i * cosb w l j))%R
    = rsum h (fun a => rsum w (fun b => 4 * px m a b *
        (rsum h (fun k => half k * (cosb h k a * cosb h k i)) * rsum w (fun l => half l * (cosb w l b * cosb w l j)))))%R).
  { transitivity (rsum h (fun k => rsum w (fun l => rsum h (fun a => rsum w (fun b =>
       4 * px m a b * ((half k * (cosb h k a * cosb h k i)) * (half l * (cosb w l b * cosb w l j)))))))%R).
    - apply rsum_ext. intros k Hk. apply rsum_ext. intros l Hl. rewrite Hy by assumption. unfold dctn. cbn [px]. fold h w.
      replace (half k * half l * (4 * rsum h (fun i0 => rsum w (fun j0 => px m i0 j0 * cosb h k i0 * cosb w l j0))) * cosb h k i * cosb w l j)%R
        with (4 * half k * half l * cosb h k i * cosb w l j * rsum h (fun i0 => rsum w (fun j0 => px m i0 j0 * cosb h k i0 * cosb w l j0)))%R by ring.
      rewrite <- rsum_scal. apply rsum_ext. intros a _. rewrite <- rsum_scal. apply rsum_ext. intros b _. ring.
    - transitivity (rsum h (fun k => rsum h (fun a => rsum w (fun l => rsum w (fun b =>
       4 * px m a b * ((half k * (cosb h k a * cosb h k i)) * (half l * (cosb w l b * cosb w l j)))))))%R).
      { apply rsum_ext. intros k _. rewrite rsum_swap. reflexivity. }
      rewrite rsum_swap. apply rsum_ext. intros a _.
      transitivity (rsum h (fun k => rsum w (fun b => rsum w (fun l =>
       4 * px m a b * ((half k * (cosb h k a * cosb h k i)) * (half l * (cosb w l b * cosb w l j))))))%R).
      { apply rsum_ext. intros k _. rewrite rsum_swap. reflexivity. }
      rewrite rsum_swap. apply rsum_ext. intros b _. rewrite rsum_exp4, <- rsum_scal. apply rsum_ext. intros k _.
      rewrite <- rsum_scal. reflexivity. }
  rewrite E. clear E.
  rewrite (rsum_single h _ i Hi).
  - rewrite (rsum_single w _ j Hj).
    + rewrite !cos_ortho by lia. rewrite !Z.eqb_refl. field. lra.
    + intros b Hb Nb. rewrite (cos_ortho w j b) by lia. replace (j =? b) with false by lia. ring.
  - intros a Ha Na. rewrite (rsum_ext w _ (fun _ => 0%R)); [apply rsum_zero|]. intros b _.
    rewrite (cos_ortho h i a) by lia. replace (i =? a) with false by lia. ring.
Qed.

(** ** C79 *)
Definition neumann (m : img R) : img R :=
  mkimg (nrow m) (ncol m) (fun i j => lap (ncol m) (fun j' => px m i j') j + lap (nrow m) (fun i' => px m i' j) i)%R.
Lemma dctn_neumann m k l : 1 <= nrow m -> 1 <= ncol m ->
  px (dctn (neumann m)) k l =
  (2 * (cos (PI * IZR k / IZR (nrow m)) + cos (PI * IZR l / IZR (ncol m)) - 2) * px (dctn m) k l)%R.
Proof.
  intros H1 H2. unfold dctn, neumann. cbn [px nrow ncol]. set (h := nrow m). set (w := ncol m).
  set (A := rsum h (fun i => rsum w (fun j => px m i j * cosb h k i * cosb w l j))%R).
  assert (E1 : rsum h (fun i => rsum w (fun j => lap w (fun j' => px m i j') j * cosb h k i * cosb w l j))%R = ((2 * cos (PI * IZR l / IZR w) - 2) * A)%R).
  { unfold A. rewrite <- rsum_scal. apply rsum_ext. intros i _.
    rewrite (rsum_ext w _ (fun j => cosb h k i * (lap w (fun j' => px m i j') j * cosb w l j))%R) by (intros; ring).
    rewrite rsum_scal, dct_lap by (unfold w; lia).
    rewrite (rsum_ext w (fun j => px m i j * cosb h k i * cosb w l j)%R (fun j => cosb h k i * (px m i j * cosb w l j))%R) by (intros; ring).
    rewrite rsum_scal. ring. }
  assert (E2 : rsum h (fun i => rsum w (fun j => lap h (fun i' => px m i' j) i * cosb h k i * cosb w l j))%R = ((2 * cos (PI * IZR k / IZR h) - 2) * A)%R).
  { unfold A. rewrite rsum_swap. rewrite (rsum_swap h w (fun i j => px m i j * cosb h k i * cosb w l j)%R). rewrite <- rsum_scal. apply rsum_ext. intros j _.
    rewrite (rsum_ext h _ (fun i => cosb w l j * (lap h (fun i' => px m i' j) i * cosb h k i))%R) by (intros; ring).
    rewrite rsum_scal, dct_lap by (unfold h; lia).
    rewrite (rsum_ext h (fun i => px m i j * cosb h k i * cosb w l j)%R (fun i => cosb w l j * (px m i j * cosb h k i))%R) by (intros; ring).
    rewrite rsum_scal. ring. }
  transitivity (4 * (rsum h (fun i => rsum w (fun j => lap w (fun j' => px m i j') j * cosb h k i * cosb w l j)) +
                     rsum h (fun i => rsum w (fun j => lap h (fun i' => px m i' j) i * cosb h k i * cosb w l j))))%R.
  - f_equal. rewrite <- rsum_add. apply rsum_ext. intros i _. rewrite <- rsum_add. apply rsum_ext. intros j _. ring.
  - rewrite E1, E2. ring.
Qed.
Lemma cos_le1 k n : 1 <= n -> 0 <= k < n -> (cos (PI * IZR k / IZR n) <= 1)%R /\ (k <> 0 -> (cos (PI * IZR k / IZR n) < 1)%R).
Proof.
  intros Hn Hk. split; [apply COS_bound|]. intros Nk. assert (N : (0 < IZR n)%R) by (apply IZR_lt; lia). pose proof PI_RGT_0 as PP.
  rewrite <- cos_0. assert (0 < IZR k / IZR n < 1)%R.
  { split; [apply Rdiv_lt_0_compat; [apply IZR_lt; lia|lra]|]. apply Rmult_lt_reg_r with (IZR n); [lra|].
    unfold Rdiv. rewrite Rmult_assoc, Rinv_l, Rmult_1_r, Rmult_1_l by lra. apply IZR_lt. lia. }
  replace (PI * IZR k / IZR n)%R with (PI * (IZR k / IZR n))%R by (field; lra).
  assert (0 < PI * (IZR k / IZR n))%R by (apply Rmult_lt_0_compat; lra).
  assert (PI * (IZR k / IZR n) < PI * 1)%R by (apply Rmult_lt_compat_l; lra).
  apply cos_decreasing_1; lra.
Qed.
Lemma window_neg h w k l : 1 <= h -> 1 <= w -> 0 <= k < h -> 0 <= l < w -> ~ (k = 0 /\ l = 0) ->
  (2 * (cos (PI * IZR k / IZR h) + cos (PI * IZR l / IZR w) - 2) < 0)%R.
Proof.
  intros H1 H2 Hk Hl N. destruct (cos_le1 k h H1 Hk) as [A A']. destruct (cos_le1 l w H2 Hl) as [B B'].
  destruct (Z.eq_dec k 0) as [->|Nk]; [|specialize (A' Nk); lra]. destruct (Z.eq_dec l 0) as [->|Nl]; [lia|]. specialize (B' Nl). lra.
Qed.
Definition shift_by (c : R) (m : img R) : img R := mkimg (nrow m) (ncol m) (fun i j => px m i j - c)%R.
Lemma dctn_shift m c k l : 1 <= nrow m -> 1 <= ncol m -> in_rng (nrow m) k -> in_rng (ncol m) l ->
  px (dctn (shift_by c m)) k l = (px (dctn m) k l - (if (k =? 0) && (l =? 0) then 4 * c * IZR (nrow m) * IZR (ncol m) else 0))%R.
Proof.
  intros H1 H2 Hk Hl.
  assert (Hc : px (dctn (shift_by c m)) k l = (px (dctn m) k l - px (dctn (mkimg (nrow m) (ncol m) (fun _ _ => c))) k l)%R).
  { unfold dctn, shift_by. cbn [px nrow ncol]. rewrite <- Rmult_minus_distr_l. f_equal. rewrite <- rsum_sub. apply rsum_ext. intros i _.
    rewrite <- rsum_sub. apply rsum_ext. intros j _. ring. }
  rewrite Hc. f_equal. set (C := mkimg (nrow m) (ncol m) (fun _ _ => c)).
  destruct ((k =? 0) && (l =? 0)) eqn:E.
  - assert (k = 0) by lia. assert (l = 0) by lia. subst. unfold dctn, C. cbn [px nrow ncol].
    rewrite (rsum_ext (nrow m) _ (fun _ => IZR (ncol m) * c)%R).
    + rewrite rsum_const by lia. ring.
    + intros i _. rewrite (rsum_ext (ncol m) _ (fun _ => c)); [apply rsum_const; lia|]. intros j _. unfold cosb.
      assert (Z1 : forall n x, 1 <= n -> (PI * 0 * x / (2 * IZR n) = 0)%R) by (intros; field; apply not_0_IZR; lia).
      rewrite !Z1, cos_0 by lia. ring.
  - pose proof (dctn_neumann C k l H1 H2) as D. cbn [C nrow ncol] in D. fold C in D.
    pose proof (window_neg (nrow m) (ncol m) k l H1 H2 Hk Hl ltac:(lia)) as Ne.
    assert (Z0 : px (dctn (neumann C)) k l = 0%R).
    { unfold dctn, neumann. cbn [px nrow ncol C]. rewrite (rsum_ext (nrow m) _ (fun _ => 0%R)); [rewrite rsum_zero; ring|].
      intros i _. rewrite (rsum_ext (ncol m) _ (fun _ => 0%R)); [apply rsum_zero|]. intros j _.
      unfold lap, diff0, ext0. repeat match goal with |- context [if ?b then _ else _] => destruct b end; ring. }
    rewrite Z0 in D. symmetry in D. apply Rmult_integral in D as [D|D]; [lra|exact D].
Qed.
Lemma rho_mod (a b : img R) : nrow a = nrow b -> ncol a = ncol b ->
  (forall i j, in_rng (nrow a) i -> in_rng (ncol a) j -> exists k, (px a i j = px b i j + 2 * PI * IZR k)%R) ->
  forall i j, in_rng (nrow a) i -> in_rng (ncol a) j -> px (unwrap_rho a) i j = px (unwrap_rho b) i j.
Proof.
  unfold in_rng. intros Hr Hc H i j Hi Hj. unfold unwrap_rho, diff0. cbn [px]. rewrite <- Hr, <- Hc.
  assert (G : forall x y x' y', (exists k, (x = x' + 2 * PI * IZR k)%R) -> (exists k, (y = y' + 2 * PI * IZR k)%R) ->
            wrap_to_pi (x - y) = wrap_to_pi (x' - y')).
  { intros x y x' y' [p ->] [q ->]. replace (x' + 2 * PI * IZR p - (y' + 2 * PI * IZR q))%R with (x' - y' + 2 * PI * IZR (p - q))%R by (rewrite minus_IZR; ring).
    apply wrap_periodic. }
  assert (E1 : forall j', 0 <= j' <= ncol a -> ext0 (ncol a) (fun j' => wrap_to_pi (px a i (j' + 1) - px a i j')) j' = ext0 (ncol a) (fun j' => wrap_to_pi (px b i (j' + 1) - px b i j')) j').
  { intros j' Hj'. unfold ext0. destruct ((1 <=? j') && (j' <=? ncol a - 1)) eqn:E; [|reflexivity]. apply G; apply H; lia. }
  assert (E2 : forall i', 0 <= i' <= nrow a -> ext0 (nrow a) (fun i' => wrap_to_pi (px a (i' + 1) j - px a i' j)) i' = ext0 (nrow a) (fun i' => wrap_to_pi (px b (i' + 1) j - px b i' j)) i').
  { intros i' Hi'. unfold ext0. destruct ((1 <=? i') && (i' <=? nrow a - 1)) eqn:E; [|reflexivity]. apply G; apply H; lia. }
  rewrite !E1, !E2 by lia. reflexivity.
Qed.
Definition small_steps (m : img R) : Prop :=
  (forall i j, in_rng (nrow m) i -> 0 <= j -> j + 1 < ncol m -> (- PI <= px m i (j + 1)%Z - px m i j < PI)%R) /\
  (forall i j, in_rng (ncol m) j -> 0 <= i -> i + 1 < nrow m -> (- PI <= px m (i + 1)%Z j - px m i j < PI)%R).
Lemma rho_small m : small_steps m -> forall i j, in_rng (nrow m) i -> in_rng (ncol m) j -> px (unwrap_rho m) i j = px (neumann m) i j.
Proof.
  unfold in_rng. intros [Hx Hy] i j Hi Hj. unfold unwrap_rho, neumann, lap, diff0. cbn [px].
  assert (G : forall d, (- PI <= d < PI)%R -> wrap_to_pi d = d).
  { intros d Hd. apply (wrap_unique d d 0 Hd). ring. }
  assert (E1 : forall j', ext0 (ncol m) (fun j' => wrap_to_pi (px m i (j' + 1) - px m i j')) j' = ext0 (ncol m) (fun j' => px m i (j' + 1)%Z - px m i j')%R j').
  { intros j'. unfold ext0. destruct ((1 <=? j') && (j' <=? ncol m - 1)) eqn:E; [|reflexivity]. apply G. apply Hx; unfold in_rng; lia. }
  assert (E2 : forall i', ext0 (nrow m) (fun i' => wrap_to_pi (px m (i' + 1) j - px m i' j)) i' = ext0 (nrow m) (fun i' => px m (i' + 1)%Z j - px m i' j)%R i').
  { intros i'. unfold ext0. destruct ((1 <=? i') && (i' <=? nrow m - 1)) eqn:E; [|reflexivity]. apply G. apply Hy; unfold in_rng; lia. }
  rewrite !E1, !E2. reflexivity.
Qed.
Lemma dctn_ext a b : nrow a = nrow b -> ncol a = ncol b ->
  (forall i j, in_rng (nrow a) i -> in_rng (ncol a) j -> px a i j = px b i j) -> forall k l, px (dctn a) k l = px (dctn b) k l.
Proof.
  intros Hr Hc H k l. unfold dctn. cbn [px]. rewrite <- Hr, <- Hc. f_equal. apply rsum_ext. intros i Hi. apply rsum_ext. intros j Hj.
  rewrite H by assumption. reflexivity.
Qed.
Lemma idctn_ext a b : nrow a = nrow b -> ncol a = ncol b ->
  (forall i j, in_rng (nrow a) i -> in_rng (ncol a) j -> px a i j = px b i j) -> forall k l, px (idctn a) k l = px (idctn b) k l.
Proof.
  intros Hr Hc H k l. unfold idctn. cbn [px]. rewrite <- Hr, <- Hc. f_equal. apply rsum_ext. intros i Hi. apply rsum_ext. intros j Hj.
  rewrite H by assumption. reflexivity.
Qed.
Lemma unwrap_mod a b : nrow a = nrow b -> ncol a = ncol b ->
  (forall i j, in_rng (nrow a) i -> in_rng (ncol a) j -> exists k, (px a i j = px b i j + 2 * PI * IZR k)%R) ->
  forall i j, px (unwrap_cosine a) i j = px (unwrap_cosine b) i j.
Proof.
  intros Hr Hc H i j. unfold unwrap_cosine. apply idctn_ext; cbn [nrow ncol]; auto. intros k l _ _. cbn [px]. rewrite Hr, Hc. f_equal.
  apply dctn_ext; [exact Hr|exact Hc|]. intros p q Hp Hq. apply (rho_mod a b Hr Hc H); assumption.
Qed.
Lemma unwrap_true phi : 1 <= nrow phi -> 1 <= ncol phi -> small_steps phi ->
  forall i j, in_rng (nrow phi) i -> in_rng (ncol phi) j ->
  px (unwrap_cosine phi) i j = (px phi i j - rmean2 (nrow phi) (ncol phi) (px phi))%R.
Proof.
  intros H1 H2 Hs i j Hi Hj. set (c := rmean2 _ _ _).
  assert (Nh : (0 < IZR (nrow phi))%R) by (apply IZR_lt; lia). assert (Nw : (0 < IZR (ncol phi))%R) by (apply IZR_lt; lia).
  unfold unwrap_cosine. cbn zeta.
  rewrite (idctn_dctn (shift_by c phi)); cbn [shift_by nrow ncol]; auto.
  intros k l Hk Hl. change (mkimg (nrow phi) (ncol phi) (fun i j => px phi i j - c)%R) with (shift_by c phi). rewrite dctn_shift by assumption. cbn [px cosine_window].
  rewrite (dctn_ext (unwrap_rho phi) (neumann phi)) by (first [reflexivity | intros; apply rho_small; assumption]).
  rewrite dctn_neumann by assumption.
  destruct ((k =? 0) && (l =? 0)) eqn:E.
  - assert (k = 0) by lia. assert (l = 0) by lia. subst.
    assert (Z1 : forall n, (0 < n)%R -> (PI * 0 / n = 0)%R) by (intros; field; lra).
    rewrite !Z1, cos_0 by assumption.
    assert (D : px (dctn phi) 0 0 = (4 * c * IZR (nrow phi) * IZR (ncol phi))%R).
    { unfold c, rmean2, dctn. cbn [px].
      rewrite (rsum_ext (nrow phi) (fun i0 => rsum (ncol phi) (fun j0 => px phi i0 j0 * cosb (nrow phi) 0 i0 * cosb (ncol phi) 0 j0))%R (fun i0 => rsum (ncol phi) (px phi i0))).
      - field. lra.
      - intros i0 _. apply rsum_ext. intros j0 _. unfold cosb.
        assert (Z2 : forall n x, (0 < n)%R -> (PI * 0 * x / (2 * n) = 0)%R) by (intros; field; lra).
        rewrite !Z2, cos_0 by assumption. ring. }
    rewrite D. lra.
  - pose proof (window_neg (nrow phi) (ncol phi) k l H1 H2 Hk Hl ltac:(lia)) as Ne. field. lra.
Qed.
