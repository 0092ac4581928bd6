(** Proofs about the ellipse fit of calibration.py. *)
From Coq Require Import Reals Lra ZArith Lia Bool List. Import ListNotations.
From Verif Require Import Np P_Np M_phase_R P_phase_R M_corr P_corr M_simR S_simR P_simR P_simR2 P_simR4 M_calib S_calib.
Open Scope R_scope.

Lemma sq_pos x : x <> 0 -> 0 < x ^ 2.
Proof. intros H. assert (G := Rlt_0_sqr x H). unfold Rsqr in G. simpl. lra. Qed.
(** ** five points of the unit circle determine it among the conics *)
Lemma poly3_zero p q r s u0 u1 u2 u3 : u0 <> u1 -> u0 <> u2 -> u0 <> u3 -> u1 <> u2 -> u1 <> u3 -> u2 <> u3 ->
  p * u0 ^ 3 + q * u0 ^ 2 + r * u0 + s = 0 -> p * u1 ^ 3 + q * u1 ^ 2 + r * u1 + s = 0 ->
  p * u2 ^ 3 + q * u2 ^ 2 + r * u2 + s = 0 -> p * u3 ^ 3 + q * u3 ^ 2 + r * u3 + s = 0 -> p = 0 /\ q = 0 /\ r = 0 /\ s = 0.
Proof.
  intros N01 N02 N03 N12 N13 N23 E0 E1 E2 E3.
  assert (C : forall a b, a <> 0 -> a * b = 0 -> b = 0) by (intros a b Ha H; apply Rmult_integral in H; tauto).
  assert (D1 : p * (u0 ^ 2 + u0 * u1 + u1 ^ 2) + q * (u0 + u1) + r = 0).
  { apply (C (u0 - u1)); [lra|]. replace ((u0 - u1) * (p * (u0 ^ 2 + u0 * u1 + u1 ^ 2) + q * (u0 + u1) + r)) with ((p * u0 ^ 3 + q * u0 ^ 2 + r * u0 + s) - (p * u1 ^ 3 + q * u1 ^ 2 + r * u1 + s)) by ring. lra. }
  assert (D2 : p * (u0 ^ 2 + u0 * u2 + u2 ^ 2) + q * (u0 + u2) + r = 0).
  { apply (C (u0 - u2)); [lra|]. replace ((u0 - u2) * (p * (u0 ^ 2 + u0 * u2 + u2 ^ 2) + q * (u0 + u2) + r)) with ((p * u0 ^ 3 + q * u0 ^ 2 + r * u0 + s) - (p * u2 ^ 3 + q * u2 ^ 2 + r * u2 + s)) by ring. lra. }
  assert (D3 : p * (u0 ^ 2 + u0 * u3 + u3 ^ 2) + q * (u0 + u3) + r = 0).
  { apply (C (u0 - u3)); [lra|]. replace ((u0 - u3) * (p * (u0 ^ 2 + u0 * u3 + u3 ^ 2) + q * (u0 + u3) + r)) with ((p * u0 ^ 3 + q * u0 ^ 2 + r * u0 + s) - (p * u3 ^ 3 + q * u3 ^ 2 + r * u3 + s)) by ring. lra. }
  assert (F2 : p * (u0 + u1 + u2) + q = 0).
  { apply (C (u1 - u2)); [lra|]. replace ((u1 - u2) * (p * (u0 + u1 + u2) + q)) with ((p * (u0 ^ 2 + u0 * u1 + u1 ^ 2) + q * (u0 + u1) + r) - (p * (u0 ^ 2 + u0 * u2 + u2 ^ 2) + q * (u0 + u2) + r)) by ring. lra. }
  assert (F3 : p * (u0 + u1 + u3) + q = 0).
  { apply (C (u1 - u3)); [lra|]. replace ((u1 - u3) * (p * (u0 + u1 + u3) + q)) with ((p * (u0 ^ 2 + u0 * u1 + u1 ^ 2) + q * (u0 + u1) + r) - (p * (u0 ^ 2 + u0 * u3 + u3 ^ 2) + q * (u0 + u3) + r)) by ring. lra. }
  assert (P : p = 0).
  { apply (C (u2 - u3)); [lra|]. replace ((u2 - u3) * p) with ((p * (u0 + u1 + u2) + q) - (p * (u0 + u1 + u3) + q)) by ring. lra. }
  subst p. assert (q = 0) by lra. subst q. assert (r = 0) by lra. subst r. repeat split; lra.
Qed.
Definition quad (a b c d e f x y : R) : R := a * x ^ 2 + b * (x * y) + c * y ^ 2 + d * x + e * y + f.
(** slope from (-1, 0) *)
Lemma circle_slope a b c d e f x y : x ^ 2 + y ^ 2 = 1 -> x <> -1 -> quad a b c d e f x y = 0 -> a - d + f = 0 ->
  let u := y / (1 + x) in (2 * e - 2 * b) * u ^ 3 + (4 * c - 2 * a + 2 * f) * u ^ 2 + (2 * b + 2 * e) * u + (a + d + f) = 0 /\ y = u * (1 + x) /\ x * (1 + u ^ 2) = 1 - u ^ 2.
Proof.
  intros H1 Hx Q L u. assert (X : 1 + x <> 0) by lra. assert (Y : y = u * (1 + x)) by (unfold u; field; exact X).
  assert (U : x * (1 + u ^ 2) = 1 - u ^ 2).
  { assert (W : (1 + x) * (x * (1 + u ^ 2) - (1 - u ^ 2)) = 0) by (rewrite Y in H1; replace ((1 + x) * (x * (1 + u ^ 2) - (1 - u ^ 2))) with (x ^ 2 + (u * (1 + x)) ^ 2 - 1) by ring; lra).
    apply Rmult_integral in W. lra. }
  split; [|split; assumption].
  assert (P : 0 < 1 + u ^ 2) by (assert (G := pow2_ge_0 u); lra).
  assert (Ex : x = (1 - u ^ 2) / (1 + u ^ 2)) by (apply (Rmult_eq_reg_r (1 + u ^ 2)); [rewrite U; field; lra|lra]).
  assert (Ey : y = 2 * u / (1 + u ^ 2)) by (rewrite Y, Ex; field; lra).
  unfold quad in Q. rewrite Ex, Ey in Q.
  assert (M : (1 + u ^ 2) ^ 2 * (a * ((1 - u ^ 2) / (1 + u ^ 2)) ^ 2 + b * ((1 - u ^ 2) / (1 + u ^ 2) * (2 * u / (1 + u ^ 2))) + c * (2 * u / (1 + u ^ 2)) ^ 2 + d * ((1 - u ^ 2) / (1 + u ^ 2)) + e * (2 * u / (1 + u ^ 2)) + f) =
     (a - d + f) * u ^ 4 + ((2 * e - 2 * b) * u ^ 3 + (4 * c - 2 * a + 2 * f) * u ^ 2 + (2 * b + 2 * e) * u + (a + d + f))) by (field; lra).
  rewrite Q, L in M. lra.
Qed.
Lemma circle_unique a b c d e f (p1 p2 p3 p4 : R * R) :
  (forall p, In p [p1; p2; p3; p4] -> fst p ^ 2 + snd p ^ 2 = 1 /\ quad a b c d e f (fst p) (snd p) = 0) -> quad a b c d e f (-1) 0 = 0 ->
  NoDup [(-1, 0); p1; p2; p3; p4] -> b = 0 /\ c = a /\ d = 0 /\ e = 0 /\ f = - a.
Proof.
  intros H Q ND. assert (L : a - d + f = 0) by (unfold quad in Q; lra).
  assert (N : forall p, In p [p1; p2; p3; p4] -> fst p <> -1).
  { intros p Hp C. destruct (H p Hp) as (E & _). assert (Y : snd p ^ 2 = 0) by (rewrite C in E; lra). assert (snd p = 0) by (destruct (Req_dec (snd p) 0) as [Z|Z]; [exact Z|]; exfalso; assert (0 < snd p ^ 2) by (apply sq_pos; exact Z); lra).
    assert (p = (-1, 0)) by (destruct p; cbn in *; congruence). subst p. inversion ND; contradiction. }
  set (u := fun p : R * R => snd p / (1 + fst p)).
  assert (K : forall p, In p [p1; p2; p3; p4] -> (2 * e - 2 * b) * u p ^ 3 + (4 * c - 2 * a + 2 * f) * u p ^ 2 + (2 * b + 2 * e) * u p + (a + d + f) = 0 /\ snd p = u p * (1 + fst p) /\ fst p * (1 + u p ^ 2) = 1 - u p ^ 2).
  { intros p Hp. destruct (H p Hp). apply circle_slope; auto. }
  assert (I : forall p q, In p [p1; p2; p3; p4] -> In q [p1; p2; p3; p4] -> p <> q -> u p <> u q).
  { intros p q Hp Hq Hn C. apply Hn. destruct (K p Hp) as (_ & Y1 & X1), (K q Hq) as (_ & Y2 & X2). rewrite C in *.
    assert (P : 0 < 1 + u q ^ 2) by (assert (G := pow2_ge_0 (u q)); lra).
    assert (X : fst p = fst q) by (apply (Rmult_eq_reg_r (1 + u q ^ 2)); lra). rewrite X in Y1. destruct p, q; cbn in *; congruence. }
  assert (ND' := ND). inversion ND' as [|? ? _ ND1]; subst. inversion ND1 as [|? ? M1 ND2]; subst. inversion ND2 as [|? ? M2 ND3]; subst. inversion ND3 as [|? ? M3 _]; subst.
  cbn [In] in M1, M2, M3.
  destruct (poly3_zero (2 * e - 2 * b) (4 * c - 2 * a + 2 * f) (2 * b + 2 * e) (a + d + f) (u p1) (u p2) (u p3) (u p4)) as (A1 & A2 & A3 & A4);
    try (apply I; [cbn; tauto|cbn; tauto|intros ->; tauto]); try (apply K; cbn; tauto).
  repeat split; lra.
Qed.

(** ** the conic of an ellipse *)
Section ellipse.
Variables (xc yc a b theta : R).
Hypothesis (Ha : 0 < a) (Hb : 0 < b).
Let C := cos theta. Let S := sin theta.
Lemma CS : S * S + C * C = 1. Proof. assert (T := sin2_cos2 theta). unfold Rsqr in T. exact T. Qed.
Definition eA := a ^ 2 * S ^ 2 + b ^ 2 * C ^ 2.
Definition eB := 2 * (b ^ 2 - a ^ 2) * S * C.
Definition eC := a ^ 2 * C ^ 2 + b ^ 2 * S ^ 2.
Definition eD := - 2 * eA * xc - eB * yc.
Definition eE := - eB * xc - 2 * eC * yc.
Definition eF := eA * xc ^ 2 + eB * xc * yc + eC * yc ^ 2 - a ^ 2 * b ^ 2.
(** coordinates along the axes, in units of the half axes *)
Definition eU (x y : R) := ((x - xc) * C + (y - yc) * S) / a.
Definition eV (x y : R) := (- (x - xc) * S + (y - yc) * C) / b.
Lemma conic_is x y : quad eA eB eC eD eE eF x y = a ^ 2 * b ^ 2 * (eU x y ^ 2 + eV x y ^ 2 - 1).
Proof.
  unfold quad, eD, eE, eF, eA, eB, eC, eU, eV. field. split; lra.
Qed.
Lemma axes_of_point t : eU (fst (ellipse_point xc yc a b theta t)) (snd (ellipse_point xc yc a b theta t)) = cos t /\
  eV (fst (ellipse_point xc yc a b theta t)) (snd (ellipse_point xc yc a b theta t)) = sin t.
Proof.
  assert (T := CS). unfold eU, eV, ellipse_point. cbn [fst snd]. fold C S. split.
  - transitivity (cos t * (S * S + C * C)); [field; lra|]. rewrite T. ring.
  - transitivity (sin t * (S * S + C * C)); [field; lra|]. rewrite T. ring.
Qed.
Lemma point_of_axes x y : x = xc + a * eU x y * C - b * eV x y * S /\ y = yc + a * eU x y * S + b * eV x y * C.
Proof.
  assert (T := CS). unfold eU, eV. split.
  - transitivity (xc + (x - xc) * (S * S + C * C)); [rewrite T; ring|field; lra].
  - transitivity (yc + (y - yc) * (S * S + C * C)); [rewrite T; ring|field; lra].
Qed.
Lemma on_conic t : quad eA eB eC eD eE eF (fst (ellipse_point xc yc a b theta t)) (snd (ellipse_point xc yc a b theta t)) = 0.
Proof.
  rewrite conic_is. destruct (axes_of_point t) as (-> & ->). assert (T := sin2_cos2 t). unfold Rsqr in T.
  replace (cos t ^ 2 + sin t ^ 2 - 1) with (sin t * sin t + cos t * cos t - 1) by ring. rewrite T. ring.
Qed.
Lemma eAC_pos : 0 < eA + eC.
Proof. assert (T := CS). unfold eA, eC. replace (a ^ 2 * S ^ 2 + b ^ 2 * C ^ 2 + (a ^ 2 * C ^ 2 + b ^ 2 * S ^ 2)) with ((a ^ 2 + b ^ 2) * (S * S + C * C)) by ring. rewrite T. assert (0 < a ^ 2) by (apply sq_pos; lra). assert (G := pow2_ge_0 b). lra. Qed.

(** a quadratic function that vanishes at five different points of the ellipse is a multiple of the conic *)
Lemma quad_ext a1 b1 c1 d1 e1 f1 a2 b2 c2 d2 e2 f2 : (forall x y, quad a1 b1 c1 d1 e1 f1 x y = quad a2 b2 c2 d2 e2 f2 x y) ->
  a1 = a2 /\ b1 = b2 /\ c1 = c2 /\ d1 = d2 /\ e1 = e2 /\ f1 = f2.
Proof.
  intros H. unfold quad in H. assert (H0 := H 0 0). assert (H1 := H 1 0). assert (H2 := H (-1) 0). assert (H3 := H 0 1). assert (H4 := H 0 (-1)). assert (H5 := H 1 1).
  ring_simplify in H0. ring_simplify in H1. ring_simplify in H2. ring_simplify in H3. ring_simplify in H4. ring_simplify in H5. repeat split; lra.
Qed.
Lemma ellipse_unique v0 v1 v2 v3 v4 v5 (t : nat -> R) :
  (forall k, (k < 5)%nat -> quad v0 v1 v2 v3 v4 v5 (fst (ellipse_point xc yc a b theta (t k))) (snd (ellipse_point xc yc a b theta (t k))) = 0) ->
  NoDup (map (fun k => ellipse_point xc yc a b theta (t k)) [0; 1; 2; 3; 4]%nat) ->
  exists l, v0 = l * eA /\ v1 = l * eB /\ v2 = l * eC /\ v3 = l * eD /\ v4 = l * eE /\ v5 = l * eF.
Proof.
  intros Hz ND. set (tau := t 0%nat - PI).
  (* the quadratic in turned unit coordinates X, Y *)
  set (px_ := fun X Y => xc + a * (X * cos tau - Y * sin tau) * C - b * (X * sin tau + Y * cos tau) * S).
  set (py_ := fun X Y => yc + a * (X * cos tau - Y * sin tau) * S + b * (X * sin tau + Y * cos tau) * C).
  assert (Q : exists al be ga de ep ph, forall X Y, quad v0 v1 v2 v3 v4 v5 (px_ X Y) (py_ X Y) = quad al be ga de ep ph X Y).
  { set (m1 := a * cos tau * C - b * sin tau * S). set (m2 := - a * sin tau * C - b * cos tau * S).
    set (n1 := a * cos tau * S + b * sin tau * C). set (n2 := - a * sin tau * S + b * cos tau * C).
    exists (v0 * m1 ^ 2 + v1 * m1 * n1 + v2 * n1 ^ 2), (2 * v0 * m1 * m2 + v1 * (m1 * n2 + m2 * n1) + 2 * v2 * n1 * n2), (v0 * m2 ^ 2 + v1 * m2 * n2 + v2 * n2 ^ 2),
      (2 * v0 * xc * m1 + v1 * (xc * n1 + yc * m1) + 2 * v2 * yc * n1 + v3 * m1 + v4 * n1), (2 * v0 * xc * m2 + v1 * (xc * n2 + yc * m2) + 2 * v2 * yc * n2 + v3 * m2 + v4 * n2),
      (v0 * xc ^ 2 + v1 * xc * yc + v2 * yc ^ 2 + v3 * xc + v4 * yc + v5).
    intros X Y. assert (E1 : px_ X Y = xc + m1 * X + m2 * Y) by (unfold px_, m1, m2; ring). assert (E2 : py_ X Y = yc + n1 * X + n2 * Y) by (unfold py_, n1, n2; ring).
    rewrite E1, E2. unfold quad. ring. }
  destruct Q as (al & be & ga & de & ep & ph & Q).
  assert (T2 := sin2_cos2 tau). unfold Rsqr in T2.
  assert (PT : forall s, ellipse_point xc yc a b theta s = (px_ (cos (s - tau)) (sin (s - tau)), py_ (cos (s - tau)) (sin (s - tau)))).
  { intros s. unfold ellipse_point, px_, py_. fold C S.
    assert (E1 : cos (s - tau) * cos tau - sin (s - tau) * sin tau = cos s) by (rewrite <- cos_plus; f_equal; ring).
    assert (E2 : cos (s - tau) * sin tau + sin (s - tau) * cos tau = sin s) by (rewrite Rplus_comm, (Rmult_comm (cos (s - tau)) (sin tau)), (Rmult_comm (sin tau)), <- sin_plus; f_equal; ring).
    rewrite E1, E2. f_equal; ring. }
  set (cp := fun k => (cos (t k - tau), sin (t k - tau))).
  assert (Zk : forall k, (k < 5)%nat -> quad al be ga de ep ph (fst (cp k)) (snd (cp k)) = 0).
  { intros k Hk. rewrite <- Q. specialize (Hz k Hk). rewrite PT in Hz. cbn [fst snd] in Hz. exact Hz. }
  assert (C0 : cp 0%nat = (-1, 0)) by (unfold cp, tau; replace (t 0%nat - (t 0%nat - PI)) with PI by ring; rewrite cos_PI, sin_PI; reflexivity).
  assert (ND2 : NoDup (map cp [0; 1; 2; 3; 4]%nat)).
  { apply (NoDup_map_inv (fun p => (px_ (fst p) (snd p), py_ (fst p) (snd p)))). rewrite map_map. erewrite map_ext; [exact ND|]. intros k. cbn beta. rewrite PT. reflexivity. }
  cbn [map] in ND2. rewrite C0 in ND2.
  destruct (circle_unique al be ga de ep ph (cp 1%nat) (cp 2%nat) (cp 3%nat) (cp 4%nat)) as (-> & -> & -> & -> & ->).
  - intros p Hp. assert (exists k, (k < 5)%nat /\ p = cp k) as (k & Hk & ->).
    { cbn [In] in Hp. destruct Hp as [<- | [<- | [<- | [<- | [] ] ] ] ]; [exists 1%nat|exists 2%nat|exists 3%nat|exists 4%nat]; split; lia || reflexivity. }
    split; [|apply Zk, Hk]. unfold cp. cbn [fst snd]. assert (T := sin2_cos2 (t k - tau)). unfold Rsqr in T. simpl. lra.
  - assert (E := Zk 0%nat ltac:(lia)). rewrite C0 in E. exact E.
  - exact ND2.
  - exists (al / (a ^ 2 * b ^ 2)).
    assert (AB : a ^ 2 * b ^ 2 <> 0) by (apply Rmult_integral_contrapositive_currified; apply pow_nonzero; lra).
    apply (quad_ext v0 v1 v2 v3 v4 v5). intros x y.
    transitivity (al * (eU x y ^ 2 + eV x y ^ 2 - 1)).
    + set (X := eU x y * cos tau + eV x y * sin tau). set (Y := - eU x y * sin tau + eV x y * cos tau).
      destruct (point_of_axes x y) as (Ex & Ey).
      assert (B1 : X * cos tau - Y * sin tau = eU x y) by (unfold X, Y; transitivity (eU x y * (sin tau * sin tau + cos tau * cos tau)); [ring|rewrite T2; ring]).
      assert (B2 : X * sin tau + Y * cos tau = eV x y) by (unfold X, Y; transitivity (eV x y * (sin tau * sin tau + cos tau * cos tau)); [ring|rewrite T2; ring]).
      assert (E1 : px_ X Y = x) by (unfold px_; rewrite B1, B2; symmetry; exact Ex). assert (E2 : py_ X Y = y) by (unfold py_; rewrite B1, B2; symmetry; exact Ey).
      rewrite <- E1 at 1. rewrite <- E2 at 1. rewrite Q. unfold quad.
      assert (N : X ^ 2 + Y ^ 2 = eU x y ^ 2 + eV x y ^ 2) by (unfold X, Y; transitivity ((eU x y ^ 2 + eV x y ^ 2) * (sin tau * sin tau + cos tau * cos tau)); [ring|rewrite T2; ring]).
      rewrite <- N. ring.
    + transitivity (al / (a ^ 2 * b ^ 2) * quad eA eB eC eD eE eF x y); [rewrite conic_is; field; split; lra|]. unfold quad. ring.
Qed.
End ellipse.
