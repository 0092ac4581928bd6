(** Proofs about the face phantom. *)
From Coq Require Import Reals Lra ZArith Lia Bool.
From Verif Require Import Np M_phase_R M_simR M_face.
Open Scope Z_scope.

(** position of a pixel *)
Definition xof (size j : Z) : R := (IZR j - IZR (size / 2))%R.
Definition yof (size i : Z) : R := (IZR (size / 2) - IZR i)%R.
Lemma coords_eq size cx cy lx ly a i j :
  mask_coords size (Tuple cx cy) (Tuple lx ly) a i j =
  let t := (a * PI / 180)%R in let x := (xof size j - cx)%R in let y := (yof size i - cy)%R in
  (((x * cos t + y * sin t) / (0.5 * lx))%R, ((y * cos t - x * sin t) / (0.5 * ly))%R).
Proof.
  unfold mask_coords, xof, yof. cbn [arg_x arg_y]. cbv zeta. replace (- a * PI / 180)%R with (- (a * PI / 180))%R by (unfold Rdiv; ring). rewrite cos_neg, sin_neg. f_equal; f_equal; ring.
Qed.
(** inside of the two shapes *)
Definition in_ell (lx ly x y : R) : Prop := ((x / (0.5 * lx)) ^ 2 + (y / (0.5 * ly)) ^ 2 <= 1.0201)%R.
Lemma sqrt_101 z : (0 <= z)%R -> ((sqrt z <= 1.01)%R <-> (z <= 1.0201)%R).
Proof.
  intros Hz. assert (E : (sqrt 1.0201 = 1.01)%R) by (replace 1.0201%R with (1.01 * 1.01)%R by lra; apply sqrt_square; lra). split; intros H.
  - rewrite <- E in H. apply sqrt_le_0; lra.
  - rewrite <- E. apply sqrt_le_1; lra.
Qed.
Lemma ell_val size cx cy lx ly i j : (ell size cx cy lx ly 0 i j = 1%R /\ in_ell lx ly (xof size j - cx) (yof size i - cy)) \/ (ell size cx cy lx ly 0 i j = 0%R /\ ~ in_ell lx ly (xof size j - cx) (yof size i - cy)).
Proof.
  unfold ell, make_elliptic_mask. cbn [px]. rewrite coords_eq. cbv zeta. replace (0 * PI / 180)%R with 0%R by field. rewrite cos_0, sin_0.
  set (x := (xof size j - cx)%R). set (y := (yof size i - cy)%R). unfold in_ell.
  replace (x * 1 + y * 0)%R with x by ring. replace (y * 1 - x * 0)%R with y by ring.
  assert (P : (0 <= (x / (0.5 * lx)) ^ 2 + (y / (0.5 * ly)) ^ 2)%R) by (assert (A := pow2_ge_0 (x / (0.5 * lx))); assert (B := pow2_ge_0 (y / (0.5 * ly))); lra).
  destruct (Rle_dec _ _) as [L|L]; [left|right]; (split; [reflexivity|]); [apply sqrt_101 in L; assumption|]. intros H. apply L. apply sqrt_101; assumption.
Qed.
Definition in_rect (lx ly a x y : R) : Prop := let t := (a * PI / 180)%R in (Rabs ((x * cos t + y * sin t) / (0.5 * lx)) <= 1.01 /\ Rabs ((y * cos t - x * sin t) / (0.5 * ly)) <= 1.01)%R.
Lemma rect_val size cx cy lx ly a i j : (rect size cx cy lx ly a i j = 1%R /\ in_rect lx ly a (xof size j - cx) (yof size i - cy)) \/ (rect size cx cy lx ly a i j = 0%R /\ ~ in_rect lx ly a (xof size j - cx) (yof size i - cy)).
Proof.
  unfold rect, make_rectangular_mask. cbn [px]. rewrite coords_eq. cbv zeta. unfold in_rect.
  destruct (Rle_dec _ _) as [L|L]; [destruct (Rle_dec _ _) as [L2|L2]|]; [left|right|right]; (split; [reflexivity|]); [split; assumption| |]; intros (A & B); [apply L2; exact B|apply L; exact A].
Qed.
(** mirror images *)
Lemma ell_mirror size cx cy lx ly i j j' : (xof size j' = - xof size j)%R -> ell size (- cx) cy lx ly 0 i j' = ell size cx cy lx ly 0 i j.
Proof.
  intros E. unfold ell, make_elliptic_mask. cbn [px]. rewrite !coords_eq. cbv zeta. rewrite E. replace (0 * PI / 180)%R with 0%R by field. rewrite cos_0, sin_0.
  match goal with |- (if Rle_dec (sqrt ?a) _ then _ else _) = (if Rle_dec (sqrt ?b) _ then _ else _) => replace a with b; [reflexivity|] end.
  f_equal; [|f_equal; unfold Rdiv; ring].
  replace (((- xof size j - - cx) * 1 + (yof size i - cy) * 0) / (0.5 * lx))%R with (- (((xof size j - cx) * 1 + (yof size i - cy) * 0) / (0.5 * lx)))%R by (unfold Rdiv; ring). ring.
Qed.
Lemma rect_mirror size cx cy lx ly a i j j' : (xof size j' = - xof size j)%R -> rect size (- cx) cy lx ly (- a) i j' = rect size cx cy lx ly a i j.
Proof.
  intros E. unfold rect, make_rectangular_mask. cbn [px]. rewrite !coords_eq. cbv zeta. rewrite E. replace (- a * PI / 180)%R with (- (a * PI / 180))%R by (unfold Rdiv; ring). rewrite cos_neg, sin_neg. set (t := (a * PI / 180)%R).
  replace (((- xof size j - - cx) * cos t + (yof size i - cy) * - sin t) / (0.5 * lx))%R with (- (((xof size j - cx) * cos t + (yof size i - cy) * sin t) / (0.5 * lx)))%R by (unfold Rdiv; ring).
  replace (((yof size i - cy) * cos t - (- xof size j - - cx) * - sin t) / (0.5 * ly))%R with ((((yof size i - cy) * cos t - (xof size j - cx) * sin t) / (0.5 * ly)))%R by (unfold Rdiv; ring).
  rewrite Rabs_Ropp. reflexivity.
Qed.
Lemma ell_mirror0 size cy lx ly i j j' : (xof size j' = - xof size j)%R -> ell size 0 cy lx ly 0 i j' = ell size 0 cy lx ly 0 i j.
Proof. intros E. rewrite <- (ell_mirror size 0 cy lx ly i j j' E). rewrite Ropp_0. reflexivity. Qed.
Lemma rect_mirror0 size cy lx ly i j j' : (xof size j' = - xof size j)%R -> rect size 0 cy lx ly 0 i j' = rect size 0 cy lx ly 0 i j.
Proof. intros E. rewrite <- (rect_mirror size 0 cy lx ly 0 i j j' E). rewrite Ropp_0. reflexivity. Qed.
Lemma ell_swap size cx cx' cy lx ly i j j' : (xof size j' = - xof size j)%R -> (cx' = - cx)%R -> ell size cx' cy lx ly 0 i j' = ell size cx cy lx ly 0 i j.
Proof. intros E ->. apply ell_mirror. exact E. Qed.
Lemma rect_swap size cx cx' cy lx ly a a' i j j' : (xof size j' = - xof size j)%R -> (cx' = - cx)%R -> (a' = - a)%R -> rect size cx' cy lx ly a' i j' = rect size cx cy lx ly a i j.
Proof. intros E -> ->. apply rect_mirror. exact E. Qed.
Lemma face_symmetric size i j j' : (xof size j' = - xof size j)%R -> px (make_face_phantom size) i j' = px (make_face_phantom size) i j.
Proof.
  intros E. cbn [make_face_phantom px].
  assert (F : face size i j' = face size i j) by (unfold face; rewrite !(ell_mirror0 size _ _ _ i j j' E); reflexivity).
  assert (EY : forall g, eye_of size (- g) i j' = eye_of size g i j) by (intros g; unfold eye_of; cbv zeta; rewrite (ell_swap size (g * 0.3 * IZR (size / 2)) (- g * 0.3 * IZR (size / 2)) _ _ _ i j j' E) by ring; reflexivity).
  assert (PU : forall g, pupil_of size (- g) i j' = pupil_of size g i j) by (intros g; unfold pupil_of; cbv zeta; rewrite !(ell_swap size (g * 0.3 * IZR (size / 2)) (- g * 0.3 * IZR (size / 2)) _ _ _ i j j' E) by ring; reflexivity).
  assert (BR : forall g, eyebrow_of size (- g) i j' = eyebrow_of size g i j) by (intros g; unfold eyebrow_of; cbv zeta; rewrite (rect_swap size (g * 0.3 * IZR (size / 2)) (- g * 0.3 * IZR (size / 2)) _ _ _ (g * 5) (- g * 5) i j j' E), (rect_swap size (g * 0.3 * IZR (size / 2)) (- g * 0.3 * IZR (size / 2)) _ _ _ (g * 10) (- g * 10) i j j' E) by ring; reflexivity).
  assert (EE : eye size i j' = eye size i j).
  { unfold eye. assert (X1 := EY 1%R). assert (X2 := EY (-1)%R). assert (Y1 := PU 1%R). assert (Y2 := PU (-1)%R). assert (Z1 := BR 1%R). assert (Z2 := BR (-1)%R). replace (- (-1))%R with 1%R in * by ring. replace (- (1))%R with (-1)%R in * by ring. lra. }
  assert (N : nose size i j' = nose size i j).
  { unfold nose. rewrite (rect_mirror0 size _ _ _ i j j' E). rewrite (rect_swap size (0 - 0.015 * IZR size) (0 + 0.015 * IZR size) _ _ _ (-9) 9 i j j' E), (rect_swap size (0 + 0.015 * IZR size) (0 - 0.015 * IZR size) _ _ _ 9 (-9) i j j' E) by lra. f_equal. ring. }
  assert (MO : mouth size i j' = mouth size i j) by (unfold mouth; cbv zeta; rewrite (rect_mirror0 size _ _ _ i j j' E), (ell_mirror0 size _ _ _ i j j' E); reflexivity).
  assert (BE : beard size i j' = beard size i j).
  { unfold beard. rewrite (rect_mirror0 size _ _ _ i j j' E). rewrite (rect_swap size (0.02 * IZR size) (- 0.02 * IZR size) _ _ _ 10 (-10) i j j' E), (rect_swap size (- 0.02 * IZR size) (0.02 * IZR size) _ _ _ (-10) 10 i j j' E) by lra. ring. }
  lra.
Qed.
(** bounding boxes *)
Lemma PI_le_4 : (0 < PI <= 4)%R. Proof. split; [apply PI_RGT_0|apply PI_4]. Qed.
Lemma sin_small t : (0 <= t)%R -> (- t <= sin t <= t)%R.
Proof.
  intros Ht. destruct (Req_dec t 0) as [->|N]; [rewrite sin_0; lra|]. assert (P : (0 < t)%R) by lra. split; [|left; apply sin_lt_x; exact P].
  destruct (Rle_dec t PI) as [L|L]; [assert (0 <= sin t)%R by (apply sin_ge_0; lra); lra|]. assert (X := SIN_bound t). assert (Y := PI2_1). lra.
Qed.
Lemma abs_div_le u l : (0 < l)%R -> (Rabs (u / (0.5 * l)) <= 1.01)%R -> (- (0.505 * l) <= u <= 0.505 * l)%R.
Proof.
  intros Hl H. assert (0 < 0.5 * l)%R by lra. unfold Rdiv in H. rewrite Rabs_mult, (Rabs_pos_eq (/ _)) in H by (left; apply Rinv_0_lt_compat; lra).
  apply (Rmult_le_compat_r (0.5 * l)) in H; [|lra]. rewrite Rmult_assoc, Rinv_l, Rmult_1_r in H by lra. assert (X := Rle_abs u). assert (Y := Rle_abs (- u)). rewrite Rabs_Ropp in Y. lra.
Qed.
(** a rectangle turned by at most [e] (as a bound of the sine) lies in a box *)
Lemma rect_box lx ly a x y e : (0 < lx)%R -> (0 < ly)%R -> (- e <= sin (a * PI / 180) <= e)%R -> (0 <= e)%R -> in_rect lx ly a x y ->
  (- (0.505 * (lx + e * ly)) <= x <= 0.505 * (lx + e * ly) /\ - (0.505 * (ly + e * lx)) <= y <= 0.505 * (ly + e * lx))%R.
Proof.
  intros Hx Hy He He0 (A & B). apply abs_div_le in A; [|exact Hx]. apply abs_div_le in B; [|exact Hy]. set (t := (a * PI / 180)%R) in *. set (c := cos t) in *. set (d := sin t) in *.
  assert (CD : (c * c + d * d = 1)%R) by (unfold c, d; assert (X := sin2_cos2 t); unfold Rsqr in X; lra). assert (C1 : (-1 <= c <= 1)%R) by (apply COS_bound).
  set (u := (x * c + y * d)%R) in *. set (v := (y * c - x * d)%R) in *.
  assert (EX : (x = u * c - v * d)%R) by (unfold u, v; replace x with (x * (c * c + d * d))%R at 1 by (rewrite CD; ring); ring).
  assert (EY : (y = u * d + v * c)%R) by (unfold u, v; replace y with (y * (c * c + d * d))%R at 1 by (rewrite CD; ring); ring).
  assert (MB : forall p P q Q, (- P <= p <= P)%R -> (- Q <= q <= Q)%R -> (- (P * Q) <= p * q <= P * Q)%R) by (intros p P q Q Hp Hq; split; nra).
  assert (M1 := MB u (0.505 * lx)%R c 1%R A C1). assert (M2 := MB v (0.505 * ly)%R d e B He). assert (M3 := MB u (0.505 * lx)%R d e A He). assert (M4 := MB v (0.505 * ly)%R c 1%R B C1).
  rewrite EX, EY. split; lra.
Qed.
Lemma sin_deg a b : (- b <= a <= b)%R -> (0 <= b <= 10)%R -> (- (b / 45) <= sin (a * PI / 180) <= b / 45)%R.
Proof.
  intros Ha Hb. assert (P := PI_le_4). assert (Q : (- (b / 45) <= a * PI / 180 <= b / 45)%R) by (split; nra). destruct (Rle_dec 0 (a * PI / 180)) as [L|L].
  - assert (X := sin_small _ L). lra.
  - assert (X := sin_small (- (a * PI / 180)) ltac:(lra)). rewrite sin_neg in X. lra.
Qed.
Lemma sq_le z b : (0 <= b)%R -> (z ^ 2 <= b ^ 2)%R -> (- b <= z <= b)%R.
Proof. intros Hb H. apply pow2_abs_le || (split; nra). Qed.
Lemma ell_box lx ly x y : (0 < lx)%R -> (0 < ly)%R -> in_ell lx ly x y -> (- (0.505 * lx) <= x <= 0.505 * lx /\ - (0.505 * ly) <= y <= 0.505 * ly)%R.
Proof.
  intros Hx Hy H. unfold in_ell in H. assert (A := pow2_ge_0 (x / (0.5 * lx))). assert (B := pow2_ge_0 (y / (0.5 * ly))).
  split; apply abs_div_le; try assumption; apply Rabs_le; apply sq_le; lra.
Qed.
