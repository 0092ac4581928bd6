(** Theorems about phantoms, X-ray images and projections of simulation.py (C96-C99). *)
From Coq Require Import Reals Lra ZArith Lia Bool.
From Verif Require Import Np P_Np M_phase_R P_phase_R M_simR S_simR P_simR P_simR2 P_simR3 P_simR4.
Open Scope Z_scope.

(** ** C96: a simulated X-ray image carries the sinogram: it can be recovered exactly, larger values are darker *)
Theorem xray_image_invertible : forall m g, (g > 0)%R ->
  let out := convert_to_Xray_image m (Some g) in
  nrow out = nrow m /\ ncol out = ncol m /\
  (forall i j, (0 < px out i j)%R /\ (- ln (px out i j) * g = px m i j)%R) /\
  (forall i j i' j', (px m i j < px m i' j')%R <-> (px out i' j' < px out i j)%R).
Proof.
  intros m g Hg out. split; [reflexivity|]. split; [reflexivity|]. unfold out. cbn [px convert_to_Xray_image imap]. split.
  - intros i j. split; [apply exp_pos|]. rewrite ln_exp. field. lra.
  - assert (Q : forall v w, (v < w)%R <-> (exp (- (1 * w / g)) < exp (- (1 * v / g)))%R).
    { intros v w. assert (E : forall z, (1 * z / g = z * / g)%R) by (intros; field; lra). rewrite !E.
      assert (Ig : (0 < / g)%R) by (apply Rinv_0_lt_compat; lra). split; intros H.
      - apply exp_increasing, Ropp_lt_contravar, Rmult_lt_compat_r; assumption.
      - apply exp_lt_inv in H. apply Ropp_lt_cancel in H. apply Rmult_lt_reg_r in H; assumption. }
    intros i j i' j'. apply Q.
Qed.
Print Assumptions xray_image_invertible.
(** without [global_max] the largest pixel of this image is used: the intensities fill the range from 1/e to 1 *)
Theorem xray_image_default_range : forall m v, 1 <= nrow m -> 1 <= ncol m ->
  (forall i j, in_rng (nrow m) i -> in_rng (ncol m) j -> (0 <= px m i j)%R) -> brightest_pixel m v -> (0 < v)%R ->
  let out := convert_to_Xray_image m None in
  (forall i j, in_rng (nrow m) i -> in_rng (ncol m) j ->
     (exp (-1) <= px out i j <= 1)%R /\ (px out i j = 1%R <-> px m i j = 0%R) /\ (px out i j = exp (-1) <-> px m i j = v) /\
     (- ln (px out i j) * v = px m i j)%R) /\
  exists i j, in_rng (nrow m) i /\ in_rng (ncol m) j /\ px out i j = exp (-1).
Proof.
  intros m v H1 H2 N (B1 & a & b & Ia & Ib & Ev) V out.
  assert (E : rmax2 m = v).
  { destruct (rmax2_spec m H1 H2) as (M1 & a' & b' & Ia' & Ib' & Ev'). apply Rle_antisym; [rewrite Ev'; apply B1; assumption|rewrite Ev; apply M1; assumption]. }
  assert (O : forall i j, px out i j = exp (- (px m i j / v))).
  { intros i j. unfold out, convert_to_Xray_image. cbn [px imap]. rewrite E. do 2 f_equal. field. lra. }
  split.
  - intros i j Hi Hj. rewrite O. set (x := px m i j). assert (X0 : (0 <= x)%R) by (apply N; assumption). assert (X1 : (x <= v)%R) by (apply B1; assumption).
    assert (Q : forall w, exp (- (x / v)) = exp w <-> x = (- w * v)%R).
    { intros w. split; intros H; [apply exp_inv in H; replace x with (x / v * v)%R by (field; lra); replace (x / v)%R with (- w)%R by lra; ring|]. rewrite H. f_equal. field. lra. }
    assert (D0 : (0 <= x / v)%R) by (apply Rmult_le_pos; [exact X0|left; apply Rinv_0_lt_compat, V]).
    assert (D1 : (x / v <= 1)%R) by (apply (Rmult_le_reg_r v); [exact V|]; replace (x / v * v)%R with x by (field; lra); lra).
    split; [|split; [|split]].
    + split.
      * destruct (Req_dec (x / v) 1) as [D|D]; [rewrite D; replace (- (1))%R with (-1)%R by lra; lra|]. left. apply exp_increasing. lra.
      * rewrite <- exp_0. destruct (Req_dec (x / v) 0) as [->|D]; [rewrite Ropp_0; lra|]. left. apply exp_increasing. lra.
    + rewrite <- exp_0, Q. split; intros; lra.
    + rewrite Q. split; intros; lra.
    + rewrite ln_exp. field. lra.
  - exists a, b. split; [exact Ia|]. split; [exact Ib|]. rewrite O, <- Ev. f_equal. field. lra.
Qed.
Print Assumptions xray_image_default_range.
Definition ex_sino : img R := mkimg 1 3 (fun _ j => IZR j).
Example ex_xray : 1 <= nrow ex_sino /\ 1 <= ncol ex_sino /\ brightest_pixel ex_sino 2 /\ (forall i j, in_rng 1 i -> in_rng 3 j -> (0 <= px ex_sino i j)%R).
Proof.
  split; [cbn; lia|]. split; [cbn; lia|]. split.
  - split; [intros i j _ Hj; cbn in *; apply IZR_le; unfold in_rng in Hj; lia|]. exists 0, 2. unfold in_rng. cbn. repeat split; lia.
  - intros i j _ Hj. cbn. apply IZR_le. unfold in_rng in Hj. lia.
Qed.

(** ** C97: the masks are 1 exactly inside the shape they are named after (1 percent larger), turned counterclockwise by
    [angle] degrees, with x to the right and y upwards from pixel [size // 2] *)
Theorem elliptic_mask_is_ellipse : forall size center length angle, (arg_x length <> 0)%R -> (arg_y length <> 0)%R ->
  mask_of size (make_elliptic_mask size center length angle) (placed (ellipse (arg_x length) (arg_y length)) angle (arg_x center) (arg_y center)).
Proof. exact elliptic_mask. Qed.
Print Assumptions elliptic_mask_is_ellipse.
Theorem rectangular_mask_is_rectangle : forall size center length angle, (arg_x length <> 0)%R -> (arg_y length <> 0)%R ->
  mask_of size (make_rectangular_mask size center length angle) (placed (rectangle (arg_x length) (arg_y length)) angle (arg_x center) (arg_y center)).
Proof. exact rectangular_mask. Qed.
Print Assumptions rectangular_mask_is_rectangle.
(** a circle looks the same for every angle *)
Theorem circular_mask_any_angle : forall size center d angle angle' i j, (d <> 0)%R -> in_rng size i -> in_rng size j ->
  px (make_elliptic_mask size center (Both d) angle) i j = px (make_elliptic_mask size center (Both d) angle') i j.
Proof.
  intros size center d angle angle' i j Hd Hi Hj. cbn [px make_elliptic_mask].
  assert (G : forall an, let '(x1, y1) := mask_coords size center (Both d) an i j in
     (x1 ^ 2 + y1 ^ 2 = ((pixel_x size j - arg_x center) ^ 2 + (pixel_y size i - arg_y center) ^ 2) / (d / 2) ^ 2)%R).
  { intros an. assert (M := mask_coords_turned size center (Both d) an i j Hd Hd). destruct (mask_coords size center (Both d) an i j) as [x1 y1].
    destruct M as ((-> & ->) & _). cbn [arg_x arg_y]. assert (T := trig1 (an * PI / 180)). set (t := (an * PI / 180)%R) in *.
    transitivity ((x1 ^ 2 + y1 ^ 2) * (cos t * cos t + sin t * sin t))%R; [rewrite T; ring|]. field. lra. }
  assert (G1 := G angle). assert (G2 := G angle').
  destruct (mask_coords size center (Both d) angle i j) as [x1 y1]. destruct (mask_coords size center (Both d) angle' i j) as [x2 y2].
  rewrite G1, G2. reflexivity.
Qed.
Print Assumptions circular_mask_any_angle.
(** the triangular mask, exact up to a strip of 0.71 pixels and 0.5 percent along the long sides.  Missing: what happens inside
    that strip and outside the triangle within 0.71 pixels of the ends of a side *)
Theorem triangular_mask_is_triangle_partial : forall atan2 size center length angle i j u v,
  polar_angle atan2 -> (0 < arg_x length)%R -> (0 < arg_y length)%R -> in_rng size i -> in_rng size j ->
  turned angle u v (pixel_x size j - arg_x center) (pixel_y size i - arg_y center) ->
  let a := arg_x length in let b := arg_y length in let width := (a * b / side_length a b)%R in
  let p := px (make_triangular_mask atan2 size center length angle) i j in
  (p = 0%R \/ p = 1%R) /\
  (~ rectangle a b u v -> p = 0%R) /\
  (rectangle a b u v -> (above_side a b u v < - (0.71 + width / 200))%R -> (above_side a b u (- v) < - (0.71 + width / 200))%R -> p = 1%R) /\
  (rectangle a b u v -> (1.5 <= width)%R -> forall w, w = v \/ w = (- v)%R ->
     (0.71 <= above_side a b u w)%R -> (Rabs (along_side a b u w) <= side_length a b / 2 - 0.71)%R -> p = 0%R).
Proof.
  intros atan2 size center len angle i j u v Hat Ha Hb Hi Hj T a b width p.
  destruct (rectangular_mask size center len angle ltac:(lra) ltac:(lra)) as (_ & _ & M). specialize (M i j Hi Hj).
  assert (U : placed (rectangle a b) angle (arg_x center) (arg_y center) (pixel_x size j) (pixel_y size i) <-> rectangle a b u v).
  { split; [|intros R; exists u, v; split; assumption]. intros (u' & v' & R & T').
    assert (Q := mask_coords_turned size center len angle i j ltac:(lra) ltac:(lra)). destruct (mask_coords size center len angle i j) as [q1 q2].
    destruct Q as (_ & Q). destruct (Q _ _ T') as (-> & ->). destruct (Q _ _ T) as (-> & ->). exact R. }
  fold a b in M. rewrite U in M.
  destruct (cut_spec atan2 size center len angle Hat Ha Hb 1 u v i j (or_introl eq_refl) Hi Hj T) as (s1 & d1 & Bs1 & Bd1 & I1 & O1).
  destruct (cut_spec atan2 size center len angle Hat Ha Hb (-1) u v i j (or_intror eq_refl) Hi Hj T) as (s2 & d2 & Bs2 & Bd2 & I2 & O2).
  destruct (cut_width atan2 len Hat Ha Hb) as (_ & W0).
  fold a b in I1, O1, I2, O2, W0. fold width in I1, O1, I2, O2, W0. rewrite Rmult_1_l in I1, O1. replace (-1 * v)%R with (- v)%R in I2, O2 by lra.
  set (q1 := px (triangle_cut atan2 size center len angle 1) i j) in *. set (q2 := px (triangle_cut atan2 size center len angle (-1)) i j) in *.
  set (q0 := px (make_rectangular_mask size center len angle) i j) in *.
  assert (Ep : p = Rmax (Rmax (q0 - q1) 0 - q2) 0) by reflexivity.
  assert (Z : forall x, x = 0%R \/ x = 1%R -> (Rmax (0 - x) 0 = 0)%R) by (intros x [-> | ->]; rewrite Rmax_right; lra).
  assert (V0 : q0 = 0%R \/ q0 = 1%R) by (destruct (Classical_Prop.classic (rectangle a b u v)) as [R|R]; [right|left]; apply M, R).
  assert (V1 : q1 = 0%R \/ q1 = 1%R) by (match type of I1 with ?X -> _ => destruct (Classical_Prop.classic X) as [R|R] end; [right; apply I1, R|left; apply O1, R]).
  assert (V2 : q2 = 0%R \/ q2 = 1%R) by (match type of I2 with ?X -> _ => destruct (Classical_Prop.classic X) as [R|R] end; [right; apply I2, R|left; apply O2, R]).
  assert (A1 := Rabs_le_inv _ _ Bs1). assert (A2 := Rabs_le_inv _ _ Bd1). assert (A3 := Rabs_le_inv _ _ Bs2). assert (A4 := Rabs_le_inv _ _ Bd2).
  split; [|split; [|split]].
  - rewrite Ep. destruct V0 as [-> | ->].
    + left. rewrite (Z q1 V1). apply Z, V2.
    + destruct V1 as [-> | ->].
      * rewrite (Rmax_left (1 - 0) 0) by lra. destruct V2 as [-> | ->]; [right; rewrite Rmax_left; lra|left; rewrite Rmax_right; lra].
      * left. rewrite (Rmax_right (1 - 1) 0) by lra. apply Z, V2.
  - intros N. rewrite Ep, (proj2 M N), (Z q1 V1). apply Z, V2.
  - intros R D1 D2. rewrite Ep, (proj1 M R). rewrite O1, O2.
    + rewrite (Rmax_left (1 - 0) 0), Rmax_left; lra.
    + intros (_ & X). apply Rabs_le_inv in X. lra.
    + intros (_ & X). apply Rabs_le_inv in X. lra.
  - intros R W w Hw D S. apply Rabs_le_inv in S. rewrite Ep, (proj1 M R).
    assert (Up : (above_side a b u w <= 0.5075 * width)%R).
    { destruct R as (R1 & R2). fold a b in Ha, Hb. rewrite (Rabs_pos_eq (a / 2)) in R1 by lra. rewrite (Rabs_pos_eq (b / 2)) in R2 by lra. apply Rabs_le_inv in R1. apply Rabs_le_inv in R2.
      assert (Lp := L_pos len Ha). fold a b in Lp. unfold above_side, width. apply (Rmult_le_reg_r (side_length a b)); [exact Lp|].
      replace (((w - b / 4) * a - u * (b / 2)) / side_length a b * side_length a b)%R with ((w - b / 4) * a - u * (b / 2))%R by (field; lra).
      replace (0.5075 * (a * b / side_length a b) * side_length a b)%R with (0.5075 * (a * b))%R by (field; lra).
      assert (P1 : ((w - b / 4) * a <= (1.01 * (b / 2) - b / 4) * a)%R) by (apply Rmult_le_compat_r; [lra|]; destruct Hw as [-> | ->]; lra).
      assert (P2 : (- u * (b / 2) <= 1.01 * (a / 2) * (b / 2))%R) by (apply Rmult_le_compat_r; lra).
      lra. }
    destruct Hw as [-> | ->].
    + rewrite I1.
      * rewrite (Rmax_right (1 - 1) 0) by lra. apply Z, V2.
      * split; apply Rabs_le; lra.
    + rewrite I2.
      * destruct V1 as [-> | ->]; [rewrite (Rmax_left (1 - 0) 0) by lra|rewrite (Rmax_right (1 - 1) 0) by lra]; rewrite Rmax_right; lra.
      * split; apply Rabs_le; lra.
Qed.
Print Assumptions triangular_mask_is_triangle_partial.
(** a polar angle exists; the centre pixel of an 11 x 11 image is in a triangle 10 long and 8 wide centred there *)
Example ex_triangle : polar_angle polar /\ turned 30 0 0 (pixel_x 11 5 - 0) (pixel_y 11 5 - 0) /\ rectangle 10 8 0 0 /\ (1.5 <= 10 * 8 / side_length 10 8)%R /\
  (above_side 10 8 0 0 < - (0.71 + 10 * 8 / side_length 10 8 / 200))%R.
Proof.
  split; [exact polar_is_angle|]. split; [unfold turned, pixel_x, pixel_y; change (11 / 2) with 5; change (5 - 5) with 0; split; ring|].
  split; [unfold rectangle; rewrite Rabs_R0, !Rabs_pos_eq; lra|].
  assert (L1 : (10 <= side_length 10 8)%R) by (unfold side_length; rewrite <- (sqrt_pow2 10) at 1 by lra; apply sqrt_le_1; lra).
  assert (L2 : (side_length 10 8 <= 11)%R) by (unfold side_length; rewrite <- (sqrt_pow2 11) by lra; apply sqrt_le_1; lra).
  split.
  - apply (Rmult_le_reg_r (side_length 10 8)); [lra|].
    replace (10 * 8 / side_length 10 8 * side_length 10 8)%R with 80%R by (field; lra). lra.
  - apply (Rmult_lt_reg_r (side_length 10 8)); [lra|].
    unfold above_side. replace ((((0 - 8 / 4) * 10 - 0 * (8 / 2)) / side_length 10 8 * side_length 10 8))%R with (-20)%R by (field; lra).
    assert (E : (10 * 8 / side_length 10 8 * side_length 10 8 = 80)%R) by (field; lra).
    replace (- (0.71 + 10 * 8 / side_length 10 8 / 200) * side_length 10 8)%R with (- (0.71 * side_length 10 8 + 10 * 8 / side_length 10 8 * side_length 10 8 / 200))%R by lra.
    rewrite E. lra.
Qed.

(** ** C98: simulated projections at 0, 90 and 180 degrees are the exact sums over the image columns and rows; the rotation axis
    is column [width // 2].  The image has a dark border, or is padded with at least one zero. *)
Definition sum_or_zero (n : Z) (f : Z -> R) (k : Z) : R := if (0 <=? k) && (k <? n) then f k else 0%R.
Theorem simulated_projections_are_sums : forall interp mat angles rate mode t,
  let n := ncol mat in let pad := rtrunc (rate * IZR n) in
  exact_on_pixels interp -> nrow mat = n -> 1 <= n -> 0 <= pad -> dark_border mat \/ mode = Zeros /\ 1 <= pad -> in_rng (vlen angles) t ->
  exists out, make_sinogram interp mat angles rate mode = Ok out /\ nrow out = vlen angles /\ ncol out = n /\
  forall x, in_rng n x ->
    (vat angles t = 0%R -> px out t x = column_sum mat x) /\
    (vat angles t = (PI / 2)%R -> px out t x = sum_or_zero n (row_sum mat) (2 * (n / 2) - x)) /\
    (vat angles t = PI -> px out t x = sum_or_zero n (column_sum mat) (2 * (n / 2) - x)).
Proof.
  intros interp mat angles rate mode t n pad Hi Hsq H1 Hp Hd Ht.
  assert (Hp' : 0 <= rtrunc (rate * IZR (nrow mat))) by (rewrite Hsq; exact Hp).
  assert (Hd' : dark_border mat \/ mode = Zeros /\ 1 <= rtrunc (rate * IZR (nrow mat))) by (rewrite Hsq; exact Hd).
  destruct (sinogram_spec mat rate mode Hsq H1 Hp' interp angles) as (out & E & N1 & N2 & V); [unfold in_rng in Ht; lia|].
  exists out. split; [exact E|]. split; [exact N1|]. split; [exact N2|]. intros x Hx.
  rewrite (V t x Ht Hx). rewrite Hsq. fold pad.
  destruct (padded_shape mat rate mode Hsq) as (S1 & S2).
  set (c := half_width mat rate) in *. assert (Ec : c = pad + n / 2) by (unfold c, half_width; rewrite Hsq; reflexivity).
  assert (D := Z.div_mod n 2 ltac:(lia)). assert (B := Z.mod_pos_bound n 2 ltac:(lia)). unfold in_rng in Hx.
  assert (C0 : 0 <= c) by lia.
  assert (Rx : 0 <= pad + x < 2 * c + 1) by lia.
  assert (Pc : rtrunc (rate * IZR (nrow mat)) = pad) by (rewrite Hsq; reflexivity).
  split; [|split]; intros ->.
  - rewrite (projection_0 interp _ c C0 S1 S2 Hi _ Rx). rewrite (padded_columns mat rate mode Hsq H1 Hp' (pad + x) Hd') by (fold c; exact Rx).
    rewrite Pc. unfold or_zero. fold n. replace (pad + x - pad) with x by lia. replace ((0 <=? x) && (x <? n)) with true by lia. reflexivity.
  - rewrite (projection_90 interp _ c C0 S1 S2 Hi _ Rx). rewrite (padded_rows mat rate mode Hsq H1 Hp' _ Hd') by (fold c; lia).
    rewrite Pc. unfold or_zero, sum_or_zero. fold n. replace (2 * c + 1 - 1 - (pad + x) - pad) with (2 * (n / 2) - x) by lia. reflexivity.
  - replace PI with (0 + PI)%R by ring. rewrite (projection_opposite interp _ c C0 S1 S2 0 _ Rx), (projection_0 interp _ c C0 S1 S2 Hi) by lia.
    rewrite (padded_columns mat rate mode Hsq H1 Hp' _ Hd') by (fold c; lia).
    rewrite Pc. unfold or_zero, sum_or_zero. fold n. replace (2 * c + 1 - 1 - (pad + x) - pad) with (2 * (n / 2) - x) by lia. reflexivity.
Qed.
Print Assumptions simulated_projections_are_sums.
(** an image that is not square, no angle, or a negative padding: rejected *)
Theorem simulated_sinogram_rejects : forall interp mat angles rate mode,
  nrow mat <> ncol mat \/ vlen angles <= 0 \/ rtrunc (rate * IZR (nrow mat)) < 0 -> make_sinogram interp mat angles rate mode = Err ValueError.
Proof.
  intros interp mat angles rate mode H. unfold make_sinogram. destruct (nrow mat =? ncol mat) eqn:E; [|reflexivity]. cbn [negb].
  destruct (vlen angles <=? 0) eqn:E2; [reflexivity|]. replace (rtrunc (rate * IZR (nrow mat)) <? 0) with true by lia. reflexivity.
Qed.
Print Assumptions simulated_sinogram_rejects.

(** ** C99: for every image, every interpolation and every angle, opposite projections are mirror images about column [width // 2] *)
Theorem opposite_projections_mirror : forall interp mat angles rate mode out t t' x,
  let n := ncol mat in
  1 <= n -> make_sinogram interp mat angles rate mode = Ok out -> in_rng (vlen angles) t -> in_rng (vlen angles) t' ->
  vat angles t' = (vat angles t + PI)%R -> in_rng n x -> in_rng n (2 * (n / 2) - x) ->
  px out t' x = px out t (2 * (n / 2) - x).
Proof.
  intros interp mat angles rate mode out t t' x n H1 E Ht Ht' Ha Hx Hx'.
  assert (Hsq : nrow mat = ncol mat) by (unfold make_sinogram in E; destruct (nrow mat =? ncol mat) eqn:Q; [lia|discriminate]).
  assert (Hp : 0 <= rtrunc (rate * IZR (nrow mat))).
  { unfold make_sinogram in E. replace (nrow mat =? ncol mat) with true in E by lia. cbn [negb] in E. destruct (vlen angles <=? 0); [discriminate|].
    destruct (rtrunc (rate * IZR (nrow mat)) <? 0) eqn:Q; [discriminate|lia]. }
  destruct (sinogram_spec mat rate mode Hsq H1 Hp interp angles) as (out' & E' & N1 & N2 & V); [unfold in_rng in Ht; lia|].
  rewrite E in E'. injection E' as <-. rewrite (V t' x Ht' Hx), (V t _ Ht Hx'), Ha.
  destruct (padded_shape mat rate mode Hsq) as (S1 & S2).
  set (pad := rtrunc (rate * IZR (nrow mat))) in *.
  assert (D := Z.div_mod n 2 ltac:(lia)). assert (B := Z.mod_pos_bound n 2 ltac:(lia)). unfold in_rng in Hx, Hx'.
  assert (Ec : half_width mat rate = pad + n / 2) by reflexivity. set (c := half_width mat rate) in *. clearbody c.
  rewrite (projection_opposite interp _ c ltac:(lia) S1 S2) by lia. f_equal. lia.
Qed.
Print Assumptions opposite_projections_mirror.
(** nearest-neighbour interpolation meets [exact_on_pixels]; an image of 3 x 3 pixels with one bright pixel in the middle has a dark border *)
Definition nearest (m : img R) (x y : R) : R := px m (Int_part (y + / 2)) (Int_part (x + / 2)).
Example ex_sinogram : exact_on_pixels nearest /\ dark_border (mkimg 3 3 (fun i j => if (i =? 1) && (j =? 1) then 1%R else 0%R)) /\ rtrunc (0.5 * IZR 3) = 1.
Proof.
  split; [|split].
  - intros m i j _ _. unfold nearest. rewrite (Int_part_unique (IZR i + / 2) i), (Int_part_unique (IZR j + / 2) j) by lra. reflexivity.
  - intros i j Hi Hj H. cbn in *. replace ((i =? 1) && (j =? 1)) with false by lia. reflexivity.
  - unfold rtrunc. destruct (Rle_dec 0 (0.5 * 3)); [|exfalso; lra]. apply Int_part_unique. lra.
Qed.
