(** Theorems about calibration (C103-C106). *)
From Coq Require Import Reals Lra ZArith Lia Bool List Permutation. Import ListNotations.
From Verif Require Import Np P_Np M_phase_R P_phase_R M_corr P_corr M_simR S_simR P_simR P_simR2 P_simR3 P_simR4 M_calib S_calib P_calib P_calib2 P_calib3 P_calib4 P_calib5 P_calib6 P_calib7 P_calib8 P_calib9.
Open Scope R_scope.

(** ** C103: fit_points_to_ellipse *)
(** six or more points, five of them different, on an ellipse with half axes 0 < b <= a turned by theta: the full lengths of the axes, the
    centre and, unless the ellipse is a circle, the angle in degrees *)
Theorem ellipse_fit_exact_partial : forall atan2 svd_last x y xc yc a b theta t,
  polar_angle atan2 -> atan2 0 0 = 0 -> (forall A, conic_rows x y A -> last_singular A (svd_last A)) ->
  (6 <= vlen x)%Z -> vlen y = vlen x -> 0 < b -> b <= a -> - (PI / 2) <= theta < PI / 2 ->
  on_ellipse xc yc a b theta x y t -> five_different x y ->
  exists f, fit_points_to_ellipse atan2 svd_last x y = Ok f /\
    fit_major f = 2 * a /\ fit_minor f = 2 * b /\ fit_xc f = xc /\ fit_yc f = yc /\ (b < a -> fit_roll f = theta * 180 / PI).
Proof. intros. eapply fit_exact; eassumption. Qed.
Print Assumptions ellipse_fit_exact_partial.
Theorem ellipse_fit_lengths : forall atan2 svd_last x y, vlen x <> vlen y -> fit_points_to_ellipse atan2 svd_last x y = Err ValueError.
Proof. intros atan2 svd x y H. unfold fit_points_to_ellipse. destruct (Z.eqb_spec (vlen x) (vlen y)); [contradiction|reflexivity]. Qed.
Print Assumptions ellipse_fit_lengths.
(** five different points fix an ellipse, but from five points the function computes another one: here an ellipse with axes 2 and
    2 / sqrt 75, for which the returned length of the major axis is 0 *)
Theorem ellipse_five_points_refuted : exists x y a b, (exists t, on_ellipse 0 0 a b 0 x y t) /\ vlen x = 5%Z /\ vlen y = vlen x /\ five_different x y /\ 0 < b <= a /\
  forall atan2 svd_last, (forall A, conic_rows x y A -> last_singular A (svd_last A)) ->
    exists f, fit_points_to_ellipse atan2 svd_last x y = Ok f /\ fit_major f <> 2 * a.
Proof.
  exists five_x, five_y, 1, (/ sqrt 75). split; [exact five_on_ellipse|]. split; [reflexivity|]. split; [reflexivity|]. split; [exact five_all_different|].
  assert (S : 1 <= sqrt 75) by (rewrite <- sqrt_1 at 1; apply sqrt_le_1_alt; lra). split.
  - split; [apply Rinv_0_lt_compat; lra|]. rewrite <- Rinv_1. apply Rinv_le_contravar; lra.
  - intros atan2 svd HS. destruct (five_fit atan2 svd HS) as (f & E & M). exists f. split; [exact E|]. rewrite M. lra.
Qed.
Print Assumptions ellipse_five_points_refuted.
(** the hypotheses can be met: six points of x^2 / 4 + y^2 = 1 and the singular vector for x^2 + 4 y^2 - 4; five points and the vector for x y *)
Definition six_x : vec R := mkvec 6 (fun i => if (i =? 0)%Z then 2 else if (i =? 1)%Z then -2 else if (i =? 2)%Z then 0 else if (i =? 3)%Z then 0 else if (i =? 4)%Z then 6 / 5 else 8 / 5).
Definition six_y : vec R := mkvec 6 (fun i => if (i =? 0)%Z then 0 else if (i =? 1)%Z then 0 else if (i =? 2)%Z then 1 else if (i =? 3)%Z then -1 else if (i =? 4)%Z then 4 / 5 else 3 / 5).
Definition six_v (k : Z) : R := (if (k =? 0)%Z then 1 else if (k =? 1)%Z then 0 else if (k =? 2)%Z then 4 else if (k =? 3)%Z then 0 else if (k =? 4)%Z then 0 else -4) / sqrt 33.
Example six_points : (exists t, on_ellipse 0 0 2 1 0 six_x six_y t) /\ five_different six_x six_y /\ (forall A, conic_rows six_x six_y A -> last_singular A six_v).
Proof.
  split; [|split].
  - assert (Ex : forall p q, p * p / 4 + q * q = 1 -> exists t, (p, q) = ellipse_point 0 0 2 1 0 t).
    { intros p q H. destruct (polar_is_angle (p / 2) q) as (_ & E1 & E2). set (t := polar q (p / 2)) in *. exists t.
      assert (N : sqrt ((p / 2) ^ 2 + q ^ 2) = 1). { replace ((p / 2) ^ 2 + q ^ 2) with (p * p / 4 + q * q) by field. rewrite H. apply sqrt_1. }
      rewrite N in E1, E2. unfold ellipse_point. rewrite cos_0, sin_0. f_equal; lra. }
    destruct (Ex 2 0 ltac:(lra)) as (t0 & T0). destruct (Ex (-2) 0 ltac:(lra)) as (t1 & T1). destruct (Ex 0 1 ltac:(lra)) as (t2 & T2). destruct (Ex 0 (-1) ltac:(lra)) as (t3 & T3).
    destruct (Ex (6 / 5) (4 / 5) ltac:(lra)) as (t4 & T4). destruct (Ex (8 / 5) (3 / 5) ltac:(lra)) as (t5 & T5).
    exists (fun i => if (i =? 0)%Z then t0 else if (i =? 1)%Z then t1 else if (i =? 2)%Z then t2 else if (i =? 3)%Z then t3 else if (i =? 4)%Z then t4 else t5).
    intros k Hk. unfold in_rng in Hk. cbn [vlen six_x] in Hk. assert (K : (k = 0 \/ k = 1 \/ k = 2 \/ k = 3 \/ k = 4 \/ k = 5)%Z) by lia. destruct K as [-> | [-> | [-> | [-> | [-> | ->] ] ] ] ]; assumption.
  - exists 0%Z, 1%Z, 2%Z, 3%Z, 4%Z. split; [intros k Hk; unfold in_rng; cbn in *; lia|]. cbn [vat six_x six_y Z.eqb Pos.eqb].
    assert (N : forall a b c d : R, a <> c \/ b <> d -> (a, b) <> (c, d)) by (intros a b c d [H|H] E; inversion E; contradiction).
    repeat constructor; cbn [In]; intros Hin; repeat (destruct Hin as [Hin|Hin]); try contradiction; revert Hin; apply N; first [left; lra|right; lra].
  - intros A HA. assert (H0 := HA). destruct H0 as (R & C & _). assert (S : sqrt 33 * sqrt 33 = 33) by (apply sqrt_sqrt; lra). assert (SP : 0 < sqrt 33) by (apply sqrt_lt_R0; lra).
    split; [|split].
    + rewrite C. unfold norm2. rewrite rsum6. unfold six_v. cbn [Z.eqb Pos.eqb].
      replace (1 / sqrt 33 * (1 / sqrt 33) + 0 / sqrt 33 * (0 / sqrt 33) + 4 / sqrt 33 * (4 / sqrt 33) + 0 / sqrt 33 * (0 / sqrt 33) + 0 / sqrt 33 * (0 / sqrt 33) + -4 / sqrt 33 * (-4 / sqrt 33)) with (33 / (sqrt 33 * sqrt 33)) by (field; lra).
      rewrite S. field.
    + intros _ u _. assert (Z : norm2 (nrow A) (times A six_v) = 0).
      { unfold norm2. rewrite (rsum_ext _ _ (fun _ => 0)); [apply rsum_zero|]. rewrite R. intros i Hi. rewrite (times_conic six_x six_y) by assumption.
        cbn [vlen six_x] in Hi. assert (K : (i = 0 \/ i = 1 \/ i = 2 \/ i = 3 \/ i = 4 \/ i = 5)%Z) by lia.
        assert (E : conic six_v (vat six_x i) (vat six_y i) = 0).
        { unfold conic, six_v. destruct K as [-> | [-> | [-> | [-> | [-> | ->] ] ] ] ]; cbn [vat six_x six_y Z.eqb Pos.eqb]; field; lra. }
        rewrite E. ring. }
      rewrite Z. apply rsum_nonneg. intros. apply Rle_0_sqr.
    + rewrite R, C. cbn. lia.
Qed.
Example five_points : forall A, conic_rows five_x five_y A -> last_singular A exy.
Proof. exact five_singular. Qed.

(** ** C104: find_tilt_roll *)
(** points on a straight line y = p x + q, not all above each other: no tilt, and the roll is the angle of the line; by both methods *)
Theorem straight_orbit : forall atan2 svd_last smooth x y p q i j method,
  polar_angle atan2 -> keeps_zero smooth -> vlen y = vlen x -> in_rng (vlen x) i -> in_rng (vlen x) j -> vat x i <> vat x j ->
  (forall k, in_rng (vlen x) k -> vat y k = p * vat x k + q) -> method <> OtherMethod ->
  find_tilt_roll atan2 svd_last smooth x y method = Ok (0, atan p * 180 / PI).
Proof.
  intros atan2 svd smooth x y p q i j method Hat Hs Hl Hi Hj Hne HL Hm. destruct method; [|apply (straight_ellipse atan2 svd smooth x y p q i j); assumption|contradiction].
  unfold find_tilt_roll. rewrite Hl, Z.eqb_refl. cbn [negb]. apply (straight_linear atan2 svd smooth x y p q i j); assumption.
Qed.
Print Assumptions straight_orbit.
(** wrong arguments *)
Theorem tilt_roll_arguments : forall atan2 svd_last smooth x y method, vlen x <> vlen y \/ method = OtherMethod -> find_tilt_roll atan2 svd_last smooth x y method = Err ValueError.
Proof. intros atan2 svd smooth x y method H. unfold find_tilt_roll. destruct (Z.eqb_spec (vlen x) (vlen y)); cbn [negb]; [|reflexivity]. destruct H as [H|H]; [contradiction|]. rewrite H. reflexivity. Qed.
Print Assumptions tilt_roll_arguments.
(** the distance used for choosing the method is the shortest distance of a point from the line *)
Theorem line_distance_nearest : forall a b x y k, distance_to_line a b (vat x k) (vat y k) (vat (line_distance a b x y) k).
Proof.
  intros a b x y k. cbn [vat line_distance]. set (u := vat x k). set (v := vat y k). set (e := a * u - v + b). assert (A : 0 < a ^ 2 + 1) by (assert (Q := pow2_ge_0 a); lra).
  assert (D : Rabs e / sqrt (a ^ 2 + 1) = sqrt (e ^ 2 / (a ^ 2 + 1))).
  { rewrite sqrt_div_alt by exact A. f_equal. rewrite <- sqrt_Rsqr_abs. f_equal. unfold Rsqr. ring. }
  assert (F : forall t, (t - u) ^ 2 + (a * t + b - v) ^ 2 = e ^ 2 / (a ^ 2 + 1) + (a ^ 2 + 1) * (t - u + a * e / (a ^ 2 + 1)) ^ 2).
  { intros t. unfold e. field. lra. }
  rewrite D. split.
  - exists (u - a * e / (a ^ 2 + 1)). f_equal. rewrite F. replace (u - a * e / (a ^ 2 + 1) - u + a * e / (a ^ 2 + 1)) with 0 by ring. ring.
  - intros t. apply sqrt_le_1_alt. rewrite F. assert (Q := pow2_ge_0 (t - u + a * e / (a ^ 2 + 1))). assert (Q2 := Rmult_le_pos _ _ (Rlt_le _ _ A) Q). lra.
Qed.
Print Assumptions line_distance_nearest.
(** points on an ellipse: the roll is the angle of its major axis, the reported tilt is atan (b / a); by find_tilt_roll as soon as some
    smoothed distance from the line of least squares is at least 1 *)
Theorem orbit_tilt_roll_partial : forall atan2 svd_last smooth x y xc yc a b theta t,
  polar_angle atan2 -> atan2 0 0 = 0 -> (forall A, conic_rows x y A -> last_singular A (svd_last A)) ->
  (6 <= vlen x)%Z -> vlen y = vlen x -> 0 < b -> b < a -> - (PI / 2) <= theta < PI / 2 ->
  on_ellipse xc yc a b theta x y t -> five_different x y ->
  find_tilt_roll_based_ellipse_fit atan2 svd_last x y = Ok (Some (atan (b / a) * 180 / PI, theta * 180 / PI)) /\
  ((exists k l, in_rng (vlen x) k /\ in_rng (vlen x) l /\ vat x k <> vat x l) ->
   (forall p q dist, least_squares x y p q -> vlen dist = vlen x -> (forall k, in_rng (vlen x) k -> distance_to_line p q (vat x k) (vat y k) (vat dist k)) ->
      exists k, in_rng (vlen (smooth dist)) k /\ 1 <= vat (smooth dist) k) ->
   find_tilt_roll atan2 svd_last smooth x y EllipseFit = Ok (atan (b / a) * 180 / PI, theta * 180 / PI)).
Proof.
  intros atan2 svd smooth x y xc yc a b theta t Hat H0 HS Hn Hl Hb Hab Ht HE HF.
  destruct (fit_exact atan2 svd x y xc yc a b theta t Hat H0 Hn Hl Hb ltac:(lra) Ht HE HF HS) as (f & E & M1 & M2 & _ & _ & Rl).
  assert (X : find_tilt_roll_based_ellipse_fit atan2 svd x y = Ok (Some (atan (b / a) * 180 / PI, theta * 180 / PI))).
  { unfold find_tilt_roll_based_ellipse_fit. rewrite E, M1, M2, (Rl Hab), (atan2_right atan2 _ _ Hat) by lra. replace (2 * b / (2 * a)) with (b / a) by (field; lra). reflexivity. }
  split; [exact X|]. intros (k0 & l0 & Hk0 & Hl0 & Hkl) HD.
  destruct (HD _ _ (line_distance (fst (polyfit_line x y)) (snd (polyfit_line x y)) x y) (polyfit_least x y k0 l0 Hk0 Hl0 Hkl) eq_refl ltac:(intros k _; apply line_distance_nearest)) as (k & Hk & K1).
  unfold find_tilt_roll. rewrite Hl, Z.eqb_refl. cbn [negb]. destruct (polyfit_line x y) as (u & v). cbn [fst snd] in *. cbv zeta in *.
  set (d := smooth (line_distance u v x y)) in *.
  assert (I : In (vat d k) (vlistR d)) by (apply in_map, zrange_In; unfold in_rng in Hk; lia).
  destruct (rmaxlist_spec (vlistR d)) as (top & T1 & _ & T3); [intros Z; rewrite Z in I; contradiction|]. rewrite T1. cbn [bindr]. specialize (T3 _ I).
  destruct (Rlt_dec top 1) as [C|_]; [exfalso; lra|]. rewrite X. reflexivity.
Qed.
Print Assumptions orbit_tilt_roll_partial.
(** the line used there is the line of least squares *)
Theorem tilt_line_least_squares : forall (x y : vec R) i j, in_rng (vlen x) i -> in_rng (vlen x) j -> vat x i <> vat x j ->
  least_squares x y (fst (polyfit_line x y)) (snd (polyfit_line x y)).
Proof. exact polyfit_least. Qed.
Print Assumptions tilt_line_least_squares.
(** a rotation axis tilted by alpha towards the beam turns a circle of radius r into an ellipse with half axes r and r sin alpha; the
    reported tilt is always too small *)
Theorem orbit_tilt_refuted : forall atan2 svd_last x y xc yc r alpha theta t,
  polar_angle atan2 -> atan2 0 0 = 0 -> (forall A, conic_rows x y A -> last_singular A (svd_last A)) ->
  (6 <= vlen x)%Z -> vlen y = vlen x -> 0 < r -> 0 < alpha < PI / 2 -> - (PI / 2) <= theta < PI / 2 ->
  on_ellipse xc yc r (r * sin alpha) theta x y t -> five_different x y ->
  exists tilt, find_tilt_roll_based_ellipse_fit atan2 svd_last x y = Ok (Some (tilt, theta * 180 / PI)) /\ tilt < alpha * 180 / PI.
Proof.
  intros atan2 svd x y xc yc r al theta t Hat H0 HS Hn Hl Hr Hal Ht HE HF. assert (P := PI_RGT_0). assert (S := sin_gt_0 al ltac:(lra) ltac:(lra)).
  assert (S1 : sin al < 1) by (rewrite <- sin_PI2; apply sin_increasing_1; lra).
  destruct (orbit_tilt_roll_partial atan2 svd (fun v => v) x y xc yc r (r * sin al) theta t Hat H0 HS Hn Hl) as (X & _); try assumption; [apply Rmult_lt_0_compat; lra|rewrite <- (Rmult_1_r r) at 2; apply Rmult_lt_compat_l; lra|].
  eexists. split; [exact X|]. replace (r * sin al / r) with (sin al) by (field; lra). assert (L := atan_sin_less al ltac:(lra)). change (rad2deg (atan (sin al)) < rad2deg al). apply deg_lt, L.
Qed.
Print Assumptions orbit_tilt_refuted.
Example orbit_example : 0 < PI / 6 < PI / 2 /\ 2 * sin (PI / 6) = 1.
Proof. assert (P := PI_RGT_0). rewrite sin_PI6. lra. Qed.
Example straight_example : keeps_zero (fun v => v) /\ (forall k, in_rng 3 k -> IZR (2 * k + 1) = 2 * IZR k + 1).
Proof. split; [intros v; split; [reflexivity|intros H; exact H]|]. intros k _. rewrite plus_IZR, mult_IZR. ring. Qed.

(** ** C105: binarising an image, sizes of dots, selecting dots *)
(** a given threshold must lie between the darkest and the brightest pixel *)
Theorem binarize_threshold_range : forall fill median3 normalized auto mat t invert, (1 <= nrow mat)%Z -> (1 <= ncol mat)%Z ->
  (forall p, inside mat p -> t < px mat (fst p) (snd p)) \/ (forall p, inside mat p -> px mat (fst p) (snd p) < t) ->
  binarize_image median3 normalized auto fill mat (Some t) false false invert = Err ValueError.
Proof. exact binarize_range. Qed.
Print Assumptions binarize_threshold_range.
(** otherwise the result is, with holes filled, the set of pixels above the threshold, or the other pixels when more than half of all
    pixels are above it and inverting is asked for *)
Theorem binarize_pixels : forall fill median3 normalized auto mat t invert n, (1 <= nrow mat)%Z -> (1 <= ncol mat)%Z -> pixels_above mat t n ->
  (exists p, inside mat p /\ px mat (fst p) (snd p) <= t) -> (exists p, inside mat p /\ t <= px mat (fst p) (snd p)) ->
  exists m, binarize_image median3 normalized auto fill mat (Some t) false false invert = Ok (fill m) /\ nrow m = nrow mat /\ ncol m = ncol mat /\
    forall i j, in_rng (nrow mat) i -> in_rng (ncol mat) j ->
      px m i j = if Rlt_dec t (px mat i j) then (if invert && (nrow mat * ncol mat <? 2 * n)%Z then 0 else 1) else (if invert && (nrow mat * ncol mat <? 2 * n)%Z then 1 else 0).
Proof. exact binarized. Qed.
Print Assumptions binarize_pixels.
Local Open Scope Z_scope.
(** the size reported with "min" and "max" is that of the smallest and of the largest dot *)
Theorem dot_size_min_max : forall label median m lab num, binary m -> label m = (lab, num) -> labelled m lab num -> (exists p, white m p) ->
  exists lo hi, get_dot_size label median m Minimum = Ok (IZR lo) /\ get_dot_size label median m Maximum = Ok (IZR hi) /\
    (exists p, white m p /\ dot_pixels m p lo) /\ (exists p, white m p /\ dot_pixels m p hi) /\ forall p n, white m p -> dot_pixels m p n -> lo <= n <= hi.
Proof. exact dot_size_extreme. Qed.
Print Assumptions dot_size_min_max.
(** when no dot reaches into the rectangle around another one, exactly the dots with more than d - r d - 1 and at most d + r d pixels are
    kept: so all dots with a size between d - r d and d + r d *)
Theorem select_dots_partial : forall m lab num label find_objects (d r : R), binary m -> label m = (lab, num) -> labelled m lab num -> objects lab num (find_objects lab num) ->
  (forall p q, white m p -> white m q -> in_rectangle m p q -> same_dot m p q) -> (1 <= d)%R -> (0 <= r <= 1)%R ->
  let out := select_dot_based_size label find_objects m d r in
  (forall i j, px m i j = 0 -> px out i j = 0) /\
  forall p n, white m p -> dot_pixels m p n ->
    ((d - r * d - 1 < IZR n <= d + r * d)%R -> px out (fst p) (snd p) = 1) /\ (~ (d - r * d - 1 < IZR n <= d + r * d)%R -> px out (fst p) (snd p) = 0).
Proof.
  intros m lab num label fo d r HB HE HL HO Hsep Hd Hr out. split; [intros i j H; apply selected_black, H|]. intros p n Hp Hn.
  assert (S := selected_pixel m lab num (fo lab num) HB HL HO Hsep label fo d r p n HE eq_refl Hp Hn). cbv zeta in S. fold out in S. rewrite S.
  assert (K := keep_range d r n Hd Hr (dot_at_least_one m p n Hp Hn)). destruct (_ && _); split; intros H; try reflexivity; [exfalso; apply H, K; reflexivity|]. apply K in H. discriminate.
Qed.
Print Assumptions select_dots_partial.
(** a dot of exactly the wanted size is lost when a pixel of another dot lies in the rectangle around it: the code adds up all pixels of
    the rectangle *)
Theorem select_dots_refuted : exists m p, binary m /\ white m p /\ dot_pixels m p 5 /\
  (exists lab num l, labelled m lab num /\ objects lab num l) /\
  forall label find_objects lab num, label m = (lab, num) -> labelled m lab num -> objects lab num (find_objects lab num) ->
    px (select_dot_based_size label find_objects m 5 (1 / 100)) (fst p) (snd p) = 0.
Proof.
  exists lshape, (0, 0). split; [exact lshape_binary|]. split; [apply in_L_white; left; reflexivity|]. split; [exact lshape_size|]. split; [|intros; eapply lshape_lost; eassumption].
  set (lab := mkimg 3 3 (fun i j => if (j =? 0) || (i =? 2) then 1 else if (i =? 0) && (j =? 2) then 2 else 0)). exists lab, 2, [(0, 3, 0, 3); (0, 1, 2, 3)].
  assert (LL : forall p, in_L p -> px lab (fst p) (snd p) = 1) by (intros p H; unfold in_L in H; cbn [In] in H; repeat (destruct H as [H|H]; [subst p; reflexivity|]); contradiction).
  assert (W0 : white lshape (0, 0)) by (apply in_L_white; left; reflexivity). split.
  - split; [reflexivity|]. split; [reflexivity|]. split; [lia|]. split; [|split].
    + intros (i & j) (Hi & Hj). unfold in_rng in *. cbn [nrow ncol px lshape lab fst snd] in *. destruct ((j =? 0) || (i =? 2)); cbn [orb]; [lia|]. destruct ((i =? 0) && (j =? 2)); lia.
    + intros k Hk. assert (K : k = 1 \/ k = 2) by lia. destruct K as [-> | ->]; [exists (0, 0); split; [exact W0|reflexivity]|exists (0, 2); split; [exact lshape_corner|reflexivity] ].
    + assert (Conn : forall p q, in_L p -> in_L q -> same_dot lshape p q).
      { assert (Sym : forall p q, same_dot lshape p q -> same_dot lshape q p).
        { assert (Pre : forall p q r, white lshape p -> touching p q -> same_dot lshape q r -> same_dot lshape p r).
          { intros p q r Hp Ht H. induction H as [H|r s H IH Hs Hts]; [apply (dot_step _ _ p); [apply dot_here, Hp|exact H|exact Ht]|apply (dot_step _ _ r); assumption]. }
          intros p q H. induction H as [H|q r H IH Hr Ht]; [apply dot_here, H|]. apply (Pre r q p Hr); [|exact IH]. unfold touching in *. lia. }
        assert (Tr : forall p q r, same_dot lshape p q -> same_dot lshape q r -> same_dot lshape p r) by (intros p q r H G; induction G as [G|s u G IH Hu Hsu]; [exact H|apply (dot_step _ _ s); assumption]).
        intros p q Hp Hq. apply (Tr p (0, 0) q); [apply Sym|]; apply lshape_dot_L; assumption. }
      intros p q Hp Hq. apply lshape_white in Hp. apply lshape_white in Hq. destruct Hp as [Hp|Hp], Hq as [Hq|Hq].
      * rewrite (LL p Hp), (LL q Hq). split; [intros _; apply Conn; assumption|reflexivity].
      * subst q. rewrite (LL p Hp). split; [intros X; cbn in X; discriminate|]. intros S. exfalso. assert (T : same_dot lshape (0, 0) (0, 2)).
        { assert (A : same_dot lshape (0, 0) p) by (apply lshape_dot_L, Hp). clear - A S. induction S as [S|s u S IH Hu Hsu]; [exact A|apply (dot_step _ _ s); assumption]. }
        apply lshape_dot_L in T. unfold in_L in T. cbn [In] in T. repeat (destruct T as [T|T]; [discriminate|]). exact T.
      * subst p. rewrite (LL q Hq). split; [intros X; cbn in X; discriminate|]. intros S. apply lshape_dot_corner in S. subst q. unfold in_L in Hq. cbn [In] in Hq. repeat (destruct Hq as [Hq|Hq]; [discriminate|]). contradiction.
      * subst. split; [intros _; apply dot_here, lshape_corner|reflexivity].
  - split; [reflexivity|]. intros k r0 r1 c0 c1 Hk E. assert (K : k = 1 \/ k = 2) by lia. destruct K as [-> | ->].
    + change (nth (Z.to_nat (1 - 1)) [(0, 3, 0, 3); (0, 1, 2, 3)] (0, 0, 0, 0)) with (0, 3, 0, 3) in E. injection E as <- <- <- <-.
      split; [intros (i & j) (Hi & Hj) _; unfold in_rng in *; cbn in *; lia|].
      split; [exists (0, 0); split; [split; unfold in_rng; cbn; lia|split; reflexivity]|]. split; [exists (2, 0); split; [split; unfold in_rng; cbn; lia|split; reflexivity]|].
      split; [exists (0, 0); split; [split; unfold in_rng; cbn; lia|split; reflexivity]|]. exists (2, 2); split; [split; unfold in_rng; cbn; lia|split; reflexivity].
    + change (nth (Z.to_nat (2 - 1)) [(0, 3, 0, 3); (0, 1, 2, 3)] (0, 0, 0, 0)) with (0, 1, 2, 3) in E. injection E as <- <- <- <-.
      split. { intros (i & j) _ V. cbn [px lab fst snd] in *. destruct (_ || _); [discriminate|]. destruct (Z.eqb_spec i 0), (Z.eqb_spec j 2); cbn [andb] in V; try discriminate. lia. }
      repeat split; exists (0, 2); (split; [split; unfold in_rng; cbn; lia|split; reflexivity]).
Qed.
Print Assumptions select_dots_refuted.
(** an image with one dot of one pixel; its labels and its rectangle *)
Example one_dot_example : let m := mkimg 1 1 (fun _ _ : Z => 1) in binary m /\ white m (0, 0) /\ dot_pixels m (0, 0) 1 /\ labelled m m 1 /\ objects m 1 [(0, 1, 0, 1)] /\
  (forall p q, white m p -> white m q -> in_rectangle m p q -> same_dot m p q).
Proof.
  intros m. assert (I : forall p, inside m p <-> p = (0, 0)) by (intros (i & j); unfold inside, in_rng; cbn; split; [intros; f_equal; lia|intros H; injection H as -> ->; lia]).
  assert (W : white m (0, 0)) by (split; [apply I; reflexivity|cbn; lia]).
  assert (All : forall p q, white m p -> white m q -> same_dot m p q) by (intros p q (Hp & _) (Hq & _); apply I in Hp, Hq; subst; apply dot_here, W).
  split; [intros p _; right; reflexivity|]. split; [exact W|]. split; [|split; [|split] ].
  - exists [(0, 0)]. split; [repeat constructor; cbn; tauto|]. split; [|reflexivity]. intros q. cbn [In]. split; [intros [<-|[] ]; apply dot_here, W|]. intros H. apply same_dot_white in H. left. symmetry. apply I, H.
  - split; [reflexivity|]. split; [reflexivity|]. split; [lia|]. split; [intros p _; cbn; lia|]. split; [intros k Hk; exists (0, 0); split; [exact W|cbn; lia]|]. intros p q Hp Hq. split; [intros _; apply All; assumption|reflexivity].
  - split; [reflexivity|]. intros k r0 r1 c0 c1 Hk E. assert (k = 1) by lia. subst k. change (nth (Z.to_nat (1 - 1)) [(0, 1, 0, 1)] (0, 0, 0, 0)) with (0, 1, 0, 1) in E. injection E as <- <- <- <-.
    split; [intros p Hp _; apply I in Hp; subst p; cbn; lia|]. repeat split; exists (0, 0); (split; [apply I; reflexivity|split; reflexivity]).
  - intros p q Hp Hq _. apply All; assumption.
Qed.

(** ** C106: background normalisation and the distance of two dots *)
Local Open Scope R_scope.
(** where the estimated background is nowhere zero, the image is divided by it and multiplied by its mean; an image that is c times its
    background becomes flat *)
Theorem normalize_divides : forall integer median_filter mat size, let bg := median_filter mat size in
  nrow bg = nrow mat -> ncol bg = ncol mat -> (forall i j, in_rng (nrow mat) i -> in_rng (ncol mat) j -> px bg i j <> 0) ->
  let mean := rsum (nrow mat) (fun i => rsum (ncol mat) (fun j => px bg i j)) / (IZR (nrow mat) * IZR (ncol mat)) in
  exists out, normalize_background integer median_filter mat size = Ok out /\ nrow out = nrow mat /\ ncol out = ncol mat /\
    (forall i j, in_rng (nrow mat) i -> in_rng (ncol mat) j -> px out i j = mean * px mat i j / px bg i j) /\
    (forall c, (forall i j, in_rng (nrow mat) i -> in_rng (ncol mat) j -> px mat i j = c * px bg i j) ->
       forall i j, in_rng (nrow mat) i -> in_rng (ncol mat) j -> px out i j = c * mean).
Proof.
  intros integer mf mat size bg E1 E2 Hz mean. assert (D : forall i j, in_rng (nrow mat) i -> in_rng (ncol mat) j -> divisor integer bg i j = px bg i j).
  { intros i j Hi Hj. unfold divisor. destruct (Req_EM_T (px bg i j) 0) as [X|_]; [exfalso; exact (Hz i j Hi Hj X)|reflexivity]. }
  assert (M : M_calib.rmean2 bg = mean) by (unfold M_calib.rmean2, mean, rsum2; rewrite E1, E2; reflexivity).
  assert (O : normalize_background integer mf mat size = Ok (mkimg (nrow mat) (ncol mat) (fun i j => M_calib.rmean2 bg * px mat i j / divisor integer bg i j))).
  { apply divide_ok. intros i j Hi Hj. fold bg. rewrite D by assumption. apply Hz; assumption. }
  eexists. split; [exact O|]. split; [reflexivity|]. split; [reflexivity|]. cbn [px]. split.
  - intros i j Hi Hj. rewrite D, M by assumption. reflexivity.
  - intros c Hc i j Hi Hj. rewrite D, M by assumption. rewrite (Hc i j Hi Hj). field. apply Hz; assumption.
Qed.
Print Assumptions normalize_divides.
(** zeros of a background with floating-point values are replaced by its mean, so that the division is possible *)
Theorem normalize_zero_background : forall median_filter mat size, let bg := median_filter mat size in nrow bg = nrow mat -> ncol bg = ncol mat ->
  let mean := rsum (nrow mat) (fun i => rsum (ncol mat) (fun j => px bg i j)) / (IZR (nrow mat) * IZR (ncol mat)) in mean <> 0 ->
  exists out, normalize_background false median_filter mat size = Ok out /\
    forall i j, in_rng (nrow mat) i -> in_rng (ncol mat) j -> px bg i j = 0 -> px out i j = px mat i j.
Proof.
  intros mf mat size bg E1 E2 mean Hm. assert (M : M_calib.rmean2 bg = mean) by (unfold M_calib.rmean2, mean, rsum2; rewrite E1, E2; reflexivity).
  assert (O : normalize_background false mf mat size = Ok (mkimg (nrow mat) (ncol mat) (fun i j => M_calib.rmean2 bg * px mat i j / divisor false bg i j))).
  { apply divide_ok. intros i j Hi Hj. fold bg. unfold divisor. rewrite M. destruct (Req_EM_T (px bg i j) 0) as [X|X]; [exact Hm|exact X]. }
  eexists. split; [exact O|]. intros i j Hi Hj Z. cbn [px]. unfold divisor. rewrite M. destruct (Req_EM_T (px bg i j) 0) as [_|X]; [field; exact Hm|contradiction].
Qed.
Print Assumptions normalize_zero_background.
(** not so for an image of integers: the mean is truncated when it is stored into the integer background (with size 1 the median filter
    returns the image itself) *)
Theorem normalize_integer_refuted : exists mat : img R, (exists g : Z -> Z -> Z, forall i j, px mat i j = IZR (g i j)) /\
  forall median_filter, (forall m, median_filter m 1%Z = m) ->
    0 < rsum (nrow mat) (fun i => rsum (ncol mat) (fun j => px mat i j)) / (IZR (nrow mat) * IZR (ncol mat)) /\
    normalize_background true median_filter mat 1 = Err ZeroDivisionError.
Proof.
  set (g := fun _ j : Z => if (j =? 0)%Z then 1%Z else 0%Z). set (mat := mkimg 1 2 (fun i j => IZR (g i j))). exists mat.
  assert (M : M_calib.rmean2 mat = 1 / 2). { change (M_calib.rmean2 mat) with ((0 + (0 + 1 + 0)) / (1 * 2)). lra. }
  split; [exists g; reflexivity|]. intros mf Hmf. split; [change (0 < M_calib.rmean2 mat); rewrite M; lra|].
  unfold normalize_background. rewrite Hmf. apply (divide_zero true mat mat 0 1); [unfold in_rng; cbn; lia..|]. unfold divisor. rewrite M.
  change (px mat 0 1) with 0. destruct (Req_EM_T 0 0) as [_|X]; [|contradiction]. rewrite (rtrunc_is (1 / 2) 0) by lra. reflexivity.
Qed.
Print Assumptions normalize_integer_refuted.
(** two images with a single dot each, in the second one moved by dy rows and dx columns: the distance is that of the displacement *)
Theorem distance_of_moved_dot_partial : forall binarize label find_objects median opt mat1 mat2 b1 b2 lab1 num1 lab2 num2 dy dx,
  binarize mat1 = Ok b1 -> binarize mat2 = Ok b2 -> binary b1 -> binary b2 ->
  label b1 = (lab1, num1) -> labelled b1 lab1 num1 -> objects lab1 num1 (find_objects lab1 num1) ->
  label b2 = (lab2, num2) -> labelled b2 lab2 num2 -> objects lab2 num2 (find_objects lab2 num2) ->
  (forall n, median [n] = IZR n) -> (exists p, white b1 p) -> (forall p q, white b1 p -> white b1 q -> same_dot b1 p q) -> moved b1 b2 dy dx ->
  calculate_distance binarize label find_objects median opt mat1 mat2 = Ok (sqrt (IZR dy ^ 2 + IZR dx ^ 2)).
Proof. exact distance_moved. Qed.
Print Assumptions distance_of_moved_dot_partial.
(** two images with any number of dots, all moved together, none of them inside the rectangle around another one: the distance is that of
    the displacement, whenever some dot has the size that is asked for - always with "min" and "max", with "median" for an odd number of
    dots, with every option if the dots have the same number of pixels *)
Theorem distance_of_moved_dots_partial : forall binarize label find_objects median opt mat1 mat2 b1 b2 lab1 num1 lab2 num2 dy dx,
  binarize mat1 = Ok b1 -> binarize mat2 = Ok b2 -> binary b1 -> binary b2 ->
  label b1 = (lab1, num1) -> labelled b1 lab1 num1 -> objects lab1 num1 (find_objects lab1 num1) ->
  label b2 = (lab2, num2) -> labelled b2 lab2 num2 -> objects lab2 num2 (find_objects lab2 num2) ->
  (forall l, l <> [] -> median_of l (median l)) -> (exists p, white b1 p) ->
  (forall p q, white b1 p -> white b1 q -> in_rectangle b1 p q -> same_dot b1 p q) -> moved b1 b2 dy dx ->
  opt = Minimum \/ opt = Maximum \/ (opt = Median /\ Z.odd num1 = true) \/ (exists n, forall p, white b1 p -> dot_pixels b1 p n) ->
  calculate_distance binarize label find_objects median opt mat1 mat2 = Ok (sqrt (IZR dy ^ 2 + IZR dx ^ 2)).
Proof.
  intros binarize label find_objects median opt mat1 mat2 b1 b2 lab1 num1 lab2 num2 dy dx F1 F2 B1 B2 E1 L1 O1 E2 L2 O2 Hm (p & Hp) Hs Hmv Ht.
  exact (several_distance b1 b2 lab1 lab2 num1 num2 dy dx label find_objects median B1 B2 E1 E2 L1 L2 O1 O2 Hm Hs Hmv p Hp binarize opt mat1 mat2 F1 F2 Ht).
Qed.
Print Assumptions distance_of_moved_dots_partial.
(** a dot of one pixel and one of two, moved by two columns, the labels in another order *)
Example distance_dots_case : exists binarize label find_objects (mat1 mat2 : img R),
  binarize mat1 = Ok (row_dots 0) /\ binarize mat2 = Ok (row_dots 2) /\
  calculate_distance binarize label find_objects zmedian Maximum mat1 mat2 = Ok 2.
Proof.
  exists (fun m => Ok (row_dots (rtrunc (px m 0%Z 0%Z)))), (fun m => if (px m 0 0 =? 1)%Z then (row_labels 0 1 2, 2%Z) else (row_labels 2 2 1, 2%Z)),
    (fun lab _ => if (px lab 0 0 =? 1)%Z then row_boxes 0 1 else row_boxes 2 2), (mkimg 1 1 (fun _ _ => 0)), (mkimg 1 1 (fun _ _ => 2)).
  assert (T0 : rtrunc 0 = 0%Z) by (unfold rtrunc; destruct (Rle_dec 0 0) as [_|X]; [apply Int_part_unique; cbn; lra|exfalso; lra]).
  assert (T2 : rtrunc 2 = 2%Z) by (unfold rtrunc; destruct (Rle_dec 0 2) as [_|X]; [apply Int_part_unique; lra|exfalso; lra]).
  cbn [px]. rewrite T0, T2. split; [reflexivity|]. split; [reflexivity|].
  rewrite (distance_of_moved_dots_partial _ _ _ zmedian Maximum _ _ (row_dots 0) (row_dots 2) (row_labels 0 1 2) 2 (row_labels 2 2 1) 2 0 2).
  - f_equal. replace (0 ^ 2 + 2 ^ 2) with (2 * 2) by ring. apply sqrt_square. lra.
  - cbn [px]. rewrite T0. reflexivity.
  - cbn [px]. rewrite T2. reflexivity.
  - apply row_binary.
  - apply row_binary.
  - reflexivity.
  - apply row_labelled; lia.
  - exact (row_objects 0 1 2 ltac:(lia) ltac:(lia)).
  - reflexivity.
  - apply row_labelled; lia.
  - exact (row_objects 2 2 1 ltac:(lia) ltac:(lia)).
  - exact zmedian_ok.
  - exists (0, 0)%Z. apply row_white; cbn; lia.
  - intros p q. apply row_separate. lia.
  - exact row_moved.
  - auto.
Qed.
(** with size_opt="mean" and two dots of different size no dot may be selected: the distance is not a number *)
Theorem distance_mean_refuted : exists b1, binary b1 /\ (exists p, white b1 p) /\
  forall binarize label find_objects median lab num mat1 mat2 b2 s2, binarize mat1 = Ok b1 -> binarize mat2 = Ok b2 -> get_dot_size label median b2 Mean = Ok s2 ->
    label b1 = (lab, num) -> labelled b1 lab num -> objects lab num (find_objects lab num) ->
    calculate_distance binarize label find_objects median Mean mat1 mat2 = Err ZeroDivisionError.
Proof.
  exists two_dots. split; [exact two_binary|]. split; [exists (0, 0)%Z; apply two_white; cbn; lia|]. intros. eapply distance_lost; eassumption.
Qed.
Print Assumptions distance_mean_refuted.
(** the Fourier-based normalisation: the background is the image smoothed with sigma along the shorter side and, along the longer one,
    with the least whole number that is not below sigma times the ratio of the sides *)
Theorem normalize_fft_divides : forall gaussian_filter mat sigma k,
  least_above (sigma * IZR (Z.max (nrow mat) (ncol mat)) / IZR (Z.min (nrow mat) (ncol mat))) k -> (0 < nrow mat)%Z -> (0 < ncol mat)%Z ->
  let bg := if (nrow mat <=? ncol mat)%Z then gaussian_filter mat (IZR k) sigma else gaussian_filter mat sigma (IZR k) in   (* sigma along x, along y *)
  nrow bg = nrow mat -> ncol bg = ncol mat -> (forall i j, in_rng (nrow mat) i -> in_rng (ncol mat) j -> px bg i j <> 0) ->
  let mean := rsum (nrow mat) (fun i => rsum (ncol mat) (fun j => px bg i j)) / (IZR (nrow mat) * IZR (ncol mat)) in
  exists out, normalize_background_based_fft gaussian_filter mat sigma = Ok out /\ nrow out = nrow mat /\ ncol out = ncol mat /\
    forall i j, in_rng (nrow mat) i -> in_rng (ncol mat) j -> px out i j = mean * px mat i j / px bg i j.
Proof.
  intros gf mat sigma k (K1 & K2) Hh Hw bg E1 E2 Hz mean.
  assert (B : (let '(sx, sy) := fft_sigmas (nrow mat) (ncol mat) sigma in gf mat sx sy) = bg).
  { unfold fft_sigmas, bg. assert (IZR (nrow mat) <> 0) by (apply not_0_IZR; lia). assert (IZR (ncol mat) <> 0) by (apply not_0_IZR; lia).
    destruct (Z.leb_spec (nrow mat) (ncol mat)) as [L|L]; [rewrite Z.max_r, Z.min_l in K1, K2 by lia|rewrite Z.max_l, Z.min_r in K1, K2 by lia].
    - replace (sigma / (IZR (nrow mat) / IZR (ncol mat))) with (sigma * IZR (ncol mat) / IZR (nrow mat)) by (field; split; assumption).
      assert (R : rceil (sigma * IZR (ncol mat) / IZR (nrow mat)) = k); [|rewrite R; reflexivity]. unfold rceil. rewrite (Int_part_unique _ (- k)%Z) by (rewrite opp_IZR; lra). lia.
    - replace (sigma / (IZR (ncol mat) / IZR (nrow mat))) with (sigma * IZR (nrow mat) / IZR (ncol mat)) by (field; split; assumption).
      assert (R : rceil (sigma * IZR (nrow mat) / IZR (ncol mat)) = k); [|rewrite R; reflexivity]. unfold rceil. rewrite (Int_part_unique _ (- k)%Z) by (rewrite opp_IZR; lra). lia. }
  destruct (normalize_divides false (fun _ _ => bg) mat 0%Z E1 E2 Hz) as (out & O & R1 & R2 & V & _).
  exists out. unfold normalize_background_based_fft. destruct (fft_sigmas (nrow mat) (ncol mat) sigma) as [sx sy]. rewrite B. repeat split; [exact O|exact R1|exact R2|exact V].
Qed.
Print Assumptions normalize_fft_divides.
Example normalize_fft_case : least_above (5 * IZR (Z.max 2 3) / IZR (Z.min 2 3)) 8 /\
  exists out, normalize_background_based_fft (fun m sx sy => mkimg (nrow m) (ncol m) (fun _ _ => sx / sy)) (mkimg 2 3 (fun i j => IZR (i + j))) 5 = Ok out /\ px out 1 2 = 3.
Proof.
  assert (L : least_above (5 * IZR (Z.max 2 3) / IZR (Z.min 2 3)) 8) by (unfold least_above; change (Z.max 2 3) with 3%Z; change (Z.min 2 3) with 2%Z; lra).
  split; [exact L|]. destruct (normalize_fft_divides (fun m sx sy => mkimg (nrow m) (ncol m) (fun _ _ => sx / sy)) (mkimg 2 3 (fun i j => IZR (i + j))) 5 8 L) as (out & O & _ & _ & V);
    [reflexivity|reflexivity|reflexivity|reflexivity|intros i j _ _; cbn; lra|].
  exists out. split; [exact O|]. rewrite V by (unfold in_rng; cbn; lia). cbn [nrow ncol px]. cbv -[IZR Rplus Rmult Rinv Rdiv Rminus]. field.
Qed.
