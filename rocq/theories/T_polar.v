(** Theorems about the polar transformation of slices, ring removal and rotated windows (C110). *)
From Coq Require Import Reals Lra ZArith Lia Bool List. Import ListNotations.
From Verif Require Import Np P_Np M_phase_R P_phase_R M_simR S_simR P_simR P_simR4 P_calib2 P_calib6 M_dfi M_polar S_polar P_polar P_polar2.
Open Scope Z_scope.

(** column k, row t of the polar image is the slice at the radius of k and the angle of t, measured from the centre of the slice *)
Theorem slice_to_polar : forall m, nrow m = ncol m -> 2 <= ncol m ->
  exists p, transform_slice_forward m None = Ok p /\ nrow p = ncol m /\ ncol p = ncol m /\
    forall t k, in_rng (ncol m) t -> in_rng (ncol m) k ->
      let rho := radius_of (ncol m) (IZR k) in let phi := angle_of (ncol m) (IZR t) in
      value_at m (middle (ncol m) + rho * cos phi) (middle (ncol m) + rho * sin phi) (px p t k).
Proof.
  intros m Hs Hn. unfold transform_slice_forward, transform_slice. rewrite Hs, Z.eqb_refl. cbn [negb]. set (n := ncol m) in *.
  assert (F := forward_coords n Hn). destruct (rectangular_from_polar n n n n) as [x y] eqn:E. eexists. split; [reflexivity|]. cbn [nrow ncol mapping px].
  assert (X : nrow x = n /\ ncol x = n) by (unfold rectangular_from_polar in E; injection E as <- _; split; reflexivity). destruct X as (-> & ->).
  split; [reflexivity|]. split; [reflexivity|]. intros t k Ht Hk. destruct (F t k Ht Hk) as (E1 & E2 & B1 & B2). cbv zeta. rewrite <- E1, <- E2.
  apply bilinear_value; fold n; try lia; try rewrite Hs; lra.
Qed.
Print Assumptions slice_to_polar.
Example slice_to_polar_example : let m := mkimg 5 5 (fun i j => IZR (i * j)) in nrow m = ncol m /\ 2 <= ncol m /\ in_rng 5 1 /\ in_rng 5 4 /\
  radius_of 5 (IZR 4) = 2%R /\ angle_of 5 (IZR 1) = (PI / 2)%R.
Proof. cbn [nrow ncol]. unfold in_rng, radius_of, angle_of, largest. change ((5 - 1) / 2) with 2. repeat split; try lia; field. Qed.

(** back: the pixel (i, j) is read from the row that has its own angle, and from the column d n / largest, d its distance from the centre *)
Theorem slice_from_polar : forall atan2 p, polar_angle atan2 -> nrow p = ncol p -> 3 <= ncol p ->
  exists out, transform_slice_backward atan2 p None = Ok out /\ nrow out = ncol p /\ ncol out = ncol p /\
    forall i j, in_rng (ncol p) i -> in_rng (ncol p) j ->
      let n := ncol p in let d := distance n i j in
      exists t, (0 <= t <= IZR n - 1)%R /\ (d * cos (angle_of n t) = IZR j - middle n)%R /\ (d * sin (angle_of n t) = IZR i - middle n)%R /\
        value_at p (Rmin (d * IZR n / largest n) (IZR n - 1)) t (px out i j).
Proof.
  intros atan2 p Ha Hs Hn. unfold transform_slice_backward, transform_slice. rewrite Hs, Z.eqb_refl. cbn [negb]. set (n := ncol p) in *.
  assert (B := backward_coords n ltac:(lia) atan2 Ha). destruct (polar_from_rectangular atan2 n n n n) as [r t] eqn:E. eexists. split; [reflexivity|]. cbn [nrow ncol mapping px].
  assert (X : nrow r = n /\ ncol r = n) by (unfold polar_from_rectangular in E; injection E as <- _; split; reflexivity). destruct X as (-> & ->).
  split; [reflexivity|]. split; [reflexivity|]. intros i j Hi Hj. destruct (B i j Hn) as (E1 & E2 & E3 & E4). cbv zeta.
  exists (px t i j). split; [exact E2|]. split; [exact E3|]. split; [exact E4|]. rewrite <- E1.
  assert (L := largest_pos n Hn). assert (N := n_ge n ltac:(lia)).
  assert (R : (0 <= px r i j <= IZR n - 1)%R).
  { rewrite E1. split; [|apply Rmin_r]. apply Rmin_glb; [|lra]. apply Rmult_le_pos; [apply Rmult_le_pos; [apply sqrt_pos|lra]|left; apply Rinv_0_lt_compat; lra]. }
  apply bilinear_value; fold n; try rewrite Hs; try lia; lra.
Qed.
Print Assumptions slice_from_polar.
Example slice_from_polar_example : let p := mkimg 5 5 (fun t k => IZR (t + k)) in polar_angle polar /\ nrow p = ncol p /\ 3 <= ncol p /\ distance 5 2 4 = 2%R.
Proof.
  cbn [nrow ncol]. split; [exact polar_is_angle|]. split; [reflexivity|]. split; [lia|]. unfold distance, middle.
  replace ((2 - (5 - 1) / 2) ^ 2 + (4 - (5 - 1) / 2) ^ 2)%R with (2 * 2)%R by field. apply sqrt_square. lra.
Qed.

(** the two transformations use the same centre and angle, but the column read stands for the radius d n / (n - 1) instead of d: every
    pixel of the circle is read on its own ray, up to half a pixel too far out *)
Theorem polar_round_trip_partial : forall n i j, 3 <= n -> (distance n i j <= largest n)%R ->
  let d := distance n i j in let read := radius_of n (Rmin (d * IZR n / largest n) (IZR n - 1)) in
  read = Rmin (d * IZR n / (IZR n - 1)) (largest n) /\ (0 <= read - d <= 1 / 2)%R.
Proof.
  intros n i j Hn Hd. cbv zeta. assert (D := sqrt_pos ((IZR i - middle n) ^ 2 + (IZR j - middle n) ^ 2)). fold (distance n i j) in D.
  rewrite backward_radius by (lia || exact D). split; [reflexivity|]. apply backward_error; [lia|exact Hn|split; assumption].
Qed.
Print Assumptions polar_round_trip_partial.
Example polar_round_trip_partial_example : 3 <= 7 /\ (distance 7 3 5 <= largest 7)%R.
Proof.
  split; [lia|]. unfold distance, middle, largest. change ((7 - 1) / 2) with 3.
  replace ((3 - (7 - 1) / 2) ^ 2 + (5 - (7 - 1) / 2) ^ 2)%R with (2 * 2)%R by field. rewrite sqrt_square; lra.
Qed.

(** a 5 x 5 slice: the pixel (2, 3) is itself a sample of the polar image, yet it comes back mixed with its outer neighbour *)
Theorem polar_round_trip_refuted : forall atan2 m, polar_angle atan2 -> nrow m = 5 -> ncol m = 5 ->
  exists p out, transform_slice_forward m None = Ok p /\ transform_slice_backward atan2 p None = Ok out /\
    px p 0 2 = px m 2 3 /\ px out 2 3 = (3 / 4 * px m 2 3 + 1 / 4 * px m 2 4)%R.
Proof.
  intros atan2 m Ha Hr Hc. destruct (slice_to_polar m) as (p & Ep & P1 & P2 & P); [congruence|lia|]. rewrite Hc in *.
  destruct (slice_from_polar atan2 p Ha) as (out & Eo & _); [congruence|lia|]. exists p, out. split; [exact Ep|]. split; [exact Eo|].
  assert (L : largest 5 = 2%R) by reflexivity.
  assert (V : forall t k, t = 0 \/ t = 4 -> (0 <= k <= 4) -> value_at m (2 + IZR k / 2) 2 (px p t k)).
  { intros t k Ht Hk. assert (Q := P t k ltac:(unfold in_rng; lia) ltac:(unfold in_rng; lia)). cbv zeta in Q.
    assert (A : cos (angle_of 5 (IZR t)) = 1%R /\ sin (angle_of 5 (IZR t)) = 0%R).
    { unfold angle_of. destruct Ht as [-> | ->].
      - replace (2 * PI * 0 / (5 - 1))%R with 0%R by field. rewrite cos_0, sin_0. split; reflexivity.
      - replace (2 * PI * 4 / (5 - 1))%R with (2 * PI)%R by field. rewrite cos_2PI, sin_2PI. split; reflexivity. }
    destruct A as (A1 & A2). rewrite A1, A2 in Q. unfold radius_of, middle in Q. rewrite L in Q.
    replace ((5 - 1) / 2 + 2 * IZR k / (5 - 1) * 1)%R with (2 + IZR k / 2)%R in Q by field. replace ((5 - 1) / 2 + 2 * IZR k / (5 - 1) * 0)%R with 2%R in Q by field. exact Q. }
  assert (G : forall t, t = 0 \/ t = 4 -> px p t 2 = px m 2 3).
  { intros t Ht. assert (Q := V t 2 Ht ltac:(lia)). replace (2 + 2 / 2)%R with 3%R in Q by field. apply (value_grid m 2 3); [unfold in_rng; lia|unfold in_rng; lia|exact Q]. }
  split; [apply G; left; reflexivity|].
  assert (H43 : px p 4 3 = ((px m 2 3 + px m 2 4) / 2)%R).
  { destruct (V 4 3 ltac:(right; reflexivity) ltac:(lia)) as (i & j & a & b & Hi & Hj & (Hab & Hb & Ey & Ex) & E). cbv zeta in E. rewrite Hr, Hc in *. unfold in_rng in *.
    assert (J : j = 3). { assert (2 < j) by (apply lt_IZR; lra). assert (j < 4) by (apply lt_IZR; lra). lia. } subst j. assert (b = (1 / 2)%R) by lra. subst b.
    assert (I : (i = 2 /\ a = 0%R) \/ (i = 1 /\ a = 1%R)).
    { assert (1 <= i) by (apply le_IZR; lra). assert (i <= 2) by (apply le_IZR; lra). assert (i = 1 \/ i = 2) by lia. destruct H1 as [-> | ->]; [right|left]; split; lra || reflexivity. }
    rewrite E. change (Z.min (3 + 1) (5 - 1)) with 4. destruct I as [(-> & ->)|(-> & ->)]; [|change (Z.min (1 + 1) (5 - 1)) with 2]; field. }
  unfold transform_slice_backward, transform_slice in Eo. rewrite P1, P2 in Eo. change (5 =? 5) with true in Eo. cbv beta iota delta [negb polar_from_rectangular] zeta in Eo. assert (O := f_equal (fun r => match r with Ok x => x | Err _ => out end) Eo). cbn beta iota in O. rewrite <- O. cbn [px mapping].
  replace ((5 - 1) * 0.5)%R with 2%R by lra. rewrite Rmax_left by lra. rewrite (Int_part_unique 2 2) by lra. change (5 - 1 - 3) with 1. change (5 - 1 - 2) with 2.
  replace ((1 - 2) * 5 / 2)%R with (- (5 / 2))%R by field. replace ((2 - 2) * 5 / 2)%R with 0%R by field.
  replace (sqrt ((- (5 / 2)) ^ 2 + 0 ^ 2)) with (5 / 2)%R by (symmetry; replace ((- (5 / 2)) ^ 2 + 0 ^ 2)%R with ((5 / 2) * (5 / 2))%R by field; apply sqrt_square; lra).
  assert (A : atan2 0%R (- (5 / 2))%R = PI).
  { assert (P0 := PI_RGT_0). assert (U := polar_unique atan2 (5 / 2) PI Ha ltac:(lra) ltac:(lra)). rewrite sin_PI, cos_PI in U. replace (5 / 2 * 0)%R with 0%R in U by field. replace (5 / 2 * -1)%R with (- (5 / 2))%R in U by field. exact U. }
  rewrite A. replace ((PI + PI) * (5 - 1) / (2 * PI))%R with 4%R by (field; apply PI_neq0). rewrite !rclip_id by lra.
  unfold bilinear. rewrite (Int_part_unique (5 / 2) 2) by lra. rewrite (Int_part_unique 4 4) by lra. rewrite P1, P2.
  change (near 5 4) with 4. change (near 5 2) with 2. change (near 5 (2 + 1)) with 3. rewrite (G 4) by (right; reflexivity). rewrite H43. field.
Qed.
Print Assumptions polar_round_trip_refuted.
Example polar_round_trip_refuted_example : let m := mkimg 5 5 (fun i j => if (i =? 2) && (j =? 3) then 1%R else 0%R) in
  (3 / 4 * px m 2 3 + 1 / 4 * px m 2 4 <> px m 2 3)%R.
Proof. cbn. lra. Qed.

(** wrong shapes are rejected, and the precomputed coordinates give the same result as none *)
Theorem polar_shapes : forall atan2 m coord,
  (nrow m <> ncol m -> transform_slice_forward m coord = Err ValueError /\ transform_slice_backward atan2 m coord = Err ValueError) /\
  (forall x y, coord = Some (x, y) -> (nrow x, ncol x) <> (nrow m, ncol m) \/ (nrow y, ncol y) <> (nrow m, ncol m) ->
     transform_slice_forward m coord = Err ValueError /\ transform_slice_backward atan2 m coord = Err ValueError) /\
  (nrow m = ncol m -> let n := ncol m in
     transform_slice_forward m (Some (rectangular_from_polar n n n n)) = transform_slice_forward m None /\
     transform_slice_backward atan2 m (Some (polar_from_rectangular atan2 n n n n)) = transform_slice_backward atan2 m None).
Proof.
  intros atan2 m coord. unfold transform_slice_forward, transform_slice_backward, transform_slice. split; [|split].
  - intros N. destruct (Z.eqb_spec (nrow m) (ncol m)) as [E|_]; [contradiction|]. split; reflexivity.
  - intros x y -> N. destruct (negb (nrow m =? ncol m)); [split; reflexivity|].
    assert (Q : negb (shape_eqb x m) || negb (shape_eqb y m) = true).
    { unfold shape_eqb. destruct N as [N|N].
      - destruct (Z.eqb_spec (nrow x) (nrow m)) as [A|A]; [|reflexivity]. destruct (Z.eqb_spec (ncol x) (ncol m)) as [B|B]; [|reflexivity]. exfalso. apply N. congruence.
      - destruct (Z.eqb_spec (nrow y) (nrow m)) as [A|A]; [|rewrite orb_true_r; reflexivity]. destruct (Z.eqb_spec (ncol y) (ncol m)) as [B|B]; [|rewrite orb_true_r; reflexivity]. exfalso. apply N. congruence. }
    rewrite Q. split; reflexivity.
  - intros E. cbv zeta. rewrite E, Z.eqb_refl. cbn [negb rectangular_from_polar polar_from_rectangular]. unfold shape_eqb. cbn [nrow ncol]. rewrite E, Z.eqb_refl. split; reflexivity.
Qed.
Print Assumptions polar_shapes.
Example polar_shapes_example : nrow (mkimg 4 5 (fun _ _ => 0%R)) <> ncol (mkimg 4 5 (fun _ _ => 0%R)).
Proof. discriminate. Qed.

(** The coordinates for images and polar images of any size: column k of the polar image is the radius R k / (wp - 1), row t the angle
    2 pi t / (hp - 1), around the middle of the image, where R is half the larger side; positions outside the image are moved to its edge. *)
Theorem polar_grid_any_size : forall w h wp hp, 1 <= w -> 1 <= h -> 2 <= wp -> 2 <= hp ->
  let R := IZR ((Z.max w h - 1) / 2) in
  let '(x, y) := rectangular_from_polar w h wp hp in
  (nrow x = hp /\ ncol x = wp /\ nrow y = hp /\ ncol y = wp) /\
  forall t k, in_rng hp t -> in_rng wp k ->
    let rho := (R * IZR k / (IZR wp - 1))%R in let phi := (2 * PI * IZR t / (IZR hp - 1))%R in
    px x t k = Rmax 0 (Rmin (middle w + rho * cos phi) (IZR w - 1)) /\ px y t k = Rmax 0 (Rmin (middle h + rho * sin phi) (IZR h - 1)).
Proof.
  intros w h wp hp Hw Hh Hp Hq R. unfold rectangular_from_polar. split; [repeat split|]. intros t k Ht Hk. cbv zeta. cbn [px].
  assert (Hw' : (1 <= IZR w)%R) by (apply IZR_le; exact Hw). assert (Hh' : (1 <= IZR h)%R) by (apply IZR_le; exact Hh).
  assert (Hp' : (2 <= IZR wp)%R) by (apply IZR_le; exact Hp). assert (Hq' : (2 <= IZR hp)%R) by (apply IZR_le; exact Hq).
  assert (M : IZR (Int_part (Rmax ((IZR w - 1) * 0.5) ((IZR h - 1) * 0.5))) = R).
  { unfold R. f_equal. assert (E : Rmax ((IZR w - 1) * 0.5) ((IZR h - 1) * 0.5) = ((IZR (Z.max w h) - 1) * 0.5)%R).
    { destruct (Z.max_spec w h) as [(L & ->)|(L & ->)]; [rewrite Rmax_right|rewrite Rmax_left]; try reflexivity; apply Rmult_le_compat_r; try lra;
      apply Rplus_le_compat_r; apply IZR_le; lia. }
    rewrite E. apply Int_part_unique. pose proof (Z.div_mod (Z.max w h - 1) 2 ltac:(lia)) as D. pose proof (Z.mod_pos_bound (Z.max w h - 1) 2 ltac:(lia)) as B.
    set (q := (Z.max w h - 1) / 2) in *. replace (Z.max w h) with (2 * q + (Z.max w h - 1) mod 2 + 1) by lia. set (s := (Z.max w h - 1) mod 2) in *.
    rewrite !plus_IZR, mult_IZR. assert (0 <= IZR s <= 1)%R by (split; apply IZR_le; lia). lra. }
  rewrite M. unfold rlinspace. destruct (Z.eqb_spec wp 1); [lia|].
  assert (C : forall v n, (1 <= n -> rclip v 0 (n - 1) = Rmax 0 (Rmin v (n - 1)))%R).
  { intros v N Hn. unfold rclip, Rmin, Rmax. destruct (Rle_dec v 0), (Rle_dec v (N - 1)); repeat (destruct (Rle_dec _ _)); lra. }
  rewrite !C by assumption. rewrite minus_IZR.
  replace (IZR t * 2 * PI / (IZR hp - 1))%R with (2 * PI * IZR t / (IZR hp - 1))%R by (field; lra).
  replace (0 + (R - 0) * IZR k / (IZR wp - 1))%R with (R * IZR k / (IZR wp - 1))%R by (field; lra).
  unfold middle. replace ((IZR w - 1) * 0.5)%R with ((IZR w - 1) / 2)%R by lra. replace ((IZR h - 1) * 0.5)%R with ((IZR h - 1) / 2)%R by lra. split; reflexivity.
Qed.
Print Assumptions polar_grid_any_size.
Theorem rectangular_grid_any_size : forall atan2 wp hp w h, polar_angle atan2 -> 1 <= wp -> 2 <= hp -> 3 <= Z.max w h -> 1 <= w -> 1 <= h ->
  let R := IZR ((Z.max w h - 1) / 2) in
  let '(r, t) := polar_from_rectangular atan2 wp hp w h in
  (nrow r = h /\ ncol r = w /\ nrow t = h /\ ncol t = w) /\
  forall i j, in_rng h i -> in_rng w j ->
    let d := sqrt ((IZR i - middle h) ^ 2 + (IZR j - middle w) ^ 2)%R in let phi := (2 * PI * px t i j / (IZR hp - 1))%R in
    px r i j = Rmin (d * IZR wp / R) (IZR wp - 1) /\ (0 <= px t i j <= IZR hp - 1)%R /\
    (d * cos phi = IZR j - middle w)%R /\ (d * sin phi = IZR i - middle h)%R.
Proof.
  intros atan2 wp hp w h Hat Hp Hq Hm Hw Hh R. unfold polar_from_rectangular. split; [repeat split|]. intros i j Hi Hj. cbv zeta. cbn [px].
  assert (Hw' : (1 <= IZR w)%R) by (apply IZR_le; exact Hw). assert (Hh' : (1 <= IZR h)%R) by (apply IZR_le; exact Hh).
  assert (Hp' : (1 <= IZR wp)%R) by (apply IZR_le; exact Hp). assert (Hq' : (2 <= IZR hp)%R) by (apply IZR_le; exact Hq).
  assert (P := PI_RGT_0).
  assert (HR : (1 <= R)%R) by (unfold R; apply IZR_le; apply Z.div_le_lower_bound; lia).
  assert (M : IZR (Int_part (Rmax ((IZR w - 1) * 0.5) ((IZR h - 1) * 0.5))) = R).
  { unfold R. f_equal. assert (E : Rmax ((IZR w - 1) * 0.5) ((IZR h - 1) * 0.5) = ((IZR (Z.max w h) - 1) * 0.5)%R).
    { destruct (Z.max_spec w h) as [(L & ->)|(L & ->)]; [rewrite Rmax_right|rewrite Rmax_left]; try reflexivity; apply Rmult_le_compat_r; try lra;
      apply Rplus_le_compat_r; apply IZR_le; lia. }
    rewrite E. apply Int_part_unique. pose proof (Z.div_mod (Z.max w h - 1) 2 ltac:(lia)) as D. pose proof (Z.mod_pos_bound (Z.max w h - 1) 2 ltac:(lia)) as B.
    set (q := (Z.max w h - 1) / 2) in *. replace (Z.max w h) with (2 * q + (Z.max w h - 1) mod 2 + 1) by lia. set (s := (Z.max w h - 1) mod 2) in *.
    rewrite !plus_IZR, mult_IZR. assert (0 <= IZR s <= 1)%R by (split; apply IZR_le; lia). lra. }
  rewrite M. set (c := middle w). set (c' := middle h). set (s := (IZR wp / R)%R). assert (Hs : (0 < s)%R) by (unfold s; apply Rdiv_lt_0_compat; lra).
  assert (Ex : ((IZR (w - 1 - j) - (IZR w - 1) * 0.5) * IZR wp / R = s * (c - IZR j))%R) by (unfold s, c, middle; rewrite !minus_IZR; replace 0.5%R with (/ 2)%R by lra; field; lra).
  assert (Ey : ((IZR (h - 1 - i) - (IZR h - 1) * 0.5) * IZR wp / R = s * (c' - IZR i))%R) by (unfold s, c', middle; rewrite !minus_IZR; replace 0.5%R with (/ 2)%R by lra; field; lra).
  rewrite Ex, Ey. set (d := sqrt ((IZR i - c') ^ 2 + (IZR j - c) ^ 2)).
  assert (D : sqrt ((s * (c - IZR j)) ^ 2 + (s * (c' - IZR i)) ^ 2) = (s * d)%R).
  { unfold d. replace ((s * (c - IZR j)) ^ 2 + (s * (c' - IZR i)) ^ 2)%R with (s * s * ((IZR i - c') ^ 2 + (IZR j - c) ^ 2))%R by ring.
    rewrite sqrt_mult_alt by (apply Rmult_le_pos; lra). rewrite sqrt_square by lra. reflexivity. }
  rewrite D. assert (D0 : (0 <= d)%R) by apply sqrt_pos. split.
  { unfold rclip. rewrite Rmax_left by (apply Rmult_le_pos; lra). f_equal. unfold s, Rdiv. ring. }
  destruct (Hat (s * (c - IZR j))%R (s * (c' - IZR i))%R) as (B & E1 & E2). rewrite D in E1, E2. set (a := atan2 (s * (c' - IZR i))%R (s * (c - IZR j))%R) in *.
  assert (T : (0 <= (PI + a) * (IZR hp - 1) / (2 * PI) <= IZR hp - 1)%R).
  { split.
    - apply Rmult_le_pos; [apply Rmult_le_pos; lra|left; apply Rinv_0_lt_compat; lra].
    - apply (Rmult_le_reg_r (2 * PI)); [lra|]. unfold Rdiv. rewrite Rmult_assoc, Rinv_l, Rmult_1_r by lra. rewrite (Rmult_comm (IZR hp - 1)). apply Rmult_le_compat_r; lra. }
  rewrite rclip_id by exact T. split; [exact T|].
  replace (2 * PI * ((PI + a) * (IZR hp - 1) / (2 * PI)) / (IZR hp - 1))%R with (a + PI)%R by (field; split; lra).
  rewrite neg_cos, neg_sin. split.
  - apply (Rmult_eq_reg_l s); [|lra]. replace (s * (d * - cos a))%R with (- (s * d * cos a))%R by ring. rewrite E1. ring.
  - apply (Rmult_eq_reg_l s); [|lra]. replace (s * (d * - sin a))%R with (- (s * d * sin a))%R by ring. rewrite E2. ring.
Qed.
Print Assumptions rectangular_grid_any_size.
Example grids_any_size_example : (1 <= 7 /\ 1 <= 4 /\ 2 <= 5 /\ 2 <= 9) /\ 3 <= Z.max 7 4 /\ (Z.max 7 4 - 1) / 2 = 3.
Proof. cbn. lia. Qed.

(** ring removal: the slice in polar coordinates without its vertical stripes, transformed back, and 0 outside the circle *)
Theorem ring_removal : forall atan2 destripe m out, remove_ring atan2 destripe m = Ok out ->
  nrow m = ncol m /\ exists p q, transform_slice_forward m None = Ok p /\ destripe p = Ok q /\ nrow out = ncol m /\ ncol out = ncol m /\
    (nrow q = ncol m -> ncol q = ncol m -> exists back, transform_slice_backward atan2 q None = Ok back /\
       let c := ncol m / 2 in forall i j, in_rng (ncol m) i -> in_rng (ncol m) j ->
         px out i j = if ((i - c) * (i - c) + (j - c) * (j - c) <=? c * c) then px back i j else 0%R).
Proof.
  intros atan2 destripe m out. unfold remove_ring, transform_slice_forward, transform_slice_backward, transform_slice. destruct (Z.eqb_spec (nrow m) (ncol m)) as [E|]; [|discriminate]. cbn [negb].
  cbn [rectangular_from_polar polar_from_rectangular]. set (n := ncol m). intros H. split; [exact E|].
  destruct (destripe _) as [q|e] eqn:Eq in H; [|discriminate]. cbn [bindr] in H. eexists. exists q. split; [reflexivity|]. split; [exact Eq|].
  assert (O := f_equal (fun r => match r with Ok x => x | Err _ => out end) H). cbn beta iota in O. rewrite <- O. cbn [nrow ncol mapping px]. split; [reflexivity|]. split; [reflexivity|].
  intros Q1 Q2. rewrite Q1, Q2, Z.eqb_refl. cbn [negb]. eexists. split; [reflexivity|]. cbv zeta. intros i j Hi Hj. cbn [px mapping circle_mask].
  rewrite Rmult_1_l, <- mult_IZR. replace ((i - n / 2) * (i - n / 2) + (j - n / 2) * (j - n / 2)) with ((j - n / 2) * (j - n / 2) + (i - n / 2) * (i - n / 2)) by ring.
  destruct (Rle_dec _ _) as [L|L]; destruct (Z.leb_spec ((j - n / 2) * (j - n / 2) + (i - n / 2) * (i - n / 2)) (n / 2 * (n / 2))) as [K|K].
  - apply Rmult_1_r.
  - apply le_IZR in L. lia.
  - exfalso. apply L. apply IZR_le. exact K.
  - apply Rmult_0_r.
Qed.
Print Assumptions ring_removal.
Theorem ring_removal_rejects : forall atan2 destripe m, nrow m <> ncol m -> remove_ring atan2 destripe m = Err ValueError.
Proof. intros atan2 destripe m N. unfold remove_ring. destruct (Z.eqb_spec (nrow m) (ncol m)) as [E|_]; [contradiction|reflexivity]. Qed.
Print Assumptions ring_removal_rejects.
(** a uniform slice stays uniform inside the circle when its polar image (uniform too) has no stripe to remove *)
Theorem ring_removal_uniform : forall atan2 destripe m v out, polar_angle atan2 -> 3 <= ncol m ->
  (forall i j, in_rng (nrow m) i -> in_rng (ncol m) j -> px m i j = v) ->
  (forall p q, destripe p = Ok q -> nrow q = nrow p /\ ncol q = ncol p /\
     ((forall t k, in_rng (nrow p) t -> in_rng (ncol p) k -> px p t k = v) -> forall t k, in_rng (nrow p) t -> in_rng (ncol p) k -> px q t k = v)) ->
  remove_ring atan2 destripe m = Ok out ->
  let c := ncol m / 2 in forall i j, in_rng (ncol m) i -> in_rng (ncol m) j -> (i - c) * (i - c) + (j - c) * (j - c) <= c * c -> px out i j = v.
Proof.
  intros atan2 destripe m v out Ha Hn Hv Hd H c i j Hi Hj Hc. destruct (ring_removal _ _ _ _ H) as (Es & p & q & Ep & Eq & _ & _ & B).
  destruct (slice_to_polar m Es ltac:(lia)) as (p' & Ep' & P1 & P2 & P). assert (p' = p) by congruence. subst p'.
  destruct (Hd p q Eq) as (Q1 & Q2 & Q). rewrite P1, P2 in *.
  assert (Qv := Q (fun t k Ht Hk => value_const m _ _ _ v Hv (P t k Ht Hk))).
  destruct (B Q1 Q2) as (back & Eb & F). cbv zeta in F. rewrite (F i j Hi Hj). fold c. replace (_ <=? c * c) with true by (symmetry; apply Z.leb_le; exact Hc).
  destruct (slice_from_polar atan2 q Ha) as (back' & Eb' & _ & _ & W); [congruence|lia|]. assert (back' = back) by congruence. subst back'. rewrite Q2 in W.
  destruct (W i j Hi Hj) as (t & _ & _ & _ & V). refine (value_const q _ _ _ v _ V). rewrite Q1, Q2. exact Qv.
Qed.
Print Assumptions ring_removal_uniform.
Example ring_removal_example : exists out, remove_ring polar (fun p => Ok p) (mkimg 5 5 (fun _ _ => 3%R)) = Ok out.
Proof. eexists. reflexivity. Qed.

(** * rotating a window: above the centre the left half of the window is used, from the centre downwards the right half *)
Theorem window_rotated : forall atan2 w, polar_angle atan2 -> 1 <= vlen w ->
  let win := transform_1d_window_to_2d atan2 w in
  nrow win = vlen w /\ ncol win = vlen w /\
  forall i j, in_rng (vlen w) i -> in_rng (vlen w) j ->
    let c := vlen w / 2 in let d := Rmin (sqrt (IZR (i - c) ^ 2 + IZR (j - c) ^ 2)) (IZR c) in
    value_on w (if i <? c then IZR c - d else IZR c + d)%R (px win i j).
Proof.
  intros atan2 w Ha Hw. cbv zeta. split; [|split].
  - unfold transform_1d_window_to_2d. cbn [nrow islice mapping]. destruct (vlen w mod 2 =? 0); rewrite slen_id; lia.
  - unfold transform_1d_window_to_2d. cbn [ncol islice mapping]. destruct (vlen w mod 2 =? 0); rewrite slen_id; lia.
  - intros i j Hi Hj. apply window_at; assumption.
Qed.
Print Assumptions window_rotated.
(** the middle column is the window itself *)
Theorem window_middle_column : forall atan2 w i, polar_angle atan2 -> in_rng (vlen w) i ->
  px (transform_1d_window_to_2d atan2 w) i (vlen w / 2) = vat w i.
Proof.
  intros atan2 w i Ha Hi. assert (Hi' := Hi). unfold in_rng in Hi'. assert (Dc := Z.div_mod (vlen w) 2 ltac:(lia)). assert (Mc := Z.mod_pos_bound (vlen w) 2 ltac:(lia)).
  assert (Hc : in_rng (vlen w) (vlen w / 2)) by (unfold in_rng; lia). assert (W := window_at atan2 w i (vlen w / 2) Ha Hi Hc). cbv zeta in W. set (c := vlen w / 2) in *.
  apply value_on_grid; [exact Hi|]. replace (IZR i) with (if i <? c then IZR c - Rmin (sqrt (IZR (i - c) ^ 2 + IZR (c - c) ^ 2)) (IZR c) else IZR c + Rmin (sqrt (IZR (i - c) ^ 2 + IZR (c - c) ^ 2)) (IZR c))%R; [exact W|].
  rewrite Z.sub_diag. replace (IZR (i - c) ^ 2 + 0 ^ 2)%R with (Rsqr (IZR (i - c))) by (unfold Rsqr; ring). rewrite sqrt_Rsqr_abs, <- abs_IZR, Rmin_left by (apply IZR_le; lia).
  destruct (Z.ltb_spec i c); rewrite <- ?minus_IZR, <- ?plus_IZR; f_equal; lia.
Qed.
Print Assumptions window_middle_column.
(** a symmetric window becomes a radial one: pixels at the same distance from the centre (within the right half) are equal *)
Theorem window_radial : forall atan2 w i j i' j', polar_angle atan2 ->
  in_rng (vlen w) i -> in_rng (vlen w) j -> in_rng (vlen w) i' -> in_rng (vlen w) j' ->
  let c := vlen w / 2 in
  (forall k, 0 <= k <= vlen w - 1 - c -> vat w (c + k) = vat w (c - k)) ->
  (i - c) * (i - c) + (j - c) * (j - c) = (i' - c) * (i' - c) + (j' - c) * (j' - c) ->
  (i - c) * (i - c) + (j - c) * (j - c) <= (vlen w - 1 - c) * (vlen w - 1 - c) ->
  px (transform_1d_window_to_2d atan2 w) i j = px (transform_1d_window_to_2d atan2 w) i' j'.
Proof.
  intros atan2 w i j i' j' Ha Hi Hj Hi' Hj' c Hs He Hd. assert (Hi0 := Hi). unfold in_rng in Hi0. assert (Dc := Z.div_mod (vlen w) 2 ltac:(lia)). assert (Mc := Z.mod_pos_bound (vlen w) 2 ltac:(lia)). fold c in Dc.
  set (h := vlen w - 1 - c) in *. assert (Hh : 0 <= h <= c) by (unfold h; lia).
  assert (K : forall a b, in_rng (vlen w) a -> in_rng (vlen w) b -> (a - c) * (a - c) + (b - c) * (b - c) = (i - c) * (i - c) + (j - c) * (j - c) ->
     value_on w (IZR c - sqrt (IZR (i - c) ^ 2 + IZR (j - c) ^ 2)) (px (transform_1d_window_to_2d atan2 w) a b)).
  { intros a b Hia Hb E. assert (W := window_at atan2 w a b Ha Hia Hb). cbv zeta in W. fold c in W.
    assert (E' : (IZR (a - c) ^ 2 + IZR (b - c) ^ 2 = IZR (i - c) ^ 2 + IZR (j - c) ^ 2)%R) by (rewrite !pow_IZR, <- !plus_IZR; f_equal; change (Z.of_nat 2) with 2; lia).
    rewrite E' in W. set (s := sqrt (IZR (i - c) ^ 2 + IZR (j - c) ^ 2)) in *.
    assert (S : (0 <= s <= IZR h)%R).
    { split; [apply sqrt_pos|]. rewrite <- (sqrt_square (IZR h)) by (apply IZR_le; lia). apply sqrt_le_1_alt. rewrite <- mult_IZR, !pow_IZR, <- plus_IZR. apply IZR_le. change (Z.of_nat 2) with 2. lia. }
    assert (Sc : (s <= IZR c)%R) by (apply Rle_trans with (IZR h); [lra|apply IZR_le; lia]).
    rewrite Rmin_left in W by exact Sc. destruct (a <? c); [exact W|].
    apply value_on_mirror; try assumption; fold h; try lia; lra. }
  apply (value_on_unique w (IZR c - sqrt (IZR (i - c) ^ 2 + IZR (j - c) ^ 2))); apply K; try assumption; lia.
Qed.
Print Assumptions window_radial.
Example window_radial_example : let w := mkvec 5 (fun k => IZR (Z.abs (k - 2))) in let c := vlen w / 2 in
  polar_angle polar /\ 1 <= vlen w /\ (forall k, 0 <= k <= vlen w - 1 - c -> vat w (c + k) = vat w (c - k)) /\
  in_rng (vlen w) 1 /\ in_rng (vlen w) 3 /\ (1 - c) * (1 - c) + (1 - c) * (1 - c) = (3 - c) * (3 - c) + (1 - c) * (1 - c) /\
  (1 - c) * (1 - c) + (1 - c) * (1 - c) <= (vlen w - 1 - c) * (vlen w - 1 - c).
Proof.
  cbn [vlen vat]. change (5 / 2) with 2. split; [exact polar_is_angle|]. split; [lia|]. split; [intros k Hk; f_equal; lia|]. unfold in_rng. lia.
Qed.
