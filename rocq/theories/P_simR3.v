(** Proofs about padding, masks and X-ray images of simulation.py. *)
From Coq Require Import Reals Lra ZArith Lia Bool FunctionalExtensionality.
From Verif Require Import Np P_Np M_phase_R P_phase_R M_simR S_simR P_simR P_simR2.
Open Scope Z_scope.

Section padding.
Variables (mat : img R) (rate : R) (mode : pad_mode).
Let n0 := ncol mat.
Let pad := rtrunc (rate * IZR (nrow mat)).
Hypothesis (Hsq : nrow mat = ncol mat) (H1 : 1 <= ncol mat) (Hp : 0 <= pad).
Definition half_width := pad + n0 / 2.
Lemma padded_shape : nrow (padded_image mat rate mode) = 2 * half_width + 1 /\ ncol (padded_image mat rate mode) = 2 * half_width + 1.
Proof.
  unfold padded_image, half_width. fold pad. fold n0 in Hsq, H1. cbn [nrow pad_sides]. rewrite Hsq.
  assert (D := Z.div_mod n0 2 ltac:(lia)). assert (B := Z.mod_pos_bound n0 2 ltac:(lia)).
  replace ((n0 + pad + pad) mod 2) with (n0 mod 2) by (replace (n0 + pad + pad) with (n0 + pad * 2) by lia; rewrite Z_mod_plus_full; reflexivity).
  destruct (n0 mod 2 =? 0) eqn:E; cbn [nrow ncol pad_sides]; fold n0; rewrite ?Hsq; lia.
Qed.
Lemma padded_value i j : dark_border mat \/ mode = Zeros /\ 1 <= pad -> 0 <= i < 2 * half_width + 1 -> 0 <= j < 2 * half_width + 1 ->
  px (padded_image mat rate mode) i j =
  if (0 <=? i - pad) && (i - pad <? n0) && ((0 <=? j - pad) && (j - pad <? n0)) then px mat (i - pad) (j - pad) else 0%R.
Proof.
  intros Hd Hi Hj. unfold padded_image, half_width in *. fold pad. fold n0 in Hsq, H1. cbn [nrow pad_sides].
  assert (D := Z.div_mod n0 2 ltac:(lia)). assert (B := Z.mod_pos_bound n0 2 ltac:(lia)).
  rewrite Hsq. replace ((n0 + pad + pad) mod 2) with (n0 mod 2) by (replace (n0 + pad + pad) with (n0 + pad * 2) by lia; rewrite Z_mod_plus_full; reflexivity).
  set (p := pad_sides mode mat pad pad).
  assert (V : forall a b, 0 <= a < n0 + pad + pad -> 0 <= b < n0 + pad + pad ->
    px p a b = if (0 <=? a - pad) && (a - pad <? n0) && ((0 <=? b - pad) && (b - pad <? n0)) then px mat (a - pad) (b - pad) else 0%R).
  { intros a b Ha Hb. unfold p. cbn [px pad_sides]. rewrite Hsq. fold n0. destruct mode.
    - destruct Hd as [Hd|(Hd & _)]; [|discriminate].
      destruct ((0 <=? a - pad) && (a - pad <? n0) && ((0 <=? b - pad) && (b - pad <? n0))) eqn:E.
      + f_equal; unfold clipZ; lia.
      + apply Hd; unfold in_rng, clipZ; rewrite ?Hsq; fold n0; try lia.
    - rewrite !andb_assoc. reflexivity. }
  destruct (n0 mod 2 =? 0) eqn:E.
  - cbn [px pad_sides]. replace (nrow p) with (n0 + pad + pad) by (unfold p; cbn; lia). replace (ncol p) with (n0 + pad + pad) by (unfold p; cbn; fold n0; lia).
    rewrite !Z.sub_0_r. rewrite V by (unfold clipZ; lia).
    set (a := clipZ i 0 (n0 + pad + pad - 1)). set (b := clipZ j 0 (n0 + pad + pad - 1)).
    assert (Ca : a = i /\ i < n0 + pad + pad \/ i = n0 + pad + pad /\ a = i - 1) by (unfold a, clipZ; lia).
    assert (Cb : b = j /\ j < n0 + pad + pad \/ j = n0 + pad + pad /\ b = j - 1) by (unfold b, clipZ; lia).
    destruct ((0 <=? i - pad) && (i - pad <? n0) && ((0 <=? j - pad) && (j - pad <? n0))) eqn:T.
    + replace a with i by lia. replace b with j by lia. rewrite T. reflexivity.
    + destruct ((0 <=? a - pad) && (a - pad <? n0) && ((0 <=? b - pad) && (b - pad <? n0))) eqn:T2; [|reflexivity].
      destruct Hd as [Hd|(_ & P1)]; [|exfalso; lia].
      apply Hd; unfold in_rng; rewrite ?Hsq; fold n0; try lia.
  - apply V; lia.
Qed.
(** only the rows of the image itself contribute to a sum over the padded image *)
Lemma sum_inside f g : 0 <= 2 * half_width + 1 - pad - n0 ->
  (forall i, 0 <= i < 2 * half_width + 1 -> f i = if (0 <=? i - pad) && (i - pad <? n0) then g (i - pad)%Z else 0%R) ->
  rsum (2 * half_width + 1) f = rsum n0 g.
Proof.
  intros HW HF. fold n0 in H1.
  assert (S : forall h, rsum (2 * half_width + 1) h = (rsum pad h + (rsum n0 (fun k => h (pad + k)%Z) + rsum (2 * half_width + 1 - pad - n0) (fun k => h (pad + (n0 + k))%Z)))%R).
  { intros h. rewrite <- (rsum_app n0 _ (fun k => h (pad + k)%Z)) by lia. rewrite <- rsum_app by lia. f_equal. lia. }
  rewrite S.
  rewrite (rsum_ext pad f (fun _ => 0%R)), rsum_zero.
  2:{ intros i Hi. rewrite HF by lia. replace ((0 <=? i - pad) && (i - pad <? n0)) with false by lia. reflexivity. }
  rewrite (rsum_ext (2 * half_width + 1 - pad - n0) _ (fun _ => 0%R)), rsum_zero.
  2:{ intros i Hi. rewrite HF by lia. replace ((0 <=? pad + (n0 + i) - pad) && (pad + (n0 + i) - pad <? n0)) with false by lia. reflexivity. }
  rewrite Rplus_0_l, Rplus_0_r. apply rsum_ext. intros i Hi. rewrite HF by lia.
  replace (pad + i - pad) with i by lia. replace ((0 <=? i) && (i <? n0)) with true by lia. reflexivity.
Qed.
Lemma width_room : 0 <= 2 * half_width + 1 - pad - n0.
Proof. unfold half_width. assert (D := Z.div_mod n0 2 ltac:(lia)). assert (B := Z.mod_pos_bound n0 2 ltac:(lia)). lia. Qed.
Definition or_zero (f : Z -> R) (k : Z) : R := if (0 <=? k) && (k <? n0) then f k else 0%R.
Lemma padded_columns j : dark_border mat \/ mode = Zeros /\ 1 <= pad -> 0 <= j < 2 * half_width + 1 ->
  column_sum (padded_image mat rate mode) j = or_zero (column_sum mat) (j - pad).
Proof.
  intros Hd Hj. unfold column_sum, or_zero. destruct padded_shape as (-> & _).
  rewrite (sum_inside _ (fun i => if (0 <=? j - pad) && (j - pad <? n0) then px mat i (j - pad)%Z else 0%R) width_room).
  - rewrite Hsq. fold n0. destruct ((0 <=? j - pad) && (j - pad <? n0)); [reflexivity|apply rsum_zero].
  - intros i Hi. rewrite padded_value by assumption. destruct ((0 <=? i - pad) && (i - pad <? n0)), ((0 <=? j - pad) && (j - pad <? n0)); reflexivity.
Qed.
Lemma padded_rows i : dark_border mat \/ mode = Zeros /\ 1 <= pad -> 0 <= i < 2 * half_width + 1 ->
  row_sum (padded_image mat rate mode) i = or_zero (row_sum mat) (i - pad).
Proof.
  intros Hd Hi. unfold row_sum, or_zero. destruct padded_shape as (_ & ->).
  rewrite (sum_inside _ (fun j => if (0 <=? i - pad) && (i - pad <? n0) then px mat (i - pad)%Z j else 0%R) width_room).
  - fold n0. destruct ((0 <=? i - pad) && (i - pad <? n0)); [reflexivity|apply rsum_zero].
  - intros j Hj. rewrite padded_value by assumption. destruct ((0 <=? i - pad) && (i - pad <? n0)), ((0 <=? j - pad) && (j - pad <? n0)); reflexivity.
Qed.
Variable (interp : img R -> R -> R -> R).
Lemma sinogram_spec angles : 1 <= vlen angles ->
  exists out, make_sinogram interp mat angles rate mode = Ok out /\ nrow out = vlen angles /\ ncol out = n0 /\
    forall t x, in_rng (vlen angles) t -> in_rng n0 x -> px out t x = projection interp (padded_image mat rate mode) (vat angles t) (pad + x).
Proof.
  intros Ha. unfold make_sinogram. fold pad. replace (nrow mat =? ncol mat) with true by lia. cbn [negb].
  replace (vlen angles <=? 0) with false by lia. replace (pad <? 0) with false by lia. cbv zeta.
  eexists. split; [reflexivity|]. destruct padded_shape as (S1 & S2). assert (W := width_room).
  cbn [islice nrow ncol]. rewrite S2. fold n0. rewrite !slen_id by (fold n0 in H1; lia).
  split; [lia|]. split; [lia|]. intros t x Ht Hx. cbn [px islice nrow ncol]. rewrite ?S2. unfold in_rng in *. rewrite !py_adj_id by (fold n0 in H1; lia). f_equal. 
Qed.
End padding.

(** ** masks *)
Lemma mask_coords_turned size center len angle i j : (arg_x len <> 0)%R -> (arg_y len <> 0)%R ->
  let '(x1, y1) := mask_coords size center len angle i j in
  turned angle (x1 * (arg_x len / 2)) (y1 * (arg_y len / 2)) (pixel_x size j - arg_x center) (pixel_y size i - arg_y center) /\
  forall u v, turned angle u v (pixel_x size j - arg_x center) (pixel_y size i - arg_y center) -> u = (x1 * (arg_x len / 2))%R /\ v = (y1 * (arg_y len / 2))%R.
Proof.
  intros Hx Hy. unfold mask_coords, turned, pixel_x, pixel_y. rewrite !minus_IZR.
  replace (- angle * PI / 180)%R with (- (angle * PI / 180))%R by lra. rewrite cos_neg, sin_neg.
  set (a := (angle * PI / 180)%R). set (x := (IZR j - IZR (size / 2) - arg_x center)%R).
  replace (- IZR i + IZR (size / 2) - arg_y center)%R with (IZR (size / 2) - IZR i - arg_y center)%R by ring.
  set (y := (IZR (size / 2) - IZR i - arg_y center)%R).
  assert (T : ((cos a) * (cos a) = 1 - sin a * sin a)%R) by (assert (G := sin2_cos2 a); unfold Rsqr in G; lra).
  assert (E1 : ((x * cos a - y * - sin a) / (0.5 * arg_x len) * (arg_x len / 2) = x * cos a + y * sin a)%R) by (replace 0.5%R with (/ 2)%R by lra; field; exact Hx).
  assert (E2 : ((x * - sin a + y * cos a) / (0.5 * arg_y len) * (arg_y len / 2) = - x * sin a + y * cos a)%R) by (replace 0.5%R with (/ 2)%R by lra; field; exact Hy).
  rewrite E1, E2. split.
  - split; [transitivity (x * (cos a * cos a + sin a * sin a))%R; [rewrite T; ring|ring]|transitivity (y * (cos a * cos a + sin a * sin a))%R; [rewrite T; ring|ring]].
  - intros u v (-> & ->). split; [transitivity (u * (cos a * cos a + sin a * sin a))%R; [rewrite T; ring|ring]|transitivity (v * (cos a * cos a + sin a * sin a))%R; [rewrite T; ring|ring]].
Qed.
Lemma placed_iff inside size center len angle i j : (arg_x len <> 0)%R -> (arg_y len <> 0)%R ->
  (placed inside angle (arg_x center) (arg_y center) (pixel_x size j) (pixel_y size i) <->
  let '(x1, y1) := mask_coords size center len angle i j in inside (x1 * (arg_x len / 2))%R (y1 * (arg_y len / 2))%R).
Proof.
  intros Hx Hy. assert (M := mask_coords_turned size center len angle i j Hx Hy).
  destruct (mask_coords size center len angle i j) as [x1 y1]. destruct M as (M1 & M2). unfold placed. split.
  - intros (u & v & I & T). destruct (M2 u v T) as (-> & ->). exact I.
  - intros I. eauto.
Qed.
Lemma ellipse_iff a b x1 y1 : (a <> 0)%R -> (b <> 0)%R -> (ellipse a b (x1 * (a / 2)) (y1 * (b / 2)) <-> (sqrt (x1 ^ 2 + y1 ^ 2) <= 1.01)%R).
Proof.
  intros Ha Hb. unfold ellipse. replace (x1 * (a / 2) / (a / 2))%R with x1 by (field; lra). replace (y1 * (b / 2) / (b / 2))%R with y1 by (field; lra).
  assert (P : (0 <= x1 ^ 2 + y1 ^ 2)%R) by (assert (G1 := Rle_0_sqr x1); assert (G2 := Rle_0_sqr y1); unfold Rsqr in *; lra).
  split; intros H.
  - rewrite <- (sqrt_pow2 1.01) by lra. apply sqrt_le_1; try lra.
  - assert (S := sqrt_pos (x1 ^ 2 + y1 ^ 2)). rewrite <- (sqrt_sqrt _ P). replace (1.01 ^ 2)%R with (1.01 * 1.01)%R by ring. apply Rmult_le_compat; assumption.
Qed.
Lemma rectangle_iff a b x1 y1 : (a <> 0)%R -> (b <> 0)%R -> (rectangle a b (x1 * (a / 2)) (y1 * (b / 2)) <-> (Rabs x1 <= 1.01 /\ Rabs y1 <= 1.01)%R).
Proof.
  intros Ha Hb. unfold rectangle. rewrite !Rabs_mult.
  assert (A : (0 < Rabs (a / 2))%R) by (apply Rabs_pos_lt; lra). assert (B : (0 < Rabs (b / 2))%R) by (apply Rabs_pos_lt; lra).
  split; intros (H1 & H2); split.
  - apply Rmult_le_reg_r in H1; assumption.
  - apply Rmult_le_reg_r in H2; assumption.
  - apply Rmult_le_compat_r; lra.
  - apply Rmult_le_compat_r; lra.
Qed.
Lemma elliptic_mask size center len angle : (arg_x len <> 0)%R -> (arg_y len <> 0)%R ->
  mask_of size (make_elliptic_mask size center len angle) (placed (ellipse (arg_x len) (arg_y len)) angle (arg_x center) (arg_y center)).
Proof.
  intros Hx Hy. split; [reflexivity|]. split; [reflexivity|]. intros i j Hi Hj. rewrite (placed_iff _ size center len angle i j Hx Hy).
  cbn [px make_elliptic_mask]. destruct (mask_coords size center len angle i j) as [x1 y1]. rewrite ellipse_iff by assumption.
  destruct (Rle_dec (sqrt (x1 ^ 2 + y1 ^ 2)) 1.01); split; intros; tauto.
Qed.
Lemma rectangular_mask size center len angle : (arg_x len <> 0)%R -> (arg_y len <> 0)%R ->
  mask_of size (make_rectangular_mask size center len angle) (placed (rectangle (arg_x len) (arg_y len)) angle (arg_x center) (arg_y center)).
Proof.
  intros Hx Hy. split; [reflexivity|]. split; [reflexivity|]. intros i j Hi Hj. rewrite (placed_iff _ size center len angle i j Hx Hy).
  cbn [px make_rectangular_mask]. destruct (mask_coords size center len angle i j) as [x1 y1]. rewrite rectangle_iff by assumption.
  destruct (Rle_dec (Rabs x1) 1.01); destruct (Rle_dec (Rabs y1) 1.01); split; intros; tauto.
Qed.
(** ** X-ray images *)
Lemma rmaxn_spec n f : (1 <= n)%nat -> (forall k, 0 <= k < Z.of_nat n -> (f k <= rmaxn n f)%R) /\ exists k, 0 <= k < Z.of_nat n /\ rmaxn n f = f k.
Proof.
  induction n as [|n IH]; [lia|]. intros _. cbn [rmaxn]. destruct n as [|n].
  - cbn [rmaxn]. change (Z.of_nat 0) with 0. rewrite Rmax_left by lra. split; [intros k Hk; replace k with 0 by lia; lra|]. exists 0. split; [lia|reflexivity].
  - destruct (IH ltac:(lia)) as (A & k & Hk & E). split.
    + intros i Hi. destruct (Z.eq_dec i (Z.of_nat (S n))) as [->|D]; [apply Rmax_r|]. eapply Rle_trans; [apply A; lia|apply Rmax_l].
    + destruct (Rle_dec (rmaxn (S n) f) (f (Z.of_nat (S n)))) as [L|L].
      * exists (Z.of_nat (S n)). split; [lia|]. apply Rmax_right, L.
      * exists k. split; [lia|]. rewrite Rmax_left by lra. exact E.
Qed.
Lemma rmax2_spec m : 1 <= nrow m -> 1 <= ncol m -> brightest_pixel m (rmax2 m).
Proof.
  intros H1 H2. unfold rmax2. set (f := fun i => rmaxn (Z.to_nat (ncol m)) (px m i)).
  destruct (rmaxn_spec (Z.to_nat (nrow m)) f ltac:(lia)) as (A & i & Hi & E). split.
  - intros a b Ha Hb. destruct (rmaxn_spec (Z.to_nat (ncol m)) (px m a) ltac:(lia)) as (B & _). unfold in_rng in *.
    eapply Rle_trans; [apply (B b); lia|]. apply (A a). lia.
  - destruct (rmaxn_spec (Z.to_nat (ncol m)) (px m i) ltac:(lia)) as (_ & j & Hj & E2). exists i, j. unfold in_rng.
    split; [lia|]. split; [lia|]. rewrite E. exact E2.
Qed.
