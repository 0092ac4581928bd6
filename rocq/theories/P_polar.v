(** Proofs about the polar transformation of slices. *)
From Coq Require Import Reals Lra ZArith Lia Bool List. Import ListNotations.
From Verif Require Import Np P_Np M_phase_R P_phase_R M_simR S_simR P_simR P_simR4 P_calib6 M_dfi M_polar S_polar.
Open Scope Z_scope.

Lemma rclip_id x lo hi : (lo <= x <= hi)%R -> rclip x lo hi = x.
Proof. intros H. unfold rclip. rewrite Rmax_left by lra. rewrite Rmin_left by lra. reflexivity. Qed.
Lemma rclip_top x lo hi : (lo <= hi <= x)%R -> rclip x lo hi = hi.
Proof. intros H. unfold rclip. rewrite Rmax_left by lra. rewrite Rmin_right by lra. reflexivity. Qed.
Lemma rclip_in x lo hi : (lo <= hi)%R -> (lo <= rclip x lo hi <= hi)%R.
Proof. intros H. unfold rclip. split; [apply Rmin_glb; [apply Rmax_r|exact H]|apply Rmin_r]. Qed.
Lemma near_in n i : 0 <= i < n -> near n i = i.
Proof. intros H. unfold near, clipZ. lia. Qed.
Lemma near_next n i : 0 <= i < n -> near n (i + 1) = Z.min (i + 1) (n - 1).
Proof. intros H. unfold near, clipZ. lia. Qed.
Lemma near_last n : 0 < n -> near n n = n - 1 /\ near n (n + 1) = n - 1.
Proof. intros H. unfold near, clipZ. lia. Qed.

(** the cell of a position between 0 and n *)
Lemma cell n x : 0 < n -> (0 <= x <= IZR n)%R ->
  exists j b, in_rng n j /\ (0 <= b <= 1 /\ x = IZR j + b)%R /\
    ((Int_part x = j /\ x - IZR (Int_part x) = b)%R \/ (j = n - 1 /\ b = 1%R /\ Int_part x = n /\ (x - IZR (Int_part x) = 0)%R)).
Proof.
  intros Hn Hx. destruct (base_Int_part x) as (A & B). destruct (Z.eq_dec (Int_part x) n) as [E|E].
  - exists (n - 1), 1%R. rewrite E in *. split; [unfold in_rng; lia|]. rewrite minus_IZR. split; [lra|]. right. repeat split; lra.
  - exists (Int_part x), (x - IZR (Int_part x))%R. assert (0 <= Int_part x) by (apply int_part_ge; lra). assert (Int_part x <= n) by (apply int_part_le; lra).
    split; [unfold in_rng; lia|]. split; [lra|]. left. split; lra || reflexivity.
Qed.
Lemma bilinear_value m x y : 0 < nrow m -> 0 < ncol m -> (0 <= x <= IZR (ncol m))%R -> (0 <= y <= IZR (nrow m))%R -> value_at m x y (bilinear m x y).
Proof.
  intros Hr Hc Hx Hy. destruct (cell (ncol m) x Hc Hx) as (j & b & Hj & Hb & Cx). destruct (cell (nrow m) y Hr Hy) as (i & a & Hi & Ha & Cy).
  exists i, j, a, b. split; [exact Hi|]. split; [exact Hj|]. split; [lra|]. cbv zeta. unfold bilinear, in_rng in *.
  destruct Cx as [(E1 & E2)|(E1 & E2 & E3 & E4)], Cy as [(F1 & F2)|(F1 & F2 & F3 & F4)].
  - rewrite E2, F2, E1, F1. rewrite !near_next, !near_in by lia. ring.
  - rewrite E2, F4, E1, F3. destruct (near_last (nrow m) Hr) as (-> & ->). rewrite !near_next, !near_in by lia. subst i a. replace (Z.min (nrow m - 1 + 1) (nrow m - 1)) with (nrow m - 1) by lia. ring.
  - rewrite E4, F2, E3, F1. destruct (near_last (ncol m) Hc) as (-> & ->). rewrite !near_next, !near_in by lia. subst j b. replace (Z.min (ncol m - 1 + 1) (ncol m - 1)) with (ncol m - 1) by lia. ring.
  - rewrite E4, F4, E3, F3. destruct (near_last (nrow m) Hr) as (-> & ->). destruct (near_last (ncol m) Hc) as (-> & ->). subst.
    replace (Z.min (ncol m - 1 + 1) (ncol m - 1)) with (ncol m - 1) by lia. replace (Z.min (nrow m - 1 + 1) (nrow m - 1)) with (nrow m - 1) by lia. ring.
Qed.
(** a value between equal pixels *)
Lemma value_const m x y v k : (forall i j, in_rng (nrow m) i -> in_rng (ncol m) j -> px m i j = k) -> value_at m x y v -> v = k.
Proof.
  intros H (i & j & a & b & Hi & Hj & _ & E). cbv zeta in E. unfold in_rng in *. rewrite !H in E by (unfold in_rng; lia). rewrite E. ring.
Qed.
(** at a grid point the value is the pixel *)
Lemma value_grid m i j v : in_rng (nrow m) i -> in_rng (ncol m) j -> value_at m (IZR j) (IZR i) v -> v = px m i j.
Proof.
  intros Hi Hj (i' & j' & a & b & Hi' & Hj' & (Ha & Hb & Ey & Ex) & E). cbv zeta in E. unfold in_rng in *.
  assert (Ci : (i' = i /\ a = 0%R) \/ (i' = i - 1 /\ a = 1%R)).
  { assert (i' <= i) by (apply le_IZR; lra). assert (i - 1 <= i') by (apply le_IZR; rewrite minus_IZR; lra).
    destruct (Z.eq_dec i' i) as [Q|Q]; [left|right].
    - split; [exact Q|]. rewrite Q in Ey. lra.
    - assert (Q' : i' = i - 1) by lia. split; [exact Q'|]. rewrite Q', minus_IZR in Ey. lra. }
  assert (Cj : (j' = j /\ b = 0%R) \/ (j' = j - 1 /\ b = 1%R)).
  { assert (j' <= j) by (apply le_IZR; lra). assert (j - 1 <= j') by (apply le_IZR; rewrite minus_IZR; lra).
    destruct (Z.eq_dec j' j) as [Q|Q]; [left|right].
    - split; [exact Q|]. rewrite Q in Ex. lra.
    - assert (Q' : j' = j - 1) by lia. split; [exact Q'|]. rewrite Q', minus_IZR in Ex. lra. }
  destruct Ci as [(-> & ->)|(-> & ->)], Cj as [(-> & ->)|(-> & ->)]; rewrite E;
    try replace (Z.min (i - 1 + 1) (nrow m - 1)) with i by lia; try replace (Z.min (j - 1 + 1) (ncol m - 1)) with j by lia; ring.
Qed.

Section size.
Variable n : Z.
Hypothesis Hn : 2 <= n.
Let c := middle n. Let L := largest n.
Lemma middle_form : ((IZR n - 1) * 0.5 = c)%R. Proof. unfold c, middle. lra. Qed.
Lemma largest_form : IZR (Int_part (Rmax c c)) = L.
Proof.
  unfold L, largest. f_equal. rewrite Rmax_left by lra. apply Int_part_unique. unfold c, middle.
  assert (H1 : 2 * ((n - 1) / 2) <= n - 1) by (apply Z.mul_div_le; lia). assert (H2 : n - 1 < 2 * ((n - 1) / 2) + 2) by (assert (B := Z.mod_pos_bound (n - 1) 2); assert (D := Z.div_mod (n - 1) 2); lia).
  apply IZR_le in H1. apply IZR_lt in H2. rewrite plus_IZR, mult_IZR, minus_IZR in *. lra.
Qed.
Lemma largest_range : (0 <= L <= c)%R.
Proof.
  assert (H0 : 0 <= (n - 1) / 2) by (apply Z.div_pos; lia). assert (H1 : 2 * ((n - 1) / 2) <= n - 1) by (apply Z.mul_div_le; lia).
  apply IZR_le in H0, H1. rewrite mult_IZR, minus_IZR in H1. unfold L, largest, c, middle. lra.
Qed.
Lemma largest_pos : 3 <= n -> (1 <= L)%R.
Proof. intros H3. assert (H0 : 1 <= (n - 1) / 2) by (apply Z.div_le_lower_bound; lia). apply IZR_le in H0. exact H0. Qed.
Lemma n_real : (IZR n - 1 = 2 * c)%R. Proof. unfold c, middle. lra. Qed.
Lemma n_ge : (2 <= IZR n)%R. Proof. apply IZR_le in Hn. exact Hn. Qed.
Lemma on_circle r a : (0 <= r <= L)%R -> (0 <= c + r * cos a <= IZR n - 1 /\ 0 <= c + r * sin a <= IZR n - 1)%R.
Proof.
  intros Hr. assert (HL := largest_range). assert (N := n_real). rewrite N.
  assert (B1 := COS_bound a). assert (B2 := SIN_bound a).
  assert (- r <= r * cos a <= r)%R. { split; [replace (- r)%R with (r * -1)%R by ring|rewrite <- (Rmult_1_r r) at 2]; apply Rmult_le_compat_l; lra. }
  assert (- r <= r * sin a <= r)%R. { split; [replace (- r)%R with (r * -1)%R by ring|rewrite <- (Rmult_1_r r) at 2]; apply Rmult_le_compat_l; lra. }
  lra.
Qed.
Lemma radius_form k : in_rng n k -> rlinspace 0 L n k = radius_of n (IZR k) /\ (0 <= radius_of n (IZR k) <= L)%R.
Proof.
  intros Hk. unfold in_rng in Hk. unfold rlinspace. replace (n =? 1) with false by lia. unfold radius_of. fold L. rewrite minus_IZR. split; [unfold Rdiv; ring|].
  assert (HL := largest_range). assert (G := n_ge). assert (0 <= IZR k <= IZR n - 1)%R by (split; [apply IZR_le; lia|rewrite <- minus_IZR; apply IZR_le; lia]).
  split; [apply Rmult_le_pos; [apply Rmult_le_pos; lra|left; apply Rinv_0_lt_compat; lra]|].
  apply (Rmult_le_reg_r (IZR n - 1)); [lra|]. unfold Rdiv. rewrite Rmult_assoc, Rinv_l, Rmult_1_r by lra. apply Rmult_le_compat_l; lra.
Qed.
Lemma forward_coords t k : in_rng n t -> in_rng n k ->
  let '(x, y) := rectangular_from_polar n n n n in
  (px x t k = c + radius_of n (IZR k) * cos (angle_of n (IZR t)) /\ px y t k = c + radius_of n (IZR k) * sin (angle_of n (IZR t)) /\
   0 <= px x t k <= IZR n - 1 /\ 0 <= px y t k <= IZR n - 1)%R.
Proof.
  intros Ht Hk. unfold rectangular_from_polar. rewrite middle_form, largest_form. cbn [px].
  destruct (radius_form k Hk) as (-> & Hr). replace (IZR t * 2 * PI / (IZR n - 1))%R with (angle_of n (IZR t)) by (unfold angle_of, Rdiv; ring).
  destruct (on_circle _ (angle_of n (IZR t)) Hr) as (H1 & H2). rewrite !rclip_id by assumption. repeat split; lra.
Qed.

(** the position read by the backward transformation *)
Variable atan2 : R -> R -> R.
Hypothesis Hat : polar_angle atan2.
Lemma flipped j : (IZR (n - 1 - j) - c = c - IZR j)%R.
Proof. rewrite !minus_IZR. unfold c, middle. lra. Qed.
Lemma backward_coords i j : 3 <= n -> 
  let '(r, t) := polar_from_rectangular atan2 n n n n in
  (px r i j = Rmin (distance n i j * IZR n / L) (IZR n - 1) /\ 0 <= px t i j <= IZR n - 1 /\
   distance n i j * cos (angle_of n (px t i j)) = IZR j - c /\ distance n i j * sin (angle_of n (px t i j)) = IZR i - c)%R.
Proof.
  intros H3. assert (HL := largest_pos H3). assert (G := n_ge). assert (P := PI_RGT_0). unfold polar_from_rectangular. rewrite middle_form, largest_form. cbn [px]. rewrite !flipped.
  set (s := (IZR n / L)%R). assert (Hs : (0 < s)%R) by (unfold s; apply Rdiv_lt_0_compat; lra).
  replace ((c - IZR j) * IZR n / L)%R with (s * (c - IZR j))%R by (unfold s, Rdiv; ring). replace ((c - IZR i) * IZR n / L)%R with (s * (c - IZR i))%R by (unfold s, Rdiv; ring).
  assert (D : sqrt ((s * (c - IZR j)) ^ 2 + (s * (c - IZR i)) ^ 2) = (s * distance n i j)%R).
  { unfold distance. fold c. replace ((s * (c - IZR j)) ^ 2 + (s * (c - IZR i)) ^ 2)%R with (s * s * ((IZR i - c) ^ 2 + (IZR j - c) ^ 2))%R by ring.
    rewrite sqrt_mult_alt by (apply Rmult_le_pos; lra). rewrite sqrt_square by lra. reflexivity. }
  rewrite D. assert (D0 : (0 <= distance n i j)%R) by apply sqrt_pos. split.
  { unfold rclip. rewrite Rmax_left by (apply Rmult_le_pos; lra). f_equal. unfold s, Rdiv. ring. }
  destruct (Hat (s * (c - IZR j))%R (s * (c - IZR i))%R) as (B & E1 & E2). rewrite D in E1, E2. set (w := atan2 (s * (c - IZR i))%R (s * (c - IZR j))%R) in *.
  assert (T : (0 <= (PI + w) * (IZR n - 1) / (2 * PI) <= IZR n - 1)%R).
  { split.
    - apply Rmult_le_pos; [apply Rmult_le_pos; lra|left; apply Rinv_0_lt_compat; lra].
    - apply (Rmult_le_reg_r (2 * PI)); [lra|]. unfold Rdiv. rewrite Rmult_assoc, Rinv_l, Rmult_1_r by lra. rewrite (Rmult_comm (IZR n - 1)). apply Rmult_le_compat_r; lra. }
  rewrite rclip_id by exact T. split; [exact T|].
  replace (angle_of n ((PI + w) * (IZR n - 1) / (2 * PI))) with (w + PI)%R by (unfold angle_of; field; split; lra).
  rewrite neg_cos, neg_sin. split.
  - apply (Rmult_eq_reg_l s); [|lra]. replace (s * (distance n i j * - cos w))%R with (- (s * distance n i j * cos w))%R by ring. rewrite E1. ring.
  - apply (Rmult_eq_reg_l s); [|lra]. replace (s * (distance n i j * - sin w))%R with (- (s * distance n i j * sin w))%R by ring. rewrite E2. ring.
Qed.
(** the radius it stands for *)
Lemma backward_radius d : 3 <= n -> (0 <= d)%R -> radius_of n (Rmin (d * IZR n / L) (IZR n - 1)) = Rmin (d * IZR n / (IZR n - 1)) L.
Proof.
  intros H3 Hd. assert (HL := largest_pos H3). assert (G := n_ge). unfold radius_of. fold L.
  set (f := fun x => (L * x / (IZR n - 1))%R). change (f (Rmin (d * IZR n / L) (IZR n - 1)) = Rmin (d * IZR n / (IZR n - 1)) L)%R.
  assert (F : forall x y, (x <= y)%R -> (f x <= f y)%R).
  { intros x y H. unfold f, Rdiv. apply Rmult_le_compat_r; [left; apply Rinv_0_lt_compat; lra|]. apply Rmult_le_compat_l; lra. }
  assert (F1 : (f (d * IZR n / L) = d * IZR n / (IZR n - 1))%R) by (unfold f; field; split; lra).
  assert (F2 : f (IZR n - 1)%R = L) by (unfold f; field; lra).
  destruct (Rle_dec (d * IZR n / L) (IZR n - 1)) as [H|H].
  - rewrite Rmin_left by exact H. rewrite F1. rewrite Rmin_left; [reflexivity|]. rewrite <- F1. apply Rle_trans with (f (IZR n - 1)%R); [apply F, H|rewrite F2; lra].
  - rewrite Rmin_right by lra. rewrite F2. rewrite Rmin_right; [reflexivity|]. rewrite <- F1. apply Rle_trans with (f (IZR n - 1)%R); [rewrite F2; lra|apply F; lra].
Qed.
Lemma backward_error d : 3 <= n -> (0 <= d <= L)%R -> (0 <= Rmin (d * IZR n / (IZR n - 1)) L - d <= 1 / 2)%R.
Proof.
  intros H3 Hd. assert (HL := largest_range). assert (G := n_ge). assert (N := n_real).
  replace (d * IZR n / (IZR n - 1))%R with (d + d / (IZR n - 1))%R by (field; lra).
  assert (Q : (0 <= d / (IZR n - 1) <= 1 / 2)%R).
  { split; [apply Rmult_le_pos; [lra|left; apply Rinv_0_lt_compat; lra]|]. apply (Rmult_le_reg_r (IZR n - 1)); [lra|]. unfold Rdiv. rewrite Rmult_assoc, Rinv_l, Rmult_1_r by lra. lra. }
  split; [assert (d <= Rmin (d + d / (IZR n - 1)) L)%R by (apply Rmin_glb; lra); lra|]. assert (H := Rmin_l (d + d / (IZR n - 1)) L). lra.
Qed.
End size.
