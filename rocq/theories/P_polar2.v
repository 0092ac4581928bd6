(** Proofs about the rotated window. *)
From Coq Require Import Reals Lra ZArith Lia Bool List. Import ListNotations.
From Verif Require Import Np P_Np M_phase_R P_phase_R M_simR S_simR P_simR P_simR4 P_calib6 M_dfi M_polar S_polar P_polar.
Open Scope Z_scope.

Lemma value_on_unique w x a b : value_on w x a -> value_on w x b -> a = b.
Proof.
  intros (j & u & Hj & (Hu & Ej) & Ea) (k & v & Hk & (Hv & Ek) & Eb). unfold in_rng in *.
  assert (j <= k + 1) by (apply le_IZR; rewrite plus_IZR; lra). assert (k <= j + 1) by (apply le_IZR; rewrite plus_IZR; lra).
  destruct (Z.eq_dec j k) as [->|N].
  - assert (u = v) by lra. subst v. lra.
  - destruct (Z.eq_dec k (j + 1)) as [->|N'].
    + rewrite plus_IZR in Ek. assert (u = 1%R) by lra. assert (v = 0%R) by lra. subst. replace (Z.min (j + 1) (vlen w - 1)) with (j + 1) by lia. ring.
    + assert (E : j = k + 1) by lia. subst j. rewrite plus_IZR in Ej. assert (u = 0%R) by lra. assert (v = 1%R) by lra. subst. replace (Z.min (k + 1) (vlen w - 1)) with (k + 1) by lia. ring.
Qed.
Lemma value_on_grid w i v : in_rng (vlen w) i -> value_on w (IZR i) v -> v = vat w i.
Proof.
  intros Hi Hv. apply (value_on_unique w (IZR i)); [exact Hv|]. exists i, 0%R. split; [exact Hi|]. split; [lra|ring].
Qed.
Lemma value_columns w h x y v : value_at (mkimg h (vlen w) (fun _ j => vat w j)) x y v -> value_on w x v.
Proof.
  intros (i & j & a & b & Hi & Hj & H & E). cbv zeta in E. cbn [nrow ncol px] in *. exists j, b. split; [exact Hj|]. split; [lra|]. rewrite E. ring.
Qed.
Lemma value_on_mirror w c d v : 0 <= c < vlen w -> (0 <= d <= IZR (vlen w - 1 - c))%R -> vlen w - 1 - c <= c ->
  (forall k, 0 <= k <= vlen w - 1 - c -> vat w (c + k) = vat w (c - k)) -> value_on w (IZR c + d) v -> value_on w (IZR c - d) v.
Proof.
  intros Hc Hd Hw Hs (j & b & Hj & (Hb & Ej) & Ev). unfold in_rng in *. rewrite !minus_IZR in Hd.
  assert (J1 : c - 1 <= j) by (apply le_IZR; rewrite minus_IZR; lra).
  destruct (Req_dec b 0) as [B0|B0].
  - assert (Jc : c <= j) by (apply le_IZR; lra). exists (2 * c - j), 0%R. split; [unfold in_rng; lia|]. split; [rewrite minus_IZR, mult_IZR; lra|].
    rewrite Ev, B0. replace (vat w j) with (vat w (2 * c - j)); [ring|]. replace (2 * c - j) with (c - (j - c)) by lia. rewrite <- Hs by lia. f_equal. lia.
  - destruct (Z.eq_dec j (vlen w - 1)) as [E|E]; [exfalso; rewrite E, minus_IZR in Ej; lra|].
    destruct (Z.eq_dec j (c - 1)) as [E'|E'].
    + rewrite E', minus_IZR in Ej. assert (b = 1%R) by lra. assert (D0 : d = 0%R) by lra. exists c, 0%R. split; [unfold in_rng; lia|]. split; [lra|].
      rewrite Ev. subst b. subst j. replace (Z.min (c - 1 + 1) (vlen w - 1)) with c by lia. ring.
    + exists (2 * c - j - 1), (1 - b)%R. split; [unfold in_rng; lia|]. split; [rewrite !minus_IZR, mult_IZR; lra|].
      rewrite Ev. replace (Z.min (j + 1) (vlen w - 1)) with (j + 1) by lia. replace (Z.min (2 * c - j - 1 + 1) (vlen w - 1)) with (2 * c - j) by lia.
      replace (vat w (2 * c - j - 1)) with (vat w (j + 1)). 2:{ replace (2 * c - j - 1) with (c - (j + 1 - c)) by lia. rewrite <- Hs by lia. f_equal. lia. }
      replace (vat w (2 * c - j)) with (vat w j). 2:{ replace (2 * c - j) with (c - (j - c)) by lia. rewrite <- Hs by lia. f_equal. lia. } ring.
Qed.

Lemma window_at atan2 w i j : polar_angle atan2 -> in_rng (vlen w) i -> in_rng (vlen w) j ->
  let c := vlen w / 2 in let d := Rmin (sqrt (IZR (i - c) ^ 2 + IZR (j - c) ^ 2)) (IZR c) in
  value_on w (if i <? c then IZR c - d else IZR c + d)%R (px (transform_1d_window_to_2d atan2 w) i j).
Proof.
  intros Hat Hi Hj c d. unfold in_rng in *. set (w0 := vlen w) in *.
  assert (Dc := Z.div_mod w0 2 ltac:(lia)). assert (Mc := Z.mod_pos_bound w0 2 ltac:(lia)). fold c in Dc.
  unfold transform_1d_window_to_2d. fold w0. set (width := if w0 mod 2 =? 0 then w0 + 1 else w0).
  assert (W : width = 2 * c + 1) by (unfold width; destruct (Z.eqb_spec (w0 mod 2) 0); lia).
  assert (Cc : width / 2 = c) by (rewrite W; symmetry; apply (Z.div_unique _ 2 c 1); lia). rewrite Cc. clearbody width. subst width.
  assert (C0 : (0 <= IZR c)%R) by (apply IZR_le; lia).
  cbn [px islice mapping nrow ncol]. rewrite !py_adj_id by lia. rewrite !Z.add_0_l.
  assert (X : (IZR (2 * c + 1 - 1 - j) - IZR c = - IZR (j - c))%R) by (rewrite !minus_IZR, plus_IZR, mult_IZR; lra).
  assert (Y : (IZR i - IZR c = IZR (i - c))%R) by (rewrite minus_IZR; lra). rewrite X, Y.
  replace ((- IZR (j - c)) ^ 2 + IZR (i - c) ^ 2)%R with (IZR (i - c) ^ 2 + IZR (j - c) ^ 2)%R by ring.
  set (s := sqrt (IZR (i - c) ^ 2 + IZR (j - c) ^ 2)) in *. assert (S0 : (0 <= s)%R) by apply sqrt_pos.
  assert (D : rclip s 0 (IZR c) = d) by (unfold rclip; rewrite Rmax_left by lra; reflexivity). rewrite D.
  assert (D0 : (0 <= d <= IZR c)%R) by (split; [apply Rmin_glb; lra|apply Rmin_r]).
  destruct (Hat (- IZR (j - c))%R (IZR (i - c))) as (B & E1 & E2).
  replace ((- IZR (j - c)) ^ 2 + IZR (i - c) ^ 2)%R with (IZR (i - c) ^ 2 + IZR (j - c) ^ 2)%R in E1, E2 by ring. fold s in E1, E2.
  set (th := atan2 (IZR (i - c)) (- IZR (j - c))%R) in *.
  assert (N : (IZR (2 * c + 1) - 1 = 2 * IZR c)%R) by (rewrite plus_IZR, mult_IZR; lra). rewrite N.
  assert (K : (rclip ((if Rlt_dec th 0 then - d else d) + IZR c) 0 (2 * IZR c) = if i <? c then IZR c - d else IZR c + d)%R).
  { destruct (Z.ltb_spec i c) as [L|G].
    - assert (Hy : (IZR (i - c) < 0)%R) by (apply IZR_lt; lia). destruct (Rlt_dec th 0) as [T|T]; [rewrite rclip_id; lra|].
      exfalso. assert (0 <= sin th)%R by (apply sin_ge_0; lra). assert (0 <= s * sin th)%R by (apply Rmult_le_pos; lra). lra.
    - assert (Hy : (0 <= IZR (i - c))%R) by (apply IZR_le; lia). destruct (Rlt_dec th 0) as [T|T]; [|rewrite rclip_id; lra].
      assert (sin th < 0)%R by (apply sin_lt_0_var; lra). destruct (Req_dec s 0) as [Z|Z].
      + assert (Hd : (d <= s)%R) by apply Rmin_l. rewrite rclip_id; lra.
      + exfalso. assert (s * sin th < 0)%R; [|lra]. assert (0 < s * - sin th)%R by (apply Rmult_lt_0_compat; lra). lra. }
  rewrite K. apply (value_columns w (2 * c + 1) _ (rclip (th * (2 * IZR c) / PI) 0 (2 * IZR c))). fold w0.
  assert (WR : (IZR c <= IZR w0 /\ 2 * IZR c <= IZR w0)%R) by (rewrite <- mult_IZR; split; apply IZR_le; lia).
  apply bilinear_value; cbn [nrow ncol]; try lia.
  - destruct (Z.ltb_spec i c) as [L|G]; lra.
  - assert (R := rclip_in (th * (2 * IZR c) / PI) 0 (2 * IZR c) ltac:(lra)). rewrite plus_IZR, mult_IZR. lra.
Qed.
