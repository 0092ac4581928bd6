From Verif Require Import Np P_Np M_utility M_conversion S_conversion P_utility P_grid.
From Coq Require Import QArith Qround Qabs Lqa.
From Coq Require Import List. Import ListNotations.
Open Scope Z_scope.

Lemma Qfloor_unique q z : (inject_Z z <= q)%Q -> (q < inject_Z (z + 1))%Q -> Qfloor q = z.
Proof.
  intros H1 H2. pose proof (Qfloor_le q) as F1. pose proof (Qlt_floor q) as F2.
  assert (inject_Z z < inject_Z (Qfloor q + 1))%Q by (eapply Qle_lt_trans; eauto).
  assert (inject_Z (Qfloor q) < inject_Z (z + 1))%Q by (eapply Qle_lt_trans; eauto).
  rewrite <- Zlt_Qlt in *. lia.
Qed.
Lemma overlap_to_int_Z k : overlap_to_int (inject_Z k) = k.
Proof.
  unfold overlap_to_int, round_half_even.
  rewrite (Qfloor_unique (inject_Z k + (1#1000)) k).
  - replace (Qltb (inject_Z k + (1 # 1000) - inject_Z k) (1 # 2)) with true; [reflexivity|].
    symmetry. apply Qltb_lt. lra.
  - lra.
  - rewrite inject_Z_plus. change (inject_Z 1) with 1%Q. lra.
Qed.
Lemma sub_pixel_0 k : Qeq_bool (inject_Z k - inject_Z k) 0 = true.
Proof. apply Qeq_bool_iff. ring. Qed.

Lemma set_cols_ok f m a b s : 0 <= a -> a <= b -> b <= ncol m -> b - a = ncol s ->
  exists r, set_cols f m a b s = Ok r /\ nrow r = nrow m /\ ncol r = ncol m /\
    forall i j, px r i j = if (a <=? j) && (j <? b) then f (px m i j) (px s i (j - a)) else px m i j.
Proof.
  intros Ha Hab Hb Hs. unfold set_cols.
  assert (W : slen (ncol m) a b = b - a) by (apply slen_id; lia).
  assert (A : py_adj (ncol m) a = a) by (apply py_adj_id; lia).
  rewrite W, A. replace (b - a =? ncol s) with true by lia. cbn [orb].
  eexists. split; [reflexivity|]. cbn. split; [reflexivity|]. split; [reflexivity|].
  intros i j. replace ((0 <=? j - a) && (j - a <? b - a)) with ((a <=? j) && (j <? b)) by lia.
  reflexivity.
Qed.
Lemma set_cols_neg f m k s : 1 <= k -> k <= ncol m -> ncol s = k ->
  exists r, set_cols f m (- k) (ncol m) s = Ok r /\ nrow r = nrow m /\ ncol r = ncol m /\
    forall i j, px r i j = if (ncol m - k <=? j) && (j <? ncol m) then f (px m i j) (px s i (j - (ncol m - k))) else px m i j.
Proof.
  intros H1 H2 Hs. unfold set_cols, slen.
  assert (A : py_adj (ncol m) (- k) = ncol m - k) by (unfold py_adj; replace (- k <? 0) with true by lia; lia).
  assert (B : py_adj (ncol m) (ncol m) = ncol m) by (apply py_adj_id; lia).
  rewrite A, B. replace (Z.max 0 (ncol m - (ncol m - k))) with k by lia.
  replace (k =? ncol s) with true by lia. cbn [orb].
  eexists. split; [reflexivity|]. cbn. split; [reflexivity|]. split; [reflexivity|].
  intros i j. replace ((0 <=? j - (ncol m - k)) && (j - (ncol m - k) <? k)) with ((ncol m - k <=? j) && (j <? ncol m)) by lia.
  reflexivity.
Qed.

Lemma weights_side1 m1 m2 k : 1 <= k -> k <= ncol m1 -> k <= ncol m2 ->
  exists w1 w2, make_weight_matrix m1 m2 k 1 = Ok (w1, w2) /\
   nrow w1 = nrow m1 /\ ncol w1 = ncol m1 /\ nrow w2 = nrow m2 /\ ncol w2 = ncol m2 /\
   (forall i j, px w1 i j = if (ncol m1 - k <=? j) && (j <? ncol m1) then ramp_down k (j - (ncol m1 - k)) else 1%Q) /\
   (forall i j, px w2 i j = if (0 <=? j) && (j <? k) then (1 - ramp_down k j)%Q else 1%Q).
Proof.
  intros H1 H2 H3. unfold make_weight_matrix. replace (k <? 0) with false by lia. cbn [Z.eqb Pos.eqb].
  destruct (set_cols_neg assign (ones_like m1) k (row_img (nrow m1) k (ramp_down k))) as (r1 & E1 & A1 & A2 & A3); cbn; try lia.
  destruct (set_cols_ok assign (ones_like m2) 0 k (row_img (nrow m2) k (fun k0 => (1 - ramp_down k k0)%Q))) as (r2 & E2 & B1 & B2 & B3); cbn; try lia.
  cbn in E1. rewrite E1. cbn [bindr]. rewrite E2. cbn [bindr].
  exists r1, r2. split; [reflexivity|]. split; [assumption|]. split; [assumption|]. split; [assumption|]. split; [assumption|]. split.
  - intros i j. rewrite A3. reflexivity.
  - intros i j. rewrite B3. replace (j - 0) with j by lia. reflexivity.
Qed.
Lemma weights_side0 m1 m2 k : 1 <= k -> k <= ncol m1 -> k <= ncol m2 ->
  exists w1 w2, make_weight_matrix m1 m2 k 0 = Ok (w1, w2) /\
   nrow w1 = nrow m1 /\ ncol w1 = ncol m1 /\ nrow w2 = nrow m2 /\ ncol w2 = ncol m2 /\
   (forall i j, px w2 i j = if (ncol m2 - k <=? j) && (j <? ncol m2) then ramp_down k (j - (ncol m2 - k)) else 1%Q) /\
   (forall i j, px w1 i j = if (0 <=? j) && (j <? k) then (1 - ramp_down k j)%Q else 1%Q).
Proof.
  intros H1 H2 H3. unfold make_weight_matrix. replace (k <? 0) with false by lia. cbn [Z.eqb Pos.eqb].
  destruct (set_cols_neg assign (ones_like m2) k (row_img (nrow m2) k (ramp_down k))) as (r1 & E1 & A1 & A2 & A3); cbn; try lia.
  destruct (set_cols_ok assign (ones_like m1) 0 k (row_img (nrow m1) k (fun k0 => (1 - ramp_down k k0)%Q))) as (r2 & E2 & B1 & B2 & B3); cbn; try lia.
  cbn in E1. rewrite E1. cbn [bindr]. rewrite E2. cbn [bindr].
  exists r2, r1. split; [reflexivity|]. split; [assumption|]. split; [assumption|]. split; [assumption|]. split; [assumption|]. split.
  - intros i j. rewrite A3. reflexivity.
  - intros i j. rewrite B3. replace (j - 0) with j by lia. reflexivity.
Qed.

Lemma ramp_down_range k t : 1 <= k -> 0 <= t < k -> (0 <= ramp_down k t <= 1)%Q /\
  (2 <= k -> (ramp_down k t * inject_Z (k - 1) == inject_Z (k - 1 - t))%Q).
Proof.
  intros H1 H2. unfold ramp_down. destruct (k =? 1) eqn:E.
  - split; [lra|]. intros; lia.
  - assert (P : (0 < inject_Z (k - 1))%Q) by (apply inject_Z_pos; lia).
    assert (N : ~ (inject_Z (k - 1) == 0)%Q) by (apply inject_Z_neq0; lia).
    assert (0 <= inject_Z t / inject_Z (k - 1) <= 1)%Q.
    { split.
      - apply Qle_shift_div_l; [assumption|]. rewrite Qmult_0_l. change 0%Q with (inject_Z 0). rewrite <- Zle_Qle. lia.
      - apply Qle_shift_div_r; [assumption|]. rewrite Qmult_1_l. rewrite <- Zle_Qle. lia. }
    split; [lra|]. intros _.
    assert (E2 : (inject_Z (k - 1 - t) == inject_Z (k - 1) - inject_Z t)%Q).
    { unfold Z.sub at 1. rewrite inject_Z_plus, inject_Z_opp. ring. }
    rewrite E2. field. exact N.
Qed.

(** the common blending step *)
Lemma blend_cols left right k wl wr : 1 <= k -> k <= ncol left -> k <= ncol right -> nrow left = nrow right ->
  ncol wl = ncol left -> ncol wr = ncol right ->
  (forall i j, px wl i j = if (ncol left - k <=? j) && (j <? ncol left) then ramp_down k (j - (ncol left - k)) else 1%Q) ->
  (forall i j, px wr i j = if (0 <=? j) && (j <? k) then (1 - ramp_down k j)%Q else 1%Q) ->
  let total0 := ncol left + ncol right - k in
  exists c1 out, set_cols assign (zeros (nrow left) total0) 0 (ncol left) (img_mul left wl) = Ok c1 /\
    set_cols Qplus c1 (ncol left - k) total0 (img_mul right wr) = Ok out /\ is_stitch left right k out.
Proof.
  intros H1 H2 H3 Hr Hw1 Hw2 W1 W2 total0.
  destruct (set_cols_ok assign (zeros (nrow left) total0) 0 (ncol left) (img_mul left wl)) as (c1 & E1 & A1 & A2 & A3);
    cbn; try (unfold total0; lia).
  cbn in A1, A2.
  destruct (set_cols_ok Qplus c1 (ncol left - k) total0 (img_mul right wr)) as (out & E2 & B1 & B2 & B3);
    cbn; try (rewrite A2; unfold total0; lia); try (unfold total0; lia).
  exists c1, out. split; [exact E1|]. split; [exact E2|].
  unfold is_stitch. rewrite B1, B2, A1, A2. split; [reflexivity|]. split; [reflexivity|].
  intros i j Hi Hj. unfold in_rng in *. rewrite B3, A3. cbn [px img_mul zeros]. unfold assign.
  replace (j - 0) with j by lia. rewrite W1, W2.
  split; [|split].
  - intros L. replace ((ncol left - k <=? j) && (j <? total0)) with false by lia.
    replace ((0 <=? j) && (j <? ncol left)) with true by lia.
    replace ((ncol left - k <=? j) && (j <? ncol left)) with false by lia. ring.
  - intros L. replace ((ncol left - k <=? j) && (j <? total0)) with true by lia.
    replace ((0 <=? j) && (j <? ncol left)) with false by lia.
    replace ((0 <=? j - (ncol left - k)) && (j - (ncol left - k) <? k)) with false by lia. ring.
  - intros L. replace ((ncol left - k <=? j) && (j <? total0)) with true by lia.
    replace ((0 <=? j) && (j <? ncol left)) with true by lia.
    replace ((ncol left - k <=? j) && (j <? ncol left)) with true by lia.
    replace ((0 <=? j - (ncol left - k)) && (j - (ncol left - k) <? k)) with true by lia.
    exists (ramp_down k (j - (ncol left - k))).
    destruct (ramp_down_range k (j - (ncol left - k)) H1 ltac:(lia)) as [R1 R2].
    split; [exact R1|]. split.
    + intros Hk. rewrite (R2 Hk). replace (k - 1 - (j - (ncol left - k))) with (ncol left - 1 - j) by lia. reflexivity.
    + ring.
Qed.

Section stitch.
Context (shift : img Q -> Q -> img Q).

Lemma stitch_plain m1 m2 k side : 1 <= k -> k <= ncol m1 -> k <= ncol m2 -> nrow m1 = nrow m2 ->
  (side = 0 \/ side = 1) ->
  exists out, stitch_image shift m1 m2 (inject_Z k) side PNone PNone false None = Ok out /\
    if side =? 1 then is_stitch m1 m2 k out else is_stitch m2 m1 k out.
Proof.
  intros H1 H2 H3 Hr Hs. unfold stitch_image. rewrite overlap_to_int_Z, sub_pixel_0.
  replace (nrow m1 =? nrow m2) with true by lia. cbn [negb].
  replace (ncol m1 + ncol m2 - k <? 0) with false by lia.
  destruct Hs as [->| ->]; cbn [Z.eqb Pos.eqb].
  - destruct (weights_side0 m1 m2 k H1 H2 H3) as (w1 & w2 & -> & D1 & D2 & D3 & D4 & W2 & W1).
    cbn [bindr fst snd].
    destruct (blend_cols m2 m1 k w2 w1 H1 H3 H2 (eq_sym Hr) D4 D2 W2 W1) as (c1 & out & E1 & E2 & S).
    replace (ncol m2 + ncol m1 - k) with (ncol m1 + ncol m2 - k) in * by lia.
    rewrite Hr. rewrite E1. cbn [bindr]. rewrite E2. cbn [bindr].
    rewrite Z.ltb_irrefl. eexists. split; [reflexivity|]. exact S.
  - destruct (weights_side1 m1 m2 k H1 H2 H3) as (w1 & w2 & -> & D1 & D2 & D3 & D4 & W1 & W2).
    cbn [bindr fst snd].
    destruct (blend_cols m1 m2 k w1 w2 H1 H2 H3 Hr D2 D4 W1 W2) as (c1 & out & E1 & E2 & S).
    rewrite E1. cbn [bindr]. rewrite E2. cbn [bindr].
    rewrite Z.ltb_irrefl. eexists. split; [reflexivity|]. exact S.
Qed.

Lemma mean_cols_neg m k : 0 <= nrow m -> 1 <= k -> k <= ncol m -> mean_cols m (- k) (ncol m) = mean_of_columns m (ncol m - k) (ncol m).
Proof.
  intros H0 H1 H2. unfold mean_cols, mean_of_columns, islice. cbn [nrow ncol px].
  assert (A : py_adj (ncol m) (- k) = ncol m - k) by (unfold py_adj; replace (- k <? 0) with true by lia; lia).
  assert (B : py_adj (ncol m) (ncol m) = ncol m) by (apply py_adj_id; lia).
  assert (R : slen (nrow m) 0 (nrow m) = nrow m) by (rewrite slen_id; lia).
  assert (R0 : py_adj (nrow m) 0 = 0) by (apply py_adj_id; lia).
  rewrite R, R0. unfold slen. rewrite A, B. replace (Z.max 0 (ncol m - (ncol m - k))) with (ncol m - (ncol m - k)) by lia.
  unfold qmean2, qsum2. reflexivity.
Qed.
Lemma mean_cols_pos m a b : 0 <= nrow m -> 0 <= a -> a <= b -> b <= ncol m -> mean_cols m a b = mean_of_columns m a b.
Proof.
  intros H0 H1 H2 H3. unfold mean_cols, mean_of_columns, islice. cbn [nrow ncol px].
  rewrite !slen_id, !py_adj_id by lia. replace (nrow m - 0) with (nrow m) by lia. reflexivity.
Qed.

Lemma stitch_norm m1 m2 k side : 1 <= k -> k <= ncol m1 -> k <= ncol m2 -> nrow m1 = nrow m2 -> 0 <= nrow m1 ->
  (side = 0 \/ side = 1) ->
  let f1 := if side =? 1 then mean_of_columns m1 (ncol m1 - k) (ncol m1) else mean_of_columns m1 0 k in
  let f2 := if side =? 1 then mean_of_columns m2 0 k else mean_of_columns m2 (ncol m2 - k) (ncol m2) in
  stitch_image shift m1 m2 (inject_Z k) side PNone PNone true None =
  stitch_image shift m1 (img_scale (f1 / f2) m2) (inject_Z k) side PNone PNone false None.
Proof.
  intros H1 H2 H3 Hr Hn Hs f1 f2. unfold stitch_image. rewrite overlap_to_int_Z, sub_pixel_0.
  destruct Hs as [->| ->]; cbn [Z.eqb Pos.eqb] in *; unfold f1, f2.
  - rewrite (mean_cols_pos m1) by lia. rewrite mean_cols_neg by lia. reflexivity.
  - rewrite (mean_cols_pos m2) by lia. rewrite mean_cols_neg by lia. reflexivity.
Qed.

Lemma stitch_height m1 m2 ov side w1 w2 norm tw : nrow m1 <> nrow m2 ->
  stitch_image shift m1 m2 ov side w1 w2 norm tw = Err ValueError.
Proof. intros H. unfold stitch_image. replace (nrow m1 =? nrow m2) with false by lia. reflexivity. Qed.

Lemma stitch_total m1 m2 k side norm t : 1 <= k -> k <= ncol m1 -> k <= ncol m2 -> nrow m1 = nrow m2 ->
  (side = 0 \/ side = 1) ->
  forall out, stitch_image shift m1 m2 (inject_Z k) side PNone PNone norm None = Ok out ->
  exists out', stitch_image shift m1 m2 (inject_Z k) side PNone PNone norm (Some t) = Ok out' /\
    nrow out' = nrow out /\ ncol out' = Z.max t (ncol m1 + ncol m2 - k) /\
    (ncol out = ncol m1 + ncol m2 - k ->
     forall i j, 0 <= j < ncol out' -> px out' i j = px out i (Z.min j (ncol out - 1))).
Proof.
  intros H1 H2 H3 Hr Hs out. unfold stitch_image.
  destruct (negb (nrow m1 =? nrow m2)); [discriminate|]. rewrite overlap_to_int_Z, sub_pixel_0.
  destruct (make_weight_matrix m1 m2 k side) as [w|e]; cbn [bindr]; [|discriminate].
  destruct (ncol m1 + ncol m2 - k <? 0); [discriminate|].
  match goal with |- context [bindr ?c _] => remember c as cc eqn:Ec end.
  destruct cc as [c|e]; cbn [bindr]; [|discriminate].
  rewrite Z.ltb_irrefl. intros E. injection E as <-.
  assert (Hc : ncol c = ncol m1 + ncol m2 - k).
  { clear - Ec. revert Ec. unfold set_cols. cbn [ncol zeros].
    destruct (side =? 1);
    repeat match goal with |- context [if ?b then _ else _] => destruct b; cbn [bindr]; try discriminate end;
    intros E; injection E as ->; reflexivity. }
  destruct (t <? ncol m1 + ncol m2 - k) eqn:Et.
  - rewrite Z.ltb_irrefl. exists c. split; [reflexivity|]. split; [reflexivity|]. split; [lia|].
    intros _ i j Hj. f_equal. lia.
  - destruct (ncol m1 + ncol m2 - k <? t) eqn:Et2.
    + eexists. split; [reflexivity|]. cbn. split; [reflexivity|]. split; [lia|]. intros _ i j Hj. reflexivity.
    + exists c. split; [reflexivity|]. split; [reflexivity|]. split; [lia|].
      intros _ i j Hj. f_equal. lia.
Qed.

Lemma stitch_zero m1 m2 side w norm tw : 2 <= ncol m1 -> 2 <= ncol m2 -> (side = 0 \/ side = 1) ->
  stitch_image shift m1 m2 0 side w PNone norm tw = Err ValueError.
Proof.
  intros H1 H2 Hs. unfold stitch_image. change 0%Q with (inject_Z 0). rewrite overlap_to_int_Z, sub_pixel_0.
  destruct (negb (nrow m1 =? nrow m2)); [reflexivity|].
  assert (E : make_weight_matrix m1 m2 0 side = Err ValueError).
  { unfold make_weight_matrix. cbn [Z.ltb Z.compare].
    assert (S : forall m : img Q, 2 <= ncol m -> forall f, set_cols assign (ones_like m) (- 0) (ncol m) (row_img (nrow m) 0 f) = Err ValueError).
    { intros m Hm f. unfold set_cols. cbn [ncol ones_like row_img]. change (- 0) with 0. rewrite slen_id by lia.
      replace (_ || _) with false by lia. reflexivity. }
    destruct Hs as [->| ->]; cbn [Z.eqb Pos.eqb]; rewrite S by lia; reflexivity. }
  destruct w; rewrite E; reflexivity.
Qed.

(** mirror symmetry *)
Lemma stitch_mirror m1 m2 k out1 out0 : 2 <= k -> k <= ncol m1 -> k <= ncol m2 -> nrow m1 = nrow m2 ->
  stitch_image shift m1 m2 (inject_Z k) 1 PNone PNone false None = Ok out1 ->
  stitch_image shift (ifliplr m1) (ifliplr m2) (inject_Z k) 0 PNone PNone false None = Ok out0 ->
  img_Qeq out0 (ifliplr out1).
Proof.
  intros H1 H2 H3 Hr E1 E0.
  destruct (stitch_plain m1 m2 k 1 ltac:(lia) H2 H3 Hr ltac:(auto)) as (o1 & F1 & S1). rewrite E1 in F1. injection F1 as <-.
  destruct (stitch_plain (ifliplr m1) (ifliplr m2) k 0 ltac:(lia) H2 H3 Hr ltac:(auto)) as (o0 & F0 & S0). rewrite E0 in F0. injection F0 as <-.
  cbn [Z.eqb Pos.eqb] in *. destruct S1 as (A1 & A2 & A3). destruct S0 as (B1 & B2 & B3). cbn [nrow ncol ifliplr] in *.
  split; [cbn; lia|]. split; [cbn; lia|]. intros i j Hi Hj. cbn. unfold in_rng in *. 
  destruct (A3 i (ncol out1 - 1 - j)) as (P1 & P2 & P3); [unfold in_rng; lia|unfold in_rng; lia|].
  destruct (B3 i j) as (Q1 & Q2 & Q3); [unfold in_rng; lia|unfold in_rng; lia|]. cbn [px ifliplr] in *.
  destruct (Z_lt_ge_dec j (ncol m2 - k)) as [L|L].
  - rewrite (Q1 L). rewrite P2 by lia.
    replace (ncol out1 - 1 - j - (ncol m1 - k)) with (ncol m2 - 1 - j) by lia. reflexivity.
  - destruct (Z_lt_ge_dec j (ncol m2)) as [L2|L2].
    + destruct Q3 as (w & W1 & W2 & W3); [lia|]. destruct P3 as (v & V1 & V2 & V3); [lia|].
      specialize (W2 H1). specialize (V2 H1). rewrite W3, V3.
      assert (N : ~ (inject_Z (k - 1) == 0)%Q) by (apply inject_Z_neq0; lia).
      assert (E : (w == 1 - v)%Q).
      { apply (Qmult_inj_r _ _ (inject_Z (k - 1)) N). rewrite W2.
        setoid_replace ((1 - v) * inject_Z (k - 1))%Q with (inject_Z (k - 1) - v * inject_Z (k - 1))%Q by ring.
        rewrite V2. unfold Qminus. rewrite <- inject_Z_opp, <- inject_Z_plus.
        match goal with |- (inject_Z ?x == inject_Z ?y)%Q => replace x with y by lia end. reflexivity. }
      rewrite E.
      replace (ncol m1 - 1 - (j - (ncol m2 - k))) with (ncol out1 - 1 - j) by lia.
      replace (ncol out1 - 1 - j - (ncol m1 - k)) with (ncol m2 - 1 - j) by lia. ring.
    + rewrite Q2 by lia. rewrite P1 by lia.
      replace (ncol m1 - 1 - (j - (ncol m2 - k))) with (ncol out1 - 1 - j) by lia. reflexivity.
Qed.

(** ** C26 *)
Lemma stitch_pbool m1 m2 ov side b norm tw :
  stitch_image shift m1 m2 ov side (PBool b) PNone norm tw = stitch_image shift m1 m2 ov side PNone PNone norm tw.
Proof. reflexivity. Qed.
Lemma multiple_ignores_norm mats ovs tw :
  stitch_image_multiple shift mats ovs true tw = stitch_image_multiple shift mats ovs false tw.
Proof.
  assert (L : forall ms c os, stitch_loop shift c ms os true = stitch_loop shift c ms os false).
  { induction ms as [|m ms IH]; intros c [|[ov side] os]; cbn [stitch_loop]; try reflexivity.
    rewrite !stitch_pbool. destruct (stitch_image _ _ _ _ _ _ _ _ _); [|reflexivity]. cbn. apply IH. }
  unfold stitch_image_multiple. destruct mats as [|m [|m' ms] ]; try reflexivity. rewrite L. reflexivity.
Qed.
(** the left fold a user expects *)
Definition fold_stitch (norm : bool) (c : img Q) (rest : list (img Q * (Q * Z))) : res (img Q) :=
  fold_res (fun c x => stitch_image shift c (fst x) (fst (snd x)) (snd (snd x)) PNone PNone norm None) c rest.
Lemma multiple_norm_true m0 rest norm : rest <> [] ->
  stitch_image_multiple shift (m0 :: map fst rest) (map snd rest) norm None = fold_stitch true m0 rest.
Proof.
  intros Hne.
  assert (L : forall rest c, stitch_loop shift c (map fst rest) (map snd rest) norm = fold_stitch true c rest).
  { clear. induction rest as [|[m [ov side] ] t IH]; intros c; unfold fold_stitch in *; cbn [stitch_loop fold_res map fst snd]; [reflexivity|].
    rewrite stitch_pbool. destruct (stitch_image _ _ _ _ _ _ _ _ _); cbn; [apply IH|reflexivity]. }
  destruct rest as [|[m [ov side] ] t]; [congruence|]. cbn [stitch_image_multiple map fst].
  specialize (L ((m, (ov, side)) :: t) m0). cbn [map fst] in L. rewrite L.
  destruct (fold_stitch true m0 _); reflexivity.
Qed.
End stitch.

Lemma multiple_norm_refuted : exists m0 m1 ov side, forall shift, exists o1 o2,
  stitch_image_multiple shift [m0; m1] [(ov, side)] false None = Ok o1 /\
  stitch_image shift m0 m1 ov side PNone PNone false None = Ok o2 /\ ~ img_Qeq o1 o2.
Proof.
  set (m0 := mkimg 1 3 (fun _ _ => 1%Q)). set (m1 := mkimg 1 3 (fun _ _ => 2%Q)).
  exists m0, m1, (inject_Z 2), 1. intros shift.
  destruct (stitch_plain shift m0 m1 2 1) as (o2 & E2 & S2); try (cbn; lia).
  pose proof (multiple_norm_true shift m0 [(m1, (inject_Z 2, 1))] false ltac:(discriminate)) as M.
  unfold fold_stitch in M; cbn [map fst snd fold_res] in M.
  pose proof (stitch_norm shift m0 m1 2 1) as N. cbn zeta in N. rewrite N in M; try (cbn; lia).
  match type of M with _ = bindr (stitch_image _ _ (img_scale ?f _) _ _ _ _ _ _) _ =>
    destruct (stitch_plain shift m0 (img_scale f m1) 2 1) as (o1 & E1 & S1); try (cbn; lia); rewrite E1 in M end.
  cbn [bindr] in M. exists o1, o2. split; [exact M|]. split; [exact E2|].
  intros (_ & _ & H). cbn [Z.eqb Pos.eqb] in S1, S2.
  destruct S1 as (A1 & A2 & A3). destruct S2 as (B1 & B2 & B3). cbn in A1, A2, B1, B2.
  specialize (H 0 3 ltac:(unfold in_rng; lia) ltac:(unfold in_rng; lia)).
  destruct (A3 0 3 ltac:(unfold in_rng; lia) ltac:(unfold in_rng; lia)) as (_ & X & _).
  destruct (B3 0 3 ltac:(unfold in_rng; lia) ltac:(unfold in_rng; lia)) as (_ & Y & _).
  rewrite X, Y in H by (cbn; lia). vm_compute in H. discriminate H.
Qed.
