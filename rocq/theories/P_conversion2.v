From Verif Require Import Np P_Np M_utility M_conversion S_conversion P_utility P_grid P_conversion.
From Coq Require Import QArith Qround Qabs Lqa.
From Coq Require Import List. Import ListNotations.
Open Scope Z_scope.

Lemma two_in_length {A} (l : list A) x y : In x l -> In y l -> x <> y -> (2 <= length l)%nat.
Proof.
  destruct l as [|a [|b t] ]; cbn; intros Hx Hy Hn; [tauto| |lia].
  destruct Hx as [->|[] ]; destruct Hy as [->|[] ]; congruence.
Qed.
Lemma refill_interval m a b : 2 <= nrow m -> 1 <= a -> a <= b -> b <= ncol m - 1 ->
  exists r, refill m a b = Ok r /\ nrow r = nrow m /\ ncol r = ncol m /\
    forall i j, in_rng (ncol m) j ->
      (j < a \/ b <= j -> px r i j = px m i j) /\
      (a <= j < b -> ((px r i j - px m i (a - 1)%Z) * inject_Z (b - (a - 1)) ==
                      (px m i b - px m i (a - 1)%Z) * inject_Z (j - (a - 1)))%Q).
Proof.
  intros Hr Ha Hab Hb. unfold refill. rewrite !py_adj_id by lia.
  set (good := fun j => negb ((a <=? j) && (j <? b))).
  assert (G : (2 <= length (filter good (zrange 0 (ncol m))))%nat).
  { apply (two_in_length _ (a - 1) b); [| |lia]; apply filter_In; (split; [apply zrange_In; lia|unfold good; lia]). }
  replace ((nrow m <? 2) || (Z.of_nat (length (filter good (zrange 0 (ncol m)))) <? 2)) with false by lia.
  eexists. split; [reflexivity|]. cbn [nrow ncol px]. split; [reflexivity|]. split; [reflexivity|].
  intros i j Hj. unfold in_rng in Hj. split.
  - intros H. replace ((a <=? j) && (j <? b)) with false by lia. reflexivity.
  - intros H. replace ((a <=? j) && (j <? b)) with true by lia. cbn [negb]. unfold lin_interp.
    destruct (knot_left_spec good j (Z.to_nat (j + 1))) as (A1 & A2 & A3).
    { exists (a - 1). split; [lia|unfold good; lia]. }
    destruct (knot_right_spec good j (Z.to_nat (ncol m - j))) as (B1 & B2 & B3).
    { exists b. split; [lia|unfold good; lia]. }
    set (ka := knot_left good j (Z.to_nat (j + 1))) in *. set (kb := knot_right good j (Z.to_nat (ncol m - j))) in *.
    cbn zeta in *.
    assert (Ea : ka = a - 1).
    { assert (~ (a - 1 > ka)) by (intros C; specialize (A3 (a - 1) ltac:(lia)); unfold good in A3; lia).
      unfold good in A2. lia. }
    assert (Eb : kb = b).
    { assert (~ (b < kb)) by (intros C; specialize (B3 b ltac:(lia)); unfold good in B3; lia).
      unfold good in B2. lia. }
    rewrite Ea, Eb. replace (a - 1 =? b) with false by lia.
    assert (N : ~ (inject_Z (b - (a - 1)) == 0)%Q) by (apply inject_Z_neq0; lia). field. exact N.
Qed.

Lemma join_cols left right g : nrow left = nrow right -> 2 <= nrow left -> 3 <= ncol left -> 4 <= ncol right -> 0 <= g ->
  let total0 := ncol left + ncol right + g in
  exists c1 c2 out, set_cols assign (zeros (nrow left) total0) 0 (ncol left) left = Ok c1 /\
    set_cols Qplus c1 (ncol left + g) total0 right = Ok c2 /\
    refill c2 (ncol left - 2) (ncol left + g + 3) = Ok out /\ is_join left right g out.
Proof.
  intros Hr Hn Hl Hrr Hg total0.
  destruct (set_cols_ok assign (zeros (nrow left) total0) 0 (ncol left) left) as (c1 & E1 & A1 & A2 & A3);
    cbn; try (unfold total0; lia).
  cbn [zeros nrow ncol] in A1, A2.
  destruct (set_cols_ok Qplus c1 (ncol left + g) total0 right) as (c2 & E2 & B1 & B2 & B3); try (unfold total0 in *; lia).
  destruct (refill_interval c2 (ncol left - 2) (ncol left + g + 3)) as (out & E3 & C1 & C2 & C3);
    try (unfold total0 in *; lia).
  exists c1, c2, out. split; [exact E1|]. split; [exact E2|]. split; [exact E3|].
  unfold is_join. split; [lia|]. split; [unfold total0 in *; lia|].
  assert (PL : forall i j, 0 <= j < ncol left -> (px c2 i j == px left i j)%Q).
  { intros i j Hj. rewrite B3, A3. cbn [zeros px]. unfold assign.
    replace ((ncol left + g <=? j) && (j <? total0)) with false by lia.
    replace ((0 <=? j) && (j <? ncol left)) with true by lia. replace (j - 0) with j by lia. reflexivity. }
  assert (PR : forall i j, ncol left + g <= j < total0 -> (px c2 i j == px right i (j - (ncol left + g)))%Q).
  { intros i j Hj. rewrite B3, A3. cbn [zeros px]. unfold assign.
    replace ((ncol left + g <=? j) && (j <? total0)) with true by lia.
    replace ((0 <=? j) && (j <? ncol left)) with false by lia. ring. }
  intros i j Hi Hj. unfold in_rng in *. destruct (C3 i j) as [D1 D2]; [unfold in_rng; lia|].
  split; [|split].
  - intros H. rewrite D1 by lia. apply PL. lia.
  - intros H. rewrite D1 by lia. apply PR. unfold total0. lia.
  - intros H. specialize (D2 H). cbn zeta.
    replace (ncol left - 2 - 1) with (ncol left - 3) in D2 by lia.
    rewrite (PL i (ncol left - 3) ltac:(lia)) in D2.
    rewrite (PR i (ncol left + g + 3) ltac:(unfold total0; lia)) in D2.
    replace (ncol left + g + 3 - (ncol left + g)) with 3 in D2 by lia. exact D2.
Qed.

Section join.
Context (shift : img Q -> Q -> img Q).
Lemma join_plain m1 m2 g side : nrow m1 = nrow m2 -> 2 <= nrow m1 -> 4 <= ncol m1 -> 4 <= ncol m2 -> 0 <= g ->
  (side = 0 \/ side = 1) ->
  exists out, join_image shift m1 m2 (inject_Z g) side false None = Ok out /\
    if side =? 1 then is_join m1 m2 g out else is_join m2 m1 g out.
Proof.
  intros Hr Hn H1 H2 Hg Hs. unfold join_image. rewrite overlap_to_int_Z, sub_pixel_0.
  replace (nrow m1 =? nrow m2) with true by lia. cbn [negb].
  replace (ncol m1 + ncol m2 + g <? 0) with false by lia.
  destruct Hs as [->| ->]; cbn [Z.eqb Pos.eqb].
  - destruct (join_cols m2 m1 g) as (c1 & c2 & out & E1 & E2 & E3 & S); try lia.
    replace (ncol m2 + ncol m1 + g) with (ncol m1 + ncol m2 + g) in * by lia.
    rewrite Hr, E1. cbn [bindr]. rewrite E2. cbn [bindr]. rewrite E3. cbn [bindr].
    rewrite Z.ltb_irrefl. eexists. split; [reflexivity|]. exact S.
  - destruct (join_cols m1 m2 g) as (c1 & c2 & out & E1 & E2 & E3 & S); try lia.
    rewrite E1. cbn [bindr]. rewrite E2. cbn [bindr]. rewrite E3. cbn [bindr].
    rewrite Z.ltb_irrefl. eexists. split; [reflexivity|]. exact S.
Qed.
Lemma join_norm m1 m2 g side : 3 <= ncol m1 -> 3 <= ncol m2 -> nrow m1 = nrow m2 -> 0 <= nrow m1 ->
  (side = 0 \/ side = 1) ->
  let f1 := if side =? 1 then mean_of_columns m1 (ncol m1 - 3) (ncol m1) else mean_of_columns m1 0 3 in
  let f2 := if side =? 1 then mean_of_columns m2 0 3 else mean_of_columns m2 (ncol m2 - 3) (ncol m2) in
  join_image shift m1 m2 (inject_Z g) side true None =
  join_image shift m1 (img_scale (f1 / f2) m2) (inject_Z g) side false None.
Proof.
  intros H2 H3 Hr Hn Hs f1 f2. unfold join_image. rewrite overlap_to_int_Z, sub_pixel_0.
  destruct Hs as [->| ->]; cbn [Z.eqb Pos.eqb] in *; unfold f1, f2.
  - rewrite (mean_cols_pos shift m1) by lia. change (-3) with (- (3)); rewrite (mean_cols_neg shift m2 3) by lia. reflexivity.
  - rewrite (mean_cols_pos shift m2) by lia. change (-3) with (- (3)); rewrite (mean_cols_neg shift m1 3) by lia. reflexivity.
Qed.
Lemma join_height m1 m2 g side norm tw : nrow m1 <> nrow m2 ->
  join_image shift m1 m2 g side norm tw = Err ValueError.
Proof. intros H. unfold join_image. replace (nrow m1 =? nrow m2) with false by lia. reflexivity. Qed.
Definition fold_join (norm : bool) (c : img Q) (rest : list (img Q * (Q * Z))) : res (img Q) :=
  fold_res (fun c x => join_image shift c (fst x) (fst (snd x)) (snd (snd x)) norm None) c rest.
Lemma join_multiple_fold m0 rest norm : rest <> [] ->
  join_image_multiple shift (m0 :: map fst rest) (map snd rest) norm None = fold_join norm m0 rest.
Proof.
  intros Hne.
  assert (L : forall rest c, join_loop shift c (map fst rest) (map snd rest) norm = fold_join norm c rest).
  { clear. induction rest as [|[m [ov side] ] t IH]; intros c; unfold fold_join in *; cbn [join_loop fold_res map fst snd]; [reflexivity|].
    destruct (join_image _ _ _ _ _ _ _); cbn; [apply IH|reflexivity]. }
  destruct rest as [|[m [ov side] ] t]; [congruence|]. cbn [join_image_multiple map fst].
  specialize (L ((m, (ov, side)) :: t) m0). cbn [map fst] in L. rewrite L.
  destruct (fold_join norm m0 _); reflexivity.
Qed.

(** ** C28 *)
Lemma cor_roundtrip_0 n ov : (ov <= inject_Z n)%Q ->
  exists ov', cor_to_overlap n (CNum (ov / 2 - (1#2))) = (ov', 0) /\ (ov' == ov)%Q.
Proof.
  intros H. unfold cor_to_overlap.
  assert (E : Qle_bool (ov / 2 - (1 # 2)) ((inject_Z n - 1) * (1 # 2)) = true).
  { apply Qle_bool_iff. assert (ov / 2 == ov * (1#2))%Q by field. lra. }
  rewrite E. eexists. split; [reflexivity|]. field.
Qed.
Lemma cor_roundtrip_1 n ov : (ov < inject_Z n)%Q ->
  exists ov', cor_to_overlap n (CNum (inject_Z n - ov / 2 - (1#2))) = (ov', 1) /\ (ov' == ov)%Q.
Proof.
  intros H. unfold cor_to_overlap.
  assert (E : Qle_bool (inject_Z n - ov / 2 - (1 # 2)) ((inject_Z n - 1) * (1 # 2)) = false).
  { apply not_true_is_false. intros C. apply Qle_bool_iff in C. assert (ov / 2 == ov * (1#2))%Q by field. lra. }
  rewrite E. eexists. split; [reflexivity|]. field.
Qed.
Lemma round_half_even_comp p q : (p == q)%Q -> round_half_even p = round_half_even q.
Proof.
  intros E. unfold round_half_even. rewrite (Qfloor_comp _ _ E).
  assert (Q1 : forall a b c, (a == b)%Q -> Qltb a c = Qltb b c).
  { intros a b c Eab. unfold Qltb. f_equal. apply eq_true_iff_eq. rewrite !Qle_bool_iff. rewrite Eab. reflexivity. }
  assert (Q2 : forall a b c, (a == b)%Q -> Qltb c a = Qltb c b).
  { intros a b c Eab. unfold Qltb. f_equal. apply eq_true_iff_eq. rewrite !Qle_bool_iff. rewrite Eab. reflexivity. }
  assert (Es : (p - inject_Z (Qfloor q) == q - inject_Z (Qfloor q))%Q) by (rewrite E; reflexivity).
  rewrite (Q1 _ _ _ Es), (Q2 _ _ _ Es). reflexivity.
Qed.
Lemma overlap_to_int_comp p q : (p == q)%Q -> overlap_to_int p = overlap_to_int q.
Proof. intros E. apply round_half_even_comp. rewrite E. reflexivity. Qed.
(** with an integer overlap, the sub-pixel part vanishes and only the value matters *)
Lemma stitch_comp m1 m2 k q side w1 w2 norm tw : (q == inject_Z k)%Q ->
  stitch_image shift m1 m2 q side w1 w2 norm tw = stitch_image shift m1 m2 (inject_Z k) side w1 w2 norm tw.
Proof.
  intros E. unfold stitch_image. rewrite (overlap_to_int_comp _ _ E), overlap_to_int_Z.
  assert (S : Qeq_bool (q - inject_Z k) 0 = true) by (apply Qeq_bool_iff; rewrite E; ring).
  rewrite S, sub_pixel_0. reflexivity.
Qed.
Lemma convert_cor_tuple sino k side w1 w2 norm tw : (side = 0 \/ side = 1) -> 1 <= k -> k <= ncol sino ->
  (side = 1 -> k < ncol sino) ->
  let cor := if side =? 1 then (inject_Z (ncol sino) - inject_Z k / 2 - (1#2))%Q else (inject_Z k / 2 - (1#2))%Q in
  convert_sinogram_360_to_180 shift sino (CNum cor) w1 w2 norm tw =
  convert_sinogram_360_to_180 shift sino (CTup (inject_Z k) side) w1 w2 norm tw.
Proof.
  intros Hs H1 H2 H3 cor. unfold convert_sinogram_360_to_180.
  destruct Hs as [->| ->]; cbn [Z.eqb Pos.eqb] in cor; unfold cor.
  - destruct (cor_roundtrip_0 (ncol sino) (inject_Z k)) as (ov' & E & Q0); [rewrite <- Zle_Qle; lia|].
    rewrite E. cbn [cor_to_overlap]. rewrite (stitch_comp _ _ k ov' _ _ _ _ _ Q0), (overlap_to_int_comp _ _ Q0). reflexivity.
  - destruct (cor_roundtrip_1 (ncol sino) (inject_Z k)) as (ov' & E & Q0); [rewrite <- Zlt_Qlt; lia|].
    rewrite E. cbn [cor_to_overlap]. rewrite (stitch_comp _ _ k ov' _ _ _ _ _ Q0), (overlap_to_int_comp _ _ Q0). reflexivity.
Qed.
(** half_turn: rows of the first and second half turn *)
Lemma convert_shape sino k side : (side = 0 \/ side = 1) -> 1 <= k -> k <= ncol sino -> 2 <= nrow sino ->
  exists out c top bot, convert_sinogram_360_to_180 shift sino (CTup (inject_Z k) side) PNone PNone false None = Ok (out, c) /\
    nrow out = nrow sino / 2 + 1 /\ ncol out = 2 * ncol sino - k /\ (c == inject_Z (ncol out - 1) / 2)%Q /\
    nrow top = nrow sino / 2 + 1 /\ ncol top = ncol sino /\ nrow bot = nrow sino / 2 + 1 /\ ncol bot = ncol sino /\
    (forall i j, px top i j = px sino i j) /\
    (forall i j, px bot i j = px sino (nrow sino - (nrow sino / 2 + 1) + i) (ncol sino - 1 - j)) /\
    (if side =? 1 then is_stitch top bot k out else is_stitch bot top k out).
Proof.
  intros Hs H1 H2 Hn. unfold convert_sinogram_360_to_180. cbn [cor_to_overlap].
  set (h := nrow sino / 2 + 1). assert (Hh : 2 <= h <= nrow sino) by (unfold h; pose proof (Z.div_mod (nrow sino) 2 ltac:(lia)); pose proof (Z.mod_pos_bound (nrow sino) 2 ltac:(lia)); lia).
  set (top := islice sino 0 h 0 (ncol sino)). set (bot := ifliplr (islice sino (- h) (nrow sino) 0 (ncol sino))).
  assert (T1 : nrow top = h) by (cbn [top islice nrow]; rewrite slen_id by lia; lia).
  assert (T2 : ncol top = ncol sino) by (cbn [top islice ncol]; rewrite slen_id by lia; lia).
  assert (PA : py_adj (nrow sino) (- h) = nrow sino - h) by (unfold py_adj; replace (- h <? 0) with true by lia; lia).
  assert (B1 : nrow bot = h).
  { unfold bot, ifliplr, islice. cbn [nrow]. unfold slen. rewrite PA, py_adj_id by lia. lia. }
  assert (B2 : ncol bot = ncol sino) by (unfold bot, ifliplr, islice; cbn [ncol]; rewrite slen_id by lia; lia).
  destruct (stitch_plain shift top bot k side) as (out & E & S); try lia.
  rewrite E. cbn [bindr]. rewrite overlap_to_int_Z.
  exists out, (inject_Z (ncol sino) - inject_Z k / 2 - (1 # 2))%Q, top, bot. split; [reflexivity|].
  assert (Sh : nrow out = h /\ ncol out = 2 * ncol sino - k).
  { destruct (side =? 1); destruct S as (S1 & S2 & _); lia. }
  destruct Sh as [Sh1 Sh2]. split; [exact Sh1|]. split; [exact Sh2|]. split.
  { rewrite Sh2. unfold Z.sub. rewrite !inject_Z_plus, !inject_Z_opp, inject_Z_mult. change (inject_Z 1) with 1%Q. change (inject_Z 2) with 2%Q. field. }
  split; [exact T1|]. split; [exact T2|]. split; [exact B1|]. split; [exact B2|]. split.
  { intros i j. unfold top, islice. cbn [px]. rewrite !py_adj_id by lia. reflexivity. }
  split; [|exact S].
  intros i j. unfold bot, ifliplr, islice. cbn [px ncol]. rewrite PA. rewrite slen_id by lia. rewrite py_adj_id by lia.
  f_equal; lia.
Qed.
End join.
