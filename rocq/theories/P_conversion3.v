From Verif Require Import Np P_Np M_utility M_conversion S_conversion P_utility P_grid P_conversion P_conversion2.
From Coq Require Import QArith Qround Qabs Lqa.
From Coq Require Import List. Import ListNotations.
Open Scope Z_scope.

(** ** C29 *)
Section extend.
Context (shift : img Q -> Q -> img Q).
Lemma ramp_up_down k t : 1 <= k -> (2 <= k \/ True) -> 0 <= t < k -> 2 <= k -> (ramp_up01 k t == 1 - ramp_down k t)%Q.
Proof. intros. unfold ramp_up01, ramp_down. replace (k =? 1) with false by lia. ring. Qed.
Lemma ramp_mirror k t : 2 <= k -> 0 <= t < k -> (ramp_down k t + ramp_down k (k - 1 - t) == 1)%Q.
Proof.
  intros H1 H2. unfold ramp_down. replace (k =? 1) with false by lia.
  assert (N : ~ (inject_Z (k - 1) == 0)%Q) by (apply inject_Z_neq0; lia).
  assert (E : (inject_Z (k - 1 - t) == inject_Z (k - 1) - inject_Z t)%Q).
  { unfold Z.sub at 1. rewrite inject_Z_plus, inject_Z_opp. ring. }
  rewrite E. field. exact N.
Qed.
Lemma ramp_end k : 2 <= k -> (ramp_down k (k - 1) == 0)%Q.
Proof.
  intros H. unfold ramp_down. replace (k =? 1) with false by lia.
  assert (N : ~ (inject_Z (k - 1) == 0)%Q) by (apply inject_Z_neq0; lia). field. exact N.
Qed.
Definition w_side1 (nc k j : Z) : Q :=
  if j <? nc - k then 1%Q else if j <? nc then ramp_down k (j - (nc - k)) else 0%Q.
Definition w_side0 (nc k j : Z) : Q := w_side1 nc k (2 * nc - k - 1 - j).

Lemma w_side1_facts nc k j : 2 <= k -> k <= nc -> 0 <= j < 2 * nc - k ->
  (0 <= w_side1 nc k j <= 1)%Q /\ (w_side1 nc k j + w_side1 nc k (2 * nc - k - 1 - j) == 1)%Q.
Proof.
  intros H1 H2 H3. unfold w_side1. split.
  - destruct (j <? nc - k) eqn:E; [lra|]. destruct (j <? nc) eqn:E2; [|lra].
    apply (ramp_down_range k (j - (nc - k))); lia.
  - destruct (j <? nc - k) eqn:E.
    + replace (2 * nc - k - 1 - j <? nc - k) with false by lia. replace (2 * nc - k - 1 - j <? nc) with false by lia. ring.
    + destruct (j <? nc) eqn:E2.
      * replace (2 * nc - k - 1 - j <? nc - k) with false by lia. replace (2 * nc - k - 1 - j <? nc) with true by lia.
        rewrite <- (ramp_mirror k (j - (nc - k))) by lia.
        replace (2 * nc - k - 1 - j - (nc - k)) with (k - 1 - (j - (nc - k))) by lia. ring.
      * replace (2 * nc - k - 1 - j <? nc - k) with true by lia. ring.
Qed.

Lemma extend_plain sino k side : 2 <= k -> k <= ncol sino -> (side = 0 \/ side = 1) ->
  exists out c (W : Z -> Q), extend_sinogram shift sino (CTup (inject_Z k) side) = Ok (out, c) /\
    nrow out = nrow sino /\ ncol out = 2 * ncol sino - k /\ (c == inject_Z (ncol out - 1) / 2)%Q /\
    (forall j, in_rng (ncol out) j -> (0 <= W j <= 1)%Q /\ (W j + W (ncol out - 1 - j)%Z == 1)%Q) /\
    let off := if side =? 1 then 0 else ncol sino - k in
    (forall i j, in_rng (ncol out) j -> (px out i j == 2 * W j * px sino i (clipZ (j - off) 0 (ncol sino - 1)))%Q) /\
    (forall j, in_rng (ncol out) j -> (if side =? 1 then j < ncol sino - k else ncol sino <= j) -> (W j == 1)%Q).
Proof.
  intros H1 H2 Hs. unfold extend_sinogram. cbn [cor_to_overlap]. rewrite overlap_to_int_Z, sub_pixel_0.
  replace (k <? 0) with false by lia.
  assert (HC : (inject_Z (ncol sino) - inject_Z k / 2 - (1 # 2) == inject_Z (2 * ncol sino - k - 1) / 2)%Q).
  { unfold Z.sub. rewrite !inject_Z_plus, !inject_Z_opp, inject_Z_mult. change (inject_Z 1) with 1%Q. change (inject_Z 2) with 2%Q. field. }
  destruct Hs as [->| ->]; cbn [Z.eqb Pos.eqb].
  - destruct (set_cols_ok Qmult sino 0 k (row_img (nrow sino) k (ramp_up01 k))) as (r & E & R1 & R2 & R3); try (cbn; lia).
    rewrite E. cbn [bindr]. replace (ncol sino - k <? 0) with false by lia. cbn [bindr].
    eexists _, _, (w_side0 (ncol sino) k). split; [reflexivity|].
    cbn [nrow ncol px imap pad_left]. rewrite R1, R2.
    split; [reflexivity|]. split; [lia|]. split; [rewrite HC; replace (ncol sino + (ncol sino - k) - 1) with (2 * ncol sino - k - 1) by lia; reflexivity|].
    split; [|split].
    + intros j Hj. unfold in_rng in Hj. unfold w_side0.
      destruct (w_side1_facts (ncol sino) k (2 * ncol sino - k - 1 - j)) as [A B]; try lia.
      split; [exact A|]. rewrite <- B.
      replace (2 * ncol sino - k - 1 - (ncol sino + (ncol sino - k) - 1 - j)) with (2 * ncol sino - k - 1 - (2 * ncol sino - k - 1 - j)) by lia. reflexivity.
    + intros i j Hj. unfold in_rng in Hj. rewrite R3. unfold w_side0, w_side1, clipZ. cbn [row_img px].
      replace (Z.min (Z.max (j - (ncol sino - k)) 0) (ncol sino - 1)) with (Z.max (j - (ncol sino - k)) 0) by lia.
      replace (Z.max (j - (ncol sino - k)) 0 - 0) with (Z.max (j - (ncol sino - k)) 0) by lia.
      destruct (Z_lt_ge_dec j (ncol sino - k)) as [L|L].
      * replace (Z.max (j - (ncol sino - k)) 0) with 0 by lia.
        replace ((0 <=? 0) && (0 <? k)) with true by lia.
        replace (2 * ncol sino - k - 1 - j <? ncol sino - k) with false by lia.
        replace (2 * ncol sino - k - 1 - j <? ncol sino) with false by lia.
        unfold ramp_up01. replace (k =? 1) with false by lia. change (inject_Z 0) with 0%Q. unfold Qdiv. ring.
      * replace (Z.max (j - (ncol sino - k)) 0) with (j - (ncol sino - k)) by lia.
        replace (0 <=? j - (ncol sino - k)) with true by lia. cbn [andb].
        destruct (Z_lt_ge_dec j (ncol sino)) as [L2|L2].
        -- replace (j - (ncol sino - k) <? k) with true by lia.
           replace (2 * ncol sino - k - 1 - j <? ncol sino - k) with false by lia.
           replace (2 * ncol sino - k - 1 - j <? ncol sino) with true by lia.
           rewrite ramp_up_down by (auto; lia).
           replace (2 * ncol sino - k - 1 - j - (ncol sino - k)) with (k - 1 - (j - (ncol sino - k))) by lia.
           rewrite <- (ramp_mirror k (j - (ncol sino - k))) by lia. ring.
        -- replace (j - (ncol sino - k) <? k) with false by lia.
           replace (2 * ncol sino - k - 1 - j <? ncol sino - k) with true by lia. ring.
    + intros j Hj L. unfold in_rng in Hj. unfold w_side0, w_side1.
      replace (2 * ncol sino - k - 1 - j <? ncol sino - k) with true by lia. reflexivity.
  - destruct (set_cols_neg Qmult sino k (row_img (nrow sino) k (ramp_down k))) as (r & E & R1 & R2 & R3); try (cbn; lia).
    rewrite E. cbn [bindr]. replace (ncol sino - k <? 0) with false by lia. cbn [bindr].
    eexists _, _, (w_side1 (ncol sino) k). split; [reflexivity|].
    cbn [nrow ncol px imap pad_right]. rewrite R1, R2.
    split; [reflexivity|]. split; [lia|]. split; [rewrite HC; replace (ncol sino + (ncol sino - k) - 1) with (2 * ncol sino - k - 1) by lia; reflexivity|].
    split; [|split].
    + intros j Hj. unfold in_rng in Hj.
      destruct (w_side1_facts (ncol sino) k j) as [A B]; try lia.
      split; [exact A|]. rewrite <- B.
      replace (ncol sino + (ncol sino - k) - 1 - j) with (2 * ncol sino - k - 1 - j) by lia. reflexivity.
    + intros i j Hj. unfold in_rng in Hj. rewrite R3. unfold w_side1, clipZ. cbn [row_img px].
      replace (j - 0) with j by lia.
      replace (Z.min (Z.max j 0) (ncol sino - 1)) with (Z.min j (ncol sino - 1)) by lia.
      destruct (Z_lt_ge_dec j (ncol sino - k)) as [L|L].
      * replace (Z.min j (ncol sino - 1)) with j by lia.
        replace (ncol sino - k <=? j) with false by lia. replace (j <? ncol sino - k) with true by lia. cbn [andb]. ring.
      * replace (j <? ncol sino - k) with false by lia.
        destruct (Z_lt_ge_dec j (ncol sino)) as [L2|L2].
        -- replace (Z.min j (ncol sino - 1)) with j by lia.
           replace (ncol sino - k <=? j) with true by lia. replace (j <? ncol sino) with true by lia. cbn [andb]. ring.
        -- replace (Z.min j (ncol sino - 1)) with (ncol sino - 1) by lia.
           replace (ncol sino - k <=? ncol sino - 1) with true by lia. replace (ncol sino - 1 <? ncol sino) with true by lia.
           replace (j <? ncol sino) with false by lia. cbn [andb].
           replace (ncol sino - 1 - (ncol sino - k)) with (k - 1) by lia. rewrite ramp_end by lia. ring.
    + intros j Hj L. unfold w_side1. replace (j <? ncol sino - k) with true by lia. reflexivity.
Qed.
(** an overlap of 1 column does not split the weight *)
Lemma extend_one_refuted : forall side, (side = 0 \/ side = 1) ->
  exists sino out c j, ncol sino = 4 /\ (forall i j, px sino i j = 1%Q) /\
    extend_sinogram shift sino (CTup 1 side) = Ok (out, c) /\ in_rng (ncol out) j /\
    ~ (px out 0 j + px out 0 (ncol out - 1 - j)%Z == 2)%Q.
Proof.
  intros side Hs. exists (mkimg 1 4 (fun _ _ => 1%Q)).
  destruct Hs as [->| ->].
  - eexists _, _, 3. split; [reflexivity|]. split; [reflexivity|]. split; [reflexivity|].
    split; [cbn; unfold in_rng; lia|]. vm_compute. discriminate.
  - eexists _, _, 3. split; [reflexivity|]. split; [reflexivity|]. split; [reflexivity|].
    split; [cbn; unfold in_rng; lia|]. vm_compute. discriminate.
Qed.
End extend.

(** ** C30 *)
Lemma to_360_shape shift sino c :
  (forall m s, nrow (shift m s) = nrow m /\ ncol (shift m s) = ncol m) -> 1 <= nrow sino ->
  let out := convert_sinogram_180_to_360 shift sino c in
  nrow out = 2 * nrow sino - 1 /\ ncol out = ncol sino /\
  forall i j, in_rng (nrow sino) i -> px out i j = px sino i j.
Proof.
  intros Hsh Hn out. unfold out, convert_sinogram_180_to_360. cbn [vstack nrow ncol px islice].
  set (s2 := shift _ _). assert (R : nrow s2 = nrow sino).
  { unfold s2. rewrite (proj1 (Hsh _ _)). cbn [ifliplr nrow]. apply Hsh. }
  rewrite R. rewrite slen_id by lia. split; [lia|]. split; [reflexivity|].
  intros i j Hi. unfold in_rng in Hi. replace (i <? nrow sino) with true by lia. reflexivity.
Qed.
Lemma to_360_integer shift sino c2 : integer_shift shift -> 1 <= nrow sino -> 1 <= ncol sino ->
  (c2 - (ncol sino - 1)) mod 2 = 0 ->                 (* the centre c2/2 is a whole number of columns from the middle *)
  let out := convert_sinogram_180_to_360 shift sino (inject_Z c2 / 2) in
  forall r j, 1 <= r < nrow sino -> in_rng (ncol sino) j ->
    px out (nrow sino - 1 + r) j = px sino r (clipZ (c2 - j) 0 (ncol sino - 1)).
Proof.
  intros Hsh Hn Hc Hp out r j Hr Hj. unfold in_rng in *.
  set (k := ((ncol sino - 1) - c2) / 2).
  assert (Hk : c2 = ncol sino - 1 - 2 * k).
  { unfold k. assert (M : (ncol sino - 1 - c2) mod 2 = 0).
    { replace (ncol sino - 1 - c2) with (- (c2 - (ncol sino - 1))) by lia. apply Z.mod_opp_l_z; lia. }
    pose proof (Z.div_mod (ncol sino - 1 - c2) 2 ltac:(lia)). lia. }
  unfold out, convert_sinogram_180_to_360. cbn [vstack nrow ncol px islice].
  set (sx := ((inject_Z (ncol sino) - 1) / 2 - inject_Z c2 / 2)%Q).
  assert (Esx : (sx == inject_Z k)%Q).
  { unfold sx. rewrite Hk. unfold Z.sub. rewrite !inject_Z_plus, !inject_Z_opp, inject_Z_mult. change (inject_Z 1) with 1%Q. change (inject_Z 2) with 2%Q. field. }
  destruct (Hsh sino sx k Esx) as (A1 & A2 & A3).
  destruct (Hsh (ifliplr (shift sino sx)) (- sx)%Q (- k)) as (B1 & B2 & B3); [rewrite Esx, inject_Z_opp; reflexivity|].
  cbn [ifliplr nrow ncol px] in B1, B2, B3.
  replace (nrow sino - 1 + r <? nrow sino) with false by lia.
  rewrite !py_adj_id by lia. replace (1 + (nrow sino - 1 + r - nrow sino)) with r by lia. replace (0 + j) with j by lia.
  rewrite B3 by (unfold in_rng; lia). rewrite A2. rewrite A3 by (unfold in_rng, clipZ; lia).
  f_equal. unfold clipZ. lia.
Qed.
Lemma to_360_ideal shift sino c al be : ideal_shift shift -> 1 <= nrow sino -> 2 <= ncol sino ->
  samples al be 0 sino ->
  let out := convert_sinogram_180_to_360 shift sino c in
  forall r j, 1 <= r < nrow sino -> in_rng (ncol sino) j ->
    (px out (nrow sino - 1 + r)%Z j == al r + be r * (2 * c - inject_Z j))%Q.
Proof.
  intros Hsh Hn Hc Hs out r j Hr Hj. unfold in_rng in *.
  unfold out, convert_sinogram_180_to_360. cbn [vstack nrow ncol px islice].
  set (sx := ((inject_Z (ncol sino) - 1) / 2 - c)%Q).
  destruct (Hsh sino sx ltac:(lia)) as (A1 & A2 & A3). specialize (A3 al be 0%Q Hs). red in A3.
  destruct (Hsh (ifliplr (shift sino sx)) (- sx)%Q ltac:(cbn [ifliplr ncol]; lia)) as (B1 & B2 & B3). cbn [ifliplr nrow ncol] in B1, B2.
  assert (F : samples (fun i => al i + be i * (inject_Z (ncol sino) - 1 - 2 * sx))%Q (fun i => - be i)%Q (- sx)%Q (ifliplr (shift sino sx))).
  { intros i x Hi Hx. unfold in_rng in *. cbn [ifliplr nrow ncol px] in *. rewrite A2 in Hx. rewrite A3 by (unfold in_rng; lia).
    rewrite A2. unfold Z.sub. rewrite !inject_Z_plus, !inject_Z_opp. change (inject_Z 1) with 1%Q. ring. }
  specialize (B3 _ _ _ F). red in B3. cbn [ifliplr nrow ncol px] in B3.
  replace (nrow sino - 1 + r <? nrow sino) with false by lia.
  rewrite !py_adj_id by lia. replace (1 + (nrow sino - 1 + r - nrow sino)) with r by lia. replace (0 + j) with j by lia.
  rewrite B3 by (unfold in_rng; lia). unfold sx. field.
Qed.

(** ** C68: an ideal shift exists; the sub-pixel corrections do not align the scene *)
Definition line_shift (m : img Q) (s : Q) : img Q :=
  if ncol m =? 1 then m else
  mkimg (nrow m) (ncol m) (fun i j => (px m i 0 + (px m i 1 - px m i 0) * (inject_Z j - s))%Q).
Lemma two_cols_samples al be x0 m : 2 <= ncol m -> samples al be x0 m -> forall i j s, in_rng (nrow m) i ->
  (px m i 0 + (px m i 1 - px m i 0) * (inject_Z j - s) == al i + be i * (x0 - s + inject_Z j))%Q.
Proof.
  intros H S i j s Hi. rewrite (S i 0), (S i 1) by (auto; unfold in_rng; lia). change (inject_Z 0) with 0%Q. change (inject_Z 1) with 1%Q. ring.
Qed.

Section subpixel.
Context (shift : img Q -> Q -> img Q) (Hsh : ideal_shift shift).
(** stitch, side 1: the left part is displaced by the sub-pixel amount against the right part *)
Lemma stitch_subpixel m1 m2 k s al be : (0 < s)%Q -> (s < 499#1000)%Q -> 1 <= k -> k < ncol m1 -> k < ncol m2 -> nrow m1 = nrow m2 ->
  let ov := (inject_Z k + s)%Q in
  samples al be 0 m1 -> samples al be (inject_Z (ncol m1) - ov)%Q m2 ->
  exists out, stitch_image shift m1 m2 ov 1 PNone PNone false None = Ok out /\
   ncol out = ncol m1 + ncol m2 - k /\ nrow out = nrow m1 /\
   forall i j, in_rng (nrow m1) i -> in_rng (ncol out) j ->
    (j < ncol m1 - k -> (px out i j == al i + be i * (inject_Z j - s))%Q) /\
    (ncol m1 <= j -> (px out i j == al i + be i * inject_Z j)%Q).
Proof.
  intros Hs0 Hs1 H1 H2 H3 Hr ov S1 S2.
  assert (Eov : overlap_to_int ov = k).
  { unfold overlap_to_int, round_half_even, ov. rewrite (Qfloor_unique (inject_Z k + s + (1#1000)) k).
    - replace (Qltb (inject_Z k + s + (1 # 1000) - inject_Z k) (1 # 2)) with true; [reflexivity|].
      symmetry. apply Qltb_lt. lra.
    - lra.
    - rewrite inject_Z_plus. change (inject_Z 1) with 1%Q. lra. }
  assert (Esub : Qeq_bool (ov - inject_Z k) 0 = false).
  { apply not_true_is_false. intros C. apply Qeq_bool_iff in C. unfold ov in C. lra. }
  set (a := shift m1 (ov - inject_Z k)%Q). set (b := shift m2 (- (ov - inject_Z k))%Q).
  destruct (Hsh m1 (ov - inject_Z k)%Q ltac:(lia)) as (A1 & A2 & A3). specialize (A3 _ _ _ S1). red in A3. fold a in A1, A2, A3.
  destruct (Hsh m2 (- (ov - inject_Z k))%Q ltac:(lia)) as (B1 & B2 & B3). specialize (B3 _ _ _ S2). red in B3. fold b in B1, B2, B3.
  destruct (stitch_plain shift a b k 1) as (out & E & S); try lia.
  exists out. split.
  - unfold stitch_image in E |- *. rewrite overlap_to_int_Z, sub_pixel_0 in E. rewrite Eov, Esub.
    rewrite A1, A2, B1, B2 in E. cbn [Z.eqb Pos.eqb] in *. exact E.
  - cbn [Z.eqb Pos.eqb] in S. destruct S as (D1 & D2 & D3). split; [lia|]. split; [lia|].
    intros i j Hi Hj. destruct (D3 i j) as (P1 & P2 & _); [unfold in_rng in *; lia|exact Hj|]. unfold in_rng in *. split.
    + intros L. rewrite P1 by lia. rewrite A3 by (unfold in_rng; lia). unfold ov. ring.
    + intros L. rewrite P2 by lia. rewrite B3 by (unfold in_rng; lia). unfold ov. rewrite A2.
      unfold Z.sub. rewrite !inject_Z_plus, !inject_Z_opp, !inject_Z_plus, !inject_Z_opp. ring.
Qed.
Lemma join_subpixel m1 m2 g s al be : (0 < s)%Q -> (s < 499#1000)%Q -> 0 <= g -> 4 <= ncol m1 -> 4 <= ncol m2 -> nrow m1 = nrow m2 -> 2 <= nrow m1 ->
  let gap := (inject_Z g + s)%Q in
  samples al be 0 m1 -> samples al be (inject_Z (ncol m1) + gap)%Q m2 ->
  exists out, join_image shift m1 m2 gap 1 false None = Ok out /\
   ncol out = ncol m1 + ncol m2 + g /\ nrow out = nrow m1 /\
   forall i j, in_rng (nrow m1) i -> in_rng (ncol out) j ->
    (j < ncol m1 - 2 -> (px out i j == al i + be i * (inject_Z j - s))%Q) /\
    (ncol m1 + g + 3 <= j -> (px out i j == al i + be i * (inject_Z j + 2 * s))%Q).
Proof.
  intros Hs0 Hs1 Hg H2 H3 Hr Hn gap S1 S2.
  assert (Eov : overlap_to_int gap = g).
  { unfold overlap_to_int, round_half_even, gap. rewrite (Qfloor_unique (inject_Z g + s + (1#1000)) g).
    - replace (Qltb (inject_Z g + s + (1 # 1000) - inject_Z g) (1 # 2)) with true; [reflexivity|].
      symmetry. apply Qltb_lt. lra.
    - lra.
    - rewrite inject_Z_plus. change (inject_Z 1) with 1%Q. lra. }
  assert (Esub : Qeq_bool (gap - inject_Z g) 0 = false).
  { apply not_true_is_false. intros C. apply Qeq_bool_iff in C. unfold gap in C. lra. }
  set (a := shift m1 (gap - inject_Z g)%Q). set (b := shift m2 (- (gap - inject_Z g))%Q).
  destruct (Hsh m1 (gap - inject_Z g)%Q ltac:(lia)) as (A1 & A2 & A3). specialize (A3 _ _ _ S1). red in A3. fold a in A1, A2, A3.
  destruct (Hsh m2 (- (gap - inject_Z g))%Q ltac:(lia)) as (B1 & B2 & B3). specialize (B3 _ _ _ S2). red in B3. fold b in B1, B2, B3.
  destruct (join_plain shift a b g 1) as (out & E & S); try lia.
  exists out. split.
  - unfold join_image in E |- *. rewrite overlap_to_int_Z, sub_pixel_0 in E. rewrite Eov, Esub.
    rewrite A1, A2, B1, B2 in E. cbn [Z.eqb Pos.eqb] in *. exact E.
  - cbn [Z.eqb Pos.eqb] in S. destruct S as (D1 & D2 & D3). split; [lia|]. split; [lia|].
    intros i j Hi Hj. destruct (D3 i j) as (P1 & P2 & _); [unfold in_rng in *; lia|exact Hj|]. unfold in_rng in *. split.
    + intros L. rewrite P1 by lia. rewrite A3 by (unfold in_rng; lia). unfold gap. ring.
    + intros L. rewrite P2 by lia. rewrite B3 by (unfold in_rng; lia). unfold gap. rewrite A2.
      unfold Z.sub. rewrite !inject_Z_plus, !inject_Z_opp, !inject_Z_plus. ring.
Qed.
(** extend_sinogram: the rotation centre of the data lands half a sub-pixel away from the returned centre *)
Lemma extend_subpixel sino k s al be : (0 < s)%Q -> (s < 499#1000)%Q -> 2 <= k -> k < ncol sino ->
  let ov := (inject_Z k + s)%Q in
  let centre := (inject_Z (ncol sino) - ov / 2 - (1#2))%Q in
  samples al be (- centre)%Q sino ->                       (* abscissae measured from the rotation axis *)
  exists out c, extend_sinogram shift sino (CTup ov 1) = Ok (out, c) /\ nrow out = nrow sino /\
    ncol out = 2 * ncol sino - k /\
    forall i j, in_rng (nrow sino) i -> 0 <= j < ncol sino - k ->
      (px out i j == 2 * (al i + be i * (inject_Z j - c - s / 2)))%Q.
Proof.
  intros Hs0 Hs1 H1 H2 ov centre S1.
  assert (Eov : overlap_to_int ov = k).
  { unfold overlap_to_int, round_half_even, ov. rewrite (Qfloor_unique (inject_Z k + s + (1#1000)) k).
    - replace (Qltb (inject_Z k + s + (1 # 1000) - inject_Z k) (1 # 2)) with true; [reflexivity|].
      symmetry. apply Qltb_lt. lra.
    - lra.
    - rewrite inject_Z_plus. change (inject_Z 1) with 1%Q. lra. }
  assert (Esub : Qeq_bool (ov - inject_Z k) 0 = false).
  { apply not_true_is_false. intros C. apply Qeq_bool_iff in C. unfold ov in C. lra. }
  set (a := shift sino (ov - inject_Z k)%Q).
  destruct (Hsh sino (ov - inject_Z k)%Q ltac:(lia)) as (A1 & A2 & A3). specialize (A3 _ _ _ S1). red in A3. fold a in A1, A2, A3.
  destruct (extend_plain shift a k 1) as (out & c & W & E & D1 & D2 & D3 & D4 & D5 & D6); try lia. auto. cbn zeta in *.
  exists out, c. split.
  - unfold extend_sinogram in E |- *. cbn [cor_to_overlap] in *. rewrite overlap_to_int_Z, sub_pixel_0 in E. rewrite Eov, Esub.
    rewrite A1, A2 in E. cbn [Z.eqb Pos.eqb] in *. exact E.
  - split; [lia|]. split; [lia|]. intros i j Hi Hj. unfold in_rng in *. cbn [Z.eqb Pos.eqb] in D5, D6.
    rewrite D5 by (unfold in_rng; lia). rewrite D6 by (unfold in_rng; lia). rewrite D3.
    replace (clipZ (j - 0) 0 (ncol a - 1)) with j by (unfold clipZ; lia).
    rewrite A3 by (unfold in_rng; lia). unfold centre, ov. rewrite D2, A2.
    unfold Z.sub. rewrite !inject_Z_plus, !inject_Z_opp, !inject_Z_mult. change (inject_Z 1) with 1%Q. change (inject_Z 2) with 2%Q. field.
Qed.
End subpixel.

Lemma line_shift_ideal : ideal_shift line_shift.
Proof.
  intros m s H. unfold line_shift. replace (ncol m =? 1) with false by lia. cbn. split; [reflexivity|]. split; [reflexivity|].
  intros al be x0 S i j Hi Hj. cbn [px nrow ncol] in *. apply two_cols_samples; assumption.
Qed.

(** ** C31 *)
Lemma mapr_inv {A B} (f : A -> res B) l r : mapr f l = Ok r -> Forall2 (fun a b => f a = Ok b) l r.
Proof.
  revert r. induction l as [|a l IH]; cbn; intros r H.
  - injection H as <-. constructor.
  - destruct (f a) eqn:E; cbn in H; [|discriminate]. destruct (mapr f l) eqn:E2; cbn in H; [|discriminate].
    injection H as <-. constructor; auto.
Qed.

Lemma py_idx_nonneg n i k : py_idx n i = Ok k -> 0 <= i -> i < n /\ k = i.
Proof.
  unfold py_idx. intros H Hi. destruct ((0 <=? i) && (i <? n)) eqn:E; [injection H as <-; lia|].
  destruct ((- n <=? i) && (i <? 0)) eqn:E2; [lia|discriminate].
Qed.
Lemma corrected_row_depth d flat dark blob i r l rr v : corrected_row d flat dark blob i r l rr = Ok v -> 0 <= i -> i < dep d.
Proof.
  unfold corrected_row, vol_row. intros H Hi. destruct (py_idx (dep d) i) eqn:E; cbn [bindr] in H; [|discriminate].
  apply py_idx_nonneg in E; tauto.
Qed.
Lemma floor_ceil q : Qfloor q <= Qceiling q <= Qfloor q + 1 /\
  (Qceiling q = Qfloor q -> (q == inject_Z (Qfloor q))%Q) /\ (inject_Z (Qfloor q) <= q <= inject_Z (Qceiling q))%Q.
Proof.
  pose proof (Qfloor_le q) as F1. pose proof (Qlt_floor q) as F2. pose proof (Qle_ceiling q) as C1. pose proof (Qceiling_lt q) as C2.
  assert (A : (inject_Z (Qfloor q) <= inject_Z (Qceiling q))%Q) by (eapply Qle_trans; eauto). rewrite <- Zle_Qle in A.
  assert (B : (inject_Z (Qceiling q - 1) < inject_Z (Qfloor q + 1))%Q) by (eapply Qlt_trans; eauto). rewrite <- Zlt_Qlt in B.
  split; [lia|]. split; [|split; assumption].
  intros E. apply Qle_antisym; [rewrite <- E|]; assumption.
Qed.
Lemma helical_row_spec d flat dark blob y_e y_pos y_step pixel fov height ct l r i row :
  helical_row d flat dark blob y_e y_pos y_step pixel fov height ct l r i = Ok row ->
  let pos := ((y_e + fov - inject_Z i * y_step - y_pos) / pixel - 1)%Q in
  exists jd ju lam lo hi, 0 <= jd /\ jd <= ju <= jd + 1 /\ ju <= height - 1 /\
    corrected_row d flat dark blob i (jd + ct) l r = Ok lo /\
    corrected_row d flat dark blob i (ju + ct) l r = Ok hi /\
    (0 <= lam <= 1)%Q /\ vlen row = vlen lo /\
    (forall k, (vat row k == lam * vat lo k + (1 - lam) * vat hi k)%Q) /\
    (0 <= pos < inject_Z height)%Q /\
    (lam * inject_Z jd + (1 - lam) * inject_Z ju == Qminb pos (inject_Z (height - 1)))%Q.
Proof.
  unfold helical_row. set (pos := ((y_e + fov - inject_Z i * y_step - y_pos) / pixel - 1)%Q).
  destruct (Qltb pos 0 || Qle_bool (inject_Z height) pos) eqn:E; [discriminate|].
  apply orb_false_iff in E. destruct E as [E1 E2].
  assert (P0 : (0 <= pos)%Q) by (apply Qltb_f in E1; exact E1).
  assert (P1 : (pos < inject_Z height)%Q).
  { apply Qnot_le_lt. intros C. apply Qle_bool_iff in C. congruence. }
  assert (Hh : 1 <= height).
  { assert (0 < inject_Z height)%Q by (eapply Qle_lt_trans; eauto). change 0%Q with (inject_Z 0) in H. rewrite <- Zlt_Qlt in H. lia. }
  assert (H0 : (0 <= inject_Z (height - 1))%Q) by (change 0%Q with (inject_Z 0); rewrite <- Zle_Qle; lia).
  set (j0 := clipQ pos 0 (inject_Z (height - 1))).
  assert (Hj0 : (0 <= j0 <= inject_Z (height - 1))%Q) by (apply clipQ_bounds; assumption).
  assert (Ej0 : (j0 == Qminb pos (inject_Z (height - 1)))%Q).
  { unfold j0, clipQ. assert (M : (Qmaxb pos 0 == pos)%Q).
    { unfold Qmaxb. destruct (Qle_bool pos 0) eqn:E; [|reflexivity]. apply Qle_bool_iff in E. apply Qle_antisym; assumption. }
    unfold Qminb. destruct (Qle_bool (Qmaxb pos 0) _) eqn:Ea; destruct (Qle_bool pos _) eqn:Eb; try reflexivity; try exact M.
    - apply Qle_bool_iff in Ea. rewrite M in Ea. apply Qle_bool_iff in Ea. congruence.
    - apply Qle_bool_iff in Eb. rewrite <- M in Eb. apply Qle_bool_iff in Eb. congruence. }
  destruct (floor_ceil j0) as (FC1 & FC2 & FC3).
  assert (Fl : 0 <= Qfloor j0).
  { change 0 with (Qfloor (inject_Z 0)). apply Qfloor_resp_le. apply Hj0. }
  assert (Ce : Qceiling j0 <= height - 1).
  { rewrite <- (Qceiling_Z (height - 1)). apply Qceiling_resp_le. apply Hj0. }
  destruct (corrected_row d flat dark blob i (Qfloor j0 + ct) l r) as [lo|e] eqn:Elo; cbn [bindr]; [|discriminate].
  destruct (Qceiling j0 =? Qfloor j0) eqn:Eq; cbn [negb].
  - intros H. injection H as <-. cbn zeta. exists (Qfloor j0), (Qceiling j0), 1%Q, lo, lo.
    apply Z.eqb_eq in Eq. split; [exact Fl|]. split; [lia|]. split; [exact Ce|]. split; [exact Elo|]. split; [rewrite Eq; exact Elo|].
    split; [lra|]. split; [reflexivity|]. split; [intros k; ring|]. split; [split; assumption|].
    rewrite <- Ej0. rewrite (FC2 Eq) at 3. ring.
  - destruct (corrected_row d flat dark blob i (Qceiling j0 + ct) l r) as [hi|e] eqn:Ehi; cbn [bindr]; [|discriminate].
    intros H. injection H as <-. cbn zeta.
    assert (D : Qceiling j0 - Qfloor j0 = 1) by lia. assert (D2 : Qceiling j0 = Qfloor j0 + 1) by lia.
    exists (Qfloor j0), (Qceiling j0), (inject_Z (Qceiling j0) - j0)%Q, lo, hi.
    split; [exact Fl|]. split; [lia|]. split; [exact Ce|]. split; [exact Elo|]. split; [exact Ehi|].
    assert (IZ : (inject_Z (Qceiling j0) == inject_Z (Qfloor j0) + 1)%Q) by (rewrite D2, inject_Z_plus; reflexivity).
    split; [split; lra|]. split; [reflexivity|]. split.
    + intros k. cbn [vat]. rewrite D. change (inject_Z 1) with 1%Q. rewrite IZ. field.
    + split; [split; assumption|]. rewrite <- Ej0. rewrite IZ. ring.
Qed.

Lemma helical_spec full index d num_proj pixel y_start y_stop pitch t180 angles flat dark blob ct cb cl cr rows angs :
  helical full index d num_proj pixel y_start y_stop pitch t180 angles flat dark blob (ct, cb, cl, cr) = Ok (rows, angs) ->
  exists i0, 0 <= i0 /\ (rows <> [] -> i0 + Z.of_nat (length rows) <= dep d) /\
    (vlen angles = dep d -> vlen angs = Z.of_nat (length rows) /\
      forall t, 0 <= t < vlen angs -> vat angs t = vat angles (i0 + t)) /\
    (full = false -> Z.of_nat (length rows) = if t180 then num_proj else 2 * num_proj - 1) /\
    forall t row, nth_error rows t = Some row ->
      exists rd ru lam lo hi, ct <= rd /\ rd <= ru <= rd + 1 /\ ru < hei d - cb /\
        corrected_row d flat dark blob (i0 + Z.of_nat t) rd cl (wid d - cr) = Ok lo /\
        corrected_row d flat dark blob (i0 + Z.of_nat t) ru cl (wid d - cr) = Ok hi /\
        (0 <= lam <= 1)%Q /\ vlen row = vlen lo /\
        forall k, (vat row k == lam * vat lo k + (1 - lam) * vat hi k)%Q.
Proof.
  unfold helical. destruct (calculate_reconstructable_height y_start y_stop pitch t180) as [y_s y_e].
  destruct (negb full && _); [discriminate|]. destruct (num_proj =? 1); [discriminate|].
  set (height := hei d - cb - ct). set (y_step := (pitch / (2 * inject_Z (num_proj - 1)))%Q).
  destruct (Qeq_bool y_step 0); [discriminate|].
  set (num := if full then _ else _). set (i0 := Qceiling _).
  destruct ((i0 <? 0) || (dep d <=? i0)) eqn:Ei; [discriminate|].
  destruct (full && (dep d <=? i0 + num)) eqn:Ef; [discriminate|].
  destruct ((num <? 0) || _) eqn:En; [discriminate|].
  match goal with |- bindr (mapr ?f ?l) _ = _ -> _ => destruct (mapr f l) as [rs|e] eqn:Em; cbn [bindr]; [|discriminate] end.
  intros H. injection H as <- <-. apply mapr_inv in Em.
  assert (Len : Z.of_nat (length rs) = num).
  { rewrite <- (Forall2_length Em). rewrite zrange_length. lia. }
  assert (Row : forall t row, nth_error rs t = Some row ->
     exists rd ru lam lo hi, ct <= rd /\ rd <= ru <= rd + 1 /\ ru < hei d - cb /\
        corrected_row d flat dark blob (i0 + Z.of_nat t) rd cl (wid d - cr) = Ok lo /\
        corrected_row d flat dark blob (i0 + Z.of_nat t) ru cl (wid d - cr) = Ok hi /\
        (0 <= lam <= 1)%Q /\ vlen row = vlen lo /\
        forall k, (vat row k == lam * vat lo k + (1 - lam) * vat hi k)%Q).
  { intros t row Ht.
    assert (Hx : exists x, nth_error (zrange i0 num) t = Some x).
    { destruct (nth_error (zrange i0 num) t) eqn:E; [eauto|]. apply nth_error_None in E.
      rewrite (Forall2_length Em) in E. apply nth_error_None in E. congruence. }
    destruct Hx as [x Hx].
    assert (Fx : helical_row d flat dark blob y_e (inject_Z (index - 1) * pixel + y_s)%Q y_step pixel (pixel * inject_Z height)%Q height ct cl (wid d - cr) x = Ok row).
    { clear - Em Ht Hx. revert t Ht Hx. induction Em as [|a b la lb Hab Em IH]; intros [|t]; cbn; intros; try discriminate; [congruence|eauto]. }
    assert (Ex : x = i0 + Z.of_nat t).
    { unfold zrange in Hx. rewrite nth_error_map in Hx. destruct (nth_error (seq 0 (Z.to_nat num)) t) eqn:E; cbn in Hx; [|discriminate].
      injection Hx as <-. apply nth_error_nth with (d := O) in E. rewrite seq_nth in E; [lia|].
      assert (L : nth_error rs t <> None) by congruence. apply nth_error_Some in L. lia. }
    subst x. apply helical_row_spec in Fx. cbn zeta in Fx.
    destruct Fx as (jd & ju & lam & lo & hi & F1 & F2 & F3 & F4 & F5 & F6 & F7 & F8 & _).
    exists (jd + ct), (ju + ct), lam, lo, hi. unfold height in F3. repeat (split; [first [assumption | lia]|]). assumption. }
  exists i0. split; [lia|].
  assert (Dp : rs <> [] -> i0 + Z.of_nat (length rs) <= dep d).
  { intros Hne. destruct (nth_error rs (length rs - 1)) as [row|] eqn:E.
    - destruct (Row _ _ E) as (rd & ru & lam & lo & hi & _ & _ & _ & C & _). apply corrected_row_depth in C; [|lia].
      destruct rs; [congruence|]. cbn [length] in *. lia.
    - apply nth_error_None in E. destruct rs; [congruence|]. cbn [length] in E. lia. }
  split; [exact Dp|]. split; [|split; [|exact Row] ].
  - intros Ha. unfold vslice. cbn [vlen vat].
    assert (B : i0 + num <= dep d).
    { destruct rs as [|r0 rs']; [cbn in Len; lia|]. rewrite <- Len. apply Dp. discriminate. }
    rewrite Ha. rewrite slen_id by lia. split; [lia|]. intros t Ht. rewrite py_adj_id by lia. reflexivity.
  - intros Hf. rewrite Len. unfold num. rewrite Hf. destruct t180; [reflexivity|]. clear. lia.
Qed.

(** integer overlaps and gaps keep the scene aligned *)
Lemma is_stitch_samples m1 m2 k out al be : 1 <= k -> k <= ncol m1 -> k <= ncol m2 -> nrow m1 = nrow m2 ->
  is_stitch m1 m2 k out -> samples al be 0 m1 -> samples al be (inject_Z (ncol m1 - k)) m2 -> samples al be 0 out.
Proof.
  intros H1 H2 H3 Hr (D1 & D2 & D3) S1 S2 i j Hi Hj. red in S1, S2. unfold in_rng in *.
  destruct (D3 i j) as (P1 & P2 & P3); try (unfold in_rng; lia).
  assert (X : (inject_Z (ncol m1 - k) + inject_Z (j - (ncol m1 - k)) == 0 + inject_Z j)%Q).
  { rewrite <- inject_Z_plus. replace (ncol m1 - k + (j - (ncol m1 - k))) with j by lia. ring. }
  destruct (Z_lt_ge_dec j (ncol m1 - k)) as [L|L].
  - rewrite P1 by lia. apply S1; lia.
  - destruct (Z_lt_ge_dec j (ncol m1)) as [L2|L2].
    + destruct P3 as (w & _ & _ & E); [lia|]. rewrite E. rewrite S1, S2 by lia. rewrite X. ring.
    + rewrite P2 by lia. rewrite S2 by lia. rewrite X. reflexivity.
Qed.
Lemma is_join_samples m1 m2 g out al be : 0 <= g -> 3 <= ncol m1 -> 4 <= ncol m2 -> nrow m1 = nrow m2 ->
  is_join m1 m2 g out -> samples al be 0 m1 -> samples al be (inject_Z (ncol m1 + g)) m2 -> samples al be 0 out.
Proof.
  intros H1 H2 H3 Hr (D1 & D2 & D3) S1 S2 i j Hi Hj. red in S1, S2. unfold in_rng in *.
  destruct (D3 i j) as (P1 & P2 & P3); try (unfold in_rng; lia).
  destruct (Z_lt_ge_dec j (ncol m1 - 2)) as [L|L].
  - rewrite P1 by lia. apply S1; lia.
  - destruct (Z_lt_ge_dec j (ncol m1 + g + 3)) as [L2|L2].
    + cbn zeta in P3. specialize (P3 ltac:(lia)).
      rewrite (S1 i (ncol m1 - 3)) in P3 by lia. rewrite (S2 i 3) in P3 by lia.
      assert (N : ~ (inject_Z (ncol m1 + g + 3 - (ncol m1 - 3)) == 0)%Q) by (apply inject_Z_neq0; lia).
      apply (Qmult_inj_r _ _ _ N).
      assert (Y : (px out i j * inject_Z (ncol m1 + g + 3 - (ncol m1 - 3)) ==
         (al i + be i * (0 + inject_Z (ncol m1 - 3))) * inject_Z (ncol m1 + g + 3 - (ncol m1 - 3)) +
         (al i + be i * (inject_Z (ncol m1 + g) + inject_Z 3) - (al i + be i * (0 + inject_Z (ncol m1 - 3)))) * inject_Z (j - (ncol m1 - 3)))%Q).
      { rewrite <- P3. ring. }
      rewrite Y. unfold Z.sub. repeat (rewrite inject_Z_plus || rewrite inject_Z_opp). ring.
    + rewrite P2 by lia. rewrite S2 by lia. rewrite <- inject_Z_plus.
      replace (ncol m1 + g + (j - (ncol m1 + g))) with j by lia. ring.
Qed.
Lemma stitch_aligned shift m1 m2 k al be : 1 <= k -> k <= ncol m1 -> k <= ncol m2 -> nrow m1 = nrow m2 ->
  samples al be 0 m1 -> samples al be (inject_Z (ncol m1 - k)) m2 ->
  exists out, stitch_image shift m1 m2 (inject_Z k) 1 PNone PNone false None = Ok out /\ samples al be 0 out.
Proof.
  intros H1 H2 H3 H4 H5 H6. destruct (stitch_plain shift m1 m2 k 1 H1 H2 H3 H4 (or_intror eq_refl)) as (out & E & S). exists out. split; [exact E|].
  cbn [Z.eqb Pos.eqb] in S. exact (is_stitch_samples m1 m2 k out al be H1 H2 H3 H4 S H5 H6).
Qed.
Lemma join_aligned shift m1 m2 g al be : 0 <= g -> 4 <= ncol m1 -> 4 <= ncol m2 -> nrow m1 = nrow m2 -> 2 <= nrow m1 ->
  samples al be 0 m1 -> samples al be (inject_Z (ncol m1 + g)) m2 ->
  exists out, join_image shift m1 m2 (inject_Z g) 1 false None = Ok out /\ samples al be 0 out.
Proof.
  intros H1 H2 H3 H4 H5 H6 H7. destruct (join_plain shift m1 m2 g 1 H4 H5 H2 H3 H1 (or_intror eq_refl)) as (out & E & S). exists out. split; [exact E|].
  cbn [Z.eqb Pos.eqb] in S. exact (is_join_samples m1 m2 g out al be H1 ltac:(lia) H3 H4 S H6 H7).
Qed.
