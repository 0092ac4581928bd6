From Verif Require Import Np P_Np M_utility M_conversion M_correction P_utility P_conversion P_conversion3 P_correction M_calculation S_calculation P_calculation.
From Coq Require Import QArith Qround Qabs Permutation Lqa.
From Coq Require Import List. Import ListNotations.
Open Scope Z_scope.

Lemma fine_cands_length nc start radius step :
  Z.of_nat (length (fine_cands nc start radius step)) = Z.max 0 (Qceiling ((radius + step - - radius) / step)).
Proof. unfold fine_cands. rewrite map_length, zrange_length. lia. Qed.

Section S.
Context (twopi : Q) (blur_3_1 blur_2_2 : img Q -> img Q) (cubic : img Q -> Q -> img Q)
        (fmetric : img Q -> img Q -> Q).
Notation metric := (metric_of twopi cubic fmetric).
Lemma vo_nodsp sino start stop step radius ratio hor ver order1 order2 :
  let lo := Qtrunc (clipQ start 0 (inject_Z (ncol (blur_3_1 sino) - 1))) in
  let hi := Qtrunc (clipQ stop 0 (inject_Z (ncol (blur_3_1 sino) - 1))) in
  1 <= ncol sino -> ncol (blur_3_1 sino) = ncol sino -> ncol (blur_2_2 sino) = ncol sino -> lo <= hi ->
  (0 <= radius)%Q -> (0 < step)%Q -> Permutation (zrange 0 (hi - lo + 1)) order1 ->
  Permutation (zrange 0 (Z.max 0 (Qceiling ((radius + step - - radius) / step)))) order2 ->
  exists raw c, find_center_vo twopi blur_3_1 blur_2_2 cubic fmetric sino (Some start) (Some stop) step radius ratio false hor ver order1 order2 = Ok c /\
    lo <= raw <= hi /\
    (forall z, lo <= z <= hi -> (metric (blur_3_1 sino) ratio hor ver (inject_Z raw) <= metric (blur_3_1 sino) ratio hor ver (inject_Z z))%Q) /\
    best (metric (blur_2_2 sino) ratio hor ver) (fine_cands (ncol sino) (inject_Z raw) radius step) c /\
    (0 <= c <= inject_Z (ncol sino) - 1)%Q.
Proof.
  intros lo hi Hn B1 B2 Hlh Hr Hs P1 P2.
  destruct (coarse_best twopi blur_3_1 cubic fmetric sino start stop ratio true hor ver order1 ltac:(cbv zeta; lia) Hlh P1)
    as (raw & E & _ & Hraw & _ & M).
  destruct (fine_best twopi blur_2_2 cubic fmetric sino (inject_Z raw) radius step ratio true hor ver order2 Hr Hs) as (c & F & Bst).
  { cbv zeta. rewrite fine_cands_length. exact P2. }
  exists raw, c. unfold find_center_vo. cbv zeta. rewrite E. cbn [bindr]. split; [exact F|]. split; [exact Hraw|].
  split; [exact M|]. rewrite B2 in Bst. split; [exact Bst|]. destruct Bst as (I & _).
  apply (fine_cands_where (ncol sino) _ _ _ c Hn Hr Hs I).
Qed.
Lemma vo_dsp sino start stop step radius ratio hor ver order1 order2 :
  let d := if 1000 <? ncol sino then Qfloor (inject_Z (ncol sino) / 640) else 1 in
  let dr := if 1000 <? nrow sino then Qfloor (inject_Z (nrow sino) / 900) else 1 in
  let sd := downsample_cor (blur_3_1 sino) dr d in
  let lo := Qtrunc (clipQ (inject_Z (Qfloor (start / inject_Z d))) 0 (inject_Z (ncol sd - 1))) in
  let hi := Qtrunc (clipQ (inject_Z (Qceiling (stop / inject_Z d))) 0 (inject_Z (ncol sd - 1))) in
  let rad := Qmaxb radius (inject_Z d) in
  2 <= ncol sino -> ncol (blur_3_1 sino) = ncol sino -> ncol (blur_2_2 sino) = ncol sino -> lo <= hi ->
  (0 <= radius)%Q -> (0 < step)%Q -> Permutation (zrange 0 (hi - lo + 1)) order1 ->
  Permutation (zrange 0 (Z.max 0 (Qceiling ((rad + step - - rad) / step)))) order2 ->
  exists raw c, find_center_vo twopi blur_3_1 blur_2_2 cubic fmetric sino (Some start) (Some stop) step radius ratio true hor ver order1 order2 = Ok c /\
    lo <= raw <= hi /\
    (forall z, lo <= z <= hi -> (metric sd ratio hor ver (inject_Z raw) <= metric sd ratio hor ver (inject_Z z))%Q) /\
    best (metric (blur_2_2 sino) ratio hor ver) (fine_cands (ncol sino) (inject_Z (raw * d) + (1#2) * inject_Z d) rad step) c /\
    (0 <= c <= inject_Z (ncol sino) - 1)%Q /\
    (forall x, (inject_Z (raw * d) <= x <= inject_Z (raw * d + d - 1))%Q ->
       exists c', In c' (fine_cands (ncol sino) (inject_Z (raw * d) + (1#2) * inject_Z d) rad step) /\ (c' <= x < c' + step)%Q).
Proof.
  intros d dr sd lo hi rad Hn B1 B2 Hlh Hr Hs P1 P2.
  assert (Hd : 1 <= d /\ d <= ncol sino / 2).
  { unfold d. destruct (Z.ltb_spec 1000 (ncol sino)) as [L|L].
    - assert (Ef : Qfloor (inject_Z (ncol sino) / 640) = ncol sino / 640) by (unfold Qfloor, Qdiv, inject_Z; cbn; now rewrite Z.mul_1_r).
      rewrite Ef. split; [apply Z.div_le_lower_bound; lia|]. apply Z.div_le_compat_l; lia.
    - split; [lia|]. apply Z.div_le_lower_bound; lia. }
  assert (Hc : ncol sd = ncol sino / d).
  { unfold sd, downsample_cor. cbn [ncol]. rewrite B1. unfold clipZ. f_equal. lia. }
  assert (Hsd : 1 <= ncol sd).
  { rewrite Hc. apply Z.div_le_lower_bound; [lia|]. pose proof (Z.mul_div_le (ncol sino) 2 ltac:(lia)). lia. }
  assert (Hd1 : (1 <= inject_Z d)%Q) by (change 1%Q with (inject_Z 1); rewrite <- Zle_Qle; lia).
  destruct (Qmaxb_spec radius (inject_Z d)) as (R1 & R2 & R3). fold rad in R1, R2, R3.
  destruct (coarse_best twopi blur_3_1 cubic fmetric sd (inject_Z (Qfloor (start / inject_Z d))) (inject_Z (Qceiling (stop / inject_Z d))) ratio false hor ver order1 Hsd Hlh P1)
    as (raw & E & Hlo & Hraw & Hhi & M).
  destruct (fine_best twopi blur_2_2 cubic fmetric sino (inject_Z (raw * d) + (1#2) * inject_Z d) rad step ratio true hor ver order2 ltac:(lra) Hs) as (c & F & Bst).
  { cbv zeta. rewrite fine_cands_length. exact P2. }
  exists raw, c. unfold find_center_vo. cbv zeta. fold d dr. fold sd. fold rad. rewrite E. cbn [bindr]. split; [exact F|].
  split; [exact Hraw|]. split; [exact M|]. rewrite B2 in Bst. split; [exact Bst|]. destruct Bst as (I & _).
  split; [apply (fine_cands_where (ncol sino) _ rad _ c ltac:(lia) ltac:(lra) Hs I)|].
  assert (Hin : raw * d + d - 1 <= ncol sino - 1).
  { pose proof (Z.mul_div_le (ncol sino) d ltac:(lia)). nia. }
  intros x [X1 X2]. assert (E2 : (inject_Z (raw * d + d - 1) == inject_Z (raw * d) + inject_Z d - 1)%Q).
  { unfold Z.sub. rewrite !inject_Z_plus. reflexivity. }
  destruct (fine_cands_cover (ncol sino) (inject_Z (raw * d) + (1#2) * inject_Z d) rad step x) as (c' & I' & L1 & L2); try lra.
  - lia.
  - assert (0 <= inject_Z (raw * d))%Q by (change 0%Q with (inject_Z 0); rewrite <- Zle_Qle; nia).
    rewrite Zle_Qle in Hin. unfold Z.sub in Hin at 2. rewrite inject_Z_plus in Hin. change (inject_Z (-(1))) with (-1)%Q in Hin. lra.
  - exists c'. split; [exact I'|]. lra.
Qed.

End S.
(** ** the stacked image *)
Lemma Qtrunc_int q z : (q == inject_Z z)%Q -> Qtrunc q = z.
Proof.
  intros H. unfold Qtrunc. destruct (Qle_bool 0 q); [rewrite (Qfloor_comp _ _ H); apply Qfloor_Z|rewrite (Qceiling_comp _ _ H); apply Qceiling_Z].
Qed.
Lemma center_stack_mirror cubic sino c2 : 1 <= nrow sino -> 1 <= ncol sino -> 0 <= c2 <= 2 * (ncol sino - 1) ->
  forall center, (center == inject_Z c2 / 2)%Q ->
  is_mirror_stack sino c2 (center_stack cubic center sino (ifliplr sino) (iflipud sino)).
Proof.
  intros Hr Hn Hc center Hce. unfold center_stack.
  set (sh := (2 * (center - (inject_Z (ncol sino) - 1) / 2))%Q).
  assert (Es : (sh == inject_Z (c2 - (ncol sino - 1)))%Q).
  { unfold sh. rewrite Hce. unfold Z.sub. rewrite !inject_Z_plus, !inject_Z_opp, inject_Z_plus. change (inject_Z (-(1))) with (-1)%Q. field. }
  rewrite (Qtrunc_int _ _ Es).
  replace (Qeq_bool (Qabs (sh - inject_Z (Qfloor sh))) 0) with true.
  2:{ symmetry. apply Qeq_bool_iff. rewrite (Qfloor_comp _ _ Es), Qfloor_Z. rewrite Es.
      rewrite (Qabs_wd _ 0) by ring. reflexivity. }
  set (s := c2 - (ncol sino - 1)).
  split; [destruct (0 <=? s); cbn [vstack nrow set_left set_right roll_cols ifliplr iflipud]; lia|]. split; [destruct (0 <=? s); reflexivity|].
  intros i j Hi Hj. unfold in_rng in *.
  assert (V : forall b, px (vstack sino b) i j = px sino i j).
  { intros b. unfold vstack. cbn [px]. replace (i <? nrow sino) with true by lia. reflexivity. }
  assert (W : forall b, px (vstack sino b) (nrow sino + i) j = px b i j).
  { intros b. unfold vstack. cbn [px]. replace (nrow sino + i <? nrow sino) with false by lia. f_equal. lia. }
  split; [apply V|]. rewrite W.
  destruct (Z.leb_spec 0 s).
  - unfold set_left, roll_cols, ifliplr, iflipud. cbn [px ncol]. rewrite py_adj_id by lia. split; intros C.
    + replace (j <? s) with false by lia. rewrite Z.mod_small by lia. f_equal. lia.
    + replace (j <? s) with true by lia. reflexivity.
  - unfold set_right, roll_cols, ifliplr, iflipud. cbn [px ncol]. rewrite py_adj_neg' by lia. split; intros C.
    + replace (ncol sino + s <=? j) with false by lia. rewrite Z.mod_small by lia. f_equal. lia.
    + replace (ncol sino + s <=? j) with true by lia. reflexivity.
Qed.

(** ** the wedge mask *)
Lemma wedge_spec twopi height width radius hor ver i j : 3 <= height -> 3 <= width -> in_rng height i -> in_rng width j ->
  let m := make_inverse_double_wedge_mask twopi height width radius hor ver in
  let n := wedge_num twopi height width radius i in
  let dr := drop_rows height hor in let dc := drop_cols width ver in
  nrow m = height /\ ncol m = width /\ 0 <= dr <= height / 2 /\ 1 <= dc <= width / 2 /\
  (px m i j = 1%Q \/ px m i j = 0%Q) /\
  (px m i j = 1%Q <-> dr < Z.abs (i - height / 2) /\ dc < Z.abs (j - width / 2) /\ Z.abs (j - width / 2) <= Z.abs n).
Proof.
  intros Hh Hw Hi Hj m n dr dc. unfold in_rng in *.
  assert (Y1 : height / 3 <= height / 2) by (apply Z.div_le_compat_l; lia).
  assert (X1 : width / 3 <= width / 2) by (apply Z.div_le_compat_l; lia).
  assert (Y2 : 1 <= height / 3) by (apply Z.div_le_lower_bound; lia).
  assert (X2 : 1 <= width / 3) by (apply Z.div_le_lower_bound; lia).
  pose proof (Z.mul_div_le height 2 ltac:(lia)). pose proof (Z.mul_succ_div_gt height 2 ltac:(lia)).
  pose proof (Z.mul_div_le width 2 ltac:(lia)). pose proof (Z.mul_succ_div_gt width 2 ltac:(lia)).
  assert (Dr : 0 <= dr <= height / 2).
  { unfold dr, drop_rows. destruct hor as [q|]; [unfold clipZ; lia|].
    assert (T : 0 <= Qtrunc ((1#20) * inject_Z height) <= height / 2).
    { assert (0 <= (1#20) * inject_Z height)%Q. { apply Qmult_le_0_compat; [discriminate|]. change 0%Q with (inject_Z 0). rewrite <- Zle_Qle. lia. }
      unfold Qtrunc. replace (Qle_bool 0 _) with true by (symmetry; apply Qle_bool_iff; assumption).
      split; [rewrite <- (Qfloor_Z 0); apply Qfloor_resp_le; assumption|].
      unfold Qfloor, Qmult, inject_Z. cbn [Qnum Qden]. rewrite Z.mul_1_l. apply Z.div_le_compat_l; lia. }
    lia. }
  assert (Dc : 1 <= dc <= width / 2). { unfold dc, drop_cols. destruct ver as [q|]; [unfold clipZ; lia|lia]. }
  split; [reflexivity|]. split; [reflexivity|]. split; [exact Dr|]. split; [exact Dc|].
  unfold m, make_inverse_double_wedge_mask. cbn [px]. fold dr dc n.
  rewrite (py_adj_id width (width / 2 - dc)) by lia. rewrite (py_adj_id height (height / 2 - dr)) by lia.
  assert (A1 : (j <? py_adj width (width / 2 + dc + 1)) = (j <=? width / 2 + dc)) by (unfold py_adj; destruct (Z.ltb_spec (width / 2 + dc + 1) 0); lia).
  assert (A2 : (i <? py_adj height (height / 2 + dr + 1)) = (i <=? height / 2 + dr)) by (unfold py_adj; destruct (Z.ltb_spec (height / 2 + dr + 1) 0); lia).
  rewrite A1, A2. unfold clipZ.
  assert (N0 : 0%Q <> 1%Q) by discriminate.
  destruct ((width / 2 - dc <=? j) && (j <=? width / 2 + dc)) eqn:E1; [split; [auto|split; [congruence|lia]]|].
  destruct ((height / 2 - dr <=? i) && (i <=? height / 2 + dr)) eqn:E2; [split; [auto|split; [congruence|lia]]|].
  destruct ((Z.min (Z.max (Z.min (- n + width / 2) (n + width / 2)) 0) (width - 1) <=? j) &&
            (j <=? Z.min (Z.max (Z.max (- n + width / 2) (n + width / 2)) 0) (width - 1))) eqn:E3.
  - split; [auto|]. split; [intros _|reflexivity]. lia.
  - split; [auto|]. split; [congruence|lia].
Qed.

Lemma Qceiling_uniq q n : (inject_Z (n - 1) < q <= inject_Z n)%Q -> Qceiling q = n.
Proof.
  intros [H1 H2]. pose proof (Qle_ceiling q) as C1. pose proof (Qceiling_lt q) as C2.
  assert (A : (inject_Z (n - 1) < inject_Z (Qceiling q))%Q) by (eapply Qlt_le_trans; eauto). rewrite <- Zlt_Qlt in A.
  assert (B : (inject_Z (Qceiling q - 1) < inject_Z n)%Q) by (eapply Qlt_le_trans; eauto). rewrite <- Zlt_Qlt in B. lia.
Qed.
Lemma wedge_explicit twopi height width radius hor ver i j n dr dc : 3 <= height -> 3 <= width -> in_rng height i -> in_rng width j ->
  (0 < twopi)%Q -> (0 < radius)%Q ->
  (let half := (inject_Z (i - height / 2) * inject_Z (width * (height - 1)) / (inject_Z height * twopi * radius))%Q in
   (inject_Z (n - 1) < half <= inject_Z n)%Q) ->
  match hor with None => dr = Z.min 20 (height / 20) | Some d => exists k, (d == inject_Z k)%Q /\ dr = Z.max 1 (Z.min k (height / 3)) end ->
  match ver with None => dc = 1 | Some d => exists k, (d == inject_Z k)%Q /\ dc = Z.max 1 (Z.min k (width / 3)) end ->
  let m := make_inverse_double_wedge_mask twopi height width radius hor ver in
  nrow m = height /\ ncol m = width /\
  px m i j = (if (dr <? Z.abs (i - height / 2)) && (dc <? Z.abs (j - width / 2)) && (Z.abs (j - width / 2) <=? Z.abs n) then 1%Q else 0%Q).
Proof.
  intros Hh Hw Hi Hj Ht Hr Hn Hdr Hdc m.
  assert (Tr : forall q k, (q == inject_Z k)%Q -> Qtrunc q = k).
  { intros q k E. unfold Qtrunc. destruct (Qle_bool 0 q); [rewrite (Qfloor_comp _ _ E); apply Qfloor_Z|rewrite (Qceiling_comp _ _ E); apply Qceiling_Z]. }
  assert (H3h : 1 <= height / 3) by (apply Z.div_le_lower_bound; lia). assert (H3w : 1 <= width / 3) by (apply Z.div_le_lower_bound; lia).
  assert (Edr : drop_rows height hor = dr).
  { unfold drop_rows. destruct hor as [d|].
    - destruct Hdr as (k & E & ->). rewrite (Tr _ _ E). unfold clipZ. lia.
    - subst dr. f_equal. unfold Qtrunc.
      assert (0 <= (1#20) * inject_Z height)%Q. { apply Qmult_le_0_compat; [discriminate|]. change 0%Q with (inject_Z 0). rewrite <- Zle_Qle. lia. }
      replace (Qle_bool 0 _) with true by (symmetry; apply Qle_bool_iff; assumption).
      unfold Qfloor, Qmult, inject_Z. cbn [Qnum Qden]. rewrite Z.mul_1_l. reflexivity. }
  assert (Edc : drop_cols width ver = dc).
  { unfold drop_cols. destruct ver as [d|]; [|symmetry; exact Hdc]. destruct Hdc as (k & E & ->). rewrite (Tr _ _ E). unfold clipZ. lia. }
  assert (En : wedge_num twopi height width radius i = n).
  { unfold wedge_num. apply Qceiling_uniq. cbn zeta in Hn. set (half := (_ / _)%Q) in Hn.
    assert (E : (inject_Z (i - height / 2) * ((inject_Z height - 1) / (inject_Z height * twopi)) / radius / (1 / inject_Z width) == half)%Q).
    { unfold half. rewrite inject_Z_mult. replace (height - 1) with (height + -1) by lia. rewrite (inject_Z_plus height). change (inject_Z (-1)) with (-1)%Q.
      field. assert (A : ~ (inject_Z height == 0)%Q) by (change 0%Q with (inject_Z 0); rewrite inject_Z_injective; lia).
      assert (B : ~ (inject_Z width == 0)%Q) by (change 0%Q with (inject_Z 0); rewrite inject_Z_injective; lia).
      repeat split; try assumption; intros C; rewrite C in *; discriminate. }
    rewrite E. exact Hn. }
  destruct (wedge_spec twopi height width radius hor ver i j Hh Hw Hi Hj) as (W1 & W2 & _ & _ & W5 & W6). fold m in W1, W2, W5, W6.
  rewrite Edr, Edc, En in W6. split; [exact W1|]. split; [exact W2|].
  destruct ((dr <? Z.abs (i - height / 2)) && (dc <? Z.abs (j - width / 2)) && (Z.abs (j - width / 2) <=? Z.abs n)) eqn:E.
  - apply W6. lia.
  - destruct W5 as [W5|W5]; [|exact W5]. apply W6 in W5. lia.
Qed.

(** ** downsampling *)
Lemma downsample_spec image f0 f1 : 2 <= nrow image -> 2 <= ncol image -> 1 <= f0 <= nrow image / 2 -> 1 <= f1 <= ncol image / 2 ->
  let d := downsample_cor image f0 f1 in
  nrow d = nrow image / f0 /\ ncol d = ncol image / f1 /\ 2 <= nrow d /\ 2 <= ncol d /\
  (forall i j, in_rng (nrow d) i -> in_rng (ncol d) j ->
     (forall a b, 0 <= a < f0 -> 0 <= b < f1 -> in_rng (nrow image) (i * f0 + a) /\ in_rng (ncol image) (j * f1 + b)) /\
     (px d i j * inject_Z (f0 * f1) == qsum f0 (fun a => qsum f1 (fun b => px image (i * f0 + a) (j * f1 + b))))%Q).
Proof.
  intros Hr Hc H0 H1 d. unfold d, downsample_cor. cbn [nrow ncol px].
  replace (clipZ f0 1 (nrow image / 2)) with f0 by (unfold clipZ; lia).
  replace (clipZ f1 1 (ncol image / 2)) with f1 by (unfold clipZ; lia).
  pose proof (Z.mul_div_le (nrow image) 2 ltac:(lia)). pose proof (Z.mul_div_le (ncol image) 2 ltac:(lia)).
  split; [reflexivity|]. split; [reflexivity|]. split; [apply Z.div_le_lower_bound; lia|]. split; [apply Z.div_le_lower_bound; lia|].
  intros i j Hi Hj. unfold in_rng in *. split.
  - intros a b Ha Hb. pose proof (Z.mul_div_le (nrow image) f0 ltac:(lia)). pose proof (Z.mul_div_le (ncol image) f1 ltac:(lia)). split; nia.
  - unfold qmean. rewrite inject_Z_mult.
    assert (N0 : ~ (inject_Z f0 == 0)%Q) by (apply inject_Z_neq0; lia).
    assert (N1 : ~ (inject_Z f1 == 0)%Q) by (apply inject_Z_neq0; lia).
    setoid_replace (qsum f0 (fun i0 => (qsum f1 (fun j0 => px image (i * f0 + i0) (j * f1 + j0)) / inject_Z f1)%Q))
      with ((1 / inject_Z f1) * qsum f0 (fun i0 => qsum f1 (fun j0 => px image (i * f0 + i0) (j * f1 + j0))))%Q.
    { field. auto. }
    rewrite <- qsum_scal. apply qsum_ext. intros a Ha. field. auto.
Qed.

(** ** parabola fits *)
Lemma polyfit5_least_squares y0 y1 y2 y3 y4 : exists b c, forall a' b' c',
  (sse5 (polyfit5_a [y0; y1; y2; y3; y4]) b c y0 y1 y2 y3 y4 <= sse5 a' b' c' y0 y1 y2 y3 y4)%Q.
Proof.
  set (a := polyfit5_a [y0; y1; y2; y3; y4]).
  set (b1 := ((-2 * y0 - y1 + y3 + 2 * y4) / 10)%Q). set (c1 := ((y0 + y1 + y2 + y3 + y4) / 5 - 2 * a)%Q).
  exists (b1 - 4 * a)%Q, (c1 + 4 * a - 2 * b1)%Q. intros a' b' c'.
  set (da := (a' - a)%Q). set (db := (b' - (b1 - 4 * a))%Q). set (dc := (c' - (c1 + 4 * a - 2 * b1))%Q).
  set (r x := quadratic da db dc x).
  assert (E : (sse5 a' b' c' y0 y1 y2 y3 y4 == sse5 a (b1 - 4 * a) (c1 + 4 * a - 2 * b1) y0 y1 y2 y3 y4
     + (r 0 * r 0 + r 1 * r 1 + r 2 * r 2 + r 3 * r 3 + r 4 * r 4))%Q).
  { unfold sse5, r, quadratic, da, db, dc, c1, b1, a, polyfit5_a. field. }
  rewrite E. assert (S : forall x, (0 <= x * x)%Q) by (intros; nra).
  pose proof (S (r 0%Q)). pose proof (S (r 1%Q)). pose proof (S (r 2%Q)). pose proof (S (r 3%Q)). pose proof (S (r 4%Q)). lra.
Qed.
Lemma polyfit3_interpolates x y0 y1 y2 : exists c, let '(a, b) := polyfit3 x [y0; y1; y2] in
  (quadratic a b c (x - 1) == y0 /\ quadratic a b c x == y1 /\ quadratic a b c (x + 1) == y2)%Q.
Proof.
  cbn. exists (y1 - (y0 - 2 * y1 + y2) / 2 * x * x - ((y2 - y0) / 2 - 2 * ((y0 - 2 * y1 + y2) / 2) * x) * x)%Q.
  unfold quadratic. repeat split; field.
Qed.
(** vertex of the parabola through a (weak) minimum or maximum: at most half a pixel away *)
Lemma vertex_half (x y0 y1 y2 : Q) : (y1 <= y0 /\ y1 <= y2)%Q \/ (y0 <= y1 /\ y2 <= y1)%Q ->
  let '(a, b) := polyfit3 x [y0; y1; y2] in ~ (a == 0)%Q -> (Qabs (- b / (2 * a) - x) <= 1#2)%Q.
Proof.
  intros H. unfold polyfit3. cbv zeta. set (a := ((y0 - 2 * y1 + y2) / 2)%Q). intros Ha.
  assert (E : (- ((y2 - y0) / 2 - 2 * a * x) / (2 * a) - x == (y0 - y2) / (4 * a))%Q) by (field; assumption).
  rewrite E. assert (E4 : (4 * a == 2 * (y0 - 2 * y1 + y2))%Q) by (unfold a; field).
  apply Qabs_Qle_condition. destruct H as [[H1 H2]|[H1 H2]].
  - assert (0 < 4 * a)%Q. { rewrite E4. assert (~ (y0 - 2 * y1 + y2 == 0)%Q) by (intros C; apply Ha; unfold a; rewrite C; reflexivity). lra. }
    split; [apply Qle_shift_div_l; lra|apply Qle_shift_div_r; lra].
  - assert (4 * a < 0)%Q. { rewrite E4. assert (~ (y0 - 2 * y1 + y2 == 0)%Q) by (intros C; apply Ha; unfold a; rewrite C; reflexivity). lra. }
    assert (E5 : ((y0 - y2) / (4 * a) == (y2 - y0) / (- (4 * a)))%Q) by (field; assumption).
    rewrite E5. split; [apply Qle_shift_div_l; lra|apply Qle_shift_div_r; lra].
Qed.
