(** Theorems about the correlation metric and the overlap search with it (C128). *)
From Coq Require Import Reals Lra ZArith Lia Bool Permutation.
From Verif Require Import Np P_Np P_utility M_phase_R P_phase_R M_corr S_corr P_corr M_calculation P_calculation P_calculation2 P_calculation3 M_overlap S_overlap P_overlap P_overlap2.
From Coq Require Import List. Import ListNotations.
Open Scope Z_scope.

(** the metric is one minus Pearson's coefficient of the pairs of pixels *)
Theorem correlation_metric_value : forall a b, same_shape a b -> varied a -> varied b ->
  correlation_metric a b = (1 - pearson (combine (pixels a) (pixels b)))%R.
Proof. intros a b S _ _. apply metric_is. exact S. Qed.
Print Assumptions correlation_metric_value.
Theorem correlation_metric_range_and_symmetry : forall a b, same_shape a b -> (0 <= correlation_metric a b <= 2)%R /\ correlation_metric a b = correlation_metric b a.
Proof. intros a b S. split; [apply metric_bounds|apply metric_sym; exact S]. Qed.
Print Assumptions correlation_metric_range_and_symmetry.
(** it is 0 exactly for copies with another brightness or contrast *)
Theorem correlation_metric_is_zero_for_copies_only : forall a b, same_shape a b -> varied a -> varied b -> (correlation_metric a b = 0%R <-> bright_copy a b).
Proof. intros a b S V _. apply metric_zero_iff; assumption. Qed.
Print Assumptions correlation_metric_is_zero_for_copies_only.
Theorem correlation_metric_ignores_brightness : forall a b a' b' s t s' t', same_shape a b -> (0 < s)%R -> (0 < s')%R -> adjusted s t a a' -> adjusted s' t' b b' ->
  correlation_metric a' b' = correlation_metric a b.
Proof. intros a b a' b' s t s' t'. apply metric_adjusted. Qed.
Print Assumptions correlation_metric_ignores_brightness.
Definition ex_a : img R := mkimg 2 2 (fun i j => IZR (i + 2 * j)).
Example ex_metric : same_shape ex_a ex_a /\ varied ex_a /\ correlation_metric ex_a (mkimg 2 2 (fun i j => 3 * px ex_a i j + 7)%R) = 0%R.
Proof.
  assert (V : varied ex_a) by (exists 0, 0, 1, 0; cbn; unfold in_rng; repeat split; try lia; lra). split; [split; reflexivity|]. split; [exact V|].
  apply metric_zero_iff; [split; reflexivity|exact V|]. exists 3%R, 7%R. split; [lra|]. split; [split; reflexivity|]. intros i j _ _. reflexivity.
Qed.

Lemma adjusted_cols s t A A' a b : 0 <= nrow A -> 0 <= ncol A -> adjusted s t A A' -> adjusted s t (rcols A a b) (rcols A' a b).
Proof.
  intros N1 N2 ((E1 & E2) & H). unfold rcols. split; [split; cbn [islice nrow ncol]; rewrite ?E1, ?E2; reflexivity|]. cbn [islice nrow ncol px]. rewrite <- E1, <- E2. intros i j Hi Hj. unfold in_rng, slen in *. apply H; unfold in_rng.
  - assert (X := py_adj_bounds (nrow A) 0). assert (Y := py_adj_bounds (nrow A) (nrow A)). lia.
  - assert (X := py_adj_bounds (ncol A) a). assert (Y := py_adj_bounds (ncol A) b). lia.
Qed.
(** the overlap found does not depend on the brightness and the contrast of the two images (without denoise, norm and use_overlap) *)
Theorem find_overlap_ignores_brightness : forall blur A B A' B' s t s' t' w side order order', 2 <= ncol A -> 2 <= ncol B -> 0 <= nrow A -> 0 <= nrow B ->
  (0 < s)%R -> (0 < s')%R -> adjusted s t A A' -> adjusted s' t' B B' ->
  let n := ncol A - 2 * search_offset (ncol A) (ncol B) (clipZ w 6 (Z.min (ncol A) (ncol B) / 2)) in
  Permutation (zrange 0 n) order -> Permutation (zrange 0 n) order' ->
  find_overlap_R blur A' B' w side false false false order order' = find_overlap_R blur A B w side false false false order order'.
Proof.
  intros blur A B A' B' s t s' t' w side order order' HA HB RA RB Hs Hs' AA AB n P P'. assert (AA' := AA). assert (AB' := AB). destruct AA' as ((A1 & A2) & _), AB' as ((B1 & B2) & _).
  set (w' := clipZ w 6 (Z.min (ncol A) (ncol B) / 2)) in *.
  assert (S : forall sd o, (sd = 0 \/ sd = 1) -> Permutation (zrange 0 n) o -> search_overlap_R blur A' B' w' sd false false false o = search_overlap_R blur A B w' sd false false false o).
  { intros sd o Hsd Po. destruct (Z.eq_dec (nrow A) (nrow B)) as [Er|Nr].
    - assert (X := search_at blur A B w' sd false false o Er HA HB Po). assert (Y := search_at blur A' B' w' sd false false o ltac:(congruence) ltac:(lia) ltac:(lia)). cbv zeta in X, Y. rewrite <- A2, <- B2 in Y. specialize (Y Po).
      rewrite X, Y. clear X Y. set (off := search_offset (ncol A) (ncol B) w') in *. fold n. pose proof (search_offset_bounds (ncol A) (ncol B) w' HA HB) as Bd. fold off in Bd.
      assert (M : map (fun i => overlap_metric A' (off + i) off false sd false (2 * off) (ref_part B' sd off) (ref_wei B' sd off)) (zrange 0 n) = map (fun i => overlap_metric A (off + i) off false sd false (2 * off) (ref_part B sd off) (ref_wei B sd off)) (zrange 0 n)).
      { apply map_ext_in. intros i Hi. apply zrange_In in Hi. unfold n in Hi. unfold overlap_metric. cbv iota.
        assert (X := window_strip A off i RA ltac:(lia) ltac:(lia) ltac:(lia)). assert (Y := ref_strip B sd off Hsd RB ltac:(lia) ltac:(lia)). destruct X as (X1 & X2 & _), Y as (Y1 & Y2 & _).
        apply (metric_adjusted _ _ _ _ s t s' t'); try assumption.
        - unfold same_shape. rewrite X1, X2, Y1, Y2. cbn [strip nrow ncol]. unfold searched. destruct (sd =? 1); cbn [strip nrow ncol]; split; congruence.
        - apply adjusted_cols; [lia|lia|exact AA].
        - unfold ref_part. rewrite <- B2. destruct (sd =? 1); (apply adjusted_cols; [lia|lia|exact AB]). }
      rewrite M. reflexivity.
    - unfold search_overlap_R. cbv zeta. replace (negb (nrow A' =? nrow B')) with true by lia. replace (negb (nrow A =? nrow B)) with true by lia. reflexivity. }
  unfold find_overlap_R. cbv zeta. rewrite <- A2, <- B2. fold w'. rewrite !S by (first [exact P|exact P'|right; reflexivity|left; reflexivity]). reflexivity.
Qed.
Print Assumptions find_overlap_ignores_brightness.

Lemma first_term (A : img R) pos off (uo : bool) (side : Z) (norm : bool) (ww : Z) (roi2 wei2 : img R) :
  (0 < correlation_metric (if norm then rscale_rows (fun i => abs_mean roi2 i / abs_mean (rcols A (pos - off) (pos + off)) i)%R (rcols A (pos - off) (pos + off)) else rcols A (pos - off) (pos + off)) roi2)%R ->
  (0 < overlap_metric A pos off uo side norm ww roi2 wei2)%R.
Proof.
  intros H. unfold overlap_metric. cbv zeta. destruct uo; [|exact H]. set (a := if norm then _ else _) in *. set (c := radd _ _). assert (X := metric_bounds a c). assert (Y := metric_bounds roi2 c). lra.
Qed.
Lemma not_zero a b : same_shape a b -> varied a -> ~ bright_copy a b -> (0 < correlation_metric a b)%R.
Proof. intros S V N. destruct (metric_bounds a b) as ([L|E] & _); [exact L|]. exfalso. apply N. apply metric_zero_iff; [exact S|exact V|symmetry; exact E]. Qed.
Lemma varied_eq a b : img_eq a b -> varied b -> varied a.
Proof.
  intros (E1 & E2 & E3) (i & j & i' & j' & H1 & H2 & H3 & H4 & N). exists i, j, i', j'. rewrite E1, E2. repeat split; try apply H1; try apply H2; try apply H3; try apply H4.
  rewrite !E3 by (rewrite ?E1, ?E2; assumption). exact N.
Qed.
(** two images that share [ov] columns, the second one with another brightness and contrast: the overlap is found to half a pixel (with use_overlap the two must agree) *)
Theorem find_overlap_recovers_the_overlap_of_images_of_other_brightness : forall blur A B w side ov s t uo order order', (side = 0 \/ side = 1) ->
  0 <= nrow A -> 2 <= ncol A -> 2 <= ncol B -> (0 < s)%R -> (uo = true -> s = 1%R /\ t = 0%R) ->
  share (fun _ v => s * v + t)%R A B ov side -> 6 <= w -> w < Z.min (ncol A) (ncol B) / 2 ->
  let width := 2 * (w / 2) in let n := ncol A - width in let k := if side =? 1 then ncol A - ov else ov - width in
  2 <= k <= n - 3 -> varied (strip A k width) ->
  (forall i, 0 <= i < n -> i <> k -> varied (strip A i width) /\ ~ bright_copy (strip A i width) (searched B side width)) ->
  Permutation (zrange 0 n) order ->
  exists overlap p, find_overlap_R blur A B w (Some side) false false uo order order' = Ok (overlap, side, p) /\ (Rabs (overlap - IZR ov) <= 1 / 2)%R.
Proof.
  intros blur A B w side ov s t uo order order' Hsd RA HA HB Hs Huo SH W1 W2 width n k Hk Vk Ho P. assert (SH' := SH). destruct SH' as (Er & O1 & O2 & O3 & _).
  pose proof (half_small (ncol A) (ncol B) w W1 W2) as E. cbv zeta in E. assert (Ew : clipZ w 6 (Z.min (ncol A) (ncol B) / 2) = w) by (unfold clipZ; lia). rewrite Ew in E.
  pose proof (search_offset_bounds (ncol A) (ncol B) w HA HB) as Bd. rewrite <- E in Bd. set (off := w / 2) in *.
  assert (Hov : 2 * off <= ov) by (unfold k, width, n in *; destruct Hsd as [-> | ->]; [change (0 =? 1) with false in *|change (1 =? 1) with true in *]; cbv iota in *; lia).
  assert (R := ref_strip B side off Hsd ltac:(lia) ltac:(lia) ltac:(lia)). assert (SZ : nrow (searched B side (2 * off)) = nrow A /\ ncol (searched B side (2 * off)) = 2 * off) by (unfold searched; destruct (side =? 1); cbn [strip nrow ncol]; split; lia).
  destruct SZ as (SZ1 & SZ2). assert (Q := share_strip _ A B ov side off Hsd SH ltac:(lia) Hov). cbv zeta in Q. unfold width in k. fold k in Q.
  destruct (find_zero blur A B w side false uo order order' ov Hsd Er HA HB) as (overlap & p & F1 & F2); rewrite ?Ew, <- ?E; try assumption.
  - fold k. unfold n, width in Hk. assert (X := window_strip A off k RA ltac:(lia) ltac:(lia) ltac:(lia)). unfold overlap_metric. cbv zeta iota.
    set (roi := rcols A (off + k - off) (off + k + off)) in *. set (roi2 := ref_part B side off) in *.
    assert (SS : same_shape roi roi2) by (destruct X as (X1 & X2 & _), R as (R1 & R2 & _); unfold same_shape; rewrite X1, X2, R1, R2, SZ1, SZ2; split; reflexivity).
    assert (AD : adjusted s t roi roi2).
    { split; [exact SS|]. destruct X as (X1 & X2 & X3), R as (R1 & R2 & R3). intros i j Hi Hj. assert (Hi' : in_rng (nrow A) i) by (rewrite X1 in Hi; exact Hi). assert (Hj' : in_rng (2 * off) j) by (rewrite X2 in Hj; exact Hj).
      rewrite X3 by assumption. rewrite R3 by (rewrite ?R1, ?R2, ?SZ1, ?SZ2; assumption). apply Q; assumption. }
    assert (V : varied roi) by (apply (varied_eq _ _ X); exact Vk).
    assert (Z1 : correlation_metric roi roi2 = 0%R) by (apply metric_zero_iff; [exact SS|exact V|exists s, t; split; assumption]).
    destruct uo; [|exact Z1]. destruct (Huo eq_refl) as (-> & ->). set (comb := radd _ _).
    assert (C : img_eq roi comb).
    { split; [reflexivity|]. split; [reflexivity|]. intros i j Hi Hj. unfold comb, radd, rweigh, ref_wei. cbn [px rweigh]. fold roi2. destruct AD as (_ & AD). rewrite AD by assumption. destruct (side =? 1); ring. }
    assert (C1 : correlation_metric roi comb = 0%R).
    { apply metric_zero_iff; [destruct C; split; tauto|exact V|]. exists 1%R, 0%R. split; [lra|]. split; [destruct C; split; tauto|]. destruct C as (_ & _ & C). intros i j Hi Hj. rewrite <- C by assumption. ring. }
    assert (C2 : correlation_metric roi2 comb = correlation_metric roi comb).
    { apply (metric_adjusted roi comb roi2 comb 1 0 1 0); try lra; [destruct C; split; tauto|exact AD|]. split; [split; reflexivity|]. intros i j _ _. ring. }
    rewrite Z1, C2, C1. lra.
  - fold k. intros i Hi N. apply first_term. cbv iota. fold width in Hi. fold n in Hi. destruct (Ho i Hi N) as (V & NC). unfold n, width in Hi. assert (X := window_strip A off i RA ltac:(lia) ltac:(lia) ltac:(lia)).
    assert (SX : same_shape (strip A i (2 * off)) (searched B side (2 * off))) by (unfold same_shape; rewrite SZ1, SZ2; split; reflexivity).
    assert (X' := X). assert (R' := R). destruct X' as (X1 & X2 & X3), R' as (R1 & R2 & R3).
    rewrite (metric_ext _ _ (strip A i (2 * off)) (searched B side (2 * off))); [apply not_zero; assumption| |exact X|exact R]. unfold same_shape. rewrite X1, X2, R1, R2, SZ1, SZ2. split; reflexivity.
  - exists overlap, p. split; [exact F1|]. rewrite Ew, <- E in F2. fold off in F2; replace (ov + (off - off)) with ov in F2 by lia. exact F2.
Qed.
Print Assumptions find_overlap_recovers_the_overlap_of_images_of_other_brightness.

Lemma level_of (a b : img R) : img_eq a b -> forall i, in_rng (nrow a) i -> abs_mean a i = row_level b i.
Proof. intros (E1 & E2 & E3) i Hi. unfold abs_mean, row_level. rewrite <- E2. f_equal. apply rsum_ext. intros j Hj. rewrite E3 by assumption. reflexivity. Qed.
Lemma zero_of (a b : img R) : img_eq a b -> varied a -> correlation_metric a b = 0%R.
Proof. intros (E1 & E2 & E3) V. apply metric_zero_iff; [split; assumption|exact V|]. exists 1%R, 0%R. split; [lra|]. split; [split; assumption|]. intros i j Hi Hj. rewrite E3 by assumption. ring. Qed.
(** with norm every row of the second image may have its own contrast *)
Theorem find_overlap_with_norm_recovers_the_overlap_of_rescaled_rows : forall blur A B w side ov gain uo order order', (side = 0 \/ side = 1) ->
  0 <= nrow A -> 2 <= ncol A -> 2 <= ncol B -> (forall i, in_rng (nrow A) i -> (0 < gain i)%R) ->
  share (fun i v => gain i * v)%R A B ov side -> 6 <= w -> w < Z.min (ncol A) (ncol B) / 2 ->
  let width := 2 * (w / 2) in let n := ncol A - width in let k := if side =? 1 then ncol A - ov else ov - width in
  2 <= k <= n - 3 -> varied (searched B side width) -> (forall i, in_rng (nrow A) i -> row_level (strip A k width) i <> 0%R) ->
  (forall i, 0 <= i < n -> i <> k -> varied (levelled (strip A i width) (searched B side width)) /\ ~ bright_copy (levelled (strip A i width) (searched B side width)) (searched B side width)) ->
  Permutation (zrange 0 n) order ->
  exists overlap p, find_overlap_R blur A B w (Some side) false true uo order order' = Ok (overlap, side, p) /\ (Rabs (overlap - IZR ov) <= 1 / 2)%R.
Proof.
  intros blur A B w side ov gain uo order order' Hsd RA HA HB Hg SH W1 W2 width n k Hk VB Lk Ho P. assert (SH' := SH). destruct SH' as (Er & O1 & O2 & O3 & _).
  pose proof (half_small (ncol A) (ncol B) w W1 W2) as E. cbv zeta in E. assert (Ew : clipZ w 6 (Z.min (ncol A) (ncol B) / 2) = w) by (unfold clipZ; lia). rewrite Ew in E.
  pose proof (search_offset_bounds (ncol A) (ncol B) w HA HB) as Bd. rewrite <- E in Bd. set (off := w / 2) in *.
  assert (Hov : 2 * off <= ov) by (unfold k, width, n in *; destruct Hsd as [-> | ->]; [change (0 =? 1) with false in *|change (1 =? 1) with true in *]; cbv iota in *; lia).
  assert (R := ref_strip B side off Hsd ltac:(lia) ltac:(lia) ltac:(lia)). assert (SZ : nrow (searched B side (2 * off)) = nrow A /\ ncol (searched B side (2 * off)) = 2 * off) by (unfold searched; destruct (side =? 1); cbn [strip nrow ncol]; split; lia).
  destruct SZ as (SZ1 & SZ2). assert (Q := share_strip _ A B ov side off Hsd SH ltac:(lia) Hov). cbv zeta in Q. unfold width in k. fold k in Q.
  destruct (find_zero blur A B w side true uo order order' ov Hsd Er HA HB) as (overlap & p & F1 & F2); rewrite ?Ew, <- ?E; try assumption.
  - fold k. unfold n, width in Hk. assert (X := window_strip A off k RA ltac:(lia) ltac:(lia) ltac:(lia)). unfold overlap_metric. cbv zeta iota.
    set (roi := rcols A (off + k - off) (off + k + off)) in *. set (roi2 := ref_part B side off) in *.
    assert (X' := X). assert (R' := R). destruct X' as (X1 & X2 & X3), R' as (R1 & R2 & R3). cbn [strip nrow ncol] in X1, X2.
    assert (G : forall i j, in_rng (nrow A) i -> in_rng (2 * off) j -> px roi2 i j = (gain i * px roi i j)%R).
    { intros i j Hi Hj. rewrite X3 by (rewrite ?X1, ?X2; assumption). rewrite R3 by (rewrite ?R1, ?R2, ?SZ1, ?SZ2; assumption). apply Q; assumption. }
    set (factor := fun i : Z => (abs_mean roi2 i / abs_mean roi i)%R).
    assert (FA : forall i, in_rng (nrow A) i -> factor i = gain i).
    { intros i Hi. unfold factor. assert (L1 : abs_mean roi i = row_level (strip A k (2 * off)) i) by (apply level_of; [exact X|rewrite X1; exact Hi]). assert (L2 : abs_mean roi2 i = (gain i * abs_mean roi i)%R).
      { unfold abs_mean. rewrite R2, SZ2, X2. rewrite (rsum_ext _ _ (fun j => gain i * Rabs (px roi i j))%R).
        - rewrite rsum_scal. unfold Rdiv. ring.
        - intros j Hj. rewrite G by assumption. rewrite Rabs_mult, (Rabs_right (gain i)); [reflexivity|]. apply Rle_ge, Rlt_le, Hg. exact Hi. }
      assert (N0 := Lk i Hi). unfold width in N0. rewrite <- L1 in N0. rewrite L2. field. exact N0. }
    set (roi' := rscale_rows factor roi). assert (EQ : img_eq roi' roi2).
    { split; [cbn [roi' rscale_rows nrow]; congruence|]. split; [cbn [roi' rscale_rows ncol]; congruence|]. intros i j Hi Hj. cbn [roi' rscale_rows nrow ncol px] in *. rewrite X1 in Hi. rewrite X2 in Hj. rewrite FA, G by assumption. ring. }
    assert (V2 : varied roi2) by (apply (varied_eq _ _ R); exact VB). assert (V' : varied roi') by (apply (varied_eq _ _ EQ); exact V2).
    rewrite (zero_of roi' roi2 EQ V'). destruct uo; [|reflexivity]. set (comb := radd _ _).
    assert (C : img_eq roi' comb).
    { split; [reflexivity|]. split; [reflexivity|]. intros i j Hi Hj. unfold comb, radd, ref_wei. fold roi2. cbn [px rscale_rows rweigh]. destruct EQ as (_ & _ & EQ). rewrite <- (EQ i j Hi Hj). unfold roi'. cbn [px rscale_rows]. destruct (side =? 1); ring. }
    rewrite (zero_of roi' comb C V'). rewrite (zero_of roi2 comb); [lra| |exact V2]. destruct EQ as (e1 & e2 & e3), C as (c1 & c2 & c3). split; [congruence|]. split; [congruence|]. intros i j Hi Hj. rewrite <- e3 by congruence. apply c3; congruence.
  - fold k. intros i Hi N. apply first_term. cbv iota. fold width in Hi. fold n in Hi. destruct (Ho i Hi N) as (V & NC). unfold n, width in Hi. assert (X := window_strip A off i RA ltac:(lia) ltac:(lia) ltac:(lia)). fold width in V, NC.
    set (lv := levelled (strip A i width) (searched B side width)) in *.
    assert (SX : same_shape lv (searched B side width)) by (unfold same_shape, width; rewrite SZ1, SZ2; split; reflexivity).
    assert (X' := X). assert (R' := R). destruct X' as (X1 & X2 & X3), R' as (R1 & R2 & R3). cbn [strip nrow ncol] in X1, X2.
    set (roi := rcols A (off + i - off) (off + i + off)) in *. set (roi2 := ref_part B side off) in *.
    rewrite (metric_ext _ _ lv (searched B side width)); [apply not_zero; assumption| | |exact R].
    + unfold same_shape. cbn [rscale_rows nrow ncol]. rewrite X1, X2, R1, R2, SZ1, SZ2. split; reflexivity.
    + split; [cbn [rscale_rows nrow]; rewrite X1; reflexivity|]. split; [cbn [rscale_rows ncol]; rewrite X2; reflexivity|]. intros a b Ha Hb. cbn [rscale_rows nrow ncol px] in *. unfold lv, levelled. cbn [px].
      rewrite X3 by assumption. rewrite (level_of roi2 _ R a) by (rewrite R1, SZ1; rewrite X1 in Ha; exact Ha). rewrite (level_of roi _ X a Ha). reflexivity.
  - exists overlap, p. split; [exact F1|]. rewrite Ew, <- E in F2. fold off in F2; replace (ov + (off - off)) with ov in F2 by lia. exact F2.
Qed.
Print Assumptions find_overlap_with_norm_recovers_the_overlap_of_rescaled_rows.
(** images that meet the hypotheses: 1 x 14, overlapping by 10 columns, the second with three times the contrast *)
Definition ex_l : img R := mkimg 1 14 (fun _ j => (IZR j * IZR j)%R).
Definition ex_r (t : R) : img R := mkimg 1 14 (fun _ j => (3 * (IZR (4 + j) * IZR (4 + j)) + t)%R).
Lemma ex_parabola (i : Z) (c s t t' : R) : (forall j, 0 <= j < 3 -> (3 * (IZR (4 + j) * IZR (4 + j)) + t' = s * (c * (IZR (i + j) * IZR (i + j))) + t)%R) -> i = 4.
Proof.
  intros H. assert (H0 := H 0 ltac:(lia)). assert (H1 := H 1 ltac:(lia)). assert (H2 := H 2 ltac:(lia)). rewrite !plus_IZR in *. cbn in *.
  assert (E : (s * c = 3)%R) by lra. assert (X : (6 * (IZR i - 4) = 0)%R) by (replace 6%R with (2 * 3)%R by ring; rewrite <- E; lra). apply eq_IZR. lra.
Qed.
Lemma ex_varied i c : 0 <= i -> (0 < c)%R -> varied (mkimg 1 6 (fun _ j => IZR (i + j) * IZR (i + j) * c)%R).
Proof.
  intros Hi Hc. exists 0, 0, 0, 1. cbn [nrow ncol px]. unfold in_rng. repeat split; try lia. rewrite !plus_IZR. assert (0 <= IZR i)%R by (apply (IZR_le 0); lia). intros E. apply (Rmult_eq_reg_r c) in E; lra.
Qed.
Lemma varied_as a b : img_eq a b -> varied b -> varied a.
Proof. apply varied_eq. Qed.
Example ex_other_brightness : exists overlap p, find_overlap_R (fun m => m) ex_l (ex_r 7) 6 (Some 1) false false false (zrange 0 8) [] = Ok (overlap, 1, p) /\ (Rabs (overlap - 10) <= 1 / 2)%R.
Proof.
  apply (find_overlap_recovers_the_overlap_of_images_of_other_brightness (fun m => m) ex_l (ex_r 7) 6 1 10 3 7 false (zrange 0 8) []); try (cbn; lia); try lra; try discriminate.
  - split; [reflexivity|]. cbn [ex_l ex_r nrow ncol px]. split; [lia|]. split; [lia|]. split; [lia|]. intros i j _ Hj. change (1 =? 1) with true. cbv iota. replace (14 - 10 + j) with (4 + j) by lia. reflexivity.
  - apply (varied_as _ (mkimg 1 6 (fun _ j => IZR (4 + j) * IZR (4 + j) * 1)%R)); [|apply ex_varied; [lia|lra] ]. split; [reflexivity|]. split; [reflexivity|]. intros i j _ _. cbn [strip ex_l px]. change (if 1 =? 1 then ncol ex_l - 10 else 10 - 2 * (6 / 2)) with 4. ring.
  - intros i Hi Ni. split.
    + apply (varied_as _ (mkimg 1 6 (fun _ j => IZR (i + j) * IZR (i + j) * 1)%R)); [|apply ex_varied; [lia|lra] ]. split; [reflexivity|]. split; [reflexivity|]. intros a j _ _. cbn [strip ex_l px]. ring.
    + intros (s & t & Hs & _ & H). apply Ni. change (i = 4). apply (ex_parabola i 1 s t 7). intros j Hj. specialize (H 0 j). unfold searched in H. change (1 =? 1) with true in H. cbv iota in H. cbn [strip ex_l ex_r px nrow ncol] in H. replace (4 + (0 + j)) with (4 + j) in H by lia. rewrite H by (unfold in_rng; change (2 * (6 / 2)) with 6; lia). ring.
  - apply Permutation_refl.
Qed.
Lemma ex_level i : 0 <= i -> (0 < rsum 6 (fun j => Rabs (IZR (i + j) * IZR (i + j))))%R.
Proof.
  intros Hi. assert (X : forall j, (0 <= Rabs (IZR (i + j) * IZR (i + j)))%R) by (intros j; apply Rabs_pos). unfold rsum. change (Z.to_nat 6) with 6%nat. cbn [rsumn].
  assert (Y : (0 < Rabs (IZR (i + Z.of_nat 5) * IZR (i + Z.of_nat 5)))%R). { apply Rabs_pos_lt. assert (0 < IZR (i + Z.of_nat 5))%R by (apply (IZR_lt 0); lia). apply Rmult_integral_contrapositive; split; lra. }
  assert (X0 := X (Z.of_nat 0)). assert (X1 := X (Z.of_nat 1)). assert (X2 := X (Z.of_nat 2)). assert (X3 := X (Z.of_nat 3)). assert (X4 := X (Z.of_nat 4)). lra.
Qed.
Example ex_rescaled_rows : exists overlap p, find_overlap_R (fun m => m) ex_l (ex_r 0) 6 (Some 1) false true true (zrange 0 8) [] = Ok (overlap, 1, p) /\ (Rabs (overlap - 10) <= 1 / 2)%R.
Proof.
  assert (LA : forall i, 0 <= i -> (0 < row_level (strip ex_l i 6) 0)%R).
  { intros i Hi. unfold row_level. apply Rdiv_lt_0_compat; [|apply (IZR_lt 0); cbn; lia]. apply ex_level. exact Hi. }
  assert (LB : (0 < row_level (searched (ex_r 0) 1 6) 0)%R).
  { unfold row_level. apply Rdiv_lt_0_compat; [|apply (IZR_lt 0); cbn; lia]. change (ncol (searched (ex_r 0) 1 6)) with 6. rewrite (rsum_ext _ _ (fun j => 3 * Rabs (IZR (4 + j) * IZR (4 + j)))%R).
    - rewrite rsum_scal. assert (X := ex_level 4 ltac:(lia)). lra.
    - intros j _. unfold searched. change (1 =? 1) with true. cbv iota. cbn [strip ex_r px]. rewrite Rplus_0_r, Rabs_mult, (Rabs_right 3) by lra. reflexivity. }
  apply (find_overlap_with_norm_recovers_the_overlap_of_rescaled_rows (fun m => m) ex_l (ex_r 0) 6 1 10 (fun _ => 3%R) true (zrange 0 8) []); try (cbn; lia).
  - intros i _. lra.
  - split; [reflexivity|]. cbn [ex_l ex_r nrow ncol px]. split; [lia|]. split; [lia|]. split; [lia|]. intros i j _ Hj. change (1 =? 1) with true. cbv iota. replace (14 - 10 + j) with (4 + j) by lia. ring.
  - apply (varied_as _ (mkimg 1 6 (fun _ j => IZR (4 + j) * IZR (4 + j) * 3)%R)); [|apply ex_varied; [lia|lra] ]. split; [reflexivity|]. split; [reflexivity|]. intros i j _ _. unfold searched. change (1 =? 1) with true. cbv iota. cbn [strip ex_r px]. replace (4 + (0 + j)) with (4 + j) by lia. ring.
  - intros i Hi. change (if 1 =? 1 then ncol ex_l - 10 else 10 - 2 * (6 / 2)) with 4. change (2 * (6 / 2)) with 6. change (row_level (strip ex_l 4 6) 0 <> 0%R). assert (X := LA 4 ltac:(lia)). lra.
  - intros i Hi Ni. change (2 * (6 / 2)) with 6 in *. set (c := (row_level (searched (ex_r 0) 1 6) 0 / row_level (strip ex_l i 6) 0)%R).
    assert (Hc : (0 < c)%R) by (apply Rdiv_lt_0_compat; [exact LB|apply LA; lia]). split.
    + apply (varied_as _ (mkimg 1 6 (fun _ j => IZR (i + j) * IZR (i + j) * c)%R)); [|apply ex_varied; [lia|exact Hc] ]. split; [reflexivity|]. split; [reflexivity|]. intros a j _ _. cbn [levelled strip ex_l px]. reflexivity.
    + intros (s & t & Hs & _ & H). apply Ni. change (i = 4). apply (ex_parabola i c s t 0). intros j Hj. specialize (H 0 j). cbn [levelled nrow ncol px] in H. fold c in H. unfold searched in H. change (1 =? 1) with true in H. cbv iota in H. cbn [strip ex_l ex_r px nrow ncol] in H. replace (4 + (0 + j)) with (4 + j) in H by lia. rewrite H by (unfold in_rng; lia). ring.
  - apply Permutation_refl.
Qed.

(** ** What the search reports: the misfit of every window, relative to the smallest one *)
Lemma metric_same (a b a' b' : img R) : same_shape a b -> img_eq a a' -> img_eq b b' -> correlation_metric a b = unlikeness a' b' pearson.
Proof.
  intros S Ha Hb. rewrite (metric_ext a b a' b' S Ha Hb). unfold unlikeness. apply metric_is.
  destruct S, Ha as (? & ? & _), Hb as (? & ? & _). split; congruence.
Qed.
Lemma overlap_metric_is A B side norm uo off i : nrow A = nrow B -> 0 <= nrow A -> (side = 0 \/ side = 1) -> 1 <= off -> 0 <= i -> i + 2 * off <= ncol A -> 2 * off <= ncol B ->
  overlap_metric A (off + i) off uo side norm (2 * off) (ref_part B side off) (ref_wei B side off) = misfit pearson norm uo side (strip A i (2 * off)) (searched B side (2 * off)).
Proof.
  intros Er RA Hsd Ho Hi HA HB. assert (X := window_strip A off i RA ltac:(lia) Hi HA). assert (Y := ref_strip B side off Hsd ltac:(lia) ltac:(lia) HB).
  unfold overlap_metric, misfit. cbv zeta. set (roi := rcols A (off + i - off) (off + i + off)) in *. set (roi2 := ref_part B side off) in *.
  set (sa := strip A i (2 * off)) in *. set (sb := searched B side (2 * off)) in *.
  assert (SB1 : nrow sb = nrow A) by (unfold sb, searched; destruct (side =? 1); cbn [strip nrow]; lia). assert (SB2 : ncol sb = 2 * off) by (unfold sb, searched; destruct (side =? 1); reflexivity).
  assert (SA1 : nrow sa = nrow A) by reflexivity. assert (SA2 : ncol sa = 2 * off) by reflexivity.
  assert (X' := X). assert (Y' := Y). destruct X' as (X1 & X2 & X3), Y' as (Y1 & Y2 & Y3).
  set (factor := fun k : Z => (abs_mean roi2 k / abs_mean roi k)%R). set (a := if norm then rscale_rows factor roi else roi). set (a' := if norm then levelled sa sb else sa).
  assert (EA : img_eq a a').
  { unfold a, a'. destruct norm; [|exact X]. split; [exact X1|]. split; [exact X2|]. cbn [rscale_rows levelled nrow ncol px]. intros p q Hp Hq. rewrite (X3 p q Hp Hq). f_equal. unfold factor.
    rewrite (level_of roi2 sb Y p) by (rewrite Y1, SB1, <- SA1, <- X1; exact Hp). rewrite (level_of roi sa X p Hp). reflexivity. }
  assert (EA' := EA). destruct EA' as (A1 & A2 & A3). assert (Ar : nrow a' = nrow A) by (unfold a'; destruct norm; reflexivity). assert (Ac : ncol a' = 2 * off) by (unfold a'; destruct norm; reflexivity).
  assert (S1 : same_shape a roi2) by (split; congruence).
  destruct uo; [|apply metric_same; assumption].
  set (c := radd _ _).
  assert (EC : img_eq c (blended a' sb side)).
  { unfold c. split; [cbn [radd blended nrow]; destruct norm; cbn [rscale_rows rweigh nrow]; congruence|]. split; [cbn [radd blended ncol]; destruct norm; cbn [rscale_rows rweigh ncol]; congruence|].
    intros p q Hp Hq. assert (Hp' : in_rng (nrow A) p) by (revert Hp; unfold radd; cbn [nrow]; destruct norm; cbn [rscale_rows rweigh nrow]; rewrite X1, SA1; auto).
    assert (Hq' : in_rng (2 * off) q) by (revert Hq; unfold radd; cbn [ncol]; destruct norm; cbn [rscale_rows rweigh ncol]; rewrite X2, SA2; auto).
    cbn [radd blended px]. rewrite Ac. rewrite <- (A3 p q) by (rewrite ?A1, ?A2, ?Ar, ?Ac; assumption). unfold ref_wei. cbn [rweigh px]. fold roi2. rewrite (Y3 p q) by (rewrite ?Y1, ?Y2, ?SB1, ?SB2; assumption).
    unfold a, rramp. replace (2 * off =? 1) with false by lia. destruct norm, (side =? 1); cbn [rscale_rows rweigh px]; ring. }
  assert (EC' := EC). destruct EC' as (C1 & C2 & _). cbn [blended nrow ncol] in C1, C2.
  rewrite (metric_same a roi2 a' sb S1 EA Y), (metric_same a c a' (blended a' sb side)), (metric_same roi2 c sb (blended a' sb side)); try assumption; try reflexivity; split; congruence.
Qed.
Theorem search_overlap_reports_the_misfit_of_the_windows : forall (blur : img R -> img R) (A B : img R) w side (denoise norm uo : bool) order, (side = 0 \/ side = 1) ->
  let a := if denoise then blur A else A in let b := if denoise then blur B else B in
  0 <= nrow a -> nrow a = nrow b -> 2 <= ncol a -> 2 <= ncol b -> 6 <= w -> w < Z.min (ncol a) (ncol b) / 2 ->
  let width := 2 * (w / 2) in let n := ncol a - width in
  let fit i := misfit pearson norm uo side (strip a i width) (searched b side width) in
  Permutation (zrange 0 n) order ->
  exists l least, search_overlap_R blur A B w side denoise norm uo order = Ok (l, w / 2) /\ Z.of_nat (length l) = n /\
    (exists i, 0 <= i < n /\ fit i = least) /\ (forall i, 0 <= i < n -> (least <= fit i)%R) /\
    forall i, 0 <= i < n -> nth (Z.to_nat i) l 0%R = if Req_EM_T least 0 then fit i else (fit i / least)%R.
Proof.
  intros blur A B w side denoise norm uo order Hsd a b RA Er HA HB W1 W2 width n fit P.
  assert (Eo : search_offset (ncol a) (ncol b) w = w / 2) by (unfold search_offset, clipZ; lia).
  replace (search_overlap_R blur A B w side denoise norm uo order) with (search_overlap_R blur a b w side false norm uo order) by (unfold a, b; destruct denoise; reflexivity).
  clearbody a b. assert (X := search_at blur a b w side norm uo order Er HA HB). cbv zeta in X. rewrite Eo in X. fold width in X. fold n in X. rewrite (X P). clear X.
  set (f := fun i => overlap_metric a (w / 2 + i) (w / 2) uo side norm width (ref_part b side (w / 2)) (ref_wei b side (w / 2))).
  assert (F : forall i, 0 <= i < n -> f i = fit i) by (intros i Hi; unfold f, fit, width; rewrite overlap_metric_is; [reflexivity|exact Er|exact RA|exact Hsd|lia|lia|unfold n, width in Hi; lia|lia]).
  assert (Hn : 0 < n) by (unfold n, width; lia).
  assert (EM : map f (zrange 0 n) = map fit (zrange 0 n)) by (apply map_ext_in; intros i Hi; apply zrange_In in Hi; apply F; lia).
  rewrite EM. assert (T : exists k, argminR (map fit (zrange 0 n)) = Ok k) by (rewrite zrange_cons by lia; cbn [map]; eexists; reflexivity). destruct T as (k & Hk).
  destruct (argbest_spec Rltb Rle Rle_refl Rle_trans (fun x y H => Rlt_le _ _ (Rltb_t x y H)) Rltb_f _ _ Hk) as (Rg & y & Hy & Hmin). rewrite map_length, zrange_length in Rg.
  rewrite (nth_error_nth' _ 0%R) in Hy by (rewrite map_length, zrange_length; lia). rewrite nth_map_zrange in Hy by lia. assert (Y : fit k = y) by congruence.
  rewrite Hk. cbn [bindr]. rewrite (lnth_ok _ _ 0%R) by (rewrite map_length, zrange_length; lia). cbn [bindr]. rewrite nth_map_zrange by lia. rewrite Y.
  eexists. exists y. split; [reflexivity|]. unfold Reqb. destruct (Req_EM_T y 0) as [E0|N0]; cbn [negb].
  - split; [rewrite map_length, zrange_length; lia|]. split; [exists k; split; [lia|exact Y]|]. split; [intros i Hi; apply Hmin, in_map, zrange_In; lia|]. intros i Hi. rewrite nth_map_zrange by lia. reflexivity.
  - split; [rewrite !map_length, zrange_length; lia|]. split; [exists k; split; [lia|exact Y]|]. split; [intros i Hi; apply Hmin, in_map, zrange_In; lia|]. intros i Hi. rewrite map_map, nth_map_zrange by lia. reflexivity.
Qed.
Print Assumptions search_overlap_reports_the_misfit_of_the_windows.
(** without a side the search takes the side with the sharper minimum (equal denoise and norm flags: the code passes them the wrong way round here) *)
Theorem find_overlap_takes_the_side_with_the_sharper_minimum : forall blur A B w flag uo order order' l1 o1 l0 o0 c1 p1 c0 p0,
  let w' := clipZ w 6 (Z.min (ncol A) (ncol B) / 2) in
  search_overlap_R blur A B w' 1 flag flag uo order = Ok (l1, o1) -> search_overlap_R blur A B w' 0 flag flag uo order' = Ok (l0, o0) ->
  curvature_R l1 = Ok (c1, p1) -> curvature_R l0 = Ok (c0, p0) ->
  ((c0 < c1)%R -> find_overlap_R blur A B w None flag flag uo order order' = find_overlap_R blur A B w (Some 1) flag flag uo order order') /\
  ((c1 <= c0)%R -> find_overlap_R blur A B w None flag flag uo order order' = find_overlap_R blur A B w (Some 0) flag flag uo order' order).
Proof.
  intros blur A B w flag uo order order' l1 o1 l0 o0 c1 p1 c0 p0 w' S1 S0 C1 C0. unfold find_overlap_R. cbv zeta. fold w'. change (0 =? 1) with false. change (1 =? 1) with true. change (0 =? 0) with true. cbv iota.
  rewrite S1, S0. cbn [bindr fst snd]. rewrite C1, C0. cbn [bindr fst snd]. unfold Rltb. split; intros H; destruct (Rlt_dec c0 c1); try lra; reflexivity.
Qed.
Print Assumptions find_overlap_takes_the_side_with_the_sharper_minimum.
(** the curvature is the leading coefficient of the least-squares parabola of the five values around the minimum *)
Theorem curvature_is_that_of_the_least_squares_parabola : forall (y : Z -> R) n k, 2 <= k <= n - 3 -> (forall i, 0 <= i < n -> i <> k -> (y k < y i)%R) ->
  let error a b c := rsum 5 (fun m => Rsqr (a * Rsqr (IZR (m - 2)) + b * IZR (m - 2) + c - y (k + (m - 2))%Z))%R in
  exists a b c p, curvature_R (map y (zrange 0 n)) = Ok (Rabs a, p) /\ forall a' b' c', (error a b c <= error a' b' c')%R.
Proof.
  intros y n k Hk Hp error.
  set (a := ((2 * y (k - 2)%Z - y (k - 1)%Z - 2 * y k - y (k + 1)%Z + 2 * y (k + 2)%Z) / 14)%R).
  set (b := ((- 2 * y (k - 2)%Z - y (k - 1)%Z + y (k + 1)%Z + 2 * y (k + 2)%Z) / 10)%R).
  set (c := ((- 3 * y (k - 2)%Z + 12 * y (k - 1)%Z + 17 * y k + 12 * y (k + 1)%Z - 3 * y (k + 2)%Z) / 35)%R).
  assert (Am : argminR (map y (zrange 0 n)) = Ok k).
  { assert (T : exists q, argminR (map y (zrange 0 n)) = Ok q) by (rewrite zrange_cons by lia; cbn [map]; eexists; reflexivity). destruct T as (q & Hq). rewrite Hq. f_equal.
    destruct (argbest_spec Rltb Rle Rle_refl Rle_trans (fun x z H => Rlt_le _ _ (Rltb_t x z H)) Rltb_f _ _ Hq) as (Rg & v & Hv & Hmin). rewrite map_length, zrange_length in Rg.
    destruct (Z.eq_dec q k) as [|D]; [assumption|exfalso]. rewrite (nth_error_nth' _ 0%R) in Hv by (rewrite map_length, zrange_length; lia). rewrite nth_map_zrange in Hv by lia.
    assert (L : (y q <= y k)%R) by (assert (V : y q = v) by congruence; rewrite V; apply Hmin; apply in_map; apply zrange_In; lia). specialize (Hp q ltac:(lia) D). lra. }
  exists a, b, c. unfold curvature_R. rewrite Am. cbn [bindr]. rewrite map_length, zrange_length.
  replace (clipZ k 2 (Z.of_nat (Z.to_nat n) - 2 - 1)) with k by (unfold clipZ; lia).
  assert (L5 : lslice (map y (zrange 0 n)) (k - 2) (k + 2 + 1) = [y (k - 2); y (k - 1); y k; y (k + 1); y (k + 2)]).
  { unfold lslice. rewrite map_length, zrange_length, slen_id, py_adj_id by lia. replace (k + 2 + 1 - (k - 2)) with 5 by lia.
    rewrite skipn_map, firstn_map. replace n with ((k - 2) + (5 + (n - k - 3))) by lia. rewrite zrange_app, skipn_app by lia. rewrite skipn_all2 by (rewrite zrange_length; lia).
    rewrite zrange_length. replace (Z.to_nat (k - 2) - Z.to_nat (k - 2))%nat with 0%nat by lia. cbn [skipn app]. rewrite zrange_app by lia. rewrite firstn_app, zrange_length. replace (Z.to_nat 5 - Z.to_nat 5)%nat with 0%nat by lia. cbn [firstn]. rewrite app_nil_r.
    rewrite firstn_all2 by (rewrite zrange_length; lia). rewrite !zrange_cons by lia. rewrite (zrange_nil _ (_ - _)) by lia. cbn [map].
    replace (0 + (k - 2) + 1 + 1 + 1 + 1) with (k + 2) by lia. replace (0 + (k - 2) + 1 + 1 + 1) with (k + 1) by lia. replace (0 + (k - 2) + 1 + 1) with k by lia. replace (0 + (k - 2) + 1) with (k - 1) by lia. replace (0 + (k - 2)) with (k - 2) by lia. reflexivity. }
  rewrite L5. destruct (rpolyfit3 _ _) as [a2 b2]. change (rpolyfit5_a [y (k - 2); y (k - 1); y k; y (k + 1); y (k + 2)]) with a.
  assert (X : exists p, (if negb (Reqb a2 0) then if Rleb (IZR (k - 1)) (- b2 / (2 * a2)) && Rleb (- b2 / (2 * a2)) (IZR (k + 1)) then Ok (Rabs a, (- b2 / (2 * a2))%R) else Ok (Rabs a, IZR k) else Ok (Rabs a, IZR k)) = Ok (Rabs a, p)).
  { destruct (negb _); [destruct (_ && _)|]; eexists; reflexivity. }
  destruct X as (p & X). exists p. split; [exact X|]. intros a' b' c'.
  assert (D : (error a' b' c' - error a b c = rsum 5 (fun m => Rsqr ((a' - a) * Rsqr (IZR (m - 2)) + (b' - b) * IZR (m - 2) + (c' - c))))%R).
  { unfold error, rsum. change (Z.to_nat 5) with 5%nat. cbn [rsumn]. change (Z.of_nat 0) with 0. change (Z.of_nat 1) with 1. change (Z.of_nat 2) with 2. change (Z.of_nat 3) with 3. change (Z.of_nat 4) with 4.
    change (0 - 2) with (-2). change (1 - 2) with (-1). change (2 - 2) with 0. change (3 - 2) with 1. change (4 - 2) with 2. rewrite Z.add_0_r. change (k + -2) with (k - 2). change (k + -1) with (k - 1).
    unfold a, b, c, Rsqr. field. }
  assert (N : (0 <= rsum 5 (fun m => Rsqr ((a' - a) * Rsqr (IZR (m - 2)) + (b' - b) * IZR (m - 2) + (c' - c))))%R).
  { unfold rsum. generalize (Z.to_nat 5). intros q. induction q as [|q IH]; cbn [rsumn]; [lra|]. assert (S0 := Rle_0_sqr ((a' - a) * Rsqr (IZR (Z.of_nat q - 2)) + (b' - b) * IZR (Z.of_nat q - 2) + (c' - c))). lra. }
  lra.
Qed.
Print Assumptions curvature_is_that_of_the_least_squares_parabola.
(** the hypotheses are met: the images of [ex_rescaled_rows], the values (i - 2)^2 *)
Example ex_search : exists l, search_overlap_R (fun m => m) (mkimg 1 20 (fun _ j => IZR j * IZR j)%R) (mkimg 1 20 (fun _ j => IZR j)) 6 1 true true true (zrange 0 14) = Ok (l, 3) /\ Z.of_nat (length l) = 14.
Proof.
  destruct (search_overlap_reports_the_misfit_of_the_windows (fun m => m) (mkimg 1 20 (fun _ j => IZR j * IZR j)%R) (mkimg 1 20 (fun _ j => IZR j)) 6 1 true true true (zrange 0 14)) as (l & least & E & L & _); try (cbn; lia); [apply Permutation_refl|].
  exists l. split; [exact E|exact L].
Qed.
Example ex_curvature : exists p, curvature_R (map (fun i => (IZR (i - 2) * IZR (i - 2))%R) (zrange 0 6)) = Ok (1%R, p).
Proof.
  destruct (curvature_is_that_of_the_least_squares_parabola (fun i => (IZR (i - 2) * IZR (i - 2))%R) 6 2 ltac:(lia)) as (a & b & c & p & E & M).
  - intros i _ Hi. cbv beta. assert (N : (IZR (i - 2) <> 0)%R) by (apply not_0_IZR; lia). change (2 - 2) with 0. assert (Q := Rsqr_pos_lt _ N). unfold Rsqr in Q. lra.
  - exists p. rewrite E. f_equal. f_equal. specialize (M 1%R 0%R 0%R). revert M. unfold rsum. change (Z.to_nat 5) with 5%nat. cbn [rsumn]. change (Z.of_nat 0) with 0. change (Z.of_nat 1) with 1. change (Z.of_nat 2) with 2. change (Z.of_nat 3) with 3. change (Z.of_nat 4) with 4.
    change (2 + (0 - 2) - 2) with (-2). change (2 + (1 - 2) - 2) with (-1). change (2 + (2 - 2) - 2) with 0. change (2 + (3 - 2) - 2) with 1. change (2 + (4 - 2) - 2) with 2. change (0 - 2) with (-2). change (1 - 2) with (-1). change (2 - 2) with 0. change (3 - 2) with 1. change (4 - 2) with 2. unfold Rsqr. intros M.
    assert (S0 := Rle_0_sqr (a * (-2 * -2) + b * -2 + c - -2 * -2)). assert (S1 := Rle_0_sqr (a * (-1 * -1) + b * -1 + c - -1 * -1)). assert (S2 := Rle_0_sqr (a * (0 * 0) + b * 0 + c - 0 * 0)). assert (S3 := Rle_0_sqr (a * (1 * 1) + b * 1 + c - 1 * 1)). assert (S4 := Rle_0_sqr (a * (2 * 2) + b * 2 + c - 2 * 2)).
    unfold Rsqr in S0, S1, S2, S3, S4.
    assert (Z0 : (a * (0 * 0) + b * 0 + c - 0 * 0 = 0)%R) by (apply Rsqr_0_uniq; unfold Rsqr; lra).
    assert (Z1 : (a * (1 * 1) + b * 1 + c - 1 * 1 = 0)%R) by (apply Rsqr_0_uniq; unfold Rsqr; lra).
    assert (Z2 : (a * (-1 * -1) + b * -1 + c - -1 * -1 = 0)%R) by (apply Rsqr_0_uniq; unfold Rsqr; lra).
    replace a with 1%R by lra. apply Rabs_R1.
Qed.
