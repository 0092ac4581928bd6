(** More proofs about the overlap search: the position of the minimum, the overlap. *)
From Coq Require Import Reals Lra ZArith Lia Bool Permutation.
From Verif Require Import Np P_Np P_utility M_phase_R P_phase_R M_corr S_corr P_corr M_calculation P_calculation P_calculation2 P_calculation3 M_overlap S_overlap P_overlap.
From Coq Require Import List. Import ListNotations.
Open Scope Z_scope.

Lemma Rltb_t a b : Rltb a b = true -> (a < b)%R. Proof. unfold Rltb. destruct (Rlt_dec a b); [auto|discriminate]. Qed.
Lemma Rltb_f a b : Rltb a b = false -> (b <= a)%R. Proof. unfold Rltb. destruct (Rlt_dec a b); [discriminate|intros _; lra]. Qed.
Lemma argminR_unique (f : Z -> R) n k : 0 <= k < n -> f k = 0%R -> (forall i, 0 <= i < n -> i <> k -> (0 < f i)%R) -> argminR (map f (zrange 0 n)) = Ok k.
Proof.
  intros Hk H0 Hp. assert (T : exists a, argminR (map f (zrange 0 n)) = Ok a) by (rewrite zrange_cons by lia; cbn [map]; eexists; reflexivity). destruct T as (a & Ha). rewrite Ha. f_equal.
  destruct (argbest_spec Rltb Rle Rle_refl Rle_trans (fun x y H => Rlt_le _ _ (Rltb_t x y H)) Rltb_f _ _ Ha) as (Rg & y & Hy & Hmin).
  rewrite map_length, zrange_length in Rg. destruct (Z.eq_dec a k) as [|D]; [assumption|exfalso].
  rewrite (nth_error_nth' _ 0%R) in Hy by (rewrite map_length, zrange_length; lia). rewrite nth_map_zrange in Hy by lia.
  assert (L : (f a <= f k)%R) by (assert (Y : f a = y) by congruence; rewrite Y; apply Hmin; apply in_map; apply zrange_In; lia). specialize (Hp a ltac:(lia) D). lra.
Qed.
Lemma curvature_near (f : Z -> R) n k : 2 <= k <= n - 3 -> f k = 0%R -> (forall i, 0 <= i < n -> i <> k -> (0 < f i)%R) ->
  exists cv p, curvature_R (map f (zrange 0 n)) = Ok (cv, p) /\ (Rabs (p - IZR k) <= 1 / 2)%R.
Proof.
  intros Hk H0 Hp. unfold curvature_R. rewrite (argminR_unique f n k) by (try lia; assumption). cbn [bindr]. rewrite map_length, zrange_length.
  replace (clipZ k 2 (Z.of_nat (Z.to_nat n) - 2 - 1)) with k by (unfold clipZ; lia).
  rewrite (lslice3 (map f (zrange 0 n)) k 0%R) by (rewrite ?map_length, ?zrange_length; lia). rewrite !nth_map_zrange by lia. cbn [rpolyfit3]. rewrite H0.
  set (y0 := f (k - 1)). set (y2 := f (k + 1)). assert (P0 : (0 < y0)%R) by (apply Hp; lia). assert (P2 : (0 < y2)%R) by (apply Hp; lia).
  set (c := Rabs _). assert (A : ((y0 - 2 * 0 + y2) / 2 <> 0)%R) by lra. unfold Reqb. destruct (Req_EM_T _ _) as [E|_]; [contradiction|]. cbn [negb].
  set (num := (_ / (2 * _))%R). assert (N : (num = IZR k - (y2 - y0) / (2 * (y0 + y2)))%R) by (unfold num; field; lra).
  assert (B : (- (1 / 2) <= (y2 - y0) / (2 * (y0 + y2)) <= 1 / 2)%R).
  { set (q := ((y2 - y0) / (2 * (y0 + y2)))%R). assert (E : (q * (2 * (y0 + y2)) = y2 - y0)%R) by (unfold q; field; lra).
    split; apply Rmult_le_reg_r with (2 * (y0 + y2))%R; try lra; rewrite E; lra. }
  unfold Rleb. destruct (Rle_dec (IZR (k - 1)) num) as [|C]; [|exfalso; apply C; rewrite minus_IZR; lra]. destruct (Rle_dec num (IZR (k + 1))) as [|C]; [|exfalso; apply C; rewrite plus_IZR; lra].
  cbn [andb]. exists c, num. split; [reflexivity|]. rewrite N. apply Rabs_le. lra.
Qed.
Lemma rcols_px m a b i j : 0 <= nrow m -> 0 <= a -> a <= b -> b <= ncol m -> px (rcols m a b) i j = px m i (a + j).
Proof. intros. unfold rcols, islice. cbn [px]. rewrite !py_adj_id by lia. reflexivity. Qed.
Lemma rcols_shape m a b : 0 <= nrow m -> 0 <= a -> a <= b -> b <= ncol m -> nrow (rcols m a b) = nrow m /\ ncol (rcols m a b) = b - a.
Proof. intros. unfold rcols, islice. cbn [nrow ncol]. rewrite !slen_id by lia. lia. Qed.
Lemma rcols_strip m a n : 0 <= nrow m -> 0 <= a -> 0 <= n -> a + n <= ncol m -> img_eq (rcols m a (a + n)) (strip m a n).
Proof.
  intros. destruct (rcols_shape m a (a + n)) as (S1 & S2); [lia|lia|lia|lia|]. split; [exact S1|]. split; [cbn [strip ncol]; lia|]. intros i j _ _. rewrite rcols_px by lia. reflexivity.
Qed.
(** the search *)
Definition ref_part (B : img R) (side off : Z) : img R := if side =? 1 then rcols B 0 (2 * off) else rcols B (ncol B - 2 * off) (ncol B).
Definition ref_wei (B : img R) (side off : Z) : img R := rweigh (if side =? 1 then (fun k => 1 - rramp (2 * off) k)%R else rramp (2 * off)) (ref_part B side off).
Lemma search_at blur A B w side norm uo order : nrow A = nrow B -> 2 <= ncol A -> 2 <= ncol B ->
  let off := search_offset (ncol A) (ncol B) w in let n := ncol A - 2 * off in Permutation (zrange 0 n) order ->
  let f i := overlap_metric A (off + i) off uo side norm (2 * off) (ref_part B side off) (ref_wei B side off) in
  search_overlap_R blur A B w side false norm uo order =
    (do k <- argminR (map f (zrange 0 n)); do mn <- lnth (map f (zrange 0 n)) k; Ok (if negb (Reqb mn 0) then map (fun v => (v / mn)%R) (map f (zrange 0 n)) else map f (zrange 0 n), off)).
Proof.
  intros Er HA HB off n P f. pose proof (search_offset_bounds (ncol A) (ncol B) w HA HB) as Bd. fold off in Bd. unfold search_overlap_R. cbv zeta. fold off.
  replace (negb (nrow A =? nrow B)) with false by lia. replace (2 * off <? 0) with false by lia.
  assert (Hn : Z.of_nat (length (prange off (ncol A - off))) = n) by (unfold prange; rewrite zrange_length; unfold n; lia).
  rewrite Hn. rewrite run_list_ok by exact P. cbn [bindr]. fold (ref_part B side off).
  assert (M : map (fun i => overlap_metric A (nth (Z.to_nat i) (prange off (ncol A - off)) 0) off uo side norm (2 * off) (ref_part B side off) (rweigh (if side =? 1 then (fun k => 1 - rramp (2 * off) k)%R else rramp (2 * off)) (ref_part B side off))) (zrange 0 n) = map f (zrange 0 n)).
  { apply map_ext_in. intros i Hi. apply zrange_In in Hi. unfold prange. rewrite zrange_nth by (unfold n in Hi; lia). rewrite Z2Nat.id by lia. reflexivity. }
  rewrite M. reflexivity.
Qed.
Lemma search_zero blur A B w side norm uo order k : nrow A = nrow B -> 2 <= ncol A -> 2 <= ncol B ->
  let off := search_offset (ncol A) (ncol B) w in let n := ncol A - 2 * off in Permutation (zrange 0 n) order -> 2 <= k <= n - 3 ->
  let f i := overlap_metric A (off + i) off uo side norm (2 * off) (ref_part B side off) (ref_wei B side off) in
  f k = 0%R -> (forall i, 0 <= i < n -> i <> k -> (0 < f i)%R) ->
  exists l p cv, search_overlap_R blur A B w side false norm uo order = Ok (l, off) /\ curvature_R l = Ok (cv, p) /\ (Rabs (p - IZR k) <= 1 / 2)%R.
Proof.
  intros Er HA HB off n P Hk f F0 Fp. destruct (curvature_near f n k Hk F0 Fp) as (cv & p & C1 & C2). exists (map f (zrange 0 n)), p, cv. split; [|split; assumption].
  assert (S := search_at blur A B w side norm uo order Er HA HB P). cbv zeta in S. fold off in S. fold n in S. fold f in S. rewrite S. clear S.
  rewrite (argminR_unique f n k) by (try lia; assumption). cbn [bindr]. rewrite (lnth_ok _ _ 0%R) by (rewrite map_length, zrange_length; lia). cbn [bindr]. rewrite nth_map_zrange by lia. rewrite F0.
  unfold Reqb. destruct (Req_EM_T 0 0); [reflexivity|contradiction].
Qed.
Lemma find_zero blur A B w side norm uo order order' ov : (side = 0 \/ side = 1) -> nrow A = nrow B -> 2 <= ncol A -> 2 <= ncol B ->
  let w' := clipZ w 6 (Z.min (ncol A) (ncol B) / 2) in let off := search_offset (ncol A) (ncol B) w' in let n := ncol A - 2 * off in
  Permutation (zrange 0 n) order -> let k := if side =? 1 then ncol A - ov else ov - 2 * off in 2 <= k <= n - 3 ->
  let f i := overlap_metric A (off + i) off uo side norm (2 * off) (ref_part B side off) (ref_wei B side off) in
  f k = 0%R -> (forall i, 0 <= i < n -> i <> k -> (0 < f i)%R) ->
  exists overlap p, find_overlap_R blur A B w (Some side) false norm uo order order' = Ok (overlap, side, p) /\ (Rabs (overlap - IZR (ov + (w' / 2 - off))) <= 1 / 2)%R.
Proof.
  intros Hs Er HA HB w' off n P k Hk f F0 Fp. destruct (search_zero blur A B w' side norm uo order k Er HA HB P Hk F0 Fp) as (l & p & cv & E1 & E2 & E3).
  unfold find_overlap_R. cbv zeta. fold w'. destruct Hs as [-> | ->].
  - change (0 =? 1) with false. change (0 =? 0) with true. cbv iota. rewrite E1. cbn [bindr fst snd]. rewrite E2. cbn [bindr fst snd]. eexists. eexists. split; [reflexivity|].
    fold off. replace (p + IZR off + IZR (w' / 2) - IZR (ov + (w' / 2 - off)))%R with (p - IZR k)%R; [exact E3|]. unfold k. change (0 =? 1) with false. cbv iota. rewrite plus_IZR, !minus_IZR, mult_IZR. ring.
  - change (1 =? 1) with true. cbv iota. rewrite E1. cbn [bindr fst snd]. rewrite E2. cbn [bindr fst snd]. eexists. eexists. split; [reflexivity|].
    fold off. replace (IZR (ncol A) - (p + IZR off) + IZR (w' / 2) - IZR (ov + (w' / 2 - off)))%R with (- (p - IZR k))%R; [rewrite Rabs_Ropp; exact E3|]. unfold k. change (1 =? 1) with true. cbv iota. rewrite plus_IZR, !minus_IZR. ring.
Qed.
(** windows inside the images are strips *)
Lemma window_strip A off i : 0 <= nrow A -> 0 <= off -> 0 <= i -> i + 2 * off <= ncol A -> img_eq (rcols A (off + i - off) (off + i + off)) (strip A i (2 * off)).
Proof. intros. replace (off + i - off) with i by lia. replace (off + i + off) with (i + 2 * off) by lia. apply rcols_strip; lia. Qed.
Lemma ref_strip B side off : (side = 0 \/ side = 1) -> 0 <= nrow B -> 0 <= off -> 2 * off <= ncol B -> img_eq (ref_part B side off) (searched B side (2 * off)).
Proof.
  intros [-> | ->] Hr Ho Hc; unfold ref_part, searched.
  - change (0 =? 1) with false. cbv iota. assert (X := rcols_strip B (ncol B - 2 * off) (2 * off) Hr ltac:(lia) ltac:(lia) ltac:(lia)). replace (ncol B - 2 * off + 2 * off) with (ncol B) in X by lia. exact X.
  - change (1 =? 1) with true. cbv iota. assert (X := rcols_strip B 0 (2 * off) Hr ltac:(lia) ltac:(lia) ltac:(lia)). exact X.
Qed.
Lemma share_strip g A B ov side off : (side = 0 \/ side = 1) -> share g A B ov side -> 0 <= off -> 2 * off <= ov ->
  let k := if side =? 1 then ncol A - ov else ov - 2 * off in
  forall i j, in_rng (nrow A) i -> in_rng (2 * off) j -> px (searched B side (2 * off)) i j = g i (px (strip A k (2 * off)) i j).
Proof.
  intros Hs (Er & O1 & O2 & O3 & O) Ho Hov k i j Hi Hj. unfold in_rng in Hj. unfold searched, strip, k. destruct Hs as [-> | ->].
  - change (0 =? 1) with false in *. cbv iota in *. cbn [px]. specialize (O i (ov - 2 * off + j) Hi ltac:(lia)). cbn [Z.eqb] in O. rewrite <- O. f_equal. lia.
  - change (1 =? 1) with true in *. cbv iota in *. cbn [px]. rewrite Z.add_0_l. apply (O i j Hi). lia.
Qed.
