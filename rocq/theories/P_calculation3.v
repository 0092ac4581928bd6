From Verif Require Import Np P_Np M_utility M_conversion M_correction P_utility P_conversion P_conversion3 P_correction M_calculation S_calculation P_calculation P_calculation2.
From Coq Require Import QArith Qround Qabs Permutation Lqa.
From Coq Require Import List. Import ListNotations.
Open Scope Z_scope.

Lemma skipn_cons {V} (l : list V) n d : (n < length l)%nat -> skipn n l = nth n l d :: skipn (S n) l.
Proof.
  revert n. induction l as [|a t IH]; intros n H; cbn in H; [lia|]. destruct n; [reflexivity|]. cbn. apply IH. lia.
Qed.
Lemma lslice3 {V} (l : list V) k d : 1 <= k -> k + 2 <= Z.of_nat (length l) ->
  lslice l (k - 1) (k + 2) = [nth (Z.to_nat (k - 1)) l d; nth (Z.to_nat k) l d; nth (Z.to_nat (k + 1)) l d].
Proof.
  intros H1 H2. unfold lslice. rewrite slen_id, py_adj_id by lia.
  replace (Z.to_nat (k + 2 - (k - 1))) with 3%nat by lia.
  rewrite (skipn_cons l (Z.to_nat (k - 1)) d) by lia. rewrite (skipn_cons l (S (Z.to_nat (k - 1))) d) by lia.
  rewrite (skipn_cons l (S (S (Z.to_nat (k - 1)))) d) by lia. cbn [firstn].
  replace (S (Z.to_nat (k - 1))) with (Z.to_nat k) by lia. replace (S (Z.to_nat k)) with (Z.to_nat (k + 1)) by lia. reflexivity.
Qed.
Lemma curvature_spec l : 5 <= Z.of_nat (length l) -> exists k cv p,
  argminQ l = Ok k /\ calculate_curvature l = Ok (cv, p) /\ (0 <= cv)%Q /\
  (2 <= k <= Z.of_nat (length l) - 3 -> (Qabs (p - inject_Z k) <= 1#2)%Q) /\
  (1 <= p)%Q /\ (p <= inject_Z (Z.of_nat (length l) - 2))%Q.
Proof.
  intros Hn. destruct (argmin_total l) as (k & Hk). { destruct l; [cbn in Hn; lia|discriminate]. }
  destruct (argminQ_spec _ _ Hk) as (R & y & Hy & Hmin).
  unfold calculate_curvature. rewrite Hk. cbn [bindr].
  set (n := Z.of_nat (length l)) in *. set (q := clipZ k 2 (n - 2 - 1)).
  assert (Hq : 2 <= q <= n - 3) by (unfold q, clipZ; lia).
  rewrite (lslice3 l q 0%Q) by (fold n; lia).
  set (y0 := nth (Z.to_nat (q - 1)) l 0%Q). set (y1 := nth (Z.to_nat q) l 0%Q). set (y2 := nth (Z.to_nat (q + 1)) l 0%Q).
  pose proof (vertex_half (inject_Z q) y0 y1 y2) as VH.
  destruct (polyfit3 (inject_Z q) [y0; y1; y2]) as [a b] eqn:Epf.
  set (cv := Qabs (polyfit5_a (lslice l (q - 2) (q + 2 + 1)))).
  assert (B1 : (1 <= inject_Z (q - 1))%Q) by (change 1%Q with (inject_Z 1); rewrite <- Zle_Qle; lia).
  assert (B2 : (inject_Z (q + 1) <= inject_Z (n - 2))%Q) by (rewrite <- Zle_Qle; lia).
  assert (B3 : (inject_Z (q - 1) <= inject_Z q <= inject_Z (q + 1))%Q) by (rewrite <- !Zle_Qle; lia).
  assert (EQ : 2 <= k <= n - 3 -> q = k) by (unfold q, clipZ; lia).
  assert (Z0 : 2 <= k <= n - 3 -> (Qabs (inject_Z q - inject_Z k) <= 1#2)%Q).
  { intros H. rewrite (EQ H). rewrite (Qabs_wd _ 0) by ring. discriminate. }
  destruct (negb (Qeq_bool a 0)) eqn:Ea.
  - destruct (Qle_bool (inject_Z (q - 1)) (- b / (2 * a)) && Qle_bool (- b / (2 * a)) (inject_Z (q + 1))) eqn:Eb.
    + apply andb_true_iff in Eb as [E1 E2]. apply Qle_bool_iff in E1, E2.
      exists k, cv, (- b / (2 * a))%Q. split; [reflexivity|]. split; [reflexivity|]. split; [apply Qabs_nonneg|].
      split; [|split; lra]. intros H. rewrite <- (EQ H). apply VH.
      * left. unfold y0, y1, y2. rewrite (EQ H) in *.
        assert (nth (Z.to_nat k) l 0%Q = y). { rewrite (nth_error_nth' l 0%Q) in Hy by lia. congruence. }
        rewrite H0. split; apply Hmin, nth_In; lia.
      * intros C. apply Qeq_bool_iff in C. rewrite C in Ea. discriminate.
    + exists k, cv, (inject_Z q). split; [reflexivity|]. split; [reflexivity|]. split; [apply Qabs_nonneg|]. split; [exact Z0|]. lra.
  - exists k, cv, (inject_Z q). split; [reflexivity|]. split; [reflexivity|]. split; [apply Qabs_nonneg|]. split; [exact Z0|]. lra.
Qed.

(** ** search windows *)
Lemma search_offset_bounds n1 n2 w : 2 <= n1 -> 2 <= n2 -> 0 <= search_offset n1 n2 w /\
  2 * search_offset n1 n2 w <= n1 / 2 /\ 2 * search_offset n1 n2 w <= n2 / 2 /\ 2 * search_offset n1 n2 w <= n1 - 1 /\
  2 * search_offset n1 n2 w <= n2 - 1.
Proof.
  intros H1 H2. unfold search_offset. set (c := clipZ w 6 (Z.min n1 n2 / 2 - 1)).
  assert (M : 1 <= Z.min n1 n2 / 2) by (apply Z.div_le_lower_bound; lia).
  assert (C : 0 <= c <= Z.min n1 n2 / 2 - 1) by (unfold c, clipZ; lia).
  pose proof (Z.mul_div_le c 2 ltac:(lia)). assert (0 <= c / 2) by (apply Z.div_pos; lia).
  assert (Z.min n1 n2 / 2 <= n1 / 2) by (apply Z.div_le_mono; lia).
  assert (Z.min n1 n2 / 2 <= n2 / 2) by (apply Z.div_le_mono; lia).
  pose proof (Z.mul_div_le n1 2 ltac:(lia)). pose proof (Z.mul_div_le n2 2 ltac:(lia)). lia.
Qed.
Lemma windows_inside n1 n2 w pos : 2 <= n1 -> 2 <= n2 ->
  let off := search_offset n1 n2 w in
  In pos (prange off (n1 - off)) -> 0 <= pos - off /\ pos + off <= n1 /\ 0 <= n2 - 2 * off /\ 2 * off <= n2.
Proof.
  intros H1 H2 off I. apply prange_In in I. pose proof (search_offset_bounds n1 n2 w H1 H2). fold off in H. lia.
Qed.


Lemma cols_px m a b i j : 0 <= nrow m -> 0 <= a -> a <= b -> b <= ncol m -> px (cols m a b) i j = px m i (a + j).
Proof. intros. unfold cols, islice. cbn [px]. rewrite !py_adj_id by lia. reflexivity. Qed.
Lemma cols_shape m a b : 0 <= nrow m -> 0 <= a -> a <= b -> b <= ncol m -> nrow (cols m a b) = nrow m /\ ncol (cols m a b) = b - a.
Proof. intros. unfold cols, islice. cbn [nrow ncol]. rewrite !slen_id by lia. lia. Qed.

(** an argmin over metrics with a single zero *)
Lemma argmin_unique (f : Z -> Q) n k : 0 <= k < n -> (f k == 0)%Q -> (forall i, 0 <= i < n -> i <> k -> (0 < f i)%Q) ->
  argminQ (map f (zrange 0 n)) = Ok k.
Proof.
  intros Hk H0 Hp. destruct (argmin_total (map f (zrange 0 n))) as (a & Ha).
  { rewrite zrange_cons by lia. discriminate. }
  rewrite Ha. f_equal. destruct (argminQ_spec _ _ Ha) as (R & y & Hy & Hmin).
  rewrite map_length, zrange_length in R.
  destruct (Z.eq_dec a k) as [|D]; [assumption|exfalso].
  assert (E : nth (Z.to_nat a) (map f (zrange 0 n)) 0%Q = f a) by (apply nth_map_zrange; lia).
  rewrite (nth_error_nth' _ 0%Q) in Hy by (rewrite map_length, zrange_length; lia). rewrite E in Hy. injection Hy as <-.
  assert (L : (f a <= f k)%Q). { apply Hmin. apply in_map. apply zrange_In. lia. }
  specialize (Hp a ltac:(lia) D). lra.
Qed.

Section ov.
Context (blur : img Q -> img Q) (corr : img Q -> img Q -> Q).
Context (corr_nonneg : forall a b, (0 <= corr a b)%Q) (corr_same : forall a b, img_Qeq a b -> (corr a b == 0)%Q).

Lemma metric_zero A pos off uo side ww roi2 :
  img_Qeq (cols A (pos - off) (pos + off)) roi2 ->
  (calc_overlap_metric corr A pos off uo side false ww roi2
     (weigh (if side =? 1 then (fun k => 1 - ramp_down ww k)%Q else ramp_down ww) roi2) == 0)%Q.
Proof.
  intros E. unfold calc_overlap_metric. set (roi := cols A (pos - off) (pos + off)) in *.
  destruct uo; [|apply corr_same, E].
  set (comb := img_add _ _).
  assert (C : img_Qeq roi comb).
  { destruct E as (E1 & E2 & E3). split; [reflexivity|]. split; [reflexivity|]. intros i j Hi Hj.
    unfold comb, img_add, weigh. cbn [px]. rewrite <- (E3 i j Hi Hj). destruct (side =? 1); ring. }
  assert (C2 : img_Qeq roi2 comb).
  { destruct E as (E1 & E2 & E3), C as (C1 & C2 & C3). split; [congruence|]. split; [congruence|].
    intros i j Hi Hj. rewrite <- C3 by congruence. symmetry. apply E3; congruence. }
  rewrite (corr_same _ _ E), (corr_same _ _ C), (corr_same _ _ C2). reflexivity.
Qed.
Lemma metric_pos A pos off uo side ww roi2 wei2 : (0 < corr (cols A (pos - off) (pos + off)) roi2)%Q ->
  (0 < calc_overlap_metric corr A pos off uo side false ww roi2 wei2)%Q.
Proof.
  intros H. unfold calc_overlap_metric. destruct uo; [|exact H].
  set (x := img_add _ _). pose proof (corr_nonneg (cols A (pos - off) (pos + off)) x). pose proof (corr_nonneg roi2 x).
  apply Qlt_shift_div_l; [reflexivity|]. lra.
Qed.

(** index of the matching window *)
Definition match_index (a b : img Q) (ov side off : Z) : Z := if side =? 1 then ncol a - ov else ov - 2 * off.
Definition ref_window (b : img Q) (side off : Z) : img Q :=
  if side =? 1 then cols b 0 (2 * off) else cols b (ncol b - 2 * off) (ncol b).

Lemma search_recovers A B w side ov uo order : (side = 0 \/ side = 1) -> 2 <= ncol A -> 2 <= ncol B -> 0 <= nrow A ->
  overlapping A B ov side ->
  let off := search_offset (ncol A) (ncol B) w in
  let n := ncol A - 2 * off in
  let k := match_index A B ov side off in
  2 <= k <= n - 3 ->
  (forall i, 0 <= i < n -> i <> k -> (0 < corr (cols A i (i + 2 * off)) (ref_window B side off))%Q) ->
  Permutation (zrange 0 n) order ->
  exists l p cv, search_overlap blur corr A B w side false false uo order = Ok (l, off) /\
    calculate_curvature l = Ok (cv, p) /\ (Qabs (p - inject_Z k) <= 1#2)%Q.
Proof.
  intros Hs HA HB Hr (Er & O1 & O2 & O3 & O) off n k Hk Hpos P.
  pose proof (search_offset_bounds (ncol A) (ncol B) w HA HB) as Bd. fold off in Bd.
  unfold search_overlap. cbv zeta. fold off.
  replace (negb (nrow A =? nrow B)) with false by lia. replace (2 * off <? 0) with false by lia.
  assert (Hn : Z.of_nat (length (prange off (ncol A - off))) = n).
  { unfold prange. rewrite zrange_length. unfold n. lia. }
  rewrite Hn, run_list_ok by exact P. cbn [bindr].
  set (wei := weigh _ _). set (roi2 := if side =? 1 then cols B 0 (2 * off) else cols B (ncol B - 2 * off) (ncol B)) in *.
  change (ref_window B side off) with roi2 in Hpos.
  set (f i := calc_overlap_metric corr A (nth (Z.to_nat i) (prange off (ncol A - off)) 0) off uo side false (2 * off) roi2 wei).
  assert (Fi : forall i, 0 <= i < n -> nth (Z.to_nat i) (prange off (ncol A - off)) 0 = off + i).
  { intros i Hi. unfold prange. rewrite zrange_nth by (unfold n in Hi; lia). lia. }
  assert (F0 : (f k == 0)%Q).
  { unfold f. rewrite Fi by lia. unfold wei.
    rewrite metric_zero; [reflexivity|].
    replace (off + k - off) with k by lia. replace (off + k + off) with (k + 2 * off) by lia.
    unfold n in Hk. destruct (cols_shape A k (k + 2 * off)) as (S1 & S2); [lia|lia|lia|lia|].
    unfold roi2, k, match_index in *. destruct Hs as [-> | ->]; [change (0 =? 1) with false in *; cbv iota in *|change (1 =? 1) with true in *; cbv iota in *].
    - destruct (cols_shape B (ncol B - 2 * off) (ncol B)) as (S3 & S4); [lia|lia|lia|lia|].
      split; [congruence|]. split; [lia|]. intros i j Hi Hj. unfold in_rng in *. rewrite !cols_px by lia.
      specialize (O i (ov - 2 * off + j) ltac:(unfold in_rng; lia) ltac:(lia)). cbn [Z.eqb] in O.
      replace (ncol B - 2 * off + j) with (ncol B - ov + (ov - 2 * off + j)) by lia. symmetry. exact O.
    - destruct (cols_shape B 0 (2 * off)) as (S3 & S4); [lia|lia|lia|lia|].
      split; [congruence|]. split; [lia|]. intros i j Hi Hj. unfold in_rng in *. rewrite !cols_px by lia.
      specialize (O i j ltac:(unfold in_rng; lia) ltac:(lia)). symmetry. exact O. }
  assert (Fp : forall i, 0 <= i < n -> i <> k -> (0 < f i)%Q).
  { intros i Hi D. unfold f. rewrite Fi by lia. apply metric_pos.
    replace (off + i - off) with i by lia. replace (off + i + off) with (i + 2 * off) by lia. apply Hpos; assumption. }
  fold f.
  change (map (fun i => calc_overlap_metric corr A (nth (Z.to_nat i) (prange off (ncol A - off)) 0) off uo side false (2 * off) roi2 wei) (zrange 0 n)) with (map f (zrange 0 n)).
  assert (Am : argminQ (map f (zrange 0 n)) = Ok k) by (apply argmin_unique; [lia|assumption|assumption]).
  rewrite Am. cbn [bindr].
  rewrite (lnth_ok _ _ 0%Q) by (rewrite map_length, zrange_length; lia). cbn [bindr].
  rewrite nth_map_zrange by lia.
  replace (Qeq_bool (f k) 0) with true by (symmetry; apply Qeq_bool_iff; exact F0). cbn [negb].
  assert (Ln : Z.of_nat (length (map f (zrange 0 n))) = n) by (rewrite map_length, zrange_length; lia).
  destruct (curvature_spec (map f (zrange 0 n))) as (k' & cv & p & A1 & A2 & _ & A3 & _). { lia. }
  rewrite Am in A1. injection A1 as <-.
  exists (map f (zrange 0 n)), p, cv. split; [reflexivity|]. split; [exact A2|]. apply A3. lia.
Qed.
Lemma find_overlap_off A B w side ov uo order order' : (side = 0 \/ side = 1) -> 2 <= ncol A -> 2 <= ncol B -> 0 <= nrow A ->
  overlapping A B ov side ->
  let w' := clipZ w 6 (Z.min (ncol A) (ncol B) / 2) in
  let off := search_offset (ncol A) (ncol B) w' in
  let n := ncol A - 2 * off in
  let k := match_index A B ov side off in
  2 <= k <= n - 3 ->
  (forall i, 0 <= i < n -> i <> k -> (0 < corr (cols A i (i + 2 * off)) (ref_window B side off))%Q) ->
  Permutation (zrange 0 n) order ->
  exists overlap p, find_overlap blur corr A B w (Some side) false false uo order order' = Ok (overlap, side, p) /\
    (Qabs (overlap - inject_Z (ov + (w' / 2 - off))) <= 1#2)%Q.
Proof.
  intros Hs HA HB Hr HO w' off n k Hk Hpos P.
  destruct (search_recovers A B w' side ov uo order Hs HA HB Hr HO Hk Hpos P) as (l & p & cv & E1 & E2 & E3).
  unfold find_overlap. cbv zeta. fold w'. destruct Hs as [-> | ->].
  - cbn [Z.eqb]. rewrite E1. cbn [bindr fst snd]. rewrite E2. cbn [bindr fst snd].
    eexists. eexists. split; [reflexivity|].
    eapply Qle_trans; [|exact E3]. unfold off, k, match_index. cbn [Z.eqb]. fold off.
    rewrite (Qabs_wd _ (p - inject_Z (ov - 2 * off))); [apply Qle_refl|].
    unfold Z.sub. repeat (rewrite inject_Z_plus || rewrite inject_Z_opp || rewrite inject_Z_mult). change (inject_Z 2) with 2%Q. ring.
  - change (1 =? 1) with true. cbv iota. rewrite E1. cbn [bindr fst snd]. rewrite E2. cbn [bindr fst snd].
    eexists. eexists. split; [reflexivity|].
    eapply Qle_trans; [|exact E3]. unfold k, match_index. change (1 =? 1) with true. cbv iota. fold off.
    rewrite (Qabs_wd _ (- (p - inject_Z (ncol A - ov)))).
    + rewrite Qabs_opp. apply Qle_refl.
    + unfold Z.sub. repeat (rewrite inject_Z_plus || rewrite inject_Z_opp). ring.
Qed.
End ov.
Lemma half_small n1 n2 w : 6 <= w -> w < Z.min n1 n2 / 2 ->
  let w' := clipZ w 6 (Z.min n1 n2 / 2) in w' / 2 = search_offset n1 n2 w'.
Proof. intros H1 H2 w'. unfold search_offset, w', clipZ. f_equal. lia. Qed.
Lemma half_large n1 n2 w : 7 <= Z.min n1 n2 / 2 -> Z.min n1 n2 / 2 <= w -> (Z.min n1 n2 / 2) mod 2 = 0 ->
  let w' := clipZ w 6 (Z.min n1 n2 / 2) in w' / 2 = search_offset n1 n2 w' + 1.
Proof.
  intros H1 H2 H3 w'. unfold search_offset, w', clipZ. set (h := Z.min n1 n2 / 2) in *.
  replace (Z.min (Z.max w 6) h) with h by lia. replace (Z.min (Z.max h 6) (h - 1)) with (h - 1) by lia.
  apply Z.mod_divide in H3; [|lia]. destruct H3 as (t & ->). rewrite Z.div_mul by lia.
  replace (t * 2 - 1) with ((t - 1) * 2 + 1) by lia. rewrite Z.div_add_l by lia. cbn. lia.
Qed.
