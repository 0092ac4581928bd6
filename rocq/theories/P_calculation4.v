From Verif Require Import Np P_Np M_utility M_conversion M_correction P_utility P_conversion P_conversion3 P_correction M_calculation S_calculation P_calculation P_calculation2 P_calculation3.
From Coq Require Import QArith Qround Qabs Permutation Lqa.
From Coq Require Import List. Import ListNotations.
Open Scope Z_scope.

(** mirrored projections and the overlap of the flipped one *)
Lemma mirror_overlap a b c2 side : nrow a = nrow b -> ncol a = ncol b -> 0 <= c2 <= 2 * ncol a - 2 -> (side = 0 \/ side = 1) ->
  mirrored a b c2 -> let ov := if side =? 0 then c2 + 1 else 2 * ncol a - 1 - c2 in
  ov <= ncol a -> overlapping a (ifliplr b) ov side /\ (axis_of_overlap (ncol a) (inject_Z ov) side == inject_Z c2 / 2)%Q.
Proof.
  intros Er Ec Hc Hs M ov Hov. unfold ov in *. destruct Hs as [-> | ->].
  - change (0 =? 0) with true in *. cbv iota in *. split.
    + split; [exact Er|]. split; [lia|]. split; [lia|]. split; [cbn; lia|]. intros i j Hi Hj.
      change (0 =? 1) with false. cbv iota. unfold ifliplr. cbn [px ncol]. 
      replace (ncol b - 1 - (ncol b - (c2 + 1) + j)) with (c2 - j) by lia. apply M; [exact Hi| |]; unfold in_rng; lia.
    + unfold axis_of_overlap. change (0 =? 0) with true. cbv iota. rewrite inject_Z_plus. change (inject_Z 1) with 1%Q. field.
  - change (1 =? 0) with false in *. cbv iota in *. split.
    + split; [exact Er|]. split; [lia|]. split; [lia|]. split; [cbn [ifliplr ncol]; lia|]. intros i j Hi Hj.
      change (1 =? 1) with true. cbv iota. unfold ifliplr. cbn [px ncol].
      replace (ncol b - 1 - j) with (c2 - (ncol a - (2 * ncol a - 1 - c2) + j)) by lia. apply M; [exact Hi| |]; unfold in_rng; lia.
    + unfold axis_of_overlap. change (1 =? 0) with false. cbv iota.
      unfold Z.sub. repeat (rewrite inject_Z_plus || rewrite inject_Z_opp || rewrite inject_Z_mult). change (inject_Z 1) with 1%Q. change (inject_Z 2) with 2%Q. field.
Qed.
Section S.
Context (blur : img Q -> img Q) (corr : img Q -> img Q -> Q).
Lemma center_360_axis sino w side den norm uo o o' ov s p :
  let n180 := nrow sino / 2 + 1 in
  find_overlap blur corr (islice sino 0 n180 0 (ncol sino)) (ifliplr (islice sino (- n180) (nrow sino) 0 (ncol sino))) w side den norm uo o o' = Ok (ov, s, p) ->
  exists cor, find_center_360 blur corr sino w side den norm uo o o' = Ok (cor, ov, s, p) /\ (cor == axis_of_overlap (ncol sino) ov s)%Q.
Proof.
  intros n180 E. unfold find_center_360. cbv zeta. fold n180. rewrite E. cbn [bindr]. eexists. split; [reflexivity|].
  unfold axis_of_overlap. destruct (s =? 0); [field|]. rewrite inject_Z_mult. change (inject_Z 2) with 2%Q. field.
Qed.
Lemma center_projection_axis mat1 mat2 (flip : bool) w ch sr den norm uo o o' ov s p :
  let '(start, stop) := projection_rows (nrow mat1) ch sr in
  let m2 := if flip then ifliplr mat2 else mat2 in
  find_overlap blur corr (islice mat1 start stop 0 (ncol mat1)) (islice m2 start stop 0 (ncol m2)) w None den norm uo o o' = Ok (ov, s, p) ->
  exists cor, find_center_projection blur corr mat1 mat2 flip w ch sr den norm uo o o' = Ok cor /\
    (cor == axis_of_overlap (ncol mat1) ov s - (1#2))%Q.
Proof.
  unfold find_center_projection. destruct (projection_rows (nrow mat1) ch sr) as [start stop]. cbv zeta. intros E. rewrite E. cbn [bindr].
  eexists. split; [reflexivity|]. unfold axis_of_overlap. destruct (s =? 0); [field|]. rewrite inject_Z_mult. change (inject_Z 2) with 2%Q. field.
Qed.
Lemma projection_rows_inside nr ch sr : 2 <= nr -> let '(start, stop) := projection_rows nr ch sr in
  0 <= start /\ start < stop /\ stop <= nr.
Proof.
  intros H. unfold projection_rows, clipZ. cbv zeta. set (c := Z.min (Z.max ch 1) (nr - 1)).
  assert (1 <= c <= nr - 1) by (unfold c; lia).
  pose proof (Z.mul_div_le nr 2 ltac:(lia)). pose proof (Z.mul_div_le c 2 ltac:(lia)).
  pose proof (Z.mul_succ_div_gt nr 2 ltac:(lia)). pose proof (Z.mul_succ_div_gt c 2 ltac:(lia)).
  destruct sr as [r|]; lia.
Qed.
Lemma center_360_recovers sino w side uo o o' c2 :
  (forall a b, (0 <= corr a b)%Q) -> (forall a b, img_Qeq a b -> (corr a b == 0)%Q) ->
  1 <= nrow sino -> 2 <= ncol sino -> (side = 0 \/ side = 1) -> 0 <= c2 <= 2 * ncol sino - 2 ->
  let n180 := nrow sino / 2 + 1 in
  let top := islice sino 0 n180 0 (ncol sino) in
  let last := islice sino (nrow sino - n180) (nrow sino) 0 (ncol sino) in
  mirrored top last c2 ->
  let ov := if side =? 0 then c2 + 1 else 2 * ncol sino - 1 - c2 in
  6 <= w < ncol sino / 2 ->
  let off := w / 2 in
  let n := ncol sino - 2 * off in
  let k := if side =? 1 then ncol sino - ov else ov - 2 * off in
  2 <= k <= n - 3 ->
  (forall i, 0 <= i < n -> i <> k ->
     (0 < corr (cols top i (i + 2 * off)) (if side =? 1 then cols (ifliplr last) 0 (2 * off) else cols (ifliplr last) (ncol sino - 2 * off) (ncol sino)))%Q) ->
  Permutation (zrange 0 n) o ->
  exists cor overlap p, find_center_360 blur corr sino w (Some side) false false uo o o' = Ok (cor, overlap, side, p) /\
    (Qabs (cor - inject_Z c2 / 2) <= 1#4)%Q.
Proof.
  intros Cn Cs Hr Hc Hs Hc2 n180 top last M ov Hw off n k Hk Hpos P.
  assert (N1 : 1 <= n180 <= nrow sino).
  { unfold n180. pose proof (Z.mul_div_le (nrow sino) 2 ltac:(lia)). assert (0 <= nrow sino / 2) by (apply Z.div_pos; lia). lia. }
  assert (L : islice sino (- n180) (nrow sino) 0 (ncol sino) = last).
  { unfold last, islice, slen. rewrite (py_adj_neg _ n180) by lia. rewrite (py_adj_id _ (nrow sino - n180)) by lia. reflexivity. }
  assert (T1 : nrow top = n180 /\ ncol top = ncol sino).
  { unfold top, islice. cbn [nrow ncol]. rewrite !slen_id by lia. lia. }
  assert (T2 : nrow last = n180 /\ ncol last = ncol sino).
  { unfold last, islice. cbn [nrow ncol]. rewrite !slen_id by lia. lia. }
  assert (Hoff : search_offset (ncol top) (ncol (ifliplr last)) (clipZ w 6 (Z.min (ncol top) (ncol (ifliplr last)) / 2)) = off /\
                 clipZ w 6 (Z.min (ncol top) (ncol (ifliplr last)) / 2) / 2 = off).
  { cbn [ifliplr ncol]. destruct T1 as [_ ->], T2 as [_ ->]. rewrite Z.min_id.
    assert (Ew : clipZ w 6 (ncol sino / 2) = w) by (unfold clipZ; lia). rewrite Ew.
    split; [|reflexivity]. unfold search_offset. rewrite Z.min_id. unfold clipZ, off. f_equal. lia. }
  destruct Hoff as [Hoff Hhalf].
  assert (Hof : 0 <= off) by (unfold off; apply Z.div_pos; lia).
  assert (Hov : ov <= ncol sino).
  { unfold k, n in Hk. destruct Hs as [-> | ->].
    - change (0 =? 1) with false in Hk. cbv iota in Hk. lia.
    - change (1 =? 1) with true in Hk. cbv iota in Hk. lia. }
  assert (OV : overlapping top (ifliplr last) ov side).
  { destruct (mirror_overlap top last c2 side) as (O & _); [lia|lia|lia|exact Hs|exact M|destruct T1 as [_ ->]; exact Hov|].
    destruct T1 as [_ T1]. rewrite T1 in O. exact O. }
  destruct (find_overlap_off blur corr Cn Cs top (ifliplr last) w side ov uo o o' Hs) as (overlap & p & E & B);
    try (cbn [ifliplr ncol]; lia); try exact OV.
  - rewrite Hoff. unfold match_index. destruct T1 as [_ T1]. rewrite T1. exact Hk.
  - rewrite Hoff. unfold match_index, ref_window. cbn [ifliplr ncol]. destruct T1 as [_ T1], T2 as [_ T2]. rewrite T1, T2. exact Hpos.
  - rewrite Hoff. destruct T1 as [_ T1]. rewrite T1. exact P.
  - rewrite Hoff, Hhalf in B. replace (ov + (off - off)) with ov in B by lia.
    assert (E' := E). rewrite <- L in E'.
    destruct (center_360_axis sino w (Some side) false false uo o o' overlap side p E') as (cor & C1 & C2).
    exists cor, overlap, p. split; [exact C1|].
    destruct (mirror_overlap top last c2 side) as (_ & Ax); [lia|lia|lia|exact Hs|exact M|destruct T1 as [_ ->]; exact Hov|].
    destruct T1 as [_ T1]. rewrite T1 in Ax. fold ov in Ax.
    rewrite C2, <- Ax. apply Qabs_Qle_condition in B. apply Qabs_Qle_condition.
    unfold axis_of_overlap. destruct (side =? 0); unfold Qdiv; change (/ 2)%Q with (1#2)%Q; split; lra.
Qed.
(** ** flags *)
Lemma none_swaps A B w den norm uo o o' ov s p :
  find_overlap blur corr A B w None den norm uo o o' = Ok (ov, s, p) ->
  (s = 0 \/ s = 1) /\ find_overlap blur corr A B w (Some s) norm den uo (if s =? 1 then o else o') o' = Ok (ov, s, p).
Proof.
  unfold find_overlap. cbv zeta. set (w' := clipZ w 6 _).
  destruct (search_overlap blur corr A B w' 1 norm den uo o) as [lo1|e1] eqn:E1; cbn [bindr]; [|discriminate].
  destruct (search_overlap blur corr A B w' 0 norm den uo o') as [lo2|e2] eqn:E2; cbn [bindr]; [|discriminate].
  destruct (calculate_curvature (fst lo1)) as [cp1|] eqn:E3; cbn [bindr]; [|discriminate].
  destruct (calculate_curvature (fst lo2)) as [cp2|] eqn:E4; cbn [bindr]; [|discriminate].
  destruct (Qltb (fst cp2) (fst cp1)); intros H; injection H as <- <- <-.
  - split; [auto|]. change (1 =? 1) with true. cbv iota. rewrite E1. cbn [bindr]. rewrite E3. cbn [bindr]. reflexivity.
  - split; [auto|]. change (0 =? 1) with false. change (0 =? 0) with true. cbv iota. rewrite E2. cbn [bindr]. rewrite E4. cbn [bindr]. reflexivity.
Qed.
Lemma search_denoise A B w s norm uo o : 
  search_overlap blur corr A B w s true norm uo o = search_overlap (fun m => m) corr (blur A) (blur B) w s false norm uo o.
Proof. reflexivity. Qed.
Lemma some_denoise A B w s norm uo o o' : (s = 0 \/ s = 1) -> ncol (blur A) = ncol A -> ncol (blur B) = ncol B ->
  find_overlap blur corr A B w (Some s) true norm uo o o' = find_overlap (fun m => m) corr (blur A) (blur B) w (Some s) false norm uo o o'.
Proof.
  intros [-> | ->] H1 H2; unfold find_overlap; cbv zeta; rewrite H1, H2; reflexivity.
Qed.
End S.
Lemma default_never_denoises corr A B w uo o o' blur blur' :
  find_overlap blur corr A B w None true false uo o o' = find_overlap blur' corr A B w None true false uo o o'.
Proof. reflexivity. Qed.

(** ** overlap positions for any images *)
Lemma find_overlap_position blur corr A B w side den norm uo o o' ov s p :
  find_overlap blur corr A B w side den norm uo o o' = Ok (ov, s, p) ->
  let h := inject_Z (clipZ w 6 (Z.min (ncol A) (ncol B) / 2) / 2) in
  (ov == if s =? 1 then inject_Z (ncol A) - p + h else p + h)%Q.
Proof.
  unfold find_overlap. cbv zeta. set (w' := clipZ w 6 _).
  assert (Both : forall r, (do lo1 <- search_overlap blur corr A B w' 1 norm den uo o;
    do lo2 <- search_overlap blur corr A B w' 0 norm den uo o';
    do cp1 <- calculate_curvature (fst lo1);
    do cp2 <- calculate_curvature (fst lo2);
    let p1 := (snd cp1 + inject_Z (snd lo1))%Q in
    let p2 := (snd cp2 + inject_Z (snd lo2))%Q in
    if Qltb (fst cp2) (fst cp1) then Ok ((inject_Z (ncol A) - p1 + inject_Z (w' / 2))%Q, 1, p1) else Ok ((p2 + inject_Z (w' / 2))%Q, 0, p2)) = Ok r ->
    (fst (fst r) == if snd (fst r) =? 1 then inject_Z (ncol A) - snd r + inject_Z (w' / 2) else snd r + inject_Z (w' / 2))%Q).
  { intros r. destruct (search_overlap blur corr A B w' 1 norm den uo o); cbn [bindr]; [|discriminate].
    destruct (search_overlap blur corr A B w' 0 norm den uo o'); cbn [bindr]; [|discriminate].
    destruct (calculate_curvature (fst a)); cbn [bindr]; [|discriminate].
    destruct (calculate_curvature (fst a0)); cbn [bindr]; [|discriminate].
    destruct (Qltb _ _); intros H; injection H as <-; cbn [fst snd]; reflexivity. }
  destruct side as [s0|].
  - destruct (Z.eqb_spec s0 1) as [-> |D1].
    + destruct (search_overlap blur corr A B w' 1 den norm uo o); cbn [bindr]; [|discriminate].
      destruct (calculate_curvature (fst a)); cbn [bindr]; [|discriminate].
      intros H; injection H as <- <- <-. reflexivity.
    + destruct (Z.eqb_spec s0 0) as [-> |D0].
      * destruct (search_overlap blur corr A B w' 0 den norm uo o); cbn [bindr]; [|discriminate].
        destruct (calculate_curvature (fst a)); cbn [bindr]; [|discriminate].
        intros H; injection H as <- <- <-. reflexivity.
      * intros H. apply (Both (ov, s, p)) in H. exact H.
  - intros H. apply (Both (ov, s, p)) in H. exact H.
Qed.
(** ** schedules *)
Lemma search_schedule blur corr A B w s (den : bool) norm uo o1 o2 :
  let m1 := if den then blur A else A in let m2 := if den then blur B else B in
  let n := ncol m1 - 2 * search_offset (ncol m1) (ncol m2) w in
  0 <= n -> Permutation (zrange 0 n) o1 -> Permutation (zrange 0 n) o2 ->
  search_overlap blur corr A B w s den norm uo o1 = search_overlap blur corr A B w s den norm uo o2.
Proof.
  intros m1 m2 n Hn P1 P2. unfold search_overlap. cbv zeta. fold m1 m2. destruct (negb _); [reflexivity|].
  destruct (_ <? 0); [reflexivity|].
  assert (L : Z.of_nat (length (prange (search_offset (ncol m1) (ncol m2) w) (ncol m1 - search_offset (ncol m1) (ncol m2) w))) = n).
  { unfold prange. rewrite zrange_length. unfold n. lia. }
  rewrite L, !run_list_ok by assumption. reflexivity.
Qed.

(** ** phase correlation peak *)
Lemma subpixel_half x y0 y1 y2 : (y0 <= y1)%Q -> (y2 <= y1)%Q -> (Qabs (subpixel x [y0; y1; y2] - inject_Z x) <= 1#2)%Q.
Proof.
  intros H0 H2. unfold subpixel. pose proof (vertex_half (inject_Z x) y0 y1 y2 (or_intror (conj H0 H2))) as V.
  destruct (polyfit3 (inject_Z x) [y0; y1; y2]) as [a b].
  assert (Z0 : (Qabs (inject_Z x - inject_Z x) <= 1#2)%Q) by (rewrite (Qabs_wd _ 0) by ring; discriminate).
  destruct (negb (Qeq_bool a 0)) eqn:Ea; [|exact Z0].
  destruct (_ && _); [|exact Z0]. apply V. intros C. apply Qeq_bool_iff in C. rewrite C in Ea. discriminate.
Qed.
Lemma wrap_spec n t : 1 <= n -> (- (1#2) <= t)%Q -> (t <= inject_Z n - (1#2))%Q ->
  (wrap_shift n t == t \/ wrap_shift n t == t - inject_Z n)%Q /\
  (- (inject_Z (n - n / 2)) <= wrap_shift n t)%Q /\ (wrap_shift n t <= inject_Z (n / 2))%Q.
Proof.
  intros Hn L H. unfold wrap_shift.
  assert (0 <= n / 2) by (apply Z.div_pos; lia). pose proof (Z.mul_div_le n 2 ltac:(lia)).
  assert (A1 : (0 <= inject_Z (n / 2))%Q) by (change 0%Q with (inject_Z 0); rewrite <- Zle_Qle; lia).
  assert (A2 : (1 <= inject_Z (n - n / 2))%Q) by (change 1%Q with (inject_Z 1); rewrite <- Zle_Qle; lia).
  assert (A3 : (inject_Z (n - n / 2) == inject_Z n - inject_Z (n / 2))%Q) by (unfold Z.sub; rewrite inject_Z_plus, inject_Z_opp; ring).
  destruct (Qltb (inject_Z (n / 2)) t) eqn:E.
  - apply Qltb_lt in E. split; [right; ring|]. split; lra.
  - apply Qltb_f in E. split; [left; reflexivity|]. split; lra.
Qed.
Lemma subpixel_vertex x y0 y1 y2 : (y0 <= y1)%Q -> (y2 <= y1)%Q ->
  ((subpixel x [y0; y1; y2] - inject_Z x) * (2 * (y0 - 2 * y1 + y2)) == y0 - y2)%Q.
Proof.
  intros H0 H2. unfold subpixel. pose proof (vertex_half (inject_Z x) y0 y1 y2 (or_intror (conj H0 H2))) as V.
  cbn [polyfit3] in *. set (a := ((y0 - 2 * y1 + y2) / 2)%Q) in *. set (b := ((y2 - y0) / 2 - 2 * a * inject_Z x)%Q) in *.
  assert (Ea : (y0 - 2 * y1 + y2 == 2 * a)%Q) by (unfold a; field).
  destruct (Qeq_bool a 0) eqn:E; cbn [negb].
  - apply Qeq_bool_iff in E. rewrite E in Ea. assert (y0 == y1)%Q by lra. assert (y2 == y1)%Q by lra. rewrite H, H1. ring.
  - assert (N : ~ (a == 0)%Q) by (intros C; apply Qeq_bool_iff in C; congruence). specialize (V N).
    apply Qabs_Qle_condition in V. set (num := (- b / (2 * a))%Q) in *.
    assert (R1 : (inject_Z (x - 1) <= num)%Q) by (unfold Z.sub; rewrite inject_Z_plus; change (inject_Z (-(1))) with (-1)%Q; lra).
    assert (R2 : (num <= inject_Z (x + 1))%Q) by (rewrite inject_Z_plus; change (inject_Z 1) with 1%Q; lra).
    apply Qle_bool_iff in R1, R2. rewrite R1, R2. cbn [andb]. rewrite Ea. unfold num, b. field. exact N.
Qed.
Lemma peak_spec m ty tx : 1 <= nrow m -> 1 <= ncol m -> in_rng (nrow m) ty -> in_rng (ncol m) tx ->
  (forall i j, in_rng (nrow m) i -> in_rng (ncol m) j -> (px m i j <= px m ty tx)%Q) ->
  let up := px m ((ty - 1) mod nrow m) tx in let down := px m ((ty + 1) mod nrow m) tx in
  let before := px m ty ((tx - 1) mod ncol m) in let after := px m ty ((tx + 1) mod ncol m) in
  exists sy sx dy dx, peak_shift m ty tx = Ok (sy, sx) /\
    (Qabs dy <= 1#2)%Q /\ (Qabs dx <= 1#2)%Q /\
    (dy * (2 * (up - 2 * px m ty tx + down)) == up - down)%Q /\
    (dx * (2 * (before - 2 * px m ty tx + after)) == before - after)%Q /\
    (sy == inject_Z ty + dy \/ sy == inject_Z ty + dy - inject_Z (nrow m))%Q /\
    (sx == inject_Z tx + dx \/ sx == inject_Z tx + dx - inject_Z (ncol m))%Q /\
    (- (inject_Z (nrow m - nrow m / 2)) <= sy)%Q /\ (sy <= inject_Z (nrow m / 2))%Q /\
    (- (inject_Z (ncol m - ncol m / 2)) <= sx)%Q /\ (sx <= inject_Z (ncol m / 2))%Q.
Proof.
  intros Hr Hc Hy Hx Hmax. cbv zeta. unfold peak_shift. unfold in_rng in *.
  rewrite !py_idx_in with (i := ty) by lia. rewrite !py_idx_in with (i := tx) by lia. cbn [bindr].
  assert (K : forall n t, 1 <= n -> 0 <= t < n -> py_idx n (t - 1) = Ok ((t - 1) mod n) /\ 0 <= (t - 1) mod n < n).
  { intros n t H1 H2. split; [|apply Z.mod_pos_bound; lia]. unfold py_idx. destruct (Z.leb_spec 0 (t - 1)).
    - replace (t - 1 <? n) with true by lia. cbn [andb]. rewrite Z.mod_small by lia. reflexivity.
    - cbn [andb]. replace (- n <=? t - 1) with true by lia. replace (t - 1 <? 0) with true by lia. cbn [andb].
      f_equal. apply (Z.mod_unique _ _ (-1)); lia. }
  destruct (K (ncol m) tx Hc Hx) as (-> & Hl). cbn [bindr].
  pose proof (Z.mod_pos_bound (tx + 1) (ncol m) ltac:(lia)). rewrite (py_idx_in (ncol m) ((tx + 1) mod ncol m)) by lia. cbn [bindr].
  destruct (K (nrow m) ty Hr Hy) as (-> & Hu). cbn [bindr].
  pose proof (Z.mod_pos_bound (ty + 1) (nrow m) ltac:(lia)). rewrite (py_idx_in (nrow m) ((ty + 1) mod nrow m)) by lia. cbn [bindr].
  set (Y := subpixel ty _). set (X := subpixel tx _).
  assert (BY : (Qabs (Y - inject_Z ty) <= 1#2)%Q) by (apply subpixel_half; apply Hmax; lia).
  assert (BX : (Qabs (X - inject_Z tx) <= 1#2)%Q) by (apply subpixel_half; apply Hmax; lia).
  assert (G : forall n t V, 0 <= t < n -> (Qabs (V - inject_Z t) <= 1#2)%Q -> (- (1#2) <= V)%Q /\ (V <= inject_Z n - (1#2))%Q).
  { intros n t V Ht HV. apply Qabs_Qle_condition in HV.
    assert (0 <= inject_Z t)%Q by (change 0%Q with (inject_Z 0); rewrite <- Zle_Qle; lia).
    assert (inject_Z t <= inject_Z (n - 1))%Q by (rewrite <- Zle_Qle; lia).
    unfold Z.sub in H2. rewrite inject_Z_plus in H2. change (inject_Z (-(1))) with (-1)%Q in H2. split; lra. }
  destruct (G _ _ _ Hy BY) as [Y1 Y2]. destruct (G _ _ _ Hx BX) as [X1 X2].
  destruct (wrap_spec (nrow m) Y Hr Y1 Y2) as (WY & WY1 & WY2). destruct (wrap_spec (ncol m) X Hc X1 X2) as (WX & WX1 & WX2).
  exists (wrap_shift (nrow m) Y), (wrap_shift (ncol m) X), (Y - inject_Z ty)%Q, (X - inject_Z tx)%Q.
  split; [reflexivity|]. split; [exact BY|]. split; [exact BX|].
  split; [apply subpixel_vertex; apply Hmax; lia|]. split; [apply subpixel_vertex; apply Hmax; lia|].
  split; [destruct WY as [WY|WY]; [left|right]; rewrite WY; ring|].
  split; [destruct WX as [WX|WX]; [left|right]; rewrite WX; ring|].
  split; [exact WY1|]. split; [exact WY2|]. split; [exact WX1|exact WX2].
Qed.
Lemma projection_rows_default nr ch : 2 <= nr -> 1 <= ch <= nr - 1 ->
  projection_rows nr ch None = (Z.min (nr / 2 - ch / 2) (nr - ch - 1), nr / 2 - ch / 2 + ch).
Proof.
  intros Hn Hc. unfold projection_rows, clipZ. replace (Z.min (Z.max ch 1) (nr - 1)) with ch by lia.
  pose proof (Z.div_mod nr 2 ltac:(lia)). pose proof (Z.mod_pos_bound nr 2 ltac:(lia)).
  pose proof (Z.div_mod ch 2 ltac:(lia)). pose proof (Z.mod_pos_bound ch 2 ltac:(lia)). f_equal; lia.
Qed.
Lemma projection_rows_given nr ch r : 2 <= nr -> 1 <= ch <= nr - 1 -> 0 <= r <= nr / 2 - ch / 2 ->
  projection_rows nr ch (Some r) = (Z.min r (nr - ch - 1), r + ch).
Proof.
  intros Hn Hc Hr. unfold projection_rows, clipZ. replace (Z.min (Z.max ch 1) (nr - 1)) with ch by lia.
  pose proof (Z.div_mod nr 2 ltac:(lia)). pose proof (Z.mod_pos_bound nr 2 ltac:(lia)).
  pose proof (Z.div_mod ch 2 ltac:(lia)). pose proof (Z.mod_pos_bound ch 2 ltac:(lia)). f_equal; lia.
Qed.
Lemma overlap_pairs_spec f mats out : overlap_pairs mats f = Ok out ->
  length out = (length mats - 1)%nat /\
  forall k a b, nth_error mats k = Some a -> nth_error mats (S k) = Some b -> exists r, nth_error out k = Some r /\ f a b = Ok r.
Proof.
  revert out. induction mats as [|x mats IH]; intros out H.
  - cbn in H. injection H as <-. split; [reflexivity|]. intros [|k] a b; discriminate.
  - destruct mats as [|y mats]; [cbn in H; injection H as <-; split; [reflexivity|]; intros [|[|k] ] a b; cbn; discriminate|].
    change (overlap_pairs (x :: y :: mats) f) with (do r <- f x y; do rs <- overlap_pairs (y :: mats) f; Ok (r :: rs)) in H.
    destruct (f x y) as [r|] eqn:E; cbn [bindr] in H; [|discriminate].
    destruct (overlap_pairs (y :: mats) f) as [rs|] eqn:E2; cbn [bindr] in H; [|discriminate]. injection H as <-.
    destruct (IH rs eq_refl) as [L N]. split; [cbn [length] in *; lia|].
    intros [|k] a b Ha Hb.
    + cbn in Ha, Hb. injection Ha as <-. injection Hb as <-. exists r. split; [reflexivity|exact E].
    + cbn [nth_error] in Ha. change (nth_error (x :: y :: mats) (S (S k))) with (nth_error (y :: mats) (S k)) in Hb.
      destruct (N k a b Ha Hb) as (q & Q1 & Q2). exists q. split; [exact Q1|exact Q2].
Qed.
Lemma shift_mirror a b t c2 : nrow a = nrow b -> ncol a = ncol b -> c2 = ncol a - 1 + t ->
  (forall i x, in_rng (nrow a) i -> in_rng (ncol a) x -> in_rng (ncol a) (x - t) -> (px a i x == px (ifliplr b) i (x - t)%Z)%Q) ->
  mirrored a b c2 /\ (center_from_shift (ncol a) (inject_Z t) == inject_Z c2 / 2)%Q.
Proof.
  intros Er Ec -> H. split.
  - intros i x Hi Hx Hb. unfold in_rng in *. specialize (H i x Hi Hx ltac:(unfold in_rng; lia)). unfold ifliplr in H. cbn [px] in H.
    replace (ncol b - 1 - (x - t)) with (ncol a - 1 + t - x) in H by lia. symmetry. exact H.
  - unfold center_from_shift, Z.sub. rewrite !inject_Z_plus. change (inject_Z (-(1))) with (-1)%Q. field.
Qed.

(** what calculate_curvature fits *)
Lemma lslice5 {V} (l : list V) k d : 2 <= k -> k + 3 <= Z.of_nat (length l) ->
  lslice l (k - 2) (k + 2 + 1) = [nth (Z.to_nat (k - 2)) l d; nth (Z.to_nat (k - 1)) l d; nth (Z.to_nat k) l d; nth (Z.to_nat (k + 1)) l d; nth (Z.to_nat (k + 2)) l d].
Proof.
  intros H1 H2. unfold lslice. rewrite slen_id, py_adj_id by lia.
  replace (Z.to_nat (k + 2 + 1 - (k - 2))) with 5%nat by lia. set (s := Z.to_nat (k - 2)).
  rewrite (P_calculation3.skipn_cons l s d) by lia. rewrite (P_calculation3.skipn_cons l (S s) d) by lia. rewrite (P_calculation3.skipn_cons l (S (S s)) d) by lia.
  rewrite (P_calculation3.skipn_cons l (S (S (S s))) d) by lia. rewrite (P_calculation3.skipn_cons l (S (S (S (S s)))) d) by lia. cbn [firstn].
  replace (Z.to_nat (k - 1)) with (S s) by lia. replace (Z.to_nat k) with (S (S s)) by lia. replace (Z.to_nat (k + 1)) with (S (S (S s))) by lia.
  replace (Z.to_nat (k + 2)) with (S (S (S (S s)))) by lia. reflexivity.
Qed.
Lemma curvature_fits l : 5 <= Z.of_nat (length l) ->
  let n := Z.of_nat (length l) in let y := fun k => nth (Z.to_nat k) l 0%Q in
  exists k cv p a b c a2 b2 c2, argminQ l = Ok k /\ calculate_curvature l = Ok (cv, p) /\
  let q := Z.max 2 (Z.min k (n - 3)) in
  (cv == Qabs a)%Q /\
  (forall a' b' c', (sse5 a b c (y (q - 2)%Z) (y (q - 1)%Z) (y q) (y (q + 1)%Z) (y (q + 2)%Z) <= sse5 a' b' c' (y (q - 2)%Z) (y (q - 1)%Z) (y q) (y (q + 1)%Z) (y (q + 2)%Z))%Q) /\
  (quadratic a2 b2 c2 (inject_Z (q - 1)) == y (q - 1)%Z /\ quadratic a2 b2 c2 (inject_Z q) == y q /\ quadratic a2 b2 c2 (inject_Z (q + 1)) == y (q + 1)%Z)%Q /\
  (((2 * a2 * p + b2 == 0)%Q /\ ~ (a2 == 0)%Q /\ (Qabs (p - inject_Z q) <= 1)%Q) \/
   ((p == inject_Z q)%Q /\ forall v, (2 * a2 * v + b2 == 0)%Q -> ~ (a2 == 0)%Q -> (1 < Qabs (v - inject_Z q))%Q)).
Proof.
  intros Hn n y. destruct (argmin_total l) as (k & Hk). { destruct l; [cbn in Hn; lia|discriminate]. }
  exists k. unfold calculate_curvature. rewrite Hk. cbn [bindr]. fold n.
  assert (Q0 : clipZ k 2 (n - 2 - 1) = Z.max 2 (Z.min k (n - 3))) by (unfold clipZ; lia). rewrite Q0. set (q := Z.max 2 (Z.min k (n - 3))).
  assert (Hq : 2 <= q <= n - 3) by (unfold q; lia).
  rewrite (lslice3 l q 0%Q) by (fold n; lia). rewrite (lslice5 l q 0%Q) by (fold n; lia).
  fold (y (q - 2)) (y (q - 1)) (y q) (y (q + 1)) (y (q + 2)).
  destruct (polyfit5_least_squares (y (q - 2)) (y (q - 1)) (y q) (y (q + 1)) (y (q + 2))) as (b & c & Hls). set (a := polyfit5_a _) in *.
  destruct (polyfit3_interpolates (inject_Z q) (y (q - 1)) (y q) (y (q + 1))) as (c2 & H3).
  destruct (polyfit3 (inject_Z q) _) as [a2 b2].
  assert (I1 : (inject_Z (q - 1) == inject_Z q - 1)%Q) by (unfold Z.sub; rewrite inject_Z_plus; reflexivity).
  assert (I2 : (inject_Z (q + 1) == inject_Z q + 1)%Q) by (rewrite inject_Z_plus; reflexivity).
  assert (H3' : (quadratic a2 b2 c2 (inject_Z (q - 1)) == y (q - 1)%Z /\ quadratic a2 b2 c2 (inject_Z q) == y q /\ quadratic a2 b2 c2 (inject_Z (q + 1)) == y (q + 1)%Z)%Q).
  { destruct H3 as (A & B & C). unfold quadratic in *. split; [|split]; [rewrite I1; exact A|exact B|rewrite I2; exact C]. }
  destruct (Qeq_bool a2 0) eqn:Ea; cbn [negb].
  - apply Qeq_bool_iff in Ea. exists (Qabs a), (inject_Z q), a, b, c, a2, b2, c2. split; [reflexivity|]. split; [reflexivity|]. split; [reflexivity|]. split; [exact Hls|]. split; [exact H3'|].
    right. split; [reflexivity|]. intros v _ N. contradiction.
  - assert (Na : ~ (a2 == 0)%Q) by (intros C; apply Qeq_bool_iff in C; congruence).
    assert (V : (2 * a2 * (- b2 / (2 * a2)) + b2 == 0)%Q) by (field; exact Na).
    destruct (Qle_bool (inject_Z (q - 1)) (- b2 / (2 * a2)) && Qle_bool (- b2 / (2 * a2)) (inject_Z (q + 1))) eqn:Eb.
    + apply andb_true_iff in Eb as [E1 E2]. apply Qle_bool_iff in E1, E2. rewrite I1 in E1. rewrite I2 in E2.
      eexists (Qabs a), _, a, b, c, a2, b2, c2. split; [reflexivity|]. split; [reflexivity|]. split; [reflexivity|]. split; [exact Hls|]. split; [exact H3'|].
      left. split; [exact V|]. split; [exact Na|]. apply Qabs_Qle_condition. split; lra.
    + exists (Qabs a), (inject_Z q), a, b, c, a2, b2, c2. split; [reflexivity|]. split; [reflexivity|]. split; [reflexivity|]. split; [exact Hls|]. split; [exact H3'|].
      right. split; [reflexivity|]. intros v Hv _.
      assert (Ev : (v == - b2 / (2 * a2))%Q).
      { assert (X : (a2 * (v - - b2 / (2 * a2)) == 0)%Q) by lra. apply Qmult_integral in X. destruct X as [X|X]; [contradiction|lra]. }
      destruct (Qlt_le_dec 1 (Qabs (v - inject_Z q))) as [G|G]; [exact G|exfalso]. apply Qabs_Qle_condition in G. rewrite Ev in G.
      apply andb_false_iff in Eb. destruct Eb as [E|E]; apply Bool.not_true_iff_false in E; apply E; apply Qle_bool_iff; [rewrite I1|rewrite I2]; lra.
Qed.
