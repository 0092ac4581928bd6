From Verif Require Import Np P_Np M_conversion M_correction P_utility P_conversion P_conversion2 P_conversion3 P_correction.
From Coq Require Import QArith Qround Qabs Lqa Setoid Morphisms.
From Coq Require Import List. Import ListNotations.
Open Scope Z_scope.

Section tilt.
Context (c s : Q).
Lemma yt_bounds h w j y : 1 <= h -> (0 <= yt c s h w j y <= inject_Z (h - 1))%Q.
Proof. intros H. apply clipQ_bounds. change 0%Q with (inject_Z 0). rewrite <- Zle_Qle. lia. Qed.
Lemma line_spec m index : 1 <= ncol m -> 1 <= nrow m ->
  exists v, generate_tilted_profile_line c s m index = Ok v /\ vlen v = ncol m /\
    forall j, in_rng (ncol m) j ->
      (vat v j == bilin m (yt c s (nrow m) (ncol m) j index) (xt c s (nrow m) (ncol m) j index))%Q.
Proof.
  intros Hw Hh. unfold generate_tilted_profile_line. replace (ncol m <=? 0) with false by lia.
  eexists. split; [reflexivity|]. cbn [vlen vat]. split; [reflexivity|]. intros j Hj.
  destruct (window_bounds (ncol m) (nrow m) (fun j => yt c s (nrow m) (ncol m) j index)) as (W1 & W2 & W3); try lia.
  { intros k _. apply yt_bounds. lia. }
  destruct (W3 j Hj) as [W4 W5]. apply bilin_window; auto; lia.
Qed.
Lemma window_bounds2 n w h (f : Z -> Z -> Q) : 1 <= n -> 1 <= w -> 1 <= h ->
  (forall r j, in_rng n r -> in_rng w j -> (0 <= f r j <= inject_Z (h - 1))%Q) ->
  let a := Qfloor (amin n (fun r => amin w (f r))) in let b := Qceiling (amax n (fun r => amax w (f r))) + 1 in
  0 <= a /\ b <= h /\ forall r j, in_rng n r -> in_rng w j -> (inject_Z a <= f r j)%Q /\ (f r j <= inject_Z (b - 1))%Q.
Proof.
  intros Hn Hw Hh Hf a b.
  destruct (amin_spec n (fun r => amin w (f r)) Hn) as (A1 & ra & Hra & Ea).
  destruct (amax_spec n (fun r => amax w (f r)) Hn) as (B1 & rb & Hrb & Eb).
  destruct (amin_spec w (f ra) Hw) as (_ & ja & Hja & Eja). destruct (amax_spec w (f rb) Hw) as (_ & jb & Hjb & Ejb).
  split; [|split].
  - unfold a. change 0 with (Qfloor (inject_Z 0)). apply Qfloor_resp_le. rewrite Ea, Eja. apply Hf; assumption.
  - unfold b. assert (Qceiling (amax n (fun r => amax w (f r))) <= h - 1); [|lia]. rewrite <- (Qceiling_Z (h - 1)).
    apply Qceiling_resp_le. rewrite Eb, Ejb. apply Hf; assumption.
  - intros r j Hr Hj. split.
    + eapply Qle_trans; [apply Qfloor_le|]. eapply Qle_trans; [apply (A1 r Hr)|]. apply (amin_spec w (f r) Hw); exact Hj.
    + unfold b. match goal with |- (_ <= inject_Z (?z + 1 - 1))%Q => replace (z + 1 - 1) with z by lia end.
      eapply Qle_trans; [|apply Qle_ceiling]. eapply Qle_trans; [|apply (B1 r Hr)]. apply (amax_spec w (f r) Hw); exact Hj.
Qed.
Lemma chunk_spec m start stop : 1 <= ncol m -> 1 <= nrow m -> start <= stop ->
  exists o, generate_tilted_profile_chunk c s m start stop = Ok o /\ nrow o = stop - start + 1 /\ ncol o = ncol m /\
    forall r j, in_rng (stop - start + 1) r -> in_rng (ncol m) j ->
      (px o r j == bilin m (yt c s (nrow m) (ncol m) j (start + r)) (xt c s (nrow m) (ncol m) j (start + r)))%Q.
Proof.
  intros Hw Hh Hs. unfold generate_tilted_profile_chunk.
  replace ((ncol m <=? 0) || (stop + 1 - start <=? 0)) with false by lia.
  eexists. split; [reflexivity|]. cbn [nrow ncol px]. split; [lia|]. split; [reflexivity|]. intros r j Hr Hj.
  destruct (window_bounds2 (stop + 1 - start) (ncol m) (nrow m) (fun r j => yt c s (nrow m) (ncol m) j (start + r))) as (W1 & W2 & W3); try lia.
  { intros k l _ _. apply yt_bounds. lia. }
  destruct (W3 r j ltac:(unfold in_rng in *; lia) Hj) as [W4 W5]. apply bilin_window; auto; lia.
Qed.
Lemma tilted_sinogram_spec d index opt idxs : 1 <= wid d -> 1 <= hei d ->
  opt_range (dep d) opt = Ok idxs -> (forall idx, In idx idxs -> in_rng (dep d) idx) ->
  exists rows, generate_tilted_sinogram c s d index opt = Ok rows /\
    Forall2 (fun idx row => exists v, generate_tilted_profile_line c s (vol_img d idx) index = Ok v /\ vec_Qeq row v) idxs rows.
Proof.
  intros Hw Hh Ho Hi. unfold generate_tilted_sinogram. rewrite Ho. cbn [bindr]. replace (wid d <=? 0) with false by lia.
  apply mapr_Forall2. intros idx Hin. rewrite vol_rows_ok by auto. cbn [bindr].
  eexists. split; [reflexivity|]. unfold generate_tilted_profile_line. cbn [vol_img ncol nrow].
  replace (wid d <=? 0) with false by lia. eexists. split; [reflexivity|]. split; [reflexivity|]. intros j _. reflexivity.
Qed.
Lemma tilted_sinogram_chunk_spec d start stop opt idxs : 1 <= wid d -> 1 <= hei d -> start <= stop ->
  opt_range (dep d) opt = Ok idxs -> (forall idx, In idx idxs -> in_rng (dep d) idx) ->
  exists rows, generate_tilted_sinogram_chunk c s d start stop opt = Ok rows /\
    Forall2 (fun idx m => nrow m = stop - start + 1 /\ ncol m = wid d /\
      forall r, in_rng (stop - start + 1) r ->
        exists v, generate_tilted_profile_line c s (vol_img d idx) (start + r) = Ok v /\ vec_Qeq (irow m r) v) idxs rows.
Proof.
  intros Hw Hh Hs Ho Hi. unfold generate_tilted_sinogram_chunk. rewrite Ho. cbn [bindr].
  replace ((wid d <=? 0) || (stop + 1 - start <=? 0)) with false by lia.
  apply mapr_Forall2. intros idx Hin. rewrite vol_rows_ok by auto. cbn [bindr].
  eexists. split; [reflexivity|]. cbn [nrow ncol]. split; [lia|]. split; [reflexivity|]. intros r Hr.
  destruct (line_spec (vol_img d idx) (start + r)) as (v & E & V1 & V2); try (cbn; lia). cbn [vol_img ncol nrow] in *.
  exists v. split; [exact E|]. split; [cbn; congruence|]. intros j Hj. cbn [irow vlen vat px ncol] in *. rewrite V2 by exact Hj.
  destruct (window_bounds2 (stop + 1 - start) (wid d) (hei d) (fun r j => yt c s (hei d) (wid d) j (start + r))) as (W1 & W2 & W3); try lia.
  { intros k l _ _. apply yt_bounds. lia. }
  destruct (W3 r j ltac:(unfold in_rng in *; lia) Hj) as [W4 W5].
  apply (bilin_window (vol_img d idx)); cbn [vol_img nrow ncol]; auto; lia.
Qed.
End tilt.
(** angle 0 *)
Lemma tilt_zero m index : 1 <= ncol m -> in_rng (nrow m) index ->
  exists v, generate_tilted_profile_line 1 0 m index = Ok v /\ vec_Qeq v (irow m index).
Proof.
  intros Hw Hi. unfold in_rng in Hi. destruct (line_spec 1 0 m index Hw ltac:(lia)) as (v & E & V1 & V2).
  exists v. split; [exact E|]. split; [exact V1|]. intros j Hj. cbn [irow vat]. rewrite V1 in Hj. rewrite V2 by exact Hj.
  unfold in_rng in Hj. rewrite (bilin_comp _ _ _ (inject_Z index) (inject_Z j)).
  - apply bilin_int; unfold in_rng; lia.
  - unfold yt. rewrite (clip_comp _ (inject_Z index)); [|ring|change 0%Q with (inject_Z 0); rewrite <- Zle_Qle; lia].
    apply clip_in; [change 0%Q with (inject_Z 0)|]; rewrite <- Zle_Qle; lia.
  - unfold xt. rewrite (clip_comp _ (inject_Z j)); [|ring|change 0%Q with (inject_Z 0); rewrite <- Zle_Qle; lia].
    apply clip_in; [change 0%Q with (inject_Z 0)|]; rewrite <- Zle_Qle; lia.
Qed.

(** ** flat field *)
Lemma has_zero_spec m : has_zero m = false -> forall i j, in_rng (nrow m) i -> in_rng (ncol m) j -> ~ (px m i j == 0)%Q.
Proof.
  intros H i j Hi Hj E. unfold has_zero in H.
  assert (X : existsb (fun i => existsb (fun j => Qeq_bool (px m i j) 0) (zrange 0 (ncol m))) (zrange 0 (nrow m)) = true).
  { apply existsb_exists. exists i. split; [apply zrange_In; unfold in_rng in Hi; lia|].
    apply existsb_exists. exists j. split; [apply zrange_In; unfold in_rng in Hj; lia|]. apply Qeq_bool_iff. exact E. }
  congruence.
Qed.
Lemma nonzero_spec m : forall i j, in_rng (nrow m) i -> in_rng (ncol m) j ->
  ~ (px (nonzero_denominator m) i j == 0)%Q /\ (~ (px m i j == 0)%Q -> px (nonzero_denominator m) i j = px m i j) /\
  ((px m i j == 0)%Q -> (~ (img_mean m == 0)%Q -> px (nonzero_denominator m) i j = img_mean m) /\
     ((img_mean m == 0)%Q -> px (nonzero_denominator m) i j = 1%Q)).
Proof.
  intros i j Hi Hj. rewrite <- and_assoc. split.
  2:{ intros E0. pose proof (has_zero_spec m) as HZ. unfold nonzero_denominator. destruct (has_zero m).
      2:{ exfalso. exact (HZ eq_refl i j Hi Hj E0). }
      cbn [imap px]. apply Qeq_bool_iff in E0. rewrite E0. destruct (Qeq_bool (img_mean m) 0) eqn:E2; cbn [negb].
      - apply Qeq_bool_iff in E2. split; [intros N; contradiction|reflexivity].
      - split; [reflexivity|]. intros C. apply Qeq_bool_iff in C. congruence. }
  unfold nonzero_denominator. destruct (has_zero m) eqn:E.
  - cbn [imap px]. destruct (Qeq_bool (px m i j) 0) eqn:E1.
    + split.
      * destruct (Qeq_bool (img_mean m) 0) eqn:E2; cbn [negb]; [discriminate|].
        intros C. apply Qeq_bool_iff in C. congruence.
      * intros N. apply Qeq_bool_iff in E1. contradiction.
    + split; [|reflexivity]. intros C. apply Qeq_bool_iff in C. congruence.
  - split; [|reflexivity]. apply (has_zero_spec m E); assumption.
Qed.
Lemma ffc_dark proj flat dark ratio : nrow proj = nrow flat -> ncol proj = ncol flat ->
  let out := flat_field_correction proj flat dark ratio true in
  nrow out = nrow proj /\ ncol out = ncol proj /\
  exists den : Z -> Z -> Q, forall i j, in_rng (nrow proj) i -> in_rng (ncol proj) j ->
    ~ (den i j == 0)%Q /\ (px out i j == (px proj i j - px dark i j) / den i j)%Q /\
    (~ (ratio * px flat i j - px dark i j == 0)%Q -> (den i j == ratio * px flat i j - px dark i j)%Q) /\
    ((ratio * px flat i j - px dark i j == 0)%Q -> let mean := qmean2 (nrow flat) (ncol flat) (fun i j => (ratio * px flat i j - px dark i j)%Q) in
       (~ (mean == 0)%Q -> (den i j == mean)%Q) /\ ((mean == 0)%Q -> (den i j == 1)%Q)).
Proof.
  intros Hr Hc out. split; [reflexivity|]. split; [reflexivity|].
  set (m := mkimg (nrow flat) (ncol flat) (fun i j => (ratio * px flat i j - px dark i j)%Q)).
  exists (px (nonzero_denominator m)). intros i j Hi Hj.
  destruct (nonzero_spec m i j) as (N1 & N2 & N3); [cbn; congruence|cbn; congruence|]. split; [exact N1|]. split; [reflexivity|].
  split; [intros N; rewrite N2; [reflexivity|exact N]|].
  intros Z0 mean. destruct (N3 Z0) as [N4 N5]. split; intros M0; [rewrite (N4 M0)|rewrite (N5 M0)]; reflexivity.
Qed.
Lemma ffc_nodark proj flat dark ratio : nrow proj = nrow flat -> ncol proj = ncol flat ->
  let out := flat_field_correction proj flat dark ratio false in
  nrow out = nrow proj /\ ncol out = ncol proj /\
  exists den : Z -> Z -> Q, forall i j, in_rng (nrow proj) i -> in_rng (ncol proj) j ->
    ~ (den i j == 0)%Q /\ (px out i j == px proj i j / den i j)%Q /\
    (~ (ratio * px flat i j == 0)%Q -> (den i j == ratio * px flat i j)%Q) /\
    ((ratio * px flat i j == 0)%Q -> let mean := qmean2 (nrow flat) (ncol flat) (fun i j => (ratio * px flat i j)%Q) in
       (~ (mean == 0)%Q -> (den i j == mean)%Q) /\ ((mean == 0)%Q -> (den i j == 1)%Q)).
Proof.
  intros Hr Hc out. split; [reflexivity|]. split; [reflexivity|].
  set (m := imap (fun v => (ratio * v)%Q) flat).
  exists (px (nonzero_denominator m)). intros i j Hi Hj.
  destruct (nonzero_spec m i j) as (N1 & N2 & N3); [cbn; congruence|cbn; congruence|]. split; [exact N1|]. split; [reflexivity|].
  split; [intros N; rewrite N2; [reflexivity|exact N]|].
  intros Z0 mean. destruct (N3 Z0) as [N4 N5]. split; intros M0; [rewrite (N4 M0)|rewrite (N5 M0)]; reflexivity.
Qed.
Lemma ffc_flat_is_one proj flat dark ratio i j : nrow proj = nrow flat -> ncol proj = ncol flat ->
  in_rng (nrow proj) i -> in_rng (ncol proj) j -> ~ (ratio * px flat i j - px dark i j == 0)%Q ->
  let v := px (flat_field_correction proj flat dark ratio true) i j in
  ((px proj i j == ratio * px flat i j)%Q -> (v == 1)%Q) /\ ((px proj i j == px dark i j)%Q -> (v == 0)%Q).
Proof.
  intros Hr Hc Hi Hj N. destruct (ffc_dark proj flat dark ratio Hr Hc) as (_ & _ & den & D). cbn zeta in D.
  destruct (D i j Hi Hj) as (D1 & D2 & D3 & _). specialize (D3 N). cbn zeta. split; intros E; rewrite D2, E.
  - rewrite D3. field. exact N.
  - field. exact D1.
Qed.

(** ** mtf *)
Lemma mtf_id deconv rv m window pad :
  (forall a w, (forall i j, in_rng (nrow w) i -> in_rng (ncol w) j -> (px w i j == 1)%Q) -> img_Qeq (deconv a w) a) ->
  nrow m <= nrow window -> ncol m <= ncol window -> 0 <= nrow m -> 0 <= ncol m -> 0 <= pad ->
  (forall i j, in_rng (nrow window) i -> in_rng (ncol window) j -> (px window i j == 1)%Q) ->
  exists out, mtf_deconvolution deconv rv m window pad = Ok out /\ img_Qeq out m.
Proof.
  intros Hd Hr Hc H0 H1 Hp Hw. unfold mtf_deconvolution.
  replace ((nrow window <? nrow m) || (ncol window <? ncol m)) with false by lia. replace (pad <? 0) with false by lia.
  set (m1 := mkimg (nrow window) (ncol window) _). set (wp := pad_all (fun _ _ _ => 1%Q) window pad).
  eexists. split; [reflexivity|].
  destruct (Hd (pad_all rv m1 pad) wp) as (D1 & D2 & D3).
  { intros i j Hi Hj. unfold wp, pad_all. cbn [px]. unfold in_img. destruct (_ && _) eqn:E; [|reflexivity].
    apply Hw; unfold in_rng; lia. }
  cbn [pad_all nrow ncol m1] in D1, D2.
  unfold islice at 1. split; [|split]; cbn [nrow ncol px].
  - unfold islice. cbn [nrow]. rewrite D1. rewrite (slen_id (nrow window + 2 * pad)) by lia. rewrite slen_id by lia. lia.
  - unfold islice. cbn [ncol]. rewrite D2. rewrite (slen_id (ncol window + 2 * pad)) by lia. rewrite slen_id by lia. lia.
  - unfold islice. cbn [nrow ncol px]. rewrite D1, D2.
    rewrite (slen_id (nrow window + 2 * pad)), (slen_id (ncol window + 2 * pad)) by lia.
    rewrite (py_adj_id (nrow window + 2 * pad)), (py_adj_id (ncol window + 2 * pad)) by lia.
    intros i j Hi Hj. rewrite !slen_id in * by lia. rewrite !py_adj_id by lia. unfold in_rng in *.
    rewrite D3 by (unfold in_rng; rewrite ?D1, ?D2; lia).
    cbn [pad_all px]. unfold in_img. cbn [m1 nrow ncol px].
    match goal with |- context [if ?b then _ else _] => replace b with true by lia end.
    replace (pad + (0 + i) - pad) with i by lia. replace (pad + (0 + j) - pad) with j by lia.
    replace (Z.min i (nrow m - 1)) with i by lia. replace (Z.min j (ncol m - 1)) with j by lia. reflexivity.
Qed.
Lemma mtf_too_large deconv rv m window pad : nrow window < nrow m \/ ncol window < ncol m ->
  mtf_deconvolution deconv rv m window pad = Err ValueError.
Proof. intros H. unfold mtf_deconvolution. replace (_ || _) with true by lia. reflexivity. Qed.

(** ** upsampling *)
Section up.
Context (filter to360 : img Q -> img Q).
Context (Hf : forall m, nrow (filter m) = nrow m /\ ncol (filter m) = ncol m).
Lemma step_rows m : nrow (upsample_step filter m) = 2 * nrow m - 1 /\ ncol (upsample_step filter m) = ncol m.
Proof. unfold upsample_step. rewrite !(proj1 (Hf _)), !(proj2 (Hf _)). cbn [set_even nrow ncol imap]. rewrite !(proj1 (Hf _)), !(proj2 (Hf _)). split; reflexivity. Qed.
Lemma iter_rows k m : nrow (Nat.iter k (upsample_step filter) m) - 1 = 2 ^ Z.of_nat k * (nrow m - 1) /\
  ncol (Nat.iter k (upsample_step filter) m) = ncol m.
Proof.
  induction k as [|k [IH1 IH2] ].
  - change (2 ^ Z.of_nat 0) with 1. cbn [Nat.iter nat_rect]. split; [lia|reflexivity].
  - change (Nat.iter (S k) (upsample_step filter) m) with (upsample_step filter (Nat.iter k (upsample_step filter) m)).
    destruct (step_rows (Nat.iter k (upsample_step filter) m)) as [S1 S2]. rewrite S1, S2, IH2.
    split; [|reflexivity]. rewrite Nat2Z.inj_succ, Z.pow_succ_r by lia. lia.
Qed.
Lemma upsample_rows sino scale center t180 : 1 <= nrow sino -> 0 < scale -> scale mod 2 = 0 -> (0 < center)%Q ->
  (forall m, nrow (to360 m) = 2 * nrow m - 1 /\ ncol (to360 m) = ncol m) ->
  exists out, upsample_sinogram filter to360 sino scale center t180 = Ok out /\
    nrow out - 1 = 2 ^ (scale / 2) * (nrow sino - 1).
Proof.
  intros Hn Hs Hm Hc Ht. unfold upsample_sinogram. replace (Z.max scale 1) with scale by lia.
  rewrite Hm. cbn [Z.eqb negb].
  assert (E : Qle_bool center 0 = false) by (apply not_true_is_false; intros C; apply Qle_bool_iff in C; lra).
  rewrite E, andb_false_r. eexists. split; [reflexivity|].
  assert (Hd : 0 <= scale / 2) by (apply Z.div_pos; lia).
  assert (Hp : 1 <= 2 ^ (scale / 2)) by (assert (0 < 2 ^ (scale / 2)) by (apply Z.pow_pos_nonneg; lia); lia).
  destruct t180.
  - destruct (iter_rows (Z.to_nat (scale / 2)) (to360 sino)) as [I1 I2]. rewrite Z2Nat.id in I1 by lia.
    rewrite (proj1 (Ht sino)) in I1. set (s := Nat.iter _ _ _) in *.
    assert (R : nrow s = 2 * (2 ^ (scale / 2) * (nrow sino - 1)) + 1) by lia.
    unfold islice. cbn [nrow]. rewrite R.
    replace ((2 * (2 ^ (scale / 2) * (nrow sino - 1)) + 1) / 2) with (2 ^ (scale / 2) * (nrow sino - 1)).
    + assert (0 <= 2 ^ (scale / 2) * (nrow sino - 1)) by nia. rewrite slen_id by lia. lia.
    + apply (Z.div_unique _ 2 _ 1); lia.
  - destruct (iter_rows (Z.to_nat (scale / 2)) sino) as [I1 I2]. rewrite Z2Nat.id in I1 by lia. exact I1.
Qed.
Lemma upsample_ok sino scale center t180 : 1 <= nrow sino -> scale = 2 \/ scale = 4 -> (0 < center)%Q ->
  (forall m, nrow (to360 m) = 2 * nrow m - 1 /\ ncol (to360 m) = ncol m) ->
  exists out, upsample_sinogram filter to360 sino scale center t180 = Ok out /\ nrow out - 1 = scale * (nrow sino - 1).
Proof.
  intros Hn Hs Hc Ht. destruct (upsample_rows sino scale center t180) as (out & E & R); auto.
  - lia. - destruct Hs as [->| ->]; reflexivity.
  - exists out. split; [exact E|]. rewrite R. destruct Hs as [->| ->]; reflexivity.
Qed.
Lemma upsample_wrong sino scale center t180 : 2 <= nrow sino -> 6 <= scale -> scale mod 2 = 0 -> (0 < center)%Q ->
  (forall m, nrow (to360 m) = 2 * nrow m - 1 /\ ncol (to360 m) = ncol m) ->
  exists out, upsample_sinogram filter to360 sino scale center t180 = Ok out /\ nrow out - 1 > scale * (nrow sino - 1).
Proof.
  intros Hn Hs Hm Hc Ht. destruct (upsample_rows sino scale center t180) as (out & E & R); auto; try lia.
  exists out. split; [exact E|]. rewrite R.
  assert (X : scale < 2 ^ (scale / 2)).
  { assert (S : scale = 2 * (scale / 2)) by (pose proof (Z.div_mod scale 2 ltac:(lia)); lia).
    set (k := scale / 2) in *. assert (Hk : 3 <= k) by lia. rewrite S. clear - Hk.
    replace k with (Z.of_nat (Z.to_nat (k - 3)) + 3) by lia. generalize (Z.to_nat (k - 3)) as n. induction n as [|n IH].
    - reflexivity.
    - replace (Z.of_nat (S n) + 3) with (Z.succ (Z.of_nat n + 3)) by lia. rewrite Z.pow_succ_r by lia. lia. }
  nia.
Qed.
End up.
