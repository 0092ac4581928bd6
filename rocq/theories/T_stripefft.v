(** C129: the FFT and wavelet-FFT stripe filters. *)
From Coq Require Import Reals Lra ZArith Lia Bool.
From Verif Require Import Np P_Np M_phase_R P_phase_R M_fourier P_fourier M_stripefft S_stripefft P_stripefft P_stripefft2 P_stripefft3 P_stripefft4.
From Coq Require Import List. Import ListNotations.
Open Scope Z_scope.

Definition frame_of (s : img R) (pad : Z) : Prop := pad = Z.min 150 (Z.min (nrow s) (ncol s) / 10).

(** ** remove_stripe_based_fft *)
Theorem stripe_fft_keeps_the_size : forall s u n v, 0 < nrow s -> 0 < ncol s ->
  nrow (stripe_fft s u n v) = nrow s /\ ncol (stripe_fft s u n v) = ncol s.
Proof. intros. apply stripe_fft_size; assumption. Qed.
Print Assumptions stripe_fft_keeps_the_size.

(** for odd sizes: of the slow vertical frequencies |k| <= v the horizontally fast part is taken away, the rest is kept *)
Theorem stripe_fft_takes_away_the_fast_part_of_slow_rows_partial : forall s u n v, 0 < nrow s -> 0 < ncol s -> odd (nrow s) -> odd (ncol s) -> 0 <= v -> 2 * v < nrow s ->
  exists pad p, frame_of s pad /\ framed s pad p /\ forall i j, in_rng (nrow s) i -> in_rng (ncol s) j ->
  let fast := fun a => (px p a (j + pad)%Z - weighted (ncol p) (low_pass u n) (px p a) (j + pad)%Z)%R in
  px (stripe_fft s u n v) i j = Rabs (px s i j - weighted (nrow p) (fun k => if (Z.abs k <=? v)%Z then 1 else 0) fast (i + pad)%Z)%R.
Proof.
  intros s u n v Hr Hc Or Oc Hv V2. exists (stripe_pad s), (pad_sinogram s). split; [reflexivity|]. split; [apply pad_framed; assumption|].
  intros i j Hi Hj. cbv zeta. apply (stripe_fft_formula s u n v i j); assumption.
Qed.
Print Assumptions stripe_fft_takes_away_the_fast_part_of_slow_rows_partial.

(** pure stripes are replaced by their horizontal low-pass, when the number of rows is odd *)
Theorem stripe_fft_smooths_pure_stripes_partial : forall s u n v, 0 < nrow s -> 0 < ncol s -> odd (nrow s) -> odd (ncol s) -> 0 <= v -> 2 * v < nrow s -> only_stripes s ->
  forall i j, in_rng (nrow s) i -> in_rng (ncol s) j -> exists pad, frame_of s pad /\
  px (stripe_fft s u n v) i j = Rabs (weighted (ncol s + 2 * pad) (low_pass u n) (fun b => px s 0 (Z.min (Z.max (b - pad) 0) (ncol s - 1))) (j + pad)).
Proof.
  intros s u n v Hr Hc Or Oc Hv V2 OS i j Hi Hj. exists (stripe_pad s). split; [reflexivity|]. rewrite (stripe_fft_formula s u n v i j) by assumption. f_equal.
  assert (Hp := stripe_pad_bounds s ltac:(lia) ltac:(lia)). assert (FR := pad_framed s Hr Hc). destruct (FR) as (E1 & E2 & _). set (p := pad_sinogram s) in *. set (pad := stripe_pad s) in *.
  assert (ST := framed_stripes s pad p Hr Hc FR OS).
  set (row := fun b => px s 0 (clampc pad (ncol s) b)).
  rewrite (weighted_ext (nrow p) _ _ (fun _ => row (j + pad)%Z - weighted (ncol p) (low_pass u n) row (j + pad)%Z)%R).
  - rewrite weighted_const by lia. cbn [Z.abs]. replace (0 <=? v)%Z with true by lia. rewrite E2. rewrite <- (framed_inside s pad p i j Hp FR Hi Hj). rewrite ST by (unfold in_rng in *; lia).
    change (px s 0 (clampc pad (ncol s) (j + pad))) with (row (j + pad)). change (fun b : Z => px s 0 (Z.min (Z.max (b - pad) 0) (ncol s - 1))) with row. ring.
  - intros a Ha. rewrite ST by (unfold in_rng in *; lia). f_equal. apply weighted_ext. intros b Hb. apply ST; unfold in_rng; lia.
Qed.
Print Assumptions stripe_fft_smooths_pure_stripes_partial.

(** for an even number of rows (and the default v = 0) NOT ANY pure stripe is removed: the window is centred one row beside the zero frequency *)
Theorem stripe_fft_leaves_pure_stripes_refuted : forall s u n, 0 < nrow s -> 0 < ncol s -> even (nrow s) -> only_stripes s ->
  forall i j, in_rng (nrow s) i -> in_rng (ncol s) j -> px (stripe_fft s u n 0) i j = Rabs (px s i j).
Proof. intros. apply stripes_kept; assumption. Qed.
Print Assumptions stripe_fft_leaves_pure_stripes_refuted.

(** a sinogram without any change along its rows is kept, when the number of columns is odd *)
Theorem stripe_fft_keeps_flat_rows_partial : forall s u n v, 0 < nrow s -> 0 < ncol s -> odd (ncol s) -> (0 < n)%nat -> flat_rows s ->
  forall i j, in_rng (nrow s) i -> in_rng (ncol s) j -> px (stripe_fft s u n v) i j = Rabs (px s i j).
Proof. intros. apply flat_kept; assumption. Qed.
Print Assumptions stripe_fft_keeps_flat_rows_partial.

(** for an even number of columns even a constant sinogram is changed *)
Theorem stripe_fft_changes_a_constant_sinogram_refuted : forall s u n v c, 0 < nrow s -> 0 < ncol s -> even (ncol s) -> 0 <= v -> 2 * v < nrow s - 1 -> odd (nrow s) \/ 1 <= v ->
  (forall a b, in_rng (nrow s) a -> in_rng (ncol s) b -> px s a b = c) -> (0 < u)%R -> (0 < c)%R ->
  forall i j, in_rng (nrow s) i -> in_rng (ncol s) j ->
  px (stripe_fft s u n v) i j = (c / (1 + (1 / u) ^ (2 * n)))%R /\ (px (stripe_fft s u n v) i j < c)%R.
Proof.
  intros s u n v c Hr Hc Ec Hv V2 Ov HC Hu Hp i j Hi Hj. rewrite (const_even s u n v c i j); try assumption.
  - assert (PP : (0 < (1 / u) ^ (2 * n))%R) by (apply pow_lt; apply Rdiv_lt_0_compat; lra). unfold low_pass.
    assert (E : (Rabs (1 / (1 + (1 / u) ^ (2 * n)) * c) = c / (1 + (1 / u) ^ (2 * n)))%R).
    { rewrite Rabs_pos_eq; [field; lra|]. apply Rmult_le_pos; [|lra]. apply Rlt_le, Rdiv_lt_0_compat; lra. }
    rewrite E. split; [reflexivity|]. apply (Rmult_lt_reg_r (1 + (1 / u) ^ (2 * n))); [lra|]. unfold Rdiv. rewrite Rmult_assoc, Rinv_l by lra. rewrite Rmult_plus_distr_l. assert (0 < c * (1 * / u) ^ (2 * n))%R by (apply Rmult_lt_0_compat; [lra|exact PP]). lra.
  - unfold window_center. assert (v + 1 <= (nrow s + 1) / 2); [apply Z.div_le_lower_bound; lia|lia].
Qed.
Print Assumptions stripe_fft_changes_a_constant_sinogram_refuted.

Theorem stripe_fft_scales_with_the_sinogram : forall c s s' u n v, 0 < nrow s -> 0 < ncol s -> times c s s' ->
  forall i j, in_rng (nrow s) i -> in_rng (ncol s) j -> px (stripe_fft s' u n v) i j = (Rabs c * px (stripe_fft s u n v) i j)%R.
Proof. intros. apply stripe_fft_scaled; assumption. Qed.
Print Assumptions stripe_fft_scales_with_the_sinogram.

Theorem stripe_fft_commutes_with_half_turns : forall s s' u n v, 0 < nrow s -> 0 < ncol s -> half_turn s s' ->
  half_turn (stripe_fft s u n v) (stripe_fft s' u n v).
Proof.
  intros s s' u n v Hr Hc H. destruct (H) as (E1 & E2 & _). destruct (stripe_fft_size s u n v Hr Hc) as (A1 & A2). destruct (stripe_fft_size s' u n v) as (B1 & B2); [lia|lia|].
  split; [lia|]. split; [lia|]. intros i j. rewrite A1, A2. intros Hi Hj. apply stripe_fft_turned; assumption.
Qed.
Print Assumptions stripe_fft_commutes_with_half_turns.

Definition ramp_stripes (h w : Z) : img R := mkimg h w (fun _ j => IZR j).
Example stripes_are_stripes h w : only_stripes (ramp_stripes h w) /\ odd 21 /\ even 20 /\ flat_rows (mkimg 21 13 (fun i _ => IZR i)) /\ half_turn (ramp_stripes 20 13) (mkimg 20 13 (fun _ j => IZR (12 - j))) /\ times 2 (ramp_stripes 20 13) (mkimg 20 13 (fun _ j => (2 * IZR j)%R)).
Proof.
  split; [intros i i' j _ _ _; reflexivity|]. split; [exists 10; reflexivity|]. split; [exists 10; reflexivity|]. split; [intros i j j' _ _ _; reflexivity|].
  split; (split; [reflexivity|]; split; [reflexivity|]; intros i j _ _; reflexivity).
Qed.
(** twenty rows of the stripes 0, 1, 2, ..., 12 come out as they were *)
Example ramp_stays u n : px (stripe_fft (ramp_stripes 20 13) u n 0) 7 5 = 5%R.
Proof.
  rewrite (stripe_fft_leaves_pure_stripes_refuted (ramp_stripes 20 13)); try (cbn [ramp_stripes nrow ncol]; unfold in_rng; lia).
  - cbn [ramp_stripes px]. rewrite Rabs_pos_eq by lra. reflexivity.
  - exists 10. reflexivity.
  - intros i i' j _ _ _; reflexivity.
Qed.

(** ** remove_stripe_based_wavelet_fft *)
Lemma damp_damped m size butter : damped size butter m (damp m size butter).
Proof.
  split; [reflexivity|]. split; [reflexivity|]. exists (off (nrow m)). split; [split; [apply off_odd|apply off_even]|].
  intros i j Hi Hj. apply damp_at; try assumption; unfold in_rng in *; lia.
Qed.
(** the number of levels actually used *)
Theorem wavelet_levels : forall wavedec mat level, 0 < nrow mat -> 0 < ncol mat ->
  (apply_wavelet_decomposition wavedec mat level = Err ValueError <-> nrow mat < 16 \/ ncol mat < 16) /\
  (16 <= nrow mat -> 16 <= ncol mat -> exists l, apply_wavelet_decomposition wavedec mat level = Ok (wavedec mat l) /\ 0 <= l /\ 2 ^ (l + 4) <= nrow mat /\ 2 ^ (l + 4) <= ncol mat /\
    (forall k, level = Some k -> 1 <= k -> 2 ^ (k + 4) <= nrow mat -> 2 ^ (k + 4) <= ncol mat -> l = k) /\
    ((level = None \/ exists k, level = Some k /\ (k < 1 \/ nrow mat < 2 ^ (k + 4) \/ ncol mat < 2 ^ (k + 4))) -> max_level (nrow mat) (ncol mat) l)).
Proof.
  intros wavedec mat level Hr Hc. unfold apply_wavelet_decomposition, wavelet_level. set (a := Z.log2 (nrow mat) - 4). set (b := Z.log2 (ncol mat) - 4).
  assert (Sa := log2_small (nrow mat) Hr). assert (Sb := log2_small (ncol mat) Hc). fold a in Sa. fold b in Sb.
  assert (La := log2_level (nrow mat)). assert (Lb := log2_level (ncol mat)). fold a in La. fold b in Lb.
  set (l := match level with None => Z.min a b | Some l => if (Z.min a b <? l) || (l <? 1) then Z.min a b else l end).
  assert (Hl : l = Z.min a b \/ exists k, level = Some k /\ 1 <= k <= Z.min a b /\ l = k).
  { unfold l. destruct level as [k|]; [|left; reflexivity]. destruct (Z.ltb_spec (Z.min a b) k), (Z.ltb_spec k 1); cbn [orb]; try (left; reflexivity). right. exists k. split; [reflexivity|]. lia. }
  split.
  - destruct (Z.ltb_spec l 0) as [N|N]; split; intros X; try reflexivity; try discriminate X; destruct Hl as [Hl|(k & _ & Hk & El)]; lia.
  - intros G1 G2. exists l. assert (L0 : 0 <= l) by (destruct Hl as [Hl|(k & _ & Hk & El)]; lia). replace (l <? 0) with false by lia. split; [reflexivity|]. split; [exact L0|].
    assert (l <= Z.min a b) by (destruct Hl as [Hl|(k & _ & Hk & El)]; lia). split; [apply (La l Hr L0); lia|]. split; [apply (Lb l Hc L0); lia|]. split.
    + intros k EK K1 K2 K3. apply La in K2; [|lia|lia]. apply Lb in K3; [|lia|lia]. unfold l. rewrite EK. replace (Z.min a b <? k) with false by lia. replace (k <? 1) with false by lia. reflexivity.
    + intros NK. assert (EL : l = Z.min a b).
      { unfold l. destruct NK as [->|(k & -> & NK)]; [reflexivity|]. destruct (Z.ltb_spec k 1); [rewrite orb_true_r; reflexivity|]. assert (La' := La k Hr ltac:(lia)). assert (Lb' := Lb k Hc ltac:(lia)). replace (Z.min a b <? k) with true by lia. reflexivity. }
      split; [exact L0|]. split; [apply (La l Hr L0); lia|]. split; [apply (Lb l Hc L0); lia|]. assert (La' := La (l + 1) Hr ltac:(lia)). assert (Lb' := Lb (l + 1) Hc ltac:(lia)). replace (l + 5) with (l + 1 + 4) by ring. lia.
Qed.
Print Assumptions wavelet_levels.

(** the result is the middle of the reconstruction from coefficients of which only the vertical details are changed, by a high-pass along every column *)
Theorem stripe_wavelet_fft_filters_only_the_vertical_details : forall wavedec waverec s level size butter r, 0 < nrow s -> 0 < ncol s ->
  stripe_wavelet_fft wavedec waverec s level size butter = Ok r ->
  exists pad p l details, frame_of s pad /\ framed s pad p /\ apply_wavelet_decomposition wavedec p level = Ok (wavedec p l) /\
    Forall2 (vertically_damped size butter) (snd (wavedec p l)) details /\
    let whole := waverec (fst (wavedec p l), details) in
    (nrow p <= nrow whole -> ncol p <= ncol whole -> nrow r = nrow s /\ ncol r = ncol s /\ forall i j, in_rng (nrow s) i -> in_rng (ncol s) j -> px r i j = px whole (i + pad) (j + pad)).
Proof.
  intros wavedec waverec s level size butter r Hr Hc E. assert (Hp := stripe_pad_bounds s ltac:(lia) ltac:(lia)). assert (FR := pad_framed s Hr Hc). destruct (FR) as (E1 & E2 & _). unfold stripe_wavelet_fft in E.
  set (pad := stripe_pad s) in *. set (p := pad_sinogram s) in *. unfold apply_wavelet_decomposition in E. set (l := wavelet_level p level) in *. destruct (l <? 0) eqn:EL; [discriminate E|]. cbn [bindr] in E.
  set (details := map _ _) in E. exists pad, p, l, details. split; [reflexivity|]. split; [exact FR|]. split; [unfold apply_wavelet_decomposition; fold l; rewrite EL; reflexivity|]. split.
  - unfold details. clear E details EL. induction (snd (wavedec p l)) as [|((h & v) & x) t IH]; [constructor|]. cbn [map]. constructor; [|exact IH]. cbn. split; [reflexivity|]. split; [reflexivity|]. apply damp_damped.
  - cbv zeta. intros G1 G2. match type of E with Ok ?X = Ok _ => assert (ER : r = X) by congruence end. rewrite ER. cbn [islice nrow ncol px].
    rewrite !slen_id by lia. split; [lia|]. split; [lia|]. intros i j Hi Hj. rewrite !py_adj_id by lia. rewrite (Z.add_comm pad i), (Z.add_comm pad j). reflexivity.
Qed.
Print Assumptions stripe_wavelet_fft_filters_only_the_vertical_details.

(** the stripes of a filtered detail: the total of every column; gone for an odd height *)
Theorem damped_details_have_no_stripes_partial : forall size butter m m', 0 < nrow m -> (size <> 0)%R -> odd (nrow m) -> damped size butter m m' ->
  forall j, in_rng (ncol m) j -> column_total m' j = 0%R.
Proof.
  intros size butter m m' Hr Hs Ho (E1 & E2 & d & (D1 & _) & F) j Hj. unfold column_total. rewrite E1. rewrite (rsum_ext _ _ (fun i => weighted (nrow m) (fun k => gain size butter (k + d)) (fun a => px m a j) i)) by (intros i Hi; apply F; assumption).
  rewrite weighted_sum by exact Hr. rewrite (D1 Ho). cbn [Z.add]. unfold gain. destruct butter.
  - replace (0 / size)%R with 0%R by (field; exact Hs). replace (1 - 1 / (1 + 0 ^ 2))%R with 0%R by field. ring.
  - replace (- 0 ^ 2 / (2 * size ^ 2))%R with 0%R by (field; exact Hs). rewrite exp_0. ring.
Qed.
Print Assumptions damped_details_have_no_stripes_partial.

(** for an even height the stripes stay, only weakened *)
Theorem damped_details_keep_stripes_refuted : forall size butter m m', 0 < nrow m -> (0 < size)%R -> even (nrow m) -> damped size butter m m' ->
  forall j, in_rng (ncol m) j -> exists g, (0 < g < 1)%R /\ column_total m' j = (g * column_total m j)%R.
Proof.
  intros size butter m m' Hr Hs He (E1 & E2 & d & (_ & D2) & F) j Hj. exists (gain size butter 1). split.
  - assert (S2 : (0 < size ^ 2)%R) by (apply pow_lt; exact Hs). unfold gain. destruct butter.
    + assert (P1 : (0 < (1 / size) ^ 2)%R) by (apply pow_lt, Rdiv_lt_0_compat; lra). assert (0 < 1 / (1 + (1 / size) ^ 2))%R by (apply Rdiv_lt_0_compat; lra).
      assert (1 / (1 + (1 / size) ^ 2) < 1)%R by (apply (Rmult_lt_reg_r (1 + (1 / size) ^ 2)); [lra|]; unfold Rdiv at 1; rewrite Rmult_assoc, Rinv_l by lra; lra). lra.
    + assert (A := exp_pos (- 1 ^ 2 / (2 * size ^ 2))). assert (B : (exp (- 1 ^ 2 / (2 * size ^ 2)) < exp 0)%R).
      { apply exp_increasing. replace (- 1 ^ 2 / (2 * size ^ 2))%R with (- (1 / (2 * size ^ 2)))%R by (field; lra). assert (0 < 1 / (2 * size ^ 2))%R by (apply Rdiv_lt_0_compat; lra). lra. }
      rewrite exp_0 in B. lra.
  - unfold column_total. rewrite E1. rewrite (rsum_ext _ _ (fun i => weighted (nrow m) (fun k => gain size butter (k + d)) (fun a => px m a j) i)) by (intros i Hi; apply F; assumption).
    rewrite weighted_sum by exact Hr. rewrite (D2 He). reflexivity.
Qed.
Print Assumptions damped_details_keep_stripes_refuted.

(** padded sizes below 16 are refused; below 32 the sinogram comes back unchanged, whatever the level (for transforms that reconstruct and have no details at level 0) *)
Theorem stripe_wavelet_fft_of_small_sinograms : forall wavedec waverec s level size butter pad, 0 < nrow s -> 0 < ncol s -> frame_of s pad ->
  (forall m, snd (wavedec m 0) = []) ->
  (forall m l, 0 <= l -> nrow m <= nrow (waverec (wavedec m l)) /\ ncol m <= ncol (waverec (wavedec m l)) /\ forall i j, in_rng (nrow m) i -> in_rng (ncol m) j -> px (waverec (wavedec m l)) i j = px m i j) ->
  let small := Z.min (nrow s + 2 * pad) (ncol s + 2 * pad) in
  (small < 16 -> stripe_wavelet_fft wavedec waverec s level size butter = Err ValueError) /\
  (16 <= small < 32 -> exists r, stripe_wavelet_fft wavedec waverec s level size butter = Ok r /\ same_image r s).
Proof.
  intros wavedec waverec s level size butter pad Hr Hc EP D0 RC small. assert (Hp := stripe_pad_bounds s ltac:(lia) ltac:(lia)). assert (FR := pad_framed s Hr Hc). destruct (FR) as (E1 & E2 & _).
  unfold frame_of in EP. change (Z.min 150 (Z.min (nrow s) (ncol s) / 10)) with (stripe_pad s) in EP. subst pad. set (pad := stripe_pad s) in *. set (p := pad_sinogram s) in *.
  destruct (wavelet_levels wavedec p level ltac:(lia) ltac:(lia)) as (W1 & W2). split.
  - intros SM. unfold stripe_wavelet_fft. fold p. rewrite (proj2 W1) by (unfold small in SM; lia). reflexivity.
  - intros SM. destruct W2 as (l & W & L0 & L1 & L2 & _); [unfold small in SM; lia|unfold small in SM; lia|].
    assert (l = 0). { destruct (Z.eq_dec l 0) as [|N]; [assumption|]. assert (2 ^ (1 + 4) <= 2 ^ (l + 4)) by (apply Z.pow_le_mono_r; lia). change (2 ^ (1 + 4)) with 32 in H. unfold small in SM. lia. }
    subst l. destruct (stripe_wavelet_fft wavedec waverec s level size butter) as [r|e] eqn:E.
    + exists r. split; [reflexivity|]. unfold stripe_wavelet_fft in E. fold p pad in E. rewrite W in E. cbn [bindr] in E. rewrite D0 in E. cbn [map] in E.
      assert (EW : (fst (wavedec p 0), []) = wavedec p 0) by (rewrite <- (D0 p); symmetry; apply surjective_pairing). rewrite EW in E.
      destruct (RC p 0 ltac:(lia)) as (R1 & R2 & R3). match type of E with Ok ?X = Ok _ => assert (ER : r = X) by congruence end. rewrite ER. unfold same_image. cbn [islice nrow ncol px]. rewrite !slen_id by lia. split; [lia|]. split; [lia|].
      intros i j Hi Hj. unfold in_rng in *. rewrite !py_adj_id by lia. rewrite R3 by (unfold in_rng; lia). rewrite (Z.add_comm pad i), (Z.add_comm pad j). apply (framed_inside s pad p); try assumption; unfold in_rng; lia.
    + exfalso. unfold stripe_wavelet_fft in E. fold p in E. rewrite W in E. cbn [bindr] in E. discriminate E.
Qed.
Print Assumptions stripe_wavelet_fft_of_small_sinograms.

(** a transform that meets the hypotheses: half of the image as approximation, half as vertical detail *)
Definition half_dec (m : img R) (l : Z) : coeffs := if l =? 0 then (m, []) else (imap (fun x => x / 2)%R m, [(m, imap (fun x => x / 2)%R m, m)]).
Definition half_rec (c : coeffs) : img R := match snd c with (_, v, _) :: _ => mkimg (nrow (fst c)) (ncol (fst c)) (fun i j => (px (fst c) i j + px v i j)%R) | [] => fst c end.
Example half_meets_the_hypotheses : (forall m, snd (half_dec m 0) = []) /\
  (forall m l, 0 <= l -> nrow m <= nrow (half_rec (half_dec m l)) /\ ncol m <= ncol (half_rec (half_dec m l)) /\ forall i j, in_rng (nrow m) i -> in_rng (ncol m) j -> px (half_rec (half_dec m l)) i j = px m i j).
Proof.
  split; [reflexivity|]. intros m l Hl. unfold half_dec. destruct (l =? 0); cbn [half_rec snd fst imap nrow ncol px]; (split; [lia|]; split; [lia|]; intros i j _ _); [reflexivity|field].
Qed.
Example small_levels : wavelet_level (ramp_stripes 100 40) (Some 5) = 1 /\ wavelet_level (ramp_stripes 600 1200) (Some 5) = 5 /\ wavelet_level (ramp_stripes 30 40) (Some 5) = 0 /\ max_level 600 1200 5 /\ frame_of (ramp_stripes 100 40) 4.
Proof. repeat split; try reflexivity; cbn; try lia. Qed.
Example a_damped_detail size butter : damped size butter (ramp_stripes 20 13) (damp (ramp_stripes 20 13) size butter).
Proof. apply damp_damped. Qed.
