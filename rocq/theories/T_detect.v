(** C133: detection of a sample in a sinogram. *)
From Coq Require Import Reals Lra ZArith Lia String Bool.
From Verif Require Import Np P_Np M_phase_R P_phase_R M_fourier P_fourier M_simR P_simR M_corr P_corr2 M_detect S_detect P_stripefft2 P_detect P_detect2 P_detect3 P_detect4.
From Coq Require Import List. Import ListNotations.
Open Scope Z_scope.

(** ** which calls are answered *)
Theorem detect_sample_accepts : forall s ty, 0 <= nrow s -> 0 <= ncol s ->
  (is_ok (detect_sample s ty) = true <-> (ty = "180"%string /\ 2 <= nrow s /\ 4 <= ncol s) \/ (ty = "360"%string /\ 4 <= nrow s /\ 4 <= ncol s)).
Proof.
  intros s ty Hh Hw.
  assert (G : forall t, 0 < nrow t -> 0 < ncol t -> (is_ok (detect_in_spectrum (nrow t) (ncol t) (spectrum_part t)) = true <-> 4 <= nrow t /\ 4 <= ncol t)).
  { intros t Th Tw. assert (X := Z.div_mod (nrow t) 2 ltac:(lia)). assert (Y := Z.mod_pos_bound (nrow t) 2 ltac:(lia)). assert (X2 := Z.div_mod (ncol t) 2 ltac:(lia)). assert (Y2 := Z.mod_pos_bound (ncol t) 2 ltac:(lia)).
    destruct (part_rows t Th Tw) as (A & B). destruct (Z_lt_le_dec (Z.min (nrow t / 2) (ncol t / 2)) 2) as [L|L].
    - split; [|lia]. intros E. exfalso. unfold detect_in_spectrum in E. cbv zeta in E. change (nrow (gaussian_filter (spectrum_part t) ?x)) with (nrow (spectrum_part t)) in E. change (ncol (gaussian_filter (spectrum_part t) ?x)) with (ncol (spectrum_part t)) in E.
      destruct (B L) as [Z0|(Z1 & Z0)].
      + rewrite Z0 in E. discriminate.
      + rewrite Z0 in E. destruct (nrow (spectrum_part t) <=? _); discriminate.
    - split; [intros _; lia|]. intros _. destruct (A L) as (A1 & A2). destruct (detect_val (nrow t) (ncol t) (spectrum_part t) ltac:(lia) ltac:(lia)) as (pk & _ & E). cbv zeta in E. rewrite E. reflexivity. }
  unfold detect_sample. destruct (String.eqb_spec ty "180") as [->|N1].
  - cbn [orb negb]. change (nrow (with_opposite s)) with (nrow s + nrow s). change (ncol (with_opposite s)) with (ncol s). destruct (Z.leb_spec (nrow s + nrow s) 0) as [L|L]; cbn [orb]; [split; [discriminate|intros [(_ & ? & _)|(E & _)]; [lia|discriminate] ]|].
    destruct (Z.leb_spec (ncol s) 0) as [L2|L2]; [split; [discriminate|intros [(_ & _ & ?)|(E & _)]; [lia|discriminate] ]|].
    assert (GG := G (with_opposite s) L L2). change (nrow (with_opposite s)) with (nrow s + nrow s) in GG. change (ncol (with_opposite s)) with (ncol s) in GG. rewrite GG. split; [intros; left; split; [reflexivity|lia]|intros [(_ & ?)|(E & _)]; [lia|discriminate] ].
  - destruct (String.eqb_spec ty "360") as [->|N2]; cbn [orb negb].
    + destruct (Z.leb_spec (nrow s) 0) as [L|L]; cbn [orb]; [split; [discriminate|intros [(E & _)|(_ & ? & _)]; [discriminate|lia] ]|].
      destruct (Z.leb_spec (ncol s) 0) as [L2|L2]; [split; [discriminate|intros [(E & _)|(_ & _ & ?)]; [discriminate|lia] ]|].
      rewrite (G s L L2). split; [intros; right; split; [reflexivity|lia]|intros [(E & _)|(_ & ?)]; [discriminate|lia] ].
    + split; [discriminate|]. intros [(E & _)|(E & _)]; contradiction.
Qed.
Print Assumptions detect_sample_accepts.

Lemma detect_360 s : 0 < nrow s -> 0 < ncol s -> detect_sample s "360" = detect_in_spectrum (nrow s) (ncol s) (spectrum_part s).
Proof. intros Hh Hw. unfold detect_sample. cbn [String.eqb Ascii.eqb Bool.eqb orb negb]. replace (nrow s <=? 0) with false by lia. replace (ncol s <=? 0) with false by lia. reflexivity. Qed.
Lemma detect_180 s : 0 < nrow s -> 0 < ncol s -> detect_sample s "180" = detect_sample (with_opposite s) "360".
Proof. intros Hh Hw. rewrite detect_360; [|cbn [with_opposite nrow]; lia|exact Hw]. unfold detect_sample. cbn [String.eqb Ascii.eqb Bool.eqb orb negb]. change (nrow (with_opposite s)) with (nrow s + nrow s). change (ncol (with_opposite s)) with (ncol s). replace (nrow s + nrow s <=? 0) with false by lia. replace (ncol s <=? 0) with false by lia. reflexivity. Qed.
Lemma detect_moved k l s t : moved_scan k l s t -> 0 < nrow s -> 0 < ncol s -> detect_sample t "360" = detect_sample s "360".
Proof.
  intros (E1 & E2 & H) Hh Hw. rewrite !detect_360 by lia. apply detect_same with (c := 1%R); [lra|assumption|assumption|assumption|assumption|].
  intros u v _ _ _ _. rewrite (fft2_shift (as_cx s) (as_cx t) (- k) (- l)); [|exact Hh|exact Hw|exact E1|exact E2|].
  - rewrite !cabs_mul, !cabs_root. ring.
  - intros a b Ha Hb. cbn [as_cx px nrow ncol]. rewrite H by assumption. do 2 f_equal; f_equal; ring.
Qed.

(** ** the result does not depend on where the scan starts, on a shift of the detector (360 degrees), or on the side the sample is seen from (180 degrees) *)
Theorem detect_sample_does_not_depend_on_the_start : forall s t, 0 < nrow s -> 0 < ncol s ->
  (forall k l, moved_scan k l s t -> detect_sample t "360" = detect_sample s "360") /\
  (forall k, 0 <= k <= nrow s -> later_scan k s t -> detect_sample t "180" = detect_sample s "180") /\
  (mirrored_columns s t -> detect_sample t "180" = detect_sample s "180").
Proof.
  intros s t Hh Hw. assert (L : forall k, 0 <= k <= nrow s -> later_scan k s t -> detect_sample t "180" = detect_sample s "180").
  { intros k Hk H. destruct (H) as (E1 & E2 & _). rewrite !detect_180 by lia. apply (detect_moved k 0); [apply with_opposite_later; assumption|cbn [with_opposite nrow]; lia|exact Hw]. }
  split; [intros k l H; apply (detect_moved k l); assumption|]. split; [exact L|]. intros (E1 & E2 & H). apply (L (nrow s)); [lia|]. split; [exact E1|]. split; [exact E2|].
  intros i j Hi Hj. rewrite H by assumption. unfold in_rng in Hi. replace (i + nrow s <? nrow s) with false by lia. f_equal; ring.
Qed.
Print Assumptions detect_sample_does_not_depend_on_the_start.

(** ** nor on the scale of the grey values, positive or negative *)
Theorem detect_sample_does_not_depend_on_the_scale : forall s t c ty, 0 < nrow s -> 0 < ncol s -> c <> 0%R -> times c s t -> detect_sample t ty = detect_sample s ty.
Proof.
  intros s t c ty Hh Hw Hc H. assert (T : forall s t, 0 < nrow s -> 0 < ncol s -> times c s t -> detect_sample t "360" = detect_sample s "360").
  { intros p q Ph Pw (E1 & E2 & T). rewrite !detect_360 by lia. apply detect_same with (c := Rabs c); [apply Rabs_pos_lt; exact Hc|assumption|assumption|assumption|assumption|].
    intros u v _ _ _ _. rewrite (fft2_times (as_cx p) (as_cx q) c); [|exact E1|exact E2|].
    - rewrite cabs_mul. f_equal. unfold cabs, c_. cbn [fst snd]. replace (c ^ 2 + 0 ^ 2)%R with (Rsqr c) by (unfold Rsqr; ring). apply sqrt_Rsqr_abs.
    - intros a b Ha Hb. cbn [as_cx px nrow ncol] in *. rewrite T by assumption. apply cx_eq; cbn; ring. }
  destruct (H) as (E1 & E2 & HP). destruct (String.eqb_spec ty "180") as [->|N1].
  - rewrite !detect_180 by lia. apply T; [cbn [with_opposite nrow]; lia|exact Hw|]. unfold times. change (nrow (with_opposite t)) with (nrow t + nrow t). change (nrow (with_opposite s)) with (nrow s + nrow s). change (ncol (with_opposite t)) with (ncol t). change (ncol (with_opposite s)) with (ncol s).
    split; [lia|]. split; [exact E2|]. intros i j Hi Hj. unfold in_rng in *. rewrite !with_opposite_px, E1, E2. destruct (Z.ltb_spec i (nrow s)); apply HP; unfold in_rng; lia.
  - destruct (String.eqb_spec ty "360") as [->|N2]; [apply T; assumption|]. unfold detect_sample. replace (String.eqb ty "180") with false by (symmetry; apply String.eqb_neq; exact N1). replace (String.eqb ty "360") with false by (symmetry; apply String.eqb_neq; exact N2). reflexivity.
Qed.
Print Assumptions detect_sample_does_not_depend_on_the_scale.

(** ** nor on the brightness of the projections and on stripes; in a 180-degree scan the stripes must be symmetric about the middle *)
Theorem detect_sample_ignores_brightness_and_stripes_partial : forall s t f g, 0 < nrow s -> 0 < ncol s -> stained f g s t ->
  detect_sample t "360" = detect_sample s "360" /\
  ((forall j, in_rng (ncol s) j -> g (ncol s - 1 - j) = g j) -> detect_sample t "180" = detect_sample s "180").
Proof.
  assert (T : forall s t f g, 0 < nrow s -> 0 < ncol s -> stained f g s t -> detect_sample t "360" = detect_sample s "360").
  { intros s t f g Hh Hw H. destruct (H) as (E1 & E2 & _). rewrite !detect_360 by lia. apply detect_same with (c := 1%R); [lra|assumption|assumption|assumption|assumption|]. intros u v Hu Hv Nu Nv. rewrite (fft2_stained f g s t) by assumption. ring. }
  intros s t f g Hh Hw H. split; [apply (T s t f g); assumption|]. intros Sg. destruct (H) as (E1 & E2 & HP). rewrite !detect_180 by lia. apply (T _ _ (fun i => f (i mod nrow s)) g); [cbn [with_opposite nrow]; lia|exact Hw|].
  unfold stained. change (nrow (with_opposite t)) with (nrow t + nrow t). change (nrow (with_opposite s)) with (nrow s + nrow s). change (ncol (with_opposite t)) with (ncol t). change (ncol (with_opposite s)) with (ncol s).
  split; [lia|]. split; [exact E2|]. intros i j Hi Hj. unfold in_rng in *. rewrite !with_opposite_px, E1, E2. destruct (Z.ltb_spec i (nrow s)).
  - rewrite HP by (unfold in_rng; lia). rewrite Z.mod_small by lia. reflexivity.
  - rewrite HP by (unfold in_rng; lia). rewrite Sg by (unfold in_rng; lia). replace (i mod nrow s) with (i - nrow s) by (apply Z.mod_unique_pos with (q := 1); lia). reflexivity.
Qed.
Print Assumptions detect_sample_ignores_brightness_and_stripes_partial.

(** ** a scan without a sample: brightness changes and stripes, symmetric or not, in both types of scan *)
Theorem no_sample_is_not_detected : forall s ty f g b, no_sample f g s -> detect_sample s ty = Ok b -> b = false.
Proof.
  intros s ty f g b H E.
  assert (S1 : 0 < nrow s /\ 0 < ncol s /\ (ty = "180"%string \/ ty = "360"%string)).
  { unfold detect_sample in E. destruct (String.eqb_spec ty "180") as [->|N1]; cbn [orb negb] in E.
    - change (nrow (with_opposite s)) with (nrow s + nrow s) in E. change (ncol (with_opposite s)) with (ncol s) in E. destruct (Z.leb_spec (nrow s + nrow s) 0); [discriminate|]. destruct (Z.leb_spec (ncol s) 0); [discriminate|]. repeat split; try lia. left; reflexivity.
    - destruct (String.eqb_spec ty "360") as [->|N2]; cbn [orb negb] in E; [|discriminate]. destruct (Z.leb_spec (nrow s) 0); [discriminate|]. destruct (Z.leb_spec (ncol s) 0); [discriminate|]. repeat split; try lia. right; reflexivity. }
  destruct S1 as (Hh & Hw & TY).
  assert (OKS : 4 <= (if String.eqb ty "180" then nrow s + nrow s else nrow s) /\ 4 <= ncol s).
  { assert (A := proj1 (detect_sample_accepts s ty ltac:(lia) ltac:(lia))). rewrite E in A. destruct (A eq_refl) as [(-> & ? & ?)|(-> & ? & ?)]; cbn [String.eqb Ascii.eqb Bool.eqb]; lia. }
  assert (RG : forall t, 4 <= nrow t -> 4 <= ncol t -> 0 < nrow (spectrum_part t) < nrow t / 2 /\ 0 < ncol (spectrum_part t) < ncol t / 2).
  { intros t Th Tw. apply part_rows; [lia|lia|]. assert (2 <= nrow t / 2) by (apply Z.div_le_lower_bound; lia). assert (2 <= ncol t / 2) by (apply Z.div_le_lower_bound; lia). lia. }
  destruct TY as [-> | ->].
  - change (String.eqb "180" "180") with true in OKS. cbv iota in OKS. set (z := mkimg (nrow s) (ncol s) (fun (_ : Z) j => g j)).
    assert (ST : stained f (fun _ => 0%R) z s). { split; [reflexivity|]. split; [reflexivity|]. intros i j Hi Hj. rewrite H by assumption. cbn [z px]. ring. }
    assert (EZ := proj2 (detect_sample_ignores_brightness_and_stripes_partial z s f (fun _ => 0%R) Hh Hw ST) ltac:(reflexivity)). rewrite EZ, detect_180, detect_360 in E; [|cbn [with_opposite z nrow]; lia|exact Hw|exact Hh|exact Hw].
    set (o := with_opposite z) in *. assert (O1 : nrow o = nrow s + nrow s) by reflexivity. assert (O2 : ncol o = ncol s) by reflexivity. destruct (RG o ltac:(lia) ltac:(lia)) as (R1 & R2).
    destruct (Z_le_gt_dec (nrow (spectrum_part o)) 5) as [L|L]; [rewrite one_row in E by lia; injection E; congruence|].
    assert (EV := O1). assert (NE : (nrow s + nrow s) / 2 = nrow s) by (symmetry; apply Z.div_unique_exact; lia).
    rewrite (separable_spectrum _ _ _ (fun i => cabs (half_sum (nrow s) (i + nrow s))) (fun j => cabs (csub (line (ncol s) g (fftshift_idx (ncol s) j)) (line (ncol s) (fun b => g (ncol s - 1 - b)) (fftshift_idx (ncol s) j))))) in E; [injection E; congruence|lia|lia|lia|lia| | |].
    + intros i j Hi Hj. unfold in_rng in *. rewrite part_px, O1, O2. destruct (shifted_in (nrow s + nrow s) i ltac:(lia) ltac:(lia)) as (A & B & C). rewrite NE in C. unfold o, z. rewrite stripes_opposite by assumption. rewrite cabs_mul, C. do 3 f_equal. ring.
    + intros k _. apply cabs_pos.
    + intros k K1 K2. destruct (Z.Even_or_Odd (k + nrow s)) as [(q & Q)|(q & Q)]; [right|left].
      * replace (k + 1 + nrow s) with (2 * q + 1) by lia. apply half_sum_odd. exact Hh.
      * rewrite Q. apply half_sum_odd. exact Hh.
  - change (String.eqb "360" "180") with false in OKS. cbv iota in OKS. rewrite detect_360 in E by assumption. destruct (RG s ltac:(lia) ltac:(lia)) as (R1 & R2). rewrite zero_spectrum in E; [injection E; congruence|lia|lia|].
    intros i j Hi Hj. unfold in_rng in *. rewrite part_px. destruct (shifted_in (nrow s) i ltac:(lia) ltac:(lia)) as (A & B & _). destruct (shifted_in (ncol s) j ltac:(lia) ltac:(lia)) as (A' & B' & _).
    set (z := mkimg (nrow s) (ncol s) (fun (_ _ : Z) => 0%R)). rewrite (fft2_stained f g z s); try assumption.
    + cbn [fft2 px as_cx z nrow ncol]. rewrite csum_zero; [apply cabs_zero; reflexivity|]. intros a _. apply csum_zero. intros c _. apply cx_eq; cbn; ring.
    + split; [reflexivity|]. split; [reflexivity|]. intros a c Ha Hc. rewrite H by assumption. cbn [z px]. ring.
Qed.
Print Assumptions no_sample_is_not_detected.

(** ** nothing is ever found in a short scan *)
Theorem detect_sample_short_scan_refuted : forall s b,
  (nrow s <= 13 -> detect_sample s "360" = Ok b -> b = false) /\ (nrow s <= 6 -> detect_sample s "180" = Ok b -> b = false).
Proof.
  assert (T : forall s b, nrow s <= 13 -> detect_sample s "360" = Ok b -> b = false).
  { intros s b H E. destruct (Z_le_gt_dec (nrow s) 0) as [L|L]; [unfold detect_sample in E; cbn [String.eqb Ascii.eqb Bool.eqb orb negb] in E; replace (nrow s <=? 0) with true in E by lia; discriminate|].
    destruct (Z_le_gt_dec (ncol s) 0) as [L2|L2]; [unfold detect_sample in E; cbn [String.eqb Ascii.eqb Bool.eqb orb negb] in E; replace (ncol s <=? 0) with true in E by lia; rewrite orb_true_r in E; discriminate|].
    assert (A := proj1 (detect_sample_accepts s "360" ltac:(lia) ltac:(lia))). rewrite E in A. destruct (A eq_refl) as [(? & _)|(_ & A1 & A2)]; [discriminate|].
    destruct (part_rows s ltac:(lia) ltac:(lia)) as (P & _). assert (2 <= nrow s / 2 <= 6) by (split; [apply Z.div_le_lower_bound; lia|assert (DM := Z.div_mod (nrow s) 2 ltac:(lia)); assert (MB := Z.mod_pos_bound (nrow s) 2 ltac:(lia)); lia]). assert (2 <= ncol s / 2) by (apply Z.div_le_lower_bound; lia).
    destruct (P ltac:(lia)) as (P1 & P2). rewrite detect_360, one_row in E by lia. injection E; congruence. }
  intros s b. split; [apply T|]. intros H E. destruct (Z_le_gt_dec (nrow s) 0) as [L|L]; [unfold detect_sample in E; cbn [String.eqb Ascii.eqb Bool.eqb orb negb] in E; change (nrow (with_opposite s)) with (nrow s + nrow s) in E; replace (nrow s + nrow s <=? 0) with true in E by lia; discriminate|].
  destruct (Z_le_gt_dec (ncol s) 0) as [L2|L2]; [unfold detect_sample in E; cbn [String.eqb Ascii.eqb Bool.eqb orb negb] in E; change (ncol (with_opposite s)) with (ncol s) in E; replace (ncol s <=? 0) with true in E by lia; rewrite orb_true_r in E; discriminate|].
  rewrite detect_180 in E by lia. apply (T (with_opposite s)); [cbn [with_opposite nrow]; lia|exact E].
Qed.
Print Assumptions detect_sample_short_scan_refuted.

(** ** a crossing pair of waves is reported as a sample *)
Theorem detect_sample_finds_waves : exists s, nrow s = 14 /\ ncol s = 30 /\ detect_sample s "360" = Ok true /\
  forall c f g t, c <> 0%R -> stained f g (mkimg 14 30 (fun i j => c * px s i j)%R) t -> detect_sample t "360" = Ok true.
Proof.
  exists two_waves. split; [reflexivity|]. split; [reflexivity|]. assert (D : detect_sample two_waves "360" = Ok true) by (rewrite detect_360 by (cbn; lia); exact two_waves_found). split; [exact D|].
  intros c f g t Hc H. rewrite (proj1 (detect_sample_ignores_brightness_and_stripes_partial (mkimg 14 30 (fun i j => c * px two_waves i j)%R) t f g ltac:(cbn; lia) ltac:(cbn; lia) H)). rewrite <- D. apply (detect_sample_does_not_depend_on_the_scale two_waves _ c); [cbn; lia|cbn; lia|exact Hc|].
  split; [reflexivity|]. split; [reflexivity|]. intros; reflexivity.
Qed.
Print Assumptions detect_sample_finds_waves.

(** ** 180-degree scans: a crossing pair of waves is found ... *)
Theorem detect_sample_finds_waves_in_half_a_turn : exists s, nrow s = 7 /\ ncol s = 30 /\ detect_sample s "180" = Ok true.
Proof. exists half_scan. split; [reflexivity|]. split; [reflexivity|]. rewrite detect_180, detect_360 by (cbn; lia). exact half_scan_found. Qed.
Print Assumptions detect_sample_finds_waves_in_half_a_turn.
(** ... but stripes that are not symmetric about the middle column can hide the sample *)
Theorem detect_sample_ignores_stripes_in_half_a_turn_refuted : exists s t g, 0 < nrow s /\ 0 < ncol s /\ stained (fun _ => 0%R) g s t /\
  detect_sample s "180" = Ok true /\ detect_sample t "180" = Ok false.
Proof.
  assert (H := half_sum_odd 7 5 ltac:(lia)). change (2 * 5 + 1) with 11 in H. set (m := cabs (half_sum 7 11)) in *. set (c := (100 / m)%R).
  assert (C : (0 < c)%R) by (apply Rdiv_lt_0_compat; lra). assert (CM : (c * m = 100)%R) by (unfold c; field; lra).
  exists half_scan, (striped c), (fun b => (c * pattern b)%R). split; [cbn; lia|]. split; [cbn; lia|]. split; [split; [reflexivity|]; split; [reflexivity|]; intros i j _ _; unfold striped; cbn [px]; ring|].
  split; rewrite detect_180, detect_360 by (cbn; lia); [exact half_scan_found|]. apply striped_missed. assert (L := column4_large c ltac:(lra)). fold m in L. replace (60 * c * m)%R with (60 * (c * m))%R in L by ring. rewrite CM in L. lra.
Qed.
Print Assumptions detect_sample_ignores_stripes_in_half_a_turn_refuted.
