(** Proofs about the line target. *)
From Coq Require Import Reals Lra ZArith Lia Bool.
From Verif Require Import Np P_Np M_phase_R M_simR M_linetarget S_linetarget P_face.
From Coq Require Import List. Import ListNotations.
Open Scope Z_scope.

Definition b2z (b : bool) : Z := if b then 1 else 0.
(** the columns of a bar *)
Definition hit (x : Z) (b : bar) : bool := 200 * Z.abs (x - fst b) <=? 101 * snd b.
Definition hits (x : Z) (bars : list bar) : Z := fold_right (fun b acc => b2z (hit x b) + acc) 0 bars.
Lemma hits_app x a b : hits x (a ++ b) = hits x a + hits x b.
Proof. induction a as [|c a IH]; [reflexivity|]. cbn [app hits fold_right]. fold (hits x (a ++ b)). fold (hits x a). lia. Qed.
Lemma abs_test (d w : Z) : 0 < w -> (Rabs (IZR d / (0.5 * IZR w)) <= 1.01)%R <-> 200 * Z.abs d <= 101 * w.
Proof.
  intros Hw. assert (W : (0 < IZR w)%R) by (apply IZR_lt; exact Hw). unfold Rdiv. rewrite Rabs_mult, (Rabs_pos_eq (/ _)) by (left; apply Rinv_0_lt_compat; lra). rewrite <- abs_IZR.
  split; intros H.
  - apply le_IZR. rewrite !mult_IZR. apply (Rmult_le_compat_r (0.5 * IZR w)) in H; [|lra]. rewrite Rmult_assoc, Rinv_l, Rmult_1_r in H by lra. lra.
  - apply IZR_le in H. rewrite !mult_IZR in H. apply (Rmult_le_reg_r (0.5 * IZR w)); [lra|]. rewrite Rmult_assoc, Rinv_l, Rmult_1_r by lra. lra.
Qed.
Lemma rect_px size h (b : bar) i j : 0 < snd b -> 0 < h ->
  px (make_rectangular_mask size (Tuple (IZR (fst b)) 0) (Tuple (IZR (snd b)) (IZR h)) 0) i j = IZR (b2z (hit (j - size / 2) b) * b2z (200 * Z.abs (i - size / 2) <=? 101 * h)).
Proof.
  intros Hb Hh. unfold make_rectangular_mask. cbn [px]. rewrite coords_eq. cbv zeta. replace (0 * PI / 180)%R with 0%R by field. rewrite cos_0, sin_0. unfold xof, yof.
  replace ((IZR j - IZR (size / 2) - IZR (fst b)) * 1 + (IZR (size / 2) - IZR i - 0) * 0)%R with (IZR (j - size / 2 - fst b)) by (rewrite !minus_IZR; ring).
  replace ((IZR (size / 2) - IZR i - 0) * 1 - (IZR j - IZR (size / 2) - IZR (fst b)) * 0)%R with (IZR (size / 2 - i)) by (rewrite !minus_IZR; ring).
  assert (T1 := abs_test (j - size / 2 - fst b) (snd b) Hb). assert (T2 := abs_test (size / 2 - i) h Hh). unfold hit, b2z.
  replace (Z.abs (size / 2 - i)) with (Z.abs (i - size / 2)) in T2 by lia.
  destruct (Rle_dec (Rabs (IZR (j - size / 2 - fst b) / _)) _) as [A|A], (Z.leb_spec (200 * Z.abs (j - size / 2 - fst b)) (101 * snd b)) as [A'|A']; try (exfalso; lia); try (exfalso; apply A, T1, A'); try (apply T1 in A; exfalso; lia).
  - destruct (Rle_dec _ _) as [B|B], (Z.leb_spec (200 * Z.abs (i - size / 2)) (101 * h)) as [B'|B']; try reflexivity; try (exfalso; apply B, T2, B'); apply T2 in B; exfalso; lia.
  - reflexivity.
Qed.
Definition row_hit (size h i : Z) : Z := b2z (200 * Z.abs (i - size / 2) <=? 101 * h).
Lemma bar_mask_px size h bars i j : 0 < h -> (forall b, In b bars -> 0 < snd b) -> px (bar_mask size h bars) i j = IZR (hits (j - size / 2) bars * row_hit size h i).
Proof.
  intros Hh HB. cbn [bar_mask px]. induction bars as [|b bars IH]; [reflexivity|]. cbn [fold_right hits]. fold (hits (j - size / 2) bars). rewrite IH by (intros c Hc; apply HB; right; exact Hc). rewrite rect_px by (try exact Hh; apply HB; left; reflexivity).
  unfold row_hit. rewrite <- plus_IZR. f_equal. ring.
Qed.
(** one group of three bars *)
Lemma prange3 a s b : 0 < s -> 2 * s < b - a <= 3 * s -> prange_step a b s = [a; a + s; a + 2 * s].
Proof.
  intros Hs H. unfold prange_step. replace ((b - a + s - 1) / s) with 3 by (apply Z.div_unique_pos with (r := b - a + s - 1 - s * 3); lia). change (Z.to_nat 3) with 3%nat. cbn [seq map]. change (Z.of_nat 0) with 0. change (Z.of_nat 1) with 1. change (Z.of_nat 2) with 2. replace (a + 0 * s) with a by ring. replace (a + 1 * s) with (a + s) by ring. reflexivity.
Qed.
Lemma down3 a s b : 0 < s -> 2 * s < a - b <= 3 * s -> arange_down a b s = [a; a - s; a - 2 * s].
Proof. intros Hs H. unfold arange_down. rewrite prange3 by lia. cbn [map]. replace (- - a) with a by ring. replace (- (- a + s)) with (a - s) by ring. replace (- (- a + 2 * s)) with (a - 2 * s) by ring. reflexivity. Qed.
(** the bar with first column a and width w, as one place or two *)
Definition span (a w x : Z) : bool := (a <=? x) && (x <? a + w).
Lemma odd_bar w c x : 0 < w < 100 -> w mod 2 = 1 -> hit x (c, w) = span (c - w / 2) w x.
Proof.
  intros Hw Hm. unfold hit, span. cbn [fst snd]. assert (E := Z.div_mod w 2 ltac:(lia)). rewrite Hm in E. apply Bool.eq_iff_eq_true. rewrite andb_true_iff, !Z.leb_le, Z.ltb_lt. lia.
Qed.
Lemma even_bar_right w c x : 0 < w < 100 -> w mod 2 = 0 -> b2z (hit x (c, w - 1)) + b2z (hit x (c + w / 2, 1)) = b2z (span (c - (w - 1) / 2) w x).
Proof.
  intros Hw Hm. assert (E := Z.div_mod w 2 ltac:(lia)). rewrite Hm in E. assert (E2 : (w - 1) / 2 = w / 2 - 1) by (symmetry; apply Z.div_unique_pos with (r := 1); lia). unfold hit, span, b2z. cbn [fst snd]. rewrite E2.
  destruct (Z.leb_spec (200 * Z.abs (x - c)) (101 * (w - 1))), (Z.leb_spec (200 * Z.abs (x - (c + w / 2))) (101 * 1)), (Z.leb_spec (c - (w / 2 - 1)) x), (Z.ltb_spec x (c - (w / 2 - 1) + w)); cbn [andb]; lia.
Qed.
Lemma even_bar_left w c x : 0 < w < 100 -> w mod 2 = 0 -> b2z (hit x (c, w - 1)) + b2z (hit x (c - w / 2, 1)) = b2z (span (c - w / 2) w x).
Proof.
  intros Hw Hm. assert (E := Z.div_mod w 2 ltac:(lia)). rewrite Hm in E. unfold hit, span, b2z. cbn [fst snd].
  destruct (Z.leb_spec (200 * Z.abs (x - c)) (101 * (w - 1))), (Z.leb_spec (200 * Z.abs (x - (c - w / 2))) (101 * 1)), (Z.leb_spec (c - w / 2) x), (Z.ltb_spec x (c - w / 2 + w)); cbn [andb]; lia.
Qed.
Definition three (a s w x : Z) : Z := b2z (span a w x) + (b2z (span (a + s) w x) + (b2z (span (a + 2 * s) w x))).
Lemma odd_or_even w : w mod 2 = 1 \/ w mod 2 = 0. Proof. assert (X := Z.mod_pos_bound w 2 ltac:(lia)). lia. Qed.
Lemma right_group_hits w start x : 0 < w < 100 -> hits x (right_group w start (start + 3 * 2 * w)) = three (start - (w - 1) / 2) (2 * w) w x.
Proof.
  intros Hw. unfold right_group, three. assert (E := Z.div_mod w 2 ltac:(lia)). destruct (odd_or_even w) as [M|M]; rewrite M in *; cbn [Z.eqb Pos.eqb].
  - rewrite prange3 by lia. cbn [map hits fold_right]. rewrite !odd_bar by assumption. replace ((w - 1) / 2) with (w / 2) by (apply Z.div_unique_pos with (r := 0); lia).
    replace (start + 2 * w - w / 2) with (start - w / 2 + 2 * w) by ring. replace (start + 2 * (2 * w) - w / 2) with (start - w / 2 + 2 * (2 * w)) by ring. ring.
  - rewrite hits_app, !prange3 by lia. cbn [map hits fold_right].
    assert (X0 := even_bar_right w start x Hw M). assert (X1 := even_bar_right w (start + 2 * w) x Hw M). assert (X2 := even_bar_right w (start + 2 * (2 * w)) x Hw M).
    replace (start + w / 2 + 2 * w) with (start + 2 * w + w / 2) by ring. replace (start + w / 2 + 2 * (2 * w)) with (start + 2 * (2 * w) + w / 2) by ring.
    replace (start - (w - 1) / 2 + 2 * w) with (start + 2 * w - (w - 1) / 2) by ring. replace (start - (w - 1) / 2 + 2 * (2 * w)) with (start + 2 * (2 * w) - (w - 1) / 2) by ring. lia.
Qed.
Lemma left_group_hits w start x : 0 < w < 100 -> hits x (left_group w start (start - 3 * 2 * w)) = three (start - w / 2 - 4 * w) (2 * w) w x.
Proof.
  intros Hw. unfold left_group, three. assert (E := Z.div_mod w 2 ltac:(lia)). destruct (odd_or_even w) as [M|M]; rewrite M in *; cbn [Z.eqb Pos.eqb].
  - rewrite down3 by lia. cbn [map hits fold_right]. rewrite !odd_bar by assumption.
    replace (start - 2 * w - w / 2) with (start - w / 2 - 4 * w + 2 * w) by ring. replace (start - 2 * (2 * w) - w / 2) with (start - w / 2 - 4 * w) by ring. replace (start - w / 2 - 4 * w + 2 * (2 * w)) with (start - w / 2) by ring. ring.
  - rewrite hits_app, !down3 by lia. cbn [map hits fold_right].
    assert (X0 := even_bar_left w start x Hw M). assert (X1 := even_bar_left w (start - 2 * w) x Hw M). assert (X2 := even_bar_left w (start - 2 * (2 * w)) x Hw M).
    replace (start - w / 2 - 2 * w) with (start - 2 * w - w / 2) by ring. replace (start - w / 2 - 2 * (2 * w)) with (start - 2 * (2 * w) - w / 2) by ring.
    replace (start - w / 2 - 4 * w + 2 * w) with (start - 2 * w - w / 2) by ring. replace (start - w / 2 - 4 * w + 2 * (2 * w)) with (start - w / 2) by ring. replace (start - w / 2 - 4 * w) with (start - 2 * (2 * w) - w / 2) by ring. lia.
Qed.
Lemma span_iff a w x : span a w x = true <-> a <= x < a + w.
Proof. unfold span. rewrite andb_true_iff, Z.leb_le, Z.ltb_lt. lia. Qed.
Lemma three_val a s w x : 0 < w <= s -> (three a s w x = 1 /\ exists k, 0 <= k <= 2 /\ a + s * k <= x < a + s * k + w) \/ (three a s w x = 0 /\ ~ exists k, 0 <= k <= 2 /\ a + s * k <= x < a + s * k + w).
Proof.
  intros H. unfold three, b2z. destruct (span a w x) eqn:E0, (span (a + s) w x) eqn:E1, (span (a + 2 * s) w x) eqn:E2; try apply span_iff in E0; try apply span_iff in E1; try apply span_iff in E2; try (exfalso; lia).
  - left. split; [reflexivity|]. exists 0. lia.
  - left. split; [reflexivity|]. exists 1. lia.
  - left. split; [reflexivity|]. exists 2. lia.
  - right. split; [reflexivity|]. intros (k & Hk & Hx). assert (N0 : ~ (a <= x < a + w)) by (rewrite <- span_iff; congruence). assert (N1 : ~ (a + s <= x < a + s + w)) by (rewrite <- span_iff; congruence). assert (N2 : ~ (a + 2 * s <= x < a + 2 * s + w)) by (rewrite <- span_iff; congruence).
    assert (k = 0 \/ k = 1 \/ k = 2) by lia. destruct H0 as [->|[-> | ->] ]; lia.
Qed.
