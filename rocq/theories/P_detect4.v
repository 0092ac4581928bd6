(** Lemmas for detect_sample (C133): a sample in a 180-degree scan, and stripes that hide it. *)
From Coq Require Import Reals Lra ZArith Lia String.
From Verif Require Import Np P_Np M_phase_R P_phase_R M_fourier P_fourier M_simR P_simR M_corr P_corr2 P_umpa M_detect S_detect P_stripefft2 P_unwrap5 P_score P_detect P_detect2 P_detect3.
From Coq Require Import List. Import ListNotations.
Open Scope Z_scope.

Lemma fft2_scale z s q u v : nrow q = nrow s -> ncol q = ncol s ->
  (forall a b, in_rng (nrow s) a -> in_rng (ncol s) b -> px q a b = cmul z (px s a b)) -> px (fft2 q) u v = cmul z (px (fft2 s) u v).
Proof.
  intros E1 E2 H. cbn [px fft2]. rewrite E1, E2, <- csum_scal. apply csum_ext. intros a Ha. rewrite <- csum_scal. apply csum_ext. intros b Hb. rewrite H by (unfold in_rng; lia). ring.
Qed.
(** the two waves seen from the other side, half a turn later *)
Definition other_side : img R := mkimg 14 30 (fun a b => px two_waves (a + 7) (29 - b)).
Definition half_scan : img R := mkimg 7 30 (fun a b => (px two_waves a b + px two_waves (a + 7) (29 - b))%R).
Lemma two_waves_period a b : px two_waves (a + 14) b = px two_waves a b.
Proof.
  cbn [px two_waves]. replace (2 * PI * IZR (11 * (a + 14)) / 14)%R with (2 * PI * IZR (11 * a) / 14 + 2 * INR 11 * PI)%R by (rewrite !mult_IZR, plus_IZR, (INR_IZR_INZ 11); cbn [Z.of_nat Pos.of_succ_nat Pos.succ]; field).
  replace (2 * PI * IZR (12 * (a + 14)) / 14)%R with (2 * PI * IZR (12 * a) / 14 + 2 * INR 12 * PI)%R by (rewrite !mult_IZR, plus_IZR, (INR_IZR_INZ 12); cbn [Z.of_nat Pos.of_succ_nat Pos.succ]; field).
  f_equal; f_equal; match goal with |- cos (?x + 2 * INR ?k * PI + ?y) = _ => replace (x + 2 * INR k * PI + y)%R with (x + y + 2 * INR k * PI)%R by ring end; apply cos_period.
Qed.
Lemma half_scan_opposite a b : px (with_opposite half_scan) a b = (px two_waves a b + px other_side a b)%R.
Proof.
  rewrite with_opposite_px. change (nrow half_scan) with 7. change (ncol half_scan) with 30. destruct (Z.ltb_spec a 7); [reflexivity|].
  unfold half_scan, other_side. cbn [px]. change (30 - 1 - b) with (29 - b). replace (29 - (29 - b)) with b by ring. replace (a - 7 + 7) with a by ring. replace (a + 7) with (a - 7 + 14) by ring. rewrite two_waves_period. ring.
Qed.
Lemma wave2_other p q a b : px (wave2 14 30 p q) (a + 7) (29 - b) = cmul (cmul (root 14 (p * 7)) (root 30 (q * 29))) (px (wave2 14 30 p (- q)) a b).
Proof.
  cbn [px wave2]. replace (p * (a + 7)) with (p * 7 + p * a) by ring. replace (q * (29 - b)) with (q * 29 + - q * b) by ring. rewrite !root_add. ring.
Qed.
Definition K (p q : Z) : cx := cmul (root 14 (p * 7)) (root 30 (q * 29)).
Lemma other_side_fft u v : px (fft2 (as_cx other_side)) u v =
  cadd (cadd (cmul (K 11 19) (px (fft2 (wave2 14 30 11 (-19))) u v)) (cmul (K (-11) (-19)) (px (fft2 (wave2 14 30 (-11) 19)) u v)))
       (cadd (cmul (K 12 24) (px (fft2 (wave2 14 30 12 (-24))) u v)) (cmul (K (-12) (-24)) (px (fft2 (wave2 14 30 (-12) 24)) u v))).
Proof.
  set (q1 := mkimg 14 30 (fun a b => cmul (K 11 19) (px (wave2 14 30 11 (-19)) a b))). set (q2 := mkimg 14 30 (fun a b => cmul (K (-11) (-19)) (px (wave2 14 30 (-11) 19) a b))).
  set (q3 := mkimg 14 30 (fun a b => cmul (K 12 24) (px (wave2 14 30 12 (-24)) a b))). set (q4 := mkimg 14 30 (fun a b => cmul (K (-12) (-24)) (px (wave2 14 30 (-12) 24) a b))).
  set (q12 := mkimg 14 30 (fun a b => cadd (px q1 a b) (px q2 a b))). set (q34 := mkimg 14 30 (fun a b => cadd (px q3 a b) (px q4 a b))).
  rewrite (fft2_add q12 q34 (as_cx other_side)); try reflexivity.
  - rewrite (fft2_add q1 q2 q12), (fft2_add q3 q4 q34); try reflexivity.
    rewrite (fft2_scale (K 11 19) (wave2 14 30 11 (-19)) q1), (fft2_scale (K (-11) (-19)) (wave2 14 30 (-11) 19) q2), (fft2_scale (K 12 24) (wave2 14 30 12 (-24)) q3), (fft2_scale (K (-12) (-24)) (wave2 14 30 (-12) 24) q4); reflexivity.
  - intros a b _ _. change (px (as_cx other_side) a b) with (c_ (px two_waves (a + 7) (29 - b))). rewrite two_waves_px, !wave2_other. reflexivity.
Qed.
Lemma mod_nonzero n a r : 0 < n -> 0 < r < n -> a = r - n \/ a = r - 2 * n \/ a = r -> (a mod n =? 0) = false.
Proof.
  intros Hn Hr H. apply Z.eqb_neq. destruct H as [->|[->| ->] ].
  - rewrite <- (Z.mod_unique_pos (r - n) n (-1) r); lia.
  - rewrite <- (Z.mod_unique_pos (r - 2 * n) n (-2) r); lia.
  - rewrite Z.mod_small; lia.
Qed.
(** in the part of the spectrum that is looked at it vanishes *)
Lemma other_side_zero u v : 7 <= u <= 12 -> 15 <= v <= 28 -> px (fft2 (as_cx other_side)) u v = c_ 0.
Proof.
  intros Hu Hv. rewrite other_side_fft. rewrite !wave2_fft by lia.
  replace ((-11 - u) mod 14 =? 0) with false by (symmetry; apply (mod_nonzero 14 _ (17 - u)); lia).
  replace ((-12 - u) mod 14 =? 0) with false by (symmetry; apply (mod_nonzero 14 _ (16 - u)); lia).
  replace ((-19 - v) mod 30 =? 0) with false by (symmetry; apply (mod_nonzero 30 _ (41 - v)); lia).
  replace ((-24 - v) mod 30 =? 0) with false by (symmetry; apply (mod_nonzero 30 _ (36 - v)); lia).
  match goal with |- ?x = _ => ring_simplify x end. apply cx_eq; cbn; ring.
Qed.
Lemma two_waves_fft_part i j : in_rng 6 i -> in_rng 14 j -> px (fft2 (as_cx two_waves)) (i + 7) (j + 15) = c_ (420 * dot 4 i * dot 4 j + 420 * dot 5 i * dot 9 j)%R.
Proof.
  intros Hi Hj. unfold in_rng in *. rewrite two_waves_fft, !wave2_fft by lia.
  rewrite (mod_small_zero 14 (11 - (i + 7))), (mod_small_zero 14 (12 - (i + 7))), (mod_small_zero 30 (19 - (j + 15))), (mod_small_zero 30 (24 - (j + 15))) by lia.
  replace ((-11 - (i + 7)) mod 14 =? 0) with false by (symmetry; apply (mod_nonzero 14 _ (10 - i)); lia).
  replace ((-12 - (i + 7)) mod 14 =? 0) with false by (symmetry; apply (mod_nonzero 14 _ (9 - i)); lia).
  unfold dot. replace (11 - (i + 7) =? 0) with (i =? 4) by (apply Bool.eq_iff_eq_true; rewrite !Z.eqb_eq; lia). replace (12 - (i + 7) =? 0) with (i =? 5) by (apply Bool.eq_iff_eq_true; rewrite !Z.eqb_eq; lia).
  replace (19 - (j + 15) =? 0) with (j =? 4) by (apply Bool.eq_iff_eq_true; rewrite !Z.eqb_eq; lia). replace (24 - (j + 15) =? 0) with (j =? 9) by (apply Bool.eq_iff_eq_true; rewrite !Z.eqb_eq; lia).
  destruct (Z.eqb_spec i 4), (Z.eqb_spec i 5), (Z.eqb_spec j 4), (Z.eqb_spec j 9); try lia; apply cx_eq; cbn; ring.
Qed.
Definition amplitude (i j : Z) : R := (420 * dot 4 i * dot 4 j + 420 * dot 5 i * dot 9 j)%R.
Lemma half_scan_fft i j : in_rng 6 i -> in_rng 14 j -> px (fft2 (as_cx (with_opposite half_scan))) (i + 7) (j + 15) = c_ (amplitude i j).
Proof.
  intros Hi Hj. rewrite (fft2_add (as_cx two_waves) (as_cx other_side)); try reflexivity.
  - rewrite two_waves_fft_part by assumption. unfold in_rng in *. rewrite other_side_zero by lia. apply cx_eq; cbn; unfold amplitude; ring.
  - intros a b _ _. change (px (as_cx (with_opposite half_scan)) a b) with (c_ (px (with_opposite half_scan) a b)). rewrite half_scan_opposite. apply cx_eq; cbn; ring.
Qed.
Lemma dot_nonneg k i : (0 <= dot k i)%R.
Proof. unfold dot. destruct (i =? k); lra. Qed.
Lemma amplitude_nonneg i j : (0 <= amplitude i j)%R.
Proof. unfold amplitude. assert (A := dot_nonneg 4 i). assert (B := dot_nonneg 4 j). assert (C := dot_nonneg 5 i). assert (D := dot_nonneg 9 j). assert (0 <= dot 4 i * dot 4 j)%R by (apply Rmult_le_pos; assumption). assert (0 <= dot 5 i * dot 9 j)%R by (apply Rmult_le_pos; assumption). lra. Qed.
(** the sample is found in the 180-degree scan *)
Lemma half_scan_found : detect_in_spectrum 14 30 (spectrum_part (with_opposite half_scan)) = Ok true.
Proof.
  rewrite <- two_waves_found. apply (detect_scaled 14 30 (spectrum_part two_waves) (spectrum_part (with_opposite half_scan)) 1); [lra|reflexivity|reflexivity|].
  intros i j Hi Hj. change (nrow (spectrum_part two_waves)) with 6 in Hi. change (ncol (spectrum_part two_waves)) with 14 in Hj. rewrite two_waves_part by assumption. rewrite part_px.
  change (nrow (with_opposite half_scan)) with 14. change (ncol (with_opposite half_scan)) with 30. unfold in_rng in *.
  destruct (shifted_in 14 i ltac:(lia) ltac:(change (14 / 2) with 7; lia)) as (_ & _ & ->). destruct (shifted_in 30 j ltac:(lia) ltac:(change (30 / 2) with 15; lia)) as (_ & _ & ->).
  change (14 - 14 / 2) with 7. change (30 - 30 / 2) with 15. rewrite half_scan_fft by (unfold in_rng; lia). rewrite cabs_nonneg_real by apply amplitude_nonneg. unfold amplitude. ring.
Qed.
(** ** an antisymmetric pattern of stripes *)
Definition pattern (b : Z) : R := (2 * sin (2 * PI * IZR (19 * b) / 30 + PI * 19 / 30))%R.
Lemma pattern_mirror b : pattern (29 - b) = (- pattern b)%R.
Proof.
  unfold pattern. replace (2 * PI * IZR (19 * (29 - b)) / 30 + PI * 19 / 30)%R with (- (2 * PI * IZR (19 * b) / 30 + PI * 19 / 30) + 2 * INR 19 * PI)%R.
  - rewrite sin_period, sin_neg. ring.
  - rewrite !mult_IZR, minus_IZR, (INR_IZR_INZ 19). cbn [Z.of_nat Pos.of_succ_nat Pos.succ]. field.
Qed.
Definition phase : cx := (sin (PI * 19 / 30), - cos (PI * 19 / 30))%R.
Lemma phase_abs : cabs phase = 1%R.
Proof. unfold cabs, phase. cbn [fst snd]. replace (sin (PI * 19 / 30) ^ 2 + (- cos (PI * 19 / 30)) ^ 2)%R with 1%R; [apply sqrt_1|]. assert (E := sin2_cos2 (PI * 19 / 30)). unfold Rsqr in E. lra. Qed.
Lemma pattern_waves b : c_ (pattern b) = cadd (cmul phase (root 30 (19 * b))) (cmul (sin (PI * 19 / 30), cos (PI * 19 / 30))%R (root 30 (- (19 * b)))).
Proof. rewrite root_opp. unfold pattern. rewrite sin_plus. unfold phase, root. apply cx_eq; cbn; ring. Qed.
Lemma pattern_line j : in_rng 14 j -> line 30 pattern (j + 15) = if j =? 4 then cmul phase (c_ 30) else c_ 0.
Proof.
  intros Hj. unfold in_rng in Hj. unfold line. rewrite (csum_ext 30 _ (fun b => cadd (cmul phase (root 30 (b * (19 - (j + 15))))) (cmul (sin (PI * 19 / 30), cos (PI * 19 / 30))%R (root 30 (b * (-19 - (j + 15))))))).
  - rewrite csum_add, !csum_scal, !root_sum by lia. rewrite mod_small_zero by lia. replace ((-19 - (j + 15)) mod 30 =? 0) with false by (symmetry; apply (mod_nonzero 30 _ (26 - j)); lia).
    replace (19 - (j + 15) =? 0) with (j =? 4) by (apply Bool.eq_iff_eq_true; rewrite !Z.eqb_eq; lia). destruct (j =? 4); [|]; apply cx_eq; cbn; ring.
  - intros b _. rewrite pattern_waves. replace (b * (19 - (j + 15))) with (19 * b + - ((j + 15) * b)) by ring. replace (b * (-19 - (j + 15))) with (- (19 * b) + - ((j + 15) * b)) by ring. rewrite !root_add. ring.
Qed.
Definition striped (c : R) : img R := mkimg 7 30 (fun a b => (px half_scan a b + c * pattern b)%R).
Lemma striped_fft c i j : in_rng 6 i -> in_rng 14 j ->
  px (fft2 (as_cx (with_opposite (striped c)))) (i + 7) (j + 15) = cadd (c_ (amplitude i j)) (cmul (c_ c) (cmul (half_sum 7 (i + 7)) (cmul (c_ 2) (if j =? 4 then cmul phase (c_ 30) else c_ 0)))).
Proof.
  intros Hi Hj. set (st := with_opposite (mkimg 7 30 (fun _ b => pattern b))). set (sc := mkimg 14 30 (fun a b => cmul (c_ c) (px (as_cx st) a b))).
  rewrite (fft2_add (as_cx (with_opposite half_scan)) sc); try reflexivity.
  - rewrite half_scan_fft by assumption. f_equal. rewrite (fft2_scale (c_ c) (as_cx st) sc) by reflexivity. f_equal. unfold st. unfold in_rng in *. rewrite stripes_opposite by (unfold in_rng; lia). f_equal.
    assert (M : line 30 (fun b => pattern (30 - 1 - b)) (j + 15) = copp (line 30 pattern (j + 15))).
    { unfold line. rewrite <- (csum_ext 30 (fun b => cmul (c_ (-1)) (cmul (c_ (pattern b)) (root 30 (- ((j + 15) * b)))))).
      - rewrite csum_scal. apply cx_eq; cbn; ring.
      - intros b _. replace (30 - 1 - b) with (29 - b) by ring. rewrite pattern_mirror. apply cx_eq; cbn; ring. }
    rewrite M, pattern_line by (unfold in_rng; lia). destruct (j =? 4); apply cx_eq; cbn; ring.
  - intros a b Ha Hb. unfold sc, st, as_cx. cbn [px]. rewrite !with_opposite_px. cbn [striped nrow ncol px]. change (nrow half_scan) with 7. change (ncol half_scan) with 30. destruct (a <? 7); apply cx_eq; cbn [fst snd cadd c_ cmul half_scan px]; ring.
Qed.
Lemma even_half_sum k : in_rng 14 (2 * k) -> k <> 0 -> half_sum 7 (2 * k) = c_ 0.
Proof.
  intros H N. assert (E := half_sum_turn 7 (2 * k) ltac:(lia) H ltac:(lia)). replace (- (2 * k * 7)) with ((- k) * (7 + 7)) in E by ring.
  rewrite (root_mod (7 + 7) _ 0), root_0 in E by (try lia; rewrite Z_mod_mult; reflexivity). set (z := half_sum 7 (2 * k)) in *. clearbody z. assert (E1 := f_equal fst E). assert (E2 := f_equal snd E). cbn in E1, E2. apply cx_eq; cbn [fst snd c_]; lra.
Qed.

(** ** the stripes dominate the rows that are compared *)
Definition column4 (c : R) (i : Z) : R := px (spectrum_part (with_opposite (striped c))) i 4.
Lemma striped_part c i j : in_rng 6 i -> in_rng 14 j -> px (spectrum_part (with_opposite (striped c))) i j = (column4 c i * dot 4 j + 420 * dot 5 i * dot 9 j)%R.
Proof.
  intros Hi Hj. unfold column4. destruct (Z.eq_dec j 4) as [->|N]; [unfold dot at 1 3; cbn [Z.eqb Pos.eqb]; ring|]. unfold in_rng in *. rewrite part_px. change (nrow (with_opposite (striped c))) with 14. change (ncol (with_opposite (striped c))) with 30.
  destruct (shifted_in 14 i ltac:(lia) ltac:(change (14 / 2) with 7; lia)) as (_ & _ & ->). destruct (shifted_in 30 j ltac:(lia) ltac:(change (30 / 2) with 15; lia)) as (_ & _ & ->).
  change (14 - 14 / 2) with 7. change (30 - 30 / 2) with 15. rewrite striped_fft by (unfold in_rng; lia). replace (j =? 4) with false by lia.
  replace (cadd _ _) with (c_ (amplitude i j)) by (apply cx_eq; cbn; ring). rewrite cabs_nonneg_real by apply amplitude_nonneg. unfold amplitude. unfold dot at 2 5. replace (j =? 4) with false by lia. ring.
Qed.
Lemma column4_nonneg c i : (0 <= column4 c i)%R.
Proof. unfold column4. rewrite part_px. apply cabs_pos. Qed.
Lemma column4_large c : (0 <= c)%R -> (60 * c * cabs (half_sum 7 11) - 420 <= column4 c 4)%R.
Proof.
  intros Hc. unfold column4. rewrite part_px. change (fftshift_idx (nrow (with_opposite (striped c))) 4) with (4 + 7). change (fftshift_idx (ncol (with_opposite (striped c))) 4) with (4 + 15). rewrite striped_fft by (unfold in_rng; lia).
  change (4 =? 4) with true. cbv iota. change (4 + 7) with 11. set (z := cmul (c_ c) _). assert (T := cabs_add (cadd (c_ (amplitude 4 4)) z) (c_ (-420))).
  replace (cadd (cadd (c_ (amplitude 4 4)) z) (c_ (-420))) with z in T.
  - assert (Z1 : cabs z = (60 * c * cabs (half_sum 7 11))%R). { unfold z. rewrite !cabs_mul, phase_abs, !cabs_nonneg_real by lra. ring. }
    assert (Z2 : cabs (c_ (-420)) = 420%R). { replace (c_ (-420)) with (cmul (c_ 420) (c_ (-1))) by (apply cx_eq; cbn; ring). rewrite cabs_mul, cabs_nonneg_real by lra. unfold cabs, c_. cbn [fst snd]. replace ((-1) ^ 2 + 0 ^ 2)%R with 1%R by ring. rewrite sqrt_1. ring. }
    rewrite Z1, Z2 in T. lra.
  - apply cx_eq; cbn; unfold amplitude, dot; cbn [Z.eqb Pos.eqb]; ring.
Qed.
Lemma smooth1_le s n c d i : 1 <= s -> 0 < n -> (forall k, in_rng n k -> (c k <= d k)%R) -> (smooth1 s n c i <= smooth1 s n d i)%R.
Proof. intros Hs Hn H. apply rsum_le. intros a _. apply Rmult_le_compat_l; [apply Rlt_le, weight_pos; exact Hs|apply H, border_idx_in, Hn]. Qed.
Lemma smooth1_scal s n c x i : smooth1 s n (fun k => x * c k)%R i = (x * smooth1 s n c i)%R.
Proof. unfold smooth1. rewrite <- rsum_scal. apply rsum_ext. intros; ring. Qed.
Lemma w1_half : (w1 0 / 2 <= w1 1)%R.
Proof.
  unfold w1, gauss_weight. assert (P := bell_sum_pos 1 ltac:(lia)). set (t := rsum _ _) in *. unfold Rdiv. replace (bell 1 0 * / t * / 2)%R with (bell 1 0 * / 2 * / t)%R by ring. apply Rmult_le_compat_r; [apply Rlt_le, Rinv_0_lt_compat, P|].
  unfold bell. replace (- (0 * 0) / (2 * (1 * 1)))%R with 0%R by field. rewrite exp_0. replace (- (1 * 1) / (2 * (1 * 1)))%R with (- (1 / 2))%R by field. assert (E := exp_ineq1 (- (1 / 2)) ltac:(lra)). lra.
Qed.
Lemma striped_missed c : (4200 < column4 c 4)%R -> detect_in_spectrum 14 30 (spectrum_part (with_opposite (striped c))) = Ok false.
Proof.
  intros HC. set (p := spectrum_part (with_opposite (striped c))). assert (E1 : nrow p = 6) by reflexivity. assert (E2 : ncol p = 14) by reflexivity.
  apply none_rises; [lia|lia|]. rewrite E1, E2. change (4 * 6 / 5) with 4. change (smooth_size 14 30) with 1. intros pk F.
  set (A := smooth1 1 6 (column4 c)).
  assert (G : forall i j, px (gaussian_filter p 1) i j = (A i * smooth1 1 14 (dot 4) j + 420 * smooth1 1 6 (dot 5) i * smooth1 1 14 (dot 9) j)%R).
  { intros i j. rewrite (gaussian_sep2 p 1 (column4 c) (dot 4) (fun x => (420 * dot 5 x)%R) (dot 9)); [|lia|lia|intros; apply striped_part; assumption]. rewrite E1, E2, smooth1_scal. reflexivity. }
  destruct row_dots as (A44 & A45 & A54 & A55).
  assert (W0 : (0 < w1 0)%R) by (apply weight_pos; lia). assert (W1 := w1_le 1 (2/3) ltac:(lra) ltac:(lra)). assert (W1' := w1_half). assert (W2 := w1_le 2 (1/3) ltac:(lra) ltac:(lra)). assert (W3 := w1_le 3 (2/11) ltac:(lra) ltac:(lra)). assert (W4 := w1_le 4 (1/9) ltac:(lra) ltac:(lra)).
  assert (AL : forall i, (column4 c 4 * smooth1 1 6 (dot 4) i <= A i)%R).
  { intros i. rewrite <- smooth1_scal. apply smooth1_le; [lia|lia|]. intros k _. unfold dot. destruct (Z.eqb_spec k 4) as [->|_]; [lra|]. assert (N := column4_nonneg c k). lra. }
  assert (P4 : forall i, i = 4 \/ i = 5 -> pk i = 4).
  { intros i Hi. destruct (Z.eq_dec (pk i) 4) as [E|E]; [exact E|exfalso]. destruct (F i) as (K1 & K2 & _). specialize (K2 4 ltac:(lia)). rewrite !G in K2.
    destruct (col_dots 4 ltac:(unfold in_rng; lia)) as (Y1 & Y2). rewrite Y1, Y2 in K2. destruct (col_dots (pk i) ltac:(unfold in_rng; lia)) as (X1 & X2). rewrite X1, X2 in K2.
    change (col_dot (Z.abs (4 - 4))) with (w1 0) in K2. change (col_dot (Z.abs (4 - 9))) with 0%R in K2.
    assert (C1 : (col_dot (Z.abs (pk i - 4)%Z) <= 2 / 3 * w1 0)%R).
    { assert (AB : Z.abs (pk i - 4) = 1 \/ Z.abs (pk i - 4) = 2 \/ Z.abs (pk i - 4) = 3 \/ Z.abs (pk i - 4) = 4 \/ 5 <= Z.abs (pk i - 4)) by lia. destruct AB as [-> | [-> | [-> | [-> | B] ] ] ]; unfold col_dot; [cbn [Z.leb Z.compare Pos.compare Pos.compare_cont]; lra..|].
      replace (Z.abs (pk i - 4) <=? 4) with false by lia. lra. }
    assert (C2 : (0 <= col_dot (Z.abs (pk i - 9)%Z) <= w1 0)%R).
    { assert (AB : Z.abs (pk i - 9) = 0 \/ Z.abs (pk i - 9) = 1 \/ Z.abs (pk i - 9) = 2 \/ Z.abs (pk i - 9) = 3 \/ Z.abs (pk i - 9) = 4 \/ 5 <= Z.abs (pk i - 9)) by lia. destruct AB as [-> | [-> | [-> | [-> | [-> | B] ] ] ] ]; unfold col_dot; [cbn [Z.leb Z.compare Pos.compare Pos.compare_cont]; lra..|].
      replace (Z.abs (pk i - 9) <=? 4) with false by lia. lra. }
    set (x := col_dot (Z.abs (pk i - 4)%Z)) in *. set (y := col_dot (Z.abs (pk i - 9)%Z)) in *. set (a0 := w1 0) in *. set (B := smooth1 1 6 (dot 5) i) in *. set (S4 := smooth1 1 6 (dot 4) i) in *. specialize (AL i). fold S4 in AL.
    assert (B1 : (0 <= B <= 5 / 3 * a0)%R) by (destruct Hi as [-> | ->]; unfold B; rewrite ?A54, ?A55; fold a0; lra).
    assert (S1 : (a0 / 2 <= S4)%R) by (destruct Hi as [-> | ->]; unfold S4; rewrite ?A44, ?A45; fold a0; lra).
    assert (A1 : (2100 * a0 < A i)%R). { apply Rlt_le_trans with (column4 c 4 * S4)%R; [|exact AL]. apply Rlt_le_trans with (column4 c 4 * (a0 / 2))%R; [|apply Rmult_le_compat_l; lra]. assert (T : (4200 * (a0 / 2) < column4 c 4 * (a0 / 2))%R) by (apply Rmult_lt_compat_r; lra). lra. }
    set (Ai := A i) in *. clearbody Ai x y B S4 a0. 
    assert (T1 : (Ai * x <= Ai * (2 / 3 * a0))%R) by (apply Rmult_le_compat_l; lra). assert (T2 : (B * y <= 5 / 3 * a0 * a0)%R) by (apply Rmult_le_compat; lra). assert (T3 : (2100 * a0 * a0 < Ai * a0)%R) by (apply Rmult_lt_compat_r; lra). lra. }
  intros i Hi. rewrite !P4 by lia. lia.
Qed.
