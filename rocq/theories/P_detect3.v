(** Lemmas for detect_sample (C133): a sinogram in which a sample is found. *)
From Coq Require Import Reals Lra ZArith Lia String.
From Verif Require Import Np P_Np M_phase_R P_phase_R M_fourier P_fourier M_simR P_simR M_corr P_corr2 P_umpa M_detect S_detect P_stripefft2 P_detect P_detect2.
From Coq Require Import List. Import ListNotations.
Open Scope Z_scope.

Definition wave2 (h w p q : Z) : img cx := mkimg h w (fun a b => cmul (root h (p * a)) (root w (q * b))).
Lemma wave2_fft h w p q u v : 0 < h -> 0 < w ->
  px (fft2 (wave2 h w p q)) u v = cmul (if (p - u) mod h =? 0 then c_ (IZR h) else c_ 0) (if (q - v) mod w =? 0 then c_ (IZR w) else c_ 0).
Proof.
  intros Hh Hw. cbn [fft2 wave2 px nrow ncol]. rewrite (csum_ext h _ (fun a => cmul (root h (a * (p - u))) (csum w (fun b => root w (b * (q - v)))))).
  - rewrite csum_scal_r, !root_sum by assumption. reflexivity.
  - intros a _. rewrite <- csum_scal. apply csum_ext. intros b _. replace (a * (p - u)) with (p * a + - (u * a)) by ring. replace (b * (q - v)) with (q * b + - (v * b)) by ring. rewrite !root_add. ring.
Qed.
(** two crossing waves *)
Definition two_waves : img R := mkimg 14 30 (fun a b => (2 * cos (2 * PI * IZR (11 * a) / 14 + 2 * PI * IZR (19 * b) / 30) + 2 * cos (2 * PI * IZR (12 * a) / 14 + 2 * PI * IZR (24 * b) / 30))%R).
Lemma two_cos x y : c_ (2 * cos (x + y)) = cadd (cmul (cos x, sin x) (cos y, sin y)) (cmul (cos x, - sin x)%R (cos y, - sin y)%R).
Proof. rewrite cos_plus. apply cx_eq; cbn; ring. Qed.
Lemma two_waves_px a b : c_ (px two_waves a b) = cadd (cadd (px (wave2 14 30 11 19) a b) (px (wave2 14 30 (-11) (-19)) a b)) (cadd (px (wave2 14 30 12 24) a b) (px (wave2 14 30 (-12) (-24)) a b)).
Proof.
  cbn [px two_waves wave2]. replace (-11 * a) with (- (11 * a)) by ring. replace (-19 * b) with (- (19 * b)) by ring. replace (-12 * a) with (- (12 * a)) by ring. replace (-24 * b) with (- (24 * b)) by ring. rewrite !root_opp.
  change (c_ (?x + ?y)) with (c_ (x + y)). replace (c_ _) with (cadd (c_ (2 * cos (2 * PI * IZR (11 * a) / 14 + 2 * PI * IZR (19 * b) / 30))) (c_ (2 * cos (2 * PI * IZR (12 * a) / 14 + 2 * PI * IZR (24 * b) / 30)))) by (apply cx_eq; cbn [fst snd cadd c_]; ring).
  rewrite !two_cos. reflexivity.
Qed.
Lemma two_waves_fft u v : px (fft2 (as_cx two_waves)) u v =
  cadd (cadd (px (fft2 (wave2 14 30 11 19)) u v) (px (fft2 (wave2 14 30 (-11) (-19))) u v)) (cadd (px (fft2 (wave2 14 30 12 24)) u v) (px (fft2 (wave2 14 30 (-12) (-24))) u v)).
Proof.
  set (q1 := mkimg 14 30 (fun a b => cadd (px (wave2 14 30 11 19) a b) (px (wave2 14 30 (-11) (-19)) a b))). set (q2 := mkimg 14 30 (fun a b => cadd (px (wave2 14 30 12 24) a b) (px (wave2 14 30 (-12) (-24)) a b))).
  rewrite (fft2_add q1 q2 (as_cx two_waves)); [|reflexivity|reflexivity|reflexivity|reflexivity|intros; apply two_waves_px].
  rewrite (fft2_add (wave2 14 30 11 19) (wave2 14 30 (-11) (-19)) q1), (fft2_add (wave2 14 30 12 24) (wave2 14 30 (-12) (-24)) q2); reflexivity.
Qed.
Definition dot (k i : Z) : R := if i =? k then 1%R else 0%R.
Lemma mod_small_zero n a : 0 < n -> - n < a < n -> (a mod n =? 0) = (a =? 0).
Proof.
  intros Hn Ha. destruct (Z.eqb_spec a 0) as [->|N]; [rewrite Z.mod_0_l by lia; reflexivity|]. apply Z.eqb_neq. destruct (Z_lt_le_dec a 0); [|rewrite Z.mod_small by lia; exact N].
  rewrite <- (Z.mod_unique_pos a n (-1) (a + n)); lia.
Qed.
Lemma two_waves_part i j : in_rng 6 i -> in_rng 14 j -> px (spectrum_part two_waves) i j = (420 * dot 4 i * dot 4 j + 420 * dot 5 i * dot 9 j)%R.
Proof.
  intros Hi Hj. unfold in_rng in *. rewrite part_px. change (nrow two_waves) with 14. change (ncol two_waves) with 30.
  destruct (shifted_in 14 i ltac:(lia) ltac:(change (14 / 2) with 7; lia)) as (_ & _ & ->). destruct (shifted_in 30 j ltac:(lia) ltac:(change (30 / 2) with 15; lia)) as (_ & _ & ->).
  change (14 - 14 / 2) with 7. change (30 - 30 / 2) with 15. rewrite two_waves_fft, !wave2_fft by lia.
  rewrite (mod_small_zero 14 (11 - (i + 7))), (mod_small_zero 14 (12 - (i + 7))), (mod_small_zero 30 (19 - (j + 15))), (mod_small_zero 30 (24 - (j + 15))) by lia.
  replace ((-11 - (i + 7)) mod 14 =? 0) with false; [|symmetry; apply Z.eqb_neq; replace (-11 - (i + 7)) with (10 - i + (-2) * 14) by ring; rewrite Z_mod_plus_full, Z.mod_small by lia; lia].
  replace ((-12 - (i + 7)) mod 14 =? 0) with false; [|symmetry; apply Z.eqb_neq; replace (-12 - (i + 7)) with (9 - i + (-2) * 14) by ring; rewrite Z_mod_plus_full, Z.mod_small by lia; lia].
  unfold dot. replace (11 - (i + 7) =? 0) with (i =? 4) by (apply Bool.eq_iff_eq_true; rewrite !Z.eqb_eq; lia). replace (12 - (i + 7) =? 0) with (i =? 5) by (apply Bool.eq_iff_eq_true; rewrite !Z.eqb_eq; lia).
  replace (19 - (j + 15) =? 0) with (j =? 4) by (apply Bool.eq_iff_eq_true; rewrite !Z.eqb_eq; lia). replace (24 - (j + 15) =? 0) with (j =? 9) by (apply Bool.eq_iff_eq_true; rewrite !Z.eqb_eq; lia).
  match goal with |- cabs ?z = ?x => replace z with (c_ x); [apply cabs_nonneg_real|] end;
  destruct (Z.eqb_spec i 4), (Z.eqb_spec i 5), (Z.eqb_spec j 4), (Z.eqb_spec j 9); try lia; try (apply cx_eq; cbn; ring); lra.
Qed.
Lemma gaussian_sep2 p s c d c' d' i j : 0 < nrow p -> 0 < ncol p -> (forall i j, in_rng (nrow p) i -> in_rng (ncol p) j -> px p i j = (c i * d j + c' i * d' j)%R) ->
  px (gaussian_filter p s) i j = (smooth1 s (nrow p) c i * smooth1 s (ncol p) d j + smooth1 s (nrow p) c' i * smooth1 s (ncol p) d' j)%R.
Proof.
  intros Hh Hw H. unfold gaussian_filter, smooth1. cbv zeta. cbn [px]. rewrite <- !rsum_scal, <- rsum_add. apply rsum_ext. intros b _.
  rewrite (rsum_ext _ _ (fun a => (d (border_idx (ncol p) (j + (b - 4 * s))) * (gauss_weight s (a - 4 * s) * c (border_idx (nrow p) (i + (a - 4 * s)))) + d' (border_idx (ncol p) (j + (b - 4 * s))) * (gauss_weight s (a - 4 * s) * c' (border_idx (nrow p) (i + (a - 4 * s)))))%R)).
  - rewrite rsum_add, !rsum_scal. ring.
  - intros a _. rewrite H by (apply border_idx_in; assumption). ring.
Qed.
(** the weights for sigma = 1 *)
Definition w1 (k : Z) : R := gauss_weight 1 k.
Lemma w1_even k : w1 (- k) = w1 k.
Proof. unfold w1, gauss_weight, bell. rewrite opp_IZR. do 2 f_equal. f_equal. ring. Qed.
Lemma w1_le k q : (0 < q)%R -> (1 / q <= 1 + (IZR k * IZR k) / 2)%R -> (0 < w1 k <= q * w1 0)%R.
Proof.
  intros Hq H. split; [apply weight_pos; lia|]. unfold w1, gauss_weight. assert (P := bell_sum_pos 1 ltac:(lia)). set (t := rsum _ _) in *. unfold Rdiv. rewrite <- Rmult_assoc. apply Rmult_le_compat_r; [apply Rlt_le, Rinv_0_lt_compat, P|].
  unfold bell. replace (- (0 * 0) / (2 * (1 * 1)))%R with 0%R by field. rewrite exp_0. replace (- (IZR k * IZR k) / (2 * (1 * 1)))%R with (- (IZR k * IZR k / 2))%R by field. rewrite exp_Ropp, Rmult_1_r.
  assert (E : (1 + IZR k * IZR k / 2 <= exp (IZR k * IZR k / 2))%R). { destruct (Req_EM_T (IZR k * IZR k / 2) 0) as [Z0|Z0]; [rewrite Z0, exp_0; lra|]. apply Rlt_le, exp_ineq1. exact Z0. }
  assert (Q : (0 < 1 / q)%R) by (apply Rdiv_lt_0_compat; lra). replace q with (/ (1 / q))%R by (field; lra). apply Rinv_le_contravar; [exact Q|lra].
Qed.
Lemma dot_sum s n k i : 1 <= s -> smooth1 s n (dot k) i = rsum (2 * (4 * s) + 1) (fun a => if border_idx n (i + (a - 4 * s)) =? k then gauss_weight s (a - 4 * s) else 0%R).
Proof. intros Hs. unfold smooth1, dot. apply rsum_ext. intros a _. destruct (_ =? _); ring. Qed.
Ltac dots := rewrite dot_sum by lia; unfold rsum; change (Z.to_nat (2 * (4 * 1) + 1)) with 9%nat; cbn [rsumn]; repeat match goal with |- context [border_idx ?n ?i] => let v := eval vm_compute in (border_idx n i) in change (border_idx n i) with v end;
  cbn [Z.eqb Pos.eqb]; repeat match goal with |- context [gauss_weight 1 ?x] => let v := eval vm_compute in x in change (gauss_weight 1 x) with (w1 v) end; rewrite ?(w1_even 1), ?(w1_even 2), ?(w1_even 3), ?(w1_even 4), ?(w1_even 0); change (w1 (-1)) with (w1 (- (1))); change (w1 (-2)) with (w1 (- (2))); change (w1 (-3)) with (w1 (- (3))); change (w1 (-4)) with (w1 (- (4))); rewrite ?w1_even.
Lemma row_dots : smooth1 1 6 (dot 4) 4 = (w1 0 + w1 3)%R /\ smooth1 1 6 (dot 4) 5 = (w1 1 + w1 2)%R /\ smooth1 1 6 (dot 5) 4 = (w1 1 + w1 2)%R /\ smooth1 1 6 (dot 5) 5 = (w1 0 + w1 1)%R.
Proof. repeat split; dots; ring. Qed.
Definition col_dot (d : Z) : R := if d <=? 4 then w1 d else 0%R.
Lemma col_dots j : in_rng 14 j -> smooth1 1 14 (dot 4) j = col_dot (Z.abs (j - 4)) /\ smooth1 1 14 (dot 9) j = col_dot (Z.abs (j - 9)).
Proof.
  intros Hj. unfold in_rng in Hj. assert (C : j = 0 \/ j = 1 \/ j = 2 \/ j = 3 \/ j = 4 \/ j = 5 \/ j = 6 \/ j = 7 \/ j = 8 \/ j = 9 \/ j = 10 \/ j = 11 \/ j = 12 \/ j = 13) by lia.
  repeat destruct C as [-> | C]; try subst j; split; dots; match goal with |- _ = col_dot ?x => let v := eval vm_compute in x in change x with v end; unfold col_dot; cbn [Z.leb Z.compare Pos.compare Pos.compare_cont]; ring.
Qed.
Lemma two_waves_found : detect_in_spectrum 14 30 (spectrum_part two_waves) = Ok true.
Proof.
  set (p := spectrum_part two_waves). assert (E1 : nrow p = 6) by reflexivity. assert (E2 : ncol p = 14) by reflexivity.
  destruct (detect_val 14 30 p ltac:(lia) ltac:(lia)) as (pk & F & E). change (smooth_size 14 30) with 1 in F. cbv zeta in E. rewrite E1 in E. change (4 * 6 / 5) with 4 in E. rewrite E2 in F.
  assert (G : forall i j, px (gaussian_filter p 1) i j = (420 * (smooth1 1 6 (dot 4) i * smooth1 1 14 (dot 4) j + smooth1 1 6 (dot 5) i * smooth1 1 14 (dot 9) j))%R).
  { intros i j. rewrite (gaussian_sep2 p 1 (fun x => (420 * dot 4 x)%R) (dot 4) (fun x => (420 * dot 5 x)%R) (dot 9)); [|lia|lia|intros; apply two_waves_part; assumption]. rewrite E1, E2.
    assert (S420 : forall k, smooth1 1 6 (fun x => (420 * dot k x)%R) i = (420 * smooth1 1 6 (dot k) i)%R). { intros k. unfold smooth1. rewrite <- rsum_scal. apply rsum_ext. intros; ring. }
    rewrite !S420. ring. }
  destruct row_dots as (A44 & A45 & A54 & A55).
  assert (W0 : (0 < w1 0)%R) by (apply weight_pos; lia). assert (W1 := w1_le 1 (2/3) ltac:(lra) ltac:(lra)). assert (W2 := w1_le 2 (1/3) ltac:(lra) ltac:(lra)). assert (W3 := w1_le 3 (2/11) ltac:(lra) ltac:(lra)). assert (W4 := w1_le 4 (1/9) ltac:(lra) ltac:(lra)).
  set (a0 := w1 0) in *. set (a1 := w1 1) in *. set (a2 := w1 2) in *. set (a3 := w1 3) in *. set (a4 := w1 4) in *.
  assert (HI4 : pk 4 <= 6).
  { destruct (Z_le_gt_dec (pk 4) 6) as [L|L]; [exact L|exfalso]. destruct (F 4) as (K1 & K2 & _). specialize (K2 4 ltac:(lia)). rewrite !G, A44, A54 in K2.
    destruct (col_dots 4 ltac:(unfold in_rng; lia)) as (Y1 & Y2). rewrite Y1, Y2 in K2. destruct (col_dots (pk 4) ltac:(unfold in_rng; lia)) as (X1 & X2). rewrite X1, X2 in K2. change (col_dot (Z.abs (4 - 4))) with a0 in K2. change (col_dot (Z.abs (4 - 9))) with 0%R in K2.
    assert (P1 : (0 < a0 + a3)%R) by lra. assert (P2 : (0 < a1 + a2 < a0 + a3)%R) by lra. set (b := (a0 + a3)%R) in *. set (c := (a1 + a2)%R) in *.
    assert (C : pk 4 = 7 \/ pk 4 = 8 \/ pk 4 = 9 \/ pk 4 = 10 \/ pk 4 = 11 \/ pk 4 = 12 \/ pk 4 = 13) by lia. clearbody b c.
    assert (Q : (0 <= col_dot (Z.abs (pk 4 - 4)%Z) /\ 0 <= col_dot (Z.abs (pk 4 - 9)%Z) /\ col_dot (Z.abs (pk 4 - 4)%Z) + col_dot (Z.abs (pk 4 - 9)%Z) <= a0 /\ col_dot (Z.abs (pk 4 - 4)%Z) < a0)%R).
    { destruct C as [-> | [-> | [-> | [-> | [-> | [-> | ->] ] ] ] ] ]; unfold col_dot; cbn [Z.abs Z.sub Z.opp Z.add Z.pos_sub Pos.pred_double Z.leb Z.compare Pos.compare Pos.compare_cont Z.succ_double Z.pred_double Z.double]; fold a0 a1 a2 a3 a4; lra. }
    set (x := col_dot (Z.abs (pk 4 - 4)%Z)) in *. set (y := col_dot (Z.abs (pk 4 - 9)%Z)) in *. clearbody x y. destruct Q as (X0 & Y0 & XY & YL).
    assert (M1 : (c * y <= b * y)%R) by (apply Rmult_le_compat_r; lra). assert (M2 : (b * (x + y) <= b * a0)%R) by (apply Rmult_le_compat_l; lra).
    assert (EQ : (c * y = b * y)%R) by lra. assert (Yz : y = 0%R). { destruct (Req_EM_T y 0) as [Z0|Z0]; [exact Z0|exfalso]. apply Rmult_eq_reg_r in EQ; [lra|exact Z0]. }
    clear X1 X2. rewrite Yz in K2, M2. assert (EX : (b * x = b * a0)%R) by lra. apply Rmult_eq_reg_l in EX; [lra|apply Rgt_not_eq; lra]. }
  assert (HI5 : 7 <= pk 5).
  { destruct (Z_le_gt_dec 7 (pk 5)) as [L|L]; [exact L|exfalso]. destruct (F 5) as (K1 & K2 & _). specialize (K2 9 ltac:(lia)). rewrite !G, A45, A55 in K2.
    destruct (col_dots 9 ltac:(unfold in_rng; lia)) as (Y1 & Y2). rewrite Y1, Y2 in K2. destruct (col_dots (pk 5) ltac:(unfold in_rng; lia)) as (X1 & X2). rewrite X1, X2 in K2. change (col_dot (Z.abs (9 - 4))) with 0%R in K2. change (col_dot (Z.abs (9 - 9))) with a0 in K2.
    assert (P2 : (0 < a1 + a2 < a0 + a1)%R) by lra. set (b := (a0 + a1)%R) in *. set (c := (a1 + a2)%R) in *.
    assert (C : pk 5 = 0 \/ pk 5 = 1 \/ pk 5 = 2 \/ pk 5 = 3 \/ pk 5 = 4 \/ pk 5 = 5 \/ pk 5 = 6) by lia. clearbody b c.
    assert (Q : (0 <= col_dot (Z.abs (pk 5 - 4)%Z) /\ 0 <= col_dot (Z.abs (pk 5 - 9)%Z) /\ col_dot (Z.abs (pk 5 - 4)%Z) + col_dot (Z.abs (pk 5 - 9)%Z) <= a0 /\ col_dot (Z.abs (pk 5 - 9)%Z) < a0)%R).
    { destruct C as [-> | [-> | [-> | [-> | [-> | [-> | ->] ] ] ] ] ]; unfold col_dot; cbn [Z.abs Z.sub Z.opp Z.add Z.pos_sub Pos.pred_double Z.leb Z.compare Pos.compare Pos.compare_cont Z.succ_double Z.pred_double Z.double]; fold a0 a1 a2 a3 a4; lra. }
    set (x := col_dot (Z.abs (pk 5 - 4)%Z)) in *. set (y := col_dot (Z.abs (pk 5 - 9)%Z)) in *. clearbody x y. destruct Q as (X0 & Y0 & XY & YL).
    assert (M1 : (c * x <= b * x)%R) by (apply Rmult_le_compat_r; lra). assert (M2 : (b * (x + y) <= b * a0)%R) by (apply Rmult_le_compat_l; lra).
    assert (EQ : (c * x = b * x)%R) by lra. assert (Xz : x = 0%R). { destruct (Req_EM_T x 0) as [Z0|Z0]; [exact Z0|exfalso]. apply Rmult_eq_reg_r in EQ; [lra|exact Z0]. }
    clear X1 X2. rewrite Xz in K2, M2. assert (EX : (b * y = b * a0)%R) by lra. apply Rmult_eq_reg_l in EX; [lra|apply Rgt_not_eq; lra]. }
  rewrite E. change (prange 4 6) with [4; 5]. cbn [map fold_right]. unfold rises. rewrite Z.ltb_irrefl. replace (pk 4 <? pk 5) with true by lia. f_equal. unfold Rltb. change (IZR (0 + (1 + 0))) with 1%R. change (IZR (6 - 4)) with 2%R. destruct (Rlt_dec (1 / 2) 0.4); [exfalso; lra|reflexivity].
Qed.
