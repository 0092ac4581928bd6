(** Theorems about the Fourier-based Gaussian filter (C113). *)
From Coq Require Import Reals Lra ZArith Lia Bool.
From Verif Require Import Np P_Np M_phase_R P_phase_R M_simR P_simR M_fourier P_fourier P_kernel M_fresnel S_fresnel P_fresnel P_fresnel2 T_fresnel M_gauss S_gauss P_gauss P_gauss2.
Open Scope Z_scope.

Lemma gv {mat sx sy p mode out} (O : apply_gaussian_filter mat sx sy (Some p) mode = Ok out) : 0 < nrow mat -> 0 < ncol mat ->
  0 <= p /\ nrow out = nrow mat /\ ncol out = ncol mat /\ forall i j, in_rng (nrow mat) i -> in_rng (ncol mat) j -> px out i j = gvalue mat sx sy p mode i j.
Proof. intros Hh Hw. apply gauss_value; [lia|lia|exact O]. Qed.
(** an image of the same shape; a negative padding is a ValueError; by default a tenth of the shorter side, at most 150 *)
Theorem gaussian_filter_shape : forall mat sx sy p mode, 0 < nrow mat -> 0 < ncol mat ->
  (0 <= p -> exists out, apply_gaussian_filter mat sx sy (Some p) mode = Ok out /\ nrow out = nrow mat /\ ncol out = ncol mat) /\
  (p < 0 -> apply_gaussian_filter mat sx sy (Some p) mode = Err ValueError) /\
  (10 * p <= Z.min (nrow mat) (ncol mat) < 10 * (p + 1) -> apply_gaussian_filter mat sx sy None mode = apply_gaussian_filter mat sx sy (Some (Z.min 150 p)) mode).
Proof.
  intros mat sx sy p mode Hh Hw. split; [|split].
  - intros Hp. destruct (gauss_ok mat sx sy p mode Hp) as (out & O). exists out. destruct (gv O Hh Hw) as (_ & A & B & _). repeat split; assumption.
  - intros Hp. unfold apply_gaussian_filter. destruct mode as [[m1 m2]|]; (replace (p <? 0) with true by lia); reflexivity.
  - intros Hp. assert (E : Z.min (nrow mat) (ncol mat) / 10 = p) by (symmetry; apply (Z.div_unique _ _ _ (Z.min (nrow mat) (ncol mat) - 10 * p)); lia). unfold apply_gaussian_filter. rewrite E. reflexivity.
Qed.
Print Assumptions gaussian_filter_shape.
(** linear, for all paddings *)
Theorem gaussian_filter_linear : forall mat1 mat2 mat3 a b sx sy p mode out1 out2 out3, 0 < nrow mat1 -> 0 < ncol mat1 -> combination a b mat1 mat2 mat3 ->
  apply_gaussian_filter mat1 sx sy (Some p) mode = Ok out1 -> apply_gaussian_filter mat2 sx sy (Some p) mode = Ok out2 -> apply_gaussian_filter mat3 sx sy (Some p) mode = Ok out3 ->
  combination a b out1 out2 out3.
Proof.
  intros m1 m2 m3 a b sx sy p mode o1 o2 o3 Hh Hw C O1 O2 O3. assert (C0 := C). destruct C0 as (R1 & R2 & R3 & R4 & _).
  destruct (gv O1 ltac:(lia) ltac:(lia)) as (_ & A1 & B1 & V1). destruct (gv O2 ltac:(lia) ltac:(lia)) as (_ & A2 & B2 & V2). destruct (gv O3 ltac:(lia) ltac:(lia)) as (_ & A3 & B3 & V3).
  repeat split; try congruence. intros i j Hi Hj. rewrite V3, V1, V2 by congruence. apply gvalue_lin; assumption.
Qed.
Print Assumptions gaussian_filter_linear.
(** it commutes with half a turn, and with transposing when sigma_x, sigma_y and the two padding modes are exchanged *)
Theorem gaussian_filter_symmetric_partial : forall mat mat' sx sy p mode1 mode2 out out', 0 < nrow mat -> 0 < ncol mat ->
  (half_turned mat mat' -> apply_gaussian_filter mat sx sy (Some p) (Some (mode1, mode2)) = Ok out -> apply_gaussian_filter mat' sx sy (Some p) (Some (mode1, mode2)) = Ok out' -> half_turned out out') /\
  (transposed mat mat' -> apply_gaussian_filter mat sx sy (Some p) (Some (mode1, mode2)) = Ok out -> apply_gaussian_filter mat' sy sx (Some p) (Some (mode2, mode1)) = Ok out' -> transposed out out').
Proof.
  intros m m' sx sy p m1 m2 o o' Hh Hw. split; intros C O O'; assert (C0 := C); destruct C0 as (R1 & R2 & _); destruct (gv O ltac:(lia) ltac:(lia)) as (Hp & A & B & V); destruct (gv O' ltac:(lia) ltac:(lia)) as (_ & A' & B' & V');
    (split; [congruence|]; split; [congruence|]); intros i j Hi Hj; rewrite A' in Hi; rewrite B' in Hj; rewrite V' by assumption; rewrite V by (unfold in_rng in *; lia).
  - rewrite A, B. apply gvalue_half_turn; assumption.
  - apply (gvalue_transposed m m' sx sy p (Some (m1, m2))); assumption.
Qed.
Print Assumptions gaussian_filter_symmetric_partial.
(** even sizes, no padding: a wave with u periods over the height and v over the width is multiplied by the mean of the bell at
    (v + 1/2, u + 1/2) and (- v + 1/2, - u + 1/2): the bell is half a frequency off centre *)
Theorem gaussian_filter_frequency_partial : forall mat h w sx sy mode u v amplitude phase out, 0 < h -> 0 < w -> nrow mat = 2 * h -> ncol mat = 2 * w -> - h < u < h -> - w < v < w ->
  is_wave mat u v amplitude phase -> apply_gaussian_filter mat sx sy (Some 0) mode = Ok out ->
  multiple ((bell sx sy (IZR v + 1 / 2) (IZR u + 1 / 2) + bell sx sy (- IZR v + 1 / 2) (- IZR u + 1 / 2)) / 2) mat out.
Proof.
  intros mat h w sx sy mode u v amp f out Hh Hw E1 E2 Hu Hv H O. destruct (gv O ltac:(lia) ltac:(lia)) as (_ & A & B & V). split; [exact A|]. split; [exact B|].
  intros i j Hi Hj. rewrite A in Hi. rewrite B in Hj. rewrite V by assumption. apply (gvalue_wave mat h w sx sy mode u v amp f); assumption.
Qed.
Print Assumptions gaussian_filter_frequency_partial.
(** a flat image does not stay as it is: with even sizes it is darkened by exp (- (1 / sx^2 + 1 / sy^2) / 8), whatever the padding *)
Theorem gaussian_filter_flat_refuted : forall mat h w sx sy p mode level out, 0 < h -> 0 < w -> nrow mat = 2 * h -> ncol mat = 2 * w -> sx <> 0%R -> sy <> 0%R ->
  (forall i j, in_rng (nrow mat) i -> in_rng (ncol mat) j -> px mat i j = level) -> apply_gaussian_filter mat sx sy (Some p) mode = Ok out ->
  forall i j, in_rng (nrow mat) i -> in_rng (ncol mat) j ->
    px out i j = (level * exp (- (/ sx ^ 2 + / sy ^ 2) / 8))%R /\ (level <> 0%R -> px out i j <> px mat i j).
Proof.
  intros mat h w sx sy p mode c out Hh Hw E1 E2 Sx Sy H O i j Hi Hj. destruct (gv O ltac:(lia) ltac:(lia)) as (Hp & A & B & V). rewrite V by assumption. rewrite (gvalue_flat mat h w sx sy p mode c) by assumption.
  assert (E : bell sx sy (1 / 2) (1 / 2) = exp (- (/ sx ^ 2 + / sy ^ 2) / 8)).
  { unfold bell. f_equal. assert (sx ^ 2 <> 0)%R by (apply pow_nonzero; exact Sx). assert (sy ^ 2 <> 0)%R by (apply pow_nonzero; exact Sy). field. split; assumption. }
  rewrite E. split; [reflexivity|]. intros N. rewrite (H i j Hi Hj). intros C.
  assert (P1 : (0 < / sx ^ 2)%R) by (apply Rinv_0_lt_compat; rewrite <- Rsqr_pow2; apply Rlt_0_sqr, Sx). assert (P2 : (0 < / sy ^ 2)%R) by (apply Rinv_0_lt_compat; rewrite <- Rsqr_pow2; apply Rlt_0_sqr, Sy).
  assert (L : (exp (- (/ sx ^ 2 + / sy ^ 2) / 8) < 1)%R) by (rewrite <- exp_0; apply exp_increasing; lra).
  assert (Q : (c * (exp (- (/ sx ^ 2 + / sy ^ 2) / 8) - 1) = 0)%R) by lra. apply Rmult_integral in Q. destruct Q; [contradiction|lra].
Qed.
Print Assumptions gaussian_filter_flat_refuted.
(** it does not commute with mirroring: a bright pixel in a 4 x 4 image *)
Definition spot (q : Z) : img R := mkimg 4 4 (fun i j => if (i =? 1) && (j =? q) then 1%R else 0%R).
Lemma spot_value sx sy mode q i j : in_rng 4 q -> gvalue (spot q) sx sy 0 mode i j = ckern 4 4 sx sy (i - 1) (j - q).
Proof.
  intros Hq. rewrite gvalue_conv. cbn [nrow ncol spot]. rewrite !Z.add_0_r. change (4 + 2 * 0) with 4.
  rewrite (rsum_single 4 _ 1) by (try lia; intros a Ha Na; rewrite <- (rsum_zero 4); apply rsum_ext; intros b Hb; cbn [px pad_image nrow ncol spot]; rewrite pad_none_line, pad_none_line by assumption; cbn [px]; replace (a =? 1) with false by lia; cbn [andb]; ring).
  rewrite (rsum_single 4 _ q) by (try exact Hq; intros b Hb Nb; cbn [px pad_image nrow ncol spot]; rewrite pad_none_line, pad_none_line by (assumption || lia); cbn [px]; replace (b =? q) with false by lia; rewrite Bool.andb_false_r; ring).
  cbn [px pad_image nrow ncol spot]. rewrite pad_none_line, pad_none_line by (exact Hq || lia). cbn [px]. rewrite !Z.eqb_refl. cbn [Z.eqb Pos.eqb andb]. ring.
Qed.
Theorem gaussian_filter_mirror_refuted : forall sx sy mode, sx <> 0%R -> sy <> 0%R -> exists mat mat' out out', mirrored mat mat' /\
  apply_gaussian_filter mat sx sy (Some 0) mode = Ok out /\ apply_gaussian_filter mat' sx sy (Some 0) mode = Ok out' /\ ~ mirrored out out'.
Proof.
  intros sx sy mode Sx Sy. destruct (gauss_ok (spot 1) sx sy 0 mode ltac:(lia)) as (out & O). destruct (gauss_ok (spot 2) sx sy 0 mode ltac:(lia)) as (out' & O').
  exists (spot 1), (spot 2), out, out'. split; [|split; [exact O|split; [exact O'|] ] ].
  { repeat split. unfold in_rng. cbn [nrow ncol spot px]. intros i j Hi Hj. replace (4 - 1 - j =? 1) with (j =? 2) by lia. reflexivity. }
  destruct (gv O ltac:(cbn; lia) ltac:(cbn; lia)) as (_ & A & B & V). destruct (gv O' ltac:(cbn; lia) ltac:(cbn; lia)) as (_ & A' & B' & V'). cbn [nrow ncol spot] in *.
  intros (_ & _ & M). rewrite A', B', B in M. specialize (M 2 1 ltac:(unfold in_rng; lia) ltac:(unfold in_rng; lia)). rewrite V', V in M by (unfold in_rng; lia).
  rewrite !spot_value in M by (unfold in_rng; lia). change (2 - 1) with 1 in M. change (1 - 2) with (-1) in M. change (4 - 1 - 1 - 1) with 1 in M.
  unfold ckern in M. change (checker (-1) 1) with 1%R in M. change (checker 1 1) with 1%R in M. rewrite !Rmult_1_l in M.
  set (g := fun (s : R) (k : Z) => exp (- ((IZR k - (IZR 4 - 1) / 2) ^ 2 / (2 * s ^ 2)))%R).
  assert (K : forall d e, kernel 4 4 (fun u v => px (make_2d_gaussian_window 4 4 sx sy) u v) d e = kernel 4 4 (fun u v => (g sy u * g sx v)%R) d e).
  { intros d e. apply kernel_ext. intros u v _ _. cbn [px make_2d_gaussian_window]. unfold g. rewrite <- exp_plus. f_equal. ring. }
  rewrite !K in M. unfold kernel in M. rewrite !rsum4 in M. rewrite !root4 in M.
  cbv [Z.mul Z.opp Z.modulo Z.div_eucl Z.pos_div_eucl Z.leb Z.ltb Z.compare Pos.compare Pos.compare_cont Z.add Z.sub Z.pos_sub Pos.mul Pos.add Pos.succ Pos.pred_double Z.succ_double Z.pred_double Z.double CompOpp fst snd cmul Z.eqb] in M.
  assert (Q : ((g sy 1%Z - g sy 3%Z) * (g sx 1%Z - g sx 3%Z) = 0)%R) by lra.
  assert (G : forall s, s <> 0%R -> (g s 3%Z < g s 1%Z)%R).
  { intros s Hs. unfold g. apply exp_increasing. assert (P : (0 < s ^ 2)%R) by (rewrite <- Rsqr_pow2; apply Rlt_0_sqr, Hs). assert (I := Rinv_0_lt_compat _ P).
    replace (- ((3 - (4 - 1) / 2) ^ 2 / (2 * s ^ 2)))%R with (- (9 / 8) * / s ^ 2)%R by (field; exact Hs). replace (- ((1 - (4 - 1) / 2) ^ 2 / (2 * s ^ 2)))%R with (- (1 / 8) * / s ^ 2)%R by (field; exact Hs). lra. }
  assert (G1 := G sx Sx). assert (G2 := G sy Sy). apply Rmult_integral in Q. destruct Q; lra.
Qed.
Print Assumptions gaussian_filter_mirror_refuted.
(** cases *)
Example gaussian_wave_case : exists mat out, is_wave mat 1 0 2 0 /\ apply_gaussian_filter mat 1 1 (Some 0) None = Ok out /\
  multiple ((bell 1 1 (0 + 1 / 2) (1 + 1 / 2) + bell 1 1 (- 0 + 1 / 2) (- (1) + 1 / 2)) / 2) mat out.
Proof.
  set (mat := mkimg 4 4 (fun i j => 2 * cos (2 * PI * (IZR (1 * i) / IZR 4 + IZR (0 * j) / IZR 4) + 0))%R). assert (W : is_wave mat 1 0 2 0) by (intros i j _ _; reflexivity).
  destruct (gauss_ok mat 1 1 0 None ltac:(lia)) as (out & O). exists mat, out. split; [exact W|]. split; [exact O|].
  apply (gaussian_filter_frequency_partial mat 2 2 1 1 None 1 0 2 0 out); try lia; try reflexivity; assumption.
Qed.
Example gaussian_flat_case : exists out, apply_gaussian_filter (mkimg 20 30 (fun _ _ => 7%R)) 10 10 None None = Ok out /\ px out 3 4 = (7 * exp (- (/ 10 ^ 2 + / 10 ^ 2) / 8))%R.
Proof.
  set (mat := mkimg 20 30 (fun _ _ => 7%R)). destruct (gaussian_filter_shape mat 10 10 2 None) as (_ & _ & D); try (cbn; lia). cbn [nrow ncol mat] in D. rewrite D by lia.
  destruct (gauss_ok mat 10 10 2 None ltac:(lia)) as (out & O). exists out. change (Z.min 150 2) with 2. split; [exact O|].
  apply (gaussian_filter_flat_refuted mat 10 15 10 10 2 None 7 out); try lia; try reflexivity; try lra; try assumption; unfold in_rng; cbn; lia.
Qed.
