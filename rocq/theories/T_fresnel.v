(** Theorems about the Fresnel filter (C112). *)
From Coq Require Import Reals Lra ZArith Lia Bool.
From Verif Require Import Np P_Np M_phase_R P_phase_R M_simR P_simR M_fourier P_fourier P_kernel M_fresnel S_fresnel P_fresnel P_fresnel2.
Open Scope Z_scope.

Lemma fv {mat ratio dim window pad lg out} (O : fresnel_filter mat ratio dim window pad lg = Ok out) : 0 < nrow mat -> 0 < ncol mat ->
  0 <= pad /\ let win := win_of window (nrow mat) (ncol mat) ratio dim in nrow win = nrow mat /\ ncol win = ncol mat /\
  nrow out = nrow mat /\ ncol out = ncol mat /\
  forall i j, in_rng (nrow mat) i -> in_rng (ncol mat) j -> px out i j = (let d := dec dim (of_log lg mat) win pad i j in if lg then exp (- d) else d).
Proof. intros Hh Hw. apply (fresnel_value mat ratio dim window pad lg out); [lia|lia|exact O]. Qed.
(** it returns an image of the same shape, or a ValueError for a negative padding or a window of another shape *)
Theorem fresnel_shape : forall mat ratio dim window pad apply_log, 0 < nrow mat -> 0 < ncol mat ->
  (0 <= pad /\ (forall w, window = Some w -> nrow w = nrow mat /\ ncol w = ncol mat) ->
     exists out, fresnel_filter mat ratio dim window pad apply_log = Ok out /\ nrow out = nrow mat /\ ncol out = ncol mat) /\
  (pad < 0 \/ (exists w, window = Some w /\ (nrow w <> nrow mat \/ ncol w <> ncol mat)) -> fresnel_filter mat ratio dim window pad apply_log = Err ValueError).
Proof.
  intros mat ratio dim window pad lg Hh Hw. split.
  - intros (Hp & HW). destruct (fresnel_ok mat ratio dim window pad lg Hp HW) as (out & O). exists out. split; [exact O|].
    destruct (fv O ltac:(cbn; lia) ltac:(cbn; lia)) as (_ & _ & _ & A & B & _). split; assumption.
  - intros H. unfold fresnel_filter. fold (of_log lg mat). destruct (of_log_size lg mat) as (S1 & S2). rewrite S1, S2. destruct (Z.ltb_spec pad 0) as [L|L]; [reflexivity|].
    destruct H as [H|(w & -> & H)]; [lia|]. destruct (Z.eqb_spec (nrow w) (nrow mat)), (Z.eqb_spec (ncol w) (ncol mat)); cbn [andb negb]; try reflexivity. destruct H; contradiction.
Qed.
Print Assumptions fresnel_shape.
(** with ratio 0 the image is returned as it is *)
Theorem fresnel_ratio_zero : forall mat dim pad (apply_log : bool) out, 0 < nrow mat -> 0 < ncol mat -> (apply_log = true -> positive mat) ->
  fresnel_filter mat 0 dim None pad apply_log = Ok out -> img_eq out mat.
Proof.
  intros mat dim pad lg out Hh Hw HP O. destruct (fv O ltac:(cbn; lia) ltac:(cbn; lia)) as (Hp & _ & _ & A & B & V). split; [exact A|]. split; [exact B|].
  intros i j Hi Hj. rewrite A in Hi. rewrite B in Hj. rewrite V by assumption. cbv zeta. cbn [win_of]. destruct (of_log_size lg mat) as (S1 & S2). rewrite <- S1, <- S2. rewrite dec_zero by (rewrite ?S1, ?S2; assumption).
  destruct lg; [|reflexivity]. cbn [of_log imap px]. rewrite Ropp_involutive. apply exp_ln. apply HP; [reflexivity|assumption|assumption].
Qed.
Print Assumptions fresnel_ratio_zero.
(** a flat image stays as it is; with dim = 1 also an image whose rows are flat *)
Theorem fresnel_flat : forall mat ratio dim pad (apply_log : bool) out (level : Z -> R), 0 < nrow mat -> 0 < ncol mat -> (0 <= ratio)%R ->
  (forall i j, in_rng (nrow mat) i -> in_rng (ncol mat) j -> px mat i j = level i) -> (dim = Dim2 -> forall i, level i = level 0) -> (apply_log = true -> positive mat) ->
  fresnel_filter mat ratio dim None pad apply_log = Ok out -> img_eq out mat.
Proof.
  intros mat ratio dim pad lg out level Hh Hw Hr HL HD HP O. destruct (fv O ltac:(cbn; lia) ltac:(cbn; lia)) as (Hp & _ & _ & A & B & V). split; [exact A|]. split; [exact B|].
  intros i j Hi Hj. rewrite A in Hi. rewrite B in Hj. rewrite V by assumption. cbv zeta. cbn [win_of]. destruct (of_log_size lg mat) as (S1 & S2). rewrite <- S1, <- S2.
  assert (F : dec dim (of_log lg mat) (make_fresnel_window (nrow (of_log lg mat)) (ncol (of_log lg mat)) ratio dim) pad i j = (if lg then - ln (level i) else level i)%R).
  { apply dec_flat; rewrite ?S1, ?S2; try assumption. intros a b Ha Hb E. assert (L : level a = level i) by (destruct E as [E| ->]; [rewrite (HD E a), (HD E i); reflexivity|reflexivity]).
    destruct lg; cbn [of_log imap px]; rewrite HL by assumption; rewrite L; reflexivity. }
  rewrite F.
  rewrite HL by assumption. destruct lg; [|reflexivity]. rewrite Ropp_involutive. apply exp_ln. rewrite <- (HL i j) by assumption. apply HP; [reflexivity|assumption|assumption].
Qed.
Print Assumptions fresnel_flat.
(** without the logarithm the filter is linear, for any window *)
Theorem fresnel_linear : forall mat1 mat2 mat3 a b ratio dim window pad out1 out2 out3, 0 < nrow mat1 -> 0 < ncol mat1 -> combination a b mat1 mat2 mat3 ->
  fresnel_filter mat1 ratio dim window pad false = Ok out1 -> fresnel_filter mat2 ratio dim window pad false = Ok out2 -> fresnel_filter mat3 ratio dim window pad false = Ok out3 ->
  combination a b out1 out2 out3.
Proof.
  intros m1 m2 m3 a b ratio dim window pad o1 o2 o3 Hh Hw C O1 O2 O3. assert (C0 := C). destruct C0 as (R1 & R2 & R3 & R4 & H).
  destruct (fv O1 ltac:(cbn; lia) ltac:(cbn; lia)) as (Hp & _ & _ & A1 & B1 & V1). destruct (fv O2 ltac:(cbn; lia) ltac:(cbn; lia)) as (_ & _ & _ & A2 & B2 & V2).
  destruct (fv O3 ltac:(cbn; lia) ltac:(cbn; lia)) as (_ & _ & _ & A3 & B3 & V3). cbv zeta in V1, V2, V3. cbn [of_log] in V1, V2, V3.
  repeat split; try congruence. intros i j Hi Hj. rewrite A3 in Hi. rewrite B3 in Hj. rewrite R3 in Hi. rewrite R4 in Hj.
  rewrite V3, V1, V2 by congruence. rewrite R3, R4, <- R1, <- R2. apply dec_lin; assumption.
Qed.
Print Assumptions fresnel_linear.
(** with the logarithm the result is positive, and c times the image gives c times the result *)
Theorem fresnel_scale : forall mat mat' c ratio dim pad out out', 0 < nrow mat -> 0 < ncol mat -> positive mat -> (0 < c)%R -> (0 <= ratio)%R -> multiple c mat mat' ->
  fresnel_filter mat ratio dim None pad true = Ok out -> fresnel_filter mat' ratio dim None pad true = Ok out' ->
  positive out /\ multiple c out out'.
Proof.
  intros m m' c ratio dim pad o o' Hh Hw HP Hc Hr (R1 & R2 & H) O O'.
  destruct (fv O ltac:(cbn; lia) ltac:(cbn; lia)) as (Hp & _ & _ & A & B & V). destruct (fv O' ltac:(cbn; lia) ltac:(cbn; lia)) as (_ & _ & _ & A' & B' & V').
  cbv zeta in V, V'. cbn [win_of] in V, V'. split.
  - intros i j Hi Hj. rewrite V by congruence. apply exp_pos.
  - split; [congruence|]. split; [congruence|]. intros i j Hi Hj. rewrite A', R1 in Hi. rewrite B', R2 in Hj. rewrite V' by congruence. rewrite V by congruence. rewrite R1, R2.
    set (l := of_log true m). set (l' := of_log true m'). set (one := mkimg (nrow m) (ncol m) (fun _ _ => 1%R)).
    set (win := make_fresnel_window (nrow m) (ncol m) ratio dim).
    assert (C : combination 1 (- ln c) l one l').
    { repeat split; try reflexivity; try assumption. intros a b Ha Hb. change (nrow l') with (nrow m') in Ha. change (ncol l') with (ncol m') in Hb. change (px l' a b) with (- ln (px m' a b))%R. change (px l a b) with (- ln (px m a b))%R. change (px one a b) with 1%R.
      rewrite H by congruence. rewrite R1 in Ha. rewrite R2 in Hb. rewrite ln_mult by (try assumption; apply HP; assumption). ring. }
    rewrite (dec_lin dim l one l' win pad 1 (- ln c) i j) by assumption.
    assert (F : dec dim one win pad i j = 1%R). { apply (dec_flat dim one ratio pad 1); try assumption. intros; reflexivity. }
    rewrite F. replace (- (1 * dec dim l win pad i j + - ln c * 1))%R with (- dec dim l win pad i j + ln c)%R by ring. rewrite exp_plus, exp_ln by exact Hc. ring.
Qed.
Print Assumptions fresnel_scale.
(** dim = 1: every row is filtered for itself *)
Theorem fresnel_rows : forall mat ratio window pad apply_log out i one one_window one_out, 0 < ncol mat -> in_rng (nrow mat) i ->
  nrow one = 1 -> ncol one = ncol mat -> (forall j, in_rng (ncol mat) j -> px one 0 j = px mat i j) ->
  match window, one_window with
  | None, None => True
  | Some w, Some w1 => nrow w1 = 1 /\ ncol w1 = ncol mat /\ forall j, in_rng (ncol mat) j -> px w1 0 j = px w i j
  | _, _ => False
  end ->
  fresnel_filter mat ratio Dim1 window pad apply_log = Ok out -> fresnel_filter one ratio Dim1 one_window pad apply_log = Ok one_out ->
  forall j, in_rng (ncol mat) j -> px one_out 0 j = px out i j.
Proof.
  intros m ratio window pad lg out i one ow oout Hw Hi N1 N2 H HW O O' j Hj. assert (0 < nrow m) by (unfold in_rng in Hi; lia).
  destruct (fv O ltac:(cbn; lia) ltac:(cbn; lia)) as (Hp & W1 & W2 & _ & _ & V). destruct (fv O' ltac:(cbn; lia) ltac:(cbn; lia)) as (_ & W3 & W4 & _ & _ & V').
  cbv zeta in V, V'. rewrite V' by (unfold in_rng in *; lia). rewrite V by assumption.
  assert (D : dec Dim1 (of_log lg one) (win_of ow (nrow one) (ncol one) ratio Dim1) pad 0 j = dec Dim1 (of_log lg m) (win_of window (nrow m) (ncol m) ratio Dim1) pad i j); [|rewrite D; reflexivity].
  destruct (of_log_size lg m) as (S1 & S2). destruct (of_log_size lg one) as (S3 & S4).
  apply dec_row; rewrite ?S1, ?S2, ?S3, ?S4; try assumption; try congruence.
  - intros b Hb. destruct lg; cbn [of_log imap px]; rewrite H by assumption; reflexivity.
  - intros b Hb. destruct window as [w|], ow as [w1|]; cbn [win_of]; try contradiction; [apply (proj2 (proj2 HW)); exact Hb|]. cbn [px make_fresnel_window]. rewrite N2. reflexivity.
Qed.
Print Assumptions fresnel_rows.
(** symmetries: dim = 1 commutes with mirroring, dim = 2 with turning the image by half a turn and with transposing it *)
Theorem fresnel_symmetric_partial : forall mat mat' ratio pad apply_log out out', 0 < nrow mat -> 0 < ncol mat ->
  (mirrored mat mat' -> fresnel_filter mat ratio Dim1 None pad apply_log = Ok out -> fresnel_filter mat' ratio Dim1 None pad apply_log = Ok out' -> mirrored out out') /\
  (half_turned mat mat' -> fresnel_filter mat ratio Dim2 None pad apply_log = Ok out -> fresnel_filter mat' ratio Dim2 None pad apply_log = Ok out' -> half_turned out out') /\
  (transposed mat mat' -> fresnel_filter mat ratio Dim2 None pad apply_log = Ok out -> fresnel_filter mat' ratio Dim2 None pad apply_log = Ok out' -> transposed out out').
Proof.
  intros m m' ratio pad lg o o' Hh Hw. destruct (of_log_size lg m) as (S1 & S2). destruct (of_log_size lg m') as (S3 & S4).
  assert (LG : forall a b c d, px m' a b = px m c d -> px (of_log lg m') a b = px (of_log lg m) c d) by (intros a b c d E; destruct lg; cbn [of_log imap px]; rewrite E; reflexivity).
  split; [|split]; intros C O O'; assert (C0 := C); destruct C0 as (R1 & R2 & H);
    destruct (fv O ltac:(cbn; lia) ltac:(cbn; lia)) as (Hp & _ & _ & A & B & V); destruct (fv O' ltac:(cbn; lia) ltac:(cbn; lia)) as (_ & _ & _ & A' & B' & V');
    cbv zeta in V, V'; cbn [win_of] in V, V'; (split; [congruence|]; split; [congruence|]); intros i j Hi Hj; rewrite A' in Hi; rewrite B' in Hj; rewrite V' by assumption; rewrite V by (unfold in_rng in *; lia); rewrite ?A, ?B.
  - rewrite R1, R2. rewrite (dec_mirror1 (of_log lg m) (of_log lg m')); [rewrite S2; reflexivity|rewrite ?S1, ?S2; try assumption; try congruence..].
    split; [congruence|]. split; [congruence|]. rewrite S2, S3, S4. intros a b Ha Hb. apply LG, H; assumption.
  - rewrite R1, R2. rewrite (dec_half_turn (of_log lg m) (of_log lg m')); [rewrite S1, S2; reflexivity|rewrite ?S1, ?S2; try assumption; try congruence..].
    split; [congruence|]. split; [congruence|]. rewrite S1, S2, S3, S4. intros a b Ha Hb. apply LG, H; assumption.
  - rewrite <- S1, <- S2, <- S3, <- S4. rewrite (dec_transposed (of_log lg m) (of_log lg m')); [reflexivity|rewrite ?S1, ?S2; try assumption; try congruence..].
    split; [congruence|]. split; [congruence|]. rewrite S3, S4. intros a b Ha Hb. apply LG, H; assumption.
Qed.
Print Assumptions fresnel_symmetric_partial.
(** without padding and logarithm: a wave with u periods over the height and v over the width is divided by
    1 + ratio ((u / height)^2 + (v / width)^2); with dim = 1, every row by 1 + ratio (v / width)^2 *)
Theorem fresnel_frequency : forall mat ratio out u v, 0 < nrow mat -> 0 < ncol mat -> (0 <= ratio)%R ->
  - nrow mat <= 2 * u <= nrow mat -> - ncol mat <= 2 * v <= ncol mat ->
  ((exists amplitude phase, is_wave mat u v amplitude phase) -> fresnel_filter mat ratio Dim2 None 0 false = Ok out ->
     multiple (/ (1 + ratio * ((IZR u / IZR (nrow mat)) ^ 2 + (IZR v / IZR (ncol mat)) ^ 2))) mat out) /\
  ((exists amplitude phase, rows_are_waves mat v amplitude phase) -> fresnel_filter mat ratio Dim1 None 0 false = Ok out ->
     multiple (/ (1 + ratio * (IZR v / IZR (ncol mat)) ^ 2)) mat out).
Proof.
  intros m ratio out u v Hh Hw Hr Hu Hv. split; intros (amp & f & H) O; destruct (fv O ltac:(cbn; lia) ltac:(cbn; lia)) as (Hp & _ & _ & A & B & V); cbv zeta in V; cbn [win_of of_log] in V;
    (split; [exact A|]; split; [exact B|]); intros i j Hi Hj; rewrite A in Hi; rewrite B in Hj; rewrite V by assumption.
  - rewrite (dec_wave2 m ratio u v amp f) by assumption. rewrite Rplus_comm with (r1 := ((IZR v / IZR (ncol m)) ^ 2)%R). unfold Rdiv. ring.
  - rewrite (dec_wave1 m ratio v amp f) by assumption. unfold Rdiv. ring.
Qed.
Print Assumptions fresnel_frequency.

(** dim = 2 does not commute with mirroring when the width is even and the image is padded: the window is continued with its value at
    -1/2 on one side and at 1/2 - 1/width on the other *)
Lemma root4 k : root 4 k = match k mod 4 with 0 => (1, 0) | 1 => (0, 1) | 2 => (- (1), 0) | _ => (0, - (1)) end%R.
Proof.
  rewrite (root_mod 4 k (k mod 4)) by (try lia; rewrite Z.mod_mod by lia; reflexivity). assert (B := Z.mod_pos_bound k 4 ltac:(lia)).
  assert (C : k mod 4 = 0 \/ k mod 4 = 1 \/ k mod 4 = 2 \/ k mod 4 = 3) by lia. destruct C as [-> | [-> | [-> | ->] ] ].
  - apply root_0.
  - apply cx_eq; unfold root; cbn [fst snd]; replace (2 * PI * 1 / 4)%R with (PI / 2)%R by field; [apply cos_PI2|apply sin_PI2].
  - apply cx_eq; unfold root; cbn [fst snd]; replace (2 * PI * 2 / 4)%R with PI by field; [apply cos_PI|apply sin_PI].
  - apply cx_eq; unfold root; cbn [fst snd]; replace (2 * PI * 3 / 4)%R with (3 * (PI / 2))%R by field; [apply cos_3PI2|apply sin_3PI2].
Qed.
Lemma rsum4 f : rsum 4 f = (f 0%Z + f 1%Z + f 2%Z + f 3%Z)%R.
Proof. change (rsum 4 f) with (0 + f 0%Z + f 1%Z + f 2%Z + f 3%Z)%R. ring. Qed.
Definition corner : img R := mkimg 2 2 (fun i j => if (i =? 0) && (j =? 0) then 1%R else 0%R).
Definition corner' : img R := mkimg 2 2 (fun i j => if (i =? 0) && (j =? 1) then 1%R else 0%R).
Theorem fresnel_mirror_refuted : exists mat mat' out out', mirrored mat mat' /\
  fresnel_filter mat 4 Dim2 None 1 false = Ok out /\ fresnel_filter mat' 4 Dim2 None 1 false = Ok out' /\ ~ mirrored out out'.
Proof.
  destruct (fresnel_ok corner 4 Dim2 None 1 false ltac:(lia) ltac:(discriminate)) as (out & O). destruct (fresnel_ok corner' 4 Dim2 None 1 false ltac:(lia) ltac:(discriminate)) as (out' & O').
  exists corner, corner', out, out'. split; [|split; [exact O|split; [exact O'|]]].
  { repeat split. unfold in_rng. cbn [nrow ncol corner' corner px]. intros i j Hi Hj. replace (2 - 1 - j =? 0) with (j =? 1) by lia. reflexivity. }
  destruct (fv O ltac:(cbn; lia) ltac:(cbn; lia)) as (_ & _ & _ & A & B & V). destruct (fv O' ltac:(cbn; lia) ltac:(cbn; lia)) as (_ & _ & _ & A' & B' & V').
  cbv zeta in V, V'. cbn [win_of of_log nrow ncol corner corner'] in V, V', A, B, A', B'. intros (_ & _ & M). rewrite A', B', B in M. specialize (M 0 1 ltac:(unfold in_rng; lia) ltac:(unfold in_rng; lia)).
  rewrite V', V in M by (unfold in_rng; lia). unfold dec in M. cbn [nrow ncol corner corner'] in M. change (2 + 2 * 1) with 4 in M. rewrite !spectral_real in M.
  set (V4 := fun u v => (1 / (1 + (if (u <? 2)%Z then 0 else 1) + (if (v <? 2)%Z then 0 else 1)))%R).
  assert (K : forall d e, kernel 4 4 (fun u v => / px (pad_edge (make_fresnel_window 2 2 4 Dim2) 1 1) (ifftshift_idx 4 u) (ifftshift_idx 4 v))%R d e = kernel 4 4 V4 d e).
  { intros d e. apply kernel_ext. unfold in_rng. intros u v Hu Hv. assert (CU : u = 0 \/ u = 1 \/ u = 2 \/ u = 3) by lia. assert (CV : v = 0 \/ v = 1 \/ v = 2 \/ v = 3) by lia.
    unfold V4. destruct CU as [-> | [-> | [-> | ->] ] ], CV as [-> | [-> | [-> | ->] ] ]; cbv -[IZR Rplus Rmult Rinv Rdiv Rminus]; field; lra. }
  rewrite !rsum4 in M. rewrite !K in M. clear K.
  set (KK := kernel 4 4 V4) in M. cbn [px pad_edge corner corner' nrow ncol] in M.
  cbv [clipZ Z.sub Z.add Z.opp Z.pos_sub Z.max Z.min Z.compare Pos.compare Pos.compare_cont Pos.pred_double Pos.add Pos.succ Z.eqb Pos.eqb andb Z.succ_double Z.pred_double Z.double CompOpp] in M.
  assert (D : (KK 1%Z 1%Z + KK 0%Z 1%Z = KK 1%Z (-1)%Z + KK 0%Z (-1)%Z)%R) by lra.
  unfold KK, kernel in D. rewrite !rsum4 in D. rewrite !root4 in D. 
  cbv [V4 Z.mul Z.opp Z.modulo Z.div_eucl Z.pos_div_eucl Z.leb Z.ltb Z.compare Pos.compare Pos.compare_cont Z.add Z.sub Z.pos_sub Pos.mul Pos.add Pos.succ Pos.pred_double Z.succ_double Z.pred_double Z.double CompOpp fst snd cmul Z.eqb] in D.
  lra.
Qed.
Print Assumptions fresnel_mirror_refuted.
(** cases *)
Example fresnel_wave_case : exists mat out, is_wave mat 1 0 2 0 /\ fresnel_filter mat 16 Dim2 None 0 false = Ok out /\ multiple (/ 2) mat out.
Proof.
  set (mat := mkimg 4 4 (fun i j => 2 * cos (2 * PI * (IZR (1 * i) / IZR 4 + IZR (0 * j) / IZR 4) + 0))%R). assert (W : is_wave mat 1 0 2 0) by (intros i j _ _; reflexivity).
  destruct (fresnel_ok mat 16 Dim2 None 0 false ltac:(lia) ltac:(discriminate)) as (out & O). exists mat, out. split; [exact W|]. split; [exact O|].
  destruct (fresnel_frequency mat 16 out 1 0) as (F & _); try (cbn; lia); try lra. specialize (F ltac:(exists 2%R, 0%R; exact W) O). cbn [nrow ncol mat] in F.
  replace (/ 2)%R with (/ (1 + 16 * ((1 / 4) ^ 2 + (0 / 4) ^ 2)))%R by lra. exact F.
Qed.
Definition ramp : img R := mkimg 2 3 (fun i j => 1 + IZR i + IZR j)%R.
Example fresnel_log_case : positive ramp /\ exists out out3, fresnel_filter ramp 5 Dim1 None 2 true = Ok out /\ fresnel_filter (imap (Rmult 3) ramp) 5 Dim1 None 2 true = Ok out3 /\ multiple 3 out out3.
Proof.
  assert (P : positive ramp). { unfold positive, in_rng. cbn [nrow ncol ramp px]. intros i j Hi Hj. assert (A := IZR_le 0 i ltac:(lia)). assert (B := IZR_le 0 j ltac:(lia)). lra. }
  split; [exact P|]. destruct (fresnel_ok ramp 5 Dim1 None 2 true ltac:(lia) ltac:(discriminate)) as (out & O).
  destruct (fresnel_ok (imap (Rmult 3) ramp) 5 Dim1 None 2 true ltac:(lia) ltac:(discriminate)) as (out3 & O3). exists out, out3. split; [exact O|]. split; [exact O3|].
  apply (fresnel_scale ramp (imap (Rmult 3) ramp) 3 5 Dim1 2 out out3); try assumption; try (cbn; lia); try lra. repeat split.
Qed.
Example fresnel_row_case : in_rng (nrow ramp) 1 /\ combination 2 1 ramp ramp (imap (Rmult 3) ramp) /\ mirrored ramp (ifliplr ramp) /\ transposed ramp (itrans ramp).
Proof. repeat split; try (unfold in_rng; cbn; lia). intros i j _ _. cbn. ring. Qed.
