(** Proofs about the ellipse fit: from the conic to the axes and angle. *)
From Coq Require Import Reals Lra ZArith Lia Bool List. Import ListNotations.
From Verif Require Import Np P_Np M_phase_R P_phase_R M_corr P_corr M_simR S_simR P_simR P_simR2 P_simR4 M_calib S_calib P_calib.
Open Scope R_scope.

Lemma cos_one_only d : -2 * PI < d < 2 * PI -> cos d = 1 -> d = 0.
Proof.
  intros Hd Hc. assert (P := PI_RGT_0). assert (E : sin (d / 2) = 0).
  { assert (T := cos_2a_sin (d / 2)). replace (2 * (d / 2)) with d in T by field. rewrite Hc in T. assert (S : sin (d / 2) * sin (d / 2) = 0) by lra. apply Rmult_integral in S. lra. }
  destruct (Rtotal_order (d / 2) 0) as [L|[Z|G] ].
  - assert (N := sin_lt_0_var (d / 2) ltac:(lra) L). lra.
  - lra.
  - assert (N := sin_gt_0 (d / 2) G ltac:(lra)). lra.
Qed.
Lemma polar_unique atan2 r phi : polar_angle atan2 -> 0 < r -> - PI < phi <= PI -> atan2 (r * sin phi) (r * cos phi) = phi.
Proof.
  intros Hat Hr Hp. assert (P := PI_RGT_0). destruct (Hat (r * cos phi) (r * sin phi)) as (B & E1 & E2). set (w := atan2 (r * sin phi) (r * cos phi)) in *.
  assert (N : sqrt ((r * cos phi) ^ 2 + (r * sin phi) ^ 2) = r).
  { assert (T := sin2_cos2 phi). unfold Rsqr in T. replace ((r * cos phi) ^ 2 + (r * sin phi) ^ 2) with (r ^ 2 * (sin phi * sin phi + cos phi * cos phi)) by ring. rewrite T, Rmult_1_r. apply sqrt_pow2. lra. }
  rewrite N in E1, E2. apply Rmult_eq_reg_l in E1; [|lra]. apply Rmult_eq_reg_l in E2; [|lra].
  assert (D : cos (w - phi) = 1). { rewrite cos_minus, E1, E2. assert (T := sin2_cos2 phi). unfold Rsqr in T. lra. }
  apply cos_one_only in D; lra.
Qed.

Lemma pos4 x y z : 0 < x -> 0 < y -> 0 < z -> 0 < 4 * x * y * z.
Proof. intros. apply Rmult_lt_0_compat; [apply Rmult_lt_0_compat; [lra|assumption]|assumption]. Qed.
Section formula.
Variables (atan2 : R -> R -> R) (xc yc a b theta s : R).
Hypothesis (Hat : polar_angle atan2) (Hat0 : atan2 0 0 = 0) (Hb : 0 < b) (Hab : b <= a) (Hs : s <> 0).
Let C := cos theta. Let S := sin theta.
Let A := eA a b theta. Let B := eB a b theta. Let CC := eC a b theta. Let D := eD xc yc a b theta. Let E := eE xc yc a b theta. Let F := eF xc yc a b theta.
Let T : S * S + C * C = 1. Proof. apply CS. Qed.
Lemma f_denom : (s * B) ^ 2 - 4 * (s * A) * (s * CC) = - (4 * s ^ 2 * a ^ 2 * b ^ 2).
Proof. transitivity (- (4 * s ^ 2 * a ^ 2 * b ^ 2) * (S * S + C * C) ^ 2); [unfold A, B, CC, eA, eB, eC; fold C S; ring|rewrite T; ring]. Qed.
Lemma f_xc : 2 * (s * CC) * (s * D) - (s * B) * (s * E) = - (4 * s ^ 2 * a ^ 2 * b ^ 2) * xc.
Proof. rewrite <- f_denom. unfold D, E, eD, eE. fold A B CC. ring. Qed.
Lemma f_yc : 2 * (s * A) * (s * E) - (s * B) * (s * D) = - (4 * s ^ 2 * a ^ 2 * b ^ 2) * yc.
Proof. rewrite <- f_denom. unfold D, E, eD, eE. fold A B CC. ring. Qed.
Lemma f_q : (s * A) * (s * E) ^ 2 + (s * CC) * (s * D) ^ 2 - (s * B) * (s * D) * (s * E) + - (4 * s ^ 2 * a ^ 2 * b ^ 2) * (s * F) = s ^ 3 * (4 * a ^ 4 * b ^ 4).
Proof.
  rewrite <- f_denom. transitivity (- s * ((s * B) ^ 2 - 4 * (s * A) * (s * CC)) * (a ^ 2 * b ^ 2)).
  - unfold D, E, F, eD, eE, eF. fold A B CC. ring.
  - rewrite f_denom. ring.
Qed.
Lemma f_root : sqrt ((s * A - s * CC) ^ 2 + (s * B) ^ 2) = Rabs s * (a ^ 2 - b ^ 2).
Proof.
  transitivity (sqrt (Rsqr (s * (a ^ 2 - b ^ 2)))).
  - f_equal. unfold Rsqr. transitivity (s * (a ^ 2 - b ^ 2) * (s * (a ^ 2 - b ^ 2)) * (S * S + C * C) ^ 2); [unfold A, B, CC, eA, eB, eC; fold C S; ring|rewrite T; ring].
  - rewrite sqrt_Rsqr_abs, Rabs_mult. f_equal. apply Rabs_pos_eq. replace (a ^ 2 - b ^ 2) with ((a - b) * (a + b)) by ring. apply Rmult_le_pos; lra.
Qed.
Lemma f_sum : s * A + s * CC = s * (a ^ 2 + b ^ 2).
Proof. transitivity (s * (a ^ 2 + b ^ 2) * (S * S + C * C)); [unfold A, CC, eA, eC; fold C S; ring|rewrite T; ring]. Qed.
Lemma f_diff : s * CC - s * A = s * (a ^ 2 - b ^ 2) * (C * C - S * S).
Proof. unfold A, CC, eA, eC. fold C S. ring. Qed.
Lemma f_b : s * B = - 2 * s * (a ^ 2 - b ^ 2) * S * C.
Proof. unfold B, eB. fold C S. ring. Qed.

(** the angle at 378-382 and 397-400 *)
Definition turned_roll (y x : R) (swap : bool) : R :=
  let roll0 := rad2deg (atan2 y x) in
  let roll1 := if Rlt_dec 90 roll0 then - (180 - roll0) else roll0 in
  let roll2 := if Rlt_dec roll1 (-90) then 180 + roll1 else roll1 in
  if swap then (if Rlt_dec roll2 0 then 90 + roll2 else -90 + roll2) else roll2.
Lemma deg_lt x y : x < y -> rad2deg x < rad2deg y.
Proof. intros H. assert (P := PI_RGT_0). unfold rad2deg. apply Rmult_lt_compat_r; [apply Rinv_0_lt_compat, P|lra]. Qed.
Lemma deg_pi x : rad2deg (x - PI) = rad2deg x - 180 /\ rad2deg (x - PI / 2) = rad2deg x - 90 /\ rad2deg 0 = 0 /\ rad2deg (PI / 2) = 90 /\ rad2deg (- (PI / 2)) = -90.
Proof. assert (P := PI_RGT_0). unfold rad2deg. repeat split; field; lra. Qed.
Lemma roll_pos : 0 < s -> b < a -> - (PI / 2) <= theta < PI / 2 -> turned_roll (s * CC - s * A - s * (a ^ 2 - b ^ 2)) (s * B) false = rad2deg theta.
Proof.
  intros Sp Hlt Ht. assert (P := PI_RGT_0). assert (K : 0 < a ^ 2 - b ^ 2) by (replace (a ^ 2 - b ^ 2) with ((a - b) * (a + b)) by ring; apply Rmult_lt_0_compat; lra).
  assert (Y : s * CC - s * A - s * (a ^ 2 - b ^ 2) = - 2 * s * (a ^ 2 - b ^ 2) * S * S).
  { rewrite f_diff. transitivity (s * (a ^ 2 - b ^ 2) * (C * C - S * S) - s * (a ^ 2 - b ^ 2) * (S * S + C * C)); [rewrite T; ring|ring]. }
  rewrite Y, f_b. destruct (deg_pi theta) as (D1 & D2 & D3 & D4 & D5). unfold turned_roll.
  destruct (Rtotal_order theta 0) as [L|[Z|G] ].
  - assert (SN : S < 0) by (apply sin_lt_0_var; lra).
    assert (Q : 0 < - 2 * s * (a ^ 2 - b ^ 2) * S) by (replace (- 2 * s * (a ^ 2 - b ^ 2) * S) with (2 * s * (a ^ 2 - b ^ 2) * - S) by ring; repeat apply Rmult_lt_0_compat; lra).
    assert (U := polar_unique atan2 _ theta Hat Q ltac:(lra)). fold S C in U. rewrite U. assert (M := deg_lt theta 0 L).
    assert (M2 : -90 <= rad2deg theta) by (rewrite <- D5; destruct (proj1 Ht) as [X|X]; [left; apply deg_lt, X|right; rewrite X; reflexivity]).
    destruct (Rlt_dec 90 (rad2deg theta)); [lra|]. destruct (Rlt_dec (rad2deg theta) (-90)); [lra|reflexivity].
  - assert (SZ : S = 0) by (unfold S; rewrite Z; apply sin_0). rewrite SZ, !Rmult_0_r, Rmult_0_l, Hat0, Z, D3.
    destruct (Rlt_dec 90 0); [lra|]. destruct (Rlt_dec 0 (-90)); [lra|reflexivity].
  - assert (SP : 0 < S) by (apply sin_gt_0; lra).
    assert (Q : 0 < 2 * s * (a ^ 2 - b ^ 2) * S) by (repeat apply Rmult_lt_0_compat; lra).
    assert (U := polar_unique atan2 _ (theta - PI) Hat Q ltac:(lra)).
    assert (CM : cos (theta - PI) = - C) by (rewrite <- (cos_shift_2pi (theta - PI) 1); replace (theta - PI + 2 * PI * 1) with (theta + PI) by ring; apply neg_cos).
    assert (SM : sin (theta - PI) = - S) by (rewrite <- (sin_shift_2pi (theta - PI) 1); replace (theta - PI + 2 * PI * 1) with (theta + PI) by ring; apply neg_sin).
    rewrite CM, SM in U. replace (- 2 * s * (a ^ 2 - b ^ 2) * S * S) with (2 * s * (a ^ 2 - b ^ 2) * S * - S) by ring.
    replace (- 2 * s * (a ^ 2 - b ^ 2) * S * C) with (2 * s * (a ^ 2 - b ^ 2) * S * - C) by ring. rewrite U, D1.
    assert (M := deg_lt theta (PI / 2) ltac:(lra)). rewrite D4 in M. assert (M0 := deg_lt 0 theta G).
    destruct (Rlt_dec 90 (rad2deg theta - 180)); [lra|]. destruct (Rlt_dec (rad2deg theta - 180) (-90)); [lra|lra].
Qed.
Lemma roll_neg : s < 0 -> b < a -> - (PI / 2) <= theta < PI / 2 -> turned_roll (s * CC - s * A - - s * (a ^ 2 - b ^ 2)) (s * B) true = rad2deg theta.
Proof.
  intros Sn Hlt Ht. assert (P := PI_RGT_0). assert (K : 0 < a ^ 2 - b ^ 2) by (replace (a ^ 2 - b ^ 2) with ((a - b) * (a + b)) by ring; apply Rmult_lt_0_compat; lra).
  assert (Y : s * CC - s * A - - s * (a ^ 2 - b ^ 2) = 2 * s * (a ^ 2 - b ^ 2) * C * C).
  { rewrite f_diff. transitivity (s * (a ^ 2 - b ^ 2) * (C * C - S * S) + s * (a ^ 2 - b ^ 2) * (S * S + C * C)); [rewrite T; ring|ring]. }
  rewrite Y, f_b. destruct (deg_pi theta) as (D1 & D2 & D3 & D4 & D5). unfold turned_roll.
  destruct (Req_dec theta (- (PI / 2))) as [Z|Z].
  - assert (CZ : C = 0) by (unfold C; rewrite Z, cos_neg; apply cos_PI2). rewrite CZ, !Rmult_0_r, Hat0, D3, Z, D5.
    destruct (Rlt_dec 90 0); [lra|]. destruct (Rlt_dec 0 (-90)); [lra|]. destruct (Rlt_dec 0 0); lra.
  - assert (CP : 0 < C) by (apply cos_gt_0; lra).
    assert (Q : 0 < - 2 * s * (a ^ 2 - b ^ 2) * C) by (replace (- 2 * s * (a ^ 2 - b ^ 2) * C) with (2 * - s * (a ^ 2 - b ^ 2) * C) by ring; repeat apply Rmult_lt_0_compat; lra).
    assert (U := polar_unique atan2 _ (theta - PI / 2) Hat Q ltac:(lra)).
    assert (CM : cos (theta - PI / 2) = S) by (rewrite cos_minus, cos_PI2, sin_PI2; fold S; ring).
    assert (SM : sin (theta - PI / 2) = - C) by (rewrite sin_minus, cos_PI2, sin_PI2; fold C; ring).
    rewrite CM, SM in U. replace (2 * s * (a ^ 2 - b ^ 2) * C * C) with (- 2 * s * (a ^ 2 - b ^ 2) * C * - C) by ring.
    replace (- 2 * s * (a ^ 2 - b ^ 2) * S * C) with (- 2 * s * (a ^ 2 - b ^ 2) * C * S) by ring. rewrite U, D2.
    assert (M := deg_lt theta (PI / 2) ltac:(lra)). rewrite D4 in M. assert (M0 := deg_lt (- (PI / 2)) theta ltac:(lra)). rewrite D5 in M0.
    destruct (Rlt_dec 90 (rad2deg theta - 90)); [lra|]. destruct (Rlt_dec (rad2deg theta - 90) (-90)) as [L|L].
    + destruct (Rlt_dec (180 + (rad2deg theta - 90)) 0); lra.
    + destruct (Rlt_dec (rad2deg theta - 90) 0); lra.
Qed.
Lemma half_axis u : 0 < u -> - 2 * sqrt (16 * s ^ 4 * (a ^ 4 * b ^ 4) * u ^ 2) / - (4 * s ^ 2 * a ^ 2 * b ^ 2) = 2 * u.
Proof.
  intros Hu. replace (16 * s ^ 4 * (a ^ 4 * b ^ 4) * u ^ 2) with (Rsqr (4 * s ^ 2 * a ^ 2 * b ^ 2 * u)) by (unfold Rsqr; ring).
  assert (Q1 := sq_pos s Hs). assert (Q2 := sq_pos a ltac:(lra)). assert (Q3 := sq_pos b ltac:(lra)).
  rewrite sqrt_Rsqr by (apply Rlt_le, Rmult_lt_0_compat; [apply pos4; assumption|exact Hu]). field. repeat split; first [exact Hs|lra].
Qed.
Lemma half_axis_pos u : 0 < u -> 0 <= 16 * s ^ 4 * (a ^ 4 * b ^ 4) * u ^ 2.
Proof. intros Hu. replace (16 * s ^ 4 * (a ^ 4 * b ^ 4) * u ^ 2) with (Rsqr (4 * s ^ 2 * a ^ 2 * b ^ 2 * u)) by (unfold Rsqr; ring). apply Rle_0_sqr. Qed.

Lemma conic_gives : - (PI / 2) <= theta < PI / 2 ->
  exists f, ellipse_from_conic atan2 (s * A) (s * B) (s * CC) (s * D) (s * E) (s * F) = Ok f /\
    fit_major f = 2 * a /\ fit_minor f = 2 * b /\ fit_xc f = xc /\ fit_yc f = yc /\ (b < a -> fit_roll f = rad2deg theta).
Proof.
  intros Ht. unfold ellipse_from_conic. rewrite f_root, f_denom, f_xc, f_yc, f_q.
  assert (Q1 := sq_pos s Hs). assert (Q2 := sq_pos a ltac:(lra)). assert (Q3 := sq_pos b ltac:(lra)).
  assert (DP : 0 < 4 * s ^ 2 * a ^ 2 * b ^ 2) by (apply pos4; assumption).
  destruct (Req_EM_T (- (4 * s ^ 2 * a ^ 2 * b ^ 2)) 0) as [Z|_]; [exfalso; lra|].
  assert (XC : - (4 * s ^ 2 * a ^ 2 * b ^ 2) * xc / - (4 * s ^ 2 * a ^ 2 * b ^ 2) = xc) by (field; repeat split; first [exact Hs|lra]).
  assert (YC : - (4 * s ^ 2 * a ^ 2 * b ^ 2) * yc / - (4 * s ^ 2 * a ^ 2 * b ^ 2) = yc) by (field; repeat split; first [exact Hs|lra]).
  rewrite XC, YC.
  destruct (Rtotal_order s 0) as [L|[Z|G] ]; [|contradiction|].
  - rewrite (Rabs_left s L).
    assert (E1 : 2 * (s ^ 3 * (4 * a ^ 4 * b ^ 4)) * (s * A + s * CC + - s * (a ^ 2 - b ^ 2)) = 16 * s ^ 4 * (a ^ 4 * b ^ 4) * b ^ 2) by (rewrite f_sum; ring).
    assert (E2 : 2 * (s ^ 3 * (4 * a ^ 4 * b ^ 4)) * (s * A + s * CC - - s * (a ^ 2 - b ^ 2)) = 16 * s ^ 4 * (a ^ 4 * b ^ 4) * a ^ 2) by (rewrite f_sum; ring).
    rewrite E1, E2. assert (P1 := half_axis_pos b Hb). assert (P2 := half_axis_pos a ltac:(lra)).
    destruct (Rlt_dec _ 0) as [X|_] at 1; [exfalso; lra|]. destruct (Rlt_dec (16 * s ^ 4 * (a ^ 4 * b ^ 4) * a ^ 2) 0) as [X|_]; [exfalso; lra|].
    rewrite (half_axis a ltac:(lra)), (half_axis b Hb).
    destruct (Rlt_dec (2 * b) (2 * a)) as [M|M]; eexists; (split; [reflexivity|]); cbn [fit_major fit_minor fit_xc fit_yc fit_roll].
    + repeat split. intros Hlt. exact (roll_neg L Hlt Ht).
    + assert (a = b) by lra. repeat split; try lra.
  - rewrite (Rabs_right s) by lra.
    assert (E1 : 2 * (s ^ 3 * (4 * a ^ 4 * b ^ 4)) * (s * A + s * CC + s * (a ^ 2 - b ^ 2)) = 16 * s ^ 4 * (a ^ 4 * b ^ 4) * a ^ 2) by (rewrite f_sum; ring).
    assert (E2 : 2 * (s ^ 3 * (4 * a ^ 4 * b ^ 4)) * (s * A + s * CC - s * (a ^ 2 - b ^ 2)) = 16 * s ^ 4 * (a ^ 4 * b ^ 4) * b ^ 2) by (rewrite f_sum; ring).
    rewrite E1, E2. assert (P1 := half_axis_pos b Hb). assert (P2 := half_axis_pos a ltac:(lra)).
    destruct (Rlt_dec _ 0) as [X|_] at 1; [exfalso; lra|]. destruct (Rlt_dec (16 * s ^ 4 * (a ^ 4 * b ^ 4) * b ^ 2) 0) as [X|_]; [exfalso; lra|].
    rewrite (half_axis a ltac:(lra)), (half_axis b Hb).
    destruct (Rlt_dec (2 * a) (2 * b)) as [M|M]; [exfalso; lra|]. eexists. split; [reflexivity|]. cbn [fit_major fit_minor fit_xc fit_yc fit_roll].
    repeat split. intros Hlt. exact (roll_pos G Hlt Ht).
Qed.
End formula.
