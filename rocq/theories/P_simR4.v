(** Proofs about the triangular mask. *)
From Coq Require Import Reals Lra ZArith Lia Bool Psatz.
From Verif Require Import Np P_Np M_phase_R P_phase_R M_simR S_simR P_simR3.
Open Scope R_scope.

Lemma Rabs_le_inv a b : Rabs a <= b -> - b <= a <= b.
Proof. unfold Rabs. destruct (Rcase_abs a); lra. Qed.
Lemma rsign_bound x : Rabs (rsign x * 0.5) <= 0.5.
Proof. unfold rsign. destruct (Rlt_dec 0 x); [rewrite Rmult_1_l, Rabs_pos_eq; lra|]. destruct (Rlt_dec x 0); [|rewrite Rmult_0_l, Rabs_R0; lra]. rewrite Rabs_left; lra. Qed.
Lemma trig1 t : cos t * cos t + sin t * sin t = 1.
Proof. assert (G := sin2_cos2 t). unfold Rsqr in G. lra. Qed.
Lemma turn_small x y t : Rabs x <= 0.5 -> Rabs y <= 0.5 -> Rabs (x * cos t + y * sin t) <= 0.71.
Proof.
  intros Hx Hy. assert (T := trig1 t).
  assert (X : x * x <= 0.25). { rewrite <- (Rabs_pos_eq (x * x)) by apply Rle_0_sqr. rewrite Rabs_mult. assert (P := Rabs_pos x). replace 0.25 with (0.5 * 0.5) by lra. apply Rmult_le_compat; assumption. }
  assert (Y : y * y <= 0.25). { rewrite <- (Rabs_pos_eq (y * y)) by apply Rle_0_sqr. rewrite Rabs_mult. assert (P := Rabs_pos y). replace 0.25 with (0.5 * 0.5) by lra. apply Rmult_le_compat; assumption. }
  assert (S : (x * cos t + y * sin t) * (x * cos t + y * sin t) <= 0.5).
  { assert (Q := Rle_0_sqr (x * sin t - y * cos t)). unfold Rsqr in Q.
    assert (E : (x * cos t + y * sin t) * (x * cos t + y * sin t) + (x * sin t - y * cos t) * (x * sin t - y * cos t) = (x * x + y * y) * (cos t * cos t + sin t * sin t)) by ring.
    rewrite T in E. lra. }
  rewrite <- (Rabs_pos_eq 0.71) by lra. apply Rsqr_le_abs_0. unfold Rsqr. lra.
Qed.
Section triangle.
Variables (atan2 : R -> R -> R) (size : Z) (center len : pair_arg) (angle : R).
Hypothesis (Hat : polar_angle atan2).
Let a := arg_x len. Let b := arg_y len.
Hypothesis (Ha : 0 < a) (Hb : 0 < b).
Let L := side_length a b.
Let al := atan2 (0.5 * b) a.
Lemma L_pos : 0 < L.
Proof. unfold L, side_length. apply sqrt_lt_R0. assert (0 < a * a) by (apply Rmult_lt_0_compat; assumption). assert (G := pow2_ge_0 (b / 2)). simpl in *. lra. Qed.
Lemma L_half : sqrt (a ^ 2 + (0.5 * b) ^ 2) = L.
Proof. unfold L, side_length. do 2 f_equal. replace (0.5 * b) with (b / 2) by lra. reflexivity. Qed.
Lemma side_angle : L * cos al = a /\ L * sin al = b / 2.
Proof. destruct (Hat a (0.5 * b)) as (_ & E1 & E2). rewrite L_half in E1, E2. fold al in E1, E2. split; [exact E1|]. rewrite E2. lra. Qed.
Lemma cut_width : 2 * sin al * a = a * b / L /\ 0 < a * b / L.
Proof.
  assert (P := L_pos). destruct side_angle as (E1 & E2). split.
  - replace (sin al) with (b / 2 / L) by (rewrite <- E2; field; lra). field. lra.
  - apply Rmult_lt_0_compat; [apply Rmult_lt_0_compat; assumption|apply Rinv_0_lt_compat, P].
Qed.
(** which points (u, v) (coordinates of the uncut rectangle) are in the cut rectangle; [sg] = 1: upper, -1: lower *)
Lemma cut_spec sg u v i j : sg = 1 \/ sg = -1 -> in_rng size i -> in_rng size j ->
  turned angle u v (pixel_x size j - arg_x center) (pixel_y size i - arg_y center) ->
  exists ds dd, Rabs ds <= 0.71 /\ Rabs dd <= 0.71 /\
    let inside := Rabs (along_side a b u (sg * v) - ds) <= 1.01 * (L / 2) /\ Rabs (above_side a b u (sg * v) - a * b / L / 2 - dd) <= 1.01 * (a * b / L / 2) in
    (inside -> px (triangle_cut atan2 size center len angle sg) i j = 1) /\ (~ inside -> px (triangle_cut atan2 size center len angle sg) i j = 0).
Proof.
  intros Hsg Hi Hj (TX & TY). set (th := angle * PI / 180) in *.
  assert (P := L_pos). destruct side_angle as (C1 & C2). destruct cut_width as (W1 & W2).
  assert (Sg : sg * sg = 1) by (destruct Hsg as [-> | ->]; lra).
  assert (T1 := trig1 th). assert (T2 := trig1 al).
  unfold triangle_cut. fold a b. rewrite L_half. fold al. fold th. rewrite W1. set (W := a * b / L) in *.
  set (xo := -0.5 * W * sin al). set (yo := sg * (0.5 * W * cos al + 0.5 * L * sin al)).
  set (xo1 := xo * cos th - yo * sin th). set (yo1 := xo * sin th + yo * cos th).
  set (dx := rsign xo1 * 0.5). set (dy := rsign yo1 * 0.5).
  assert (Bx : Rabs dx <= 0.5) by apply rsign_bound. assert (By : Rabs dy <= 0.5) by apply rsign_bound.
  set (cc := Tuple (arg_x center + xo1 + dx) (arg_y center + yo1 + dy)). set (ll := Tuple L W).
  assert (Lx : arg_x ll <> 0) by (cbn; lra). assert (Ly : arg_y ll <> 0) by (cbn; lra).
  set (deg := (th + sg * al) * 180 / PI).
  assert (Dg : deg * PI / 180 = th + sg * al) by (unfold deg; field; apply PI_neq0).
  destruct (rectangular_mask size cc ll deg Lx Ly) as (_ & _ & M). specialize (M i j Hi Hj).
  set (t := th + sg * al) in *.
  exists (dx * cos t + dy * sin t), (sg * (dy * cos t + - dx * sin t)).
  split; [apply turn_small; assumption|]. split.
  { rewrite Rabs_mult. replace (Rabs sg) with 1 by (destruct Hsg as [-> | ->]; [rewrite Rabs_R1; reflexivity|rewrite Rabs_left; lra]). rewrite Rmult_1_l. apply turn_small; [assumption|rewrite Rabs_Ropp; assumption]. }
  cbv zeta. set (s := along_side a b u (sg * v)). set (d := above_side a b u (sg * v)).
  assert (Cs : cos (sg * al) = cos al) by (destruct Hsg as [-> | ->]; [f_equal; lra|replace (-1 * al) with (- al) by lra; apply cos_neg]).
  assert (Ss : sin (sg * al) = sg * sin al) by (destruct Hsg as [-> | ->]; [rewrite !Rmult_1_l; reflexivity|replace (-1 * al) with (- al) by lra; rewrite sin_neg; lra]).
  assert (Ct : cos t = cos th * cos al - sin th * (sg * sin al)) by (unfold t; rewrite cos_plus, Cs, Ss; reflexivity).
  assert (St : sin t = sin th * cos al + cos th * (sg * sin al)) by (unfold t; rewrite sin_plus, Cs, Ss; reflexivity).
  assert (ES : s = u * cos al + (sg * v - b / 4) * sin al).
  { unfold s, along_side. fold L. replace (b / 2) with (L * sin al) by exact C2. rewrite <- C1 at 1. field. lra. }
  assert (ED : d = - u * sin al + (sg * v - b / 4) * cos al).
  { unfold d, above_side. fold L. replace (b / 2) with (L * sin al) by exact C2. rewrite <- C1 at 1. field. lra. }
  assert (Yo : yo = sg * (0.5 * W * cos al + b / 4)) by (unfold yo; f_equal; f_equal; rewrite Rmult_assoc, C2; lra).
  (* coordinates of the pixel in the cut rectangle *)
  assert (TT : turned deg (s - (dx * cos t + dy * sin t)) (sg * (d - W / 2 - sg * (dy * cos t + - dx * sin t)))
     (pixel_x size j - arg_x cc) (pixel_y size i - arg_y cc)).
  { unfold turned. rewrite Dg. cbn [arg_x arg_y cc].
    replace (pixel_x size j - (arg_x center + xo1 + dx)) with (u * cos th - v * sin th - xo1 - dx) by (rewrite <- TX; ring).
    replace (pixel_y size i - (arg_y center + yo1 + dy)) with (u * sin th + v * cos th - yo1 - dy) by (rewrite <- TY; ring).
    assert (Tt := trig1 t).
    assert (G1 : u - xo = s * cos al - (d - W / 2) * sin al).
    { unfold xo. rewrite ES, ED. transitivity (u * (cos al * cos al + sin al * sin al) + W / 2 * sin al); [rewrite T2; lra|ring]. }
    assert (G2 : v - yo = sg * (s * sin al + (d - W / 2) * cos al)).
    { rewrite Yo, ES, ED. transitivity (sg * ((sg * v - b / 4) * (cos al * cos al + sin al * sin al) - W / 2 * cos al)); [rewrite T2|ring].
      transitivity ((sg * sg) * v - sg * (0.5 * W * cos al + b / 4)); [rewrite Sg; ring|]. lra. }
    assert (K1 : sg * (sg * (dy * cos t + - dx * sin t)) = dy * cos t - dx * sin t) by (rewrite <- Rmult_assoc, Sg; ring).
    assert (K : forall z, sg * (z - sg * (dy * cos t + - dx * sin t)) = sg * z - (dy * cos t - dx * sin t)) by (intros z; rewrite <- K1; ring).
    rewrite (K (d - W / 2)).
    split.
    - transitivity ((u - xo) * cos th - (v - yo) * sin th - dx * (cos t * cos t + sin t * sin t)).
      + rewrite Tt. unfold xo1. ring.
      + transitivity (s * cos t - sg * (d - W / 2) * sin t - dx * (cos t * cos t + sin t * sin t)); [|ring].
        f_equal. rewrite G1, G2, Ct, St.
        transitivity (s * (cos th * cos al - sin th * (sg * sin al)) - (d - W / 2) * (sg * (sin th * cos al) + (sg * sg) * (cos th * sin al))); [rewrite Sg; ring|ring].
    - transitivity ((u - xo) * sin th + (v - yo) * cos th - dy * (cos t * cos t + sin t * sin t)).
      + rewrite Tt. unfold yo1. ring.
      + transitivity (s * sin t + sg * (d - W / 2) * cos t - dy * (cos t * cos t + sin t * sin t)); [|ring].
        f_equal. rewrite G1, G2, Ct, St.
        transitivity (s * (sin th * cos al + cos th * (sg * sin al)) + (d - W / 2) * (sg * (cos th * cos al) - (sg * sg) * (sin th * sin al))); [rewrite Sg; ring|ring]. }
  set (ds := dx * cos t + dy * sin t) in *. set (dd := sg * (dy * cos t + - dx * sin t)) in *.
  assert (IN : (Rabs (s - ds) <= 1.01 * (L / 2) /\ Rabs (d - W / 2 - dd) <= 1.01 * (W / 2)) <-> rectangle L W (s - ds) (sg * (d - W / 2 - dd))).
  { unfold rectangle. rewrite (Rabs_mult sg). replace (Rabs sg) with 1 by (destruct Hsg as [-> | ->]; [rewrite Rabs_R1; reflexivity|rewrite Rabs_left; lra]).
    rewrite Rmult_1_l, (Rabs_pos_eq (L / 2)), (Rabs_pos_eq (W / 2)) by lra. reflexivity. }
  assert (U : placed (rectangle L W) deg (arg_x cc) (arg_y cc) (pixel_x size j) (pixel_y size i) <-> rectangle L W (s - ds) (sg * (d - W / 2 - dd))).
  { split; [|intros R; exists (s - ds), (sg * (d - W / 2 - dd)); split; [exact R|exact TT] ].
    intros (u' & v' & R & T'). assert (Q := mask_coords_turned size cc ll deg i j Lx Ly).
    destruct (mask_coords size cc ll deg i j) as [q1 q2]. destruct Q as (_ & Q). destruct (Q _ _ T') as (-> & ->). destruct (Q _ _ TT) as (-> & ->). exact R. }
  rewrite IN, <- U. exact M.
Qed.
End triangle.
(** a polar angle exists *)
Definition polar (y x : R) : R :=
  let r := sqrt (x ^ 2 + y ^ 2) in
  if Req_EM_T r 0 then 0 else if Rle_dec 0 y then acos (x / r) else - acos (x / r).
Lemma polar_is_angle : polar_angle polar.
Proof.
  intros x y. unfold polar. set (r := sqrt (x ^ 2 + y ^ 2)).
  assert (Gx := pow2_ge_0 x). assert (Gy := pow2_ge_0 y).
  assert (R2 : r * r = x ^ 2 + y ^ 2) by (apply sqrt_sqrt; lra). assert (R0 : 0 <= r) by apply sqrt_pos.
  assert (P := PI_RGT_0).
  destruct (Req_EM_T r 0) as [E|E].
  - rewrite E in R2. assert (X : x ^ 2 = 0) by lra. assert (Y : y ^ 2 = 0) by lra.
    simpl in X, Y. rewrite Rmult_1_r in X, Y. apply Rmult_integral in X. apply Rmult_integral in Y.
    rewrite E. repeat split; lra.
  - assert (Rp : 0 < r) by lra.
    assert (B1 : -1 <= x / r <= 1).
    { assert (A : Rabs x <= r). { rewrite <- (Rabs_pos_eq r R0). apply Rsqr_le_abs_0. unfold Rsqr. simpl in *. lra. }
      assert (D := Rabs_le_inv _ _ A). split.
      - apply (Rmult_le_reg_r r); [exact Rp|]. replace (x / r * r) with x by (field; lra). lra.
      - apply (Rmult_le_reg_r r); [exact Rp|]. replace (x / r * r) with x by (field; lra). lra. }
    assert (C : cos (acos (x / r)) = x / r) by (apply cos_acos; exact B1).
    assert (S : r * sin (acos (x / r)) = Rabs y).
    { rewrite sin_acos by exact B1. rewrite <- (sqrt_square r R0) at 1. rewrite <- sqrt_mult_alt by (rewrite R2; lra).
      rewrite <- sqrt_Rsqr_abs. f_equal. unfold Rsqr. replace (r * r * (1 - x / r * (x / r))) with (r * r - x * x) by (field; lra). rewrite R2. ring. }
    assert (Bd := acos_bound (x / r)).
    destruct (Rle_dec 0 y) as [L|L].
    + repeat split; try lra; [rewrite C; field; lra|rewrite S; apply Rabs_pos_eq, L].
    + assert (N : acos (x / r) <> PI).
      { intros Q. rewrite Q in S. rewrite sin_PI, Rmult_0_r in S. assert (H := Rabs_no_R0 y). apply H; lra. }
      rewrite cos_neg, sin_neg. repeat split; try lra; [rewrite C; field; lra|]. rewrite Ropp_mult_distr_r_reverse, S. rewrite Rabs_left by lra. lra.
Qed.
