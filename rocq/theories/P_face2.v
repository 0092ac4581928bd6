(** Proofs about the face phantom, continued: its parts lie apart and inside the head. *)
From Coq Require Import Reals Lra ZArith Lia Bool.
From Verif Require Import Np M_phase_R M_simR M_face P_face.
Open Scope Z_scope.

Lemma sq_shrink z a b : (0 < a <= b)%R -> ((z / (0.5 * b)) ^ 2 <= (z / (0.5 * a)) ^ 2)%R.
Proof.
  intros H. assert (0 < 0.5 * a)%R by lra. assert (0 < 0.5 * b)%R by lra. unfold Rdiv. rewrite !Rpow_mult_distr. apply Rmult_le_compat_l; [apply pow2_ge_0|].
  apply pow_incr. split; [left; apply Rinv_0_lt_compat; lra|]. apply Rinv_le_contravar; lra.
Qed.
Lemma ell_mono lx ly lx' ly' x y : (0 < lx <= lx')%R -> (0 < ly <= ly')%R -> in_ell lx ly x y -> in_ell lx' ly' x y.
Proof. intros Hx Hy H. unfold in_ell in *. assert (A := sq_shrink x lx lx' Hx). assert (B := sq_shrink y ly ly' Hy). lra. Qed.
(** a box inside an ellipse *)
Lemma box_in_ell s a b A B x y : (0 < s)%R -> (0 < a)%R -> (0 < b)%R -> (- (A * s) <= x <= A * s)%R -> (- (B * s) <= y <= B * s)%R -> ((A / (0.5 * a)) ^ 2 + (B / (0.5 * b)) ^ 2 <= 1.0201)%R -> in_ell (a * s) (b * s) x y.
Proof.
  intros Hs Ha Hb Hx Hy H. unfold in_ell. assert (G : forall z C c, (0 < c)%R -> (- (C * s) <= z <= C * s)%R -> ((z / (0.5 * (c * s))) ^ 2 <= (C / (0.5 * c)) ^ 2)%R).
  { intros z C c Hc Hz. assert (E : (C / (0.5 * c) = (C * s) / (0.5 * (c * s)))%R) by (field; lra). rewrite E. unfold Rdiv. rewrite !Rpow_mult_distr. apply Rmult_le_compat_r; [apply pow2_ge_0|].
    assert (K : (0 <= (C * s - z) * (C * s + z))%R) by (apply Rmult_le_pos; lra). replace ((C * s) ^ 2)%R with (z ^ 2 + (C * s - z) * (C * s + z))%R by ring. lra. }
  assert (X := G x A a Ha Hx). assert (Y := G y B b Hb Hy). lra.
Qed.
Lemma rclip_bounds v lo hi : (lo <= hi)%R -> (lo <= rclip v lo hi <= hi)%R.
Proof. intros H. unfold rclip. split; [apply Rmin_glb; [apply Rmax_r|exact H]|apply Rmin_r]. Qed.
Lemma rclip_in v lo hi : (lo <= v <= hi)%R -> rclip v lo hi = v.
Proof. intros H. unfold rclip. rewrite Rmax_left by lra. apply Rmin_left. lra. Qed.

Section face.
Context (size : Z) (Hs : 16 <= size) (i j : Z).
Let s := IZR size. Let h := IZR (size / 2). Let x := xof size j. Let y := yof size i.
Lemma size_facts : (16 <= s /\ (s - 1) / 2 <= h <= s / 2)%R.
Proof.
  unfold s, h. split; [apply IZR_le; exact Hs|]. assert (X := Z.div_mod size 2 ltac:(lia)). assert (Y := Z.mod_pos_bound size 2 ltac:(lia)). assert (A : (IZR (2 * (size / 2)) <= IZR size)%R) by (apply IZR_le; lia). assert (B : (IZR (size - 1) <= IZR (2 * (size / 2)))%R) by (apply IZR_le; lia). rewrite mult_IZR in *. rewrite minus_IZR in B. lra.
Qed.
Definition boxed (cx cy a b x y : R) : Prop := (cx - a <= x <= cx + a /\ cy - b <= y <= cy + b)%R.
Lemma eye_part sg : let v := (eye_of size sg i j + pupil_of size sg i j)%R in v = 0%R \/ ((- 0.4 <= v <= 0.6)%R /\ boxed (sg * 0.3 * h) (0.4 * h) (0.07575 * s) (0.02525 * s) x y).
Proof.
  assert (SF := size_facts). cbv zeta. unfold eye_of, pupil_of. fold s h. cbv zeta. set (cx := (sg * 0.3 * h)%R). set (cy := (0.4 * h)%R).
  destruct (ell_val size cx cy (0.15 * s) (0.05 * s) i j) as [(-> & A)|(-> & A)], (ell_val size cx cy (0.048 * s) (0.048 * s) i j) as [(-> & B)|(-> & B)], (ell_val size cx cy (0.015 * s) (0.015 * s) i j) as [(-> & D)|(-> & D)]; fold x y in A, B, D.
  all: try (exfalso; apply A; apply (ell_mono (0.048 * s) (0.048 * s)); [lra|lra|exact B]).
  all: try (exfalso; apply B; apply (ell_mono (0.015 * s) (0.015 * s)); [lra|lra|exact D]).
  all: try (left; lra).
  all: right; (split; [lra|]); apply ell_box in A; try lra; unfold boxed; lra.
Qed.
Lemma brow_part sg : (sg = 1 \/ sg = -1)%R -> let v := eyebrow_of size sg i j in v = 0%R \/ ((- 0.3 <= v <= 0)%R /\ boxed (sg * 0.3 * h) (0.535 * h) (0.0933 * s) (0.0304 * s + 0.005 * h) x y).
Proof.
  intros SG. assert (SF := size_facts). assert (S10 : (- (10 / 45) <= sin (sg * 10 * PI / 180) <= 10 / 45)%R) by (apply sin_deg; destruct SG as [-> | ->]; lra).
  assert (S5 : (- (5 / 45) <= sin (sg * 5 * PI / 180) <= 5 / 45)%R) by (apply sin_deg; destruct SG as [-> | ->]; lra).
  cbv zeta. unfold eyebrow_of. fold s h. cbv zeta. set (cx := (sg * 0.3 * h)%R). set (w := (_ + _)%R). assert (B := rclip_bounds w (- 0.3) 0 ltac:(lra)). unfold w in *. clear w.
  destruct (rect_val size cx (0.54 * h) (0.18 * s) (0.02 * s) (sg * 5) i j) as [(E1 & A1)|(E1 & A1)], (rect_val size cx (0.54 * h - 0.01 * h) (0.18 * s) (0.015 * s) (sg * 10) i j) as [(E2 & A2)|(E2 & A2)]; fold x y in A1, A2; rewrite E1, E2 in *.
  4:{ left. rewrite rclip_in by lra. lra. }
  all: right; (split; [exact B|]).
  1,2: apply rect_box with (e := (5 / 45)%R) in A1; try lra; unfold boxed; lra.
  apply rect_box with (e := (10 / 45)%R) in A2; try lra; unfold boxed; lra.
Qed.
Lemma nose_part : let v := nose size i j in v = 0%R \/ ((0 <= v <= 0.2)%R /\ boxed 0 0 (0.0605 * s) (0.1314 * s) x y).
Proof.
  assert (SF := size_facts). assert (S9 : (- (9 / 45) <= sin (9 * PI / 180) <= 9 / 45)%R) by (apply sin_deg; lra). assert (S9' : (- (9 / 45) <= sin (-9 * PI / 180) <= 9 / 45)%R) by (apply sin_deg; lra). assert (S0 : (- 0 <= sin (0 * PI / 180) <= 0)%R) by (replace (0 * PI / 180)%R with 0%R by field; rewrite sin_0; lra).
  cbv zeta. unfold nose. fold s h. set (w := (_ + _ + _)%R). assert (B := rclip_bounds w 0 0.2 ltac:(lra)). unfold w in *. clear w.
  destruct (rect_val size 0 0 (0.05 * s) (0.25 * s) 0 i j) as [(E1 & A1)|(E1 & A1)]; [right; split; [exact B|]; fold x y in A1; apply rect_box with (e := 0%R) in A1; try lra; unfold boxed; lra|].
  destruct (rect_val size (0 + 0.015 * s) 0 (0.04 * s) (0.25 * s) 9 i j) as [(E2 & A2)|(E2 & A2)]; [right; split; [exact B|]; fold x y in A2; apply rect_box with (e := (9/45)%R) in A2; try lra; unfold boxed; lra|].
  destruct (rect_val size (0 - 0.015 * s) 0 (0.04 * s) (0.25 * s) (-9) i j) as [(E3 & A3)|(E3 & A3)]; [right; split; [exact B|]; fold x y in A3; apply rect_box with (e := (9/45)%R) in A3; try lra; unfold boxed; lra|].
  left. rewrite E1, E2, E3. rewrite rclip_in by lra. lra.
Qed.
Lemma mouth_part : let v := mouth size i j in v = 0%R \/ ((0 <= v <= 0.4)%R /\ boxed 0 (- 0.22 * s) (0.1212 * s) (0.0278 * s) x y).
Proof.
  assert (SF := size_facts). assert (S0 : (- 0 <= sin (0 * PI / 180) <= 0)%R) by (replace (0 * PI / 180)%R with 0%R by field; rewrite sin_0; lra).
  cbv zeta. unfold mouth. fold s h. cbv zeta.
  destruct (rect_val size 0 (- 0.22 * s) (0.24 * s) (0.055 * s) 0 i j) as [(-> & A1)|(-> & A1)], (ell_val size 0 (- 0.22 * s + 0.025 * s) (0.24 * s) (0.07 * s) i j) as [(-> & A2)|(-> & A2)]; fold x y in A1.
  1:{ right. destruct (Rlt_dec _ _) as [L|L]; [exfalso; lra|]. split; [lra|]. apply rect_box with (e := 0%R) in A1; try lra; unfold boxed; lra. }
  all: left; destruct (Rlt_dec _ _) as [L|L]; [reflexivity|exfalso; lra].
Qed.
Lemma hair_part k a : (- 10 <= a <= 10)%R -> let v := (- 0.4 * rect size (k * s) (- 0.32 * s) (0.005 * s) (0.1 * s) a i j)%R in v = 0%R \/ ((- 0.4 <= v <= 0)%R /\ boxed (k * s) (- 0.32 * s) (0.01375 * s) (0.0512 * s) x y).
Proof.
  intros Ha. assert (SF := size_facts). assert (S10 := sin_deg a 10 ltac:(lra) ltac:(lra)). cbv zeta. destruct (rect_val size (k * s) (- 0.32 * s) (0.005 * s) (0.1 * s) a i j) as [(-> & A)|(-> & A)]; [right|left; lra]. split; [lra|].
  fold x y in A. apply rect_box with (e := (10 / 45)%R) in A; try lra. unfold boxed. lra.
Qed.
Lemma middle_hair : let v := (- 0.4 * rect size 0 (- 0.32 * s) (0.005 * s) (0.1 * s) 0 i j)%R in v = 0%R \/ ((- 0.4 <= v <= 0)%R /\ boxed 0 (- 0.32 * s) (0.002525 * s) (0.0512 * s) x y).
Proof.
  assert (SF := size_facts). assert (S0 : (- 0 <= sin (0 * PI / 180) <= 0)%R) by (replace (0 * PI / 180)%R with 0%R by field; rewrite sin_0; lra). cbv zeta. destruct (rect_val size 0 (- 0.32 * s) (0.005 * s) (0.1 * s) 0 i j) as [(-> & A)|(-> & A)]; [right|left; lra]. split; [lra|].
  fold x y in A. apply rect_box with (e := 0%R) in A; try lra. unfold boxed. lra.
Qed.
(** the face: outside of the head, on the rim, inside *)
Definition head : Prop := in_ell (s / 1.3) ((if (64 <? size)%Z then 0.95 else 0.9) * s) x y.
Definition inner : Prop := in_ell ((if (64 <? size)%Z then 0.91 else 0.86) * s / 1.3) ((if (64 <? size)%Z then 0.91 else 0.86) * s) x (y - (- 0.01 * s)).
Lemma inner_head : inner -> head.
Proof.
  assert (SF := size_facts). unfold inner, head. set (r2 := (if 64 <? size then 0.91 else 0.86)%R). set (r1 := (if 64 <? size then 0.95 else 0.9)%R). assert (RR : (r1 = 0.95 /\ r2 = 0.91 \/ r1 = 0.9 /\ r2 = 0.86)%R) by (unfold r1, r2; destruct (64 <? size); lra). clearbody r1 r2.
  intros H. unfold in_ell in *. set (X := (x / s)%R). set (Y := (y / s)%R). assert (EX : (x = X * s)%R) by (unfold X; field; lra). assert (EY : (y = Y * s)%R) by (unfold Y; field; lra). rewrite EX, EY in *.
  assert (R0 : (0 < r2)%R) by lra. assert (R1 : (0 < r1)%R) by lra.
  assert (G1 : forall r, (0 < r -> X * s / (0.5 * (r * s / 1.3)) = 2.6 * X / r)%R) by (intros r Hr; replace 0.5%R with (/ 2)%R by lra; replace 1.3%R with (13 / 10)%R by lra; replace 2.6%R with (26 / 10)%R by lra; field; lra).
  assert (G2 : forall r c, (0 < r -> (Y * s - c * s) / (0.5 * (r * s)) = (2 * Y - 2 * c) / r)%R) by (intros r c Hr; replace 0.5%R with (/ 2)%R by lra; field; lra).
  rewrite G1, G2 in H by exact R0. replace (2 * Y - 2 * - 0.01)%R with (2 * Y + 0.02)%R in H by lra.
  replace (s / 1.3)%R with (1 * s / 1.3)%R by (unfold Rdiv; ring). rewrite G1 by lra. replace (Y * s)%R with (Y * s - 0 * s)%R by ring. rewrite G2 by exact R1. replace (2.6 * X / 1)%R with (2.6 * X)%R by field. replace (2 * Y - 2 * 0)%R with (2 * Y)%R by ring.
  set (p := (2.6 * X)%R) in *. set (q := (2 * Y)%R) in *. assert (Q1 : (0 <= p ^ 2)%R) by apply pow2_ge_0.
  assert (H2 : (p ^ 2 + (q + 0.02) ^ 2 <= 1.0201 * r2 ^ 2)%R).
  { replace (p ^ 2 + (q + 0.02) ^ 2)%R with (((p / r2) ^ 2 + ((q + 0.02) / r2) ^ 2) * r2 ^ 2)%R by (field; lra). apply Rmult_le_compat_r; [apply pow2_ge_0|exact H]. }
  clear H. assert (QB : (- (0.93) <= q + 0.02 <= 0.93)%R) by (apply sq_le; [lra|]; destruct RR as [(_ & ->)|(_ & ->)]; lra).
  replace ((q / r1) ^ 2)%R with (q ^ 2 / r1 ^ 2)%R by (field; lra). destruct RR as [(-> & E2)|(-> & E2)]; rewrite E2 in *.
  - replace 0.95%R with (19 / 20)%R by lra. replace (q ^ 2 / (19 / 20) ^ 2)%R with (q ^ 2 * (400 / 361))%R by field. nra.
  - replace 0.9%R with (9 / 10)%R by lra. replace (q ^ 2 / (9 / 10) ^ 2)%R with (q ^ 2 * (100 / 81))%R by field. nra.
Qed.
Lemma face_val : (face size i j = 0 /\ ~ head)%R \/ (face size i j = 1 /\ head /\ ~ inner)%R \/ (face size i j = 0.4 /\ inner)%R.
Proof.
  unfold face. fold s. cbv zeta. assert (IH := inner_head). unfold head, inner in *.
  destruct (ell_val size 0 0 (s / 1.3) ((if 64 <? size then 0.95 else 0.9) * s) i j) as [(-> & A)|(-> & A)], (ell_val size 0 (- 0.01 * s) ((if 64 <? size then 0.91 else 0.86) * s / 1.3) ((if 64 <? size then 0.91 else 0.86) * s) i j) as [(-> & B)|(-> & B)]; fold x y in A, B; rewrite Rminus_0_r in A; try rewrite Rminus_0_r in A; rewrite Rminus_0_r in B.
  - right; right. split; [lra|exact B].
  - right; left. split; [lra|]. split; assumption.
  - exfalso. apply A, IH, B.
  - left. split; [lra|exact A].
Qed.
Lemma box_inner A B : (- (A * s) <= x <= A * s)%R -> (- (B * s) <= y + 0.01 * s <= B * s)%R -> ((1.3 * A / 0.43) ^ 2 + (B / 0.43) ^ 2 <= 1.0201)%R -> inner.
Proof.
  assert (SF := size_facts). intros HA HB H. unfold inner. apply (ell_mono (0.86 / 1.3 * s) (0.86 * s)); [destruct (64 <? size); lra|destruct (64 <? size); lra|].
  apply (box_in_ell s (0.86 / 1.3) 0.86 A B); lra.
Qed.
Lemma box_head A B : (- (A * s) <= x <= A * s)%R -> (- (B * s) <= y <= B * s)%R -> ((2.6 * A) ^ 2 + (B / 0.45) ^ 2 <= 1.0201)%R -> head.
Proof.
  assert (SF := size_facts). intros HA HB H. unfold head. apply (ell_mono (1 / 1.3 * s) (0.9 * s)); [lra|destruct (64 <? size); lra|].
  apply (box_in_ell s (1 / 1.3) 0.9 A B); lra.
Qed.
Lemma phantom_parts : let v := px (make_face_phantom size) i j in (0 <= v <= 1)%R /\ (~ head -> v = 0%R).
Proof.
  assert (SF := size_facts). cbn [make_face_phantom px]. unfold eye, beard. fold s.
  assert (P1 := eye_part (-1)). assert (P2 := eye_part 1). assert (P3 := brow_part (-1) ltac:(lra)). assert (P4 := brow_part 1 ltac:(lra)). assert (P5 := nose_part). assert (P6 := mouth_part). assert (P7 := middle_hair). assert (P8 := hair_part (- 0.02) (-10) ltac:(lra)). assert (P9 := hair_part 0.02 10 ltac:(lra)). cbv zeta in *.
  set (v3 := eyebrow_of size (-1) i j) in *. set (v4 := eyebrow_of size 1 i j) in *. set (v5 := nose size i j) in *. set (v6 := mouth size i j) in *.
  set (v7 := rect size 0 (- 0.32 * s) (0.005 * s) (0.1 * s) 0 i j) in *. set (v8 := rect size (- 0.02 * s) (- 0.32 * s) (0.005 * s) (0.1 * s) (-10) i j) in *. set (v9 := rect size (0.02 * s) (- 0.32 * s) (0.005 * s) (0.1 * s) 10 i j) in *.
  set (e1 := eye_of size (-1) i j) in *. set (e2 := eye_of size 1 i j) in *. set (p1 := pupil_of size (-1) i j) in *. set (p2 := pupil_of size 1 i j) in *.
  assert (F := face_val). set (f := face size i j) in *.
  assert (IN : inner -> head) by apply inner_head.
  assert (KEY : (exists v, (0 + (f + (e1 + e2 + p1 + p2 + v3 + v4) + v5 + v6 + (- 0.4 * v7 + - 0.4 * v8 + - 0.4 * v9)) = f + v)%R /\ (v = 0 \/ (- 0.4 <= v <= 0.6 /\ inner) \/ (- 0.3 <= v <= 0 /\ head))%R)).
  { unfold boxed in *.
    destruct P1 as [P1|P1]; [|destruct P2 as [P2|P2]; [|exfalso; lra]; destruct P3 as [P3|P3]; [|exfalso; lra]; destruct P4 as [P4|P4]; [|exfalso; lra]; destruct P5 as [P5|P5]; [|exfalso; lra]; destruct P6 as [P6|P6]; [|exfalso; lra]; destruct P7 as [P7|P7]; [|exfalso; lra]; destruct P8 as [P8|P8]; [|exfalso; lra]; destruct P9 as [P9|P9]; [|exfalso; lra];
      exists (e1 + p1)%R; split; [lra|]; right; left; split; [lra|]; apply (box_inner 0.226 0.2353); lra].
    destruct P2 as [P2|P2]; [|destruct P3 as [P3|P3]; [|exfalso; lra]; destruct P4 as [P4|P4]; [|exfalso; lra]; destruct P5 as [P5|P5]; [|exfalso; lra]; destruct P6 as [P6|P6]; [|exfalso; lra]; destruct P7 as [P7|P7]; [|exfalso; lra]; destruct P8 as [P8|P8]; [|exfalso; lra]; destruct P9 as [P9|P9]; [|exfalso; lra];
      exists (e2 + p2)%R; split; [lra|]; right; left; split; [lra|]; apply (box_inner 0.226 0.2353); lra].
    destruct P3 as [P3|P3]; [|destruct P4 as [P4|P4]; [|exfalso; lra]; destruct P5 as [P5|P5]; [|exfalso; lra]; destruct P6 as [P6|P6]; [|exfalso; lra]; destruct P7 as [P7|P7]; [|exfalso; lra]; destruct P8 as [P8|P8]; [|exfalso; lra]; destruct P9 as [P9|P9]; [|exfalso; lra];
      exists v3; split; [lra|]; right; right; split; [lra|]; apply (box_head 0.2433 0.301); lra].
    destruct P4 as [P4|P4]; [|destruct P5 as [P5|P5]; [|exfalso; lra]; destruct P6 as [P6|P6]; [|exfalso; lra]; destruct P7 as [P7|P7]; [|exfalso; lra]; destruct P8 as [P8|P8]; [|exfalso; lra]; destruct P9 as [P9|P9]; [|exfalso; lra];
      exists v4; split; [lra|]; right; right; split; [lra|]; apply (box_head 0.2433 0.301); lra].
    destruct P5 as [P5|P5]; [|destruct P6 as [P6|P6]; [|exfalso; lra]; destruct P7 as [P7|P7]; [|exfalso; lra]; destruct P8 as [P8|P8]; [|exfalso; lra]; destruct P9 as [P9|P9]; [|exfalso; lra];
      exists v5; split; [lra|]; right; left; split; [lra|]; apply (box_inner 0.0605 0.142); lra].
    destruct P6 as [P6|P6]; [|destruct P7 as [P7|P7]; [|exfalso; lra]; destruct P8 as [P8|P8]; [|exfalso; lra]; destruct P9 as [P9|P9]; [|exfalso; lra];
      exists v6; split; [lra|]; right; left; split; [lra|]; apply (box_inner 0.1212 0.24); lra].
    destruct P7 as [P7|P7]; [|destruct P8 as [P8|P8]; [|exfalso; lra]; destruct P9 as [P9|P9]; [|exfalso; lra];
      exists (- 0.4 * v7)%R; split; [lra|]; right; left; split; [lra|]; apply (box_inner 0.04 0.3615); lra].
    destruct P8 as [P8|P8]; [|destruct P9 as [P9|P9]; [|exfalso; lra];
      exists (- 0.4 * v8)%R; split; [lra|]; right; left; split; [lra|]; apply (box_inner 0.04 0.3615); lra].
    destruct P9 as [P9|P9]; [|exists (- 0.4 * v9)%R; split; [lra|]; right; left; split; [lra|]; apply (box_inner 0.04 0.3615); lra].
    exists 0%R. split; [lra|]. left; reflexivity. }
  destruct KEY as (v & -> & KV).
  destruct F as [(-> & NH)|[(-> & HH & NI)|(-> & HI)]].
  - assert (v = 0%R) by (destruct KV as [V|[(_ & V)|(_ & V)]]; [exact V|exfalso; apply NH, IN, V|exfalso; apply NH, V]). subst v. split; [lra|]. intros _. lra.
  - split; [|intros N; contradiction]. destruct KV as [V|[(_ & V)|(V & _)]]; [lra|contradiction|lra].
  - split; [|intros N; exfalso; apply N, IN, HI]. destruct KV as [V|[(V & _)|(V & _)]]; lra.
Qed.
End face.
