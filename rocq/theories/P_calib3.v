(** Proofs about the ellipse fit: singular vectors. *)
From Coq Require Import Reals Lra ZArith Lia Bool List. Import ListNotations.
From Verif Require Import Np P_Np M_phase_R P_phase_R M_corr P_corr M_simR S_simR P_simR P_simR2 P_simR4 M_calib S_calib P_calib P_calib2.
Open Scope R_scope.

Lemma rsum6 f : rsum 6 f = f 0%Z + f 1%Z + f 2%Z + f 3%Z + f 4%Z + f 5%Z.
Proof. unfold rsum. change (Z.to_nat 6) with 6%nat. cbn [rsumn Z.of_nat Pos.of_succ_nat Pos.succ]. ring. Qed.
Lemma rsum5 f : rsum 5 f = f 0%Z + f 1%Z + f 2%Z + f 3%Z + f 4%Z.
Proof. unfold rsum. change (Z.to_nat 5) with 5%nat. cbn [rsumn Z.of_nat Pos.of_succ_nat Pos.succ]. ring. Qed.
Lemma times_conic x y A v i : conic_rows x y A -> in_rng (vlen x) i -> times A v i = conic v (vat x i) (vat y i).
Proof. intros (_ & C & H) Hi. destruct (H i Hi) as (H0 & H1 & H2 & H3 & H4 & H5). unfold times, conic. rewrite C, rsum6, H0, H1, H2, H3, H4, H5. ring. Qed.
Lemma design_rows x y : conic_rows x y (design x y).
Proof. split; [reflexivity|]. split; [reflexivity|]. intros i Hi. cbn. repeat split; ring. Qed.
Lemma rsum_nonneg n f : (forall k, (0 <= k < n)%Z -> 0 <= f k) -> 0 <= rsum n f.
Proof.
  unfold rsum. intros H. assert (G : forall m : nat, (Z.of_nat m <= n)%Z -> 0 <= rsumn m f).
  { induction m as [|m IH]; intros Hm; cbn [rsumn]; [lra|]. assert (A := H (Z.of_nat m) ltac:(lia)). assert (B := IH ltac:(lia)). lra. }
  destruct (Z.le_gt_cases 0 n) as [L|L]; [apply G; lia|]. replace (Z.to_nat n) with 0%nat by lia. cbn. lra.
Qed.
Lemma rsum_zero_each n f k : (forall k, (0 <= k < n)%Z -> 0 <= f k) -> rsum n f <= 0 -> (0 <= k < n)%Z -> f k = 0.
Proof.
  unfold rsum. intros H. assert (G : forall m : nat, (Z.of_nat m <= n)%Z -> rsumn m f <= 0 -> 0 <= rsumn m f /\ forall k, (0 <= k < Z.of_nat m)%Z -> f k = 0).
  { induction m as [|m IH]; intros Hm S; [split; [cbn; lra|lia]|]. cbn [rsumn] in S |- *. assert (A := H (Z.of_nat m) ltac:(lia)).
    assert (B : 0 <= rsumn m f). { assert (X := rsum_nonneg (Z.of_nat m) f). unfold rsum in X. rewrite Nat2Z.id in X. apply X. intros q Hq. apply H. lia. }
    destruct (IH ltac:(lia) ltac:(lra)) as (_ & I). split; [lra|]. intros q Hq. destruct (Z.eq_dec q (Z.of_nat m)) as [->|]; [lra|apply I; lia]. }
  intros S Hk. destruct (G (Z.to_nat n) ltac:(lia) S) as (_ & I). apply I. lia.
Qed.
(** a conic through all points exists, so the last singular vector of six or more rows gives one *)
Lemma last_singular_null x y A v q : conic_rows x y A -> (6 <= vlen x)%Z -> last_singular A v -> (0 < norm2 6 q) ->
  (forall i, in_rng (vlen x) i -> conic q (vat x i) (vat y i) = 0) ->
  norm2 6 v = 1 /\ forall i, in_rng (vlen x) i -> conic v (vat x i) (vat y i) = 0.
Proof.
  intros HA Hn (U & M & _) Hq Hz. assert (HA0 := HA). destruct HA0 as (R & C & _). rewrite R, C in *. split; [exact U|].
  set (w := sqrt (norm2 6 q)). assert (W : 0 < w) by (apply sqrt_lt_R0; exact Hq). assert (W2 : w * w = norm2 6 q) by (apply sqrt_sqrt; lra).
  assert (UU : norm2 6 (fun k => q k / w) = 1).
  { unfold norm2. rewrite rsum6. unfold norm2 in W2. rewrite rsum6 in W2.
    transitivity ((q 0%Z * q 0%Z + q 1%Z * q 1%Z + q 2%Z * q 2%Z + q 3%Z * q 3%Z + q 4%Z * q 4%Z + q 5%Z * q 5%Z) / (w * w)); [field; lra|]. rewrite <- W2. field. lra. }
  assert (B := M ltac:(lia) _ UU).
  assert (Z : norm2 (vlen x) (times A (fun k => q k / w)) = 0).
  { unfold norm2. rewrite (rsum_ext _ _ (fun _ => 0)).
    - rewrite rsum_const by lia. ring.
    - intros i Hi. rewrite (times_conic x y) by assumption. assert (E := Hz i Hi). unfold conic in *.
      replace (q 0%Z / w * vat x i ^ 2 + q 1%Z / w * (vat x i * vat y i) + q 2%Z / w * vat y i ^ 2 + q 3%Z / w * vat x i + q 4%Z / w * vat y i + q 5%Z / w) with
        ((q 0%Z * vat x i ^ 2 + q 1%Z * (vat x i * vat y i) + q 2%Z * vat y i ^ 2 + q 3%Z * vat x i + q 4%Z * vat y i + q 5%Z) / w) by (field; lra).
      rewrite E. unfold Rdiv. ring. }
  rewrite Z in B. intros i Hi. assert (T : times A v i * times A v i = 0).
  { apply (rsum_zero_each (vlen x) (fun i => times A v i * times A v i)); [|exact B|exact Hi]. intros k _. apply Rle_0_sqr. }
  rewrite <- (times_conic x y A) by assumption. apply Rmult_integral in T. destruct T; assumption.
Qed.
Lemma quad_conic (v : Z -> R) x y : conic v x y = quad (v 0%Z) (v 1%Z) (v 2%Z) (v 3%Z) (v 4%Z) (v 5%Z) x y.
Proof. reflexivity. Qed.
Lemma fit_exact atan2 svd_last x y xc yc a b theta t : polar_angle atan2 -> atan2 0 0 = 0 -> (6 <= vlen x)%Z -> vlen y = vlen x ->
  0 < b -> b <= a -> - (PI / 2) <= theta < PI / 2 -> on_ellipse xc yc a b theta x y t -> five_different x y ->
  (forall A, conic_rows x y A -> last_singular A (svd_last A)) ->
  exists f, fit_points_to_ellipse atan2 svd_last x y = Ok f /\
    fit_major f = 2 * a /\ fit_minor f = 2 * b /\ fit_xc f = xc /\ fit_yc f = yc /\ (b < a -> fit_roll f = rad2deg theta).
Proof.
  intros Hat H0 Hn Hl Hb Hab Ht HE HF HS. unfold fit_points_to_ellipse. rewrite Hl, Z.eqb_refl. cbn [negb].
  set (v := svd_last (design x y)).
  set (q := fun k : Z => if (k =? 0)%Z then eA a b theta else if (k =? 1)%Z then eB a b theta else if (k =? 2)%Z then eC a b theta else if (k =? 3)%Z then eD xc yc a b theta else if (k =? 4)%Z then eE xc yc a b theta else eF xc yc a b theta).
  assert (Q : 0 < norm2 6 q).
  { unfold norm2. rewrite rsum6. unfold q. cbn [Z.eqb Pos.eqb]. assert (P := eAC_pos a b theta ltac:(lra)).
    assert (N : 0 < eA a b theta * eA a b theta + eC a b theta * eC a b theta).
    { assert (G1 := Rle_0_sqr (eA a b theta)). assert (G2 := Rle_0_sqr (eC a b theta)). unfold Rsqr in *. destruct (Req_dec (eA a b theta) 0) as [Z|Z].
      - rewrite Z in *. assert (0 < eC a b theta * eC a b theta) by (apply Rmult_lt_0_compat; lra). lra.
      - assert (G := Rlt_0_sqr _ Z). unfold Rsqr in G. lra. }
    assert (G1 := Rle_0_sqr (eB a b theta)). assert (G2 := Rle_0_sqr (eD xc yc a b theta)). assert (G3 := Rle_0_sqr (eE xc yc a b theta)). assert (G4 := Rle_0_sqr (eF xc yc a b theta)). unfold Rsqr in *. lra. }
  assert (E : forall k, in_rng (vlen x) k -> vat x k = fst (ellipse_point xc yc a b theta (t k)) /\ vat y k = snd (ellipse_point xc yc a b theta (t k))).
  { intros k Hk. rewrite <- (HE k Hk). split; reflexivity. }
  destruct (last_singular_null x y (design x y) v q (design_rows x y) Hn (HS _ (design_rows x y)) Q) as (U & V).
  { intros i Hi. destruct (E i Hi) as (-> & ->). rewrite quad_conic. unfold q. cbn [Z.eqb Pos.eqb]. apply on_conic; lra. }
  destruct HF as (k0 & k1 & k2 & k3 & k4 & HI & ND).
  set (ks := fun n : nat => nth n [k0; k1; k2; k3; k4] k0).
  assert (K : forall n, (n < 5)%nat -> in_rng (vlen x) (ks n)) by (intros n Hk; apply HI; apply nth_In; exact Hk).
  destruct (ellipse_unique xc yc a b theta ltac:(lra) Hb (v 0%Z) (v 1%Z) (v 2%Z) (v 3%Z) (v 4%Z) (v 5%Z) (fun n => t (ks n))) as (l & L0 & L1 & L2 & L3 & L4 & L5).
  - intros n Hk. destruct (E (ks n) (K n Hk)) as (<- & <-). rewrite <- quad_conic. apply V, K, Hk.
  - cbn [map]. unfold ks. cbn [nth].
    rewrite <- (HE k0), <- (HE k1), <- (HE k2), <- (HE k3), <- (HE k4); [exact ND|apply HI; cbn; tauto..].
  - assert (LZ : l <> 0).
    { intros Z. unfold norm2 in U. rewrite rsum6, L0, L1, L2, L3, L4, L5, Z in U. lra. }
    rewrite L0, L1, L2, L3, L4, L5. apply conic_gives; assumption.
Qed.

(** ** five points *)
Definition five_x : vec R := mkvec 5 (fun i => if (i =? 0)%Z then 1 / 2 else if (i =? 1)%Z then 1 / 2 else if (i =? 2)%Z then - (1 / 2) else if (i =? 3)%Z then - (1 / 2) else 1).
Definition five_y : vec R := mkvec 5 (fun i => if (i =? 0)%Z then 1 / 10 else if (i =? 1)%Z then - (1 / 10) else if (i =? 2)%Z then 1 / 10 else if (i =? 3)%Z then - (1 / 10) else 0).
Lemma five_norm v A : conic_rows five_x five_y A -> norm2 (nrow A) (times A v) =
  4 * (v 0%Z / 4 + v 2%Z / 100 + v 5%Z) ^ 2 + v 3%Z ^ 2 + v 4%Z ^ 2 / 25 + v 1%Z ^ 2 / 100 + (v 0%Z + v 3%Z + v 5%Z) ^ 2.
Proof.
  intros H. assert (H0 := H). destruct H0 as (R & C & _). rewrite R. cbn [vlen five_x]. unfold norm2. rewrite rsum5.
  rewrite !(times_conic five_x five_y) by (assumption || (unfold in_rng; cbn; lia)). unfold conic. cbn [vat five_x five_y Z.eqb Pos.eqb]. field.
Qed.
Lemma five_rows v A : conic_rows five_x five_y A -> combination_of_rows A v -> v 5%Z = v 0%Z + 75 * v 2%Z.
Proof.
  intros (R & C & H) (c & Hc). rewrite C in Hc. rewrite (Hc 0%Z), (Hc 2%Z), (Hc 5%Z) by (unfold in_rng; lia). rewrite R. cbn [vlen five_x]. rewrite !rsum5.
  assert (H' : forall i, in_rng 5 i -> px A i 0%Z = vat five_x i ^ 2 /\ px A i 2%Z = vat five_y i ^ 2 /\ px A i 5%Z = 1) by (intros i Hi; destruct (H i Hi) as (A0 & _ & A2 & _ & _ & A5); auto).
  destruct (H' 0%Z ltac:(unfold in_rng; lia)) as (-> & -> & ->). destruct (H' 1%Z ltac:(unfold in_rng; lia)) as (-> & -> & ->). destruct (H' 2%Z ltac:(unfold in_rng; lia)) as (-> & -> & ->).
  destruct (H' 3%Z ltac:(unfold in_rng; lia)) as (-> & -> & ->). destruct (H' 4%Z ltac:(unfold in_rng; lia)) as (-> & -> & ->).
  cbn [vat five_x five_y Z.eqb Pos.eqb]. field.
Qed.
Definition exy (k : Z) : R := if (k =? 1)%Z then 1 else 0.
Lemma five_exy A : conic_rows five_x five_y A -> norm2 6 exy = 1 /\ combination_of_rows A exy.
Proof.
  intros (R & C & H). split; [unfold norm2; rewrite rsum6; unfold exy; cbn [Z.eqb Pos.eqb]; ring|].
  exists (fun i => if (i =? 0)%Z then 5 else if (i =? 1)%Z then -5 else if (i =? 2)%Z then -5 else if (i =? 3)%Z then 5 else 0).
  rewrite R, C. cbn [vlen five_x]. intros k Hk. rewrite rsum5. cbn [Z.eqb Pos.eqb].
  destruct (H 0%Z ltac:(unfold in_rng; cbn; lia)) as (A0 & A1 & A2 & A3 & A4 & A5). destruct (H 1%Z ltac:(unfold in_rng; cbn; lia)) as (B0 & B1 & B2 & B3 & B4 & B5).
  destruct (H 2%Z ltac:(unfold in_rng; cbn; lia)) as (C0 & C1 & C2 & C3 & C4 & C5). destruct (H 3%Z ltac:(unfold in_rng; cbn; lia)) as (D0 & D1 & D2 & D3 & D4 & D5).
  cbn [vat five_x five_y Z.eqb Pos.eqb] in *. unfold exy, in_rng in *.
  assert (K : (k = 0 \/ k = 1 \/ k = 2 \/ k = 3 \/ k = 4 \/ k = 5)%Z) by lia.
  destruct K as [-> | [-> | [-> | [-> | [-> | ->] ] ] ] ]; cbn [Z.eqb Pos.eqb]; rewrite ?A0, ?A1, ?A2, ?A3, ?A4, ?A5, ?B0, ?B1, ?B2, ?B3, ?B4, ?B5, ?C0, ?C1, ?C2, ?C3, ?C4, ?C5, ?D0, ?D1, ?D2, ?D3, ?D4, ?D5; lra.
Qed.
Lemma five_gap w0 w2 w3 : let w5 := w0 + 75 * w2 in
  (w0 * w0 + w2 * w2 + w3 * w3 + w5 * w5) / 20 <= 4 * (w0 / 4 + w2 / 100 + w5) ^ 2 + w3 ^ 2 + (w0 + w3 + w5) ^ 2.
Proof.
  intros w5. set (G := w0 / 4 + w2 / 100 + w5). set (h := w0 + w3 + w5). set (H := h - w3).
  assert (E0 : 5627 * w0 = 7501 * H - 7500 * G) by (unfold H, h, G, w5; field). assert (E2 : 5627 * w2 = 200 * G - 125 * H) by (unfold H, h, G, w5; field).
  assert (E5 : 5627 * w5 = 7500 * G - 1874 * H) by (unfold H, h, G, w5; field).
  assert (S0 : w0 * w0 <= 4 * (H * H + G * G)).
  { assert (Q := Rle_0_sqr (7501 * H + 7500 * G)). unfold Rsqr in Q. assert (M : 5627 * 5627 * (w0 * w0) = (7501 * H - 7500 * G) * (7501 * H - 7500 * G)) by (rewrite <- E0; ring).
    assert (P1 := Rle_0_sqr H). assert (P2 := Rle_0_sqr G). unfold Rsqr in *. lra. }
  assert (S2 : w2 * w2 <= (H * H + G * G)).
  { assert (Q := Rle_0_sqr (200 * G + 125 * H)). unfold Rsqr in Q. assert (M : 5627 * 5627 * (w2 * w2) = (200 * G - 125 * H) * (200 * G - 125 * H)) by (rewrite <- E2; ring).
    assert (P1 := Rle_0_sqr H). assert (P2 := Rle_0_sqr G). unfold Rsqr in *. lra. }
  assert (S5 : w5 * w5 <= 4 * (H * H + G * G)).
  { assert (Q := Rle_0_sqr (7500 * G + 1874 * H)). unfold Rsqr in Q. assert (M : 5627 * 5627 * (w5 * w5) = (7500 * G - 1874 * H) * (7500 * G - 1874 * H)) by (rewrite <- E5; ring).
    assert (P1 := Rle_0_sqr H). assert (P2 := Rle_0_sqr G). unfold Rsqr in *. lra. }
  assert (HH : H * H <= 2 * (h * h) + 2 * (w3 * w3)) by (assert (Q := Rle_0_sqr (h + w3)); unfold Rsqr, H in *; lra).
  assert (P1 := Rle_0_sqr h). assert (P2 := Rle_0_sqr G). assert (P3 := Rle_0_sqr w3). unfold Rsqr in *. simpl. lra.
Qed.
Lemma five_independent A : conic_rows five_x five_y A -> independent_rows A.
Proof.
  intros (R & C & H) c Hz i Hi. rewrite R in *. rewrite C in *. cbn [vlen five_x] in *.
  assert (Z0 := Hz 0%Z ltac:(unfold in_rng; lia)). assert (Z1 := Hz 1%Z ltac:(unfold in_rng; lia)). assert (Z3 := Hz 3%Z ltac:(unfold in_rng; lia)).
  assert (Z4 := Hz 4%Z ltac:(unfold in_rng; lia)). assert (Z5 := Hz 5%Z ltac:(unfold in_rng; lia)). rewrite rsum5 in *.
  destruct (H 0%Z ltac:(unfold in_rng; lia)) as (A0 & A1 & A2 & A3 & A4 & A5). destruct (H 1%Z ltac:(unfold in_rng; cbn; lia)) as (B0 & B1 & B2 & B3 & B4 & B5).
  destruct (H 2%Z ltac:(unfold in_rng; lia)) as (C0 & C1 & C2 & C3 & C4 & C5). destruct (H 3%Z ltac:(unfold in_rng; cbn; lia)) as (D0 & D1 & D2 & D3 & D4 & D5).
  destruct (H 4%Z ltac:(unfold in_rng; lia)) as (F0 & F1 & F2 & F3 & F4 & F5).
  rewrite A0, B0, C0, D0, F0 in Z0. rewrite A1, B1, C1, D1, F1 in Z1. rewrite A3, B3, C3, D3, F3 in Z3. rewrite A4, B4, C4, D4, F4 in Z4. rewrite A5, B5, C5, D5, F5 in Z5.
  cbn [vat five_x five_y Z.eqb Pos.eqb] in *.
  unfold in_rng in Hi. assert (K : (i = 0 \/ i = 1 \/ i = 2 \/ i = 3 \/ i = 4)%Z) by lia. destruct K as [-> | [-> | [-> | [-> | ->] ] ] ]; lra.
Qed.
Lemma five_vector A v : conic_rows five_x five_y A -> last_singular A v -> v 0%Z = 0 /\ v 2%Z = 0 /\ v 3%Z = 0 /\ v 4%Z = 0 /\ v 5%Z = 0 /\ v 1%Z * v 1%Z = 1.
Proof.
  intros HA (U & _ & M). assert (H0 := HA). destruct H0 as (R & C & _). rewrite C in *.
  destruct (M ltac:(rewrite R; cbn; lia) (five_independent A HA)) as (CR & MI). destruct (five_exy A HA) as (X1 & X2). specialize (MI exy X1 X2).
  rewrite !(five_norm _ A HA) in MI. unfold exy in MI. cbn [Z.eqb Pos.eqb] in MI.
  assert (V5 := five_rows v A HA CR). assert (G := five_gap (v 0%Z) (v 2%Z) (v 3%Z)). cbv zeta in G. rewrite <- V5 in G.
  unfold norm2 in U. rewrite rsum6 in U.
  assert (S0 := Rle_0_sqr (v 0%Z)). assert (S2 := Rle_0_sqr (v 2%Z)). assert (S3 := Rle_0_sqr (v 3%Z)). assert (S4 := Rle_0_sqr (v 4%Z)). assert (S5 := Rle_0_sqr (v 5%Z)). unfold Rsqr in *.
  set (T := 4 * (v 0%Z / 4 + v 2%Z / 100 + v 5%Z) ^ 2 + v 3%Z ^ 2 + (v 0%Z + v 3%Z + v 5%Z) ^ 2) in *.
  assert (MI' : T + v 4%Z * v 4%Z / 25 + v 1%Z * v 1%Z / 100 <= / 100) by (unfold T; simpl in MI |- *; lra).
  assert (ZZ : v 0%Z * v 0%Z + v 2%Z * v 2%Z + v 3%Z * v 3%Z + v 5%Z * v 5%Z + v 4%Z * v 4%Z <= 0) by lra.
  assert (Sq : forall r, r * r <= 0 -> r = 0) by (intros r Hr; assert (Q := Rle_0_sqr r); unfold Rsqr in Q; assert (E : r * r = 0) by lra; apply Rmult_integral in E; lra).
  repeat split; try (apply Sq; lra). lra.
Qed.
Lemma five_fit atan2 svd_last : (forall A, conic_rows five_x five_y A -> last_singular A (svd_last A)) ->
  exists f, fit_points_to_ellipse atan2 svd_last five_x five_y = Ok f /\ fit_major f = 0.
Proof.
  intros HS. destruct (five_vector _ _ (design_rows _ _) (HS _ (design_rows _ _))) as (V0 & V2 & V3 & V4 & V5 & V1).
  unfold fit_points_to_ellipse. cbn [vlen five_x five_y]. change (5 =? 5)%Z with true. cbn [negb]. rewrite V0, V2, V3, V4, V5.
  set (s := svd_last (design five_x five_y) 1%Z) in *. unfold ellipse_from_conic.
  assert (D : s ^ 2 - 4 * 0 * 0 = 1) by (simpl; lra). rewrite D. destruct (Req_EM_T 1 0) as [X|_]; [exfalso; lra|].
  assert (T0 : 0 * 0 ^ 2 + 0 * 0 ^ 2 - s * 0 * 0 + 1 * 0 = 0) by ring. rewrite T0.
  replace (2 * 0 * (0 + 0 + sqrt ((0 - 0) ^ 2 + s ^ 2))) with 0 by ring. replace (2 * 0 * (0 + 0 - sqrt ((0 - 0) ^ 2 + s ^ 2))) with 0 by ring.
  destruct (Rlt_dec 0 0) as [X|_]; [exfalso; lra|]. rewrite sqrt_0.
  destruct (Rlt_dec (-2 * 0 / 1) (-2 * 0 / 1)) as [X|_]; [exfalso; lra|]. eexists. split; [reflexivity|]. cbn [fit_major]. field.
Qed.
Lemma five_on_ellipse : exists t, on_ellipse 0 0 1 (/ sqrt 75) 0 five_x five_y t.
Proof.
  assert (S : sqrt 75 * sqrt 75 = 75) by (apply sqrt_sqrt; lra). assert (SP : 0 < sqrt 75) by (apply sqrt_lt_R0; lra).
  assert (Ex : forall p q, p * p + 75 * (q * q) = 1 -> exists t, (p, q) = ellipse_point 0 0 1 (/ sqrt 75) 0 t).
  { intros p q H. destruct (polar_is_angle p (sqrt 75 * q)) as (_ & E1 & E2). set (t := polar (sqrt 75 * q) p) in *. exists t.
    assert (N : sqrt (p ^ 2 + (sqrt 75 * q) ^ 2) = 1). { replace (p ^ 2 + (sqrt 75 * q) ^ 2) with (p * p + sqrt 75 * sqrt 75 * (q * q)) by ring. rewrite S, H. apply sqrt_1. }
    rewrite N in E1, E2. unfold ellipse_point. rewrite cos_0, sin_0. f_equal; [lra|]. assert (E3 : sin t = sqrt 75 * q) by lra. rewrite E3. field. lra. }
  destruct (Ex (1 / 2) (1 / 10) ltac:(lra)) as (t0 & T0). destruct (Ex (1 / 2) (- (1 / 10)) ltac:(lra)) as (t1 & T1). destruct (Ex (- (1 / 2)) (1 / 10) ltac:(lra)) as (t2 & T2).
  destruct (Ex (- (1 / 2)) (- (1 / 10)) ltac:(lra)) as (t3 & T3). destruct (Ex 1 0 ltac:(lra)) as (t4 & T4).
  exists (fun i => if (i =? 0)%Z then t0 else if (i =? 1)%Z then t1 else if (i =? 2)%Z then t2 else if (i =? 3)%Z then t3 else t4).
  intros k Hk. unfold in_rng in Hk. cbn [vlen five_x] in Hk. assert (K : (k = 0 \/ k = 1 \/ k = 2 \/ k = 3 \/ k = 4)%Z) by lia. destruct K as [-> | [-> | [-> | [-> | ->] ] ] ]; assumption.
Qed.
Lemma five_all_different : five_different five_x five_y.
Proof.
  exists 0%Z, 1%Z, 2%Z, 3%Z, 4%Z. split; [intros k Hk; unfold in_rng; cbn in *; lia|]. cbn [vat five_x five_y Z.eqb Pos.eqb].
  assert (N : forall a b c d : R, a <> c \/ b <> d -> (a, b) <> (c, d)) by (intros a b c d [H|H] E; inversion E; contradiction).
  repeat constructor; cbn [In]; intros Hin; repeat (destruct Hin as [Hin|Hin]); try contradiction; revert Hin; apply N; first [left; lra|right; lra].
Qed.
(** the hypothesis about the singular vector can be met: the vector for x y *)
Lemma five_singular A : conic_rows five_x five_y A -> last_singular A exy.
Proof.
  intros HA. assert (H0 := HA). destruct H0 as (R & C & _). destruct (five_exy A HA) as (X1 & X2). rewrite <- C in X1. split; [exact X1|]. split; [rewrite R, C; cbn; lia|].
  intros _ _. split; [exact X2|]. intros u Hu Cu. rewrite !(five_norm _ A HA). unfold exy. cbn [Z.eqb Pos.eqb].
  assert (V5 := five_rows u A HA Cu). assert (G := five_gap (u 0%Z) (u 2%Z) (u 3%Z)). cbv zeta in G. rewrite <- V5 in G. rewrite C in Hu. unfold norm2 in Hu. rewrite rsum6 in Hu.
  assert (S0 := Rle_0_sqr (u 0%Z)). assert (S2 := Rle_0_sqr (u 2%Z)). assert (S3 := Rle_0_sqr (u 3%Z)). assert (S4 := Rle_0_sqr (u 4%Z)). assert (S5 := Rle_0_sqr (u 5%Z)). unfold Rsqr in *.
  set (T := 4 * (u 0%Z / 4 + u 2%Z / 100 + u 5%Z) ^ 2) in *. set (T2 := (u 0%Z + u 3%Z + u 5%Z) ^ 2) in *. simpl in *. lra.
Qed.
