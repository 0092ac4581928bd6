(** Explicit coordinates for unwarping and tilting; the rows kept by upsampling. *)
From Verif Require Import Np P_Np M_conversion M_correction S_correction P_correction P_correction2.
From Coq Require Import QArith Qround Qabs Qpower Lqa Lia ZArith Bool.
From Coq Require Import List. Import ListNotations.
Open Scope Z_scope.

Lemma reflect_in n i : 0 <= i < n -> reflect_idx n i = i.
Proof.
  intros H. unfold reflect_idx. destruct (Z.leb_spec n 1); [lia|]. rewrite Z.mod_small by lia. replace (i <? n) with true by lia. reflexivity.
Qed.
Lemma floor_part q n : (0 <= q <= inject_Z (n - 1))%Q ->
  0 <= Qfloor q < n /\ (0 <= q - inject_Z (Qfloor q) < 1)%Q /\ (Qfloor q = n - 1 -> (q - inject_Z (Qfloor q) == 0)%Q).
Proof.
  intros [H0 H1]. pose proof (Qfloor_le q) as A. pose proof (Qlt_floor q) as B.
  rewrite inject_Z_plus in B. change (inject_Z 1) with 1%Q in B.
  assert (F0 : 0 <= Qfloor q) by (change 0 with (Qfloor (inject_Z 0)); apply Qfloor_resp_le; exact H0).
  assert (F1 : Qfloor q <= n - 1) by (rewrite <- (Qfloor_Z (n - 1)); apply Qfloor_resp_le; exact H1).
  split; [lia|]. split; [split; lra|]. intros E. rewrite E in *. lra.
Qed.
Lemma bilin_interpolates m y x : (0 <= y <= inject_Z (nrow m - 1))%Q -> (0 <= x <= inject_Z (ncol m - 1))%Q -> interpolates m y x (bilin m y x).
Proof.
  intros Hy Hx. destruct (floor_part _ _ Hy) as (Y1 & Y2 & Y3). destruct (floor_part _ _ Hx) as (X1 & X2 & X3).
  exists (Qfloor y), (Qfloor x), (y - inject_Z (Qfloor y))%Q, (x - inject_Z (Qfloor x))%Q. unfold in_rng.
  split; [lia|]. split; [lia|]. split; [exact Y2|]. split; [exact X2|]. split; [ring|]. split; [ring|]. split; [exact Y3|]. split; [exact X3|].
  unfold bilin. rewrite (reflect_in (nrow m) (Qfloor y)), (reflect_in (ncol m) (Qfloor x)) by lia.
  destruct (Z.eq_dec (Qfloor y) (nrow m - 1)) as [Ey|Ny]; destruct (Z.eq_dec (Qfloor x) (ncol m - 1)) as [Ex|Nx].
  - rewrite (Y3 Ey), (X3 Ex). ring.
  - rewrite (Y3 Ey). rewrite (reflect_in (ncol m)) by lia. ring.
  - rewrite (X3 Ex). rewrite (reflect_in (nrow m)) by lia. ring.
  - rewrite (reflect_in (nrow m)), (reflect_in (ncol m)) by lia. reflexivity.
Qed.
Lemma interpolates_Qeq m y y' x x' v v' : interpolates m y x v -> (y == y')%Q -> (x == x')%Q -> (v' == v)%Q -> interpolates m y' x' v'.
Proof.
  intros (i & j & ty & tx & H1 & H2 & H3 & H4 & H5 & H6 & H7 & H8 & H9) Ey Ex Ev. exists i, j, ty, tx.
  repeat (split; [assumption|]). split; [rewrite <- Ey; exact H5|]. split; [rewrite <- Ex; exact H6|]. split; [assumption|]. split; [assumption|].
  rewrite Ev. exact H9.
Qed.
Lemma clip_into n q : 1 <= n -> (clipQ q 0 (inject_Z (n - 1)) == into n q)%Q.
Proof.
  intros Hn. assert (T : (0 <= inject_Z (n - 1))%Q) by (change 0%Q with (inject_Z 0); rewrite <- Zle_Qle; lia).
  unfold clipQ, into, Qminb, Qmaxb. destruct (Qle_bool q 0) eqn:E1.
  - destruct (Qle_bool 0 (inject_Z (n - 1))) eqn:E2; [reflexivity|]. apply Qle_bool_iff in T. congruence.
  - destruct (Qle_bool q (inject_Z (n - 1))) eqn:E2; destruct (Qle_bool (inject_Z (n - 1)) q) eqn:E3; try reflexivity.
    + apply Qle_bool_iff in E2, E3. apply Qle_antisym; assumption.
    + assert (A : ~ (q <= inject_Z (n - 1))%Q) by (intros C; apply Qle_bool_iff in C; congruence).
      assert (B : ~ (inject_Z (n - 1) <= q)%Q) by (intros C; apply Qle_bool_iff in C; congruence). lra.
Qed.
Lemma poly_power facts r a k : (a == Qpower r k)%Q -> 0 <= k ->
  (poly facts r a == qsum (Z.of_nat (length facts)) (fun i => (nth (Z.to_nat i) facts 0 * Qpower r (k + i)))%Q)%Q.
Proof.
  revert a k. induction facts as [|f facts IH]; intros a k Ha Hk; [reflexivity|]. cbn [poly length].
  rewrite (IH (a * r)%Q (k + 1)).
  2:{ rewrite Ha. destruct (Qeq_dec r 0) as [E|E].
      - rewrite E. assert (P0 : forall k, 0 < k -> (Qpower 0 k == 0)%Q) by (intros [|q|q] Hq; try lia; apply Qpower_positive_0).
        rewrite (P0 (k + 1)) by lia. ring.
      - rewrite (Qpower_plus _ k 1) by exact E. reflexivity. }
  2:lia.
  unfold qsum. rewrite !Nat2Z.id. 
  assert (S : forall n g, (qsumn (S n) g == g 0%Z + qsumn n (fun i => g (i + 1)%Z))%Q).
  { clear. induction n as [|n IHn]; intros g; [cbn; ring|]. change (qsumn (S (S n)) g) with (qsumn (S n) g + g (Z.of_nat (S n)))%Q.
    rewrite IHn. change (qsumn (S n) (fun i => g (i + 1))) with (qsumn n (fun i => g (i + 1)%Z) + g (Z.of_nat n + 1)%Z)%Q.
    replace (Z.of_nat (S n)) with (Z.of_nat n + 1) by lia. ring. }
  rewrite S. cbn [nth Z.to_nat]. rewrite Z.add_0_r, Ha.
  apply Qplus_comp; [reflexivity|]. clear S IH. 
  assert (G : forall n (g h : Z -> Q), (forall i, 0 <= i < Z.of_nat n -> (g i == h i)%Q) -> (qsumn n g == qsumn n h)%Q).
  { clear. induction n as [|n IHn]; intros g h H; [reflexivity|]. cbn [qsumn]. rewrite (IHn g h) by (intros; apply H; lia). rewrite H by lia. reflexivity. }
  apply G. intros i Hi. replace (k + 1 + i) with (k + (i + 1)) by lia. replace (Z.to_nat (i + 1)) with (Datatypes.S (Z.to_nat i)) by lia. reflexivity.
Qed.
Lemma dist_poly radius facts xu yu : (dist_fact radius facts xu yu == polynomial facts (radius xu yu))%Q.
Proof. unfold dist_fact. rewrite (poly_power facts _ 1 0) by (cbn; reflexivity || lia). reflexivity. Qed.

Lemma into_bounds n q : 1 <= n -> (0 <= into n q <= inject_Z (n - 1))%Q.
Proof.
  intros Hn. rewrite <- (clip_into n q Hn). apply clipQ_bounds. change 0%Q with (inject_Z 0). rewrite <- Zle_Qle. lia.
Qed.
Lemma into_Qeq n a b : 1 <= n -> (a == b)%Q -> (into n a == into n b)%Q.
Proof.
  intros Hn E. unfold into.
  replace (Qle_bool b 0) with (Qle_bool a 0) by (apply eq_true_iff_eq; rewrite !Qle_bool_iff, E; tauto).
  replace (Qle_bool (inject_Z (n - 1)) b) with (Qle_bool (inject_Z (n - 1)) a) by (apply eq_true_iff_eq; rewrite !Qle_bool_iff, E; tauto).
  destruct (Qle_bool a 0); [reflexivity|]. destruct (Qle_bool _ a); [reflexivity|exact E].
Qed.
Lemma unwarp_value radius proj xc yc facts y j : in_rng (nrow proj) y -> in_rng (ncol proj) j ->
  let xu := (inject_Z j - xc)%Q in let yu := (inject_Z y - yc)%Q in
  let f := polynomial facts (radius xu yu) in
  interpolates proj (into (nrow proj) (yc + f * yu)) (into (ncol proj) (xc + f * xu)) (px (unwarp_projection radius proj xc yc facts) y j).
Proof.
  intros Hy Hj. cbn zeta. unfold in_rng in *. unfold unwarp_projection. cbn [px].
  assert (EY : (yd radius facts xc yc (nrow proj) j y == into (nrow proj) (yc + polynomial facts (radius (inject_Z j - xc) (inject_Z y - yc)) * (inject_Z y - yc)))%Q).
  { unfold yd. rewrite clip_into by lia. apply into_Qeq; [lia|]. rewrite dist_poly. reflexivity. }
  assert (EX : (xd radius facts xc yc (ncol proj) j y == into (ncol proj) (xc + polynomial facts (radius (inject_Z j - xc) (inject_Z y - yc)) * (inject_Z j - xc)))%Q).
  { unfold xd. rewrite clip_into by lia. apply into_Qeq; [lia|]. rewrite dist_poly. reflexivity. }
  eapply interpolates_Qeq; [apply bilin_interpolates| exact EY | exact EX | reflexivity].
  - rewrite EY. apply into_bounds. lia.
  - rewrite EX. apply into_bounds. lia.
Qed.

Section tilt.
Context (c s : Q) (m : img Q).
Let xc := ((inject_Z (ncol m) - 1) / 2)%Q.
Let yc := ((inject_Z (nrow m) - 1) / 2)%Q.
Lemma tilt_value j y : 1 <= ncol m -> 1 <= nrow m ->
  interpolates m (into (nrow m) (yc + ((inject_Z j - xc) * s + (inject_Z y - yc) * c)))
    (into (ncol m) (xc + ((inject_Z j - xc) * c - (inject_Z y - yc) * s)))
    (bilin m (yt c s (nrow m) (ncol m) j y) (xt c s (nrow m) (ncol m) j y)).
Proof.
  intros Hw Hh.
  assert (EY : (yt c s (nrow m) (ncol m) j y == into (nrow m) (yc + ((inject_Z j - xc) * s + (inject_Z y - yc) * c)))%Q) by (unfold yt; rewrite clip_into by lia; reflexivity).
  assert (EX : (xt c s (nrow m) (ncol m) j y == into (ncol m) (xc + ((inject_Z j - xc) * c - (inject_Z y - yc) * s)))%Q) by (unfold xt; rewrite clip_into by lia; reflexivity).
  eapply interpolates_Qeq; [apply bilin_interpolates| exact EY | exact EX | reflexivity].
  - rewrite EY. apply into_bounds. lia.
  - rewrite EX. apply into_bounds. lia.
Qed.
Lemma tilt_line_value index : 1 <= ncol m -> 1 <= nrow m ->
  exists v, generate_tilted_profile_line c s m index = Ok v /\ vlen v = ncol m /\
    forall j, in_rng (ncol m) j ->
      interpolates m (into (nrow m) (yc + ((inject_Z j - xc) * s + (inject_Z index - yc) * c)))
        (into (ncol m) (xc + ((inject_Z j - xc) * c - (inject_Z index - yc) * s))) (vat v j).
Proof.
  intros Hw Hh. destruct (line_spec c s m index Hw Hh) as (v & E & L & V). exists v. split; [exact E|]. split; [exact L|].
  intros j Hj. eapply interpolates_Qeq; [apply (tilt_value j index Hw Hh)|reflexivity|reflexivity|apply V; exact Hj].
Qed.
Lemma tilt_chunk_value start stop : 1 <= ncol m -> 1 <= nrow m -> start <= stop ->
  exists o, generate_tilted_profile_chunk c s m start stop = Ok o /\ nrow o = stop - start + 1 /\ ncol o = ncol m /\
    forall r j, in_rng (stop - start + 1) r -> in_rng (ncol m) j ->
      interpolates m (into (nrow m) (yc + ((inject_Z j - xc) * s + (inject_Z (start + r) - yc) * c)))
        (into (ncol m) (xc + ((inject_Z j - xc) * c - (inject_Z (start + r) - yc) * s))) (px o r j).
Proof.
  intros Hw Hh Hs. destruct (chunk_spec c s m start stop Hw Hh Hs) as (v & E & L1 & L2 & V). exists v. split; [exact E|]. split; [exact L1|]. split; [exact L2|].
  intros r j Hr Hj. eapply interpolates_Qeq; [apply (tilt_value j (start + r) Hw Hh)|reflexivity|reflexivity|apply V; assumption].
Qed.
End tilt.

Lemma set_even_interleaved tmp s : nrow tmp = 2 * nrow s - 1 -> ncol tmp = ncol s -> interleaved s tmp (set_even tmp s).
Proof.
  intros H1 H2. split; [exact H1|]. split; [exact H2|]. intros i j Hj. unfold set_even. cbn [px].
  split; intros _.
  - rewrite Z.even_mul. cbn [Z.even orb]. rewrite Z.mul_comm, Z.div_mul by lia. reflexivity.
  - rewrite Z.even_add, Z.even_mul. reflexivity.
Qed.
Lemma upsample_twice filter to360 (Hf : forall m, nrow (filter m) = nrow m /\ ncol (filter m) = ncol m) sino center :
  exists first guess second, upsample_sinogram filter to360 sino 2 center false = Ok (filter second) /\
    interleaved sino (mkimg (nrow first) (ncol first) (fun _ _ => 0%Q)) first /\
    nrow guess = nrow first /\ ncol guess = ncol first /\
    (forall i j, (px guess i j == px (filter first) i j * (qmean2 (nrow sino) (ncol sino) (px sino) / qmean2 (nrow first) (ncol first) (px (filter first))))%Q) /\
    interleaved sino guess second.
Proof.
  unfold upsample_sinogram. cbn [Z.max Z.compare Pos.compare Pos.compare_cont]. change (Z.max 2 1) with 2. change (2 mod 2 =? 0) with true.
  cbn [negb andb]. change (Z.to_nat (2 / 2)) with 1%nat. cbn [Nat.iter nat_rect].
  set (z := set_even (zeros (2 * nrow sino - 1) (ncol sino)) sino).
  set (g := imap (fun v => (v * img_mean sino / img_mean (filter z))%Q) (filter z)).
  exists z, g, (set_even g sino). split; [reflexivity|].
  assert (Iz : interleaved sino (zeros (2 * nrow sino - 1) (ncol sino)) z) by (apply set_even_interleaved; reflexivity).
  destruct (Hf z) as [F1 F2].
  split; [exact Iz|]. split; [exact F1|]. split; [exact F2|]. split.
  - intros i j. unfold g, imap, img_mean. cbn [px]. rewrite F1, F2. unfold Qdiv. ring.
  - apply set_even_interleaved; [unfold g; cbn [nrow imap]; rewrite F1|unfold g; cbn [ncol imap]; rewrite F2]; reflexivity.
Qed.
