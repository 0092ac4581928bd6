From Verif Require Import Np P_Np M_conversion M_correction P_utility P_conversion P_conversion2 P_conversion3.
From Coq Require Import QArith Qround Qabs Lqa Setoid Morphisms.
From Coq Require Import List. Import ListNotations.
Open Scope Z_scope.

Lemma amin_spec n f : 1 <= n -> (forall j, in_rng n j -> (amin n f <= f j)%Q) /\ exists j, in_rng n j /\ (amin n f == f j)%Q.
Proof.
  intros Hn. unfold amin. assert (E : n = Z.of_nat (Z.to_nat n)) by lia.
  destruct (Z.to_nat n) as [|k]; [lia|]. rewrite E. clear E Hn n. unfold in_rng.
  induction k as [|k IH].
  - cbn [aminn]. change (Z.of_nat 0) with 0. unfold Qminb. destruct (Qle_bool (f 0) (f 0)); split.
    + intros j Hj. replace j with 0 by lia. apply Qle_refl.
    + exists 0. split; [lia|reflexivity].
    + intros j Hj. replace j with 0 by lia. apply Qle_refl.
    + exists 0. split; [lia|reflexivity].
  - destruct IH as [IH1 (j0 & Hj0 & E0)]. remember (S k) as sk. cbn [aminn]. unfold Qminb.
    destruct (Qle_bool (aminn sk f) (f (Z.of_nat sk))) eqn:E; split.
    + apply Qle_bool_iff in E. intros j Hj. destruct (Z.eq_dec j (Z.of_nat sk)) as [->|]; [exact E|]. apply IH1. lia.
    + exists j0. split; [lia|exact E0].
    + assert (E' : (f (Z.of_nat sk) <= aminn sk f)%Q).
      { apply Qlt_le_weak. apply Qnot_le_lt. intros C. apply Qle_bool_iff in C. congruence. }
      intros j Hj. destruct (Z.eq_dec j (Z.of_nat sk)) as [->|]; [apply Qle_refl|].
      eapply Qle_trans; [exact E'|]. apply IH1. lia.
    + exists (Z.of_nat sk). split; [lia|reflexivity].
Qed.
Lemma amax_spec n f : 1 <= n -> (forall j, in_rng n j -> (f j <= amax n f)%Q) /\ exists j, in_rng n j /\ (amax n f == f j)%Q.
Proof.
  intros Hn. unfold amax. assert (E : n = Z.of_nat (Z.to_nat n)) by lia.
  destruct (Z.to_nat n) as [|k]; [lia|]. rewrite E. clear E Hn n. unfold in_rng.
  induction k as [|k IH].
  - cbn [amaxn]. change (Z.of_nat 0) with 0. unfold Qmaxb. destruct (Qle_bool (f 0) (f 0)); split.
    + intros j Hj. replace j with 0 by lia. apply Qle_refl.
    + exists 0. split; [lia|reflexivity].
    + intros j Hj. replace j with 0 by lia. apply Qle_refl.
    + exists 0. split; [lia|reflexivity].
  - destruct IH as [IH1 (j0 & Hj0 & E0)]. remember (S k) as sk. cbn [amaxn]. unfold Qmaxb.
    destruct (Qle_bool (amaxn sk f) (f (Z.of_nat sk))) eqn:E; split.
    + apply Qle_bool_iff in E. intros j Hj. destruct (Z.eq_dec j (Z.of_nat sk)) as [->|]; [apply Qle_refl|].
      eapply Qle_trans; [|exact E]. apply IH1. lia.
    + exists (Z.of_nat sk). split; [lia|reflexivity].
    + assert (E' : (f (Z.of_nat sk) <= amaxn sk f)%Q).
      { apply Qlt_le_weak. apply Qnot_le_lt. intros C. apply Qle_bool_iff in C. congruence. }
      intros j Hj. destruct (Z.eq_dec j (Z.of_nat sk)) as [->|]; [exact E'|]. apply IH1. lia.
    + exists j0. split; [lia|exact E0].
Qed.

Lemma reflect_id n i : 0 <= i < n -> reflect_idx n i = i.
Proof.
  intros H. unfold reflect_idx. destruct (n <=? 1) eqn:E; [lia|]. rewrite Z.mod_small by lia.
  replace (i <? n) with true by lia. reflexivity.
Qed.
Lemma bilin_comp m y x y' x' : (y == y')%Q -> (x == x')%Q -> (bilin m y x == bilin m y' x')%Q.
Proof.
  intros Ey Ex. unfold bilin. rewrite (Qfloor_comp _ _ Ey), (Qfloor_comp _ _ Ex). cbn zeta. rewrite Ey, Ex. reflexivity.
Qed.
Lemma bilin_int m i j : in_rng (nrow m) i -> in_rng (ncol m) j -> (bilin m (inject_Z i) (inject_Z j) == px m i j)%Q.
Proof.
  intros Hi Hj. unfold in_rng in *. unfold bilin. rewrite !Qfloor_Z. cbn zeta. rewrite (reflect_id (nrow m) i), (reflect_id (ncol m) j) by lia. ring.
Qed.
(** interpolating in a window of rows is interpolating in the image *)
Lemma bilin_window m a b y x : 0 <= a -> b <= nrow m -> 0 <= ncol m -> (inject_Z a <= y)%Q -> (y <= inject_Z (b - 1))%Q ->
  (bilin (islice m a b 0 (ncol m)) (y - inject_Z a) x == bilin m y x)%Q.
Proof.
  intros Ha Hb Hc H1 H2.
  assert (F1 : a <= Qfloor y) by (rewrite <- (Qfloor_Z a); apply Qfloor_resp_le; exact H1).
  assert (F2 : Qfloor y <= b - 1) by (rewrite <- (Qfloor_Z (b - 1)); apply Qfloor_resp_le; exact H2).
  unfold bilin.
  assert (FE : Qfloor (y - inject_Z a) = Qfloor y - a).
  { apply Qfloor_unique; unfold Z.sub; rewrite ?inject_Z_plus, ?inject_Z_opp.
    - pose proof (Qfloor_le y). lra.
    - pose proof (Qlt_floor y) as L. rewrite inject_Z_plus in L. change (inject_Z 1) with 1%Q in *. lra. }
  rewrite FE. cbn zeta. unfold islice. cbn [nrow ncol px].
  assert (S1 : slen (nrow m) a b = b - a) by (apply slen_id; lia).
  assert (A1 : py_adj (nrow m) a = a) by (apply py_adj_id; lia).
  assert (S2 : slen (ncol m) 0 (ncol m) = ncol m) by (rewrite slen_id; lia).
  assert (A2 : py_adj (ncol m) 0 = 0) by (apply py_adj_id; lia).
  rewrite S1, A1, S2, A2. cbn [Z.add].
  rewrite (reflect_id (b - a) (Qfloor y - a)) by lia. replace (a + (Qfloor y - a)) with (Qfloor y) by lia.
  rewrite (reflect_id (nrow m) (Qfloor y)) by lia.
  assert (TY : (y - inject_Z a - inject_Z (Qfloor y - a) == y - inject_Z (Qfloor y))%Q).
  { unfold Z.sub. rewrite inject_Z_plus, inject_Z_opp. ring. }
  rewrite TY. destruct (Z.eq_dec (Qfloor y) (b - 1)) as [Eb|Eb].
  - assert (Z0 : (y - inject_Z (Qfloor y) == 0)%Q).
    { rewrite Eb. pose proof (Qfloor_le y). rewrite Eb in H. lra. }
    rewrite Z0. ring.
  - rewrite (reflect_id (b - a) (Qfloor y - a + 1)) by lia. replace (a + (Qfloor y - a + 1)) with (Qfloor y + 1) by lia.
    rewrite (reflect_id (nrow m) (Qfloor y + 1)) by lia. reflexivity.
Qed.

Lemma mapr_Forall2 {A B} (P : A -> B -> Prop) (f : A -> res B) l :
  (forall x, In x l -> exists y, f x = Ok y /\ P x y) -> exists ys, mapr f l = Ok ys /\ Forall2 P l ys.
Proof.
  induction l as [|a l IH]; intros H; cbn.
  - eexists. split; [reflexivity|constructor].
  - destruct (H a (or_introl eq_refl)) as (y & -> & Py). cbn [bindr].
    destruct IH as (ys & -> & F). { intros x Hx. apply H. right. exact Hx. }
    cbn [bindr]. eexists. split; [reflexivity|]. constructor; assumption.
Qed.
Lemma clip_in x hi : (0 <= x)%Q -> (x <= hi)%Q -> (clipQ x 0 hi == x)%Q.
Proof.
  intros H1 H2. unfold clipQ, Qminb, Qmaxb. destruct (Qle_bool x 0) eqn:E1.
  - apply Qle_bool_iff in E1. assert (E : (x == 0)%Q) by (apply Qle_antisym; assumption).
    destruct (Qle_bool 0 hi) eqn:E2; [symmetry; exact E|]. exfalso.
    assert (X : (0 <= hi)%Q) by lra. apply Qle_bool_iff in X. congruence.
  - destruct (Qle_bool x hi) eqn:E2; [reflexivity|]. exfalso. apply Qle_bool_iff in H2. congruence.
Qed.
Lemma clip_mono x y hi : (0 <= hi)%Q -> (x <= y)%Q -> (clipQ x 0 hi <= clipQ y 0 hi)%Q.
Proof.
  intros H0 H. unfold clipQ, Qminb, Qmaxb.
  destruct (Qle_bool x 0) eqn:E1, (Qle_bool y 0) eqn:E2;
  repeat match goal with |- context [Qle_bool ?a ?b] => destruct (Qle_bool a b) eqn:? end;
  repeat match goal with H : Qle_bool _ _ = true |- _ => apply Qle_bool_iff in H
         | H : Qle_bool ?a ?b = false |- _ => assert (b < a)%Q by (apply Qnot_le_lt; intros C; apply Qle_bool_iff in C; congruence); clear H end; lra.
Qed.
Lemma clip_comp x y hi : (x == y)%Q -> (0 <= hi)%Q -> (clipQ x 0 hi == clipQ y 0 hi)%Q.
Proof. intros E H. apply Qle_antisym; apply clip_mono; auto; rewrite E; apply Qle_refl. Qed.

(** a row window computed from the extreme coordinates *)
Lemma window_bounds n h f : 1 <= n -> 1 <= h -> (forall j, in_rng n j -> (0 <= f j <= inject_Z (h - 1))%Q) ->
  let a := Qfloor (amin n f) in let b := Qceiling (amax n f) + 1 in
  0 <= a /\ b <= h /\ forall j, in_rng n j -> (inject_Z a <= f j)%Q /\ (f j <= inject_Z (b - 1))%Q.
Proof.
  intros Hn Hh Hf a b. destruct (amin_spec n f Hn) as (A1 & ja & Hja & Ea). destruct (amax_spec n f Hn) as (B1 & jb & Hjb & Eb).
  split; [|split].
  - unfold a. change 0 with (Qfloor (inject_Z 0)). apply Qfloor_resp_le. rewrite Ea. apply Hf. exact Hja.
  - unfold b. assert (Qceiling (amax n f) <= h - 1); [|lia]. rewrite <- (Qceiling_Z (h - 1)). apply Qceiling_resp_le.
    rewrite Eb. apply Hf. exact Hjb.
  - intros j Hj. split.
    + eapply Qle_trans; [apply Qfloor_le|]. apply A1. exact Hj.
    + unfold b. replace (Qceiling (amax n f) + 1 - 1) with (Qceiling (amax n f)) by lia.
      eapply Qle_trans; [apply B1; exact Hj|]. apply Qle_ceiling.
Qed.

Section distort.
Context (radius : Q -> Q -> Q).
Lemma yd_bounds facts xc yc h j y : 1 <= h -> (0 <= yd radius facts xc yc h j y <= inject_Z (h - 1))%Q.
Proof. intros H. apply clipQ_bounds. change 0%Q with (inject_Z 0). rewrite <- Zle_Qle. lia. Qed.

Lemma vol_rows_ok d idx a b : in_rng (dep d) idx -> vol_rows d idx a b = Ok (islice (vol_img d idx) a b 0 (wid d)).
Proof. intros H. unfold vol_rows. rewrite py_idx_in by exact H. reflexivity. Qed.

Lemma unwarp_sinogram_spec d index xc yc facts opt idxs : 1 <= wid d -> 1 <= hei d ->
  opt_range (dep d) opt = Ok idxs -> (forall idx, In idx idxs -> in_rng (dep d) idx) ->
  exists rows, unwarp_sinogram radius d index xc yc facts opt = Ok rows /\
    Forall2 (fun idx row => vlen row = wid d /\
      forall j, in_rng (wid d) j -> (vat row j == px (unwarp_projection radius (vol_img d idx) xc yc facts) index j)%Q)
      idxs rows.
Proof.
  intros Hw Hh Ho Hi. unfold unwarp_sinogram. rewrite Ho. cbn [bindr]. replace (wid d <=? 0) with false by lia.
  apply mapr_Forall2. intros idx Hin. rewrite vol_rows_ok by auto. cbn [bindr].
  eexists. split; [reflexivity|]. cbn [vlen vat]. split; [reflexivity|]. intros j Hj.
  destruct (window_bounds (wid d) (hei d) (fun j => yd radius facts xc yc (hei d) j index)) as (W1 & W2 & W3); try lia.
  { intros k _. apply yd_bounds. lia. }
  destruct (W3 j Hj) as [W4 W5].
  apply (bilin_window (vol_img d idx)); cbn [vol_img nrow ncol]; auto; try lia.
Qed.

Lemma unwarp_chunk_spec d start stop xc yc facts opt idxs :
  let yr := fun j y => (yc + dist_fact radius facts (inject_Z j - xc) (inject_Z y - yc) * (inject_Z y - yc))%Q in
  1 <= wid d -> start < stop -> stop <> -1 ->
  (forall j y, in_rng (wid d) j -> start <= y < stop -> (yr j y + 1 <= yr j (y + 1)%Z)%Q) ->
  (forall j, in_rng (wid d) j -> (0 <= yr j start)%Q /\ (yr j stop <= inject_Z (hei d - 1))%Q) ->
  opt_range (dep d) opt = Ok idxs -> (forall idx, In idx idxs -> in_rng (dep d) idx) ->
  exists rows, unwarp_sinogram_chunk radius d start stop xc yc facts opt = Ok rows /\
    Forall2 (fun idx m => nrow m = stop - start /\ ncol m = wid d /\
      forall r j, in_rng (stop - start) r -> in_rng (wid d) j ->
        (px m r j == px (unwarp_projection radius (vol_img d idx) xc yc facts) (start + r)%Z j)%Q)
      idxs rows.
Proof.
  intros yr Hw Hs Hs1 Hc Hb Ho Hi. unfold unwarp_sinogram_chunk. rewrite Ho. cbn [bindr].
  replace (stop =? -1) with false by lia. replace (wid d <=? 0) with false by lia.
  (* growth over several rows *)
  assert (G : forall j y n, in_rng (wid d) j -> start <= y -> y + Z.of_nat n <= stop ->
     (yr j y + inject_Z (Z.of_nat n) <= yr j (y + Z.of_nat n)%Z)%Q).
  { intros j y n Hj Hy. induction n as [|n IH]; intros Hn.
    - change (Z.of_nat 0) with 0. change (inject_Z 0) with 0%Q. replace (y + 0) with y by lia. lra.
    - specialize (IH ltac:(lia)). pose proof (Hc j (y + Z.of_nat n) Hj ltac:(lia)) as C.
      replace (y + Z.of_nat (S n)) with (y + Z.of_nat n + 1) by lia.
      replace (Z.of_nat (S n)) with (Z.of_nat n + 1) by lia. rewrite inject_Z_plus. change (inject_Z 1) with 1%Q. lra. }
  assert (G2 : forall j y y', in_rng (wid d) j -> start <= y -> y <= y' -> y' <= stop -> (yr j y + inject_Z (y' - y) <= yr j y')%Q).
  { intros j y y' Hj H1 H2 H3. pose proof (G j y (Z.to_nat (y' - y)) Hj H1) as L. replace (Z.of_nat (Z.to_nat (y' - y))) with (y' - y) in L by lia.
    replace (y + (y' - y)) with y' in L by lia. apply L. lia. }
  assert (Pos : forall a b, a <= b -> (0 <= inject_Z (b - a))%Q).
  { intros a b H. change 0%Q with (inject_Z 0). rewrite <- Zle_Qle. lia. }
  assert (Hh : (0 <= inject_Z (hei d - 1))%Q).
  { destruct (Hb 0 ltac:(unfold in_rng; lia)) as [B1 B2].
    pose proof (G2 0 start stop ltac:(unfold in_rng; lia) ltac:(lia) ltac:(lia) ltac:(lia)). pose proof (Pos start stop ltac:(lia)). lra. }
  assert (YD : forall j y, in_rng (wid d) j -> start <= y <= stop -> (yd radius facts xc yc (hei d) j y == yr j y)%Q).
  { intros j y Hj Hy. unfold yd. apply clip_in.
    - destruct (Hb j Hj). pose proof (G2 j start y Hj ltac:(lia) ltac:(lia) ltac:(lia)). pose proof (Pos start y ltac:(lia)). unfold yr in *. lra.
    - destruct (Hb j Hj). pose proof (G2 j y stop Hj ltac:(lia) ltac:(lia) ltac:(lia)). pose proof (Pos y stop ltac:(lia)). unfold yr in *. lra. }
  destruct (amin_spec (wid d) (fun j => yd radius facts xc yc (hei d) j start) Hw) as (A1 & ja & Hja & Ea).
  destruct (amax_spec (wid d) (fun j => yd radius facts xc yc (hei d) j stop) Hw) as (B1 & jb & Hjb & Eb).
  set (a := Qfloor (amin (wid d) (fun j => yd radius facts xc yc (hei d) j start))) in *.
  set (b := Qceiling (amax (wid d) (fun j => yd radius facts xc yc (hei d) j stop))) in *.
  apply mapr_Forall2. intros idx Hin. rewrite vol_rows_ok by auto. cbn [bindr].
  eexists. split; [reflexivity|]. cbn [nrow ncol px]. split; [lia|]. split; [reflexivity|].
  intros r j Hr Hj. unfold in_rng in Hr.
  apply (bilin_window (vol_img d idx)); cbn [vol_img nrow ncol]; try lia.
  - unfold a. change 0 with (Qfloor (inject_Z 0)). apply Qfloor_resp_le. rewrite Ea, YD by (auto; lia). apply Hb. exact Hja.
  - assert (b <= hei d - 1); [|lia]. unfold b. rewrite <- (Qceiling_Z (hei d - 1)). apply Qceiling_resp_le.
    rewrite Eb, YD by (auto; lia). apply Hb. exact Hjb.
  - eapply Qle_trans; [apply Qfloor_le|]. eapply Qle_trans; [apply A1; exact Hj|]. cbn beta.
    rewrite !YD by (auto; lia). pose proof (G2 j start (start + r) Hj ltac:(lia) ltac:(lia) ltac:(lia)).
    pose proof (Pos start (start + r) ltac:(lia)). lra.
  - assert (X : (yd radius facts xc yc (hei d) j (start + r) + 1 <= inject_Z b)%Q).
    { eapply Qle_trans; [|apply Qle_ceiling]. eapply Qle_trans; [|apply B1; exact Hj]. cbn beta.
      rewrite !YD by (auto; lia). pose proof (G2 j (start + r) stop Hj ltac:(lia) ltac:(lia) ltac:(lia)) as L.
      assert (1 <= inject_Z (stop - (start + r)))%Q by (change 1%Q with (inject_Z 1); rewrite <- Zle_Qle; lia). lra. }
    assert (IB : (inject_Z (b - 1) == inject_Z b - 1)%Q) by (unfold Z.sub; rewrite inject_Z_plus; reflexivity).
    rewrite IB. lra.
Qed.

(** identity model *)
Lemma fact_one xu yu : (dist_fact radius [1%Q] xu yu == 1)%Q.
Proof. unfold dist_fact. cbn [poly]. ring. Qed.
Lemma id_xd xc yc w j y : in_rng w j -> (xd radius [1%Q] xc yc w j y == inject_Z j)%Q.
Proof.
  intros H. unfold in_rng in H. unfold xd.
  assert (H0 : (0 <= inject_Z (w - 1))%Q) by (change 0%Q with (inject_Z 0); rewrite <- Zle_Qle; lia).
  rewrite (clip_comp _ (inject_Z j)); [|rewrite fact_one; ring|exact H0].
  apply clip_in; [change 0%Q with (inject_Z 0)|]; rewrite <- Zle_Qle; lia.
Qed.
Lemma id_yd xc yc h j y : 1 <= h -> (yd radius [1%Q] xc yc h j y == inject_Z (clipZ y 0 (h - 1)))%Q.
Proof.
  intros H. unfold yd.
  assert (H0 : (0 <= inject_Z (h - 1))%Q) by (change 0%Q with (inject_Z 0); rewrite <- Zle_Qle; lia).
  rewrite (clip_comp _ (inject_Z y)); [|rewrite fact_one; ring|exact H0].
  unfold clipQ, Qminb, Qmaxb, clipZ.
  destruct (Qle_bool (inject_Z y) 0) eqn:E1; [apply Qle_bool_iff in E1|].
  - change 0%Q with (inject_Z 0) in E1. rewrite <- Zle_Qle in E1.
    destruct (Qle_bool 0 (inject_Z (h - 1))) eqn:E2; [|apply Qle_bool_iff in H0; congruence].
    replace (Z.min (Z.max y 0) (h - 1)) with 0 by lia. reflexivity.
  - assert (0 < inject_Z y)%Q by (apply Qnot_le_lt; intros C; apply Qle_bool_iff in C; congruence).
    change 0%Q with (inject_Z 0) in H1. rewrite <- Zlt_Qlt in H1.
    destruct (Qle_bool (inject_Z y) (inject_Z (h - 1))) eqn:E2.
    + apply Qle_bool_iff in E2. rewrite <- Zle_Qle in E2. replace (Z.min (Z.max y 0) (h - 1)) with y by lia. reflexivity.
    + assert (inject_Z (h - 1) < inject_Z y)%Q by (apply Qnot_le_lt; intros C; apply Qle_bool_iff in C; congruence).
      rewrite <- Zlt_Qlt in H2. replace (Z.min (Z.max y 0) (h - 1)) with (h - 1) by lia. reflexivity.
Qed.
Lemma unwarp_projection_id proj xc yc : img_Qeq (unwarp_projection radius proj xc yc [1%Q]) proj.
Proof.
  split; [reflexivity|]. split; [reflexivity|]. intros i j Hi Hj. cbn [unwarp_projection nrow ncol px] in *.
  rewrite (bilin_comp _ _ _ (inject_Z i) (inject_Z j)).
  - apply bilin_int; assumption.
  - unfold in_rng in *. rewrite id_yd by lia. replace (clipZ i 0 (nrow proj - 1)) with i by (unfold clipZ; lia). reflexivity.
  - apply id_xd. exact Hj.
Qed.
Lemma unwarp_sinogram_id d index xc yc opt idxs : 1 <= wid d -> in_rng (hei d) index ->
  opt_range (dep d) opt = Ok idxs -> (forall idx, In idx idxs -> in_rng (dep d) idx) ->
  exists rows, unwarp_sinogram radius d index xc yc [1%Q] opt = Ok rows /\
    Forall2 (fun idx row => vlen row = wid d /\ forall j, in_rng (wid d) j -> (vat row j == vx d idx index j)%Q) idxs rows.
Proof.
  intros Hw Hh Ho Hi. unfold in_rng in Hh. destruct (unwarp_sinogram_spec d index xc yc [1%Q] opt idxs Hw ltac:(lia) Ho Hi) as (rows & E & F).
  exists rows. split; [exact E|]. clear E Ho Hi. induction F as [|idx row l l' [V1 V2] F IH]; constructor; [|exact IH].
  split; [exact V1|]. intros j Hj. rewrite V2 by exact Hj.
  destruct (unwarp_projection_id (vol_img d idx) xc yc) as (_ & _ & P). apply P; cbn; [unfold in_rng; lia|exact Hj].
Qed.
Lemma unwarp_chunk_id d start stop xc yc opt idxs : 1 <= wid d -> 0 <= start -> start < stop -> stop < hei d ->
  opt_range (dep d) opt = Ok idxs -> (forall idx, In idx idxs -> in_rng (dep d) idx) ->
  exists rows, unwarp_sinogram_chunk radius d start stop xc yc [1%Q] opt = Ok rows /\
    Forall2 (fun idx m => nrow m = stop - start /\ ncol m = wid d /\
      forall r j, in_rng (stop - start) r -> in_rng (wid d) j -> (px m r j == vx d idx (start + r) j)%Q) idxs rows.
Proof.
  intros Hw H0 Hs Hh Ho Hi.
  assert (YR : forall xu y, (yc + dist_fact radius [1%Q] xu (inject_Z y - yc) * (inject_Z y - yc) == inject_Z y)%Q).
  { intros xu y. rewrite fact_one. ring. }
  destruct (unwarp_chunk_spec d start stop xc yc [1%Q] opt idxs) as (rows & E & F); auto; try lia.
  - intros j y _ _. rewrite !YR, inject_Z_plus. change (inject_Z 1) with 1%Q. lra.
  - intros j _. rewrite !YR. split; [change 0%Q with (inject_Z 0)|]; rewrite <- Zle_Qle; lia.
  - exists rows. split; [exact E|]. clear E Ho Hi. induction F as [|idx row l l' (V1 & V2 & V3) F IH]; constructor; [|exact IH].
    split; [exact V1|]. split; [exact V2|]. intros r j Hr Hj. rewrite V3 by assumption. unfold in_rng in *.
    destruct (unwarp_projection_id (vol_img d idx) xc yc) as (_ & _ & P). apply P; cbn; unfold in_rng; lia.
Qed.
(** up to the last row, the last row is lost: the previous row is returned in its place *)
Lemma unwarp_chunk_last_row d start xc yc opt idxs : 1 <= wid d -> 0 <= start -> start < hei d - 1 ->
  opt_range (dep d) opt = Ok idxs -> (forall idx, In idx idxs -> in_rng (dep d) idx) ->
  exists rows, unwarp_sinogram_chunk radius d start (-1) xc yc [1%Q] opt = Ok rows /\
    Forall2 (fun idx m => nrow m = hei d - start /\
      forall j, in_rng (wid d) j -> (px m (hei d - 1 - start)%Z j == vx d idx (hei d - 2) j)%Q) idxs rows.
Proof.
  intros Hw H0 Hs Ho Hi. unfold unwarp_sinogram_chunk. rewrite Ho. cbn [bindr Z.eqb Pos.eqb].
  replace (wid d <=? 0) with false by lia.
  destruct (amin_spec (wid d) (fun j => yd radius [1%Q] xc yc (hei d) j start) Hw) as (A1 & ja & Hja & Ea).
  destruct (amax_spec (wid d) (fun j => yd radius [1%Q] xc yc (hei d) j (hei d)) Hw) as (B1 & jb & Hjb & Eb).
  rewrite id_yd in Ea, Eb by lia.
  assert (Fa : Qfloor (amin (wid d) (fun j => yd radius [1%Q] xc yc (hei d) j start)) = start).
  { rewrite (Qfloor_comp _ _ Ea), Qfloor_Z. unfold clipZ. lia. }
  assert (Fb : Qceiling (amax (wid d) (fun j => yd radius [1%Q] xc yc (hei d) j (hei d))) = hei d - 1).
  { rewrite (Qceiling_comp _ _ Eb), Qceiling_Z. unfold clipZ. lia. }
  rewrite Fa, Fb. apply mapr_Forall2. intros idx Hin. rewrite vol_rows_ok by auto. cbn [bindr].
  eexists. split; [reflexivity|]. cbn [nrow ncol px]. split; [lia|]. intros j Hj.
  replace (start + (hei d - 1 - start)) with (hei d - 1) by lia.
  rewrite (bilin_comp _ _ _ (inject_Z (hei d - 1 - start)) (inject_Z j)).
  - unfold bilin. rewrite !Qfloor_Z. cbn zeta. unfold islice, vol_img. cbn [nrow ncol px].
    rewrite !slen_id, !py_adj_id by lia. unfold in_rng in Hj. replace (wid d - 0) with (wid d) by lia.
    rewrite (reflect_id (wid d) j) by lia. replace (hei d - 1 - start) with (hei d - 1 - start) by lia.
    assert (R : reflect_idx (hei d - 1 - start) (hei d - 1 - start) = hei d - 2 - start).
    { unfold reflect_idx. destruct (hei d - 1 - start <=? 1) eqn:E; [lia|]. rewrite Z.mod_small by lia.
      rewrite Z.ltb_irrefl. lia. }
    rewrite R. replace (start + (hei d - 2 - start)) with (hei d - 2) by lia. cbn [Z.add]. ring.
  - rewrite id_yd by lia. replace (clipZ (hei d - 1) 0 (hei d - 1)) with (hei d - 1) by (unfold clipZ; lia).
    unfold Z.sub. rewrite !inject_Z_plus, !inject_Z_opp. ring.
  - apply id_xd. exact Hj.
Qed.
End distort.
