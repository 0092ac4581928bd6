(** Stripe detection in terms of the least-squares line; normalised interpolation; sizes of zingers; final masks. *)
From Verif Require Import Np P_Np M_utility S_utility P_utility M_conversion M_correction M_calculation M_removal S_removal P_removal P_removal2 P_removal3.
From Coq Require Import QArith Qround Qabs Lia Lqa Bool.
From Coq Require Import List. Import ListNotations.
Open Scope Z_scope.

Lemma sxx_pos a m : 2 <= m -> let xm := qmean m (fun k => inject_Z (a + k)) in
  (0 < qsum m (fun k => (inject_Z (a + k) - xm) * (inject_Z (a + k) - xm)))%Q.
Proof.
  intros Hm xm. destruct (Qeq_dec (inject_Z (a + 0)) xm) as [E0|N0].
  - apply qsum_sq_pos with (k := 1); [intros; apply sq_nonneg|lia|]. apply sq_pos. rewrite <- E0.
    rewrite !inject_Z_plus. change (inject_Z 1) with 1%Q. change (inject_Z 0) with 0%Q. intros G. ring_simplify in G. discriminate.
  - apply qsum_sq_pos with (k := 0); [intros; apply sq_nonneg|lia|]. apply sq_pos. intros G. apply N0. lra.
Qed.
Lemma line_fit_least a m y : 2 <= m -> least_squares_line a m y (fst (line_fit a m y)) (snd (line_fit a m y)).
Proof.
  intros Hm p q. unfold line_fit. cbn [fst snd].
  set (xm := qmean m (fun k => inject_Z (a + k))). set (ym := qmean m (fun k => y (a + k))).
  set (X := fun k => (inject_Z (a + k) - xm)%Q). set (Y := fun k => (y (a + k)%Z - ym)%Q).
  assert (P : (0 < qsum m (fun k => X k * X k))%Q) by (apply sxx_pos; exact Hm).
  assert (Nm : ~ (inject_Z m == 0)%Q) by (apply inject_Z_neq0; lia).
  assert (X0 : (qsum m X == 0)%Q).
  { unfold X. rewrite (qsum_ext _ _ (fun k => inject_Z (a + k) + - xm)%Q) by (intros; ring). rewrite qsum_add, qsum_const by lia.
    unfold xm, qmean. field. exact Nm. }
  assert (Y0 : (qsum m Y == 0)%Q).
  { unfold Y. rewrite (qsum_ext _ _ (fun k => y (a + k)%Z + - ym)%Q) by (intros; ring). rewrite qsum_add, qsum_const by lia.
    unfold ym, qmean. field. exact Nm. }
  change (qsum m (fun k => (inject_Z (a + k) - xm) * (y (a + k)%Z - ym)))%Q with (qsum m (fun k => X k * Y k))%Q.
  change (qsum m (fun k => (inject_Z (a + k) - xm) * (inject_Z (a + k) - xm)))%Q with (qsum m (fun k => X k * X k))%Q.
  set (sl := (qsum m (fun k => X k * Y k) / qsum m (fun k => X k * X k))%Q).
  set (R := fun k => (Y k - sl * X k)%Q).
  assert (R0 : (qsum m R == 0)%Q).
  { unfold R. rewrite (qsum_ext _ _ (fun k => Y k + (- sl) * X k)%Q) by (intros; ring). rewrite qsum_add, qsum_scal, X0, Y0. ring. }
  assert (RX : (qsum m (fun k => R k * X k) == 0)%Q).
  { unfold R. rewrite (qsum_ext _ _ (fun k => X k * Y k + (- sl) * (X k * X k))%Q) by (intros; ring). rewrite qsum_add, qsum_scal. unfold sl. field. lra. }
  set (u := (ym - sl * xm - p + (sl - q) * xm)%Q). set (w := (sl - q)%Q).
  rewrite (qsum_ext m _ (fun k => R k * R k)%Q) by (intros; unfold R, X, Y; ring).
  rewrite (qsum_ext m (fun k => (y (a + k)%Z - (p + q * inject_Z (a + k))) * (y (a + k)%Z - (p + q * inject_Z (a + k))))%Q
     (fun k => R k * R k + ((u + w * X k) * (u + w * X k) + ((2 * u) * R k + (2 * w) * (R k * X k))))%Q)
     by (intros; unfold R, X, Y, u, w; ring).
  rewrite !qsum_add, !qsum_scal, R0, RX.
  assert (0 <= qsum m (fun k => (u + w * X k) * (u + w * X k)))%Q.
  { setoid_replace 0%Q with (qsum m (fun _ => 0%Q)) by (rewrite qsum_const by lia; ring). apply qsum_le. intros. apply sq_nonneg. }
  lra.
Qed.
Lemma detect_explicit asort data snr mask : 0 <= vlen data -> detect_stripe asort data snr = Ok mask ->
  let n := vlen data in let drop := n / 4 in
  let sorted := fun k => vat data (asort data k) in
  exists slope intercept, least_squares_line drop (n - 2 * drop - 1) sorted slope intercept /\
    let last := (intercept + slope * inject_Z (n - 1))%Q in
    let noise := Qabs (last - intercept) in
    (1 # 100000 <= noise)%Q /\ vlen mask = n /\
    forall j, (vat mask j = 1%Q \/ vat mask j = 0%Q) /\
      (vat mask j = 1%Q <->
        ((snr * noise <= Qabs (sorted (n - 1)%Z - last))%Q /\ (last + noise * snr / 2 < vat data j)%Q) \/
        ((snr * noise <= Qabs (intercept - sorted 0%Z))%Q /\ (vat data j <= intercept - noise * snr / 2)%Q)).
Proof.
  intros Hn H. cbn zeta. unfold detect_stripe in H. set (n := vlen data) in *.
  set (y := fun k => vat data (asort data k)) in *.
  destruct (slen n (n / 4) (- (n / 4) - 1) <? 2) eqn:E2; [discriminate|].
  assert (Hm : slen n (n / 4) (- (n / 4) - 1) = n - 2 * (n / 4) - 1).
  { pose proof (Z.div_mod n 4 ltac:(lia)). pose proof (Z.mod_pos_bound n 4 ltac:(lia)). unfold slen, py_adj in *.
    replace (n / 4 <? 0) with false in * by lia. replace (- (n / 4) - 1 <? 0) with true in * by lia. lia. }
  rewrite Hm in *. pose proof (line_fit_least (n / 4) (n - 2 * (n / 4) - 1) y ltac:(lia)) as L.
  destruct (line_fit (n / 4) (n - 2 * (n / 4) - 1) y) as [sl ic]. cbn [fst snd] in L.
  exists sl, ic. split; [exact L|]. set (last := (ic + sl * inject_Z (n - 1))%Q) in *. set (noise := Qabs (last - ic)) in *.
  destruct (Qltb noise (1 # 100000)) eqn:En; [discriminate|]. apply Qltb_f in En. apply Ok_inj in H. subst mask.
  split; [exact En|]. split; [reflexivity|]. cbn [vat].
  assert (Pn : (0 < noise)%Q) by lra.
  assert (V : forall v, Qle_bool snr (v / noise) = true <-> (snr * noise <= v)%Q).
  { intros v. rewrite Qle_bool_iff. split; intros A.
    - apply (Qmult_le_compat_r _ _ noise) in A; [|lra]. setoid_replace (v / noise * noise)%Q with v in A by (field; lra). exact A.
    - apply Qle_shift_div_l; assumption. }
  assert (N01 : 0%Q <> 1%Q) by discriminate.
  intros j.
  assert (B1 : forall x, Qltb (last + noise * snr * (1 # 2)) x = true <-> (last + noise * snr / 2 < x)%Q).
  { intros x. rewrite Qltb_lt. setoid_replace (noise * snr * (1 # 2))%Q with (noise * snr / 2)%Q by field. reflexivity. }
  assert (B2 : forall x, Qle_bool x (ic - noise * snr * (1 # 2)) = true <-> (x <= ic - noise * snr / 2)%Q).
  { intros x. rewrite Qle_bool_iff. setoid_replace (noise * snr * (1 # 2))%Q with (noise * snr / 2)%Q by field. reflexivity. }
  destruct (Qle_bool snr (Qabs (ic - vat data (asort data 0%Z)) / noise) && Qle_bool (vat data j) (ic - noise * snr * (1 # 2))) eqn:C1.
  - split; [auto|]. split; [intros _; right|auto]. apply andb_true_iff in C1 as [C1 C2]. split; [apply V; exact C1|apply B2; exact C2].
  - destruct (Qle_bool snr (Qabs (vat data (asort data (n - 1)%Z) - last) / noise) && Qltb (last + noise * snr * (1 # 2)) (vat data j)) eqn:C2.
    + split; [auto|]. split; [intros _; left|auto]. apply andb_true_iff in C2 as [C2 C3]. split; [apply V; exact C2|apply B1; exact C3].
    + split; [auto|]. split; [congruence|]. intros [ [A1 A2] | [A1 A2] ]; exfalso.
      * apply V in A1. unfold y in A1. apply B1 in A2. rewrite A1, A2 in C2. discriminate.
      * apply V in A1. unfold y in A1. apply B2 in A2. rewrite A1, A2 in C1. discriminate.
Qed.

(** interpolation method, with or without normalisation *)
Lemma interpolation_full vsort filt detect sino ratio norm out :
  remove_stripe_based_interpolation vsort filt detect sino ratio norm = Ok out -> 2 <= ncol sino ->
  (forall v m, detect v = Ok m -> vlen m = vlen v) ->
  let drop := Qtrunc ((1#2) * clipQ ratio 0 (4#5) * inject_Z (nrow sino)) in
  let mean (m : img Q) j := mean_rows m drop (nrow sino - drop) j in
  exists fact mask, detect fact = Ok mask /\ vlen fact = ncol sino /\ nrow out = nrow sino /\ ncol out = ncol sino /\
    (forall j, vat fact j = (let top := mean (vsort sino) j in let bot := mean (filt (vsort sino)) j in
       if Qeq_bool bot 0 then 1 else (if Qeq_bool top 0 then 1 else top) / bot)%Q) /\
    let row i j := if norm : bool then (px sino i j / vat fact j)%Q else px sino i j in
    forall j, in_rng (ncol sino) j -> forall i,
      (~ marked_near mask j \/ j < 2 \/ ncol sino - 2 <= j -> px out i j = row i j) /\
      (marked_near mask j -> 2 <= j < ncol sino - 2 -> bridged (ncol sino) mask (row i) (px out i) j).
Proof.
  intros E Hn Hlen. cbn zeta. unfold remove_stripe_based_interpolation in E.
  match type of E with context [detect ?v] => set (fact := v) in *; destruct (detect fact) as [mask|e] eqn:Ed end; cbn [bindr] in E; [|discriminate].
  assert (Hl : vlen mask = ncol sino) by (rewrite (Hlen _ _ Ed); reflexivity).
  exists fact, mask. split; [exact Ed|]. split; [reflexivity|].
  destruct ((nrow sino <? 2) || _); [discriminate|].
  apply Ok_inj in E; subst out. cbn [nrow ncol px]. split; [reflexivity|]. split; [reflexivity|].
  split; [intros j; reflexivity|].
  set (s := if norm then mkimg (nrow sino) (ncol sino) (fun i j => (px sino i j / vat fact j)%Q) else sino).
  assert (Es : forall i j, px s i j = if norm then (px sino i j / vat fact j)%Q else px sino i j) by (intros; unfold s; destruct norm; reflexivity).
  intros j Hj i. destruct (interp_masked mask (ncol sino) (px s i) j Hl Hn Hj) as [H1 H2]. split.
  - intros Hc. rewrite (H1 Hc), Es. reflexivity.
  - intros Hmk Hin. destruct (H2 Hmk Hin) as (Hmiss & a & b & P). exists a, b. rewrite Hmiss. rewrite <- !Es.
    exact P.
Qed.

(** the marked pixels of a box *)
Lemma NoDup_pairs (f : Z -> list Z) l : NoDup l -> (forall i, NoDup (f i)) -> NoDup (flat_map (fun i => map (fun j => (i, j)) (f i)) l).
Proof.
  intros Hl Hf. induction Hl as [|a l Ha Hl IH]; cbn [flat_map]; [constructor|].
  assert (A : forall l1 l2 : list (Z * Z), NoDup l1 -> NoDup l2 -> (forall p, In p l1 -> ~ In p l2) -> NoDup (l1 ++ l2)).
  { induction 1 as [|p l1 Hp H1 IH1]; intros H2 Hd; [exact H2|]. cbn. constructor.
    - rewrite in_app_iff. intros [C|C]; [contradiction|]. apply (Hd p); [left; reflexivity|exact C].
    - apply IH1; [exact H2|]. intros q Hq. apply Hd. right. exact Hq. }
  apply A; [|exact IH|].
  - specialize (Hf a). induction Hf as [|b t Hb Ht IHt]; cbn; constructor; [|exact IHt]. rewrite in_map_iff. intros (x & E & Hx). injection E as ->. contradiction.
  - intros [p q] H1 H2. apply in_map_iff in H1 as (x & E & _). injection E as -> ->. apply in_flat_map in H2 as (b & Hb & Hx).
    apply in_map_iff in Hx as (z & E & _). injection E as <- <-. contradiction.
Qed.
Lemma zinger_small objects m thr size i j :
  let out := remove_zinger objects m thr size true in
  let over := mkimg (nrow m) (ncol m) (fun i j =>
     Qltb thr (px m i j / (if Qeq_bool (zinger_average m size i j) 0 then 1 else zinger_average m size i j) - 1)%Q) in
  px out i j <> px m i j ->
  exists i0 i1 j0 j1 cells, In ((i0, i1), (j0, j1)) (objects over) /\ i0 <= i < i1 /\ j0 <= j < j1 /\
    NoDup cells /\ (forall a b, In (a, b) cells <-> i0 <= a < i1 /\ j0 <= b < j1 /\ px over a b = true) /\
    Z.of_nat (length cells) <= size.
Proof.
  cbv zeta. intros H. apply zinger_size in H. cbv zeta in H. set (over := mkimg _ _ _) in *.
  destruct H as ([ [i0 i1] [j0 j1] ] & Hb & Hin & Hc). exists i0, i1, j0, j1. unfold in_box in Hin. cbn [fst snd] in Hin. unfold box_count in Hc. cbn [fst snd] in Hc.
  match type of Hc with Z.of_nat (length ?l) <= _ => exists l end. split; [exact Hb|]. split; [lia|]. split; [lia|]. split; [|split; [|exact Hc] ].
  - apply NoDup_filter. apply NoDup_pairs; [|intros _]; unfold prange; apply zrange_NoDup.
  - intros a b. rewrite filter_In. cbn [fst snd]. rewrite in_flat_map. split.
    + intros [ (x & Hx & Hy) Hp]. apply in_map_iff in Hy as (z & E & Hz). injection E as -> ->. apply prange_In in Hx, Hz. auto.
    + intros (Ha & Hb' & Hp). split; [|exact Hp]. exists a. split; [apply prange_In; lia|]. apply in_map_iff. exists b. split; [reflexivity|apply prange_In; lia].
Qed.
Lemma blob_1d_mask sino mask : vlen mask = vlen sino -> 2 <= vlen sino -> existsb (fun j => Qltb (vat mask j) 1) (zrange 0 (vlen sino)) = true ->
  vlen (snd (remove_blob_1d sino mask)) = vlen mask /\
  forall j, in_rng (vlen sino) j -> vat (snd (remove_blob_1d sino mask)) j = if (j <? 2) || (vlen sino - 2 <=? j) then 0%Q else vat mask j.
Proof.
  intros Hl Hn He. unfold remove_blob_1d. rewrite He. cbn [negb].
  assert (C : forall j, in_rng (vlen sino) j -> vat (clear_mask_ends mask) j = if (j <? 2) || (vlen sino - 2 <=? j) then 0%Q else vat mask j).
  { intros j Hj. rewrite clear_ends; rewrite ?Hl; auto. }
  destruct (forallb _ _); cbn [snd]; (split; [reflexivity|exact C]).
Qed.
