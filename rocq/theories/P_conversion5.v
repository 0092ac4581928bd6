(** Helical sinograms in terms of the raw data (C31). *)
From Verif Require Import Np P_Np M_conversion S_conversion P_conversion P_conversion3.
From Coq Require Import QArith Qround Lqa Lia ZArith Bool.
From Coq Require Import List. Import ListNotations.
Open Scope Z_scope.

Definition no_mask : Z -> vec Q -> res (vec Q) := fun _ v => Ok v.

Lemma corrected_value d flat dark i r l rr :
  0 <= i < dep d -> 0 <= r < hei d -> 0 <= l -> l <= rr -> rr <= wid d ->
  nrow flat = hei d -> ncol flat = wid d -> nrow dark = hei d -> ncol dark = wid d ->
  exists v, corrected_row d flat dark no_mask i r l rr = Ok v /\ vlen v = rr - l /\
    forall k, vat v k = ((vx d i r (l + k) - px dark r (l + k)) / (px flat r (l + k) - px dark r (l + k)))%Q.
Proof.
  intros Hi Hr H1 H2 H3 F1 F2 D1 D2. unfold corrected_row, vol_row, img_row.
  rewrite F1, F2, D1, D2, !py_idx_in by lia. cbn [bindr]. unfold no_mask.
  eexists. split; [reflexivity|]. cbn [vlen vat]. rewrite slen_id, py_adj_id by lia. split; reflexivity.
Qed.
Lemma corrected_value_inv d flat dark i r l rr v :
  corrected_row d flat dark no_mask i r l rr = Ok v -> 0 <= i -> 0 <= r < hei d ->
  0 <= l -> l <= rr -> rr <= wid d ->
  nrow flat = hei d -> ncol flat = wid d -> nrow dark = hei d -> ncol dark = wid d ->
  vlen v = rr - l /\
    forall k, vat v k = ((vx d i r (l + k) - px dark r (l + k)) / (px flat r (l + k) - px dark r (l + k)))%Q.
Proof.
  intros H Hi Hr H1 H2 H3 F1 F2 D1 D2. pose proof (corrected_row_depth _ _ _ _ _ _ _ _ _ H Hi) as Hd.
  destruct (corrected_value d flat dark i r l rr ltac:(lia) Hr H1 H2 H3 F1 F2 D1 D2) as (v' & E & A).
  rewrite H in E. injection E as ->. exact A.
Qed.

Lemma helical_rows_of full index d num_proj pixel y_start y_stop pitch t180 angles flat dark blob ct cb cl cr rows angs :
  helical full index d num_proj pixel y_start y_stop pitch t180 angles flat dark blob (ct, cb, cl, cr) = Ok (rows, angs) ->
  let margin := (if (t180 : bool) then pitch / 2 else pitch)%Q in
  let y_s := (y_start + margin)%Q in let y_e := (y_stop - margin)%Q in
  let height := hei d - cb - ct in
  let y_step := (pitch / (2 * inject_Z (num_proj - 1)))%Q in
  let y_pos := (inject_Z (index - 1) * pixel + y_s)%Q in
  let i0 := Qceiling ((y_e - y_pos) / y_step) in
  0 <= i0 /\ cl <= wid d - cr /\ ~ (y_step == 0)%Q /\ (full = false -> 0 <= index <= Qtrunc ((y_e - y_s) / pixel) + 1) /\
  forall t row, nth_error rows t = Some row ->
    helical_row d flat dark blob y_e y_pos y_step pixel (pixel * inject_Z height)%Q height ct cl (wid d - cr) (i0 + Z.of_nat t) = Ok row.
Proof.
  cbn zeta. unfold helical, calculate_maximum_index, calculate_reconstructable_height.
  assert (Emg : (if t180 then (y_start + pitch / 2, y_stop - pitch / 2)%Q else (y_start + pitch, y_stop - pitch)%Q)
     = ((y_start + (if t180 then pitch / 2 else pitch))%Q, (y_stop - (if t180 then pitch / 2 else pitch))%Q)) by (destruct t180; reflexivity).
  rewrite Emg. set (mg := (if t180 then (pitch / 2)%Q else pitch)).
  set (y_s := (y_start + mg)%Q). set (y_e := (y_stop - mg)%Q).
  destruct (negb full && _) eqn:Ef0; [discriminate|]. destruct (num_proj =? 1); [discriminate|].
  set (height := hei d - cb - ct). set (y_step := (pitch / (2 * inject_Z (num_proj - 1)))%Q).
  destruct (Qeq_bool y_step 0) eqn:Ey; [discriminate|].
  set (num := if full then _ else _). set (y_pos := (inject_Z (index - 1) * pixel + y_s)%Q). set (i0 := Qceiling _).
  destruct ((i0 <? 0) || (dep d <=? i0)) eqn:Ei; [discriminate|].
  destruct (full && (dep d <=? i0 + num)) eqn:Ef; [discriminate|].
  destruct ((num <? 0) || _) eqn:En; [discriminate|].
  match goal with |- bindr (mapr ?f ?l) _ = _ -> _ => destruct (mapr f l) as [rs|e] eqn:Em; cbn [bindr]; [|discriminate] end.
  intros H. injection H as <- <-. apply mapr_inv in Em.
  assert (Len : Z.of_nat (length rs) = num).
  { rewrite <- (Forall2_length Em). rewrite zrange_length. lia. }
  split; [lia|]. split; [lia|]. split; [intros C; apply Qeq_bool_iff in C; congruence|]. split.
  { intros ->. cbn [negb andb] in Ef0. apply orb_false_iff in Ef0. lia. }
  intros t row Ht.
  assert (Hx : exists x, nth_error (zrange i0 num) t = Some x).
  { destruct (nth_error (zrange i0 num) t) eqn:E; [eauto|]. apply nth_error_None in E.
    rewrite (Forall2_length Em) in E. apply nth_error_None in E. congruence. }
  destruct Hx as [x Hx].
  assert (Ex : x = i0 + Z.of_nat t).
  { unfold zrange in Hx. rewrite nth_error_map in Hx. destruct (nth_error (seq 0 (Z.to_nat num)) t) eqn:E; cbn in Hx; [|discriminate].
    injection Hx as <-. apply nth_error_nth with (d := O) in E. rewrite seq_nth in E; [lia|].
    assert (L : nth_error rs t <> None) by congruence. apply nth_error_Some in L. lia. }
  rewrite <- Ex. clear - Em Ht Hx. revert t Ht Hx. induction Em as [|a b la lb Hab Em IH]; intros [|t]; cbn; intros; try discriminate; [congruence|eauto].
Qed.

Lemma Qtrunc_ge q n : (0 <= q)%Q -> 0 <= n -> (n <= Qtrunc q <-> (inject_Z n <= q)%Q).
Proof.
  intros Hq Hn. unfold Qtrunc. apply Qle_bool_iff in Hq. rewrite Hq. split; intros H.
  - eapply Qle_trans; [|apply Qfloor_le]. rewrite <- Zle_Qle. exact H.
  - rewrite <- (Qfloor_Z n). apply Qfloor_resp_le. exact H.
Qed.

Lemma helical_value full index d num_proj pixel y_start y_stop pitch t180 angles flat dark ct cb cl cr rows angs :
  helical full index d num_proj pixel y_start y_stop pitch t180 angles flat dark no_mask (ct, cb, cl, cr) = Ok (rows, angs) ->
  0 <= ct -> 0 <= cb -> 0 <= cl -> 0 <= cr ->
  nrow flat = hei d -> ncol flat = wid d -> nrow dark = hei d -> ncol dark = wid d ->
  let margin := (if (t180 : bool) then pitch / 2 else pitch)%Q in
  let y_s := (y_start + margin)%Q in let y_e := (y_stop - margin)%Q in
  let height := hei d - cb - ct in
  let y_step := (pitch / (2 * inject_Z (num_proj - 1)))%Q in
  let y_pos := (inject_Z (index - 1) * pixel + y_s)%Q in
  let corr i r k := ((vx d i r (cl + k) - px dark r (cl + k)) / (px flat r (cl + k) - px dark r (cl + k)))%Q in
  exists i0, (inject_Z (i0 - 1) < (y_e - y_pos) / y_step <= inject_Z i0)%Q /\
  forall t row, nth_error rows t = Some row ->
    let i := i0 + Z.of_nat t in
    let pos := ((y_e + pixel * inject_Z height - inject_Z i * y_step - y_pos) / pixel - 1)%Q in
    vlen row = wid d - cr - cl /\ (0 <= pos < inject_Z height)%Q /\
    exists j lam, 0 <= j < height /\ (0 <= lam <= 1)%Q /\ (j = height - 1 -> (lam == 1)%Q) /\
      (inject_Z j + (1 - lam) == Qminb pos (inject_Z (height - 1)))%Q /\
      forall k, 0 <= k < wid d - cr - cl ->
        (vat row k == lam * corr i (ct + j)%Z k + (1 - lam) * corr i (ct + j + 1)%Z k)%Q.
Proof.
  intros H Hct Hcb Hcl Hcr F1 F2 D1 D2. apply helical_rows_of in H. cbn zeta in *.
  destruct H as (Hi0 & Hw & Hst & _ & H). eexists. split; [split; [apply Qceiling_lt|apply Qle_ceiling] |].
  intros t row Ht. specialize (H t row Ht). apply helical_row_spec in H. cbn zeta in H.
  set (i0 := Qceiling _) in *. set (i := i0 + Z.of_nat t) in *.
  destruct H as (jd & ju & lam & lo & hi & J1 & J2 & J3 & C1 & C2 & L & V & E & P & I).
  apply corrected_value_inv in C1; try assumption; try lia. apply corrected_value_inv in C2; try assumption; try lia.
  destruct C1 as [V1 C1]. destruct C2 as [V2 C2].
  split; [rewrite V, V1; lia|]. split; [exact P|].
  destruct (Z.eq_dec ju jd) as [->|Hne].
  - exists jd, 1%Q. split; [lia|]. split; [lra|]. split; [reflexivity|]. split.
    + rewrite <- I. ring.
    + intros k Hk. rewrite E, C1, C2, !(Z.add_comm ct jd). ring.
  - assert (Ej : ju = jd + 1) by lia. subst ju. exists jd, lam. split; [lia|]. split; [exact L|]. split; [lia|]. split.
    + rewrite <- I, inject_Z_plus. change (inject_Z 1) with 1%Q. ring.
    + intros k Hk. rewrite E, C1, C2.
      replace (jd + ct) with (ct + jd) by lia. replace (jd + 1 + ct) with (ct + jd + 1) by lia. reflexivity.
Qed.

(** the accepted indices and the completeness of the conversion *)
Lemma helical_index index d num_proj pixel y_start y_stop pitch t180 angles flat dark blob ct cb cl cr rows angs :
  helical false index d num_proj pixel y_start y_stop pitch t180 angles flat dark blob (ct, cb, cl, cr) = Ok (rows, angs) ->
  let margin := (if (t180 : bool) then pitch / 2 else pitch)%Q in
  let y_s := (y_start + margin)%Q in let y_e := (y_stop - margin)%Q in
  (0 < pixel)%Q -> (y_s <= y_e)%Q -> 0 <= index /\ (y_s + inject_Z (index - 1) * pixel <= y_e)%Q.
Proof.
  intros H. apply helical_rows_of in H. cbn zeta in *. destruct H as (_ & _ & _ & Hi & _). specialize (Hi eq_refl).
  intros Hp Hy. split; [lia|].
  set (mg := (if t180 then (pitch / 2)%Q else pitch)) in *.
  set (y_s := (y_start + mg)%Q) in *. set (y_e := (y_stop - mg)%Q) in *.
  assert (Q0 : (0 <= (y_e - y_s) / pixel)%Q). { apply Qle_shift_div_l; [exact Hp|]. lra. }
  destruct (Z.eq_dec index 0) as [->|Hn].
  - change (inject_Z (0 - 1)) with (-1)%Q. lra.
  - assert (A : index - 1 <= Qtrunc ((y_e - y_s) / pixel)) by lia. apply Qtrunc_ge in A; [|exact Q0|lia].
    assert (B : (inject_Z (index - 1) * pixel <= y_e - y_s)%Q).
    { apply (Qmult_le_compat_r _ _ pixel) in A; [|lra]. eapply Qle_trans; [exact A|].
      apply Qle_lteq. right. field. intros C. rewrite C in Hp. discriminate Hp. }
    lra.
Qed.

Lemma helical_row_total d flat dark y_e y_pos y_step pixel fov height ct l r i :
  let pos := ((y_e + fov - inject_Z i * y_step - y_pos) / pixel - 1)%Q in
  (0 <= pos < inject_Z height)%Q -> 0 <= i < dep d -> 0 <= ct -> height + ct <= hei d ->
  0 <= l -> l <= r -> r <= wid d ->
  nrow flat = hei d -> ncol flat = wid d -> nrow dark = hei d -> ncol dark = wid d ->
  exists row, helical_row d flat dark no_mask y_e y_pos y_step pixel fov height ct l r i = Ok row.
Proof.
  cbn zeta. intros [P0 P1] Hi Hct Hh H1 H2 H3 F1 F2 D1 D2. unfold helical_row.
  set (pos := ((y_e + fov - inject_Z i * y_step - y_pos) / pixel - 1)%Q) in *.
  assert (E1 : Qltb pos 0 = false).
  { destruct (Qltb pos 0) eqn:E; [|reflexivity]. apply Qltb_lt in E. lra. }
  assert (E2 : Qle_bool (inject_Z height) pos = false).
  { destruct (Qle_bool (inject_Z height) pos) eqn:E; [|reflexivity]. apply Qle_bool_iff in E. lra. }
  rewrite E1, E2. cbn [orb].
  assert (Hh1 : 1 <= height).
  { assert (0 < inject_Z height)%Q by (eapply Qle_lt_trans; eauto). change 0%Q with (inject_Z 0) in H. rewrite <- Zlt_Qlt in H. lia. }
  assert (H0 : (0 <= inject_Z (height - 1))%Q) by (change 0%Q with (inject_Z 0); rewrite <- Zle_Qle; lia).
  set (j0 := clipQ pos 0 (inject_Z (height - 1))).
  assert (Hj0 : (0 <= j0 <= inject_Z (height - 1))%Q) by (apply clipQ_bounds; assumption).
  destruct (floor_ceil j0) as (FC1 & _ & _).
  assert (Fl : 0 <= Qfloor j0).
  { change 0 with (Qfloor (inject_Z 0)). apply Qfloor_resp_le. apply Hj0. }
  assert (Ce : Qceiling j0 <= height - 1).
  { rewrite <- (Qceiling_Z (height - 1)). apply Qceiling_resp_le. apply Hj0. }
  destruct (corrected_value d flat dark i (Qfloor j0 + ct) l r) as (v & E & _); try assumption; try lia. rewrite E. cbn [bindr].
  destruct (corrected_value d flat dark i (Qceiling j0 + ct) l r) as (w & E' & _); try assumption; try lia. rewrite E'. cbn [bindr].
  destruct (negb _); eauto.
Qed.

Lemma helical_total index d num_proj pixel y_start y_stop pitch t180 angles flat dark ct cb cl cr i0 :
  let margin := (if (t180 : bool) then pitch / 2 else pitch)%Q in
  let y_s := (y_start + margin)%Q in let y_e := (y_stop - margin)%Q in
  let height := hei d - cb - ct in
  let y_step := (pitch / (2 * inject_Z (num_proj - 1)))%Q in
  let y_pos := (inject_Z (index - 1) * pixel + y_s)%Q in
  let num := if (t180 : bool) then num_proj else 2 * num_proj - 1 in
  (0 < pixel)%Q -> (0 < pitch)%Q -> 2 <= num_proj -> (y_s <= y_e)%Q ->
  0 <= ct -> 0 <= cb -> 0 <= cl -> 0 <= cr -> cl + cr <= wid d ->
  nrow flat = hei d -> ncol flat = wid d -> nrow dark = hei d -> ncol dark = wid d ->
  0 <= index -> (y_pos <= y_e)%Q ->
  (inject_Z (i0 - 1) < (y_e - y_pos) / y_step <= inject_Z i0)%Q -> i0 + num <= dep d ->
  (forall i, i0 <= i < i0 + num ->
     (0 <= (y_e + pixel * inject_Z height - inject_Z i * y_step - y_pos) / pixel - 1 < inject_Z height)%Q) ->
  exists rows angs, helical false index d num_proj pixel y_start y_stop pitch t180 angles flat dark no_mask (ct, cb, cl, cr) = Ok (rows, angs).
Proof.
  cbn zeta. intros Hp Hpi Hn Hy Hct Hcb Hcl Hcr Hw F1 F2 D1 D2 Hi Hpos Hi0 Hd Hrows.
  unfold helical, calculate_maximum_index, calculate_reconstructable_height.
  assert (Emg : (if t180 then (y_start + pitch / 2, y_stop - pitch / 2)%Q else (y_start + pitch, y_stop - pitch)%Q)
     = ((y_start + (if t180 then pitch / 2 else pitch))%Q, (y_stop - (if t180 then pitch / 2 else pitch))%Q)) by (destruct t180; reflexivity).
  rewrite Emg. set (mg := (if t180 then (pitch / 2)%Q else pitch)) in *.
  set (y_s := (y_start + mg)%Q) in *. set (y_e := (y_stop - mg)%Q) in *.
  assert (Q0 : (0 <= (y_e - y_s) / pixel)%Q). { apply Qle_shift_div_l; [exact Hp|]. lra. }
  assert (Ix : index - 1 <= Qtrunc ((y_e - y_s) / pixel)).
  { destruct (Z.eq_dec index 0) as [->|Hne].
    - enough (0 <= Qtrunc ((y_e - y_s) / pixel)) by lia. apply Qtrunc_ge; [exact Q0|lia|exact Q0].
    - apply Qtrunc_ge; [exact Q0|lia|]. apply Qle_shift_div_l; [exact Hp|]. lra. }
  replace (negb false && _) with false by (cbn [negb andb]; lia).
  replace (num_proj =? 1) with false by lia.
  set (height := hei d - cb - ct) in *. set (y_step := (pitch / (2 * inject_Z (num_proj - 1)))%Q) in *.
  set (y_pos := (inject_Z (index - 1) * pixel + y_s)%Q) in *.
  assert (Hst : (0 < y_step)%Q).
  { unfold y_step. apply Qlt_shift_div_l.
    - assert (0 < inject_Z (num_proj - 1))%Q by (change 0%Q with (inject_Z 0); rewrite <- Zlt_Qlt; lia). lra.
    - lra. }
  replace (Qeq_bool y_step 0) with false.
  2:{ destruct (Qeq_bool y_step 0) eqn:E; [|reflexivity]. apply Qeq_bool_iff in E. lra. }
  assert (Ei : Qceiling ((y_e - y_pos) / y_step) = i0).
  { pose proof (Qle_ceiling ((y_e - y_pos) / y_step)) as C1. pose proof (Qceiling_lt ((y_e - y_pos) / y_step)) as C2.
    destruct Hi0 as [H1 H2].
    assert (A : (inject_Z (i0 - 1) < inject_Z (Qceiling ((y_e - y_pos) / y_step)))%Q) by (eapply Qlt_le_trans; eauto). rewrite <- Zlt_Qlt in A.
    assert (B : (inject_Z (Qceiling ((y_e - y_pos) / y_step) - 1) < inject_Z i0)%Q) by (eapply Qlt_le_trans; eauto). rewrite <- Zlt_Qlt in B. lia. }
  rewrite Ei.
  assert (P0 : 0 <= i0).
  { assert (0 <= (y_e - y_pos) / y_step)%Q by (apply Qle_shift_div_l; [exact Hst|lra]).
    assert (0 <= inject_Z i0)%Q by (eapply Qle_trans; [eassumption|apply Hi0]). change 0%Q with (inject_Z 0) in H0. rewrite <- Zle_Qle in H0. exact H0. }
  cbn [andb]. replace (if t180 then num_proj else 2 * (num_proj - 1) + 1) with (if t180 then num_proj else 2 * num_proj - 1) by (destruct t180; lia).
  set (num := if t180 then num_proj else 2 * num_proj - 1) in *. assert (Pn : 2 <= num) by (unfold num; destruct t180; lia).
  replace ((i0 <? 0) || (dep d <=? i0)) with false by lia. replace ((num <? 0) || (wid d - cr - cl <? 0)) with false by lia.
  match goal with |- context [mapr ?f ?l] => assert (M : exists rs, mapr f l = Ok rs) end.
  { assert (T : forall l, (forall i, In i l -> i0 <= i < i0 + num) -> exists rs,
      mapr (helical_row d flat dark no_mask y_e y_pos y_step pixel (pixel * inject_Z height)%Q height ct cl (wid d - cr)) l = Ok rs).
    { induction l as [|a l IH]; intros Hl; [exists []; reflexivity|]. cbn [mapr].
      destruct (helical_row_total d flat dark y_e y_pos y_step pixel (pixel * inject_Z height)%Q height ct cl (wid d - cr) a) as [row E];
        try assumption; try (unfold height; lia).
      - apply Hrows. apply Hl. left. reflexivity.
      - specialize (Hl a (or_introl eq_refl)). lia.
      - rewrite E. cbn [bindr]. destruct IH as [rs Er]; [intros; apply Hl; right; assumption|]. rewrite Er. eexists. reflexivity. }
    apply T. intros i Hin. apply zrange_In in Hin. lia. }
  destruct M as [rs ->]. cbn [bindr]. eexists. eexists. reflexivity.
Qed.
