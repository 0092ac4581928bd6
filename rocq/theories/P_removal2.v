(** Proofs for removal.py (second part). *)
From Verif Require Import Np P_Np M_utility S_utility P_utility M_io_load M_conversion P_conversion M_correction M_calculation M_removal S_removal P_removal.
From Coq Require Import QArith Qround Qabs String ZArith Lia Lqa Psatz.
From Coq Require Import List. Import ListNotations.
Open Scope Z_scope.

(** ** C38 *)
Lemma zinger_ave_eq m size i j : 1 <= size -> (zinger_average m size i j == eight_mean m size i j)%Q.
Proof.
  intros H. unfold zinger_average, zinger_offsets, eight_mean. cbn [flat_map map app filter fst snd].
  assert (E1 : (- size =? 0) = false) by lia. assert (E2 : (size =? 0) = false) by lia.
  rewrite E1, E2. change (0 =? 0) with true. cbn [andb negb filter map fst snd List.length qlsum fold_right].
  change (inject_Z (Z.of_nat 8)) with 8%Q.
  rewrite !Z.sub_opp_r, !Z.sub_0_r, !Z.add_0_r, !Z.add_opp_r. field.
Qed.
Lemma zinger_spec objects m thr size cs i j :
  1 <= size -> in_rng (nrow m) i -> in_rng (ncol m) j -> (0 < eight_mean m size i j)%Q ->
  let out := remove_zinger objects m thr size cs in
  nrow out = nrow m /\ ncol out = ncol m /\
  ((px m i j <= eight_mean m size i j * (1 + thr))%Q -> px out i j = px m i j) /\
  ((eight_mean m size i j * (1 + thr) < px m i j)%Q ->
     cs = false -> (px out i j == eight_mean m size i j)%Q) /\
  (px out i j = px m i j \/ (px out i j == eight_mean m size i j)%Q).
Proof.
  intros Hs Hi Hj Hp out. split; [reflexivity|]. split; [reflexivity|].
  pose proof (zinger_ave_eq m size i j Hs) as Ea.
  assert (Hz : Qeq_bool (zinger_average m size i j) 0 = false).
  { destruct (Qeq_bool _ 0) eqn:E; [|reflexivity]. apply Qeq_bool_iff in E. lra. }
  assert (Hiff : Qltb thr (px m i j / zinger_average m size i j - 1) = true <-> (eight_mean m size i j * (1 + thr) < px m i j)%Q).
  { rewrite Qltb_lt. split; intros H.
    - assert (H1 : (1 + thr < px m i j / zinger_average m size i j)%Q) by lra.
      rewrite Ea in H1. apply (Qmult_lt_l _ _ (eight_mean m size i j) Hp) in H1.
      rewrite (Qmult_div_r (px m i j) (eight_mean m size i j)) in H1 by lra. exact H1.
    - assert (H1 : (1 + thr < px m i j / zinger_average m size i j)%Q); [|lra].
      rewrite Ea. apply (Qmult_lt_l _ _ (eight_mean m size i j) Hp).
      rewrite (Qmult_div_r (px m i j) (eight_mean m size i j)) by lra. exact H. }
  assert (Hpx : px out i j = (if (if cs then existsb (fun b => in_box b i j)
              (filter (fun b => box_count (mkimg (nrow m) (ncol m) (fun i0 j0 => Qltb thr (px m i0 j0 / (if Qeq_bool (zinger_average m size i0 j0) 0 then 1 else zinger_average m size i0 j0) - 1)%Q)) b <=? size)
                 (objects (mkimg (nrow m) (ncol m) (fun i0 j0 => Qltb thr (px m i0 j0 / (if Qeq_bool (zinger_average m size i0 j0) 0 then 1 else zinger_average m size i0 j0) - 1)%Q)))) else true)
            && Qltb thr (px m i j / zinger_average m size i j - 1) then zinger_average m size i j else px m i j)).
  { unfold out, remove_zinger. cbn [px]. destruct cs; cbn [px select_zinger andb]; rewrite Hz; reflexivity. }
  rewrite Hpx. split; [|split].
  - intros H. destruct (Qltb thr _) eqn:E; [|rewrite andb_false_r; reflexivity].
    pose proof (proj1 Hiff eq_refl). lra.
  - intros H ->. apply Hiff in H. rewrite H. cbn [andb]. exact Ea.
  - destruct (_ && _); auto.
Qed.
(** with check_size, replaced pixels lie in a box of at most [size] marked pixels *)
Lemma zinger_size objects m thr size i j :
  let out := remove_zinger objects m thr size true in
  let over := mkimg (nrow m) (ncol m) (fun i j =>
     Qltb thr (px m i j / (if Qeq_bool (zinger_average m size i j) 0 then 1 else zinger_average m size i j) - 1)%Q) in
  px out i j <> px m i j ->
  exists b, In b (objects over) /\ in_box b i j = true /\ box_count over b <= size.
Proof.
  cbv zeta. unfold remove_zinger. cbn [px]. cbn [px select_zinger].
  match goal with |- context [existsb ?f ?l && ?q] => destruct (existsb f l) eqn:E; [|cbn [andb]; congruence] end.
  intros _. apply existsb_exists in E as (b & Hb & Hin). apply filter_In in Hb as [Hb Hc].
  exists b. split; [exact Hb|]. split; [exact Hin|]. lia.
Qed.

(** ** C39 *)
Lemma count_pos (good : Z -> bool) n j : in_rng n j -> good j = true -> existsb good (zrange 0 n) = true.
Proof. intros Hj Hg. apply existsb_exists. exists j. split; [apply zrange_In; unfold in_rng in Hj; lia|exact Hg]. Qed.
Lemma clear_short mask j : vlen mask = 1 -> in_rng 1 j -> vat (clear_mask_ends mask) j = 0%Q.
Proof.
  intros H Hj. unfold clear_mask_ends. cbn [vat]. rewrite H. unfold in_rng in Hj.
  replace ((j <? py_adj 1 2) || (py_adj 1 (-2) <=? j)) with true; [reflexivity|]. unfold py_adj. cbn. lia.
Qed.
Definition interp_spec (n : Z) (mask : Z -> Q) (f g : Z -> Q) : Prop :=
  forall j, in_rng n j ->
    ((mask j < 1)%Q \/ j < 2 \/ n - 2 <= j -> g j = f j) /\
    ((1 <= mask j)%Q -> 2 <= j < n - 2 ->
       exists a b, a < j < b /\ 0 <= a /\ b < n /\
         ((mask a < 1)%Q \/ a < 2) /\ ((mask b < 1)%Q \/ n - 2 <= b) /\
         (forall k, a < k < b -> 2 <= k < n - 2 /\ (1 <= mask k)%Q) /\
         on_line a (f a) b (f b) j (g j)).
Lemma blob_row_spec row mask :
  vlen mask = vlen row -> 1 <= vlen row ->
  exists v, blob_row row mask = (Ok v, clear_mask_ends mask) /\ vlen v = vlen row /\
    interp_spec (vlen row) (vat mask) (vat row) (vat v).
Proof.
  intros Hl Hn. destruct (Z.eq_dec (vlen row) 1) as [E1|N1].
  - unfold blob_row. set (mask' := clear_mask_ends mask).
    assert (Hm : forall j, in_rng 1 j -> vat mask' j = 0%Q) by (intros; apply clear_short; congruence).
    assert (Hg : existsb (fun j => Qltb (vat mask' j) 1) (zrange 0 (vlen row)) = true).
    { rewrite E1. apply (count_pos _ 1 0); [unfold in_rng; lia|]. rewrite Hm by (unfold in_rng; lia). reflexivity. }
    rewrite Hg. cbn [negb].
    assert (Hf : filter (fun j => Qltb 0 (vat mask' j)) (zrange 0 (vlen row)) = []).
    { rewrite E1. rewrite zrange_cons by lia. rewrite zrange_nil by lia. cbn [filter].
      rewrite Hm by (unfold in_rng; lia). reflexivity. }
    rewrite Hf. cbn [forallb]. eexists. split; [reflexivity|]. cbn [vlen vat]. split; [reflexivity|].
    intros j Hj. split; [|unfold in_rng in Hj; lia]. intros _. rewrite Hm by (rewrite <- E1; exact Hj). reflexivity.
  - destruct (stripe_interp (mkimg 2 (vlen row) (fun _ => vat row)) mask Hl) as (out & E & R & C & H); cbn [nrow ncol]; [lia|lia|].
    unfold interpolate_inside_stripe in E. cbn [ncol nrow px] in E.
    replace (vlen mask =? vlen row) with true in E by lia. cbn [negb] in E.
    unfold blob_row. set (mask' := clear_mask_ends mask) in *.
    set (good := fun j => Qltb (vat mask' j) 1) in *. set (miss := fun j => Qltb 0 (vat mask' j)) in *.
    assert (Hm : forall j, in_rng (vlen row) j -> vat mask' j = if (j <? 2) || (vlen row - 2 <=? j) then 0%Q else vat mask j).
    { intros j Hj. unfold mask'. rewrite clear_ends; rewrite ?Hl; auto. lia. }
    assert (Hg0 : good 0 = true).
    { unfold good. rewrite Hm by (unfold in_rng; lia). reflexivity. }
    assert (Hg1 : good (vlen row - 1) = true).
    { unfold good. rewrite Hm by (unfold in_rng; lia).
      replace (vlen row - 2 <=? vlen row - 1) with true by lia. rewrite orb_true_r. reflexivity. }
    rewrite (count_pos good (vlen row) 0) by (unfold in_rng; lia || exact Hg0). cbn [negb].
    assert (Hb : forallb (fun j => bracketed good (vlen row) j) (filter miss (zrange 0 (vlen row))) = true).
    { apply forallb_forall. intros j Hj. apply filter_In in Hj as [Hj _]. apply zrange_In in Hj.
      unfold bracketed. apply andb_true_iff. split; apply existsb_exists.
      - exists 0. split; [apply zrange_In; lia|exact Hg0].
      - exists (vlen row - 1). split; [apply zrange_In; lia|exact Hg1]. }
    rewrite Hb. eexists. split; [reflexivity|]. cbn [vlen]. split; [reflexivity|].
    destruct ((2 <? 2) || _) in E; [discriminate|]. injection E as <-. cbn [px ncol nrow vat] in *.
    intros j Hj. destruct (H j Hj) as [H1 H2]. split.
    + intros G. apply (H1 G 0). unfold in_rng; lia.
    + intros G G2. destruct (H2 G G2) as (a & b & P1 & P2 & P3 & P4 & P5 & P6 & P7).
      exists a, b. repeat (split; [assumption|]). apply (P7 0). unfold in_rng; lia.
Qed.
Lemma blob_loop_spec n : forall k a (mat mask : img Q), nrow mask = nrow mat -> ncol mask = ncol mat -> 1 <= ncol mat ->
  0 <= a -> Z.of_nat k = n - a ->
  exists out mask', blob_loop mat mask (zrange a (n - a)) = (Ok out, mask') /\
    nrow out = nrow mat /\ ncol out = ncol mat /\ nrow mask' = nrow mask /\ ncol mask' = ncol mask /\
    (forall i, a <= i < n -> interp_spec (ncol mat) (px mask i) (px mat i) (px out i) /\
         forall j, px mask' i j = vat (clear_mask_ends (irow mask i)) j) /\
    (forall i j, i < a \/ n <= i -> px out i j = px mat i j /\ px mask' i j = px mask i j).
Proof.
  induction k as [|k IH]; intros a mat mask Hr Hc H1 Ha Hk.
  - rewrite zrange_nil by lia. exists mat, mask. cbn. repeat split; auto; lia.
  - rewrite zrange_cons by lia. cbn [blob_loop].
    destruct (blob_row_spec (irow mat a) (irow mask a)) as (v & E & Lv & Sv); [exact Hc|exact H1|].
    rewrite E. replace (n - a - 1) with (n - (a + 1)) by lia.
    set (mat1 := mkimg (nrow mat) _ _). set (mask1 := mkimg (nrow mask) _ _).
    destruct (IH (a + 1) mat1 mask1) as (out & mask' & E' & R & C & Rm & Cm & Hin & Hout);
      [exact Hr|exact Hc|exact H1|lia|lia|].
    exists out, mask'. split; [exact E'|]. split; [exact R|]. split; [exact C|]. split; [exact Rm|]. split; [exact Cm|].
    split.
    + intros i Hi. destruct (Z.eq_dec i a) as [->|N].
      * cbn [irow vlen vat] in Sv. split.
        -- intros j Hj. destruct (Sv j Hj) as [A B].
           destruct (Hout a j ltac:(lia)) as [-> _]. unfold mat1. cbn [px]. rewrite Z.eqb_refl. split; assumption.
        -- intros j. destruct (Hout a j ltac:(lia)) as [_ ->]. unfold mask1. cbn [px]. rewrite Z.eqb_refl. reflexivity.
      * destruct (Hin i ltac:(lia)) as [A B]. cbn [ncol mat1] in A.
        assert (Em : forall j, px mat1 i j = px mat i j).
        { intros j. unfold mat1. cbn [px]. replace (i =? a) with false by lia. reflexivity. }
        assert (Ek : forall j, px mask1 i j = px mask i j).
        { intros j. unfold mask1. cbn [px]. replace (i =? a) with false by lia. reflexivity. }
        split.
        -- intros j Hj. destruct (A j Hj) as [A1 A2]. rewrite Ek, Em in A1. split; [exact A1|].
           intros G G2. rewrite Ek in A2. destruct (A2 G G2) as (x & y & P1 & P2 & P3 & P4 & P5 & P6 & P7).
           rewrite !Em in P7. rewrite !Ek in *. exists x, y. repeat (split; [assumption|]). split; [|exact P7].
           intros z Hz. rewrite <- (Ek z). apply P6, Hz.
        -- intros j. rewrite B. unfold clear_mask_ends. cbn [irow vlen vat mask1]. cbn [ncol px].
           destruct (_ || _); [reflexivity|]. fold (px mask1 i j). apply (Ek j).
    + intros i j Hij. destruct (Hout i j ltac:(lia)) as [-> ->]. unfold mat1, mask1. cbn [px].
      replace (i =? a) with false by lia. auto.
Qed.
Lemma remove_blob_spec mat mask : nrow mask = nrow mat -> ncol mask = ncol mat -> 0 <= nrow mat -> 1 <= ncol mat ->
  exists out mask', remove_blob mat mask = (Ok out, mask') /\
    nrow out = nrow mat /\ ncol out = ncol mat /\ nrow mask' = nrow mask /\ ncol mask' = ncol mask /\
    (forall i, in_rng (nrow mat) i -> interp_spec (ncol mat) (px mask i) (px mat i) (px out i)) /\
    (forall i j, in_rng (nrow mat) i -> in_rng (ncol mat) j ->
       px mask' i j = if (j <? 2) || (ncol mat - 2 <=? j) then 0%Q else px mask i j).
Proof.
  intros Hr Hc H0 H1. unfold remove_blob. replace (nrow mat =? nrow mask) with true by lia.
  replace (ncol mat =? ncol mask) with true by lia. cbn [andb negb].
  destruct (blob_loop_spec (nrow mat) (Z.to_nat (nrow mat)) 0 mat mask Hr Hc H1) as (out & mask' & E & R & C & Rm & Cm & Hin & _); [lia|lia|].
  rewrite Z.sub_0_r in E. exists out, mask'. repeat (split; [assumption|]).
  split; [intros i Hi; apply (Hin i Hi)|]. intros i j Hi Hj. destruct (Hin i Hi) as [_ ->].
  destruct (Z.eq_dec (ncol mat) 1) as [E1|N1].
  - rewrite clear_short by (cbn; congruence). unfold in_rng in Hj. replace (j <? 2) with true by lia. reflexivity.
  - rewrite clear_ends by (cbn [irow vlen]; rewrite Hc; unfold in_rng in *; lia). cbn [irow vlen vat]. rewrite Hc. reflexivity.
Qed.
Lemma remove_blob_shape mat mask : nrow mask <> nrow mat \/ ncol mask <> ncol mat ->
  remove_blob mat mask = (Err ValueError, mask).
Proof.
  intros H. unfold remove_blob. destruct (nrow mat =? nrow mask) eqn:A; destruct (ncol mat =? ncol mask) eqn:B; cbn; try reflexivity. lia.
Qed.

(** ** C40 *)
Lemma blob_1d_spec sino mask :
  vlen mask = vlen sino -> 2 <= vlen sino -> (vat mask 0 < 1)%Q -> (vat mask (vlen sino - 1) < 1)%Q ->
  exists out mask', remove_blob_1d sino mask = (Ok out, mask') /\ vlen out = vlen sino /\
    forall j, in_rng (vlen sino) j ->
    ((vat mask j < 1)%Q \/ j < 2 \/ vlen sino - 2 <= j -> vat out j = vat sino j) /\
    ((1 <= vat mask j)%Q -> 2 <= j < vlen sino - 2 ->
       exists a b, a < j < b /\ 0 <= a /\ b < vlen sino /\ (vat mask a < 1)%Q /\ (vat mask b < 1)%Q /\
         (forall k, a < k < b -> (1 <= vat mask k)%Q) /\
         on_line a (vat sino a) b (vat sino b) j (vat out j)).
Proof.
  intros Hl Hn G0 G1. unfold remove_blob_1d.
  set (good := fun j => Qltb (vat mask j) 1).
  assert (Hg0 : good 0 = true) by (apply Qltb_lt; exact G0).
  assert (Hg1 : good (vlen sino - 1) = true) by (apply Qltb_lt; exact G1).
  rewrite (count_pos good (vlen sino) 0) by (unfold in_rng; lia || exact Hg0). cbn [negb].
  set (mask' := clear_mask_ends mask).
  assert (Hm : forall j, in_rng (vlen sino) j -> vat mask' j = if (j <? 2) || (vlen sino - 2 <=? j) then 0%Q else vat mask j).
  { intros j Hj. unfold mask'. rewrite clear_ends; rewrite ?Hl; auto. }
  set (miss := fun j => Qltb 0 (vat mask' j)).
  assert (Hb : forallb (fun j => bracketed good (vlen sino) j) (filter miss (zrange 0 (vlen sino))) = true).
  { apply forallb_forall. intros j Hj. apply filter_In in Hj as [Hj _]. apply zrange_In in Hj.
    unfold bracketed. apply andb_true_iff. split; apply existsb_exists.
    - exists 0. split; [apply zrange_In; lia|exact Hg0].
    - exists (vlen sino - 1). split; [apply zrange_In; lia|exact Hg1]. }
  rewrite Hb. eexists. eexists. split; [reflexivity|]. cbn [vlen vat]. split; [reflexivity|].
  intros j Hj. change (Qltb 0 (vat mask' j)) with (miss j). unfold in_rng in Hj. split.
  - intros Hcase. destruct (miss j) eqn:Em; [|reflexivity].
    assert (Hgj : good j = true).
    { unfold miss in Em. rewrite Hm in Em by (unfold in_rng; lia). destruct ((j <? 2) || (vlen sino - 2 <=? j)) eqn:E; [discriminate|].
      destruct Hcase as [H|H]; [apply Qltb_lt; exact H|lia]. }
    unfold lin_interp.
    replace (Z.to_nat (j + 1)) with (S (Z.to_nat j)) by lia.
    replace (Z.to_nat (vlen sino - j)) with (S (Z.to_nat (vlen sino - j - 1))) by lia.
    cbn [knot_left knot_right]. rewrite Hgj. rewrite Z.eqb_refl. reflexivity.
  - intros Hmj Hin.
    assert (Hbad : good j = false).
    { unfold good. destruct (Qltb (vat mask j) 1) eqn:E; [|reflexivity]. apply Qltb_lt in E. lra. }
    assert (Hmiss : miss j = true).
    { unfold miss. rewrite Hm by (unfold in_rng; lia). replace ((j <? 2) || (vlen sino - 2 <=? j)) with false by lia. apply Qltb_lt. lra. }
    destruct (knot_left_spec good j (Z.to_nat (j + 1))) as (A1 & A2 & A3).
    { exists 0. split; [lia|assumption]. }
    destruct (knot_right_spec good j (Z.to_nat (vlen sino - j))) as (B1 & B2 & B3).
    { exists (vlen sino - 1). split; [lia|assumption]. }
    rewrite Hmiss. unfold lin_interp.
    set (a := knot_left good j (Z.to_nat (j + 1))) in *. set (b := knot_right good j (Z.to_nat (vlen sino - j))) in *.
    assert (a <> j) by congruence. assert (b <> j) by congruence.
    exists a, b. split; [lia|]. split; [lia|]. split; [lia|].
    split; [apply Qltb_lt; exact A2|]. split; [apply Qltb_lt; exact B2|]. split.
    { intros k Hk. assert (Hkb : good k = false).
      { destruct (Z.le_gt_cases k j); [apply A3|apply B3]; lia. }
      apply Qltb_f. exact Hkb. }
    replace (a =? b) with false by lia. unfold on_line.
    assert (Hne : ~ (inject_Z (b - a) == 0)%Q) by (apply inject_Z_neq0; lia).
    field. exact Hne.
Qed.
(** a masked pixel with no unmasked pixel on one side makes the call fail *)
Lemma blob_1d_fails sino mask j :
  vlen mask = vlen sino -> 2 <= j < vlen sino - 2 -> (1 <= vat mask j)%Q ->
  (forall k, 0 <= k <= j -> (1 <= vat mask k)%Q) \/ (forall k, j <= k < vlen sino -> (1 <= vat mask k)%Q) ->
  is_ok (fst (remove_blob_1d sino mask)) = false.
Proof.
  intros Hl Hj Hmj Hside. unfold remove_blob_1d.
  destruct (existsb _ _); cbn [negb]; [|reflexivity].
  set (good := fun j => Qltb (vat mask j) 1).
  assert (Hgood : forall k, (1 <= vat mask k)%Q -> good k = false).
  { intros k Hk. unfold good. destruct (Qltb (vat mask k) 1) eqn:E; [|reflexivity]. apply Qltb_lt in E. lra. }
  assert (Hb : bracketed good (vlen sino) j = false).
  { unfold bracketed. apply andb_false_iff. destruct Hside as [H|H]; [left|right];
    match goal with |- existsb ?f ?l = false => destruct (existsb f l) eqn:E; [|reflexivity] end;
    apply existsb_exists in E as (k & Hk & Hg); apply zrange_In in Hk; rewrite Hgood in Hg by (apply H; lia); discriminate. }
  assert (Hin : In j (filter (fun j => Qltb 0 (vat (clear_mask_ends mask) j)) (zrange 0 (vlen sino)))).
  { apply filter_In. split; [apply zrange_In; lia|]. rewrite clear_ends by (unfold in_rng; lia).
    rewrite Hl. replace ((j <? 2) || (vlen sino - 2 <=? j)) with false by lia. apply Qltb_lt. lra. }
  match goal with |- context [forallb ?f ?l] => destruct (forallb f l) eqn:E; [|reflexivity] end.
  rewrite forallb_forall in E. rewrite (E j Hin) in Hb. discriminate.
Qed.
