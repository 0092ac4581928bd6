From Verif Require Import Np P_Np M_utility S_utility.
From Coq Require Import QArith Qround Qabs Permutation Lqa String.
From Coq Require Import List. Import ListNotations.
Open Scope Z_scope.

(** ** C15 *)
Lemma run_fold {V W} (f : img V -> img W) d axis order s k :
  fold_left (run_task f d axis) order s k =
  if existsb (Z.eqb k) order then Some (f (vslice_axis d axis k)) else s k.
Proof.
  revert s. induction order as [|i t IH]; intros s; cbn; [reflexivity|].
  rewrite IH. unfold run_task at 1. destruct (k =? i) eqn:E; cbn.
  - apply Z.eqb_eq in E. subst. destruct (existsb _ t); reflexivity.
  - reflexivity.
Qed.
Lemma run_parallel_perm {V W} (f : img V -> img W) d axis order :
  Permutation (zrange 0 (slices_count d axis)) order ->
  run_parallel f d axis order =
  map (fun i => Some (f (vslice_axis d axis i))) (zrange 0 (slices_count d axis)).
Proof.
  intros P. unfold run_parallel. apply map_ext_in. intros k Hk.
  rewrite run_fold. replace (existsb (Z.eqb k) order) with true; [reflexivity|].
  symmetry. apply existsb_exists. exists k. split; [eapply Permutation_in; eauto | apply Z.eqb_refl].
Qed.
Lemma all_some_map {A B} (f : A -> B) l : all_some (map (fun i => Some (f i)) l) = Some (map f l).
Proof. induction l; cbn; [reflexivity|]. rewrite IHl. reflexivity. Qed.

Lemma pps_seq {V W} (f : img V -> img W) d axis order :
  Permutation (zrange 0 (slices_count d axis)) order ->
  parallel_process_slices f d axis order =
  stack_axis axis (map (fun i => f (vslice_axis d axis i)) (zrange 0 (slices_count d axis))).
Proof.
  intros P. unfold parallel_process_slices. rewrite run_parallel_perm by assumption.
  rewrite (all_some_map (fun i => f (vslice_axis d axis i))). reflexivity.
Qed.
Lemma pps_schedule {V W} (f : img V -> img W) d axis o1 o2 :
  Permutation (zrange 0 (slices_count d axis)) o1 ->
  Permutation (zrange 0 (slices_count d axis)) o2 ->
  parallel_process_slices f d axis o1 = parallel_process_slices f d axis o2.
Proof. intros. rewrite !pps_seq by assumption. reflexivity. Qed.

Lemma zrange_cons0 n : 0 < n -> zrange 0 n = 0 :: zrange 1 (n - 1).
Proof.
  intros. unfold zrange. replace (Z.to_nat n) with (S (Z.to_nat (n - 1))) by lia.
  cbn [seq map]. f_equal. rewrite <- seq_shift, map_map. apply map_ext. intros; lia.
Qed.

Lemma nth_map_zrange {A} (g : Z -> A) n d i : 0 <= i < n ->
  nth (Z.to_nat i) (map g (zrange 0 n)) d = g i.
Proof.
  intros. unfold zrange. rewrite map_map.
  rewrite (nth_indep _ d (g (0 + Z.of_nat 0))) by (rewrite map_length, seq_length; lia).
  rewrite (map_nth (fun k => g (0 + Z.of_nat k)) (seq 0 (Z.to_nat n)) 0%nat).
  rewrite seq_nth by lia. f_equal. lia.
Qed.

Lemma pps_correct {V W} (f : img V -> img W) (d : vol V) axis order r c :
  (axis = 0 \/ axis = 1 \/ axis = 2) ->
  Permutation (zrange 0 (slices_count d axis)) order ->
  0 < slices_count d axis ->
  (forall i, in_rng (slices_count d axis) i ->
     nrow (f (vslice_axis d axis i)) = r /\ ncol (f (vslice_axis d axis i)) = c) ->
  exists out, parallel_process_slices f d axis order = Ok out /\
    slices_count out axis = slices_count d axis /\
    forall i, in_rng (slices_count d axis) i ->
      img_eq (vslice_axis out axis i) (f (vslice_axis d axis i)).
Proof.
  intros Hax P Hn Hsh. rewrite pps_seq by assumption.
  set (n := slices_count d axis) in *.
  assert (Hall : forallb (fun m => (nrow m =? nrow (f (vslice_axis d axis 0))) &&
                    (ncol m =? ncol (f (vslice_axis d axis 0))))
                  (map (fun i => f (vslice_axis d axis i)) (zrange 0 n)) = true).
  { apply forallb_forall. intros m Hm. apply in_map_iff in Hm as (i & <- & Hi).
    apply zrange_In in Hi. destruct (Hsh i) as [-> ->]; [unfold in_rng; lia|].
    destruct (Hsh 0) as [-> ->]; [unfold in_rng; lia|]. lia. }
  unfold stack_axis.
  rewrite (zrange_cons0 n Hn). cbn [map].
  change (f (vslice_axis d axis 0) :: map (fun i => f (vslice_axis d axis i)) (zrange 1 (n - 1)))
    with (map (fun i => f (vslice_axis d axis i)) (0 :: zrange 1 (n - 1))).
  rewrite <- (zrange_cons0 n Hn). rewrite Hall.
  eexists. split; [reflexivity|].
  assert (Hlen : Z.of_nat (length (map (fun i => f (vslice_axis d axis i)) (zrange 0 n))) = n)
    by (rewrite map_length, zrange_length; lia).
  rewrite Hlen. destruct (Hsh 0) as [Hr Hc]; [unfold in_rng; lia|].
  clear Hall Hlen P. clearbody n.
  remember (fun i => f (vslice_axis d axis i)) as g eqn:Eg.
  assert (G : forall i, f (vslice_axis d axis i) = g i) by (intros; subst g; reflexivity).
  rewrite !G in *. clear Eg.
  destruct Hax as [->|[->| ->] ]; (split; [reflexivity|]); intros i Hi;
    destruct (Hsh i Hi) as [Hri Hci]; rewrite G in *; unfold vslice_axis; cbn;
    (split; [cbn; congruence | split; [cbn; congruence|]]); intros a b Ha Hb; cbn;
    rewrite (nth_map_zrange g) by exact Hi; reflexivity.
Qed.

Lemma pps_identity {V} (d : vol V) axis order :
  (axis = 0 \/ axis = 1 \/ axis = 2) ->
  Permutation (zrange 0 (slices_count d axis)) order ->
  0 < slices_count d axis ->
  0 <= dep d -> 0 <= hei d -> 0 <= wid d ->
  exists out, parallel_process_slices (fun m => m) d axis order = Ok out /\ vol_eq out d.
Proof.
  intros Hax P Hn H1 H2 H3.
  rewrite pps_seq by assumption.
  set (n := slices_count d axis) in *.
  unfold stack_axis. rewrite (zrange_cons0 n Hn). cbn [map].
  change (vslice_axis d axis 0 :: map (fun i => vslice_axis d axis i) (zrange 1 (n - 1)))
    with (map (fun i => vslice_axis d axis i) (0 :: zrange 1 (n - 1))).
  rewrite <- (zrange_cons0 n Hn).
  assert (Hall : forallb (fun m => (nrow m =? nrow (vslice_axis d axis 0)) &&
                    (ncol m =? ncol (vslice_axis d axis 0)))
                  (map (fun i => vslice_axis d axis i) (zrange 0 n)) = true).
  { apply forallb_forall. intros m Hm. apply in_map_iff in Hm as (i & <- & Hi).
    destruct Hax as [->|[->| ->] ]; cbn; lia. }
  rewrite Hall. eexists. split; [reflexivity|].
  assert (Hlen : Z.of_nat (length (map (fun i => vslice_axis d axis i) (zrange 0 n))) = n)
    by (rewrite map_length, zrange_length; lia).
  rewrite Hlen.
  destruct Hax as [->|[->| ->] ]; unfold n, slices_count in *; cbn [Z.eqb Pos.eqb] in *;
    (split; [reflexivity | split; [reflexivity | split; [reflexivity|]]]);
    intros a b k Ha Hb Hk; cbn [vx dep hei wid] in *.
  - rewrite (nth_map_zrange (fun i => vslice_axis d 0 i)) by exact Ha. reflexivity.
  - rewrite (nth_map_zrange (fun i => vslice_axis d 1 i)) by exact Hb. reflexivity.
  - rewrite (nth_map_zrange (fun i => vslice_axis d 2 i)) by exact Hk. reflexivity.
Qed.

(** ** C16 *)
(** a strictly increasing map from [0,n) into [0,n) is the identity *)
Lemma increasing_id n (p : Z -> Z) :
  (forall k, 0 <= k < n -> 0 <= p k < n) ->
  (forall a b, 0 <= a -> a < b -> b < n -> p a < p b) ->
  forall k, 0 <= k < n -> p k = k.
Proof.
  intros Hr Hi.
  assert (Hlo : forall k, 0 <= k -> k < n -> k <= p k).
  { intros k Hk. pattern k. apply natlike_ind; [| |exact Hk].
    - intros. apply Hr. lia.
    - intros x Hx IH Hlt. assert (p x < p (Z.succ x)) by (apply Hi; lia). lia. }
  assert (Hhi : forall m, 0 <= m -> m < n -> p (n - 1 - m) <= n - 1 - m).
  { intros m Hm. pattern m. apply natlike_ind; [| |exact Hm].
    - intros. specialize (Hr (n - 1 - 0)). lia.
    - intros x Hx IH Hlt. assert (p (n - 1 - Z.succ x) < p (n - 1 - x)) by (apply Hi; lia). lia. }
  intros k Hk. specialize (Hlo k). specialize (Hhi (n - 1 - k)).
  replace (n - 1 - (n - 1 - k)) with k in Hhi by lia. lia.
Qed.

Lemma inverse_perm n (p q : Z -> Z) :
  is_argsort (mkvec n (fun k => inject_Z (p k))) q ->
  (forall k, in_rng n k -> in_rng n (p k)) ->
  (forall a b, in_rng n a -> in_rng n b -> p a = p b -> a = b) ->
  forall k, in_rng n k -> q (p k) = k.
Proof.
  intros (Hq1 & Hq2 & Hq3) Hp1 Hp2 k Hk. cbn in *. unfold in_rng in *.
  assert (Hid : forall k, 0 <= k < n -> p (q k) = k).
  { apply increasing_id; [intros; apply Hp1, Hq1; assumption|].
    intros a b Ha Hab Hb. specialize (Hq3 a b Ha Hab Hb).
    rewrite <- Zle_Qle in Hq3.
    assert (p (q a) <> p (q b)); [|lia].
    intros E. apply Hp2 in E; [|apply Hq1; lia|apply Hq1; lia].
    apply Hq2 in E; lia. }
  apply Hp2; [apply Hq1, Hp1; assumption | assumption|]. apply Hid, Hp1, Hk.
Qed.

Section sorting.
Context (asort : argsort_fn) (Hs : forall v, is_argsort v (asort v)).

Lemma sb_rows m g i k :
  nrow g = nrow m -> ncol g = ncol m -> in_rng (nrow m) i -> in_rng (ncol m) k ->
  let x := snd (sort_forward_rows asort m) in
  px (sort_backward_rows asort g x) i (asort (irow m i) k) = px g i k.
Proof.
  intros Hr Hc Hi Hk. cbn.
  destruct (Hs (irow m i)) as (H1 & H2 & H3).
  rewrite (inverse_perm (ncol m) (asort (irow m i))); auto.
Qed.

Lemma sort_forward_spec m axis : (axis = 0 \/ axis = 1) ->
  let s := fst (sort_forward asort m axis) in let x := snd (sort_forward asort m axis) in
  let n := if axis =? 0 then nrow m else ncol m in       (* length of the sorted lines *)
  let lines := if axis =? 0 then ncol m else nrow m in
  let at_ := fun (a : img Q) l k => if axis =? 0 then px a k l else px a l k in
  (nrow s = nrow m /\ ncol s = ncol m /\ nrow x = nrow m /\ ncol x = ncol m) /\
  forall l, in_rng lines l ->
  exists p,
    (forall k, in_rng n k -> in_rng n (p k)) /\
    (forall a b, in_rng n a -> in_rng n b -> p a = p b -> a = b) /\
    (forall k, in_rng n k -> at_ x l k = inject_Z (p k) /\ at_ s l k = at_ m l (p k)) /\
    (forall a b, 0 <= a -> a < b -> b < n -> (at_ s l a <= at_ s l b)%Q) /\
    (forall g, nrow g = nrow m -> ncol g = ncol m -> forall k, in_rng n k ->
       at_ (sort_backward asort g x axis) l (p k) = at_ g l k).
Proof.
  intros [->| ->]; cbn -[sort_forward_rows sort_backward_rows].
  - split; [cbn; auto|]. intros l Hl.
    exists (asort (irow (itrans m) l)). destruct (Hs (irow (itrans m) l)) as (H1 & H2 & H3). cbn in *.
    split; [exact H1|]. split; [exact H2|]. split; [auto|]. split; [exact H3|].
    intros g Hgr Hgc k Hk. apply (sb_rows (itrans m) (itrans g) l k); cbn; auto.
  - split; [cbn; auto|]. intros l Hl.
    exists (asort (irow m l)). destruct (Hs (irow m l)) as (H1 & H2 & H3). cbn in *.
    split; [exact H1|]. split; [exact H2|]. split; [auto|]. split; [exact H3|].
    intros g Hgr Hgc k Hk. apply (sb_rows m g l k); auto.
Qed.

(** every index is hit by an injective self-map of [0,n) *)
Lemma inj_surj n p :
  (forall k, in_rng n k -> in_rng n (p k)) ->
  (forall a b, in_rng n a -> in_rng n b -> p a = p b -> a = b) ->
  forall k, in_rng n k -> exists l, in_rng n l /\ p l = k.
Proof.
  clear. intros H1 H2 k Hk. unfold in_rng in *.
  assert (Hin : In k (map p (zrange 0 n))).
  { apply (NoDup_length_incl (l := map p (zrange 0 n)) (l' := zrange 0 n)).
    - apply NoDup_nth_error. intros a b Ha E.
      rewrite map_length, zrange_length in Ha.
      assert (Hb : (b < length (map p (zrange 0 n)))%nat).
      { apply nth_error_Some. rewrite <- E. apply nth_error_Some. rewrite map_length, zrange_length. lia. }
      rewrite map_length, zrange_length in Hb.
      rewrite !nth_error_map in E.
      assert (Hz : forall c, (c < Z.to_nat n)%nat -> nth_error (zrange 0 n) c = Some (Z.of_nat c)).
      { intros c Hc. unfold zrange. rewrite nth_error_map.
        rewrite (nth_error_nth' _ 0%nat) by (rewrite seq_length; lia).
        rewrite seq_nth by lia. reflexivity. }
      rewrite !Hz in E by lia. cbn in E. injection E as E.
      apply H2 in E; lia.
    - rewrite map_length. lia.
    - intros y Hy. apply in_map_iff in Hy as (a & <- & Ha). apply zrange_In in Ha. apply zrange_In.
      specialize (H1 a). lia.
    - apply zrange_In. lia. }
  apply in_map_iff in Hin as (l & E & Hl). apply zrange_In in Hl. exists l. split; [lia|assumption].
Qed.

Lemma sort_roundtrip m axis : (axis = 0 \/ axis = 1) ->
  img_eq (sort_backward asort (fst (sort_forward asort m axis)) (snd (sort_forward asort m axis)) axis) m.
Proof.
  intros Hax. destruct (sort_forward_spec m axis Hax) as ((S1 & S2 & S3 & S4) & H).
  set (s := fst (sort_forward asort m axis)) in *. set (x := snd (sort_forward asort m axis)) in *.
  split; [|split].
  - destruct Hax as [->| ->]; cbn; assumption.
  - destruct Hax as [->| ->]; cbn; assumption.
  - intros i j Hi Hj.
    destruct Hax as [->| ->]; cbn in Hi, Hj; rewrite ?S1, ?S2 in *; cbn [Z.eqb] in H.
    + destruct (H j Hj) as (p & H1 & H2 & H3 & H4 & H5).
      destruct (inj_surj (nrow m) p H1 H2 i Hi) as (l & Hl & <-).
      rewrite (H5 s S1 S2 l Hl). apply (H3 l Hl).
    + destruct (H i Hi) as (p & H1 & H2 & H3 & H4 & H5).
      destruct (inj_surj (ncol m) p H1 H2 j Hj) as (l & Hl & <-).
      rewrite (H5 s S1 S2 l Hl). apply (H3 l Hl).
Qed.
End sorting.

(** ** C17 *)
Lemma circle_mask width ratio i j :
  (0 <= ratio)%Q -> in_rng width i -> in_rng width j ->
  let dx := j - width / 2 in let dy := i - width / 2 in
  let r := (ratio * inject_Z (width / 2))%Q in
  nrow (make_circle_mask width ratio) = width /\ ncol (make_circle_mask width ratio) = width /\
  ((inject_Z (dx * dx + dy * dy) <= r * r)%Q -> px (make_circle_mask width ratio) i j = 1%Q) /\
  ((r * r < inject_Z (dx * dx + dy * dy))%Q -> px (make_circle_mask width ratio) i j = 0%Q).
Proof.
  intros Hr Hi Hj. cbn. repeat split; intros H.
  - replace (Qle_bool _ _) with true; [reflexivity|]. symmetry. apply Qle_bool_iff. exact H.
  - destruct (Qle_bool _ _) eqn:E; [|reflexivity]. apply Qle_bool_iff in E. lra.
Qed.

(** ** C18 *)
Lemma knot_left_spec good x fuel :
  (exists y, x - Z.of_nat fuel < y <= x /\ good y = true) ->
  let a := knot_left good x fuel in
  x - Z.of_nat fuel < a <= x /\ good a = true /\ forall z, a < z <= x -> good z = false.
Proof.
  revert x. induction fuel as [|f IH]; intros x (y & Hy & Hg); [lia|].
  cbn. destruct (good x) eqn:E.
  - split; [lia|]. split; [assumption|]. intros; lia.
  - destruct (IH (x - 1)) as (H1 & H2 & H3).
    { exists y. split; [|assumption]. assert (y <> x) by congruence. lia. }
    cbn in *. split; [lia|]. split; [assumption|].
    intros z Hz. destruct (Z.eq_dec z x); [congruence|]. apply H3. lia.
Qed.
Lemma knot_right_spec good x fuel :
  (exists y, x <= y < x + Z.of_nat fuel /\ good y = true) ->
  let a := knot_right good x fuel in
  x <= a < x + Z.of_nat fuel /\ good a = true /\ forall z, x <= z < a -> good z = false.
Proof.
  revert x. induction fuel as [|f IH]; intros x (y & Hy & Hg); [lia|].
  cbn. destruct (good x) eqn:E.
  - split; [lia|]. split; [assumption|]. intros; lia.
  - destruct (IH (x + 1)) as (H1 & H2 & H3).
    { exists y. split; [|assumption]. assert (y <> x) by congruence. lia. }
    cbn in *. split; [lia|]. split; [assumption|].
    intros z Hz. destruct (Z.eq_dec z x); [congruence|]. apply H3. lia.
Qed.

Lemma clear_ends mask j : 2 <= vlen mask -> in_rng (vlen mask) j ->
  vat (clear_mask_ends mask) j = if (j <? 2) || (vlen mask - 2 <=? j) then 0%Q else vat mask j.
Proof.
  intros H Hj. unfold clear_mask_ends, py_adj, in_rng in *. cbn [vat vlen].
  change (2 <? 0) with false. change (-2 <? 0) with true. cbv iota.
  replace (Z.min 2 (vlen mask)) with 2 by lia.
  replace (Z.max (-2 + vlen mask) 0) with (vlen mask - 2) by lia. reflexivity.
Qed.

Definition clears (mask : vec Q) (j : Z) : bool := (j <? 2) || (vlen mask - 2 <=? j).

Lemma stripe_interp m mask :
  vlen mask = ncol m -> 2 <= nrow m -> 2 <= ncol m ->
  exists out, interpolate_inside_stripe m mask = Ok out /\
    nrow out = nrow m /\ ncol out = ncol m /\
    forall j, in_rng (ncol m) j ->
      ((vat mask j < 1)%Q \/ j < 2 \/ ncol m - 2 <= j ->
         forall i, in_rng (nrow m) i -> px out i j = px m i j) /\
      ((1 <= vat mask j)%Q -> 2 <= j < ncol m - 2 ->
         exists a b, a < j < b /\ 0 <= a /\ b < ncol m /\
           ((vat mask a < 1)%Q \/ a < 2) /\ ((vat mask b < 1)%Q \/ ncol m - 2 <= b) /\
           (forall k, a < k < b -> 2 <= k < ncol m - 2 /\ (1 <= vat mask k)%Q) /\
           forall i, in_rng (nrow m) i -> on_line a (px m i a) b (px m i b) j (px out i j)).
Proof.
  intros Hl Hr Hc. unfold interpolate_inside_stripe.
  replace (vlen mask =? ncol m) with true by lia. cbn [negb].
  set (mask' := clear_mask_ends mask).
  assert (Hm : forall j, in_rng (ncol m) j ->
     vat mask' j = if (j <? 2) || (ncol m - 2 <=? j) then 0%Q else vat mask j).
  { intros j Hj. unfold mask'. rewrite clear_ends; rewrite ?Hl; auto. }
  set (good := fun j => Qltb (vat mask' j) 1).
  set (miss := fun j => Qltb 0 (vat mask' j)).
  assert (Hg0 : good 0 = true).
  { unfold good. rewrite Hm by (unfold in_rng; lia). reflexivity. }
  assert (Hg1 : good (ncol m - 1) = true).
  { unfold good. rewrite Hm by (unfold in_rng; lia).
    replace (ncol m - 2 <=? ncol m - 1) with true by lia. rewrite orb_true_r. reflexivity. }
  assert (Hcnt : 2 <= Z.of_nat (length (filter good (zrange 0 (ncol m))))).
  { assert (H : (length [0%Z; (ncol m - 1)%Z] <= length (filter good (zrange 0%Z (ncol m))))%nat).
    { apply NoDup_incl_length.
      - constructor; [cbn; lia|]. constructor; [cbn; tauto|constructor].
      - intros y [<-|[<-|[] ] ]; apply filter_In; split; auto; apply zrange_In; lia. }
    cbn in H. lia. }
  replace ((nrow m <? 2) || _) with false by lia.
  eexists. split; [reflexivity|]. cbn [nrow ncol px]. split; [reflexivity|]. split; [reflexivity|].
  intros j Hj. clearbody mask'.
  assert (Hgood : good j = true -> knot_left good j (Z.to_nat (j + 1)) = j /\
                  knot_right good j (Z.to_nat (ncol m - j)) = j).
  { intros Hgj. unfold in_rng in Hj.
    replace (Z.to_nat (j + 1)) with (S (Z.to_nat j)) by lia.
    replace (Z.to_nat (ncol m - j)) with (S (Z.to_nat (ncol m - j - 1))) by lia.
    cbn [knot_left knot_right]. rewrite Hgj. auto. }
  split.
  - intros Hcase i Hi. change (Qltb 0 (vat mask' j)) with (miss j). destruct (miss j) eqn:Em; [|reflexivity].
    assert (Hgj : good j = true).
    { unfold good. rewrite Hm by assumption. destruct ((j <? 2) || (ncol m - 2 <=? j)) eqn:E; [reflexivity|].
      destruct Hcase as [H|H]; [|lia]. apply Qltb_lt. exact H. }
    unfold lin_interp. destruct (Hgood Hgj) as [-> ->]. rewrite Z.eqb_refl. reflexivity.
  - intros Hmj Hin. unfold in_rng in Hj.
    assert (Hjm : vat mask' j = vat mask j).
    { rewrite Hm by (unfold in_rng; lia). replace ((j <? 2) || (ncol m - 2 <=? j)) with false by lia. reflexivity. }
    assert (Hbad : good j = false).
    { unfold good. rewrite Hjm. destruct (Qltb (vat mask j) 1) eqn:E; [|reflexivity].
      apply Qltb_lt in E. lra. }
    assert (Hmiss : miss j = true).
    { unfold miss. rewrite Hjm. apply Qltb_lt. lra. }
    destruct (knot_left_spec good j (Z.to_nat (j + 1))) as (A1 & A2 & A3).
    { exists 0. split; [lia|assumption]. }
    destruct (knot_right_spec good j (Z.to_nat (ncol m - j))) as (B1 & B2 & B3).
    { exists (ncol m - 1). split; [lia|assumption]. }
    set (a := knot_left good j (Z.to_nat (j + 1))) in *.
    set (b := knot_right good j (Z.to_nat (ncol m - j))) in *.
    cbn zeta in *.
    assert (a <> j) by congruence. assert (b <> j) by congruence.
    exists a, b. split; [lia|]. split; [lia|]. split; [lia|].
    assert (Hgm : forall k, in_rng (ncol m) k -> good k = true ->
               (vat mask k < 1)%Q \/ k < 2 \/ ncol m - 2 <= k).
    { intros k Hk. unfold good. rewrite Hm by assumption.
      destruct ((k <? 2) || (ncol m - 2 <=? k)) eqn:E; [intros; right; lia|].
      intros G. left. apply Qltb_lt. exact G. }
    split. { destruct (Hgm a) as [H1|[H1|H1] ]; unfold in_rng; auto; lia. }
    split. { destruct (Hgm b) as [H1|[H1|H1] ]; unfold in_rng; auto; lia. }
    split.
    { intros k Hk. assert (Hkb : good k = false).
      { destruct (Z.le_gt_cases k j); [apply A3|apply B3]; lia. }
      unfold good in Hkb. rewrite Hm in Hkb by (unfold in_rng; lia).
      destruct ((k <? 2) || (ncol m - 2 <=? k)) eqn:E; [discriminate|]. split; [lia|].
      destruct (Qlt_le_dec (vat mask k) 1) as [G|G]; [|exact G].
      apply Qltb_lt in G. congruence. }
    intros i Hi. change (Qltb 0 (vat mask' j)) with (miss j). rewrite Hmiss. unfold lin_interp. fold a b.
    replace (a =? b) with false by lia. unfold on_line.
    assert (Hne : ~ (inject_Z (b - a) == 0)%Q) by (apply inject_Z_neq0; lia).
    field. exact Hne.
Qed.
Lemma stripe_bad_length m mask : vlen mask <> ncol m ->
  interpolate_inside_stripe m mask = Err ValueError.
Proof. intros H. unfold interpolate_inside_stripe. replace (vlen mask =? ncol m) with false by lia. reflexivity. Qed.

(** ** C22 *)
Lemma separate_sum sw lp m axis w : (axis = 0 \/ axis = 1) ->
  match w with WSeq v => vlen v = (if axis =? 0 then nrow m else ncol m) | WDict _ _ => True end ->
  exists a b, separate_frequency_component sw lp m axis w = Ok (a, b) /\
    nrow a = nrow m /\ ncol a = ncol m /\ nrow b = nrow m /\ ncol b = ncol m /\
    forall i j, (px a i j + px b i j == px m i j)%Q.
Proof.
  intros Hax Hw. unfold separate_frequency_component, separate_rows.
  destruct Hax as [->| ->]; cbn [Z.eqb] in *; destruct w as [n p|v]; cbn in *;
    try (replace (vlen v =? _) with true by lia); cbn;
    eexists; eexists; (split; [reflexivity|]); cbn; repeat split; intros; ring.
Qed.
Lemma separate_bad sw lp m axis v : (axis = 0 \/ axis = 1) ->
  vlen v <> (if axis =? 0 then nrow m else ncol m) ->
  separate_frequency_component sw lp m axis (WSeq v) = Err ValueError.
Proof.
  intros Hax Hw. unfold separate_frequency_component, separate_rows.
  destruct Hax as [->| ->]; cbn [Z.eqb] in *; cbn; replace (vlen v =? _) with false by lia; reflexivity.
Qed.

(** ** C23 *)
Lemma check_level_ok level n ls : check_level level n = Ok ls -> forall l, In l ls -> 1 <= l <= n.
Proof.
  destruct level; cbn; intros H x Hx.
  - injection H as <-. apply prange_In in Hx. lia.
  - destruct ((0 <? n0) && (n0 <=? n)) eqn:E; [|discriminate]. injection H as <-. destruct Hx as [<-|[] ]. lia.
  - destruct (existsb _ _) eqn:E; [discriminate|]. injection H as <-.
    apply in_map_iff in Hx as (y & <- & Hy).
    assert (Hz : (if (0 <? y) && (y <=? n) then y else 0) <> 0).
    { intros Z0. assert (existsb (Z.eqb 0) (map (fun i => if (0 <? i) && (i <=? n) then i else 0) l) = true).
      { apply existsb_exists. exists 0. split; [|reflexivity]. apply in_map_iff. eauto. }
      congruence. }
    destruct ((0 <? y) && (y <=? n)) eqn:E2; lia.
  - discriminate.
Qed.
Lemma check_level_iff level n :
  match level with
  | LNone => check_level level n = Ok (prange 1 (n + 1))
  | LInt l => if (1 <=? l) && (l <=? n) then check_level level n = Ok [l] else check_level level n = Err ValueError
  | LSeq l => (Forall (fun x => 1 <= x <= n) l -> check_level level n = Ok l) /\
              (Exists (fun x => ~ (1 <= x <= n)) l -> check_level level n = Err ValueError)
  | LOther => check_level level n = Err ValueError
  end.
Proof.
  destruct level; cbn; try reflexivity.
  - replace (0 <? n0) with (1 <=? n0) by lia. destruct ((1 <=? n0) && (n0 <=? n)); reflexivity.
  - split.
    + intros H. assert (E : map (fun i => if (0 <? i) && (i <=? n) then i else 0) l = l).
      { induction H; cbn; [reflexivity|]. rewrite IHForall. replace ((0 <? x) && (x <=? n)) with true by lia. reflexivity. }
      rewrite E. replace (existsb (Z.eqb 0) l) with false; [reflexivity|]. symmetry.
      destruct (existsb (Z.eqb 0) l) eqn:X; [|reflexivity].
      apply existsb_exists in X as (y & Hy & X). rewrite Forall_forall in H. specialize (H y Hy). lia.
    + intros H. replace (existsb _ _) with true; [reflexivity|]. symmetry. apply existsb_exists.
      exists 0. split; [|reflexivity]. apply Exists_exists in H as (y & Hy & H).
      apply in_map_iff. exists y. split; [|assumption]. destruct ((0 <? y) && (y <=? n)) eqn:E; [lia|reflexivity].
Qed.

Lemma combine_zrange_nth {A} (l : list A) k a : nth_error l k = Some a ->
  nth_error (combine (zrange 0 (Z.of_nat (length l))) l) k = Some (Z.of_nat k, a).
Proof.
  intros H.
  assert (Hk : (k < length l)%nat) by (apply nth_error_Some; congruence).
  assert (G : forall (l1 : list Z) (l2 : list A) k x y, nth_error l1 k = Some x -> nth_error l2 k = Some y ->
            nth_error (combine l1 l2) k = Some (x, y)).
  { clear. induction l1; intros [|b l2] [|k] x y H1 H2; cbn in *; try discriminate; [congruence|].
    apply IHl1; assumption. }
  apply G; [|assumption]. unfold zrange. rewrite nth_error_map.
  rewrite (nth_error_nth' _ 0%nat) by (rewrite seq_length; lia). rewrite seq_nth by lia. reflexivity.
Qed.
Lemma upd_nth_length {A} k (a : A) l : length (upd_nth k a l) = length l.
Proof. unfold upd_nth. rewrite map_length, combine_length, zrange_length. lia. Qed.
Lemma upd_nth_nth {A} k (a : A) l n b : nth_error l n = Some b ->
  nth_error (upd_nth k a l) n = Some (if Z.of_nat n =? k then a else b).
Proof.
  intros H. unfold upd_nth. rewrite nth_error_map, (combine_zrange_nth l n b H). reflexivity.
Qed.
Lemma wavelet_ignore_exact {C} (zeros : C -> C) data k :
  1 <= k <= Z.of_nat (length data) - 1 ->
  exists out, wavelet_ignore zeros data (Some k) = Ok out /\ length out = length data /\
    forall n c, nth_error data n = Some c ->
      nth_error out n = Some (if Z.of_nat n =? Z.of_nat (length data) - k then zeros c else c).
Proof.
  intros H. unfold wavelet_ignore.
  replace ((k <=? Z.of_nat (length data) - 1) && (0 <? k)) with true by lia.
  unfold py_idx. replace ((0 <=? - k) && _) with false by lia.
  replace ((- Z.of_nat (length data) <=? - k) && (- k <? 0)) with true by lia.
  cbn [bindr].
  destruct (nth_error data (Z.to_nat (- k + Z.of_nat (length data)))) as [c0|] eqn:E.
  2:{ apply nth_error_None in E. lia. }
  eexists. split; [reflexivity|]. split; [apply upd_nth_length|].
  intros n c Hn. rewrite (upd_nth_nth _ _ _ _ _ Hn).
  replace (- k + Z.of_nat (length data)) with (Z.of_nat (length data) - k) in * by lia.
  destruct (Z.of_nat n =? Z.of_nat (length data) - k) eqn:E2; [|reflexivity].
  replace n with (Z.to_nat (Z.of_nat (length data) - k)) in Hn by lia. congruence.
Qed.
Lemma wavelet_ignore_other {C} (zeros : C -> C) data k :
  k < 1 \/ Z.of_nat (length data) - 1 < k ->
  wavelet_ignore zeros data (Some k) = Ok data.
Proof. intros H. unfold wavelet_ignore. replace (_ && _) with false by lia. reflexivity. Qed.

(** filter_wavelet: with distinct levels each requested detail is filtered once, the others kept *)
Lemma filter_wavelet_spec {A} (filt : A -> A) details level order ls :
  check_level level (Z.of_nat (length details)) = Ok ls -> NoDup ls ->
  exists out, filter_wavelet filt details level order = Ok out /\ length out = length details /\
    forall n t, nth_error details n = Some t ->
      nth_error out n = Some (if existsb (Z.eqb (Z.of_nat n + 1)) ls
                              then upd_triple (clipZ order 0 2) filt t else t).
Proof.
  intros Hc Hnd. unfold filter_wavelet. rewrite Hc. cbn [bindr].
  pose proof (check_level_ok _ _ _ Hc) as Hr. clear Hc.
  eexists. split; [reflexivity|].
  set (o := clipZ order 0 2). clearbody o.
  revert details Hr. induction Hnd as [|i t Hni Hnd IH]; intros d Hr.
  { cbn. split; [reflexivity|]. intros n t Hn. exact Hn. }
  cbn [fold_left].
  destruct (nth_error d (Z.to_nat (i - 1))) as [t0|] eqn:E0.
  2:{ apply nth_error_None in E0. specialize (Hr i (or_introl eq_refl)). lia. }
  set (d' := upd_nth (i - 1) (upd_triple o filt t0) d).
  assert (Hl : length d' = length d) by apply upd_nth_length.
  destruct (IH d') as [IH1 IH2].
  { rewrite Hl. intros l H. apply Hr. right. exact H. }
  split; [rewrite IH1; exact Hl|].
  intros n t1 Hn.
  pose proof (upd_nth_nth (i - 1) (upd_triple o filt t0) d n t1 Hn) as Hu. fold d' in Hu.
  rewrite (IH2 _ _ Hu). f_equal. cbn [existsb].
  specialize (Hr i (or_introl eq_refl)).
  destruct (Z.of_nat n =? i - 1) eqn:E.
  - apply Z.eqb_eq in E. replace (Z.of_nat n + 1 =? i) with true by lia. cbn.
    replace (existsb (Z.eqb (Z.of_nat n + 1)) t) with false.
    + f_equal. replace (Z.to_nat (i - 1)) with n in E0 by lia. congruence.
    + symmetry. destruct (existsb _ t) eqn:X; [|reflexivity]. exfalso.
      apply existsb_exists in X as (y & Hy & Hy2). apply Z.eqb_eq in Hy2. apply Hni. replace i with y by lia. exact Hy.
  - replace (Z.of_nat n + 1 =? i) with false by lia. reflexivity.
Qed.

(** ** butterworth *)
Lemma butterworth_ok width height v win i j :
  0 <= v <= (height + 1) / 2 - 1 -> in_rng height i ->
  let c := (height + 1) / 2 - 1 in
  px (make_2d_butterworth_window width height v win) i j = if (Z.abs (i - c) <=? v) then win j else 1%Q.
Proof.
  intros Hv Hi. unfold make_2d_butterworth_window, butterworth_rows, in_rng in *. cbn.
  set (c := (height + 1) / 2 - 1) in *.
  assert (c < height) by (subst c; assert (height + 1 <= 2 * height) by lia; pose proof (Z.div_le_mono (height+1) (2 * height) 2 ltac:(lia) ltac:(lia)); replace (2 * height / 2) with height in * by (rewrite Z.mul_comm, Z.div_mul; lia); lia).
  unfold py_adj. replace (c - v <? 0) with false by lia. replace (c + v + 1 <? 0) with false by lia.
  replace ((Z.min (c - v) height <=? i) && (i <? Z.min (c + v + 1) height)) with (Z.abs (i - c) <=? v) by lia.
  reflexivity.
Qed.
Lemma butterworth_refuted : exists height v (win : Z -> Q) i,
  0 <= v /\ in_rng height i /\ Z.abs (i - ((height + 1) / 2 - 1)) <= v /\ (win 0%Z < 1)%Q /\
  px (make_2d_butterworth_window 1 height v win) i 0 = 1%Q.
Proof. exists 10, 5, (fun _ => (1#2)%Q), 4. cbn. unfold in_rng. repeat split; try lia; reflexivity. Qed.

(** ** spiral *)
Lemma mapr_length {A B} (f : A -> res B) l r : mapr f l = Ok r -> length r = length l.
Proof.
  revert r. induction l; cbn; intros r H; [injection H as <-; reflexivity|].
  destruct (f a); [|discriminate]. cbn in H. destruct (mapr f l); [|discriminate]. cbn in H.
  injection H as <-. cbn. f_equal. apply IHl. reflexivity.
Qed.
Lemma mapr_In {A B} (f : A -> res B) l r : mapr f l = Ok r -> forall b, In b r -> exists a, In a l /\ f a = Ok b.
Proof.
  revert r. induction l; cbn; intros r H b Hb; [injection H as <-; contradiction|].
  destruct (f a) eqn:E; [|discriminate]. cbn in H. destruct (mapr f l) eqn:E2; [|discriminate]. cbn in H.
  injection H as <-. destruct Hb as [<-|Hb]; [eauto|]. destruct (IHl _ eq_refl _ Hb) as (x & ? & ?). eauto.
Qed.
Lemma spiral_in_fov cs rt step num height width pos :
  0 <= num -> generate_spiral_positions cs rt step num height width = Ok pos ->
  Z.of_nat (length pos) = num /\
  forall x y, In (x, y) pos ->
    (Qabs x <= inject_Z (width / 2))%Q /\ (Qabs y <= inject_Z (height / 2))%Q.
Proof.
  intros Hn H. unfold generate_spiral_positions in H. split.
  - apply mapr_length in H. rewrite H, zrange_length. lia.
  - intros x y Hin. destruct (mapr_In _ _ _ H _ Hin) as (i & _ & E). cbv beta zeta in E.
    destruct (_ || _) eqn:G; [discriminate|].
    assert (E1 : (step * rt i * fst (cs i))%Q = x) by congruence.
    assert (E2 : (step * rt i * snd (cs i))%Q = y) by congruence. subst x y.
    apply orb_false_iff in G as [G1 G2].
    apply Qltb_f in G1. apply Qltb_f in G2. split; assumption.
Qed.
Lemma spiral_positions cs rt step num height width pos :
  0 <= num -> generate_spiral_positions cs rt step num height width = Ok pos ->
  Z.of_nat (length pos) = num /\
  forall n x y, nth_error pos n = Some (x, y) ->
    let i := Z.of_nat n in
    (x == step * rt i * fst (cs i))%Q /\ (y == step * rt i * snd (cs i))%Q /\
    (Qabs x <= inject_Z (width / 2))%Q /\ (Qabs y <= inject_Z (height / 2))%Q.
Proof.
  intros Hn H. destruct (spiral_in_fov _ _ _ _ _ _ _ Hn H) as [L F]. split; [exact L|].
  intros n x y Hxy i. destruct (F x y (nth_error_In _ _ Hxy)) as [F1 F2].
  unfold generate_spiral_positions in H. apply mapr_ok in H.
  assert (G : forall l pos, Forall2 (fun i o => (let r := (step * rt i)%Q in
    let x := (r * fst (cs i))%Q in let y := (r * snd (cs i))%Q in
    if Qltb (inject_Z (width / 2)) (Qabs.Qabs x) || Qltb (inject_Z (height / 2)) (Qabs.Qabs y)
    then Err ValueError else Ok (x, y)) = Ok o) l pos -> forall n x y, nth_error pos n = Some (x, y) ->
    exists i, nth_error l n = Some i /\ x = (step * rt i * fst (cs i))%Q /\ y = (step * rt i * snd (cs i))%Q).
  { induction 1 as [|a o l p E _ IH]; intros [|k] x' y' N; try discriminate.
    - cbn in N. injection N as ->. cbv zeta in E. destruct (_ || _); [discriminate|].
      exists a. split; [reflexivity|]. split; congruence.
    - apply IH in N. exact N. }
  destruct (G _ _ H _ _ _ Hxy) as (i' & N & -> & ->).
  assert (i' = i).
  { apply nth_error_nth with (d := 0) in N. rewrite zrange_nth in N; [lia|].
    assert (n < length pos)%nat by (apply nth_error_Some; rewrite Hxy; discriminate). lia. }
  subst i'. repeat split; assumption.
Qed.
