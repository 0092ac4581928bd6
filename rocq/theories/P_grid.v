From Verif Require Import Np P_Np M_utility S_utility P_utility.
From Coq Require Import QArith Qround Qabs Lqa.
From Coq Require Import List. Import ListNotations.
Open Scope Z_scope.

(** ** C21 *)
Lemma cells_order_In v nr nc i j : In (i, j) (cells_order v nr nc) <-> in_grid nr nc i j.
Proof.
  unfold cells_order, in_grid, in_rng. destruct v; rewrite in_flat_map; split.
  - intros (x & Hx & H). apply in_map_iff in H as (y & E & Hy). apply zrange_In in Hx, Hy.
    injection E as <- <-. lia.
  - intros [H1 H2]. exists i. split; [apply zrange_In; lia|]. apply in_map_iff. exists j.
    split; [reflexivity|apply zrange_In; lia].
  - intros (x & Hx & H). apply in_map_iff in H as (y & E & Hy). apply zrange_In in Hx, Hy.
    injection E as <- <-. lia.
  - intros [H1 H2]. exists j. split; [apply zrange_In; lia|]. apply in_map_iff. exists i.
    split; [reflexivity|apply zrange_In; lia].
Qed.

(** first filled neighbour, declaratively *)
Definition usable nr nc (g : cgrid) (p : Z * Z) : Prop :=
  in_grid nr nc (fst p) (snd p) /\ ~ (fst (g (fst p) (snd p)) == 0)%Q.
Lemma empty_iff c : empty_cell c = true <-> (fst c == 0)%Q.
Proof. unfold empty_cell. apply Qeq_bool_iff. Qed.
Lemma empty_false c : empty_cell c = false <-> ~ (fst c == 0)%Q.
Proof. rewrite <- empty_iff. destruct (empty_cell c); split; congruence. Qed.
Lemma first_filled_Some g nr nc l v : first_filled g nr nc l = Some v <->
  exists k p, nth_error l k = Some p /\ usable nr nc g p /\ v = g (fst p) (snd p) /\
    forall k' p', (k' < k)%nat -> nth_error l k' = Some p' -> ~ usable nr nc g p'.
Proof.
  induction l as [|[a b] t IH]; cbn.
  - split; [discriminate|]. intros (k & p & H & _). destruct k; discriminate.
  - destruct (((0 <=? a) && (a <? nr)) && ((0 <=? b) && (b <? nc)) && negb (empty_cell (g a b))) eqn:E.
    + assert (U : usable nr nc g (a, b)).
      { unfold usable, in_grid, in_rng; cbn. split; [lia|]. apply empty_false.
        destruct (empty_cell (g a b)); [|reflexivity]. cbn in E. rewrite andb_false_r in E. discriminate. }
      split.
      * intros H. injection H as <-. exists 0%nat, (a, b). cbn. repeat split; auto; [apply U..|].
        intros; lia.
      * intros (k & p & Hk & Up & -> & Hlt). destruct k as [|k].
        -- cbn in Hk. injection Hk as <-. reflexivity.
        -- exfalso. apply (Hlt 0%nat (a, b)); [lia|reflexivity|exact U].
    + assert (U : ~ usable nr nc g (a, b)).
      { unfold usable, in_grid, in_rng; cbn. intros [Hg He]. apply empty_false in He. rewrite He in E.
        cbn in E. lia. }
      rewrite IH. split.
      * intros (k & p & Hk & Up & -> & Hlt). exists (S k), p. repeat split; auto; [apply Up..|].
        intros [|k'] p' Hk' Hp'; cbn in Hp'; [injection Hp' as <-; exact U|].
        apply (Hlt k' p'); [lia|assumption].
      * intros (k & p & Hk & Up & -> & Hlt). destruct k as [|k].
        { cbn in Hk. injection Hk as <-. contradiction. }
        exists k, p. repeat split; auto; [apply Up..|].
        intros k' p' Hk' Hp'. apply (Hlt (S k') p'); [lia|assumption].
Qed.

Lemma pass1_fold vert nr nc g l m a b :
  fold_left (fun m p => let '(i, j) := p in
      if empty_cell (g i j) then
        match first_filled g nr nc (neighbours vert i j) with
        | Some v => upd_grid m i j v | None => m end
      else m) l m a b =
  if existsb (fun p => (fst p =? a) && (snd p =? b)) l && empty_cell (g a b) then
    match first_filled g nr nc (neighbours vert a b) with Some v => v | None => m a b end
  else m a b.
Proof.
  revert m. induction l as [|[i j] t IH]; intros m; [reflexivity|].
  cbn [fold_left]. rewrite IH. clear IH. cbn [existsb fst snd].
  destruct ((i =? a) && (j =? b)) eqn:E.
  - assert (i = a) by lia. assert (j = b) by lia. subst i j. cbn [orb].
    destruct (empty_cell (g a b)) eqn:Ee; rewrite ?andb_true_r, ?andb_false_r; [|reflexivity].
    cbn [andb]. destruct (first_filled g nr nc (neighbours vert a b)) eqn:F.
    + destruct (existsb _ t); [reflexivity|]. unfold upd_grid. rewrite !Z.eqb_refl. reflexivity.
    + destruct (existsb _ t); reflexivity.
  - cbn [orb].
    assert (Hm : (if empty_cell (g i j)
        then match first_filled g nr nc (neighbours vert i j) with
             | Some v => upd_grid m i j v | None => m end else m) a b = m a b).
    { destruct (empty_cell (g i j)); [|reflexivity].
      destruct (first_filled _ _ _ _); [|reflexivity]. unfold upd_grid.
      replace ((a =? i) && (b =? j)) with false by lia. reflexivity. }
    rewrite Hm. reflexivity.
Qed.
Lemma pass1_at vert nr nc g a b : in_grid nr nc a b ->
  pass1 vert nr nc g a b =
  if empty_cell (g a b) then
    match first_filled g nr nc (neighbours vert a b) with Some v => v | None => g a b end
  else g a b.
Proof.
  intros H. unfold pass1. rewrite pass1_fold.
  replace (existsb _ _) with true; [reflexivity|]. symmetry. apply existsb_exists.
  exists (a, b). split; [apply cells_order_In; assumption|]. cbn. lia.
Qed.

Definition step2 vert nr nc (m : cgrid) (p : Z * Z) : cgrid :=
  let '(i, j) := p in
  if empty_cell (m i j) then
    match first_filled m nr nc (neighbours vert i j) with
    | Some v => upd_grid m i j v | None => m end
  else m.
Lemma step2_keep vert nr nc m p a b : empty_cell (m a b) = false -> step2 vert nr nc m p a b = m a b.
Proof.
  intros H. unfold step2. destruct p as [i j]. destruct (empty_cell (m i j)) eqn:E; [|reflexivity].
  destruct (first_filled _ _ _ _); [|reflexivity]. unfold upd_grid.
  destruct ((a =? i) && (b =? j)) eqn:E2; [|reflexivity].
  assert (a = i) by lia. assert (b = j) by lia. congruence.
Qed.
Lemma fold2_keep vert nr nc l m a b : empty_cell (m a b) = false ->
  fold_left (step2 vert nr nc) l m a b = m a b.
Proof.
  revert m. induction l as [|p t IH]; intros m H; [reflexivity|]. cbn [fold_left].
  rewrite IH; rewrite step2_keep; auto.
Qed.
Definition from_original nr nc (g m : cgrid) : Prop :=
  forall a b, in_grid nr nc a b ->
    m a b = g a b \/
    (empty_cell (g a b) = true /\
     exists c d, in_grid nr nc c d /\ empty_cell (g c d) = false /\ m a b = g c d).
Lemma step2_from vert nr nc g m p : from_original nr nc g m -> from_original nr nc g (step2 vert nr nc m p).
Proof.
  intros H a b Hab. unfold step2. destruct p as [i j]. destruct (empty_cell (m i j)) eqn:E; [|auto].
  destruct (first_filled m nr nc (neighbours vert i j)) as [v|] eqn:F; [|auto]. unfold upd_grid.
  destruct ((a =? i) && (b =? j)) eqn:E2; [|auto].
  assert (a = i) by lia. assert (b = j) by lia. subst i j. right.
  assert (He : empty_cell (g a b) = true).
  { destruct (H a b Hab) as [Q|[Q _] ]; congruence. }
  split; [exact He|].
  apply first_filled_Some in F as (k & q & _ & [Hq1 Hq2] & -> & _).
  apply empty_false in Hq2.
  destruct (H _ _ Hq1) as [Q|(Q & c & d & Q1 & Q2 & Q3)].
  - exists (fst q), (snd q). rewrite Q in *. auto.
  - exists c, d. auto.
Qed.
Lemma fold2_from vert nr nc g l m : from_original nr nc g m ->
  from_original nr nc g (fold_left (step2 vert nr nc) l m).
Proof. revert m. induction l; intros m H; cbn; auto. apply IHl, step2_from, H. Qed.

Lemma fix_keep vert nr nc g a b : in_grid nr nc a b -> ~ (fst (g a b) == 0)%Q ->
  fix_non_sample_areas vert nr nc g a b = g a b.
Proof.
  intros H He. apply empty_false in He. unfold fix_non_sample_areas.
  change (pass2 vert nr nc (pass1 vert nr nc g)) with
    (fold_left (step2 vert nr nc) (rev (cells_order vert nr nc)) (pass1 vert nr nc g)).
  assert (P : pass1 vert nr nc g a b = g a b) by (rewrite pass1_at by assumption; rewrite He; reflexivity).
  rewrite fold2_keep; rewrite P; auto.
Qed.
Lemma fix_from vert nr nc g a b : in_grid nr nc a b -> (fst (g a b) == 0)%Q ->
  fix_non_sample_areas vert nr nc g a b = g a b \/
  exists c d, in_grid nr nc c d /\ ~ (fst (g c d) == 0)%Q /\
    fix_non_sample_areas vert nr nc g a b = g c d.
Proof.
  intros H He.
  assert (F : from_original nr nc g (fix_non_sample_areas vert nr nc g)).
  { unfold fix_non_sample_areas.
    change (pass2 vert nr nc (pass1 vert nr nc g)) with
      (fold_left (step2 vert nr nc) (rev (cells_order vert nr nc)) (pass1 vert nr nc g)).
    apply fold2_from. intros x y Hxy. rewrite pass1_at by assumption.
    destruct (empty_cell (g x y)) eqn:E; [|auto].
    destruct (first_filled g nr nc (neighbours vert x y)) as [v|] eqn:Ff; [|auto].
    right. split; [reflexivity|]. apply first_filled_Some in Ff as (k & q & _ & [Hq1 Hq2] & -> & _).
    exists (fst q), (snd q). apply empty_false in Hq2. auto. }
  destruct (F a b H) as [Q|(Q & c & d & Q1 & Q2 & Q3)]; [auto|]. right. exists c, d.
  apply empty_false in Q2. auto.
Qed.
Lemma fix_fill vert nr nc g a b v : in_grid nr nc a b -> (fst (g a b) == 0)%Q ->
  first_filled g nr nc (neighbours vert a b) = Some v ->
  fix_non_sample_areas vert nr nc g a b = v.
Proof.
  intros H He Hf. apply empty_iff in He. unfold fix_non_sample_areas.
  change (pass2 vert nr nc (pass1 vert nr nc g)) with
    (fold_left (step2 vert nr nc) (rev (cells_order vert nr nc)) (pass1 vert nr nc g)).
  assert (P : pass1 vert nr nc g a b = v).
  { rewrite pass1_at by assumption. rewrite He, Hf. reflexivity. }
  assert (empty_cell v = false).
  { apply first_filled_Some in Hf as (k & q & _ & [_ Hq2] & -> & _). apply empty_false, Hq2. }
  rewrite fold2_keep; rewrite P; auto.
Qed.
(** statement used by the theorem: the preferred neighbour *)
Lemma fix_preferred (vert : bool) nr nc (g : cgrid) (i j : Z) (k : nat) (p : Z * Z) :
  in_grid nr nc i j -> (fst (g i j) == 0)%Q ->
  let nbrs := if vert then [(i, j - 1); (i, j + 1); (i - 1, j); (i + 1, j)]
              else [(i - 1, j); (i + 1, j); (i, j - 1); (i, j + 1)] in
  nth_error nbrs k = Some p ->
  in_grid nr nc (fst p) (snd p) -> ~ (fst (g (fst p) (snd p)) == 0)%Q ->
  (forall k' p', (k' < k)%nat -> nth_error nbrs k' = Some p' ->
     ~ (in_grid nr nc (fst p') (snd p') /\ ~ (fst (g (fst p') (snd p')) == 0)%Q)) ->
  fix_non_sample_areas vert nr nc g i j = g (fst p) (snd p).
Proof.
  intros H He nbrs Hk Hp1 Hp2 Hlt. apply fix_fill; auto. apply first_filled_Some.
  exists k, p. split; [exact Hk|]. split; [split; auto|]. split; [reflexivity|]. exact Hlt.
Qed.
Lemma fix_hole_refuted : exists g : cgrid,
  in_grid 1 4 0 3 /\ ~ (fst (g 0%Z 0%Z) == 0)%Q /\ (fst (fix_non_sample_areas true 1 4 g 0%Z 3%Z) == 0)%Q.
Proof.
  exists (fun _ j => if j =? 0 then (5%Q, 1) else (0%Q, 0)).
  unfold in_grid, in_rng. split; [lia|]. split; [intros H; discriminate H|]. vm_compute. reflexivity.
Qed.

(** ** C19 *)
Section scan.
Context (h : Z) (ov : list Z) (Hh : 0 < h).
Definition base (i : Z) : Z := i * h - zsum (firstn (Z.to_nat i) ov).
Let n := Z.of_nat (length ov).

Lemma zsum_firstn_S k o : nth_error ov k = Some o -> zsum (firstn (S k) ov) = zsum (firstn k ov) + o.
Proof.
  generalize ov. clear. intros l. revert k. induction l as [|x t IH]; intros [|k] H; try discriminate H.
  - injection H as <-. cbn. lia.
  - cbn [nth_error] in H. specialize (IH _ H). rewrite !firstn_cons.
    change (zsum (x :: firstn (S k) t)) with (x + zsum (firstn (S k) t)).
    change (zsum (x :: firstn k t)) with (x + zsum (firstn k t)). lia.
Qed.
Lemma base_0 : base 0 = 0.
Proof. unfold base. cbn. lia. Qed.
Lemma base_succ i o : 0 <= i -> nth_error ov (Z.to_nat i) = Some o -> base (i + 1) = base i + h - o.
Proof.
  intros Hi H. unfold base. replace (Z.to_nat (i + 1)) with (S (Z.to_nat i)) by lia.
  rewrite (zsum_firstn_S _ _ H). lia.
Qed.
Lemma base_n : base n + h = scan_height h ov.
Proof. unfold base, scan_height, n. rewrite Nat2Z.id, firstn_all. lia. Qed.
Lemma qlsum_inject l : (qlsum (map inject_Z l) == inject_Z (zsum l))%Q.
Proof. induction l; cbn; [reflexivity|]. unfold qlsum in IHl. rewrite IHl, inject_Z_plus. reflexivity. Qed.
Lemma slice_row_at side i k :
  (vat (slice_row side h (map inject_Z ov) i) k ==
   inject_Z (base i + (if side =? 1 then k else h - 1 - k)))%Q.
Proof.
  unfold slice_row. cbn [vat]. rewrite firstn_map. unfold base.
  destruct (side =? 1); rewrite qlsum_inject.
  - rewrite !inject_Z_plus. unfold Z.sub. rewrite inject_Z_plus, inject_Z_opp. ring.
  - unfold Z.sub. rewrite !inject_Z_plus, !inject_Z_opp. ring.
Qed.
Lemma filter_eqb_zrange N p : filter (fun k => k =? p) (zrange 0 N) = if (0 <=? p) && (p <? N) then [p] else [].
Proof.
  destruct ((0 <=? p) && (p <? N)) eqn:E.
  - unfold zrange. replace (Z.to_nat N) with (Z.to_nat p + (1 + (Z.to_nat (N - p - 1))))%nat by lia.
    rewrite !seq_app, !map_app, !filter_app. cbn [seq map filter].
    assert (F : forall a m, (forall k, (a <= k < a + m)%nat -> Z.of_nat k <> p) ->
              filter (fun k => k =? p) (map (fun k => 0 + Z.of_nat k) (seq a m)) = []).
    { intros a m. revert a. induction m; intros a Hk; cbn; [reflexivity|].
      replace (Z.of_nat a =? p) with false. 2:{ specialize (Hk a). lia. }
      apply IHm. intros; apply Hk; lia. }
    rewrite !F by (intros; lia). cbn. replace (Z.of_nat (Z.to_nat p) =? p) with true by lia. cbn. f_equal. lia.
  - destruct (filter _ _) as [|x t] eqn:F; [reflexivity|]. exfalso.
    assert (In x (filter (fun k => k =? p) (zrange 0 N))) by (rewrite F; left; reflexivity).
    apply filter_In in H as [H1 H2]. apply zrange_In in H1. lia.
Qed.
Definition posn (side i idx : Z) : Z := if side =? 1 then idx - base i else h - 1 - (idx - base i).
Definition hitb (idx i : Z) : bool := (base i <=? idx) && (idx <? base i + h).
Lemma where_eq_row side i idx :
  where_eq (slice_row side h (map inject_Z ov) i) idx =
  if hitb idx i then [posn side i idx] else [].
Proof.
  unfold where_eq. cbn [vlen slice_row].
  rewrite (filter_ext _ (fun k => k =? posn side i idx)).
  - rewrite filter_eqb_zrange. unfold hitb, posn.
    destruct (side =? 1).
    + replace ((0 <=? idx - base i) && (idx - base i <? h)) with ((base i <=? idx) && (idx <? base i + h)) by lia. reflexivity.
    + replace ((0 <=? h - 1 - (idx - base i)) && (h - 1 - (idx - base i) <? h)) with ((base i <=? idx) && (idx <? base i + h)) by lia. reflexivity.
  - intros k. apply eq_true_iff_eq. rewrite Qeq_bool_iff, slice_row_at, Z.eqb_eq.
    rewrite inject_Z_injective. unfold posn. destruct (side =? 1); lia.
Qed.
Lemma flat_map_filter {A B} (P : A -> bool) (f : A -> B) l :
  flat_map (fun i => if P i then [f i] else []) l = map f (filter P l).
Proof. induction l; cbn; [reflexivity|]. destruct (P a); cbn; congruence. Qed.
Lemma hits_eq side idx :
  hits side h (map inject_Z ov) idx =
  map (fun i => (i, posn side i idx)) (filter (hitb idx) (zrange 0 (n + 1))).
Proof.
  unfold hits. rewrite map_length. fold n. rewrite <- flat_map_filter. apply flat_map_ext.
  intros i. rewrite where_eq_row. destruct (hitb idx i); reflexivity.
Qed.
Lemma filter_interval (P : Z -> bool) a b N : 0 <= a -> a <= b -> b <= N ->
  (forall k, 0 <= k < N -> P k = (a <=? k) && (k <? b)) -> filter P (zrange 0 N) = prange a b.
Proof.
  intros Ha Hab Hb HP.
  assert (Z1 : zrange 0 N = zrange 0 a ++ zrange a (b - a) ++ zrange b (N - b)).
  { unfold zrange. replace (Z.to_nat N) with (Z.to_nat a + (Z.to_nat (b - a) + Z.to_nat (N - b)))%nat by lia.
    rewrite !seq_app, !map_app. f_equal.
    assert (S : forall c m : nat, map (fun k => 0 + Z.of_nat k) (seq c m) = map (fun k => Z.of_nat c + Z.of_nat k) (seq 0 m)).
    { intros c m. revert c. induction m; intros c; cbn; [reflexivity|]. f_equal; [lia|].
      rewrite IHm. rewrite <- seq_shift, map_map. apply map_ext. intros; lia. }
    rewrite !S. f_equal; apply map_ext; intros; lia. }
  rewrite Z1, !filter_app.
  assert (Fn : forall c m, 0 <= c -> c + m <= N -> (forall k, c <= k < c + m -> P k = false) -> filter P (zrange c m) = []).
  { intros c m H0 H1 H2. destruct (filter P (zrange c m)) as [|x t] eqn:F; [reflexivity|]. exfalso.
    assert (In x (filter P (zrange c m))) by (rewrite F; left; reflexivity).
    apply filter_In in H as [H3 H4]. apply zrange_In in H3. rewrite H2 in H4; [discriminate|lia]. }
  rewrite (Fn 0 a), (Fn b (N - b)); try lia.
  - cbn. rewrite app_nil_r. unfold prange.
    assert (Ft : forall l, (forall k, In k l -> P k = true) -> filter P l = l).
    { clear. induction l; cbn; intros H; [reflexivity|]. rewrite H by auto. f_equal. apply IHl. auto. }
    apply Ft. intros k Hk. apply zrange_In in Hk. rewrite HP by lia. lia.
  - intros k Hk. rewrite HP by lia. lia.
  - intros k Hk. rewrite HP by lia. lia.
Qed.

Context (Hsane : sane_overlaps h ov).
Lemma ov_get i : 0 <= i < n -> exists o, nth_error ov (Z.to_nat i) = Some o /\ 2 <= o /\ o <= h.
Proof.
  intros Hi. destruct (nth_error ov (Z.to_nat i)) as [o|] eqn:E.
  - exists o. split; [reflexivity|]. exact (proj1 Hsane _ _ E).
  - apply nth_error_None in E. unfold n in Hi. lia.
Qed.
Lemma base_mono i j : 0 <= i -> i <= j -> j <= n -> base i <= base j.
Proof.
  intros Hi Hij Hj. replace j with (i + Z.of_nat (Z.to_nat (j - i))) in * by lia.
  remember (Z.to_nat (j - i)) as k. clear Heqk. revert Hj. clear Hij. induction k; intros Hj.
  - replace (i + Z.of_nat 0) with i by lia. lia.
  - destruct (ov_get (i + Z.of_nat k)) as (o & Ho & H1 & H2); [lia|].
    replace (i + Z.of_nat (S k)) with (i + Z.of_nat k + 1) by lia.
    rewrite (base_succ _ o) by (auto; lia). specialize (IHk ltac:(lia)). lia.
Qed.
Lemma base_two i j : 0 <= i -> i + 2 <= j -> j <= n -> base i + h <= base j.
Proof.
  intros Hi Hij Hj. assert (base (i + 2) <= base j) by (apply base_mono; lia).
  destruct (ov_get i) as (o & Ho & _); [lia|]. destruct (ov_get (i + 1)) as (o' & Ho' & _); [lia|].
  pose proof (base_succ i o Hi Ho). pose proof (base_succ (i + 1) o' ltac:(lia) Ho').
  replace (i + 1 + 1) with (i + 2) in * by lia.
  pose proof (proj2 Hsane (Z.to_nat i) o o' Ho) as Hs.
  replace (S (Z.to_nat i)) with (Z.to_nat (i + 1)) in Hs by lia. specialize (Hs Ho'). lia.
Qed.
Lemma first_row idx : 0 <= idx < scan_height h ov ->
  exists i, 0 <= i <= n /\ base i <= idx < base i + h /\ (0 < i -> base (i - 1) + h <= idx).
Proof.
  rewrite <- base_n. intros [H0 H1].
  assert (G : forall k : nat, Z.of_nat k <= n -> idx < base (Z.of_nat k) + h ->
     exists i, 0 <= i <= n /\ base i <= idx < base i + h /\ (0 < i -> base (i - 1) + h <= idx)).
  { induction k; intros Hk Hlt.
    - exists 0. cbn [Z.of_nat] in Hlt. pose proof base_0. split; [lia|]. split; [lia|]. intros; lia.
    - destruct (Z_lt_ge_dec idx (base (Z.of_nat k) + h)) as [L|L]; [apply IHk; lia|].
      exists (Z.of_nat (S k)). split; [lia|].
      destruct (ov_get (Z.of_nat k)) as (o & Ho & Hb1 & Hb2); [lia|].
      pose proof (base_succ (Z.of_nat k) o ltac:(lia) Ho) as B.
      replace (Z.of_nat k + 1) with (Z.of_nat (S k)) in B by lia.
      split; [lia|]. intros _. replace (Z.of_nat (S k) - 1) with (Z.of_nat k) by lia. lia. }
  apply (G (length ov)); fold n; lia.
Qed.
Lemma hits_cases side idx : 0 <= idx < scan_height h ov ->
  exists i, 0 <= i <= n /\ base i <= idx < base i + h /\ (0 < i -> base (i - 1) + h <= idx) /\
   ((i < n /\ base (i + 1) <= idx /\
     hits side h (map inject_Z ov) idx = [(i, posn side i idx); (i + 1, posn side (i + 1) idx)]) \/
    ((i = n \/ idx < base (i + 1)) /\ hits side h (map inject_Z ov) idx = [(i, posn side i idx)])).
Proof.
  intros Hr. destruct (first_row idx Hr) as (i & Hi & Hb & Hf). exists i. repeat (split; [assumption|]).
  rewrite hits_eq.
  assert (Hlow : forall k, 0 <= k < i -> hitb idx k = false).
  { intros k Hk. unfold hitb. assert (base k <= base (i - 1)) by (apply base_mono; lia). lia. }
  assert (Hup : forall k, i + 2 <= k <= n -> hitb idx k = false).
  { intros k Hk. unfold hitb. assert (base i + h <= base k) by (apply base_two; lia). lia. }
  destruct (Z_lt_ge_dec i n) as [L|L].
  - destruct (ov_get i) as (o & Ho & Ho1 & Ho2); [lia|].
    pose proof (base_succ i o ltac:(lia) Ho) as B.
    destruct (Z_le_gt_dec (base (i + 1)) idx) as [C|C].
    + left. split; [assumption|]. split; [assumption|].
      rewrite (filter_interval (hitb idx) i (i + 2) (n + 1)); try lia.
      * unfold prange. replace (i + 2 - i) with 2 by lia. unfold zrange.
        change (Z.to_nat 2) with 2%nat. cbn [seq map].
        replace (i + Z.of_nat 0) with i by lia. reflexivity.
      * intros k Hk. destruct (Z_lt_ge_dec k i); [rewrite Hlow by lia; lia|].
        destruct (Z_le_gt_dec (i + 2) k); [rewrite Hup by lia; lia|].
        unfold hitb. assert (k = i \/ k = i + 1) as [-> | ->] by lia; lia.
    + right. split; [lia|].
      rewrite (filter_interval (hitb idx) i (i + 1) (n + 1)); try lia.
      * unfold prange. replace (i + 1 - i) with 1 by lia. unfold zrange.
        change (Z.to_nat 1) with 1%nat. cbn [seq map]. replace (i + Z.of_nat 0) with i by lia. reflexivity.
      * intros k Hk. destruct (Z_lt_ge_dec k i); [rewrite Hlow by lia; lia|].
        destruct (Z_le_gt_dec (i + 2) k); [rewrite Hup by lia; lia|].
        unfold hitb. assert (k = i \/ k = i + 1) as [-> | ->] by lia; lia.
  - right. split; [lia|].
    rewrite (filter_interval (hitb idx) i (i + 1) (n + 1)); try lia.
    + unfold prange. replace (i + 1 - i) with 1 by lia. unfold zrange.
        change (Z.to_nat 1) with 1%nat. cbn [seq map]. replace (i + Z.of_nat 0) with i by lia. reflexivity.
    + intros k Hk. destruct (Z_lt_ge_dec k i); [rewrite Hlow by lia; lia|].
      unfold hitb. assert (k = i) as -> by lia; lia.
Qed.
Lemma hits_none side idx : idx < 0 \/ scan_height h ov <= idx -> hits side h (map inject_Z ov) idx = [].
Proof.
  intros H. rewrite hits_eq.
  rewrite (filter_interval (hitb idx) 0 0 (n + 1)); try (unfold n; lia); [reflexivity|].
  intros k Hk. assert (base k <= base n) by (apply base_mono; lia).
  assert (base 0 <= base k) by (apply base_mono; lia). rewrite base_0 in *. pose proof base_n. unfold hitb. lia.
Qed.

Lemma sees_posn side i idx : 0 <= i <= n -> base i <= idx < base i + h -> sees side h ov i (posn side i idx) idx.
Proof.
  intros Hi Hb. unfold sees, posn. fold n. split; [lia|]. fold (base i). destruct (side =? 1); lia.
Qed.
Lemma sees_iff side i p idx : sees side h ov i p idx <->
  0 <= i <= n /\ base i <= idx < base i + h /\ p = posn side i idx.
Proof. unfold sees, posn. fold n. fold (base i). destruct (side =? 1); lia. Qed.

Definition oweight (o : option Q) (w : Q) : Prop := exists q, o = Some q /\ (q == w)%Q.

(** the two weights when two rows see the slice *)
Lemma locate_eq side idx : ov <> [] -> 0 <= idx < scan_height h ov ->
  (exists i p, locate_slice side h (map inject_Z ov) idx = Ok [(i, p, Some 1%Q)] /\
     sees side h ov i p idx /\ (forall i' p', sees side h ov i' p' idx -> i' = i)) \/
  (exists i p p' o w w', nth_error ov (Z.to_nat i) = Some o /\
     locate_slice side h (map inject_Z ov) idx = Ok [(i, p, Some w); (i + 1, p', Some w')] /\
     sees side h ov i p idx /\ sees side h ov (i + 1) p' idx /\
     (forall i' q, sees side h ov i' q idx -> i' = i \/ i' = i + 1) /\
     (w == inject_Z (base i + h - 1 - idx) / inject_Z (o - 1))%Q /\
     (w' == inject_Z (idx - base (i + 1)) / inject_Z (o - 1))%Q).
Proof.
  intros Hne Hr. destruct (hits_cases side idx Hr) as (i & Hi & Hb & Hf & C).
  assert (Hnil : map inject_Z ov <> []) by (destruct ov; [congruence|discriminate]).
  assert (Hrow : forall i' q, sees side h ov i' q idx -> i' = i \/ (i' = i + 1 /\ base (i + 1) <= idx)).
  { intros i' q S. apply sees_iff in S as (S1 & S2 & _).
    destruct (Z_lt_ge_dec i' i). { assert (base i' <= base (i - 1)) by (apply base_mono; lia). lia. }
    destruct (Z_le_gt_dec (i + 2) i'). { assert (base i + h <= base i') by (apply base_two; lia). lia. }
    assert (i' = i \/ i' = i + 1) as [-> | ->] by lia; [lia|]. right. lia. }
  destruct C as [(L & B1 & E)|(N1 & E)].
  - right. destruct (ov_get i) as (o & Ho & Ho1 & Ho2); [lia|].
    pose proof (base_succ i o ltac:(lia) Ho) as B.
    assert (Hne1 : ~ (inject_Z (o - 1) == 0)%Q) by (apply inject_Z_neq0; lia).
    assert (Hq : (inject_Z o - 1 == inject_Z (o - 1))%Q)
      by (unfold Z.sub; rewrite inject_Z_plus; reflexivity).
    exists i, (posn side i idx), (posn side (i + 1) idx), o.
    unfold locate_slice. destruct (map inject_Z ov) as [|q0 qs] eqn:Em; [congruence|]. rewrite <- Em in *.
    rewrite E. rewrite nth_error_map, Ho. cbn [option_map].
    assert (Fd : forall x, fdiv x (inject_Z o - 1) = Some (x / (inject_Z o - 1))%Q).
    { intros x. unfold fdiv. destruct (Qeq_bool (inject_Z o - 1) 0) eqn:Z0; [|reflexivity].
      apply Qeq_bool_iff in Z0. rewrite Hq in Z0. contradiction. }
    assert (Conv : forall x y, (x == inject_Z y)%Q -> (x / (inject_Z o - 1) == inject_Z y / inject_Z (o - 1))%Q).
    { intros x y ->. rewrite Hq. reflexivity. }
    destruct (side =? 1) eqn:Es; rewrite !Fd; eexists; eexists; (split; [reflexivity|]);
      (split; [reflexivity|]); (split; [apply sees_posn; lia|]); (split; [apply sees_posn; lia|]);
      (split; [intros i' q S; destruct (Hrow i' q S) as [->|[-> _] ]; auto|]).
    + split; apply Conv.
      * rewrite slice_row_at, Es. unfold Z.sub. repeat (rewrite inject_Z_plus || rewrite inject_Z_opp).
        change (inject_Z 0) with 0%Q. ring.
      * rewrite slice_row_at, Es. unfold Z.sub. repeat (rewrite inject_Z_plus || rewrite inject_Z_opp).
        change (inject_Z 0) with 0%Q. ring.
    + split; apply Conv.
      * rewrite slice_row_at, Es. unfold Z.sub. repeat (rewrite inject_Z_plus || rewrite inject_Z_opp).
        change (inject_Z 0) with 0%Q. ring.
      * rewrite slice_row_at, Es. unfold Z.sub. repeat (rewrite inject_Z_plus || rewrite inject_Z_opp).
        change (inject_Z 0) with 0%Q. ring.
  - left. exists i, (posn side i idx). unfold locate_slice.
    destruct (map inject_Z ov) as [|q0 qs] eqn:Em; [congruence|]. rewrite <- Em in *.
    rewrite E. cbn [map fst snd]. split; [reflexivity|]. split; [apply sees_posn; lia|].
    intros i' q S. destruct (Hrow i' q S) as [->|[-> Hc] ]; [reflexivity|].
    apply sees_iff in S as (S1 & _). lia.
Qed.

Lemma locate_ok side idx : ov <> [] -> 0 <= idx < scan_height h ov ->
  (exists i p, locate_slice side h (map inject_Z ov) idx = Ok [(i, p, Some 1%Q)] /\
     sees side h ov i p idx /\ (forall i' p', sees side h ov i' p' idx -> i' = i)) \/
  (exists i p p' w w',
     locate_slice side h (map inject_Z ov) idx = Ok [(i, p, Some w); (i + 1, p', Some w')] /\
     sees side h ov i p idx /\ sees side h ov (i + 1) p' idx /\
     (0 <= w <= 1)%Q /\ (0 <= w' <= 1)%Q /\ (w + w' == 1)%Q /\
     exists o, nth_error ov (Z.to_nat i) = Some o /\
       (w * inject_Z (o - 1) == inject_Z (if side =? 1 then h - 1 - p else p))%Q /\
       (w' * inject_Z (o - 1) == inject_Z (if side =? 1 then p' else h - 1 - p'))%Q).
Proof.
  intros Hne Hr. destruct (locate_eq side idx Hne Hr) as [H|H]; [left; exact H|]. right.
  destruct H as (i & p & p' & o & w & w' & Ho & E & S1 & S2 & _ & W1 & W2).
  exists i, p, p', w, w'. split; [exact E|]. split; [exact S1|]. split; [exact S2|].
  apply sees_iff in S1 as (I1 & B1 & Ep). apply sees_iff in S2 as (I2 & B2 & Ep').
  destruct (proj1 Hsane _ _ Ho) as [O1 O2].
  pose proof (base_succ i o ltac:(lia) Ho) as B.
  assert (Hpos : (0 < inject_Z (o - 1))%Q) by (change 0%Q with (inject_Z 0); rewrite <- Zlt_Qlt; lia).
  rewrite W1, W2. 
  assert (R : forall k, 0 <= k <= o - 1 -> (0 <= inject_Z k / inject_Z (o - 1) <= 1)%Q).
  { intros k Hk. split.
    - apply Qle_shift_div_l; [assumption|]. rewrite Qmult_0_l. change 0%Q with (inject_Z 0). rewrite <- Zle_Qle. lia.
    - apply Qle_shift_div_r; [assumption|]. rewrite Qmult_1_l. rewrite <- Zle_Qle. lia. }
  split; [apply R; lia|]. split; [apply R; lia|].
  setoid_replace (inject_Z (base i + h - 1 - idx) / inject_Z (o - 1) + inject_Z (idx - base (i + 1)) / inject_Z (o - 1))%Q
    with ((inject_Z (base i + h - 1 - idx) + inject_Z (idx - base (i + 1))) / inject_Z (o - 1))%Q.
  2:{ field. intros Z0. rewrite Z0 in Hpos. discriminate. }
  split.
  - rewrite <- inject_Z_plus. replace (base i + h - 1 - idx + (idx - base (i + 1))) with (o - 1) by lia.
    field. intros Z0. rewrite Z0 in Hpos. discriminate.
  - exists o. split; [exact Ho|]. unfold posn in Ep, Ep'.
    split; (rewrite W1 || rewrite W2); [replace (if side =? 1 then h - 1 - p else p) with (base i + h - 1 - idx) by (destruct (side =? 1); lia)|
      replace (if side =? 1 then p' else h - 1 - p') with (idx - base (i + 1)) by (destruct (side =? 1); lia)];
      field; intros Z0; rewrite Z0 in Hpos; discriminate.
Qed.
Lemma locate_none side idx : ov <> [] -> idx < 0 \/ scan_height h ov <= idx ->
  locate_slice side h (map inject_Z ov) idx = Ok [].
Proof.
  intros Hne H. unfold locate_slice. destruct (map inject_Z ov) as [|q0 qs] eqn:Em.
  - destruct ov; [congruence|discriminate].
  - rewrite <- Em. rewrite hits_none by assumption. reflexivity.
Qed.

(** ** C20 *)
Definition oeq (a b : option Q) : Prop :=
  match a, b with Some x, Some y => (x == y)%Q | None, None => True | _, _ => False end.

Lemma ov_at_get i o : nth_error ov (Z.to_nat i) = Some o -> ov_at (map inject_Z ov) i = inject_Z o.
Proof.
  intros H. unfold ov_at. apply nth_error_nth. rewrite nth_error_map, H. reflexivity.
Qed.
Lemma ramp_no x o f : o <= x -> ramp_if x (inject_Z o) f = f.
Proof.
  intros H. unfold ramp_if. destruct (Qltb (inject_Z x) (inject_Z o)) eqn:E; [|reflexivity].
  apply Qltb_lt in E. rewrite <- Zlt_Qlt in E. lia.
Qed.
Lemma ramp_yes x o f : x < o -> 2 <= o -> oeq (ramp_if x (inject_Z o) f) (Some (inject_Z x / inject_Z (o - 1))%Q).
Proof.
  intros H Ho. unfold ramp_if. replace (Qltb _ _) with true.
  2:{ symmetry. apply Qltb_lt. rewrite <- Zlt_Qlt. lia. }
  unfold fdiv.
  assert (Hq : (inject_Z o - 1 == inject_Z (o - 1))%Q) by (unfold Z.sub; rewrite inject_Z_plus; reflexivity).
  destruct (Qeq_bool (inject_Z o - 1) 0) eqn:Z0.
  - apply Qeq_bool_iff in Z0. rewrite Hq in Z0. exfalso. revert Z0. apply inject_Z_neq0. lia.
  - cbn. rewrite Hq. reflexivity.
Qed.
Lemma oeq_refl a : oeq a a. Proof. destruct a; cbn; auto. reflexivity. Qed.

Context (u : Z) (Hu : forall i o, nth_error ov i = Some o -> o = u).

Lemma chunk_fact_top side i idx : 0 <= i <= n -> base i <= idx < base i + h ->
  (0 < i -> base (i - 1) + h <= idx) ->      (* not seen by the previous row *)
  (i < n -> idx < base (i + 1)) ->           (* not seen by the next row *)
  chunk_fact side h (map inject_Z ov) i (posn side i idx) = Some 1%Q.
Proof.
  intros Hi Hb Hp Hn. unfold chunk_fact, posn. rewrite map_length. fold n.
  assert (Hnext : i < n -> exists o, nth_error ov (Z.to_nat i) = Some o /\ idx < base i + h - o /\ o <= h).
  { intros L. destruct (ov_get i) as (o & Ho & ? & ?); [lia|]. exists o. split; [assumption|].
    rewrite <- (base_succ i o) by (auto; lia). auto. }
  assert (Hprev : 0 < i -> exists o, nth_error ov (Z.to_nat (i - 1)) = Some o /\ base i + o <= idx).
  { intros L. destruct (ov_get (i - 1)) as (o & Ho & ? & ?); [lia|]. exists o. split; [assumption|].
    pose proof (base_succ (i - 1) o ltac:(lia) Ho). replace (i - 1 + 1) with i in * by lia. lia. }
  destruct (i =? 0) eqn:E0.
  - assert (i = 0) by lia. subst i. destruct (Z_lt_ge_dec 0 n) as [L|L].
    + destruct (Hnext L) as (o & Ho & H1 & H2). rewrite (ov_at_get 0 o Ho).
      destruct (side =? 1); apply ramp_no; lia.
    + (* no overlaps at all *)
      assert (ov = []) by (destruct ov; [reflexivity|unfold n in L; cbn in L; lia]).
      unfold ov_at. rewrite H. cbn [map nth Z.to_nat]. change 0%Q with (inject_Z 0).
      destruct (side =? 1); apply ramp_no; lia.
  - destruct (i =? n + 1 - 1) eqn:E1.
    + destruct Hprev as (o & Ho & H1); [lia|]. rewrite (ov_at_get _ o Ho).
      destruct (side =? 1); apply ramp_no; lia.
    + destruct Hprev as (o & Ho & H1); [lia|]. destruct Hnext as (o' & Ho' & H2 & H3); [lia|].
      rewrite (ov_at_get _ o Ho), (ov_at_get _ o' Ho').
      pose proof (Hu _ _ Ho). pose proof (Hu _ _ Ho'). subst o o'.
      destruct (side =? 1); rewrite !ramp_no by lia; reflexivity.
Qed.
Lemma chunk_fact_prev side i idx o : 0 <= i < n -> nth_error ov (Z.to_nat i) = Some o ->
  base (i + 1) <= idx < base i + h ->
  oeq (chunk_fact side h (map inject_Z ov) i (posn side i idx))
      (Some (inject_Z (base i + h - 1 - idx) / inject_Z (o - 1))%Q).
Proof.
  intros Hi Ho Hb. unfold chunk_fact, posn. rewrite map_length. fold n.
  destruct (proj1 Hsane _ _ Ho) as [O1 O2].
  pose proof (base_succ i o ltac:(lia) Ho) as B.
  destruct (i =? 0) eqn:E0.
  - rewrite (ov_at_get _ o Ho). destruct (side =? 1).
    + replace (h - (idx - base i) - 1) with (base i + h - 1 - idx) by lia. apply ramp_yes; lia.
    + replace (h - 1 - (idx - base i)) with (base i + h - 1 - idx) by lia. apply ramp_yes; lia.
  - replace (i =? n + 1 - 1) with false by lia.
    destruct (ov_get (i - 1)) as (o' & Ho' & _); [lia|].
    pose proof (proj2 Hsane (Z.to_nat (i - 1)) o' o Ho') as Hs.
    replace (S (Z.to_nat (i - 1))) with (Z.to_nat i) in Hs by lia. specialize (Hs Ho).
    rewrite (ov_at_get _ o Ho), (ov_at_get _ o' Ho').
    pose proof (Hu _ _ Ho). pose proof (Hu _ _ Ho'). subst o o'.
    destruct (side =? 1).
    + rewrite (ramp_no (idx - base i) u) by lia.
      replace (h - (idx - base i) - 1) with (base i + h - 1 - idx) by lia.
      rewrite (ramp_no (idx - base i) u) by lia. apply ramp_yes; lia.
    + replace (h - 1 - (idx - base i)) with (base i + h - 1 - idx) by lia. apply ramp_yes; lia.
Qed.
Lemma chunk_fact_next side i idx o : 0 <= i < n -> nth_error ov (Z.to_nat i) = Some o ->
  base (i + 1) <= idx < base i + h ->
  oeq (chunk_fact side h (map inject_Z ov) (i + 1) (posn side (i + 1) idx))
      (Some (inject_Z (idx - base (i + 1)) / inject_Z (o - 1))%Q).
Proof.
  intros Hi Ho Hb. unfold chunk_fact, posn. rewrite map_length. fold n.
  destruct (proj1 Hsane _ _ Ho) as [O1 O2].
  pose proof (base_succ i o ltac:(lia) Ho) as B.
  replace (i + 1 =? 0) with false by lia. replace (i + 1 - 1) with i by lia.
  rewrite (ov_at_get _ o Ho).
  destruct (i + 1 =? n + 1 - 1) eqn:E1.
  - destruct (side =? 1).
    + apply ramp_yes; lia.
    + replace (h - (h - 1 - (idx - base (i + 1))) - 1) with (idx - base (i + 1)) by lia. apply ramp_yes; lia.
  - destruct (ov_get (i + 1)) as (o' & Ho' & _); [lia|].
    pose proof (proj2 Hsane (Z.to_nat i) o o' Ho) as Hs.
    replace (S (Z.to_nat i)) with (Z.to_nat (i + 1)) in Hs by lia. specialize (Hs Ho').
    rewrite (ov_at_get _ o' Ho').
    pose proof (Hu _ _ Ho). pose proof (Hu _ _ Ho'). subst o o'.
    destruct (side =? 1).
    + apply ramp_yes; lia.
    + replace (h - (h - 1 - (idx - base (i + 1))) - 1) with (idx - base (i + 1)) by lia.
      rewrite (ramp_no (h - 1 - (idx - base (i + 1))) u) by lia.
      rewrite (ramp_no (h - 1 - (idx - base (i + 1))) u) by lia. apply ramp_yes; lia.
Qed.

(** factor of any hit agrees with locate_slice *)
Lemma chunk_fact_locate side idx : ov <> [] -> 0 <= idx < scan_height h ov ->
  exists hs, locate_slice side h (map inject_Z ov) idx = Ok hs /\
  (forall i p f, In (i, p, f) hs -> sees side h ov i p idx /\ oeq (chunk_fact side h (map inject_Z ov) i p) f) /\
  (forall i p, sees side h ov i p idx -> exists f, In (i, p, f) hs).
Proof.
  intros Hne Hr. destruct (locate_eq side idx Hne Hr) as [(i & p & E & S & U)|H].
  - eexists. split; [exact E|]. split.
    + intros i' p' f [X|[] ]. injection X as <- <- <-. split; [exact S|].
      pose proof S as S0. apply sees_iff in S0 as (S1 & S2 & ->).
      rewrite chunk_fact_top; auto; [apply oeq_refl| |].
      * intros L. destruct (Z_le_gt_dec (base (i - 1) + h) idx) as [G|G]; [exact G|]. exfalso.
        assert (base (i - 1) <= base i) by (apply base_mono; lia).
        assert (sees side h ov (i - 1) (posn side (i - 1) idx) idx) as S3 by (apply sees_posn; lia).
        apply U in S3. lia.
      * intros L. destruct (Z_lt_ge_dec idx (base (i + 1))) as [G|G]; [exact G|]. exfalso.
        destruct (ov_get i) as (o & Ho & O1 & O2); [lia|].
        pose proof (base_succ i o ltac:(lia) Ho) as B.
        assert (sees side h ov (i + 1) (posn side (i + 1) idx) idx) as S3 by (apply sees_posn; lia).
        apply U in S3. lia.
    + intros i' p' S'. exists (Some 1%Q). left.
      pose proof (U _ _ S'). subst i'. apply sees_iff in S' as (_ & _ & ->). apply sees_iff in S as (_ & _ & ->).
      reflexivity.
  - destruct H as (i & p & p' & o & w & w' & Ho & E & S1 & S2 & U & W1 & W2).
    exists [(i, p, Some w); (i + 1, p', Some w')]. split; [exact E|].
    pose proof S1 as T1. pose proof S2 as T2.
    apply sees_iff in T1 as (I1 & B1 & ->). apply sees_iff in T2 as (I2 & B2 & ->).
    assert (Tr : forall a x y, oeq a (Some x) -> (y == x)%Q -> oeq a (Some y)).
    { intros [a|] x y; cbn; [|tauto]. intros -> ->. reflexivity. }
    split.
    + intros i' q f [X|[X|[] ] ]; injection X as <- <- <-.
      * split; [exact S1|]. eapply Tr; [apply chunk_fact_prev; eauto; lia|]. exact W1.
      * split; [exact S2|]. eapply Tr; [apply chunk_fact_next; eauto; lia|]. exact W2.
    + intros i' q S'. pose proof S' as S0. apply sees_iff in S0 as (_ & _ & ->).
      destruct (U _ _ S') as [->| ->]; eexists; cbn; eauto.
Qed.

Lemma In_concat_filter {A} (l : list (list A)) x :
  In x (concat (filter (fun l => 0 <? Z.of_nat (length l)) l)) <-> In x (concat l).
Proof.
  induction l as [|a t IH]; cbn; [tauto|].
  destruct a as [|y a]; cbn; [exact IH|]. rewrite !in_app_iff, IH. tauto.
Qed.
Lemma chunk_In side start stop i p f :
  In (i, p, f) (concat (map (chunk_row side h (map inject_Z ov) start stop) (zrange 0 (n + 1)))) <->
  exists idx, start <= idx < stop /\ sees side h ov i p idx /\ f = chunk_fact side h (map inject_Z ov) i p.
Proof.
  rewrite in_concat. split.
  - intros (l & Hl & Hx). apply in_map_iff in Hl as (i' & <- & Hi'). apply zrange_In in Hi'.
    unfold chunk_row in Hx. apply in_flat_map in Hx as (idx & Hidx & Hx). apply prange_In in Hidx.
    rewrite where_eq_row in Hx. destruct (hitb idx i') eqn:Eh; [|contradiction].
    destruct Hx as [X|[] ]. injection X as <- <- <-. exists idx. split; [lia|].
    split; [|reflexivity]. apply sees_posn; unfold hitb in Eh; lia.
  - intros (idx & Hidx & S & ->). apply sees_iff in S as (S1 & S2 & ->).
    eexists. split; [apply in_map; apply zrange_In; instantiate (1 := i); lia|].
    unfold chunk_row. apply in_flat_map. exists idx. split; [apply prange_In; lia|].
    rewrite where_eq_row. replace (hitb idx i) with true by (unfold hitb; lia). left. reflexivity.
Qed.
Lemma locate_chunk_ok side start stop : ov <> [] -> start <= stop ->
  exists rows, locate_slice_chunk side h (map inject_Z ov) start stop = Ok rows /\
   (forall i p f, In (i, p, f) (concat rows) ->
      exists idx hs f', start <= idx < stop /\ locate_slice side h (map inject_Z ov) idx = Ok hs /\
                        In (i, p, f') hs /\ oeq f f') /\
   (forall idx hs i p f', start <= idx < stop -> locate_slice side h (map inject_Z ov) idx = Ok hs ->
      In (i, p, f') hs -> exists f, In (i, p, f) (concat rows) /\ oeq f f').
Proof.
  intros Hne Hss. unfold locate_slice_chunk. replace (stop <? start) with false by lia.
  destruct (map inject_Z ov) as [|q0 qs] eqn:Em; [destruct ov; [congruence|discriminate]|]. rewrite <- Em.
  eexists. split; [reflexivity|]. rewrite map_length. fold n. split.
  - intros i p f H. apply In_concat_filter, chunk_In in H as (idx & Hidx & S & ->).
    assert (Hr : 0 <= idx < scan_height h ov).
    { apply sees_iff in S as (S1 & S2 & _). rewrite <- base_n.
      assert (base 0 <= base i) by (apply base_mono; lia). assert (base i <= base n) by (apply base_mono; lia).
      rewrite base_0 in *. lia. }
    destruct (chunk_fact_locate side idx Hne Hr) as (hs & E & H1 & H2).
    destruct (H2 _ _ S) as (f' & Hf'). exists idx, hs, f'. repeat split; auto; try lia.
    apply (H1 _ _ _ Hf').
  - intros idx hs i p f' Hidx E Hin.
    destruct (Z_lt_ge_dec idx 0) as [L|L].
    { rewrite locate_none in E by (auto; lia). injection E as <-. contradiction. }
    destruct (Z_lt_ge_dec idx (scan_height h ov)) as [L2|L2].
    2:{ rewrite locate_none in E by (auto; lia). injection E as <-. contradiction. }
    destruct (chunk_fact_locate side idx Hne ltac:(lia)) as (hs' & E' & H1 & H2).
    rewrite E in E'. injection E' as <-. destruct (H1 _ _ _ Hin) as [S O].
    exists (chunk_fact side h (map inject_Z ov) i p). split; [|exact O].
    apply In_concat_filter, chunk_In. exists idx. auto.
Qed.
End scan.

Lemma locate_chunk_refuted :
  exists side h ov start stop rows idx hs i p f,
    sane_overlaps h ov /\ ov <> [] /\ start <= idx < stop /\ 0 <= idx < scan_height h ov /\
    locate_slice side h (map inject_Z ov) idx = Ok hs /\ In (i, p, f) hs /\
    locate_slice_chunk side h (map inject_Z ov) start stop = Ok rows /\
    forall g, In (i, p, g) (concat rows) -> ~ oeq g f.
Proof.
  exists 1, 10, [2; 4], 10, 11.
  eexists; exists 10; eexists; exists 1, 2, (Some 1%Q).
  split.
  { split.
    - intros [|[|[|i] ] ] o H; cbn in H; try discriminate; injection H as <-; lia.
    - intros [|[|[|i] ] ] o o' H H'; cbn in H, H'; try discriminate; injection H as <-; injection H' as <-; lia. }
  split; [discriminate|]. split; [lia|]. split; [cbn; lia|].
  split; [vm_compute; reflexivity|]. split.
  { cbn. left. reflexivity. }
  split; [vm_compute; reflexivity|].
  intros g Hg. vm_compute in Hg.
  assert (g = Some (2#3)%Q) as ->.
  { repeat destruct Hg as [E|Hg]; try contradiction; inversion E; auto. }
  intros H. vm_compute in H. discriminate H.
Qed.
Lemma locate_fractional_refuted : exists h ovs idx,
  0 <= idx /\ (forall o, In o ovs -> (2 <= o)%Q /\ (o <= inject_Z h)%Q) /\
  (inject_Z idx < inject_Z (Z.of_nat (length ovs) + 1) * inject_Z h - qlsum ovs)%Q /\
  locate_slice 1 h ovs idx = Ok [].
Proof.
  exists 10, [(5#2)%Q], 12. split; [lia|]. split.
  { intros o [<-|[] ]. split; vm_compute; discriminate. }
  split; [vm_compute; reflexivity|]. vm_compute. reflexivity.
Qed.
