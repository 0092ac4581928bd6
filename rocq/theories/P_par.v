(** Parallel loops: disjoint threads are deterministic; colliding "+=" keep a sub-multiset. *)
From Verif Require Import Np P_Np M_par.
From Coq Require Import QArith Permutation.
From Coq Require Import List. Import ListNotations.
Open Scope Z_scope.

Lemma cell_eqb_iff a b : cell_eqb a b = true <-> a = b.
Proof.
  destruct a as [[x y] z], b as [[u v] w]. cbn. rewrite !andb_true_iff, !Z.eqb_eq. split.
  - intros [[-> ->] ->]. reflexivity.
  - intros E. injection E. auto.
Qed.
Lemma cell_eqb_refl a : cell_eqb a a = true.
Proof. apply cell_eqb_iff. reflexivity. Qed.
Lemma cell_eqb_neq a b : a <> b -> cell_eqb a b = false.
Proof. intros N. destruct (cell_eqb a b) eqn:E; [|reflexivity]. apply cell_eqb_iff in E. congruence. Qed.
Lemma upd_same m c v : upd m c v c = v.
Proof. unfold upd. rewrite cell_eqb_refl. reflexivity. Qed.
Lemma upd_other m c v d : d <> c -> upd m c v d = m d.
Proof. intros N. unfold upd. rewrite cell_eqb_neq by assumption. reflexivity. Qed.
Lemma cell_dec (a b : cell) : {a = b} + {a <> b}.
Proof. destruct (cell_eqb a b) eqn:E; [left; apply cell_eqb_iff; assumption|right; intros ->; rewrite cell_eqb_refl in E; discriminate]. Qed.

Lemma set_nth_length {A} n (a : A) l : length (set_nth n a l) = length l.
Proof. revert n. induction l as [|x t IH]; intros [|n]; cbn; auto. Qed.
Lemma set_nth_same {A} n (a : A) l : (n < length l)%nat -> nth_error (set_nth n a l) n = Some a.
Proof. revert n. induction l as [|x t IH]; intros [|n] H; cbn in *; try lia; [reflexivity|]. apply IH. lia. Qed.
Lemma set_nth_other {A} n k (a : A) l : n <> k -> nth_error (set_nth n a l) k = nth_error l k.
Proof. revert n k. induction l as [|x t IH]; intros [|n] [|k] H; cbn; try congruence; auto. Qed.

(** sequential execution on a cell only looks at that cell *)
Lemma seq_exec_frame prog : forall m m' c, (forall d, (d = c) -> m d = m' d) -> seq_exec m prog c = seq_exec m' prog c.
Proof.
  induction prog as [|[d v|d v] t IH]; intros m m' c H; cbn; [apply H; reflexivity| |].
  - apply IH. intros e ->. unfold upd. destruct (cell_eqb c d) eqn:E; [|apply H; reflexivity].
    apply cell_eqb_iff in E. subst d. rewrite (H c eq_refl). reflexivity.
  - apply IH. intros e ->. unfold upd. destruct (cell_eqb c d) eqn:E; [reflexivity|apply H; reflexivity].
Qed.
Lemma seq_exec_untouched prog : forall m c, (forall o, In o prog -> op_cell o <> c) -> seq_exec m prog c = m c.
Proof.
  induction prog as [|[d v|d v] t IH]; intros m c H; cbn; [reflexivity| |];
  (rewrite IH by (intros o Ho; apply H; right; assumption); apply upd_other;
   intros ->; apply (H _ (or_introl eq_refl)); reflexivity).
Qed.
Lemma seq_exec_app p q : forall m, seq_exec m (p ++ q) = seq_exec (seq_exec m p) q.
Proof. induction p as [|[d v|d v] t IH]; intros m; cbn; auto. Qed.

(** cells of different threads are different *)
Definition disjoint (progs : list (list op)) : Prop :=
  forall a b p q o o', a <> b -> nth_error progs a = Some p -> nth_error progs b = Some q ->
    In o p -> In o' q -> op_cell o <> op_cell o'.

Section run.
Context (m0 : memory) (progs : list (list op)) (D : disjoint progs).
Record inv (s : memory * list thread) : Prop := mkinv {
  i_len : length (snd s) = length progs;
  i_sub : forall n t p, nth_error (snd s) n = Some t -> nth_error progs n = Some p -> exists done, p = done ++ todo t;
  i_reg : forall n t r, nth_error (snd s) n = Some t -> reg t = Some r ->
            exists c v rest, todo t = OAdd c v :: rest /\ r = fst s c;
  i_val : forall n t p c, nth_error (snd s) n = Some t -> nth_error progs n = Some p ->
            (exists o, In o p /\ op_cell o = c) -> seq_exec (fst s) (todo t) c = seq_exec m0 p c;
  i_free : forall c, (forall n p o, nth_error progs n = Some p -> In o p -> op_cell o <> c) -> fst s c = m0 c }.

Lemma inv_start : inv (m0, map start progs).
Proof.
  split; cbn [fst snd].
  - apply map_length.
  - intros n t p H Hp. rewrite nth_error_map, Hp in H. cbn in H. injection H as <-. exists []. reflexivity.
  - intros n t r H. rewrite nth_error_map in H. destruct (nth_error progs n); [|discriminate]. cbn in H. injection H as <-. discriminate.
  - intros n t p c H Hp _. rewrite nth_error_map, Hp in H. cbn in H. injection H as <-. reflexivity.
  - reflexivity.
Qed.
(** a store by thread n to cell c *)
Lemma inv_store m ts n t p c v o rest :
  inv (m, ts) -> nth_error ts n = Some t -> nth_error progs n = Some p -> todo t = o :: rest -> op_cell o = c ->
  (forall d, seq_exec (upd m c v) rest d = seq_exec m (todo t) d) ->
  inv (upd m c v, set_nth n (mkthread rest None) ts).
Proof.
  intros I Ht Hp E Ec Hs. destruct I as [I1 I2 I3 I4 I5]. cbn [fst snd] in *.
  assert (Hin : In o p) by (destruct (I2 _ _ _ Ht Hp) as [done ->]; rewrite E; apply in_or_app; right; left; reflexivity).
  assert (Ln : (n < length ts)%nat) by (apply nth_error_Some; congruence).
  split; cbn [fst snd].
  - rewrite set_nth_length. exact I1.
  - intros k t' q Hk Hq. destruct (Nat.eq_dec k n) as [->|N].
    + rewrite set_nth_same in Hk by assumption. injection Hk as <-. cbn [todo].
      rewrite Hp in Hq. injection Hq as <-. destruct (I2 _ _ _ Ht Hp) as [done ->].
      exists (done ++ [o]). rewrite E, <- app_assoc. reflexivity.
    + rewrite set_nth_other in Hk by congruence. eapply I2; eassumption.
  - intros k t' r Hk Hr. destruct (Nat.eq_dec k n) as [->|N].
    + rewrite set_nth_same in Hk by assumption. injection Hk as <-. discriminate.
    + rewrite set_nth_other in Hk by congruence. destruct (I3 _ _ _ Hk Hr) as (d & w & rs & E1 & ->).
      exists d, w, rs. split; [exact E1|]. symmetry. apply upd_other. intros ->.
      assert (Lk : (k < length ts)%nat) by (apply nth_error_Some; congruence).
      destruct (nth_error progs k) as [q|] eqn:Hq; [|apply nth_error_None in Hq; lia].
      destruct (I2 _ _ _ Hk Hq) as [done Eq].
      apply (D k n q p (OAdd c w) o N Hq Hp); [rewrite Eq, E1; apply in_or_app; right; left; reflexivity|exact Hin|].
      cbn. congruence.
  - intros k t' q d Hk Hq Ho. destruct (Nat.eq_dec k n) as [->|N].
    + rewrite set_nth_same in Hk by assumption. injection Hk as <-. cbn [todo].
      rewrite Hs. apply (I4 n); assumption.
    + rewrite set_nth_other in Hk by congruence. rewrite <- (I4 k t' q d Hk Hq Ho).
      apply seq_exec_frame. intros e ->. apply upd_other. intros ->.
      destruct Ho as (o' & Ho' & Eo). apply (D k n q p o' o N Hq Hp Ho' Hin). congruence.
  - intros d Hd. rewrite upd_other; [apply I5; exact Hd|]. intros ->. apply (Hd n p o Hp Hin). exact Ec.
Qed.
Lemma inv_step s n : inv s -> inv (pstep s n).
Proof.
  intros I. unfold pstep. destruct (nth_error (snd s) n) as [t|] eqn:Ht; [|exact I].
  destruct s as [m ts]. cbn [fst snd] in *. unfold tstep.
  assert (Ln : (n < length ts)%nat) by (apply nth_error_Some; congruence).
  destruct (nth_error progs n) as [p|] eqn:Hp.
  2:{ apply nth_error_None in Hp. destruct I as [I1 _ _ _ _]. cbn in I1. lia. }
  destruct (todo t) as [|[c v|c v] rest] eqn:E.
  - assert (Eq : set_nth n t ts = ts); [|rewrite Eq; exact I].
    clear -Ht. revert n Ht. induction ts as [|x u IH]; intros [|n] H; cbn in *; try discriminate.
    + injection H as ->. reflexivity.
    + f_equal. apply IH. exact H.
  - destruct (reg t) as [r|] eqn:Er.
    + destruct (i_reg _ I n t r Ht Er) as (c' & v' & rest' & E' & Hr). rewrite E in E'. injection E' as <- <- <-. cbn in Hr.
      eapply inv_store; try eassumption; [reflexivity|]. intros d. rewrite E. cbn. rewrite Hr. reflexivity.
    + destruct I as [I1 I2 I3 I4 I5]. cbn [fst snd] in *. split; cbn [fst snd].
      * rewrite set_nth_length. exact I1.
      * intros k t' q Hk Hq. destruct (Nat.eq_dec k n) as [->|N].
        -- rewrite set_nth_same in Hk by assumption. injection Hk as <-. cbn [todo]. rewrite <- E. eapply I2; eassumption.
        -- rewrite set_nth_other in Hk by congruence. eapply I2; eassumption.
      * intros k t' r' Hk Hr. destruct (Nat.eq_dec k n) as [->|N].
        -- rewrite set_nth_same in Hk by assumption. injection Hk as <-. cbn in Hr. injection Hr as <-.
           exists c, v, rest. split; reflexivity.
        -- rewrite set_nth_other in Hk by congruence. eapply I3; eassumption.
      * intros k t' q d Hk Hq Ho. destruct (Nat.eq_dec k n) as [->|N].
        -- rewrite set_nth_same in Hk by assumption. injection Hk as <-. cbn [todo]. rewrite <- E. eapply I4; eassumption.
        -- rewrite set_nth_other in Hk by congruence. eapply I4; eassumption.
      * exact I5.
  - eapply inv_store; try eassumption; [reflexivity|]. intros d. rewrite E. reflexivity.
Qed.
Lemma inv_run sched : forall s, inv s -> inv (fold_left pstep sched s).
Proof. induction sched as [|n t IH]; intros s I; cbn; [exact I|]. apply IH, inv_step, I. Qed.

(** the memory after any complete schedule *)
Lemma disjoint_run sched : all_done (snd (prun m0 progs sched)) ->
  forall c,
  (forall n p, nth_error progs n = Some p -> (exists o, In o p /\ op_cell o = c) ->
     fst (prun m0 progs sched) c = seq_exec m0 p c) /\
  ((forall n p o, nth_error progs n = Some p -> In o p -> op_cell o <> c) -> fst (prun m0 progs sched) c = m0 c).
Proof.
  intros Dn c. pose proof (inv_run sched _ inv_start) as I. fold (prun m0 progs sched) in I.
  split; [|apply (i_free _ I)].
  intros n p Hp Ho.
  assert (Ln : (n < length progs)%nat) by (apply nth_error_Some; congruence).
  destruct (nth_error (snd (prun m0 progs sched)) n) as [t|] eqn:Ht.
  2:{ apply nth_error_None in Ht. rewrite (i_len _ I) in Ht. lia. }
  rewrite <- (i_val _ I n t p c Ht Hp Ho). rewrite (Dn t (nth_error_In _ _ Ht)). reflexivity.
Qed.
(** the same, in terms of running the threads one after the other *)
Lemma seq_concat ps : forall m c, (forall k p, nth_error ps k = Some p -> forall o, In o p -> op_cell o <> c) ->
  seq_exec m (concat ps) c = m c.
Proof.
  intros m c H. apply seq_exec_untouched. intros o Ho. apply in_concat in Ho as (p & Hp & Ho).
  apply In_nth_error in Hp as [k Hk]. eapply H; eassumption.
Qed.
End run.
Lemma disjoint_tail p ps : disjoint (p :: ps) -> disjoint ps.
Proof. intros D a b x y o o' N Ha Hb. apply (D (S a) (S b)); [congruence|exact Ha|exact Hb]. Qed.
Lemma seq_concat_owner : forall ps m c n p, disjoint ps -> nth_error ps n = Some p -> (exists o, In o p /\ op_cell o = c) ->
  seq_exec m (concat ps) c = seq_exec m p c.
Proof.
  induction ps as [|q ps IH]; intros m c [|n] p D Hp Ho; try discriminate; cbn in *.
  - injection Hp as ->. rewrite seq_exec_app. apply seq_exec_untouched.
    intros o Hin. apply in_concat in Hin as (r & Hr & Hin). apply In_nth_error in Hr as [k Hk].
    destruct Ho as (o' & Ho' & <-). apply (D (S k) 0%nat r p o o' ltac:(lia) Hk eq_refl Hin Ho').
  - rewrite seq_exec_app. rewrite (IH (seq_exec m q) c n p (disjoint_tail _ _ D) Hp Ho).
    apply seq_exec_frame. intros d ->. apply seq_exec_untouched. intros o Hin.
    destruct Ho as (o' & Ho' & <-). apply (D 0%nat (S n) q p o o' ltac:(lia) eq_refl Hp Hin Ho').
Qed.
Theorem disjoint_schedule m0 progs sched : disjoint progs -> all_done (snd (prun m0 progs sched)) ->
  forall c, fst (prun m0 progs sched) c = seq_exec m0 (concat progs) c.
Proof.
  intros D Dn c. destruct (disjoint_run m0 progs D sched Dn c) as [R1 R2].
  destruct (in_dec cell_dec c (map op_cell (concat progs))) as [Hin|Nin].
  - apply in_map_iff in Hin as (o & <- & Ho). apply in_concat in Ho as (p & Hp & Ho). apply In_nth_error in Hp as [n Hn].
    rewrite (R1 n p Hn) by (exists o; auto). symmetry. eapply seq_concat_owner; [exact D|exact Hn|exists o; auto].
  - rewrite R2.
    + symmetry. apply seq_concat. intros k p Hk o Ho E. apply Nin. rewrite <- E. apply in_map. apply in_concat.
      exists p. split; [eapply nth_error_In; exact Hk|exact Ho].
    + intros n p o Hn Ho E. apply Nin. rewrite <- E. apply in_map. apply in_concat.
      exists p. split; [eapply nth_error_In; exact Hn|exact Ho].
Qed.

(** ** threads identified by a key computed from the cell *)
Lemma keyed_disjoint {K} (g : K -> list op) (keys : list K) (key : cell -> K) :
  NoDup keys -> (forall k o, In k keys -> In o (g k) -> key (op_cell o) = k) -> disjoint (map g keys).
Proof.
  intros N H a b p q o o' Hab Ha Hb Ho Ho' E.
  rewrite nth_error_map in Ha, Hb.
  destruct (nth_error keys a) as [ka|] eqn:Ka; [|discriminate]. destruct (nth_error keys b) as [kb|] eqn:Kb; [|discriminate].
  cbn in Ha, Hb. injection Ha as <-. injection Hb as <-.
  pose proof (H ka o (nth_error_In _ _ Ka) Ho) as E1. pose proof (H kb o' (nth_error_In _ _ Kb) Ho') as E2.
  assert (ka = kb) by congruence. subst kb. apply Hab.
  apply (proj1 (NoDup_nth_error keys) N); [|congruence]. apply nth_error_Some. congruence.
Qed.
Lemma keyed_run {K} (g : K -> list op) (keys : list K) (key : cell -> K) m0 sched :
  NoDup keys -> (forall k o, In k keys -> In o (g k) -> key (op_cell o) = k) ->
  all_done (snd (prun m0 (map g keys) sched)) ->
  forall c, In (key c) keys -> fst (prun m0 (map g keys) sched) c = seq_exec m0 (g (key c)) c.
Proof.
  intros N H Dn c Hk. pose proof (keyed_disjoint g keys key N H) as D.
  destruct (disjoint_run m0 _ D sched Dn c) as [R1 R2].
  apply In_nth_error in Hk as [n Hn].
  assert (Hp : nth_error (map g keys) n = Some (g (key c))) by (rewrite nth_error_map, Hn; reflexivity).
  destruct (in_dec cell_dec c (map op_cell (g (key c)))) as [Hin|Nin].
  - apply in_map_iff in Hin as (o & E & Ho). apply (R1 n _ Hp). exists o. auto.
  - rewrite R2.
    + symmetry. apply seq_exec_untouched. intros o Ho E. apply Nin. apply in_map_iff. exists o. auto.
    + intros k p o Hk Ho E. rewrite nth_error_map in Hk. destruct (nth_error keys k) as [kk|] eqn:Ek; [|discriminate].
      cbn in Hk. injection Hk as <-. apply Nin. pose proof (H kk o (nth_error_In _ _ Ek) Ho) as E1.
      rewrite E in E1. rewrite <- E1 in Ho. apply in_map_iff. exists o. auto.
Qed.

(** ** sums of contributions *)
Definition lsum (l : list Q) : Q := fold_right Qplus 0%Q l.
Definition contrib (c : cell) (o : op) : Q :=
  match o with OAdd d v => if cell_eqb c d then v else 0%Q | OSet _ _ => 0%Q end.
Definition csum (c : cell) (prog : list op) : Q := lsum (map (contrib c) prog).
Definition adds_only (prog : list op) : Prop := forall o, In o prog -> exists c v, o = OAdd c v.
Lemma lsum_app a b : (lsum (a ++ b) == lsum a + lsum b)%Q.
Proof.
  induction a as [|x t IH]; cbn [app]; [change (lsum []) with 0%Q; ring|].
  change (lsum (x :: t ++ b)) with (x + lsum (t ++ b))%Q. change (lsum (x :: t)) with (x + lsum t)%Q. rewrite IH. ring.
Qed.
Lemma csum_app c p q : (csum c (p ++ q) == csum c p + csum c q)%Q.
Proof. unfold csum. rewrite map_app. apply lsum_app. Qed.
Lemma lsum_perm a b : Permutation a b -> (lsum a == lsum b)%Q.
Proof.
  induction 1 as [|x l l' P IH|x y l|l l' l'' P IH P' IH'].
  - reflexivity.
  - change (lsum (x :: l)) with (x + lsum l)%Q. change (lsum (x :: l')) with (x + lsum l')%Q. rewrite IH. reflexivity.
  - change (lsum (y :: x :: l)) with (y + (x + lsum l))%Q. change (lsum (x :: y :: l)) with (x + (y + lsum l))%Q. ring.
  - rewrite IH. exact IH'.
Qed.
Lemma seq_exec_adds prog : forall m c, adds_only prog -> (seq_exec m prog c == m c + csum c prog)%Q.
Proof.
  induction prog as [|o t IH]; intros m c A; [change (csum c []) with 0%Q; cbn [seq_exec]; ring|].
  destruct (A o (or_introl eq_refl)) as (d & v & ->). cbn [seq_exec].
  rewrite IH by (intros x Hx; apply A; right; exact Hx).
  change (csum c (OAdd d v :: t)) with (contrib c (OAdd d v) + csum c t)%Q. cbn [contrib].
  unfold upd. destruct (cell_eqb c d) eqn:E.
  - apply cell_eqb_iff in E. subst d. ring.
  - ring.
Qed.
Lemma lsum_zrange n (f : Z -> Q) : (lsum (map f (zrange 0 n)) == qsum n f)%Q.
Proof.
  unfold zrange, qsum. rewrite map_map. generalize (Z.to_nat n). induction n0 as [|k IH]; [reflexivity|].
  rewrite seq_S, map_app, lsum_app, IH. cbn [map qsumn]. rewrite Nat.add_0_l, Z.add_0_l.
  change (lsum [f (Z.of_nat k)]) with (f (Z.of_nat k) + 0)%Q. ring.
Qed.
Lemma csum_flat_map {A} c (g : A -> list op) l : (csum c (flat_map g l) == lsum (map (fun a => csum c (g a)) l))%Q.
Proof. induction l as [|a t IH]; [reflexivity|]. cbn [flat_map map]. rewrite csum_app, IH. reflexivity. Qed.
Lemma csum_loop c g n : (csum c (flat_map g (zrange 0 n)) == qsum n (fun k => csum c (g k)))%Q.
Proof. rewrite csum_flat_map. apply lsum_zrange. Qed.
Lemma qsum_pick n k (v : Z -> Q) : 0 <= k < n -> (qsum n (fun j => if j =? k then v j else 0) == v k)%Q.
Proof.
  intros H. unfold qsum.
  assert (G : forall m, (qsumn m (fun j => if (j =? k)%Z then v j else 0) == if (k <? Z.of_nat m)%Z then v k else 0)%Q).
  { induction m as [|m IH]; cbn [qsumn]; [destruct (Z.ltb_spec k (Z.of_nat 0)); [lia|reflexivity]|]. rewrite IH.
    destruct (Z.eqb_spec (Z.of_nat m) k) as [<-|N].
    - destruct (Z.ltb_spec (Z.of_nat m) (Z.of_nat m)); [lia|]. destruct (Z.ltb_spec (Z.of_nat m) (Z.of_nat (S m))); [ring|lia].
    - destruct (Z.ltb_spec k (Z.of_nat m)), (Z.ltb_spec k (Z.of_nat (S m))); try lia; ring. }
  rewrite G. destruct (Z.ltb_spec k (Z.of_nat (Z.to_nat n))); [reflexivity|lia].
Qed.
Lemma adds_flat_map {A} (g : A -> list op) l : (forall a, In a l -> adds_only (g a)) -> adds_only (flat_map g l).
Proof. intros H o Ho. apply in_flat_map in Ho as (a & Ha & Ho). apply (H a Ha o Ho). Qed.

(** ** running the threads one after the other *)
Lemma set_nth_id {A} n (t : A) ts : nth_error ts n = Some t -> set_nth n t ts = ts.
Proof.
  revert n. induction ts as [|x u IH]; intros [|n] H; cbn in *; try discriminate.
  - injection H as ->. reflexivity.
  - f_equal. apply IH. exact H.
Qed.
Lemma set_nth_twice {A} n (a b : A) l : set_nth n a (set_nth n b l) = set_nth n a l.
Proof. revert n. induction l as [|x u IH]; intros [|n]; cbn; try reflexivity. f_equal. apply IH. Qed.
Lemma block_run n p : forall k m ts, nth_error ts n = Some (mkthread p None) -> (2 * length p <= k)%nat ->
  fold_left pstep (repeat n k) (m, ts) = (seq_exec m p, set_nth n (mkthread [] None) ts).
Proof.
  induction p as [|[c v|c v] p IH]; intros k m ts H Hk; cbn [length] in Hk.
  - cbn [seq_exec]. rewrite (set_nth_id n _ ts H). clear Hk. induction k as [|k IHk]; [reflexivity|].
    cbn [repeat fold_left]. unfold pstep at 2. cbn [fst snd]. rewrite H. cbn [tstep todo].
    rewrite (set_nth_id n _ ts H). exact IHk.
  - assert (Ln : (n < length ts)%nat) by (apply nth_error_Some; congruence).
    destruct k as [|[|k] ]; [lia|lia|]. cbn [repeat fold_left]. unfold pstep at 3. cbn [fst snd]. rewrite H. cbn [tstep todo reg].
    unfold pstep at 2. cbn [fst snd]. rewrite set_nth_same by assumption. cbn [tstep todo reg].
    rewrite IH; [|rewrite set_nth_same; [reflexivity|rewrite set_nth_length; assumption]|lia].
    cbn [seq_exec]. rewrite !set_nth_twice. reflexivity.
  - assert (Ln : (n < length ts)%nat) by (apply nth_error_Some; congruence).
    destruct k as [|k]; [lia|]. cbn [repeat fold_left]. unfold pstep at 2. cbn [fst snd]. rewrite H. cbn [tstep todo reg].
    rewrite IH; [|rewrite set_nth_same by assumption; reflexivity|lia].
    cbn [seq_exec]. rewrite !set_nth_twice. reflexivity.
Qed.
(** each thread of [order] runs to its end before the next one starts *)
Definition serial (K : nat) (order : list nat) : list nat := flat_map (fun n => repeat n K) order.
Lemma serial_run progs K order : forall m ts, NoDup order ->
  (forall n, In n order -> exists p, nth_error progs n = Some p /\ nth_error ts n = Some (start p) /\ (2 * length p <= K)%nat) ->
  fst (fold_left pstep (serial K order) (m, ts)) = seq_exec m (flat_map (fun n => nth n progs []) order) /\
  (forall n, In n order -> nth_error (snd (fold_left pstep (serial K order) (m, ts))) n = Some (mkthread [] None)) /\
  (forall n, ~ In n order -> nth_error (snd (fold_left pstep (serial K order) (m, ts))) n = nth_error ts n).
Proof.
  induction order as [|a t IH]; intros m ts N H; cbn [serial flat_map].
  { cbn. split; [reflexivity|]. split; [intros n []|reflexivity]. }
  apply NoDup_cons_iff in N as [Na Nt].
  destruct (H a (or_introl eq_refl)) as (p & Hp & Ht & HK).
  rewrite fold_left_app, (block_run a p K m ts Ht HK).
  assert (La : (a < length ts)%nat) by (apply nth_error_Some; unfold start in Ht; congruence).
  destruct (IH (seq_exec m p) (set_nth a (mkthread [] None) ts) Nt) as (R1 & R2 & R3).
  { intros n Hn. destruct (H n (or_intror Hn)) as (q & Hq & Htq & HKq). exists q. split; [exact Hq|]. split; [|exact HKq].
    rewrite set_nth_other; [exact Htq|]. intros ->. contradiction. }
  fold (serial K t). split; [|split].
  - rewrite R1. rewrite seq_exec_app. rewrite (nth_error_nth _ _ _ Hp). reflexivity.
  - intros n [<-|Hn]; [|apply R2, Hn]. rewrite R3 by exact Na. apply set_nth_same, La.
  - intros n Hn. rewrite R3 by (intros Hx; apply Hn; right; exact Hx). apply set_nth_other. intros ->. apply Hn. left. reflexivity.
Qed.
Lemma pstep_len s n : length (snd (pstep s n)) = length (snd s).
Proof.
  unfold pstep. destruct (nth_error (snd s) n); [|reflexivity]. destruct (tstep (fst s) t) as [m t']. cbn. apply set_nth_length.
Qed.
Lemma prun_len m progs sched : length (snd (prun m progs sched)) = length progs.
Proof.
  unfold prun. rewrite <- (map_length start progs). change (map start progs) with (snd (m, map start progs)) at 2.
  generalize (m, map start progs). induction sched as [|n t IH]; intros s; cbn; [reflexivity|]. rewrite IH. apply pstep_len.
Qed.
Lemma serial_complete m progs K order : Permutation (seq 0 (length progs)) order ->
  (forall p, In p progs -> (2 * length p <= K)%nat) ->
  fst (prun m progs (serial K order)) = seq_exec m (flat_map (fun n => nth n progs []) order) /\
  all_done (snd (prun m progs (serial K order))).
Proof.
  intros P HK. assert (N : NoDup order) by (eapply Permutation_NoDup; [exact P|apply seq_NoDup]).
  assert (I : forall n, In n order <-> (n < length progs)%nat).
  { intros n. split; intros Hn.
    - apply (Permutation_in _ (Permutation_sym P)) in Hn. apply in_seq in Hn. lia.
    - apply (Permutation_in _ P). apply in_seq. lia. }
  unfold prun. destruct (serial_run progs K order m (map start progs) N) as (R1 & R2 & R3).
  { intros n Hn. apply I in Hn. destruct (nth_error progs n) as [p|] eqn:E; [|apply nth_error_None in E; lia].
    exists p. split; [reflexivity|]. split; [rewrite nth_error_map, E; reflexivity|]. apply HK. eapply nth_error_In, E. }
  split; [exact R1|]. intros t Ht. apply In_nth_error in Ht as [n Hn].
  assert (Ln : (n < length progs)%nat).
  { rewrite <- (prun_len m progs (serial K order)). apply nth_error_Some. unfold prun. congruence. }
  rewrite R2 in Hn by (apply I; exact Ln). injection Hn as <-. reflexivity.
Qed.
Lemma complete_exists m progs : exists sched, all_done (snd (prun m progs sched)).
Proof.
  exists (serial (2 * list_max (map (@length op) progs)) (seq 0 (length progs))).
  apply serial_complete; [apply Permutation_refl|]. intros p Hp.
  assert (length p <= list_max (map (@length op) progs))%nat; [|lia].
  pose proof (list_max_le (map (@length op) progs) (list_max (map (@length op) progs))) as [L _].
  specialize (L (le_n _)). rewrite Forall_forall in L. apply L. apply in_map, Hp.
Qed.

(** ** colliding "+=": updates can be lost but nothing else can happen *)
Section lost.
Context (m0 : memory) (progs : list (list op)).
Context (A : forall p, In p progs -> adds_only p) (U : forall p, In p progs -> NoDup (map op_cell p)).
Definition sub_ok (ts : list thread) (c : cell) (S : list nat) : Prop :=
  NoDup S /\ forall n, In n S -> exists t, nth_error ts n = Some t /\ ~ In c (map op_cell (todo t)).
Definition sub_val (c : cell) (S : list nat) : Q := lsum (map (fun n => csum c (nth n progs [])) S).
Record linv (s : memory * list thread) : Prop := mklinv {
  l_sub : forall n t, nth_error (snd s) n = Some t -> exists p done, nth_error progs n = Some p /\ p = done ++ todo t;
  l_mem : forall c, exists S, sub_ok (snd s) c S /\ (fst s c == m0 c + sub_val c S)%Q;
  l_reg : forall n t r c v rest, nth_error (snd s) n = Some t -> reg t = Some r -> todo t = OAdd c v :: rest ->
            exists S, sub_ok (snd s) c S /\ (r == m0 c + sub_val c S)%Q }.
Lemma linv_start : linv (m0, map start progs).
Proof.
  split; cbn [fst snd].
  - intros n t H. rewrite nth_error_map in H. destruct (nth_error progs n) as [p|]; [|discriminate]. cbn in H. injection H as <-.
    exists p, []. split; reflexivity.
  - intros c. exists []. split; [split; [constructor|intros n []]|]. unfold sub_val. cbn. ring.
  - intros n t r c v rest H E. rewrite nth_error_map in H. destruct (nth_error progs n); [|discriminate]. cbn in H. injection H as <-. discriminate.
Qed.
Lemma csum_absent c p : ~ In c (map op_cell p) -> (csum c p == 0)%Q.
Proof.
  intros N. unfold csum. induction p as [|o t IH]; [reflexivity|]. cbn [map lsum fold_right].
  change (fold_right Qplus 0 (map (contrib c) t))%Q with (lsum (map (contrib c) t)).
  rewrite IH by (intros H; apply N; right; exact H). destruct o as [d v|d v]; cbn [contrib]; [|ring].
  destruct (cell_eqb c d) eqn:E; [|ring]. apply cell_eqb_iff in E. subst d. destruct N. left. reflexivity.
Qed.
(** forgetting statements keeps a subset legal *)
Lemma sub_mono ts n t t' c S : nth_error ts n = Some t -> (forall d, In d (map op_cell (todo t')) -> In d (map op_cell (todo t))) ->
  sub_ok ts c S -> sub_ok (set_nth n t' ts) c S.
Proof.
  intros H Hs [N F]. split; [exact N|]. intros k Hk. destruct (F k Hk) as (u & Hu & Nu).
  destruct (Nat.eq_dec k n) as [->|Nk].
  - exists t'. split; [apply set_nth_same, nth_error_Some; congruence|]. rewrite H in Hu. injection Hu as <-. auto.
  - exists u. split; [rewrite set_nth_other by congruence; exact Hu|exact Nu].
Qed.
Lemma linv_step s n : linv s -> linv (pstep s n).
Proof.
  intros [I1 I2 I3]. unfold pstep. destruct (nth_error (snd s) n) as [t|] eqn:Ht; [|split; assumption].
  destruct s as [m ts]. cbn [fst snd] in *. unfold tstep.
  assert (Ln : (n < length ts)%nat) by (apply nth_error_Some; congruence).
  destruct (I1 n t Ht) as (p & done & Hp & Ep).
  destruct (todo t) as [|o rest] eqn:E.
  { rewrite (set_nth_id n t ts Ht). split; assumption. }
  destruct (A p (nth_error_In _ _ Hp) o) as (c & v & ->).
  { rewrite Ep. apply in_or_app. right. left. reflexivity. }
  destruct (reg t) as [r|] eqn:Er.
  - pose proof (U p (nth_error_In _ _ Hp)) as Up. rewrite Ep, map_app in Up. cbn [map op_cell] in Up.
    apply NoDup_remove in Up as [_ Up].
    assert (Mono : forall c' S, sub_ok ts c' S -> sub_ok (set_nth n (mkthread rest None) ts) c' S).
    { intros c' S. eapply sub_mono; [exact Ht|]. cbn [todo]. rewrite E. intros d Hd. right. exact Hd. }
    split; cbn [fst snd].
    + intros k t' Hk. destruct (Nat.eq_dec k n) as [->|N].
      * rewrite set_nth_same in Hk by assumption. injection Hk as <-. exists p, (done ++ [OAdd c v]).
        split; [exact Hp|]. rewrite Ep, <- app_assoc. reflexivity.
      * rewrite set_nth_other in Hk by congruence. apply I1, Hk.
    + intros d. destruct (cell_dec d c) as [->|Nd].
      * destruct (I3 n t r c v rest Ht Er E) as (S & SO & Vr). exists (n :: S). split.
        -- destruct SO as [N F]. split.
           ++ constructor; [|exact N]. intros Hin. destruct (F n Hin) as (u & Hu & Nu). rewrite Ht in Hu. injection Hu as <-.
              apply Nu. rewrite E. left. reflexivity.
           ++ intros k [<-|Hk].
              ** exists (mkthread rest None). split; [apply set_nth_same; assumption|]. cbn [todo]. intros Hin. apply Up.
                 apply in_or_app. right. exact Hin.
              ** apply (proj2 (Mono c S (conj N F)) k Hk).
        -- rewrite upd_same. unfold sub_val. cbn [map lsum fold_right].
           change (fold_right Qplus 0 (map (fun n0 => csum c (nth n0 progs [])) S))%Q with (sub_val c S).
           rewrite (nth_error_nth _ _ _ Hp). rewrite Vr.
           assert (Ev : (csum c p == v)%Q).
           { rewrite Ep, csum_app. unfold csum at 2. cbn [map lsum fold_right contrib]. rewrite cell_eqb_refl.
             change (fold_right Qplus 0 (map (contrib c) rest))%Q with (csum c rest).
             rewrite !csum_absent; [ring| |].
             - intros Hin. apply Up. apply in_or_app. right. exact Hin.
             - intros Hin. apply Up. apply in_or_app. left. exact Hin. }
           rewrite Ev. ring.
      * destruct (I2 d) as (S & SO & Vd). exists S. split; [apply Mono, SO|]. rewrite upd_other by exact Nd. exact Vd.
    + intros k t' r' c' v' rest' Hk Hr Et. destruct (Nat.eq_dec k n) as [->|N].
      * rewrite set_nth_same in Hk by assumption. injection Hk as <-. discriminate.
      * rewrite set_nth_other in Hk by congruence. destruct (I3 k t' r' c' v' rest' Hk Hr Et) as (S & SO & V).
        exists S. split; [apply Mono, SO|exact V].
  - assert (Mono : forall c' S, sub_ok ts c' S -> sub_ok (set_nth n (mkthread (OAdd c v :: rest) (Some (m c))) ts) c' S).
    { intros c' S. eapply sub_mono; [exact Ht|]. cbn [todo]. rewrite E. intros d Hd. exact Hd. }
    split; cbn [fst snd].
    + intros k t' Hk. destruct (Nat.eq_dec k n) as [->|N].
      * rewrite set_nth_same in Hk by assumption. injection Hk as <-. exists p, done. split; [exact Hp|exact Ep].
      * rewrite set_nth_other in Hk by congruence. apply I1, Hk.
    + intros d. destruct (I2 d) as (S & SO & Vd). exists S. split; [apply Mono, SO|exact Vd].
    + intros k t' r' c' v' rest' Hk Hr Et. destruct (Nat.eq_dec k n) as [->|N].
      * rewrite set_nth_same in Hk by assumption. injection Hk as <-. cbn in Hr, Et. injection Hr as <-. injection Et as <- <- <-.
        destruct (I2 c) as (S & SO & Vd). exists S. split; [apply Mono, SO|exact Vd].
      * rewrite set_nth_other in Hk by congruence. destruct (I3 k t' r' c' v' rest' Hk Hr Et) as (S & SO & V).
        exists S. split; [apply Mono, SO|exact V].
Qed.
Lemma lost_updates sched : forall c, exists S, NoDup S /\ (forall n, In n S -> (n < length progs)%nat) /\
  (fst (prun m0 progs sched) c == m0 c + sub_val c S)%Q.
Proof.
  intros c. assert (I : linv (prun m0 progs sched)).
  { unfold prun. assert (G : forall l s, linv s -> linv (fold_left pstep l s)).
    { induction l as [|n t IH]; intros s Hs; cbn; [exact Hs|]. apply IH, linv_step, Hs. }
    apply G, linv_start. }
  destruct (l_mem _ I c) as (S & [N F] & V). exists S. split; [exact N|]. split; [|exact V].
  intros n Hn. destruct (F n Hn) as (t & Ht & _). rewrite <- (prun_len m0 progs sched). apply nth_error_Some. congruence.
Qed.
End lost.
