(** Proofs about the back-projection kernels (C52, C53). *)
From Verif Require Import Np P_Np M_par P_par M_backproj S_backproj P_conversion3.
From Coq Require Import QArith Qround Permutation Lqa.
From Coq Require Import List. Import ListNotations.
Open Scope Z_scope.

Definition val (o : option Q) : Q := match o with Some v => v | None => 0%Q end.
Definition get {A} (d : A) (r : res A) : A := match r with Ok a => a | Err _ => d end.
Definition samp edge w row f : option Q := get None (sample edge w row f).

Lemma rd_ok row w k : 0 <= k < w -> rd row w k = Ok (row k).
Proof. intros H. unfold rd. destruct (Z.leb_spec 0 k), (Z.ltb_spec k w); try lia. reflexivity. Qed.
Lemma sample_spec edge w row f : 1 <= w ->
  exists o, sample edge w row f = Ok o /\ (val o == detector_value edge w row f)%Q.
Proof.
  intros Hw. unfold sample, detector_value.
  destruct (Qle_bool 0 f) eqn:E1.
  - apply Qle_bool_iff in E1. cbn [andb].
    assert (N : Qltb f 0 = false).
    { destruct (Qltb f 0) eqn:X; [|reflexivity]. apply Qltb_lt in X. exfalso. lra. } rewrite N.
    destruct (Qle_bool f (inject_Z (w - 1))) eqn:E2.
    + apply Qle_bool_iff in E2.
      assert (N2 : Qltb (inject_Z (w - 1)) f = false).
      { destruct (Qltb (inject_Z (w - 1)) f) eqn:X; [|reflexivity]. apply Qltb_lt in X. exfalso. lra. } rewrite N2.
      destruct (floor_ceil f) as ([F1 F2] & F3 & F4 & F5).
      assert (D0 : 0 <= Qfloor f).
      { change 0 with (Qfloor (inject_Z 0)). apply Qfloor_resp_le. exact E1. }
      assert (D1 : Qceiling f <= w - 1).
      { rewrite <- (Qceiling_Z (w - 1)). apply Qceiling_resp_le. exact E2. }
      destruct (Z.eqb_spec (Qceiling f) (Qfloor f)) as [E|NE]; cbn [negb].
      * rewrite rd_ok by lia. cbn [bindr]. eexists. split; [reflexivity|]. cbn [val].
        assert (X : Qeq_bool f (inject_Z (Qfloor f)) = true) by (apply Qeq_bool_iff, F3; lia). rewrite X. reflexivity.
      * assert (Eu : Qceiling f = Qfloor f + 1) by lia.
        rewrite !rd_ok by lia. cbn [bindr]. eexists. split; [reflexivity|]. cbn [val]. rewrite Eu.
        assert (X : Qeq_bool f (inject_Z (Qfloor f)) = false).
        { destruct (Qeq_bool f (inject_Z (Qfloor f))) eqn:X; [|reflexivity]. apply Qeq_bool_iff in X.
          exfalso. apply NE. rewrite (Qceiling_comp _ _ X). apply Qceiling_Z. }
        rewrite X. ring.
    + assert (N2 : Qltb (inject_Z (w - 1)) f = true).
      { apply Qltb_lt. apply Qnot_le_lt. intros X. apply Qle_bool_iff in X. congruence. } rewrite N2.
      destruct edge; [|eexists; split; [reflexivity|reflexivity]].
      rewrite rd_ok by lia. cbn [bindr]. eexists. split; reflexivity.
  - cbn [andb]. assert (N : Qltb f 0 = true).
    { apply Qltb_lt. apply Qnot_le_lt. intros X. apply Qle_bool_iff in X. congruence. } rewrite N.
    destruct edge; [|eexists; split; [reflexivity|reflexivity]].
    rewrite rd_ok by lia. cbn [bindr]. eexists. split; reflexivity.
Qed.
Lemma sample_ok edge w row f : 1 <= w -> sample edge w row f = Ok (samp edge w row f).
Proof. intros H. unfold samp. destruct (sample_spec edge w row f H) as (o & -> & _). reflexivity. Qed.
Lemma samp_val edge w row f : 1 <= w -> (val (samp edge w row f) == detector_value edge w row f)%Q.
Proof. intros H. unfold samp. destruct (sample_spec edge w row f H) as (o & -> & V). exact V. Qed.
Lemma detector_comp edge w row f g : (f == g)%Q -> (detector_value edge w row f == detector_value edge w row g)%Q.
Proof.
  intros E. unfold detector_value, Qltb. rewrite (Qfloor_comp _ _ E).
  assert (C1 : Qle_bool 0 f = Qle_bool 0 g).
  { apply eq_true_iff_eq. rewrite !Qle_bool_iff, E. tauto. }
  assert (C2 : Qle_bool f (inject_Z (w - 1)) = Qle_bool g (inject_Z (w - 1))).
  { apply eq_true_iff_eq. rewrite !Qle_bool_iff, E. tauto. }
  assert (C3 : Qeq_bool f (inject_Z (Qfloor g)) = Qeq_bool g (inject_Z (Qfloor g))).
  { apply eq_true_iff_eq. rewrite !Qeq_bool_iff, E. tauto. }
  rewrite C1, C2, C3.
  repeat match goal with |- context[if ?b then _ else _] => destruct b end; try reflexivity.
  rewrite E. reflexivity.
Qed.
Lemma csum_add c d o : (csum c (add_op d o) == if cell_eqb c d then val o else 0)%Q.
Proof.
  destruct o as [v|]; cbn [add_op val].
  - change (csum c [OAdd d v]) with (contrib c (OAdd d v) + 0)%Q. cbn [contrib]. destruct (cell_eqb c d); ring.
  - change (csum c []) with 0%Q. destruct (cell_eqb c d); reflexivity.
Qed.
Lemma adds_add d o : adds_only (add_op d o).
Proof. destruct o as [v|]; intros x Hx; [|destruct Hx]. destruct Hx as [<-|[] ]. eauto. Qed.
Lemma cell_add d o x : In x (add_op d o) -> op_cell x = d.
Proof. destruct o as [v|]; intros Hx; [|destruct Hx]. destruct Hx as [<-|[] ]. reflexivity. Qed.
Lemma for_ok l f g : (forall a, In a l -> f a = Ok (g a)) -> for_ l f = Ok (flat_map g l).
Proof. intros H. unfold for_. rewrite (mapr_total f g l H). cbn [bindr]. rewrite flat_map_concat_map. reflexivity. Qed.
Lemma fold_acc os : forall z, (fold_left acc os z == z + lsum (map val os))%Q.
Proof.
  induction os as [|o t IH]; intros z; cbn [fold_left map]; [change (lsum []) with 0%Q; ring|].
  rewrite IH. change (lsum (val o :: map val t)) with (val o + lsum (map val t))%Q. destruct o; cbn [acc val]; ring.
Qed.
Lemma grid_In n b k : 1 <= b -> 0 <= n -> 0 <= k < n -> In k (grid_positions n b).
Proof.
  intros Hb Hn Hk. unfold grid_positions. apply zrange_In.
  pose proof (Z.div_mod (- n) b ltac:(lia)). pose proof (Z.mod_pos_bound (- n) b ltac:(lia)). nia.
Qed.
Lemma grid_In' n b k : In k (grid_positions n b) -> 0 <= k.
Proof. unfold grid_positions. rewrite zrange_In. lia. Qed.
Lemma NoDup_list_prod {A B} (l : list A) (l' : list B) : NoDup l -> NoDup l' -> NoDup (list_prod l l').
Proof.
  intros N N'. induction N as [|a t Ha N IH]; [constructor|]. cbn [list_prod].
  assert (App : forall (p q : list (A * B)), NoDup p -> NoDup q -> (forall x, In x p -> ~ In x q) -> NoDup (p ++ q)).
  { induction p as [|x p IHp]; intros q Np Nq Hd; cbn; [exact Nq|]. apply NoDup_cons_iff in Np as [Nx Np]. constructor.
    - rewrite in_app_iff. intros [|]; [contradiction|]. apply (Hd x (or_introl eq_refl)). assumption.
    - apply IHp; [assumption|assumption|]. intros y Hy. apply Hd. right. exact Hy. }
  apply App; [|exact IH|].
  - clear -N'. induction N' as [|b t Hb N' IH]; cbn; constructor; [|exact IH]. intros H. apply in_map_iff in H as (c & E & Hc).
    injection E as ->. contradiction.
  - intros [x y] Hx Hy. apply in_map_iff in Hx as (b & E & _). injection E as -> ->. apply in_prod_iff in Hy as [Hy _]. contradiction.
Qed.

Section trig.
Context (cosf sinf : Q -> Q).
Context (sino : img Q) (angles : vec Q) (center : Q) (edge : bool).
Context (W : 1 <= ncol sino) (H0 : 0 <= nrow sino) (L : vlen angles = nrow sino).
Notation w := (ncol sino).
Definition vals (i y x : Z) : option Q := samp edge w (px sino i) (f_pos cosf sinf w center (- vat angles i)%Q y x).

(** *** CPU *)
Definition cpu_prog (i : Z) : list op :=
  flat_map (fun y => flat_map (fun x => add_op (y, 0%Z, x) (vals i y x)) (zrange 0 w)) (zrange 0 w).
Lemma cpu_iter i : 0 <= i < nrow sino -> bp_cpu_iter cosf sinf sino angles center edge i = Ok (cpu_prog i).
Proof.
  intros Hi. unfold bp_cpu_iter. rewrite vget_in by lia. cbn [bindr]. unfold cpu_prog. apply for_ok. intros y _. apply for_ok.
  intros x _. rewrite sample_ok by exact W. reflexivity.
Qed.
Lemma cpu_adds i : adds_only (cpu_prog i).
Proof. apply adds_flat_map. intros y _. apply adds_flat_map. intros x _. apply adds_add. Qed.
Lemma cpu_csum i y x : 0 <= y < w -> 0 <= x < w -> (csum (y, 0%Z, x) (cpu_prog i) == val (vals i y x))%Q.
Proof.
  intros Hy Hx. unfold cpu_prog. rewrite csum_loop.
  rewrite (qsum_ext w _ (fun y' => if (y' =? y)%Z then val (vals i y' x) else 0%Q)).
  - apply (qsum_pick w y (fun y' => val (vals i y' x))). exact Hy.
  - intros y' _. rewrite csum_loop.
    destruct (Z.eqb_spec y' y) as [->|N].
    + rewrite (qsum_ext w _ (fun x' => if (x' =? x)%Z then val (vals i y x') else 0%Q)).
      * apply (qsum_pick w x (fun x' => val (vals i y x'))). exact Hx.
      * intros x' _. rewrite csum_add. cbn [cell_eqb]. rewrite Z.eqb_refl. cbn [andb].
        rewrite (Z.eqb_sym x x'). reflexivity.
    + rewrite (qsum_ext w _ (fun _ => 0%Q)).
      * unfold qsum. rewrite qsumn_const. ring.
      * intros x' _. rewrite csum_add. cbn [cell_eqb]. destruct (Z.eqb_spec y y'); [congruence|]. reflexivity.
Qed.
Lemma NoDup_flat_map {A B} (f : A -> list B) l : NoDup l -> (forall a, In a l -> NoDup (f a)) ->
  (forall a a' b, In a l -> In a' l -> In b (f a) -> In b (f a') -> a = a') -> NoDup (flat_map f l).
Proof.
  intros N. induction N as [|a t Ha N IH]; intros Hf Hd; cbn; [constructor|].
  assert (App : forall (p q : list B), NoDup p -> NoDup q -> (forall x, In x p -> ~ In x q) -> NoDup (p ++ q)).
  { induction p as [|x p IHp]; intros q Np Nq Hdd; cbn; [exact Nq|]. apply NoDup_cons_iff in Np as [Nx Np]. constructor.
    - rewrite in_app_iff. intros [|]; [contradiction|]. apply (Hdd x (or_introl eq_refl)). assumption.
    - apply IHp; [assumption|assumption|]. intros y Hy. apply Hdd. right. exact Hy. }
  apply App.
  - apply Hf. left. reflexivity.
  - apply IH; [intros b Hb; apply Hf; right; exact Hb|]. intros b b' x Hb Hb'. apply Hd; right; assumption.
  - intros x Hx Hy. apply in_flat_map in Hy as (b & Hb & Hxb).
    assert (a = b) by (eapply (Hd a b x); [left; reflexivity|right; exact Hb|exact Hx|exact Hxb]). subst b. contradiction.
Qed.
Lemma map_flat_map {A B C} (g : B -> C) (f : A -> list B) l : map g (flat_map f l) = flat_map (fun a => map g (f a)) l.
Proof. induction l as [|a t IH]; cbn; [reflexivity|]. rewrite map_app, IH. reflexivity. Qed.
Lemma cpu_nodup i : NoDup (map op_cell (cpu_prog i)).
Proof.
  unfold cpu_prog. rewrite map_flat_map.
  assert (Inner : forall y c, In c (map op_cell (flat_map (fun x => add_op (y, 0%Z, x) (vals i y x)) (zrange 0 w))) ->
     exists x, c = (y, 0%Z, x)).
  { intros y c Hc. apply in_map_iff in Hc as (o & <- & Ho). apply in_flat_map in Ho as (x & _ & Ho).
    apply cell_add in Ho. eauto. }
  apply NoDup_flat_map.
  - apply zrange_NoDup.
  - intros y _. rewrite map_flat_map. apply NoDup_flat_map.
    + apply zrange_NoDup.
    + intros x _. destruct (vals i y x); cbn; repeat constructor. intros [].
    + intros x x' c _ _ Hc Hc'. apply in_map_iff in Hc as (o & <- & Ho). apply in_map_iff in Hc' as (o' & E & Ho').
      apply cell_add in Ho. apply cell_add in Ho'. rewrite Ho, Ho' in E. congruence.
  - intros y y' c _ _ Hc Hc'. apply Inner in Hc as [x ->]. apply Inner in Hc' as [x' E]. congruence.
Qed.
(** contribution of projection i to pixel (y, x) *)
Definition contribution (i y x : Z) : Q :=
  detector_value edge w (px sino i)
    (seen_at (cosf (- vat angles i)%Q) (sinf (- vat angles i)%Q) center (from_middle w x) (from_middle w y)).
Lemma vals_val i y x : (val (vals i y x) == contribution i y x)%Q.
Proof.
  unfold vals. rewrite samp_val by exact W. unfold contribution. apply detector_comp.
  unfold f_pos, seen_at, from_middle. field.
Qed.
Lemma cpu_progs : mapr (bp_cpu_iter cosf sinf sino angles center edge) (zrange 0 (nrow sino)) =
  Ok (map cpu_prog (zrange 0 (nrow sino))).
Proof. apply mapr_total. intros i Hi. apply zrange_In in Hi. apply cpu_iter. lia. Qed.

Lemma cpu_total sched : exists out ts, back_projection_cpu cosf sinf sino angles center edge sched = Ok (out, ts).
Proof. unfold back_projection_cpu. rewrite cpu_progs. cbn [bindr]. destruct (prun _ _ _). eauto. Qed.
Lemma cpu_subset sched out ts : back_projection_cpu cosf sinf sino angles center edge sched = Ok (out, ts) ->
  nrow out = w /\ ncol out = w /\
  forall y x, 0 <= y < w -> 0 <= x < w ->
    exists S, NoDup S /\ (forall i, In i S -> 0 <= i < nrow sino) /\
      (px out y x == lsum (map (fun i => contribution i y x) S))%Q.
Proof.
  unfold back_projection_cpu. rewrite cpu_progs. cbn [bindr].
  destruct (prun zero_mem (map cpu_prog (zrange 0 (nrow sino))) sched) as [m ts'] eqn:E. intros X.
  assert (O1 : out = mkimg w w (fun y x => m (y, 0%Z, x))) by congruence. subst out. clear X. cbn [nrow ncol px].
  split; [reflexivity|]. split; [reflexivity|]. intros y x Hy Hx.
  destruct (lost_updates zero_mem (map cpu_prog (zrange 0 (nrow sino)))) with (sched := sched) (c := (y, 0%Z, x)) as (S & N & R & V).
  { intros p Hp. apply in_map_iff in Hp as (i & <- & _). apply cpu_adds. }
  { intros p Hp. apply in_map_iff in Hp as (i & <- & _). apply cpu_nodup. }
  rewrite E in V. cbn [fst] in V. rewrite map_length, zrange_length in R.
  exists (map Z.of_nat S). split; [apply FinFun.Injective_map_NoDup; [intros a b; lia|exact N]|]. split.
  - intros i Hi. apply in_map_iff in Hi as (n & <- & Hn). specialize (R n Hn). lia.
  - rewrite V. unfold zero_mem, sub_val. rewrite map_map. rewrite Qplus_0_l.
    clear V N. induction S as [|n S IH]; [reflexivity|]. cbn [map].
    change (lsum (?a :: ?l)) with (a + lsum l)%Q.
    rewrite <- IH by (intros k Hk; apply R; right; exact Hk).
    apply Qplus_comp; [|reflexivity].
    specialize (R n (or_introl eq_refl)).
    replace (nth n (map cpu_prog (zrange 0 (nrow sino))) []) with (cpu_prog (Z.of_nat n)).
    + rewrite cpu_csum by assumption. apply vals_val.
    + symmetry. rewrite nth_indep with (d' := cpu_prog 0) by (rewrite map_length, zrange_length; lia).
      rewrite map_nth. f_equal. rewrite zrange_nth by lia. lia.
Qed.
(** one iteration at a time, in any order *)
Lemma cpu_serial K order : Permutation (seq 0 (Z.to_nat (nrow sino))) order -> (2 * Z.to_nat (w * w) <= K)%nat ->
  exists out ts, back_projection_cpu cosf sinf sino angles center edge (serial K order) = Ok (out, ts) /\ all_done ts /\
  nrow out = w /\ ncol out = w /\
  forall y x, 0 <= y < w -> 0 <= x < w -> (px out y x == qsum (nrow sino) (fun i => contribution i y x))%Q.
Proof.
  intros P HK. unfold back_projection_cpu. rewrite cpu_progs. cbn [bindr].
  destruct (serial_complete zero_mem (map cpu_prog (zrange 0 (nrow sino))) K order) as [R1 R2].
  { rewrite map_length, zrange_length. exact P. }
  { intros p Hp. apply in_map_iff in Hp as (i & <- & _). unfold cpu_prog.
    assert (G : forall (f : Z -> list op) k l, (forall a, (length (f a) <= k)%nat) -> (length (flat_map f l) <= k * length l)%nat).
    { intros f k l Hf. induction l as [|a t IH]; cbn; [lia|]. rewrite app_length. specialize (Hf a). lia. }
    etransitivity; [|exact HK].
    assert (length (flat_map (fun y => flat_map (fun x => add_op (y, 0%Z, x) (vals i y x)) (zrange 0 w)) (zrange 0 w))
            <= (1 * Z.to_nat w) * Z.to_nat w)%nat; [|rewrite Z2Nat.inj_mul by lia; lia].
    rewrite <- (zrange_length 0 w) at 2. apply G. intros y. rewrite <- (zrange_length 0 w). apply G. intros x. destruct (vals i y x); cbn; lia. }
  destruct (prun zero_mem (map cpu_prog (zrange 0 (nrow sino))) (serial K order)) as [m ts]. cbn [fst snd] in *.
  eexists _, ts. split; [reflexivity|]. split; [exact R2|]. cbn [nrow ncol px]. split; [reflexivity|]. split; [reflexivity|].
  intros y x Hy Hx. rewrite R1.
  set (g := fun n => nth n (map cpu_prog (zrange 0 (nrow sino))) []).
  assert (Gn : forall n, In n order -> g n = cpu_prog (Z.of_nat n)).
  { intros n Hn. apply (Permutation_in _ (Permutation_sym P)) in Hn. apply in_seq in Hn. unfold g.
    rewrite nth_indep with (d' := cpu_prog 0) by (rewrite map_length, zrange_length; lia).
    rewrite map_nth. f_equal. rewrite zrange_nth by lia. lia. }
  rewrite seq_exec_adds.
  2:{ apply adds_flat_map. intros n Hn. fold (g n). rewrite (Gn n Hn). apply cpu_adds. }
  unfold zero_mem. rewrite Qplus_0_l, csum_flat_map.
  rewrite (lsum_perm _ (map (fun n => csum (y, 0%Z, x) (g n)) (seq 0 (Z.to_nat (nrow sino))))).
  2:{ apply Permutation_map, Permutation_sym, P. }
  rewrite <- lsum_zrange. unfold zrange. rewrite map_map.
  assert (Gs : forall n, In n (seq 0 (Z.to_nat (nrow sino))) -> g n = cpu_prog (Z.of_nat n)).
  { intros n Hn. apply Gn. eapply Permutation_in; eassumption. }
  clear -Gs Hy Hx W. induction (seq 0 (Z.to_nat (nrow sino))) as [|n l IH]; [reflexivity|]. cbn [map].
  change (lsum (?a :: ?l)) with (a + lsum l)%Q. rewrite IH by (intros k Hk; apply Gs; right; exact Hk).
  apply Qplus_comp; [|reflexivity]. rewrite (Gs n (or_introl eq_refl)), cpu_csum by assumption. rewrite vals_val. reflexivity.
Qed.

(** *** GPU *)
Definition gpu_prog (xy : Z * Z) : list op :=
  let (x, y) := xy in
  if (x <? w) && (y <? w) then [OSet (y, 0%Z, x) (fold_left acc (map (fun i => vals i y x) (zrange 0 (nrow sino))) 0%Q)] else [].
Lemma gpu_thread xy : bp_gpu_thread cosf sinf sino angles center edge xy = Ok (gpu_prog xy).
Proof.
  destruct xy as [x y]. unfold bp_gpu_thread, gpu_prog. destruct ((x <? w) && (y <? w)); [|reflexivity].
  rewrite (mapr_total _ (fun i => vals i y x)); [reflexivity|]. intros i Hi. apply zrange_In in Hi.
  rewrite vget_in by lia. cbn [bindr]. rewrite sample_ok by exact W. reflexivity.
Qed.
Lemma gpu_spec block sched : 1 <= fst block -> 1 <= snd block ->
  exists out ts, back_projection_gpu cosf sinf sino angles center block edge sched = Ok (out, ts) /\
  (all_done ts -> nrow out = w /\ ncol out = w /\
   forall y x, 0 <= y < w -> 0 <= x < w -> (px out y x == qsum (nrow sino) (fun i => contribution i y x))%Q).
Proof.
  intros B1 B2. unfold back_projection_gpu.
  set (keys := list_prod _ _).
  rewrite (mapr_total _ gpu_prog keys) by (intros; apply gpu_thread). cbn [bindr].
  destruct (prun zero_mem (map gpu_prog keys) sched) as [m ts] eqn:E.
  eexists _, ts. split; [reflexivity|]. intros Dn. cbn [nrow ncol px]. split; [reflexivity|]. split; [reflexivity|].
  intros y x Hy Hx.
  pose proof (keyed_run gpu_prog keys (fun c => let '(y, _, x) := c in (x, y)) zero_mem sched) as KR.
  rewrite E in KR. cbn [fst snd] in KR. rewrite (KR) with (c := (y, 0%Z, x)).
  - unfold gpu_prog. destruct (Z.ltb_spec x w), (Z.ltb_spec y w); try lia. cbn [andb seq_exec]. rewrite upd_same, fold_acc.
    rewrite Qplus_0_l, map_map, lsum_zrange. apply qsum_ext. intros i _. apply vals_val.
  - apply NoDup_list_prod; apply zrange_NoDup.
  - intros [a b] o _ Ho. unfold gpu_prog in Ho. destruct ((a <? w) && (b <? w)); [|destruct Ho].
    destruct Ho as [<-|[] ]. reflexivity.
  - exact Dn.
  - apply in_prod; apply grid_In; lia.
Qed.
End trig.
