(** Chunked and vertical-slice back-projection kernels (C53). *)
From Verif Require Import Np P_Np M_par P_par M_backproj S_backproj P_conversion3 P_backproj.
From Coq Require Import QArith Qround Permutation Lqa.
From Coq Require Import List. Import ListNotations.
Open Scope Z_scope.

Lemma qsum_zero n f : (forall i, 0 <= i < n -> (f i == 0)%Q) -> (qsum n f == 0)%Q.
Proof. intros H. rewrite (qsum_ext n f (fun _ => 0%Q) H). unfold qsum. rewrite qsumn_const. ring. Qed.
(** for k in range(n): ops at cell k of one family *)
Lemma csum_pick n k c (cellf : Z -> cell) (o : Z -> option Q) : 0 <= k < n -> (forall j, cellf j = c <-> j = k) ->
  (csum c (flat_map (fun j => add_op (cellf j) (o j)) (zrange 0 n)) == val (o k))%Q.
Proof.
  intros Hk Hc. rewrite csum_loop.
  rewrite (qsum_ext n _ (fun j => if (j =? k)%Z then val (o j) else 0%Q)).
  - apply (qsum_pick n k (fun j => val (o j))). exact Hk.
  - intros j _. rewrite csum_add. destruct (Z.eqb_spec j k) as [->|N].
    + replace (cellf k) with c by (symmetry; apply Hc; reflexivity). rewrite cell_eqb_refl. reflexivity.
    + rewrite cell_eqb_neq; [reflexivity|]. intros E. apply N, Hc. symmetry. exact E.
Qed.

Section trig.
Context (cosf sinf : Q -> Q).
Section chunk.
Context (sinos : vol Q) (angles : vec Q) (center : Q) (edge : bool).
Context (W : 1 <= wid sinos) (H0 : 0 <= dep sinos) (L : vlen angles = dep sinos).
Notation w := (wid sinos).
Definition cvals (i j y x : Z) : option Q := samp edge w (vx sinos i j) (f_pos cosf sinf w center (- vat angles i)%Q y x).
Definition ccontribution (i j y x : Z) : Q :=
  detector_value edge w (vx sinos i j)
    (seen_at (cosf (- vat angles i)%Q) (sinf (- vat angles i)%Q) center (from_middle w x) (from_middle w y)).
Lemma cvals_val i j y x : (val (cvals i j y x) == ccontribution i j y x)%Q.
Proof.
  unfold cvals. rewrite samp_val by exact W. unfold ccontribution. apply detector_comp.
  unfold f_pos, seen_at, from_middle. field.
Qed.
Definition cprog (xy : Z * Z) : list op :=
  let (x, y) := xy in
  if (x <? w) && (y <? w) then
    flat_map (fun i => flat_map (fun j => add_op (y, j, x) (cvals i j y x)) (zrange 0 (hei sinos))) (zrange 0 (dep sinos))
  else [].
Lemma cthread xy : bp_gpu_chunk_thread cosf sinf sinos angles center edge xy = Ok (cprog xy).
Proof.
  destruct xy as [x y]. unfold bp_gpu_chunk_thread, cprog. destruct ((x <? w) && (y <? w)); [|reflexivity].
  apply for_ok. intros i Hi. apply zrange_In in Hi. rewrite vget_in by lia. cbn [bindr]. apply for_ok. intros j _.
  rewrite sample_ok by exact W. reflexivity.
Qed.
Lemma gpu_chunk_spec block sched : 1 <= fst block -> 1 <= snd block ->
  exists out ts, back_projection_gpu_chunk cosf sinf sinos angles center block edge sched = Ok (out, ts) /\
  (all_done ts -> dep out = w /\ hei out = hei sinos /\ wid out = w /\
   forall y j x, 0 <= y < w -> 0 <= j < hei sinos -> 0 <= x < w ->
     (vx out y j x == qsum (dep sinos) (fun i => ccontribution i j y x))%Q).
Proof.
  intros B1 B2. unfold back_projection_gpu_chunk.
  set (keys := list_prod _ _).
  rewrite (mapr_total _ cprog keys) by (intros; apply cthread). cbn [bindr].
  destruct (prun zero_mem (map cprog keys) sched) as [m ts] eqn:E.
  eexists _, ts. split; [reflexivity|]. intros Dn. cbn [dep hei wid vx]. split; [reflexivity|]. split; [reflexivity|]. split; [reflexivity|].
  intros y j x Hy Hj Hx.
  pose proof (keyed_run cprog keys (fun c => let '(y, _, x) := c in (x, y)) zero_mem sched) as KR.
  rewrite E in KR. cbn [fst snd] in KR. rewrite (KR) with (c := (y, j, x)).
  - unfold cprog. destruct (Z.ltb_spec x w), (Z.ltb_spec y w); try lia. cbn [andb].
    rewrite seq_exec_adds by (apply adds_flat_map; intros i _; apply adds_flat_map; intros k _; apply adds_add).
    unfold zero_mem. rewrite Qplus_0_l, csum_loop. apply qsum_ext. intros i _.
    rewrite (csum_pick (hei sinos) j (y, j, x) (fun j => (y, j, x)) (fun j => cvals i j y x)).
    + apply cvals_val.
    + exact Hj.
    + intros k. split; intros X; [congruence|subst; reflexivity].
  - apply NoDup_list_prod; apply zrange_NoDup.
  - intros [a b] o _ Ho. unfold cprog in Ho. destruct ((a <? w) && (b <? w)); [|destruct Ho].
    apply in_flat_map in Ho as (i & _ & Ho). apply in_flat_map in Ho as (k & _ & Ho). apply cell_add in Ho. rewrite Ho. reflexivity.
  - exact Dn.
  - apply in_prod; apply grid_In; lia.
Qed.
End chunk.

Section vert.
Context (projs : vol Q) (angles : vec Q) (center : Q) (edge : bool).
Context (W : 1 <= wid projs) (H0 : 0 <= dep projs) (Hh : 0 <= hei projs) (L : vlen angles = dep projs).
Notation w := (wid projs).
Definition vvals (n i : Z) (x y : Q) : option Q := samp edge w (vx projs n i) (vf_pos cosf sinf center (vat angles n) x y).
Definition vcontribution (n i : Z) (x y : Q) : Q :=
  detector_value edge w (vx projs n i) (seen_at (cosf (vat angles n)) (sinf (vat angles n)) center x y).
Lemma vvals_val n i x y : (val (vvals n i x y) == vcontribution n i x y)%Q.
Proof. unfold vvals. rewrite samp_val by exact W. reflexivity. Qed.
Lemma vbp_acc_ok i x y : exists v, vbp_acc cosf sinf projs angles center edge i x y = Ok v /\
  (v == qsum (dep projs) (fun n => vcontribution n i x y))%Q.
Proof.
  unfold vbp_acc. rewrite (mapr_total _ (fun n => vvals n i x y)).
  2:{ intros n Hn. apply zrange_In in Hn. rewrite vget_in by lia. cbn [bindr]. rewrite sample_ok by exact W. reflexivity. }
  cbn [bindr]. eexists. split; [reflexivity|]. rewrite fold_acc, Qplus_0_l, map_map, lsum_zrange.
  apply qsum_ext. intros n _. apply vvals_val.
Qed.
Definition vacc i x y : Q := get 0%Q (vbp_acc cosf sinf projs angles center edge i x y).
Lemma vacc_eq i x y : vbp_acc cosf sinf projs angles center edge i x y = Ok (vacc i x y).
Proof. unfold vacc. destruct (vbp_acc_ok i x y) as (v & -> & _). reflexivity. Qed.
Lemma vacc_val i x y : (vacc i x y == qsum (dep projs) (fun n => vcontribution n i x y))%Q.
Proof. unfold vacc. destruct (vbp_acc_ok i x y) as (v & -> & V). exact V. Qed.

Section single.
Context (xlist ylist : vec Q) (Lx : vlen xlist = w) (Ly : vlen ylist = w).
Definition vprog (i : Z) : list op :=
  flat_map (fun n => flat_map (fun j => add_op (i, 0, j) (vvals n i (vat xlist j) (vat ylist j))) (zrange 0 w)) (zrange 0 (dep projs)).
Lemma viter i : vbp_cpu_iter cosf sinf projs angles xlist ylist center edge i = Ok (vprog i).
Proof.
  unfold vbp_cpu_iter, vprog. apply for_ok. intros n Hn. apply zrange_In in Hn. rewrite vget_in by lia. cbn [bindr].
  apply for_ok. intros j Hj. apply zrange_In in Hj. rewrite !vget_in by lia. cbn [bindr]. rewrite sample_ok by exact W. reflexivity.
Qed.
Lemma vert_cpu_spec sched :
  exists out ts, vertical_back_projection_cpu cosf sinf projs angles xlist ylist center edge sched = Ok (out, ts) /\
  (all_done ts -> nrow out = hei projs /\ ncol out = w /\
   forall i j, 0 <= i < hei projs -> 0 <= j < w ->
     (px out i j == qsum (dep projs) (fun n => vcontribution n i (vat xlist j) (vat ylist j)))%Q).
Proof.
  unfold vertical_back_projection_cpu.
  rewrite (mapr_total _ vprog) by (intros; apply viter). cbn [bindr].
  destruct (prun zero_mem (map vprog (zrange 0 (hei projs))) sched) as [m ts] eqn:E.
  eexists _, ts. split; [reflexivity|]. intros Dn. cbn [nrow ncol px]. split; [reflexivity|]. split; [reflexivity|].
  intros i j Hi Hj.
  pose proof (keyed_run vprog (zrange 0 (hei projs)) (fun c => let '(i, _, _) := c in i) zero_mem sched) as KR.
  rewrite E in KR. cbn [fst snd] in KR. rewrite (KR) with (c := (i, 0%Z, j)).
  - unfold vprog.
    rewrite seq_exec_adds by (apply adds_flat_map; intros n _; apply adds_flat_map; intros k _; apply adds_add).
    unfold zero_mem. rewrite Qplus_0_l, csum_loop. apply qsum_ext. intros n _.
    rewrite (csum_pick w j (i, 0%Z, j) (fun j => (i, 0%Z, j)) (fun j => vvals n i (vat xlist j) (vat ylist j))).
    + apply vvals_val.
    + exact Hj.
    + intros k. split; intros X; [congruence|subst; reflexivity].
  - apply zrange_NoDup.
  - intros a o _ Ho. unfold vprog in Ho.
    apply in_flat_map in Ho as (n & _ & Ho). apply in_flat_map in Ho as (k & _ & Ho). apply cell_add in Ho. rewrite Ho. reflexivity.
  - exact Dn.
  - apply zrange_In. lia.
Qed.
Definition vgprog (ij : Z * Z) : list op :=
  let (i, j) := ij in
  if (i >=? hei projs) || (j >=? w) then [] else [OSet (i, 0, j) (vacc i (vat xlist j) (vat ylist j))].
Lemma vgthread ij : 0 <= fst ij -> 0 <= snd ij -> vbp_gpu_thread cosf sinf projs angles xlist ylist center edge ij = Ok (vgprog ij).
Proof.
  destruct ij as [i j]. cbn [fst snd]. intros Hi Hj. unfold vbp_gpu_thread, vgprog.
  destruct (Z.geb_spec i (hei projs)); [reflexivity|]. destruct (Z.geb_spec j w); [reflexivity|]. cbn [orb].
  rewrite !vget_in by lia. cbn [bindr]. rewrite vacc_eq. reflexivity.
Qed.
Lemma vert_gpu_spec block sched : 1 <= fst block -> 1 <= snd block ->
  exists out ts, vertical_back_projection_gpu cosf sinf projs angles xlist ylist center edge block sched = Ok (out, ts) /\
  (all_done ts -> nrow out = hei projs /\ ncol out = w /\
   forall i j, 0 <= i < hei projs -> 0 <= j < w ->
     (px out i j == qsum (dep projs) (fun n => vcontribution n i (vat xlist j) (vat ylist j)))%Q).
Proof.
  intros B1 B2. unfold vertical_back_projection_gpu.
  set (keys := list_prod _ _).
  rewrite (mapr_total _ vgprog keys).
  2:{ intros [a b] Hab. apply in_prod_iff in Hab as [Ha Hb]. apply vgthread; cbn; [eapply grid_In', Ha|eapply grid_In', Hb]. }
  cbn [bindr]. destruct (prun zero_mem (map vgprog keys) sched) as [m ts] eqn:E.
  eexists _, ts. split; [reflexivity|]. intros Dn. cbn [nrow ncol px]. split; [reflexivity|]. split; [reflexivity|].
  intros i j Hi Hj.
  pose proof (keyed_run vgprog keys (fun c => let '(i, _, j) := c in (i, j)) zero_mem sched) as KR.
  rewrite E in KR. cbn [fst snd] in KR. rewrite (KR) with (c := (i, 0%Z, j)).
  - unfold vgprog. destruct (Z.geb_spec i (hei projs)); [lia|]. destruct (Z.geb_spec j w); [lia|]. cbn [orb seq_exec].
    rewrite upd_same. apply vacc_val.
  - apply NoDup_list_prod; apply zrange_NoDup.
  - intros [a b] o _ Ho. unfold vgprog in Ho. destruct (_ || _); [destruct Ho|]. destruct Ho as [<-|[] ]. reflexivity.
  - exact Dn.
  - apply in_prod; apply grid_In; lia.
Qed.
End single.
Section multi.
Context (x_mat y_mat : img Q) (Nx : 0 <= nrow x_mat) (Ny : nrow y_mat = nrow x_mat) (Lx : ncol x_mat = w) (Ly : ncol y_mat = w).
Definition mprog (s : Z) : list op :=
  flat_map (fun n => flat_map (fun j => flat_map (fun i => add_op (s, i, j) (vvals n i (px x_mat s j) (px y_mat s j)))
    (zrange 0 (hei projs))) (zrange 0 w)) (zrange 0 (dep projs)).
Lemma miter s : vbp_cpu_chunk_iter cosf sinf projs angles x_mat y_mat center edge s = Ok (mprog s).
Proof.
  unfold vbp_cpu_chunk_iter, mprog. apply for_ok. intros n Hn. apply zrange_In in Hn. rewrite vget_in by lia. cbn [bindr].
  apply for_ok. intros j Hj. apply zrange_In in Hj. rewrite !vget_in by (cbn [vlen irow]; lia). cbn [bindr].
  apply for_ok. intros i _. rewrite sample_ok by exact W. reflexivity.
Qed.
Lemma vert_cpu_chunk_spec sched :
  exists out ts, vertical_back_projection_cpu_chunk cosf sinf projs angles x_mat y_mat center edge sched = Ok (out, ts) /\
  (all_done ts -> dep out = nrow x_mat /\ hei out = hei projs /\ wid out = w /\
   forall s i j, 0 <= s < nrow x_mat -> 0 <= i < hei projs -> 0 <= j < w ->
     (vx out s i j == qsum (dep projs) (fun n => vcontribution n i (px x_mat s j) (px y_mat s j)))%Q).
Proof.
  unfold vertical_back_projection_cpu_chunk.
  rewrite (mapr_total _ mprog) by (intros; apply miter). cbn [bindr].
  destruct (prun zero_mem (map mprog (zrange 0 (nrow x_mat))) sched) as [m ts] eqn:E.
  eexists _, ts. split; [reflexivity|]. intros Dn. cbn [dep hei wid vx]. split; [reflexivity|]. split; [reflexivity|]. split; [reflexivity|].
  intros s i j Hs Hi Hj.
  pose proof (keyed_run mprog (zrange 0 (nrow x_mat)) (fun c => let '(s, _, _) := c in s) zero_mem sched) as KR.
  rewrite E in KR. cbn [fst snd] in KR. rewrite (KR) with (c := (s, i, j)).
  - unfold mprog.
    rewrite seq_exec_adds by (apply adds_flat_map; intros n _; apply adds_flat_map; intros k _; apply adds_flat_map; intros l _; apply adds_add).
    unfold zero_mem. rewrite Qplus_0_l, csum_loop. apply qsum_ext. intros n _. rewrite csum_loop.
    rewrite (qsum_ext w _ (fun k => if (k =? j)%Z then val (vvals n i (px x_mat s k) (px y_mat s k)) else 0%Q)).
    + rewrite (qsum_pick w j (fun k => val (vvals n i (px x_mat s k) (px y_mat s k)))) by exact Hj. apply vvals_val.
    + intros k _. destruct (Z.eqb_spec k j) as [->|N].
      * apply (csum_pick (hei projs) i (s, i, j) (fun i => (s, i, j)) (fun i => vvals n i (px x_mat s j) (px y_mat s j))); [exact Hi|].
        intros l. split; intros X; [congruence|subst; reflexivity].
      * rewrite csum_loop. apply qsum_zero. intros l _. rewrite csum_add, cell_eqb_neq by congruence. reflexivity.
  - apply zrange_NoDup.
  - intros a o _ Ho. unfold mprog in Ho.
    apply in_flat_map in Ho as (n & _ & Ho). apply in_flat_map in Ho as (k & _ & Ho). apply in_flat_map in Ho as (l & _ & Ho). apply cell_add in Ho. rewrite Ho. reflexivity.
  - exact Dn.
  - apply zrange_In. lia.
Qed.
Definition mgprog (ij : Z * Z) : list op :=
  let (i, j) := ij in
  if (i >=? hei projs) || (j >=? w) then []
  else flat_map (fun s => [OSet (s, i, j) (vacc i (px x_mat s j) (px y_mat s j))]) (zrange 0 (nrow x_mat)).
Lemma mgthread ij : 0 <= fst ij -> 0 <= snd ij ->
  vbp_gpu_chunk_thread cosf sinf projs angles x_mat y_mat center edge ij = Ok (mgprog ij).
Proof.
  destruct ij as [i j]. cbn [fst snd]. intros Hi Hj. unfold vbp_gpu_chunk_thread, mgprog.
  destruct (Z.geb_spec i (hei projs)); [reflexivity|]. destruct (Z.geb_spec j w); [reflexivity|]. cbn [orb].
  apply for_ok. intros s _. rewrite !vget_in by (cbn [vlen irow]; lia). cbn [bindr]. rewrite vacc_eq. reflexivity.
Qed.
(** stores to different cells *)
Lemma seq_sets (f : Z -> cell) (v : Z -> Q) : forall l m k, NoDup l -> In k l -> (forall a b, f a = f b -> a = b) ->
  seq_exec m (flat_map (fun s => [OSet (f s) (v s)]) l) (f k) = v k.
Proof.
  intros l m k N. revert m. induction N as [|a t Ha N IH]; intros m Hk Inj; [destruct Hk|]. cbn [flat_map app seq_exec].
  destruct Hk as [<-|Hk]; [|apply IH; assumption].
  rewrite seq_exec_untouched; [apply upd_same|]. intros o Ho E. apply in_flat_map in Ho as (b & Hb & Ho).
  destruct Ho as [<-|[] ]. cbn in E. apply Inj in E. subst b. contradiction.
Qed.
Lemma vert_gpu_chunk_spec block sched : 1 <= fst block -> 1 <= snd block ->
  exists out ts, vertical_back_projection_gpu_chunk cosf sinf projs angles x_mat y_mat center edge block sched = Ok (out, ts) /\
  (all_done ts -> dep out = nrow x_mat /\ hei out = hei projs /\ wid out = w /\
   forall s i j, 0 <= s < nrow x_mat -> 0 <= i < hei projs -> 0 <= j < w ->
     (vx out s i j == qsum (dep projs) (fun n => vcontribution n i (px x_mat s j) (px y_mat s j)))%Q).
Proof.
  intros B1 B2. unfold vertical_back_projection_gpu_chunk.
  set (keys := list_prod _ _).
  rewrite (mapr_total _ mgprog keys).
  2:{ intros [a b] Hab. apply in_prod_iff in Hab as [Ha Hb]. apply mgthread; cbn; [eapply grid_In', Ha|eapply grid_In', Hb]. }
  cbn [bindr]. destruct (prun zero_mem (map mgprog keys) sched) as [m ts] eqn:E.
  eexists _, ts. split; [reflexivity|]. intros Dn. cbn [dep hei wid vx]. split; [reflexivity|]. split; [reflexivity|]. split; [reflexivity|].
  intros s i j Hs Hi Hj.
  pose proof (keyed_run mgprog keys (fun c => let '(_, i, j) := c in (i, j)) zero_mem sched) as KR.
  rewrite E in KR. cbn [fst snd] in KR. rewrite (KR) with (c := (s, i, j)).
  - unfold mgprog. destruct (Z.geb_spec i (hei projs)); [lia|]. destruct (Z.geb_spec j w); [lia|]. cbn [orb].
    rewrite (seq_sets (fun s => (s, i, j)) (fun s => vacc i (px x_mat s j) (px y_mat s j)) (zrange 0 (nrow x_mat)) zero_mem s).
    + apply vacc_val.
    + apply zrange_NoDup.
    + apply zrange_In. lia.
    + intros a b X. congruence.
  - apply NoDup_list_prod; apply zrange_NoDup.
  - intros [a b] o _ Ho. unfold mgprog in Ho. destruct (_ || _); [destruct Ho|]. apply in_flat_map in Ho as (q & _ & Ho). destruct Ho as [<-|[] ]. reflexivity.
  - exact Dn.
  - apply in_prod; apply grid_In; lia.
Qed.
End multi.
End vert.
End trig.

(** a lost update *)
Lemma cpu_race : exists sino sched out ts,
  back_projection_cpu (fun _ => 1%Q) (fun _ => 0%Q) sino (mkvec 2 (fun _ => 0%Q)) 0 false sched = Ok (out, ts) /\
  all_done ts /\ nrow sino = 2 /\ ncol sino = 1 /\ (forall i j, px sino i j = 1%Q) /\ (px out 0 0 == 1)%Q.
Proof.
  exists (mkimg 2 1 (fun _ _ => 1%Q)), [0; 1; 0; 1]%nat.
  unfold back_projection_cpu. cbn [nrow ncol].
  assert (E : mapr (bp_cpu_iter (fun _ => 1%Q) (fun _ => 0%Q) (mkimg 2 1 (fun _ _ => 1%Q)) (mkvec 2 (fun _ => 0%Q)) 0 false) (zrange 0 2)
    = Ok [[OAdd (0, 0, 0) 1%Q]; [OAdd (0, 0, 0) 1%Q] ]) by (vm_compute; reflexivity).
  rewrite E. cbn [bindr]. clear E.
  destruct (prun zero_mem [[OAdd (0, 0, 0) 1%Q]; [OAdd (0, 0, 0) 1%Q] ] [0; 1; 0; 1]%nat) as [m ts] eqn:R.
  assert (T : ts = [mkthread [] None; mkthread [] None]) by (apply (f_equal snd) in R; vm_compute in R; congruence).
  assert (M : m (0, 0, 0) = 1%Q) by (apply (f_equal (fun s => fst s (0, 0, 0))) in R; vm_compute in R; cbn in R; congruence).
  eexists _, ts. split; [reflexivity|]. split.
  - subst ts. intros t [<-|[<-|[] ] ]; reflexivity.
  - cbn [px]. rewrite M. repeat split; reflexivity.
Qed.
