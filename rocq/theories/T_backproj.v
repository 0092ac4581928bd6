(** Property theorems for the back-projection kernels (C52, C53). *)
From Verif Require Import Np P_Np M_par P_par M_backproj S_backproj P_backproj P_backproj2.
From Coq Require Import QArith Qround Lia Lqa Permutation.
From Coq Require Import List. Import ListNotations.
Open Scope Z_scope.

Lemma contribution_slice cosf sinf sino angles center edge i y x : trig_parity cosf sinf ->
  (contribution cosf sinf sino angles center edge i y x == slice_pixel cosf sinf edge sino angles center y x i)%Q.
Proof.
  intros P. unfold contribution, slice_pixel. apply detector_comp. unfold seen_at. destruct (P (vat angles i)) as [-> ->]. ring.
Qed.
Lemma lsum_sum_over f l : (lsum (map f l) == sum_over f l)%Q.
Proof. induction l as [|a l IH]; [reflexivity|]. change (f a + lsum (map f l) == f a + sum_over f l)%Q. rewrite IH. reflexivity. Qed.
Lemma sum_over_ext f g l : (forall i, (f i == g i)%Q) -> (sum_over f l == sum_over g l)%Q.
Proof. intros E. induction l as [|a l IH]; [reflexivity|]. cbn. rewrite IH, E. reflexivity. Qed.

(** C52: when the loop iterations do not overlap, in whatever order they run, every pixel is the full sum *)
Theorem back_projection_cpu_serial_schedules_give_the_full_sum_partial :
  forall (cosf sinf : Q -> Q) (sino : img Q) (angles : vec Q) (center : Q) (edge_pad : bool) (order : list nat) (steps : nat),
  trig_parity cosf sinf -> 1 <= ncol sino -> vlen angles = nrow sino ->
  Permutation (seq 0 (Z.to_nat (nrow sino))) order -> (2 * Z.to_nat (ncol sino * ncol sino) <= steps)%nat ->
  exists out ts,
    back_projection_cpu cosf sinf sino angles center edge_pad (flat_map (fun thread => repeat thread steps) order) = Ok (out, ts) /\
    all_done ts /\ nrow out = ncol sino /\ ncol out = ncol sino /\
    forall y x, 0 <= y < ncol sino -> 0 <= x < ncol sino ->
      (px out y x == sum_over (slice_pixel cosf sinf edge_pad sino angles center y x) (zrange 0 (nrow sino)))%Q.
Proof.
  intros cosf sinf sino angles center edge order steps P W L O K.
  destruct (cpu_serial cosf sinf sino angles center edge W L steps order O K) as (out & ts & E & D & R & C & V).
  exists out, ts. split; [exact E|]. split; [exact D|]. split; [exact R|]. split; [exact C|]. intros y x Hy Hx.
  rewrite (V y x Hy Hx), <- lsum_zrange, lsum_sum_over. apply sum_over_ext. intros i. apply contribution_slice, P.
Qed.
Print Assumptions back_projection_cpu_serial_schedules_give_the_full_sum_partial.

(** C52: whatever the schedule, a pixel is the sum over some of the projections, none counted twice *)
Theorem back_projection_cpu_loses_projections_at_worst_partial :
  forall (cosf sinf : Q -> Q) (sino : img Q) (angles : vec Q) (center : Q) (edge_pad : bool) (sched : list nat),
  trig_parity cosf sinf -> 1 <= ncol sino -> vlen angles = nrow sino ->
  exists out ts,
    back_projection_cpu cosf sinf sino angles center edge_pad sched = Ok (out, ts) /\
    nrow out = ncol sino /\ ncol out = ncol sino /\
    forall y x, 0 <= y < ncol sino -> 0 <= x < ncol sino ->
      exists counted, NoDup counted /\ (forall i, In i counted -> 0 <= i < nrow sino) /\
        (px out y x == sum_over (slice_pixel cosf sinf edge_pad sino angles center y x) counted)%Q.
Proof.
  intros cosf sinf sino angles center edge sched P W L.
  destruct (cpu_total cosf sinf sino angles center edge W L sched) as (out & ts & E).
  destruct (cpu_subset cosf sinf sino angles center edge W L sched out ts E) as (R & C & V).
  exists out, ts. split; [exact E|]. split; [exact R|]. split; [exact C|]. intros y x Hy Hx.
  destruct (V y x Hy Hx) as (S & N & I & Q). exists S. split; [exact N|]. split; [exact I|].
  rewrite Q, lsum_sum_over. apply sum_over_ext. intros i. apply contribution_slice, P.
Qed.
Print Assumptions back_projection_cpu_loses_projections_at_worst_partial.

(** C52 is false as stated: two projections of one pixel with value 1, both iterations complete, and the
    result is 1 instead of 2 *)
Theorem back_projection_cpu_depends_on_the_schedule_refuted :
  ~ (forall (cosf sinf : Q -> Q) (sino : img Q) (angles : vec Q) (center : Q) (edge_pad : bool) (sched : list nat) out ts,
     trig_parity cosf sinf -> 1 <= ncol sino -> vlen angles = nrow sino ->
     back_projection_cpu cosf sinf sino angles center edge_pad sched = Ok (out, ts) -> all_done ts ->
     forall y x, 0 <= y < ncol sino -> 0 <= x < ncol sino ->
      (px out y x == sum_over (slice_pixel cosf sinf edge_pad sino angles center y x) (zrange 0 (nrow sino)))%Q).
Proof.
  intros H. destruct cpu_race as (sino & sched & out & ts & E & D & R & C & Px & V).
  specialize (H (fun _ => 1%Q) (fun _ => 0%Q) sino (mkvec 2 (fun _ => 0%Q)) 0%Q false sched out ts).
  assert (B : (px out 0 0 == 2)%Q); [|rewrite V in B; lra].
  rewrite (H (fun a => conj (Qeq_refl _) (Qeq_refl _)) ltac:(lia) ltac:(cbn; lia) E D 0 0 ltac:(lia) ltac:(lia)).
  rewrite R. change (zrange 0 2) with [0; 1]. unfold sum_over, fold_right, slice_pixel. rewrite C. cbn [vat].
  unfold detector_value. change (Qltb _ 0) with false. change (Qltb (inject_Z (1 - 1)) _) with false. cbv iota zeta.
  rewrite !Px. reflexivity.
Qed.
Print Assumptions back_projection_cpu_depends_on_the_schedule_refuted.

(** C53: every thread grid and schedule gives every pixel the sum over all projections; no read is out of bounds *)
Theorem back_projection_gpu_every_schedule_gives_the_full_sum :
  forall (cosf sinf : Q -> Q) (sino : img Q) (angles : vec Q) (center : Q) (block : Z * Z) (edge_pad : bool),
  trig_parity cosf sinf -> 1 <= ncol sino -> vlen angles = nrow sino -> 1 <= fst block -> 1 <= snd block ->
  (forall sched, exists out ts,
    back_projection_gpu cosf sinf sino angles center block edge_pad sched = Ok (out, ts) /\
    (all_done ts -> nrow out = ncol sino /\ ncol out = ncol sino /\
      forall y x, 0 <= y < ncol sino -> 0 <= x < ncol sino ->
        (px out y x == sum_over (slice_pixel cosf sinf edge_pad sino angles center y x) (zrange 0 (nrow sino)))%Q)) /\
  (exists sched out ts, back_projection_gpu cosf sinf sino angles center block edge_pad sched = Ok (out, ts) /\ all_done ts).
Proof.
  intros cosf sinf sino angles center block edge P W L B1 B2. split.
  - intros sched. destruct (gpu_spec cosf sinf sino angles center edge W L block sched B1 B2) as (out & ts & E & V).
    exists out, ts. split; [exact E|]. intros D. destruct (V D) as (R & C & X). split; [exact R|]. split; [exact C|]. intros y x Hy Hx.
    rewrite (X y x Hy Hx), <- lsum_zrange, lsum_sum_over. apply sum_over_ext. intros i. apply contribution_slice, P.
  - destruct (gpu_spec cosf sinf sino angles center edge W L block [] B1 B2) as (out & ts & E & _).
    unfold back_projection_gpu in E. unfold back_projection_gpu.
    destruct (mapr _ _) as [progs|]; [|discriminate]. cbn [bindr] in *.
    destruct (complete_exists zero_mem progs) as [sched D]. exists sched. destruct (prun zero_mem progs sched) as [m' ts'].
    eexists _, ts'. split; [reflexivity|exact D].
Qed.
Print Assumptions back_projection_gpu_every_schedule_gives_the_full_sum.

(** several sinograms at once: sinogram j is seen in slice j; sinos[i, j, k] = projection i, slice j, detector pixel k *)
Theorem back_projection_gpu_chunk_every_schedule_gives_the_full_sum :
  forall (cosf sinf : Q -> Q) (sinos : vol Q) (angles : vec Q) (center : Q) (block : Z * Z) (edge_pad : bool),
  trig_parity cosf sinf -> 1 <= wid sinos -> vlen angles = dep sinos -> 1 <= fst block -> 1 <= snd block ->
  (forall sched, exists out ts,
    back_projection_gpu_chunk cosf sinf sinos angles center block edge_pad sched = Ok (out, ts) /\
    (all_done ts -> dep out = wid sinos /\ hei out = hei sinos /\ wid out = wid sinos /\
      forall y j x, 0 <= y < wid sinos -> 0 <= j < hei sinos -> 0 <= x < wid sinos ->
        (vx out y j x == sum_over (slice_pixel cosf sinf edge_pad (mkimg (dep sinos) (wid sinos) (fun i k => vx sinos i j k)) angles center y x)
                                  (zrange 0 (dep sinos)))%Q)) /\
  (exists sched out ts, back_projection_gpu_chunk cosf sinf sinos angles center block edge_pad sched = Ok (out, ts) /\ all_done ts).
Proof.
  intros cosf sinf sinos angles center block edge P W L B1 B2. split.
  - intros sched. destruct (gpu_chunk_spec cosf sinf sinos angles center edge W L block sched B1 B2) as (out & ts & E & V).
    exists out, ts. split; [exact E|]. intros D. destruct (V D) as (R & C & C' & X). split; [exact R|]. split; [exact C|]. split; [exact C'|].
    intros y j x Hy Hj Hx. rewrite (X y j x Hy Hj Hx), <- lsum_zrange, lsum_sum_over. apply sum_over_ext. intros i.
    exact (contribution_slice cosf sinf (mkimg (dep sinos) (wid sinos) (fun i k => vx sinos i j k)) angles center edge i y x P).
  - destruct (gpu_chunk_spec cosf sinf sinos angles center edge W L block [] B1 B2) as (out & ts & E & _).
    unfold back_projection_gpu_chunk in E. unfold back_projection_gpu_chunk.
    destruct (mapr _ _) as [progs|]; [|discriminate]. cbn [bindr] in *.
    destruct (complete_exists zero_mem progs) as [sched D]. exists sched. destruct (prun zero_mem progs sched) as [m' ts'].
    eexists _, ts'. split; [reflexivity|exact D].
Qed.
Print Assumptions back_projection_gpu_chunk_every_schedule_gives_the_full_sum.

(** hence the CPU version, run without overlap, and the GPU versions agree *)
Theorem back_projection_cpu_and_gpu_agree :
  forall (cosf sinf : Q -> Q) (sino : img Q) (angles : vec Q) (center : Q) (edge_pad : bool) (order : list nat) (steps : nat)
         (block : Z * Z) (sched : list nat),
  1 <= ncol sino -> vlen angles = nrow sino -> 1 <= fst block -> 1 <= snd block ->
  Permutation (seq 0 (Z.to_nat (nrow sino))) order -> (2 * Z.to_nat (ncol sino * ncol sino) <= steps)%nat ->
  exists cpu gpu ts ts',
    back_projection_cpu cosf sinf sino angles center edge_pad (flat_map (fun thread => repeat thread steps) order) = Ok (cpu, ts) /\
    back_projection_gpu cosf sinf sino angles center block edge_pad sched = Ok (gpu, ts') /\ (all_done ts' -> img_Qeq cpu gpu).
Proof.
  intros cosf sinf sino angles center edge order steps block sched W L B1 B2 O K.
  destruct (cpu_serial cosf sinf sino angles center edge W L steps order O K) as (out & ts & E & D & R & C & V).
  destruct (gpu_spec cosf sinf sino angles center edge W L block sched B1 B2) as (out' & ts' & E' & V').
  exists out, out', ts, ts'. split; [exact E|]. split; [exact E'|]. intros D'. destruct (V' D') as (R' & C' & X').
  unfold img_Qeq. split; [congruence|]. split; [congruence|]. intros y x Hy Hx. unfold in_rng in *. rewrite R in Hy. rewrite C in Hx.
  rewrite V, X' by lia. reflexivity.
Qed.
Print Assumptions back_projection_cpu_and_gpu_agree.

(** vertical slices: the slice is given by the points (x_j, y_j) of a line; row i of the result is row i of the
    projections; the result is the sum over projections n of the detector value where that point is seen *)
Theorem vertical_back_projection_every_schedule_gives_the_full_sum :
  forall (cosf sinf : Q -> Q) (projs : vol Q) (angles xlist ylist : vec Q) (center : Q) (block : Z * Z) (edge_pad : bool),
  1 <= wid projs -> 0 <= hei projs -> vlen angles = dep projs -> vlen xlist = wid projs -> vlen ylist = wid projs ->
  1 <= fst block -> 1 <= snd block ->
  let correct := fun out : img Q => nrow out = hei projs /\ ncol out = wid projs /\
      forall i j, 0 <= i < hei projs -> 0 <= j < wid projs ->
        (px out i j == sum_over (vertical_pixel cosf sinf edge_pad projs angles center i (vat xlist j) (vat ylist j)) (zrange 0 (dep projs)))%Q in
  (forall sched, exists out ts,
    vertical_back_projection_cpu cosf sinf projs angles xlist ylist center edge_pad sched = Ok (out, ts) /\ (all_done ts -> correct out)) /\
  (exists sched out ts, vertical_back_projection_cpu cosf sinf projs angles xlist ylist center edge_pad sched = Ok (out, ts) /\ all_done ts) /\
  (forall sched, exists out ts,
    vertical_back_projection_gpu cosf sinf projs angles xlist ylist center edge_pad block sched = Ok (out, ts) /\ (all_done ts -> correct out)) /\
  (exists sched out ts, vertical_back_projection_gpu cosf sinf projs angles xlist ylist center edge_pad block sched = Ok (out, ts) /\ all_done ts).
Proof.
  intros cosf sinf projs angles xlist ylist center block edge W H L X Y B1 B2 correct.
  split; [|split; [|split]].
  - intros sched. destruct (vert_cpu_spec cosf sinf projs angles center edge W L xlist ylist X Y sched) as (out & ts & E & V).
    exists out, ts. split; [exact E|]. intros D. destruct (V D) as (R & C & P). split; [exact R|]. split; [exact C|].
    intros i j Hi Hj. rewrite (P i j Hi Hj), <- lsum_zrange, lsum_sum_over. reflexivity.
  - destruct (vert_cpu_spec cosf sinf projs angles center edge W L xlist ylist X Y []) as (out & ts & E & _).
    unfold vertical_back_projection_cpu in E. unfold vertical_back_projection_cpu.
    destruct (mapr _ _) as [progs|]; [|discriminate]. cbn [bindr] in *.
    destruct (complete_exists zero_mem progs) as [sched D]. exists sched. destruct (prun zero_mem progs sched) as [m' ts'].
    eexists _, ts'. split; [reflexivity|exact D].
  - intros sched. destruct (vert_gpu_spec cosf sinf projs angles center edge W H L xlist ylist X Y block sched B1 B2) as (out & ts & E & V).
    exists out, ts. split; [exact E|]. intros D. destruct (V D) as (R & C & P). split; [exact R|]. split; [exact C|].
    intros i j Hi Hj. rewrite (P i j Hi Hj), <- lsum_zrange, lsum_sum_over. reflexivity.
  - destruct (vert_gpu_spec cosf sinf projs angles center edge W H L xlist ylist X Y block [] B1 B2) as (out & ts & E & _).
    unfold vertical_back_projection_gpu in E. unfold vertical_back_projection_gpu.
    destruct (mapr _ _) as [progs|]; [|discriminate]. cbn [bindr] in *.
    destruct (complete_exists zero_mem progs) as [sched D]. exists sched. destruct (prun zero_mem progs sched) as [m' ts'].
    eexists _, ts'. split; [reflexivity|exact D].
Qed.
Print Assumptions vertical_back_projection_every_schedule_gives_the_full_sum.

(** several vertical slices at once: slice s is the line (x_mat[s, j], y_mat[s, j]) *)
Theorem vertical_back_projection_chunk_every_schedule_gives_the_full_sum :
  forall (cosf sinf : Q -> Q) (projs : vol Q) (angles : vec Q) (x_mat y_mat : img Q) (center : Q) (block : Z * Z) (edge_pad : bool),
  1 <= wid projs -> 0 <= hei projs -> vlen angles = dep projs -> ncol x_mat = wid projs -> ncol y_mat = wid projs ->
  1 <= fst block -> 1 <= snd block ->
  let correct := fun out : vol Q => dep out = nrow x_mat /\ hei out = hei projs /\ wid out = wid projs /\
      forall s i j, 0 <= s < nrow x_mat -> 0 <= i < hei projs -> 0 <= j < wid projs ->
        (vx out s i j == sum_over (vertical_pixel cosf sinf edge_pad projs angles center i (px x_mat s j) (px y_mat s j)) (zrange 0 (dep projs)))%Q in
  (forall sched, exists out ts,
    vertical_back_projection_cpu_chunk cosf sinf projs angles x_mat y_mat center edge_pad sched = Ok (out, ts) /\ (all_done ts -> correct out)) /\
  (exists sched out ts, vertical_back_projection_cpu_chunk cosf sinf projs angles x_mat y_mat center edge_pad sched = Ok (out, ts) /\ all_done ts) /\
  (forall sched, exists out ts,
    vertical_back_projection_gpu_chunk cosf sinf projs angles x_mat y_mat center edge_pad block sched = Ok (out, ts) /\ (all_done ts -> correct out)) /\
  (exists sched out ts, vertical_back_projection_gpu_chunk cosf sinf projs angles x_mat y_mat center edge_pad block sched = Ok (out, ts) /\ all_done ts).
Proof.
  intros cosf sinf projs angles x_mat y_mat center block edge W H L X Y B1 B2 correct.
  split; [|split; [|split]].
  - intros sched. destruct (vert_cpu_chunk_spec cosf sinf projs angles center edge W L x_mat y_mat X Y sched) as (out & ts & E & V).
    exists out, ts. split; [exact E|]. intros D. destruct (V D) as (R & C & C' & P). split; [exact R|]. split; [exact C|]. split; [exact C'|].
    intros s i j Hs Hi Hj. rewrite (P s i j Hs Hi Hj), <- lsum_zrange, lsum_sum_over. reflexivity.
  - destruct (vert_cpu_chunk_spec cosf sinf projs angles center edge W L x_mat y_mat X Y []) as (out & ts & E & _).
    unfold vertical_back_projection_cpu_chunk in E. unfold vertical_back_projection_cpu_chunk.
    destruct (mapr _ _) as [progs|]; [|discriminate]. cbn [bindr] in *.
    destruct (complete_exists zero_mem progs) as [sched D]. exists sched. destruct (prun zero_mem progs sched) as [m' ts'].
    eexists _, ts'. split; [reflexivity|exact D].
  - intros sched. destruct (vert_gpu_chunk_spec cosf sinf projs angles center edge W H L x_mat y_mat X Y block sched B1 B2) as (out & ts & E & V).
    exists out, ts. split; [exact E|]. intros D. destruct (V D) as (R & C & C' & P). split; [exact R|]. split; [exact C|]. split; [exact C'|].
    intros s i j Hs Hi Hj. rewrite (P s i j Hs Hi Hj), <- lsum_zrange, lsum_sum_over. reflexivity.
  - destruct (vert_gpu_chunk_spec cosf sinf projs angles center edge W H L x_mat y_mat X Y block [] B1 B2) as (out & ts & E & _).
    unfold vertical_back_projection_gpu_chunk in E. unfold vertical_back_projection_gpu_chunk.
    destruct (mapr _ _) as [progs|]; [|discriminate]. cbn [bindr] in *.
    destruct (complete_exists zero_mem progs) as [sched D]. exists sched. destruct (prun zero_mem progs sched) as [m' ts'].
    eexists _, ts'. split; [reflexivity|exact D].
Qed.
Print Assumptions vertical_back_projection_chunk_every_schedule_gives_the_full_sum.

(** *** concrete cases: the hypotheses are met and the values are what one computes by hand *)
Definition ex_sino : img Q := mkimg 2 3 (fun i j => inject_Z (10 * i + j * j)).
Definition ex_angles : vec Q := mkvec 2 (fun i => inject_Z i).
(** quarter turns: cos and sin of a * 90 degrees, a integer *)
Definition ex_cos (a : Q) : Q := match Qfloor a with 0 => 1%Q | _ => 0%Q end.
Definition ex_sin (a : Q) : Q := match Qfloor a with 1 => 1%Q | -1 => (-1)%Q | _ => 0%Q end.
Example ex_detector_value :
  (detector_value true 3 (px ex_sino 0) (3#2) == 5#2)%Q /\ (detector_value true 3 (px ex_sino 0) 7 == 4)%Q /\
  (detector_value false 3 (px ex_sino 0) 7 == 0)%Q /\ (detector_value true 3 (px ex_sino 1) (-1) == 10)%Q.
Proof. repeat split; vm_compute; reflexivity. Qed.
(** block size 2 x 2 on a 3 x 3 slice: 16 threads, 7 of them outside *)
Example ex_gpu :
  match back_projection_gpu ex_cos ex_sin ex_sino ex_angles 1 (2, 2) true (seq 0 16) with
  | Ok (out, ts) => map (fun y => map (fun x => Qred (px out y x)) (zrange 0 3)) (zrange 0 3) = [ [14; 15; 18]; [11; 12; 15]; [10; 11; 14] ]%Q
  | Err _ => False end.
Proof. vm_compute. reflexivity. Qed.
Example ex_cpu :
  match back_projection_cpu ex_cos ex_sin ex_sino ex_angles 1 true (repeat 1%nat 18 ++ repeat 0%nat 18) with
  | Ok (out, ts) => map (fun y => map (fun x => Qred (px out y x)) (zrange 0 3)) (zrange 0 3) = [ [14; 15; 18]; [11; 12; 15]; [10; 11; 14] ]%Q
  | Err _ => False end.
Proof. vm_compute. reflexivity. Qed.
(** the same program with the two iterations in lock step loses one projection in every pixel *)
Example ex_cpu_race :
  match back_projection_cpu ex_cos ex_sin ex_sino ex_angles 1 true (concat (repeat [0; 1]%nat 18)) with
  | Ok (out, ts) => map todo ts = [ []; [] ] /\ map (fun x => Qred (px out 0 x)) (zrange 0 3) = [14; 14; 14]%Q
  | Err _ => False end.
Proof. vm_compute. split; reflexivity. Qed.
Example ex_vertical :
  match vertical_back_projection_cpu ex_cos ex_sin (mkvol 2 1 3 (fun n i k => px ex_sino n k)) ex_angles
          (mkvec 3 (fun j => inject_Z (j - 1))) (mkvec 3 (fun _ => 0%Q)) 1 true (repeat 0%nat 12) with
  | Ok (out, ts) => map todo ts = [ [] ] /\ map (fun x => Qred (px out 0 x)) (zrange 0 3) = [11; 12; 15]%Q
  | Err _ => False end.
Proof. vm_compute. split; reflexivity. Qed.
