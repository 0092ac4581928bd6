(** C62, C92, C93: maps of local shifts. *)
From Coq Require Import Reals Lra ZArith Lia Permutation.
From Verif Require Import Np P_Np M_corr S_corr P_corr P_corr2 P_corr3 P_corr4 M_local S_local P_peakext P_local P_local2 P_local3 P_local4 P_local5 P_local6 P_local7 P_local8 P_local9 P_local10 P_local11 P_local12.
From Coq Require Import List. Import ListNotations.
Open Scope Z_scope.

(** ** C62: the result does not depend on how the rows are divided into chunks *)
(** dim=2, stacks of images, on the CPU or in hybrid mode: for every chunk_size the map holds, at every pixel whose windows fit,
    the shift between the windows around it, and zeros elsewhere; [meth] any method, norm and norm_global any *)
Theorem local_shifts_chunks_irrelevant_partial : forall polyfit2 surface v w win margin meth size dev block sched norm ng chunk,
  let ref := Stack v in let mat := Stack w in
  (meth = PolyFit -> reads_elements polyfit2 surface) -> dev = CPU \/ (dev = Hybrid /\ any_launch block sched) ->
  same_size ref mat -> 1 <= dep w -> 0 <= win / 2 -> 1 <= margin ->
  let r := win / 2 in let e := r + margin in
  2 * e + 1 <= height ref -> 2 * e + 1 <= width ref -> ((norm || ng)%bool = true -> textured ref e /\ textured mat e) ->
  pieces (height ref) chunk <= height ref - 2 * e ->
  exists xs ys, find_local_shifts polyfit2 surface ref mat false win margin meth size dev block sched norm ng chunk = Ok (xs, ys) /\
    shift_maps ref e e (fun i j => find_shift_based_correlation_map polyfit2 surface (patch ref i j e) (patch mat i j r) margin NoAxis
                                     true meth false size false (1, 1) (fun l => l)) xs ys.
Proof.
  intros polyfit2 surface v w win margin meth size dev block sched norm ng chunk ref mat RE Dv Ss D R0 M r e Hh Hw T P. destruct Dv as [-> | (-> & L)].
  - apply (cpu_stack_spec polyfit2 surface v w win margin meth size block sched norm ng chunk); assumption.
  - apply (hybrid_stack_spec polyfit2 surface v w win margin meth size block sched norm ng chunk); assumption.
Qed.
Print Assumptions local_shifts_chunks_irrelevant_partial.

(** dim=1: the same along the line of every pixel, without normalisation of the lines; the GPU only has the differential method *)
Theorem local_shifts_lines_chunks_irrelevant_partial : forall polyfit2 surface v w win margin meth size dev block sched ng chunk,
  (meth = PolyFit -> reads_elements polyfit2 surface) -> dev = CPU \/ (dev = GPU /\ meth = Diff /\ any_launch block sched) ->
  dep v = dep w -> hei v = hei w -> wid v = wid w -> 1 <= dep w -> 0 <= win / 2 -> 1 <= margin ->
  let r := win / 2 in let e := r + margin in
  2 * e + 1 <= hei v -> 2 * e + 1 <= wid v -> (ng = true -> textured (Stack v) e /\ textured (Stack w) e) ->
  pieces (hei v) chunk <= hei v - 2 * e ->
  let line := fun along_x i j => find_shift_based_correlation_map polyfit2 surface (strip along_x v i j e) (strip along_x w i j r) margin Axis1
                                     true meth true size false (1, 1) (fun l => l) in
  exists xs ys, find_local_shifts polyfit2 surface (Stack v) (Stack w) true win margin meth size dev block sched false ng chunk = Ok (xs, ys) /\
    line_shift_maps v e (line true) (line false) xs ys.
Proof.
  intros polyfit2 surface v w win margin meth size dev block sched ng chunk RE Dv D Hh Hw D1 R0 M r e H1 W1 T P line.
  destruct Dv as [-> | (-> & -> & L)].
  - apply (one_d_plain polyfit2 surface meth RE size win margin R0 M (fun dir pad => multi_rows_1d_cpu polyfit2 surface dir win margin true meth size pad false block sched)); try assumption.
    intros dir pad v' w'. apply multi_1d_spec; assumption.
  - apply (one_d_plain polyfit2 surface Diff RE size win margin R0 M (fun dir pad => multi_rows_1d_gpu dir win margin block sched pad false)); try assumption.
    apply gpu_chunk; assumption.
Qed.
Print Assumptions local_shifts_lines_chunks_irrelevant_partial.

(** too small a chunk_size is an error for all devices although the images are large enough; chunk_size = 1 always is *)
Theorem local_shifts_every_chunk_size_refuted : forall polyfit2 surface v w dim1 win margin size dev block sched chunk,
  any_launch block sched -> dep v = dep w -> hei v = hei w -> wid v = wid w -> 1 <= dep w -> 0 <= win / 2 -> 1 <= margin ->
  let r := win / 2 in let e := r + margin in 2 * e + 1 <= hei v -> 2 * e + 1 <= wid v ->
  hei v - 2 * e < pieces (hei v) chunk ->
  find_local_shifts polyfit2 surface (Stack v) (Stack w) dim1 win margin Diff size dev block sched false false chunk = Err IndexError.
Proof.
  intros polyfit2 surface v w dim1 win margin size dev block sched chunk L D Hh Hw D1 R0 M r e H1 W1 P.
  assert (Ss : same_size (Stack v) (Stack w)) by (split; [exact D|split; assumption]).
  assert (T2 : (false || false)%bool = true -> textured (Stack v) e /\ textured (Stack w) e) by discriminate.
  assert (NP : Diff = PolyFit -> reads_elements polyfit2 surface) by discriminate.
  destruct dev, dim1.
  - apply (one_d_plain polyfit2 surface Diff NP size win margin R0 M (fun dir pad => multi_rows_1d_cpu polyfit2 surface dir win margin true Diff size pad false block sched) chunk false v w); try assumption; try discriminate.
    intros dir pad v' w'. apply multi_1d_spec; assumption.
  - apply (cpu_stack_spec polyfit2 surface v w win margin Diff size block sched false false chunk); assumption.
  - apply (one_d_plain polyfit2 surface Diff NP size win margin R0 M (fun dir pad => multi_rows_1d_gpu dir win margin block sched pad false) chunk false v w); try assumption; try discriminate.
    apply gpu_chunk; assumption.
  - apply (gpu_stack_spec polyfit2 surface v w win margin Diff size block sched false false chunk); assumption.
  - apply (hybrid_stack_spec polyfit2 surface v w win margin Diff size block sched false false chunk); assumption.
  - apply (hybrid_stack_spec polyfit2 surface v w win margin Diff size block sched false false chunk); assumption.
Qed.
Print Assumptions local_shifts_every_chunk_size_refuted.
(** e.g. 40 rows, win_size=7, margin=10: chunk_size=1 makes 40 pieces of 14 rows; and the default chunk_size=100 makes two pieces of
    the single row left by 27 rows *)
Example ex_pieces : pieces 40 (Some 1) = 40 /\ 40 - 2 * (7 / 2 + 10) = 14 /\ pieces 27 (Some 100) = 2 /\ 27 - 2 * (7 / 2 + 10) = 1 /\
  pieces 512 (Some 100) = 6 /\ 512 - 2 * (7 / 2 + 10) = 486.
Proof. repeat split. Qed.
(** hypotheses: two images of 9 x 8 pixels, chunks of 4 rows *)
Definition ex_stack (c : R) : vol R := mkvol 2 9 8 (fun k i j => c * IZR (i * j + k))%R.
Example ex_chunks : let v := ex_stack 1 in let w := ex_stack 2 in same_size (Stack v) (Stack w) /\ 2 * (3 / 2 + 1) + 1 <= hei v /\ 2 * (3 / 2 + 1) + 1 <= wid v /\
  pieces (hei v) (Some 4) = 3 /\ 3 <= hei v - 2 * (3 / 2 + 1) /\ textured (Stack v) 2.
Proof.
  split; [split; [reflexivity|split; reflexivity]|]. split; [cbn; lia|]. split; [cbn; lia|]. split; [reflexivity|]. split; [cbn; lia|].
  intros i Hi. cbn [height ex_stack hei] in Hi. exists (1 * IZR ((i - 2 + 0) * (0 + 0) + 0))%R, (1 * IZR ((i - 2 + 0) * (0 + 0) + 1))%R.
  assert (G : forall k, 0 <= k < 2 -> In (1 * IZR ((i - 2 + 0) * (0 + 0) + k))%R (window (Stack (ex_stack 1)) (i - 2) 0 (2 * 2 + 1) (width (Stack (ex_stack 1))))).
  { intros k Hk. unfold window. apply in_flat_map. exists k. split; [apply zrange_In; cbn; lia|]. apply in_flat_map. exists 0. split; [apply zrange_In; lia|].
    apply in_map_iff. exists 0. split; [reflexivity|apply zrange_In; cbn; lia]. }
  split; [apply G; lia|]. split; [apply G; lia|]. rewrite !plus_IZR. lra.
Qed.
(** dim=1 with the default norm=True (a single chunk): shifts between the lines after equalisation over the images and along the line *)
Theorem local_shifts_lines_normalised : forall polyfit2 surface v w win margin meth size dev block sched,
  (meth = PolyFit -> reads_elements polyfit2 surface) -> dev = CPU \/ (dev = GPU /\ meth = Diff /\ any_launch block sched) ->
  dep v = dep w -> hei v = hei w -> wid v = wid w -> 1 <= dep w -> 0 <= win / 2 -> 1 <= margin ->
  let r := win / 2 in let e := r + margin in
  2 * e + 1 <= hei v -> 2 * e + 1 <= wid v -> equalised_lines_vary v -> equalised_lines_vary w ->
  let line := fun along_x i j => find_shift_based_correlation_map polyfit2 surface (strip along_x (equalised_lines along_x v) i j e)
                                     (strip along_x (equalised_lines along_x w) i j r) margin Axis1 true meth true size false (1, 1) (fun l => l) in
  exists xs ys, find_local_shifts polyfit2 surface (Stack v) (Stack w) true win margin meth size dev block sched true false None = Ok (xs, ys) /\
    line_shift_maps v e (line true) (line false) xs ys.
Proof.
  intros polyfit2 surface v w win margin meth size dev block sched RE Dv D Hh Hw D1 R0 M r e H1 W1 L1 L2 line.
  destruct Dv as [-> | (-> & -> & L)].
  - apply (one_d_norm polyfit2 surface meth RE size win margin R0 M (fun dir pad => multi_rows_1d_cpu polyfit2 surface dir win margin true meth size pad true block sched)); try assumption; try (apply vary_planes; assumption).
    intros dir pad v' w'. apply multi_1d_spec; assumption.
  - apply (one_d_norm polyfit2 surface Diff RE size win margin R0 M (fun dir pad => multi_rows_1d_gpu dir win margin block sched pad true)); try assumption; try (apply vary_planes; assumption).
    apply gpu_chunk; assumption.
Qed.
Print Assumptions local_shifts_lines_normalised.

(** ** C92: the shift at every pixel whose windows fit is within one pixel of the best displacement up to the margin *)
Theorem local_shifts_near_best_displacement : forall polyfit2 surface v w win margin meth size dev block sched norm ng chunk,
  let ref := Stack v in let mat := Stack w in
  (meth = PolyFit -> reads_elements polyfit2 surface) -> any_launch block sched ->
  same_size ref mat -> 1 <= dep w -> 0 <= win / 2 -> 1 <= margin ->
  let r := win / 2 in let e := r + margin in
  2 * e + 1 <= height ref -> 2 * e + 1 <= width ref -> ((norm || ng)%bool = true -> textured ref e /\ textured mat e) ->
  pieces (height ref) chunk <= height ref - 2 * e ->
  exists xs ys, find_local_shifts polyfit2 surface ref mat false win margin meth size dev block sched norm ng chunk = Ok (xs, ys) /\
    forall i j, e <= i < height ref - e -> e <= j < width ref - e ->
      near_best ref mat i j r margin (meth <> PolyFit \/ dev = GPU) (px xs i j) (px ys i j).
Proof.
  intros polyfit2 surface v w win margin meth size dev block sched norm ng chunk ref mat RE L Ss D R0 M r e Hh Hw T P.
  assert (E0 : 1 <= e) by (unfold e, r; lia).
  assert (Wk : forall (A B : Prop) i j x y, (B -> A) -> near_best ref mat i j r margin A x y -> near_best ref mat i j r margin B x y).
  { intros A B i j x y I (N1 & dy & dx & N2 & N3). split; [exact N1|]. exists dy, dx. split; [exact N2|]. intros b. apply N3, I, b. }
  assert (Cpu : dev <> GPU -> exists xs ys, find_local_shifts polyfit2 surface ref mat false win margin meth size dev block sched norm ng chunk = Ok (xs, ys) /\
    forall i j, e <= i < height ref - e -> e <= j < width ref - e -> near_best ref mat i j r margin (meth <> PolyFit \/ dev = GPU) (px xs i j) (px ys i j)).
  { intros Nd. destruct (local_shifts_chunks_irrelevant_partial polyfit2 surface v w win margin meth size dev block sched norm ng chunk) as (xs & ys & E & _ & V); try assumption.
    - destruct dev; [left; reflexivity|congruence|right; split; [reflexivity|exact L] ].
    - exists xs, ys. split; [exact E|]. intros i j Hi Hj. destruct (V i j) as (V1 & _); [fold ref r e; lia|fold ref r e; lia|].
      apply (Wk (meth <> PolyFit)); [tauto|]. apply (cpu_near polyfit2 surface) with (size := size); try assumption; [exact (proj1 Ss)|]. apply V1. fold ref r e. auto. }
  destruct dev; [apply Cpu; discriminate| |apply Cpu; discriminate].
  destruct (gpu_stack_spec polyfit2 surface v w win margin meth size block sched norm ng chunk) as (S & _); try assumption.
  destruct (S P) as (xs & ys & E & _ & V). exists xs, ys. split; [exact E|]. intros i j Hi Hj. destruct (V i j) as (V1 & _); [fold ref r e; lia|fold ref r e; lia|].
  apply (Wk True); [tauto|]. specialize (V1 (conj Hi Hj)). assert (OI : forall a b : R * R, Ok a = Ok b -> a = b) by congruence. apply OI in V1.
  pose proof (gpu_near polyfit2 surface ref mat i j r margin (proj1 Ss) D R0 M) as G. cbv zeta in G. fold e in G. fold r in V1. fold e in V1. fold ref mat in V1. rewrite V1 in G. exact G.
Qed.
Print Assumptions local_shifts_near_best_displacement.

(** if what surrounds a pixel is, within the margin, only found at one place of the reference (up to brightness and contrast),
    the shift leads there *)
Theorem local_shifts_recover_local_displacement : forall polyfit2 surface v w win margin size dev block sched norm ng chunk,
  let ref := Stack v in let mat := Stack w in any_launch block sched ->
  same_size ref mat -> 1 <= dep w -> 0 <= win / 2 -> 1 <= margin ->
  let r := win / 2 in let e := r + margin in
  2 * e + 1 <= height ref -> 2 * e + 1 <= width ref -> ((norm || ng)%bool = true -> textured ref e /\ textured mat e) ->
  pieces (height ref) chunk <= height ref - 2 * e ->
  exists xs ys, find_local_shifts polyfit2 surface ref mat false win margin Diff size dev block sched norm ng chunk = Ok (xs, ys) /\
    forall i j dy dx, e <= i < height ref - e -> e <= j < width ref - e -> - margin <= dy <= margin -> - margin <= dx <= margin ->
      let around d y x := window d (y - r) (x - r) (2 * r + 1) (2 * r + 1) in
      varies (around mat i j) ->
      (forall dy' dx', - margin <= dy' <= margin -> - margin <= dx' <= margin ->
         (affine_copy (around mat i j) (around ref (i + dy') (j + dx')) <-> dy' = dy /\ dx' = dx)) ->
      (Rabs (px xs i j - IZR dx) < 1 /\ Rabs (px ys i j - IZR dy) < 1)%R.
Proof.
  intros polyfit2 surface v w win margin size dev block sched norm ng chunk ref mat L Ss D R0 M r e Hh Hw T P.
  destruct (local_shifts_near_best_displacement polyfit2 surface v w win margin Diff size dev block sched norm ng chunk) as (xs & ys & E & V); try assumption; [discriminate|].
  exists xs, ys. split; [exact E|]. intros i j dy dx Hi Hj Hy Hx around Va U.
  pose proof (best_copy ref mat i j r margin dy dx (proj1 Ss) Hy Hx Va U) as B.
  destruct (V i j Hi Hj) as (_ & dy' & dx' & B' & N). destruct (best_unique _ _ _ _ _ _ _ _ _ _ B B') as (-> & ->). apply N. left. discriminate.
Qed.
Print Assumptions local_shifts_recover_local_displacement.
(** a concrete window: the pattern 0 1 0 / 0 0 2 / 1 0 0 at one place of the reference, one row lower in the image *)
Definition ex_pattern (y x : Z) : data :=
  Stack (mkvol 1 7 7 (fun _ i j => if (i =? y) && (j =? x + 1) then 1 else if (i =? y + 1) && (j =? x + 2) then 2 else if (i =? y + 2) && (j =? x) then 1 else 0)%R).
Example ex_copies : let around d y x := window d (y - 1) (x - 1) 3 3 in
  varies (around (ex_pattern 2 2) 3 3) /\
  forall dy' dx', -1 <= dy' <= 1 -> -1 <= dx' <= 1 -> (affine_copy (around (ex_pattern 2 2) 3 3) (around (ex_pattern 1 2) (3 + dy') (3 + dx')) <-> dy' = -1 /\ dx' = 0).
Proof.
  intros around. assert (W : around (ex_pattern 2 2) 3 3 = [0; 1; 0; 0; 0; 2; 1; 0; 0]%R) by reflexivity. rewrite W. split.
  - exists 0%R, 1%R. split; [left; reflexivity|]. split; [right; left; reflexivity|lra].
  - intros dy' dx' Hy Hx. split.
    + intros (s & t & S & E).
      assert (dy' = -1 \/ dy' = 0 \/ dy' = 1) as [-> | [-> | ->] ] by lia; assert (dx' = -1 \/ dx' = 0 \/ dx' = 1) as [-> | [-> | ->] ] by lia;
        try (split; reflexivity); exfalso; cbv -[IZR Rmult Rplus Rlt] in E; injection E; intros; lra.
    + intros (-> & ->). exists 1%R, 0%R. split; [lra|]. cbv -[IZR Rmult Rplus]. repeat (apply f_equal2; [lra|]). reflexivity.
Qed.

(** single images (no normalisation): the same for all devices *)
Theorem local_shifts_of_images_near_best_displacement : forall polyfit2 surface m n dim1 win margin meth size dev block sched ng chunk,
  let ref := One m in let mat := One n in
  (meth = PolyFit -> reads_elements polyfit2 surface) -> any_launch block sched ->
  same_size ref mat -> 0 <= win / 2 -> 1 <= margin ->
  let r := win / 2 in let e := r + margin in
  2 * e + 1 <= height ref -> 2 * e + 1 <= width ref -> (dev = CPU \/ pieces (height ref) chunk <= height ref - 2 * e) ->
  exists xs ys, find_local_shifts polyfit2 surface ref mat dim1 win margin meth size dev block sched false ng chunk = Ok (xs, ys) /\
    forall i j, 0 <= i < height ref -> 0 <= j < width ref ->
      (e <= i < height ref - e /\ e <= j < width ref - e -> near_best ref mat i j r margin (meth <> PolyFit \/ dev <> CPU) (px xs i j) (px ys i j)) /\
      (~ (e <= i < height ref - e /\ e <= j < width ref - e) -> px xs i j = 0%R /\ px ys i j = 0%R).
Proof.
  intros polyfit2 surface m n dim1 win margin meth size dev block sched ng chunk ref mat RE L Ss R0 M r e Hh Hw P.
  assert (E0 : 1 <= e) by (unfold e, r; lia). assert (Dec : dev = CPU \/ dev <> CPU) by (destruct dev; [left; reflexivity|right; discriminate|right; discriminate]).
  assert (Wk : forall (A B : Prop) i j x y, (B -> A) -> near_best ref mat i j r margin A x y -> near_best ref mat i j r margin B x y).
  { intros A B i j x y I (N1 & dy & dx & N2 & N3). split; [exact N1|]. exists dy, dx. split; [exact N2|]. intros b. apply N3, I, b. }
  destruct Dec as [-> |Nc].
  - destruct (cpu_one_spec polyfit2 surface m n win margin meth size block sched ng chunk false) as (xs & ys & E & _ & V); try assumption; try discriminate.
    + exact (proj1 (proj2 Ss)).
    + exact (proj2 (proj2 Ss)).
    + exists xs, ys. split; [exact E|]. intros i j Hi Hj. destruct (V i j Hi Hj) as (V1 & V2). split; [|exact V2]. intros B.
      apply (Wk (meth <> PolyFit)); [tauto|]. apply (cpu_near polyfit2 surface) with (size := size); try assumption; [exact I|cbn; lia|]. exact (V1 B).
  - destruct P as [P|P]; [congruence|].
    destruct (gpu_one_spec polyfit2 surface m n win margin meth size dev dim1 block sched ng chunk) as (S & _); try assumption.
    destruct (S P) as (xs & ys & E & _ & V). exists xs, ys. split; [exact E|]. intros i j Hi Hj. destruct (V i j Hi Hj) as (V1 & V2). split; [|exact V2]. intros B.
    apply (Wk True); [tauto|]. specialize (V1 B). assert (OI : forall a b : R * R, Ok a = Ok b -> a = b) by congruence. apply OI in V1.
    pose proof (gpu_near polyfit2 surface ref mat i j r margin I ltac:(cbn; lia) R0 M) as G. cbv zeta in G. fold e in G. fold r in V1. fold e in V1. fold ref mat in V1. rewrite V1 in G. exact G.
Qed.
Print Assumptions local_shifts_of_images_near_best_displacement.
(** the only pixel of the example with a spot on the side of the region *)
Example ex_side : best_displacement side_ref side_mat 2 2 1 1 0 (-1) /\ same_size side_ref side_mat /\ 2 * (3 / 2 + 1) + 1 <= height side_ref /\
  pieces (height side_ref) None <= height side_ref - 2 * (3 / 2 + 1).
Proof. split; [exact side_best|]. split; [split; [exact I|split; reflexivity]|]. cbn. split; lia. Qed.

(** lines: the best displacement along the line *)
Theorem local_shifts_lines_near_best_displacement : forall polyfit2 surface v w win margin meth size dev block sched ng chunk,
  (meth = PolyFit -> reads_elements polyfit2 surface) -> dev = CPU \/ (dev = GPU /\ meth = Diff /\ any_launch block sched) ->
  dep v = dep w -> hei v = hei w -> wid v = wid w -> 1 <= dep w -> 0 <= win / 2 -> 1 <= margin ->
  let r := win / 2 in let e := r + margin in
  2 * e + 1 <= hei v -> 2 * e + 1 <= wid v -> (ng = true -> textured (Stack v) e /\ textured (Stack w) e) ->
  pieces (hei v) chunk <= hei v - 2 * e ->
  let near := fun along_x i j s => (Rabs s <= IZR margin)%R /\
    exists d, - margin <= d <= margin /\
      (forall d', - margin <= d' <= margin -> (line_similarity along_x v w i j r d' <= line_similarity along_x v w i j r d)%R) /\
      (meth <> PolyFit -> Rabs (s - IZR d) < 1)%R in
  exists xs ys, find_local_shifts polyfit2 surface (Stack v) (Stack w) true win margin meth size dev block sched false ng chunk = Ok (xs, ys) /\
    forall i j, 0 <= i < hei v -> 0 <= j < wid v ->
      (e <= j < wid v - e -> near true i j (px xs i j)) /\ (e <= i < hei v - e -> near false i j (px ys i j)).
Proof.
  intros polyfit2 surface v w win margin meth size dev block sched ng chunk RE Dv D Hh Hw D1 R0 M r e H1 W1 T P near.
  destruct (local_shifts_lines_chunks_irrelevant_partial polyfit2 surface v w win margin meth size dev block sched ng chunk RE Dv D Hh Hw D1 R0 M H1 W1 T P) as (xs & ys & E & _ & V).
  exists xs, ys. split; [exact E|]. intros i j Hi Hj. destruct (V i j Hi Hj) as (V1 & _ & V3 & _). split; intros B.
  - apply (strip_best polyfit2 surface meth size win margin R0 M true v w i j (px xs i j) 0%R D D1). apply V1. exact B.
  - apply (strip_best polyfit2 surface meth size win margin R0 M false v w i j (px ys i j) 0%R D D1). apply V3. exact B.
Qed.
Print Assumptions local_shifts_lines_near_best_displacement.

(** ** C93: GPU, hybrid mode and CPU *)
(** dim=2, differential method: the same value wherever the best displacement is not on a side of the search region; there the GPU
    returns whole pixels, less than one pixel from the CPU *)
Theorem local_shifts_gpu_equals_cpu_partial : forall polyfit2 surface v w win margin size size' block sched block' sched' norm ng chunk chunk',
  let ref := Stack v in let mat := Stack w in any_launch block sched ->
  same_size ref mat -> 1 <= dep w -> 0 <= win / 2 -> 1 <= margin ->
  let r := win / 2 in let e := r + margin in
  2 * e + 1 <= height ref -> 2 * e + 1 <= width ref -> ((norm || ng)%bool = true -> textured ref e /\ textured mat e) ->
  pieces (height ref) chunk <= height ref - 2 * e -> pieces (height ref) chunk' <= height ref - 2 * e ->
  exists gx gy cx cy,
    find_local_shifts polyfit2 surface ref mat false win margin Diff size GPU block sched norm ng chunk = Ok (gx, gy) /\
    find_local_shifts polyfit2 surface ref mat false win margin Diff size' CPU block' sched' norm ng chunk' = Ok (cx, cy) /\
    (nrow gx = nrow cx /\ ncol gx = ncol cx /\ nrow gy = nrow cy /\ ncol gy = ncol cy) /\
    forall i j, 0 <= i < height ref -> 0 <= j < width ref ->
      (~ (e <= i < height ref - e /\ e <= j < width ref - e) -> px gx i j = px cx i j /\ px gy i j = px cy i j) /\
      forall dy dx, e <= i < height ref - e -> e <= j < width ref - e -> best_displacement ref mat i j r margin dy dx ->
        (~ on_a_side margin dy dx -> px gx i j = px cx i j /\ px gy i j = px cy i j) /\
        (on_a_side margin dy dx -> px gx i j = IZR dx /\ px gy i j = IZR dy /\ Rabs (px gx i j - px cx i j) < 1 /\ Rabs (px gy i j - px cy i j) < 1)%R.
Proof.
  intros polyfit2 surface v w win margin size size' block sched block' sched' norm ng chunk chunk' ref mat L Ss D R0 M r e Hh Hw T P P'.
  destruct (gpu_stack_spec polyfit2 surface v w win margin Diff size block sched norm ng chunk) as (S & _); try assumption.
  destruct (S P) as (gx & gy & E & (N1 & N2 & N3 & N4) & V).
  destruct (cpu_stack_spec polyfit2 surface v w win margin Diff size' block' sched' norm ng chunk') as (S' & _); try assumption; try discriminate.
  destruct (S' P') as (cx & cy & E' & (N1' & N2' & N3' & N4') & V'). exists gx, gy, cx, cy. split; [exact E|]. split; [exact E'|]. split; [repeat split; congruence|].
  intros i j Hi Hj. destruct (V i j Hi Hj) as (A1 & A2). destruct (V' i j Hi Hj) as (B1 & B2). split.
  - intros O. destruct (A2 O) as (-> & ->). destruct (B2 O) as (-> & ->). split; reflexivity.
  - intros dy dx Bi Bj Bd. specialize (A1 (conj Bi Bj)). specialize (B1 (conj Bi Bj)).
    assert (OI : forall a b : R * R, Ok a = Ok b -> a = b) by congruence. apply OI in A1.
    destruct (pixel_gpu polyfit2 surface ref mat i j r margin size' (proj1 Ss) D R0 M) as (dy' & dx' & B' & N & Sd & Ns).
    destruct (best_unique _ _ _ _ _ _ _ _ _ _ Bd B') as (<- & <-). fold e in N, Sd, Ns. fold r in A1, B1. fold e in A1, B1. fold ref mat in A1, B1. rewrite A1 in N, Sd, Ns. cbn [fst snd] in N.
    split.
    + intros Q. specialize (Ns Q). rewrite B1 in Ns. injection Ns as -> ->. split; reflexivity.
    + intros Q. specialize (Sd Q). injection Sd as -> ->. split; [reflexivity|]. split; [reflexivity|].
      assert (NPF : Diff = PolyFit -> reads_elements polyfit2 surface) by discriminate.
      pose proof (cpu_near polyfit2 surface ref mat i j r margin Diff size' (px cx i j) (px cy i j) (proj1 Ss) D R0 M NPF B1) as (_ & dy' & dx' & B2' & N').
      destruct (best_unique _ _ _ _ _ _ _ _ _ _ Bd B2') as (<- & <-). rewrite !(Rabs_minus_sym (IZR _)). apply N'. discriminate.
Qed.
Print Assumptions local_shifts_gpu_equals_cpu_partial.

(** on the side of the search region they differ: one bright pixel *)
Theorem local_shifts_gpu_equals_cpu_refuted : forall polyfit2 surface size block sched, any_launch block sched ->
  exists gx gy cx cy,
    find_local_shifts polyfit2 surface side_ref side_mat false 3 1 Diff size GPU block sched false false None = Ok (gx, gy) /\
    find_local_shifts polyfit2 surface side_ref side_mat false 3 1 Diff size CPU block sched false false None = Ok (cx, cy) /\
    (px gx 2 2 = -1 /\ px cx 2 2 = -1 /\ px gy 2 2 = 0 /\ px cy 2 2 = 1 / 34)%R.
Proof.
  intros polyfit2 surface size block sched L.
  destruct (gpu_one_spec polyfit2 surface (dot_image 1 0) (dot_image 1 1) 3 1 Diff size GPU false block sched false None) as (S & _);
    [discriminate|split; [exact I|split; reflexivity]|exact L|cbn; lia|lia|cbn; lia|cbn; lia|].
  destruct S as (gx & gy & E & _ & V); [cbn; lia|].
  destruct (cpu_one_spec polyfit2 surface (dot_image 1 0) (dot_image 1 1) 3 1 Diff size block sched false None false) as (cx & cy & E' & _ & V');
    [discriminate|reflexivity|reflexivity|cbn; lia|lia|cbn; lia|cbn; lia|discriminate|].
  exists gx, gy, cx, cy. split; [exact E|]. split; [exact E'|].
  destruct (V 2 2) as (A & _); [cbn; lia|cbn; lia|]. destruct (V' 2 2) as (B & _); [cbn; lia|cbn; lia|].
  change (3 / 2) with 1 in A, B. change (1 + 1) with 2 in A, B. specialize (A ltac:(cbn; lia)). specialize (B ltac:(cbn; lia)).
  assert (OI : forall a b : R * R, Ok a = Ok b -> a = b) by congruence. apply OI in A.
  change (One (dot_image 1 0)) with side_ref in *. change (One (dot_image 1 1)) with side_mat in *.
  rewrite (side_cpu polyfit2 surface size) in B. injection B as <- <-.
  destruct (pixel_gpu polyfit2 surface side_ref side_mat 2 2 1 1 size I) as (dy' & dx' & B' & _ & Sd & _); [cbn; lia|lia|lia|].
  destruct (best_unique _ _ _ _ _ _ _ _ _ _ side_best B') as (<- & <-). change (1 + 1) with 2 in Sd. rewrite A in Sd. assert (Q : on_a_side 1 0 (-1)) by (unfold on_a_side; lia). specialize (Sd Q). injection Sd as -> ->. auto.
Qed.
Print Assumptions local_shifts_gpu_equals_cpu_refuted.

(** dim=1: GPU and CPU agree everywhere; dim=2: so do hybrid mode and CPU *)
Theorem local_shifts_lines_gpu_equals_cpu : forall polyfit2 surface v w win margin size block sched block' sched' ng chunk chunk',
  any_launch block sched ->
  dep v = dep w -> hei v = hei w -> wid v = wid w -> 1 <= dep w -> 0 <= win / 2 -> 1 <= margin ->
  let e := win / 2 + margin in
  2 * e + 1 <= hei v -> 2 * e + 1 <= wid v -> (ng = true -> textured (Stack v) e /\ textured (Stack w) e) ->
  pieces (hei v) chunk <= hei v - 2 * e -> pieces (hei v) chunk' <= hei v - 2 * e ->
  exists gx gy cx cy,
    find_local_shifts polyfit2 surface (Stack v) (Stack w) true win margin Diff size GPU block sched false ng chunk = Ok (gx, gy) /\
    find_local_shifts polyfit2 surface (Stack v) (Stack w) true win margin Diff size CPU block' sched' false ng chunk' = Ok (cx, cy) /\
    img_eq gx cx /\ img_eq gy cy.
Proof.
  intros polyfit2 surface v w win margin size block sched block' sched' ng chunk chunk' L D Hh Hw D1 R0 M e H1 W1 T P P'.
  destruct (local_shifts_lines_chunks_irrelevant_partial polyfit2 surface v w win margin Diff size GPU block sched ng chunk) as (gx & gy & E & (N1 & N2 & N3 & N4) & V); try assumption; [discriminate|right; auto|].
  destruct (local_shifts_lines_chunks_irrelevant_partial polyfit2 surface v w win margin Diff size CPU block' sched' ng chunk') as (cx & cy & E' & (N1' & N2' & N3' & N4') & V'); try assumption; [discriminate|left; reflexivity|].
  exists gx, gy, cx, cy. split; [exact E|]. split; [exact E'|]. split; (split; [congruence|]; split; [congruence|]); unfold in_rng; intros i j Hi Hj;
    (destruct (V i j) as (A1 & A2 & A3 & A4); [lia..|]); (destruct (V' i j) as (B1 & B2 & B3 & B4); [lia..|]); fold e in A1, A2, A3, A4, B1, B2, B3, B4.
  - assert (Q : e <= j < wid v - e \/ ~ e <= j < wid v - e) by lia. destruct Q as [Q|Q]; [|rewrite A2, B2 by exact Q; reflexivity].
    specialize (A1 Q). specialize (B1 Q). rewrite A1 in B1. congruence.
  - assert (Q : e <= i < hei v - e \/ ~ e <= i < hei v - e) by lia. destruct Q as [Q|Q]; [|rewrite A4, B4 by exact Q; reflexivity].
    specialize (A3 Q). specialize (B3 Q). rewrite A3 in B3. congruence.
Qed.
Print Assumptions local_shifts_lines_gpu_equals_cpu.
Theorem local_shifts_hybrid_equals_cpu : forall polyfit2 surface v w win margin meth size block sched block' sched' norm ng chunk chunk',
  let ref := Stack v in let mat := Stack w in (meth = PolyFit -> reads_elements polyfit2 surface) -> any_launch block sched ->
  same_size ref mat -> 1 <= dep w -> 0 <= win / 2 -> 1 <= margin ->
  let e := win / 2 + margin in
  2 * e + 1 <= height ref -> 2 * e + 1 <= width ref -> ((norm || ng)%bool = true -> textured ref e /\ textured mat e) ->
  pieces (height ref) chunk <= height ref - 2 * e -> pieces (height ref) chunk' <= height ref - 2 * e ->
  exists gx gy cx cy,
    find_local_shifts polyfit2 surface ref mat false win margin meth size Hybrid block sched norm ng chunk = Ok (gx, gy) /\
    find_local_shifts polyfit2 surface ref mat false win margin meth size CPU block' sched' norm ng chunk' = Ok (cx, cy) /\
    img_eq gx cx /\ img_eq gy cy.
Proof.
  intros polyfit2 surface v w win margin meth size block sched block' sched' norm ng chunk chunk' ref mat RE L Ss D R0 M e Hh Hw T P P'.
  destruct (local_shifts_chunks_irrelevant_partial polyfit2 surface v w win margin meth size Hybrid block sched norm ng chunk) as (gx & gy & E & (N1 & N2 & N3 & N4) & V); try assumption; [right; auto|].
  destruct (local_shifts_chunks_irrelevant_partial polyfit2 surface v w win margin meth size CPU block' sched' norm ng chunk') as (cx & cy & E' & (N1' & N2' & N3' & N4') & V'); try assumption; [left; reflexivity|].
  exists gx, gy, cx, cy. split; [exact E|]. split; [exact E'|].
  assert (Q : forall i j, 0 <= i < height ref -> 0 <= j < width ref -> px gx i j = px cx i j /\ px gy i j = px cy i j).
  { intros i j Hi Hj. destruct (V i j Hi Hj) as (A1 & A2). destruct (V' i j Hi Hj) as (B1 & B2). fold ref e in A1, A2, B1, B2.
    assert (Q : (e <= i < height ref - e /\ e <= j < width ref - e) \/ ~ (e <= i < height ref - e /\ e <= j < width ref - e)) by lia. destruct Q as [Q|Q].
    - specialize (A1 Q). specialize (B1 Q). rewrite A1 in B1. injection B1 as -> ->. auto.
    - destruct (A2 Q) as (-> & ->), (B2 Q) as (-> & ->). auto. }
  fold ref in N1, N2, N3, N4, N1', N2', N3', N4'. split; (split; [congruence|]; split; [congruence|]); unfold in_rng; intros i j Hi Hj; apply Q; lia.
Qed.
Print Assumptions local_shifts_hybrid_equals_cpu.
