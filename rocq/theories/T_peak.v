(** C61, C60: the refined peak along lines; the shift of two images does not depend on the device. *)
From Coq Require Import Reals Lra ZArith Lia Permutation.
From Verif Require Import Np M_phase_R M_corr S_corr S_local S_peak P_corr2 P_corr5 T_corr.
From Coq Require Import List. Import ListNotations.
Open Scope Z_scope.

(** ** C61: method "diff" along lines (dim=1, and every peak at the border of the map): the vertices of the two parabolas through the
    brightest pixel (the first one in reading order) and its neighbours *)
Theorem locate_peak_along_lines_is_the_vertex_of_the_parabola : forall polyfit2 surface m y0 x0 vy vx dim1 size,
  brightest m y0 x0 -> (forall i j, brightest m i j -> y0 < i \/ y0 = i /\ x0 <= j) ->
  dim1 = true \/ ~ (0 < y0 < nrow m - 1 /\ 0 < x0 < ncol m - 1) ->
  refined_maximum (px m y0) (ncol m) x0 vx -> refined_maximum (fun i => px m i x0) (nrow m) y0 vy ->
  locate_peak polyfit2 surface m true Diff dim1 size true = Ok (vx, vy).
Proof.
  intros polyfit2 surface m y0 x0 vy vx dim1 size (By & Bx & M) U Hd Vx Vy. apply (peak_lines polyfit2 surface m y0 x0); try assumption.
  split; [assumption|]. split; [assumption|]. split; [assumption|]. intros i j Hi Hj L. destruct (Rlt_dec (px m i j) (px m y0 x0)) as [K|K]; [exact K|].
  exfalso. assert (B : brightest m i j). { split; [assumption|]. split; [assumption|]. intros i' j' Hi' Hj'. specialize (M i' j' Hi' Hj'). lra. }
  specialize (U i j B). lia.
Qed.
Print Assumptions locate_peak_along_lines_is_the_vertex_of_the_parabola.
(** rows 0 0 0 0 / 0 1 4 3 / 0 0 2 0: the peak 4 at (1, 2); the row gives 2 + 1/4, the column 1 + 1/6 *)
Definition ex_ridge : img R := mkimg 3 4 (fun i j =>
  if i =? 1 then (if j =? 1 then 1 else if j =? 2 then 4 else if j =? 3 then 3 else 0) else if (i =? 2) && (j =? 2) then 2 else 0)%R.
Example ex_lines : brightest ex_ridge 1 2 /\ (forall i j, brightest ex_ridge i j -> 1 < i \/ 1 = i /\ 2 <= j) /\
  refined_maximum (px ex_ridge 1) 4 2 (9 / 4) /\ refined_maximum (fun i => px ex_ridge i 2) 3 1 (7 / 6).
Proof.
  assert (C : forall n, 0 <= n < 4 -> n = 0 \/ n = 1 \/ n = 2 \/ n = 3) by (intros; lia). split; [|split; [|split; split] ].
  - split; [cbn; lia|]. split; [cbn; lia|]. cbn [nrow ncol ex_ridge]. intros i j Hi Hj.
    destruct (C i ltac:(lia)) as [-> | [-> | [-> | ->] ] ]; [| | |lia]; destruct (C j ltac:(lia)) as [-> | [-> | [-> | ->] ] ]; cbn; lra.
  - intros i j (Hi & Hj & M). specialize (M 1 2 ltac:(cbn; lia) ltac:(cbn; lia)). cbn [nrow ncol ex_ridge] in Hi, Hj.
    destruct (C i ltac:(lia)) as [-> | [-> | [-> | ->] ] ]; [| | |lia]; destruct (C j ltac:(lia)) as [-> | [-> | [-> | ->] ] ]; cbn in M; try lia; lra.
  - intros _. exists (-2)%R, 9%R, (-6)%R. split; [|lra]. intros k Hk. destruct (C k ltac:(lia)) as [-> | [-> | [-> | ->] ] ]; cbn; lra || lia.
  - lia.
  - intros _. exists (-3)%R, 7%R, 0%R. split; [|lra]. intros k Hk. destruct (C k ltac:(lia)) as [-> | [-> | [-> | ->] ] ]; cbn -[IZR]; try lia; cbn; lra.
  - lia.
Qed.

(** ** C60: the shift between two images is the same on both devices, for every launch *)
Theorem find_shift_gpu_equals_cpu : forall polyfit2 surface ref mat margin axis sub meth dim1 size block sched block' sched',
  (meth = PolyFit -> reads_elements polyfit2 surface) -> fits ref mat -> any_launch block sched -> any_launch block' sched' ->
  (height mat = height ref -> width mat = width ref -> 1 <= margin) ->
  find_shift_based_correlation_map polyfit2 surface ref mat margin axis sub meth dim1 size true block sched =
  find_shift_based_correlation_map polyfit2 surface ref mat margin axis sub meth dim1 size false block' sched'.
Proof. intros. apply shift_devices; assumption. Qed.
Print Assumptions find_shift_gpu_equals_cpu.
Example ex_devices : fits (spot 2 2) (spot 2 3) /\ any_launch (16, 16) (@rev (Z * Z)) /\ Diff <> PolyFit.
Proof.
  split; [unfold fits; cbn; lia|]. split; [|discriminate]. split; [cbn; lia|]. intros l. apply Permutation_rev.
Qed.
