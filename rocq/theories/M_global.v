(** Model of /repo/algotom/util/correlation.py:2596-3006: the shift between two images from the shifts at some points.
    Real numbers instead of floats.  joblib returns the results in the order of the calls. *)
From Coq Require Import Reals ZArith.
From Verif Require Import Np M_phase_R M_corr M_local.
From Coq Require Import List. Import ListNotations.
Open Scope Z_scope.

(** the argument list_ij: None; something that is neither a list, a tuple nor an array; a list of integers or of lists of
    integers.  np.int32(np.asarray(x)) is an np.integer exactly if x is an integer *)
Inductive indices := Index (i : Z) | Indices (l : list Z).
Inductive points := NoPoints | NotAList | Points (l : list indices).

(** __get_input_list, 2596-2641 *)
Definition inside (height width gap i j : Z) : bool := (gap <? i) && (i <? height - gap) && ((gap <? j) && (j <? width - gap)).
Definition get_input_list (list_ij : points) (height width gap : Z) : res (list Z * list Z) :=
  match list_ij with
  | Points [Index i; Index j] => if inside height width gap i j then Ok ([i], [j]) else Err ValueError
  | Points [Indices li; Indices lj] =>
      if negb (Nat.eqb (length li) (length lj)) then Err ValueError else
      let tmp := fold_left (fun acc k => let i := nth k li 0 in let j := nth k lj 0 in
                   if inside height width gap i j then (fst acc ++ [i], snd acc ++ [j]) else acc) (seq 0 (length li)) ([], []) in
      if Nat.eqb (length (fst tmp)) 0 then Err ValueError else Ok tmp
  | _ => Err ValueError
  end.

(** np.sort, np.mean, np.median *)
Fixpoint rinsert (x : R) (l : list R) : list R :=
  match l with [] => [x] | y :: t => if Rltb y x then y :: rinsert x t else x :: y :: t end.
Definition rsort (l : list R) : list R := fold_right rinsert [] l.
Definition lmean (l : list R) : R := (fold_left Rplus l 0 / INR (length l))%R.
Definition np_median (l : list R) : R :=
  let s := rsort l in let n := length l in
  if Nat.even n then ((nth (n / 2 - 1) s 0 + nth (n / 2) s 0) / 2)%R else nth (n / 2) s 0%R.
(** l[b:e] for 0 <= b *)
Definition cut {A} (b e : Z) (l : list A) : list A := firstn (Z.to_nat (e - b)) (skipn (Z.to_nat b) l).
Inductive global_value := Median | Mixed | Mean.
(** 2750-2771, 2884-2905: the value for one direction *)
Definition summarise (how : global_value) (l : list R) : R :=
  let num_point := Z.of_nat (length l) in
  match how with
  | Median => np_median l
  | Mixed =>
      let mid := num_point / 2 in
      let begin := Z.max (mid - 3) 0 in
      let en := clipZ (mid + 3) mid num_point in
      if begin <? en then lmean (cut begin en (rsort l)) else np_median l
  | Mean => if 7 <? num_point then lmean (cut 2 (num_point - 2) (rsort l)) else lmean l
  end.
(** what is returned: all local shifts or one *)
Inductive shifts := Lists (xs ys : list R) | Global (x y : R).
Definition conclude (how : global_value) (return_list : bool) (l : list (R * R)) : res shifts :=
  let x_shifts := map fst l in let y_shifts := map snd l in
  Ok (if return_list then Lists x_shifts y_shifts else Global (summarise how x_shifts) (summarise how y_shifts)).

Section global.
Context (polyfit2 : vec R -> R * R) (surface : img R -> R * R * R * R * R).
Notation find_shift := (find_shift_based_correlation_map polyfit2 surface).
(** np.random.randint(low, high, size) for the rows (true) and the columns (false) *)
Context (randint : bool -> Z -> Z -> Z -> list Z).

(** the points: 2715-2722, 2867-2874.  A negative number of points is an error of numpy *)
Definition choose_points (list_ij : points) (num_point : option Z) (height width start : Z) : res (list Z * list Z) :=
  match list_ij with
  | NoPoints =>
      let n := match num_point with None => 30 | Some n => n end in
      if n <? 0 then Err ValueError else
      Ok (randint true start (height - start) n, randint false start (width - start) n)
  | _ => get_input_list list_ij height width start
  end.
(** _find_global_shift_based_local_shifts_cpu, 2644-2772.  shifts[:, 0] of no points is an IndexError (2746) *)
Definition global_shift_cpu (ref0 mat0 : data) (win_size margin : Z) (list_ij : points) (num_point : option Z) (how : global_value)
    (sub_pixel : bool) (meth : method) (size : Z) (norm return_list : bool) : res shifts :=
  if negb (same_shape ref0 mat0) then Err ValueError else
  match ref0 with
  | Stack _ => Err ValueError
  | One _ =>
      let (height, width) := shape2 ref0 in
      let win_size := 2 * (win_size / 2) + 1 in
      let radi := win_size / 2 in
      let start := radi + margin in
      let als_size := win_size + 2 * margin in
      if (width <? als_size) || (height <? als_size) then Err ValueError else
      let ref := normalize_if norm ref0 in let mat := normalize_if norm mat0 in
      do ij <- choose_points list_ij num_point height width start;
      do l <- mapr (fun p => find_shift (square ref (fst p) (snd p) start) (square mat (fst p) (snd p) radi) margin NoAxis sub_pixel meth
                                        false size false (1, 1) (fun l => l)) (combine (fst ij) (snd ij));
      match l with [] => Err IndexError | _ => conclude how return_list l end
  end.
(** _get_local_shifts_gpu_kernel, 2775-2819: thread idx.  [launch] (M_local) keeps the two rows of shifts together, stored in row 0 *)
Definition points_kernel (ref mat : data) (list_i list_j : list Z) (radi margin num_point : Z) (t : Z * Z) : option (Z * Z * (R * R)) :=
  let (idx, row) := t in
  if (row <? 1) && (idx <? num_point) then
    let radi_ref := radi + margin in
    let i := nth (Z.to_nat idx) list_i 0 in let j := nth (Z.to_nat idx) list_j 0 in
    let coef := gen_2d_corr_map (square ref i j radi_ref) (square mat i j radi) in
    let (x_max, y_max) := locate_max_value coef in
    let (x_pos, y_pos) := locate_2d_peak_kernel coef x_max y_max in
    Some (row, idx, (x_pos - IZR margin, y_pos - IZR margin)%R)
  else None.
(** _find_global_shift_based_local_shifts_gpu, 2822-2906.  Simplification: a launch without threads (no points) is an error of
    the driver, here ValueError *)
Definition global_shift_gpu (ref0 mat0 : data) (win_size margin : Z) (list_ij : points) (num_point : option Z) (how : global_value)
    (block : Z) (sched : list (Z * Z) -> list (Z * Z)) (norm return_list : bool) : res shifts :=
  if negb (same_shape ref0 mat0) then Err ValueError else
  match ref0 with
  | Stack _ => Err ValueError
  | One _ =>
      let (height, width) := shape2 ref0 in
      let win_size := 2 * (win_size / 2) + 1 in
      let radi := win_size / 2 in
      let edge := radi + margin in
      let height1 := height - 2 * edge in let width1 := width - 2 * edge in
      if (width1 <? 1) || (height1 <? 1) then Err ValueError else
      let ref := normalize_if norm ref0 in let mat := normalize_if norm mat0 in
      do ij <- choose_points list_ij num_point height width edge;
      let n := Z.of_nat (length (fst ij)) in
      if n =? 0 then Err ValueError else
      let s := launch (points_kernel ref mat (fst ij) (snd ij) radi margin n) (sched (grid_xy n 1 (block, 1))) (fun _ _ => (0, 0)%R) in
      conclude how return_list (map (fun k => s 0 k) (zrange 0 n))
  end.
(** find_global_shift_based_local_shifts, 2909-3006.  [gpu]: requested and available *)
Definition find_global_shift (ref mat : data) (win_size margin : Z) (list_ij : points) (num_point : option Z) (how : global_value)
    (gpu : bool) (block : Z) (sched : list (Z * Z) -> list (Z * Z)) (sub_pixel : bool) (meth : method) (size : Z)
    (norm return_list : bool) : res shifts :=
  if gpu then global_shift_gpu ref mat win_size margin list_ij num_point how block sched norm return_list
  else global_shift_cpu ref mat win_size margin list_ij num_point how sub_pixel meth size norm return_list.
End global.
