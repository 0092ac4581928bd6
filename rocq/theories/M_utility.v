(** Model of algotom/util/utility.py (first part: slices, sorting, masks, stripes, wavelets, grids). *)
From Verif Require Import Np.
From Coq Require Import QArith Qround Permutation String.
From Coq Require Import List. Import ListNotations.
Open Scope Z_scope.

(** ** parallel_process_slices, utility.py:70-120 *)
(** data[i,:,:], data[:,i,:], data[:,:,i] (views; lines 107, 112, 117) *)
Definition vslice_axis {V} (d : vol V) (axis i : Z) : img V :=
  if axis =? 2 then mkimg (dep d) (hei d) (fun a b => vx d a b i)
  else if axis =? 1 then mkimg (dep d) (wid d) (fun a b => vx d a i b)
  else mkimg (hei d) (wid d) (fun a b => vx d i a b).
(** range(width) / range(height) / range(depth) (lines 108, 113, 118) *)
Definition slices_count {V} (d : vol V) (axis : Z) : Z :=
  if axis =? 2 then wid d else if axis =? 1 then hei d else dep d.
(** The result slots joblib fills; [None] = task not finished yet. *)
Definition slots W := Z -> option (img W).
(** One worker finishing task i: its slot receives method(slice i).  [method] stands for
    [lambda s: method(s, *parameters, **kwargs)], a pure function of the slice. *)
Definition run_task {V W} (method : img V -> img W) (d : vol V) (axis : Z) (s : slots W) (i : Z) : slots W :=
  fun k => if k =? i then Some (method (vslice_axis d axis i)) else s k.
(** Parallel(...)(...) with completion order [order], gathered in submission order 0..n-1. *)
Definition run_parallel {V W} (method : img V -> img W) (d : vol V) (axis : Z) (order : list Z)
  : list (option (img W)) :=
  let s := fold_left (run_task method d axis) order (fun _ => None) in
  map s (zrange 0 (slices_count d axis)).
Fixpoint all_some {A} (l : list (option A)) : option (list A) :=
  match l with
  | [] => Some []
  | Some a :: t => match all_some t with Some r => Some (a :: r) | None => None end
  | None :: _ => None
  end.
(** np.float32(list of 2D arrays): all must have one shape (a ragged list is a ValueError); then
    np.moveaxis(_, 0, axis) (lines 109, 114, 119).  The cast to float32 is not modelled.  An empty list
    (no slice along the axis) gives a 1D array on which moveaxis raises (AxisError, a ValueError);
    for axis 0 the empty 1D array is not a volume, it is modelled as ValueError as well. *)
Definition stack_axis {W} (axis : Z) (l : list (img W)) : res (vol W) :=
  match l with
  | [] => Err ValueError
  | m0 :: _ =>
      if forallb (fun m => (nrow m =? nrow m0) && (ncol m =? ncol m0)) l then
        let n := Z.of_nat (length l) in
        let at_ := fun i a b => px (nth (Z.to_nat i) l m0) a b in
        Ok (if axis =? 2 then mkvol (nrow m0) (ncol m0) n (fun a b i => at_ i a b)
            else if axis =? 1 then mkvol (nrow m0) n (ncol m0) (fun a i b => at_ i a b)
            else mkvol n (nrow m0) (ncol m0) at_)
      else Err ValueError
  end.
Definition parallel_process_slices {V W} (method : img V -> img W) (d : vol V) (axis : Z) (order : list Z)
  : res (vol W) :=
  match all_some (run_parallel method d axis order) with
  | Some l => stack_axis axis l
  | None => Err RuntimeError
  end.

(** ** make_circle_mask, utility.py:160-182 *)
(** np.ogrid[-c:width-c]: element k is k - c (lines 177-181) *)
Definition make_circle_mask (width : Z) (ratio : Q) : img Q :=
  let center := width / 2 in
  let radius := (ratio * inject_Z center)%Q in
  mkimg width width (fun i j =>
    let y := i - center in let x := j - center in
    if Qle_bool (inject_Z (x * x + y * y)) (radius * radius) then 1%Q else 0%Q).

(** ** sort_forward / sort_backward, utility.py:185-248 *)
(** [asort v] is ndarray.argsort() on the row [v] (quicksort: not stable), a parameter of the model.
    A row of [mat_comb] is a list of pairs (index, value). *)
Definition argsort_fn := vec Q -> Z -> Z.
(** utility.py:204-217 for axis=1; the index column is np.arange(0.0, ncol, 1.0) (lines 206-213) *)
Definition sort_forward_rows (asort : argsort_fn) (m : img Q) : img Q * img Q :=
  (mkimg (nrow m) (ncol m) (fun i k => px m i (asort (irow m i) k)),
   mkimg (nrow m) (ncol m) (fun i k => inject_Z (asort (irow m i) k))).
Definition sort_forward (asort : argsort_fn) (m : img Q) (axis : Z) : img Q * img Q :=
  if axis =? 0 then
    let '(s, x) := sort_forward_rows asort (itrans m) in (itrans s, itrans x)
  else sort_forward_rows asort m.
(** utility.py:239-248 *)
Definition sort_backward_rows (asort : argsort_fn) (m idx : img Q) : img Q :=
  mkimg (nrow m) (ncol m) (fun i k => px m i (asort (irow idx i) k)).
Definition sort_backward (asort : argsort_fn) (m idx : img Q) (axis : Z) : img Q :=
  if axis =? 0 then itrans (sort_backward_rows asort (itrans m) (itrans idx))
  else sort_backward_rows asort m idx.

(** ** separate_frequency_component, utility.py:251-303 *)
(** The window argument: a dict names a scipy window, a sequence is used as given (lines 278-290). *)
Inductive window_arg := WDict (name : string) (paras : list Q) | WSeq (w : vec Q).
(** [lowpass w line] stands for the FFT filtering of one padded row cropped back (lines 292-298):
    any function from a row to a row of the same length. [scipy_window] builds the named window. *)
Definition separate_rows (scipy_window : string -> list Q -> Z -> vec Q)
           (lowpass : Z -> vec Q -> vec Q -> Z -> Q) (m : img Q) (window : window_arg)
  : res (img Q * img Q) :=
  let pad := Z.min 150 (ncol m / 10) in
  do w <- match window with
          | WSeq w => if vlen w =? ncol m
                      then Ok (mkvec (ncol m + 2 * pad)
                                (fun k => if (pad <=? k) && (k <? pad + ncol m) then vat w (k - pad) else 1%Q))
                      else Err ValueError
          | WDict n p => Ok (scipy_window n p (ncol m + 2 * pad))
          end;
  let smooth := mkimg (nrow m) (ncol m) (fun i j => lowpass pad w (irow m i) j) in
  let sharp := mkimg (nrow m) (ncol m) (fun i j => (px m i j - px smooth i j)%Q) in
  Ok (smooth, sharp).
Definition separate_frequency_component scipy_window lowpass (m : img Q) (axis : Z) (window : window_arg)
  : res (img Q * img Q) :=
  if axis =? 0 then
    do p <- separate_rows scipy_window lowpass (itrans m) window;
    Ok (itrans (fst p), itrans (snd p))
  else separate_rows scipy_window lowpass m window.

(** ** check_level, utility.py:537-558 *)
Inductive level_arg := LNone | LInt (n : Z) | LSeq (l : list Z) | LOther.
Definition check_level (level : level_arg) (n_level : Z) : res (list Z) :=
  match level with
  | LNone => Ok (prange 1 (n_level + 1))
  | LInt l => if (0 <? l) && (l <=? n_level) then Ok [l] else Err ValueError
  | LSeq ls =>
      let l' := map (fun i => if (0 <? i) && (i <=? n_level) then i else 0) ls in
      if existsb (Z.eqb 0) l' then Err ValueError else Ok l'
  | LOther => Err ValueError
  end.

(** ** apply_wavelet_reconstruction, utility.py:509-534: the coefficients passed to pywt.waverec2.
    [data] = [cA; (cH,cV,cD)_n; ...; (cH,cV,cD)_1] is a list, element 0 the approximation;
    data[-ignore_level] = zeros (list assignment with Python's negative index). *)
Definition upd_nth {A} (k : Z) (a : A) (l : list A) : list A :=
  map (fun p => if fst p =? k then a else snd p) (combine (zrange 0 (Z.of_nat (length l))) l).
Definition wavelet_ignore {C} (zeros : C -> C) (data : list C) (ignore_level : option Z) : res (list C) :=
  match ignore_level with
  | None => Ok data
  | Some k =>
      let level := Z.of_nat (length data) - 1 in
      if (k <=? level) && (0 <? k) then
        do pos <- py_idx (Z.of_nat (length data)) (- k);
        match nth_error data (Z.to_nat pos) with
        | Some c => Ok (upd_nth pos (zeros c) data)
        | None => Err IndexError
        end
      else Ok data
  end.
(** ** apply_filter_to_wavelet_component, utility.py:561-614: detail levels are triples; [filt] is the
    method with its parameters (lines 601-611, method assumed found); order is clipped to 0..2 (line 591) *)
Definition upd_triple {A} (order : Z) (f : A -> A) (t : A * A * A) : A * A * A :=
  let '(a, b, c) := t in
  if order =? 0 then (f a, b, c) else if order =? 1 then (a, f b, c) else (a, b, f c).
Definition filter_wavelet {A} (filt : A -> A) (details : list (A * A * A)) (level : level_arg) (order : Z)
  : res (list (A * A * A)) :=
  do ls <- check_level level (Z.of_nat (length details));
  let order := clipZ order 0 2 in
  Ok (fold_left (fun d i => match nth_error d (Z.to_nat (i - 1)) with
                            | Some t => upd_nth (i - 1) (upd_triple order filt t) d
                            | None => d end) ls details).

(** ** interpolate_inside_stripe (kind="linear"), utility.py:617-660 *)
(** list_mask[0:2] = 0; list_mask[-2:] = 0 (lines 640-642); the copy, not the caller's mask *)
Definition clear_mask_ends (mask : vec Q) : vec Q :=
  let n := vlen mask in
  mkvec n (fun j => if (j <? py_adj n 2) || (py_adj n (-2) <=? j) then 0%Q else vat mask j).
(** nearest index in xlist at or left of x / at or right of x (the knots bracketing x) *)
Fixpoint knot_left (good : Z -> bool) (x : Z) (fuel : nat) : Z :=
  match fuel with
  | O => x
  | S f => if good x then x else knot_left good (x - 1) f
  end.
Fixpoint knot_right (good : Z -> bool) (x : Z) (fuel : nat) : Z :=
  match fuel with
  | O => x
  | S f => if good x then x else knot_right good (x + 1) f
  end.
(** RectBivariateSpline(..., kx=1, ky=1).ev at a data row: the piecewise linear interpolant of the row
    through the knots xlist.  FITPACK needs kx+1 = 2 points per axis, otherwise it raises. *)
Definition lin_interp (good : Z -> bool) (n : Z) (f : Z -> Q) (x : Z) : Q :=
  let a := knot_left good x (Z.to_nat (x + 1)) in
  let b := knot_right good x (Z.to_nat (n - x)) in
  if a =? b then f a
  else (f a + (f b - f a) * (inject_Z (x - a) / inject_Z (b - a)))%Q.
Definition interpolate_inside_stripe (m : img Q) (mask : vec Q) : res (img Q) :=
  if negb (vlen mask =? ncol m) then Err ValueError
  else
    let mask' := clear_mask_ends mask in
    let good := fun j => Qltb (vat mask' j) 1 in                 (* xlist, line 643 *)
    let miss := fun j => Qltb 0 (vat mask' j) in                 (* xlist_miss, line 654 *)
    if (nrow m <? 2) || (Z.of_nat (length (filter good (zrange 0 (ncol m)))) <? 2) then Err ValueError
    else Ok (mkimg (nrow m) (ncol m)
               (fun i j => if miss j then lin_interp good (ncol m) (px m i) j else px m i j)).

(** ** fix_non_sample_areas, utility.py:1014-1165.  A cell is (overlap, side). *)
Definition cell := (Q * Z)%type.
Definition empty_cell (c : cell) : bool := Qeq_bool (fst c) 0.
Definition cgrid := Z -> Z -> cell.
Definition upd_grid (g : cgrid) (i j : Z) (v : cell) : cgrid :=
  fun a b => if (a =? i) && (b =? j) then v else g a b.
(** first neighbour in [l] inside the grid with a non-zero area (the if-chain with [continue]) *)
Fixpoint first_filled (src : cgrid) (nr nc : Z) (l : list (Z * Z)) : option cell :=
  match l with
  | [] => None
  | (a, b) :: t =>
      if ((0 <=? a) && (a <? nr)) && ((0 <=? b) && (b <? nc)) && negb (empty_cell (src a b))
      then Some (src a b) else first_filled src nr nc t
  end.
(** neighbour order: vertical = left, right, up, down (lines 1051-1071);
    horizontal = up, down, left, right (lines 1113-1133).  The intermediate test [area1 == 0]
    (lines 1061, 1123) is always true there because the code continues on area1 != 0. *)
Definition neighbours (vertical : bool) (i j : Z) : list (Z * Z) :=
  if vertical then [(i, j - 1); (i, j + 1); (i - 1, j); (i + 1, j)]
  else [(i - 1, j); (i + 1, j); (i, j - 1); (i, j + 1)].
Definition cells_order (vertical : bool) (nr nc : Z) : list (Z * Z) :=
  if vertical then flat_map (fun i => map (fun j => (i, j)) (zrange 0 nc)) (zrange 0 nr)
  else flat_map (fun j => map (fun i => (i, j)) (zrange 0 nr)) (zrange 0 nc).
(** pass 1 reads [overlap_metadata], writes the copy (lines 1042-1071, 1104-1133) *)
Definition pass1 (vertical : bool) (nr nc : Z) (g : cgrid) : cgrid :=
  fold_left (fun m p => let '(i, j) := p in
      if empty_cell (g i j) then
        match first_filled g nr nc (neighbours vertical i j) with
        | Some v => upd_grid m i j v | None => m end
      else m) (cells_order vertical nr nc) g.
(** pass 2, reverse order, in place on the copy (lines 1073-1102, 1135-1164) *)
Definition pass2 (vertical : bool) (nr nc : Z) (g : cgrid) : cgrid :=
  fold_left (fun m p => let '(i, j) := p in
      if empty_cell (m i j) then
        match first_filled m nr nc (neighbours vertical i j) with
        | Some v => upd_grid m i j v | None => m end
      else m) (rev (cells_order vertical nr nc)) g.
Definition fix_non_sample_areas (vertical : bool) (nr nc : Z) (g : cgrid) : cgrid :=
  pass2 vertical nr nc (pass1 vertical nr nc g).

(** ** locate_slice, utility.py:1168-1220.
    [ovs] = overlap_metadata[:, 0, 0]; [side] = overlap_metadata[0, 0, 1] (an empty list raises). *)
Definition qlsum (l : list Q) : Q := fold_right Qplus 0%Q l.
(** floating-point division: [None] stands for nan / inf *)
Definition fdiv (a b : Q) : option Q := if Qeq_bool b 0 then None else Some (a / b)%Q.
(** lines 1196-1203 *)
Definition slice_row (side height : Z) (ovs : list Q) (i : Z) : vec Q :=
  let s := qlsum (firstn (Z.to_nat i) ovs) in
  mkvec height (fun k =>
    if side =? 1 then (inject_Z (i * height + k) - s)%Q
    else (inject_Z (i * height + height - 1 - k) - s)%Q).
(** np.where(list1 == slice_idx)[0] *)
Definition where_eq (v : vec Q) (x : Z) : list Z :=
  filter (fun k => Qeq_bool (vat v k) (inject_Z x)) (zrange 0 (vlen v)).
Definition hit := (Z * Z * option Q)%type.
Definition hits (side height : Z) (ovs : list Q) (idx : Z) : list (Z * Z) :=
  flat_map (fun i => match where_eq (slice_row side height ovs i) idx with
                     | [p] => [(i, p)] | _ => [] end)
           (zrange 0 (Z.of_nat (length ovs) + 1)).
Definition locate_slice (side height : Z) (ovs : list Q) (idx : Z) : res (list hit) :=
  match ovs with
  | [] => Err IndexError
  | _ =>
    match hits side height ovs idx with
    | [(r0, p0); (r1, p1)] =>
        match nth_error ovs (Z.to_nat r0) with
        | None => Err IndexError
        | Some ov =>
          let l0 := slice_row side height ovs r0 in
          let l1 := slice_row side height ovs r1 in
          if side =? 1 then                                            (* lines 1210-1214 *)
            Ok [(r0, p0, fdiv (vat l0 (height - 1) - inject_Z idx) (ov - 1));
                (r1, p1, fdiv (inject_Z idx - vat l1 0) (ov - 1))]
          else                                                         (* lines 1216-1219 *)
            Ok [(r0, p0, fdiv (- inject_Z idx + vat l0 0) (ov - 1));
                (r1, p1, fdiv (- vat l1 (height - 1) + inject_Z idx) (ov - 1))]
        end
    | l => Ok (map (fun rp => (fst rp, snd rp, Some 1%Q)) l)
    end
  end.

(** ** locate_slice_chunk, utility.py:1223-1326 *)
Definition ov_at (ovs : list Q) (i : Z) : Q := nth (Z.to_nat i) ovs 0%Q.
(** "if x < ov: fact = x / (ov - 1)" *)
Definition ramp_if (x : Z) (ov : Q) (fact : option Q) : option Q :=
  if Qltb (inject_Z x) ov then fdiv (inject_Z x) (ov - 1) else fact.
(** lines 1272-1294 (side 1) and 1300-1322 (other side) *)
Definition chunk_fact (side height : Z) (ovs : list Q) (i pos : Z) : option Q :=
  let g_nrow := Z.of_nat (length ovs) + 1 in
  let dis1 := height - pos - 1 in
  if i =? 0 then
    if side =? 1 then ramp_if dis1 (ov_at ovs i) (Some 1%Q) else ramp_if pos (ov_at ovs i) (Some 1%Q)
  else if i =? g_nrow - 1 then
    if side =? 1 then ramp_if pos (ov_at ovs (i - 1)) (Some 1%Q)
    else ramp_if dis1 (ov_at ovs (i - 1)) (Some 1%Q)
  else
    let f1 := ramp_if dis1 (ov_at ovs i) (Some 1%Q) in
    let f2 := ramp_if pos (ov_at ovs i) f1 in
    let f3 := ramp_if dis1 (ov_at ovs (i - 1)) f2 in
    ramp_if pos (ov_at ovs (i - 1)) f3.
Definition chunk_row (side height : Z) (ovs : list Q) (start stop i : Z) : list hit :=
  flat_map (fun idx => match where_eq (slice_row side height ovs i) idx with
                       | [p] => [(i, p, chunk_fact side height ovs i p)] | _ => [] end)
           (prange start stop).
Definition locate_slice_chunk (side height : Z) (ovs : list Q) (start stop : Z) : res (list (list hit)) :=
  if stop <? start then Err ValueError
  else match ovs with
  | [] => Err IndexError
  | _ => Ok (filter (fun l => 0 <? Z.of_nat (length l))
               (map (chunk_row side height ovs start stop) (zrange 0 (Z.of_nat (length ovs) + 1))))
  end.

(** ** make_2d_butterworth_window, utility.py:416-447: which rows get the window.
    ycenter = ceil(height/2) - 1; row1:row2 is a Python slice; the butterworth profile is [win]. *)
Definition butterworth_rows (height v : Z) : Z * Z :=
  let ycenter := (height + 1) / 2 - 1 in (ycenter - v, ycenter + v + 1).
Definition make_2d_butterworth_window (width height v : Z) (win : Z -> Q) : img Q :=
  let '(r1, r2) := butterworth_rows height v in
  mkimg height width (fun i j =>
    if (py_adj height r1 <=? i) && (i <? py_adj height r2) then win j else 1%Q).

(** ** generate_spiral_positions, utility.py:1329-1364; [cs i] = (cos(i phi), sin(i phi)) and
    [rt i] = sqrt(i) are parameters. *)
Definition generate_spiral_positions (cs : Z -> Q * Q) (rt : Z -> Q) (step : Q) (num height width : Z)
  : res (list (Q * Q)) :=
  mapr (fun i =>
    let r := (step * rt i)%Q in
    let x := (r * fst (cs i))%Q in let y := (r * snd (cs i))%Q in
    if Qltb (inject_Z (width / 2)) (Qabs.Qabs x) || Qltb (inject_Z (height / 2)) (Qabs.Qabs y)
    then Err ValueError else Ok (x, y)) (zrange 0 num).
