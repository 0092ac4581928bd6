(** Model of /repo/algotom/rec/vertrec.py: vertical_reconstruction (450-695),
    vertical_reconstruction_multiple (709-977), vertical_reconstruction_different_angles (980-1252).
    The points of the slice (338-447) come from the parameter [points] (modelled in M_vertline.v);
    cos, sin, pi, -log, np.pad, the FFT filters and the ramp windows are parameters.  Exact rationals. *)
From Verif Require Import Np M_utility M_conversion M_par M_backproj M_recon.
From Coq Require Import QArith Qround.
From Coq Require Import List. Import ListNotations.
Open Scope Z_scope.

(** projections[a:b, t:bo, l:r] (598) *)
Definition vcut (v : vol Q) (a b t bo l r : Z) : vol Q :=
  mkvol (slen (dep v) a b) (slen (hei v) t bo) (slen (wid v) l r)
        (fun n i j => vx v (py_adj (dep v) a + n) (py_adj (hei v) t + i) (py_adj (wid v) l + j)).
(** 576-579 *)
Definition chunk_size_of (num_proj : Z) (chunk_size : option Z) : Z :=
  let c := match chunk_size with None => Z.min 30 (num_proj / 4 + 1) | Some c => c end in
  if (num_proj <? c) || (c <? 1) then num_proj else c.
(** the (start, stop) pairs of the loop 595-597 and of the rest 636-638 *)
Definition vchunks (num_proj c proj_start : Z) : list (Z * Z) :=
  let num_iter := num_proj / c in
  let num_rest := num_proj - num_iter * c in
  map (fun i => (i * c + proj_start, i * c + proj_start + c)) (zrange 0 num_iter) ++
  (if num_rest =? 0 then [] else [(num_iter * c + proj_start, num_iter * c + proj_start + num_rest)]).
(** 553-574: None = no flat-field correction; otherwise (dark, flat_dark), cropped *)
Definition flat_fields (flat dark : option (img Q)) (h0 w0 top bot lft rgt : Z) : res (option (img Q * img Q)) :=
  match flat, dark with
  | None, None => Ok None
  | _, _ =>
      do f <- match flat with None => Ok (mkimg h0 w0 (fun _ _ => 1%Q))
              | Some f => if (nrow f =? h0) && (ncol f =? w0) then Ok f else Err ValueError end;
      do d <- match dark with None => Ok (mkimg h0 w0 (fun _ _ => 0%Q))
              | Some d => if (nrow d =? h0) && (ncol d =? w0) then Ok d else Err ValueError end;
      let fc := islice f top bot lft rgt in let dc := islice d top bot lft rgt in
      Ok (Some (dc, mkimg (nrow fc) (ncol fc) (fun i j =>
                      let v := (px fc i j - px dc i j)%Q in if Qeq_bool v 0 then 1%Q else v)))
  end.
Inductive ramp_option := Before | After | NoRamp.
(** columns kept by the mask of 687-693 *)
Definition mask_col (width : Z) (center : Q) (j : Z) : Q :=
  let rad := Qtrunc (Qminb center (inject_Z width - center)) in
  let pad_left := (width - 2 * rad) / 2 in
  if (pad_left <=? j) && (j <? pad_left + 2 * rad) then 1%Q else 0%Q.
(** the arguments shared by the three functions *)
Record vargs (window name mode : Type) := mkvargs {
  center : Q; angles : option (vec Q); flat_field : option (img Q); dark_field : option (img Q);
  crop : Z * Z * Z * Z; proj_start : Z; proj_stop : Z; chunk_size : option Z; ramp_filter : ramp_option;
  filter_name : name; pad : option Z; pad_mode : mode; apply_log : bool; gpu : bool; block : Z * Z; masking : bool }.
Arguments center {window name mode}. Arguments angles {window name mode}. Arguments flat_field {window name mode}.
Arguments dark_field {window name mode}. Arguments crop {window name mode}. Arguments proj_start {window name mode}.
Arguments proj_stop {window name mode}. Arguments chunk_size {window name mode}. Arguments ramp_filter {window name mode}.
Arguments filter_name {window name mode}. Arguments pad {window name mode}. Arguments pad_mode {window name mode}.
Arguments apply_log {window name mode}. Arguments gpu {window name mode}. Arguments block {window name mode}. Arguments masking {window name mode}.
(** what a call leaves behind *)
Record voutcome (A : Type) := mkvoutcome { vrecon : A; vcaller : vol Q; vlaunches : list (list thread) }.
Arguments mkvoutcome {A}. Arguments vrecon {A}. Arguments vcaller {A}. Arguments vlaunches {A}.
Definition vcompleted {A} (o : voutcome A) : Prop := forall ts, In ts (vlaunches o) -> all_done ts.

Section params.
Context (cosf sinf neglog : Q -> Q) (pi : Q).
Context {window name mode : Type}.
Notation vargs := (vargs window name mode).
Context (wshape : window -> Z * Z) (make_2d_ramp_window : Z -> Z -> name -> window) (wabs : window -> window).
Context (np_pad_cols : img Q -> Z -> mode -> img Q) (fft_filter_rows fft_filter_ver : img Q -> window -> img Q).

(** what 526-551 computes: (num_proj, angles, top, bot, lft, rgt); [num_proj0], [height0], [width0] is the shape.
    Simplification: the order of the checks is kept, the messages are not *)
Definition vsetup (o : vargs) (p : vol Q) : res (Z * vec Q * Z * Z * Z * Z) :=
  let stop := if proj_stop o =? -1 then dep p else proj_stop o in
  let num_proj := stop - proj_start o in
  if num_proj <? 1 then Err ValueError else
  do ang <- match angles o with
            | None => Ok (mkvec num_proj (fun i => (inject_Z i * pi / inject_Z (num_proj - 1))%Q))
            | Some v => if vlen v =? num_proj then Ok v else Err ValueError end;
  let '(ct, cb, cl, cr) := crop o in
  let top := ct in let bot := hei p - cb in let lft := cl in let rgt := wid p - cr in
  if (bot - top <? 1) || (rgt - lft <? 1) then Err ValueError else
  if Qltb (center o) 0 || Qltb (inject_Z (rgt - lft - 1)) (center o) then Err ValueError else
  Ok (num_proj, ang, top, bot, lft, rgt).
(** 598-617: one chunk of preprocessed projections; [order]: completion order of the filter tasks *)
Definition vchunk (o : vargs) (p : vol Q) (fd : option (img Q * img Q)) (top bot lft rgt start stop : Z) (order : list Z)
  : res (vol Q) :=
  let c := vcut p start stop top bot lft rgt in
  let c1 := match fd with
            | None => c
            | Some (d, f) => mkvol (dep c) (hei c) (wid c) (fun n i j => ((vx c n i j - px d i j) / px f i j)%Q) end in
  let c2 := if apply_log o then mkvol (dep c1) (hei c1) (wid c1) (fun n i j => neglog (fix_log (vx c1 n i j))) else c1 in
  match ramp_filter o with
  | Before =>
      let width := rgt - lft in let height := bot - top in
      let pd := pad_of width (pad o) in
      if pd <? 0 then Err ValueError else
      let w := make_2d_ramp_window height (width + 2 * pd) (filter_name o) in
      parallel_process_slices
        (fun m => apply_ramp_filter wshape make_2d_ramp_window np_pad_cols fft_filter_rows m (Some w) (filter_name o) (Some pd) (pad_mode o))
        c2 0 order
  | _ => Ok c2
  end.
Definition vedge (o : vargs) : bool := match ramp_filter o with Before => false | _ => true end.
(** the caller's array afterwards: img_chunk is a view of it when there is no flat-field correction (598-610) *)
Definition vcaller_after (o : vargs) (p : vol Q) (fd : option (img Q * img Q)) (num_proj top bot lft rgt : Z) : vol Q :=
  match fd with
  | Some _ => p
  | None =>
      if apply_log o then
        mkvol (dep p) (hei p) (wid p) (fun n i j =>
          if (proj_start o <=? n) && (n <? proj_start o + num_proj) && (top <=? i) && (i <? bot) && (lft <=? j) && (j <? rgt)
          then fix_log (vx p n i j) else vx p n i j)
      else p
  end.
(** __apply_ver_ramp_filter, 698-706 = 678-683 *)
Definition ver_ramp (o : vargs) (height width : Z) (m : img Q) : res (img Q) :=
  let pd := pad_of width (pad o) in
  if pd <? 0 then Err ValueError else
  let w := wabs (make_2d_ramp_window height (width + 2 * pd) (filter_name o)) in
  let f := fft_filter_ver (np_pad_cols m pd (pad_mode o)) w in
  Ok (islice f 0 (nrow f) pd (pd + width)).
(** 677-695 for one slice *)
Definition vfinish (o : vargs) (num_proj height width : Z) (m : img Q) : res (img Q) :=
  do f <- match ramp_filter o with After => ver_ramp o height width m | _ => Ok m end;
  Ok (mkimg (nrow f) (ncol f) (fun i j =>
        ((if masking o then px f i j * mask_col width (center o) j else px f i j) * pi / inject_Z (num_proj - 1))%Q)).

(** the loop 595-668: accumulate the back-projection of every chunk; [k]: number of the chunk *)
Fixpoint vloop {A} (add : A -> A -> A) (kernel : vol Q -> vec Q -> Z -> res (A * list thread))
    (chunk : Z -> Z -> Z -> res (vol Q)) (ang : vec Q) (ps : Z) (k : Z) (l : list (Z * Z)) (s : A) (tss : list (list thread))
  : res (A * list (list thread)) :=
  match l with
  | [] => Ok (s, tss)
  | (start, stop) :: rest =>
      do c <- chunk k start stop;
      do r <- kernel c (vslice ang (start - ps) (stop - ps)) k;
      vloop add kernel chunk ang ps (k + 1) rest (add s (fst r)) (tss ++ [snd r])
  end.
Definition iadd (a b : img Q) : img Q := mkimg (nrow a) (ncol a) (fun i j => (px a i j + px b i j)%Q).
Definition vadd (a b : vol Q) : vol Q := mkvol (dep a) (hei a) (wid a) (fun s i j => (vx a s i j + vx b s i j)%Q).

(** vertical_reconstruction, 450-695.  [points idx alpha width]: _get_points_single_line; [scheds k]: thread schedule of
    chunk k; [orders k n]: completion order of its n filter tasks *)
Definition vertical_reconstruction (points : Q -> Q -> Z -> res (vec Q * vec Q)) (o : vargs) (p : vol Q) (slice_index alpha : Q)
    (orders : Z -> Z -> list Z) (scheds : Z -> list nat) : res (voutcome (img Q)) :=
  do st <- vsetup o p;
  let '(num_proj, ang, top, bot, lft, rgt) := st in
  let height := bot - top in let width := rgt - lft in
  if Qltb slice_index 0 || Qltb (inject_Z (width - 1)) slice_index then Err ValueError else
  do fd <- flat_fields (flat_field o) (dark_field o) (hei p) (wid p) top bot lft rgt;
  do xy <- points slice_index alpha width;
  let kernel := fun c a k =>
    if gpu o then vertical_back_projection_gpu cosf sinf c a (fst xy) (snd xy) (center o) (vedge o) (block o) (scheds k)
    else vertical_back_projection_cpu cosf sinf c a (fst xy) (snd xy) (center o) (vedge o) (scheds k) in
  let c := chunk_size_of num_proj (chunk_size o) in
  do r <- vloop iadd kernel (fun k s e => vchunk o p fd top bot lft rgt s e (orders k (e - s))) ang (proj_start o) 0
            (vchunks num_proj c (proj_start o)) (mkimg height width (fun _ _ => 0%Q)) [];
  do out <- vfinish o num_proj height width (fst r);
  Ok (mkvoutcome out (vcaller_after o p fd num_proj top bot lft rgt) (snd r)).

(** the common part of vertical_reconstruction_multiple (823-977) and vertical_reconstruction_different_angles
    (1098-1252) once the points are known (row s of x_mat, y_mat: slice s);
    without slices np.float32([]) is one-dimensional and the kernels are rejected by numba *)
Definition vertical_core (o : vargs) (p : vol Q) (st : Z * vec Q * Z * Z * Z * Z) (x_mat y_mat : img Q)
    (orders : Z -> Z -> list Z) (scheds : Z -> list nat) : res (voutcome (vol Q)) :=
  let '(num_proj, ang, top, bot, lft, rgt) := st in
  let height := bot - top in let width := rgt - lft in
  do fd <- flat_fields (flat_field o) (dark_field o) (hei p) (wid p) top bot lft rgt;
  if nrow x_mat =? 0 then Err TypeError else
  let kernel := fun c a k =>
    if gpu o then vertical_back_projection_gpu_chunk cosf sinf c a x_mat y_mat (center o) (vedge o) (block o) (scheds k)
    else vertical_back_projection_cpu_chunk cosf sinf c a x_mat y_mat (center o) (vedge o) (scheds k) in
  let c := chunk_size_of num_proj (chunk_size o) in
  do r <- vloop vadd kernel (fun k s e => vchunk o p fd top bot lft rgt s e (orders k (e - s))) ang (proj_start o) 0
            (vchunks num_proj c (proj_start o)) (mkvol (nrow x_mat) height width (fun _ _ _ => 0%Q)) [];
  do outs <- mapr (fun s => vfinish o num_proj height width (mkimg height width (fun i j => vx (fst r) s i j))) (zrange 0 (nrow x_mat));
  Ok (mkvoutcome (mkvol (nrow x_mat) height width (fun s i j => px (nth (Z.to_nat s) outs (mkimg 0 0 (fun _ _ => 0%Q))) i j))
                 (vcaller_after o p fd num_proj top bot lft rgt) (snd r)).
(** stack the points of several lines (412-418, 441-447) *)
Definition stack_points (l : list (vec Q * vec Q)) (width : Z) : img Q * img Q :=
  let d := (mkvec 0 (fun _ => 0%Q), mkvec 0 (fun _ => 0%Q)) in
  (mkimg (Z.of_nat (length l)) width (fun s j => vat (fst (nth (Z.to_nat s) l d)) j),
   mkimg (Z.of_nat (length l)) width (fun s j => vat (snd (nth (Z.to_nat s) l d)) j)).
(** vertical_reconstruction_different_angles, 980-1252 *)
Definition vertical_reconstruction_different_angles (points : Q -> Q -> Z -> res (vec Q * vec Q)) (o : vargs) (p : vol Q)
    (slice_indices alphas : list Q) (orders : Z -> Z -> list Z) (scheds : Z -> list nat) : res (voutcome (vol Q)) :=
  if negb (Nat.eqb (length slice_indices) (length alphas)) then Err ValueError else
  do st <- vsetup o p;
  let '(_, _, _, _, lft, rgt) := st in
  let width := rgt - lft in
  if existsb (fun i => Qltb i 0 || Qltb (inject_Z (width - 1)) i) slice_indices then Err ValueError else
  do xy <- mapr (fun ia => points (fst ia) (snd ia) width) (combine slice_indices alphas);
  let (x_mat, y_mat) := stack_points xy width in
  vertical_core o p st x_mat y_mat orders scheds.
(** vertical_reconstruction_multiple, 709-977; integer start, stop and step *)
Definition vertical_reconstruction_multiple (points : Q -> Q -> Z -> res (vec Q * vec Q)) (o : vargs) (p : vol Q)
    (start_index stop_index : Z) (alpha : Q) (step_index : Z) (orders : Z -> Z -> list Z) (scheds : Z -> list nat) : res (voutcome (vol Q)) :=
  do st <- vsetup o p;
  let '(_, _, _, _, lft, rgt) := st in
  let width := rgt - lft in
  if (start_index <? 0) || (width - 1 <? start_index) then Err ValueError else
  let stop := if stop_index =? -1 then width - 1 else stop_index in
  if (stop <? 0) || (width - 1 <? stop) then Err ValueError else
  do ids <- prange_step_r start_index (stop + 1) step_index;
  do xy <- mapr (fun i => points (inject_Z i) alpha width) ids;
  let (x_mat, y_mat) := stack_points xy width in
  vertical_core o p st x_mat y_mat orders scheds.
End params.
