(** Model of algotom/post/postprocessing.py (statistics, downsampling, rescaling, reslicing). *)
From Verif Require Import Np M_conversion M_correction M_io_load M_fs M_io_save.
From Coq Require Import QArith Qround Qabs Ascii String.
From Coq Require Import List. Import ListNotations.
Open Scope Z_scope.

(** ** postprocessing.py:134-151 __get_cropped_shape; crop has length 6 *)
Record box := mkbox { b_d1 : Z; b_d2 : Z; b_h1 : Z; b_h2 : Z; b_w1 : Z; b_w2 : Z }.
Record crop6 := mkcrop { c_d1 : Z; c_d2 : Z; c_h1 : Z; c_h2 : Z; c_w1 : Z; c_w2 : Z }.
Definition cropped_shape (depth height width : Z) (c : crop6) : res (box * (Z * Z * Z)) :=
  let d1 := c_d1 c in let d2 := depth - c_d2 c in
  let depth1 := d2 - d1 in
  let h1 := c_h1 c in let h2 := height - c_h2 c in
  let w1 := c_w1 c in let w2 := width - c_w2 c in
  let height1 := h2 - h1 in let width1 := w2 - w1 in
  if (depth1 <=? 0) || (height1 <=? 0) || (width1 <=? 0) then Err ValueError
  else Ok (mkbox d1 d2 h1 h2 w1 w2, (depth1, height1, width1)).

(** ** postprocessing.py:174-214 get_statistical_information: the seven numbers of one image *)
Record stat := mkstat { s_min : Q; s_max : Q; s_pmin : Q; s_pmax : Q; s_mean : Q; s_median : Q; s_var : Q }.
(** image k of a stack *)
Definition vimg {V} (v : vol V) (k : Z) : img V := mkimg (hei v) (wid v) (fun i j => vx v k i j).
(** ** postprocessing.py:217-293; [info] is get_statistical_information with the given percentile and denoise,
    [smooth] the gaussian_filter of lines 271, 279, 286 (the identity without denoise), [med] is np.median of a list.
    np.clip(x, 1, 0) is 0 and range() rejects the step 0. *)
Definition lmin (l : list Q) : Q := match l with [] => 0%Q | a :: t => fold_left Qminb t a end.
Definition lmax (l : list Q) : Q := match l with [] => 0%Q | a :: t => fold_left Qmaxb t a end.
Definition lmean (l : list Q) : Q := (fold_right Qplus 0 l / inject_Z (Z.of_nat (length l)))%Q.
Definition stat_dataset (info : img Q -> stat) (smooth : img Q -> img Q) (med : list Q -> Q)
    (data : vol Q) (c : crop6) (skip : Z) : res stat :=
  do bs <- cropped_shape (dep data) (hei data) (wid data) c;
  let '(b, (depth1, _, _)) := bs in
  let skip := clipZ skip 1 (depth1 - 1) in
  do idx <- prange_step_r (b_d1 b) (b_d2 b) skip;
  let l := map (fun i => info (smooth (islice (vimg data i) (b_h1 b) (b_h2 b) (b_w1 b) (b_w2 b)))) idx in
  let median := med (map s_mean l) in        (* line 291: column 4 is the mean *)
  let mean := lmean (map s_median l) in      (* line 291: column 5 is the median *)
  Ok (mkstat (lmin (map s_min l)) (lmax (map s_max l)) (lmin (map s_pmin l)) (lmax (map s_pmax l))
             mean median (lmean (map s_var l))).

(** ** postprocessing.py:296-331 downsample; [agg n f] reduces f 0 .. f (n - 1): np.mean, np.max, np.amin or np.median *)
(** m.reshape(h, c0, w, c1)[i, a, j, b]: C order *)
Definition reshape4 (m : img Q) (h c0 w c1 i a j b : Z) : Q :=
  let k := ((i * c0 + a) * w + j) * c1 + b in px m (k / ncol m) (k mod ncol m).
Definition downsample (agg : Z -> (Z -> Q) -> Q) (mat : img Q) (c0 c1 : Z) : res (img Q) :=
  if (c0 =? 0) || (c1 =? 0) then Err ZeroDivisionError else
  let hd := nrow mat / c0 in let wd := ncol mat / c1 in
  let m := islice mat 0 (hd * c0) 0 (wd * c1) in
  Ok (mkimg hd wd (fun i j => agg c0 (fun a => agg c1 (fun b => reshape4 m hd c0 wd c1 i a j b)))).

(** ** postprocessing.py:366-503 downsample_dataset without rescaling, output None (a list of slices) *)
(** m.reshape(1, c0, h, c1, w, c2)[0, z, i, a, j, b] of a (c0, h*c1, w*c2) array *)
Definition reshape6 (m : vol Q) (h c1 w c2 z i a j b : Z) : Q :=
  let k := (((z * h + i) * c1 + a) * w + j) * c2 + b in
  vx m (k / (hei m * wid m)) (k / wid m mod hei m) (k mod wid m).
Definition vslab (v : vol Q) (z0 z1 h0 h1 w0 w1 : Z) : vol Q :=
  mkvol (slen (dep v) z0 z1) (slen (hei v) h0 h1) (slen (wid v) w0 w1)
    (fun k i j => vx v (py_adj (dep v) z0 + k) (py_adj (hei v) h0 + i) (py_adj (wid v) w0 + j)).
Definition ds_cell (agg : Z -> (Z -> Q) -> Q) (m : vol Q) (hd wd c0 c1 c2 : Z) : img Q :=
  mkimg hd wd (fun i j => agg c1 (fun a => agg c0 (fun z => agg c2 (fun b => reshape6 m hd c1 wd c2 z i a j b)))).
(** the loop with break, lines 468-500 *)
Fixpoint ds_loop (agg : Z -> (Z -> Q) -> Q) (data : vol Q) (b : box) (depth1 hd wd c0 c1 c2 : Z) (l : list Z) : list (img Q) :=
  match l with
  | [] => []
  | i :: t => if b_d1 b + depth1 <? i + c0 then []
      else ds_cell agg (vslab data i (i + c0) (b_h1 b) (b_h1 b + hd * c1) (b_w1 b) (b_w1 b + wd * c2)) hd wd c0 c1 c2
           :: ds_loop agg data b depth1 hd wd c0 c1 c2 t
  end.
Definition downsample_dataset (agg : Z -> (Z -> Q) -> Q) (data : vol Q) (c : crop6) (c0 c1 c2 : Z) : res (list (img Q)) :=
  do bs <- cropped_shape (dep data) (hei data) (wid data) c;
  let '(b, (depth1, height1, width1)) := bs in
  if (c0 =? 0) || (c1 =? 0) || (c2 =? 0) then Err ZeroDivisionError else
  let dd := depth1 / c0 in let hd := height1 / c1 in let wd := width1 / c2 in
  if (dd =? 0) || (hd =? 0) || (wd =? 0) then Err ValueError else
  do l <- prange_step_r (b_d1 b) (b_d2 b) c0;
  Ok (ds_loop agg data b depth1 hd wd c0 c1 c2 l).

(** ** postprocessing.py:334-363 rescale, one element; np.uint8 / np.uint16 truncate.  gmax = gmin (numpy: nan) is not modelled *)
Definition rescale_px (nbit : Z) (gmin gmax v : Q) : Z :=
  let v := clipQ v gmin gmax in
  let v := ((v - gmin) / (gmax - gmin))%Q in
  let top := if nbit =? 8 then 255%Q else 65535%Q in
  Qtrunc (clipQ (v * top) 0 top).
Definition rescale (nmin nmax : img Q -> Q) (mat : img Q) (nbit : Z) (minmax : option (Q * Q)) : res (img Z) :=
  if negb (nbit =? 8) && negb (nbit =? 16) then Err ValueError
  else let '(gmin, gmax) := match minmax with Some p => p | None => (nmin mat, nmax mat) end in
       Ok (imap (rescale_px nbit gmin gmax) mat).

(** ** postprocessing.py:594-779 and 782-957: data flow of reslice_dataset *)
(** the chunks of lines 606-607, 624, 646: start and length.  A chunk of 0 (np.clip(chunk, 1, n - 1) with n = 1) is rejected
    by h5py (line 619, 659) and by range/arange (lines 624, 664, 885, 919) *)
Definition blocks (n chunk : Z) : res (list (Z * Z)) :=
  let chunk := clipZ chunk 1 (n - 1) in
  if chunk =? 0 then Err ValueError else
  let last := n - chunk * (n / chunk) in
  Ok (map (fun i => (i, chunk)) (prange_step 0 (n - last) chunk) ++ (if last =? 0 then [] else [(n - last, last)])).
(** the images of a chunk: data[i + d1: i + len + d1] for a list of tif files, data[i: i + len] for an hdf dataset
    (lines 635, 649, 675, 689 / 716, 728, 752, 764), then mat_chunk[j] for j < len *)
Definition load_block {V} (tif : bool) (data : vol V) (d1 : Z) (blk : Z * Z) : res (list (img V)) :=
  let '(i, len) := blk in
  let a := if tif then i + d1 else i in
  let n := slen (dep data) a (a + len) in
  mapr (fun j => do k <- py_idx n j; Ok (vimg data (py_adj (dep data) a + k))) (zrange 0 len).
(** data_tmp[i: i + len] = list *)
Definition put_block {V} (cur : Z -> img V) (i len : Z) (l : list (img V)) (d : img V) : Z -> img V :=
  fun k => if (i <=? k) && (k <? i + len) then nth (Z.to_nat (k - i)) l d else cur k.
(** [rot] is ndi.rotate(., rotate, ...), the identity for rotate = 0.  The intermediate dataset as a function of the index *)
Definition save_intermediate {V} (tif : bool) (rot : img V -> img V) (data : vol V) (axis : Z) (c : crop6) (chunk : Z) (d : img V)
  : res (Z * Z * Z * (Z -> img V)) :=
  do bs <- cropped_shape (dep data) (hei data) (wid data) c;
  let '(b, (depth1, height1, width1)) := bs in
  do bl <- blocks depth1 chunk;
  let prep := fun m => let m1 := islice (rot m) (b_h1 b) (b_h2 b) (b_w1 b) (b_w2 b) in if axis =? 2 then itrans m1 else m1 in
  do parts <- mapr (fun blk => do l <- load_block tif data (b_d1 b) blk; Ok (blk, map prep l)) bl;
  let tmp := fold_left (fun cur p => put_block cur (fst (fst p)) (snd (fst p)) (snd p) d) parts (fun _ => d) in
  Ok (depth1, (if axis =? 2 then width1 else height1), (if axis =? 2 then height1 else width1), tmp).
(** lines 846-948: the slices in the order in which they are written, with their output index; [resc] is the rescaling *)
Definition reslice {V W} (tif : bool) (rot : img V -> img V) (resc : V -> W) (data : vol V) (axis : Z) (c : crop6) (chunk : Z) (d : img V)
  : res (list (Z * img W)) :=
  if negb (axis =? 1) && negb (axis =? 2) then Err ValueError else
  do r <- save_intermediate tif rot data axis c chunk d;
  let '(depth1, height1, width1, tmp) := r in
  do bl <- blocks height1 chunk;
  Ok (flat_map (fun blk => map (fun j => (fst blk + j, mkimg depth1 width1 (fun a k => resc (px (tmp a) (fst blk + j) k)))) (zrange 0 (snd blk))) bl).

(** ** File-system effects of rescale_dataset (539-591) for an hdf output: the path it writes to *)
Definition isfile {C} (f : fs C) (p : path) : bool := match lookup f p with Some (File _) => true | _ => false end.
(** postprocessing.py:90-102 *)
Definition check_output {C} (f : fs C) (out : path) : res unit :=
  match suffix (pname out) with
  | [] => if existsb_ f out then Err ValueError else Ok tt
  | _ => if isfile f out then Err ValueError else Ok tt
  end.
Definition rescale_dataset_hdf {D} (f : fs (hdf D)) (out : path) (d0 : D) (overwrite : bool) : fs (hdf D) * res path :=
  match (if overwrite then Ok tt else check_output f out) with
  | Err e => (f, Err e)
  | Ok _ => open_hdf_stream f out (s_ "entry/data") d0 false []      (* line 558-561: overwrite=False *)
  end.

(** ** File-system effects of reslice_dataset (837-952).
    The result is the list of the file systems after each step (a crash can happen after any of them), and the outcome.
    os.path.splitext is taken as stem/suffix (names without a trailing dot). *)
Section resliceFS.
  Context {C M : Type} (enc : str -> M -> C) (scale8 : M -> M) (cplx : M -> bool) (pil_ok : str -> bool) (slice : Z -> M).
  Definition base_of (out : path) : path := match suffix (pname out) with [] => out | _ => stem (pname out) :: parent out end.
  Definition tmp_folder (out : path) : path := s_ "tmp_" :: base_of out.      (* 608 *)
  Definition tmp_file (out : path) : path := s_ "file_tmp.hdf" :: tmp_folder out.
  (** losa.save_image_multiple over all chunks *)
  Fixpoint save_states (f : fs C) (order : list (path * Z)) : list (fs C) :=
    match order with
    | [] => []
    | (p, i) :: t => let f1 := fst (save_image enc scale8 cplx pil_ok f p (slice i) true) in f1 :: save_states f1 t
    end.
  (** ("0000" + str(i))[-5:], lines 931, 943 *)
  Definition out_name (i : Z) : str := s_ "img_" ++ lastn 5 (s_ "0000" ++ str_Z i) ++ s_ ".tif".
  Definition cleanup (f : fs C) (out : path) : list (fs C) :=                 (* 949-952 *)
    if is_dir f (tmp_folder out) then
      let f1 := rmtree f (tmp_folder out) in
      f1 :: match suffix (pname out) with [] => [] | _ => [rmtree f1 (base_of out)] end
    else [].
  (** [order]: the output indices in the order in which the threads of losa.save_image_multiple save them.  A failing save would
      end the run: the states after it are an over-approximation. *)
  Definition reslice_fs (f : fs C) (out : path) (overwrite : bool) (tmpc outc : C) (order : list Z) : list (fs C) :=
    match (if overwrite then Ok tt else check_output f out) with
    | Err _ => []
    | Ok _ =>
      match make_folder f (tmp_folder out) with                               (* 610 *)
      | (f1, Err _) => [f1]
      | (f1, Ok _) =>
        match write_file f1 (tmp_file out) tmpc with                          (* 613 *)
        | Err _ => [f1]
        | Ok f2 =>
          match suffix (pname out) with
          | [] => let st := save_states f2 (map (fun i => (out_name i :: out, i)) order) in
                  f1 :: f2 :: st ++ cleanup (last st f2) out
          | _ => match mkdir_p f2 (parent out) with                           (* 880: open_hdf_stream, overwrite=True *)
                 | Err _ => [f1; f2]
                 | Ok f3 => match write_file f3 out outc with
                            | Err _ => [f1; f2; f3]
                            | Ok f4 => f1 :: f2 :: f3 :: f4 :: cleanup f4 out
                            end
                 end
          end
        end
      end
    end.
End resliceFS.
