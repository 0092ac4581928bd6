(** Model of the loading functions of /repo/algotom/io/loadersaver.py and of
    /repo/algotom/io/converter.py.  A tif file is an image, an hdf dataset is a volume. *)
From Verif Require Import Np.
From Coq Require Import QArith.
Open Scope Z_scope.

(** l[i] on a Python list *)
Definition lget {A} (l : list A) (i : Z) : res A :=
  do k <- py_idx (Z.of_nat (length l)) i;
  match nth_error l (Z.to_nat k) with Some a => Ok a | None => Err IndexError end.

(** ** get_reference_sample_stacks_dls: 734-875, frame bookkeeping.
    [keys = None] models a dataset without image key. *)
Record dset := mkdset { d_num : Z; d_keys : option (list Z) }.
(** np.where(int_keys == k)[0] *)
Fixpoint where_from (i k : Z) (keys : list Z) : list Z :=
  match keys with
  | [] => []
  | x :: t => if x =? k then i :: where_from (i + 1) k t else where_from (i + 1) k t
  end.
Definition where_eq := where_from 0.
(** np.sort(np.int32(np.squeeze(np.asarray(l)))): a single index is squeezed to a 0-d array, on which
    np.sort raises AxisError (a ValueError); longer lists come out of np.where already sorted *)
Definition sort_squeezed (l : list Z) : res (list Z) :=
  match l with [_] => Err ValueError | _ => Ok l end.
Record dls := mkdls { sam : list (list Z); refs : list (list Z); darks : list (list Z);
                      nprojs : list Z; starts : list Z; stops : list Z }.
Definition app_nonempty (ls : list (list Z)) (l : list Z) : res (list (list Z)) :=
  match l with [] => Ok ls | _ => do s <- sort_squeezed l; Ok (ls ++ [s]) end.   (* 842-849 *)
(** one turn of the loop 816-855 *)
Definition scan1 (s : dls) (d : dset) : res dls :=
  match d_keys d with
  | Some keys =>
      let t0 := where_eq 0 keys in                                              (* 835 *)
      do s0 <- match t0 with
               | [] => Ok (sam s, starts s, stops s)
               | _ => do l <- sort_squeezed t0;                                 (* 837 *)
                      do a <- lget l 0; do b <- lget l (-1);
                      Ok (sam s ++ [l], starts s ++ [a], stops s ++ [b])        (* 838-840 *)
               end;
      let '(sam', starts', stops') := s0 in
      do refs' <- app_nonempty (refs s) (where_eq 1 keys);                      (* 842-845 *)
      do darks' <- app_nonempty (darks s) (where_eq 2 keys);                    (* 846-849 *)
      Ok (mkdls sam' refs' darks' (nprojs s ++ [Z.of_nat (length t0)]) starts' stops')   (* 841 *)
  | None =>                                                                     (* 850-855 *)
      Ok (mkdls (sam s ++ [zrange 0 (d_num d)]) (refs s) (darks s)
                (nprojs s ++ [d_num d]) (starts s ++ [0]) (stops s ++ [d_num d - 1]))
  end.
Fixpoint scan (s : dls) (ds : list dset) : res dls :=
  match ds with [] => Ok s | d :: t => do s' <- scan1 s d; scan s' t end.
(** np.min / np.max of a list *)
Definition lmin (l : list Z) : res Z :=
  match l with [] => Err ValueError | x :: t => Ok (fold_left Z.min t x) end.
Definition lmax (l : list Z) : res Z :=
  match l with [] => Err ValueError | x :: t => Ok (fold_left Z.max t x) end.
(** 856-865: is the projection index accepted? *)
Definition dls_check (s : dls) (proj_idx : Z) : res unit :=
  do num_proj <- lmin (nprojs s);
  do start <- lmax (starts s);
  do stop0 <- lmin (stops s);
  let stop := if (stop0 - start + 1) >? num_proj then start + num_proj - 1 else stop0 in
  let off := proj_idx + start in
  if (off >? stop) || (off <? start) then Err ValueError else Ok tt.
(** frames idx1:idx2 averaged for dataset i (695-698, 706-709); None when no dataset has any *)
Definition use_range (ls : list (list Z)) (i : Z) : res (option (Z * Z)) :=
  match ls with
  | [] => Ok None
  | _ => do l <- lget ls i; do a <- lget l 0; do b <- lget l (-1); Ok (Some (a, b + 1))
  end.
Record plan := mkplan { p_dark : option (Z * Z); p_ref : option (Z * Z); p_sam : Z }.
(** loop 692-721 for flat_field = dark_field = None: which frames dataset i contributes *)
Definition plan1 (s : dls) (proj_idx i : Z) : res plan :=
  do dk <- use_range (darks s) i;
  do rf <- use_range (refs s) i;
  do l <- lget (sam s) i;
  do ix <- lget l proj_idx;                                                     (* 715 *)
  Ok (mkplan dk rf ix).
Definition dls_plan (proj_idx : Z) (ds : list dset) : res (list plan) :=
  do s <- scan (mkdls [] [] [] [] [] []) ds;
  do _ <- dls_check s proj_idx;
  mapr (plan1 s proj_idx) (zrange 0 (Z.of_nat (length ds))).

(** ** __check_dark_flat_field: 878-900, for one of the two fields.
    An array of 1, 2 or 3 dimensions. *)
Inductive ndarr := A1 (v : vec Q) | A2 (m : img Q) | A3 (v : vol Q).
Definition nd_len (a : ndarr) : Z := match a with A1 v => vlen v | A2 m => nrow m | A3 v => dep v end.
(** np.mean(a, axis=0); a scalar result cannot be unpacked later and is an error here *)
Definition nd_mean0 (a : ndarr) : res ndarr :=
  match a with
  | A1 _ => Err ValueError
  | A2 m => Ok (A1 (mkvec (ncol m) (fun j => qmean (nrow m) (fun i => px m i j))))
  | A3 v => Ok (A2 (mkimg (hei v) (wid v) (fun i j => qmean (dep v) (fun k => vx v k i j))))
  end.
Definition check_field (a : ndarr) (height width : Z) : res (img Q) :=
  do b <- (if nd_len a =? 3 then nd_mean0 a else Ok a);                         (* 883-884 *)
  match b with
  | A2 m => if (nrow m =? height) && (ncol m =? width) then Ok m else Err ValueError  (* 885-888 *)
  | _ => Err ValueError                                   (* (height2, width2) = shape fails *)
  end.
Definition check_field_opt (a : option ndarr) (dflt : Q) (height width : Z) : res (img Q) :=
  match a with
  | Some a => check_field a height width
  | None => Ok (mkimg height width (fun _ _ => dflt))                           (* 890, 899 *)
  end.

Definition Qzerob (q : Q) : bool := Qnum q =? 0.
(** m[m == 0.0] = np.mean(m)  (1062-1063 and its copies) *)
Definition fix_zero (m : img Q) : img Q :=
  let nmean := qmean2 (nrow m) (ncol m) (px m) in
  imap (fun v => if Qzerob v then nmean else v) m.
Definition fix_zero_vol (v : vol Q) : vol Q :=
  let n := (inject_Z (dep v) * inject_Z (hei v) * inject_Z (wid v))%Q in
  let nmean := (qsum (dep v) (fun k => qsum2 (hei v) (wid v) (vx v k)) / n)%Q in
  mkvol (dep v) (hei v) (wid v) (fun k i j => if Qzerob (vx v k i j) then nmean else vx v k i j).

(** ** get_tif_stack: 1002-1084; [files] are the images of the folder in sorted order *)
Definition tif_index (num idx : Z) : res Z :=
  let i := if idx <? 0 then num + idx else idx in                               (* 1037-1038 *)
  if i >? num - 1 then Err ValueError                                           (* 1039-1041 *)
  else py_idx num i.                                                            (* list_file[idx] *)
Definition img_sub (a b : img Q) : img Q :=
  mkimg (nrow a) (ncol a) (fun i j => (px a i j - px b i j)%Q).
Definition img_div (a b : img Q) : img Q :=
  mkimg (nrow a) (ncol a) (fun i j => (px a i j / px b i j)%Q).
Definition crop_img {V} (m : img V) (top bot left right : Z) : img V := islice m top bot left right.
Definition get_tif_stack (files : list (img Q)) (idx : option Z) (crop : Z * Z * Z * Z)
    (flat dark : option ndarr) (num_use : option Z) (fix_zero_div : bool) : res (vol Q) :=
  let num := Z.of_nat (length files) in
  match files with
  | [] => Err ValueError                                                        (* 1034-1035 *)
  | f0 :: _ =>
      let height := nrow f0 in let width := ncol f0 in
      do i0 <- match idx with None => Ok None | Some i => do k <- tif_index num i; Ok (Some k) end;
      let nuse := match num_use with None => num | Some u => clipZ u 1 num end in   (* 1042-1045 *)
      let '(ct, cb, cl, cr) := crop in
      let top := ct in let bot := height - cb in let left := cl in let right := width - cr in
      if (bot - top <? 1) || (right - left <? 1) then Err ValueError            (* 1053-1054 *)
      else
        do fl0 <- check_field_opt flat 1 height width;
        do dk0 <- check_field_opt dark 0 height width;
        let dk := crop_img dk0 top bot left right in
        let fd := fix_zero (img_sub (crop_img fl0 top bot left right) dk) in    (* 1060-1063 *)
        let one m := let c := crop_img m top bot left right in
                     match flat with Some _ => img_div (img_sub c dk) fd | None => img_sub c dk end in
        do ims <- match i0 with
                  | Some k => do m <- lget files k; Ok [one m]                  (* 1065-1070 *)
                  | None => Ok (map one (firstn (Z.to_nat nuse) files))         (* 1071-1079 *)
                  end;
        let st := mkvol (Z.of_nat (length ims)) (slen height top bot) (slen width left right)
                        (fun k i j => px (nth (Z.to_nat k) ims f0) i j) in
        Ok (if fix_zero_div then fix_zero_vol st else st)                       (* 1081-1084 *)
  end.

(** ** converter.py:37-84 convert_tif_to_hdf: the dataset that is written.
    Simplification: a slice whose shape differs from the dataset's is a TypeError (h5py could
    broadcast a slice of length 1). *)
Definition convert_tif_to_hdf {V} (files : list (img V)) (crop : Z * Z * Z * Z) : res (vol V) :=
  match files with
  | [] => Err FileNotFoundError                                                 (* find_file *)
  | f0 :: _ =>
      let '(ct, cb, cl, cr) := crop in
      let h := nrow f0 - ct - cb in let w := ncol f0 - cl - cr in               (* 74-75 *)
      if (h <? 1) || (w <? 1) then Err ValueError                               (* 76-77 *)
      else
        do ims <- mapr (fun m => let c := islice m ct (h + ct) cl (w + cl) in   (* 82-83 *)
                                 if (nrow c =? h) && (ncol c =? w) then Ok c else Err TypeError) files;
        Ok (mkvol (Z.of_nat (length files)) h w
                  (fun k i j => px (nth (Z.to_nat k) ims f0) i j))
  end.

(** ** converter.py:87-146 extract_tif_from_hdf: (file number, image) in writing order *)
Inductive hindex := HInt (i : Z) | HTup (start stop step : Z).
Definition extract_range (index : hindex) (n : Z) : res (list Z) :=
  let '(start, stop, step) := match index with
                              | HTup a b s => (a, b, s)                          (* 117-118 *)
                              | HInt i => (i, i + 1, 1)                          (* 119-120 *)
                              end in
  let stop := if (stop <? 1) || (stop >? n) then n else stop in                 (* 139-140 *)
  let start := clipZ start 0 (stop - 1) in                                      (* 141 *)
  if step =? 0 then Err ValueError
  else if step <? 0 then Ok []       (* range(start, stop, step<0): start <= stop, so empty *)
  else Ok (prange_step start stop step).
Definition extract_tif_from_hdf {V} (data : vol V) (index : hindex) (axis : Z) (crop : Z * Z * Z * Z)
  : res (list (Z * img V)) :=
  let '(ct, cb, cl, cr) := crop in
  let d := dep data in let h := hei data in let w := wid data in
  if axis =? 1 then
    do l <- extract_range index h;
    Ok (map (fun i => (i, islice (mkimg d w (fun a b => vx data a i b)) ct (d - cb) cl (w - cr))) l)   (* 127 *)
  else if axis =? 2 then
    do l <- extract_range index w;
    Ok (map (fun i => (i, islice (mkimg d h (fun a b => vx data a b i)) ct (d - cb) cl (h - cr))) l)   (* 135 *)
  else
    do l <- extract_range index d;
    Ok (map (fun i => (i, islice (mkimg h w (fun a b => vx data i a b)) ct (h - cb) cl (w - cr))) l).  (* 143 *)

(** ** converter.py:149-212 HdfEmulatorFromTif *)
Record slice := mkslice { s_start : option Z; s_stop : option Z; s_step : option Z }.
Inductive index := IInt (i : Z) | ISlice (s : slice).
Inductive emu_index := EInt (i : Z) | ESlice (s : slice) | ETuple (l : list index).
(** list(range( *s.indices(n))) as documented for Python slices *)
Definition slice_list (n : Z) (s : slice) : res (list Z) :=
  let step := match s_step s with None => 1 | Some k => k end in
  if step =? 0 then Err ValueError else
  let lower := if step <? 0 then -1 else 0 in
  let upper := if step <? 0 then n - 1 else n in
  let bound (o : option Z) (dflt : Z) :=
    match o with
    | None => dflt
    | Some x => if x <? 0 then Z.max (x + n) lower else Z.min x upper
    end in
  let start := bound (s_start s) (if step <? 0 then upper else lower) in
  let stop := bound (s_stop s) (if step <? 0 then lower else upper) in
  let cnt := if step <? 0 then (start - stop + (- step) - 1) / (- step)
             else (stop - start + step - 1) / step in
  Ok (map (fun k => start + Z.of_nat k * step) (seq 0 (Z.to_nat cnt))).
(** nested-list arrays of any dimension *)
Inductive nd (V : Type) := Scal (v : V) | NL (l : list (nd V)).
Arguments Scal {V}. Arguments NL {V}.
(** selection along one axis: one position or a list of positions *)
Inductive sel := S1 (k : Z) | SL (l : list Z).
Definition select (n : Z) (ix : index) : res sel :=
  match ix with
  | IInt i => do k <- py_idx n i; Ok (S1 k)
  | ISlice s => do l <- slice_list n s; Ok (SL l)
  end.
Definition sel_map {V} (s : sel) (f : Z -> nd V) : nd V :=
  match s with S1 k => f k | SL l => NL (map f l) end.
Definition full : index := ISlice (mkslice None None None).
(** m[y, x] *)
Definition img_index {V} (m : img V) (y x : index) : res (nd V) :=
  do sy <- select (nrow m) y; do sx <- select (ncol m) x;
  Ok (sel_map sy (fun i => sel_map sx (fun j => Scal (px m i j)))).
(** np.stack(list of equal-shaped arrays): an empty list is a ValueError *)
Definition np_stack {V} (l : list (nd V)) : res (nd V) :=
  match l with [] => Err ValueError | _ => Ok (NL l) end.
(** a whole image as an array *)
Definition whole {V} (m : img V) : nd V :=
  NL (map (fun i => NL (map (fun j => Scal (px m i j)) (zrange 0 (ncol m)))) (zrange 0 (nrow m))).
Definition emu_get {V} (files : list (img V)) (ix : emu_index) : res (nd V) :=
  let n := Z.of_nat (length files) in
  match ix with
  | EInt i => do m <- lget files i; Ok (whole m)                                (* 185-186 *)
  | ESlice s => do l <- slice_list n s;                                         (* 187-190 *)
                do ims <- mapr (lget files) l; np_stack (map whole ims)
  | ETuple [z; y; x] =>
      match z with
      | ISlice s => do l <- slice_list n s;                                     (* 193-197 *)
                    do ims <- mapr (lget files) l;
                    do rs <- mapr (fun m => img_index m y x) ims; np_stack rs
      | IInt i => do m <- lget files i; img_index m y x                         (* 198-199 *)
      end
  | ETuple _ => Err ValueError                                                  (* z, y, x = index *)
  end.
