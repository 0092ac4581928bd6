(** Model of load_image, load_image_multiple, get_image_stack and get_reference_sample_stacks of algotom/io/loadersaver.py. *)
From Coq Require Import QArith.
From Verif Require Import Np M_io_load.
Open Scope Z_scope.

(** ** load_image, loadersaver.py:90-112.  A file holds one channel, several channels (height, width, channel), or no image. *)
Inductive image_file := Gray (m : img Q) | Colour (v : vol Q) | Unreadable.
(** np.mean over axis 0, 1, 2 *)
Definition mean_axis (axis : Z) (v : vol Q) : img Q :=
  if axis =? 0 then mkimg (hei v) (wid v) (fun i j => qmean (dep v) (fun k => vx v k i j))
  else if axis =? 1 then mkimg (dep v) (wid v) (fun i j => qmean (hei v) (fun k => vx v i k j))
  else mkimg (dep v) (hei v) (fun i j => qmean (wid v) (fun k => vx v i j k)).
Definition load_image (f : image_file) : res (img Q) :=
  match f with
  | Unreadable => Err ValueError                                                   (* 104-107 *)
  | Gray m => Ok m
  | Colour v => do a <- argminZ [dep v; hei v; wid v]; Ok (mean_axis a v)          (* 108-110 *)
  end.
(** ** load_image_multiple, loadersaver.py:1212-1243.  The jobs finish in any order ([order]); joblib puts every result at the place of its call.
    Simplified: np.asarray of images of different shapes is a ValueError. *)
Fixpoint set_at {A} (l : list A) (k : nat) (a : A) : list A :=
  match l, k with [], _ => [] | _ :: r, O => a :: r | x :: r, S k' => x :: set_at r k' a end.
Definition parallel (files : list image_file) (order : list nat) : list (option (res (img Q))) :=
  fold_left (fun slots i => match nth_error files i with Some f => set_at slots i (Some (load_image f)) | None => slots end) order (repeat None (length files)).
Definition same_shape (l : list (img Q)) : bool :=
  match l with [] => true | a :: r => forallb (fun b => (nrow a =? nrow b) && (ncol a =? ncol b)) r end.
Definition load_image_multiple (files : option (list image_file)) (ncore cpu_count : option Z) (order : list nat) : res (list (img Q)) :=
  match files with
  | None => Err ValueError                                                        (* 1241-1242: not a list *)
  | Some files =>
      let num_file := Z.of_nat (length files) in
      let ncore := match ncore with Some n => n | None => match cpu_count with Some c => c - 1 | None => 1 end end in
      let ncore := clipZ ncore 1 num_file in
      do imgs <- (if 1 <? ncore
                  then mapr (fun o => match o with Some r => r | None => Err RuntimeError end) (parallel files order)
                  else mapr load_image files);
      if same_shape imgs then Ok imgs else Err ValueError
  end.

(** ** the sources of images: a folder with the images of its tif files in sorted order, a dataset of 2 or 3 dimensions in an hdf file,
    or a path that leads to neither *)
Inductive source := Folder (files : list (img Q)) | Data2 (m : img Q) | Data3 (v : vol Q) | NoSource.
Definition is_folder (s : source) : bool := match s with Folder _ => true | _ => false end.
Definition tif_files (s : source) : list (img Q) := match s with Folder l => l | _ => [] end.
(** load_hdf(path, key).shape[-2:] *)
Definition hdf_shape (s : source) : res (Z * Z) :=
  match s with Data2 m => Ok (nrow m, ncol m) | Data3 v => Ok (hei v, wid v) | _ => Err ValueError end.
(** crop and fields, 1154-1172 (the same code in 953-970): the window, the dark field, and flat minus dark if a flat field is given *)
Record prepared := mkprep { p_top : Z; p_bot : Z; p_left : Z; p_right : Z; p_dark : img Q; p_den : option (img Q) }.
Definition prepare (height width : Z) (crop : Z * Z * Z * Z) (flat dark : option ndarr) : res prepared :=
  let '(ct, cb, cl, cr) := crop in
  let top := ct in let bot := height - cb in let left := cl in let right := width - cr in
  if (bot - top <? 1) || (right - left <? 1) then Err ValueError
  else
    do fl0 <- check_field_opt flat 1 height width;
    do dk0 <- check_field_opt dark 0 height width;
    let dk := crop_img dk0 top bot left right in
    Ok (mkprep top bot left right dk (match flat with Some _ => Some (fix_zero (img_sub (crop_img fl0 top bot left right) dk)) | None => None end)).
Definition cropped (p : prepared) (m : img Q) : img Q := crop_img m (p_top p) (p_bot p) (p_left p) (p_right p).
(** 1184-1187, 984-989 *)
Definition normalised (p : prepared) (m : img Q) : img Q :=
  match p_den p with Some fd => img_div (img_sub m (p_dark p)) fd | None => img_sub m (p_dark p) end.
(** the mean image of a 3D array, cropped: np.mean(data_obj[:, top:bot, left:right], axis=0) *)
Definition mean_cropped (p : prepared) (v : vol Q) : img Q := cropped p (mean_axis 0 v).
Definition frame (v : vol Q) (k : Z) : img Q := mkimg (hei v) (wid v) (vx v k).
(** np.asarray of a list of images of one shape *)
Definition stack_of (p : prepared) (ims : list (img Q)) : vol Q :=
  mkvol (Z.of_nat (length ims)) (nrow (p_dark p)) (ncol (p_dark p)) (fun k i j => px (nth (Z.to_nat k) ims (p_dark p)) i j).
Definition fixed_stack (fix_zero_div : bool) (v : vol Q) : vol Q := if fix_zero_div then fix_zero_vol v else v.
(** ** get_image_stack, loadersaver.py:1087-1209.
    1174-1202: the image taken from one path.  Simplified: the average of an empty folder, in the code an image of NaN, is an error here. *)
Definition one_hdf (p : prepared) (average : bool) (idx : option Z) (s : source) : res (img Q) :=
  match s with
  | Data3 v => if average then Ok (mean_cropped p v)
               else match idx with None => Err TypeError | Some i => do k <- py_idx (dep v) i; Ok (cropped p (frame v k)) end
  | Data2 m => Ok (cropped p m)
  | _ => Err ValueError
  end.
Definition stacked_files (files : list (img Q)) : vol Q :=
  match files with [] => mkvol 0 0 0 (fun _ _ _ => 0%Q) | f0 :: _ => mkvol (Z.of_nat (length files)) (nrow f0) (ncol f0) (fun k i j => px (nth (Z.to_nat k) files f0) i j) end.
Definition one_tif (p : prepared) (average : bool) (idx : option Z) (s : source) : res (img Q) :=
  if average then match tif_files s with [] => Err RuntimeError | _ => Ok (mean_cropped p (stacked_files (tif_files s))) end
  else match idx with None => Err TypeError | Some i => do m <- lget (tif_files s) i; Ok (cropped p m) end.
Inductive paths := OnePath (s : source) | ListOfPaths (l : list source) | OtherType.
Definition get_image_stack (idx : option Z) (p : paths) (has_key average : bool) (crop : Z * Z * Z * Z) (flat dark : option ndarr)
    (num_use : option Z) (fix_zero_div : bool) : res (vol Q) :=
  match p with
  | OtherType => Err ValueError                                                    (* 1207-1208 *)
  | OnePath (Folder files) => get_tif_stack files idx crop flat dark num_use fix_zero_div   (* 1125-1130 *)
  | OnePath _ => Err ValueError                                                    (* 1131-1132 *)
  | ListOfPaths l =>
      let num_file := Z.of_nat (length l) in
      let nuse := match num_use with None => num_file | Some u => clipZ u 1 num_file end in
      do s0 <- lget l 0;                                                           (* 1140: paths[0] *)
      let tif_format := is_folder s0 in
      if negb tif_format && negb has_key then Err ValueError                       (* 1143-1145 *)
      else
        do hw <- (if tif_format then match tif_files s0 with m :: _ => Ok (nrow m, ncol m) | [] => Err ValueError end else hdf_shape s0);
        do pr <- prepare (fst hw) (snd hw) crop flat dark;
        do ims <- mapr (fun i => do s <- lget l i; do m <- (if tif_format then one_tif else one_hdf) pr average idx s; Ok (normalised pr m)) (zrange 0 nuse);
        Ok (fixed_stack fix_zero_div (stack_of pr ims))
  end.
(** ** get_reference_sample_stacks, loadersaver.py:903-999; [ref_path = None]: not a list *)
Definition ref_image (p : prepared) (s : source) : res (img Q) :=
  match s with Data3 v => Ok (mean_cropped p v) | Data2 m => Ok (cropped p m) | _ => Err ValueError end.   (* 974, 979-982 *)
Definition sam_image (p : prepared) (proj_idx : Z) (s : source) : res (img Q) :=
  match s with
  | Data3 v => do k <- py_idx (dep v) proj_idx; Ok (cropped p (frame v k))         (* 975, 983 *)
  | Data2 _ => Err TypeError
  | _ => Err ValueError
  end.
Definition get_reference_sample_stacks (proj_idx : Z) (ref_path : option (list source)) (sam_path : list source) (crop : Z * Z * Z * Z)
    (flat dark : option ndarr) (num_use : option Z) (fix_zero_div : bool) : res (vol Q * vol Q) :=
  match ref_path with
  | None => Err ValueError                                                         (* 943-944 *)
  | Some refs =>
      if negb (Nat.eqb (length refs) (length sam_path)) then Err ValueError        (* 945-946 *)
      else
        let num_file := Z.of_nat (length refs) in
        let nuse := match num_use with None => num_file | Some u => clipZ u 1 num_file end in
        do r0 <- lget refs 0;
        do hw <- hdf_shape r0;                                                     (* 952 *)
        do pr <- prepare (fst hw) (snd hw) crop flat dark;
        do pairs <- mapr (fun i => do r <- lget refs i; do s <- lget sam_path i;
                            do rm <- ref_image pr r; do sm <- sam_image pr proj_idx s; Ok (normalised pr rm, normalised pr sm)) (zrange 0 nuse);
        Ok (fixed_stack fix_zero_div (stack_of pr (map fst pairs)), fixed_stack fix_zero_div (stack_of pr (map snd pairs)))
  end.
