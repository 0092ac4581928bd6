(** Model of the visual searches for the centre of rotation: utility.py:1367-1421 (find_center_visual_sinograms),
    reconstruction.py:1177-1208 and 1461-1533 (find_center_visual_slices), vertrec.py:1431-1535 (find_center_visual_vertical_slices).
    Exact rationals; images of rationals.  The messages printed with display=True are not modelled. *)
From Verif Require Import Np M_fs M_io_save M_conversion M_calculation M_recon M_metric.
From Coq Require Import Ascii String.
From Coq Require Import QArith Qround Qabs.
From Coq Require Import List. Import ListNotations.
Open Scope Z_scope.

(** "{:.2f}".format(c): two decimals, rounding to nearest, ties to even; the sign of a negative number is kept *)
Definition half_even (x : Q) : Z :=
  let f := Qfloor x in let r := (x - inject_Z f)%Q in
  if Qltb r (1#2) then f else if Qltb (1#2) r then f + 1 else if Z.even f then f else f + 1.
Definition fixed2 (c : Q) : str :=
  let r := half_even (100 * Qabs c) in
  (if Qltb c 0 then s_ "-" else []) ++ dec (Z.to_N (r / 100)) ++ s_ "." ++ zpad 2 (dec (Z.to_N (r mod 100))).
(** "{:6.2f}": filled with spaces on the left *)
Definition spaced (w : nat) (s : str) : str := repeat " "%char (w - length s) ++ s.
(** utility.py:1417, reconstruction.py:1529, vertrec.py:1529 *)
Definition name_wide (c : Q) : str := s_ "center_" ++ spaced 6 (fixed2 c) ++ s_ ".tif".
Definition name_plain (c : Q) : str := s_ "center_" ++ fixed2 c ++ s_ ".tif".

(** utility.py:1405-1407, reconstruction.py:1511-1513; np.clip with a lower bound above the upper one gives the upper one *)
Definition center_step (ncol : Z) (step : Q) : Q := clipQ step (1#20) (inject_Z (ncol - 1)).
Definition center_start (ncol : Z) (start : Q) : Q := clipQ start 0 (inject_Z (ncol - 1)).
Definition center_stop (ncol : Z) (start stop step : Q) : Q :=
  clipQ (stop + center_step ncol step) (center_start ncol start + center_step ncol step) (inject_Z (ncol - 1)).

Section visual.
Context {C : Type} (enc : str -> img Q -> C) (scale8 : img Q -> img Q) (cplx : img Q -> bool) (pil_ok : str -> bool).
Notation save := (save_image enc scale8 cplx pil_ok).
(** the loops: an image that cannot be computed or saved ends the search; the files saved before remain *)
Fixpoint save_centers (f : fs C) (base : path) (name : Q -> str) (image : Q -> res (img Q)) (l : list Q) : fs C * res unit :=
  match l with
  | [] => (f, Ok tt)
  | c :: t => match image c with
              | Err e => (f, Err e)
              | Ok m => match save f (name c :: base) m true with
                        | (f1, Ok _) => save_centers f1 base name image t
                        | (f1, Err e) => (f1, Err e)
                        end
              end
  end.
(** 1402-1404 and 1421, 1507-1509 and 1533, 1485-1488 and 1535; [centers] is the list np.arange(..) or its error *)
Definition visual_search (f : fs C) (output : path) (name : Q -> str) (image : Q -> res (img Q)) (centers : res (list Q)) : fs C * res path :=
  match make_folder_name f output (s_ "Find_center") 3 with
  | Err e => (f, Err e)
  | Ok s => match centers with
            | Err e => (f, Err e)
            | Ok l => match save_centers f (s :: output) name image l with (f1, Ok _) => (f1, Ok (s :: output)) | (f1, Err e) => (f1, Err e) end
            end
  end.

(** [shiftx m s] is ndi.shift(m, (0, s), order=3, prefilter=False, mode="nearest"), [zoom m z] is ndi.zoom(m, z, mode="nearest") *)
Context (shiftx zoomf : img Q -> Q -> img Q).
(** 1408-1416 *)
Definition stacked_sinogram (sino : img Q) (zoom center : Q) : img Q :=
  let center_flip := ((inject_Z (ncol sino) - 1) / 2)%Q in
  let shift_col := (2 * (center - center_flip))%Q in
  let sino_360 := vstack sino (shiftx (ifliplr sino) shift_col) in
  if negb (Qeq_bool zoom 1) then zoomf sino_360 zoom else sino_360.
Definition find_center_visual_sinograms (f : fs C) (sino : img Q) (output : path) (start stop step zoom : Q) : fs C * res path :=
  visual_search f output name_wide (fun c => Ok (stacked_sinogram sino zoom c))
    (arangeQ (center_start (ncol sino) start) (center_stop (ncol sino) start stop step) (center_step (ncol sino) step)).

(** _reconstruct_slice; the five methods with the remaining options fixed; [use_gpu] chooses "FBP_CUDA" or "FBP" of astra *)
Inductive rec_method := Fbp | Bpf | Astra | Gridrec | AnyOther.
Context (fbp bpf gridrec dfi : img Q -> Q -> option (vec Q) -> res (img Q)) (astra : bool -> img Q -> Q -> option (vec Q) -> res (img Q)).
Definition reconstruct_slice (sino : img Q) (center : Q) (meth : rec_method) (angles : option (vec Q)) (use_gpu : bool) : res (img Q) :=
  match meth with
  | Fbp => fbp sino center angles | Bpf => bpf sino center angles | Astra => astra use_gpu sino center angles
  | Gridrec => gridrec sino center angles | AnyOther => dfi sino center angles
  end.
(** find_center_visual_slices, 1507-1533; [zoom1 m z] is ndi.zoom(m, z, order=1, mode="nearest"), [zoom_angles] line 1521, [cuda] says
    whether there is a GPU.  zoom=0 is an error of ndi.zoom or of the division in 1529, here ValueError *)
Context (zoom1 : img Q -> Q -> img Q) (zoom_angles : vec Q -> Q -> vec Q) (cuda : bool).
Definition find_center_visual_slices (f : fs C) (sino : img Q) (output : path) (start stop step zoom : Q) (meth : rec_method) (use_gpu : bool)
    (angles : option (vec Q)) : fs C * res path :=
  if Qeq_bool zoom 0 then (f, Err ValueError) else
  let start1 := center_start (ncol sino) start in let stop1 := center_stop (ncol sino) start stop step in let step1 := center_step (ncol sino) step in
  let changed := negb (Qeq_bool zoom 1) in
  let sino1 := if changed then zoom1 sino zoom else sino in
  let angles1 := if changed then match angles with Some a => Some (zoom_angles a zoom) | None => None end else angles in
  let centers := if changed then arangeQ (start1 * zoom) (stop1 * zoom) (step1 * zoom) else arangeQ start1 stop1 step1 in
  visual_search f output (fun c => name_plain (c / zoom)%Q) (fun c => reconstruct_slice sino1 c meth angles1 (use_gpu && cuda)) centers.

(** find_center_visual_vertical_slices, 1485-1535; [vrec p c] is vertical_reconstruction(p, slice_index, c, ..., apply_log=False), with the
    other options fixed.  -np.log with values <= 0 replaced by 1 (1493-1502): [neglog], fix_log.  The mask is that of M_metric; np.ones
    of a negative length (a centre outside the image) is a ValueError.  The second result is the content of the caller's array afterwards *)
Context (neglog : Q -> Q) (vrec : vol Q -> Q -> res (img Q)).
Definition logged (apply_log : bool) (p : vol Q) : vol Q :=
  if apply_log then mkvol (dep p) (hei p) (wid p) (fun n i j => neglog (fix_log (vx p n i j))) else p.
Definition mask_radius (width : Z) (centers : list Q) : Z :=
  let mn := match centers with [] => 0%Q | x :: t => fold_left Qminb t x end in Qtrunc (Qminb mn (inject_Z width - mn)).
Definition find_center_visual_vertical_slices (f : fs C) (p : vol Q) (output : path) (start stop step : Q) (apply_log masking : bool) : fs C * res path :=
  match arangeQ start (stop + step) step with
  | Err e => visual_search f output name_plain (fun _ => Err e) (Err e)
  | Ok l =>
      if masking && (match l with [] => true | _ => mask_radius (wid p) l <? 0 end) then visual_search f output name_plain (fun _ => Err ValueError) (Err ValueError) else
      visual_search f output name_plain
        (fun c => do m <- vrec (logged apply_log p) c;
                  Ok (if masking then mkimg (nrow m) (ncol m) (fun i j => (px m i j * search_mask_col (wid p) l j)%Q) else m)) (Ok l)
  end.
(** vertrec.py:1497-1502 assigns into the caller's array if there are values <= 0 *)
Definition visual_vertical_caller (p : vol Q) (apply_log : bool) : vol Q :=
  if apply_log then mkvol (dep p) (hei p) (wid p) (fun n i j => fix_log (vx p n i j)) else p.
End visual.
