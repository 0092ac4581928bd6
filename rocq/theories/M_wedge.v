(** Model of the double-wedge filter of algotom/prep/filtering.py (129-223), exact real arithmetic. *)
From Coq Require Import Reals ZArith Bool.
From Verif Require Import Np M_phase_R M_simR M_fourier M_fresnel.
Open Scope Z_scope.

(** np.ceil *)
Definition rceil (x : R) : Z := - Int_part (- x)%R.
(** ** make_double_wedge_mask, filtering.py:151-164; np.ceil((n - 1) / 2.0) is n / 2 in integers; a radius of 0 and the overflow of int16
    are not modelled *)
Definition make_double_wedge_mask (height width : Z) (radius : R) : img R :=
  let du := (1 / IZR width)%R in
  let dv := ((IZR height - 1) / (IZR height * 2 * PI))%R in
  let ndrop := 1 in
  let ycenter := height / 2 in
  let xcenter := width / 2 in
  let num i := rceil (IZR (i - ycenter) * dv / radius / du)%R in
  let p1 i := clipZ (Z.min (- num i + xcenter) (num i + xcenter)) 0 (width - 1) in
  let p2 i := clipZ (Z.max (- num i + xcenter) (num i + xcenter)) 0 (width - 1) in
  let y1 := py_adj height (ycenter - ndrop) in let y2 := py_adj height (ycenter + ndrop + 1) in
  mkimg height width (fun i j =>
    if (y1 <=? i) && (i <? y2) then 1%R                                                   (* 163 *)
    else if (py_adj width (p1 i) <=? j) && (j <? py_adj width (p2 i + 1)) then 0%R        (* 162 *)
    else 1%R).

(** np.fft.fftshift and np.fft.ifftshift of a complex image *)
Definition fshift (m : img cx) : img cx := mkimg (nrow m) (ncol m) (fun u v => px m (fftshift_idx (nrow m) u) (fftshift_idx (ncol m) v)).
Definition ishift (m : img cx) : img cx := mkimg (nrow m) (ncol m) (fun u v => px m (ifftshift_idx (nrow m) u) (ifftshift_idx (ncol m) v)).
(** ** one iteration, filtering.py:216-219 *)
Definition wedge_step (mask : img R) (pad : Z) (s : img R) : img R :=
  let p := pad_edge s 0 pad in
  let f := fshift (fft2 (imap c_ p)) in
  let g := mkimg (nrow f) (ncol f) (fun u v => cmul (px f u v) (c_ (px mask u v))) in
  islice (imap fst (ifft2 (ishift g))) 0 (nrow s) pad (ncol s + pad).

Section with_shift.
(** scipy.ndimage.shift(mat, (0, x), mode="nearest") *)
Context (shift : img R -> R -> img R).
(** ** conversion.convert_sinogram_180_to_360, conversion.py:387-392 *)
Definition to_360 (sino : img R) (center : R) : img R :=
  let shift_x := ((IZR (ncol sino) - 1) / 2 - center)%R in
  let flip := shift (ifliplr (shift sino shift_x)) (- shift_x)%R in
  let rest := islice flip 1 (nrow flip) 0 (ncol flip) in
  mkimg (nrow sino + nrow rest) (ncol sino) (fun i j => if i <? nrow sino then px sino i j else px rest (i - nrow sino) j).
Inductive sino_type := Type180 | Type360 | OtherType.
(** ** double_wedge_filter, filtering.py:194-223; a negative padding is rejected by np.pad *)
Definition double_wedge_filter (sinogram : img R) (center : R) (stype : sino_type) (iteration : Z) (mask : option (img R)) (ratio : R) (pad : Z) : res (img R) :=
  do s <- match stype with
          | OtherType => Err ValueError
          | Type180 => if Req_EM_T center 0 then Err ValueError else Ok (to_360 sinogram center)
          | Type360 => Ok sinogram
          end;
  let ncol_pad := ncol s + 2 * pad in
  do m <- match mask with
          | None => Ok (make_double_wedge_mask (nrow s) ncol_pad (ratio * IZR (ncol s) / 2)%R)
          | Some m => if (nrow m =? nrow s) && (ncol m =? ncol_pad) then Ok m else Err ValueError
          end;
  if (0 <? iteration) && (pad <? 0) then Err ValueError else
  let f := Nat.iter (Z.to_nat iteration) (wedge_step m pad) s in
  Ok (match stype with Type180 => islice f 0 (nrow sinogram) 0 (ncol f) | _ => f end).
End with_shift.
