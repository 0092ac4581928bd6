(** Model of the surface reconstruction from gradients of algotom/prep/phase.py (91-94, 312-477), exact real arithmetic
    (the final cast to float32 is not modelled). *)
From Coq Require Import Reals ZArith Bool.
From Verif Require Import Np M_phase_R M_simR M_calib M_fourier.
Open Scope Z_scope.

(** 384-387, 473-476 *)
Definition lift_negative (correct_negative : bool) (m : img R) : img R :=
  if correct_negative then let nmin := rmin2 m in if Rlt_dec nmin 0 then imap (fun x => x - 2 * nmin)%R m else m else m.

(** ** _make_window_SCS_method, 391-407: u varies along a row, v along a column; 1 / (4 1j x) = (0, - 1 / (4 x)) *)
Definition make_window_SCS (height width : Z) : img R * img R * img cx :=
  let u j := (1 * IZR j / IZR width)%R in let v i := (1 * IZR i / IZR height)%R in
  let sum i j := (sin (PI * u j) ^ 2 + sin (PI * v i) ^ 2)%R in
  (mkimg height width (fun i j => sin (2 * PI * u j)), mkimg height width (fun i j => sin (2 * PI * v i)),
   mkimg height width (fun i j => if (i =? 0) && (j =? 0) then c_ 0 else (0, - (1 / (4 * sum i j)))%R)).
(** ** reconstruct_surface_from_gradient_SCS_method, 445-477.  [np_pad pad m] is np.pad(m, pad, mode=pad_mode); a given window is a
    tuple of three images here (otherwise 454-460 raise ValueError) *)
Definition surface_SCS (np_pad : Z -> img R -> img R) (grad_x grad_y : img R) (correct_negative : bool)
    (window : option (img R * img R * img cx)) (pad : Z) : res (img R) :=
  if negb ((nrow grad_x =? nrow grad_y) && (ncol grad_x =? ncol grad_y)) then Err ValueError else
  if pad <? 0 then Err ValueError else
  let gx := if pad =? 0 then grad_x else np_pad pad grad_x in
  let gy := if pad =? 0 then grad_y else np_pad pad grad_y in
  let height := nrow gx in let width := ncol gx in
  do win <- match window with
    | None => Ok (make_window_SCS height width)
    | Some w => if negb ((nrow (snd w) =? height) && (ncol (snd w) =? width)) then Err ValueError else Ok w end;
  let '(sin_u, sin_v, win) := win in
  let fx := fft2 (imap c_ gx) in let fy := fft2 (imap c_ gy) in
  let fmat := mkimg height width (fun a b => cadd (cmul (c_ (px sin_u a b)) (px fx a b)) (cmul (c_ (px sin_v a b)) (px fy a b))) in
  let rec_surf := imap fst (ifft2 (mkimg height width (fun a b => cmul (px fmat a b) (px win a b)))) in
  let rec_surf := if pad =? 0 then rec_surf else islice rec_surf pad (- pad) pad (- pad) in
  Ok (lift_negative correct_negative rec_surf).

(** np.fft.fftshift and ifftshift of a complex image *)
Definition cshift (m : img cx) : img cx := mkimg (nrow m) (ncol m) (fun i j => px m (fftshift_idx (nrow m) i) (fftshift_idx (ncol m) j)).
Definition cishift (m : img cx) : img cx := mkimg (nrow m) (ncol m) (fun i j => px m (ifftshift_idx (nrow m) i) (ifftshift_idx (ncol m) j)).
(** ** _double_image, 91-94 *)
Definition double_image_R (m : img R) : img R :=
  mkimg (2 * nrow m) (2 * ncol m) (fun i j =>
    px m (if i <? nrow m then nrow m - 1 - i else i - nrow m) (if j <? ncol m then j else 2 * ncol m - 1 - j)).
(** ** _make_window_FC_method, 312-326; both lists are divided by the width (320) *)
Definition make_window_FC (height width : Z) : img R * img R * img R :=
  let xcenter := width / 2 in let ycenter := height / 2 in
  let u j := ((1 * IZR j - IZR xcenter) / IZR width)%R in let v i := ((1 * IZR i - IZR ycenter) / IZR width)%R in
  (mkimg height width (fun i j => u j), mkimg height width (fun i j => v i),
   mkimg height width (fun i j => if (i =? ycenter) && (j =? xcenter) then 0%R else (1 / (u j ^ 2 + v i ^ 2))%R)).
(** ** reconstruct_surface_from_gradient_FC_method, 359-388; -1j x as a factor *)
Definition surface_FC (grad_x grad_y : img R) (correct_negative : bool) (window : option (img R * img R * img R)) : res (img R) :=
  let height := nrow grad_x in let width := ncol grad_x in
  if negb ((nrow grad_x =? nrow grad_y) && (ncol grad_x =? ncol grad_y)) then Err ValueError else
  let gx := double_image_R grad_x in let gy := double_image_R grad_y in
  let height2 := nrow gx in let width2 := ncol gx in
  do win <- match window with
    | None => Ok (make_window_FC height2 width2)
    | Some w => if negb ((nrow (snd w) =? height2) && (ncol (snd w) =? width2)) then Err ValueError else Ok w end;
  let '(u, v, win) := win in
  let fx := cshift (fft2 (imap c_ gx)) in let fy := cshift (fft2 (imap c_ gy)) in
  let fmat := mkimg height2 width2 (fun a b => cmul (cadd (cmul (0, - px u a b)%R (px fx a b)) (cmul (0, - px v a b)%R (px fy a b))) (c_ (px win a b))) in
  let rec_surf := islice (imap (fun x => 0.5 / PI * fst x)%R (ifft2 (cishift fmat))) height height2 0 width in
  Ok (lift_negative correct_negative rec_surf).
