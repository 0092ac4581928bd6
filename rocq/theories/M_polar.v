(** Model of the polar transformations of algotom/util/utility.py (663-792, 925-963) and of the ring removal of
    algotom/post/postprocessing.py (960-1043), exact real arithmetic (the float32 casts are not modelled). *)
From Coq Require Import Reals ZArith Bool List. Import ListNotations.
From Verif Require Import Np M_phase_R M_simR M_dfi.
Open Scope Z_scope.

(** ** scipy.ndimage.map_coordinates(m, (y, x), order=1, mode='reflect') at one position: bilinear interpolation.  Used for
    0 <= x <= ncol and 0 <= y <= nrow only, where reflection at the edge of the last pixel repeats that pixel. *)
Definition near (n i : Z) : Z := clipZ i 0 (n - 1).
Definition bilinear (m : img R) (x y : R) : R :=
  let j := Int_part x in let i := Int_part y in
  let u := (x - IZR j)%R in let v := (y - IZR i)%R in
  let p a b := px m (near (nrow m) a) (near (ncol m) b) in
  ((1 - v) * ((1 - u) * p i j + u * p i (j + 1)%Z) + v * ((1 - u) * p (i + 1)%Z j + u * p (i + 1)%Z (j + 1)%Z))%R.
(** util.mapping with its default order=1, mode="reflect", utility.py:155-157 *)
Definition mapping (m x_mat y_mat : img R) : img R :=
  mkimg (nrow x_mat) (ncol x_mat) (fun i j => bilinear m (px x_mat i j) (px y_mat i j)).

(** ** rectangular_from_polar, utility.py:685-695 *)
Definition rectangular_from_polar (width_reg height_reg width_pol height_pol : Z) : img R * img R :=
  let xcenter := ((IZR width_reg - 1) * 0.5)%R in
  let ycenter := ((IZR height_reg - 1) * 0.5)%R in
  let r_max := IZR (Int_part (Rmax xcenter ycenter)) in
  let r k := rlinspace 0 r_max width_pol k in
  let theta t := (IZR t * 2 * PI / (IZR height_pol - 1))%R in
  (mkimg height_pol width_pol (fun t k => rclip (xcenter + r k * cos (theta t)) 0 (IZR width_reg - 1)),
   mkimg height_pol width_pol (fun t k => rclip (ycenter + r k * sin (theta t)) 0 (IZR height_reg - 1))).

(** ** polar_from_rectangular, utility.py:720-731; np.arctan2 is a parameter *)
Definition polar_from_rectangular (atan2 : R -> R -> R) (width_pol height_pol width_reg height_reg : Z) : img R * img R :=
  let xcenter := ((IZR width_reg - 1) * 0.5)%R in
  let ycenter := ((IZR height_reg - 1) * 0.5)%R in
  let r_max := IZR (Int_part (Rmax xcenter ycenter)) in
  let x j := ((IZR (width_reg - 1 - j) - xcenter) * IZR width_pol / r_max)%R in
  let y i := ((IZR (height_reg - 1 - i) - ycenter) * IZR width_pol / r_max)%R in
  (mkimg height_reg width_reg (fun i j => rclip (sqrt (x j ^ 2 + y i ^ 2)) 0 (IZR width_pol - 1)),
   mkimg height_reg width_reg (fun i j => rclip ((PI + atan2 (y i) (x j)) * (IZR height_pol - 1) / (2 * PI)) 0 (IZR height_pol - 1))).

(** ** transform_slice_forward, utility.py:751-761 *)
Definition shape_eqb {A B} (a : img A) (b : img B) : bool := (nrow a =? nrow b) && (ncol a =? ncol b).
Definition transform_slice (default : Z -> img R * img R) (m : img R) (coord_mat : option (img R * img R)) : res (img R) :=
  if negb (nrow m =? ncol m) then Err ValueError else
  match coord_mat with
  | None => let '(x, y) := default (ncol m) in Ok (mapping m x y)
  | Some (x, y) => if negb (shape_eqb x m) || negb (shape_eqb y m) then Err ValueError else Ok (mapping m x y)
  end.
Definition transform_slice_forward (m : img R) (coord_mat : option (img R * img R)) : res (img R) :=
  transform_slice (fun n => rectangular_from_polar n n n n) m coord_mat.
(** ** transform_slice_backward, utility.py:782-792 *)
Definition transform_slice_backward (atan2 : R -> R -> R) (m : img R) (coord_mat : option (img R * img R)) : res (img R) :=
  transform_slice (fun n => polar_from_rectangular atan2 n n n n) m coord_mat.

(** ** remove_ring_based_fft and remove_ring_based_wavelet_fft, postprocessing.py:989-999, 1032-1043; [destripe] is
    removal.remove_stripe_based_fft or removal.remove_stripe_based_wavelet_fft with its arguments *)
Definition remove_ring (atan2 : R -> R -> R) (destripe : img R -> res (img R)) (m : img R) : res (img R) :=
  if negb (nrow m =? ncol m) then Err ValueError else
  let n := ncol m in
  let mask := circle_mask n 1 in
  let '(x, y) := rectangular_from_polar n n n n in
  let '(r, t) := polar_from_rectangular atan2 n n n n in
  do p <- destripe (mapping m x y);
  let rec := mapping p r t in
  Ok (mkimg (nrow rec) (ncol rec) (fun i j => px rec i j * px mask i j)%R).

(** ** transform_1d_window_to_2d, utility.py:946-963, order=1, mode="reflect" *)
Definition transform_1d_window_to_2d (atan2 : R -> R -> R) (win : vec R) : img R :=
  let width0 := vlen win in
  let width := if width0 mod 2 =? 0 then width0 + 1 else width0 in
  let center := width / 2 in
  let x j := (IZR (width - 1 - j) - IZR center)%R in
  let y i := (IZR i - IZR center)%R in
  let theta i j := atan2 (y i) (x j) in
  let r0 i j := rclip (sqrt (x j ^ 2 + y i ^ 2)) 0 (IZR center) in
  let r1 i j := if Rlt_dec (theta i j) 0 then (- r0 i j)%R else r0 i j in
  let r_mat := mkimg width width (fun i j => rclip (r1 i j + IZR center) 0 (IZR width - 1)) in
  let t_mat := mkimg width width (fun i j => rclip (theta i j * (IZR width - 1) / PI) 0 (IZR width - 1)) in
  let mat := mkimg width width0 (fun _ j => vat win j) in
  islice (mapping mat r_mat t_mat) 0 width0 0 width0.
