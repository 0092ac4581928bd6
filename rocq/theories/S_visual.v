(** Specification vocabulary for the visual centre searches (C121, C122). *)
From Verif Require Import Np M_fs S_io.
From Coq Require Import Ascii String.
From Coq Require Import QArith Qabs.
From Coq Require Import List. Import ListNotations.
Open Scope Z_scope.

(** whatever exists is in a folder that exists *)
Definition tree {C} (f : fs C) : Prop := forall n d nd, lookup f (n :: d) = Some nd -> is_dir f d = true.
(** the output folder can be used: no plain file stands in its place, above it, or has a name like those of the result folders *)
Definition ready {C} (f : fs C) (output : path) : Prop :=
  tree f /\ usable_folder f output /\ forall nm c, prefixb (s_ "Find_center_") nm = true -> lookup f (nm :: output) <> Some (File c).
(** [folder] did not exist before; afterwards it contains the given files and nothing else, and everything else is as before *)
Definition new_folder {C} (f f' : fs C) (folder : path) (files : list (str * C)) : Prop :=
  lookup f folder = None /\ (files <> [] -> is_dir f' folder = true) /\ NoDup (map fst files) /\
  (forall nm c, lookup f' (nm :: folder) = Some (File c) <-> In (nm, c) files) /\ (forall nm, lookup f' (nm :: folder) <> Some Dir) /\ preserved f f'.
(** the file name says the centre with two decimals *)
Definition center_name (c : Q) (nm : str) : Prop :=
  exists sp n m ds es, nm = s_ "center_" ++ repeat " "%char sp ++ ds ++ s_ "." ++ es ++ s_ ".tif" /\
    written 1 n ds /\ written 2 m es /\ (m < 100)%N /\ (Qabs (100 * c - inject_Z (100 * Z.of_N n + Z.of_N m)) <= 1#2)%Q.
(** weights of a cubic B-spline at its knots *)
Definition bspline (a : Z) : Q := if a =? 0 then 2#3 else 1#6.
(** ndi.shift with order=3 and prefilter=False by whole pixels along the rows: inside of the image, the weighted mean of 3 x 3 pixels *)
Definition spline_shift (shiftx : img Q -> Q -> img Q) : Prop :=
  forall m s q, (q == inject_Z s)%Q -> nrow (shiftx m q) = nrow m /\ ncol (shiftx m q) = ncol m /\
    forall i j, 1 <= i < nrow m - 1 -> in_rng (ncol m) j -> 1 <= j - s < ncol m - 1 ->
      (px (shiftx m q) i j == bspline (-1) * (bspline (-1) * px m (i - 1)%Z (j - s - 1)%Z + bspline 0 * px m (i - 1)%Z (j - s)%Z + bspline 1 * px m (i - 1)%Z (j - s + 1)%Z)
        + bspline 0 * (bspline (-1) * px m i (j - s - 1)%Z + bspline 0 * px m i (j - s)%Z + bspline 1 * px m i (j - s + 1)%Z)
        + bspline 1 * (bspline (-1) * px m (i + 1)%Z (j - s - 1)%Z + bspline 0 * px m (i + 1)%Z (j - s)%Z + bspline 1 * px m (i + 1)%Z (j - s + 1)%Z))%Q.
(** the centres start, start + step, ... below [stop], in this order *)
Definition covers (start stop step : Q) (centers : list Q) : Prop :=
  exists n, Forall2 Qeq centers (map (fun k => (start + inject_Z k * step)%Q) (zrange 0 n)) /\
    forall k, 0 <= k < n <-> (0 <= k /\ (start + inject_Z k * step < stop)%Q).
(** the sinogram above its mirrored copy, which [shiftx] has moved so that the column [c] is the axis of the mirror *)
Definition above_mirror (shiftx : img Q -> Q -> img Q) (sino : img Q) (c : Q) (m : img Q) : Prop :=
  nrow m = nrow sino + nrow sino /\ ncol m = ncol sino /\
  (forall i j, in_rng (nrow sino) i -> in_rng (ncol sino) j -> px m i j = px sino i j) /\
  exists s, (s == 2 * c - inject_Z (ncol sino - 1))%Q /\ forall i j, in_rng (nrow sino) i -> in_rng (ncol sino) j -> px m (nrow sino + i) j = px (shiftx (ifliplr sino) s) i j.
(** pixel values between the pixels, by linear interpolation *)
Definition interpolated (m : img Q) (y x : Q) : Q :=
  let i := Qround.Qfloor y in let j := Qround.Qfloor x in let u := (y - inject_Z i)%Q in let v := (x - inject_Z j)%Q in
  ((1 - u) * ((1 - v) * px m i j + v * px m i (j + 1)%Z) + u * ((1 - v) * px m (i + 1)%Z j + v * px m (i + 1)%Z (j + 1)%Z))%Q.
(** ndi.zoom(m, z, order=1): for a new size that is a whole number; the corner pixels are kept *)
Definition corner_zoom (zoom1 : img Q -> Q -> img Q) : Prop :=
  forall m z nr nc, (inject_Z nr == z * inject_Z (nrow m))%Q -> (inject_Z nc == z * inject_Z (ncol m))%Q -> 2 <= nr -> 2 <= nc ->
    nrow (zoom1 m z) = nr /\ ncol (zoom1 m z) = nc /\
    forall i j, in_rng nr i -> in_rng nc j ->
      (px (zoom1 m z) i j == interpolated m (inject_Z (i * (nrow m - 1)) / inject_Z (nr - 1)) (inject_Z (j * (ncol m - 1)) / inject_Z (nc - 1)))%Q.
(** every row is the same when read from the right; its centre is (ncol - 1) / 2 *)
Definition mirror_even (m : img Q) : Prop := forall i j, in_rng (nrow m) i -> in_rng (ncol m) j -> (px m i (ncol m - 1 - j) == px m i j)%Q.
