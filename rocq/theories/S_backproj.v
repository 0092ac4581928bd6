(** Specification of parallel-beam back-projection (C52, C53, C56). *)
From Verif Require Import Np.
From Coq Require Import QArith Qround.
Open Scope Z_scope.

(** value of a detector row of [w] pixels at the real position [f]: linear interpolation between
    neighbouring pixels; outside the detector the edge pixel, or nothing *)
Definition detector_value (edge_pad : bool) (w : Z) (row : Z -> Q) (f : Q) : Q :=
  if Qltb f 0 then (if edge_pad then row 0 else 0%Q)
  else if Qltb (inject_Z (w - 1)) f then (if edge_pad then row (w - 1)%Z else 0%Q)
  else let d := Qfloor f in
       if Qeq_bool f (inject_Z d) then row d
       else ((1 - (f - inject_Z d)) * row d + (f - inject_Z d) * row (d + 1)%Z)%Q.
(** the point at (x, y) (relative to the rotation axis) is seen at angle a at this detector position *)
Definition seen_at (ca sa center x y : Q) : Q := (x * ca + y * sa + center)%Q.
(** pixel number k of a w-wide slice, relative to the slice centre *)
Definition from_middle (w k : Z) : Q := (inject_Z k - inject_Z (w - 1) / 2)%Q.
(** back-projection of a sinogram at pixel (y, x): the y axis of the slice points down, so the point is
    at height -y above the rotation axis *)
Definition slice_pixel (cosf sinf : Q -> Q) (edge_pad : bool) (sino : img Q) (angles : vec Q) (center : Q) (y x : Z) (i : Z) : Q :=
  let a := vat angles i in
  detector_value edge_pad (ncol sino) (px sino i)
    (seen_at (cosf a) (sinf a) center (from_middle (ncol sino) x) (- from_middle (ncol sino) y)).
(** sum over a list of projection numbers *)
Definition sum_over (f : Z -> Q) (l : list Z) : Q := fold_right (fun i s => f i + s)%Q 0%Q l.
(** the parity of cosine and sine *)
Definition trig_parity (cosf sinf : Q -> Q) : Prop := forall a, (cosf (- a) == cosf a)%Q /\ (sinf (- a) == - sinf a)%Q.
(** vertical slice: the detector value of projection n, row i, where the point (x, y) is seen *)
Definition vertical_pixel (cosf sinf : Q -> Q) (edge_pad : bool) (projs : vol Q) (angles : vec Q) (center : Q) (i : Z) (x y : Q) (n : Z) : Q :=
  detector_value edge_pad (wid projs) (vx projs n i) (seen_at (cosf (vat angles n)) (sinf (vat angles n)) center x y).
