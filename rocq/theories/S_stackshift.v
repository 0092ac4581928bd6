(** Specification vocabulary for the shifts between stacks of images (C120); independent of the model's helpers (only the array types are used). *)
From Coq Require Import Reals ZArith.
From Verif Require Import Np M_corr S_corr M_local S_local M_global S_global.
From Coq Require Import List. Import ListNotations.
Open Scope Z_scope.

(** the k-th image *)
Definition picture (d : data) (k : Z) : img R := mkimg (height d) (width d) (value d k).
(** what surrounds the place (i, j) of an unlimited scene *)
Definition seen (T : Z -> Z -> R) (r i j : Z) : list R :=
  flat_map (fun a => map (fun b => T (i - r + a) (j - r + b)) (zrange 0 (2 * r + 1))) (zrange 0 (2 * r + 1)).
(** the surroundings of two places at most [reach] apart differ, even if brightness and contrast are ignored *)
Definition recognisable (T : Z -> Z -> R) (r reach : Z) : Prop :=
  forall i j, varies (seen T r i j) /\
    forall dy dx, - reach <= dy <= reach -> - reach <= dx <= reach -> affine_copy (seen T r i j) (seen T r (i + dy) (j + dx)) -> dy = 0 /\ dx = 0.
(** ndi.shift by whole pixels moves the image, where it shows something of the image *)
Definition moves_images (shift : img R -> R -> R -> img R) : Prop :=
  forall m dy dx, nrow (shift m (IZR dy) (IZR dx)) = nrow m /\ ncol (shift m (IZR dy) (IZR dx)) = ncol m /\
    forall i j, in_rng (nrow m) i -> in_rng (ncol m) j -> in_rng (nrow m) (i - dy) -> in_rng (ncol m) (j - dx) ->
      px (shift m (IZR dy) (IZR dx)) i j = px m (i - dy) (j - dx).
(** The k-th sample image is the scene T, seen at the place (fst d, snd d), in front of the k-th reference image displaced by (fst s, snd s)
    - rows first.  The tiny number is the one the code adds to avoid divisions by zero *)
Definition in_front (T : Z -> Z -> R) (ref sam : img R) (d s : Z * Z) : Prop :=
  forall i j, in_rng (nrow sam) i -> in_rng (ncol sam) j -> in_rng (nrow sam) (i + fst s) -> in_rng (ncol sam) (j + snd s) ->
    (px sam i j = T (i + fst d)%Z (j + snd d)%Z * (px ref (i + fst s)%Z (j + snd s)%Z + 1 / 1000000000))%R.
(** no pixel of the reference is zero *)
Definition bright (ref : img R) : Prop := forall i j, in_rng (nrow ref) i -> in_rng (ncol ref) j -> (0 <= px ref i j)%R.
(** points that can be used: random ones, or two lists with at least one point that is usable *)
Definition some_points (pts : points) (h w e : Z) : Prop :=
  match pts with
  | NoPoints => True
  | Points [Indices li; Indices lj] => length li = length lj /\ exists p, In p (combine li lj) /\ 0 < fst p - e /\ fst p + e < h /\ 0 < snd p - e /\ snd p + e < w
  | _ => False
  end.
(** the found shift is the displacement (dy, dx): exactly without sub-pixel search on the CPU, up to a pixel otherwise *)
Definition finds (gpu sub : bool) (meth : method) (v : R * R) (dy dx : Z) : Prop :=
  (gpu = false -> sub = false -> v = (IZR dx, IZR dy)) /\
  (gpu = true \/ meth <> PolyFit -> Rabs (fst v - IZR dx) < 1 /\ Rabs (snd v - IZR dy) < 1)%R.
(** the largest of some displacements *)
Definition largest (l : list (Z * Z)) : Z := fold_right (fun s m => Z.max (Z.max (Z.abs (fst s)) (Z.abs (snd s))) m) 0 l.
(** rows first as a pair (x, y) of real numbers *)
Definition as_xy (s : Z * Z) : R * R := (IZR (snd s), IZR (fst s)).
(** all sample images show one scene; after cutting off the rim of the images, the windows of radius r fit with their margins *)
Definition one_scene (T : Z -> Z -> R) (ref sam : data) (d s : Z -> Z * Z) (r margin : Z) (pts : points) : Prop :=
  let rim := 1 + largest (map s (zrange 0 (depth ref))) in let e := r + margin in
  same_size ref sam /\ 1 <= depth ref /\ 0 <= r /\ 1 <= margin /\ recognisable T r (2 * margin) /\
  (forall k, 0 <= k < depth ref -> in_front T (picture ref k) (picture sam k) (d k) (s k) /\ bright (picture ref k)) /\
  2 * e + 1 <= height ref - 2 * rim /\ 2 * e + 1 <= width ref - 2 * rim /\ some_points pts (height ref - 2 * rim) (width ref - 2 * rim) e.
