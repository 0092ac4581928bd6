(** Specifications for utility.py (C15-C23, C66, C67), independent of the model's helpers. *)
From Verif Require Import Np.
From Coq Require Import QArith.
Open Scope Z_scope.

(** [p] is a legal answer of numpy's argsort for the row [v]: a permutation of the indices 0..n-1
    along which the values are non-decreasing.  Nothing is said about ties. *)
Definition is_argsort (v : vec Q) (p : Z -> Z) : Prop :=
  (forall k, in_rng (vlen v) k -> in_rng (vlen v) (p k)) /\
  (forall a b, in_rng (vlen v) a -> in_rng (vlen v) b -> p a = p b -> a = b) /\
  (forall a b, 0 <= a -> a < b -> b < vlen v -> (vat v (p a) <= vat v (p b))%Q).

(** [y] lies on the straight line through (a, ya) and (b, yb) at abscissa x *)
Definition on_line (a : Z) (ya : Q) (b : Z) (yb : Q) (x : Z) (y : Q) : Prop :=
  ((y - ya) * inject_Z (b - a) == (yb - ya) * inject_Z (x - a))%Q.

(** Grid scans: camera row [i] (0 = first) of [h] detector lines; consecutive rows i and i+1 share
    [nth i ov] lines. Detector line [p] of camera row [i] sees the global slice [idx].  With side 1 lines are
    numbered along the scan, otherwise against it. *)
Definition zsum (l : list Z) : Z := fold_right Z.add 0 l.
Definition sees (side h : Z) (ov : list Z) (i p idx : Z) : Prop :=
  0 <= i <= Z.of_nat (length ov) /\ 0 <= p < h /\
  idx = i * h - zsum (firstn (Z.to_nat i) ov) + (if side =? 1 then p else h - 1 - p).
(** the global height of the scan *)
Definition scan_height (h : Z) (ov : list Z) : Z := (Z.of_nat (length ov) + 1) * h - zsum ov.
(** overlaps of at least two lines, and no line seen by three rows *)
Definition sane_overlaps (h : Z) (ov : list Z) : Prop :=
  (forall i o, nth_error ov i = Some o -> 2 <= o /\ o <= h) /\
  (forall i o o', nth_error ov i = Some o -> nth_error ov (S i) = Some o' -> o + o' <= h).

(** neighbours of a grid cell *)
Definition adjacent (i j a b : Z) : Prop :=
  (a = i /\ (b = j - 1 \/ b = j + 1)) \/ (b = j /\ (a = i - 1 \/ a = i + 1)).
Definition in_grid (nr nc i j : Z) : Prop := in_rng nr i /\ in_rng nc j.

(** equal blending weights ([None] = nan/inf) *)
Definition same_weight (a b : option Q) : Prop :=
  match a, b with Some x, Some y => (x == y)%Q | None, None => True | _, _ => False end.

(** slice number i of a volume perpendicular to the given axis, and how many there are *)
Definition slice_at {V} (axis : Z) (d : vol V) (i : Z) : img V :=
  match axis with
  | 0 => mkimg (hei d) (wid d) (fun a b => vx d i a b)
  | 1 => mkimg (dep d) (wid d) (fun a b => vx d a i b)
  | _ => mkimg (dep d) (hei d) (fun a b => vx d a b i)
  end.
Definition slices_along {V} (axis : Z) (d : vol V) : Z :=
  match axis with 0 => dep d | 1 => hei d | _ => wid d end.

(** the component of a detail triple (horizontal, vertical, diagonal) selected by [order] *)
Definition filtered_component {A} (order : Z) (f : A -> A) (t : A * A * A) : A * A * A :=
  match t with
  | (h, v, d) => if order <=? 0 then (f h, v, d) else if order =? 1 then (h, f v, d) else (h, v, f d)
  end.
