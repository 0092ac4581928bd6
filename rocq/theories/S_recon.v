(** Specification vocabulary for the reconstruction functions (C54, C83-C86). *)
From Verif Require Import Np M_recon.
From Coq Require Import QArith Permutation.
From Coq Require Import List. Import ListNotations.
Open Scope Z_scope.

(** schedules without overlap of the loop iterations: one iteration after the other, in any order *)
Definition one_after_the_other (iterations steps : nat) (sched : list nat) : Prop :=
  exists order K, Permutation (seq 0 iterations) order /\ (steps <= K)%nat /\
    sched = flat_map (fun thread => repeat thread K) order.
(** the schedules considered for a back-projection launch of [rows] projections into a [w] x [w] slice:
    any on the GPU, without overlap on the CPU (see C52) *)
Definition proper_schedule (gpu : bool) (rows w : Z) (sched : list nat) : Prop :=
  gpu = true \/ one_after_the_other (Z.to_nat rows) (2 * Z.to_nat (w * w)) sched.
(** entry by entry equality of the argument arrays *)
Definition same_array (a b : arr) : Prop :=
  match a, b with A2 m, A2 n => img_Qeq m n | A3 u, A3 v => dep u = dep v /\ hei u = hei v /\ wid u = wid v /\
      forall i j k, in_rng (dep u) i -> in_rng (hei u) j -> in_rng (wid u) k -> (vx u i j k == vx v i j k)%Q
  | _, _ => False end.
(** sinogram number j of a stack *)
Definition sinogram_of (v : vol Q) (j : Z) : img Q := mkimg (dep v) (wid v) (fun i k => vx v i j k).
Definition all_positive (a : arr) : Prop :=
  match a with
  | A2 m => forall i j, in_rng (nrow m) i -> in_rng (ncol m) j -> (0 < px m i j)%Q
  | A3 v => forall i j k, in_rng (dep v) i -> in_rng (hei v) j -> in_rng (wid v) k -> (0 < vx v i j k)%Q
  end.
(** what is assumed of np.pad and of the FFT filters *)
Definition pads_columns {mode} (f : img Q -> Z -> mode -> img Q) : Prop :=
  forall m p md, 0 <= p -> nrow (f m p md) = nrow m /\ ncol (f m p md) = ncol m + 2 * p.
Definition pads_all_sides {mode} (f : img Q -> Z -> mode -> img Q) : Prop :=
  (forall m p md, 0 <= p -> nrow (f m p md) = nrow m + 2 * p /\ ncol (f m p md) = ncol m + 2 * p) /\
  (forall m m' p md, img_Qeq m m' -> img_Qeq (f m p md) (f m' p md)).
Definition keeps_shape {window} (f : img Q -> window -> img Q) : Prop :=
  (forall m w, nrow (f m w) = nrow m /\ ncol (f m w) = ncol m) /\
  (forall m m' w, img_Qeq m m' -> img_Qeq (f m w) (f m' w)).
(** valid arguments: at least two rows and columns, centre inside, one angle per row, a usable block and pad *)
Definition valid_arguments (nr nc : Z) (center : Q) (angles : option (vec Q)) (pad : option Z) (block : Z * Z) : Prop :=
  2 <= nr /\ 2 <= nc /\ (0 <= center)%Q /\ (center < inject_Z nc)%Q /\
  (forall v, angles = Some v -> vlen v = nr) /\ (forall p, pad = Some p -> 0 <= p) /\ 1 <= fst block /\ 1 <= snd block.
(** the angles used: the given ones, or equally spaced from 0 to pi *)
Definition used_angles (pi : Q) (nr : Z) (angles : option (vec Q)) : vec Q :=
  match angles with Some v => v | None => mkvec nr (fun i => (inject_Z i * pi / inject_Z (nr - 1))%Q) end.
(** the sinogram after the optional logarithm, non-positive values counting as 1 *)
Definition after_log (apply_log : bool) (neglog : Q -> Q) (m : img Q) : img Q :=
  mkimg (nrow m) (ncol m) (fun i j => if apply_log then neglog (if Qle_bool (px m i j) 0 then 1%Q else px m i j) else px m i j).
(** inside the circle of radius ratio * (nc / 2) around pixel (nc // 2, nc // 2); without ratio: everywhere *)
Definition inside_circle (nc : Z) (ratio : option Q) (y x : Z) : bool :=
  match ratio with
  | None => true
  | Some r => let c := nc / 2 in Qle_bool (inject_Z ((x - c) * (x - c) + (y - c) * (y - c))) ((r * inject_Z c) * (r * inject_Z c))
  end.
