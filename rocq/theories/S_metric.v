(** Specification vocabulary for the centre searches by metric (C55, C58). *)
From Verif Require Import Np.
From Coq Require Import QArith Qround.
From Coq Require Import List. Import ListNotations.
Open Scope Z_scope.

(** the k-th candidate of a search over start, start + step, ... below stop *)
Definition candidate (start step : Q) (k : Z) : Q := (start + inject_Z k * step)%Q.
Definition searched (start stop step : Q) (k : Z) : Prop := 0 <= k /\ (candidate start step k < stop)%Q.
(** the list of all of them, in order *)
Definition lists_candidates (start stop step : Q) (l : list Q) : Prop :=
  exists n, l = map (candidate start step) (zrange 0 n) /\ forall k, 0 <= k < n <-> searched start stop step k.
(** [c] is searched and no searched candidate scores better ([invert]: larger is better) *)
Definition best_searched (score : Q -> res Q) (start stop step : Q) (invert : bool) (c : Q) : Prop :=
  exists k v, searched start stop step k /\ c = candidate start step k /\ score c = Ok v /\
    forall k', searched start stop step k' -> exists v', score (candidate start step k') = Ok v' /\
      if invert then (v' <= v)%Q else (v <= v')%Q.
