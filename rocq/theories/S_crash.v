(** Specification: interrupted calls. *)
From Verif Require Import Np M_fs S_io.
From Coq Require Import List. Import ListNotations.
(** the steps of a call: the state before it, ..., the state after it *)
Definition runs_from_to {S} (a b : S) (l : list S) : Prop := hd_error l = Some a /\ exists l', l = l' ++ [b].
(** nothing is lost; with overwrite=True the target may be *)
Definition keeps_files {C} (overwrite : bool) (target : path) (f f' : fs C) : Prop :=
  if overwrite then preserved_except [target] f f' else preserved f f'.
