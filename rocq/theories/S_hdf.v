(** Specifications for hdf files (C107). *)
From Coq Require Import ZArith.
From Verif Require Import Np M_fs M_hdf.
From Coq Require Import Ascii String.
From Coq Require Import List. Import ListNotations.
Open Scope Z_scope.

(** [object f p n]: going down from [f] through the names [p] leads to the group or dataset [n] *)
Inductive object {V} : node V -> list str -> node V -> Prop :=
  | object_here cs k n : In (k, n) cs -> n <> Dangling -> object (Grp cs) [k] n
  | object_below cs k m p n : In (k, m) cs -> object m p n -> object (Grp cs) (k :: p) n.
(** names are not empty, contain no slash, and are unique in their group *)
Definition good_name (k : str) : Prop := k <> [] /\ ~ In "/"%char k.
Definition good_group {V} (n : node V) : Prop := match n with Grp cs => NoDup (map fst cs) /\ forall k c, In (k, c) cs -> good_name k | _ => True end.
Definition good_file {V} (f : node V) : Prop := good_group f /\ forall p n, object f p n -> good_group n.
(** the path as text: names separated by slashes *)
Fixpoint path_text (p : list str) : str := match p with [] => [] | [k] => k | k :: r => k ++ "/"%char :: path_text r end.
Definition absolute_text (p : list str) : str := "/"%char :: path_text p.
(** [k] contains [pattern] *)
Definition contains (pattern k : str) : Prop := exists a b, k = a ++ pattern ++ b.
(** [entry f p]: there is a group, a dataset or a link at [p] *)
Inductive entry {V} : node V -> list str -> Prop :=
  | entry_here cs k n : In (k, n) cs -> entry (Grp cs) [k]
  | entry_below cs k m p : In (k, m) cs -> entry m p -> entry (Grp cs) (k :: p).
(** reading a printed tree: every line that names an object, as its depth of indentation and its name; its path is the path of the line
    before, cut to that depth, followed by the name *)
Fixpoint read_paths (previous : list str) (lines : list (nat * str)) : list (list str) :=
  match lines with
  | [] => []
  | (depth, name) :: r => let p := firstn depth previous ++ [name] in p :: read_paths p r
  end.
Definition object_lines (lines : list line) : list (nat * str * option (list Z)) :=
  flat_map (fun l => match l with PipeLine _ => [] | ObjLine prefix _ name shape => [(length prefix, name, shape)] end) lines.
(** the shape shown for the entry at [p] *)
Definition shows_shape {V} (f : node V) (add_shape : bool) (p : list str) (shape : option (list Z)) : Prop :=
  (add_shape = true -> forall s d c, object f p (DSet s d c) -> shape = Some s) /\
  (forall s, shape = Some s -> exists d c, object f p (DSet s d c)).
