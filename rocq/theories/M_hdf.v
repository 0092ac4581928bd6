(** Model of the functions of algotom/io/loadersaver.py that look into hdf files.
    An hdf file is a tree of groups and datasets; [Dangling] is a link whose target does not exist.
    Simplifications: links that can be followed, objects with several hard links, and attributes are not modelled; a dataset is its
    shape, its type (a number) and its content (any type V). *)
From Coq Require Import ZArith Lia Bool. 
From Verif Require Import Np M_fs.
From Coq Require Import Ascii String.
From Coq Require Import List. Import ListNotations.
Open Scope Z_scope.

Inductive node (V : Type) : Type :=
  | DSet (shape : list Z) (dtype : Z) (content : V)
  | Grp (children : list (str * node V))
  | Dangling.
Arguments DSet {V}. Arguments Grp {V}. Arguments Dangling {V}.
Definition children {V} (n : node V) : list (str * node V) := match n with Grp cs => cs | _ => [] end.
Definition slash : ascii := "/"%char.

(** ** h5py: the object at a path; empty parts of the path are skipped ("/a//b/" is "a/b") *)
Fixpoint parse_from (cur s : str) : list str :=
  match s with
  | [] => match cur with [] => [] | _ => [cur] end
  | c :: r => if ascii_dec c slash then match cur with [] => parse_from [] r | _ => cur :: parse_from [] r end else parse_from (cur ++ [c]) r
  end.
Definition parse (s : str) : list str := parse_from [] s.
Fixpoint assoc {V} (k : str) (cs : list (str * node V)) : option (node V) :=
  match cs with [] => None | (k', n) :: r => if str_eqb k k' then Some n else assoc k r end.
Fixpoint walk {V} (n : node V) (p : list str) : option (node V) :=
  match p with
  | [] => Some n
  | k :: r => match assoc k (children n) with Some Dangling => None | Some c => walk c r | None => None end
  end.
(** hdf_object[key]; None: KeyError *)
Definition lookup {V} (root : node V) (key : str) : option (node V) := walk root (parse key).
(** key + "/" + key2 *)
Definition joined (a b : str) : str := a ++ slash :: b.
(** hdf_object.visit(keys.append): the paths (without a leading slash) of all objects, a group before its content; links are not visited *)
Fixpoint visit_under {V} (path : str) (n : node V) : list str :=
  match n with
  | Grp cs => flat_map (fun kc => match snd kc with
                | Dangling => []
                | _ => let q := joined path (fst kc) in q :: visit_under q (snd kc) end) cs
  | _ => []
  end.
Definition visit {V} (root : node V) : list str :=
  flat_map (fun kc => match snd kc with Dangling => [] | _ => fst kc :: visit_under (fst kc) (snd kc) end) (children root).

(** ** get_hdf_information, loadersaver.py:136-166 (display not modelled).  data.name is the path with a leading slash. *)
Definition list_keys {V} (root : node V) : list str :=
  flat_map (fun key => match lookup root key with
    | Some (Grp cs) => match cs with [] => [key] | _ => map (fun kc => joined key (fst kc)) cs end
    | Some _ => [slash :: key]
    | None => [key] end) (visit root).
Definition describe {V} (root : node V) (key : str) : str * option (list Z * Z) :=
  (key, match lookup root key with Some (DSet s d _) => Some (s, d) | _ => None end).
Definition get_hdf_information {V} (root : node V) : list (str * option (list Z * Z)) := map (describe root) (list_keys root).
(** ** find_hdf_key, loadersaver.py:200-231: the same loop, except that nothing is listed for a key that cannot be opened (215) *)
Definition list_keys_find {V} (root : node V) : list str :=
  flat_map (fun key => match lookup root key with
    | Some (Grp cs) => match cs with [] => [key] | _ => map (fun kc => joined key (fst kc)) cs end
    | Some _ => [slash :: key]
    | None => [] end) (visit root).
Definition find_hdf_key {V} (root : node V) (pattern : str) : list (str * option (list Z * Z)) :=
  map (describe root) (filter (fun key => substrb pattern key) (list_keys_find root)).
(** ** load_hdf, loadersaver.py:261-272; [file] is None when it cannot be opened *)
Definition load_hdf {V} (file : option (node V)) (key : str) : res (node V) :=
  match file with
  | None => Err ValueError
  | Some root => match lookup root key with Some n => Ok n | None => Err ValueError end
  end.

(** ** get_hdf_tree, loadersaver.py:546-650: the lines of the tree (writing and printing them not modelled).
    Simplified: prefixes and connectors are lists of symbols instead of text.  Python's recursion is bounded by [fuel]. *)
Inductive symbol := PIPE_PREFIX | SPACE_PREFIX.
Inductive connector := ELBOW | TEE | NO_CONNECTOR.
Inductive line := PipeLine (prefix : list symbol) | ObjLine (prefix : list symbol) (con : connector) (name : str) (shape : option (list Z)).
Section Tree.
Context {V : Type}.
Variable sorted : list str -> list str.
(** _get_subgroups, 551-570: the entries and the new key *)
Definition get_subgroups (root : node V) (key : option str) : list str * str :=
  match key with
  | None => let l := map fst (children root) in (sorted l, match l with [k] => k | _ => [] end)
  | Some k => match lookup root k with Some (Grp cs) => (sorted (map fst cs), k) | _ => ([], k) end
  end.
(** enumerate *)
Definition enumerated (l : list str) : list (nat * str) := combine (seq 0 (length l)) l.
Fixpoint tree_body (fuel : nat) (root : node V) (prefix : list symbol) (key : option str) (level : nat) (add_shape : bool) : res (list line) :=
  match fuel with O => Err RuntimeError | S fuel' =>
  let '(entries, key) := get_subgroups root key in
  let last := (length entries - 1)%nat in
  let level := S level in
  (* _add_branches, 579-598 *)
  let branch key key1 (index last : nat) con :=
    let key_comb := joined key key1 in
    let shape := if add_shape then match lookup root key_comb with Some (DSet s _ _) => Some s | _ => None end else None in
    do rest <- tree_body fuel' root (prefix ++ [if Nat.eqb index last then SPACE_PREFIX else PIPE_PREFIX]) (Some key_comb) level add_shape;
    Ok (ObjLine prefix con key1 shape :: rest) in
  match entries with
  | [] => Ok []
  | [e] => branch (if Nat.eqb level 1 then [] else key) e 0%nat 0%nat (if Nat.ltb 1 level then ELBOW else NO_CONNECTOR)
  | _ =>
      do parts <- mapr (fun ie => branch key (snd ie) (fst ie) last (if Nat.eqb (fst ie) last then ELBOW else TEE)) (enumerated entries);
      Ok (PipeLine prefix :: concat parts)
  end end.
Definition get_hdf_tree (fuel : nat) (root : node V) (add_shape : bool) : res (list line) := tree_body fuel root [] None 0 add_shape.
End Tree.
