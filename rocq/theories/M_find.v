(** Model of find_file (algotom/io/loadersaver.py). *)
From Verif Require Import Np M_fs M_io_save.
From Coq Require Import Ascii String.
From Coq Require Import List. Import ListNotations.
Open Scope Z_scope.

(** the matching of a name against a pattern done by path.parent.glob(path.name), 376 (fnmatch.translate of the standard library: first
    the pattern is cut into tokens, then these are compared with the name).  Simplifications: ** (folders below, or refused) is not
    modelled; a set whose leading ! only appears after an empty range was dropped, as [b-a!x], is not negated *)
Inductive token := Star | Any | Lit (c : ascii) | Set_ (body : str).
(** up to the next closing bracket *)
Fixpoint until_bracket (s : str) : option (str * str) :=
  match s with
  | [] => None
  | c :: r => if ascii_dec c "]" then Some ([], r) else match until_bracket r with None => None | Some (t, q) => Some (c :: t, q) end
  end.
Definition one_then (x : option ascii) (s : str) : option (str * str) :=
  match s with
  | [] => None
  | y :: r => match until_bracket r with None => None | Some (t, q) => Some (match x with Some b => b :: y :: t | None => y :: t end, q) end
  end.
(** the body of a set and the rest of the pattern, for the text after the opening bracket *)
Definition closing (s : str) : option (str * str) :=
  match s with
  | [] => None
  | c :: r => if ascii_dec c "!" then one_then (Some c) r else one_then None s
  end.
(** [fuel] : the length of the pattern is enough *)
Fixpoint tokens (fuel : nat) (p : str) : list token :=
  match fuel, p with
  | O, _ | _, [] => []
  | S fuel', c :: p' =>
      if ascii_dec c "*" then Star :: tokens fuel' p'
      else if ascii_dec c "?" then Any :: tokens fuel' p'
      else if ascii_dec c "[" then match closing p' with
           | None => Lit c :: tokens fuel' p'
           | Some (body, q) => Set_ body :: tokens fuel' q
           end
      else Lit c :: tokens fuel' p'
  end.
(** singles and ranges of a set *)
Fixpoint listed (body : str) (c : ascii) : bool :=
  match body with
  | [] => false
  | a :: r => match r with
      | m :: b :: r' => if ascii_dec m "-" then ((N_of_ascii a <=? N_of_ascii c)%N && (N_of_ascii c <=? N_of_ascii b)%N) || listed r' c
                        else (if ascii_dec a c then true else false) || listed r c
      | _ => (if ascii_dec a c then true else false) || listed r c
      end
  end.
Definition allowed (body : str) (c : ascii) : bool :=
  match body with
  | b :: r => if ascii_dec b "!" then negb (listed r c) else listed body c
  | [] => false
  end.
Definition token_one (t : token) (d : ascii) : bool :=
  match t with Star => false | Any => true | Lit c => if ascii_dec c d then true else false | Set_ body => allowed body d end.
Fixpoint tmatch (l : list token) (s : str) {struct l} : bool :=
  match l with
  | [] => match s with [] => true | _ => false end
  | Star :: l' => (fix any (s : str) : bool := tmatch l' s || match s with [] => false | _ :: t => any t end) s
  | k :: l' => match s with [] => false | d :: t => token_one k d && tmatch l' t end
  end.
Definition fnmatch (p s : str) : bool := tmatch (tokens (List.length p) p) s.
(** Python's order of strings *)
Fixpoint str_leb (a b : str) : bool :=
  match a, b with
  | [], _ => true
  | _ :: _, [] => false
  | c :: s, d :: t => if (N_of_ascii c <? N_of_ascii d)%N then true else if (N_of_ascii d <? N_of_ascii c)%N then false else str_leb s t
  end.
Fixpoint insert_str (x : str) (l : list str) : list str :=
  match l with [] => [x] | y :: t => if str_leb x y then x :: l else y :: insert_str x t end.
(** sorted(...), 379 *)
Definition sorted_str (l : list str) : list str := fold_right insert_str [] l.
(** find_file, 361-379: the path is a folder [d] and a pattern.  All results are in the same folder, so sorting the full paths is
    sorting the names.  __correct_path (375) does nothing to paths without backslashes and control characters *)
Definition find_file {C} (f : fs C) (d : path) (pattern : str) : res (list path) :=
  match sorted_str (filter (fnmatch pattern) (entries f d)) with
  | [] => Err FileNotFoundError
  | l => Ok (map (fun n => n :: d) l)
  end.
