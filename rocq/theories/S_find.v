(** Specification of searching files by a pattern. *)
From Verif Require Import Np M_fs.
From Coq Require Import Ascii String.
From Coq Require Import List. Import ListNotations.
(** the characters between two brackets: single ones, and ranges a-b of the characters with codes from that of a to that of b.  A minus at
    an end, or after a range, is a character like the others *)
Inductive lists_char : str -> ascii -> Prop :=
| lists_range a b r c : (N_of_ascii a <= N_of_ascii c <= N_of_ascii b)%N -> lists_char (a :: "-"%char :: b :: r) c
| lists_after_range a b r c : lists_char r c -> lists_char (a :: "-"%char :: b :: r) c
| lists_single a r : (forall b r', r <> "-"%char :: b :: r') -> lists_char (a :: r) a
| lists_later a r c : (forall b r', r <> "-"%char :: b :: r') -> lists_char r c -> lists_char (a :: r) c.
(** [abc] allows the characters listed, [!abc] all the others *)
Inductive allows_char : str -> ascii -> Prop :=
| allows_listed body c : (forall r, body <> "!"%char :: r) -> lists_char body c -> allows_char body c
| allows_other r c : ~ lists_char r c -> allows_char ("!"%char :: r) c.
(** the text after an opening bracket: a body (at least one character besides the !), the closing bracket, the rest.  A closing bracket
    in the first place, or just after the !, belongs to the body *)
Definition closes (text body rest : str) : Prop :=
  text = body ++ "]"%char :: rest /\
  exists bang x t, body = bang ++ x :: t /\ ((bang = [] /\ x <> "!"%char) \/ bang = ["!"%char]) /\ ~ In "]"%char t.
(** ? stands for one character, * for any number of characters, [...] for one of the characters allowed, other characters for themselves -
    also an opening bracket that is never closed *)
Inductive fits_pattern : str -> str -> Prop :=
| fits_end : fits_pattern [] []
| fits_one p c s : fits_pattern p s -> fits_pattern ("?"%char :: p) (c :: s)
| fits_any p a s : fits_pattern p s -> fits_pattern ("*"%char :: p) (a ++ s)
| fits_set p body q c s : closes p body q -> allows_char body c -> fits_pattern q s -> fits_pattern ("["%char :: p) (c :: s)
| fits_bracket p s : (forall body q, ~ closes p body q) -> fits_pattern p s -> fits_pattern ("["%char :: p) ("["%char :: s)
| fits_same p c s : c <> "*"%char -> c <> "["%char -> fits_pattern p s -> fits_pattern (c :: p) (c :: s).
(** a stands before b in the alphabetic order of strings *)
Definition before (a b : str) : Prop :=
  (exists c t, b = a ++ c :: t) \/
  (exists p c d s t, a = p ++ c :: s /\ b = p ++ d :: t /\ (N_of_ascii c < N_of_ascii d)%N).
(** an entry of folder d whose name fits the pattern *)
Definition found_in {C} (f : fs C) (d : path) (pattern : str) (p : path) : Prop :=
  exists nm nd, p = nm :: d /\ lookup f p = Some nd /\ fits_pattern pattern nm.
