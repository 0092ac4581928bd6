(** Small specifications for the saving functions, independent of how the code builds names. *)
From Verif Require Import Np M_fs.
From Coq Require Import Ascii String.
From Coq Require Import List. Import ListNotations.
Open Scope Z_scope.

Definition is_digit (c : ascii) : bool := let n := N_of_ascii c in ((48 <=? n) && (n <=? 57))%N.
(** the number a string of decimal digits denotes *)
Definition decimal_value (s : str) : N :=
  fold_left (fun a c => 10 * a + (N_of_ascii c - 48))%N s 0%N.
(** [ds] is the number [n] written with at least [w] digits, zero padded *)
Definition written (w : nat) (n : N) (ds : str) : Prop :=
  forallb is_digit ds = true /\ decimal_value ds = n /\
  (length ds = w \/ ((w < length ds)%nat /\ hd "0"%char ds <> "0"%char)).
(** [q] is in the same folder as [p], with the same suffix, and "_n" (4 digits) added to the stem *)
Definition numbered (p : path) (n : N) (q : path) : Prop :=
  exists ds, written 4 n ds /\
    q = (stem (pname p) ++ s_ "_" ++ ds ++ suffix (pname p)) :: parent p.
(** nothing that existed in [f] is lost or changed in [f'] *)
Definition preserved {C} (f f' : fs C) : Prop :=
  forall q nd, lookup f q = Some nd -> lookup f' q = Some nd.
(** nothing outside the list [ps] of paths is lost or changed *)
Definition preserved_except {C} (ps : list path) (f f' : fs C) : Prop :=
  forall q nd, ~ In q ps -> lookup f q = Some nd -> lookup f' q = Some nd.
(** folder [d] exists or can be created: no plain file stands in its place or above it *)
Fixpoint usable_folder {C} (f : fs C) (d : path) : Prop :=
  match d with
  | [] => True
  | n :: q => (forall c, lookup f (n :: q) <> Some (File c)) /\ usable_folder f q
  end.

Definition tif_ext (e : str) : Prop := e = s_ ".tif" \/ e = s_ ".tiff".
(** what is stored for the image [m] in a file with extension [e]: tif files keep the values, other formats get the 8-bit image *)
Definition stored_image {M} (scale8 : M -> M) (e : str) (m img : M) : Prop :=
  (tif_ext e -> img = m) /\ (~ tif_ext e -> img = scale8 m).
(** [m] is slice [i] of the stack along the axis *)
Definition is_slice {V} (stack : vol V) (axis i : Z) (m : img V) : Prop :=
  (axis = 0 -> nrow m = hei stack /\ ncol m = wid stack /\ forall a b, px m a b = vx stack i a b) /\
  (axis = 1 -> nrow m = dep stack /\ ncol m = wid stack /\ forall a b, px m a b = vx stack a i b) /\
  (axis = 2 -> nrow m = dep stack /\ ncol m = hei stack /\ forall a b, px m a b = vx stack a b i).
(** number of slices along the axis *)
Definition stack_size {V} (v : vol V) (axis : Z) : Z :=
  match axis with 2 => wid v | 1 => hei v | _ => dep v end.
(** the text of a coefficient file: one "name = value" line for xcenter, ycenter, factor0, factor1, ... *)
Definition coefficient_text {V} (show : V -> str) (xc yc : V) (l : list V) (txt : str) : Prop :=
  exists ls, txt = flat_map (fun s => s ++ [ascii_of_N 10]) ls /\ length ls = (2 + length l)%nat /\
    nth_error ls 0 = Some (s_ "xcenter = " ++ show xc) /\
    nth_error ls 1 = Some (s_ "ycenter = " ++ show yc) /\
    forall i v, nth_error l i = Some v ->
      exists ds, written 1 (N.of_nat i) ds /\ nth_error ls (2 + i) = Some (s_ "factor" ++ ds ++ s_ " = " ++ show v).
(** [p1] is the path [p] with its extension replaced by [dflt] unless the extension (in lower case) is one of [exts] *)
Definition with_default_ext (exts : list str) (dflt : str) (p p1 : path) : Prop :=
  (In (lower (suffix (pname p))) exts -> p1 = p) /\
  (~ In (lower (suffix (pname p))) exts -> p1 = (stem (pname p) ++ dflt) :: parent p).
