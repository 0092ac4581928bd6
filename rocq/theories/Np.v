(** Python / NumPy primitives shared by the models.
    Nothing here is specific to algotom; these are the trusted readings of the
    Python 3 and NumPy reference manuals. *)
From Coq Require Export ZArith List Bool Lia.
From Coq Require Import QArith Qround Qabs Permutation.
From Coq Require Export ZifyBool ZifyNat ZifyN.
Export ListNotations.
Open Scope Z_scope.

(** ** Results: Python exceptions as values *)
Inductive exn := IndexError | ValueError | TypeError | ZeroDivisionError
               | FileNotFoundError | OSError | RuntimeError.
Inductive res (A : Type) := Ok (a : A) | Err (e : exn).
Arguments Ok {A} a. Arguments Err {A} e.
Definition bindr {A B} (x : res A) (f : A -> res B) : res B :=
  match x with Ok a => f a | Err e => Err e end.
Notation "'do' x <- a ; b" := (bindr a (fun x => b))
  (at level 200, x pattern, a at level 100, b at level 200).
Definition is_ok {A} (x : res A) : bool := match x with Ok _ => true | Err _ => false end.

Fixpoint mapr {A B} (f : A -> res B) (l : list A) : res (list B) :=
  match l with
  | [] => Ok []
  | a :: t => do b <- f a; do bs <- mapr f t; Ok (b :: bs)
  end.

(** ** Integers *)
(** np.clip(x, lo, hi) = np.minimum(np.maximum(x, lo), hi) *)
Definition clipZ (x lo hi : Z) : Z := Z.min (Z.max x lo) hi.
(** Python's [//] and [%] on ints are floor division: Coq's [Z.div], [Z.modulo]. *)

(** a[i] for a sequence of length n: negative indices count from the end *)
Definition py_idx (n i : Z) : res Z :=
  if (0 <=? i) && (i <? n) then Ok i
  else if (-n <=? i) && (i <? 0) then Ok (i + n)
  else Err IndexError.

(** bound of a slice a[i:], a[:i] (step 1): slice.indices *)
Definition py_adj (n i : Z) : Z := if i <? 0 then Z.max (i + n) 0 else Z.min i n.
(** length of a[i:j] *)
Definition slen (n i j : Z) : Z := Z.max 0 (py_adj n j - py_adj n i).

(** range(a, a+n) *)
Definition zrange (a n : Z) : list Z :=
  map (fun k => a + Z.of_nat k) (seq 0 (Z.to_nat n)).
(** range(a, b) *)
Definition prange (a b : Z) : list Z := zrange a (b - a).
(** range(a, b, s) for s > 0 *)
Definition prange_step (a b s : Z) : list Z :=
  map (fun k => a + Z.of_nat k * s) (seq 0 (Z.to_nat ((b - a + s - 1) / s))).
(** range(a, b, s): step 0 is a ValueError; only s > 0 is used in the models *)
Definition prange_step_r (a b s : Z) : res (list Z) :=
  if s =? 0 then Err ValueError else Ok (prange_step a b s).

(** ** Arrays: a shape and an index function *)
Record vec (V : Type) := mkvec { vlen : Z; vat : Z -> V }.
Arguments mkvec {V}. Arguments vlen {V}. Arguments vat {V}.
Record img (V : Type) := mkimg { nrow : Z; ncol : Z; px : Z -> Z -> V }.
Arguments mkimg {V}. Arguments nrow {V}. Arguments ncol {V}. Arguments px {V}.
Record vol (V : Type) := mkvol { dep : Z; hei : Z; wid : Z; vx : Z -> Z -> Z -> V }.
Arguments mkvol {V}. Arguments dep {V}. Arguments hei {V}. Arguments wid {V}. Arguments vx {V}.

Definition in_rng (n i : Z) : Prop := 0 <= i < n.

Definition vec_eqv {V} (R : V -> V -> Prop) (a b : vec V) : Prop :=
  vlen a = vlen b /\ forall i, in_rng (vlen a) i -> R (vat a i) (vat b i).
Definition img_eqv {V} (R : V -> V -> Prop) (a b : img V) : Prop :=
  nrow a = nrow b /\ ncol a = ncol b /\
  forall i j, in_rng (nrow a) i -> in_rng (ncol a) j -> R (px a i j) (px b i j).
Definition vol_eqv {V} (R : V -> V -> Prop) (a b : vol V) : Prop :=
  dep a = dep b /\ hei a = hei b /\ wid a = wid b /\
  forall i j k, in_rng (dep a) i -> in_rng (hei a) j -> in_rng (wid a) k ->
                R (vx a i j k) (vx b i j k).
Definition img_eq {V} : img V -> img V -> Prop := img_eqv eq.
Definition vec_eq {V} : vec V -> vec V -> Prop := vec_eqv eq.
Definition vol_eq {V} : vol V -> vol V -> Prop := vol_eqv eq.
Definition img_Qeq : img Q -> img Q -> Prop := img_eqv Qeq.
Definition vec_Qeq : vec Q -> vec Q -> Prop := vec_eqv Qeq.

(** v[i] *)
Definition vget {V} (v : vec V) (i : Z) : res V :=
  do k <- py_idx (vlen v) i; Ok (vat v k).
(** v[i:j] *)
Definition vslice {V} (v : vec V) (i j : Z) : vec V :=
  mkvec (slen (vlen v) i j) (fun k => vat v (py_adj (vlen v) i + k)).
(** np.copy / out-of-place elementwise operation *)
Definition vmap {A B} (f : A -> B) (v : vec A) : vec B := mkvec (vlen v) (fun i => f (vat v i)).
Definition vlist {V} (v : vec V) : list V := map (vat v) (zrange 0 (vlen v)).

(** m[i0:i1, j0:j1] *)
Definition islice {V} (m : img V) (i0 i1 j0 j1 : Z) : img V :=
  mkimg (slen (nrow m) i0 i1) (slen (ncol m) j0 j1)
        (fun i j => px m (py_adj (nrow m) i0 + i) (py_adj (ncol m) j0 + j)).
Definition imap {A B} (f : A -> B) (m : img A) : img B :=
  mkimg (nrow m) (ncol m) (fun i j => f (px m i j)).
(** np.transpose *)
Definition itrans {V} (m : img V) : img V := mkimg (ncol m) (nrow m) (fun i j => px m j i).
(** np.fliplr, np.flipud *)
Definition ifliplr {V} (m : img V) : img V :=
  mkimg (nrow m) (ncol m) (fun i j => px m i (ncol m - 1 - j)).
Definition iflipud {V} (m : img V) : img V :=
  mkimg (nrow m) (ncol m) (fun i j => px m (nrow m - 1 - i) j).
Definition irow {V} (m : img V) (i : Z) : vec V := mkvec (ncol m) (px m i).
Definition icol {V} (m : img V) (j : Z) : vec V := mkvec (nrow m) (fun i => px m i j).

(** ** Sums *)
Fixpoint qsumn (n : nat) (f : Z -> Q) : Q :=
  match n with O => 0%Q | S m => (qsumn m f + f (Z.of_nat m))%Q end.
Definition qsum (n : Z) (f : Z -> Q) : Q := qsumn (Z.to_nat n) f.
(** np.mean of n elements (n > 0) *)
Definition qmean (n : Z) (f : Z -> Q) : Q := (qsum n f / inject_Z n)%Q.
Definition qsum2 (n m : Z) (f : Z -> Z -> Q) : Q := qsum n (fun i => qsum m (f i)).
Definition qmean2 (n m : Z) (f : Z -> Z -> Q) : Q := (qsum2 n m f / (inject_Z n * inject_Z m))%Q.

(** ** np.array_split(arange(n), k): list of (start, length); k <= 0 is a ValueError *)
Fixpoint split_from (start : Z) (sizes : list Z) : list (Z * Z) :=
  match sizes with
  | [] => []
  | s :: t => (start, s) :: split_from (start + s) t
  end.
Definition split_sizes (n k : Z) : list Z :=
  repeat (n / k + 1) (Z.to_nat (n mod k)) ++ repeat (n / k) (Z.to_nat (k - n mod k)).
Definition array_split (n k : Z) : res (list (Z * Z)) :=
  if k <=? 0 then Err ValueError else Ok (split_from 0 (split_sizes n k)).

(** ** argmin / argmax of a list (NumPy returns the first extremum); empty is a ValueError *)
Fixpoint best_from {A} (better : A -> A -> bool) (i bi : Z) (b : A) (l : list A) : Z :=
  match l with
  | [] => bi
  | x :: t => if better x b then best_from better (i + 1) i x t
              else best_from better (i + 1) bi b t
  end.
Definition argbest {A} (better : A -> A -> bool) (l : list A) : res Z :=
  match l with [] => Err ValueError | x :: t => Ok (best_from better 1 0 x t) end.
Definition Qltb (x y : Q) : bool := negb (Qle_bool y x).
Definition argminQ : list Q -> res Z := argbest Qltb.
Definition argmaxQ : list Q -> res Z := argbest (fun x y => Qltb y x).
Definition argminZ : list Z -> res Z := argbest Z.ltb.

Definition Qminb (x y : Q) : Q := if Qle_bool x y then x else y.
Definition Qmaxb (x y : Q) : Q := if Qle_bool x y then y else x.
Definition clipQ (x lo hi : Q) : Q := Qminb (Qmaxb x lo) hi.

(** ** joblib.Parallel(...)(delayed(f)(x) for x in tasks)
    Results come back in submission order; the order in which the calls run (and therefore the
    order of their side effects) is any permutation of the tasks. *)
Definition schedule {T} (tasks order : list T) : Prop := Permutation tasks order.
