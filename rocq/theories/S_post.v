(** Small specifications for postprocessing.py. *)
From Verif Require Import Np M_fs M_post.
From Coq Require Import QArith.
From Coq Require Import List. Import ListNotations.
Open Scope Z_scope.

(** the values of an image, row by row *)
Definition pixels (m : img Q) : list Q := flat_map (fun i => map (fun j => px m i j) (zrange 0 (ncol m))) (zrange 0 (nrow m)).
Fixpoint insert (x : Q) (l : list Q) : list Q :=
  match l with [] => [x] | y :: t => if Qle_bool x y then x :: l else y :: insert x t end.
Definition sorted_values (l : list Q) : list Q := fold_right insert [] l.
(** the median of a list: the middle of the sorted values, or the mean of the two in the middle *)
Definition median (l : list Q) : Q :=
  let s := sorted_values l in let n := length l in
  ((nth ((n - 1) / 2) s 0 + nth (n / 2) s 0) / 2)%Q.
(** the mean of a list *)
Definition average (l : list Q) : Q := (fold_right Qplus 0 l / inject_Z (Z.of_nat (length l)))%Q.
(** the statistics of one image (percentiles 0 and 100; variance left out) *)
Definition image_statistics (m : img Q) : stat :=
  mkstat (lmin (pixels m)) (lmax (pixels m)) (lmin (pixels m)) (lmax (pixels m)) (average (pixels m)) (median (pixels m)) 0.
(** a crop that leaves something of a (d, h, w) volume: amounts cut from both ends of each axis *)
Definition sensible_crop (d h w : Z) (c : crop6) : Prop :=
  0 <= c_d1 c /\ 0 <= c_d2 c /\ 0 <= c_h1 c /\ 0 <= c_h2 c /\ 0 <= c_w1 c /\ 0 <= c_w2 c /\
  c_d1 c + c_d2 c < d /\ c_h1 c + c_h2 c < h /\ c_w1 c + c_w2 c < w.
(** every entry of the file system lies in an existing folder *)
Definition proper_tree {C} (f : fs C) : Prop := forall n p nd, lookup f (n :: p) = Some nd -> p = [] \/ lookup f p = Some Dir.
(** [q] is the folder [d] or lies below it *)
Definition at_or_below (d q : path) : Prop := exists sub, q = sub ++ d.
