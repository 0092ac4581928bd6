(** Model of algotom/prep/phase.py:480-634: shifts between two stacks of images and between the sample images.  Real numbers instead of floats. *)
From Coq Require Import Reals ZArith Bool.
From Verif Require Import Np M_phase_R M_corr M_local M_global M_simR M_umpa.
From Coq Require Import List. Import ListNotations.
Open Scope Z_scope.

(** the images of a stack; np.expand_dims(., 0) of a single image (536-538, 612-614) *)
Definition images (d : data) : list (img R) := match d with One m => [m] | Stack v => map (image v) (zrange 0 (dep v)) end.

Section shifts.
Context (polyfit2 : vec R -> R * R) (surface : img R -> R * R * R * R * R).
(** np.random.randint; the calls for one pair of images differ from those for another *)
Context (randint : Z -> bool -> Z -> Z -> Z -> list Z).
(** one call of find_global_shift_based_local_shifts(.., return_list=False), num_point by default None *)
Definition pair_shift (call : Z) (ref mat : img R) (win_size margin : Z) (list_ij : points) (how : global_value)
    (gpu : bool) (block : Z) (sched : list (Z * Z) -> list (Z * Z)) (sub_pixel : bool) (meth : method) (size : Z) (norm : bool) : res (R * R) :=
  do s <- find_global_shift polyfit2 surface (randint call) (One ref) (One mat) win_size margin list_ij None how gpu block sched sub_pixel meth size norm false;
  match s with Global x y => Ok (x, y) | Lists _ _ => Err ValueError end.
(** find_shift_between_image_stacks, 534-551: the i-th call is for the i-th pair *)
Definition find_shift_between_image_stacks (ref sam : data) (win_size margin : Z) (list_ij : points) (how : global_value)
    (gpu : bool) (block : Z) (sched : list (Z * Z) -> list (Z * Z)) (sub_pixel : bool) (meth : method) (size : Z) (norm : bool) : res (list (R * R)) :=
  if negb (same_shape ref sam) then Err ValueError else
  mapr (fun p => pair_shift (fst p) (fst (snd p)) (snd (snd p)) win_size margin list_ij how gpu block sched sub_pixel meth size norm)
       (combine (zrange 0 (Z.of_nat (length (images ref)))) (combine (images ref) (images sam))).

(** [shift m dy dx] is ndi.shift(m, (dy, dx)) *)
Context (shift : img R -> R -> R -> img R).
Definition eps : R := (1 / 1000000000)%R.
(** 620-622: np.flipud of (x, y) is (y, x); the quotient of images of the same size *)
Definition normalised_sample (ref sam : img R) (sr : R * R) (crop : Z) : img R :=
  let m := shift sam (snd sr) (fst sr) in
  islice (mkimg (nrow m) (ncol m) (fun i j => px m i j / (px ref i j + eps))%R) crop (- crop) crop (- crop).
(** find_shift_between_sample_images, 610-634; sr_shifts is a list of pairs (x, y).  np.max of nothing is a ValueError, a missing image or
    shift an IndexError (lget) *)
Definition lget {A} (l : list A) (i : Z) : res A := match nth_error l (Z.to_nat i) with Some a => Ok a | None => Err IndexError end.
Definition find_shift_between_sample_images (ref sam : data) (sr_shifts : list (R * R)) (win_size margin : Z) (list_ij : points) (how : global_value)
    (gpu : bool) (block : Z) (sched : list (Z * Z) -> list (Z * Z)) (sub_pixel : bool) (meth : method) (size : Z) (norm : bool) : res (list (R * R)) :=
  if negb (same_shape ref sam) then Err ValueError else
  match sr_shifts with
  | [] => Err ValueError
  | _ =>
      let num_image := Z.of_nat (length (images ref)) in
      let crop := 1 + rtrunc (rmaximum (flat_map (fun s => [Rabs (fst s); Rabs (snd s)]) sr_shifts)) in
      let sample i := do r <- lget (images ref) i; do m <- lget (images sam) i; do s <- lget sr_shifts i; Ok (normalised_sample r m s crop) in
      do sam_mat0 <- sample 0;
      do l <- mapr (fun i => do sam_mat1 <- sample i;
                     pair_shift i sam_mat0 sam_mat1 win_size margin list_ij how gpu block sched sub_pixel meth size norm) (zrange 1 (num_image - 1));
      Ok ((0, 0)%R :: l)
  end.
End shifts.
