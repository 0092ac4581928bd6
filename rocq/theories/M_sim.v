(** Model of algotom/util/simulation.py, artifacts added to a simulated sinogram (exact rational arithmetic). *)
From Verif Require Import Np M_utility M_conversion M_correction.
From Coq Require Import QArith Bool ZArith Lia.
Open Scope Z_scope.

(** simulation.py:404 the documented values of stripe_type; every other string takes the "full" branch (451-455) *)
Inductive stripe_type := Partial | Dead | Fluctuating | FullOrOther.

(** np.max(sinogram) (446) *)
Definition img_max (m : img Q) : Q := amax (nrow m) (fun i => amax (ncol m) (px m i)).
(** np.mean(sinogram[sinogram != 0.0]) (448); simplified: the mean of no number at all is nan in numpy and 0 here *)
Definition nonzero_mean (m : img Q) : Q :=
  (qsum2 (nrow m) (ncol m) (px m) /
   qsum2 (nrow m) (ncol m) (fun i j => if Qeq_bool (px m i j) 0 then 0 else 1))%Q.
(** np.linspace(a, b, n)[k]: the first end alone when n = 1 *)
Definition linspace (a b : Q) (n k : Z) : Q :=
  if n =? 1 then a else (a + (b - a) * inject_Z k / inject_Z (n - 1))%Q.
(** list_ratio (438-441): ones, then a ramp from 1 to 1 - strength_ratio in the elements [pos, nrow) *)
Definition partial_ratio (s : Q) (nr k : Z) : Q :=
  let pos := Qtrunc ((1 - s) * inject_Z nr) in
  if k <? pos then 1%Q else linspace 1 (1 - s) (nr - pos) (k - pos).
(** stripe_like * np.transpose(np.tile(list_ratio, (size, 1))) (442-443, 453-454): numpy broadcasting of
    the columns; np.tile rejects a negative number of repetitions *)
Definition times_tiled (st : img Q) (size : Z) (ratio : Z -> Q) : res (img Q) :=
  if size <? 0 then Err ValueError else
  if (ncol st =? size) || (size =? 1) then
    Ok (mkimg (nrow st) (ncol st) (fun i j => px st i j * ratio i)%Q)
  else if ncol st =? 1 then Ok (mkimg (nrow st) size (fun i _ => px st i 0 * ratio i)%Q)
  else Err ValueError.

(** what a call leaves behind: the array it returns and the content of the array it was given *)
Record stripe_call := mkcall { returned : img Q; caller : img Q }.

(** simulation.py:431-456.  [normal m s i j] is element (i, j) of np.random.normal(m, s, size=...) (449), which
    rejects a negative standard deviation; [asort] is numpy's argsort. *)
Definition add_stripe_artifact (asort : argsort_fn) (normal : Q -> Q -> Z -> Z -> Q)
    (given : img Q) (size position : Z) (strength : Q) (ty : stripe_type) : res stripe_call :=
  let sinogram := mkimg (nrow given) (ncol given) (px given) in              (* 431 np.copy *)
  let p := clipZ position 0 (ncol sinogram - size - 1) in                    (* 433 *)
  let s := clipQ strength 0 1 in                                             (* 434 *)
  let stripe := islice sinogram 0 (nrow sinogram) p (p + size) in            (* 435 *)
  do stripe_mod <-
    match ty with
    | Partial =>                                                             (* 436-444 *)
        let '(stripe_sort, mat_idx) := sort_forward asort stripe 0 in
        do t <- times_tiled stripe_sort size (partial_ratio s (nrow sinogram));
        Ok (sort_backward asort t mat_idx 0)
    | Dead =>                                                                (* 445-446 *)
        if (nrow sinogram <=? 0) || (ncol sinogram <=? 0) then Err ValueError
        else Ok (imap (fun _ => 1 * s * img_max sinogram)%Q stripe)
    | Fluctuating =>                                                         (* 447-450 *)
        let std := (nonzero_mean sinogram * s)%Q in
        if Qltb std 0 then Err ValueError
        else Ok (mkimg (nrow stripe) (ncol stripe) (fun i j => px stripe i j + normal 0 std i j)%Q)
    | FullOrOther => times_tiled stripe size (fun _ => (1 - s) * 1)%Q        (* 451-454 *)
    end;
  do sinogram' <- set_cols assign sinogram p (p + size) stripe_mod;          (* 455 *)
  Ok (mkcall sinogram' given).
