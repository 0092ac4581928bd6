(** Model of algotom/prep/phase.py:833-990: phase retrieval by speckle tracking.  Real numbers instead of floats. *)
From Coq Require Import Reals ZArith Bool.
From Verif Require Import Np M_phase_R M_corr M_local M_umpa M_fourier M_surface.
Open Scope Z_scope.

(** np.pad(., mode="reflect"): the source index of position k of an axis of n >= 1 elements; an axis of length 1 is repeated *)
Definition reflect_source (n k : Z) : Z :=
  if n =? 1 then 0 else let r := k mod (2 * (n - 1)) in if r <? n then r else 2 * (n - 1) - r.
Definition pad_reflect (m : img R) (p : Z) : res (img R) :=
  if (nrow m <=? 0) || (ncol m <=? 0) then Err ValueError else
  Ok (mkimg (nrow m + 2 * p) (ncol m + 2 * p) (fun i j => px m (reflect_source (nrow m) (i - p)) (reflect_source (ncol m) (j - p)))).

(** the options surf_method, window, pad (the padding function of pad_mode is a parameter); the window of a method has its own type *)
Inductive surf := SCS (window : option (img R * img R * img cx)) (pad : Z) | FC (window : option (img R * img R * img R)).
(** the option find_shift, with the parameters only one of the methods uses *)
Inductive tracker := Correl (dim1 norm norm_global : bool) | Umpa (smooth : Z -> Z -> R).
Definition as_stack (d : data) : option (vol R) := match d with Stack v => Some v | One _ => None end.

Section speckle.
Context (polyfit2 : vec R -> R * R) (surface : img R -> R * R * R * R * R).
Context (np_pad : Z -> img R -> img R).
(** get_transmission_dark_field_signal(ref, sam, x_shifts, y_shifts, win_size, margin): modelled in M_phase, any function here *)
Context (dark_field : data -> data -> img R -> img R -> Z -> Z -> res (img R * img R)).

(** the two shift maps and the extra signals, 945-969 *)
Definition track (ref sam : data) (how : tracker) (dark_signal : bool) (win_size margin : Z) (meth : method) (size : Z) (dev : device)
    (block : Z * Z) (sched : list (Z * Z) -> list (Z * Z)) (chunk_size : option Z) : res (img R * img R * option (img R * img R)) :=
  match how with
  | Umpa smooth =>
      match as_stack ref, as_stack sam with
      | Some r, Some s => find_local_shifts_umpa polyfit2 surface smooth r s win_size margin meth size (match dev with CPU => false | _ => true end) block sched chunk_size dark_signal
      | _, _ => Err ValueError
      end
  | Correl dim1 norm norm_global =>
      do xy <- find_local_shifts polyfit2 surface ref sam dim1 win_size margin meth size dev block sched norm norm_global chunk_size;
      if dark_signal then do td <- dark_field ref sam (fst xy) (snd xy) win_size margin; Ok (fst xy, snd xy, Some td)
      else Ok (fst xy, snd xy, None)
  end.
(** what is returned, 983-990: the shifts if asked for, the phase, the signals if asked for *)
Record phase_result := mkresult { shift_maps_of : option (img R * img R); phase_of : img R; signals_of : option (img R * img R) }.
(** 970-974 *)
Definition clean_border (m : img R) (edge : Z) : res (img R) := pad_reflect (islice m edge (- edge) edge (- edge)) edge.
(** retrieve_phase_based_speckle_tracking, 942-990 *)
Definition retrieve_phase (ref sam : data) (how : tracker) (dark_signal : bool) (win_size margin : Z) (meth : method) (size : Z) (dev : device)
    (block : Z * Z) (sched : list (Z * Z) -> list (Z * Z)) (chunk_size : option Z) (surf_method : surf) (correct_negative return_shift : bool) : res phase_result :=
  let win_size := Z.max win_size 1 in let margin := Z.max margin 1 in let size := Z.max size 3 in
  do results <- track ref sam how dark_signal win_size margin meth size dev block sched chunk_size;
  let '(x_shifts, y_shifts, signals) := results in
  let edge := margin + 2 in
  do x_shifts <- clean_border x_shifts edge;
  do y_shifts <- clean_border y_shifts edge;
  do phase <- (match surf_method with
    | SCS window pad => surface_SCS np_pad x_shifts y_shifts correct_negative window pad
    | FC window => surface_FC x_shifts y_shifts correct_negative window end);
  Ok (mkresult (if return_shift then Some (x_shifts, y_shifts) else None) phase (if dark_signal then signals else None)).
End speckle.
