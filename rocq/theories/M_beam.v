(** Model of beam hardening correction (correction.py:517-574) over the real numbers. *)
From Verif Require Import Np.
From Coq Require Import Reals.
Open Scope R_scope.

(** x**n for x >= 0, n > 0 (0**n = 0) *)
Definition rpow (x n : R) : R := if Req_EM_T x 0 then 0 else Rpower x n.
(** correction.py:517-544 *)
Definition non_linear_function (intensity q n : R) (opt : bool) : R :=
  if opt then
    let x := 1 - intensity in
    let num := ln (1 - q * (1 - n)) in
    1 - ln (1 - q * (rpow x n - n * x)) / num
  else
    let x := intensity in
    let num := ln (1 - q * (1 - n)) in
    ln (1 - q * (rpow x n - n * x)) / num.
(** correction.py:547-574; [top] is np.max(mat) *)
Definition beam_hardening_correction (top : R) (m : img R) (q n : R) (opt : bool) : res (img R) :=
  if Rle_dec 2 top then Err ValueError
  else if Rlt_dec n 2 then Err ValueError
  else Ok (imap (fun v => non_linear_function v q n opt) m).
