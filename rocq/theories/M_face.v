(** Model of make_face_phantom, algotom/util/simulation.py:246-327 (exact real arithmetic; the masks are those of M_simR). *)
From Coq Require Import Reals ZArith Bool.
From Verif Require Import Np M_phase_R M_simR.
Open Scope Z_scope.

(** np.clip(v, lo, hi) *)
Definition rclip (v lo hi : R) : R := Rmin (Rmax v lo) hi.
(** a pixel of a mask of that size *)
Section parts.
Context (size : Z).
Let s := IZR size.
Let half := IZR (size / 2).                                                                    (* 260 *)
Definition ell (cx cy lx ly a : R) (i j : Z) : R := px (make_elliptic_mask size (Tuple cx cy) (Tuple lx ly) a) i j.
Definition rect (cx cy lx ly a : R) (i j : Z) : R := px (make_rectangular_mask size (Tuple cx cy) (Tuple lx ly) a) i j.
(** 262-268 *)
Definition face (i j : Z) : R :=
  let ratio1 := if 64 <? size then 0.95%R else 0.9%R in
  let ratio2 := if 64 <? size then 0.91%R else 0.86%R in
  (ell 0 0 (s / 1.3) (ratio1 * s) 0 i j + - 0.6 * ell 0 (- 0.01 * s) (ratio2 * s / 1.3) (ratio2 * s) 0 i j)%R.
(** 269-305; [sg] is -1 for the first eye and eyebrow (271-288), 1 for the second (289-304) *)
Definition eye_of (sg : R) (i j : Z) : R :=
  let cx := (sg * 0.3 * half)%R in let cy := (0.4 * half)%R in
  (0.6 * ell cx cy (0.15 * s) (0.05 * s) 0 i j)%R.
Definition pupil_of (sg : R) (i j : Z) : R :=
  let cx := (sg * 0.3 * half)%R in let cy := (0.4 * half)%R in
  (- 0.8 * ell cx cy (0.048 * s) (0.048 * s) 0 i j + - 0.2 * ell cx cy (0.015 * s) (0.015 * s) 0 i j)%R.
Definition eyebrow_of (sg : R) (i j : Z) : R :=
  let cx := (sg * 0.3 * half)%R in
  rclip (- 0.3 * rect cx (0.54 * half) (0.18 * s) (0.02 * s) (sg * 5) i j
       + - 0.3 * rect cx (0.54 * half - 0.01 * half) (0.18 * s) (0.015 * s) (sg * 10) i j) (- 0.3) 0.
Definition eye (i j : Z) : R :=
  (eye_of (-1) i j + eye_of 1 i j + pupil_of (-1) i j + pupil_of 1 i j + eyebrow_of (-1) i j + eyebrow_of 1 i j)%R.
(** 306-312 *)
Definition nose (i j : Z) : R :=
  rclip (0.2 * rect 0 0 (0.05 * s) (0.25 * s) 0 i j + 0.2 * rect (0 + 0.015 * s) 0 (0.04 * s) (0.25 * s) 9 i j
       + 0.2 * rect (0 - 0.015 * s) 0 (0.04 * s) (0.25 * s) (-9) i j) 0 0.2.
(** 313-318 *)
Definition mouth (i j : Z) : R :=
  let v := (0.2 * rect 0 (- 0.22 * s) (0.24 * s) (0.055 * s) 0 i j + 0.2 * ell 0 (- 0.22 * s + 0.025 * s) (0.24 * s) (0.07 * s) 0 i j)%R in
  if Rlt_dec v 0.3 then 0%R else v.
(** 319-325 *)
Definition beard (i j : Z) : R :=
  (- 0.4 * rect 0 (- 0.32 * s) (0.005 * s) (0.1 * s) 0 i j + - 0.4 * rect (- 0.02 * s) (- 0.32 * s) (0.005 * s) (0.1 * s) (-10) i j
   + - 0.4 * rect (0.02 * s) (- 0.32 * s) (0.005 * s) (0.1 * s) 10 i j)%R.
(** 326-327 *)
Definition make_face_phantom : img R := mkimg size size (fun i j => 0 + (face i j + eye i j + nose i j + mouth i j + beard i j))%R.
End parts.
