(** Complex numbers as pairs of reals and numpy.fft on complex images (exact real arithmetic). *)
From Coq Require Import Reals ZArith.
From Verif Require Import Np M_phase_R.
Open Scope Z_scope.

Definition cx := (R * R)%type.
Definition c_ (x : R) : cx := (x, 0%R).
Definition cadd (a b : cx) : cx := (fst a + fst b, snd a + snd b)%R.
Definition csub (a b : cx) : cx := (fst a - fst b, snd a - snd b)%R.
Definition copp (a : cx) : cx := (- fst a, - snd a)%R.
Definition cmul (a b : cx) : cx := (fst a * fst b - snd a * snd b, fst a * snd b + snd a * fst b)%R.
Definition cconj (a : cx) : cx := (fst a, - snd a)%R.
Definition cabs (a : cx) : R := sqrt (fst a ^ 2 + snd a ^ 2)%R.
(** a complex number divided by a real one *)
Definition cdivr (a : cx) (r : R) : cx := (fst a / r, snd a / r)%R.
Definition csum (n : Z) (f : Z -> cx) : cx := (rsum n (fun k => fst (f k)), rsum n (fun k => snd (f k))).
(** exp (2 pi i k / n) *)
Definition root (n k : Z) : cx := (cos (2 * PI * IZR k / IZR n), sin (2 * PI * IZR k / IZR n)).
(** np.fft.fft2 and np.fft.ifft2 *)
Definition fft2 (m : img cx) : img cx := mkimg (nrow m) (ncol m) (fun u v =>
  csum (nrow m) (fun a => csum (ncol m) (fun b => cmul (px m a b) (cmul (root (nrow m) (- (u * a))) (root (ncol m) (- (v * b))))))).
Definition ifft2 (m : img cx) : img cx := mkimg (nrow m) (ncol m) (fun a b =>
  cdivr (csum (nrow m) (fun u => csum (ncol m) (fun v => cmul (px m u v) (cmul (root (nrow m) (u * a)) (root (ncol m) (v * b))))))
    (IZR (nrow m) * IZR (ncol m))%R).
(** np.fft.fft and np.fft.ifft along the rows *)
Definition fft1 (m : img cx) : img cx := mkimg (nrow m) (ncol m) (fun i v =>
  csum (ncol m) (fun b => cmul (px m i b) (root (ncol m) (- (v * b))))).
Definition ifft1 (m : img cx) : img cx := mkimg (nrow m) (ncol m) (fun i b =>
  cdivr (csum (ncol m) (fun v => cmul (px m i v) (root (ncol m) (v * b)))) (IZR (ncol m))).
