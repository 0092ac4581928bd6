(** Model of the FFT-based phase unwrapping of algotom/prep/phase.py (47-51, 54-94, 221-309), exact real arithmetic. *)
From Coq Require Import Reals ZArith Bool.
From Verif Require Import Np M_phase_R M_simR M_fourier M_surface.
Open Scope Z_scope.

(** ** _make_window, 54-76; [forward] is direction == "forward".  The centre of a non-empty doubled image is never 0. *)
Definition make_window (height width : Z) (forward : bool) : img R :=
  let xcenter := width / 2 in let ycenter := height / 2 in
  let u j := ((1 * IZR j - IZR xcenter) / IZR xcenter)%R in let v i := ((1 * IZR i - IZR ycenter) / IZR ycenter)%R in
  mkimg height width (fun i j => if negb forward && ((i =? ycenter) && (j =? xcenter)) then 1%R else (u j ^ 2 + v i ^ 2)%R).
(** ** _forward_operator, 79-82 and _backward_operator, 85-88 (of a real image) *)
Definition forward_operator (m : img cx) (window : img R) : img cx :=
  let f := cshift (fft2 m) in ifft2 (cishift (mkimg (nrow m) (ncol m) (fun a b => cmul (px f a b) (c_ (px window a b))))).
Definition backward_operator (m : img R) (window : img R) : img cx :=
  let f := cshift (fft2 (imap c_ m)) in ifft2 (cishift (mkimg (nrow m) (ncol m) (fun a b => cdivr (px f a b) (px window a b)))).
(** exp(1j x) *)
Definition cis (x : R) : cx := (cos x, sin x).
(** ** unwrap_phase_based_fft, 243-261 *)
Definition check_window (win : option (img R)) (height width : Z) (forward : bool) : res (img R) :=
  match win with
  | None => Ok (make_window height width forward)
  | Some w => if negb ((nrow w =? height) && (ncol w =? width)) then Err ValueError else Ok w
  end.
Definition unwrap_fft (mat : img R) (win_for win_back : option (img R)) : res (img R) :=
  let height := nrow mat in let width := ncol mat in
  let mat2 := double_image_R mat in let height2 := nrow mat2 in let width2 := ncol mat2 in
  do wf <- check_window win_for height2 width2 true;
  do wb <- check_window win_back height2 width2 false;
  let f := forward_operator (imap cis mat2) wf in
  let rho := mkimg height2 width2 (fun a b => snd (cmul (px f a b) (cis (- px mat2 a b)))) in
  Ok (islice (imap fst (backward_operator rho wb)) height height2 0 width).
(** ** unwrap_phase_iterative_fft, 291-309.  A weight map of the size of the image. *)
Definition mean_of (m : img R) : R := (rsum (nrow m) (fun i => rsum (ncol m) (fun j => px m i j)) / (IZR (nrow m) * IZR (ncol m)))%R.
Definition map2 (f : R -> R -> R) (a b : img R) : img R := mkimg (nrow a) (ncol a) (fun i j => f (px a i j) (px b i j)).
Definition refine_step (mat weight wf wb mat_unwrap : img R) : res (img R) :=
  let mat_wrap := imap wrap_to_pi mat_unwrap in
  let mat_diff := map2 Rminus mat mat_wrap in
  let nmean := mean_of mat_diff in
  let mat_diff := imap (fun x => wrap_to_pi (x - nmean)%R) mat_diff in
  do phase_diff <- unwrap_fft (map2 Rmult mat_diff weight) (Some wf) (Some wb);
  Ok (map2 Rplus mat_unwrap phase_diff).
Fixpoint refine (n : nat) (mat weight wf wb mat_unwrap : img R) : res (img R) :=
  match n with O => Ok mat_unwrap | S k => do m <- refine_step mat weight wf wb mat_unwrap; refine k mat weight wf wb m end.
Definition unwrap_iterative (mat : img R) (iteration : Z) (win_for win_back weight_map : option (img R)) : res (img R) :=
  let height := nrow mat in let width := ncol mat in
  let wf := match win_for with None => make_window (2 * height) (2 * width) true | Some w => w end in
  let wb := match win_back with None => make_window (2 * height) (2 * width) false | Some w => w end in
  let weight := match weight_map with None => imap (fun _ => 1%R) mat | Some w => w end in
  do mat_unwrap <- unwrap_fft (map2 Rmult mat weight) (Some wf) (Some wb);
  refine (Z.to_nat iteration) mat weight wf wb mat_unwrap.
