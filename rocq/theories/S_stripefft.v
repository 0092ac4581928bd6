(** Specifications for the FFT and wavelet-FFT stripe filters (C129). *)
From Coq Require Import Reals ZArith.
From Verif Require Import Np M_phase_R.
Open Scope Z_scope.

Definition odd (n : Z) : Prop := exists k, n = 2 * k + 1.
Definition even (n : Z) : Prop := exists k, n = 2 * k.
(** all the rows (all the columns) are the same: nothing but stripes (no stripes at all) *)
Definition only_stripes (m : img R) : Prop := forall i i' j, in_rng (nrow m) i -> in_rng (nrow m) i' -> in_rng (ncol m) j -> px m i j = px m i' j.
Definition flat_rows (m : img R) : Prop := forall i j j', in_rng (nrow m) i -> in_rng (ncol m) j -> in_rng (ncol m) j' -> px m i j = px m i j'.
(** the average of column j *)
Definition column_mean (m : img R) (j : Z) : R := (rsum (nrow m) (fun i => px m i j) / IZR (nrow m))%R.
(** [p] is [m] with a frame of p pixels: the column averages above and below, then the outer columns repeated *)
Definition framed (m : img R) (pad : Z) (p : img R) : Prop :=
  nrow p = nrow m + 2 * pad /\ ncol p = ncol m + 2 * pad /\
  forall i j, in_rng (nrow p) i -> in_rng (ncol p) j ->
    let j' := Z.min (Z.max (j - pad) 0) (ncol m - 1) in
    px p i j = if ((pad <=? i) && (i <? pad + nrow m))%bool then px m (i - pad) j' else column_mean m j'.
(** Butterworth low-pass of order 2n: the gain at distance k of the zero frequency *)
Definition low_pass (u : R) (n : nat) (k : Z) : R := (1 / (1 + (IZR k / u) ^ (2 * n)))%R.
(** the values P 0 .. P (w - 1) with each of their frequencies k (|k| <= w / 2, w odd) weighted by g k: a circular convolution *)
Definition weighted (w : Z) (g : Z -> R) (P : Z -> R) (b : Z) : R :=
  (/ IZR w * rsum w (fun b' => P b' * rsum w (fun k => g (k - w / 2)%Z * cos (2 * PI * IZR ((k - w / 2) * (b - b')) / IZR w))))%R.
(** [s'] is c times [s]; [s'] is [s] turned by 180 degrees *)
Definition times (c : R) (s s' : img R) : Prop := nrow s' = nrow s /\ ncol s' = ncol s /\ forall i j, in_rng (nrow s) i -> in_rng (ncol s) j -> px s' i j = (c * px s i j)%R.
Definition half_turn (s s' : img R) : Prop := nrow s' = nrow s /\ ncol s' = ncol s /\ forall i j, in_rng (nrow s) i -> in_rng (ncol s) j -> px s' i j = px s (nrow s - 1 - i) (ncol s - 1 - j).
(** high-pass gains at distance k of the zero frequency *)
Definition gain (size : R) (butter : bool) (k : Z) : R := (if butter then 1 - 1 / (1 + (IZR k / size) ^ 2) else 1 - exp (- IZR k ^ 2 / (2 * size ^ 2)))%R.
(** the sum of column j *)
Definition column_total (m : img R) (j : Z) : R := rsum (nrow m) (fun i => px m i j).
(** how far the filter windows are centred off the zero frequency *)
Definition off_centre (n d : Z) : Prop := (odd n -> d = 0) /\ (even n -> d = 1).
(** two decompositions with the same values *)
Definition same_image (a b : img R) : Prop := nrow a = nrow b /\ ncol a = ncol b /\ forall i j, in_rng (nrow a) i -> in_rng (ncol a) j -> px a i j = px b i j.
(** [m'] is [m] with every column high-pass filtered, with the windows centred d places off *)
Definition damped (size : R) (butter : bool) (m m' : img R) : Prop :=
  nrow m' = nrow m /\ ncol m' = ncol m /\ exists d, off_centre (nrow m) d /\
  forall i j, in_rng (nrow m) i -> in_rng (ncol m) j -> px m' i j = weighted (nrow m) (fun k => gain size butter (k + d)) (fun a => px m a j) i.
(** the horizontal and diagonal details are kept, the vertical ones high-pass filtered *)
Definition vertically_damped (size : R) (butter : bool) (d d' : img R * img R * img R) : Prop :=
  let '(h, v, x) := d in let '(h', v', x') := d' in h' = h /\ x' = x /\ damped size butter v v'.
(** the largest number of levels that leaves at least 16 pixels *)
Definition max_level (h w l : Z) : Prop := 0 <= l /\ 2 ^ (l + 4) <= h /\ 2 ^ (l + 4) <= w /\ (h < 2 ^ (l + 5) \/ w < 2 ^ (l + 5)).
