(** Proofs about the Fourier-based Gaussian filter. *)
From Coq Require Import Reals Lra ZArith Lia Bool.
From Verif Require Import Np P_Np M_phase_R P_phase_R M_simR P_simR M_fourier P_fourier P_kernel M_fresnel S_fresnel P_fresnel M_gauss S_gauss.
Open Scope Z_scope.

Definition modes (mode : option (npad * npad)) := match mode with Some mm => mm | None => (PadEdge, PadMean) end.
Definition gvalue (mat : img R) sx sy (p : Z) (mode : option (npad * npad)) (i j : Z) : R :=
  let P := pad_image (fst (modes mode)) (snd (modes mode)) mat p in
  (checker (j + p) (i + p) * fst (spectral (nrow mat + 2 * p) (ncol mat + 2 * p) (fun a b => c_ (px P a b * checker b a)) (fun u v => px (make_2d_gaussian_window (nrow mat + 2 * p) (ncol mat + 2 * p) sx sy) u v) (i + p) (j + p)))%R.
Lemma gauss_value mat sx sy p mode out : 0 <= nrow mat -> 0 <= ncol mat -> apply_gaussian_filter mat sx sy (Some p) mode = Ok out ->
  0 <= p /\ nrow out = nrow mat /\ ncol out = ncol mat /\ forall i j, in_rng (nrow mat) i -> in_rng (ncol mat) j -> px out i j = gvalue mat sx sy p mode i j.
Proof.
  intros Hh Hw. unfold apply_gaussian_filter, gvalue. fold (modes mode). destruct (modes mode) as [m1 m2]. cbn [fst snd]. destruct (Z.ltb_spec p 0); [discriminate|]. intros Q.
  match type of Q with Ok ?X = Ok ?Y => assert (O : Y = X) by congruence end. rewrite O. clear Q O out. cbn [islice nrow ncol pad_image]. rewrite !slen_id by lia.
  split; [lia|]. split; [lia|]. split; [lia|]. unfold in_rng. intros i j Hi Hj. cbn [px islice nrow ncol]. rewrite !py_adj_id by lia. rewrite (Z.add_comm p i), (Z.add_comm p j).
  transitivity (checker (j + p) (i + p) * fst (px (ifft2 (mkimg (nrow mat + 2 * p) (ncol mat + 2 * p) (fun u v => cmul (px (fft2 (mkimg (nrow mat + 2 * p) (ncol mat + 2 * p) (fun i j => c_ (px (pad_image m1 m2 mat p) i j * checker j i)))) u v) (c_ (px (make_2d_gaussian_window (nrow mat + 2 * p) (ncol mat + 2 * p) sx sy) u v))))) (i + p) (j + p)))%R; [|reflexivity].
  unfold cmul at 1; cbn [fst snd c_]. ring.
Qed.
Lemma gauss_ok mat sx sy p mode : 0 <= p -> exists out, apply_gaussian_filter mat sx sy (Some p) mode = Ok out.
Proof. intros Hp. unfold apply_gaussian_filter. fold (modes mode). destruct (modes mode) as [m1 m2]. replace (p <? 0) with false by lia. eexists. reflexivity. Qed.

Lemma reflect_in n k : 0 < n -> 0 <= reflect_idx n k < n.
Proof.
  intros Hn. unfold reflect_idx. destruct (Z.eqb_spec n 1); [lia|]. assert (B := Z.mod_pos_bound k (2 * (n - 1)) ltac:(lia)). cbv zeta. destruct (Z.ltb_spec (k mod (2 * (n - 1))) n); lia.
Qed.
Lemma pad_line_lin mode n p f g h x y k : 0 < n -> (forall a, 0 <= a < n -> h a = (x * f a + y * g a)%R) -> pad_line mode n p h k = (x * pad_line mode n p f k + y * pad_line mode n p g k)%R.
Proof.
  intros Hn H. unfold pad_line. destruct (Z.leb_spec p k); cbn [andb]; [destruct (Z.ltb_spec k (p + n)); [apply H; lia|]|].
  1,2: destruct mode; [apply H; assert (Q := clip_in (k - p) 0 (n - 1)); lia| |apply H, reflect_in, Hn];
    rewrite (rsum_ext n h (fun a => x * f a + y * g a)%R) by exact H; rewrite rsum_add, !rsum_scal; unfold Rdiv; ring.
Qed.
Lemma pad_lin m1 m2 a b c p x y i j : 0 < nrow a -> 0 < ncol a -> combination x y a b c -> 
  px (pad_image m1 m2 c p) i j = (x * px (pad_image m1 m2 a p) i j + y * px (pad_image m1 m2 b p) i j)%R.
Proof.
  intros Hh Hw (R1 & R2 & R3 & R4 & H). cbn [px pad_image]. rewrite R3, R4, <- R1, <- R2. apply pad_line_lin; [exact Hh|]. intros k Hk. apply pad_line_lin; [exact Hw|]. intros l Hl. apply H; unfold in_rng; lia.
Qed.
Lemma gvalue_lin a b c sx sy p mode x y i j : 0 < nrow a -> 0 < ncol a -> combination x y a b c ->
  gvalue c sx sy p mode i j = (x * gvalue a sx sy p mode i j + y * gvalue b sx sy p mode i j)%R.
Proof.
  intros Hh Hw C. assert (C0 := C). destruct C0 as (R1 & R2 & R3 & R4 & _). unfold gvalue. rewrite R3, R4, <- R1, <- R2. rewrite !spectral_real.
  set (s := checker (j + p) (i + p)). transitivity (s * (x * rsum (nrow a + 2 * p) (fun a' => rsum (ncol a + 2 * p) (fun b' => px (pad_image (fst (modes mode)) (snd (modes mode)) a p) a' b' * checker b' a' * kernel (nrow a + 2 * p) (ncol a + 2 * p) (fun u v => px (make_2d_gaussian_window (nrow a + 2 * p) (ncol a + 2 * p) sx sy) u v) (i + p - a') (j + p - b'))) + 
     y * rsum (nrow a + 2 * p) (fun a' => rsum (ncol a + 2 * p) (fun b' => px (pad_image (fst (modes mode)) (snd (modes mode)) b p) a' b' * checker b' a' * kernel (nrow a + 2 * p) (ncol a + 2 * p) (fun u v => px (make_2d_gaussian_window (nrow a + 2 * p) (ncol a + 2 * p) sx sy) u v) (i + p - a') (j + p - b')))))%R; [|ring].
  f_equal. rewrite <- !rsum_scal, <- rsum_add. apply rsum_ext. intros a' _. rewrite <- !rsum_scal, <- rsum_add. apply rsum_ext. intros b' _. rewrite (pad_lin _ _ a b c p x y) by assumption. ring.
Qed.
(** the checkerboard moves the spectrum by half the (even) size *)
Lemma checker_wave h w u v f a b : 0 < h -> 0 < w -> (wave (2 * h) (2 * w) u v f a b * checker b a)%R = wave (2 * h) (2 * w) (u + h) (v + w) f a b.
Proof.
  intros Hh Hw. unfold wave, checker. assert (IZR h <> 0)%R by (apply not_0_IZR; lia). assert (IZR w <> 0)%R by (apply not_0_IZR; lia).
  set (t := (2 * PI * (IZR (u * a) / IZR (2 * h) + IZR (v * b) / IZR (2 * w)) + f)%R).
  replace (2 * PI * (IZR ((u + h) * a) / IZR (2 * h) + IZR ((v + w) * b) / IZR (2 * w)) + f)%R with (t + PI * IZR (b + a))%R by (unfold t; rewrite plus_IZR, !mult_IZR, !plus_IZR; field; split; assumption).
  rewrite cos_plus, sin_kpi, Rmult_0_r, Rminus_0_r. f_equal. destruct (Z.even (b + a)) eqn:E.
  - apply Z.even_spec in E. destruct E as (k & ->). rewrite mult_IZR. replace (PI * (2 * IZR k))%R with (0 + 2 * PI * IZR k)%R by ring. rewrite cos_shift_2pi, cos_0. reflexivity.
  - assert (O : Z.odd (b + a) = true) by (rewrite <- Z.negb_even, E; reflexivity). apply Z.odd_spec in O. destruct O as (k & ->). rewrite plus_IZR, mult_IZR.
    replace (PI * (2 * IZR k + 1))%R with (PI + 2 * PI * IZR k)%R by ring. rewrite cos_shift_2pi, cos_PI. reflexivity.
Qed.
