(** Filters acting on the spectrum of a real image: the real part of the result is a convolution. *)
From Coq Require Import Reals Lra ZArith Lia Bool.
From Verif Require Import Np P_Np M_phase_R P_phase_R M_simR P_simR M_fourier P_fourier.
Open Scope Z_scope.

Definition spectral (h w : Z) (p : Z -> Z -> cx) (V : Z -> Z -> R) (a b : Z) : cx :=
  px (ifft2 (mkimg h w (fun u v => cmul (px (fft2 (mkimg h w p)) u v) (c_ (V u v))))) a b.
Definition kernel (h w : Z) (V : Z -> Z -> R) (d e : Z) : R :=
  (/ (IZR h * IZR w) * rsum h (fun u => rsum w (fun v => V u v * fst (cmul (root h (u * d)) (root w (v * e))))))%R.
(** as a complex convolution *)
Definition ckernel (h w : Z) (V : Z -> Z -> R) (d e : Z) : cx :=
  cmul (c_ (/ (IZR h * IZR w))) (csum h (fun u => csum w (fun v => cmul (c_ (V u v)) (cmul (root h (u * d)) (root w (v * e)))))).
Lemma spectral_conv h w p V a b : spectral h w p V a b = csum h (fun a' => csum w (fun b' => cmul (p a' b') (ckernel h w V (a - a') (b - b')))).
Proof.
  unfold spectral. cbn [px ifft2 fft2 nrow ncol].
  transitivity (cmul (c_ (/ (IZR h * IZR w))) (csum h (fun u => csum w (fun v => csum h (fun a' => csum w (fun b' =>
    cmul (p a' b') (cmul (c_ (V u v)) (cmul (root h (u * (a - a'))) (root w (v * (b - b')))))))))))%R.
  { rewrite cdivr_form. f_equal. apply csum_ext. intros u _. apply csum_ext. intros v _.
    rewrite <- csum_scal_r, <- csum_scal_r. apply csum_ext. intros a' _. rewrite <- csum_scal_r, <- csum_scal_r. apply csum_ext. intros b' _.
    replace (u * (a - a')) with (- (u * a') + u * a) by ring. replace (v * (b - b')) with (- (v * b') + v * b) by ring. rewrite !root_add. ring. }
  transitivity (cmul (c_ (/ (IZR h * IZR w))) (csum h (fun a' => csum w (fun b' => csum h (fun u => csum w (fun v =>
    cmul (p a' b') (cmul (c_ (V u v)) (cmul (root h (u * (a - a'))) (root w (v * (b - b')))))))))))%R.
  { f_equal. transitivity (csum h (fun u => csum h (fun a' => csum w (fun b' => csum w (fun v =>
      cmul (p a' b') (cmul (c_ (V u v)) (cmul (root h (u * (a - a'))) (root w (v * (b - b')))))))))).
    - apply csum_ext. intros u _. rewrite csum_swap. apply csum_ext. intros a' _. apply csum_swap.
    - rewrite csum_swap. apply csum_ext. intros a' _. rewrite csum_swap. reflexivity. }
  rewrite <- csum_scal. apply csum_ext. intros a' _. rewrite <- csum_scal. apply csum_ext. intros b' _. unfold ckernel.
  assert (X : forall k x y : cx, cmul x (cmul k y) = cmul k (cmul x y)) by (intros; ring). rewrite X. f_equal.
  rewrite <- csum_scal. apply csum_ext. intros u _. rewrite <- csum_scal. reflexivity.
Qed.
Lemma fst_real x c : fst (cmul (c_ x) c) = (x * fst c)%R. Proof. unfold cmul, c_; cbn [fst snd]. ring. Qed.
Lemma ckernel_re h w V d e : fst (ckernel h w V d e) = kernel h w V d e.
Proof.
  unfold ckernel, kernel. rewrite fst_real. f_equal. unfold csum. cbn [fst]. apply rsum_ext. intros u _. apply rsum_ext. intros v _. apply fst_real.
Qed.
Lemma spectral_real h w (P : Z -> Z -> R) V a b :
  fst (spectral h w (fun a b => c_ (P a b)) V a b) = rsum h (fun a' => rsum w (fun b' => P a' b' * kernel h w V (a - a') (b - b')))%R.
Proof.
  rewrite spectral_conv. unfold csum. cbn [fst]. apply rsum_ext. intros a' _. apply rsum_ext. intros b' _. rewrite fst_real, ckernel_re. reflexivity.
Qed.
Lemma root_neg_fst h w a b : fst (cmul (root h (- a)) (root w (- b))) = fst (cmul (root h a) (root w b)).
Proof. rewrite !root_opp. unfold cconj, cmul; cbn [fst snd]. ring. Qed.
Lemma kernel_even h w V d e : kernel h w V (- d) (- e) = kernel h w V d e.
Proof.
  unfold kernel. f_equal. apply rsum_ext. intros u _. apply rsum_ext. intros v _. rewrite <- !Zopp_mult_distr_r. rewrite root_neg_fst. reflexivity.
Qed.
Lemma kernel_trans h w V d e : kernel h w V d e = kernel w h (fun v u => V u v) e d.
Proof.
  unfold kernel. rewrite (Rmult_comm (IZR h)). f_equal. rewrite rsum_swap. apply rsum_ext. intros v _. apply rsum_ext. intros u _. f_equal. unfold cmul; cbn [fst snd]. ring.
Qed.
Lemma kernel_ext h w V V' d e : (forall u v, in_rng h u -> in_rng w v -> V u v = V' u v) -> kernel h w V d e = kernel h w V' d e.
Proof. intros H. unfold kernel. f_equal. apply rsum_ext. intros u Hu. apply rsum_ext. intros v Hv. rewrite H by assumption. reflexivity. Qed.
(** a half turn of the image is a half turn of the result *)
Lemma spectral_half_turn h w (P : Z -> Z -> R) V a b : 0 <= h -> 0 <= w ->
  fst (spectral h w (fun a b => c_ (P (h - 1 - a) (w - 1 - b))) V a b) = fst (spectral h w (fun a b => c_ (P a b)) V (h - 1 - a) (w - 1 - b)).
Proof.
  intros Hh Hw. rewrite !spectral_real. rewrite <- (rsum_rev h) by exact Hh. apply rsum_ext. intros a' _. rewrite <- (rsum_rev w) by exact Hw. apply rsum_ext. intros b' _.
  replace (h - 1 - (h - 1 - a')) with a' by ring. replace (w - 1 - (w - 1 - b')) with b' by ring. f_equal.
  rewrite <- kernel_even. f_equal; ring.
Qed.
(** exponentials are multiplied by the weight of their frequency *)
Lemma root_sum_at n k u : 0 < n -> 0 <= k < n -> csum n (fun a => cmul (root n (u * a)) (root n (- (k * a)))) = if k =? u mod n then c_ (IZR n) else c_ 0.
Proof.
  intros Hn Hk. transitivity (csum n (fun a => root n (a * (u - k)))).
  { apply csum_ext. intros a _. rewrite <- root_add. f_equal. ring. }
  rewrite root_sum by exact Hn.
  assert (E : ((u - k) mod n =? 0) = (k =? u mod n)); [|rewrite E; reflexivity].
  rewrite <- (mod_diff_zero n k (u mod n) Hn Hk (Z.mod_pos_bound u n Hn)). rewrite Zminus_mod_idemp_r.
  apply Bool.eq_iff_eq_true. rewrite !Z.eqb_eq. rewrite !Z.mod_divide by lia. split; intros (c & C); exists (- c); lia.
Qed.
Lemma spectral_exp h w z u v V a b : 0 < h -> 0 < w ->
  spectral h w (fun a b => cmul z (cmul (root h (u * a)) (root w (v * b)))) V a b =
  cmul (c_ (V (u mod h) (v mod w))) (cmul z (cmul (root h (u * a)) (root w (v * b)))).
Proof.
  intros Hh Hw. unfold spectral. cbn [px ifft2 fft2 nrow ncol]. assert (Mu := Z.mod_pos_bound u h Hh). assert (Mv := Z.mod_pos_bound v w Hw).
  assert (F : forall k l, 0 <= k < h -> 0 <= l < w ->
    csum h (fun a0 => csum w (fun b0 => cmul (cmul z (cmul (root h (u * a0)) (root w (v * b0)))) (cmul (root h (- (k * a0))) (root w (- (l * b0)))))) =
    if (k =? u mod h) && (l =? v mod w) then cmul z (c_ (IZR h * IZR w)) else c_ 0).
  { intros k l Hk Hl. transitivity (cmul z (cmul (csum h (fun a0 => cmul (root h (u * a0)) (root h (- (k * a0))))) (csum w (fun b0 => cmul (root w (v * b0)) (root w (- (l * b0))))))).
    - rewrite <- csum_scal_r, <- csum_scal. apply csum_ext. intros a0 _. rewrite <- csum_scal, <- csum_scal. apply csum_ext. intros b0 _. ring.
    - rewrite !root_sum_at by assumption. destruct (k =? u mod h), (l =? v mod w); cbn [andb]; try ring. f_equal. apply cx_eq; unfold cmul, c_; cbn [fst snd]; ring. }
  rewrite (csum_single h _ (u mod h) Mu).
  - rewrite (csum_single w _ (v mod w) Mv).
    + rewrite F by assumption. rewrite !Z.eqb_refl. cbn [andb].
      rewrite (root_mod h (u mod h * a) (u * a)) by (try lia; rewrite Z.mul_mod_idemp_l by lia; reflexivity).
      rewrite (root_mod w (v mod w * b) (v * b)) by (try lia; rewrite Z.mul_mod_idemp_l by lia; reflexivity).
      rewrite cdivr_form. assert (IZR h <> 0)%R by (apply not_0_IZR; lia). assert (IZR w <> 0)%R by (apply not_0_IZR; lia).
      assert (I : cmul (c_ (/ (IZR h * IZR w))) (c_ (IZR h * IZR w)) = c_ 1) by (apply cx_eq; unfold cmul, c_; cbn [fst snd]; field; split; assumption).
      transitivity (cmul (cmul (c_ (/ (IZR h * IZR w))) (c_ (IZR h * IZR w))) (cmul (c_ (V (u mod h) (v mod w))) (cmul z (cmul (root h (u * a)) (root w (v * b)))))); [ring|]. rewrite I. ring.
    + intros l Hl N. rewrite F by assumption. rewrite Z.eqb_refl. replace (l =? v mod w) with false by lia. cbn [andb]. ring.
  - intros k Hk N. apply csum_zero. intros l Hl. rewrite F by assumption. replace (k =? u mod h) with false by lia. cbn [andb]. ring.
Qed.
Lemma spectral_lin h w p q V x y a b :
  spectral h w (fun a b => cadd (cmul x (p a b)) (cmul y (q a b))) V a b = cadd (cmul x (spectral h w p V a b)) (cmul y (spectral h w q V a b)).
Proof.
  rewrite !spectral_conv. rewrite <- !csum_scal, <- csum_add. apply csum_ext. intros a' _. rewrite <- !csum_scal, <- csum_add. apply csum_ext. intros b' _. ring.
Qed.
Lemma spectral_ext h w p q V V' a b : (forall i j, in_rng h i -> in_rng w j -> p i j = q i j) -> (forall u v, in_rng h u -> in_rng w v -> V u v = V' u v) ->
  spectral h w p V a b = spectral h w q V' a b.
Proof.
  intros Hp HV. unfold spectral. cbn [px ifft2 fft2 nrow ncol]. f_equal. apply csum_ext. intros u Hu. apply csum_ext. intros v Hv. rewrite HV by assumption. f_equal. f_equal.
  apply csum_ext. intros a' Ha. apply csum_ext. intros b' Hb. rewrite Hp by assumption. reflexivity.
Qed.
(** a cosine: its amplitude is multiplied by the mean of the weights of its two frequencies *)
Definition wave (h w u v : Z) (phase : R) (a b : Z) : R := cos (2 * PI * (IZR (u * a) / IZR h + IZR (v * b) / IZR w) + phase).
Lemma wave_exp h w u v f a b : wave h w u v f a b = fst (cmul (cos f, sin f) (cmul (root h (u * a)) (root w (v * b)))).
Proof.
  unfold wave. replace (2 * PI * (IZR (u * a) / IZR h + IZR (v * b) / IZR w) + f)%R with ((2 * PI * IZR (u * a) / IZR h + 2 * PI * IZR (v * b) / IZR w) + f)%R by (unfold Rdiv; ring).
  rewrite cos_plus, cos_plus, sin_plus. unfold cmul, root; cbn [fst snd]. ring.
Qed.
Lemma spectral_wave h w u v f V a b : 0 < h -> 0 < w ->
  fst (spectral h w (fun a b => c_ (wave h w u v f a b)) V a b) = ((V (u mod h) (v mod w) + V ((- u) mod h) ((- v) mod w)) / 2 * wave h w u v f a b)%R.
Proof.
  intros Hh Hw. set (z := (cos f, sin f) : cx).
  rewrite (spectral_ext h w _ (fun a b => cadd (cmul (c_ (1/2)) (cmul z (cmul (root h (u * a)) (root w (v * b))))) (cmul (c_ (1/2)) (cmul (cconj z) (cmul (root h (- u * a)) (root w (- v * b)))))) V V a b).
  - rewrite (spectral_lin h w (fun a b => cmul z (cmul (root h (u * a)) (root w (v * b)))) (fun a b => cmul (cconj z) (cmul (root h (- u * a)) (root w (- v * b)))) V (c_ (1/2)) (c_ (1/2))).
    rewrite !spectral_exp by assumption. rewrite wave_exp. fold z. replace (- u * a) with (- (u * a)) by ring. replace (- v * b) with (- (v * b)) by ring. rewrite !root_opp.
    unfold cadd, cmul, cconj, c_; cbn [fst snd]. field.
  - intros i j _ _. rewrite wave_exp. fold z. replace (- u * i) with (- (u * i)) by ring. replace (- v * j) with (- (v * j)) by ring. rewrite !root_opp.
    apply cx_eq; unfold cadd, cmul, cconj, c_; cbn [fst snd]; field.
  - reflexivity.
Qed.
