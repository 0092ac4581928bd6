(** Proofs for C117: the FFT-based unwrapping as a sum over pairs of pixels. *)
From Coq Require Import Reals ZArith Lia Lra Bool List.
From Verif Require Import Np P_Np M_phase_R P_phase_R M_simR P_simR M_calib M_fourier P_fourier P_kernel P_fresnel M_surface S_surface P_surface P_surface4 P_surface5 M_unwrap.
Open Scope Z_scope.

Definition VF (h w u v : Z) : R := ((freq w v / IZR w) ^ 2 + (freq h u / IZR h) ^ 2)%R.
Definition VB (h w u v : Z) : R := if (u =? 0) && (v =? 0) then 1%R else (/ VF h w u v)%R.
Definition rho_at (h w : Z) (D : Z -> Z -> R) (a b : Z) : R := snd (cmul (spectral (2 * h) (2 * w) (fun a b => cis (D a b)) (VF h w) a b) (cis (- D a b))).
Definition unw_at (h w : Z) (D : Z -> Z -> R) (a b : Z) : R := fst (spectral (2 * h) (2 * w) (fun a b => c_ (rho_at h w D a b)) (VB h w) a b).

Lemma window_for h w u v : 0 < h -> 0 < w -> px (make_window (2 * h) (2 * w) true) (ifftshift_idx (2 * h) u) (ifftshift_idx (2 * w) v) = VF h w u v.
Proof.
  intros Hh Hw. unfold make_window. cbn [px negb andb]. unfold ifftshift_idx. rewrite !half_double. unfold VF, freq. rewrite !minus_IZR, !Rmult_1_l. reflexivity.
Qed.
Lemma window_back h w u v : 0 < h -> 0 < w -> in_rng (2 * h) u -> in_rng (2 * w) v ->
  px (make_window (2 * h) (2 * w) false) (ifftshift_idx (2 * h) u) (ifftshift_idx (2 * w) v) = if (u =? 0) && (v =? 0) then 1%R else VF h w u v.
Proof.
  intros Hh Hw Hu Hv. unfold make_window. cbn [px negb andb]. unfold ifftshift_idx. rewrite !half_double. rewrite !zero_freq by assumption. unfold VF, freq. rewrite !minus_IZR, !Rmult_1_l. reflexivity.
Qed.
Lemma forward_spec h w (m : img cx) a b : 0 < h -> 0 < w -> nrow m = 2 * h -> ncol m = 2 * w ->
  px (forward_operator m (make_window (2 * h) (2 * w) true)) a b = spectral (2 * h) (2 * w) (px m) (VF h w) a b.
Proof.
  intros Hh Hw R C. unfold forward_operator, spectral. cbn [px ifft2 nrow ncol cishift cshift fft2]. rewrite R, C. f_equal. apply csum_ext. intros u Hu. apply csum_ext. intros v Hv.
  rewrite window_for by assumption. rewrite !shift_back by assumption. reflexivity.
Qed.
Lemma backward_spec h w (m : img R) a b : 0 < h -> 0 < w -> nrow m = 2 * h -> ncol m = 2 * w ->
  px (backward_operator m (make_window (2 * h) (2 * w) false)) a b = spectral (2 * h) (2 * w) (fun a b => c_ (px m a b)) (VB h w) a b.
Proof.
  intros Hh Hw R C. unfold backward_operator, spectral. cbn [px ifft2 nrow ncol cishift cshift fft2 imap]. rewrite R, C. f_equal. apply csum_ext. intros u Hu. apply csum_ext. intros v Hv.
  rewrite window_back by assumption. rewrite !shift_back by assumption. unfold VB. rewrite cdivr_r. destruct ((u =? 0) && (v =? 0)); [rewrite Rinv_1|]; reflexivity.
Qed.
Lemma unwrap_default (m : img R) : 0 < nrow m -> 0 < ncol m ->
  exists f, unwrap_fft m None None = Ok f /\ unwrap_fft m (Some (make_window (2 * nrow m) (2 * ncol m) true)) (Some (make_window (2 * nrow m) (2 * ncol m) false)) = Ok f /\
    nrow f = nrow m /\ ncol f = ncol m /\
    forall i j, in_rng (nrow m) i -> in_rng (ncol m) j -> px f i j = unw_at (nrow m) (ncol m) (px (double_image_R m)) (i + nrow m) j.
Proof.
  intros Hh Hw. unfold unwrap_fft, check_window. cbn [bindr]. unfold make_window at 3 4 5 6. cbn [nrow ncol double_image_R]. rewrite !Z.eqb_refl. cbn [andb negb bindr].
  eexists. split; [reflexivity|]. split; [reflexivity|].
  set (h := nrow m) in *. set (w := ncol m) in *.
  assert (I1 : py_adj (2 * h) h = h) by (apply py_adj_id; lia). assert (I2 : py_adj (2 * h) (2 * h) = 2 * h) by (apply py_adj_id; lia).
  assert (I3 : py_adj (2 * w) 0 = 0) by (apply py_adj_id; lia). assert (I4 : py_adj (2 * w) w = w) by (apply py_adj_id; lia).
  split; [cbn [islice nrow imap backward_operator ifft2 cishift]; unfold slen; rewrite I1, I2; lia|].
  split; [cbn [islice ncol imap backward_operator ifft2 cishift]; unfold slen; rewrite I3, I4; lia|].
  intros i j Hi Hj. cbn [islice px]. rewrite (Z.add_comm i h).
  change (nrow (imap fst (backward_operator _ _))) with (2 * h). change (ncol (imap fst (backward_operator _ _))) with (2 * w). rewrite I1, I3. cbn [imap px]. rewrite Z.add_0_l.
  rewrite (backward_spec h w) by (try assumption; reflexivity). unfold unw_at. f_equal. apply spectral_ext; [|reflexivity]. intros a b Ha Hb. cbn [px]. unfold rho_at. f_equal. f_equal. f_equal.
  rewrite (forward_spec h w) by (try assumption; reflexivity). reflexivity.
Qed.

(** ** even multipliers have real, even kernels *)
Lemma rsum_neg n f : 0 < n -> rsum n (fun k => f ((- k) mod n)) = rsum n f.
Proof.
  intros Hn. rewrite <- (rsum_rev n f) by lia. rewrite <- (rsum_cyclic n (n - 1) (fun k => f (n - 1 - k))) by assumption. apply rsum_ext. intros k Hk. f_equal.
  assert (M := Z.mod_pos_bound (k + (n - 1)) n Hn). rewrite <- (Z.mod_small (n - 1 - (k + (n - 1)) mod n) n) by lia.
  rewrite Zminus_mod_idemp_r. f_equal. lia.
Qed.
Definition even2 (h w : Z) (V : Z -> Z -> R) : Prop := forall u v, in_rng h u -> in_rng w v -> V ((- u) mod h) v = V u v /\ V u ((- v) mod w) = V u v.
Lemma in_neg n k : 0 < n -> in_rng n ((- k) mod n). Proof. intros. apply Z.mod_pos_bound. assumption. Qed.
Lemma kernel_even_row h w V d e : 0 < h -> 0 < w -> even2 h w V -> kernel h w V (- d) e = kernel h w V d e.
Proof.
  intros Hh Hw E. unfold kernel. f_equal. rewrite <- (rsum_neg h) by assumption. apply rsum_ext. intros u Hu. apply rsum_ext. intros v Hv. rewrite (proj1 (E u v Hu Hv)). f_equal. f_equal. f_equal.
  apply root_mod; [lia|]. rewrite Z.mul_mod_idemp_l by lia. f_equal. ring.
Qed.
Lemma kernel_even_col h w V d e : 0 < h -> 0 < w -> even2 h w V -> kernel h w V d (- e) = kernel h w V d e.
Proof.
  intros Hh Hw E. unfold kernel. f_equal. apply rsum_ext. intros u Hu. rewrite <- (rsum_neg w) by assumption. apply rsum_ext. intros v Hv. rewrite (proj2 (E u v Hu Hv)). f_equal. f_equal. f_equal.
  apply root_mod; [lia|]. rewrite Z.mul_mod_idemp_l by lia. f_equal. ring.
Qed.
Lemma kernel_mod h w V d e : 0 < h -> 0 < w -> kernel h w V (d mod h) (e mod w) = kernel h w V d e.
Proof.
  intros Hh Hw. unfold kernel. f_equal. apply rsum_ext. intros u _. apply rsum_ext. intros v _. f_equal. f_equal. f_equal; apply root_mod; try lia; rewrite Z.mul_mod_idemp_r by lia; reflexivity.
Qed.
Lemma ckernel_even h w V d e : 0 < h -> 0 < w -> even2 h w V -> snd (ckernel h w V d e) = 0%R.
Proof.
  intros Hh Hw E. unfold ckernel. rewrite snd_real. unfold csum. cbn [snd].
  set (s := rsum h _). assert (S : s = (- s)%R); [|assert (s = 0)%R by lra; rewrite H; ring].
  unfold s at 1. rewrite <- (rsum_neg h) by assumption. rewrite (rsum_ext h _ (fun u => - rsum w (fun v => snd (cmul (c_ (V u v)) (cmul (root h (u * d)) (root w (v * e))))))%R).
  - transitivity (-1 * s)%R; [|ring]. unfold s. rewrite <- rsum_scal. apply rsum_ext. intros u _. ring.
  - intros u Hu. rewrite <- (rsum_neg w) by assumption. transitivity (-1 * rsum w (fun v => snd (cmul (c_ (V u v)) (cmul (root h (u * d)) (root w (v * e))))))%R; [|ring].
    rewrite <- rsum_scal. apply rsum_ext. intros v Hv. rewrite (proj2 (E ((- u) mod h) v (in_neg h u Hh) Hv)), (proj1 (E u v Hu Hv)).
    rewrite (root_mod h ((- u) mod h * d) (- (u * d))) by (try lia; rewrite Z.mul_mod_idemp_l by lia; f_equal; ring).
    rewrite (root_mod w ((- v) mod w * e) (- (v * e))) by (try lia; rewrite Z.mul_mod_idemp_l by lia; f_equal; ring).
    rewrite !root_opp. rewrite !snd_real. unfold cmul, cconj; cbn [fst snd]. ring.
Qed.
Lemma spectral_even h w (p : Z -> Z -> cx) V a b : 0 < h -> 0 < w -> even2 h w V ->
  spectral h w p V a b = (rsum h (fun a' => rsum w (fun b' => fst (p a' b') * kernel h w V (a - a') (b - b')))%R, rsum h (fun a' => rsum w (fun b' => snd (p a' b') * kernel h w V (a - a') (b - b')))%R).
Proof.
  intros Hh Hw E. rewrite spectral_conv. apply cx_eq; unfold csum; cbn [fst snd]; apply rsum_ext; intros a' _; apply rsum_ext; intros b' _; unfold cmul; cbn [fst snd]; rewrite ckernel_re, ckernel_even by assumption; ring.
Qed.
Lemma freq_neg n k : 0 < n -> in_rng (2 * n) k -> (freq n ((- k) mod (2 * n)) ^ 2 = freq n k ^ 2)%R.
Proof.
  unfold in_rng. intros Hn Hk. destruct (Z.eq_dec k n) as [->|N].
  - f_equal. f_equal. replace (- n) with (n + (-1) * (2 * n)) by ring. rewrite Z.mod_add by lia. apply Z.mod_small. lia.
  - destruct (Z.ltb_spec k n).
    + assert (E : freq n k = IZR k) by (rewrite <- (Z.mod_small k (2 * n)) at 1 by lia; apply freq_at; lia). rewrite E, freq_at by lia. rewrite opp_IZR. ring.
    + replace (- k) with (2 * n - k + (-1) * (2 * n)) by ring. rewrite Z.mod_add by lia. rewrite freq_at by lia.
      assert (E : freq n k = IZR (k - 2 * n)). { rewrite <- (freq_at n (k - 2 * n)) by lia. f_equal. replace (k - 2 * n) with (k + (-1) * (2 * n)) by ring. rewrite Z.mod_add by lia. symmetry. apply Z.mod_small. lia. }
      rewrite E, !minus_IZR. ring.
Qed.
Lemma VF_even h w : 0 < h -> 0 < w -> even2 (2 * h) (2 * w) (VF h w).
Proof.
  intros Hh Hw u v Hu Hv. unfold VF. assert (A := freq_neg h u Hh Hu). assert (B := freq_neg w v Hw Hv). unfold Rdiv. rewrite !Rpow_mult_distr, A, B. split; reflexivity.
Qed.
Lemma neg_zero n k : 0 < n -> in_rng n k -> ((- k) mod n =? 0) = (k =? 0).
Proof.
  unfold in_rng. intros Hn Hk. destruct (Z.eq_dec k 0) as [->|N]; [reflexivity|]. replace (- k) with (n - k + (-1) * n) by ring. rewrite Z.mod_add, Z.mod_small by lia. lia.
Qed.
Lemma VB_even h w : 0 < h -> 0 < w -> even2 (2 * h) (2 * w) (VB h w).
Proof.
  intros Hh Hw u v Hu Hv. unfold VB. rewrite !neg_zero by (try assumption; lia). destruct (VF_even h w Hh Hw u v Hu Hv) as [-> ->]. split; reflexivity.
Qed.
Definition KF (h w : Z) := kernel (2 * h) (2 * w) (VF h w).
Definition KB (h w : Z) := kernel (2 * h) (2 * w) (VB h w).
Lemma rho_pairs h w D a b : 0 < h -> 0 < w ->
  rho_at h w D a b = rsum (2 * h) (fun a' => rsum (2 * w) (fun b' => KF h w (a - a') (b - b') * sin (D a' b' - D a b)))%R.
Proof.
  intros Hh Hw. unfold rho_at. rewrite spectral_even by (try lia; apply VF_even; assumption). fold (KF h w). unfold cmul, cis; cbn [fst snd]. rewrite cos_neg, sin_neg.
  rewrite <- !rsum_scal_r. rewrite <- rsum_add. apply rsum_ext. intros a' _. rewrite <- !rsum_scal_r. rewrite <- rsum_add. apply rsum_ext. intros b' _. rewrite sin_minus. ring.
Qed.
Lemma unw_sum h w D a b : 0 < h -> 0 < w ->
  unw_at h w D a b = rsum (2 * h) (fun a' => rsum (2 * w) (fun b' => rho_at h w D a' b' * KB h w (a - a') (b - b')))%R.
Proof. intros Hh Hw. unfold unw_at. apply spectral_real. Qed.
