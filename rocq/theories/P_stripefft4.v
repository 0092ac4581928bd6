(** Proofs about the FFT and wavelet-FFT stripe filters, continued: scaling, half turns, wavelets. *)
From Coq Require Import Reals Lra ZArith Lia Bool.
From Verif Require Import Np P_Np M_phase_R P_phase_R M_simR P_simR M_fourier P_fourier P_kernel M_fresnel S_fresnel P_fresnel P_fresnel2 M_wedge P_wedge P_wedge2 M_stripefft S_stripefft P_stripefft P_stripefft2 P_stripefft3.
From Coq Require Import List. Import ListNotations.
Open Scope Z_scope.

Lemma pad_size s s' : nrow s' = nrow s -> ncol s' = ncol s -> stripe_pad s' = stripe_pad s.
Proof. intros E1 E2. unfold stripe_pad. rewrite E1, E2. reflexivity. Qed.
Lemma pad_times c s s' : 0 < nrow s -> 0 < ncol s -> times c s s' -> times c (pad_sinogram s) (pad_sinogram s').
Proof.
  intros Hr Hc (E1 & E2 & T). assert (F := pad_framed s Hr Hc). assert (F' := pad_framed s' ltac:(lia) ltac:(lia)). rewrite (pad_size s s' E1 E2) in F'. destruct F as (A1 & A2 & A3). destruct F' as (B1 & B2 & B3).
  split; [lia|]. split; [lia|]. intros i j Hi Hj. rewrite A3 by assumption. rewrite B3 by (rewrite ?B1, ?B2, ?E1, ?E2, <- ?A1, <- ?A2; assumption). cbv zeta. rewrite E1, E2. unfold in_rng in *.
  destruct ((_ <=? i) && _) eqn:E; [apply T; unfold in_rng; lia|].
  unfold column_mean. rewrite E1. rewrite (rsum_ext _ _ (fun k => c * px s k (Z.min (Z.max (j - stripe_pad s) 0) (ncol s - 1)))%R) by (intros k Hk; apply T; unfold in_rng; lia). rewrite rsum_scal. unfold Rdiv. ring.
Qed.
Lemma stripe_fft_scaled c s s' u n v i j : 0 < nrow s -> 0 < ncol s -> times c s s' -> in_rng (nrow s) i -> in_rng (ncol s) j ->
  px (stripe_fft s' u n v) i j = (Rabs c * px (stripe_fft s u n v) i j)%R.
Proof.
  intros Hr Hc T Hi Hj. assert (TP := pad_times c s s' Hr Hc T). destruct T as (E1 & E2 & T). destruct TP as (F1 & F2 & TP).
  rewrite !stripe_fft_at by (rewrite ?E1, ?E2; assumption). cbv zeta. rewrite F1, F2, (pad_size s s' E1 E2).
  rewrite (spectral_ext _ _ _ (fun a b => cadd (cmul (c_ c) (c_ (px (pad_sinogram s) a b))) (cmul (c_ 0) (c_ 0))) _ (weights (butterworth_window (ncol (pad_sinogram s)) (nrow (pad_sinogram s)) u v n) (nrow (pad_sinogram s)) (ncol (pad_sinogram s)))); [|intros a b Ha Hb; rewrite TP by assumption; rewrite c_mul; ring|reflexivity].
  rewrite spectral_lin. set (S := spectral _ _ (fun a b => c_ (px (pad_sinogram s) a b)) _ _ _). set (S0 := spectral _ _ _ _ _ _). replace (cadd (cmul (c_ c) S) (cmul (c_ 0) S0)) with (cmul (c_ c) S) by ring. rewrite cabs_mul, cabs_c. reflexivity.
Qed.

Lemma cconj_mul a b : cconj (cmul a b) = cmul (cconj a) (cconj b). Proof. apply cx_eq; unfold cconj, cmul; cbn [fst snd]; ring. Qed.
Lemma ckernel_neg h w V d e : ckernel h w V (- d) (- e) = cconj (ckernel h w V d e).
Proof.
  unfold ckernel. rewrite cconj_mul. f_equal; [apply cx_eq; unfold cconj, c_; cbn [fst snd]; ring|]. rewrite <- csum_conj. apply csum_ext. intros u _. rewrite <- csum_conj. apply csum_ext. intros v _.
  rewrite !Z.mul_opp_r, !root_opp, !cconj_mul. f_equal. apply cx_eq; unfold cconj, c_; cbn [fst snd]; ring.
Qed.
Lemma spectral_turned h w (P : Z -> Z -> R) V a b : 0 <= h -> 0 <= w ->
  spectral h w (fun a b => c_ (P (h - 1 - a) (w - 1 - b))) V a b = cconj (spectral h w (fun a b => c_ (P a b)) V (h - 1 - a) (w - 1 - b)).
Proof.
  intros Hh Hw. rewrite !spectral_conv. rewrite <- csum_conj.
  assert (RV : forall n f, 0 <= n -> csum n (fun k => f (n - 1 - k)) = csum n f) by (intros n f Hn; apply cx_eq; unfold csum; cbn [fst snd]; [exact (rsum_rev n (fun k => fst (f k)) Hn)|exact (rsum_rev n (fun k => snd (f k)) Hn)]).
  rewrite <- (RV h) by exact Hh. apply csum_ext. intros a' _. rewrite <- csum_conj. rewrite <- (RV w) by exact Hw. apply csum_ext. intros b' _.
  rewrite cconj_mul. rewrite <- ckernel_neg. f_equal; [|f_equal; lia].
  replace (h - 1 - (h - 1 - a')) with a' by ring. replace (w - 1 - (w - 1 - b')) with b' by ring. apply cx_eq; unfold cconj, c_; cbn [fst snd]; ring.
Qed.
Lemma pad_half_turn s s' : 0 < nrow s -> 0 < ncol s -> half_turn s s' -> half_turn (pad_sinogram s) (pad_sinogram s').
Proof.
  intros Hr Hc (E1 & E2 & T). assert (Hp := stripe_pad_bounds s ltac:(lia) ltac:(lia)). assert (F := pad_framed s Hr Hc). assert (F' := pad_framed s' ltac:(lia) ltac:(lia)). rewrite (pad_size s s' E1 E2) in F'. destruct F as (A1 & A2 & A3). destruct F' as (B1 & B2 & B3). set (pad := stripe_pad s) in *.
  split; [lia|]. split; [lia|]. intros i j Hi Hj. rewrite B3 by (rewrite ?B1, ?B2, ?E1, ?E2, <- ?A1, <- ?A2; assumption). unfold in_rng in *. rewrite A3 by (unfold in_rng; lia). cbv zeta. rewrite E1, E2, A1, A2.
  replace ((pad <=? nrow s + 2 * pad - 1 - i) && (nrow s + 2 * pad - 1 - i <? pad + nrow s)) with ((pad <=? i) && (i <? pad + nrow s)) by lia.
  replace (Z.min (Z.max (ncol s + 2 * pad - 1 - j - pad) 0) (ncol s - 1)) with (ncol s - 1 - Z.min (Z.max (j - pad) 0) (ncol s - 1)) by lia.
  set (j' := Z.min (Z.max (j - pad) 0) (ncol s - 1)). assert (0 <= j' < ncol s) by (unfold j'; lia). destruct ((pad <=? i) && _) eqn:E.
  - rewrite T by (unfold in_rng; lia). f_equal. lia.
  - unfold column_mean. rewrite E1. f_equal. rewrite <- (rsum_rev (nrow s) (fun k => px s k (ncol s - 1 - j'))) by lia. apply rsum_ext. intros k Hk. apply T; unfold in_rng; lia.
Qed.
Lemma stripe_fft_turned s s' u n v i j : 0 < nrow s -> 0 < ncol s -> half_turn s s' -> in_rng (nrow s) i -> in_rng (ncol s) j ->
  px (stripe_fft s' u n v) i j = px (stripe_fft s u n v) (nrow s - 1 - i) (ncol s - 1 - j).
Proof.
  intros Hr Hc T Hi Hj. assert (TP := pad_half_turn s s' Hr Hc T). destruct T as (E1 & E2 & T). destruct TP as (F1 & F2 & TP). destruct (pad_framed s Hr Hc) as (A1 & A2 & _). assert (Hp := stripe_pad_bounds s ltac:(lia) ltac:(lia)).
  rewrite !stripe_fft_at by (rewrite ?E1, ?E2; first [assumption | unfold in_rng in *; lia]). cbv zeta. rewrite F1, F2, (pad_size s s' E1 E2). set (p := pad_sinogram s) in *. set (pad := stripe_pad s) in *.
  rewrite (spectral_ext _ _ _ (fun a b => c_ (px p (nrow p - 1 - a) (ncol p - 1 - b))) _ (weights (butterworth_window (ncol p) (nrow p) u v n) (nrow p) (ncol p))); [|intros a b Ha Hb; rewrite TP by assumption; reflexivity|reflexivity].
  rewrite (spectral_turned (nrow p) (ncol p) (px p)) by lia. rewrite cabs_conj. do 2 f_equal; lia.
Qed.

(** ** wavelets *)
Lemma damp_at m size butter i j : 0 < nrow m -> 0 < ncol m -> in_rng (nrow m) i -> in_rng (ncol m) j ->
  px (damp m size butter) i j = weighted (nrow m) (fun k => gain size butter (k + off (nrow m))) (fun a => px m a j) i.
Proof.
  intros Hr Hc Hi Hj. unfold damp. cbn [imap px]. rewrite filter_at by assumption.
  rewrite (spectral_ext _ _ _ (fun a b => c_ (px m a b)) _ (fun u _ => gain size butter (freq (nrow m) u + off (nrow m)))); [|reflexivity|].
  - rewrite spectral_vertical by assumption. unfold csum. cbn [fst]. rewrite weighted_k1 by exact Hr. apply rsum_ext. intros a _. rewrite fst_real, ck1_re. reflexivity.
  - intros u v Hu Hv. unfold weights, itrans, damping_window, gain. cbn [px]. replace (ifftshift_idx (nrow m) u - window_center (nrow m)) with (freq (nrow m) u + off (nrow m)) by (unfold freq, off; lia). reflexivity.
Qed.
Lemma damp_size m size butter : nrow (damp m size butter) = nrow m /\ ncol (damp m size butter) = ncol m.
Proof. split; reflexivity. Qed.
Lemma log2_level n l : 0 < n -> 0 <= l -> (l <= Z.log2 n - 4 <-> 2 ^ (l + 4) <= n).
Proof. intros Hn Hl. rewrite (Z.log2_le_pow2 n (l + 4)) by lia. lia. Qed.
Lemma log2_small n : 0 < n -> (Z.log2 n - 4 < 0 <-> n < 16).
Proof. intros Hn. assert (X := Z.log2_lt_pow2 n 4 Hn). change (2 ^ 4) with 16 in X. lia. Qed.
