(** Proofs about the FFT and wavelet-FFT stripe filters, continued: special sinograms and the damping of a detail image. *)
From Coq Require Import Reals Lra ZArith Lia Bool.
From Verif Require Import Np P_Np M_phase_R P_phase_R M_simR P_simR M_fourier P_fourier P_kernel M_fresnel S_fresnel P_fresnel P_fresnel2 M_wedge P_wedge P_wedge2 M_stripefft S_stripefft P_stripefft P_stripefft2.
From Coq Require Import List. Import ListNotations.
Open Scope Z_scope.

Lemma odd_pad n p : odd n -> odd (n + 2 * p). Proof. intros (k & ->). exists (k + p). ring. Qed.
Lemma even_pad n p : even n -> even (n + 2 * p). Proof. intros (k & ->). exists (k + p). ring. Qed.
Lemma off_odd n : odd n -> off n = 0. Proof. intros H. unfold off. rewrite window_center_odd by exact H. lia. Qed.
Lemma off_even n : even n -> off n = 1. Proof. intros H. unfold off. rewrite window_center_even by exact H. lia. Qed.
Lemma odd_half n v : 0 < n -> odd n -> 2 * v < n -> 0 <= window_center n - v.
Proof. intros Hn Ho Hv. rewrite window_center_odd by exact Ho. assert (X := half_bounds n Hn). destruct Ho as (k & E). lia. Qed.
Lemma center_nonneg n : 0 < n -> 0 <= window_center n.
Proof. intros Hn. unfold window_center. assert (1 <= (n + 1) / 2) by (apply Z.div_le_lower_bound; lia). lia. Qed.

Lemma stripe_fft_formula s u n v i j : 0 < nrow s -> 0 < ncol s -> odd (nrow s) -> odd (ncol s) -> 0 <= v -> 2 * v < nrow s -> in_rng (nrow s) i -> in_rng (ncol s) j ->
  let p := pad_sinogram s in let pad := stripe_pad s in
  px (stripe_fft s u n v) i j = Rabs (px s i j - weighted (nrow p) (fun k => if (Z.abs k <=? v)%Z then 1 else 0)%R (fun a => px p a (j + pad)%Z - weighted (ncol p) (low_pass u n) (px p a) (j + pad)%Z) (i + pad)%Z)%R.
Proof.
  intros Hr Hc Or Oc Hv V2 Hi Hj p pad. rewrite stripe_fft_at by assumption. fold p pad.
  assert (Hp := stripe_pad_bounds s ltac:(lia) ltac:(lia)). assert (FR := pad_framed s Hr Hc). fold p pad in Hp, FR. destruct (FR) as (E1 & E2 & _).
  assert (P1 : 0 < nrow p) by lia. assert (P2 : 0 < ncol p) by lia. assert (O1 : odd (nrow p)) by (rewrite E1; apply odd_pad; exact Or). assert (O2 : odd (ncol p)) by (rewrite E2; apply odd_pad; exact Oc).
  rewrite (spectral_band (nrow p) (ncol p) (px p) (fun k => Z.abs k <=? v) (low_pass u n)); try assumption.
  - rewrite cabs_c. rewrite (framed_inside s pad p) by assumption. reflexivity.
  - unfold in_rng in *. lia.
  - unfold in_rng in *. lia.
  - intros k. rewrite Z.abs_opp. reflexivity.
  - intros k. apply low_pass_even.
  - intros a b Ha Hb. rewrite window_weights; try assumption; [|apply odd_half; [assumption|assumption|lia]]. rewrite !off_odd by assumption. rewrite !Z.add_0_r.
    replace (Z.abs (freq (nrow p) a) <=? v) with ((- v <=? freq (nrow p) a) && (freq (nrow p) a <=? v)) by (apply Bool.eq_iff_eq_true; rewrite andb_true_iff, !Z.leb_le; lia). reflexivity.
Qed.

(** sums of the one-dimensional kernel *)
Lemma csum_ck1 n A a : 0 < n -> csum n (fun i => ck1 n A (i - a)) = c_ (A 0).
Proof.
  intros Hn. assert (IZR n <> 0)%R by (apply not_0_IZR; lia). unfold ck1. rewrite csum_scal. rewrite csum_swap.
  rewrite (csum_ext n _ (fun u => cmul (cmul (c_ (A u)) (root n (- (u * a)))) (if u mod n =? 0 then c_ (IZR n) else c_ 0))).
  - rewrite (csum_single n _ 0) by (try lia; intros u Hu N; rewrite Z.mod_small by lia; replace (u =? 0) with false by lia; ring).
    rewrite Z.mod_0_l by lia. cbn [Z.eqb]. change (- (0 * a)) with 0. rewrite root_0. apply cx_eq; unfold cmul, c_; cbn [fst snd]; field; assumption.
  - intros u _. rewrite <- root_sum by exact Hn. rewrite <- csum_scal. apply csum_ext. intros i _. replace (u * (i - a)) with (- (u * a) + i * u) by ring. rewrite root_add. ring.
Qed.
Lemma rsum_k1 n A a : 0 < n -> rsum n (fun i => k1 n A (i - a)) = A 0.
Proof.
  intros Hn. assert (X := csum_ck1 n A a Hn). apply (f_equal fst) in X. unfold csum, c_ in X. cbn [fst] in X. rewrite <- X. apply rsum_ext. intros i _. rewrite ck1_re. reflexivity.
Qed.
Lemma k1_even n A d : k1 n A (- d) = k1 n A d.
Proof.
  unfold k1. f_equal. apply rsum_ext. intros u _. f_equal. replace (2 * PI * IZR (u * - d) / IZR n)%R with (- (2 * PI * IZR (u * d) / IZR n))%R by (rewrite !mult_IZR, opp_IZR; unfold Rdiv; ring). apply cos_neg.
Qed.
Lemma weighted_const n g c b : 0 < n -> weighted n g (fun _ => c) b = (g 0%Z * c)%R.
Proof.
  intros Hn. rewrite weighted_k1 by exact Hn. rewrite rsum_scal. rewrite (rsum_ext n _ (fun b' => k1 n (fun u => g (freq n u)) (b' - b))).
  - rewrite rsum_k1 by exact Hn. rewrite freq_0 by exact Hn. ring.
  - intros b' _. rewrite <- k1_even. f_equal. ring.
Qed.
Lemma weighted_sum n g P : 0 < n -> rsum n (fun b => weighted n g P b) = (g 0%Z * rsum n P)%R.
Proof.
  intros Hn. rewrite (rsum_ext n _ (fun b => rsum n (fun b' => P b' * k1 n (fun u => g (freq n u)) (b - b'))%R)) by (intros; apply weighted_k1; exact Hn).
  rewrite rsum_swap. rewrite <- rsum_scal. apply rsum_ext. intros b' _. rewrite rsum_scal, rsum_k1, freq_0 by exact Hn. ring.
Qed.

Lemma flat_kept s u n v i j : 0 < nrow s -> 0 < ncol s -> odd (ncol s) -> (0 < n)%nat -> flat_rows s -> in_rng (nrow s) i -> in_rng (ncol s) j ->
  px (stripe_fft s u n v) i j = Rabs (px s i j).
Proof.
  intros Hr Hc Oc Hn HF Hi Hj. rewrite stripe_fft_at by assumption.
  assert (Hp := stripe_pad_bounds s ltac:(lia) ltac:(lia)). assert (FR := pad_framed s Hr Hc). destruct (FR) as (E1 & E2 & _). cbv zeta. set (p := pad_sinogram s) in *. set (pad := stripe_pad s) in *.
  assert (P1 : 0 < nrow p) by lia. assert (P2 : 0 < ncol p) by lia. assert (O2 : odd (ncol p)) by (rewrite E2; apply odd_pad; exact Oc).
  rewrite (spectral_ext _ _ _ (fun a _ => c_ (px p a 0)) _ (weights (butterworth_window (ncol p) (nrow p) u v n) (nrow p) (ncol p))); [|intros a b Ha Hb; f_equal; apply (framed_flat s pad p); assumption|reflexivity].
  rewrite (spectral_agree _ _ _ _ (fun _ _ => 1%R)).
  - rewrite (spectral_one (nrow p) (ncol p)) by (first [exact P1 | exact P2 | unfold in_rng in *; lia | reflexivity]). rewrite cabs_c. f_equal.
    rewrite <- (framed_flat s pad p Hr Hc FR HF (i + pad) (j + pad)) by (unfold in_rng in *; lia). apply (framed_inside s pad p); assumption.
  - intros a b Ha Hb. destruct (Z.eq_dec b 0) as [->|N]; [right | left; apply fft2_flat_rows; assumption].
    unfold weights, butterworth_window. cbn [px]. destruct (_ && _); [|reflexivity].
    replace (ifftshift_idx (ncol p) 0 - window_center (ncol p)) with 0; [|rewrite window_center_odd by exact O2; assert (X := freq_0 (ncol p) P2); unfold freq in X; lia]. apply (low_pass_0 u n Hn).
Qed.
Lemma const_even s u n v c i j : 0 < nrow s -> 0 < ncol s -> even (ncol s) -> 0 <= v -> v <= window_center (nrow s) -> (odd (nrow s) \/ 1 <= v) ->
  (forall a b, in_rng (nrow s) a -> in_rng (ncol s) b -> px s a b = c) -> in_rng (nrow s) i -> in_rng (ncol s) j ->
  px (stripe_fft s u n v) i j = Rabs (low_pass u n 1 * c).
Proof.
  intros Hr Hc Ec Hv V2 Ov HF Hi Hj. rewrite stripe_fft_at by assumption.
  assert (Hp := stripe_pad_bounds s ltac:(lia) ltac:(lia)). assert (FR := pad_framed s Hr Hc). destruct (FR) as (E1 & E2 & FF). cbv zeta. set (p := pad_sinogram s) in *. set (pad := stripe_pad s) in *.
  assert (P1 : 0 < nrow p) by lia. assert (P2 : 0 < ncol p) by lia. assert (O2 : even (ncol p)) by (rewrite E2; apply even_pad; exact Ec).
  assert (CP : forall a b, in_rng (nrow p) a -> in_rng (ncol p) b -> px p a b = c).
  { intros a b Ha Hb. rewrite (framed_stripes s pad p Hr Hc FR) by (try assumption; intros x x' y Hx Hx' Hy; rewrite !HF by assumption; reflexivity). apply HF; unfold in_rng, clampc in *; lia. }
  rewrite (spectral_ext _ _ _ (fun a b => cmul (c_ c) (cmul (root (nrow p) (0 * a)) (root (ncol p) (0 * b)))) _ (weights (butterworth_window (ncol p) (nrow p) u v n) (nrow p) (ncol p))); [|intros a b Ha Hb; rewrite CP by assumption; rewrite !Z.mul_0_l, !root_0; ring|reflexivity].
  rewrite spectral_exp by assumption. rewrite !Z.mul_0_l, !root_0, !Z.mod_0_l by lia. rewrite window_weights; try (unfold in_rng; lia).
  - rewrite !freq_0 by assumption. rewrite off_even with (n := ncol p) by exact O2. change (0 + 1) with 1.
    replace ((- v <=? 0 + off (nrow p)) && (0 + off (nrow p) <=? v)) with true.
    + rewrite <- cabs_c. rewrite c_mul. f_equal. ring.
    + symmetry. apply andb_true_iff. rewrite !Z.leb_le. destruct Ov as [Ov|Ov]; [rewrite (off_odd (nrow p)) by (rewrite E1; apply odd_pad; exact Ov); lia|].
      assert (X := half_bounds (nrow p) P1). assert (off (nrow p) = 0 \/ off (nrow p) = 1); [|lia]. destruct X as (_ & [X|X]); [right; apply off_even; eexists; exact X | left; apply off_odd; eexists; exact X].
  - assert (window_center (nrow p) = window_center (nrow s) + pad) by (unfold window_center; rewrite E1; replace (nrow s + 2 * pad + 1) with (nrow s + 1 + pad * 2) by ring; rewrite Z.div_add by lia; ring). lia.
Qed.
Lemma stripes_kept s u n i j : 0 < nrow s -> 0 < ncol s -> even (nrow s) -> only_stripes s -> in_rng (nrow s) i -> in_rng (ncol s) j ->
  px (stripe_fft s u n 0) i j = Rabs (px s i j).
Proof.
  intros Hr Hc Er HF Hi Hj. rewrite stripe_fft_at by assumption.
  assert (Hp := stripe_pad_bounds s ltac:(lia) ltac:(lia)). assert (FR := pad_framed s Hr Hc). destruct (FR) as (E1 & E2 & _). cbv zeta. set (p := pad_sinogram s) in *. set (pad := stripe_pad s) in *.
  assert (P1 : 0 < nrow p) by lia. assert (P2 : 0 < ncol p) by lia. assert (O2 : even (nrow p)) by (rewrite E1; apply even_pad; exact Er).
  rewrite (spectral_ext _ _ _ (fun _ b => c_ (px s 0 (clampc pad (ncol s) b))) _ (weights (butterworth_window (ncol p) (nrow p) u 0 n) (nrow p) (ncol p))); [|intros a b Ha Hb; f_equal; apply (framed_stripes s pad p); assumption|reflexivity].
  rewrite (spectral_agree _ _ _ _ (fun _ _ => 1%R)).
  - rewrite (spectral_one (nrow p) (ncol p)) by (first [exact P1 | exact P2 | unfold in_rng in *; lia | reflexivity]). rewrite cabs_c. f_equal.
    rewrite <- (framed_stripes s pad p Hr Hc FR HF (i + pad) (j + pad)) by (unfold in_rng in *; lia). apply (framed_inside s pad p); assumption.
  - intros a b Ha Hb. destruct (Z.eq_dec a 0) as [->|N]; [right | left; apply fft2_stripes; assumption].
    assert (W := center_nonneg (nrow p) P1). rewrite window_weights; try assumption; try lia. rewrite freq_0 by exact P1. rewrite (off_even (nrow p)) by exact O2. reflexivity.
Qed.
