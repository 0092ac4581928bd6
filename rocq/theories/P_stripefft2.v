(** Proofs about the FFT and wavelet-FFT stripe filters, continued: the functions themselves. *)
From Coq Require Import Reals Lra ZArith Lia Bool.
From Verif Require Import Np P_Np M_phase_R P_phase_R M_simR P_simR M_fourier P_fourier P_kernel M_fresnel S_fresnel P_fresnel P_fresnel2 M_wedge P_wedge P_wedge2 M_stripefft S_stripefft P_stripefft.
Open Scope Z_scope.

Lemma filter_at (m win : img R) i j : in_rng (nrow m) i -> in_rng (ncol m) j ->
  px (filter_spectrum m win) i j = spectral (nrow m) (ncol m) (fun a b => c_ (px m a b)) (weights win (nrow m) (ncol m)) i j.
Proof.
  intros Hi Hj. unfold filter_spectrum, spectral. cbn [px imap fft2 nrow ncol ishift fshift ifft2]. f_equal.
  apply csum_ext. intros u Hu. apply csum_ext. intros v Hv. rewrite !shift_back by assumption. reflexivity.
Qed.
Lemma stripe_pad_bounds m : 0 <= nrow m -> 0 <= ncol m -> 0 <= stripe_pad m.
Proof. intros Hr Hc. unfold stripe_pad. assert (0 <= Z.min (nrow m) (ncol m) / 10) by (apply Z.div_pos; lia). lia. Qed.
Lemma pad_framed m : 0 < nrow m -> 0 < ncol m -> framed m (stripe_pad m) (pad_sinogram m).
Proof.
  intros Hr Hc. assert (Hp := stripe_pad_bounds m ltac:(lia) ltac:(lia)). set (p := stripe_pad m) in *. unfold pad_sinogram. fold p.
  split; [cbn [pad_edge pad_mean_rows nrow]; lia|]. split; [cbn [pad_edge pad_mean_rows ncol]; lia|]. cbn [pad_edge pad_mean_rows nrow ncol px]. intros i j Hi Hj. unfold in_rng in *. cbv zeta.
  replace (clipZ (i - 0) 0 (nrow m + 2 * p - 1)) with i by (unfold clipZ; lia). reflexivity.
Qed.
Lemma stripe_fft_at s u n v i j : 0 < nrow s -> 0 < ncol s -> in_rng (nrow s) i -> in_rng (ncol s) j ->
  let p := pad_sinogram s in let pad := stripe_pad s in
  px (stripe_fft s u n v) i j = cabs (spectral (nrow p) (ncol p) (fun a b => c_ (px p a b)) (weights (butterworth_window (ncol p) (nrow p) u v n) (nrow p) (ncol p)) (i + pad) (j + pad)).
Proof.
  intros Hr Hc Hi Hj p pad. assert (Hp := stripe_pad_bounds s ltac:(lia) ltac:(lia)). destruct (pad_framed s Hr Hc) as (E1 & E2 & _). fold p pad in E1, E2, Hp. unfold in_rng in *.
  unfold stripe_fft. fold p pad. cbn [islice imap px nrow ncol]. rewrite !py_adj_id by (cbn [filter_spectrum ifft2 ishift fshift fft2 imap nrow ncol]; lia).
  rewrite filter_at by (unfold in_rng; lia). rewrite (Z.add_comm pad i), (Z.add_comm pad j). reflexivity.
Qed.
Lemma stripe_fft_size s u n v : 0 < nrow s -> 0 < ncol s -> nrow (stripe_fft s u n v) = nrow s /\ ncol (stripe_fft s u n v) = ncol s.
Proof.
  intros Hr Hc. assert (Hp := stripe_pad_bounds s ltac:(lia) ltac:(lia)). destruct (pad_framed s Hr Hc) as (E1 & E2 & _). unfold stripe_fft. cbn [islice imap nrow ncol filter_spectrum ifft2 ishift fshift fft2].
  rewrite !slen_id by lia. lia.
Qed.
Lemma window_center_odd n : odd n -> window_center n = n / 2.
Proof. intros (k & ->). unfold window_center. replace (2 * k + 1 + 1) with ((k + 1) * 2) by ring. rewrite Z.div_mul by lia. replace (2 * k + 1) with (k * 2 + 1) by ring. rewrite Z.div_add_l by lia. change (1 / 2) with 0. lia. Qed.
Lemma window_center_even n : even n -> window_center n = n / 2 - 1.
Proof. intros (k & ->). unfold window_center. replace (2 * k + 1) with (k * 2 + 1) by ring. rewrite Z.div_add_l by lia. change (1 / 2) with 0. replace (2 * k) with (k * 2) by ring. rewrite Z.div_mul by lia. lia. Qed.
Definition off (n : Z) : Z := n / 2 - window_center n.
Lemma window_weights W H u v n a b : 0 < H -> 0 < W -> in_rng H a -> in_rng W b -> 0 <= v -> 0 <= window_center H - v -> 
  weights (butterworth_window W H u v n) H W a b = if (- v <=? freq H a + off H) && (freq H a + off H <=? v) then low_pass u n (freq W b + off W) else 1%R.
Proof.
  intros HH HW Ha Hb Hv Hc. unfold weights, butterworth_window. cbn [px]. unfold low_pass. replace (ifftshift_idx W b - window_center W) with (freq W b + off W) by (unfold freq, off; lia).
  assert (X := freq_bounds H a HH). assert (CH := half_bounds H HH). assert (EQ : ((py_adj H (window_center H - v) <=? ifftshift_idx H a) && (ifftshift_idx H a <? py_adj H (window_center H + v + 1))) = ((- v <=? freq H a + off H) && (freq H a + off H <=? v))).
  { unfold freq, off in *. apply Bool.eq_iff_eq_true. rewrite !andb_true_iff, !Z.leb_le, Z.ltb_lt. unfold py_adj. destruct (Z.ltb_spec (window_center H - v) 0), (Z.ltb_spec (window_center H + v + 1) 0); lia. }
  rewrite EQ. reflexivity.
Qed.
Lemma low_pass_even u n k : low_pass u n (- k) = low_pass u n k.
Proof.
  unfold low_pass. rewrite opp_IZR. rewrite !pow_mult. do 3 f_equal. unfold Rdiv. ring.
Qed.
Lemma low_pass_0 u n : (0 < n)%nat -> low_pass u n 0 = 1%R.
Proof. intros Hn. unfold low_pass. unfold Rdiv at 2. rewrite Rmult_0_l, pow_i by lia. field. Qed.

(** weights only matter where the spectrum is not zero *)
Lemma spectral_agree h w p V V' a b : (forall u v, in_rng h u -> in_rng w v -> px (fft2 (mkimg h w p)) u v = c_ 0 \/ V u v = V' u v) -> spectral h w p V a b = spectral h w p V' a b.
Proof.
  intros H. unfold spectral. cbn [px ifft2 nrow ncol fft2]. f_equal. apply csum_ext. intros u Hu. apply csum_ext. intros v Hv. destruct (H u v Hu Hv) as [E|E].
  - cbn [px fft2 nrow ncol] in E. rewrite E. ring.
  - rewrite E. reflexivity.
Qed.
Lemma fft2_flat_rows h w (q : Z -> cx) u v : 0 < w -> in_rng w v -> v <> 0 -> px (fft2 (mkimg h w (fun a _ => q a))) u v = c_ 0.
Proof.
  intros Hw Hv N. cbn [px fft2 nrow ncol]. apply csum_zero. intros a _. rewrite (csum_ext w _ (fun b => cmul (cmul (q a) (root h (- (u * a)))) (root w (b * - v)))).
  - rewrite csum_scal, root_sum by exact Hw. replace (- v mod w =? 0) with false; [ring|]. symmetry. apply Z.eqb_neq. intros E. unfold in_rng in Hv; rewrite Z.mod_opp_l_nz in E by (rewrite ?Z.mod_small by lia; lia); rewrite Z.mod_small in E by lia; lia.
  - intros b _. replace (b * - v) with (- (v * b)) by ring. ring.
Qed.
Lemma fft2_stripes h w (q : Z -> cx) u v : 0 < h -> in_rng h u -> u <> 0 -> px (fft2 (mkimg h w (fun _ b => q b))) u v = c_ 0.
Proof.
  intros Hh Hu N. cbn [px fft2 nrow ncol]. rewrite csum_swap. apply csum_zero. intros b _. rewrite (csum_ext h _ (fun a => cmul (cmul (q b) (root w (- (v * b)))) (root h (a * - u)))).
  - rewrite csum_scal, root_sum by exact Hh. replace (- u mod h =? 0) with false; [ring|]. symmetry. apply Z.eqb_neq. intros E. unfold in_rng in Hu; rewrite Z.mod_opp_l_nz in E by (rewrite ?Z.mod_small by lia; lia); rewrite Z.mod_small in E by lia; lia.
  - intros a _. replace (a * - u) with (- (u * a)) by ring. ring.
Qed.
Lemma cabs_c x : cabs (c_ x) = Rabs x.
Proof. unfold cabs, c_. cbn [fst snd]. replace (x ^ 2 + 0 ^ 2)%R with (Rsqr x) by (unfold Rsqr; ring). apply sqrt_Rsqr_abs. Qed.

(** the frame of special sinograms *)
Definition clampc (pad w b : Z) : Z := Z.min (Z.max (b - pad) 0) (w - 1).
Lemma rsum_mean n c : 0 < n -> (rsum n (fun _ => c) / IZR n = c)%R.
Proof. intros Hn. rewrite rsum_const by lia. field. apply not_0_IZR. lia. Qed.
Lemma framed_inside m pad p i j : 0 <= pad -> framed m pad p -> in_rng (nrow m) i -> in_rng (ncol m) j -> px p (i + pad) (j + pad) = px m i j.
Proof.
  intros Hp (E1 & E2 & F) Hi Hj. unfold in_rng in *. rewrite F by lia. cbv zeta. replace ((pad <=? i + pad) && (i + pad <? pad + nrow m)) with true by lia.
  f_equal; [lia|lia].
Qed.
Lemma framed_flat m pad p : 0 < nrow m -> 0 < ncol m -> framed m pad p -> flat_rows m ->
  forall i j, in_rng (nrow p) i -> in_rng (ncol p) j -> px p i j = px p i 0.
Proof.
  intros Hr Hc (E1 & E2 & F) HF i j Hi Hj. assert (H0 : in_rng (ncol p) 0) by (unfold in_rng in *; lia). rewrite !F by assumption. cbv zeta. unfold in_rng in *. destruct ((pad <=? i) && (i <? pad + nrow m)) eqn:E.
  - apply HF; unfold in_rng; lia.
  - unfold column_mean. f_equal. apply rsum_ext. intros k Hk. apply HF; unfold in_rng; lia.
Qed.
Lemma framed_stripes m pad p : 0 < nrow m -> 0 < ncol m -> framed m pad p -> only_stripes m ->
  forall i j, in_rng (nrow p) i -> in_rng (ncol p) j -> px p i j = px m 0 (clampc pad (ncol m) j).
Proof.
  intros Hr Hc (E1 & E2 & F) HF i j Hi Hj. rewrite F by assumption. cbv zeta. unfold in_rng in *. fold (clampc pad (ncol m) j). assert (B : 0 <= clampc pad (ncol m) j < ncol m) by (unfold clampc; lia). destruct ((pad <=? i) && (i <? pad + nrow m)) eqn:E.
  - apply HF; unfold in_rng; lia.
  - unfold column_mean. rewrite (rsum_ext _ _ (fun _ => px m 0 (clampc pad (ncol m) j))); [apply rsum_mean; lia|]. intros k Hk. apply HF; unfold in_rng; lia.
Qed.
