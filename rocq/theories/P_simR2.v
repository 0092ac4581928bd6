(** Proofs about make_sinogram. *)
From Coq Require Import Reals Lra ZArith Lia Bool FunctionalExtensionality.
From Verif Require Import Np P_Np M_phase_R P_phase_R M_simR S_simR P_simR.
Open Scope Z_scope.

Section projections.
Variables (interp : img R -> R -> R -> R) (m : img R) (c : Z).
Hypothesis (Hc : 0 <= c) (Hr : nrow m = 2 * c + 1) (Hn : ncol m = 2 * c + 1).
Let n := 2 * c + 1.
Lemma n_pos : 0 < n. Proof. unfold n. lia. Qed.
Lemma n_half : n / 2 = c. Proof. unfold n. symmetry. apply (Z.div_unique _ 2 c 1); lia. Qed.
Lemma shift_unshift k : 0 <= k < n -> fftshift_idx n (ifftshift_idx n k) = k.
Proof. intros H. unfold fftshift_idx, ifftshift_idx. rewrite Zminus_mod_idemp_l. replace (k + n / 2 - n / 2) with k by lia. apply Z.mod_small, H. Qed.
Lemma unshift_shift k : 0 <= k < n -> ifftshift_idx n (fftshift_idx n k) = k.
Proof. intros H. unfold fftshift_idx, ifftshift_idx. rewrite Zplus_mod_idemp_l. replace (k - n / 2 + n / 2) with k by lia. apply Z.mod_small, H. Qed.
Lemma ifftshift_rng k : 0 <= ifftshift_idx n k < n. Proof. apply Z.mod_pos_bound, n_pos. Qed.
Lemma fftshift_rng k : 0 <= fftshift_idx n k < n. Proof. apply Z.mod_pos_bound, n_pos. Qed.
Lemma fftshift_c : fftshift_idx n c = 0.
Proof. unfold fftshift_idx. rewrite n_half, Z.sub_diag. apply Z.mod_0_l. unfold n. lia. Qed.
(** the sampling positions *)
Lemma centre_value : ((IZR n - 1) * 0.5 = IZR c)%R.
Proof. unfold n. rewrite plus_IZR, mult_IZR. lra. Qed.
Lemma radius_value : IZR (Int_part (Rmax (IZR c) (IZR c))) = IZR c.
Proof. rewrite Rmax_left by lra. f_equal. apply Int_part_unique. lra. Qed.
Lemma radius_at j : 0 <= j < n -> rlinspace (- IZR c) (IZR c) n j = IZR (j - c).
Proof.
  intros Hj. unfold rlinspace. destruct (n =? 1) eqn:E.
  - assert (c = 0) by (unfold n in E; lia). assert (j = 0) by (unfold n in Hj; lia). subst. cbn. lra.
  - replace (n - 1) with (2 * c) by (unfold n; lia). assert (IZR c <> 0)%R by (apply not_0_IZR; unfold n in E; lia).
    rewrite mult_IZR, minus_IZR. field. assumption.
Qed.
Lemma sample_x_at angle j : 0 <= j < n -> sample_x n angle j = Rmin (Rmax (IZR c + IZR (j - c) * cos angle) 0) (IZR (n - 1)).
Proof. intros Hj. unfold sample_x. rewrite centre_value, radius_value, radius_at, cos_neg, (minus_IZR n) by exact Hj. reflexivity. Qed.
Lemma sample_y_at angle j : 0 <= j < n -> sample_y n angle j = Rmin (Rmax (IZR c - IZR (j - c) * sin angle) 0) (IZR (n - 1)).
Proof. intros Hj. unfold sample_y. rewrite centre_value, radius_value, radius_at, sin_neg, (minus_IZR n) by exact Hj. f_equal. f_equal. ring. Qed.
Lemma clip_in_range k : 0 <= k < n -> Rmin (Rmax (IZR k) 0) (IZR (n - 1)) = IZR k.
Proof. intros H. assert (0 <= IZR k)%R by (apply IZR_le; lia). assert (IZR k <= IZR (n - 1))%R by (apply IZR_le; lia).
  rewrite Rmax_left, Rmin_left by lra. reflexivity. Qed.
Lemma sample_opposite angle j : 0 <= j < n ->
  sample_x n (angle + PI) j = sample_x n angle (n - 1 - j) /\ sample_y n (angle + PI) j = sample_y n angle (n - 1 - j).
Proof.
  intros Hj. rewrite !sample_x_at, !sample_y_at by lia. rewrite neg_cos, neg_sin.
  replace (n - 1 - j - c) with (- (j - c)) by (unfold n; lia). rewrite !opp_IZR. split; f_equal; f_equal; ring.
Qed.
Lemma real_ifft_mod N re im x : 0 < N -> real_ifft N re im (x mod N) = real_ifft N re im x.
Proof.
  clear. intros HN. unfold real_ifft. f_equal. apply rsum_ext. intros k _.
  f_equal; f_equal; [apply cos_mod|apply sin_mod]; try lia; rewrite Zmult_mod_idemp_r; reflexivity.
Qed.
(** opposite projections are mirror images *)
Lemma projection_opposite angle x : 0 <= x < n -> projection interp m (angle + PI) x = projection interp m angle (n - 1 - x).
Proof.
  intros Hx. unfold projection. rewrite Hn. fold n.
  set (fr := fun j => interp (fftshift2 (fft2_re (ifftshift2 m))) (sample_x n angle j) (sample_y n angle j)).
  set (fi := fun j => interp (fftshift2 (fft2_im (ifftshift2 m))) (sample_x n angle j) (sample_y n angle j)).
  set (re := fun k => fr (ifftshift_idx n k)). set (im := fun k => fi (ifftshift_idx n k)).
  transitivity (real_ifft n (fun k => re ((- k) mod n)) (fun k => im ((- k) mod n)) (fftshift_idx n x)).
  - apply real_ifft_ext. intros k Hk. destruct (sample_opposite angle (ifftshift_idx n k) (ifftshift_rng k)) as (E1 & E2).
    rewrite E1, E2. unfold re, im, fr, fi.
    assert (E : n - 1 - ifftshift_idx n k = ifftshift_idx n ((- k) mod n)).
    { unfold ifftshift_idx. rewrite Zplus_mod_idemp_l, n_half.
      assert (B := Z.mod_pos_bound (k + c) n n_pos).
      rewrite <- (Z.mod_small (n - 1 - (k + c) mod n) n) by lia.
      replace (- k + c) with (n - 1 - (k + c) + 0 * n) by (unfold n; lia). rewrite Z_mod_plus_full.
      rewrite Zminus_mod_idemp_r. reflexivity. }
    rewrite E. split; reflexivity.
  - rewrite real_ifft_mirror by apply n_pos. rewrite <- real_ifft_mod by apply n_pos.
    transitivity (real_ifft n re im (fftshift_idx n (n - 1 - x))); [|reflexivity].
    rewrite <- (real_ifft_mod n re im (fftshift_idx n (n - 1 - x))) by apply n_pos.
    f_equal. unfold fftshift_idx. rewrite n_half, Zmod_mod.
    rewrite <- Z.sub_0_l, Zminus_mod_idemp_r. f_equal. unfold n. lia.
Qed.
Hypothesis Hi : exact_on_pixels interp.
Let sh := ifftshift2 m.
Lemma spectrum_at f i j : nrow f = n -> ncol f = n -> 0 <= i < n -> 0 <= j < n ->
  interp (fftshift2 f) (IZR j) (IZR i) = px f (fftshift_idx n i) (fftshift_idx n j).
Proof. intros A B Ii Ij. rewrite Hi by (unfold in_rng; cbn; lia). cbn. rewrite A, B. reflexivity. Qed.
Lemma shape_re : nrow (fft2_re sh) = n /\ ncol (fft2_re sh) = n. Proof. cbn. split; assumption. Qed.
Lemma shape_im : nrow (fft2_im sh) = n /\ ncol (fft2_im sh) = n. Proof. cbn. split; assumption. Qed.
(** the spectrum on the two axes *)
Lemma axis_row v : px (fft2_re sh) 0 v = dft_re n (fun b => column_sum m (ifftshift_idx n b)) v /\
  px (fft2_im sh) 0 v = dft_im n (fun b => column_sum m (ifftshift_idx n b)) v.
Proof.
  assert (N : (IZR n <> 0)%R) by (apply not_0_IZR; unfold n; lia).
  assert (CS : forall b, rsum n (fun a => px m (ifftshift_idx n a) b) = column_sum m b).
  { intros b. unfold column_sum. rewrite Hr. fold n. apply (rsum_cyclic n (n / 2) (fun a => px m a b)), n_pos. }
  unfold dft_re, dft_im. cbn. rewrite Hr, Hn. fold n. split; [|f_equal]; rewrite rsum_swap; apply rsum_ext; intros b _; rewrite <- CS, <- rsum_scal_r; apply rsum_ext; intros a _;
    f_equal; f_equal; unfold Rdiv; rewrite ?mult_IZR; ring.
Qed.
Lemma axis_col u : px (fft2_re sh) u 0 = dft_re n (fun a => row_sum m (ifftshift_idx n a)) u /\
  px (fft2_im sh) u 0 = dft_im n (fun a => row_sum m (ifftshift_idx n a)) u.
Proof.
  assert (N : (IZR n <> 0)%R) by (apply not_0_IZR; unfold n; lia).
  assert (CS : forall a, rsum n (fun b => px m a (ifftshift_idx n b)) = row_sum m a).
  { intros a. unfold row_sum. rewrite Hn. fold n. apply (rsum_cyclic n (n / 2) (fun b => px m a b)), n_pos. }
  unfold dft_re, dft_im. cbn. rewrite Hr, Hn. fold n. split; [|f_equal]; apply rsum_ext; intros a _; rewrite <- CS, <- rsum_scal_r; apply rsum_ext; intros b _;
    f_equal; f_equal; unfold Rdiv; rewrite ?mult_IZR; ring.
Qed.
Lemma line_inverse (p : Z -> R) x : 0 <= x < n ->
  real_ifft n (dft_re n (fun b => p (ifftshift_idx n b))) (dft_im n (fun b => p (ifftshift_idx n b))) (fftshift_idx n x) = p x.
Proof. intros Hx. rewrite real_ifft_inverse by (apply n_pos || apply fftshift_rng). rewrite unshift_shift by exact Hx. reflexivity. Qed.
Lemma projection_0 x : 0 <= x < n -> projection interp m 0 x = column_sum m x.
Proof.
  intros Hx. rewrite <- (line_inverse (column_sum m) x Hx). unfold projection. rewrite Hn. fold n. fold sh.
  apply real_ifft_ext. intros k Hk. assert (B := ifftshift_rng k).
  rewrite sample_x_at, sample_y_at by exact B. rewrite cos_0, sin_0, Rmult_1_r, Rmult_0_r, Rminus_0_r, <- plus_IZR.
  replace (c + (ifftshift_idx n k - c)) with (ifftshift_idx n k) by lia.
  rewrite (clip_in_range (ifftshift_idx n k)) by exact B. rewrite (clip_in_range c) by (unfold n; lia).
  destruct shape_re, shape_im. rewrite !spectrum_at by (assumption || (unfold n; lia)).
  rewrite fftshift_c, shift_unshift by exact Hk. apply axis_row.
Qed.
Lemma projection_m90 x : 0 <= x < n -> projection interp m (- (PI / 2)) x = row_sum m x.
Proof.
  intros Hx. rewrite <- (line_inverse (row_sum m) x Hx). unfold projection. rewrite Hn. fold n. fold sh.
  apply real_ifft_ext. intros k Hk. assert (B := ifftshift_rng k).
  rewrite sample_x_at, sample_y_at by exact B. rewrite cos_neg, sin_neg, cos_PI2, sin_PI2, Rmult_0_r, Rplus_0_r.
  replace (IZR c - IZR (ifftshift_idx n k - c) * - (1))%R with (IZR (ifftshift_idx n k)) by (rewrite minus_IZR; ring).
  rewrite (clip_in_range (ifftshift_idx n k)) by exact B. rewrite (clip_in_range c) by (unfold n; lia).
  destruct shape_re, shape_im. rewrite !spectrum_at by (assumption || (unfold n; lia)).
  rewrite fftshift_c, shift_unshift by exact Hk. apply axis_col.
Qed.
Lemma projection_90 x : 0 <= x < n -> projection interp m (PI / 2) x = row_sum m (n - 1 - x).
Proof.
  intros Hx. rewrite <- projection_m90 by lia. rewrite <- projection_opposite by exact Hx. f_equal. lra.
Qed.
Lemma projection_total angle : rsum n (projection interp m angle) = rsum n (fun x => column_sum m x).
Proof.
  set (re := fun k => interp (fftshift2 (fft2_re sh)) (sample_x n angle (ifftshift_idx n k)) (sample_y n angle (ifftshift_idx n k))).
  set (im := fun k => interp (fftshift2 (fft2_im sh)) (sample_x n angle (ifftshift_idx n k)) (sample_y n angle (ifftshift_idx n k))).
  transitivity (rsum n (fun x => real_ifft n re im ((x + - c) mod n))).
  { apply rsum_ext. intros x _. unfold projection. rewrite Hn. fold n. fold sh. fold re im. unfold fftshift_idx. rewrite n_half. reflexivity. }
  rewrite (rsum_cyclic n (- c) (real_ifft n re im)) by apply n_pos. rewrite real_ifft_total by apply n_pos.
  unfold re. assert (E : ifftshift_idx n 0 = c) by (unfold ifftshift_idx; rewrite n_half; apply Z.mod_small; unfold n; lia). rewrite E.
  rewrite sample_x_at, sample_y_at by (unfold n; lia). rewrite Z.sub_diag, !Rmult_0_l, Rplus_0_r, Rminus_0_r.
  rewrite clip_in_range by (unfold n; lia). destruct shape_re. rewrite spectrum_at by (assumption || (unfold n; lia)).
  rewrite fftshift_c. destruct (axis_row 0) as (-> & _). unfold dft_re.
  transitivity (rsum n (fun b => column_sum m ((b + n / 2) mod n))).
  - apply rsum_ext. intros b _. rewrite Z.mul_0_l. replace (2 * PI * 0 / IZR n)%R with 0%R by (unfold Rdiv; ring). rewrite cos_0. unfold ifftshift_idx. ring.
  - apply (rsum_cyclic n (n / 2) (column_sum m)), n_pos.
Qed.
End projections.
