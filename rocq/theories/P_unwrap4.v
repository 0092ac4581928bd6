(** Proofs for C117: weak phases. *)
From Coq Require Import Reals ZArith Lia Lra Bool List.
From Verif Require P_calib3.
From Verif Require Import Np P_Np M_phase_R P_phase_R M_simR P_simR M_calib M_fourier P_fourier P_kernel P_fresnel M_surface S_surface S_fresnel P_surface P_surface4 P_surface5 M_unwrap S_unwrap P_unwrap P_unwrap2 P_unwrap3.
Open Scope Z_scope.

(** two filters in a row *)
Lemma spectral_csum h w n (p : Z -> Z -> Z -> cx) V a b : spectral h w (fun a b => csum n (fun k => p k a b)) V a b = csum n (fun k => spectral h w (p k) V a b).
Proof.
  rewrite spectral_conv. transitivity (csum n (fun k => csum h (fun a' => csum w (fun b' => cmul (p k a' b') (ckernel h w V (a - a') (b - b')))))).
  - rewrite (csum_swap n h (fun k a' => csum w (fun b' => cmul (p k a' b') (ckernel h w V (a - a') (b - b'))))). apply csum_ext. intros a' _.
    rewrite (csum_swap n w (fun k b' => cmul (p k a' b') (ckernel h w V (a - a') (b - b')))). apply csum_ext. intros b' _. rewrite csum_scal_r. reflexivity.
  - apply csum_ext. intros k _. rewrite spectral_conv. reflexivity.
Qed.
Lemma spectral_twice h w p V V' a b : 0 < h -> 0 < w -> spectral h w (spectral h w p V) V' a b = spectral h w p (fun u v => V u v * V' u v)%R a b.
Proof.
  intros Hh Hw. set (P := px (fft2 (mkimg h w p))).
  rewrite (spectral_ext h w (spectral h w p V) (fun a b => csum h (fun u => csum w (fun v => cmul (cmul (c_ (/ (IZR h * IZR w))) (cmul (P u v) (c_ (V u v)))) (cmul (root h (u * a)) (root w (v * b)))))) V' V' a b).
  - rewrite (spectral_csum h w h (fun u a b => csum w (fun v => cmul (cmul (c_ (/ (IZR h * IZR w))) (cmul (P u v) (c_ (V u v)))) (cmul (root h (u * a)) (root w (v * b)))))).
    unfold spectral at 2. cbn [px ifft2 nrow ncol]. fold P. rewrite cdivr_form, <- csum_scal. apply csum_ext. intros u Hu.
    rewrite (spectral_csum h w w (fun v a b => cmul (cmul (c_ (/ (IZR h * IZR w))) (cmul (P u v) (c_ (V u v)))) (cmul (root h (u * a)) (root w (v * b))))).
    rewrite <- csum_scal. apply csum_ext. intros v Hv. rewrite spectral_exp by assumption. rewrite !Z.mod_small by lia.
    replace (c_ (V u v * V' u v)) with (cmul (c_ (V u v)) (c_ (V' u v))) by (apply cx_eq; unfold cmul, c_; cbn [fst snd]; ring). ring.
  - intros i j _ _. unfold spectral. cbn [px ifft2 nrow ncol]. fold P. rewrite cdivr_form, <- csum_scal. apply csum_ext. intros u _. rewrite <- csum_scal. apply csum_ext. intros v _. ring.
  - reflexivity.
Qed.
Lemma spectral_no_dc h w (D : Z -> Z -> R) a b : 0 < h -> 0 < w -> in_rng h a -> in_rng w b ->
  fst (spectral h w (fun a b => c_ (D a b)) (fun u v => if (u =? 0) && (v =? 0) then 0%R else 1%R) a b) = (D a b - rsum h (fun i => rsum w (fun j => D i j)) / (IZR h * IZR w))%R.
Proof.
  intros Hh Hw Ha Hb. assert (I := ifft2_fft2 (mkimg h w (fun a b => c_ (D a b))) a b Ha Hb). cbn [px] in I. apply (f_equal fst) in I. unfold c_ in I at 2; cbn [fst] in I. rewrite <- I.
  unfold spectral. cbn [px ifft2 nrow ncol]. set (P := px (fft2 (mkimg h w (fun a b => c_ (D a b))))). unfold ifft2. cbn [px nrow ncol fft2]. rewrite !cdivr_form, !fst_real.
  assert (P0 : fst (P 0 0) = rsum h (fun i => rsum w (fun j => D i j))).
  { unfold P. cbn [px fft2 nrow ncol]. unfold csum; cbn [fst]. apply rsum_ext. intros i _. apply rsum_ext. intros j _. rewrite !Z.mul_0_l. change (- 0) with 0. rewrite !root_0. unfold cmul, c_; cbn [fst snd]. ring. }
  assert (E : csum h (fun u => csum w (fun v => cmul (P u v) (cmul (root h (u * a)) (root w (v * b))))) =
    cadd (csum h (fun u => csum w (fun v => cmul (cmul (P u v) (c_ (if (u =? 0) && (v =? 0) then 0 else 1)%R)) (cmul (root h (u * a)) (root w (v * b)))))) (P 0 0)).
  { rewrite (csum_ext h (fun u => csum w (fun v => cmul (P u v) (cmul (root h (u * a)) (root w (v * b)))))
      (fun u => cadd (csum w (fun v => cmul (cmul (P u v) (c_ (if (u =? 0) && (v =? 0) then 0 else 1)%R)) (cmul (root h (u * a)) (root w (v * b))))) (csum w (fun v => if (u =? 0) && (v =? 0) then P 0 0 else c_ 0)))).
    - rewrite csum_add. f_equal. rewrite (csum_single h _ 0) by (try lia; intros u Hu N; apply csum_zero; intros v _; replace (u =? 0) with false by lia; reflexivity).
      rewrite (csum_single w _ 0) by (try lia; intros v Hv N; replace (v =? 0) with false by lia; rewrite andb_false_r; reflexivity). reflexivity.
    - intros u _. rewrite <- csum_add. apply csum_ext. intros v _. destruct ((u =? 0) && (v =? 0)) eqn:Z0; [|ring].
      assert (u = 0 /\ v = 0) as [-> ->] by lia. rewrite !Z.mul_0_l, !root_0. ring. }
  change (fft2 (mkimg h w (fun a b => c_ (D a b)))) with (fft2 (mkimg h w (fun a b => c_ (D a b)))).
  match goal with |- _ = (_ * fst ?s - _)%R => change s with (csum h (fun u => csum w (fun v => cmul (P u v) (cmul (root h (u * a)) (root w (v * b)))))) end.
  rewrite E. unfold cadd at 1; cbn [fst]. rewrite P0. unfold Rdiv. ring.
Qed.
Lemma freq_zero n k : 0 < n -> in_rng (2 * n) k -> freq n k = 0%R -> k = 0.
Proof.
  unfold in_rng. intros Hn Hk E. unfold freq in E. apply eq_IZR in E. assert (Z0 := zero_freq n k Hn Hk). lia.
Qed.
Lemma VF_nonzero h w u v : 0 < h -> 0 < w -> in_rng (2 * h) u -> in_rng (2 * w) v -> (u =? 0) && (v =? 0) = false -> (VF h w u v <> 0)%R.
Proof.
  intros Hh Hw Hu Hv E. unfold VF. assert (0 < IZR h)%R by (apply (IZR_lt 0); assumption). assert (0 < IZR w)%R by (apply (IZR_lt 0); assumption).
  assert (A := pow2_ge_0 (freq w v / IZR w)). assert (B := pow2_ge_0 (freq h u / IZR h)). intros Q.
  assert (A0 : ((freq w v / IZR w) ^ 2 = 0)%R) by lra. assert (B0 : ((freq h u / IZR h) ^ 2 = 0)%R) by lra.
  assert (S : forall x n, (0 < n -> (x / n) ^ 2 = 0 -> x = 0)%R). { intros x n Hn X. simpl in X. rewrite Rmult_1_r in X. apply Rmult_integral in X. assert (Y : (x / n = 0)%R) by (destruct X; assumption). apply Rmult_integral in Y. destruct Y as [Y|Y]; [exact Y|]. assert (0 < / n)%R by (apply Rinv_0_lt_compat; assumption). lra. }
  apply S in A0; [|assumption]. apply S in B0; [|assumption]. apply freq_zero in A0; try assumption. apply freq_zero in B0; try assumption. lia.
Qed.
Definition lap_at (h w : Z) (D : Z -> Z -> R) (a b : Z) : R := rsum (2 * h) (fun a' => rsum (2 * w) (fun b' => KF h w (a - a') (b - b') * (D a' b' - D a b)))%R.
Lemma kernel_sum h w a b : 0 < h -> 0 < w -> rsum (2 * h) (fun a' => rsum (2 * w) (fun b' => KF h w (a - a') (b - b'))) = 0%R.
Proof.
  intros Hh Hw. assert (E := spectral_exp (2 * h) (2 * w) (c_ 1) 0 0 (VF h w) a b ltac:(lia) ltac:(lia)). rewrite !Z.mod_0_l in E by lia.
  assert (V0 : VF h w 0 0 = 0%R). { unfold VF, freq. rewrite !Z.add_0_l. rewrite !Z.mod_small by lia. rewrite !Z.sub_diag. unfold Rdiv. ring. }
  rewrite V0 in E. rewrite spectral_even in E by (try lia; apply VF_even; assumption). apply (f_equal fst) in E. cbn [fst] in E. rewrite fst_real, Rmult_0_l in E. rewrite <- E.
  apply rsum_ext. intros a' _. apply rsum_ext. intros b' _. rewrite !Z.mul_0_l, !root_0. unfold KF, cmul, c_; cbn [fst snd]. ring.
Qed.
Lemma backward_lap h w D a b : 0 < h -> 0 < w -> in_rng (2 * h) a -> in_rng (2 * w) b ->
  rsum (2 * h) (fun a' => rsum (2 * w) (fun b' => lap_at h w D a' b' * KB h w (a - a') (b - b')))%R = (D a b - rsum (2 * h) (fun i => rsum (2 * w) (fun j => D i j)) / (IZR (2 * h) * IZR (2 * w)))%R.
Proof.
  intros Hh Hw Ha Hb. rewrite <- spectral_no_dc by (try lia; assumption). unfold KB. rewrite <- (spectral_real (2 * h) (2 * w) (lap_at h w D) (VB h w)). f_equal.
  rewrite (spectral_ext _ _ _ (spectral (2 * h) (2 * w) (fun a b => c_ (D a b)) (VF h w)) (VB h w) (VB h w)).
  - rewrite spectral_twice by lia. apply spectral_ext; [reflexivity|]. intros u v Hu Hv. unfold VB. destruct ((u =? 0) && (v =? 0)) eqn:E.
    + assert (u = 0 /\ v = 0) as [-> ->] by lia. unfold VF, freq. rewrite !Z.add_0_l. rewrite !Z.mod_small by lia. rewrite !Z.sub_diag. unfold Rdiv. ring.
    + apply Rinv_r. apply VF_nonzero; assumption.
  - intros i j Hi Hj. rewrite spectral_even by (try lia; apply VF_even; assumption). apply cx_eq; unfold c_; cbn [fst snd].
    + unfold lap_at. rewrite (rsum_ext (2 * h) _ (fun a' => rsum (2 * w) (fun b' => D a' b' * KF h w (i - a') (j - b')) - rsum (2 * w) (fun b' => KF h w (i - a') (j - b')) * D i j)%R).
      * rewrite rsum_sub, rsum_scal_r, kernel_sum by assumption. unfold KF. ring.
      * intros a' _. rewrite <- rsum_scal_r, <- rsum_sub. apply rsum_ext. intros b' _. ring.
    + symmetry. rewrite (rsum_ext (2 * h) _ (fun _ => 0%R)); [apply rsum_zero|]. intros a' _. rewrite (rsum_ext (2 * w) _ (fun _ => 0%R)); [apply rsum_zero|]. intros b' _. ring.
  - reflexivity.
Qed.
Lemma sin_near x : (Rabs x <= 2)%R -> (Rabs (sin x - x) <= Rabs x ^ 3 / 6)%R.
Proof.
  assert (P : forall y, (0 <= y <= 2 -> y - y ^ 3 / 6 <= sin y <= y)%R).
  { intros y Hy. destruct (pre_sin_bound y 0 ltac:(lra) ltac:(lra)) as [L U]. unfold sin_approx, sin_term in L, U. cbn [Nat.mul Nat.add sum_f_R0] in L, U. simpl in L, U.
    assert (Q : (y ^ 3 * (20 - y * y) >= 0)%R). { apply Rle_ge. apply Rmult_le_pos; [apply pow_le; lra|]. nra. } simpl in Q. split; [|]; simpl in *; lra. }
  intros Hx. destruct (Rle_dec 0 x) as [N|N].
  - rewrite (Rabs_right x) in * by lra. assert (X := P x ltac:(lra)). rewrite Rabs_left1 by lra. lra.
  - rewrite (Rabs_left x) in * by lra. assert (X := P (- x)%R ltac:(lra)). rewrite sin_neg in X. rewrite Rabs_right by lra. lra.
Qed.
