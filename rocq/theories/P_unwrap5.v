(** Proofs for C117: unwrapping of weak phases. *)
From Coq Require Import Reals ZArith Lia Lra Bool List.
From Verif Require P_calib3.
From Verif Require Import Np P_Np M_phase_R P_phase_R M_simR P_simR M_calib M_fourier P_fourier P_kernel P_fresnel M_surface S_surface S_fresnel P_surface P_surface4 P_surface5 M_unwrap S_unwrap P_unwrap P_unwrap2 P_unwrap3 P_unwrap4.
Open Scope Z_scope.

Lemma rsum_le n f g : (forall k, 0 <= k < n -> (f k <= g k)%R) -> (rsum n f <= rsum n g)%R.
Proof.
  intros L. assert (N := P_calib3.rsum_nonneg n (fun k => g k - f k)%R). rewrite rsum_sub in N. assert (0 <= rsum n g - rsum n f)%R; [|lra]. apply N. intros k Hk. specialize (L k Hk). lra.
Qed.
Lemma rsum_abs n f : (Rabs (rsum n f) <= rsum n (fun k => Rabs (f k)))%R.
Proof.
  apply Rabs_le. split.
  - assert (L := rsum_le n (fun k => (-1) * Rabs (f k))%R f). rewrite rsum_scal in L. assert (G : ((-1) * rsum n (fun k => Rabs (f k)) <= rsum n f)%R); [|lra]. apply L. intros k _. assert (A := Rle_abs (- f k)). rewrite Rabs_Ropp in A. lra.
  - apply rsum_le. intros k _. apply Rle_abs.
Qed.
Lemma rsum2_abs n m (f : Z -> Z -> R) : (Rabs (rsum n (fun a => rsum m (fun b => f a b))) <= rsum n (fun a => rsum m (fun b => Rabs (f a b))))%R.
Proof. eapply Rle_trans; [apply rsum_abs|]. apply rsum_le. intros a _. apply rsum_abs. Qed.
Lemma rsum_term n f k : (forall i, 0 <= i < n -> (0 <= f i)%R) -> 0 <= k < n -> (f k <= rsum n f)%R.
Proof.
  intros N K. assert (S : rsum n (fun i => if i =? k then f k else 0%R) = f k).
  { rewrite (rsum_single n _ k K); [rewrite Z.eqb_refl; reflexivity|]. intros i Hi D. destruct (Z.eqb_spec i k); [contradiction|reflexivity]. }
  rewrite <- S. apply rsum_le. intros i Hi. destruct (Z.eqb_spec i k) as [->|]; [apply Rle_refl|apply N; exact Hi].
Qed.
Lemma rsum2_term n m (f : Z -> Z -> R) a b : (forall i j, (0 <= f i j)%R) -> 0 <= a < n -> 0 <= b < m -> (f a b <= rsum n (fun i => rsum m (fun j => f i j)))%R.
Proof.
  intros N A B. apply Rle_trans with (rsum m (fun j => f a j)).
  - apply (rsum_term m (fun j => f a j)); [intros; apply N|exact B].
  - apply (rsum_term n (fun i => rsum m (fun j => f i j)) a); [|exact A]. intros i _. apply P_calib3.rsum_nonneg. intros; apply N.
Qed.
(** all entries of a kernel, added over all pairs of pixels *)
Definition mass (H W : Z) (K : Z -> Z -> R) : R := rsum H (fun a => rsum W (fun b => rsum H (fun a' => rsum W (fun b' => Rabs (K (a - a')%Z (b - b')%Z))))).
Lemma mass_nonneg H W K : (0 <= mass H W K)%R.
Proof. apply P_calib3.rsum_nonneg. intros a _. apply P_calib3.rsum_nonneg. intros b _. apply P_calib3.rsum_nonneg. intros a' _. apply P_calib3.rsum_nonneg. intros b' _. apply Rabs_pos. Qed.
Lemma mass_bound H W K (f : Z -> Z -> R) B a b : in_rng H a -> in_rng W b -> (0 <= B)%R -> (forall a' b', in_rng H a' -> in_rng W b' -> (Rabs (f a' b') <= B)%R) ->
  (Rabs (rsum H (fun a' => rsum W (fun b' => K (a - a')%Z (b - b')%Z * f a' b'))) <= mass H W K * B)%R.
Proof.
  intros Ha Hb B0 F. eapply Rle_trans; [apply rsum2_abs|]. eapply Rle_trans with (rsum H (fun a' => rsum W (fun b' => Rabs (K (a - a')%Z (b - b')%Z))) * B)%R.
  - rewrite <- rsum_scal_r. apply rsum_le. intros a' Ha'. rewrite <- rsum_scal_r. apply rsum_le. intros b' Hb'. rewrite Rabs_mult. apply Rmult_le_compat_l; [apply Rabs_pos|]. apply F; assumption.
  - apply Rmult_le_compat_r; [exact B0|]. unfold mass.
    apply (rsum2_term H W (fun a b => rsum H (fun a' => rsum W (fun b' => Rabs (K (a - a')%Z (b - b')%Z)))) a b); try assumption.
    intros i j. apply P_calib3.rsum_nonneg. intros a' _. apply P_calib3.rsum_nonneg. intros b' _. apply Rabs_pos.
Qed.
Lemma rho_near h w D e a b : 0 < h -> 0 < w -> in_rng (2 * h) a -> in_rng (2 * w) b -> (e <= 1)%R -> (forall a b, in_rng (2 * h) a -> in_rng (2 * w) b -> (Rabs (D a b) <= e)%R) ->
  (Rabs (rho_at h w D a b - lap_at h w D a b) <= mass (2 * h) (2 * w) (KF h w) * (4 / 3 * e ^ 3))%R.
Proof.
  intros Hh Hw Ha Hb E1 B. assert (E0 : (0 <= e)%R) by (eapply Rle_trans; [apply Rabs_pos|apply (B a b Ha Hb)]).
  rewrite rho_pairs by assumption. unfold lap_at. rewrite <- rsum_sub.
  rewrite (rsum_ext (2 * h) _ (fun a' => rsum (2 * w) (fun b' => KF h w (a - a') (b - b') * (sin (D a' b' - D a b) - (D a' b' - D a b))))%R).
  2:{ intros a' _. rewrite <- rsum_sub. apply rsum_ext. intros b' _. ring. }
  apply (mass_bound (2 * h) (2 * w) (KF h w) (fun a' b' => sin (D a' b' - D a b) - (D a' b' - D a b))%R); try assumption.
  - assert (0 <= e ^ 3)%R by (apply pow_le; exact E0). lra.
  - intros a' b' Ha' Hb'. assert (Q : (Rabs (D a' b' - D a b) <= 2 * e)%R).
    { unfold Rminus. eapply Rle_trans; [apply Rabs_triang|]. rewrite Rabs_Ropp. assert (X := B a b Ha Hb). assert (Y := B a' b' Ha' Hb'). lra. }
    eapply Rle_trans; [apply sin_near; lra|]. assert (P : (Rabs (D a' b' - D a b) ^ 3 <= (2 * e) ^ 3)%R) by (apply pow_incr; split; [apply Rabs_pos|exact Q]).
    replace ((2 * e) ^ 3)%R with (8 * e ^ 3)%R in P by ring. lra.
Qed.
Definition weak_bound (h w : Z) : R := (mass (2 * h) (2 * w) (KB h w) * (mass (2 * h) (2 * w) (KF h w) * (4 / 3)))%R.
Lemma unw_near h w D e a b : 0 < h -> 0 < w -> in_rng (2 * h) a -> in_rng (2 * w) b -> (e <= 1)%R -> (forall a b, in_rng (2 * h) a -> in_rng (2 * w) b -> (Rabs (D a b) <= e)%R) ->
  (Rabs (unw_at h w D a b - (D a b - rsum (2 * h) (fun i => rsum (2 * w) (fun j => D i j)) / (IZR (2 * h) * IZR (2 * w)))) <= weak_bound h w * e ^ 3)%R.
Proof.
  intros Hh Hw Ha Hb E1 B. assert (E0 : (0 <= e)%R) by (eapply Rle_trans; [apply Rabs_pos|apply (B a b Ha Hb)]).
  rewrite <- backward_lap by assumption. rewrite unw_sum by assumption. rewrite <- rsum_sub.
  rewrite (rsum_ext (2 * h) _ (fun a' => rsum (2 * w) (fun b' => KB h w (a - a') (b - b') * (rho_at h w D a' b' - lap_at h w D a' b')))%R).
  2:{ intros a' _. rewrite <- rsum_sub. apply rsum_ext. intros b' _. ring. }
  eapply Rle_trans; [apply (mass_bound (2 * h) (2 * w) (KB h w) (fun a' b' => rho_at h w D a' b' - lap_at h w D a' b')%R (mass (2 * h) (2 * w) (KF h w) * (4 / 3 * e ^ 3))%R a b Ha Hb)|].
  - assert (0 <= e ^ 3)%R by (apply pow_le; exact E0). assert (N := mass_nonneg (2 * h) (2 * w) (KF h w)). apply Rmult_le_pos; lra.
  - intros a' b' Ha' Hb'. apply rho_near; assumption.
  - unfold weak_bound. apply Req_le. ring.
Qed.
Lemma unw_weak (m : img R) e i j : 0 < nrow m -> 0 < ncol m -> in_rng (nrow m) i -> in_rng (ncol m) j -> (e <= 1)%R -> (forall i j, in_rng (nrow m) i -> in_rng (ncol m) j -> (Rabs (px m i j) <= e)%R) ->
  (Rabs (px (unw m) i j - (px m i j - mean_of m)) <= weak_bound (nrow m) (ncol m) * e ^ 3)%R.
Proof.
  intros Hh Hw Hi Hj E1 B. assert (X := unw_near (nrow m) (ncol m) (dbl m) e (i + nrow m) j Hh Hw ltac:(unfold in_rng in *; lia) ltac:(unfold in_rng in *; lia) E1).
  rewrite (quarter (dbl m) (nrow m) (ncol m) Hh Hw) in X.
  2:{ intros a b Ha Hb. apply dbl_mirror_rows; assumption. }
  2:{ intros a b Ha Hb. apply dbl_mirror_cols; assumption. }
  assert (V : forall i j, in_rng (nrow m) i -> in_rng (ncol m) j -> dbl m (i + nrow m) j = px m i j).
  { unfold in_rng. intros a b Ha Hb. unfold dbl, double_image_R. cbn [px]. destruct (Z.ltb_spec (a + nrow m) (nrow m)), (Z.ltb_spec b (ncol m)); try lia; f_equal; lia. }
  rewrite V in X by assumption. cbn [unw px].
  rewrite (rsum_ext (nrow m) (fun i => rsum (ncol m) (fun j => dbl m (i + nrow m) j)) (fun i => rsum (ncol m) (fun j => px m i j))) in X by (intros a Ha; apply rsum_ext; intros b Hb; apply V; assumption).
  unfold mean_of. assert (0 < IZR (nrow m))%R by (apply (IZR_lt 0); assumption). assert (0 < IZR (ncol m))%R by (apply (IZR_lt 0); assumption).
  replace (4 * rsum (nrow m) (fun i => rsum (ncol m) (fun j => px m i j)) / (IZR (2 * nrow m) * IZR (2 * ncol m)))%R with (rsum (nrow m) (fun i => rsum (ncol m) (fun j => px m i j)) / (IZR (nrow m) * IZR (ncol m)))%R in X by (rewrite !mult_IZR; field; lra).
  apply X. intros a b Ha Hb. destruct (dbl_in m a b Ha Hb) as (x & y & Hx & Hy & Q). rewrite Q by reflexivity. apply B; assumption.
Qed.
