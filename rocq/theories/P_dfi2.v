(** Proofs about direct Fourier inversion: centred spectra and their inverse. *)
From Coq Require Import Reals Lra ZArith Lia Bool List. Import ListNotations.
From Verif Require Import Np P_Np M_phase_R P_phase_R M_simR S_simR P_simR P_simR2 P_simR4 M_dfi S_dfi.
Open Scope Z_scope.

Section centred.
Variable c : Z.
Hypothesis Hc : 0 <= c.
Let n := 2 * c + 1.
Lemma n_pos : 0 < n. Proof. unfold n. lia. Qed.
Lemma n_half : n / 2 = c.
Proof. unfold n. replace (2 * c + 1) with (1 + c * 2) by lia. rewrite Z_div_plus_full by lia. change (1 / 2) with 0. lia. Qed.
(** a sum over k of f ((k + c) mod n, k), when the second argument counts modulo n *)
Lemma unshift (f : Z -> Z -> R) : (forall i a b, a mod n = b mod n -> f i a = f i b) -> rsum n (fun k => f (ifftshift_idx n k) k) = rsum n (fun i => f i (i - c)).
Proof.
  intros P. assert (N := n_pos). rewrite <- (rsum_cyclic n c (fun i => f i (i - c))) by exact N. apply rsum_ext. intros k Hk.
  unfold ifftshift_idx. rewrite n_half. apply P. rewrite Zminus_mod_idemp_l. f_equal; lia.
Qed.
Lemma centred_cos d : rsum n (fun i => cos (2 * PI * IZR ((i - c) * d) / IZR n)) = if d mod n =? 0 then IZR n else 0%R.
Proof.
  assert (N := n_pos). rewrite <- cos_sum by exact N.
  rewrite <- (rsum_cyclic n (- c) (fun k => cos (2 * PI * IZR (k * d) / IZR n))) by exact N. apply rsum_ext. intros k Hk. apply cos_mod; [lia|].
  rewrite Z.mul_mod_idemp_l by lia. f_equal; lia.
Qed.
Lemma centred_sin d : rsum n (fun i => sin (2 * PI * IZR ((i - c) * d) / IZR n)) = 0%R.
Proof.
  assert (N := n_pos). rewrite <- (sin_sum n d) by exact N.
  rewrite <- (rsum_cyclic n (- c) (fun k => sin (2 * PI * IZR (k * d) / IZR n))) by exact N. apply rsum_ext. intros k Hk. apply sin_mod; [lia|].
  rewrite Z.mul_mod_idemp_l by lia. f_equal; lia.
Qed.
Lemma centred_kernel d e : rsum n (fun i => rsum n (fun j => cos (2 * PI * IZR ((i - c) * d + (j - c) * e) / IZR n))) =
  if (d mod n =? 0) && (e mod n =? 0) then (IZR n * IZR n)%R else 0%R.
Proof.
  assert (N0 : (IZR n <> 0)%R) by (apply not_0_IZR; assert (Q := n_pos); lia).
  transitivity (rsum n (fun i => cos (2 * PI * IZR ((i - c) * d) / IZR n) * (if e mod n =? 0 then IZR n else 0)))%R.
  { apply rsum_ext. intros i Hi. rewrite <- centred_cos.
    transitivity (rsum n (fun j => cos (2 * PI * IZR ((i - c) * d) / IZR n) * cos (2 * PI * IZR ((j - c) * e) / IZR n)
      - sin (2 * PI * IZR ((i - c) * d) / IZR n) * sin (2 * PI * IZR ((j - c) * e) / IZR n)))%R.
    - apply rsum_ext. intros j Hj. rewrite <- cos_plus. f_equal. rewrite plus_IZR. field. exact N0.
    - rewrite rsum_sub, !rsum_scal, centred_sin. ring. }
  rewrite rsum_scal_r, centred_cos. destruct (d mod n =? 0), (e mod n =? 0); cbn [andb]; ring.
Qed.

(** the spectrum of the rows, before the window *)
Lemma row_spectrum (m : img R) t k : ncol m = n -> in_rng n k ->
  (px (row_fftshift (row_fft_re (row_ifftshift m))) t k, px (row_fftshift (row_fft_im (row_ifftshift m))) t k) = view_spectrum c m t k.
Proof.
  intros Hm Hk. assert (N := n_pos). unfold row_fftshift, row_fft_re, row_fft_im, row_ifftshift. cbn [px ncol nrow]. rewrite Hm.
  unfold view_spectrum. fold n.
  assert (E : forall b, ((k - c) * (b - c)) mod n = (fftshift_idx n k * (b - c)) mod n).
  { intros b. unfold fftshift_idx. rewrite n_half. rewrite Z.mul_mod_idemp_l by lia. reflexivity. }
  f_equal.
  - rewrite (unshift (fun i a => px m t i * cos (2 * PI * IZR (fftshift_idx n k * a) / IZR n))%R).
    + apply rsum_ext. intros b Hb. f_equal. apply cos_mod; [lia|]. symmetry. apply E.
    + intros i a b Hab. f_equal. apply cos_mod; [lia|]. rewrite Z.mul_mod, Hab, <- Z.mul_mod by lia. reflexivity.
  - f_equal. rewrite (unshift (fun i a => px m t i * sin (2 * PI * IZR (fftshift_idx n k * a) / IZR n))%R).
    + apply rsum_ext. intros b Hb. f_equal. apply sin_mod; [lia|]. symmetry. apply E.
    + intros i a b Hab. f_equal. apply sin_mod; [lia|]. rewrite Z.mul_mod, Hab, <- Z.mul_mod by lia. reflexivity.
Qed.

(** the inverse transform, written with centred frequencies and positions *)
Lemma centred_inverse (re im : img R) p q : nrow re = n -> ncol re = n -> nrow im = n -> ncol im = n -> in_rng n p -> in_rng n q ->
  px (fftshift2 (real_ifft2 (ifftshift2 re) (ifftshift2 im))) p q =
  (/ (IZR n * IZR n) * rsum n (fun i => rsum n (fun j =>
     px re i j * cos (2 * PI * IZR ((i - c) * (p - c) + (j - c) * (q - c)) / IZR n) - px im i j * sin (2 * PI * IZR ((i - c) * (p - c) + (j - c) * (q - c)) / IZR n))))%R.
Proof.
  intros R1 R2 I1 I2 Hp Hq. assert (N := n_pos). assert (N0 : (IZR n <> 0)%R) by (apply not_0_IZR; lia).
  unfold fftshift2, real_ifft2, ifftshift2. cbn [px nrow ncol]. rewrite R1, R2, I1, I2. f_equal.
  set (a := fftshift_idx n p). set (b := fftshift_idx n q).
  assert (Ea : forall u, (u * a) mod n = (u * (p - c)) mod n).
  { intros u. unfold a, fftshift_idx. rewrite n_half. rewrite Z.mul_mod_idemp_r by lia. reflexivity. }
  assert (Eb : forall u, (u * b) mod n = (u * (q - c)) mod n).
  { intros u. unfold b, fftshift_idx. rewrite n_half. rewrite Z.mul_mod_idemp_r by lia. reflexivity. }
  assert (Eq : forall u v u' v', u mod n = u' mod n -> v mod n = v' mod n -> (u * (p - c) + v * (q - c)) mod n = (u' * (p - c) + v' * (q - c)) mod n).
  { intros u v u' v' Hu Hv. rewrite Z.add_mod by lia. rewrite (Z.mul_mod u), (Z.mul_mod v), Hu, Hv, <- !Z.mul_mod, <- Z.add_mod by lia. reflexivity. }
  set (G := fun i j u v => (px re i j * cos (2 * PI * IZR (u * (p - c) + v * (q - c)) / IZR n) - px im i j * sin (2 * PI * IZR (u * (p - c) + v * (q - c)) / IZR n))%R).
  assert (GP : forall i j u v u' v', u mod n = u' mod n -> v mod n = v' mod n -> G i j u v = G i j u' v').
  { intros i j u v u' v' Hu Hv. unfold G. rewrite (cos_mod n _ _ ltac:(lia) (Eq u v u' v' Hu Hv)), (sin_mod n _ _ ltac:(lia) (Eq u v u' v' Hu Hv)). reflexivity. }
  transitivity (rsum n (fun u => rsum n (fun v => G (ifftshift_idx n u) (ifftshift_idx n v) u v))).
  { apply rsum_ext. intros u Hu. apply rsum_ext. intros v Hv. unfold G.
    replace (2 * PI * (IZR (u * a) / IZR n + IZR (v * b) / IZR n))%R with (2 * PI * IZR (u * a + v * b) / IZR n)%R by (rewrite plus_IZR; field; exact N0).
    assert (Q : (u * a + v * b) mod n = (u * (p - c) + v * (q - c)) mod n) by (rewrite Z.add_mod, Ea, Eb, <- Z.add_mod by lia; reflexivity).
    rewrite (cos_mod n _ _ ltac:(lia) Q), (sin_mod n _ _ ltac:(lia) Q). reflexivity. }
  transitivity (rsum n (fun u => rsum n (fun j => G (ifftshift_idx n u) j u (j - c)))).
  { apply rsum_ext. intros u Hu. apply (unshift (fun j v => G (ifftshift_idx n u) j u v)). intros j x y Hxy. apply GP; [reflexivity|exact Hxy]. }
  rewrite (unshift (fun i u => rsum n (fun j => G i j u (j - c)))).
  - reflexivity.
  - intros i x y Hxy. apply rsum_ext. intros j Hj. apply GP; [exact Hxy|reflexivity].
Qed.
Lemma spectrum_inverse (m re im : img R) p q : nrow re = n -> ncol re = n -> nrow im = n -> ncol im = n -> in_rng n p -> in_rng n q ->
  (forall i j, in_rng n i -> in_rng n j -> (px re i j, px im i j) = image_spectrum c m i j) ->
  px (fftshift2 (real_ifft2 (ifftshift2 re) (ifftshift2 im))) p q = px m p q.
Proof.
  intros R1 R2 I1 I2 Hp Hq H. assert (N := n_pos). assert (N0 : (IZR n <> 0)%R) by (apply not_0_IZR; lia).
  rewrite centred_inverse by assumption.
  transitivity (/ (IZR n * IZR n) * rsum n (fun i => rsum n (fun j => rsum n (fun a => rsum n (fun b =>
      px m a b * cos (2 * PI * IZR ((i - c) * (p - a) + (j - c) * (q - b)) / IZR n))))))%R.
  { f_equal. apply rsum_ext. intros i Hi. apply rsum_ext. intros j Hj.
    assert (E := H i j Hi Hj). unfold image_spectrum in E. assert (E1 := f_equal fst E). assert (E2 := f_equal snd E). cbn [fst snd] in E1, E2. rewrite E1, E2. fold n.
    set (Y := (2 * PI * IZR ((i - c) * (p - c) + (j - c) * (q - c)) / IZR n)%R).
    match goal with |- (?A * ?B - - ?C * ?D = _)%R => replace (A * B - - C * D)%R with (A * B + C * D)%R by ring end.
    rewrite <- !rsum_scal_r, <- rsum_add. apply rsum_ext. intros a Ha. rewrite <- !rsum_scal_r, <- rsum_add. apply rsum_ext. intros b Hb.
    replace (2 * PI * IZR ((i - c) * (p - a) + (j - c) * (q - b)) / IZR n)%R with (Y - 2 * PI * IZR ((i - c) * (a - c) + (j - c) * (b - c)) / IZR n)%R.
    - rewrite cos_minus. ring.
    - unfold Y. replace ((i - c) * (p - a) + (j - c) * (q - b)) with (((i - c) * (p - c) + (j - c) * (q - c)) - ((i - c) * (a - c) + (j - c) * (b - c))) by ring. rewrite minus_IZR. field. exact N0. }
  transitivity (/ (IZR n * IZR n) * rsum n (fun a => rsum n (fun b => px m a b * (if ((p - a) mod n =? 0) && ((q - b) mod n =? 0) then IZR n * IZR n else 0))))%R.
  { f_equal.
    transitivity (rsum n (fun i => rsum n (fun a => rsum n (fun b => rsum n (fun j => px m a b * cos (2 * PI * IZR ((i - c) * (p - a) + (j - c) * (q - b)) / IZR n)))))%R).
    { apply rsum_ext. intros i Hi. rewrite rsum_swap. apply rsum_ext. intros a Ha. apply rsum_swap. }
    rewrite rsum_swap. apply rsum_ext. intros a Ha. rewrite rsum_swap. apply rsum_ext. intros b Hb.
    rewrite <- centred_kernel. rewrite <- rsum_scal. apply rsum_ext. intros i Hi. apply rsum_scal. }
  rewrite (rsum_single n _ p); [|exact Hp|].
  - rewrite (rsum_single n _ q); [|exact Hq|].
    + rewrite !Z.sub_diag, Z.mod_0_l by lia. cbn. field. exact N0.
    + intros b Hb Hbq. replace ((q - b) mod n =? 0) with false; [rewrite andb_false_r; ring|]. symmetry. apply Z.eqb_neq. intros C.
      apply Z.mod_divide in C; [|lia]. destruct C as (z & C). unfold in_rng in *. assert (z = 0) by nia. lia.
  - intros a Ha Hap. rewrite (rsum_ext n _ (fun _ => 0%R)); [rewrite rsum_const by lia; ring|]. intros b Hb.
    replace ((p - a) mod n =? 0) with false; [cbn [andb]; ring|]. symmetry. apply Z.eqb_neq. intros C.
    apply Z.mod_divide in C; [|lia]. destruct C as (z & C). unfold in_rng in *. assert (z = 0) by nia. lia.
Qed.
End centred.

(** ** the map from the pixels of the spectrum to the spectra of the views *)
Section mapping.
Variables (atan2 : R -> R -> R) (c h : Z).
Hypothesis (Hat : polar_angle atan2) (Hc : 0 <= c) (Hh : 2 <= h).
Lemma mapping_geometry i j : in_rng (2 * c + 1) i -> in_rng (2 * c + 1) j -> in_circle c i j ->
  let '(r, t) := generate_mapping_coordinate atan2 (2 * c + 1) h (2 * c + 1) (2 * c + 1) i j in
  (0 <= r <= IZR (2 * c))%R /\ (0 <= t <= IZR h - 1)%R /\ same_frequency c h r t i j.
Proof.
  intros Hi Hj Hin. unfold generate_mapping_coordinate, in_circle, in_rng in *. assert (P := PI_RGT_0).
  assert (C0 : (0 <= IZR c)%R) by (apply IZR_le; lia).
  replace ((IZR (2 * c + 1) - 1) * 0.5)%R with (IZR c) by (rewrite plus_IZR, mult_IZR; lra).
  rewrite Rmin_left by lra. replace (Int_part (IZR c)) with c by (symmetry; apply Int_part_unique; lra).
  replace (IZR (2 * c + 1) - 1)%R with (IZR (2 * c)) by (rewrite plus_IZR; lra).
  replace (IZR (2 * c + 1 - 1 - j) - IZR c)%R with (IZR (c - j)) by (rewrite <- minus_IZR; f_equal; lia).
  replace (IZR i - IZR c)%R with (IZR (i - c)) by (rewrite <- minus_IZR; reflexivity).
  set (x := IZR (c - j)). set (y := IZR (i - c)).
  destruct (Hat x y) as (B & E1 & E2). set (a := atan2 y x) in *. set (rho := sqrt (x ^ 2 + y ^ 2)) in *.
  assert (R0 : (0 <= rho)%R) by apply sqrt_pos.
  assert (R1 : (rho <= IZR c)%R).
  { unfold rho. rewrite <- (sqrt_Rsqr (IZR c)) by exact C0. apply sqrt_le_1_alt. unfold Rsqr, x, y. rewrite !pow_IZR, <- plus_IZR, <- mult_IZR. apply IZR_le. change (Z.of_nat 2) with 2. nia. }
  assert (K : rclip rho 0 (IZR c) = rho) by (unfold rclip; rewrite Rmax_left, Rmin_left by lra; reflexivity).
  rewrite K.
  assert (H1 : (0 < IZR h - 1)%R) by (rewrite <- minus_IZR; apply IZR_lt; lia).
  assert (C2 : IZR (2 * c) = (2 * IZR c)%R) by apply mult_IZR.
  assert (Hx : IZR (j - c) = (- x)%R) by (unfold x; rewrite <- opp_IZR; f_equal; lia).
  assert (Hy : IZR (c - i) = (- y)%R) by (unfold y; rewrite <- opp_IZR; f_equal; lia).
  destruct (Rlt_dec PI (PI + a)) as [L|L].
  - assert (K2 : rclip (- rho + IZR c) 0 (IZR (2 * c)) = (- rho + IZR c)%R) by (unfold rclip; rewrite Rmax_left, Rmin_left by lra; reflexivity).
    rewrite K2. replace (PI + a - PI)%R with a by ring. split; [lra|]. split.
    + split.
      * apply Rmult_le_pos; [apply Rmult_le_pos; lra|apply Rlt_le, Rinv_0_lt_compat, P].
      * apply (Rmult_le_reg_r PI); [exact P|]. replace (a * (IZR h - 1) / PI * PI)%R with (a * (IZR h - 1))%R by (field; lra). rewrite (Rmult_comm _ PI). apply Rmult_le_compat_r; lra.
    + unfold same_frequency. replace (a * (IZR h - 1) / PI * PI / (IZR h - 1))%R with a by (field; lra). rewrite Hx, Hy. split.
      * replace ((- rho + IZR c - IZR c) * cos a)%R with (- (rho * cos a))%R by ring. rewrite E1. reflexivity.
      * replace ((- rho + IZR c - IZR c) * sin a)%R with (- (rho * sin a))%R by ring. rewrite E2. reflexivity.
  - assert (K2 : rclip (rho + IZR c) 0 (IZR (2 * c)) = (rho + IZR c)%R) by (unfold rclip; rewrite Rmax_left, Rmin_left by lra; reflexivity).
    rewrite K2. split; [lra|]. split.
    + split.
      * apply Rmult_le_pos; [apply Rmult_le_pos; lra|apply Rlt_le, Rinv_0_lt_compat, P].
      * apply (Rmult_le_reg_r PI); [exact P|]. replace ((PI + a) * (IZR h - 1) / PI * PI)%R with ((PI + a) * (IZR h - 1))%R by (field; lra). rewrite (Rmult_comm _ PI). apply Rmult_le_compat_r; lra.
    + unfold same_frequency. replace ((PI + a) * (IZR h - 1) / PI * PI / (IZR h - 1))%R with (a + PI)%R by (field; lra). rewrite Hx, Hy, neg_cos, neg_sin. split.
      * replace ((rho + IZR c - IZR c) * - cos a)%R with (- (rho * cos a))%R by ring. rewrite E1. reflexivity.
      * replace ((rho + IZR c - IZR c) * - sin a)%R with (- (rho * sin a))%R by ring. rewrite E2. reflexivity.
Qed.
Lemma circle_mask_in i j : px (circle_mask (2 * c + 1) 1) i j = if (i - c) * (i - c) + (j - c) * (j - c) <=? c * c then 1%R else 0%R.
Proof.
  unfold circle_mask. cbn [px]. rewrite n_half. rewrite Rmult_1_l, <- mult_IZR.
  destruct (Rle_dec _ _) as [L|L], (Z.leb_spec ((i - c) * (i - c) + (j - c) * (j - c)) (c * c)) as [M|M]; try reflexivity.
  - apply le_IZR in L. lia.
  - exfalso. apply L. apply IZR_le. lia.
Qed.
Lemma slice_inverts interp (sino image : img R) p q : nrow sino = h -> ncol sino = 2 * c + 1 -> slices_of_image interp c sino image -> band_limited c image ->
  in_rng (2 * c + 1) p -> in_rng (2 * c + 1) q -> px (dfi_single_slice atan2 interp None sino) p q = px image p q.
Proof.
  intros Hr Hn HS HB Hp Hq. unfold dfi_single_slice. rewrite Hn, Hr.
  apply (spectrum_inverse c Hc image); try reflexivity; try assumption.
  intros i j Hi Hj. cbn [px]. rewrite circle_mask_in.
  assert (M := mapping_geometry i j Hi Hj).
  destruct (generate_mapping_coordinate atan2 (2 * c + 1) h (2 * c + 1) (2 * c + 1) i j) as [r t].
  destruct (Z.leb_spec ((i - c) * (i - c) + (j - c) * (j - c)) (c * c)) as [L|L].
  - destruct (M L) as (B1 & B2 & F). rewrite !Rmult_1_r. apply HS; try assumption.
    + unfold spectrum_re, spectrum_im, windowed, row_fftshift, row_fft_re, row_fft_im, row_ifftshift. cbn [nrow ncol]. auto.
    + intros t0 k Ht Hk. apply row_spectrum; assumption.
    + rewrite Hr. exact B2.
    + rewrite Hr. exact F.
  - rewrite !Rmult_0_r. symmetry. apply HB; try assumption. unfold in_circle. lia.
Qed.
End mapping.
