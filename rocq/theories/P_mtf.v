(** Proofs about the deconvolution. *)
From Coq Require Import Reals Lra ZArith Lia Bool.
From Verif Require Import Np P_Np M_phase_R P_phase_R M_simR P_simR M_fourier P_fourier P_kernel M_fresnel P_fresnel M_speckle M_mtf S_mtf.
Open Scope Z_scope.

Lemma reflect_source_in n k : 1 <= n -> 0 <= reflect_source n k < n.
Proof.
  intros Hn. unfold reflect_source. destruct (Z.eqb_spec n 1); [lia|]. cbv zeta.
  assert (B := Z.mod_pos_bound k (2 * (n - 1)) ltac:(lia)). destruct (Z.ltb_spec (k mod (2 * (n - 1))) n); lia.
Qed.
Lemma reflect_source_id n k : 0 <= k < n -> reflect_source n k = k.
Proof.
  intros Hk. unfold reflect_source. destruct (Z.eqb_spec n 1); [lia|]. cbv zeta. rewrite Z.mod_small by lia. replace (k <? n) with true by lia. reflexivity.
Qed.
Lemma pad_ones_inside m pad i j : in_rng (nrow m) i -> in_rng (ncol m) j -> px (pad_ones m pad) (i + pad) (j + pad) = px m i j.
Proof.
  unfold in_rng. intros Hi Hj. unfold pad_ones. cbn [px]. replace ((pad <=? i + pad) && (i + pad <? nrow m + pad) && (pad <=? j + pad) && (j + pad <? ncol m + pad)) with true by lia.
  f_equal; lia.
Qed.
(** the value of the result *)
Definition mpad (mat window : img R) (pad i j : Z) : R :=
  px (extend_edge mat (nrow window - nrow mat) (ncol window - ncol mat)) (reflect_source (nrow window) (i - pad)) (reflect_source (ncol window) (j - pad)).
Definition mtf_at (mat window : img R) (pad i j : Z) : R :=
  fst (spectral (nrow window + 2 * pad) (ncol window + 2 * pad) (fun a b => c_ (mpad mat window pad a b))
    (fun u v => / px (pad_ones window pad) (ifftshift_idx (nrow window + 2 * pad) u) (ifftshift_idx (ncol window + 2 * pad) v))%R (i + pad) (j + pad)).
Lemma mtf_value mat window pad : 1 <= nrow mat <= nrow window -> 1 <= ncol mat <= ncol window -> 0 <= pad ->
  exists out, mtf_deconvolution mat window pad = Ok out /\ nrow out = nrow mat /\ ncol out = ncol mat /\
    forall i j, in_rng (nrow mat) i -> in_rng (ncol mat) j -> px out i j = mtf_at mat window pad i j.
Proof.
  intros Hr Hc Hp. unfold mtf_deconvolution. cbv zeta.
  replace ((nrow window <? nrow mat) || (ncol window <? ncol mat)) with false by lia.
  replace ((nrow mat <=? 0) || (ncol mat <=? 0) || (pad <? 0)) with false by lia. cbv iota.
  set (m := extend_edge mat _ _). assert (M1 : nrow m = nrow window) by (unfold m, extend_edge; cbn [nrow]; lia). assert (M2 : ncol m = ncol window) by (unfold m, extend_edge; cbn [ncol]; lia).
  unfold pad_reflect. rewrite M1, M2. replace ((nrow window <=? 0) || (ncol window <=? 0)) with false by lia. cbn [bindr].
  set (P := mkimg (nrow window + 2 * pad) (ncol window + 2 * pad) _).
  assert (P1 : nrow P = nrow window + 2 * pad) by reflexivity. assert (P2 : ncol P = ncol window + 2 * pad) by reflexivity.
  eexists. split; [reflexivity|]. cbn [islice nrow ncol px]. rewrite dec2_size1, dec2_size2, P1, P2. rewrite (slen_id (nrow window + 2 * pad) pad (nrow window + pad)), (slen_id (ncol window + 2 * pad) pad (ncol window + pad)) by lia. rewrite !slen_id by lia.
  split; [lia|]. split; [lia|]. unfold in_rng. intros i j Hi Hj. rewrite !py_adj_id by lia. rewrite !Z.add_0_l, (Z.add_comm pad i), (Z.add_comm pad j).
  rewrite dec2_at by reflexivity. rewrite P1, P2. reflexivity.
Qed.
Lemma mtf_rejects mat window pad : nrow window < nrow mat \/ ncol window < ncol mat -> mtf_deconvolution mat window pad = Err ValueError.
Proof. intros H. unfold mtf_deconvolution. cbv zeta. replace ((nrow window <? nrow mat) || (ncol window <? ncol mat)) with true by lia. reflexivity. Qed.

(** ** the spectrum of a blurred image *)
Lemma rsum_turn n f : 0 < n -> rsum n (fun k => f ((- k) mod n)) = rsum n f.
Proof.
  intros Hn. rewrite <- (rsum_rev n f) by lia.
  pose proof (csum_cyclic n 1 (fun k => c_ (f ((- k) mod n))) Hn) as C.
  assert (C1 : rsum n (fun k => f ((- ((k + 1) mod n)) mod n)) = rsum n (fun k => f ((- k) mod n))) by exact (f_equal fst C).
  rewrite <- C1. apply rsum_ext. intros k Hk. f_equal.
  replace (- ((k + 1) mod n)) with (0 - (k + 1) mod n) by lia. rewrite Zminus_mod_idemp_r. symmetry. apply Zmod_unique with (q := -1); lia.
Qed.
Section blur.
Context (h w : Z) (Hh : 0 < h) (Hw : 0 < w) (psf : Z -> Z -> R) (Hs : symmetric_psf h w psf).
Definition transfer (u v : Z) : R := rsum h (fun d => rsum w (fun e => (psf d e * cos (2 * PI * (IZR (u * d) / IZR h + IZR (v * e) / IZR w)))%R)).
Definition angle (u v d e : Z) : R := (2 * PI * (IZR (u * d) / IZR h + IZR (v * e) / IZR w))%R.
Lemma root_angle u v d e : cmul (root h (- (u * d))) (root w (- (v * e))) = (cos (angle u v d e), (- sin (angle u v d e))%R).
Proof.
  unfold angle. rewrite !root_opp. unfold root, cconj, cmul; cbn [fst snd].
  replace (2 * PI * (IZR (u * d) / IZR h + IZR (v * e) / IZR w))%R with (2 * PI * IZR (u * d) / IZR h + 2 * PI * IZR (v * e) / IZR w)%R by (unfold Rdiv; ring).
  rewrite cos_plus, sin_plus. apply cx_eq; cbn [fst snd]; ring.
Qed.
Lemma angle_turn u v d e : sin (angle u v ((- d) mod h) ((- e) mod w)) = (- sin (angle u v d e))%R.
Proof.
  assert (A : cmul (root h (- (u * ((- d) mod h)))) (root w (- (v * ((- e) mod w)))) = cmul (root h (- (u * - d))) (root w (- (v * - e)))).
  { f_equal; apply root_mod; try lia.
    - replace (- (u * ((- d) mod h))) with (- u * ((- d) mod h)) by ring. rewrite Z.mul_mod_idemp_r by lia. f_equal. ring.
    - replace (- (v * ((- e) mod w))) with (- v * ((- e) mod w)) by ring. rewrite Z.mul_mod_idemp_r by lia. f_equal. ring. }
  rewrite !root_angle in A. apply (f_equal snd) in A. cbn [snd] in A.
  assert (B : angle u v (- d) (- e) = (- angle u v d e)%R).
  { unfold angle. replace (u * - d) with (- (u * d)) by ring. replace (v * - e) with (- (v * e)) by ring. rewrite !opp_IZR. unfold Rdiv. ring. }
  rewrite B, sin_neg in A. lra.
Qed.
Lemma odd_part u v : rsum h (fun d => rsum w (fun e => (psf d e * sin (angle u v d e))%R)) = 0%R.
Proof.
  set (s := rsum h _).
  assert (E : s = (- s)%R); [|lra].
  unfold s at 1. rewrite <- rsum_turn by exact Hh.
  transitivity (rsum h (fun d => rsum w (fun e => (-1 * (psf d e * sin (angle u v d e)))%R))).
  - apply rsum_ext. intros d Hd. rewrite <- rsum_turn by exact Hw. apply rsum_ext. intros e He. rewrite Hs by assumption. rewrite angle_turn. ring.
  - unfold s. replace (- rsum h (fun d => rsum w (fun e => psf d e * sin (angle u v d e))))%R with (-1 * rsum h (fun d => rsum w (fun e => psf d e * sin (angle u v d e))))%R by ring.
    rewrite <- rsum_scal. apply rsum_ext. intros d _. rewrite rsum_scal. reflexivity.
Qed.
Lemma psf_spectrum u v : csum h (fun d => csum w (fun e => cmul (c_ (psf d e)) (cmul (root h (- (u * d))) (root w (- (v * e)))))) = c_ (transfer u v).
Proof.
  transitivity (csum h (fun d => csum w (fun e => ((psf d e * cos (angle u v d e))%R, (-1 * (psf d e * sin (angle u v d e)))%R)))).
  { apply csum_ext. intros d _. apply csum_ext. intros e _. rewrite root_angle. apply cx_eq; unfold cmul, c_; cbn [fst snd]; ring. }
  apply cx_eq; unfold csum, c_; cbn [fst snd]; [reflexivity|].
  transitivity (-1 * rsum h (fun d => rsum w (fun e => (psf d e * sin (angle u v d e))%R)))%R; [|rewrite odd_part; ring].
  rewrite <- rsum_scal. apply rsum_ext. intros d _. rewrite rsum_scal. reflexivity.
Qed.
Lemma blur_spectrum (s b : Z -> Z -> R) u v :
  (forall i j, in_rng h i -> in_rng w j -> b i j = rsum h (fun d => rsum w (fun e => (psf d e * s ((i - d) mod h)%Z ((j - e) mod w)%Z)%R))) ->
  px (fft2 (mkimg h w (fun i j => c_ (b i j)))) u v = cmul (px (fft2 (mkimg h w (fun i j => c_ (s i j)))) u v) (c_ (transfer u v)).
Proof.
  intros Hb. set (S := px (fft2 (mkimg h w (fun i j => c_ (s i j)))) u v).
  transitivity (csum h (fun d => csum w (fun e => cmul (c_ (psf d e)) (cmul S (cmul (root h (- (u * d))) (root w (- (v * e)))))))).
  - transitivity (csum h (fun d => csum w (fun e => cmul (c_ (psf d e)) (px (fft2 (mkimg h w (fun i j => c_ (s ((i - d) mod h) ((j - e) mod w))))) u v)))).
    + cbn [px fft2 nrow ncol].
      transitivity (csum h (fun a => csum w (fun b0 => csum h (fun d => csum w (fun e =>
        cmul (c_ (psf d e)) (cmul (c_ (s ((a - d) mod h) ((b0 - e) mod w))) (cmul (root h (- (u * a))) (root w (- (v * b0)))))))))).
      { apply csum_ext. intros a Ha. apply csum_ext. intros b0 Hb0. rewrite Hb by assumption.
        transitivity (cmul (csum h (fun d => csum w (fun e => c_ (psf d e * s ((a - d) mod h) ((b0 - e) mod w))))) (cmul (root h (- (u * a))) (root w (- (v * b0))))).
        - f_equal. apply cx_eq; unfold csum, c_; cbn [fst snd]; [reflexivity|]. symmetry. rewrite (rsum_ext h _ (fun _ => 0%R)); [apply rsum_zero|intros; apply rsum_zero].
        - rewrite <- csum_scal_r. apply csum_ext. intros d _. rewrite <- csum_scal_r. apply csum_ext. intros e _.
          apply cx_eq; unfold cmul, c_; cbn [fst snd]; ring. }
      transitivity (csum h (fun a => csum h (fun d => csum w (fun e => csum w (fun b0 =>
        cmul (c_ (psf d e)) (cmul (c_ (s ((a - d) mod h) ((b0 - e) mod w))) (cmul (root h (- (u * a))) (root w (- (v * b0)))))))))).
      { apply csum_ext. intros a _. rewrite csum_swap. apply csum_ext. intros d _. apply csum_swap. }
      rewrite csum_swap. apply csum_ext. intros d _. rewrite csum_swap. apply csum_ext. intros e _.
      rewrite <- csum_scal. apply csum_ext. intros a _. rewrite <- csum_scal. reflexivity.
    + apply csum_ext. intros d _. apply csum_ext. intros e _. f_equal.
      rewrite (fft2_shift (mkimg h w (fun i j => c_ (s i j))) _ d e); [reflexivity|exact Hh|exact Hw|reflexivity|reflexivity|].
      intros a b0 _ _. reflexivity.
  - rewrite <- (psf_spectrum u v). rewrite <- csum_scal. apply csum_ext. intros d _. rewrite <- csum_scal. apply csum_ext. intros e _. ring.
Qed.
End blur.
Lemma transfer_mod h w psf u v : 0 < h -> 0 < w -> transfer h w psf (u mod h) (v mod w) = transfer h w psf u v.
Proof.
  intros Hh Hw. unfold transfer. apply rsum_ext. intros d _. apply rsum_ext. intros e _. f_equal.
  assert (A : cmul (root h (- (u mod h * d))) (root w (- (v mod w * e))) = cmul (root h (- (u * d))) (root w (- (v * e)))).
  { f_equal; apply root_mod; try lia.
    - replace (- (u mod h * d)) with (u mod h * - d) by ring. rewrite Z.mul_mod_idemp_l by lia. f_equal. ring.
    - replace (- (v mod w * e)) with (v mod w * - e) by ring. rewrite Z.mul_mod_idemp_l by lia. f_equal. ring. }
  rewrite !root_angle in A. exact (f_equal fst A).
Qed.
Lemma mtf_restores sharp blurred window psf : 1 <= nrow sharp -> 1 <= ncol sharp -> nrow window = nrow sharp -> ncol window = ncol sharp ->
  symmetric_psf (nrow sharp) (ncol sharp) psf -> blurred_by psf sharp blurred -> mtf_of psf window -> no_zeros window ->
  exists out, mtf_deconvolution blurred window 0 = Ok out /\ same_image out sharp.
Proof.
  intros Hh Hw E1 E2 Hs (B1 & B2 & B3) Hm Hz.
  destruct (mtf_value blurred window 0) as (out & O1 & O2 & O3 & O4); [lia|lia|lia|]. exists out. split; [exact O1|]. split; [lia|]. split; [lia|].
  rewrite O2, O3, B1, B2. rewrite B1, B2 in O4. intros i j Hi Hj. rewrite O4 by assumption. unfold mtf_at. rewrite E1, E2. rewrite !Z.mul_0_r, !Z.add_0_r.
  set (h := nrow sharp) in *. set (w := ncol sharp) in *.
  rewrite (spectral_ext h w _ (fun a b => c_ (px blurred a b)) _ (fun u v => / transfer h w psf u v)%R).
  - unfold spectral. transitivity (fst (px (ifft2 (fft2 (mkimg h w (fun i j => c_ (px sharp i j))))) i j)).
    + f_equal. cbn [px ifft2 nrow ncol]. f_equal. apply csum_ext. intros u Hu. apply csum_ext. intros v Hv. f_equal.
      rewrite (blur_spectrum h w ltac:(lia) ltac:(lia) psf Hs (px sharp) (px blurred) u v B3).
      assert (N : transfer h w psf u v <> 0%R).
      { unfold no_zeros in Hz. specialize (Hz (ifftshift_idx h u) (ifftshift_idx w v)). unfold mtf_of in Hm. specialize (Hm (ifftshift_idx h u) (ifftshift_idx w v)). rewrite E1, E2 in Hz, Hm.
        assert (R1 : in_rng h (ifftshift_idx h u)) by (apply Z.mod_pos_bound; lia). assert (R2 : in_rng w (ifftshift_idx w v)) by (apply Z.mod_pos_bound; lia).
        specialize (Hz R1 R2). rewrite (Hm R1 R2) in Hz. intros C. apply Hz. rewrite <- C. rewrite <- (transfer_mod h w psf u v) by lia.
        change (transfer h w psf (ifftshift_idx h u - h / 2) (ifftshift_idx w v - w / 2) = transfer h w psf (u mod h) (v mod w)).
        rewrite <- (transfer_mod h w psf (ifftshift_idx h u - h / 2)) by lia. unfold ifftshift_idx. rewrite !Zminus_mod_idemp_l, !Z.add_simpl_r. reflexivity. }
      set (F := px (fft2 (mkimg h w (fun i j => c_ (px sharp i j)))) u v). transitivity (cmul F (cmul (c_ (transfer h w psf u v)) (c_ (/ transfer h w psf u v)))); [ring|].
      transitivity (cmul F (c_ 1)); [|ring]. f_equal. apply cx_eq; unfold cmul, c_; cbn [fst snd]; [field; exact N|ring].
    + rewrite ifft2_fft2 by assumption. reflexivity.
  - intros a b Ha Hb. f_equal. unfold mpad. rewrite E1, E2. rewrite !Z.sub_0_r, !reflect_source_id by assumption. unfold in_rng in Ha, Hb. cbn [extend_edge px]. rewrite B1, B2. fold h w. rewrite !Z.min_l by lia. reflexivity.
  - intros u v Hu Hv. f_equal.
    assert (R1 : in_rng h (ifftshift_idx h u)) by (apply Z.mod_pos_bound; lia). assert (R2 : in_rng w (ifftshift_idx w v)) by (apply Z.mod_pos_bound; lia).
    pose proof (pad_ones_inside window 0 (ifftshift_idx h u) (ifftshift_idx w v)) as P0. rewrite !Z.add_0_r in P0. rewrite E1, E2 in P0. rewrite P0 by assumption.
    unfold mtf_of in Hm. cbv zeta in Hm. rewrite E1, E2 in Hm. fold h w in Hm. rewrite Hm by assumption.
    change (transfer h w psf (ifftshift_idx h u - h / 2) (ifftshift_idx w v - w / 2) = transfer h w psf u v).
    rewrite <- (transfer_mod h w psf (ifftshift_idx h u - h / 2)) by lia. unfold ifftshift_idx. rewrite !Zminus_mod_idemp_l, !Z.add_simpl_r. apply transfer_mod; lia.
Qed.
(** ** padding: a wave that the padding continues *)
Lemma spectral_scale h w P V c a b : fst (spectral h w (fun a b => c_ (c * P a b)) V a b) = (c * fst (spectral h w (fun a b => c_ (P a b)) V a b))%R.
Proof.
  rewrite !spectral_real. rewrite <- rsum_scal. apply rsum_ext. intros i _. rewrite <- rsum_scal. apply rsum_ext. intros j _. ring.
Qed.
Lemma mtf_wave mat window pad u v f c i j : 1 <= nrow window -> 1 <= ncol window -> 0 <= pad ->
  let h := nrow window + 2 * pad in let w := ncol window + 2 * pad in
  (forall a b, in_rng h a -> in_rng w b -> mpad mat window pad a b = (c * wave h w u v f a b)%R) ->
  let g := fun u v => px (pad_ones window pad) ((u + h / 2) mod h) ((v + w / 2) mod w) in
  mtf_at mat window pad i j = (c * ((/ g u v + / g (- u)%Z (- v)%Z) / 2) * wave h w u v f (i + pad)%Z (j + pad)%Z)%R.
Proof.
  intros Hh Hw Hp h w Hx g. unfold mtf_at. fold h w.
  rewrite (spectral_ext h w _ (fun a b => c_ (c * wave h w u v f a b)) _ (fun u v => / px (pad_ones window pad) (ifftshift_idx h u) (ifftshift_idx w v))%R).
  - rewrite spectral_scale, spectral_wave by lia. unfold g, ifftshift_idx. rewrite !Z.add_mod_idemp_l by lia. ring.
  - intros a b Ha Hb. rewrite Hx by assumption. reflexivity.
  - reflexivity.
Qed.
Lemma mpad_const mat window pad c a b : 1 <= nrow mat <= nrow window -> 1 <= ncol mat <= ncol window ->
  (forall i j, in_rng (nrow mat) i -> in_rng (ncol mat) j -> px mat i j = c) -> mpad mat window pad a b = c.
Proof.
  intros Hr Hc Hx. unfold mpad. cbn [extend_edge px].
  assert (R1 := reflect_source_in (nrow window) (a - pad) ltac:(lia)). assert (R2 := reflect_source_in (ncol window) (b - pad) ltac:(lia)).
  apply Hx; unfold in_rng; lia.
Qed.
Lemma half_pad n pad : (n + 2 * pad) / 2 = n / 2 + pad. Proof. replace (n + 2 * pad) with (n + pad * 2) by lia. apply Z.div_add. lia. Qed.
Lemma mtf_constant mat window pad c : 1 <= nrow mat <= nrow window -> 1 <= ncol mat <= ncol window -> 0 <= pad ->
  (forall i j, in_rng (nrow mat) i -> in_rng (ncol mat) j -> px mat i j = c) ->
  exists out, mtf_deconvolution mat window pad = Ok out /\ nrow out = nrow mat /\ ncol out = ncol mat /\
    forall i j, in_rng (nrow mat) i -> in_rng (ncol mat) j -> px out i j = (c / px window (nrow window / 2)%Z (ncol window / 2)%Z)%R.
Proof.
  intros Hr Hc Hp Hx. destruct (mtf_value mat window pad Hr Hc Hp) as (out & O1 & O2 & O3 & O4). exists out. split; [exact O1|]. split; [exact O2|]. split; [exact O3|].
  intros i j Hi Hj. rewrite O4 by assumption.
  assert (D1 := Z.div_pos (nrow window) 2 ltac:(lia) ltac:(lia)). assert (D2 := Z.div_pos (ncol window) 2 ltac:(lia) ltac:(lia)).
  assert (L1 := Z.div_lt (nrow window) 2 ltac:(lia) ltac:(lia)). assert (L2 := Z.div_lt (ncol window) 2 ltac:(lia) ltac:(lia)).
  assert (W1 : forall a b, wave (nrow window + 2 * pad) (ncol window + 2 * pad) 0 0 0 a b = 1%R).
  { intros a b. unfold wave. rewrite !Z.mul_0_l. replace (2 * PI * (0 / IZR (nrow window + 2 * pad) + 0 / IZR (ncol window + 2 * pad)) + 0)%R with 0%R by (unfold Rdiv; ring). apply cos_0. }
  rewrite (mtf_wave mat window pad 0 0 0 c i j ltac:(lia) ltac:(lia) Hp).
  - rewrite W1. rewrite !Z.add_0_l, !half_pad. rewrite (Z.mod_small (nrow window / 2 + pad)) by lia. rewrite (Z.mod_small (ncol window / 2 + pad)) by lia.
    rewrite pad_ones_inside by (unfold in_rng; lia). unfold Rdiv. lra.
  - intros a b _ _. rewrite W1, (mpad_const mat window pad c) by assumption. ring.
Qed.
(** an image that alternates between two values along its rows *)
Lemma cos_alternates k : cos (PI * IZR k) = if Z.even k then 1%R else (-1)%R.
Proof.
  assert (E : forall n, cos (PI * IZR (2 * n)) = 1%R).
  { intros n. rewrite mult_IZR. replace (PI * (2 * IZR n))%R with (0 + 2 * IZR n * PI)%R by ring.
    destruct (Z_le_gt_dec 0 n) as [P|P].
    - rewrite <- (Z2Nat.id n P), <- INR_IZR_INZ. rewrite cos_period. apply cos_0.
    - replace (0 + 2 * IZR n * PI)%R with (- (0 + 2 * IZR (- n) * PI))%R by (rewrite opp_IZR; ring). rewrite cos_neg.
      rewrite <- (Z2Nat.id (- n)) by lia. rewrite <- INR_IZR_INZ. rewrite cos_period. apply cos_0. }
  destruct (Z.even k) eqn:K.
  - apply Z.even_spec in K. destruct K as (n & ->). apply E.
  - assert (O : Z.odd k = true) by (rewrite <- Z.negb_even, K; reflexivity). apply Z.odd_spec in O. destruct O as (n & ->).
    rewrite plus_IZR. replace (PI * (IZR (2 * n) + 1))%R with (PI * IZR (2 * n) + PI)%R by ring. rewrite neg_cos, E. reflexivity.
Qed.
Lemma even_reflect n k : 1 <= n -> n <> 1 -> Z.even (reflect_source n k) = Z.even k.
Proof.
  intros Hn N. unfold reflect_source. replace (n =? 1) with false by lia. cbv zeta.
  assert (D := Z.div_mod k (2 * (n - 1)) ltac:(lia)).
  assert (E : Z.even (k mod (2 * (n - 1))) = Z.even k).
  { rewrite D at 2. rewrite Z.even_add. rewrite <- Z.mul_assoc, Z.even_mul. change (Z.even 2) with true. cbn [orb]. destruct (Z.even (k mod (2 * (n - 1)))); reflexivity. }
  destruct (_ <? n); [exact E|]. rewrite Z.even_sub, Z.even_mul. change (Z.even 2) with true. cbn [orb]. rewrite E. destruct (Z.even k); reflexivity.
Qed.
Lemma mtf_finest mat window pad c : 1 <= nrow mat -> 2 <= ncol mat -> Z.even (ncol mat) = true -> 0 < pad ->
  nrow window = nrow mat -> ncol window = ncol mat ->
  (forall i j, in_rng (nrow mat) i -> in_rng (ncol mat) j -> px mat i j = if Z.even j then c else (- c)%R) ->
  exists out, mtf_deconvolution mat window pad = Ok out /\ same_image out mat.
Proof.
  intros Hr Hc Ev Hp E1 E2 Hx. destruct (mtf_value mat window pad ltac:(lia) ltac:(lia) ltac:(lia)) as (out & O1 & O2 & O3 & O4). exists out. split; [exact O1|]. split; [exact O2|]. split; [exact O3|].
  rewrite O2, O3. intros i j Hi Hj. rewrite O4 by assumption.
  set (h := nrow window + 2 * pad). set (w := ncol window + 2 * pad).
  apply Z.even_spec in Ev. destruct Ev as (n & Ev).
  assert (Wn : w = 2 * (n + pad)) by lia. assert (Hn : 1 <= n) by lia.
  set (cc := (c * if Z.even pad then 1 else -1)%R).
  assert (W1 : forall a b, wave h w 0 (n + pad) 0 a b = if Z.even b then 1%R else (-1)%R).
  { intros a b. unfold wave. rewrite Z.mul_0_l. rewrite <- cos_alternates. f_equal. rewrite Wn, !mult_IZR.
    assert (IZR (n + pad) <> 0)%R by (apply not_0_IZR; lia). assert (IZR h <> 0)%R by (apply not_0_IZR; lia). field. split; assumption. }
  assert (X : forall a b, mpad mat window pad a b = (cc * wave h w 0 (n + pad) 0 a b)%R).
  { intros a b. unfold mpad. cbn [extend_edge px]. assert (R1 := reflect_source_in (nrow window) (a - pad) ltac:(lia)). assert (R2 := reflect_source_in (ncol window) (b - pad) ltac:(lia)).
    rewrite Hx by (unfold in_rng; lia). rewrite Z.min_l by lia. rewrite even_reflect by lia. rewrite Z.even_sub, W1. unfold cc. destruct (Z.even b), (Z.even pad); cbn [Bool.eqb]; ring. }
  rewrite (mtf_wave mat window pad 0 (n + pad) 0 cc i j ltac:(lia) ltac:(lia) ltac:(lia)) by (intros a b _ _; apply X).
  fold h w. rewrite W1.
  assert (P0 : forall a, px (pad_ones window pad) a 0 = 1%R).
  { intros a. unfold pad_ones. cbn [px]. replace (pad <=? 0) with false by lia. rewrite andb_false_r. reflexivity. }
  replace (w / 2) with (n + pad) by (rewrite Wn; symmetry; rewrite Z.mul_comm; apply Z.div_mul; lia).
  replace ((n + pad + (n + pad)) mod w) with 0 by (replace (n + pad + (n + pad)) with w by lia; symmetry; apply Z.mod_same; lia).
  replace ((- (n + pad) + (n + pad)) mod w) with 0 by (rewrite Z.add_opp_diag_l; symmetry; apply Z.mod_0_l; lia). rewrite !P0.
  rewrite Hx by assumption. unfold cc. rewrite Z.even_add. destruct (Z.even j), (Z.even pad); cbn [Bool.eqb]; field.
Qed.
(** a flat window *)
Lemma mtf_flat mat window pad : 1 <= nrow mat <= nrow window -> 1 <= ncol mat <= ncol window -> 0 <= pad ->
  (forall i j, in_rng (nrow window) i -> in_rng (ncol window) j -> px window i j = 1%R) ->
  exists out, mtf_deconvolution mat window pad = Ok out /\ same_image out mat.
Proof.
  intros Hr Hc Hp Hx. destruct (mtf_value mat window pad Hr Hc Hp) as (out & O1 & O2 & O3 & O4). exists out. split; [exact O1|]. split; [exact O2|]. split; [exact O3|].
  rewrite O2, O3. intros i j Hi Hj. rewrite O4 by assumption. unfold mtf_at. set (h := nrow window + 2 * pad). set (w := ncol window + 2 * pad). unfold in_rng in Hi, Hj.
  rewrite (spectral_ext h w _ (fun a b => c_ (mpad mat window pad a b)) _ (fun _ _ => 1%R)).
  - unfold spectral. transitivity (fst (px (ifft2 (fft2 (mkimg h w (fun a b => c_ (mpad mat window pad a b))))) (i + pad) (j + pad))).
    + f_equal. cbn [px ifft2 nrow ncol]. f_equal. apply csum_ext. intros u Hu. apply csum_ext. intros v Hv. f_equal. ring.
    + rewrite ifft2_fft2 by (cbn [nrow ncol]; unfold in_rng; lia). cbn [px fst c_]. unfold mpad. rewrite !Z.add_simpl_r, !reflect_source_id by lia. cbn [extend_edge px]. rewrite !Z.min_l by lia. reflexivity.
  - reflexivity.
  - intros u v Hu Hv. assert (E : forall a b, px (pad_ones window pad) a b = 1%R); [|rewrite E; apply Rinv_1].
    intros a b. unfold pad_ones. cbn [px]. destruct (_ && _) eqn:E; [|reflexivity]. apply Hx; unfold in_rng; lia.
Qed.
