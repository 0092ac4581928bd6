(** Proofs about the discrete Fourier transform of complex images. *)
From Coq Require Import Reals Lra ZArith Lia Ring.
From Verif Require Import Np P_Np M_phase_R P_phase_R M_simR P_simR M_fourier.
Open Scope Z_scope.

Lemma cx_eq (a b : cx) : fst a = fst b -> snd a = snd b -> a = b.
Proof. destruct a, b. cbn. intros -> ->. reflexivity. Qed.
Lemma cx_ring : ring_theory (c_ 0) (c_ 1) cadd cmul csub copp (@eq cx).
Proof. split; intros; apply cx_eq; unfold cadd, cmul, csub, copp, c_; cbn [fst snd]; ring. Qed.
Add Ring cx_ring : cx_ring.

Lemma root_add n a b : root n (a + b) = cmul (root n a) (root n b).
Proof.
  apply cx_eq; unfold root, cmul; cbn [fst snd]; rewrite plus_IZR; replace (2 * PI * (IZR a + IZR b) / IZR n)%R with (2 * PI * IZR a / IZR n + 2 * PI * IZR b / IZR n)%R by (unfold Rdiv; ring);
    [apply cos_plus|rewrite sin_plus; ring].
Qed.
Lemma root_0 n : root n 0 = c_ 1.
Proof. apply cx_eq; unfold root; cbn [fst snd c_]; replace (2 * PI * 0 / IZR n)%R with 0%R by (unfold Rdiv; ring); [apply cos_0|apply sin_0]. Qed.
Lemma root_mod n a b : n <> 0 -> a mod n = b mod n -> root n a = root n b.
Proof. intros Hn H. apply cx_eq; unfold root; cbn [fst snd]; [apply cos_mod|apply sin_mod]; assumption. Qed.
Lemma root_opp n a : root n (- a) = cconj (root n a).
Proof. apply cx_eq; unfold root, cconj; cbn [fst snd]; rewrite opp_IZR; replace (2 * PI * - IZR a / IZR n)%R with (- (2 * PI * IZR a / IZR n))%R by (unfold Rdiv; ring); [apply cos_neg|apply sin_neg]. Qed.
Lemma root_inv n a : cmul (root n a) (root n (- a)) = c_ 1.
Proof. rewrite <- root_add, Z.add_opp_diag_r. apply root_0. Qed.

Lemma csum_ext n f g : (forall k, 0 <= k < n -> f k = g k) -> csum n f = csum n g.
Proof. intros H. apply cx_eq; unfold csum; cbn [fst snd]; apply rsum_ext; intros k Hk; rewrite (H k Hk); reflexivity. Qed.
Lemma csum_add n f g : csum n (fun k => cadd (f k) (g k)) = cadd (csum n f) (csum n g).
Proof. apply cx_eq; unfold csum, cadd; cbn [fst snd]; apply rsum_add. Qed.
Lemma csum_scal n c f : csum n (fun k => cmul c (f k)) = cmul c (csum n f).
Proof.
  apply cx_eq; unfold csum, cmul; cbn [fst snd].
  - rewrite <- !rsum_scal, <- rsum_sub. reflexivity.
  - rewrite <- !rsum_scal, <- rsum_add. reflexivity.
Qed.
Lemma csum_scal_r n c f : csum n (fun k => cmul (f k) c) = cmul (csum n f) c.
Proof. transitivity (csum n (fun k => cmul c (f k))); [apply csum_ext; intros; ring|]. rewrite csum_scal. ring. Qed.
Lemma csum_swap n m f : csum n (fun a => csum m (fun b => f a b)) = csum m (fun b => csum n (fun a => f a b)).
Proof. apply cx_eq; unfold csum; cbn [fst snd]; apply rsum_swap. Qed.
Lemma csum_zero n f : (forall k, 0 <= k < n -> f k = c_ 0) -> csum n f = c_ 0.
Proof. intros H. apply cx_eq; unfold csum; cbn [fst snd c_]; rewrite <- (rsum_zero n); apply rsum_ext; intros k Hk; rewrite (H k Hk); reflexivity. Qed.
Lemma csum_single n f k : 0 <= k < n -> (forall i, 0 <= i < n -> i <> k -> f i = c_ 0) -> csum n f = f k.
Proof. intros Hk H. apply cx_eq; unfold csum; cbn [fst snd]; [apply (rsum_single n (fun i => fst (f i)))|apply (rsum_single n (fun i => snd (f i)))]; try assumption; intros i Hi N; rewrite (H i Hi N); reflexivity. Qed.
Lemma csum_cyclic n s f : 0 < n -> csum n (fun k => f ((k + s) mod n)) = csum n f.
Proof. intros Hn. apply cx_eq; unfold csum; cbn [fst snd]; [apply (rsum_cyclic n s (fun k => fst (f k)))|apply (rsum_cyclic n s (fun k => snd (f k)))]; exact Hn. Qed.
Lemma csum_conj n f : csum n (fun k => cconj (f k)) = cconj (csum n f).
Proof. apply cx_eq; unfold csum, cconj; cbn [fst snd]; [reflexivity|]. rewrite <- (Rmult_1_l (rsum n (fun k => snd (f k)))), Ropp_mult_distr_l, <- rsum_scal. apply rsum_ext. intros; ring. Qed.
Lemma cdivr_form a r : cdivr a r = cmul (c_ (/ r)) a.
Proof. apply cx_eq; unfold cdivr, cmul, c_; cbn [fst snd]; unfold Rdiv; ring. Qed.

(** orthogonality of the roots of unity *)
Lemma root_sum n d : 0 < n -> csum n (fun k => root n (k * d)) = if d mod n =? 0 then c_ (IZR n) else c_ 0.
Proof.
  intros Hn. apply cx_eq; unfold csum, root; cbn [fst snd].
  - rewrite (cos_sum n d Hn). destruct (d mod n =? 0); reflexivity.
  - rewrite (sin_sum n d Hn). destruct (d mod n =? 0); reflexivity.
Qed.
Lemma mod_diff_zero n a b : 0 < n -> 0 <= a < n -> 0 <= b < n -> ((a - b) mod n =? 0) = (a =? b).
Proof.
  intros Hn Ha Hb. destruct (Z.eqb_spec a b) as [->|N]; [rewrite Z.sub_diag, Z.mod_0_l by lia; reflexivity|].
  apply Z.eqb_neq. intros E. apply Z.mod_divide in E; [|lia]. destruct E as [k E]. assert (k = 0) by nia. nia.
Qed.

(** the inverse transform undoes the transform *)
Lemma cmul4 a b c d : cmul (cmul a (cmul b c)) d = cmul a (cmul (cmul b c) d). Proof. ring. Qed.
Lemma ifft2_fft2 m a b : in_rng (nrow m) a -> in_rng (ncol m) b -> px (ifft2 (fft2 m)) a b = px m a b.
Proof.
  unfold in_rng. intros Ha Hb. cbn [px ifft2 fft2 nrow ncol]. set (h := nrow m) in *. set (w := ncol m) in *.
  assert (E : csum h (fun u => csum w (fun v => cmul (csum h (fun a' => csum w (fun b' => cmul (px m a' b') (cmul (root h (- (u * a'))) (root w (- (v * b'))))))) (cmul (root h (u * a)) (root w (v * b)))))
            = cmul (c_ (IZR h * IZR w)) (px m a b)).
  { transitivity (csum h (fun a' => csum w (fun b' => cmul (px m a' b') (cmul (csum h (fun u => root h (u * (a - a')))) (csum w (fun v => root w (v * (b - b')))))))).
    - transitivity (csum h (fun u => csum w (fun v => csum h (fun a' => csum w (fun b' => cmul (px m a' b') (cmul (root h (u * (a - a'))) (root w (v * (b - b')))))))) ).
      + apply csum_ext; intros u Hu. apply csum_ext; intros v Hv. rewrite <- csum_scal_r. apply csum_ext; intros a' Ha'. rewrite <- csum_scal_r. apply csum_ext; intros b' Hb'.
        replace (u * (a - a')) with (- (u * a') + u * a) by ring. replace (v * (b - b')) with (- (v * b') + v * b) by ring. rewrite !root_add. ring.
      + transitivity (csum h (fun u => csum h (fun a' => csum w (fun b' => cmul (px m a' b') (cmul (root h (u * (a - a'))) (csum w (fun v => root w (v * (b - b')))))))) ).
        * apply csum_ext; intros u Hu. rewrite csum_swap. apply csum_ext; intros a' Ha'. rewrite csum_swap. apply csum_ext; intros b' Hb'. rewrite csum_scal, csum_scal. reflexivity.
        * rewrite csum_swap. apply csum_ext; intros a' Ha'. rewrite csum_swap. apply csum_ext; intros b' Hb'. rewrite csum_scal, csum_scal_r. reflexivity.
    - rewrite (csum_single h _ a Ha).
      + rewrite (csum_single w _ b Hb).
        * rewrite !root_sum by lia. rewrite !Z.sub_diag. rewrite !Z.mod_0_l by lia. change (0 =? 0) with true. cbv iota.
          replace (cmul (c_ (IZR h)) (c_ (IZR w))) with (c_ (IZR h * IZR w)); [ring|]. apply cx_eq; unfold cmul, c_; cbn [fst snd]; ring.
        * intros b' Hb' N. rewrite (root_sum w) by lia. rewrite mod_diff_zero by lia. replace (b =? b') with false by lia. ring.
      + intros a' Ha' N. apply csum_zero. intros b' Hb'. rewrite (root_sum h) by lia. rewrite mod_diff_zero by lia. replace (a =? a') with false by lia. ring. }
  rewrite E. assert (IZR h <> 0)%R by (apply not_0_IZR; lia). assert (IZR w <> 0)%R by (apply not_0_IZR; lia).
  apply cx_eq; unfold cdivr, cmul, c_; cbn [fst snd]; field; split; assumption.
Qed.
Lemma ifft1_fft1 m i b : in_rng (ncol m) b -> px (ifft1 (fft1 m)) i b = px m i b.
Proof.
  unfold in_rng. intros Hb. cbn [px ifft1 fft1 nrow ncol]. set (w := ncol m) in *.
  assert (E : csum w (fun v => cmul (csum w (fun b' => cmul (px m i b') (root w (- (v * b'))))) (root w (v * b))) = cmul (c_ (IZR w)) (px m i b)).
  { transitivity (csum w (fun b' => cmul (px m i b') (csum w (fun v => root w (v * (b - b')))))).
    - transitivity (csum w (fun v => csum w (fun b' => cmul (px m i b') (root w (v * (b - b')))))).
      + apply csum_ext; intros v Hv. rewrite <- csum_scal_r. apply csum_ext; intros b' Hb'. replace (v * (b - b')) with (- (v * b') + v * b) by ring. rewrite root_add. ring.
      + rewrite csum_swap. apply csum_ext; intros b' Hb'. rewrite csum_scal. reflexivity.
    - rewrite (csum_single w _ b Hb).
      + rewrite root_sum by lia. rewrite Z.sub_diag, Z.mod_0_l by lia. change (0 =? 0) with true. cbv iota. ring.
      + intros b' Hb' N. rewrite (root_sum w) by lia. rewrite mod_diff_zero by lia. replace (b =? b') with false by lia. ring. }
  rewrite E. assert (IZR w <> 0)%R by (apply not_0_IZR; lia). apply cx_eq; unfold cdivr, cmul, c_; cbn [fst snd]; field; assumption.
Qed.
(** a cyclic displacement multiplies the spectrum by a phase *)
Lemma fft2_shift m m' s t u v : 0 < nrow m -> 0 < ncol m -> nrow m' = nrow m -> ncol m' = ncol m ->
  (forall a b, in_rng (nrow m) a -> in_rng (ncol m) b -> px m' a b = px m ((a - s) mod nrow m) ((b - t) mod ncol m)) ->
  px (fft2 m') u v = cmul (px (fft2 m) u v) (cmul (root (nrow m) (- (u * s))) (root (ncol m) (- (v * t)))).
Proof.
  intros Hh Hw E1 E2 H. cbn [px fft2]. rewrite E1, E2. set (h := nrow m) in *. set (w := ncol m) in *.
  transitivity (csum h (fun a => csum w (fun b => cmul (cmul (px m a b) (cmul (root h (- (u * a))) (root w (- (v * b))))) (cmul (root h (- (u * s))) (root w (- (v * t))))))).
  - symmetry. rewrite <- (csum_cyclic h (- s)) by exact Hh. apply csum_ext; intros a Ha. rewrite <- (csum_cyclic w (- t)) by exact Hw. apply csum_ext; intros b Hb.
    rewrite H by (unfold in_rng; lia). rewrite !Z.add_opp_r.
    replace (root h (- (u * a))) with (cmul (root h (- (u * ((a - s) mod h)))) (root h (- (u * s)))).
    + replace (root w (- (v * b))) with (cmul (root w (- (v * ((b - t) mod w)))) (root w (- (v * t)))); [ring|].
      rewrite <- root_add. apply root_mod; [lia|]. replace (- (v * ((b - t) mod w)) + - (v * t)) with (- v * ((b - t) mod w) + - v * t) by ring.
      rewrite <- Z.add_mod_idemp_l, Z.mul_mod_idemp_r, Z.add_mod_idemp_l by lia. f_equal. ring.
    + rewrite <- root_add. apply root_mod; [lia|]. replace (- (u * ((a - s) mod h)) + - (u * s)) with (- u * ((a - s) mod h) + - u * s) by ring.
      rewrite <- Z.add_mod_idemp_l, Z.mul_mod_idemp_r, Z.add_mod_idemp_l by lia. f_equal. ring.
  - rewrite <- csum_scal_r. apply csum_ext; intros a Ha. rewrite <- csum_scal_r. reflexivity.
Qed.

(** modulus *)
Lemma cabs_mul a b : cabs (cmul a b) = (cabs a * cabs b)%R.
Proof.
  unfold cabs, cmul; cbn [fst snd]. rewrite <- sqrt_mult_alt.
  - f_equal. ring.
  - assert (0 <= fst a ^ 2)%R by apply pow2_ge_0. assert (0 <= snd a ^ 2)%R by apply pow2_ge_0. lra.
Qed.
Lemma cabs_pos a : (0 <= cabs a)%R. Proof. apply sqrt_pos. Qed.
Lemma cabs_root n k : cabs (root n k) = 1%R.
Proof.
  unfold cabs, root; cbn [fst snd]. assert (T := sin2_cos2 (2 * PI * IZR k / IZR n)). unfold Rsqr in T.
  replace (cos (2 * PI * IZR k / IZR n) ^ 2 + sin (2 * PI * IZR k / IZR n) ^ 2)%R with 1%R by lra. apply sqrt_1.
Qed.
Lemma cabs_conj a : cabs (cconj a) = cabs a.
Proof. unfold cabs, cconj; cbn [fst snd]. f_equal. ring. Qed.
Lemma cabs_zero a : cabs a = 0%R <-> a = c_ 0.
Proof.
  split.
  - unfold cabs. intros H. assert (P1 := pow2_ge_0 (fst a)). assert (P2 := pow2_ge_0 (snd a)). apply sqrt_eq_0 in H; [|lra].
    assert (A : (fst a ^ 2 = 0)%R) by lra. assert (B : (snd a ^ 2 = 0)%R) by lra. apply cx_eq; cbn; [destruct (Req_dec (fst a) 0)|destruct (Req_dec (snd a) 0)]; try assumption;
    exfalso; [apply (pow_nonzero (fst a) 2)|apply (pow_nonzero (snd a) 2)]; assumption.
  - intros ->. unfold cabs, c_; cbn [fst snd]. replace (0 ^ 2 + 0 ^ 2)%R with 0%R by ring. apply sqrt_0.
Qed.
Lemma cabs_divr a r : (0 < r)%R -> cabs (cdivr a r) = (cabs a / r)%R.
Proof.
  intros Hr. rewrite cdivr_form, cabs_mul. replace (cabs (c_ (/ r))) with (/ r)%R; [unfold Rdiv; ring|].
  unfold cabs, c_; cbn [fst snd]. replace ((/ r) ^ 2 + 0 ^ 2)%R with (/ r * / r)%R by ring. rewrite sqrt_square; [reflexivity|]. left. apply Rinv_0_lt_compat, Hr.
Qed.
Lemma cabs_nonneg_real x : (0 <= x)%R -> cabs (c_ x) = x.
Proof. intros H. unfold cabs, c_; cbn [fst snd]. replace (x ^ 2 + 0 ^ 2)%R with (x * x)%R by ring. apply sqrt_square, H. Qed.
