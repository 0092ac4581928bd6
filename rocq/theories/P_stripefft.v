(** Proofs about the FFT and wavelet-FFT stripe filters. *)
From Coq Require Import Reals Lra ZArith Lia Bool.
From Verif Require Import Np P_Np M_phase_R P_phase_R M_simR P_simR M_fourier P_fourier P_kernel M_fresnel S_fresnel P_fresnel P_fresnel2 M_wedge P_wedge P_wedge2 M_stripefft S_stripefft.
Open Scope Z_scope.

(** separable weights *)
Definition ck1 (n : Z) (A : Z -> R) (d : Z) : cx := cmul (c_ (/ IZR n)) (csum n (fun u => cmul (c_ (A u)) (root n (u * d)))).
Definition k1 (n : Z) (A : Z -> R) (d : Z) : R := (/ IZR n * rsum n (fun u => A u * cos (2 * PI * IZR (u * d) / IZR n)))%R.
Lemma ck1_re n A d : fst (ck1 n A d) = k1 n A d.
Proof. unfold ck1, k1. rewrite fst_real. f_equal. unfold csum. cbn [fst]. apply rsum_ext. intros u _. rewrite fst_real. reflexivity. Qed.
Lemma c_mul a b : c_ (a * b) = cmul (c_ a) (c_ b). Proof. apply cx_eq; unfold cmul, c_; cbn [fst snd]; ring. Qed.
Lemma ckernel_sep h w A B d e : ckernel h w (fun u v => A u * B v)%R d e = cmul (ck1 h A d) (ck1 w B e).
Proof.
  unfold ckernel, ck1. rewrite Rinv_mult, c_mul.
  transitivity (cmul (cmul (c_ (/ IZR h)) (c_ (/ IZR w))) (cmul (csum h (fun u => cmul (c_ (A u)) (root h (u * d)))) (csum w (fun v => cmul (c_ (B v)) (root w (v * e)))))); [|ring].
  f_equal. rewrite <- csum_scal_r. apply csum_ext. intros u _. rewrite <- csum_scal. apply csum_ext. intros v _. rewrite c_mul. ring.
Qed.
Lemma spectral_sep h w p A B a b : spectral h w p (fun u v => A u * B v)%R a b =
  csum h (fun a' => cmul (csum w (fun b' => cmul (p a' b') (ck1 w B (b - b')))) (ck1 h A (a - a'))).
Proof.
  rewrite spectral_conv. apply csum_ext. intros a' _. rewrite <- csum_scal_r. apply csum_ext. intros b' _. rewrite ckernel_sep. ring.
Qed.
Lemma ck1_one n d : 0 < n -> ck1 n (fun _ => 1%R) d = if d mod n =? 0 then c_ 1 else c_ 0.
Proof.
  intros Hn. unfold ck1. rewrite (csum_ext n _ (fun k => root n (k * d))) by (intros; change (c_ 1) with (c_ 1%R); ring). rewrite root_sum by exact Hn.
  assert (IZR n <> 0)%R by (apply not_0_IZR; lia). destruct (d mod n =? 0); apply cx_eq; unfold cmul, c_; cbn [fst snd]; try (field; assumption); ring.
Qed.
Lemma csum_pick n f k : 0 <= k < n -> csum n (fun i => cmul (f i) (if (k - i) mod n =? 0 then c_ 1 else c_ 0)) = f k.
Proof.
  intros Hk. rewrite (csum_single n _ k Hk).
  - rewrite Z.sub_diag, Z.mod_0_l by lia. cbn [Z.eqb]. ring.
  - intros i Hi N. rewrite (mod_diff_zero n k i) by lia. replace (k =? i) with false by lia. ring.
Qed.
(** weights that depend on the vertical frequency only: every column on its own *)
Lemma spectral_vertical h w p A a b : 0 < w -> in_rng w b -> spectral h w p (fun u _ => A u) a b = csum h (fun a' => cmul (p a' b) (ck1 h A (a - a'))).
Proof.
  intros Hw Hb. rewrite (spectral_ext h w p p _ (fun u v => A u * (fun _ => 1) v)%R); [|reflexivity|intros; ring]. rewrite spectral_sep. apply csum_ext. intros a' _. f_equal.
  rewrite (csum_ext w _ (fun b' => cmul (p a' b') (if (b - b') mod w =? 0 then c_ 1 else c_ 0))) by (intros b' _; rewrite ck1_one by exact Hw; reflexivity). apply (csum_pick w (p a') b). exact Hb.
Qed.
Lemma spectral_addV h w p V1 V2 c a b : spectral h w p (fun u v => V1 u v + c * V2 u v)%R a b = cadd (spectral h w p V1 a b) (cmul (c_ c) (spectral h w p V2 a b)).
Proof.
  unfold spectral. cbn [px ifft2 fft2 nrow ncol]. rewrite !cdivr_form.
  assert (X : forall k s1 s2 z, cadd (cmul k s1) (cmul z (cmul k s2)) = cmul k (cadd s1 (cmul z s2))) by (intros; ring). rewrite X. f_equal.
  rewrite <- csum_scal, <- csum_add. apply csum_ext. intros u _. rewrite <- csum_scal, <- csum_add. apply csum_ext. intros v _.
  assert (E : c_ (V1 u v + c * V2 u v) = cadd (c_ (V1 u v)) (cmul (c_ c) (c_ (V2 u v)))) by (apply cx_eq; unfold cadd, cmul, c_; cbn [fst snd]; ring). rewrite E. ring.
Qed.
(** weights that are the same at opposite frequencies give a real kernel *)
Lemma ck1_even n A d : 0 < n -> (forall u, in_rng n u -> A ((- u) mod n) = A u) -> ck1 n A d = c_ (k1 n A d).
Proof.
  intros Hn HA. apply cx_eq; [apply ck1_re|]. unfold ck1. assert (E : snd (csum n (fun u => cmul (c_ (A u)) (root n (u * d)))) = 0%R).
  { set (S := csum n _). assert (C : S = cconj S).
    { unfold S. rewrite <- csum_conj. apply cx_eq; unfold csum; cbn [fst snd].
      - apply rsum_ext. intros u _. unfold cconj; cbn [fst]. reflexivity.
      - rewrite <- (rsum_neg n (fun u => snd (cmul (c_ (A u)) (root n (u * d))))) by exact Hn. apply rsum_ext. intros u Hu. rewrite HA by exact Hu.
        rewrite (root_mod n ((- u) mod n * d) (- (u * d))) by (try lia; rewrite Z.mul_mod_idemp_l by lia; f_equal; ring). rewrite root_opp. unfold cconj, cmul, c_; cbn [fst snd]. ring. }
    assert (snd S = - snd S)%R by (rewrite C at 1; reflexivity). lra. }
  unfold cmul, c_ in *; cbn [fst snd] in *. rewrite E. ring.
Qed.
Lemma csum_c n f : csum n (fun k => c_ (f k)) = c_ (rsum n f).
Proof. apply cx_eq; unfold csum, c_; cbn [fst snd]; [reflexivity|apply rsum_zero]. Qed.
Lemma c_scale (x : R) k : cmul (c_ x) (c_ k) = c_ (x * k). Proof. rewrite c_mul. reflexivity. Qed.

(** the frequency of a place of the spectrum *)
Definition freq (n u : Z) : Z := ifftshift_idx n u - n / 2.
Lemma half_bounds n : 0 < n -> 0 <= n / 2 < n /\ (n = 2 * (n / 2) \/ n = 2 * (n / 2) + 1).
Proof. intros Hn. assert (X := Z.div_mod n 2 ltac:(lia)). assert (Y := Z.mod_pos_bound n 2 ltac:(lia)). lia. Qed.
Lemma freq_bounds n u : 0 < n -> - (n / 2) <= freq n u < n - n / 2.
Proof. intros Hn. unfold freq, ifftshift_idx. assert (X := Z.mod_pos_bound (u + n / 2) n Hn). lia. Qed.
Lemma freq_mod n u : 0 < n -> (freq n u) mod n = u mod n.
Proof. intros Hn. unfold freq, ifftshift_idx. rewrite Zminus_mod_idemp_l. f_equal. ring. Qed.
Lemma freq_0 n : 0 < n -> freq n 0 = 0.
Proof. intros Hn. unfold freq. rewrite zero_row by exact Hn. lia. Qed.
Lemma freq_neg n u : 0 < n -> odd n -> freq n ((- u) mod n) = - freq n u.
Proof.
  intros Hn (k & E). assert (B1 := freq_bounds n u Hn). assert (B2 := freq_bounds n ((- u) mod n) Hn). assert (M1 := freq_mod n u Hn). assert (M2 := freq_mod n ((- u) mod n) Hn). rewrite Z.mod_mod in M2 by lia.
  assert (E2 : n / 2 = k) by (rewrite E; rewrite Z.mul_comm; rewrite Z.div_add_l by lia; change (1 / 2) with 0; lia). rewrite E2 in *.
  assert (D : (freq n u + freq n ((- u) mod n)) mod n = 0) by (rewrite Z.add_mod, M1, M2, <- Z.add_mod by lia; rewrite Z.add_opp_diag_r; apply Z.mod_0_l; lia).
  apply Z.mod_divide in D; [|lia]. destruct D as (q & Q). assert (q = 0) by nia. lia.
Qed.
Lemma weighted_k1 n g P b : 0 < n -> weighted n g P b = rsum n (fun b' => P b' * k1 n (fun u => g (freq n u)) (b - b'))%R.
Proof.
  intros Hn. unfold weighted. rewrite <- rsum_scal. apply rsum_ext. intros b' _. unfold k1. rewrite <- (rsum_cyclic n (n / 2) (fun k => g (k - n / 2)%Z * cos (2 * PI * IZR ((k - n / 2) * (b - b')) / IZR n))%R Hn).
  rewrite (rsum_ext n _ (fun u => g (freq n u) * cos (2 * PI * IZR (u * (b - b')) / IZR n))%R); [ring|]. intros u _. fold (ifftshift_idx n u). fold (freq n u). f_equal. apply cos_mod; [lia|].
  rewrite Z.mul_mod, freq_mod, <- Z.mul_mod by lia. reflexivity.
Qed.
Lemma weighted_one n P b : 0 < n -> in_rng n b -> weighted n (fun _ => 1%R) P b = P b.
Proof.
  intros Hn Hb. rewrite weighted_k1 by exact Hn. rewrite (rsum_ext n _ (fun b' => P b' * (if (b - b') mod n =? 0 then 1 else 0))%R); [apply rsum_pick; exact Hb|].
  intros b' _. f_equal. assert (X := ck1_re n (fun _ => 1%R) (b - b')). rewrite ck1_one in X by exact Hn. rewrite <- X. destruct (_ =? 0); reflexivity.
Qed.
Lemma weighted_lin n g P Q c b : weighted n g (fun k => P k + c * Q k)%R b = (weighted n g P b + c * weighted n g Q b)%R.
Proof.
  unfold weighted. rewrite (rsum_ext n _ (fun b' => P b' * rsum n (fun k => g (k - n / 2)%Z * cos (2 * PI * IZR ((k - n / 2) * (b - b')) / IZR n)) + c * (Q b' * rsum n (fun k => g (k - n / 2)%Z * cos (2 * PI * IZR ((k - n / 2) * (b - b')) / IZR n))))%R) by (intros; ring).
  rewrite rsum_add, rsum_scal. ring.
Qed.
Lemma weighted_ext n g P Q b : (forall k, 0 <= k < n -> P k = Q k) -> weighted n g P b = weighted n g Q b.
Proof. intros H. unfold weighted. f_equal. apply rsum_ext. intros k Hk. rewrite H by exact Hk. reflexivity. Qed.
(** weights that are 1 except that the slow vertical frequencies get the horizontal gains *)
Lemma spectral_band h w (P : Z -> Z -> R) (f : Z -> bool) g V a b : 0 < h -> 0 < w -> odd h -> odd w -> in_rng h a -> in_rng w b ->
  (forall k, f (- k) = f k) -> (forall k, g (- k) = g k) -> (forall u v, in_rng h u -> in_rng w v -> V u v = if f (freq h u) then g (freq w v) else 1%R) ->
  spectral h w (fun a b => c_ (P a b)) V a b = c_ (P a b - weighted h (fun k => if f k then 1 else 0)%R (fun a' => P a' b - weighted w g (P a') b) a)%R.
Proof.
  intros Hh Hw Oh Ow Ha Hb Ef Eg HV. set (A := fun u => (if f (freq h u) then 1 else 0)%R). set (B := fun v => g (freq w v)).
  assert (EA : forall u, in_rng h u -> A ((- u) mod h) = A u) by (intros u Hu; unfold A; rewrite freq_neg, Ef by assumption; reflexivity).
  assert (EB : forall v, in_rng w v -> B ((- v) mod w) = B v) by (intros v Hv; unfold B; rewrite freq_neg, Eg by assumption; reflexivity).
  rewrite (spectral_ext h w _ (fun a b => c_ (P a b)) V (fun u v => (1 + (-1) * A u) + 1 * (A u * B v))%R); [|reflexivity|].
  2:{ intros u v Hu Hv. rewrite HV by assumption. unfold A, B. destruct (f (freq h u)); ring. }
  rewrite spectral_addV. rewrite (spectral_addV h w _ (fun _ _ => 1%R) (fun u _ => A u)). rewrite spectral_one by (try assumption; reflexivity).
  rewrite spectral_vertical by assumption. rewrite spectral_sep.
  assert (S1 : csum h (fun a' => cmul (c_ (P a' b)) (ck1 h A (a - a'))) = c_ (weighted h (fun k => if f k then 1 else 0)%R (fun a' => P a' b) a)).
  { rewrite weighted_k1 by exact Hh. rewrite <- csum_c. apply csum_ext. intros a' _. rewrite ck1_even by assumption. rewrite c_scale. reflexivity. }
  assert (S2 : csum h (fun a' => cmul (csum w (fun b' => cmul (c_ (P a' b')) (ck1 w B (b - b')))) (ck1 h A (a - a'))) = c_ (weighted h (fun k => if f k then 1 else 0)%R (fun a' => weighted w g (P a') b) a)).
  { rewrite weighted_k1 by exact Hh. rewrite <- csum_c. apply csum_ext. intros a' _. rewrite ck1_even by assumption. rewrite weighted_k1 by exact Hw. rewrite <- c_scale. f_equal. rewrite <- csum_c. apply csum_ext. intros b' _.
    rewrite ck1_even by assumption. rewrite c_scale. reflexivity. }
  rewrite S1, S2. rewrite (weighted_ext h _ (fun a' => P a' b - weighted w g (P a') b)%R (fun a' => P a' b + (-1) * weighted w g (P a') b)%R) by (intros; ring). rewrite weighted_lin.
  apply cx_eq; unfold cadd, cmul, c_; cbn [fst snd]; ring.
Qed.
