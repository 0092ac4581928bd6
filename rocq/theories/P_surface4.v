(** Proofs for C116: the FC method on cosine series. *)
From Coq Require Import Reals ZArith Lia Lra Bool List.
From Verif Require Import Np P_Np M_phase_R P_phase_R M_simR P_simR M_calib P_calib8 M_fourier P_fourier P_kernel P_fresnel M_surface S_surface.
Open Scope Z_scope.

(** ** a cosine under an imaginary odd multiplier *)
Definition swave (h w u v : Z) (phase : R) (a b : Z) : R := sin (2 * PI * (IZR (u * a) / IZR h + IZR (v * b) / IZR w) + phase).
Lemma swave_exp h w u v f a b : swave h w u v f a b = snd (cmul (cos f, sin f) (cmul (root h (u * a)) (root w (v * b)))).
Proof.
  unfold swave. replace (2 * PI * (IZR (u * a) / IZR h + IZR (v * b) / IZR w) + f)%R with ((2 * PI * IZR (u * a) / IZR h + 2 * PI * IZR (v * b) / IZR w) + f)%R by (unfold Rdiv; ring).
  rewrite sin_plus, cos_plus, sin_plus. unfold cmul, root; cbn [fst snd]. ring.
Qed.
Lemma snd_spectral_wave h w u v f V a b : 0 < h -> 0 < w ->
  snd (spectral h w (fun a b => c_ (wave h w u v f a b)) V a b) = ((V (u mod h) (v mod w) - V ((- u) mod h) ((- v) mod w)) / 2 * swave h w u v f a b)%R.
Proof.
  intros Hh Hw. set (z := (cos f, sin f) : cx).
  rewrite (spectral_ext h w _ (fun a b => cadd (cmul (c_ (1/2)) (cmul z (cmul (root h (u * a)) (root w (v * b))))) (cmul (c_ (1/2)) (cmul (cconj z) (cmul (root h (- u * a)) (root w (- v * b)))))) V V a b).
  - rewrite (spectral_lin h w (fun a b => cmul z (cmul (root h (u * a)) (root w (v * b)))) (fun a b => cmul (cconj z) (cmul (root h (- u * a)) (root w (- v * b)))) V (c_ (1/2)) (c_ (1/2))).
    rewrite !spectral_exp by assumption. rewrite swave_exp. fold z. replace (- u * a) with (- (u * a)) by ring. replace (- v * b) with (- (v * b)) by ring. rewrite !root_opp.
    unfold cadd, cmul, cconj, c_; cbn [fst snd]. field.
  - intros i j _ _. rewrite wave_exp. fold z. replace (- u * i) with (- (u * i)) by ring. replace (- v * j) with (- (v * j)) by ring. rewrite !root_opp.
    apply cx_eq; unfold cadd, cmul, cconj, c_; cbn [fst snd]; field.
  - reflexivity.
Qed.
Lemma snd_real x c : snd (cmul (c_ x) c) = (x * snd c)%R. Proof. unfold cmul, c_; cbn [fst snd]. ring. Qed.
Lemma snd_spectral h w (P : Z -> Z -> R) V a b :
  snd (spectral h w (fun a b => c_ (P a b)) V a b) = rsum h (fun a' => rsum w (fun b' => P a' b' * snd (ckernel h w V (a - a') (b - b'))))%R.
Proof. rewrite spectral_conv. unfold csum. cbn [snd]. apply rsum_ext. intros a' _. apply rsum_ext. intros b' _. apply snd_real. Qed.
Lemma sum_modes h w n m (A : Z -> Z -> R) (M : Z -> Z -> Z -> Z -> R) (K : Z -> Z -> R) :
  rsum n (fun a => rsum m (fun b => rsum h (fun l => rsum w (fun k => A l k * M l k a b)) * K a b))%R =
  rsum h (fun l => rsum w (fun k => A l k * rsum n (fun a => rsum m (fun b => M l k a b * K a b))))%R.
Proof.
  transitivity (rsum n (fun a => rsum h (fun l => rsum w (fun k => rsum m (fun b => A l k * M l k a b * K a b))))%R).
  - apply rsum_ext. intros a _. rewrite (rsum_ext m _ (fun b => rsum h (fun l => rsum w (fun k => A l k * M l k a b * K a b)))%R).
    + rewrite rsum_swap. apply rsum_ext. intros l _. apply rsum_swap.
    + intros b _. rewrite <- rsum_scal_r. apply rsum_ext. intros l _. rewrite <- rsum_scal_r. reflexivity.
  - rewrite rsum_swap. apply rsum_ext. intros l _. rewrite rsum_swap. apply rsum_ext. intros k _. rewrite <- rsum_scal. apply rsum_ext. intros a _. rewrite <- rsum_scal.
    apply rsum_ext. intros b _. ring.
Qed.
Lemma spectral_modes h w n m A M V a b : (* a sum of modes *)
  snd (spectral n m (fun a b => c_ (rsum h (fun l => rsum w (fun k => A l k * M l k a b)))%R) V a b) =
  rsum h (fun l => rsum w (fun k => A l k * snd (spectral n m (fun a b => c_ (M l k a b)) V a b)))%R.
Proof.
  rewrite snd_spectral. rewrite (sum_modes h w n m A M (fun a' b' => snd (ckernel n m V (a - a') (b - b')))). apply rsum_ext. intros l _. apply rsum_ext. intros k _.
  rewrite snd_spectral. reflexivity.
Qed.

(** ** the modes on the doubled grid *)
Lemma cos_mode_mirror n k i : 0 < n -> cos_mode n k (- 1 - i) = cos_mode n k i.
Proof.
  intros Hn. assert (0 < IZR n)%R by (apply (IZR_lt 0); assumption). unfold cos_mode. rewrite <- cos_neg. f_equal. rewrite minus_IZR. field. lra.
Qed.
Lemma cos_mode_wrap n k i : 0 < n -> cos_mode n k (2 * n - 1 - i) = cos_mode n k i.
Proof.
  intros Hn. rewrite <- (cos_mode_mirror n k i Hn). assert (0 < IZR n)%R by (apply (IZR_lt 0); assumption). unfold cos_mode.
  rewrite <- (cos_shift_2pi (PI * IZR k * (IZR (- 1 - i) + / 2) / IZR n) k). f_equal. rewrite !minus_IZR, mult_IZR. field. lra.
Qed.
Lemma double_modes A (m : img R) a b : cosine_series A m -> in_rng (2 * nrow m) a -> in_rng (2 * ncol m) b ->
  px (double_image_R m) a b = rsum (nrow m) (fun l => rsum (ncol m) (fun k => A l k * (cos_mode (nrow m) l (a - nrow m) * cos_mode (ncol m) k b)))%R.
Proof.
  unfold in_rng. intros S Ha Hb. unfold double_image_R. cbn [px]. rewrite S by (unfold in_rng; destruct (a <? nrow m) eqn:E; destruct (b <? ncol m) eqn:E2; lia).
  apply rsum_ext. intros l Hl. apply rsum_ext. intros k Hk. f_equal. f_equal.
  - destruct (a <? nrow m) eqn:E; [|reflexivity]. rewrite <- cos_mode_mirror by lia. f_equal. lia.
  - destruct (b <? ncol m) eqn:E; [reflexivity|]. apply cos_mode_wrap. lia.
Qed.
Section Modes.
Variables (h w l k : Z).
Hypothesis Hh : 0 < h. Hypothesis Hw : 0 < w.
Let al (b : Z) : R := (PI * IZR k * (IZR b + / 2) / IZR w)%R.
Let be (a : Z) : R := (PI * IZR l * (IZR (a - h) + / 2) / IZR h)%R.
Let p1 : R := (PI * IZR l * (/ 2 - IZR h) / IZR h + PI * IZR k * / 2 / IZR w)%R.
Let p2 : R := (PI * IZR l * (/ 2 - IZR h) / IZR h - PI * IZR k * / 2 / IZR w)%R.
Lemma arg_plus a b : (2 * PI * (IZR (l * a) / IZR (2 * h) + IZR (k * b) / IZR (2 * w)) + p1 = be a + al b)%R.
Proof using Hh Hw. assert (0 < IZR h)%R by (apply (IZR_lt 0); assumption). assert (0 < IZR w)%R by (apply (IZR_lt 0); assumption). unfold p1, be, al. rewrite minus_IZR, !mult_IZR. field. lra. Qed.
Lemma arg_minus a b : (2 * PI * (IZR (l * a) / IZR (2 * h) + IZR (- k * b) / IZR (2 * w)) + p2 = be a - al b)%R.
Proof using Hh Hw. assert (0 < IZR h)%R by (apply (IZR_lt 0); assumption). assert (0 < IZR w)%R by (apply (IZR_lt 0); assumption). unfold p2, be, al. rewrite minus_IZR, !mult_IZR, opp_IZR. field. lra. Qed.
Lemma mode_waves a b : (cos_mode h l (a - h) * cos_mode w k b = / 2 * wave (2 * h) (2 * w) l k p1 a b + / 2 * wave (2 * h) (2 * w) l (- k) p2 a b)%R.
Proof using Hh Hw. unfold wave. rewrite arg_plus, arg_minus. unfold cos_mode. fold (be a) (al b). rewrite cos_plus, cos_minus. field. Qed.
Lemma mode_result V a b :
  snd (spectral (2 * h) (2 * w) (fun a b => c_ (cos_mode h l (a - h) * cos_mode w k b)%R) V a b) =
  ((V (l mod (2 * h)) (k mod (2 * w)) - V ((- l) mod (2 * h)) ((- k) mod (2 * w))) / 4 * sin (be a + al b) +
   (V (l mod (2 * h)) ((- k) mod (2 * w)) - V ((- l) mod (2 * h)) (k mod (2 * w))) / 4 * sin (be a - al b))%R.
Proof using Hh Hw.
  rewrite (spectral_ext _ _ _ (fun a b => cadd (cmul (c_ (/2)) (c_ (wave (2 * h) (2 * w) l k p1 a b))) (cmul (c_ (/2)) (c_ (wave (2 * h) (2 * w) l (- k) p2 a b)))) V V).
  - rewrite (spectral_lin (2 * h) (2 * w) (fun a b => c_ (wave (2 * h) (2 * w) l k p1 a b)) (fun a b => c_ (wave (2 * h) (2 * w) l (- k) p2 a b)) V (c_ (/2)) (c_ (/2))).
    unfold cadd; cbn [snd]. rewrite !snd_real, !snd_spectral_wave by lia. unfold swave. rewrite arg_plus, arg_minus. rewrite Z.opp_involutive. field.
  - intros i j _ _. rewrite mode_waves. apply cx_eq; unfold cadd, cmul, c_; cbn [fst snd]; ring.
  - reflexivity.
Qed.
End Modes.
