(** Proofs for C115: the SCS method solves the periodic least-squares problem. *)
From Coq Require Import Reals ZArith Lia Lra Bool List.
From Verif Require Import Np P_Np M_phase_R P_phase_R P_simR M_calib P_calib8 M_fourier P_fourier P_fresnel M_surface S_surface.
Open Scope Z_scope.

(** ** the spectrum of neighbours *)
Definition spec (h w : Z) (Y : Z -> Z -> cx) (a b : Z) : cx :=
  csum h (fun u => csum w (fun v => cmul (Y u v) (cmul (root h (u * a)) (root w (v * b))))).
Lemma spec_ext h w Y Z' a b : (forall u v, in_rng h u -> in_rng w v -> Y u v = Z' u v) -> spec h w Y a b = spec h w Z' a b.
Proof. intros H. apply csum_ext. intros u Hu. apply csum_ext. intros v Hv. rewrite H by assumption. reflexivity. Qed.
Lemma spec_add h w Y Y' a b : spec h w (fun u v => cadd (Y u v) (Y' u v)) a b = cadd (spec h w Y a b) (spec h w Y' a b).
Proof. unfold spec. rewrite <- csum_add. apply csum_ext. intros u _. rewrite <- csum_add. apply csum_ext. intros v _. ring. Qed.
Lemma spec_scal h w c Y a b : spec h w (fun u v => cmul c (Y u v)) a b = cmul c (spec h w Y a b).
Proof. unfold spec. rewrite <- csum_scal. apply csum_ext. intros u _. rewrite <- csum_scal. apply csum_ext. intros v _. ring. Qed.
Lemma spec_shift h w Y s t a b : spec h w (fun u v => cmul (cmul (root h (u * s)) (root w (v * t))) (Y u v)) a b = spec h w Y (a + s) (b + t).
Proof.
  unfold spec. apply csum_ext. intros u _. apply csum_ext. intros v _.
  replace (u * (a + s)) with (u * a + u * s) by ring. replace (v * (b + t)) with (v * b + v * t) by ring. rewrite !root_add. ring.
Qed.
Lemma spec_mod h w Y a b : 0 < h -> 0 < w -> spec h w Y (a mod h) (b mod w) = spec h w Y a b.
Proof.
  intros Hh Hw. unfold spec. apply csum_ext. intros u _. apply csum_ext. intros v _.
  rewrite (root_mod h (u * (a mod h)) (u * a)) by (try lia; rewrite Z.mul_mod_idemp_r by lia; reflexivity).
  rewrite (root_mod w (v * (b mod w)) (v * b)) by (try lia; rewrite Z.mul_mod_idemp_r by lia; reflexivity). reflexivity.
Qed.
Lemma spec_total h w Y : 0 < h -> 0 < w -> csum h (fun a => csum w (fun b => spec h w Y a b)) = cmul (c_ (IZR h * IZR w)) (Y 0 0).
Proof.
  intros Hh Hw. unfold spec.
  transitivity (csum h (fun u => csum w (fun v => cmul (Y u v) (cmul (csum h (fun a => root h (a * u))) (csum w (fun b => root w (b * v))))))).
  - rewrite (csum_ext h _ (fun a => csum h (fun u => csum w (fun v => csum w (fun b => cmul (Y u v) (cmul (root h (u * a)) (root w (v * b)))))))).
    + rewrite csum_swap. apply csum_ext. intros u _. rewrite csum_swap. apply csum_ext. intros v _.
      rewrite <- csum_scal_r, <- csum_scal. apply csum_ext. intros a _. rewrite <- csum_scal, <- csum_scal. apply csum_ext. intros b _.
      rewrite (Z.mul_comm a u), (Z.mul_comm b v). reflexivity.
    + intros a _. rewrite csum_swap. apply csum_ext. intros u _. apply csum_swap.
  - rewrite (csum_single h _ 0) by (try lia; intros u Hu N; apply csum_zero; intros v _; rewrite root_sum by lia; rewrite Z.mod_small by lia; replace (u =? 0) with false by lia; ring).
    rewrite (csum_single w _ 0) by (try lia; intros v Hv N; rewrite (root_sum w) by lia; rewrite (Z.mod_small v) by lia; replace (v =? 0) with false by lia; ring).
    rewrite !root_sum by lia. rewrite !Z.mod_0_l by lia. cbn [Z.eqb]. apply cx_eq; unfold cmul, c_; cbn [fst snd]; ring.
Qed.

(** ** the reconstructed surface, at every (also periodic) position *)
Definition scs_spectrum (h w : Z) (gx gy : img R) (u v : Z) : cx :=
  cmul (cadd (cmul (c_ (px (fst (fst (make_window_SCS h w))) u v)) (px (fft2 (imap c_ gx)) u v))
             (cmul (c_ (px (snd (fst (make_window_SCS h w))) u v)) (px (fft2 (imap c_ gy)) u v)))
       (px (snd (make_window_SCS h w)) u v).
Definition scs_at (h w : Z) (gx gy : img R) (a b : Z) : R := fst (cdivr (spec h w (scs_spectrum h w gx gy) a b) (IZR h * IZR w)).
Definition at_ (m : img R) (i j : Z) : R := px m (i mod nrow m) (j mod ncol m).

Lemma sin_pos_range n k : 0 < k < n -> (0 < sin (PI * (IZR k / IZR n)))%R.
Proof.
  intros H. assert (0 < IZR n)%R by (apply (IZR_lt 0); lia). assert (0 < IZR k)%R by (apply (IZR_lt 0); lia). assert (IZR k < IZR n)%R by (apply IZR_lt; lia).
  assert (0 < IZR k / IZR n < 1)%R. { split; [apply Rdiv_lt_0_compat; lra|]. apply Rmult_lt_reg_r with (IZR n); [lra|]. unfold Rdiv. rewrite Rmult_assoc, Rinv_l by lra. lra. }
  pose proof PI_RGT_0. apply sin_gt_0; nra.
Qed.
Lemma window_den h w u v : in_rng h u -> in_rng w v -> ~ (u = 0 /\ v = 0) ->
  (0 < sin (PI * (1 * IZR v / IZR w)) ^ 2 + sin (PI * (1 * IZR u / IZR h)) ^ 2)%R.
Proof.
  unfold in_rng. intros Hu Hv N. rewrite !Rmult_1_l.
  assert (A := pow2_ge_0 (sin (PI * (IZR v / IZR w)))). assert (B := pow2_ge_0 (sin (PI * (IZR u / IZR h)))).
  destruct (Z.eq_dec u 0) as [->|U].
  - assert (S := sin_pos_range w v ltac:(lia)). assert (0 < sin (PI * (IZR v / IZR w)) ^ 2)%R by (apply pow_lt; assumption). lra.
  - assert (S := sin_pos_range h u ltac:(lia)). assert (0 < sin (PI * (IZR u / IZR h)) ^ 2)%R by (apply pow_lt; assumption). lra.
Qed.
Lemma root_cos n k : 0 < n -> cadd (root n k) (root n (- k)) = c_ (2 - 4 * sin (PI * (IZR k / IZR n)) ^ 2)%R.
Proof.
  intros Hn. rewrite root_opp. unfold root. replace (2 * PI * IZR k / IZR n)%R with (2 * (PI * (IZR k / IZR n)))%R by (unfold Rdiv; ring). set (t := (PI * (IZR k / IZR n))%R).
  apply cx_eq; unfold cadd, cconj, c_; cbn [fst snd]; [rewrite cos_2a_sin|]; ring.
Qed.
Lemma root_sin n k : cmul (0, -1)%R (c_ (sin (2 * PI * (IZR k / IZR n)))) = cmul (c_ (/2)) (csub (root n (- k)) (root n k)).
Proof.
  rewrite root_opp. unfold root. replace (2 * PI * IZR k / IZR n)%R with (2 * PI * (IZR k / IZR n))%R by (unfold Rdiv; ring).
  apply cx_eq; unfold cmul, csub, cconj, c_; cbn [fst snd]; field.
Qed.
Definition lap_mult (h w u v : Z) : cx :=
  csub (csub (c_ 4) (cadd (root w v) (root w (- v)))) (cadd (root h u) (root h (- u))).
Lemma lap_window h w u v : in_rng h u -> in_rng w v ->
  cmul (lap_mult h w u v) (px (snd (make_window_SCS h w)) u v) = if (u =? 0) && (v =? 0) then c_ 0 else (0, -1)%R.
Proof.
  intros Hu Hv. unfold make_window_SCS; cbn [snd px]. destruct ((u =? 0) && (v =? 0)) eqn:E; [ring|].
  assert (D := window_den h w u v Hu Hv ltac:(lia)). unfold in_rng in *. unfold lap_mult. rewrite !root_cos by lia. rewrite !Rmult_1_l in *.
  set (x := sin (PI * (IZR v / IZR w))) in *. set (y := sin (PI * (IZR u / IZR h))) in *.
  apply cx_eq; unfold cmul, csub, c_; cbn [fst snd]; field; lra.
Qed.
Lemma lap_spectrum h w gx gy u v : 0 < h -> 0 < w -> in_rng h u -> in_rng w v ->
  cmul (lap_mult h w u v) (scs_spectrum h w gx gy u v) =
  cadd (cmul (cmul (c_ (/2)) (csub (root w (- v)) (root w v))) (px (fft2 (imap c_ gx)) u v))
       (cmul (cmul (c_ (/2)) (csub (root h (- u)) (root h u))) (px (fft2 (imap c_ gy)) u v)).
Proof.
  intros Hh Hw Hu Hv. unfold scs_spectrum. set (X := px (fft2 (imap c_ gx)) u v). set (Y := px (fft2 (imap c_ gy)) u v).
  rewrite <- !root_sin. set (l := lap_mult h w u v). set (q := px (snd (make_window_SCS h w)) u v).
  assert (L : cmul l q = if (u =? 0) && (v =? 0) then c_ 0 else (0, -1)%R) by (apply lap_window; assumption).
  transitivity (cmul (cmul l q) (cadd (cmul (c_ (sin (2 * PI * (IZR v / IZR w)))) X) (cmul (c_ (sin (2 * PI * (IZR u / IZR h)))) Y))).
  - unfold make_window_SCS; cbn [fst snd px]. rewrite !Rmult_1_l. ring.
  - rewrite L. destruct ((u =? 0) && (v =? 0)) eqn:E; [|ring].
    assert (u = 0 /\ v = 0) as [-> ->] by lia. replace (2 * PI * (0 / IZR w))%R with 0%R by (unfold Rdiv; ring). replace (2 * PI * (0 / IZR h))%R with 0%R by (unfold Rdiv; ring).
    rewrite sin_0. apply cx_eq; unfold cmul, cadd, c_; cbn [fst snd]; ring.
Qed.

Section Poisson.
Variables (h w : Z) (gx gy : img R).
Hypothesis Hh : 0 < h. Hypothesis Hw : 0 < w.
Hypothesis Gx : nrow gx = h /\ ncol gx = w. Hypothesis Gy : nrow gy = h /\ ncol gy = w.

Lemma back (g : img R) a b : nrow g = h /\ ncol g = w -> fst (cdivr (spec h w (px (fft2 (imap c_ g))) a b) (IZR h * IZR w)) = at_ g a b.
Proof using Hh Hw.
  intros [E1 E2]. rewrite <- (spec_mod h w) by assumption. assert (X := ifft2_fft2 (imap c_ g) (a mod h) (b mod w)). cbn [nrow ncol imap px] in X.
  assert (Y : px (ifft2 (fft2 (imap c_ g))) (a mod h) (b mod w) = cdivr (spec h w (px (fft2 (imap c_ g))) (a mod h) (b mod w)) (IZR h * IZR w)).
  { unfold ifft2, spec. cbn [px nrow ncol fft2 imap]. rewrite E1, E2. reflexivity. }
  rewrite <- Y, X by (unfold in_rng; rewrite ?E1, ?E2; apply Z.mod_pos_bound; lia). unfold at_. rewrite E1, E2. reflexivity.
Qed.
Lemma cdivr_add a b r : cdivr (cadd a b) r = cadd (cdivr a r) (cdivr b r).
Proof using. rewrite !cdivr_form. ring. Qed.
Lemma cdivr_scal c a r : cdivr (cmul c a) r = cmul c (cdivr a r).
Proof using. rewrite !cdivr_form. ring. Qed.

Lemma poisson a b :
  (4 * scs_at h w gx gy a b - scs_at h w gx gy a (b + 1) - scs_at h w gx gy a (b - 1) - scs_at h w gx gy (a + 1) b - scs_at h w gx gy (a - 1) b =
   (at_ gx a (b - 1) - at_ gx a (b + 1)) / 2 + (at_ gy (a - 1) b - at_ gy (a + 1) b) / 2)%R.
Proof using Hh Hw Gx Gy.
  set (Y := scs_spectrum h w gx gy). set (r := (IZR h * IZR w)%R).
  assert (L : spec h w (fun u v => cmul (lap_mult h w u v) (Y u v)) a b =
     cadd (cmul (c_ 4) (spec h w Y a b)) (cmul (c_ (-1)) (cadd (cadd (spec h w Y a (b + 1)) (spec h w Y a (b - 1))) (cadd (spec h w Y (a + 1) b) (spec h w Y (a - 1) b))))).
  { rewrite <- (Z.add_0_r a) at 3 4. rewrite <- (Z.add_0_r b) at 5 6. replace (b - 1) with (b + (-1)) by ring. replace (a - 1) with (a + (-1)) by ring.
    rewrite <- !spec_shift. rewrite <- !spec_add, <- !spec_scal, <- spec_add. apply spec_ext. intros u v _ _. unfold lap_mult.
    rewrite !Z.mul_0_r, !root_0. replace (v * 1) with v by ring. replace (u * 1) with u by ring. replace (v * -1) with (- v) by ring. replace (u * -1) with (- u) by ring.
    replace (c_ (-1)) with (copp (c_ 1)) by (apply cx_eq; unfold copp, c_; cbn [fst snd]; ring). ring. }
  assert (M : spec h w (fun u v => cmul (lap_mult h w u v) (Y u v)) a b =
     cmul (c_ (/2)) (cadd (cadd (spec h w (px (fft2 (imap c_ gx))) a (b - 1)) (cmul (c_ (-1)) (spec h w (px (fft2 (imap c_ gx))) a (b + 1))))
                          (cadd (spec h w (px (fft2 (imap c_ gy))) (a - 1) b) (cmul (c_ (-1)) (spec h w (px (fft2 (imap c_ gy))) (a + 1) b))))).
  { rewrite <- (Z.add_0_r a) at 2 3. rewrite <- (Z.add_0_r b) at 4 5. replace (b - 1) with (b + (-1)) by ring. replace (a - 1) with (a + (-1)) by ring.
    rewrite <- !spec_shift. rewrite <- !spec_scal, <- !spec_add, <- !spec_scal. apply spec_ext. intros u v Hu Hv. unfold Y. rewrite lap_spectrum by assumption.
    rewrite !Z.mul_0_r, !root_0. replace (v * 1) with v by ring. replace (u * 1) with u by ring. replace (v * -1) with (- v) by ring. replace (u * -1) with (- u) by ring.
    replace (c_ (-1)) with (copp (c_ 1)) by (apply cx_eq; unfold copp, c_; cbn [fst snd]; ring). ring. }
  rewrite L in M. apply (f_equal (fun z => fst (cdivr z r))) in M. repeat rewrite ?cdivr_add, ?cdivr_scal in M.
  rewrite <- !(back gx) by assumption. rewrite <- !(back gy) by assumption. unfold scs_at. fold Y r. clear L.
  generalize dependent (px (fft2 (imap c_ gx))). generalize dependent (px (fft2 (imap c_ gy))). intros FY FX M. unfold cadd, cmul, c_ in M; cbn [fst snd] in M. lra.
Qed.
Lemma scs_total : rsum h (fun a => rsum w (fun b => scs_at h w gx gy a b)) = 0%R.
Proof using Hh Hw.
  assert (T := spec_total h w (scs_spectrum h w gx gy) Hh Hw).
  assert (E : scs_spectrum h w gx gy 0 0 = c_ 0). { unfold scs_spectrum, make_window_SCS; cbn [fst snd px Z.eqb andb]. ring. }
  rewrite E in T. apply (f_equal fst) in T. unfold csum, cmul, c_ in T; cbn [fst snd] in T.
  unfold scs_at. unfold cdivr; cbn [fst]. rewrite (rsum_ext h _ (fun a => rsum w (fun b => fst (spec h w (scs_spectrum h w gx gy) a b)) * / (IZR h * IZR w))%R).
  - rewrite rsum_scal_r. rewrite T. ring.
  - intros a _. unfold Rdiv. rewrite rsum_scal_r. reflexivity.
Qed.
Lemma scs_mod a b : scs_at h w gx gy (a mod h) (b mod w) = scs_at h w gx gy a b.
Proof using Hh Hw. unfold scs_at. rewrite spec_mod by assumption. reflexivity. Qed.
End Poisson.
