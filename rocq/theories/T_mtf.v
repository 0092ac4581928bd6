(** C135 (and C70): deconvolution by the modulation transfer function. *)
From Coq Require Import Reals Lra ZArith Lia Bool.
From Verif Require Import Np P_Np M_phase_R P_phase_R M_mtf S_mtf P_mtf.
Open Scope Z_scope.

(** without padding: an image blurred by a symmetric point spread function is restored by the transfer function of it *)
Theorem mtf_deconvolution_undoes_the_blur_partial : forall sharp blurred window psf,
  1 <= nrow sharp -> 1 <= ncol sharp -> nrow window = nrow sharp -> ncol window = ncol sharp ->
  symmetric_psf (nrow sharp) (ncol sharp) psf -> blurred_by psf sharp blurred -> mtf_of psf window -> no_zeros window ->
  exists out, mtf_deconvolution blurred window 0 = Ok out /\ same_image out sharp.
Proof. exact mtf_restores. Qed.
Print Assumptions mtf_deconvolution_undoes_the_blur_partial.
(** with padding the finest detail stays as it is, whatever the window says about it: the window is not resampled to the padded size *)
Theorem mtf_deconvolution_with_padding_refuted : forall mat window pad c,
  1 <= nrow mat -> 2 <= ncol mat -> Z.even (ncol mat) = true -> 0 < pad -> nrow window = nrow mat -> ncol window = ncol mat ->
  (forall i j, in_rng (nrow mat) i -> in_rng (ncol mat) j -> px mat i j = if Z.even j then c else (- c)%R) ->
  exists out, mtf_deconvolution mat window pad = Ok out /\ same_image out mat.
Proof. exact mtf_finest. Qed.
Print Assumptions mtf_deconvolution_with_padding_refuted.
(** a constant image is divided by the centre of the window, for any padding and any window at least as large as the image *)
Theorem mtf_deconvolution_of_a_constant : forall mat window pad c,
  1 <= nrow mat <= nrow window -> 1 <= ncol mat <= ncol window -> 0 <= pad ->
  (forall i j, in_rng (nrow mat) i -> in_rng (ncol mat) j -> px mat i j = c) ->
  exists out, mtf_deconvolution mat window pad = Ok out /\ nrow out = nrow mat /\ ncol out = ncol mat /\
    forall i j, in_rng (nrow mat) i -> in_rng (ncol mat) j -> px out i j = (c / px window (nrow window / 2)%Z (ncol window / 2)%Z)%R.
Proof. exact mtf_constant. Qed.
Print Assumptions mtf_deconvolution_of_a_constant.
(** C70 with the Fourier transforms written out *)
Theorem mtf_deconvolution_by_ones_is_identity : forall mat window pad,
  1 <= nrow mat <= nrow window -> 1 <= ncol mat <= ncol window -> 0 <= pad ->
  (forall i j, in_rng (nrow window) i -> in_rng (ncol window) j -> px window i j = 1%R) ->
  exists out, mtf_deconvolution mat window pad = Ok out /\ same_image out mat.
Proof. exact mtf_flat. Qed.
Print Assumptions mtf_deconvolution_by_ones_is_identity.
Theorem mtf_deconvolution_refuses_a_small_window : forall mat window pad,
  nrow window < nrow mat \/ ncol window < ncol mat -> mtf_deconvolution mat window pad = Err ValueError.
Proof. exact mtf_rejects. Qed.
Print Assumptions mtf_deconvolution_refuses_a_small_window.

Lemma rsum_two f : rsum 2 f = (f 0%Z + f 1%Z)%R. Proof. unfold rsum. change (Z.to_nat 2) with 2%nat. cbn [rsumn]. change (Z.of_nat 0) with 0. change (Z.of_nat 1) with 1. ring. Qed.
Lemma rsum_one f : rsum 1 f = f 0%Z. Proof. unfold rsum. change (Z.to_nat 1) with 1%nat. cbn [rsumn]. change (Z.of_nat 0) with 0. ring. Qed.
(** a row of two pixels, 1 and 5; every pixel sees a quarter of the light of its neighbour; the contrast is halved.  Without padding
    the image is restored, with padding by one pixel the blurred difference (-1, 1) is left as it is. *)
Example ex_mtf :
  let psf := fun d e : Z => if e =? 0 then (3/4)%R else (1/4)%R in
  let sharp := mkimg 1 2 (fun _ j => if j =? 0 then 1%R else 5%R) in
  let blurred := mkimg 1 2 (fun _ j => if j =? 0 then 2%R else 4%R) in
  let window := mkimg 1 2 (fun _ j => if j =? 0 then (1/2)%R else 1%R) in
  symmetric_psf 1 2 psf /\ blurred_by psf sharp blurred /\ mtf_of psf window /\ no_zeros window /\
  (exists out, mtf_deconvolution blurred window 0 = Ok out /\ same_image out sharp) /\
  (let finest := mkimg 1 2 (fun _ j => if Z.even j then (-1)%R else (- -1)%R) in
   exists out, mtf_deconvolution finest window 1 = Ok out /\ same_image out finest).
Proof.
  intros psf sharp blurred window.
  assert (A1 : symmetric_psf 1 2 psf).
  { intros d e Hd He. unfold in_rng in *. assert (C : e = 0 \/ e = 1) by lia. destruct C as [-> | ->]; reflexivity. }
  assert (A2 : blurred_by psf sharp blurred).
  { split; [reflexivity|]. split; [reflexivity|]. cbn [nrow ncol sharp]. unfold in_rng. intros i j Hi Hj. rewrite rsum_one, rsum_two.
    assert (C : j = 0 \/ j = 1) by lia. assert (D : i = 0) by lia. subst i. destruct C as [-> | ->]; cbn -[IZR Rmult Rplus Rinv Rdiv]; lra. }
  assert (A3 : mtf_of psf window).
  { unfold mtf_of. cbv zeta. change (nrow window) with 1. change (ncol window) with 2. unfold in_rng. intros i j Hi Hj. rewrite rsum_one, rsum_two. change (1 / 2) with 0. change (2 / 2) with 1.
    assert (C : j = 0 \/ j = 1) by lia. assert (D : i = 0) by lia. subst i. destruct C as [-> | ->]; unfold psf; cbn [px window Z.eqb Z.mul Z.sub Z.add Z.opp Z.pos_sub].
    - change (Z.neg (1 * 1)) with (-1). replace (2 * PI * (0 / 1 + 0 / 2))%R with 0%R by lra. replace (2 * PI * (0 / 1 + -1 / 2))%R with (- PI)%R by lra. rewrite cos_0, cos_neg, cos_PI. lra.
    - replace (2 * PI * (0 / 1 + 0 / 2))%R with 0%R by lra. rewrite cos_0. lra. }
  assert (A4 : no_zeros window).
  { intros i j _ _. cbn [px window]. destruct (j =? 0); lra. }
  split; [exact A1|]. split; [exact A2|]. split; [exact A3|]. split; [exact A4|]. split.
  - apply (mtf_deconvolution_undoes_the_blur_partial sharp blurred window psf); try assumption; try reflexivity; cbn; lia.
  - intros finest. apply (mtf_deconvolution_with_padding_refuted finest window 1 (-1)%R); try reflexivity; cbn; lia.
Qed.
