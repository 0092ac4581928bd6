From Verif Require Import Np M_beam.
From Coq Require Import Reals Lra.
Open Scope R_scope.

Definition h (n x : R) : R := n * x - rpow x n.
Lemma rpow_pos x n : 0 < x -> rpow x n = Rpower x n.
Proof. intros H. unfold rpow. destruct (Req_EM_T x 0); [lra|reflexivity]. Qed.
Lemma rpow_0 n : rpow 0 n = 0.
Proof. unfold rpow. destruct (Req_EM_T 0 0); [reflexivity|congruence]. Qed.
Lemma rpow_1 n : rpow 1 n = 1.
Proof. rewrite rpow_pos by lra. unfold Rpower. rewrite ln_1, Rmult_0_r. apply exp_0. Qed.
Lemma Rpower_lt_1 x a : 0 < x -> x < 1 -> 0 < a -> Rpower x a < 1.
Proof.
  intros H1 H2 Ha. unfold Rpower. rewrite <- exp_0. apply exp_increasing.
  assert (ln x < 0) by (rewrite <- ln_1; apply ln_increasing; lra). nra.
Qed.
Lemma h_incr_pos n x y : 1 < n -> 0 < x -> x < y -> y <= 1 -> h n x < h n y.
Proof.
  intros Hn H0 Hxy H1. unfold h. rewrite !rpow_pos by lra.
  destruct (MVT_cor2 (fun z => Rpower z n) (fun z => n * Rpower z (n - 1)) x y Hxy) as (c & E & Hc).
  { intros c Hc. apply derivable_pt_lim_power. lra. }
  assert (P : Rpower c (n - 1) < 1) by (apply Rpower_lt_1; lra).
  assert (n * Rpower c (n - 1) * (y - x) < n * (y - x)).
  { apply Rmult_lt_compat_r; [lra|]. pose proof (Rmult_lt_compat_l n _ _ ltac:(lra) P). lra. }
  lra.
Qed.
Lemma h_0 n : h n 0 = 0.
Proof. unfold h. rewrite rpow_0. ring. Qed.
Lemma h_1 n : h n 1 = n - 1.
Proof. unfold h. rewrite rpow_1. ring. Qed.
Lemma h_pos n y : 1 < n -> 0 < y -> y <= 1 -> 0 < h n y.
Proof.
  intros Hn H0 H1. unfold h. rewrite rpow_pos by lra.
  replace n with ((n - 1) + 1) at 2 by ring. rewrite Rpower_plus, Rpower_1 by lra.
  assert (P : Rpower y (n - 1) <= 1).
  { destruct H1 as [H1| ->]; [left; apply Rpower_lt_1; lra|]. unfold Rpower. rewrite ln_1, Rmult_0_r, exp_0. lra. }
  assert (0 < Rpower y (n - 1)) by (apply exp_pos). nra.
Qed.
Lemma h_incr n x y : 1 < n -> 0 <= x -> x < y -> y <= 1 -> h n x < h n y.
Proof.
  intros Hn [H0| <-] Hxy H1; [apply h_incr_pos; assumption|]. rewrite h_0. apply h_pos; assumption.
Qed.
Lemma nlf_form I q n opt : non_linear_function I q n opt =
  if opt then 1 - ln (1 + q * h n (1 - I)) / ln (1 + q * (n - 1)) else ln (1 + q * h n I) / ln (1 + q * (n - 1)).
Proof.
  unfold non_linear_function, h. cbn zeta.
  replace (1 - q * (1 - n)) with (1 + q * (n - 1)) by ring.
  destruct opt.
  - replace (1 - q * (rpow (1 - I) n - n * (1 - I))) with (1 + q * (n * (1 - I) - rpow (1 - I) n)) by ring. reflexivity.
  - replace (1 - q * (rpow I n - n * I)) with (1 + q * (n * I - rpow I n)) by ring. reflexivity.
Qed.
Section bh.
Context (q n : R) (Hq : 0 < q) (Hn : 2 <= n).
Lemma num_pos : 0 < ln (1 + q * (n - 1)).
Proof. rewrite <- ln_1. apply ln_increasing; nra. Qed.
Lemma g_incr x y : 0 <= x -> x < y -> y <= 1 -> ln (1 + q * h n x) / ln (1 + q * (n - 1)) < ln (1 + q * h n y) / ln (1 + q * (n - 1)).
Proof.
  intros H0 Hxy H1. unfold Rdiv. apply Rmult_lt_compat_r; [apply Rinv_0_lt_compat, num_pos|].
  pose proof (h_incr n x y ltac:(lra) H0 Hxy H1).
  assert (0 <= h n x). { destruct H0 as [H0| <-]; [left; apply h_pos; lra|rewrite h_0; lra]. }
  apply ln_increasing; nra.
Qed.
Lemma nlf_0 opt : non_linear_function 0 q n opt = 0.
Proof.
  rewrite nlf_form. pose proof num_pos. destruct opt.
  - rewrite Rminus_0_r, h_1. field. lra.
  - rewrite h_0, Rmult_0_r, Rplus_0_r, ln_1. unfold Rdiv. ring.
Qed.
Lemma nlf_1 opt : non_linear_function 1 q n opt = 1.
Proof.
  rewrite nlf_form. pose proof num_pos. destruct opt.
  - replace (1 - 1) with 0 by ring. rewrite h_0, Rmult_0_r, Rplus_0_r, ln_1. unfold Rdiv. ring.
  - rewrite h_1. field. lra.
Qed.
Lemma nlf_incr x y opt : 0 <= x -> x < y -> y <= 1 -> non_linear_function x q n opt < non_linear_function y q n opt.
Proof.
  intros H0 Hxy H1. rewrite !nlf_form. destruct opt.
  - pose proof (g_incr (1 - y) (1 - x) ltac:(lra) ltac:(lra) ltac:(lra)). lra.
  - apply g_incr; assumption.
Qed.
Lemma nlf_range x opt : 0 <= x <= 1 -> 0 <= non_linear_function x q n opt <= 1.
Proof.
  intros [H0 H1]. split.
  - destruct (Req_EM_T x 0) as [-> |D]; [rewrite nlf_0; lra|].
    pose proof (nlf_incr 0 x opt ltac:(lra) ltac:(lra) ltac:(lra)) as L. rewrite nlf_0 in L. lra.
  - destruct (Req_EM_T x 1) as [-> |D]; [rewrite nlf_1; lra|].
    pose proof (nlf_incr x 1 opt ltac:(lra) ltac:(lra) ltac:(lra)) as L. rewrite nlf_1 in L. lra.
Qed.
Lemma bhc top m opt : (exists i j, in_rng (nrow m) i /\ in_rng (ncol m) j /\ top = px m i j) ->
  (forall i j, in_rng (nrow m) i -> in_rng (ncol m) j -> 0 <= px m i j <= 1) ->
  exists out, beam_hardening_correction top m q n opt = Ok out /\ nrow out = nrow m /\ ncol out = ncol m /\
    forall i j, in_rng (nrow m) i -> in_rng (ncol m) j -> 0 <= px out i j <= 1 /\
      (px m i j = 0 -> px out i j = 0) /\ (px m i j = 1 -> px out i j = 1) /\
      (let response := fun x => if Req_EM_T x 0 then 0 else ln (1 + q * (n * x - Rpower x n)) / ln (1 + q * (n - 1)) in
       px out i j = if opt then 1 - response (1 - px m i j) else response (px m i j)) /\
      forall i' j', in_rng (nrow m) i' -> in_rng (ncol m) j' -> px m i j < px m i' j' -> px out i j < px out i' j'.
Proof.
  intros (i0 & j0 & Hi0 & Hj0 & ->) Hm. pose proof (Hm i0 j0 Hi0 Hj0). unfold beam_hardening_correction.
  destruct (Rle_dec 2 (px m i0 j0)); [lra|]. destruct (Rlt_dec n 2); [lra|].
  eexists. split; [reflexivity|]. cbn [imap nrow ncol px]. split; [reflexivity|]. split; [reflexivity|].
  intros i j Hi Hj. split; [apply nlf_range; auto|]. split; [intros ->; apply nlf_0|]. split; [intros ->; apply nlf_1|].
  split.
  { set (response := fun x => if Req_EM_T x 0 then 0 else ln (1 + q * (n * x - Rpower x n)) / ln (1 + q * (n - 1))).
    change (non_linear_function (px m i j) q n opt = if opt then 1 - response (1 - px m i j) else response (px m i j)).
    rewrite nlf_form.
    assert (G : forall x, response x = ln (1 + q * h n x) / ln (1 + q * (n - 1))).
    { intros x. unfold response. destruct (Req_EM_T x 0) as [-> |D].
      - rewrite h_0, Rmult_0_r, Rplus_0_r, ln_1. unfold Rdiv. ring.
      - unfold h, rpow. destruct (Req_EM_T x 0); [contradiction|reflexivity]. }
    rewrite !G. destruct opt; reflexivity. }
  intros i' j' Hi' Hj' L. apply nlf_incr; [apply Hm; assumption|exact L|apply Hm; assumption].
Qed.
End bh.
Lemma bhc_reject_n top m q n opt : n < 2 -> beam_hardening_correction top m q n opt = Err ValueError.
Proof. intros H. unfold beam_hardening_correction. destruct (Rle_dec 2 top); [reflexivity|]. destruct (Rlt_dec n 2); [reflexivity|lra]. Qed.
Lemma bhc_reject_max top m q n opt : 2 <= top -> beam_hardening_correction top m q n opt = Err ValueError.
Proof. intros H. unfold beam_hardening_correction. destruct (Rle_dec 2 top); [reflexivity|lra]. Qed.
