(** Proofs about correlation.py: affine invariance, a counterexample for polynomial fits. *)
From Coq Require Import Reals Lra ZArith Lia Permutation.
From Verif Require Import Np P_Np M_phase_R P_phase_R M_corr S_corr P_corr P_corr2 P_corr3.
From Coq Require Import List. Import ListNotations.
Open Scope R_scope.

Lemma rescaled_shape s t d : height (rescaled s t d) = height d /\ width (rescaled s t d) = width d /\ depth (rescaled s t d) = depth d.
Proof. destruct d; repeat split. Qed.
Lemma rescaled_window s t d i j h w : window (rescaled s t d) i j h w = map (fun x => s * x + t) (window d i j h w).
Proof.
  unfold window. rewrite (proj2 (proj2 (rescaled_shape s t d))). rewrite map_flat_map'. apply flat_map_ext_in. intros k _.
  rewrite map_flat_map'. apply flat_map_ext_in. intros a _. rewrite map_map. apply map_ext. intros b. destruct d; reflexivity.
Qed.
Lemma combine_map {A B C D} (f : A -> C) (g : B -> D) la lb : combine (map f la) (map g lb) = map (fun p => (f (fst p), g (snd p))) (combine la lb).
Proof. revert lb. induction la as [|a la IH]; intros [|b lb]; cbn; try reflexivity. rewrite IH. reflexivity. Qed.
Lemma correlation_rescaled s t s' t' ref mat i j : 0 < s -> 0 < s' ->
  correlation_at (rescaled s t ref) (rescaled s' t' mat) i j = correlation_at ref mat i j.
Proof.
  intros S S'. unfold correlation_at. rewrite !rescaled_window. destruct (rescaled_shape s' t' mat) as (-> & -> & _).
  rewrite combine_map. apply pearson_affine; assumption.
Qed.
Lemma rescaled_fits s t s' t' ref mat : fits ref mat -> fits (rescaled s t ref) (rescaled s' t' mat).
Proof. destruct ref, mat; unfold fits; cbn; auto. Qed.
Lemma window_same_length ref mat i j : same_kind ref mat ->
  length (window mat 0 0 (height mat) (width mat)) = length (window ref i j (height mat) (width mat)).
Proof. intros K. rewrite !window_length, (kind_depth _ _ K). reflexivity. Qed.

(** counterexample: row profile 0 0 10 9 9 *)
Definition skewed : img R := mkimg 5 5 (fun i j => if (i =? 2)%Z then (if (j =? 2)%Z then 10 else if (3 <=? j)%Z then 9 else 0) else 0).
Lemma skewed_peak : first_max2 skewed 2 2.
Proof.
  unfold first_max2, skewed. cbn [nrow ncol px]. split; [lia|]. split; [lia|]. split.
  - intros i j Hi Hj. destruct (Z.eqb_spec i 2), (Z.eqb_spec j 2), (Z.leb_spec 3 j); cbn; try lra.
  - intros i j Hi Hj H. destruct (Z.eqb_spec i 2), (Z.eqb_spec j 2), (Z.leb_spec 3 j); cbn; try lra; lia.
Qed.
Lemma fit5 y0 y1 y2 y3 y4 a b : least_squares_parabola [y0; y1; y2; y3; y4] a b ->
  14 * a = 2 * y0 - y1 - 2 * y2 - y3 + 2 * y4 /\ 10 * (b + 4 * a) = - 2 * y0 - y1 + y3 + 2 * y4.
Proof.
  intros (c & H). pose proof (H 0%nat ltac:(lia)) as H0. pose proof (H 1%nat ltac:(lia)) as H1. pose proof (H 2%nat ltac:(lia)) as H2.
  change (zrange 0 (Z.of_nat (length [y0; y1; y2; y3; y4]))) with [0; 1; 2; 3; 4]%Z in H0, H1, H2.
  cbn in H0, H1, H2. unfold Pos.to_nat in H0, H1, H2. cbn in H0, H1, H2. split; lra.
Qed.
Lemma fit5_exists (y : vec R) : vlen y = 5%Z ->
  let a := (2 * vat y 0%Z - vat y 1%Z - 2 * vat y 2%Z - vat y 3%Z + 2 * vat y 4%Z) / 14 in
  let b := (- 2 * vat y 0%Z - vat y 1%Z + vat y 3%Z + 2 * vat y 4%Z) / 10 - 4 * a in
  least_squares_parabola (vlist y) a b.
Proof.
  intros L a b. unfold vlist. rewrite L. change (map (vat y) (zrange 0 5)) with [vat y 0%Z; vat y 1%Z; vat y 2%Z; vat y 3%Z; vat y 4%Z].
  exists ((vat y 0%Z + vat y 1%Z + vat y 2%Z + vat y 3%Z + vat y 4%Z) / 5 - 2 * b - 6 * a).
  change (zrange 0 (Z.of_nat (length [vat y 0%Z; vat y 1%Z; vat y 2%Z; vat y 3%Z; vat y 4%Z]))) with [0; 1; 2; 3; 4]%Z.
  intros [|[|[|p] ] ] Hp; try lia; unfold b, a; cbn; unfold Pos.to_nat; cbn; field.
Qed.
Lemma argmax_2 a b c d : a < 10 -> b < 10 -> c <= 10 -> d <= 10 -> argmaxR [a; b; 10; c; d] = Ok 2%Z.
Proof.
  intros. change [a; b; 10; c; d] with (map (fun k : Z => nth (Z.to_nat k) [a; b; 10; c; d] 0) (zrange 0 5)). apply argmaxR_is.
  assert (Cs : forall i, (0 <= i < 5 -> i = 0 \/ i = 1 \/ i = 2 \/ i = 3 \/ i = 4)%Z) by (intros; lia).
  split; [lia|]. split; intros i Hi; destruct (Cs i ltac:(lia)) as [-> | [-> | [-> | [-> | ->] ] ] ]; try lia; unfold Z.to_nat, Pos.to_nat; cbn; lra.
Qed.
Lemma skewed_fit polyfit2 surface : (forall l, vlen l = 5%Z -> least_squares_parabola (vlist l) (fst (polyfit2 l)) (snd (polyfit2 l))) ->
  locate_peak polyfit2 surface skewed true PolyFit true 5 true = Ok (409 / 110, 2).
Proof.
  intros LS. unfold locate_peak. cbv iota. rewrite (argmax2_is skewed 2 2 skewed_peak). cbn [bindr negb].
  cbn -[irow icol vslice locate_1d_peak_subpixel skewed Rltb Reqb].
  set (rw := vslice (irow skewed 2) 0 5). set (cl := vslice (icol skewed 2) 0 5).
  assert (Er : vlist rw = [0; 0; 10; 9; 9]) by (unfold rw; cbn; reflexivity).
  assert (Ec : vlist cl = [0; 0; 10; 0; 0]) by (unfold cl; cbn; reflexivity).
  pose proof (LS rw eq_refl) as Lr. pose proof (LS cl eq_refl) as Lc. rewrite Er in Lr. rewrite Ec in Lc. apply fit5 in Lr. apply fit5 in Lc.
  assert (R1 : locate_1d_peak_subpixel polyfit2 rw PolyFit = Ok (409 / 110)).
  { unfold locate_1d_peak_subpixel. rewrite Er. cbn [bindr].
    rewrite (argmax_2 0 0 9 9) by lra. cbn [bindr]. destruct (polyfit2 rw) as [a b]. cbn [fst snd] in Lr. rewrite (proj2 (Reqb_f a 0)) by lra.
    assert (V : - b / (2 * a) = 409 / 110) by (replace a with (- 11 / 14) by lra; replace b with (409 / 70) by lra; field).
    rewrite V. change (vlen rw - 1)%Z with 4%Z. rewrite !(proj2 (Rltb_t _ _)) by (cbn; lra). reflexivity. }
  assert (R2 : locate_1d_peak_subpixel polyfit2 cl PolyFit = Ok 2).
  { unfold locate_1d_peak_subpixel. rewrite Ec. cbn [bindr].
    rewrite (argmax_2 0 0 0 0) by lra. cbn [bindr]. destruct (polyfit2 cl) as [a b]. cbn [fst snd] in Lc. rewrite (proj2 (Reqb_f a 0)) by lra.
    assert (V : - b / (2 * a) = 2) by (replace a with (- 10 / 7) by lra; replace b with (40 / 7) by lra; field).
    rewrite V. change (vlen cl - 1)%Z with 4%Z. rewrite !(proj2 (Rltb_t _ _)) by (cbn; lra). reflexivity. }
  change (nrow skewed) with 5%Z. change (ncol skewed) with 5%Z. cbn -[irow icol vslice locate_1d_peak_subpixel skewed Rltb Reqb].
  fold rw cl. rewrite R1, R2. cbn [bindr].
  rewrite (proj2 (Reqb_f (0 + 2) 0)) by lra. rewrite (proj2 (Reqb_f (0 + 2) 4)) by lra. cbn [orb andb bindr].
  rewrite (proj2 (Reqb_f (0 + 409 / 110) 0)) by lra. rewrite (proj2 (Reqb_f (0 + 409 / 110) 4)) by lra. cbn [orb andb].
  f_equal. f_equal; lra.
Qed.
