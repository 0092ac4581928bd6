(** Proofs about the correlation metric and the overlap search. *)
From Coq Require Import Reals Lra ZArith Lia Bool Permutation.
From Verif Require Import Np P_Np P_utility M_phase_R P_phase_R M_corr S_corr P_corr M_calculation P_calculation P_calculation2 P_calculation3 M_overlap S_overlap.
From Coq Require Import List. Import ListNotations.
Open Scope Z_scope.

Lemma lsum_total l : lsum l = total l. Proof. reflexivity. Qed.
Lemma squares_dot l : lsum (map (fun v => v * v)%R l) = dot l l.
Proof. unfold dot. induction l as [|x l IH]; [reflexivity|]. cbn [map combine total lsum fold_right fst snd]. unfold lsum, total in *. rewrite IH. reflexivity. Qed.
Lemma divided l c : map (fun v => v / c)%R l = map (fun v => / c * v)%R l.
Proof. apply map_ext. intros v. unfold Rdiv. ring. Qed.
Lemma pearsonr_is x y : length x = length y -> pearsonr x y = pearson (combine x y).
Proof.
  intros L. assert (B := pearson_bounds (combine x y)). unfold pearsonr. 
  change (map (fun v => (v - lsum x / INR (length x))%R) x) with (deviations x). change (map (fun v => (v - lsum y / INR (length y))%R) y) with (deviations y).
  rewrite !squares_dot. unfold pearson in *. rewrite map_fst_combine, map_snd_combine in * by exact L. set (a := deviations x) in *. set (b := deviations y) in *.
  assert (E : lsum (map (fun p => (fst p * snd p)%R) (combine (map (fun v => v / sqrt (dot a a))%R a) (map (fun v => v / sqrt (dot b b))%R b))) = (/ sqrt (dot a a) * (/ sqrt (dot b b) * dot a b))%R).
  { rewrite !divided. rewrite <- dot_scal_r, <- dot_scal_l. reflexivity. }
  rewrite E. assert (NA := dot_self_nonneg a). assert (NB := dot_self_nonneg b). assert (LE : length a = length b) by (unfold a, b; rewrite !deviations_length; exact L).
  assert (CS := cauchy_schwarz a b LE).
  destruct (Req_EM_T (dot a a * dot b b) 0) as [Z|N].
  - assert (D : dot a b = 0%R) by nra. rewrite D, !Rmult_0_r. unfold Rmax, Rmin. destruct (Rle_dec 0 1); [|lra]. destruct (Rle_dec 0 (-1)); lra.
  - assert (PA : (0 < dot a a)%R) by (destruct (Rle_lt_or_eq_dec _ _ NA) as [P|Q]; [exact P|rewrite <- Q in N; lra]).
    assert (PB : (0 < dot b b)%R) by (destruct (Rle_lt_or_eq_dec _ _ NB) as [P|Q]; [exact P|rewrite <- Q in N; lra]).
    assert (SA : (0 < sqrt (dot a a))%R) by (apply sqrt_lt_R0; exact PA). assert (SB : (0 < sqrt (dot b b))%R) by (apply sqrt_lt_R0; exact PB).
    rewrite sqrt_mult in * by lra. replace (/ sqrt (dot a a) * (/ sqrt (dot b b) * dot a b))%R with (dot a b / (sqrt (dot a a) * sqrt (dot b b)))%R by (field; split; lra).
    rewrite Rmin_left by lra. rewrite Rmax_left by lra. reflexivity.
Qed.
Lemma flatten_length m : 0 <= nrow m -> 0 <= ncol m -> Z.of_nat (length (flatten_F m)) = nrow m * ncol m.
Proof.
  intros Hr Hc. unfold flatten_F. rewrite (flat_map_const_length _ (Z.to_nat (nrow m))) by (intros; rewrite map_length, zrange_length; reflexivity). rewrite zrange_length. lia.
Qed.
Lemma flatten_same_length a b : same_shape a b -> length (flatten_F a) = length (flatten_F b).
Proof.
  intros (E1 & E2). unfold flatten_F. rewrite !(flat_map_const_length _ (Z.to_nat (nrow a))) by (intros; rewrite map_length, zrange_length, ?E1; reflexivity). rewrite E2. reflexivity.
Qed.
Lemma metric_is a b : same_shape a b -> correlation_metric a b = (1 - pearson (combine (pixels a) (pixels b)))%R.
Proof.
  intros S. unfold correlation_metric. rewrite pearsonr_is by (apply flatten_same_length; exact S). change (flatten_F a) with (pixels a). change (flatten_F b) with (pixels b).
  assert (B := pearson_bounds (combine (pixels a) (pixels b))). apply Rabs_right. lra.
Qed.
Lemma pixel_in m i j : in_rng (nrow m) i -> in_rng (ncol m) j -> In (px m i j) (pixels m).
Proof. intros Hi Hj. unfold in_rng in *. unfold pixels. apply in_flat_map. exists j. split; [apply zrange_In; lia|]. apply in_map_iff. exists i. split; [reflexivity|apply zrange_In; lia]. Qed.
Lemma in_pixels m v : In v (pixels m) -> exists i j, in_rng (nrow m) i /\ in_rng (ncol m) j /\ v = px m i j.
Proof.
  unfold pixels. intros H. apply in_flat_map in H. destruct H as (j & Hj & H). apply in_map_iff in H. destruct H as (i & <- & Hi). apply zrange_In in Hi. apply zrange_In in Hj.
  exists i, j. unfold in_rng. repeat split; lia.
Qed.
Lemma varied_pixels m : varied m <-> varies (pixels m).
Proof.
  split.
  - intros (i & j & i' & j' & H1 & H2 & H3 & H4 & N). exists (px m i j), (px m i' j'). split; [apply pixel_in; assumption|]. split; [apply pixel_in; assumption|exact N].
  - intros (x & y & Hx & Hy & N). apply in_pixels in Hx. apply in_pixels in Hy. destruct Hx as (i & j & H1 & H2 & ->), Hy as (i' & j' & H3 & H4 & ->). exists i, j, i', j'. repeat split; assumption || apply H1 || idtac.
    all: try apply H2; try apply H3; try apply H4; exact N.
Qed.
Lemma pixels_adjusted s t a b : adjusted s t a b -> pixels b = map (fun x => s * x + t)%R (pixels a).
Proof.
  intros ((E1 & E2) & H). unfold pixels. rewrite <- E1, <- E2. rewrite map_flat_map'. apply flat_map_ext_in. intros j Hj. rewrite map_map. apply map_ext_in. intros i Hi.
  apply zrange_In in Hi. apply zrange_In in Hj. apply H; unfold in_rng; lia.
Qed.
Lemma flat_map_inj_len {A} (f g : Z -> list A) n : forall l, (forall x, length (f x) = n) -> (forall x, length (g x) = n) -> flat_map f l = flat_map g l -> forall x, In x l -> f x = g x.
Proof.
  induction l as [|y l IH]; intros Lf Lg E x [].
  - subst y. cbn in E. assert (X := f_equal (firstn n) E). rewrite !firstn_app, (Lf x), (Lg x), Nat.sub_diag in X. cbn in X. rewrite !app_nil_r in X. rewrite !firstn_all2 in X by (rewrite ?Lf, ?Lg; lia). exact X.
  - apply IH; try assumption. cbn in E. assert (X := f_equal (skipn n) E). rewrite !skipn_app, (Lf y), (Lg y), Nat.sub_diag in X. cbn in X. rewrite !skipn_all2 in X by (rewrite ?Lf, ?Lg; lia). exact X.
Qed.
Lemma pixels_copy a b : same_shape a b -> (affine_copy (pixels a) (pixels b) <-> bright_copy a b).
Proof.
  intros S. assert (S' := S). destruct S as (E1 & E2). split.
  - intros (s & t & Hs & E). exists s, t. split; [exact Hs|]. split; [exact S'|]. intros i j Hi Hj. unfold pixels in E. rewrite map_flat_map', <- E1, <- E2 in E.
    assert (X := flat_map_inj_len (fun j => map (fun i => px b i j) (zrange 0 (nrow a))) (fun x => map (fun x0 => (s * x0 + t)%R) (map (fun i => px a i x) (zrange 0 (nrow a)))) (Z.to_nat (nrow a)) _
       ltac:(intros; cbn beta; rewrite map_length, zrange_length; reflexivity) ltac:(intros; cbn beta; rewrite !map_length, zrange_length; reflexivity) E j ltac:(apply zrange_In; unfold in_rng in Hj; lia)).
    cbn beta in X. rewrite map_map in X. unfold in_rng in Hi. assert (Y := f_equal (fun l => nth (Z.to_nat i) l 0%R) X). cbn beta in Y.
    rewrite !nth_map_zrange in Y by lia. exact Y.
  - intros (s & t & Hs & A). exists s, t. split; [exact Hs|]. apply pixels_adjusted. exact A.
Qed.
Lemma metric_zero_iff a b : same_shape a b -> varied a -> (correlation_metric a b = 0%R <-> bright_copy a b).
Proof.
  intros S V. rewrite metric_is by exact S. rewrite <- pixels_copy by exact S. split.
  - intros E. apply pearson_one; [apply (flatten_same_length a b); exact S|lra].
  - intros C. rewrite pearson_copy; [lra|apply varied_pixels; exact V|exact C].
Qed.
Lemma combine_map {A B C D} (f : A -> C) (g : B -> D) : forall (x : list A) (y : list B), combine (map f x) (map g y) = map (fun p => (f (fst p), g (snd p))) (combine x y).
Proof. induction x as [|a x IH]; intros [|b y]; try reflexivity. cbn. rewrite IH. reflexivity. Qed.
Lemma metric_adjusted a b a' b' s t s' t' : same_shape a b -> (0 < s)%R -> (0 < s')%R -> adjusted s t a a' -> adjusted s' t' b b' -> correlation_metric a' b' = correlation_metric a b.
Proof.
  intros S Hs Hs' A B. assert (A' := A). assert (B' := B). destruct A' as ((A1 & A2) & _), B' as ((B1 & B2) & _). assert (S' := S). destruct S' as (S1 & S2). rewrite !metric_is by (unfold same_shape in *; split; congruence || assumption).
  rewrite (pixels_adjusted _ _ _ _ A), (pixels_adjusted _ _ _ _ B). rewrite combine_map. rewrite pearson_affine by assumption. reflexivity.
Qed.
Lemma metric_bounds a b : (0 <= correlation_metric a b <= 2)%R.
Proof.
  unfold correlation_metric, pearsonr. match goal with |- context[Rmax (Rmin ?r 1) _] => set (z := r) end. assert (-1 <= Rmax (Rmin z 1) (-1) <= 1)%R.
  { split; [apply Rmax_r|]. apply Rmax_lub; [apply Rmin_r|lra]. }
  unfold Rabs. destruct (Rcase_abs _); lra.
Qed.
Lemma metric_ext a b a' b' : same_shape a b -> img_eq a a' -> img_eq b b' -> correlation_metric a b = correlation_metric a' b'.
Proof.
  intros S (A1 & A2 & A3) (B1 & B2 & B3). symmetry. apply (metric_adjusted a b a' b' 1 0 1 0); try lra; try assumption.
  - split; [split; congruence|]. intros i j Hi Hj. rewrite A3 by assumption. ring.
  - split; [split; congruence|]. intros i j Hi Hj. rewrite B3 by assumption. ring.
Qed.
Lemma metric_sym a b : same_shape a b -> correlation_metric a b = correlation_metric b a.
Proof.
  intros S. assert (S' : same_shape b a) by (destruct S; split; congruence). rewrite !metric_is by assumption. apply (f_equal (fun z => 1 - z)%R). assert (L := flatten_same_length a b S). unfold pearson.
  rewrite !map_fst_combine, !map_snd_combine by (first [exact L|(symmetry; exact L)]). rewrite (dot_comm (deviations (pixels b)) (deviations (pixels a))). rewrite (Rmult_comm (dot (deviations (pixels b)) (deviations (pixels b)))). reflexivity.
Qed.
