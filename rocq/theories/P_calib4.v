(** Proofs about tilt and roll. *)
From Coq Require Import Reals Lra ZArith Lia Bool List. Import ListNotations.
From Verif Require Import Np P_Np M_phase_R P_phase_R M_corr P_corr M_simR S_simR P_simR P_simR2 P_simR4 M_calib S_calib P_calib P_calib2 P_calib3.
Open Scope R_scope.

Lemma spread_pos (n : Z) (f : Z -> R) i j : in_rng n i -> in_rng n j -> f i <> f j -> 0 < IZR n * rsum n (fun k => f k * f k) - rsum n f * rsum n f.
Proof.
  intros Hi Hj Hne. assert (Hn : (0 < n)%Z) by (unfold in_rng in *; lia). assert (Hp : 0 < IZR n) by (apply IZR_lt; exact Hn).
  set (mu := rsum n f / IZR n).
  assert (E : rsum n (fun k => (f k - mu) * (f k - mu)) = rsum n (fun k => f k * f k) - 2 * mu * rsum n f + IZR n * (mu * mu)).
  { rewrite (rsum_ext n _ (fun k => (f k * f k + (-2 * mu) * f k) + mu * mu)) by (intros; ring). rewrite rsum_add, rsum_add, rsum_scal, rsum_const by lia. ring. }
  assert (E2 : IZR n * rsum n (fun k => f k * f k) - rsum n f * rsum n f = IZR n * rsum n (fun k => (f k - mu) * (f k - mu))).
  { rewrite E. unfold mu. field. lra. }
  rewrite E2. apply Rmult_lt_0_compat; [exact Hp|].
  destruct (Rle_lt_dec (rsum n (fun k => (f k - mu) * (f k - mu))) 0) as [L|G]; [exfalso|exact G].
  assert (Z : forall k, in_rng n k -> f k = mu).
  { intros k Hk. assert (Q : (f k - mu) * (f k - mu) = 0) by (apply (rsum_zero_each n (fun k => (f k - mu) * (f k - mu))); [intros; apply Rle_0_sqr|exact L|exact Hk]).
    apply Rmult_integral in Q. lra. }
  apply Hne. rewrite (Z i Hi), (Z j Hj). reflexivity.
Qed.
Lemma polyfit_collinear (x y : vec R) p q i j : in_rng (vlen x) i -> in_rng (vlen x) j -> vat x i <> vat x j ->
  (forall k, in_rng (vlen x) k -> vat y k = p * vat x k + q) -> polyfit_line x y = (p, q).
Proof.
  intros Hi Hj Hne HL. assert (D := spread_pos _ _ _ _ Hi Hj Hne). unfold polyfit_line.
  assert (Hn : (0 < vlen x)%Z) by (unfold in_rng in *; lia). assert (Hp : 0 < IZR (vlen x)) by (apply IZR_lt; exact Hn).
  set (n := IZR (vlen x)) in *. set (sx := rsum (vlen x) (vat x)) in *. set (sxx := rsum (vlen x) (fun k => vat x k * vat x k)) in *.
  assert (E1 : rsum (vlen x) (vat y) = p * sx + n * q).
  { rewrite (rsum_ext _ _ (fun k => p * vat x k + q)) by (intros k Hk; apply HL; exact Hk). rewrite rsum_add, rsum_scal, rsum_const by lia. unfold n, sx. ring. }
  assert (E2 : rsum (vlen x) (fun k => vat x k * vat y k) = p * sxx + q * sx).
  { rewrite (rsum_ext _ _ (fun k => p * (vat x k * vat x k) + q * vat x k)) by (intros k Hk; rewrite (HL k Hk); ring). rewrite rsum_add, !rsum_scal. reflexivity. }
  rewrite E1, E2. assert (A : (n * (p * sxx + q * sx) - sx * (p * sx + n * q)) / (n * sxx - sx * sx) = p) by (field; lra). rewrite A. f_equal. field. lra.
Qed.
Lemma fold_max_ge l : forall a, a <= fold_left Rmax l a /\ (forall v, In v l -> v <= fold_left Rmax l a).
Proof.
  induction l as [|b l IH]; intros a; cbn [fold_left]; [split; [lra|contradiction]|]. destruct (IH (Rmax a b)) as (A & B).
  assert (X := Rmax_l a b). assert (Y := Rmax_r a b). split; [lra|]. intros v [<-|Hv]; [lra|apply B, Hv].
Qed.
Lemma fold_max_in l : forall a, fold_left Rmax l a = a \/ In (fold_left Rmax l a) l.
Proof.
  induction l as [|b l IH]; intros a; cbn [fold_left]; [left; reflexivity|]. destruct (IH (Rmax a b)) as [E|E]; [|right; right; exact E].
  rewrite E. unfold Rmax. destruct (Rle_dec a b); [right; left; reflexivity|left; reflexivity].
Qed.
Lemma rmaxlist_spec l : l <> [] -> exists v, rmaxlist l = Ok v /\ In v l /\ forall w, In w l -> w <= v.
Proof.
  destruct l as [|a l]; [congruence|]. intros _. exists (fold_left Rmax l a). split; [reflexivity|]. split.
  - destruct (fold_max_in l a) as [E|E]; [left; symmetry; exact E|right; exact E].
  - destruct (fold_max_ge l a) as (A & B). intros w [<-|Hw]; [exact A|exact (B w Hw)].
Qed.
Lemma atan2_right atan2 y x : polar_angle atan2 -> 0 < x -> atan2 y x = atan (y / x).
Proof.
  intros H Hx. assert (B := atan_bound (y / x)). assert (P := PI_RGT_0). assert (C : 0 < cos (atan (y / x))) by (apply cos_gt_0; lra).
  set (r := x / cos (atan (y / x))). assert (Hr : 0 < r) by (apply Rdiv_lt_0_compat; assumption).
  assert (T : tan (atan (y / x)) = y / x) by apply tan_atan. unfold tan in T.
  assert (S : sin (atan (y / x)) = y / x * cos (atan (y / x))). { rewrite <- T at 2. field. lra. }
  rewrite <- (polar_unique atan2 r (atan (y / x)) H Hr) by lra. f_equal; unfold r; [rewrite S; field|field]; lra.
Qed.
Section Straight.
Variables (atan2 : R -> R -> R) (svd_last : img R -> Z -> R) (smooth : vec R -> vec R) (x y : vec R) (p q : R) (i j : Z).
Hypotheses (Hat : polar_angle atan2) (Hs : keeps_zero smooth) (Hl : vlen y = vlen x) (Hi : in_rng (vlen x) i) (Hj : in_rng (vlen x) j)
  (Hne : vat x i <> vat x j) (HL : forall k, in_rng (vlen x) k -> vat y k = p * vat x k + q).
Lemma straight_top : rmaxlist (vlistR (smooth (line_distance p q x y))) = Ok 0.
Proof using All.
  destruct (Hs (line_distance p q x y)) as (L & Z). cbn [vlen line_distance] in *.
  assert (ZZ : forall k, in_rng (vlen x) k -> vat (smooth (line_distance p q x y)) k = 0).
  { apply Z. intros k Hk. cbn [vat line_distance]. rewrite (HL k Hk). replace (p * vat x k - (p * vat x k + q) + q) with 0 by ring. rewrite Rabs_R0. unfold Rdiv. ring. }
  destruct (rmaxlist_spec (vlistR (smooth (line_distance p q x y)))) as (v & E & I & _).
  { unfold vlistR. rewrite L. intros E. apply map_eq_nil in E. assert (X : In i (zrange 0 (vlen x))) by (apply zrange_In; unfold in_rng in Hi; lia). rewrite E in X. contradiction. }
  rewrite E. f_equal. unfold vlistR in I. apply in_map_iff in I. destruct I as (k & <- & Hk). rewrite L in Hk. apply zrange_In in Hk. apply ZZ. unfold in_rng. lia.
Qed.
Lemma straight_linear : find_tilt_roll_based_linear_fit atan2 smooth x y = Ok (0, rad2deg (atan p)).
Proof using All.
  unfold find_tilt_roll_based_linear_fit. rewrite (polyfit_collinear x y p q i j) by assumption.
  set (l := flat_map _ _). assert (X : exists d, In d l /\ 0 < d).
  { assert (G : forall a b, in_rng (vlen x) a -> in_rng (vlen x) b -> (a < b)%Z -> vat x a <> vat x b -> exists d, In d l /\ 0 < d).
    { intros a b Ha Hb Hab Hd. exists (sqrt ((vat x a - vat x b) ^ 2 + (vat y a - vat y b) ^ 2)). split.
      - unfold l. apply in_flat_map. exists a. split; [apply zrange_In; unfold in_rng in *; lia|]. apply in_map_iff. exists b. split; [reflexivity|]. apply prange_In. unfold in_rng in *. lia.
      - apply sqrt_lt_R0. assert (A : 0 < (vat x a - vat x b) * (vat x a - vat x b)) by (apply Rlt_0_sqr; lra). assert (B := Rle_0_sqr (vat y a - vat y b)). unfold Rsqr in B. simpl. lra. }
    destruct (Z.lt_trichotomy i j) as [C|[C|C] ]; [exact (G i j Hi Hj C Hne)|subst; contradiction|apply (G j i Hj Hi C); congruence]. }
  destruct X as (d & Hd & Hp). destruct (rmaxlist_spec l) as (v & E & _ & M); [intros Z; rewrite Z in Hd; contradiction|].
  rewrite E. cbn [bindr]. rewrite straight_top. cbn [bindr]. assert (Hv : 0 < v) by (assert (Q := M d Hd); lra).
  rewrite (atan2_right atan2 _ _ Hat Hv). replace (2 * 0 / v) with 0 by (field; lra). rewrite atan_0. f_equal. f_equal. unfold rad2deg. field. apply PI_neq0.
Qed.
Lemma straight_ellipse : find_tilt_roll atan2 svd_last smooth x y EllipseFit = Ok (0, rad2deg (atan p)).
Proof using All.
  unfold find_tilt_roll. rewrite Hl, Z.eqb_refl. cbn [negb]. rewrite (polyfit_collinear x y p q i j) by assumption. rewrite straight_top. cbn [bindr].
  destruct (Rlt_dec 0 1) as [_|N]; [|exfalso; lra]. apply straight_linear.
Qed.
End Straight.

Lemma atan_sin_less al : 0 < al <= PI / 2 -> atan (sin al) < al.
Proof.
  intros (H0 & H1). assert (P := PI_RGT_0). assert (S := sin_gt_0 al H0 ltac:(lra)). assert (B := atan_bound (sin al)).
  destruct (Req_dec al (PI / 2)) as [->|Hne].
  - rewrite sin_PI2, atan_1. lra.
  - assert (C : 0 < cos al) by (apply cos_gt_0; lra). assert (C1 : cos al < 1) by (rewrite <- cos_0; apply cos_decreasing_1; lra).
    assert (T : sin al < tan al). { unfold tan. apply Rmult_lt_reg_r with (cos al); [exact C|]. replace (sin al / cos al * cos al) with (sin al * 1) by (field; lra). apply Rmult_lt_compat_l; assumption. }
    assert (A := atan_increasing _ _ T). rewrite atan_tan in A by lra. exact A.
Qed.

(** np.polyfit: the model solves the least-squares problem *)
Lemma polyfit_least (x y : vec R) i j : in_rng (vlen x) i -> in_rng (vlen x) j -> vat x i <> vat x j -> least_squares x y (fst (polyfit_line x y)) (snd (polyfit_line x y)).
Proof.
  intros Hi Hj Hne a' b'. assert (D := spread_pos _ _ _ _ Hi Hj Hne).
  assert (Hn : (0 < vlen x)%Z) by (unfold in_rng in *; lia). assert (Hp : 0 < IZR (vlen x)) by (apply IZR_lt; exact Hn).
  unfold polyfit_line. cbn [fst snd]. set (n := vlen x) in *. set (sx := rsum n (vat x)) in *. set (sxx := rsum n (fun k => vat x k * vat x k)) in *.
  set (sy := rsum n (vat y)). set (sxy := rsum n (fun k => vat x k * vat y k)).
  set (a := (IZR n * sxy - sx * sy) / (IZR n * sxx - sx * sx)). set (b := (sy - a * sx) / IZR n).
  assert (R0 : rsum n (fun k => a * vat x k + b - vat y k) = 0).
  { rewrite rsum_sub, rsum_add, rsum_scal, rsum_const by lia. fold sx sy. unfold b. field. lra. }
  assert (R1 : rsum n (fun k => vat x k * (a * vat x k + b - vat y k)) = 0).
  { rewrite (rsum_ext n _ (fun k => a * (vat x k * vat x k) + b * vat x k - vat x k * vat y k)) by (intros; ring). rewrite rsum_sub, rsum_add, !rsum_scal. fold sx sxx sxy. unfold b, a. field. split; lra. }
  set (u := a' - a). set (w := b' - b).
  assert (E : rsum n (fun k => (a' * vat x k + b' - vat y k) ^ 2) = rsum n (fun k => (a * vat x k + b - vat y k) ^ 2) + rsum n (fun k => (u * vat x k + w) * (u * vat x k + w))).
  { rewrite (rsum_ext n _ (fun k => (a * vat x k + b - vat y k) ^ 2 + (u * vat x k + w) * (u * vat x k + w) + (2 * u * (vat x k * (a * vat x k + b - vat y k)) + 2 * w * (a * vat x k + b - vat y k))))
      by (intros k _; unfold u, w; ring).
    rewrite (rsum_add n (fun k => (a * vat x k + b - vat y k) ^ 2 + (u * vat x k + w) * (u * vat x k + w))), (rsum_add n (fun k => 2 * u * _)), !rsum_scal, R0, R1, (rsum_add n (fun k => (a * vat x k + b - vat y k) ^ 2)). ring. }
  rewrite E. assert (P : 0 <= rsum n (fun k => (u * vat x k + w) * (u * vat x k + w))) by (apply rsum_nonneg; intros; apply Rle_0_sqr). lra.
Qed.
