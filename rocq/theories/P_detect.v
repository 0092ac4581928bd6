(** Lemmas for detect_sample (C133). *)
From Coq Require Import Reals Lra ZArith Lia String.
From Verif Require Import Np P_Np M_phase_R P_phase_R M_fourier P_fourier M_simR M_corr P_corr2 P_umpa M_detect S_detect P_stripefft2.
From Coq Require Import List. Import ListNotations.
Open Scope Z_scope.

Lemma ceil_div_bounds m d : 0 < d -> 0 <= m -> m <= d * ceil_div m d < m + d.
Proof. intros Hd Hm. unfold ceil_div. assert (X := Z.div_mod (m + d - 1) d ltac:(lia)). assert (Y := Z.mod_pos_bound (m + d - 1) d ltac:(lia)). lia. Qed.
Lemma border_idx_in n k : 0 < n -> in_rng n (border_idx n k).
Proof. intros Hn. unfold border_idx, in_rng. assert (Y := Z.mod_pos_bound k (2 * n) ltac:(lia)). cbv zeta. destruct (Z.ltb_spec (k mod (2 * n)) n); lia. Qed.
Lemma argmax_scaled n f g c : (0 < c)%R -> (forall k, 0 <= k < n -> g k = (c * f k)%R) -> argmaxR (map g (zrange 0 n)) = argmaxR (map f (zrange 0 n)).
Proof.
  intros Hc H. destruct (Z_le_gt_dec n 0) as [N|N]; [rewrite zrange_nil by exact N; reflexivity|].
  destruct (argmaxR_total n f ltac:(lia)) as (k & E & K1 & K2 & K3). rewrite E. apply argmaxR_is. split; [exact K1|]. split; intros i Hi; rewrite !H by lia.
  - apply Rmult_le_compat_l; [lra|apply K2; exact Hi].
  - apply Rmult_lt_compat_l; [lra|apply K3; exact Hi].
Qed.
Lemma mapr_ext {A B} (f g : A -> res B) l : (forall x, In x l -> f x = g x) -> mapr f l = mapr g l.
Proof. induction l as [|a l IH]; intros H; [reflexivity|]. cbn [mapr]. rewrite (H a (or_introl eq_refl)), IH by (intros x I; apply H; right; exact I). reflexivity. Qed.
Lemma gaussian_scaled p q sigma c : 0 < nrow p -> 0 < ncol p -> nrow q = nrow p -> ncol q = ncol p ->
  (forall i j, in_rng (nrow p) i -> in_rng (ncol p) j -> px q i j = (c * px p i j)%R) -> forall i j, px (gaussian_filter q sigma) i j = (c * px (gaussian_filter p sigma) i j)%R.
Proof.
  intros Hh Hw E1 E2 H i j. unfold gaussian_filter. cbv zeta. cbn [px]. rewrite E1, E2, <- rsum_scal. apply rsum_ext. intros b _.
  rewrite (rsum_ext _ _ (fun a => (c * (gauss_weight sigma (a - 4 * sigma) * px p (border_idx (nrow p) (i + (a - 4 * sigma))) (border_idx (ncol p) (j + (b - 4 * sigma)))))%R)).
  - rewrite rsum_scal. ring.
  - intros a _. rewrite H by (apply border_idx_in; assumption). ring.
Qed.
Lemma detect_scaled a b p q c : (0 < c)%R -> nrow q = nrow p -> ncol q = ncol p ->
  (forall i j, in_rng (nrow p) i -> in_rng (ncol p) j -> px q i j = (c * px p i j)%R) -> detect_in_spectrum a b q = detect_in_spectrum a b p.
Proof.
  intros Hc E1 E2 H. unfold detect_in_spectrum. cbv zeta. change (nrow (gaussian_filter q ?s)) with (nrow q). change (ncol (gaussian_filter q ?s)) with (ncol q). change (nrow (gaussian_filter p ?s)) with (nrow p). change (ncol (gaussian_filter p ?s)) with (ncol p).
  rewrite E1, E2. set (sg := Z.min 30 _). destruct (Z.leb_spec (nrow p) (4 * nrow p / 5)) as [L|L]; [reflexivity|].
  assert (Hh : 0 < nrow p). { destruct (Z_lt_le_dec 0 (nrow p)) as [X|X]; [exact X|exfalso]. assert (D := Z.div_mod (4 * nrow p) 5 ltac:(lia)). assert (M := Z.mod_pos_bound (4 * nrow p) 5 ltac:(lia)). lia. }
  assert (PK : forall i, argmaxR (map (px (gaussian_filter q sg) i) (zrange 0 (ncol p))) = argmaxR (map (px (gaussian_filter p sg) i) (zrange 0 (ncol p)))).
  { intros i. apply argmax_scaled with (c := c); [exact Hc|]. intros k Hk. apply gaussian_scaled; try assumption. lia. }
  rewrite PK. destruct (argmaxR _) as [pos|]; [|reflexivity]. cbn [bindr]. rewrite (mapr_ext _ (fun i => do pos1 <- argmaxR (map (px (gaussian_filter p sg) i) (zrange 0 (ncol p))); Ok (if pos <? pos1 then 1 else 0))); [reflexivity|].
  intros i _. cbn beta. rewrite PK. reflexivity.
Qed.
(** the result in terms of the positions of the maxima *)
Definition smooth_size (a b : Z) : Z := Z.min 30 (ceil_div (Z.min a b) 50).
Definition rises (pk : Z -> Z) (row i : Z) : Z := if pk row <? pk i then 1 else 0.
Lemma detect_val a b p : 0 < nrow p -> 0 < ncol p -> exists pk, (forall i, first_max (ncol p) (px (gaussian_filter p (smooth_size a b)) i) (pk i)) /\
  let row := 4 * nrow p / 5 in detect_in_spectrum a b p = Ok (negb (Rltb (IZR (fold_right Z.add 0 (map (rises pk row) (prange row (nrow p)))) / IZR (nrow p - row)) 0.4)).
Proof.
  intros Hh Hw. set (sm := gaussian_filter p (smooth_size a b)).
  exists (fun i => match argmaxR (map (px sm i) (zrange 0 (ncol p))) with Ok k => k | _ => 0 end). split.
  { intros i. destruct (argmaxR_total (ncol p) (px sm i) ltac:(lia)) as (k & -> & F). exact F. }
  set (pk := fun i => _). cbv zeta. unfold detect_in_spectrum. cbv zeta. fold (smooth_size a b). fold sm. change (nrow sm) with (nrow p). change (ncol sm) with (ncol p).
  assert (D := Z.div_mod (4 * nrow p) 5 ltac:(lia)). assert (M := Z.mod_pos_bound (4 * nrow p) 5 ltac:(lia)). set (row := 4 * nrow p / 5) in *. replace (nrow p <=? row) with false by lia.
  assert (PK : forall i, argmaxR (map (px sm i) (zrange 0 (ncol p))) = Ok (pk i)). { intros i. unfold pk. destruct (argmaxR_total (ncol p) (px sm i) ltac:(lia)) as (k & -> & _). reflexivity. }
  rewrite PK. cbn [bindr]. rewrite (mapr_total _ (rises pk row)) by (intros i _; cbn beta; rewrite PK; reflexivity). cbn [bindr]. rewrite map_length. unfold prange at 2. rewrite zrange_length. do 4 f_equal. f_equal. lia.
Qed.
Lemma fold_zeros l : (forall x, In x l -> x = 0) -> fold_right Z.add 0 l = 0.
Proof. induction l as [|a l IH]; intros H; [reflexivity|]. cbn [fold_right]. rewrite IH by (intros x I; apply H; right; exact I). rewrite (H a (or_introl eq_refl)). reflexivity. Qed.
Lemma none_rises a b p : 0 < nrow p -> 0 < ncol p ->
  (forall pk, (forall i, first_max (ncol p) (px (gaussian_filter p (smooth_size a b)) i) (pk i)) -> forall i, 4 * nrow p / 5 <= i < nrow p -> pk i <= pk (4 * nrow p / 5)) ->
  detect_in_spectrum a b p = Ok false.
Proof.
  intros Hh Hw H. destruct (detect_val a b p Hh Hw) as (pk & F & E). cbv zeta in E. rewrite E. assert (G := H pk F). rewrite fold_zeros.
  - unfold Rltb. replace (IZR 0 / _)%R with 0%R by (unfold Rdiv; ring). destruct (Rlt_dec 0 0.4); [reflexivity|lra].
  - intros x I. apply in_map_iff in I. destruct I as (i & <- & I). apply prange_In in I. unfold rises. specialize (G i I). destruct (Z.ltb_spec (pk (4 * nrow p / 5)) (pk i)); lia.
Qed.
(** the part of the spectrum *)
Lemma part_rows s : 0 < nrow s -> 0 < ncol s -> let m := Z.min (nrow s / 2) (ncol s / 2) in
  (2 <= m -> 0 < nrow (spectrum_part s) < nrow s / 2 /\ 0 < ncol (spectrum_part s) < ncol s / 2) /\ (m < 2 -> nrow (spectrum_part s) = 0 \/ (0 < nrow (spectrum_part s) <= nrow s / 2 /\ ncol (spectrum_part s) = 0)).
Proof.
  intros Hh Hw m. assert (X := Z.div_mod (nrow s) 2 ltac:(lia)). assert (Y := Z.mod_pos_bound (nrow s) 2 ltac:(lia)). assert (X2 := Z.div_mod (ncol s) 2 ltac:(lia)). assert (Y2 := Z.mod_pos_bound (ncol s) 2 ltac:(lia)).
  change (nrow (spectrum_part s)) with (nrow s / 2 - Z.min 20 (ceil_div m 20)). change (ncol (spectrum_part s)) with (ncol s / 2 - Z.min 20 (ceil_div m 20)).
  assert (C := ceil_div_bounds m 20 ltac:(lia) ltac:(lia)). split; intros Hm; [lia|]. assert (ceil_div m 20 = m) by lia. lia.
Qed.
Lemma shifted_in n i : 0 < n -> 0 <= i < n / 2 -> in_rng n (fftshift_idx n i) /\ fftshift_idx n i <> 0 /\ fftshift_idx n i = i + (n - n / 2).
Proof.
  intros Hn Hi. assert (X := Z.div_mod n 2 ltac:(lia)). assert (Y := Z.mod_pos_bound n 2 ltac:(lia)). unfold fftshift_idx, in_rng.
  assert (E : (i - n / 2) mod n = i + (n - n / 2)) by (symmetry; apply Z.mod_unique_pos with (q := -1); lia). rewrite E. lia.
Qed.
Definition as_cx (s : img R) : img cx := mkimg (nrow s) (ncol s) (fun i j => c_ (px s i j)).
Lemma part_px s i j : px (spectrum_part s) i j = cabs (px (fft2 (as_cx s)) (fftshift_idx (nrow s) i) (fftshift_idx (ncol s) j)).
Proof. reflexivity. Qed.
(** two sinograms of the same size with proportional amplitudes give the same result *)
Lemma detect_same s t c : (0 < c)%R -> 0 < nrow s -> 0 < ncol s -> nrow t = nrow s -> ncol t = ncol s ->
  (forall u v, in_rng (nrow s) u -> in_rng (ncol s) v -> u <> 0 -> v <> 0 -> cabs (px (fft2 (as_cx t)) u v) = (c * cabs (px (fft2 (as_cx s)) u v))%R) ->
  detect_in_spectrum (nrow t) (ncol t) (spectrum_part t) = detect_in_spectrum (nrow s) (ncol s) (spectrum_part s).
Proof.
  intros Hc Hh Hw E1 E2 H. rewrite E1, E2. apply detect_scaled with (c := c); [exact Hc| | |].
  - unfold spectrum_part; cbn [nrow]; rewrite E1, E2; reflexivity.
  - unfold spectrum_part; cbn [ncol]; rewrite E1, E2; reflexivity.
  - intros i j Hi Hj. rewrite !part_px, E1, E2.
    assert (Z.min 20 (ceil_div (Z.min (nrow s / 2) (ncol s / 2)) 20) >= 0). { assert (C := ceil_div_bounds (Z.min (nrow s / 2) (ncol s / 2)) 20 ltac:(lia)). assert (0 <= Z.min (nrow s / 2) (ncol s / 2)) by (apply Z.min_glb; apply Z.div_pos; lia). lia. }
    unfold in_rng in Hi, Hj. unfold spectrum_part in Hi, Hj. cbn [nrow ncol] in Hi, Hj.
    destruct (shifted_in (nrow s) i Hh ltac:(lia)) as (A & B & _). destruct (shifted_in (ncol s) j Hw ltac:(lia)) as (C & D & _). apply H; assumption.
Qed.
Lemma fft2_add s t q u v : nrow q = nrow s -> ncol q = ncol s -> nrow t = nrow s -> ncol t = ncol s ->
  (forall a b, in_rng (nrow s) a -> in_rng (ncol s) b -> px q a b = cadd (px s a b) (px t a b)) -> px (fft2 q) u v = cadd (px (fft2 s) u v) (px (fft2 t) u v).
Proof.
  intros E1 E2 E3 E4 H. cbn [px fft2]. rewrite E1, E2, E3, E4, <- csum_add. apply csum_ext. intros a Ha. rewrite <- csum_add. apply csum_ext. intros b Hb. rewrite H by (unfold in_rng; lia). ring.
Qed.
Lemma fft2_times s q (c : R) u v : nrow q = nrow s -> ncol q = ncol s ->
  (forall a b, in_rng (nrow s) a -> in_rng (ncol s) b -> px q a b = cmul (c_ c) (px s a b)) -> px (fft2 q) u v = cmul (c_ c) (px (fft2 s) u v).
Proof.
  intros E1 E2 H. cbn [px fft2]. rewrite E1, E2, <- csum_scal. apply csum_ext. intros a Ha. rewrite <- csum_scal. apply csum_ext. intros b Hb. rewrite H by (unfold in_rng; lia). ring.
Qed.
Lemma fft2_stained f g s t u v : stained f g s t -> 0 < nrow s -> 0 < ncol s -> in_rng (nrow s) u -> in_rng (ncol s) v -> u <> 0 -> v <> 0 -> px (fft2 (as_cx t)) u v = px (fft2 (as_cx s)) u v.
Proof.
  intros (E1 & E2 & H) Hh Hw Hu Hv Nu Nv. set (a1 := mkimg (nrow s) (ncol s) (fun a (_ : Z) => c_ (f a))). set (a2 := mkimg (nrow s) (ncol s) (fun (_ : Z) b => c_ (g b))). set (a3 := mkimg (nrow s) (ncol s) (fun a b => cadd (px a1 a b) (px a2 a b))).
  rewrite (fft2_add (as_cx s) a3 (as_cx t)); [| exact E1 | exact E2 | reflexivity | reflexivity |].
  - rewrite (fft2_add a1 a2 a3); try reflexivity. unfold a1, a2. rewrite fft2_flat_rows, fft2_stripes by assumption. ring.
  - intros a b Ha Hb. unfold as_cx. cbn [px]. rewrite H by assumption. unfold a3, a1, a2. cbn [px]. apply cx_eq; cbn; ring.
Qed.
Lemma with_opposite_px s i j : px (with_opposite s) i j = if i <? nrow s then px s i j else px s (i - nrow s) (ncol s - 1 - j).
Proof. reflexivity. Qed.
Lemma with_opposite_later k s t : later_scan k s t -> 0 <= k <= nrow s -> moved_scan k 0 (with_opposite s) (with_opposite t).
Proof.
  intros (E1 & E2 & H) Hk. unfold moved_scan. change (nrow (with_opposite t)) with (nrow t + nrow t). change (nrow (with_opposite s)) with (nrow s + nrow s). change (ncol (with_opposite t)) with (ncol t). change (ncol (with_opposite s)) with (ncol s).
  split; [lia|]. split; [exact E2|]. intros i j Hi Hj. unfold in_rng in *. rewrite !with_opposite_px, E1, E2.
  rewrite Z.add_0_r, (Z.mod_small j) by lia. destruct (Z.ltb_spec i (nrow s)) as [L|L].
  - rewrite H by lia. rewrite Z.mod_small by lia. destruct (Z.ltb_spec (i + k) (nrow s)); reflexivity.
  - rewrite H by lia. destruct (Z.ltb_spec (i - nrow s + k) (nrow s)) as [L2|L2].
    + rewrite Z.mod_small by lia. replace (i + k <? nrow s) with false by lia. f_equal; lia.
    + replace ((i + k) mod (nrow s + nrow s)) with (i + k - 2 * nrow s) by (apply Z.mod_unique_pos with (q := 1); lia). replace (i + k - 2 * nrow s <? nrow s) with true by lia. f_equal; lia.
Qed.
