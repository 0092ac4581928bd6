(** Property theorems for the slice metrics of the centre searches (C138). *)
From Coq Require Import Reals Lra QArith Qreals ZArith Lia Bool List. Import ListNotations.
From Verif Require Import Np P_Np M_phase_R P_phase_R M_metric S_metric P_metric T_metric M_score S_score P_unwrap5 P_score.
Open Scope Z_scope.

(** the metric is the entropy of the histogram of grey levels, smoothed over 7 neighbouring levels, with 1 added to every level *)
Theorem entropy_metric_is_the_entropy_of_the_smoothed_grey_level_histogram :
  forall (m : img R) (pixels : Z -> Z), 0 <= nrow m -> 0 <= ncol m -> unit_range m -> (forall g, pixels_of_level m g (pixels g)) ->
  histogram_entropy m =
    (- rsum 250 (fun j => (7 + rsum 7 (fun t => IZR (pixels (j + t)%Z))) * (ln (7 + rsum 7 (fun t => IZR (pixels (j + t)%Z))) / ln 2)))%R.
Proof. intros. apply entropy_is; assumption. Qed.
Print Assumptions entropy_metric_is_the_entropy_of_the_smoothed_grey_level_histogram.
(** a 1 x 2 image with the levels 0 and 127 *)
Example ex_levels : let m := mkimg 1 2 (fun _ j => if j =? 0 then 0 else 1/2)%R in
  unit_range m /\ forall g, pixels_of_level m g (if (g =? 0) || (g =? 127) then 1 else 0).
Proof.
  cbv zeta. split; [intros i j _ _; cbn [px]; destruct (j =? 0); lra|]. intros g.
  assert (L : forall j, grey_level (px (mkimg 1 2 (fun _ j => if j =? 0 then 0 else 1/2)%R) 0 j) g <-> g = (if j =? 0 then 0 else 127)).
  { intros j. cbn [px]. unfold grey_level. destruct (j =? 0); split.
    - intros (A & B). replace (255 * 0)%R with 0%R in * by ring. apply (le_IZR g 0) in A. rewrite <- plus_IZR in B. apply (lt_IZR 0) in B. lia.
    - intros ->. lra.
    - intros (A & B). assert (A' : (IZR g < 128)%R) by lra. assert (B' : (127 < IZR g + 1)%R) by lra. rewrite <- plus_IZR in B'. apply lt_IZR in A', B'. lia.
    - intros ->. lra. }
  destruct (Z.eqb_spec g 0) as [->|N0]; [|destruct (Z.eqb_spec g 127) as [->|N1]]; cbn [orb].
  - exists [(0, 0)]. split; [repeat constructor; intros []|]. split; [reflexivity|]. intros i j. cbn [nrow ncol]. unfold in_rng. split.
    + intros [E|[]]. injection E as <- <-. split; [lia|]. split; [lia|]. apply (L 0). reflexivity.
    + intros (A & B & C). replace i with 0 in * by lia. apply (L j) in C. left. destruct (Z.eqb_spec j 0); [subst; reflexivity|discriminate].
  - exists [(0, 1)]. split; [repeat constructor; intros []|]. split; [reflexivity|]. intros i j. cbn [nrow ncol]. unfold in_rng. split.
    + intros [E|[]]. injection E as <- <-. split; [lia|]. split; [lia|]. apply (L 1). reflexivity.
    + intros (A & B & C). replace i with 0 in * by lia. apply (L j) in C. left. destruct (Z.eqb_spec j 0); [discriminate|]. f_equal. lia.
  - exists []. split; [constructor|]. split; [reflexivity|]. intros i j. cbn [nrow ncol]. unfold in_rng. split; [intros []|].
    intros (A & B & C). replace i with 0 in * by lia. apply (L j) in C. destruct (j =? 0); congruence.
Qed.
Theorem entropy_score_does_not_depend_on_brightness_and_contrast :
  forall (recon : img R) (contrast brightness nmin nmax : R), (0 < contrast)%R -> (nmin < nmax)%R ->
  entropy_score (imap (fun v => contrast * v + brightness)%R recon) (contrast * nmin + brightness) (contrast * nmax + brightness)
  = entropy_score recon nmin nmax.
Proof. intros. apply entropy_score_scaled; assumption. Qed.
Print Assumptions entropy_score_does_not_depend_on_brightness_and_contrast.
(** a slice with a single grey level scores lowest, and nothing else does.  Missing: the levels within 5 of black and white *)
Theorem uniform_slices_have_the_least_entropy_metric_partial :
  forall (m u : img R) (g : Z), 1 <= nrow m -> 1 <= ncol m -> unit_range m -> nrow u = nrow m -> ncol u = ncol m -> unit_range u ->
  6 <= g <= 249 -> uniform_level u g ->
  (histogram_entropy u <= histogram_entropy m)%R /\
  (histogram_entropy m = histogram_entropy u <-> exists g', 6 <= g' <= 249 /\ uniform_level m g').
Proof. exact entropy_least. Qed.
Print Assumptions uniform_slices_have_the_least_entropy_metric_partial.
Lemma half_level i j h w : uniform_level (mkimg h w (fun _ _ => 1/2)%R) 127 /\ unit_range (mkimg h w (fun _ _ => 1/2)%R) /\ grey_level (px (mkimg h w (fun _ _ => 1/2)%R) i j) 127.
Proof. unfold uniform_level, unit_range, grey_level. cbn [px]. repeat split; intros; lra. Qed.
(** a black slice does not: it scores worse than a grey one of any size *)
Theorem uniform_black_slice_scores_worse_than_a_grey_one_refuted :
  forall h w, 1 <= h -> 1 <= w -> let black := mkimg h w (fun _ _ => 0%R) in let grey := mkimg h w (fun _ _ => (1/2)%R) in
  uniform_level black 0 /\ (histogram_entropy grey < histogram_entropy black)%R.
Proof.
  intros h w Hh Hw black grey. assert (B : uniform_level black 0) by (intros i j _ _; unfold grey_level; cbn [px black]; lra). split; [exact B|].
  destruct (half_level 0 0 h w) as (H1 & H2 & _).
  destruct (entropy_least black grey 127 Hh Hw) as (A & E); try reflexivity; try assumption; [intros i j _ _; cbn [px black]; lra|lia|].
  destruct (Req_dec (histogram_entropy black) (histogram_entropy grey)) as [K|K]; [|lra]. exfalso. apply E in K as (g & G1 & G2).
  specialize (G2 0 0 ltac:(split; cbn [nrow black]; lia) ltac:(split; cbn [ncol black]; lia)). unfold grey_level in G2. cbn [px black] in G2.
  assert (L : (IZR g <= 0)%R) by lra. apply (le_IZR g 0) in L. lia.
Qed.
Print Assumptions uniform_black_slice_scores_worse_than_a_grey_one_refuted.

Theorem sharpness_metric_measures_the_variation_of_a_slice :
  forall m, ((2 <= nrow m /\ 2 <= ncol m) <-> exists s, edge_sharpness m = Ok s) /\
  forall s, edge_sharpness m = Ok s -> (0 <= s)%R /\ (s = 0%R <-> blank m) /\
    forall a b : R, edge_sharpness (imap (fun v => a * v + b)%R m) = Ok (Rabs a * s)%R.
Proof.
  intros m. split.
  - unfold edge_sharpness. destruct (Z.ltb_spec (nrow m) 2); [split; [lia|intros (s & E); discriminate]|].
    destruct (Z.ltb_spec (ncol m) 2); [split; [lia|intros (s & E); discriminate]|]. cbn [orb]. split; [intros _; eexists; reflexivity|lia].
  - intros s E. destruct (sharpness_blank m s E) as (A & B). split; [exact A|]. split; [exact B|]. intros a b. apply sharpness_scaled, E.
Qed.
Print Assumptions sharpness_metric_measures_the_variation_of_a_slice.
(** on a plane the sharpness is the steepness of the plane, whatever the size of the slice *)
Theorem sharpness_of_a_plane_is_its_slope :
  forall (a b c : R) h w, 2 <= h -> 2 <= w ->
  edge_sharpness (mkimg h w (fun i j => a * IZR i + b * IZR j + c)%R) = Ok (sqrt (a ^ 2 + b ^ 2)).
Proof. intros. apply sharpness_plane; assumption. Qed.
Print Assumptions sharpness_of_a_plane_is_its_slope.
Example ex_plane : edge_sharpness (mkimg 5 7 (fun i j => 3 * IZR i + 4 * IZR j + 1)%R) = Ok 5%R.
Proof. rewrite sharpness_of_a_plane_is_its_slope by lia. f_equal. replace (3 ^ 2 + 4 ^ 2)%R with (5 * 5)%R by ring. apply sqrt_square. lra. Qed.
Definition steps : img R := mkimg 2 2 (fun _ j => IZR j).
Definition empty_slice : img R := mkimg 2 2 (fun _ _ => 0%R).
Lemma steps_sharpness : edge_sharpness steps = Ok 1%R /\ edge_sharpness empty_slice = Ok 0%R.
Proof.
  unfold edge_sharpness, steps, empty_slice. cbn [nrow ncol px orb Z.ltb Z.compare Pos.compare Pos.compare_cont]. unfold rsum, np_gradient.
  change (Z.to_nat 2) with 2%nat. cbn [rsumn Z.of_nat Pos.of_succ_nat Pos.succ Z.eqb Pos.eqb Z.sub Z.add Z.opp Z.pos_sub Pos.pred_double Z.double]. split; f_equal.
  - replace ((0 - 0) ^ 2 + (1 - 0) ^ 2)%R with 1%R by ring. replace ((1 - 1) ^ 2 + (1 - 0) ^ 2)%R with 1%R by ring. rewrite sqrt_1.  lra.
  - replace (((0 - 0) ^ 2 + (0 - 0) ^ 2))%R with 0%R by ring. rewrite sqrt_0.  lra.
Qed.
(** the search minimises the metric: with metric="sharpness" and the default invert_metric=False it prefers a blank slice to a sharp one *)
Theorem sharpness_search_prefers_a_blank_slice_refuted :
  exists (slices : Q -> img R) (score : unit -> list Q -> Q -> res Q) (sharp found : Q),
    (forall l c, exists v, score tt l c = Ok v /\ edge_sharpness (slices c) = Ok (Q2R v)) /\
    searched 0 2 1 0 /\ sharp = candidate 0 1 0 /\ ~ blank (slices sharp) /\ blank (slices found) /\
    slice_metric_search score tt 0 2 1 false false (fun n => zrange 0 n) = Ok found.
Proof.
  exists (fun c => if Qeq_bool c 0 then steps else empty_slice), (fun _ _ c => Ok (if Qeq_bool c 0 then 1%Q else 0%Q)), (candidate 0 1 0). eexists.
  split; [|split; [|split; [reflexivity|split; [|split; [|vm_compute; reflexivity]]]]].
  - intros l c. exists (if Qeq_bool c 0 then 1%Q else 0%Q). split; [reflexivity|]. destruct steps_sharpness as (A & B).
    destruct (Qeq_bool c 0); [rewrite A|rewrite B]; f_equal; [rewrite RMicromega.Q2R_1|rewrite RMicromega.Q2R_0]; reflexivity.
  - split; [lia|]. vm_compute. reflexivity.
  - intros B. specialize (B 0 0 0 1). cbn in B. assert (K : (0 = 1)%R) by (apply B; unfold in_rng; cbn; lia). lra.
  - intros i j i' j' _ _ _ _. reflexivity.
Qed.
Print Assumptions sharpness_search_prefers_a_blank_slice_refuted.
(** with invert_metric=True it returns a candidate of the sharpest slice *)
Theorem inverted_sharpness_search_returns_the_sharpest_slice_partial :
  forall (S : Type) (slices : Q -> img R) (score : S -> list Q -> Q -> res Q) (s : S) (start stop step c : Q) parallel order,
  (0 < step)%Q -> (forall n, schedule (zrange 0 n) (order n)) ->
  (forall l c v, score s l c = Ok v -> edge_sharpness (slices c) = Ok (Q2R v)) ->
  slice_metric_search score s start stop step true parallel order = Ok c ->
  exists k x, searched start stop step k /\ c = candidate start step k /\ edge_sharpness (slices c) = Ok x /\
    forall k', searched start stop step k' -> exists y, edge_sharpness (slices (candidate start step k')) = Ok y /\ (y <= x)%R.
Proof.
  intros S slices score s start stop step c parallel order Hs Ho A E.
  destruct (slice_metric_search_returns_a_best_candidate S score s start stop step true parallel order Hs Ho) as (B & _).
  destruct (B c E) as (l & _ & k & v & K1 & K2 & K3 & K4). exists k, (Q2R v). split; [exact K1|]. split; [exact K2|]. split; [eapply A, K3|].
  intros k' Hk'. destruct (K4 k' Hk') as (v' & V1 & V2). exists (Q2R v'). split; [eapply A, V1|]. apply Qle_Rle, V2.
Qed.
Print Assumptions inverted_sharpness_search_returns_the_sharpest_slice_partial.

(** the largest autocorrelation of a row is its energy, so the metric does not see how the pixels are arranged in the rows *)
Theorem autocorrelation_metric_is_the_mean_energy_of_the_rows :
  forall m : img R, 1 <= ncol m ->
  autocorrelation_coefficient m = (rsum (nrow m) (fun i => rsum (ncol m) (fun j => px m i j ^ 2)) / IZR (nrow m))%R.
Proof. exact autocorrelation_is. Qed.
Print Assumptions autocorrelation_metric_is_the_mean_energy_of_the_rows.
