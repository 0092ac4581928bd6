(** C59, C60, C61, C89, C90, C91: correlation maps and shifts between images. *)
From Coq Require Import Reals Lra ZArith Lia Permutation.
From Verif Require Import Np M_corr S_corr P_corr P_corr2 P_corr3 P_corr4.
From Coq Require Import List. Import ListNotations.
Open Scope Z_scope.

(** ** C59: every entry of the map is Pearson's coefficient of the image and the window of the reference at that place *)
Theorem correlation_map_is_pearson_coefficient : forall ref mat gpu block sched, fits ref mat -> any_launch block sched ->
  exists m, generate_correlation_map ref mat gpu block sched = Ok m /\
    nrow m = height ref - height mat + 1 /\ ncol m = width ref - width mat + 1 /\
    forall i j, 0 <= i < nrow m -> 0 <= j < ncol m -> px m i j = correlation_at ref mat i j.
Proof. intros ref mat gpu block sched F ((B1 & B2) & P). exact (corr_map_spec ref mat gpu block sched F B1 B2 P). Qed.
Print Assumptions correlation_map_is_pearson_coefficient.

Theorem correlation_map_values_bounded : forall ref mat gpu block sched m, fits ref mat -> any_launch block sched ->
  generate_correlation_map ref mat gpu block sched = Ok m ->
  forall i j, 0 <= i < nrow m -> 0 <= j < ncol m -> (-1 <= px m i j <= 1)%R.
Proof.
  intros ref mat gpu block sched m F ((B1 & B2) & P) E i j Hi Hj. destruct (corr_map_spec ref mat gpu block sched F B1 B2 P) as (m' & E' & _ & _ & V).
  rewrite E in E'. injection E' as E'. subst m'. rewrite V by assumption. apply pearson_bounds.
Qed.
Print Assumptions correlation_map_values_bounded.

Theorem correlation_map_one_exactly_for_copies : forall ref mat gpu block sched m, fits ref mat -> any_launch block sched ->
  generate_correlation_map ref mat gpu block sched = Ok m ->
  forall i j, 0 <= i < nrow m -> 0 <= j < ncol m ->
  let a := window mat 0 0 (height mat) (width mat) in let b := window ref i j (height mat) (width mat) in
  varies a -> (px m i j = 1%R <-> affine_copy a b).
Proof.
  intros ref mat gpu block sched m F ((B1 & B2) & P) E i j Hi Hj a b Va. destruct (corr_map_spec ref mat gpu block sched F B1 B2 P) as (m' & E' & _ & _ & V).
  rewrite E in E'. injection E' as E'. subst m'. rewrite V by assumption. unfold correlation_at. fold a b. split.
  - apply pearson_one. apply window_same_length. exact (proj1 F).
  - apply pearson_copy. exact Va.
Qed.
Print Assumptions correlation_map_one_exactly_for_copies.

Theorem correlation_map_ignores_brightness_and_contrast : forall ref mat gpu block sched gpu' block' sched' s t s' t',
  fits ref mat -> any_launch block sched -> any_launch block' sched' -> (0 < s)%R -> (0 < s')%R ->
  exists m m', generate_correlation_map ref mat gpu block sched = Ok m /\
    generate_correlation_map (rescaled s t ref) (rescaled s' t' mat) gpu' block' sched' = Ok m' /\ img_eq m m'.
Proof.
  intros ref mat gpu block sched gpu' block' sched' s t s' t' F ((B1 & B2) & P) ((B1' & B2') & P') S S'.
  destruct (corr_map_spec ref mat gpu block sched F B1 B2 P) as (m & E & N & C & V).
  destruct (corr_map_spec _ _ gpu' block' sched' (rescaled_fits s t s' t' ref mat F) B1' B2' P') as (m' & E' & N' & C' & V').
  destruct (rescaled_shape s t ref) as (Sr & Sw & _). destruct (rescaled_shape s' t' mat) as (Mr & Mw & _). rewrite Sr, Mr in N'. rewrite Sw, Mw in C'.
  exists m, m'. split; [exact E|]. split; [exact E'|]. split; [congruence|]. split; [congruence|]. intros i j Hi Hj.
  unfold in_rng in *. rewrite V by assumption. rewrite V' by (rewrite ?N', ?C'; rewrite <- ?N, <- ?C; assumption). rewrite correlation_rescaled by assumption. reflexivity.
Qed.
Print Assumptions correlation_map_ignores_brightness_and_contrast.

Theorem correlation_map_larger_image_rejected : forall ref mat gpu block sched,
  height ref < height mat \/ width ref < width mat -> generate_correlation_map ref mat gpu block sched = Err ValueError.
Proof. exact map_too_large. Qed.
Print Assumptions correlation_map_larger_image_rejected.

(** ** C60: the GPU map is the CPU map, for all block sizes and thread orders *)
Theorem correlation_map_gpu_equals_cpu : forall ref mat block sched block' sched', fits ref mat -> any_launch block sched ->
  exists g c, generate_correlation_map ref mat true block sched = Ok g /\
    generate_correlation_map ref mat false block' sched' = Ok c /\ img_eq g c.
Proof.
  intros ref mat block sched block' sched' F ((B1 & B2) & P). destruct (corr_map_spec ref mat true block sched F B1 B2 P) as (g & E & N & C & V).
  destruct (corr_map_spec ref mat false (1, 1) (fun l => l) F ltac:(cbn; lia) ltac:(cbn; lia) (fun l => Permutation_refl l)) as (c & E' & N' & C' & V').
  exists g, c. split; [exact E|]. split; [exact E'|]. split; [congruence|]. split; [congruence|]. intros i j Hi Hj.
  unfold in_rng in *. rewrite V by assumption. symmetry. apply V'; [rewrite N', <- N|rewrite C', <- C]; assumption.
Qed.
Print Assumptions correlation_map_gpu_equals_cpu.

(** a concrete case: windows of one row of two pixels; the threads in reverse order, blocks of 2 x 3 *)
Definition ex_ref : data := One (mkimg 1 3 (fun _ j => nth (Z.to_nat j) [0; 1; 3]%R 0%R)).
Definition ex_mat : data := One (mkimg 1 2 (fun _ j => nth (Z.to_nat j) [2; 5]%R 0%R)).
Example ex_fits : fits ex_ref ex_mat /\ any_launch (2, 3) (@rev (Z * Z)).
Proof.
  split.
  - unfold fits, ex_ref, ex_mat. cbn. lia.
  - split; [cbn; lia|]. intros l. apply Permutation_rev.
Qed.
Example ex_varies : varies (window ex_mat 0 0 1 2) /\ affine_copy (window ex_mat 0 0 1 2) (window ex_ref 0 1 1 2).
Proof.
  split.
  - exists 2%R, 5%R. change (window ex_mat 0 0 1 2) with [2; 5]%R. cbn. repeat split; auto. lra.
  - exists (2 / 3)%R, (-1 / 3)%R. split; [lra|]. change (window ex_mat 0 0 1 2) with [2; 5]%R. change (window ex_ref 0 1 1 2) with [1; 3]%R.
    cbn. f_equal; [lra|]. f_equal. lra.
Qed.

(** ** C61: the peak *)
Theorem locate_peak_without_subpixel_is_extremum : forall polyfit2 surface m meth dim1 size max_peak, 0 < nrow m -> 0 < ncol m ->
  exists y x, locate_peak polyfit2 surface m false meth dim1 size max_peak = Ok (IZR x, IZR y) /\
    if (max_peak : bool) then brightest m y x else darkest m y x.
Proof.
  intros polyfit2 surface m meth dim1 size mp H W. set (m' := if mp then m else inverted m).
  destruct (argmax2_total m') as (y & x & _ & F); [unfold m'; destruct mp; cbn; lia|unfold m'; destruct mp; cbn; lia|].
  destruct (locate_spec polyfit2 surface m false meth dim1 size mp y x F) as (a & b & L & _ & _ & S & _). destruct (S eq_refl) as [-> ->].
  exists y, x. split; [exact L|]. unfold m' in F. destruct mp; [exact (brightest_of_first _ _ _ F)|exact (darkest_of_inverted _ _ _ F)].
Qed.
Print Assumptions locate_peak_without_subpixel_is_extremum.

(** position inside the map; within one pixel of the extremum with finite differences, half a pixel for dim=1 *)
Theorem locate_peak_stays_near_extremum_partial : forall polyfit2 surface m sub meth dim1 size max_peak, 0 < nrow m -> 0 < ncol m ->
  exists x y y0 x0, locate_peak polyfit2 surface m sub meth dim1 size max_peak = Ok (x, y) /\
    (if (max_peak : bool) then brightest m y0 x0 else darkest m y0 x0) /\
    (0 <= x <= IZR (ncol m - 1))%R /\ (0 <= y <= IZR (nrow m - 1))%R /\
    (meth <> PolyFit -> Rabs (x - IZR x0) < 1 /\ Rabs (y - IZR y0) < 1)%R /\
    (meth <> PolyFit -> dim1 = true -> Rabs (x - IZR x0) <= / 2 /\ Rabs (y - IZR y0) <= / 2)%R /\
    (Rabs (x - IZR x0) < 8 /\ Rabs (y - IZR y0) < 8)%R.
Proof.
  intros polyfit2 surface m sub meth dim1 size mp H W. set (m' := if mp then m else inverted m).
  destruct (argmax2_total m') as (y & x & _ & F); [unfold m'; destruct mp; cbn; lia|unfold m'; destruct mp; cbn; lia|].
  destruct (locate_spec polyfit2 surface m sub meth dim1 size mp y x F) as (a & b & L & Bx & By & _ & D & D1 & U1 & U2).
  exists a, b, y, x. split; [exact L|]. split; [unfold m' in F; destruct mp; [exact (brightest_of_first _ _ _ F)|exact (darkest_of_inverted _ _ _ F)]|].
  repeat (split; [assumption|]). destruct (used_size_odd meth size) as (q & Q & Hq). rewrite Q in U1, U2.
  assert (IZR (2 * q + 1 - 1) <= 8)%R by (apply IZR_le; lia). split; lra.
Qed.
Print Assumptions locate_peak_stays_near_extremum_partial.

(** polynomial fits can be further away: parabola through 0 0 10 9 9 *)
Theorem locate_peak_polyfit_near_extremum_refuted : forall polyfit2 surface,
  (forall l, vlen l = 5 -> least_squares_parabola (vlist l) (fst (polyfit2 l)) (snd (polyfit2 l))) ->
  exists m x y, locate_peak polyfit2 surface m true PolyFit true 5 true = Ok (x, y) /\
    brightest m 2 2 /\ (forall i j, brightest m i j -> i = 2 /\ j = 2) /\ (1 < Rabs (x - 2))%R.
Proof.
  intros polyfit2 surface LS. exists skewed, (409 / 110)%R, 2%R. split; [exact (skewed_fit polyfit2 surface LS)|].
  split; [exact (brightest_of_first _ _ _ skewed_peak)|]. split.
  - intros i j (Hi & Hj & M). specialize (M 2 2 ltac:(cbn; lia) ltac:(cbn; lia)). revert M. unfold skewed. cbn.
    destruct (Z.eqb_spec i 2), (Z.eqb_spec j 2), (Z.leb_spec 3 j); intros M; try lra; auto.
  - rewrite Rabs_right; lra.
Qed.
Print Assumptions locate_peak_polyfit_near_extremum_refuted.
Example ex_polyfit : exists polyfit2 : vec R -> R * R, forall l, vlen l = 5 -> least_squares_parabola (vlist l) (fst (polyfit2 l)) (snd (polyfit2 l)).
Proof. eexists (fun l => (_, _)). intros l L. cbn [fst snd]. exact (fit5_exists l L). Qed.

(** exact on quadratic surfaces *)
Theorem locate_peak_exact_on_quadratic_surface : forall polyfit2 surface m vy vx y0 x0 size,
  quadratic_surface m vy vx -> brightest m y0 x0 -> (forall i j, brightest m i j -> i = y0 /\ j = x0) ->
  0 < y0 < nrow m - 1 -> 0 < x0 < ncol m - 1 -> (Rabs (vy - IZR y0) < 1)%R -> (Rabs (vx - IZR x0) < 1)%R ->
  locate_peak polyfit2 surface m true Diff false size true = Ok (vx, vy).
Proof.
  intros polyfit2 surface m vy vx y0 x0 size Q (By & Bx & M) U Hy Hx Dy Dx. apply (peak_quadratic polyfit2 surface m vy vx y0 x0); try assumption.
  split; [assumption|]. split; [assumption|]. split; [assumption|]. intros i j Hi Hj L. destruct (Rlt_dec (px m i j) (px m y0 x0)) as [K|K]; [exact K|].
  exfalso. destruct (U i j); [|lia]. split; [assumption|]. split; [assumption|]. intros i' j' Hi' Hj'. specialize (M i' j' Hi' Hj'). lra.
Qed.
Print Assumptions locate_peak_exact_on_quadratic_surface.
Definition ex_paraboloid : img R := mkimg 4 5 (fun i j => - ((IZR j - 9 / 4) * (IZR j - 9 / 4)) - ((IZR i - 4 / 3) * (IZR i - 4 / 3)))%R.
Example ex_quadratic : quadratic_surface ex_paraboloid (4 / 3) (9 / 4) /\ brightest ex_paraboloid 1 2 /\
  (forall i j, brightest ex_paraboloid i j -> i = 1 /\ j = 2).
Proof.
  split; [|split].
  - exists (- (81 / 16) - 16 / 9)%R, (9 / 2)%R, (8 / 3)%R, (-1)%R, 0%R, (-1)%R. split; [intros; cbn; lra|]. repeat split; lra.
  - split; [cbn; lia|]. split; [cbn; lia|]. cbn. intros i j Hi Hj.
    assert (C : forall n, 0 <= n < 5 -> n = 0 \/ n = 1 \/ n = 2 \/ n = 3 \/ n = 4) by (intros; lia).
    destruct (C i ltac:(lia)) as [-> | [-> | [-> | [-> | ->] ] ] ]; destruct (C j ltac:(lia)) as [-> | [-> | [-> | [-> | ->] ] ] ]; cbn; try lia; lra.
  - intros i j (Hi & Hj & M). specialize (M 1 2 ltac:(cbn; lia) ltac:(cbn; lia)). cbn in Hi, Hj, M.
    assert (C : forall n, 0 <= n < 5 -> n = 0 \/ n = 1 \/ n = 2 \/ n = 3 \/ n = 4) by (intros; lia).
    destruct (C i ltac:(lia)) as [-> | [-> | [-> | [-> | ->] ] ] ]; destruct (C j ltac:(lia)) as [-> | [-> | [-> | [-> | ->] ] ] ]; cbn in M; try lia; lra.
Qed.

(** ** C89: a true displacement is found *)
Theorem find_shift_recovers_displacement : forall polyfit2 surface ref mat margin sub meth dim1 size gpu block sched dy dx,
  1 <= margin -> fits ref mat -> height mat = height ref -> width mat = width ref -> room ref margin NoAxis -> any_launch block sched ->
  - margin <= dy <= margin -> - margin <= dx <= margin ->
  varies (window mat margin margin (height mat - 2 * margin) (width mat - 2 * margin)) ->
  displaced ref mat margin dy dx ->
  (forall dy' dx', - margin <= dy' <= margin -> - margin <= dx' <= margin -> displaced ref mat margin dy' dx' -> dy' = dy /\ dx' = dx) ->
  exists xs ys, find_shift_based_correlation_map polyfit2 surface ref mat margin NoAxis sub meth dim1 size gpu block sched = Ok (xs, ys) /\
    (sub = false -> xs = IZR dx /\ ys = IZR dy) /\ (meth <> PolyFit -> Rabs (xs - IZR dx) < 1 /\ Rabs (ys - IZR dy) < 1)%R.
Proof. exact shift_exact. Qed.
Print Assumptions find_shift_recovers_displacement.
(** a bright spot that moves by one column *)
Definition spot (y x : Z) : data := One (mkimg 6 6 (fun i j => if (i =? y) && (j =? x) then 1 else 0)%R).
Example ex_displaced : fits (spot 2 2) (spot 2 3) /\ room (spot 2 2) 1 NoAxis /\ varies (window (spot 2 3) 1 1 (6 - 2) (6 - 2)) /\
  displaced (spot 2 2) (spot 2 3) 1 0 (-1) /\
  (forall dy' dx', -1 <= dy' <= 1 -> -1 <= dx' <= 1 -> displaced (spot 2 2) (spot 2 3) 1 dy' dx' -> dy' = 0 /\ dx' = -1).
Proof.
  split; [unfold fits; cbn; lia|]. split; [cbn; lia|]. split; [|split].
  - exists 0%R, 1%R. split; [|split; [|lra] ]; cbv -[IZR]; auto 20.
  - exists 1%R, 0%R. split; [lra|]. cbv -[IZR Rmult Rplus]. repeat (apply f_equal2; [lra|]). reflexivity.
  - intros dy' dx' Hy Hx (s & t & Hs & E).
    assert (C : forall n, -1 <= n <= 1 -> n = -1 \/ n = 0 \/ n = 1) by (intros; lia).
    destruct (C dy' Hy) as [-> | [-> | ->] ]; destruct (C dx' Hx) as [-> | [-> | ->] ]; auto; exfalso; cbv -[IZR Rmult Rplus] in E; injection E; intros; lra.
Qed.

(** ** C90: the best displacement within the margins *)
Theorem find_shift_best_displacement_within_margin : forall polyfit2 surface ref mat margin axis sub meth dim1 size gpu block sched,
  1 <= margin -> fits ref mat -> height mat = height ref -> width mat = width ref -> room ref margin axis -> any_launch block sched ->
  let my := reach_y margin axis in let mx := reach_x margin axis in
  exists xs ys, find_shift_based_correlation_map polyfit2 surface ref mat margin axis sub meth dim1 size gpu block sched = Ok (xs, ys) /\
    (Rabs xs <= IZR mx)%R /\ (Rabs ys <= IZR my)%R /\
    exists dy dx, - my <= dy <= my /\ - mx <= dx <= mx /\
      (forall dy' dx', - my <= dy' <= my -> - mx <= dx' <= mx ->
         (similarity ref mat my mx dy' dx' <= similarity ref mat my mx dy dx)%R /\
         (dy' < dy \/ dy' = dy /\ dx' < dx -> (similarity ref mat my mx dy' dx' < similarity ref mat my mx dy dx)%R)) /\
      (sub = false -> xs = IZR dx /\ ys = IZR dy) /\
      (meth <> PolyFit -> Rabs (xs - IZR dx) < 1 /\ Rabs (ys - IZR dy) < 1)%R.
Proof. exact shift_best. Qed.
Print Assumptions find_shift_best_displacement_within_margin.

(** with a smaller second image: its best place in the reference, counted from the middle of the map *)
Theorem find_shift_best_place_of_smaller_image : forall polyfit2 surface ref mat margin axis meth dim1 size gpu block sched,
  fits ref mat -> ~ (height mat = height ref /\ width mat = width ref) -> any_launch block sched ->
  (match axis with
   | Axis0 => height mat <= height ref - 2 * margin | Axis1 => width mat <= width ref - 2 * margin
   | NoAxis => height mat <= height ref - 2 * margin \/ width mat <= width ref - 2 * margin end) ->
  exists i j, 0 <= i <= height ref - height mat /\ 0 <= j <= width ref - width mat /\
    (forall i' j', 0 <= i' <= height ref - height mat -> 0 <= j' <= width ref - width mat ->
       (correlation_at ref mat i' j' <= correlation_at ref mat i j)%R) /\
    find_shift_based_correlation_map polyfit2 surface ref mat margin axis false meth dim1 size gpu block sched =
      Ok (match axis with Axis0 => 0 | _ => IZR (j - (width ref - width mat + 1) / 2) end,
          match axis with Axis1 => 0 | _ => IZR (i - (height ref - height mat + 1) / 2) end)%R.
Proof.
  intros polyfit2 surface ref mat margin axis meth dim1 size gpu block sched F Ne Lo Ck.
  destruct (shift_template polyfit2 surface ref mat margin axis false meth dim1 size gpu block sched F Ne Lo Ck)
    as (m & xs & ys & x & y & _ & E & _ & Ex & Ey & i & j & Hi & Hj & M & S & _).
  destruct (S eq_refl) as [-> ->]. exists i, j. split; [exact Hi|]. split; [exact Hj|]. split; [exact M|]. rewrite E. subst xs ys. rewrite !minus_IZR. reflexivity.
Qed.
Print Assumptions find_shift_best_place_of_smaller_image.
Example ex_smaller : fits (spot 2 2) ex_mat /\ height ex_mat <= height (spot 2 2) - 2 * 2 /\ ~ (height ex_mat = height (spot 2 2) /\ width ex_mat = width (spot 2 2)).
Proof. unfold fits; cbn; lia. Qed.

(** ** C91: a margin that leaves no room *)
(** for images of different sizes it is reported (but with axis=None only if it is too large in both directions) ... *)
Theorem find_shift_margin_too_large_reported_partial : forall polyfit2 surface ref mat margin axis sub meth dim1 size gpu block sched,
  ~ (height mat = height ref /\ width mat = width ref) ->
  (match axis with
   | Axis0 => height ref - 2 * margin < height mat | Axis1 => width ref - 2 * margin < width mat
   | NoAxis => height ref - 2 * margin < height mat /\ width ref - 2 * margin < width mat end) ->
  find_shift_based_correlation_map polyfit2 surface ref mat margin axis sub meth dim1 size gpu block sched = Err ValueError.
Proof. exact shift_template_error. Qed.
Print Assumptions find_shift_margin_too_large_reported_partial.
(** ... for images of the same size the answer is silently "no shift", whatever the images show *)
Theorem find_shift_margin_too_large_reported_refuted : forall polyfit2 surface ref mat margin axis sub meth dim1 size gpu block sched,
  fits ref mat -> any_launch block sched -> height mat = height ref -> width mat = width ref -> ~ room ref margin axis ->
  find_shift_based_correlation_map polyfit2 surface ref mat margin axis sub meth dim1 size gpu block sched = Ok (0, 0)%R.
Proof.
  intros polyfit2 surface ref mat margin axis sub meth dim1 size gpu block sched F Lo Hh Hw Rm.
  apply shift_no_room; try assumption. destruct axis; unfold room in Rm; lia.
Qed.
Print Assumptions find_shift_margin_too_large_reported_refuted.
(** e.g. the moved spot with margin 2: 6 x 6 pixels leave only 2 x 2 *)
Example ex_no_room : ~ room (spot 2 2) 2 NoAxis /\ fits (spot 2 2) (spot 2 3).
Proof. split; [cbn; lia|unfold fits; cbn; lia]. Qed.
