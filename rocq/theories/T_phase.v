(** Property theorems for phase.py (C44, C45, C79-C82). *)
From Coq Require Import Reals Lra.
From Verif Require Import Np P_Np M_utility M_conversion P_conversion M_correction M_calculation M_phase P_phase M_phase_R P_phase_R.
From Coq Require Import QArith Qround Qabs Lia Lqa Permutation.
From Coq Require Import List. Import ListNotations.
Open Scope Z_scope.

(** C44 *)
Theorem wrapped_phase_is_in_the_interval_congruent_and_a_fixed_point :
  forall x : R,
  (- PI <= wrap_to_pi x < PI)%R /\
  (exists k : Z, wrap_to_pi x = x + 2 * PI * IZR k)%R /\
  wrap_to_pi (wrap_to_pi x) = wrap_to_pi x.
Proof.
  intros x. split; [apply wrap_range|]. split; [apply wrap_mod|].
  apply (wrap_unique _ _ 0); [apply wrap_range|ring].
Qed.
Print Assumptions wrapped_phase_is_in_the_interval_congruent_and_a_fixed_point.
Theorem wrapping_is_the_only_congruent_value_in_the_interval :
  forall x y k, (- PI <= y < PI)%R -> (x = y + 2 * PI * IZR k)%R -> wrap_to_pi x = y.
Proof. exact wrap_unique. Qed.
Print Assumptions wrapping_is_the_only_congruent_value_in_the_interval.
Example wrap_three_halves_pi : wrap_to_pi (3 * PI / 2) = (- PI / 2)%R.
Proof. apply (wrap_unique _ _ 1). - pose proof PI_RGT_0. Lra.lra. - field. Qed.

(** C79: unwrapping gives back the true phase minus its mean, when the true phase changes by less than half a turn
    between neighbours. [wrapped] is any image equal to the true phase up to a multiple of 2 pi in each pixel. *)
Theorem cosine_unwrapping_recovers_the_phase_up_to_its_mean :
  forall phi wrapped : img R,
  1 <= nrow phi -> 1 <= ncol phi ->
  (forall i j, in_rng (nrow phi) i -> 0 <= j -> j + 1 < ncol phi -> (- PI <= px phi i (j + 1)%Z - px phi i j < PI)%R) ->
  (forall i j, in_rng (ncol phi) j -> 0 <= i -> i + 1 < nrow phi -> (- PI <= px phi (i + 1)%Z j - px phi i j < PI)%R) ->
  nrow wrapped = nrow phi -> ncol wrapped = ncol phi ->
  (forall i j, in_rng (nrow phi) i -> in_rng (ncol phi) j -> exists k : Z, (px wrapped i j = px phi i j + 2 * PI * IZR k)%R) ->
  nrow (unwrap_cosine wrapped) = nrow phi /\ ncol (unwrap_cosine wrapped) = ncol phi /\
  forall i j, in_rng (nrow phi) i -> in_rng (ncol phi) j ->
    px (unwrap_cosine wrapped) i j = (px phi i j - rmean2 (nrow phi) (ncol phi) (px phi))%R.
Proof.
  intros phi wr H1 H2 Hx Hy Hr Hc H. split; [exact Hr|]. split; [exact Hc|]. intros i j Hi Hj.
  rewrite (unwrap_mod wr phi); [|exact Hr|exact Hc|].
  - apply unwrap_true; auto. split; assumption.
  - rewrite Hr, Hc. exact H.
Qed.
Print Assumptions cosine_unwrapping_recovers_the_phase_up_to_its_mean.
(** without any condition on the steps, adding multiples of 2 pi to pixels changes nothing *)
Theorem cosine_unwrapping_depends_on_the_phase_modulo_two_pi_only :
  forall a b : img R, nrow a = nrow b -> ncol a = ncol b ->
  (forall i j, in_rng (nrow a) i -> in_rng (ncol a) j -> exists k, (px a i j = px b i j + 2 * PI * IZR k)%R) ->
  forall i j, px (unwrap_cosine a) i j = px (unwrap_cosine b) i j.
Proof. exact unwrap_mod. Qed.
Print Assumptions cosine_unwrapping_depends_on_the_phase_modulo_two_pi_only.
(** a non-trivial instance: a ramp of 40 turns over a 200 x 100 image *)
Example unwrap_ramp : forall i j, 0 <= i < 200 -> 0 <= j < 100 ->
  px (unwrap_cosine (mkimg 200 100 (fun i j => wrap_to_pi (PI * IZR (i + 3 * j) / 5)))) i j =
  (PI * IZR (i + 3 * j) / 5 - rmean2 200 100 (fun i j => PI * IZR (i + 3 * j) / 5))%R.
Proof.
  intros i j Hi Hj. pose proof PI_RGT_0 as P.
  apply (cosine_unwrapping_recovers_the_phase_up_to_its_mean (mkimg 200 100 (fun i j => PI * IZR (i + 3 * j) / 5)%R)
     (mkimg 200 100 (fun i j => wrap_to_pi (PI * IZR (i + 3 * j) / 5)))); cbn [nrow ncol px]; try lia; try assumption; try reflexivity.
  - intros a b _ _ _. rewrite !plus_IZR, !mult_IZR, !plus_IZR. Lra.lra.
  - intros a b _ _ _. rewrite !plus_IZR, !mult_IZR. Lra.lra.
  - intros a b _ _. apply wrap_mod.
Qed.

(** C45: any worker count and any completion order give the image computed in one piece, when the margin covers the shifts *)
Theorem dark_field_does_not_depend_on_the_number_of_workers_partial :
  forall (rnd : Q -> Z), (forall q, (Qabs (inject_Z (rnd q) - q) <= 1 # 2)%Q) ->
  forall std, (forall a b, img_eq a b -> std a = std b) ->
  forall amaxabs ref sam xs ys win_size margin ncore order ncore' order',
  0 <= win_size -> 0 <= margin ->
  dep sam = dep ref -> hei sam = hei ref -> wid sam = wid ref ->
  nrow xs = hei ref -> ncol xs = wid ref -> nrow ys = hei ref -> ncol ys = wid ref ->
  (forall i j, in_rng (hei ref) i -> in_rng (wid ref) j -> (Qabs (px xs i j) <= inject_Z margin)%Q) ->
  (forall i j, in_rng (hei ref) i -> in_rng (wid ref) j -> (Qabs (px ys i j) <= inject_Z margin)%Q) ->
  2 * (win_size / 2 + margin) < hei ref -> 2 * (win_size / 2 + margin) < wid ref ->
  1 <= ncore -> Permutation (zrange 0 ncore) order ->
  1 <= ncore' -> Permutation (zrange 0 ncore') order' ->
  exists t d t' d',
    get_transmission_dark_field_signal rnd (tdf_values std) amaxabs ref sam xs ys win_size (Some margin) ncore order = Ok (t, d) /\
    get_transmission_dark_field_signal rnd (tdf_values std) amaxabs ref sam xs ys win_size (Some margin) ncore' order' = Ok (t', d') /\
    nrow t = hei ref /\ ncol t = wid ref /\ nrow d = hei ref /\ ncol d = wid ref /\
    img_eq t t' /\ img_eq d d'.
Proof. exact dark_ncore. Qed.
Print Assumptions dark_field_does_not_depend_on_the_number_of_workers_partial.
(** C45, C80: inside the border the value of a pixel is the mean over the images of the ratio of the two window means *)
Theorem transmission_is_the_mean_ratio_of_the_paired_windows :
  forall (rnd : Q -> Z), (forall q, (Qabs (inject_Z (rnd q) - q) <= 1 # 2)%Q) ->
  forall std, (forall a b, img_eq a b -> std a = std b) ->
  forall amaxabs ref sam xs ys win_size margin ncore order,
  0 <= win_size -> 0 <= margin ->
  dep sam = dep ref -> hei sam = hei ref -> wid sam = wid ref ->
  nrow xs = hei ref -> ncol xs = wid ref -> nrow ys = hei ref -> ncol ys = wid ref ->
  (forall i j, in_rng (hei ref) i -> in_rng (wid ref) j -> (Qabs (px xs i j) <= inject_Z margin)%Q) ->
  (forall i j, in_rng (hei ref) i -> in_rng (wid ref) j -> (Qabs (px ys i j) <= inject_Z margin)%Q) ->
  let r := win_size / 2 in let b := r + margin in
  2 * b < hei ref -> 2 * b < wid ref ->
  1 <= ncore -> Permutation (zrange 0 ncore) order ->
  (forall k i j, in_rng (dep ref) k -> in_rng (hei ref) i -> in_rng (wid ref) j -> (0 < vx ref k i j)%Q /\ (0 < vx sam k i j)%Q) ->
  exists t d,
    get_transmission_dark_field_signal rnd (tdf_values std) amaxabs ref sam xs ys win_size (Some margin) ncore order = Ok (t, d) /\
    forall i j, b <= i < hei ref - b -> b <= j < wid ref - b ->
      (px t i j == qmean (dep ref) (fun k =>
         qsum2 (2 * r + 1) (2 * r + 1) (fun u v => vx sam k (i + rnd (px ys i j) - r + u) (j + rnd (px xs i j) - r + v)) /
         qsum2 (2 * r + 1) (2 * r + 1) (fun u v => vx ref k (i - r + u) (j - r + v))))%Q.
Proof. exact dark_value. Qed.
Print Assumptions transmission_is_the_mean_ratio_of_the_paired_windows.
Lemma at_pixel (r : res (img Q * img Q)) i j v h w :
  match r with Ok p => Some (Qred (px (fst p) i j), nrow (fst p), ncol (fst p)) | Err _ => None end = Some (v, h, w) ->
  exists t d, r = Ok (t, d) /\ (px t i j == v)%Q /\ nrow t = h /\ ncol t = w.
Proof.
  destruct r as [ [t d] |]; [|discriminate]. cbn [fst]. intros H. injection H as H H1 H2. exists t, d.
  split; [reflexivity|]. split; [|auto]. rewrite <- H. symmetry. apply Qred_correct.
Qed.
(** the default margin is the largest shift, in x or in y, truncated to an integer *)
Theorem the_default_margin_is_the_largest_shift_truncated :
  forall rnd f amaxabs ref sam xs ys win_size ncore order m, (0 <= amaxabs xs)%Q -> (0 <= amaxabs ys)%Q ->
  (inject_Z m <= amaxabs xs \/ inject_Z m <= amaxabs ys)%Q -> (amaxabs xs < inject_Z (m + 1))%Q -> (amaxabs ys < inject_Z (m + 1))%Q ->
  get_transmission_dark_field_signal rnd f amaxabs ref sam xs ys win_size None ncore order =
  get_transmission_dark_field_signal rnd f amaxabs ref sam xs ys win_size (Some m) ncore order.
Proof.
  intros rnd f amaxabs ref sam xs ys win_size ncore order m H1 H2 H3 H4 H5. unfold get_transmission_dark_field_signal.
  replace (Qtrunc (Qmaxb (amaxabs xs) (amaxabs ys))) with m; [reflexivity|].
  assert (M : (0 <= Qmaxb (amaxabs xs) (amaxabs ys))%Q /\ (inject_Z m <= Qmaxb (amaxabs xs) (amaxabs ys) < inject_Z (m + 1))%Q).
  { unfold Qmaxb. destruct (Qle_bool (amaxabs xs) (amaxabs ys)) eqn:E.
    - apply Qle_bool_iff in E. split; [exact H2|]. split; [destruct H3; [eapply Qle_trans; eauto|assumption]|exact H5].
    - assert (~ (amaxabs xs <= amaxabs ys)%Q) by (intros C; apply Qle_bool_iff in C; congruence).
      split; [exact H1|]. split; [destruct H3; [assumption|]|exact H4]. apply Qnot_le_lt in H. eapply Qle_trans; [eassumption|]. apply Qlt_le_weak; exact H. }
  destruct M as (M0 & M1 & M2). unfold Qtrunc. apply Qle_bool_iff in M0. rewrite M0.
  symmetry. apply Qfloor_unique; assumption.
Qed.
Print Assumptions the_default_margin_is_the_largest_shift_truncated.
(** with the default margin (largest shift truncated to an integer) the number of workers matters *)
Definition near (q : Q) : Z := Qfloor (q + (1 # 2)).
Definition max_abs (m : img Q) : Q := fold_right Qmaxb 0%Q (flat_map (fun i => map (fun j => Qabs (px m i j)) (zrange 0 (ncol m))) (zrange 0 (nrow m))).
Theorem dark_field_with_the_default_margin_depends_on_the_number_of_workers_refuted :
  exists ref sam xs ys, forall std, exists t d t' d',
    get_transmission_dark_field_signal near (tdf_values std) max_abs ref sam xs ys 3 None 1 [0] = Ok (t, d) /\
    get_transmission_dark_field_signal near (tdf_values std) max_abs ref sam xs ys 3 None 2 [0; 1] = Ok (t', d') /\
    ~ img_Qeq t t'.
Proof.
  exists (mkvol 1 42 3 (fun _ _ _ => 1%Q)), (mkvol 1 42 3 (fun _ i _ => inject_Z (i + 1))),
    (mkimg 42 3 (fun _ _ => 0%Q)), (mkimg 42 3 (fun _ _ => (3 # 5)%Q)).
  intros std.
  destruct (at_pixel (get_transmission_dark_field_signal near (tdf_values std) max_abs (mkvol 1 42 3 (fun _ _ _ => 1%Q))
    (mkvol 1 42 3 (fun _ i _ => inject_Z (i + 1))) (mkimg 42 3 (fun _ _ => 0%Q)) (mkimg 42 3 (fun _ _ => (3 # 5)%Q)) 3 None 1 [0]) 20 1 22%Q 42 3)
    as (t & d & E & V & R & C); [vm_compute; reflexivity|].
  destruct (at_pixel (get_transmission_dark_field_signal near (tdf_values std) max_abs (mkvol 1 42 3 (fun _ _ _ => 1%Q))
    (mkvol 1 42 3 (fun _ i _ => inject_Z (i + 1))) (mkimg 42 3 (fun _ _ => 0%Q)) (mkimg 42 3 (fun _ _ => (3 # 5)%Q)) 3 None 2 [0; 1]) 20 1 (43 # 2)%Q 42 3)
    as (t' & d' & E' & V' & _); [vm_compute; reflexivity|].
  exists t, d, t', d'. split; [exact E|]. split; [exact E'|].
  intros (_ & _ & H). specialize (H 20 1). rewrite R, C in H. specialize (H ltac:(split; vm_compute; congruence) ltac:(split; vm_compute; congruence)).
  rewrite V, V' in H. vm_compute in H. discriminate H.
Qed.
Print Assumptions dark_field_with_the_default_margin_depends_on_the_number_of_workers_refuted.

(** C80 *)
Theorem a_uniformly_attenuated_window_gives_its_transmission_and_no_dark_field :
  forall std (ref sam : img Q) c, (0 < c)%Q ->
  nrow sam = nrow ref -> ncol sam = ncol ref ->
  (forall i j, in_rng (nrow ref) i -> in_rng (ncol ref) j -> (px sam i j == c * px ref i j)%Q) ->
  (std sam == c * std ref)%Q ->
  ~ (qmean2 (nrow ref) (ncol ref) (px ref) == 0)%Q -> ~ (std ref == 0)%Q ->
  (fst (tdf_values std ref sam) == c)%Q /\ (snd (tdf_values std ref sam) == 1)%Q.
Proof. exact tdf_scaled. Qed.
Print Assumptions a_uniformly_attenuated_window_gives_its_transmission_and_no_dark_field.
(** whole function: a sample that only attenuates (no displacement) *)
Theorem a_uniformly_attenuating_sample_gives_its_transmission_partial :
  forall (rnd : Q -> Z), (forall q, (Qabs (inject_Z (rnd q) - q) <= 1 # 2)%Q) ->
  forall std, (forall a b, img_eq a b -> std a = std b) ->
  forall amaxabs ref sam xs ys c win_size margin ncore order,
  0 <= win_size -> 0 <= margin -> (0 < c)%Q -> 1 <= dep ref ->
  dep sam = dep ref -> hei sam = hei ref -> wid sam = wid ref ->
  nrow xs = hei ref -> ncol xs = wid ref -> nrow ys = hei ref -> ncol ys = wid ref ->
  (forall i j, in_rng (hei ref) i -> in_rng (wid ref) j -> (px xs i j == 0)%Q /\ (px ys i j == 0)%Q) ->
  (forall q, (q == 0)%Q -> rnd q = 0) ->
  2 * (win_size / 2 + margin) < hei ref -> 2 * (win_size / 2 + margin) < wid ref ->
  1 <= ncore -> Permutation (zrange 0 ncore) order ->
  (forall k i j, in_rng (dep ref) k -> in_rng (hei ref) i -> in_rng (wid ref) j ->
     (0 < vx ref k i j)%Q /\ (vx sam k i j == c * vx ref k i j)%Q) ->
  exists t d,
    get_transmission_dark_field_signal rnd (tdf_values std) amaxabs ref sam xs ys win_size (Some margin) ncore order = Ok (t, d) /\
    nrow t = hei ref /\ ncol t = wid ref /\
    forall i j, in_rng (hei ref) i -> in_rng (wid ref) j -> (px t i j == c)%Q.
Proof. exact dark_attenuated. Qed.
Print Assumptions a_uniformly_attenuating_sample_gives_its_transmission_partial.
(** a sample that only displaces the pattern, sam[i, j] = ref[i + 1, j] (the displacement convention of the alignment
    functions, C81, and of the correlation search), does not give transmission 1 *)
Theorem a_displaced_pattern_gives_transmission_one_refuted :
  exists (ref sam : vol Q) xs ys,
    (forall i j, in_rng 6 i -> in_rng 6 j -> i + 1 < 6 -> vx sam 0 i j = vx ref 0 (i + 1) j) /\
    (forall i j, px xs i j = 0%Q /\ px ys i j = 1%Q) /\
    forall std, exists t d,
      get_transmission_dark_field_signal near (tdf_values std) max_abs ref sam xs ys 3 (Some 1) 1 [0] = Ok (t, d) /\
      ~ (px t 2 2 == 1)%Q.
Proof.
  exists (mkvol 1 6 6 (fun _ i _ => inject_Z (i + 1))), (mkvol 1 6 6 (fun _ i _ => inject_Z (i + 2))),
    (mkimg 6 6 (fun _ _ => 0%Q)), (mkimg 6 6 (fun _ _ => 1%Q)).
  split; [intros i j _ _ _; cbn [vx]; f_equal; lia|]. split; [intros; split; reflexivity|].
  intros std.
  destruct (at_pixel (get_transmission_dark_field_signal near (tdf_values std) max_abs (mkvol 1 6 6 (fun _ i _ => inject_Z (i + 1)))
    (mkvol 1 6 6 (fun _ i _ => inject_Z (i + 2))) (mkimg 6 6 (fun _ _ => 0%Q)) (mkimg 6 6 (fun _ _ => 1%Q)) 3 (Some 1) 1 [0]) 2 2 (5 # 3)%Q 6 6)
    as (t & d & E & V & R & C); [vm_compute; reflexivity|].
  exists t, d. split; [exact E|]. rewrite V. discriminate.
Qed.
Print Assumptions a_displaced_pattern_gives_transmission_one_refuted.

(** C81 *)
Theorem aligning_a_pair_makes_the_reference_match_the_sample :
  forall shift ref sam x y ss,
  (forall m dy dx, nrow (shift m dy dx) = nrow m /\ ncol (shift m dy dx) = ncol m) ->
  (forall m dy dx i j, in_rng (nrow m) i -> in_rng (ncol m) j -> in_rng (nrow m) (i - dy) -> in_rng (ncol m) (j - dx) ->
     px (shift m (inject_Z dy) (inject_Z dx)) i j = px m (i - dy) (j - dx)) ->
  nrow sam = nrow ref -> ncol sam = ncol ref ->
  (forall i j, in_rng (nrow ref) i -> in_rng (ncol ref) j -> in_rng (nrow ref) (i + y) -> in_rng (ncol ref) (j + x) ->
     px sam i j = px ref (i + y) (j + x)) ->
  let p := align_one shift ref sam (inject_Z x, inject_Z y) (match ss with Some (a, b) => Some (inject_Z a, inject_Z b) | None => None end) in
  let a := match ss with Some (a, _) => a | None => 0 end in
  let b := match ss with Some (_, b) => b | None => 0 end in
  nrow (fst p) = nrow ref /\ ncol (fst p) = ncol ref /\ nrow (snd p) = nrow ref /\ ncol (snd p) = ncol ref /\
  forall i j, in_rng (nrow ref) i -> in_rng (ncol ref) j ->
    in_rng (nrow ref) (i - b) -> in_rng (ncol ref) (j - a) ->
    in_rng (nrow ref) (i - b + y) -> in_rng (ncol ref) (j - a + x) ->
    px (fst p) i j = px (snd p) i j /\ px (snd p) i j = px sam (i - b) (j - a).
Proof. exact align_pair. Qed.
Print Assumptions aligning_a_pair_makes_the_reference_match_the_sample.
Theorem aligning_stacks_treats_every_pair_with_its_own_shifts :
  forall shift ref sam sr ss,
  length ref = length sam -> length ref = length sr -> match ss with Some l => length ref = length l | None => True end ->
  exists out, align_image_stacks shift ref sam sr ss = Ok out /\ length out = length ref /\
  forall k r s p, nth_error ref k = Some r -> nth_error sam k = Some s -> nth_error sr k = Some p ->
    match ss with
    | None => nth_error out k = Some (align_one shift r s p None)
    | Some l => forall q, nth_error l k = Some q -> nth_error out k = Some (align_one shift r s p (Some q))
    end.
Proof. exact align_each. Qed.
Print Assumptions aligning_stacks_treats_every_pair_with_its_own_shifts.
Theorem aligning_stacks_of_different_lengths_is_rejected :
  forall shift ref sam sr ss,
  length ref <> length sam \/ length ref <> length sr \/ (exists l, ss = Some l /\ length ref <> length l) ->
  align_image_stacks shift ref sam sr ss = Err ValueError.
Proof. exact align_lengths. Qed.
Print Assumptions aligning_stacks_of_different_lengths_is_rejected.
(** an exact integer shift with zero fill meets the hypotheses *)
Definition shift0 (m : img Q) (dy dx : Q) : img Q :=
  mkimg (nrow m) (ncol m) (fun i j => let a := i - Qfloor dy in let b := j - Qfloor dx in
    if (0 <=? a) && (a <? nrow m) && (0 <=? b) && (b <? ncol m) then px m a b else 0%Q).
Example shift0_ok : (forall m dy dx, nrow (shift0 m dy dx) = nrow m /\ ncol (shift0 m dy dx) = ncol m) /\
  (forall m dy dx i j, in_rng (nrow m) i -> in_rng (ncol m) j -> in_rng (nrow m) (i - dy) -> in_rng (ncol m) (j - dx) ->
     px (shift0 m (inject_Z dy) (inject_Z dx)) i j = px m (i - dy) (j - dx)).
Proof.
  split; [intros; split; reflexivity|]. unfold in_rng. intros m dy dx i j Hi Hj Ha Hb. unfold shift0. cbn [px]. rewrite !Qfloor_Z.
  replace ((0 <=? i - dy) && (i - dy <? nrow m) && (0 <=? j - dx) && (j - dx <? ncol m)) with true by lia. reflexivity.
Qed.
Example align_example :
  let ref := mkimg 4 5 (fun i j => inject_Z (10 * i + j)) in let sam := mkimg 4 5 (fun i j => inject_Z (10 * (i + 1) + (j - 2))) in
  let p := align_one shift0 ref sam (inject_Z (-2), inject_Z 1) (Some (inject_Z 1, inject_Z 0)) in
  (px (fst p) 1 3 == 20)%Q /\ (px (snd p) 1 3 == 20)%Q.
Proof. split; vm_compute; reflexivity. Qed.

(** C82 *)
Theorem the_doubled_image_is_mirrored_and_the_crop_returns_the_image :
  forall m : img Q, 0 <= nrow m -> 0 <= ncol m ->
  nrow (double_image m) = 2 * nrow m /\ ncol (double_image m) = 2 * ncol m /\
  (forall i j, in_rng (2 * nrow m) i -> in_rng (2 * ncol m) j ->
     px (double_image m) (2 * nrow m - 1 - i) j = px (double_image m) i j /\
     px (double_image m) i (2 * ncol m - 1 - j) = px (double_image m) i j) /\
  img_eq (undouble (double_image m) (nrow m) (ncol m)) m.
Proof. exact double_mirror. Qed.
Print Assumptions the_doubled_image_is_mirrored_and_the_crop_returns_the_image.
Theorem correcting_negative_values_gives_a_non_negative_surface_of_the_same_shape :
  forall nmin (m : img Q), (forall i j, in_rng (nrow m) i -> in_rng (ncol m) j -> (nmin m <= px m i j)%Q) ->
  forall i j, in_rng (nrow m) i -> in_rng (ncol m) j ->
  (0 <= px (correct_negative nmin m) i j)%Q /\
  forall i' j', in_rng (nrow m) i' -> in_rng (ncol m) j' ->
    (px (correct_negative nmin m) i j - px (correct_negative nmin m) i' j' == px m i j - px m i' j')%Q.
Proof. exact correct_negative_nonneg. Qed.
Print Assumptions correcting_negative_values_gives_a_non_negative_surface_of_the_same_shape.
(** u, v are the centred frequencies (both divided by the width); the window is 1/(u^2+v^2), and 0 at the zero frequency *)
Theorem the_surface_window_is_the_inverse_squared_frequency :
  forall h w i j, 1 <= w ->
  let '(u, v, win) := window_FC h w in
  nrow win = h /\ ncol win = w /\
  (px u i j * inject_Z w == inject_Z (j - w / 2))%Q /\ (px v i j * inject_Z w == inject_Z (i - h / 2))%Q /\
  (i = h / 2 -> j = w / 2 -> px win i j = 0%Q) /\
  (i <> h / 2 \/ j <> w / 2 -> (px win i j * (px u i j * px u i j + px v i j * px v i j) == 1)%Q).
Proof.
  intros h w i j Hw. cbn [window_FC nrow ncol px].
  assert (N : ~ (inject_Z w == 0)%Q) by (change 0%Q with (inject_Z 0); rewrite inject_Z_injective; lia).
  split; [reflexivity|]. split; [reflexivity|]. split; [field; exact N|]. split; [field; exact N|]. split.
  - intros -> ->. rewrite !Z.eqb_refl. reflexivity.
  - intros H. replace ((i =? h / 2) && (j =? w / 2)) with false by lia.
    set (a := inject_Z (j - w / 2)). set (b := inject_Z (i - h / 2)).
    assert (S : ~ (a * a + b * b == 0)%Q).
    { unfold a, b. rewrite <- !inject_Z_mult, <- inject_Z_plus. change 0%Q with (inject_Z 0). rewrite inject_Z_injective.
      assert (j - w / 2 <> 0 \/ i - h / 2 <> 0) by lia. generalize dependent (j - w / 2). generalize dependent (i - h / 2). clear. intros; nia. }
    field. split; [exact N|]. exact S.
Qed.
Print Assumptions the_surface_window_is_the_inverse_squared_frequency.
Theorem the_surface_window_treats_both_axes_alike_for_square_images_partial :
  forall n i j, 1 <= n -> in_rng n i -> in_rng n j ->
  (px (snd (window_FC n n)) i j == px (snd (window_FC n n)) j i)%Q /\
  (px (fst (fst (window_FC n n))) i j == px (snd (fst (window_FC n n))) j i)%Q.
Proof. exact window_FC_square. Qed.
Print Assumptions the_surface_window_treats_both_axes_alike_for_square_images_partial.
(** the vertical frequencies are divided by the width: transposing a non-square problem gives another window *)
Theorem the_surface_window_treats_both_axes_alike_refuted :
  exists h w i j, in_rng h i /\ in_rng w j /\
  ~ (px (snd (window_FC h w)) i j == px (snd (window_FC w h)) j i)%Q.
Proof. exists 4, 2, 0, 1. repeat split; try lia. vm_compute. discriminate. Qed.
Print Assumptions the_surface_window_treats_both_axes_alike_refuted.
