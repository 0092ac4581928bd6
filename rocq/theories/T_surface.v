(** C115 and C116: surfaces reconstructed from their gradients. *)
From Coq Require Import Reals ZArith Lia Lra Bool List.
From Verif Require Import Np P_Np M_phase_R P_phase_R M_fourier P_fourier M_surface S_surface S_fresnel P_surface P_surface2 P_surface3 P_surface4 P_surface5 P_surface6 P_surface7.
Open Scope Z_scope.

(** ** C115, the SCS method *)
(** Without padding the result has zero mean and, among all surfaces continued periodically, the least total squared difference between
    its steps and the given gradients; the only others as good are the result plus a constant. *)
Theorem scs_surface_fits_the_gradients_best :
  forall np_pad gx gy, 0 < nrow gx -> 0 < ncol gx -> same_size gx gy ->
  exists f, surface_SCS np_pad gx gy false None 0 = Ok f /\ same_size f gx /\ mean_value f = 0%R /\
    forall s, same_size s gx -> (slope_error gx gy f <= slope_error gx gy s)%R /\
      (slope_error gx gy s = slope_error gx gy f -> raised (mean_value s) f s).
Proof.
  intros np gx gy Hh Hw S. exists (scs_image gx gy). split; [apply scs_default; exact S|]. split; [split; reflexivity|]. split; [apply scs_mean; assumption|].
  intros s T. apply scs_least; assumption.
Qed.
Print Assumptions scs_surface_fits_the_gradients_best.

(** A surface whose steps are exactly the mean gradients of neighbouring pixels comes back, with its mean removed. *)
Theorem scs_recovers_a_surface_from_its_exact_slopes :
  forall np_pad gx gy s, 0 < nrow gx -> 0 < ncol gx -> same_size gx gy -> same_size s gx -> slope_error gx gy s = 0%R ->
  exists f, surface_SCS np_pad gx gy false None 0 = Ok f /\ raised (- mean_value s) s f.
Proof.
  intros np gx gy s Hh Hw S T E. exists (scs_image gx gy). split; [apply scs_default; exact S|].
  destruct (scs_least gx gy Hh Hw S s T) as (L & U). assert (N : (0 <= slope_error gx gy (scs_image gx gy))%R).
  { rewrite slope_energy by (destruct S; split; assumption || reflexivity). apply rsum_nn. intros i _. apply rsum_nn. intros j _. apply Rplus_le_le_0_compat; apply pow2_ge_0. }
  destruct (U ltac:(lra)) as ([U1 U2] & V). split; [split; symmetry; assumption|]. intros i j Hi Hj. rewrite V by (rewrite ?U1, ?U2; assumption). ring.
Qed.
Print Assumptions scs_recovers_a_surface_from_its_exact_slopes.

(** A constant added to either gradient, i.e. a tilt of the surface, is lost. *)
Theorem scs_ignores_a_constant_in_the_gradients :
  forall np_pad gx gy gx' gy' c d, 0 < nrow gx -> 0 < ncol gx -> same_size gx gy -> raised c gx gx' -> raised d gy gy' ->
  exists f f', surface_SCS np_pad gx gy false None 0 = Ok f /\ surface_SCS np_pad gx' gy' false None 0 = Ok f' /\ img_eq f' f.
Proof.
  intros np gx gy gx' gy' c d Hh Hw S A B. exists (scs_image gx gy), (scs_image gx' gy'). split; [apply scs_default; exact S|].
  split; [apply scs_default; destruct S, (proj1 A), (proj1 B); split; congruence|]. apply (scs_tilt gx gy gx' gy' c d); assumption.
Qed.
Print Assumptions scs_ignores_a_constant_in_the_gradients.

Theorem scs_is_linear :
  forall np_pad x y gx gy gx' gy' gx'' gy'' f f', 0 < nrow gx -> 0 < ncol gx ->
  combination x y gx gx' gx'' -> combination x y gy gy' gy'' ->
  surface_SCS np_pad gx gy false None 0 = Ok f -> surface_SCS np_pad gx' gy' false None 0 = Ok f' ->
  exists f'', surface_SCS np_pad gx'' gy'' false None 0 = Ok f'' /\ combination x y f f' f''.
Proof.
  intros np x y gx gy gx' gy' gx'' gy'' f f' Hh Hw A B E E'.
  assert (S : same_size gx gy). { unfold same_size. destruct (Z.eq_dec (nrow gx) (nrow gy)), (Z.eq_dec (ncol gx) (ncol gy)); try (split; assumption); rewrite scs_reject_shape in E by (intros []; congruence); discriminate. }
  assert (S' : same_size gx' gy'). { unfold same_size. destruct (Z.eq_dec (nrow gx') (nrow gy')), (Z.eq_dec (ncol gx') (ncol gy')); try (split; assumption); rewrite scs_reject_shape in E' by (intros []; congruence); discriminate. }
  rewrite scs_default in E by assumption. rewrite scs_default in E' by assumption. injection E as <-. injection E' as <-.
  exists (scs_image gx'' gy''). split.
  - apply scs_default. destruct A as (A1 & A2 & A3 & A4 & _), B as (B1 & B2 & B3 & B4 & _), S, S'. split; congruence.
  - apply (scs_linear x y gx gy gx' gy'); assumption.
Qed.
Print Assumptions scs_is_linear.

(** The two axes are treated alike: transposing both gradients and exchanging them transposes the surface. *)
Theorem scs_treats_both_axes_alike :
  forall np_pad gx gy gx' gy' f, 0 < nrow gx -> 0 < ncol gx -> transposed gx gx' -> transposed gy gy' ->
  surface_SCS np_pad gx gy false None 0 = Ok f -> exists f', surface_SCS np_pad gy' gx' false None 0 = Ok f' /\ transposed f f'.
Proof.
  intros np gx gy gx' gy' f Hh Hw A B E.
  assert (S : same_size gx gy). { unfold same_size. destruct (Z.eq_dec (nrow gx) (nrow gy)), (Z.eq_dec (ncol gx) (ncol gy)); try (split; assumption); rewrite scs_reject_shape in E by (intros []; congruence); discriminate. }
  rewrite scs_default in E by assumption. injection E as <-. exists (scs_image gy' gx'). split.
  - apply scs_default. destruct A as (A1 & A2 & _), B as (B1 & B2 & _), S. split; congruence.
  - apply (scs_transpose gx gy gx' gy'); assumption.
Qed.
Print Assumptions scs_treats_both_axes_alike.

(** correct_negative adds one constant to every value: 0 if no value is negative, otherwise minus twice the least value; the result is
    never negative. *)
Theorem scs_negative_values_are_lifted_uniformly :
  forall np_pad gx gy window pad f, surface_SCS np_pad gx gy false window pad = Ok f -> 0 < nrow f -> 0 < ncol f ->
  exists g c, surface_SCS np_pad gx gy true window pad = Ok g /\ (0 <= c)%R /\ raised c f g /\
    (forall i j, in_rng (nrow f) i -> in_rng (ncol f) j -> (0 <= px g i j)%R) /\
    ((forall i j, in_rng (nrow f) i -> in_rng (ncol f) j -> (0 <= px f i j)%R) -> c = 0%R) /\
    (forall k, (k < 0)%R -> (exists i j, in_rng (nrow f) i /\ in_rng (ncol f) j /\ px f i j = k) ->
       (forall i j, in_rng (nrow f) i -> in_rng (ncol f) j -> (k <= px f i j)%R) -> c = (- 2 * k)%R).
Proof.
  intros np gx gy win pad f E H1 H2. destruct (lift_spec f H1 H2) as (c & C). exists (lift_negative true f), c. split; [rewrite scs_lift, E; reflexivity|]. exact C.
Qed.
Print Assumptions scs_negative_values_are_lifted_uniformly.

(** Padding: the surface of the padded gradients, cropped back to the original size. *)
Theorem scs_padding_is_cropped_away :
  forall np_pad gx gy pad f, 0 < pad -> 0 < nrow gx -> 0 < ncol gx -> same_size gx gy ->
  (forall m, nrow (np_pad pad m) = nrow m + 2 * pad /\ ncol (np_pad pad m) = ncol m + 2 * pad) ->
  surface_SCS np_pad (np_pad pad gx) (np_pad pad gy) false None 0 = Ok f ->
  exists g, surface_SCS np_pad gx gy false None pad = Ok g /\ same_size g gx /\
    forall i j, in_rng (nrow gx) i -> in_rng (ncol gx) j -> px g i j = px f (i + pad) (j + pad).
Proof.
  intros np gx gy pad f P Hh Hw [S1 S2] SZ E. destruct (SZ gx) as [X1 X2]. destruct (SZ gy) as [Y1 Y2].
  rewrite (scs_pad np gx gy false pad P) by (split; congruence). rewrite E. cbn [bindr lift_negative]. eexists. split; [reflexivity|].
  assert (F1 : nrow f = nrow gx + 2 * pad /\ ncol f = ncol gx + 2 * pad) by (rewrite scs_default in E by (split; congruence); injection E as <-; cbn [nrow ncol]; split; assumption).
  destruct F1 as [F1 F2]. split.
  - split; cbn [nrow ncol islice]; rewrite ?F1, ?F2; unfold slen; rewrite (py_adj_id _ pad), py_adj_neg by lia; lia.
  - intros i j Hi Hj. unfold islice. cbn [px]. rewrite F1, F2. rewrite !py_adj_id by lia. f_equal; ring.
Qed.
Print Assumptions scs_padding_is_cropped_away.

Theorem scs_given_windows_and_rejected_inputs :
  forall np_pad gx gy correct_negative pad,
  surface_SCS np_pad gx gy correct_negative
    (Some (make_window_SCS (nrow (if pad =? 0 then gx else np_pad pad gx)) (ncol (if pad =? 0 then gx else np_pad pad gx)))) pad
    = surface_SCS np_pad gx gy correct_negative None pad /\
  (forall window, ~ same_size gx gy -> surface_SCS np_pad gx gy correct_negative window pad = Err ValueError) /\
  (forall window, pad < 0 -> surface_SCS np_pad gx gy correct_negative window pad = Err ValueError) /\
  (forall su sv win, ~ same_size win gx -> surface_SCS np_pad gx gy correct_negative (Some (su, sv, win)) 0 = Err ValueError).
Proof.
  intros np gx gy cn pad. split; [apply scs_window|]. split; [intros w H; apply scs_reject_shape; exact H|]. split; [intros w H; apply scs_reject_pad; exact H|].
  intros su sv wi H. apply scs_reject_window. exact H.
Qed.
Print Assumptions scs_given_windows_and_rejected_inputs.

(** A 4 x 4 surface, a sum of two periods of 1, 0, -1, 0, and gradients with exactly its slopes *)
Definition ring_line (i : Z) : R := match i with 0 => 1%R | 2 => (-1)%R | _ => 0%R end.
Definition ring_slope (i : Z) : R := match i with 1 => (-2)%R | 3 => 2%R | _ => 0%R end.
Definition ring_surface : img R := mkimg 4 4 (fun i j => match i with 0 => 1 | 2 => -1 | _ => 0 end + match j with 0 => 1 | 2 => -1 | _ => 0 end)%R.
Definition ring_gx : img R := mkimg 4 4 (fun i j => ring_slope j).
Definition ring_gy : img R := mkimg 4 4 (fun i j => ring_slope i).
Lemma rsum_4 f : rsum 4 f = (f 0%Z + f 1%Z + f 2%Z + f 3%Z)%R.
Proof. unfold rsum. change (Z.to_nat 4) with 4%nat. cbn [rsumn]. change (Z.of_nat 0) with 0. change (Z.of_nat 1) with 1. change (Z.of_nat 2) with 2. change (Z.of_nat 3) with 3. ring. Qed.
Lemma ring_fits : slope_error ring_gx ring_gy ring_surface = 0%R.
Proof.
  unfold slope_error, next. cbn [ring_surface nrow ncol]. rewrite rsum_4, !rsum_4. unfold ring_gx, ring_gy, ring_surface. cbn [px].
  change ((0 + 1) mod 4) with 1. change ((1 + 1) mod 4) with 2. change ((2 + 1) mod 4) with 3. change ((3 + 1) mod 4) with 0. unfold ring_line, ring_slope. lra.
Qed.
Example scs_case : exists f, surface_SCS (fun _ m => m) ring_gx ring_gy false None 0 = Ok f /\ px f 0 0 = 2%R /\ px f 2 1 = (-1)%R.
Proof.
  destruct (scs_recovers_a_surface_from_its_exact_slopes (fun _ m => m) ring_gx ring_gy ring_surface) as (f & E & _ & V); try reflexivity; try (split; reflexivity); [exact ring_fits|].
  assert (M : mean_value ring_surface = 0%R). { unfold mean_value. cbn [ring_surface nrow ncol]. rewrite rsum_4, !rsum_4. unfold ring_surface. cbn [px]. unfold ring_line. field. }
  exists f. split; [exact E|]. split; rewrite V by (unfold in_rng; cbn; lia); rewrite M; unfold ring_surface; cbn [px]; unfold ring_line; lra.
Qed.

(** ** C116, the FC method *)
(** Every image is a sum of cosines along x times cosines along y, and the surface of two such sums is the sum below: each frequency is
    integrated on its own, the zero frequency is dropped, and the frequencies along y are taken relative to the width. *)
Theorem every_image_is_a_cosine_series : forall m : img R, 0 < nrow m -> 0 < ncol m -> exists A, cosine_series A m.
Proof. exact series_exists. Qed.
Print Assumptions every_image_is_a_cosine_series.
Theorem fc_surface_of_two_cosine_series :
  forall gx gy A B, 0 < nrow gx -> 0 < ncol gx -> same_size gx gy -> cosine_series A gx -> cosine_series B gy ->
  exists f, surface_FC gx gy false None = Ok f /\ same_size f gx /\
    forall i j, in_rng (nrow gx) i -> in_rng (ncol gx) j ->
      let h := nrow gx in let w := ncol gx in
      px f i j = rsum h (fun l => rsum w (fun k => if (l =? 0) && (k =? 0) then 0%R else
        (IZR w / (PI * (IZR k ^ 2 + IZR l ^ 2)) *
          (IZR k * A l k * (cos_mode h l i * sin_mode w k j) + IZR l * B l k * (sin_mode h l i * cos_mode w k j)))%R)).
Proof. exact fc_spec. Qed.
Print Assumptions fc_surface_of_two_cosine_series.

(** Gradients along x only, the same in every row, with zero mean: the surface is the exact antiderivative of the profile. *)
Theorem fc_integrates_a_profile_along_x :
  forall gx gy c, 0 < nrow gx -> 0 < ncol gx -> same_size gx gy -> c 0 = 0%R ->
  (forall i j, in_rng (nrow gx) i -> in_rng (ncol gx) j -> px gx i j = cosines (ncol gx) c (IZR j + / 2) /\ px gy i j = 0%R) ->
  exists f F, surface_FC gx gy false None = Ok f /\ same_size f gx /\ F 0%R = 0%R /\
    (forall x, derivable_pt_lim F x (cosines (ncol gx) c x)) /\
    forall i j, in_rng (nrow gx) i -> in_rng (ncol gx) j -> px f i j = F (IZR j + / 2)%R.
Proof.
  intros gx gy c Hh Hw S C0 V. destruct (fc_x gx gy c Hh Hw S C0 V) as (f & E & T & W). exists f, (sines (ncol gx) c). split; [exact E|]. split; [exact T|]. split.
  - unfold sines. rewrite (rsum_ext _ _ (fun _ => 0%R)); [apply rsum_zero|]. intros k _. destruct (k =? 0); [reflexivity|].
    replace (PI * IZR k * 0 / IZR (ncol gx))%R with 0%R by (unfold Rdiv; ring). rewrite sin_0. ring.
  - split; [intros x; apply sines_deriv; assumption|]. exact W.
Qed.
Print Assumptions fc_integrates_a_profile_along_x.
(** Along y the same holds up to the factor width / height, hence exactly for square images only. *)
Theorem fc_integrates_a_profile_along_y_partial :
  forall gx gy c, 0 < nrow gx -> 0 < ncol gx -> same_size gx gy -> c 0 = 0%R ->
  (forall i j, in_rng (nrow gx) i -> in_rng (ncol gx) j -> px gy i j = cosines (nrow gx) c (IZR i + / 2) /\ px gx i j = 0%R) ->
  exists f F, surface_FC gx gy false None = Ok f /\ same_size f gx /\ F 0%R = 0%R /\
    (forall x, derivable_pt_lim F x (cosines (nrow gx) c x)) /\
    (forall i j, in_rng (nrow gx) i -> in_rng (ncol gx) j -> px f i j = (IZR (ncol gx) / IZR (nrow gx) * F (IZR i + / 2))%R) /\
    (nrow gx = ncol gx -> forall i j, in_rng (nrow gx) i -> in_rng (ncol gx) j -> px f i j = F (IZR i + / 2)%R).
Proof.
  intros gx gy c Hh Hw S C0 V. destruct (fc_y gx gy c Hh Hw S C0 V) as (f & E & T & W). exists f, (sines (nrow gx) c). split; [exact E|]. split; [exact T|]. split.
  - unfold sines. rewrite (rsum_ext _ _ (fun _ => 0%R)); [apply rsum_zero|]. intros k _. destruct (k =? 0); [reflexivity|].
    replace (PI * IZR k * 0 / IZR (nrow gx))%R with 0%R by (unfold Rdiv; ring). rewrite sin_0. ring.
  - split; [intros x; apply sines_deriv; assumption|]. split; [exact W|]. intros SQ i j Hi Hj. rewrite W by assumption. rewrite SQ.
    assert (0 < IZR (ncol gx))%R by (apply (IZR_lt 0); assumption). unfold Rdiv. rewrite Rinv_r by lra. ring.
Qed.
Print Assumptions fc_integrates_a_profile_along_y_partial.
Theorem fc_treats_both_axes_alike_for_square_images_partial :
  forall gx gy gx' gy' f, 0 < nrow gx -> nrow gx = ncol gx -> same_size gx gy -> transposed gx gx' -> transposed gy gy' ->
  surface_FC gx gy false None = Ok f -> exists f', surface_FC gy' gx' false None = Ok f' /\ transposed f f'.
Proof. exact fc_square. Qed.
Print Assumptions fc_treats_both_axes_alike_for_square_images_partial.
(** The claim for every size is false: a 2 x 1 image and its transpose. *)
Theorem fc_treats_both_axes_alike_refuted :
  exists gx gy gx' gy' f f', same_size gx gy /\ transposed gx gx' /\ transposed gy gy' /\
  surface_FC gx gy false None = Ok f /\ surface_FC gy' gx' false None = Ok f' /\ ~ transposed f f'.
Proof.
  set (gx := mkimg 2 1 (fun _ _ => 0%R)). set (gy := mkimg 2 1 (fun i _ => (1 * (cos_mode 2 1 i * cos_mode 1 0 0))%R)).
  set (gx' := mkimg 1 2 (fun _ _ => 0%R)). set (gy' := mkimg 1 2 (fun _ j => (1 * (cos_mode 2 1 j * cos_mode 1 0 0))%R)). exists gx, gy, gx', gy'.
  destruct (fc_mode gx gy 1 0 0 1) as (f & E & T & V); try (unfold in_rng; cbn [gx nrow ncol]; lia); try (split; reflexivity).
  { intros i j _ _. cbn [gx px]. ring. }
  { intros i j Hi Hj. cbn [gx gy px nrow ncol] in *. unfold in_rng in *. replace j with 0 by lia. reflexivity. }
  destruct (fc_mode gy' gx' 0 1 1 0) as (f' & E' & T' & V'); try (unfold in_rng; cbn [gy' nrow ncol]; lia); try (split; reflexivity).
  { intros i j Hi Hj. cbn [gy' px nrow ncol] in *. unfold in_rng in *. replace i with 0 by lia. ring. }
  { intros i j _ _. cbn [gx' px]. ring. }
  exists f, f'. split; [split; reflexivity|]. split; [repeat split|]. split; [repeat split|]. split; [exact E|]. split; [exact E'|]. intros (N1 & N2 & N).
  destruct T' as [T1 T2]. assert (X := N 0 0 ltac:(rewrite T1; unfold in_rng; cbn [gy' nrow]; lia) ltac:(rewrite T2; unfold in_rng; cbn [gy' ncol]; lia)).
  rewrite V in X by (unfold in_rng; cbn [gx nrow ncol]; lia). rewrite V' in X by (unfold in_rng; cbn [gy' nrow ncol]; lia). cbn [gx gy' nrow ncol Z.eqb andb] in X.
  assert (S1 : (0 < sin_mode 2 1 0)%R). { unfold sin_mode. pose proof PI_RGT_0. apply sin_gt_0; lra. }
  assert (C1 : cos_mode 1 0 0 = 1%R). { unfold cos_mode. replace (PI * 0 * (0 + / 2) / 1)%R with 0%R by field. apply cos_0. }
  rewrite C1 in X. pose proof PI_RGT_0. replace (2 / (PI * (1 ^ 2 + 0 ^ 2)))%R with (2 * / PI)%R in X by (field; lra). replace (1 / (PI * (0 ^ 2 + 1 ^ 2)))%R with (/ PI)%R in X by (field; lra).
  assert (Y : (/ PI * sin_mode 2 1 0 = 0)%R) by lra. assert (0 < / PI)%R by (apply Rinv_0_lt_compat; lra). apply Rmult_integral in Y. destruct Y; lra.
Qed.
Print Assumptions fc_treats_both_axes_alike_refuted.
(** Constant gradients give a flat surface *)
Theorem fc_flat_for_constant_gradients :
  forall gx gy c d, 0 < nrow gx -> 0 < ncol gx -> same_size gx gy ->
  (forall i j, in_rng (nrow gx) i -> in_rng (ncol gx) j -> px gx i j = c /\ px gy i j = d) ->
  exists f, surface_FC gx gy false None = Ok f /\ same_size f gx /\ forall i j, in_rng (nrow gx) i -> in_rng (ncol gx) j -> px f i j = 0%R.
Proof.
  intros gx gy c d Hh Hw S V. assert (C : forall n i, cos_mode n 0 i = 1%R). { intros n i. unfold cos_mode. replace (PI * 0 * (IZR i + / 2) / IZR n)%R with 0%R by (unfold Rdiv; ring). apply cos_0. }
  apply (fc_mode gx gy 0 0 c d); try (unfold in_rng; lia); try assumption; intros i j Hi Hj; rewrite !C; [rewrite (proj1 (V i j Hi Hj))|rewrite (proj2 (V i j Hi Hj))]; ring.
Qed.
Print Assumptions fc_flat_for_constant_gradients.
Theorem fc_negative_values_are_lifted_uniformly :
  forall gx gy window f, surface_FC gx gy false window = Ok f -> 0 < nrow f -> 0 < ncol f ->
  exists g c, surface_FC gx gy true window = Ok g /\ (0 <= c)%R /\ raised c f g /\
    (forall i j, in_rng (nrow f) i -> in_rng (ncol f) j -> (0 <= px g i j)%R) /\
    ((forall i j, in_rng (nrow f) i -> in_rng (ncol f) j -> (0 <= px f i j)%R) -> c = 0%R) /\
    (forall k, (k < 0)%R -> (exists i j, in_rng (nrow f) i /\ in_rng (ncol f) j /\ px f i j = k) ->
       (forall i j, in_rng (nrow f) i -> in_rng (ncol f) j -> (k <= px f i j)%R) -> c = (- 2 * k)%R).
Proof.
  intros gx gy win f E H1 H2. destruct (lift_spec f H1 H2) as (c & C). exists (lift_negative true f), c. split; [rewrite fc_lift, E; reflexivity|]. exact C.
Qed.
Print Assumptions fc_negative_values_are_lifted_uniformly.
Theorem fc_given_windows_and_rejected_inputs :
  forall gx gy correct_negative,
  surface_FC gx gy correct_negative (Some (make_window_FC (2 * nrow gx) (2 * ncol gx))) = surface_FC gx gy correct_negative None /\
  (forall window, ~ same_size gx gy -> surface_FC gx gy correct_negative window = Err ValueError) /\
  (forall u v win, ~ (nrow win = 2 * nrow gx /\ ncol win = 2 * ncol gx) -> surface_FC gx gy correct_negative (Some (u, v, win)) = Err ValueError).
Proof. intros gx gy cn. split; [apply fc_window|]. split; [intros w H; apply fc_reject_shape; exact H|]. intros u v wi H. apply fc_reject_window. exact H. Qed.
Print Assumptions fc_given_windows_and_rejected_inputs.

(** A 3 x 5 image whose gradient along x is 4 cos (2 pi (j + 1/2) / 5) *)
Example fc_case : exists f, surface_FC (mkimg 3 5 (fun _ j => 4 * cos_mode 5 2 j)%R) (mkimg 3 5 (fun _ _ => 0%R)) false None = Ok f /\
  px f 1 2 = 0%R /\ (0 < px f 1 0)%R.
Proof.
  destruct (fc_mode (mkimg 3 5 (fun _ j => 4 * cos_mode 5 2 j)%R) (mkimg 3 5 (fun _ _ => 0%R)) 0 2 4 0) as (f & E & T & V); try (unfold in_rng; cbn [nrow ncol]; lia); try (split; reflexivity).
  - intros i j _ _. cbn [px nrow ncol]. unfold cos_mode at 2. replace (PI * 0 * (IZR i + / 2) / 3)%R with 0%R by field. rewrite cos_0. ring.
  - intros i j _ _. cbn [px]. ring.
  - exists f. split; [exact E|]. rewrite !V by (unfold in_rng; cbn [nrow ncol]; lia). cbn [nrow ncol Z.eqb andb]. pose proof PI_RGT_0.
    assert (C : forall i, cos_mode 3 0 i = 1%R). { intros i. unfold cos_mode. replace (PI * 0 * (IZR i + / 2) / 3)%R with 0%R by field. apply cos_0. } rewrite !C. split.
    + unfold sin_mode at 1. replace (PI * 2 * (2 + / 2) / 5)%R with PI by field. rewrite sin_PI. ring.
    + assert (S : (0 < sin_mode 5 2 0)%R). { unfold sin_mode. apply sin_gt_0; lra. }
      replace (5 / (PI * (2 ^ 2 + 0 ^ 2)))%R with (5 / 4 * / PI)%R by (field; lra). assert (0 < / PI)%R by (apply Rinv_0_lt_compat; lra).
      replace (5 / 4 * / PI * (2 * 4 * (1 * sin_mode 5 2 0) + 0 * 0 * (sin_mode 3 0 1 * cos_mode 5 2 0)))%R with (10 * (/ PI * sin_mode 5 2 0))%R by (field; lra).
      assert (0 < / PI * sin_mode 5 2 0)%R by (apply Rmult_lt_0_compat; assumption). lra.
Qed.
