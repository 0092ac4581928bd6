(** Theorems about remove_all_stripe and its steps with their default median filters (C134). *)
From Verif Require Import Np P_Np M_utility S_utility P_utility M_io_load M_conversion P_conversion M_correction M_calculation M_removal S_removal P_removal P_removal2 P_removal3 P_argsort M_blob P_blob M_allstripe S_allstripe P_allstripe P_allstripe2 P_allstripe3 P_allstripe4 P_allstripe5 P_allstripe6 P_allstripe7.
From Coq Require Import QArith Qround Qabs String ZArith Lia Lqa.
From Coq Require Import List. Import ListNotations.
Open Scope Z_scope.

(** Every output pixel of the sorting method stands where the input pixel of the same rank stood, and lies between the bounds
    met by the pixels of that rank in more than half of the columns of the window. *)
Theorem stripe_sorting_takes_the_majority_of_the_neighbours :
  forall asort, (forall v, is_argsort v (asort v)) -> forall size (sino : img Q), 1 <= size ->
  let out := remove_stripe_based_sorting asort (median_along_rows size) sino in
  nrow out = nrow sino /\ ncol out = ncol sino /\
  exists s rank, sorted_columns sino s rank /\
  forall j k bad a b, in_rng (ncol sino) j -> in_rng (nrow sino) k -> few_bad (ncol sino) size bad j ->
    (forall c, in_rng (ncol sino) c -> bad c = false -> 2 * Z.abs (c - j) <= size -> (a <= px s k c <= b)%Q) ->
    (a <= px out (rank j k) j <= b)%Q.
Proof.
  intros asort Hs size sino H1 out. destruct (sort_step asort Hs _ sino (median_shape size)) as (A & B & _). split; [exact A|]. split; [exact B|].
  exact (sorting_between asort Hs size sino H1).
Qed.
Print Assumptions stripe_sorting_takes_the_majority_of_the_neighbours.

Theorem stripe_sorting_keeps_the_order_in_a_column :
  forall asort, (forall v, is_argsort v (asort v)) -> forall size (sino : img Q) j i1 i2, 1 <= size ->
  in_rng (ncol sino) j -> in_rng (nrow sino) i1 -> in_rng (nrow sino) i2 -> (px sino i1 j < px sino i2 j)%Q ->
  (px (remove_stripe_based_sorting asort (median_along_rows size) sino) i1 j <= px (remove_stripe_based_sorting asort (median_along_rows size) sino) i2 j)%Q.
Proof. exact sorting_keeps_order. Qed.
Print Assumptions stripe_sorting_keeps_the_order_in_a_column.

(** Stripes of any increasing response are undone: the result is the scene up to the factor by which neighbouring columns differ
    ([r = 1]: exactly). *)
Theorem stripe_sorting_restores_the_scene :
  forall asort, (forall v, is_argsort v (asort v)) -> forall size (sino scene : img Q) bad r, 1 <= size ->
  nrow scene = nrow sino -> ncol scene = ncol sino -> positive_pixels scene ->
  (forall j, in_rng (ncol sino) j -> same_order sino scene j) ->
  (forall j, in_rng (ncol sino) j -> bad j = false -> forall i, in_rng (nrow sino) i -> (px sino i j == px scene i j)%Q) ->
  alike_columns r size scene -> (forall j, in_rng (ncol sino) j -> few_bad (ncol sino) size bad j) ->
  forall i j, in_rng (nrow sino) i -> in_rng (ncol sino) j ->
  within_factor r (px scene i j) (px (remove_stripe_based_sorting asort (median_along_rows size) sino) i j).
Proof. exact sorting_restores. Qed.
Print Assumptions stripe_sorting_restores_the_scene.

(** Columns multiplied by wrong gains are corrected, whatever the detection says. *)
Theorem remove_large_stripe_corrects_gains :
  forall asort, (forall v, is_argsort v (asort v)) -> forall size detect (sino scene : img Q) (gain : Z -> Q) bad r ratio out, 1 <= size ->
  nrow scene = nrow sino -> ncol scene = ncol sino -> positive_pixels scene ->
  (forall j, in_rng (ncol sino) j -> (0 < gain j)%Q /\ (bad j = false -> gain j == 1)%Q /\ forall i, in_rng (nrow sino) i -> (px sino i j == gain j * px scene i j)%Q) ->
  alike_columns r size scene -> (forall j, in_rng (ncol sino) j -> few_bad (ncol sino) size bad j) -> 0 <= nrow sino ->
  remove_large_stripe asort (median_along_rows size) detect sino ratio true = Ok out ->
  nrow out = nrow sino /\ ncol out = ncol sino /\
  forall i j, in_rng (nrow sino) i -> in_rng (ncol sino) j -> within_factor r (px scene i j) (px out i j).
Proof. exact large_gain. Qed.
Print Assumptions remove_large_stripe_corrects_gains.

Theorem remove_large_stripe_keeps_the_order_in_a_column :
  forall asort, (forall v, is_argsort v (asort v)) -> forall size detect (sino out : img Q) ratio norm, 1 <= size -> positive_pixels sino ->
  remove_large_stripe asort (median_along_rows size) detect sino ratio norm = Ok out ->
  forall j i1 i2, in_rng (ncol sino) j -> in_rng (nrow sino) i1 -> in_rng (nrow sino) i2 -> (px sino i1 j < px sino i2 j)%Q -> (px out i1 j <= px out i2 j)%Q.
Proof. exact large_keeps_order. Qed.
Print Assumptions remove_large_stripe_keeps_the_order_in_a_column.

Theorem remove_dead_stripe_keeps_pixels_positive :
  forall asort, (forall v, is_argsort v (asort v)) -> forall (sino s1 : img Q) snr size strength, positive_pixels sino ->
  remove_dead_stripe_full asort sino snr size false strength = Ok s1 -> positive_pixels s1.
Proof. exact dead_positive. Qed.
Print Assumptions remove_dead_stripe_keeps_pixels_positive.

(** All three steps.  [bad]: columns with stripes (any increasing response); [touched]: columns changed by the dead-stripe step.
    Where both together are a minority in the windows, untouched columns are the scene up to the cube of the factor by which
    columns of a window differ, and every column gets the grey values of the scene up to its square. *)
Theorem remove_all_stripe_restores_the_scene :
  forall asort, (forall v, is_argsort v (asort v)) -> forall (sino scene s1 out : img Q) bad touched snr la_size sm_size ratio r, 1 <= la_size -> 1 <= sm_size ->
  nrow scene = nrow sino -> ncol scene = ncol sino -> positive_pixels sino -> positive_pixels scene ->
  (forall j, in_rng (ncol sino) j -> same_order sino scene j) ->
  (forall j, in_rng (ncol sino) j -> bad j = false -> forall i, in_rng (nrow sino) i -> (px sino i j == px scene i j)%Q) ->
  alike_columns r (la_size + sm_size) scene ->
  remove_dead_stripe_full asort sino snr la_size false 10 = Ok s1 ->
  (forall j, in_rng (ncol sino) j -> touched j = false -> forall i, in_rng (nrow sino) i -> (px s1 i j == px sino i j)%Q) ->
  (forall j, in_rng (ncol sino) j -> few_bad (ncol sino) la_size (fun c => bad c || touched c) j /\ few_bad (ncol sino) sm_size (fun c => bad c || touched c) j) ->
  0 <= nrow sino -> remove_all_stripe asort sino snr la_size sm_size ratio 1 None = Ok out ->
  nrow out = nrow sino /\ ncol out = ncol sino /\
  (forall i j, in_rng (nrow sino) i -> in_rng (ncol sino) j -> touched j = false -> within_factor (r * r * r) (px scene i j) (px out i j)) /\
  (forall S R S' R', sorted_columns scene S R -> sorted_columns out S' R' -> forall j k, in_rng (ncol sino) j -> in_rng (nrow sino) k -> within_factor (r * r) (px S k j) (px S' k j)).
Proof. exact all_restores. Qed.
Print Assumptions remove_all_stripe_restores_the_scene.

Theorem remove_all_stripe_scales_with_the_sinogram :
  forall asort, (forall v, is_argsort v (asort v)) -> compares_only asort -> forall c, (0 < c)%Q ->
  forall (sino : img Q) snr la_size sm_size ratio, 0 <= nrow sino -> 0 <= ncol sino ->
  match remove_all_stripe asort sino snr la_size sm_size ratio 1 None, remove_all_stripe asort (mkimg (nrow sino) (ncol sino) (fun i j => c * px sino i j)%Q) snr la_size sm_size ratio 1 None with
  | Ok a, Ok b => nrow b = nrow a /\ ncol b = ncol a /\ forall i j, in_rng (nrow a) i -> in_rng (ncol a) j -> (px b i j == c * px a i j)%Q
  | Err a, Err b => a = b
  | _, _ => False
  end.
Proof. intros asort Hs Hcmp c Hc sino snr la sm ratio H0 H0'. exact (all_times asort Hs Hcmp c Hc sino snr la sm ratio H0 H0'). Qed.
Print Assumptions remove_all_stripe_scales_with_the_sinogram.

(** The documented refusal of noise-free data *)
Theorem remove_all_stripe_refuses_noise_free_data :
  forall asort, (forall v, is_argsort v (asort v)) -> forall (sino : img Q) snr la_size sm_size ratio dim, 1 <= la_size -> 2 <= nrow sino -> 6 <= ncol sino ->
  (forall i j k, in_rng (nrow sino) i -> in_rng (ncol sino) j -> in_rng (ncol sino) k -> (px sino i j == px sino i k)%Q) ->
  remove_all_stripe asort sino snr la_size sm_size ratio dim None = Err ValueError.
Proof. exact all_noise_free. Qed.
Print Assumptions remove_all_stripe_refuses_noise_free_data.

(** What the dead-stripe step looks at: the sum of the deviations of the pixels of a column from their moving mean along the column,
    relative to the median of these sums in the neighbouring columns.  Columns that are not marked stay; if fewer than a third of the
    columns are affected they are bridged linearly, otherwise nothing is changed. *)
Theorem remove_dead_stripe_compares_the_fluctuation_of_columns :
  forall (asort : vec Q -> Z -> Z) size strength (sino : img Q) snr out avg, 1 <= size -> 1 <= strength -> 1 <= nrow sino -> 2 <= ncol sino ->
  (forall i j, in_rng (nrow sino) i -> in_rng (ncol sino) j -> moving_mean (nrow sino) strength (fun k => px sino k j) i (avg i j)) ->
  remove_dead_stripe_full asort sino snr size false strength = Ok out ->
  let fluct := fun j => qsum (nrow sino) (fun i => Qabs (px sino i j - avg i j)) in
  exists (med : Z -> Q) profile mask,
    (forall j, in_rng (ncol sino) j -> moving_median (ncol sino) size fluct j (med j)) /\
    vlen profile = ncol sino /\ vlen mask = ncol sino /\
    (forall j, in_rng (ncol sino) j -> ~ (med j == 0)%Q -> (vat profile j == fluct j / med j)%Q) /\
    (forall j, in_rng (ncol sino) j -> (med j == 0)%Q -> (vat profile j == fluct j / qmean (ncol sino) med)%Q) /\
    (~ (qmean (ncol sino) med == 0)%Q -> detect_stripe asort profile snr = Ok mask) /\
    ((qmean (ncol sino) med == 0)%Q -> forall j, vat mask j = 0%Q) /\
    nrow out = nrow sino /\ ncol out = ncol sino /\
    (forall j, in_rng (ncol sino) j -> ~ marked_near mask j \/ j < 2 \/ ncol sino - 2 <= j -> forall i, px out i j = px sino i j) /\
    forall affected : Z -> bool, (forall j, in_rng (ncol sino) j -> (affected j = true <-> marked_near mask j /\ 2 <= j < ncol sino - 2)) ->
      let number := Z.of_nat (List.length (filter affected (zrange 0 (ncol sino)))) in
      (number < ncol sino / 3 -> forall j, in_rng (ncol sino) j -> affected j = true -> forall i, bridged (ncol sino) mask (px sino i) (px out i) j) /\
      (ncol sino / 3 <= number -> forall j, in_rng (ncol sino) j -> forall i, px out i j = px sino i j).
Proof. exact dead_profile_is. Qed.
Print Assumptions remove_dead_stripe_compares_the_fluctuation_of_columns.
(** with residual the result is corrected for gains afterwards *)
Theorem remove_dead_stripe_with_residual_corrects_gains :
  forall asort, (forall v, is_argsort v (asort v)) -> forall size strength snr (sino s1 scene out : img Q) (gain : Z -> Q) bad r, 1 <= size ->
  remove_dead_stripe_full asort sino snr size false strength = Ok s1 ->
  nrow scene = nrow s1 -> ncol scene = ncol s1 -> positive_pixels scene ->
  (forall j, in_rng (ncol s1) j -> (0 < gain j)%Q /\ (bad j = false -> gain j == 1)%Q /\ forall i, in_rng (nrow s1) i -> (px s1 i j == gain j * px scene i j)%Q) ->
  alike_columns r size scene -> (forall j, in_rng (ncol s1) j -> few_bad (ncol s1) size bad j) -> 0 <= nrow s1 ->
  remove_dead_stripe_full asort sino snr size true strength = Ok out ->
  nrow out = nrow s1 /\ ncol out = ncol s1 /\
  forall i j, in_rng (nrow s1) i -> in_rng (ncol s1) j -> within_factor r (px scene i j) (px out i j).
Proof.
  intros asort Hs size strength snr sino s1 scene out gain bad r H1 E1 H2 H3 H4 H5 H6 H7 H8 E2. unfold remove_dead_stripe_full in E1, E2.
  destruct (remove_dead_stripe _ _ sino) as [s|]; cbn [bindr] in E1, E2; [|discriminate E1]. apply Ok_inj in E1. subst s.
  exact (large_gain asort Hs size _ s1 scene gain bad r (1 # 10) out H1 H2 H3 H4 H5 H6 H7 H8 E2).
Qed.
Print Assumptions remove_dead_stripe_with_residual_corrects_gains.

(** ** The hypotheses are met: a sorting procedure that compares values only *)
Lemma put_cmp u v a l n : (forall x y, in_rng n x -> in_rng n y -> ((vat u x <= vat u y)%Q <-> (vat v x <= vat v y)%Q)) -> in_rng n a -> (forall k, In k l -> in_rng n k) -> put u a l = put v a l.
Proof.
  intros E Ha. induction l as [|b r IH]; intros Hl; [reflexivity|]. cbn [put].
  replace (Qle_bool (vat u a) (vat u b)) with (Qle_bool (vat v a) (vat v b)).
  - destruct (Qle_bool _ _); [reflexivity|]. rewrite IH; [reflexivity|]. intros k Hk. apply Hl. right. exact Hk.
  - apply eq_true_iff_eq. rewrite !Qle_bool_iff. symmetry. apply E; [exact Ha|apply Hl; left; reflexivity].
Qed.
Lemma insertion_compares_only : compares_only insertion_argsort.
Proof.
  intros u v El Ec k. unfold insertion_argsort. rewrite <- El. f_equal.
  assert (H : forall l, (forall k, In k l -> in_rng (vlen u) k) -> order_of u l = order_of v l).
  { induction l as [|a l IH]; intros Hl; [reflexivity|]. cbn [order_of]. rewrite IH by (intros; apply Hl; right; assumption).
    apply (put_cmp _ _ _ _ (vlen u)); [exact Ec|apply Hl; left; reflexivity|]. intros x Hx.
    apply Hl. right. rewrite <- IH in Hx by (intros; apply Hl; right; assumption).
    apply (Permutation.Permutation_in _ (Permutation.Permutation_sym (order_perm u l))). exact Hx. }
  apply H. intros x Hx. apply zrange_In in Hx. unfold in_rng. lia.
Qed.
(** tables of values, to evaluate the detector once *)
Definition frozen (v : vec Q) : vec Q := let t := map (fun j => Qred (vat v j)) (zrange 0 (vlen v)) in mkvec (vlen v) (fun j => nth (Z.to_nat j) t 0%Q).
Lemma frozen_eq v : vec_Qeq v (frozen v).
Proof.
  split; [reflexivity|]. intros j Hj. unfold frozen. cbn [vat]. rewrite (nth_map_zrange (fun j => Qred (vat v j)) (vlen v) 0%Q j Hj). symmetry. apply Qred_correct.
Qed.
Notation detector v := (detect_stripe insertion_argsort v 3).
Lemma detector_frozen v : 0 <= vlen v -> match detector v, detector (frozen v) with Ok a, Ok b => vec_eq a b | Err a, Err b => a = b | _, _ => False end.
Proof. intros H. apply detect_ext; [exact insertion_argsort_ok|exact (asort_Qeq insertion_argsort insertion_compares_only)|exact H|apply frozen_eq]. Qed.
Lemma large_frozen (m : img Q) ratio size : 0 <= ncol m -> is_ok (remove_large_stripe insertion_argsort (median_along_rows size) (fun v => detector (frozen v)) m ratio true) = true ->
  is_ok (remove_large_stripe insertion_argsort (median_along_rows size) (fun v => detector v) m ratio true) = true.
Proof.
  intros H. unfold remove_large_stripe. destruct (sort_forward insertion_argsort m 0) as [s x].
  match goal with |- context [detector (frozen ?v)] => pose proof (detector_frozen v H) as D; destruct (detector v); destruct (detector (frozen v)); [| destruct D | destruct D | ]; cbn [bindr is_ok]; congruence end.
Qed.

(** A sinogram of 4 x 16 pixels: a pattern moving along the rows, columns differing by up to 1 %, an offset in one column *)
Definition ex_level (k : Z) : Q := (10 + inject_Z k * inject_Z k)%Q.
Definition ex_tint (j : Z) : Q := (1 + inject_Z ((j * 5) mod 8) / 800)%Q.
Definition ex_scene : img Q := mkimg 4 16 (fun i j => (ex_level ((i + j) mod 4) * ex_tint j)%Q).
Definition ex_bad (j : Z) : bool := j =? 8.
Definition ex_sino : img Q := mkimg 4 16 (fun i j => if ex_bad j then (5 + px ex_scene i j)%Q else px ex_scene i j).

Lemma ex_no_dead : match detector (frozen (dead_profile 7 10 ex_sino)) with Ok m => forallb (fun j => Qeq_bool (vat m j) 0) (zrange 0 16) | Err _ => false end = true.
Proof. vm_compute. reflexivity. Qed.
Lemma ex_mean_nonzero : Qeq_bool (diff_mean 7 10 ex_sino) 0 = false.
Proof. vm_compute. reflexivity. Qed.
Lemma ex_large : is_ok (remove_large_stripe insertion_argsort (median_along_rows 7) (fun v => detector (frozen v)) ex_sino (1 # 10) true) = true.
Proof. vm_compute. reflexivity. Qed.
Lemma dead_nothing asort (a x : _) snr size strength : 2 <= nrow a -> 2 <= ncol a -> Qeq_bool (diff_mean size strength a) 0 = false ->
  detect_stripe asort (dead_profile size strength a) snr = Ok x -> (forall k, in_rng (vlen x) k -> (vat x k == 0)%Q) ->
  remove_dead_stripe_full asort a snr size false strength = Ok a.
Proof.
  intros Hr Hc E0 Ex Hx. unfold remove_dead_stripe_full, remove_dead_stripe. rewrite E0, Ex. cbn [bindr].
  assert (Z0 : forall j, vat (dilate x) j = 0%Q).
  { intros j. destruct (dilate_spec x j) as [ [_ (k & Hk & _ & G)] | [E _] ]; [|exact E]. exfalso. apply G, Hx, Hk. }
  assert (Z1 : forall j, vat (clear_mask_ends (dilate x)) j = 0%Q) by (intros j; unfold clear_mask_ends; cbn [vat]; destruct (_ || _); [reflexivity|apply Z0]).
  set (mk := clear_mask_ends (dilate x)) in *.
  assert (G1 : count_miss (ncol a) (fun j => Qltb (vat mk j) 1) = ncol a).
  { unfold count_miss. rewrite filter_all; [rewrite zrange_length; lia|]. intros j _. rewrite Z1. reflexivity. }
  assert (G2 : count_miss (ncol a) (fun j => Qltb 0 (vat mk j)) = 0).
  { unfold count_miss. assert (E : forall l : list Z, filter (fun j => Qltb 0 (vat mk j)) l = []) by (induction l as [|b l IH]; [reflexivity|cbn [filter]; rewrite Z1; exact IH]). rewrite E. reflexivity. }
  rewrite G1, G2. replace (nrow a <? 2) with false by lia. replace (ncol a <? 2) with false by lia. rewrite andb_false_r. reflexivity.
Qed.
Lemma nothing_found v : 0 <= vlen v -> match detector (frozen v) with Ok m => forallb (fun j => Qeq_bool (vat m j) 0) (zrange 0 (vlen v)) | Err _ => false end = true ->
  exists x, detector v = Ok x /\ forall k, in_rng (vlen x) k -> (vat x k == 0)%Q.
Proof.
  intros H0 N. pose proof (detector_frozen v H0) as D. destruct (detector v) as [x|] eqn:Ex; destruct (detector (frozen v)) as [y|]; [|destruct D|destruct D|discriminate N].
  exists x. split; [reflexivity|]. destruct D as [D1 D2]. intros k Hk. rewrite (D2 k Hk). rewrite forallb_forall in N. apply Qeq_bool_iff, N, zrange_In.
  rewrite (detect_len insertion_argsort _ _ _ Ex) in Hk. unfold in_rng in Hk. lia.
Qed.
Lemma ex_dead_result : remove_dead_stripe_full insertion_argsort ex_sino 3 7 false 10 = Ok ex_sino.
Proof.
  assert (L : vlen (dead_profile 7 10 ex_sino) = 16) by reflexivity.
  destruct (nothing_found (dead_profile 7 10 ex_sino)) as (x & Ex & Hx); [rewrite L; lia|rewrite L; exact ex_no_dead|].
  assert (R1 : 2 <= nrow ex_sino) by (cbn; lia). assert (R2 : 2 <= ncol ex_sino) by (cbn; lia).
  pose proof ex_mean_nonzero as M.
  revert M Ex R1 R2. generalize ex_sino. intros a M Ex R1 R2.
  exact (dead_nothing insertion_argsort a x 3 7 10 R1 R2 M Ex Hx).
Qed.
Example ex_all_runs : is_ok (remove_all_stripe insertion_argsort ex_sino 3 7 7 (1 # 10) 1 None) = true.
Proof.
  unfold remove_all_stripe. rewrite ex_dead_result. cbn [bindr]. pose proof (large_frozen ex_sino (1 # 10) 7 ltac:(discriminate) ex_large) as H.
  destruct (remove_large_stripe insertion_argsort (median_along_rows 7) (fun v => detect_stripe insertion_argsort v 3) ex_sino (1 # 10) true); [reflexivity|discriminate].
Qed.
Lemma ex_level_le a b : 0 <= a -> a <= b -> (ex_level a <= ex_level b)%Q.
Proof. intros Ha Hab. unfold ex_level. apply (proj2 (Qplus_le_r _ _ 10)). rewrite <- !inject_Z_mult, <- Zle_Qle. apply Z.mul_le_mono_nonneg; lia. Qed.
Lemma ex_level_pos a : (10 <= ex_level a)%Q.
Proof. unfold ex_level. assert (0 <= inject_Z a * inject_Z a)%Q; [rewrite <- inject_Z_mult; change 0%Q with (inject_Z 0); rewrite <- Zle_Qle; apply Z.square_nonneg|lra]. Qed.
Lemma ex_tint_bounds j : (1 <= ex_tint j <= 101 # 100)%Q.
Proof.
  unfold ex_tint. pose proof (Z.mod_pos_bound (j * 5) 8 ltac:(lia)) as B. set (q := (j * 5) mod 8) in *.
  assert (0 <= inject_Z q)%Q by (change 0%Q with (inject_Z 0); rewrite <- Zle_Qle; lia). assert (inject_Z q <= 8)%Q by (change 8%Q with (inject_Z 8); rewrite <- Zle_Qle; lia).
  unfold Qdiv. change (/ 800)%Q with (1 # 800)%Q. split; lra.
Qed.
Lemma ex_scene_positive : positive_pixels ex_scene.
Proof. intros i j _ _. cbn [ex_scene px]. pose proof (ex_level_pos ((i + j) mod 4)). pose proof (ex_tint_bounds j). apply Qmult_lt_0_compat; lra. Qed.
Lemma ex_alike size : alike_columns (101 # 100) size ex_scene.
Proof.
  intros s rank H a b k Ha Hb _ Hk. change (nrow ex_scene) with 4 in Hk. unfold in_rng in Hk.
  assert (V : forall j, in_rng 16 j -> (px s k j == ex_level k * ex_tint j)%Q).
  { intros j Hj. rewrite (kth_value ex_scene s rank (fun k => (k - j) mod 4) j k H Hj Hk).
    - cbn [ex_scene px]. rewrite Zplus_mod_idemp_l, Z.sub_add, Z.mod_small by lia. reflexivity.
    - split; [|split]; cbn [vlen vat nrow ex_scene].
      + intros l _. apply Z.mod_pos_bound. lia.
      + intros x y Hx Hy E. unfold in_rng in *. pose proof (Z.div_mod (x - j) 4 ltac:(lia)). pose proof (Z.div_mod (y - j) 4 ltac:(lia)). lia.
      + intros x y Hx Hxy Hy. cbv beta. unfold ex_scene. cbn [px]. rewrite !Zplus_mod_idemp_l, !Z.sub_add, (Z.mod_small x), (Z.mod_small y) by lia.
        pose proof (ex_tint_bounds j). apply Qmult_le_compat_r; [apply ex_level_le; lia|lra]. }
  rewrite (V a Ha), (V b Hb). pose proof (ex_level_pos k). pose proof (ex_tint_bounds a). pose proof (ex_tint_bounds b).
  setoid_replace ((101 # 100) * (ex_level k * ex_tint b))%Q with (((101 # 100) * ex_tint b) * ex_level k)%Q by ring. rewrite (Qmult_comm (ex_level k)). apply Qmult_le_compat_r; lra.
Qed.
Lemma ex_few size j : (size = 7) -> in_rng 16 j -> few_bad 16 size ex_bad j.
Proof.
  intros -> Hj. apply few_bad_by_reflect; [lia|].
  assert (F : forallb (fun j => 2 * Z.of_nat (length (filter (fun d => ex_bad (reflect_idx 16 (j - 7 / 2 + d))) (zrange 0 7))) <? 7) (zrange 0 16) = true) by (vm_compute; reflexivity).
  rewrite forallb_forall in F. apply Z.ltb_lt, F, zrange_In. unfold in_rng in Hj. lia.
Qed.
Example ex_order : (forall j, in_rng 16 j -> same_order ex_sino ex_scene j) /\ (forall j, in_rng 16 j -> ex_bad j = false -> forall i, in_rng 4 i -> (px ex_sino i j == px ex_scene i j)%Q).
Proof.
  split.
  - intros j _ a b _ _. cbn [ex_sino px]. destruct (ex_bad j); lra.
  - intros j _ E i _. cbn [ex_sino px]. rewrite E. reflexivity.
Qed.
(** so the main theorem applies: every pixel of the result is within (1.01)^3 of the scene, also in the stripe, where the input is
    up to 50 % off *)
Example ex_restored : exists out, remove_all_stripe insertion_argsort ex_sino 3 7 7 (1 # 10) 1 None = Ok out /\
  forall i j, in_rng 4 i -> in_rng 16 j -> within_factor ((101 # 100) * (101 # 100) * (101 # 100)) (px ex_scene i j) (px out i j).
Proof.
  pose proof ex_all_runs as K. destruct (remove_all_stripe insertion_argsort ex_sino 3 7 7 (1 # 10) 1 None) as [out|] eqn:Eo; [|discriminate].
  exists out. split; [reflexivity|].
  assert (EB : forall n size j, few_bad n size ex_bad j -> few_bad n size (fun c => ex_bad c || false) j).
  { intros n size j H w Hw. specialize (H w Hw). erewrite filter_ext; [exact H|]. intros a. apply orb_false_r. }
  assert (Hp : positive_pixels ex_sino).
  { intros i j Hi Hj. pose proof (ex_scene_positive i j Hi Hj). cbn [ex_sino px]. destruct (ex_bad j); lra. }
  destruct (remove_all_stripe_restores_the_scene insertion_argsort insertion_argsort_ok ex_sino ex_scene ex_sino out ex_bad (fun _ => false) 3 7 7 (1 # 10) (101 # 100)
    ltac:(lia) ltac:(lia) eq_refl eq_refl Hp ex_scene_positive (proj1 ex_order) (proj2 ex_order) (ex_alike _) ex_dead_result (fun _ _ _ _ _ => Qeq_refl _)
    (fun j Hj => conj (EB _ _ _ (ex_few 7 j eq_refl Hj)) (EB _ _ _ (ex_few 7 j eq_refl Hj))) ltac:(discriminate) Eo) as (_ & _ & H & _).
  intros i j Hi Hj. apply H; [exact Hi|exact Hj|reflexivity].
Qed.
(** gains: the same scene with one column three times too bright *)
Example ex_gain : let sino := mkimg 4 16 (fun i j => (if ex_bad j then 3 else 1) * px ex_scene i j)%Q in
  (forall j, in_rng 16 j -> (0 < (if ex_bad j then 3 else 1))%Q /\ (ex_bad j = false -> (if ex_bad j then 3 else 1) == 1)%Q /\ forall i, in_rng 4 i -> (px sino i j == (if ex_bad j then 3 else 1) * px ex_scene i j)%Q) /\
  is_ok (remove_large_stripe insertion_argsort (median_along_rows 7) (fun v => Ok v) sino (1 # 10) true) = true /\ compares_only insertion_argsort.
Proof.
  split; [|split; [reflexivity|exact insertion_compares_only] ].
  intros j _. split; [destruct (ex_bad j); reflexivity|]. split; [intros ->; reflexivity|]. intros i _. reflexivity.
Qed.
Example ex_noise_free : forall i j k, in_rng 3 i -> in_rng 8 j -> in_rng 8 k -> (px (mkimg 3 8 (fun i _ => inject_Z i)) i j == px (mkimg 3 8 (fun i _ => inject_Z i)) i k)%Q.
Proof. intros. reflexivity. Qed.
(** the moving mean exists for every image, and the dead-stripe step runs on [ex_sino] ([ex_dead_result]) *)
Example ex_moving_mean : exists avg, forall i j, in_rng 4 i -> in_rng 16 j -> moving_mean 4 10 (fun k => px ex_sino k j) i (avg i j).
Proof.
  exists (fun i j => qmean 10 (fun d => px ex_sino (reflect_idx 4 (i - 10 / 2 + d)) j)). intros i j _ _ w Hw. unfold qmean.
  rewrite (qsum_ext 10 (fun d => px ex_sino (w d) j) (fun d => px ex_sino (reflect_idx 4 (i - 10 / 2 + d)) j)).
  - field.
  - intros d Hd. unfold in_rng in Hd. rewrite (shows_det 4 (i - 10 / 2 + d) (w d) (reflect_idx 4 (i - 10 / 2 + d)) ltac:(lia) (Hw d ltac:(lia)) (reflect_shows 4 _ ltac:(lia))). reflexivity.
Qed.

(** The exact windows: the output pixel of rank [k] in column [j] is the median of the pixels of rank [k] in the columns around [j] *)
Theorem stripe_sorting_takes_the_median_over_the_columns :
  forall asort, (forall v, is_argsort v (asort v)) -> forall size (sino : img Q), 1 <= size ->
  let out := remove_stripe_based_sorting asort (median_along_rows size) sino in
  nrow out = nrow sino /\ ncol out = ncol sino /\
  exists s rank, sorted_columns sino s rank /\
  forall j k, in_rng (ncol sino) j -> in_rng (nrow sino) k -> moving_median (ncol sino) size (fun c => px s k c) j (px out (rank j k) j).
Proof. intros asort Hs size sino. exact (sorting_rows asort Hs size sino). Qed.
Print Assumptions stripe_sorting_takes_the_median_over_the_columns.
(** ... or, in the two-dimensional variant, of the ranks around [k] in the columns around [j] *)
Theorem stripe_sorting_in_two_dimensions :
  forall asort, (forall v, is_argsort v (asort v)) -> forall size (sino : img Q), 1 <= size ->
  let out := remove_stripe_based_sorting asort (median_square size) sino in
  nrow out = nrow sino /\ ncol out = ncol sino /\
  exists s rank, sorted_columns sino s rank /\
  forall j k, in_rng (ncol sino) j -> in_rng (nrow sino) k -> square_median (nrow sino) (ncol sino) size (px s) k j (px out (rank j k) j).
Proof. intros asort Hs size sino. exact (sorting_square asort Hs size sino). Qed.
Print Assumptions stripe_sorting_in_two_dimensions.
(** The order and the settings of the three steps: dead stripes (moving mean over 10 rows, no residual correction), large stripes, and
    sorting, the last two with the filter of the options if one is given *)
Theorem remove_all_stripe_applies_the_three_steps :
  forall asort, (forall v, is_argsort v (asort v)) -> forall (sino out : img Q) snr la_size sm_size ratio dim options, 1 <= sm_size ->
  (forall g, options = Some g -> forall a, nrow (g a) = nrow a /\ ncol (g a) = ncol a) ->
  remove_all_stripe asort sino snr la_size sm_size ratio dim options = Ok out ->
  exists s1 s2, remove_dead_stripe_full asort sino snr la_size false 10 = Ok s1 /\
    remove_large_stripe asort (match options with Some g => g | None => median_along_rows la_size end) (fun v => detect_stripe asort v snr) s1 ratio true = Ok s2 /\
    nrow out = nrow s2 /\ ncol out = ncol s2 /\
    exists s rank, sorted_columns s2 s rank /\ forall j k, in_rng (ncol s2) j -> in_rng (nrow s2) k ->
      match options with
      | Some g => px out (rank j k) j = px (g s) k j
      | None => if dim =? 2 then square_median (nrow s2) (ncol s2) sm_size (px s) k j (px out (rank j k) j)
                else moving_median (ncol s2) sm_size (fun c => px s k c) j (px out (rank j k) j)
      end.
Proof. intros asort Hs. exact (all_steps asort Hs). Qed.
Print Assumptions remove_all_stripe_applies_the_three_steps.
(** sorted columns 1 2 3 / 4 5 6 / 1 8 9: around the middle the median of the nine values is 4, of the middle row 5 *)
Example ex_square :
  let m := mkimg 3 3 (fun i j => if j =? 0 then inject_Z (3 - i) else if j =? 1 then inject_Z (i + 4) else if i =? 0 then 8%Q else if i =? 1 then 1%Q else 9%Q) in
  map (fun i => Qred (px (remove_stripe_based_sorting insertion_argsort (median_square 3) m) i 1)) (zrange 0 3) = [2; 4; 6]%Q /\
  map (fun i => Qred (px (remove_stripe_based_sorting insertion_argsort (median_along_rows 3) m) i 1)) (zrange 0 3) = [1; 5; 6]%Q.
Proof. vm_compute. split; reflexivity. Qed.
