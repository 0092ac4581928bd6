(** C130 (face phantom) and C131 (simulated noise and fluctuation). *)
From Coq Require Import Reals Lra ZArith Lia Bool.
From Verif Require Import Np P_Np M_phase_R P_phase_R M_simR M_face S_face P_face P_face2 M_simnoise P_umpa.
Open Scope Z_scope.

(** ** C130 *)
Theorem face_phantom_is_square : forall size, nrow (make_face_phantom size) = size /\ ncol (make_face_phantom size) = size.
Proof. intros size. split; reflexivity. Qed.
Print Assumptions face_phantom_is_square.

(** the same on both sides of the middle column size // 2 *)
Theorem face_phantom_is_symmetric : forall size i j j', right_of size j' = (- right_of size j)%R ->
  px (make_face_phantom size) i j' = px (make_face_phantom size) i j.
Proof.
  intros size i j j' E. apply face_symmetric. unfold right_of in E. rewrite !minus_IZR in E. exact E.
Qed.
Print Assumptions face_phantom_is_symmetric.

(** grey values between 0 and 1, and nothing outside of the head, for every size from 16 *)
Theorem face_phantom_range_and_support : forall size i j, 16 <= size -> in_rng size i -> in_rng size j ->
  (0 <= px (make_face_phantom size) i j <= 1)%R /\
  (~ in_head (IZR size / 1.3) ((if (64 <? size)%Z then 0.95 else 0.9) * IZR size) (right_of size j) (above size i) -> px (make_face_phantom size) i j = 0%R).
Proof.
  intros size i j Hs _ _. destruct (phantom_parts size Hs i j) as (A & B). split; [exact A|]. intros N. apply B. intros H. apply N. unfold head, in_ell in H. unfold in_head, right_of, above. rewrite !minus_IZR.
  unfold xof, yof in H. set (a := (IZR size / 1.3)%R) in *. set (b := ((if (64 <? size)%Z then 0.95 else 0.9) * IZR size)%R) in *.
  replace (a / 2)%R with (0.5 * a)%R by lra. replace (b / 2)%R with (0.5 * b)%R by lra. lra.
Qed.
Print Assumptions face_phantom_range_and_support.
(** the centre of the face (on the nose): 0.4 + 0.2 *)
Example face_centre_in_range : (0 <= px (make_face_phantom 128) 64 64 <= 1)%R /\ right_of 128 70 = (- right_of 128 58)%R.
Proof. split; [apply (face_phantom_range_and_support 128 64 64); unfold in_rng; lia|]. unfold right_of. change (70 - 128 / 2) with 6. change (58 - 128 / 2) with (-6). lra. Qed.
Example corner_is_dark : px (make_face_phantom 128) 0 0 = 0%R.
Proof.
  apply (face_phantom_range_and_support 128 0 0); try (unfold in_rng; lia). unfold in_head, right_of, above. change (0 - 128 / 2) with (-64). change (128 / 2 - 0) with 64. change (64 <? 128) with true. cbv iota. intros H. lra.
Qed.

(** ** C131 *)
Lemma sum_nonzero_total m : sum_nonzero m = total m.
Proof. unfold sum_nonzero, total. apply rsum_ext. intros i _. apply rsum_ext. intros j _. destruct (Req_EM_T _ _) as [E|E]; [symmetry; exact E|reflexivity]. Qed.
Lemma ind_bounds v : (0 <= (if Req_EM_T v 0 then 0 else 1) <= 1)%R.
Proof. destruct (Req_EM_T v 0); lra. Qed.
Lemma count_blank m : count_nonzero m = 0%R <-> blank m.
Proof.
  split.
  - intros H i j Hi Hj. destruct (Req_EM_T (px m i j) 0) as [E|E]; [exact E|exfalso].
    assert (P : (0 < count_nonzero m)%R); [|lra]. unfold count_nonzero. apply (rsum_pos _ _ i); [intros k _; apply rsum_nonneg; intros; apply ind_bounds|exact Hi|].
    apply (rsum_pos _ _ j); [intros; apply ind_bounds|exact Hj|]. destruct (Req_EM_T (px m i j) 0); [contradiction|lra].
  - intros B. unfold count_nonzero. rewrite (rsum_ext _ _ (fun _ => 0%R)); [apply rsum_zero|]. intros i Hi. rewrite (rsum_ext _ _ (fun _ => 0%R)); [apply rsum_zero|]. intros j Hj. rewrite B by assumption. destruct (Req_EM_T 0 0); [reflexivity|contradiction].
Qed.
(** every pixel gets a number of its own around noise_ratio times the average of the non-zero pixels *)
Theorem add_noise_adds_around_the_noise_level : forall z m ratio, ~ blank m -> (0 <= nonzero_average m * ratio)%R ->
  exists out, add_noise z m ratio = Ok (Some out) /\ nrow out = nrow m /\ ncol out = ncol m /\
  forall i j, in_rng (nrow m) i -> in_rng (ncol m) j -> px out i j = (px m i j + nonzero_average m * ratio * (1 + z i j / 2))%R.
Proof.
  intros z m ratio NB HP. unfold add_noise. destruct (Req_EM_T (count_nonzero m) 0) as [E|E]; [exfalso; apply NB, count_blank, E|].
  rewrite sum_nonzero_total. change (total m / count_nonzero m)%R with (nonzero_average m). cbv zeta. destruct (Rlt_dec _ _) as [L|L]; [exfalso; lra|].
  eexists. split; [reflexivity|]. split; [reflexivity|]. split; [reflexivity|]. intros i j _ _. cbn [px]. lra.
Qed.
Print Assumptions add_noise_adds_around_the_noise_level.

Theorem add_noise_needs_a_positive_average : forall z m ratio,
  (add_noise z m ratio = Ok None <-> blank m) /\ (add_noise z m ratio = Err ValueError <-> ~ blank m /\ (nonzero_average m * ratio < 0)%R).
Proof.
  intros z m ratio. unfold add_noise. rewrite sum_nonzero_total. change (total m / count_nonzero m)%R with (nonzero_average m). cbv zeta. assert (CB := count_blank m).
  destruct (Req_EM_T (count_nonzero m) 0) as [E|E]; [|destruct (Rlt_dec _ _) as [L|L]]; split; split; intros H; try discriminate H; try reflexivity.
  - apply CB, E.
  - destruct H as (N & _). exfalso. apply N, CB, E.
  - exfalso. apply E, CB, H.
  - split; [intros B; apply E, CB, B|lra].
  - exfalso. apply E, CB, H.
  - exfalso. lra.
Qed.
Print Assumptions add_noise_needs_a_positive_average.

(** the noise is NOT around zero: with draws that average to zero the image gets brighter by noise_ratio times its average *)
Theorem add_noise_brightens_refuted : forall z m ratio out, 0 < nrow m -> 0 < ncol m -> (0 < nonzero_average m * ratio)%R -> add_noise z m ratio = Ok (Some out) ->
  rsum (nrow m) (fun i => rsum (ncol m) (fun j => z i j)) = 0%R ->
  total out = (total m + IZR (nrow m) * IZR (ncol m) * (nonzero_average m * ratio))%R /\ (total m < total out)%R.
Proof.
  intros z m ratio out Hr Hc HP E Z0. assert (NB : ~ blank m).
  { intros B. rewrite (proj2 (proj1 (add_noise_needs_a_positive_average z m ratio)) B) in E. discriminate E. }
  destruct (add_noise_adds_around_the_noise_level z m ratio NB ltac:(lra)) as (out' & E' & O1 & O2 & OP). rewrite E' in E. assert (out = out') by congruence. subst out'. clear E E'.
  assert (EQ : total out = (total m + IZR (nrow m) * IZR (ncol m) * (nonzero_average m * ratio))%R).
  { unfold total at 1. rewrite O1, O2. set (a := (nonzero_average m * ratio)%R) in *.
    rewrite (rsum_ext _ _ (fun i => rsum (ncol m) (fun j => px m i j) + (IZR (ncol m) * a + a / 2 * rsum (ncol m) (fun j => z i j)))%R).
    - rewrite rsum_add, rsum_add, rsum_scal, rsum_const by lia. rewrite rsum_scal, Z0. unfold total. ring.
    - intros i Hi. rewrite (rsum_ext _ _ (fun j => px m i j + (a + a / 2 * z i j))%R) by (intros j Hj; rewrite OP by assumption; lra). rewrite rsum_add, rsum_add, rsum_const by lia. rewrite rsum_scal. reflexivity. }
  split; [exact EQ|]. rewrite EQ. assert (0 < IZR (nrow m) * IZR (ncol m) * (nonzero_average m * ratio))%R by (apply Rmult_lt_0_compat; [apply Rmult_lt_0_compat; apply IZR_lt; assumption|exact HP]). lra.
Qed.
Print Assumptions add_noise_brightens_refuted.

(** the same draws on a brighter image give the brighter noise *)
Theorem add_noise_scales : forall z m m' ratio c out, (0 < c)%R -> nrow m' = nrow m -> ncol m' = ncol m -> (forall i j, in_rng (nrow m) i -> in_rng (ncol m) j -> px m' i j = (c * px m i j)%R) ->
  add_noise z m ratio = Ok (Some out) -> exists out', add_noise z m' ratio = Ok (Some out') /\ nrow out' = nrow out /\ ncol out' = ncol out /\
  forall i j, in_rng (nrow m) i -> in_rng (ncol m) j -> px out' i j = (c * px out i j)%R.
Proof.
  intros z m m' ratio c out Hc E1 E2 EP E. destruct (add_noise_needs_a_positive_average z m ratio) as (N1 & N2).
  assert (NB : ~ blank m) by (intros B; rewrite (proj2 N1 B) in E; discriminate E). assert (HP : (0 <= nonzero_average m * ratio)%R).
  { destruct (Rle_dec 0 (nonzero_average m * ratio)) as [L|L]; [exact L|exfalso]. rewrite (proj2 N2) in E by (split; [exact NB|lra]). discriminate E. }
  assert (EA : nonzero_average m' = (c * nonzero_average m)%R).
  { unfold nonzero_average, total, nonzero_count. rewrite E1, E2.
    rewrite (rsum_ext (nrow m) (fun i => rsum (ncol m) (fun j => px m' i j)) (fun i => c * rsum (ncol m) (fun j => px m i j))%R) by (intros i Hi; rewrite <- rsum_scal; apply rsum_ext; intros j Hj; apply EP; assumption).
    rewrite rsum_scal. unfold Rdiv. rewrite Rmult_assoc. do 3 f_equal. apply rsum_ext. intros i Hi. apply rsum_ext. intros j Hj. rewrite EP by assumption.
    destruct (Req_EM_T (c * px m i j) 0) as [A|A], (Req_EM_T (px m i j) 0) as [B|B]; try reflexivity; exfalso; [apply Rmult_integral in A; destruct A; [lra|contradiction]|rewrite B, Rmult_0_r in A; apply A; reflexivity]. }
  assert (NB' : ~ blank m').
  { intros B. apply NB. intros i j Hi Hj. assert (X := B i j). rewrite E1, E2 in X. specialize (X Hi Hj). rewrite EP in X by assumption. apply Rmult_integral in X. destruct X; [lra|assumption]. }
  destruct (add_noise_adds_around_the_noise_level z m ratio NB HP) as (o & EO & O1 & O2 & OP). assert (o = out) by congruence. subst o.
  destruct (add_noise_adds_around_the_noise_level z m' ratio NB') as (o' & EO' & O1' & O2' & OP'); [rewrite EA, Rmult_assoc; apply Rmult_le_pos; lra|].
  exists o'. split; [exact EO'|]. split; [lia|]. split; [lia|]. intros i j Hi Hj. rewrite OP' by (rewrite ?E1, ?E2; assumption). rewrite OP, EP, EA by assumption. ring.
Qed.
Print Assumptions add_noise_scales.
Example a_positive_average : (0 < nonzero_average (mkimg 2 2 (fun i j => IZR (i + j))) * 0.1)%R /\ rsum 2 (fun i => rsum 2 (fun j => IZR (i - j))) = 0%R.
Proof.
  split.
  - unfold nonzero_average, total, nonzero_count. cbn [nrow ncol px]. unfold rsum. change (Z.to_nat 2) with 2%nat. cbn [rsumn Z.of_nat Z.add Pos.of_succ_nat Pos.succ Pos.add].
    repeat (destruct (Req_EM_T _ _); [try (exfalso; lra)|try (exfalso; lra)]). lra.
  - unfold rsum. change (Z.to_nat 2) with 2%nat. cbn [rsumn]. cbn [Z.of_nat Pos.of_succ_nat Z.sub Z.add Z.opp Z.pos_sub]. lra.
Qed.

(** ** background fluctuation *)
Lemma rtrunc_abs x : (Rabs (IZR (rtrunc x)) <= Rabs x)%R.
Proof.
  unfold rtrunc. destruct (Rle_dec 0 x) as [L|L].
  - assert (B := base_Int_part x). assert (0 <= Int_part x) by (apply Z.lt_succ_r, lt_IZR; unfold Z.succ; rewrite plus_IZR; lra). apply IZR_le in H. rewrite !Rabs_pos_eq by lra. lra.
  - assert (B := base_Int_part (- x)). assert (0 <= Int_part (- x)) by (apply Z.lt_succ_r, lt_IZR; unfold Z.succ; rewrite plus_IZR; lra). apply IZR_le in H. rewrite opp_IZR, Rabs_Ropp, !Rabs_pos_eq by lra. rewrite Rabs_left by lra. lra.
Qed.
(** every row is multiplied with a Gaussian beam profile of its own: factors in (0, 1], bounded below for strengths below 1 *)
Theorem fluctuation_is_a_factor_of_every_row : forall rand1 rand2 s ratio, drawn rand1 -> drawn rand2 -> (0 <= ratio <= 1)%R ->
  let out := add_background_fluctuation rand1 rand2 s ratio in
  nrow out = nrow s /\ ncol out = ncol s /\
  forall i j, in_rng (nrow s) i -> in_rng (ncol s) j -> exists f, px out i j = (f * px s i j)%R /\ (0 < f <= 1)%R /\ ((ratio < 1)%R -> (exp (- (1 / (2 * (1 - ratio) ^ 2))) <= f)%R).
Proof.
  intros rand1 rand2 s ratio D1 D2 HR out. split; [reflexivity|]. split; [reflexivity|]. intros i j Hi Hj. unfold out, add_background_fluctuation. cbn [px]. set (n := ncol s) in *. unfold in_rng in Hj.
  set (f := gaussian_window _ _ _). exists f. split; [ring|]. unfold f, gaussian_window. clear f. set (k := (_ mod n)). assert (K : 0 <= k < n) by (apply Z.mod_pos_bound; lia). clearbody k.
  assert (NP : (1 <= IZR n)%R) by (apply IZR_le; lia). assert (K0 : (0 <= IZR k)%R) by (apply IZR_le; lia). assert (K1 : (IZR k <= IZR n - 1)%R) by (rewrite <- minus_IZR; apply IZR_le; lia).
  set (t := (IZR k - (IZR n - 1) / 2)%R). assert (TB : (- ((IZR n - 1) / 2) <= t <= (IZR n - 1) / 2)%R) by (unfold t; lra).
  assert (FB : (1 - ratio <= list_fact rand1 ratio i <= 1)%R). { unfold list_fact. specialize (D1 i). assert (0 <= rand1 i * ratio)%R by (apply Rmult_le_pos; lra). assert (rand1 i * ratio <= 1 * ratio)%R by (apply Rmult_le_compat_r; lra). lra. }
  assert (FP : (0 < list_fact rand1 ratio i)%R). { unfold list_fact. specialize (D1 i). destruct (Req_dec ratio 0) as [->|N0]; [lra|]. assert (rand1 i * ratio < 1 * ratio)%R by (apply Rmult_lt_compat_r; lra). lra. }
  set (F := list_fact rand1 ratio i) in *. set (sd := (0.5 * F * IZR n)%R). assert (SP : (0 < sd)%R) by (unfold sd; apply Rmult_lt_0_compat; lra). assert (S2 : (0 < 2 * sd ^ 2)%R) by (assert (0 < sd ^ 2)%R by (apply pow_lt; exact SP); lra).
  assert (T0 := pow2_ge_0 t). split; [split; [apply exp_pos|]|].
  - rewrite <- exp_0. apply Rnot_lt_le. intros L. apply exp_lt_inv in L. assert (0 <= t ^ 2 / (2 * sd ^ 2))%R by (apply Rmult_le_pos; [exact T0|left; apply Rinv_0_lt_compat; exact S2]). unfold Rdiv in *. rewrite Ropp_mult_distr_l_reverse in L. lra.
  - intros R1. assert (G : (t ^ 2 / (2 * sd ^ 2) <= 1 / (2 * (1 - ratio) ^ 2))%R).
    { assert (U : (0 < 2 * (1 - ratio) ^ 2)%R) by (assert (0 < (1 - ratio) ^ 2)%R by (apply pow_lt; lra); lra).
      apply (Rmult_le_reg_r (2 * sd ^ 2)); [exact S2|]. unfold Rdiv at 1. rewrite Rmult_assoc, Rinv_l, Rmult_1_r by lra.
      assert (X : (t ^ 2 <= (IZR n / 2) ^ 2)%R) by (assert (0 <= (IZR n / 2 - t) * (IZR n / 2 + t))%R by (apply Rmult_le_pos; lra); replace ((IZR n / 2) ^ 2)%R with (t ^ 2 + (IZR n / 2 - t) * (IZR n / 2 + t))%R by ring; lra).
      assert (Y : ((1 - ratio) ^ 2 <= F ^ 2)%R) by (apply pow_incr; lra).
      replace (1 / (2 * (1 - ratio) ^ 2) * (2 * sd ^ 2))%R with ((F ^ 2 / (1 - ratio) ^ 2) * (IZR n / 2) ^ 2)%R by (unfold sd; replace 0.5%R with (/ 2)%R by lra; field; lra).
      assert (Z1 : (1 <= F ^ 2 / (1 - ratio) ^ 2)%R) by (apply (Rmult_le_reg_r ((1 - ratio) ^ 2)); [lra|]; unfold Rdiv; rewrite Rmult_assoc, Rinv_l by lra; lra).
      assert (Z2 := pow2_ge_0 (IZR n / 2)). assert (1 * (IZR n / 2) ^ 2 <= F ^ 2 / (1 - ratio) ^ 2 * (IZR n / 2) ^ 2)%R by (apply Rmult_le_compat_r; lra). lra. }
    destruct (Req_dec (t ^ 2 / (2 * sd ^ 2)) (1 / (2 * (1 - ratio) ^ 2))) as [EQ|NE].
    + right. f_equal. rewrite <- EQ. unfold Rdiv. ring.
    + left. apply exp_increasing. unfold Rdiv in *. rewrite Ropp_mult_distr_l_reverse. lra.
Qed.
Print Assumptions fluctuation_is_a_factor_of_every_row.

(** the beam is moved by at most a quarter of strength_ratio times the width *)
Theorem fluctuation_moves_the_beam_a_little : forall rand1 rand2 s ratio i, drawn rand2 -> (0 <= ratio)%R -> 0 < ncol s ->
  exists d std, (Rabs (IZR d) <= ratio * IZR (ncol s) / 4)%R /\ forall j, in_rng (ncol s) j ->
  px (add_background_fluctuation rand1 rand2 s ratio) i j = (px s i j * exp (- (IZR ((j - d) mod ncol s) - (IZR (ncol s) - 1) / 2) ^ 2 / (2 * std ^ 2)))%R.
Proof.
  intros rand1 rand2 s ratio i D2 HR HN. exists (list_shift rand2 ratio (ncol s) i), (0.5 * list_fact rand1 ratio i * IZR (ncol s))%R. split; [|intros j _; reflexivity].
  unfold list_shift. eapply Rle_trans; [apply rtrunc_abs|]. specialize (D2 i). assert (NP : (0 < IZR (ncol s))%R) by (apply IZR_lt; exact HN).
  replace ((0.5 - rand2 i) * ratio * IZR (ncol s) * 0.5)%R with ((0.5 - rand2 i) * (ratio * IZR (ncol s) * 0.5))%R by ring. rewrite Rabs_mult. assert (P : (0 <= ratio * IZR (ncol s))%R) by (apply Rmult_le_pos; lra).
  rewrite (Rabs_pos_eq (ratio * IZR (ncol s) * 0.5)) by lra. assert (A : (Rabs (0.5 - rand2 i) <= 0.5)%R) by (apply Rabs_le; lra).
  assert (Rabs (0.5 - rand2 i) * (ratio * IZR (ncol s) * 0.5) <= 0.5 * (ratio * IZR (ncol s) * 0.5))%R by (apply Rmult_le_compat_r; lra). lra.
Qed.
Print Assumptions fluctuation_moves_the_beam_a_little.

(** strength 0 does NOT leave the sinogram as it was: every row is still multiplied with the beam profile *)
Theorem fluctuation_of_strength_zero_refuted : forall rand1 rand2 s i j, 0 < ncol s ->
  let x := (IZR j - (IZR (ncol s) - 1) / 2)%R in in_rng (ncol s) j ->
  px (add_background_fluctuation rand1 rand2 s 0) i j = (px s i j * exp (- (2 * (x / IZR (ncol s)) ^ 2)))%R.
Proof.
  intros rand1 rand2 s i j HN x Hj. unfold add_background_fluctuation. cbn [px]. unfold list_shift, list_fact, gaussian_window. replace ((0.5 - rand2 i) * 0 * IZR (ncol s) * 0.5)%R with 0%R by ring.
  assert (E : rtrunc 0 = 0). { unfold rtrunc. destruct (Rle_dec 0 0) as [L|L]; [|lra]. assert (B := base_Int_part 0). assert (-1 < Int_part 0) by (apply lt_IZR; lra). assert (Int_part 0 < 1) by (apply lt_IZR; lra). lia. }
  rewrite E, Z.sub_0_r, Z.mod_small by exact Hj. fold x. assert (NP : (0 < IZR (ncol s))%R) by (apply IZR_lt; exact HN). do 2 f_equal. replace 0.5%R with (/ 2)%R by lra. field. lra.
Qed.
Print Assumptions fluctuation_of_strength_zero_refuted.
Example draws : drawn (fun _ => 0.25%R). Proof. intros i. lra. Qed.
