(** Proofs for C116: antiderivatives, transposition, options; concrete cases. *)
From Coq Require Import Reals ZArith Lia Lra Bool List.
From Verif Require Import Np P_Np M_phase_R P_phase_R M_simR P_simR M_calib P_calib8 M_fourier P_fourier P_kernel P_fresnel S_fresnel M_surface S_surface P_surface P_surface2 P_surface3 P_surface4 P_surface5 P_surface6.
Open Scope Z_scope.

(** the antiderivative of a sum of cosines *)
Definition sines (n : Z) (c : Z -> R) (x : R) : R := rsum n (fun k => if k =? 0 then 0%R else (c k * (IZR n / (PI * IZR k)) * sin (PI * IZR k * x / IZR n))%R).
Lemma rsumn_deriv n (F f : Z -> R -> R) x : (forall k, 0 <= k < Z.of_nat n -> derivable_pt_lim (F k) x (f k x)) ->
  derivable_pt_lim (fun x => rsumn n (fun k => F k x)) x (rsumn n (fun k => f k x)).
Proof.
  induction n as [|n IH]; intros H; cbn [rsumn].
  - apply derivable_pt_lim_const.
  - apply (derivable_pt_lim_plus (fun x => rsumn n (fun k => F k x)) (F (Z.of_nat n)) x); [apply IH; intros k Hk; apply H; lia|apply H; lia].
Qed.
Lemma sines_deriv n c x : 0 < n -> c 0 = 0%R -> derivable_pt_lim (sines n c) x (cosines n c x).
Proof.
  intros Hn C0. assert (0 < IZR n)%R by (apply (IZR_lt 0); assumption). pose proof PI_RGT_0. unfold sines, cosines, rsum.
  apply (rsumn_deriv (Z.to_nat n) (fun k x => if k =? 0 then 0%R else (c k * (IZR n / (PI * IZR k)) * sin (PI * IZR k * x / IZR n))%R) (fun k x => c k * cos (PI * IZR k * x / IZR n))%R).
  intros k Hk. destruct (k =? 0) eqn:E.
  - assert (k = 0) by lia. subst k. rewrite C0. replace (0 * cos (PI * 0 * x / IZR n))%R with 0%R by ring. apply derivable_pt_lim_const.
  - assert (0 < IZR k)%R by (apply (IZR_lt 0); lia).
    replace (c k * cos (PI * IZR k * x / IZR n))%R with (c k * (IZR n / (PI * IZR k)) * (cos (PI * IZR k / IZR n * x) * (PI * IZR k / IZR n)))%R.
    2:{ replace (PI * IZR k * x / IZR n)%R with (PI * IZR k / IZR n * x)%R by (unfold Rdiv; ring). field. lra. }
    apply (derivable_pt_lim_ext (fun x => (c k * (IZR n / (PI * IZR k))) * sin (PI * IZR k / IZR n * x))%R).
    + intros y. f_equal. f_equal. unfold Rdiv. ring.
    + apply (derivable_pt_lim_scal (fun x => sin (PI * IZR k / IZR n * x)) (c k * (IZR n / (PI * IZR k)))%R x).
      apply (derivable_pt_lim_comp (fun x => PI * IZR k / IZR n * x)%R sin x (PI * IZR k / IZR n)%R (cos (PI * IZR k / IZR n * x))).
      * assert (D := derivable_pt_lim_scal id (PI * IZR k / IZR n) x 1 (derivable_pt_lim_id x)). rewrite Rmult_1_r in D. exact D.
      * apply derivable_pt_lim_sin.
Qed.

Lemma fc_x gx gy c : 0 < nrow gx -> 0 < ncol gx -> same_size gx gy -> c 0 = 0%R ->
  (forall i j, in_rng (nrow gx) i -> in_rng (ncol gx) j -> px gx i j = cosines (ncol gx) c (IZR j + / 2) /\ px gy i j = 0%R) ->
  exists f, surface_FC gx gy false None = Ok f /\ same_size f gx /\ forall i j, in_rng (nrow gx) i -> in_rng (ncol gx) j -> px f i j = sines (ncol gx) c (IZR j + / 2).
Proof.
  intros Hh Hw S C0 V. assert (S' := S). destruct S' as [S1 S2].
  destruct (fc_spec gx gy (fun l k => if l =? 0 then c k else 0%R) (fun _ _ => 0%R)) as (f & E & T & W); try assumption.
  - intros i j Hi Hj. rewrite (proj1 (V i j Hi Hj)). rewrite (rsum_single _ _ 0); [|lia|].
    + rewrite Z.eqb_refl. unfold cosines. apply rsum_ext. intros k _. unfold cos_mode. replace (PI * 0 * (IZR i + / 2) / IZR (nrow gx))%R with 0%R by (unfold Rdiv; ring). rewrite cos_0. ring.
    + intros l _ N. rewrite (rsum_ext _ _ (fun _ => 0%R)); [apply rsum_zero|]. intros k _. replace (l =? 0) with false by lia. ring.
  - intros i j Hi Hj. rewrite <- S1 in *. rewrite <- S2 in *. rewrite (proj2 (V i j Hi Hj)). rewrite (rsum_ext _ _ (fun _ => 0%R)); [symmetry; apply rsum_zero|]. intros l _.
    rewrite (rsum_ext _ _ (fun _ => 0%R)); [apply rsum_zero|]. intros k _. ring.
  - exists f. split; [exact E|]. split; [exact T|]. intros i j Hi Hj. rewrite W by assumption. unfold fc_value. rewrite (rsum_single _ _ 0); [|lia|].
    + unfold sines. apply rsum_ext. intros k Hk. rewrite Z.eqb_refl. cbn [andb]. destruct (k =? 0) eqn:E0; [reflexivity|]. assert (0 < IZR k)%R by (apply (IZR_lt 0); lia). pose proof PI_RGT_0.
      unfold cos_mode, sin_mode. replace (PI * 0 * (IZR i + / 2) / IZR (nrow gx))%R with 0%R by (unfold Rdiv; ring). rewrite cos_0, sin_0.
      replace (IZR k ^ 2 + 0 ^ 2)%R with (IZR k * IZR k)%R by ring. field. lra.
    + intros l _ N. rewrite (rsum_ext _ _ (fun _ => 0%R)); [apply rsum_zero|]. intros k _. replace (l =? 0) with false by lia. cbn [andb]. ring.
Qed.
Lemma fc_y gx gy c : 0 < nrow gx -> 0 < ncol gx -> same_size gx gy -> c 0 = 0%R ->
  (forall i j, in_rng (nrow gx) i -> in_rng (ncol gx) j -> px gy i j = cosines (nrow gx) c (IZR i + / 2) /\ px gx i j = 0%R) ->
  exists f, surface_FC gx gy false None = Ok f /\ same_size f gx /\ forall i j, in_rng (nrow gx) i -> in_rng (ncol gx) j ->
    px f i j = (IZR (ncol gx) / IZR (nrow gx) * sines (nrow gx) c (IZR i + / 2))%R.
Proof.
  intros Hh Hw S C0 V. assert (S' := S). destruct S' as [S1 S2].
  destruct (fc_spec gx gy (fun _ _ => 0%R) (fun l k => if k =? 0 then c l else 0%R)) as (f & E & T & W); try assumption.
  - intros i j Hi Hj. rewrite (proj2 (V i j Hi Hj)). rewrite (rsum_ext _ _ (fun _ => 0%R)); [symmetry; apply rsum_zero|]. intros l _.
    rewrite (rsum_ext _ _ (fun _ => 0%R)); [apply rsum_zero|]. intros k _. ring.
  - intros i j Hi Hj. rewrite <- S1 in *. rewrite <- S2 in *. rewrite (proj1 (V i j Hi Hj)). unfold cosines. apply rsum_ext. intros l _. rewrite (rsum_single _ _ 0); [|lia|].
    + rewrite Z.eqb_refl. unfold cos_mode. replace (PI * 0 * (IZR j + / 2) / IZR (ncol gx))%R with 0%R by (unfold Rdiv; ring). rewrite cos_0. ring.
    + intros k _ N. replace (k =? 0) with false by lia. ring.
  - exists f. split; [exact E|]. split; [exact T|]. intros i j Hi Hj. rewrite W by assumption. unfold fc_value, sines. rewrite <- rsum_scal. apply rsum_ext. intros l Hl. rewrite (rsum_single _ _ 0); [|lia|].
    + rewrite Z.eqb_refl, andb_true_r. destruct (l =? 0) eqn:E0; [ring|]. assert (0 < IZR l)%R by (apply (IZR_lt 0); lia). assert (0 < IZR (nrow gx))%R by (apply (IZR_lt 0); lia). pose proof PI_RGT_0.
      unfold cos_mode, sin_mode. replace (PI * 0 * (IZR j + / 2) / IZR (ncol gx))%R with 0%R by (unfold Rdiv; ring). rewrite cos_0, sin_0.
      replace (0 ^ 2 + IZR l ^ 2)%R with (IZR l * IZR l)%R by ring. field. lra.
    + intros k _ N. replace (k =? 0) with false by lia. rewrite andb_false_r. ring.
Qed.
Lemma fc_square gx gy gx' gy' f : 0 < nrow gx -> nrow gx = ncol gx -> same_size gx gy -> transposed gx gx' -> transposed gy gy' ->
  surface_FC gx gy false None = Ok f -> exists f', surface_FC gy' gx' false None = Ok f' /\ transposed f f'.
Proof.
  intros Hh SQ S TX TY E. assert (S' := S). destruct S' as [S1 S2]. assert (TX' := TX). destruct TX' as (X1 & X2 & XV). assert (TY' := TY). destruct TY' as (Y1 & Y2 & YV).
  destruct (series_exists gx Hh ltac:(lia)) as (A & SA). destruct (series_exists gy ltac:(lia) ltac:(lia)) as (B & SB).
  destruct (fc_spec gx gy A B Hh ltac:(lia) S SA SB) as (f0 & E0 & T0 & V0). assert (f0 = f) by congruence. subst f0.
  destruct (fc_spec gy' gx' (fun l k => B k l) (fun l k => A k l)) as (f' & E' & T' & V'); try lia; try (split; congruence).
  - intros i j Hi Hj. rewrite YV by assumption. rewrite SB by (congruence || (unfold in_rng in *; lia)). rewrite rsum_swap. rewrite Y1, Y2. apply rsum_ext. intros k _. apply rsum_ext. intros l _. ring.
  - intros i j Hi Hj. rewrite XV by assumption. rewrite SA by (congruence || (unfold in_rng in *; lia)). rewrite rsum_swap. rewrite X1, X2. apply rsum_ext. intros k _. apply rsum_ext. intros l _. ring.
  - exists f'. split; [exact E'|]. destruct T0 as [T01 T02], T' as [T'1 T'2]. split; [congruence|]. split; [congruence|]. intros i j Hi Hj. rewrite T'1 in Hi. rewrite T'2 in Hj.
    rewrite V' by assumption. rewrite V0 by (unfold in_rng in *; lia). unfold fc_value. rewrite Y1, Y2, <- S1, <- S2. rewrite rsum_swap. apply rsum_ext. intros k _. apply rsum_ext. intros l _.
    rewrite andb_comm. destruct (_ && _) eqn:Z0; [reflexivity|]. rewrite SQ. rewrite (Rplus_comm (IZR l ^ 2)). f_equal. ring.
Qed.
Lemma fc_lift gx gy win : surface_FC gx gy true win = (do m <- surface_FC gx gy false win; Ok (lift_negative true m)).
Proof.
  unfold surface_FC. destruct (negb _); [reflexivity|]. destruct win as [w|]; cbn [bindr].
  - destruct (negb _); [reflexivity|]. cbn [bindr]. destruct w as [[su sv] wi]. reflexivity.
  - destruct (make_window_FC _ _) as [[su sv] wi]. reflexivity.
Qed.
Lemma fc_window gx gy cn : surface_FC gx gy cn (Some (make_window_FC (2 * nrow gx) (2 * ncol gx))) = surface_FC gx gy cn None.
Proof. unfold surface_FC. destruct (negb _); [reflexivity|]. unfold make_window_FC at 1 2. cbn [snd nrow ncol double_image_R]. rewrite !Z.eqb_refl. reflexivity. Qed.
Lemma fc_reject_shape gx gy cn win : ~ same_size gx gy -> surface_FC gx gy cn win = Err ValueError.
Proof. intros H. unfold surface_FC. replace ((nrow gx =? nrow gy) && (ncol gx =? ncol gy)) with false; [reflexivity|]. unfold same_size in H. symmetry. apply not_true_is_false. lia. Qed.
Lemma fc_reject_window gx gy cn u v (wi : img R) : ~ (nrow wi = 2 * nrow gx /\ ncol wi = 2 * ncol gx) -> surface_FC gx gy cn (Some (u, v, wi)) = Err ValueError.
Proof.
  intros H. unfold surface_FC. destruct (negb _); [reflexivity|]. cbn [snd double_image_R nrow ncol]. replace ((nrow wi =? 2 * nrow gx) && (ncol wi =? 2 * ncol gx)) with false; [reflexivity|].
  symmetry. apply not_true_is_false. lia.
Qed.
