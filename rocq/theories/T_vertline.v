(** C57: vertical slices lie on the requested line. *)
From Coq Require Import Reals Lra Lia ZArith.
From Verif Require Import Np P_Np P_post M_vertline.
From Coq Require Import List. Import ListNotations.
Open Scope R_scope.

Lemma angle_range alpha : 0 <= alpha <= 180 -> 0 <= alpha * PI / 180 <= PI.
Proof. pose proof PI_RGT_0 as P. intros [A B]. split; [apply Rmult_le_pos; [apply Rmult_le_pos; lra|lra]|]. 
  replace PI with (180 * PI / 180) at 2 by field. apply Rmult_le_compat_r; [lra|]. apply Rmult_le_compat_r; lra. Qed.
Lemma cos_nz alpha : 0 <= alpha <= 180 -> alpha <= 45 \/ 135 <= alpha -> cos (alpha * PI / 180) <> 0.
Proof.
  pose proof PI_RGT_0 as P. intros H [A|A].
  - apply Rgt_not_eq. pose proof (angle_range alpha H). apply cos_gt_0; [lra|].
    apply Rle_lt_trans with (45 * PI / 180); [|lra]. apply Rmult_le_compat_r; [lra|]. apply Rmult_le_compat_r; lra.
  - apply Rlt_not_eq. pose proof (angle_range alpha H). apply cos_lt_0; [|lra].
    apply Rlt_le_trans with (135 * PI / 180); [lra|]. apply Rmult_le_compat_r; [lra|]. apply Rmult_le_compat_r; lra.
Qed.
Lemma sin_nz alpha : 45 < alpha < 135 -> sin (alpha * PI / 180) <> 0.
Proof.
  pose proof PI_RGT_0 as P. intros [A B]. apply Rgt_not_eq. apply sin_gt_0.
  - apply Rmult_lt_0_compat; [apply Rmult_lt_0_compat; lra|lra].
  - replace PI with (180 * PI / 180) at 2 by field. apply Rmult_lt_compat_r; [lra|]. apply Rmult_lt_compat_r; lra.
Qed.
(** the point number k: foot of the perpendicular plus (k - centre) steps along the line *)
Lemma points_closed idx alpha width : 0 <= alpha <= 180 -> 0 <= idx <= IZR (width - 1) ->
  exists xs ys, get_points_single_line idx alpha width = Ok (xs, ys) /\ vlen xs = width /\ vlen ys = width /\
    let a := alpha * PI / 180 in let c := IZR (line_center width) in
    forall k, vat xs k = (idx - c) * sin a + (IZR k - c) * cos a /\ vat ys k = - (idx - c) * cos a + (IZR k - c) * sin a.
Proof.
  intros HA HI. unfold get_points_single_line. pose proof (angle_range alpha HA) as AR. pose proof PI_4 as P4.
  destruct (Rlt_dec alpha 0); [lra|]. destruct (Rlt_dec 180 alpha); [lra|]. destruct (Rlt_dec idx 0); [lra|].
  destruct (Rlt_dec (IZR (width - 1)) idx); [lra|].
  destruct (Rle_dec (alpha * PI / 180) 45) as [A45|]; [|lra]. destruct (Rle_dec (alpha * PI / 180) 90) as [A90|]; [|lra].
  set (a := alpha * PI / 180) in *. pose proof (sin2_cos2 a) as SC. unfold Rsqr in SC.
  assert (T : forall k, IZR (- line_center width + k) = IZR k - IZR (line_center width)) by (intros k; rewrite plus_IZR, opp_IZR; lra).
  set (c := IZR (line_center width)) in *.
  destruct (if Rle_dec alpha 45 then true else if Rle_dec 135 alpha then true else false) eqn:B.
  - assert (NZ : cos a <> 0). { apply cos_nz; [lra|]. destruct (Rle_dec alpha 45); [auto|]. destruct (Rle_dec 135 alpha); [auto|discriminate]. }
    eexists _, _. split; [reflexivity|]. split; [reflexivity|]. split; [reflexivity|]. cbv zeta. cbn [vat line_steps]. intros k. rewrite T.
    assert (D : 1 + tan a * tan a = 1 / (cos a * cos a)) by (unfold tan; field_simplify; [|exact NZ|exact NZ]; f_equal; lra).
    assert (X : - tan a * (- (idx - c) / cos a) / (1 + tan a * tan a) = (idx - c) * sin a).
    { rewrite D. unfold tan. field. exact NZ. }
    rewrite X. split; [reflexivity|]. unfold tan.
    replace (sin a / cos a * ((idx - c) * sin a + (IZR k - c) * cos a) + - (idx - c) / cos a)
      with ((idx - c) * (sin a * sin a - 1) / cos a + (IZR k - c) * sin a) by (field; exact NZ).
    replace (sin a * sin a - 1) with (- (cos a * cos a)) by lra. field. exact NZ.
  - assert (NZ : sin a <> 0). { apply sin_nz. destruct (Rle_dec alpha 45); [discriminate|]. destruct (Rle_dec 135 alpha); [discriminate|]. lra. }
    eexists _, _. split; [reflexivity|]. split; [reflexivity|]. split; [reflexivity|]. cbv zeta. cbn [vat line_steps]. intros k. rewrite T.
    assert (D : 1 + cos a / sin a * (cos a / sin a) = 1 / (sin a * sin a)) by (field_simplify; [|exact NZ|exact NZ]; f_equal; lra).
    assert (X : - (cos a / sin a) * ((idx - c) / sin a) / (1 + cos a / sin a * (cos a / sin a)) = - (idx - c) * cos a).
    { rewrite D. field. exact NZ. }
    rewrite X. split; [|reflexivity].
    replace (cos a / sin a * (- (idx - c) * cos a + (IZR k - c) * sin a) + (idx - c) / sin a)
      with ((idx - c) * (1 - cos a * cos a) / sin a + (IZR k - c) * cos a) by (field; exact NZ).
    replace (1 - cos a * cos a) with (sin a * sin a) by lra. field. exact NZ.
Qed.

Theorem vertical_slice_points_lie_on_the_requested_line :
  forall (slice_index alpha : R) (width : Z),
  0 <= alpha <= 180 -> 0 <= slice_index <= IZR (width - 1) ->
  exists (xs ys : vec R) (centre : Z),
    get_points_single_line slice_index alpha width = Ok (xs, ys) /\ vlen xs = width /\ vlen ys = width /\
    (width - 1 <= 2 * centre <= width)%Z /\
    let a := alpha * PI / 180 in
    (* on the line at distance slice_index - centre from the axis *)
    (forall k, (0 <= k < width)%Z -> vat xs k * sin a - vat ys k * cos a = slice_index - IZR centre) /\
    (* equally spaced by one pixel, ordered along the direction alpha *)
    (forall k, (0 <= k < width - 1)%Z -> vat xs (k + 1) - vat xs k = cos a /\ vat ys (k + 1) - vat ys k = sin a) /\
    (* number centre is the foot of the perpendicular from the axis *)
    (forall k, (0 <= k < width)%Z -> vat xs k * cos a + vat ys k * sin a = IZR (k - centre)).
Proof.
  intros idx alpha width HA HI. destruct (points_closed idx alpha width HA HI) as (xs & ys & E & L1 & L2 & P).
  exists xs, ys, (line_center width). split; [exact E|]. split; [exact L1|]. split; [exact L2|]. cbv zeta in *.
  set (a := alpha * PI / 180) in *. pose proof (sin2_cos2 a) as SC. unfold Rsqr in SC. set (c := IZR (line_center width)) in *.
  split; [unfold line_center; pose proof (Z.div_mod (- (width - 1)) 2 ltac:(lia)); pose proof (Z.mod_pos_bound (- (width - 1)) 2 ltac:(lia)); lia|].
  split; [|split].
  - intros k _. destruct (P k) as [-> ->].
    replace _ with ((idx - c) * (sin a * sin a + cos a * cos a)) by ring. rewrite SC. ring.
  - intros k _. destruct (P k) as [-> ->]. destruct (P (k + 1)%Z) as [-> ->]. rewrite plus_IZR. split; ring.
  - intros k _. destruct (P k) as [-> ->]. rewrite minus_IZR. fold c.
    replace _ with ((IZR k - c) * (sin a * sin a + cos a * cos a)) by ring. rewrite SC. ring.
Qed.
Print Assumptions vertical_slice_points_lie_on_the_requested_line.

(** angles and indices out of range are rejected *)
Theorem vertical_slice_points_reject_other_angles_and_indices :
  forall (slice_index alpha : R) (width : Z),
  alpha < 0 \/ 180 < alpha \/ slice_index < 0 \/ IZR (width - 1) < slice_index ->
  get_points_single_line slice_index alpha width = Err ValueError.
Proof.
  intros idx alpha width H. unfold get_points_single_line.
  destruct (Rlt_dec alpha 0); [reflexivity|]. destruct (Rlt_dec 180 alpha); [reflexivity|]. destruct (Rlt_dec idx 0); [reflexivity|].
  destruct (Rlt_dec (IZR (width - 1)) idx); [reflexivity|]. exfalso. lra.
Qed.
Print Assumptions vertical_slice_points_reject_other_angles_and_indices.

(** several parallel lines: line k is the line of index start + k * step, so neighbouring lines are step pixels apart *)
Theorem vertical_slice_multiple_lines_are_parallel :
  forall (start stop step width : Z) (alpha : R),
  0 <= alpha <= 180 -> (0 <= start <= stop)%Z -> (stop <= width - 1)%Z -> (1 <= step)%Z ->
  exists lines, get_points_multiple_lines start stop alpha width step = Ok lines /\
    (forall k, (0 <= k < Z.of_nat (length lines))%Z <-> (0 <= k)%Z /\ (start + k * step <= stop)%Z) /\
    forall k xs ys, nth_error lines (Z.to_nat k) = Some (xs, ys) -> (0 <= k)%Z ->
      get_points_single_line (IZR (start + k * step)) alpha width = Ok (xs, ys).
Proof.
  intros start stop step width alpha HA HS HW H1. unfold get_points_multiple_lines, prange_step_r.
  destruct (Z.eqb_spec step 0); [lia|]. cbn [bindr]. set (ids := prange_step start (stop + 1) step).
  set (f := fun i => get_points_single_line (IZR i) alpha width).
  set (g := fun i => match f i with Ok v => v | Err _ => (mkvec 0%Z (fun _ => 0), mkvec 0%Z (fun _ => 0)) end).
  assert (FG : forall i, In i ids -> f i = Ok (g i)).
  { intros i Hi. apply prange_step_In in Hi as (k & K0 & -> & K1); [|lia]. unfold g, f.
    destruct (points_closed (IZR (start + k * step)) alpha width HA) as (xs & ys & E & _).
    - split; apply IZR_le; nia.
    - rewrite E. reflexivity. }
  rewrite (mapr_total f g ids FG). eexists. split; [reflexivity|]. rewrite map_length.
  assert (LI : Z.of_nat (length ids) = ((stop + 1 - start + step - 1) / step)%Z) by (apply prange_step_len; lia).
  split.
  - intros k. rewrite LI. split; intros [K0 K1]; (split; [exact K0|]).
    + assert (k + 1 <= (stop + 1 - start + step - 1) / step)%Z by lia. pose proof (Z.mul_div_le (stop + 1 - start + step - 1) step ltac:(lia)). nia.
    + assert (k + 1 <= (stop + 1 - start + step - 1) / step)%Z; [|lia]. apply Z.div_le_lower_bound; nia.
  - intros k xs ys N K0. rewrite nth_error_map in N. destruct (nth_error ids (Z.to_nat k)) as [i|] eqn:Ei; [|discriminate].
    cbn [option_map] in N. injection N as N.
    assert (K : (start + k * step < stop + 1)%Z).
    { assert (Hk : (Z.to_nat k < length ids)%nat) by (apply nth_error_Some; congruence).
      assert (k + 1 <= (stop + 1 - start + step - 1) / step)%Z by lia. pose proof (Z.mul_div_le (stop + 1 - start + step - 1) step ltac:(lia)). nia. }
    unfold ids in Ei. rewrite (prange_step_nth start (stop + 1) step k H1 K0 K) in Ei. injection Ei as <-. fold (f (start + k * step)%Z). rewrite FG; [rewrite N; reflexivity|].
    apply prange_step_In; [lia|]. exists k. repeat split; lia.
Qed.
Print Assumptions vertical_slice_multiple_lines_are_parallel.

(** hypotheses met: the slice with index 3 of a 6-pixel wide image at 0 and 90 degrees goes through the axis *)
Example ex_line_0 : exists xs ys, get_points_single_line 3 0 6 = Ok (xs, ys) /\ vat xs 5 = 2 /\ vat ys 5 = 0.
Proof.
  destruct (points_closed 3 0 6) as (xs & ys & E & _ & _ & P); [lra|change (IZR (6 - 1)) with 5; lra|].
  exists xs, ys. split; [exact E|]. destruct (P 5%Z) as [-> ->]. replace (0 * PI / 180) with 0 by field. rewrite cos_0, sin_0.
  change (line_center 6) with 3%Z. split; ring.
Qed.
Example ex_line_90 : exists xs ys, get_points_single_line 4 90 6 = Ok (xs, ys) /\ vat xs 5 = 1 /\ vat ys 5 = 2.
Proof.
  destruct (points_closed 4 90 6) as (xs & ys & E & _ & _ & P); [lra|change (IZR (6 - 1)) with 5; lra|].
  exists xs, ys. split; [exact E|]. destruct (P 5%Z) as [-> ->]. replace (90 * PI / 180) with (PI / 2) by field. rewrite cos_PI2, sin_PI2.
  change (line_center 6) with 3%Z. split; ring.
Qed.
