(** Theorems about direct Fourier inversion (C100-C102). *)
From Coq Require Import Reals Lra ZArith Lia Bool List. Import ListNotations.
From Verif Require Import Np P_Np M_phase_R P_phase_R M_simR S_simR P_simR P_simR2 P_simR4 P_utility P_metric M_dfi S_dfi P_dfi P_dfi2 P_dfi3 P_dfi4.
Open Scope Z_scope.

(** * C100 *)
(** every pixel of the spectrum inside the circle is read from the view, and at the radius, where the Fourier slice theorem puts it *)
Theorem dfi_frequencies : forall atan2 c h i j, polar_angle atan2 -> 0 <= c -> 2 <= h ->
  in_rng (2 * c + 1) i -> in_rng (2 * c + 1) j -> in_circle c i j ->
  let '(r, t) := generate_mapping_coordinate atan2 (2 * c + 1) h (2 * c + 1) (2 * c + 1) i j in
  (0 <= r <= IZR (2 * c))%R /\ (0 <= t <= IZR h - 1)%R /\ same_frequency c h r t i j.
Proof. intros atan2 c h i j Ha Hc Hh Hi Hj Hin. apply mapping_geometry; assumption. Qed.
Print Assumptions dfi_frequencies.
Example dfi_frequencies_example : polar_angle polar /\ in_rng 5 0 /\ in_rng 5 2 /\ in_circle 2 0 2 /\ ~ in_circle 2 0 0.
Proof. split; [exact polar_is_angle|]. unfold in_rng, in_circle. lia. Qed.

(** a sinogram whose interpolated spectra are those of a band-limited image is turned back into that image, pixel by pixel *)
Theorem dfi_inverts : forall atan2 interp shift_cols shift_rows mode c sino image,
  polar_angle atan2 -> reads_pixels interp -> no_shift shift_cols ->
  1 <= c -> 2 <= nrow sino -> ncol sino = 2 * c + 1 ->
  slices_of_image interp c sino image -> band_limited c image ->
  exists out, dfi_reconstruction atan2 interp shift_cols shift_rows None (One2 sino) (IZR c) None None 0 mode false = Ok (Slice2 out) /\
    nrow out = 2 * c + 1 /\ ncol out = 2 * c + 1 /\
    forall i j, in_rng (2 * c + 1) i -> in_rng (2 * c + 1) j -> px out i j = px image i j.
Proof.
  intros atan2 interp shc shr mode c sino image Hat HI H0 Hc Hr Hn HS HB.
  unfold dfi_reconstruction. rewrite Hn.
  destruct (Rlt_dec (IZR c) 0) as [L|_]; [apply lt_IZR in L; lia|].
  destruct (Rle_dec (IZR (2 * c + 1)) (IZR c)) as [L|_]; [apply le_IZR in L; lia|].
  unfold squeeze. replace (nrow sino =? 1) with false by lia. replace (ncol sino =? 1) with false by lia. cbn [orb bindr].
  unfold dfi_core, dfi_handle_sinogram. rewrite Hn, ncol_odd, Hn. rewrite dfi_pad_zero. cbn [bindr]. change (0 <? 0) with false. cbv iota. cbn [bindr dfi_log].
  replace ((IZR (2 * c + 1) - 1) / 2 - IZR c)%R with 0%R by (rewrite plus_IZR, mult_IZR; lra).
  assert (E : img_eq (pad_columns mode (shc sino 0%R) 0 0) sino) by (eapply img_eq_trans'; [apply pad_columns_none|apply H0]).
  set (s := pad_columns mode (shc sino 0%R) 0 0) in *. assert (Ws : ncol s = 2 * c + 1) by (destruct E as (_ & -> & _); exact Hn).
  eexists. split; [reflexivity|].
  assert (SS := single_slice_ext atan2 interp None _ _ HI E). rewrite Z.add_0_r.
  assert (S1 : nrow (dfi_single_slice atan2 interp None s) = 2 * c + 1 /\ ncol (dfi_single_slice atan2 interp None s) = 2 * c + 1) by (split; exact Ws).
  destruct S1 as (S1 & S2). cbn [nrow ncol islice px]. rewrite S1, S2, !slen_id by lia. split; [lia|]. split; [lia|].
  intros i j Hi Hj. unfold in_rng in *. rewrite !py_adj_id by lia. rewrite !Z.add_0_l.
  destruct SS as (_ & _ & SS). rewrite SS by (unfold in_rng; lia). apply (slice_inverts atan2 c (nrow sino)); try assumption; try lia; reflexivity.
Qed.
Print Assumptions dfi_inverts.
(** every constant image of odd size, from two views, with nearest-neighbour interpolation *)
Example dfi_inverts_example : forall c, 1 <= c -> polar_angle polar /\ reads_pixels nearest0 /\ no_shift roll_rows /\
  2 <= nrow (flat_views c) /\ ncol (flat_views c) = 2 * c + 1 /\ slices_of_image nearest0 c (flat_views c) (flat_image c) /\ band_limited c (flat_image c).
Proof.
  intros c Hc. split; [exact polar_is_angle|]. split; [exact nearest0_reads|]. split.
  { intros m. repeat split. intros i j Hi Hj. cbn [roll_rows px nrow ncol] in *. rewrite (Int_part_unique 0 0) by lra. rewrite Z.sub_0_r. unfold from_row, in_rng in *.
    replace (i <? 0) with false by lia. replace (nrow m - 1 <? i) with false by lia. reflexivity. }
  split; [cbn; lia|]. split; [reflexivity|]. split; [apply flat_slices0, Hc|apply flat_band, Hc].
Qed.

(** * C101 *)
Section api.
Variables (atan2 : R -> R -> R) (interp : img R -> R -> R -> R) (shift_cols shift_rows : img R -> R -> img R) (smooth : option (Z -> Z -> R)).
Let dfi sino center angles ratio rate mode apply_log := dfi_reconstruction atan2 interp shift_cols shift_rows smooth sino center angles ratio rate mode apply_log.

Theorem dfi_center_checked : forall sino center angles ratio rate mode apply_log,
  (center < 0 \/ IZR (match sino with One2 m => ncol m | Many v => wid v end) <= center)%R ->
  dfi sino center angles ratio rate mode apply_log = Err ValueError.
Proof.
  intros sino center angles ratio rate mode al H. unfold dfi, dfi_reconstruction. destruct (Rlt_dec center 0) as [_|L]; [reflexivity|].
  destruct (Rle_dec _ center) as [_|L']; [reflexivity|]. exfalso. destruct H; [apply L|apply L']; assumption.
Qed.

(** a chunk is reconstructed slice by slice: every returned slice is the reconstruction of its own sinogram, and is square *)
Theorem dfi_slices : forall (v : vol R) center angles ratio rate mode apply_log out,
  keeps_size shift_cols -> keeps_size shift_rows -> 2 <= dep v -> 1 <= hei v -> 2 <= wid v ->
  dfi (Many v) center angles ratio rate mode apply_log = Ok out ->
  exists o, out = Slices3 o /\ dep o = wid v /\ hei o = hei v /\ wid o = wid v /\
    forall k, in_rng (hei v) k -> exists m, dfi (One2 (mkimg (dep v) (wid v) (fun i j => vx v i k j))) center angles ratio rate mode apply_log = Ok (Slice2 m) /\
      nrow m = wid v /\ ncol m = wid v /\ forall i j, vx o i k j = px m i j.
Proof.
  intros v center angles ratio rate mode al out Kc Kr Hd Hh Hw. unfold dfi, dfi_reconstruction. cbn [ncol].
  destruct (Rlt_dec center 0) as [_|_]; [discriminate|]. destruct (Rle_dec (IZR (wid v)) center) as [_|_]; [discriminate|].
  set (core := dfi_core atan2 interp shift_cols shift_rows smooth angles center rate mode al (wid v)).
  set (masked := fun m : img R => match ratio with None => m | Some r => apply_mask m (circle_mask (wid v) (if Req_EM_T r 0 then (Rmin center (IZR (wid v) - center) / (0.5 * IZR (wid v)))%R else r)) end).
  assert (MS : forall m, nrow (masked m) = nrow m /\ ncol (masked m) = ncol m) by (intros m; unfold masked; destruct ratio; split; reflexivity).
  assert (CS : forall k r, core (slice_of v k) = Ok r -> nrow r = wid v /\ ncol r = wid v).
  { intros k r. unfold core. intros E. apply (core_shape atan2 interp shift_cols shift_rows smooth angles center rate mode al Kc Kr (slice_of v k)); [cbn [ncol slice_of]; lia|exact E]. }
  assert (One : forall k, squeeze (One2 (slice_of v k)) = Ok (inl (slice_of v k))).
  { intros k. unfold squeeze. cbn [nrow ncol slice_of]. replace (dep v =? 1) with false by lia. replace (wid v =? 1) with false by lia. reflexivity. }
  unfold squeeze at 1. replace (dep v =? 1) with false by lia. replace (wid v =? 1) with false by lia. cbn [orb].
  destruct (Z.eqb_spec (hei v) 1) as [H1|H1].
  - cbn [bindr]. destruct (core (slice_of v 0)) as [r|e] eqn:E; [|discriminate]. cbn [bindr]. intros Q.
    destruct (CS 0 r E) as (R1 & R2). destruct (MS r) as (M1 & M2).
    match type of Q with Ok ?X = Ok ?Y => assert (O : Y = X) by congruence end. rewrite O. eexists. split; [reflexivity|]. cbn [dep hei wid vx].
    split; [exact (eq_trans (proj1 (MS r)) R1)|]. split; [lia|]. split; [exact (eq_trans (proj2 (MS r)) R2)|]. intros k Hk. unfold in_rng in Hk. replace k with 0 by lia.
    change (mkimg (dep v) (wid v) (fun i j => vx v i 0 j)) with (slice_of v 0). rewrite One. cbn [bindr]. rewrite E. cbn [bindr].
    eexists. split; [reflexivity|]. split; [exact (eq_trans (proj1 (MS r)) R1)|]. split; [exact (eq_trans (proj2 (MS r)) R2)|]. reflexivity.
  - cbn [bindr]. destruct (mapr (fun k => core (slice_of v k)) (zrange 0 (hei v))) as [l|e] eqn:E; [|discriminate]. cbn [bindr].
    assert (F := proj1 (mapr_ok _ _ _) E). assert (L := Forall2_length F). rewrite zrange_length in L.
    destruct l as [|first rest] eqn:El; [cbn in L; lia|]. rewrite <- El in *.
    assert (N : forall k, in_rng (hei v) k -> core (slice_of v k) = Ok (nth (Z.to_nat k) l first)).
    { intros k Hk. unfold in_rng in Hk. assert (NE : nth_error (zrange 0 (hei v)) (Z.to_nat k) = Some k).
      { rewrite (nth_error_nth' _ 0) by (rewrite zrange_length; lia). rewrite zrange_nth by lia. f_equal. lia. }
      destruct (mapr_nth _ _ _ _ _ E NE) as (y & Ny & Fy). rewrite Fy. f_equal. symmetry. apply nth_error_nth. exact Ny. }
    intros Q. match type of Q with Ok ?X = Ok ?Y => assert (O : Y = X) by congruence end. rewrite O. eexists. split; [reflexivity|]. cbn [dep hei wid vx].
    assert (N0 := N 0 ltac:(unfold in_rng; lia)). replace (nth (Z.to_nat 0) l first) with first in N0 by (rewrite El; reflexivity). destruct (CS 0 first N0) as (R1 & R2).
    repeat split; try assumption. intros k Hk.
    change (mkimg (dep v) (wid v) (fun i j => vx v i k j)) with (slice_of v k). rewrite One. cbn [bindr]. rewrite (N k Hk). cbn [bindr].
    eexists. split; [reflexivity|]. destruct (CS k _ (N k Hk)) as (A1 & A2).
    split; [exact (eq_trans (proj1 (MS _)) A1)|]. split; [exact (eq_trans (proj2 (MS _)) A2)|]. reflexivity.
Qed.

(** outside the circle of the given ratio the slice is 0 *)
Theorem dfi_mask : forall (m : img R) center angles r rate mode apply_log out i j, r <> 0%R -> 0 < ncol m ->
  dfi (One2 m) center angles (Some r) rate mode apply_log = Ok (Slice2 out) ->
  ((r * IZR (ncol m / 2)) ^ 2 < IZR (i - ncol m / 2) ^ 2 + IZR (j - ncol m / 2) ^ 2)%R -> px out i j = 0%R.
Proof.
  intros m center angles r rate mode al out i j Hr Hm. unfold dfi, dfi_reconstruction.
  destruct (Rlt_dec center 0) as [_|_]; [discriminate|]. destruct (Rle_dec (IZR (ncol m)) center) as [_|_]; [discriminate|].
  unfold squeeze. destruct ((nrow m =? 1) || (ncol m =? 1)); [discriminate|]. cbn [bindr].
  destruct (dfi_core _ _ _ _ _ _ _ _ _ _ _ m) as [s|e]; [|discriminate]. cbn [bindr]. intros Q Hij.
  match type of Q with Ok (Slice2 ?X) = Ok (Slice2 ?Y) => assert (O : Y = X) by congruence end. rewrite O. cbn [px apply_mask circle_mask].
  destruct (Req_EM_T r 0) as [C|_]; [contradiction|].
  destruct (Rle_dec _ _) as [L|_]; [|ring]. exfalso. rewrite plus_IZR, !mult_IZR in L. simpl in Hij. lra.
Qed.
(** ratio = 0: the largest circle inside the field of view of the rotation axis *)
Theorem dfi_mask_auto : forall (m : img R) center angles rate mode apply_log, 0 < ncol m ->
  dfi (One2 m) center angles (Some 0%R) rate mode apply_log =
  dfi (One2 m) center angles (Some (let r := Rmin center (IZR (ncol m) - center) / (IZR (ncol m) / 2) in if Req_EM_T r 0 then 0 else r)%R) rate mode apply_log.
Proof.
  intros m center angles rate mode al Hm. unfold dfi, dfi_reconstruction.
  destruct (Rlt_dec center 0) as [_|_]; [reflexivity|]. destruct (Rle_dec (IZR (ncol m)) center) as [_|_]; [reflexivity|].
  replace (IZR (ncol m) / 2)%R with (0.5 * IZR (ncol m))%R by lra.
  cbv zeta. destruct (Req_EM_T 0 0) as [_|C]; [|contradiction C; reflexivity].
  set (x := (Rmin center (IZR (ncol m) - center) / (0.5 * IZR (ncol m)))%R).
  destruct (Req_EM_T x 0) as [E|E].
  - destruct (Req_EM_T 0 0) as [_|C]; [|contradiction C; reflexivity]. fold x. reflexivity.
  - destruct (Req_EM_T x 0) as [C|_]; [contradiction|]. fold x. reflexivity.
Qed.
End api.
Print Assumptions dfi_center_checked. Print Assumptions dfi_slices. Print Assumptions dfi_mask. Print Assumptions dfi_mask_auto.

(** the promise "one slice per sinogram" fails for a chunk with a single projection: it is taken for one sinogram *)
Theorem dfi_one_projection_refuted : forall atan2 interp shift_cols shift_rows smooth (v : vol R) center angles ratio rate mode apply_log out,
  dep v = 1 -> 2 <= hei v -> 2 <= wid v ->
  dfi_reconstruction atan2 interp shift_cols shift_rows smooth (Many v) center angles ratio rate mode apply_log = Ok out ->
  exists o, out = Slices3 o /\ hei o = 1 /\ hei o <> hei v.
Proof.
  intros atan2 interp shc shr smooth v center angles ratio rate mode al out Hd Hh Hw. unfold dfi_reconstruction.
  destruct (Rlt_dec center 0) as [_|_]; [discriminate|]. destruct (Rle_dec (IZR (wid v)) center) as [_|_]; [discriminate|].
  unfold squeeze. replace (hei v =? 1) with false by lia. rewrite Hd. change (1 =? 1) with true. cbv iota. replace (wid v =? 1) with false by lia. cbn [bindr].
  destruct (dfi_core _ _ _ _ _ _ _ _ _ _ _ _) as [r|e]; [|discriminate]. cbn [bindr]. intros Q.
  match type of Q with Ok (Slices3 ?X) = Ok ?Y => assert (O : Y = Slices3 X) by congruence end. rewrite O. eexists. split; [reflexivity|]. cbn [hei]. split; [reflexivity|lia].
Qed.
Print Assumptions dfi_one_projection_refuted.
Example dfi_one_projection_refuted_example : forall atan2 interp shift_cols shift_rows, exists out,
  dfi_reconstruction atan2 interp shift_cols shift_rows None (Many (mkvol 1 4 3 (fun _ k j => IZR (k + j)))) 1 None None 0 Edge false = Ok out.
Proof.
  intros. unfold dfi_reconstruction. cbn [wid]. destruct (Rlt_dec 1 0) as [L|_]; [exfalso; lra|]. destruct (Rle_dec 3 1) as [L|_]; [exfalso; lra|].
  unfold squeeze. cbn [hei dep wid]. change (4 =? 1) with false. change (1 =? 1) with true. change (3 =? 1) with false. cbv iota. cbn [bindr].
  unfold dfi_core, dfi_handle_sinogram. cbn [ncol]. change (3 mod 2 =? 0) with false. cbv iota. rewrite dfi_pad_zero. cbn [bindr]. change (0 <? 0) with false. cbv iota. cbn [bindr]. eexists. reflexivity.
Qed.
Example dfi_slices_example : keeps_size roll_rows /\ exists out,
  dfi_reconstruction polar nearest0 roll_rows roll_rows None (Many (mkvol 2 2 3 (fun i k j => IZR (i + k + j)))) 1 None (Some 1%R) 0 Edge false = Ok out.
Proof.
  split; [apply roll_rows_shifts|]. unfold dfi_reconstruction. cbn [wid]. destruct (Rlt_dec 1 0) as [L|_]; [exfalso; lra|]. destruct (Rle_dec 3 1) as [L|_]; [exfalso; lra|].
  unfold squeeze. cbn [hei dep wid]. change (2 =? 1) with false. change (3 =? 1) with false. cbv iota. cbn [bindr]. change (zrange 0 2) with [0; 1].
  cbn [mapr]. unfold dfi_core, dfi_handle_sinogram. cbn [ncol slice_of wid]. change (3 mod 2 =? 0) with false. cbv iota. rewrite dfi_pad_zero. cbn [bindr]. change (0 <? 0) with false. cbv iota. cbn [bindr]. eexists. reflexivity.
Qed.

(** * C102 *)
Theorem dfi_angles_number : forall shift sino angles, vlen angles <> nrow sino -> dfi_handle_angles shift sino angles = Err ValueError.
Proof. intros shift sino angles H. unfold dfi_handle_angles. apply Z.eqb_neq in H. rewrite H. reflexivity. Qed.
(** a scan over 180 degrees with increasing angles, started at any multiple of the step *)
Theorem dfi_angles_half_turn : forall shift w view n k sino angles, shifts_rows shift -> parallel_views w view -> 0 <= w -> 2 <= n ->
  nrow sino = n -> ncol sino = w -> vlen angles = n -> views_at view (vat angles) sino ->
  (forall i, in_rng n i -> vat angles i = IZR (k + i) * (PI / IZR (n - 1)))%R ->
  exists out, dfi_handle_angles shift sino angles = Ok out /\ nrow out = n /\ ncol out = w /\ views_at view (fun i => IZR i * (PI / IZR (n - 1)))%R out.
Proof.
  intros shift w view n k sino angles Hs Hv Hw Hn Hr Hc Hl HV Ha.
  apply (half_scan shift w view k 1 sino angles); try assumption; try lia.
  intros i Hi. rewrite Ha by exact Hi. do 2 f_equal. lia.
Qed.
(** a scan over 360 degrees: both halves are used and the result is again the half turn *)
Theorem dfi_angles_full_turn : forall shift w view m k sino angles, shifts_rows shift -> parallel_views w view -> 0 <= w -> 1 <= m ->
  nrow sino = 2 * m + 1 -> ncol sino = w -> vlen angles = 2 * m + 1 -> views_at view (vat angles) sino ->
  (forall i, in_rng (2 * m + 1) i -> vat angles i = IZR (k + i) * (PI / IZR m))%R ->
  exists out, dfi_handle_angles shift sino angles = Ok out /\ nrow out = m + 1 /\ ncol out = w /\ views_at view (fun i => IZR i * (PI / IZR m))%R out.
Proof.
  intros shift w view m k sino angles Hs Hv Hw Hn Hr Hc Hl HV Ha.
  apply (full_scan shift w view k 1 sino angles); try assumption; try lia.
  intros i Hi. rewrite Ha by exact Hi. do 2 f_equal. lia.
Qed.
(** decreasing angles: row i is the view at twice the start angle plus i steps *)
Theorem dfi_angles_descending : forall shift w view n k sino angles, shifts_rows shift -> parallel_views w view -> 0 <= w -> 2 <= n ->
  nrow sino = n -> ncol sino = w -> vlen angles = n -> views_at view (vat angles) sino ->
  (forall i, in_rng n i -> vat angles i = IZR (k - i) * (PI / IZR (n - 1)))%R ->
  exists out, dfi_handle_angles shift sino angles = Ok out /\ nrow out = n /\ ncol out = w /\ views_at view (fun i => IZR (2 * k + i) * (PI / IZR (n - 1)))%R out.
Proof.
  intros shift w view n k sino angles Hs Hv Hw Hn Hr Hc Hl HV Ha.
  apply (half_scan shift w view k (-1) sino angles); try assumption; try lia.
Qed.
(** so it is right when the scan starts at a multiple of 180 degrees (in particular 180 to 0 and 0 to -180) *)
Theorem dfi_angles_descending_partial : forall shift w view n z sino angles, shifts_rows shift -> parallel_views w view -> 0 <= w -> 2 <= n ->
  nrow sino = n -> ncol sino = w -> vlen angles = n -> views_at view (vat angles) sino ->
  (forall i, in_rng n i -> vat angles i = IZR z * PI - IZR i * (PI / IZR (n - 1)))%R ->
  exists out, dfi_handle_angles shift sino angles = Ok out /\ nrow out = n /\ ncol out = w /\ views_at view (fun i => IZR i * (PI / IZR (n - 1)))%R out.
Proof.
  intros shift w view n z sino angles Hs Hv Hw Hn Hr Hc Hl HV Ha. assert (N : (IZR (n - 1) <> 0)%R) by (apply not_0_IZR; lia).
  destruct (dfi_angles_descending shift w view n ((n - 1) * z) sino angles Hs Hv Hw Hn Hr Hc Hl HV) as (out & E & R & C & V).
  - intros i Hi. rewrite Ha by exact Hi. rewrite (minus_IZR ((n - 1) * z)), mult_IZR. field. exact N.
  - exists out. repeat split; try assumption. intros i x Hi Hx. rewrite V by assumption. rewrite <- (view_turn w view Hv (IZR i * (PI / IZR (n - 1))) x z) by congruence.
    f_equal. rewrite plus_IZR, !mult_IZR. field. exact N.
Qed.
(** from 90 to -90 degrees the promise fails: the views are taken for views turned by 180 degrees *)
Theorem dfi_angles_descending_refuted : forall shift, shifts_rows shift ->
  exists view sino angles out, parallel_views 3 view /\ nrow sino = 3 /\ ncol sino = 3 /\ vlen angles = 3 /\
    (forall i, in_rng 3 i -> vat angles i = PI / 2 - IZR i * (PI / 2))%R /\ views_at view (vat angles) sino /\
    dfi_handle_angles shift sino angles = Ok out /\ ~ views_at view (fun i => IZR i * (PI / 2))%R out.
Proof.
  intros shift Hs. exists (fun a x => IZR (1 - x) * cos a)%R. exists (mkimg 3 3 (fun i x => IZR (1 - x) * cos (PI / 2 - IZR i * (PI / 2)))%R).
  exists (mkvec 3 (fun i => PI / 2 - IZR i * (PI / 2))%R).
  assert (PV : parallel_views 3 (fun a x => IZR (1 - x) * cos a)%R).
  { intros a x Hx. rewrite neg_cos. replace (1 - (3 - 1 - x)) with (- (1 - x)) by lia. rewrite opp_IZR. ring. }
  destruct (dfi_angles_descending shift 3 (fun a x => IZR (1 - x) * cos a)%R 3 1 (mkimg 3 3 (fun i x => IZR (1 - x) * cos (PI / 2 - IZR i * (PI / 2)))%R) (mkvec 3 (fun i => PI / 2 - IZR i * (PI / 2))%R))
    as (out & E & R & C & V); try assumption; try lia; try reflexivity.
  { intros i x Hi Hx. reflexivity. }
  { intros i Hi. cbn [vat]. change (IZR (3 - 1)) with 2%R. rewrite minus_IZR. field. }
  exists out. repeat split; try assumption; try reflexivity. intros V'. 
    assert (A := V 0 0 ltac:(rewrite R; unfold in_rng; lia) ltac:(rewrite C; unfold in_rng; lia)).
    assert (B := V' 0 0 ltac:(rewrite R; unfold in_rng; lia) ltac:(rewrite C; unfold in_rng; lia)). cbv beta in A, B. rewrite A in B.
    change (2 * 1 + 0) with 2 in B. change (3 - 1) with 2 in B. change (1 - 0) with 1 in B. replace (2 * (PI / 2))%R with PI in B by field. rewrite Rmult_0_l, cos_PI, cos_0 in B. lra.
Qed.
Print Assumptions dfi_angles_number. Print Assumptions dfi_angles_half_turn. Print Assumptions dfi_angles_full_turn. Print Assumptions dfi_angles_descending.
Print Assumptions dfi_angles_descending_partial. Print Assumptions dfi_angles_descending_refuted.
Example dfi_angles_example : shifts_rows roll_rows /\ parallel_views 3 (fun a x => IZR (1 - x) * cos a)%R /\
  views_at (fun a x => IZR (1 - x) * cos a)%R (fun i => IZR (1 + i) * (PI / 2))%R (mkimg 3 3 (fun i x => IZR (1 - x) * cos (IZR (1 + i) * (PI / 2)))%R).
Proof.
  split; [apply roll_rows_shifts|]. split.
  - intros a x Hx. rewrite neg_cos. replace (1 - (3 - 1 - x)) with (- (1 - x)) by lia. rewrite opp_IZR. ring.
  - intros i x Hi Hx. reflexivity.
Qed.

(** seen from outside: the slice does not depend on where the scan started; it is the slice of the sinogram with views at 0 .. 180 degrees,
    and two half turns give the slice of one *)
Theorem dfi_any_start : forall atan2 interp shift_cols shift_rows smooth center ratio rate mode apply_log view (full : bool) h k sino sino0 angles out0,
  reads_pixels interp -> keeps_size shift_cols -> moves_pixels shift_cols -> shifts_rows shift_rows ->
  let n := if full then 2 * h + 1 else h + 1 in
  1 <= h -> 2 <= ncol sino -> nrow sino = n -> vlen angles = n -> nrow sino0 = h + 1 -> ncol sino0 = ncol sino ->
  parallel_views (odd_width (ncol sino)) view ->
  (forall i, in_rng n i -> vat angles i = IZR (k + i) * (PI / IZR h))%R ->
  views_at view (vat angles) (centred_rows shift_cols center sino) ->
  views_at view (fun i => IZR i * (PI / IZR h))%R (centred_rows shift_cols center sino0) ->
  dfi_reconstruction atan2 interp shift_cols shift_rows smooth (One2 sino0) center None ratio rate mode apply_log = Ok (Slice2 out0) ->
  exists out, dfi_reconstruction atan2 interp shift_cols shift_rows smooth (One2 sino) center (Some angles) ratio rate mode apply_log = Ok (Slice2 out) /\ img_eq out out0.
Proof.
  intros atan2 interp shc shr smooth center ratio rate mode al view full h k sino sino0 angles out0 HI Kc Mc Hs n Hh Hw Hr Hl Hr0 Hc0 Hv Ha HV HV0.
  unfold dfi_reconstruction. rewrite Hc0. destruct (Rlt_dec center 0) as [_|_]; [discriminate|]. destruct (Rle_dec (IZR (ncol sino)) center) as [_|_]; [discriminate|].
  unfold squeeze. rewrite Hc0, Hr0. replace (ncol sino =? 1) with false by lia. replace (h + 1 =? 1) with false by lia.
  replace (nrow sino =? 1) with false by (rewrite Hr; unfold n; destruct full; lia). cbn [orb bindr].
  destruct (dfi_core _ _ _ _ _ None _ _ _ _ _ sino0) as [r0|e] eqn:E0; [|discriminate]. cbn [bindr]. intros Q.
  assert (OW := proj2 (odd_width_case (ncol sino))).
  destruct (centred_is shc center Kc Mc sino ltac:(lia)) as (_ & N1 & C1). destruct (centred_is shc center Kc Mc sino0 ltac:(lia)) as (_ & N0 & C0).
  destruct (core_same atan2 interp shc shr smooth center rate mode al HI Kc Mc sino sino0 angles r0 ltac:(lia) Hc0) as (r & E & ER).
  - intros s (S1 & S2 & S3).
    assert (VS : views_at view (vat angles) s). { intros i x Hi Hx. unfold in_rng in *. rewrite S3 by (unfold in_rng; lia). apply HV; unfold in_rng; lia. }
    assert (exists out, dfi_handle_angles shr s angles = Ok out /\ nrow out = h + 1 /\ ncol out = odd_width (ncol sino) /\ views_at view (fun i => IZR i * (PI / IZR h))%R out) as (o & Eo & R & C & V).
    { unfold n in *. destruct full.
      - apply (dfi_angles_full_turn shr (odd_width (ncol sino)) view h k); try assumption; try lia.
      - destruct (dfi_angles_half_turn shr (odd_width (ncol sino)) view (h + 1) k s angles) as (o & H1 & H2 & H3 & H4); try assumption; try lia.
        + replace (h + 1 - 1) with h by lia. exact Ha.
        + replace (h + 1 - 1) with h in H4 by lia. exists o. auto. }
    exists o. split; [exact Eo|]. repeat split; [congruence|congruence|]. intros i x Hi Hx. rewrite V by assumption. symmetry. apply HV0; congruence.
  - exact E0.
  - rewrite E. cbn [bindr]. eexists. split; [reflexivity|].
    match type of Q with Ok (Slice2 ?X) = Ok (Slice2 ?Y) => assert (O : Y = X) by congruence end. rewrite O.
    destruct ratio; [apply apply_mask_ext|]; exact ER.
Qed.
Print Assumptions dfi_any_start.
Example dfi_any_start_example : let id := fun (m : img R) (_ : R) => m in let view := (fun a x => IZR (1 - x) * cos a)%R in
  let rows k := mkimg 3 3 (fun i x => IZR (1 - x) * cos (IZR (k + i) * (PI / 2)))%R in
  keeps_size id /\ moves_pixels id /\ parallel_views (odd_width 3) view /\
  views_at view (fun i => IZR (5 + i) * (PI / 2))%R (centred_rows id 1 (rows 5)) /\ views_at view (fun i => IZR i * (PI / 2))%R (centred_rows id 1 (rows 0)) /\
  exists out0, dfi_reconstruction polar nearest0 id roll_rows None (One2 (rows 0)) 1 None (Some 1%R) 0 Edge false = Ok (Slice2 out0).
Proof.
  cbv zeta. split; [split; reflexivity|]. split; [intros m m' s E; exact E|]. split; [apply dfi_angles_example|]. repeat split.
  - intros i x Hi Hx. unfold in_rng in *. cbn in Hi, Hx |- *. replace (x <? 3) with true by lia. reflexivity.
  - intros i x Hi Hx. unfold in_rng in *. cbn in Hi, Hx |- *. replace (x <? 3) with true by lia. reflexivity.
  - unfold dfi_reconstruction. cbn [ncol]. destruct (Rlt_dec 1 0) as [L|_]; [exfalso; lra|]. destruct (Rle_dec 3 1) as [L|_]; [exfalso; lra|].
    unfold squeeze. cbn [nrow ncol]. change (3 =? 1) with false. cbn [orb bindr].
    unfold dfi_core, dfi_handle_sinogram. cbn [ncol]. change (3 mod 2 =? 0) with false. cbv iota. rewrite dfi_pad_zero. cbn [bindr]. change (0 <? 0) with false. cbv iota. cbn [bindr]. eexists. reflexivity.
Qed.
(** padding and logarithm: the slice is the middle of the slice reconstructed from the sinogram prepared by hand; int(pad_rate * width)
    columns are added on either side, where the width is the odd one *)
Theorem dfi_padding_and_log : forall atan2 interp shift_cols shift_rows smooth sino p rate (zeros apply_log : bool),
  reads_pixels interp -> no_shift shift_cols -> 2 <= nrow sino -> 2 <= ncol sino -> 0 <= p ->
  (IZR p <= rate * IZR (odd_width (ncol sino)) < IZR p + 1)%R ->
  let mode := if zeros then Zeros else Edge in
  let middle w := ((IZR w - 1) / 2)%R in
  exists out big,
    dfi_reconstruction atan2 interp shift_cols shift_rows smooth (One2 sino) (middle (odd_width (ncol sino))) None None rate mode apply_log = Ok (Slice2 out) /\
    dfi_reconstruction atan2 interp shift_cols shift_rows smooth (One2 (prepared zeros p apply_log sino)) (middle (odd_width (ncol sino) + 2 * p)) None None 0 mode false = Ok (Slice2 big) /\
    nrow out = ncol sino /\ ncol out = ncol sino /\
    forall i j, in_rng (ncol sino) i -> in_rng (ncol sino) j -> px out i j = px big (i + p) (j + p).
Proof.
  intros atan2 interp shc shr smooth sino p rate zeros al HI H0 Hr Hc Hp B mode middle.
  set (w := odd_width (ncol sino)) in *. assert (OW := proj2 (odd_width_case (ncol sino))). fold w in OW.
  assert (Wle : ncol sino <= w <= ncol sino + 1) by (unfold w, odd_width in *; destruct (ncol sino mod 2 =? 0); lia).
  assert (Wodd : w mod 2 = 1) by (unfold w, odd_width; destruct (Z.eqb_spec (ncol sino mod 2) 0); [rewrite Z.add_mod by lia; replace (ncol sino mod 2) with 0 by lia; reflexivity|assert (Q := Z.mod_pos_bound (ncol sino) 2); lia]).
  set (q := prepared zeros p al sino). assert (Wq : ncol q = w + 2 * p) by reflexivity. assert (Rq : nrow q = nrow sino) by reflexivity.
  assert (Pp : dfi_pad (ncol sino) rate = p).
  { unfold dfi_pad. rewrite <- (proj1 (odd_width_case (ncol sino))). fold w. unfold rtrunc. assert (0 <= IZR p)%R by (apply IZR_le; exact Hp).
    destruct (Rle_dec 0 (rate * IZR w)) as [_|L]; [|exfalso; lra]. apply Int_part_unique. lra. }
  assert (Pq : dfi_pad (ncol q) 0 = 0) by apply dfi_pad_zero.
  unfold dfi_reconstruction. rewrite Wq.
  assert (C1 : (0 <= middle w < IZR (ncol sino))%R).
  { unfold middle. assert (A := IZR_le 1 w ltac:(lia)). assert (A2 := IZR_le w (ncol sino + 1) ltac:(lia)). rewrite plus_IZR in A2. assert (A3 := IZR_le 2 (ncol sino) Hc). lra. }
  assert (C2 : (0 <= middle (w + 2 * p)%Z < IZR (w + 2 * p)%Z)%R).
  { unfold middle. assert (A := IZR_le 1 (w + 2 * p) ltac:(lia)). lra. }
  destruct (Rlt_dec (middle w) 0) as [L|_]; [exfalso; lra|]. destruct (Rle_dec (IZR (ncol sino)) (middle w)) as [L|_]; [exfalso; lra|].
  destruct (Rlt_dec (middle (w + 2 * p)) 0) as [L|_]; [exfalso; lra|]. destruct (Rle_dec (IZR (w + 2 * p)) (middle (w + 2 * p)%Z)) as [L|_]; [exfalso; lra|].
  unfold squeeze. rewrite Rq, Wq. replace (nrow sino =? 1) with false by lia. replace (ncol sino =? 1) with false by lia. replace (w + 2 * p =? 1) with false by lia.
  cbn [orb bindr]. unfold dfi_core, dfi_handle_sinogram. rewrite Pp, Pq, Wq.
  replace ((w + 2 * p) mod 2 =? 0) with false by (replace (2 * p) with (p * 2) by ring; rewrite Z.mod_add by lia; lia).
  destruct (centring sino ltac:(lia)) as (W1 & _ & E1). cbv zeta in W1, E1. fold w in W1, E1.
  set (s1 := if ncol sino mod 2 =? 0 then pad_columns Edge sino 0 1 else sino) in *.
  replace ((IZR (ncol s1) - 1) / 2 - middle w)%R with 0%R by (unfold middle; rewrite W1; ring).
  rewrite Wq. replace ((IZR (w + 2 * p)%Z - 1) / 2 - middle (w + 2 * p)%Z)%R with 0%R by (unfold middle; ring).
  cbn [bindr]. replace (p <? 0) with false by lia. change (0 <? 0) with false. cbv iota. cbn [bindr].
  set (x := dfi_log al (pad_columns mode (shc s1 0%R) p p)). set (y := dfi_log false (pad_columns mode (shc q 0%R) 0 0)).
  assert (Es := img_eq_trans' _ _ _ (H0 s1) E1). assert (Eq := H0 q).
  assert (Ey : img_eq y q).
  { unfold y. cbn [dfi_log]. destruct Eq as (R1 & C1' & V1). repeat split; cbn [pad_columns nrow ncol px]; [exact R1|lia|].
    intros i j Hi Hj. unfold in_rng in *. cbn [pad_columns nrow ncol] in Hi, Hj. rewrite Z.sub_0_r. rewrite C1'.
    assert (V : px (shc q 0%R) i j = px q i j) by (apply V1; unfold in_rng; lia). destruct mode.
    - unfold clipZ. replace (Z.min (Z.max j 0) (ncol q - 1)) with j by lia. exact V.
    - replace (0 <=? j) with true by lia. replace (j <? ncol q) with true by lia. exact V. }
  assert (Ex : img_eq x q).
  { unfold x. assert (D : img_eq (pad_columns mode (shc s1 0%R) p p) (prepared zeros p false sino)).
    { destruct Es as (R1 & C1' & V1). cbn [nrow ncol] in R1, C1'. repeat split; cbn [pad_columns nrow ncol]; [exact R1|unfold prepared; cbn [ncol]; fold w; lia|].
      intros i j Hi Hj. unfold in_rng in *. cbn [pad_columns nrow ncol] in Hi, Hj. unfold prepared. cbn [pad_columns px]. fold w. rewrite C1'. unfold mode. destruct zeros.
      - destruct (Z.ltb_spec j p); [replace (0 <=? j - p) with false by lia; reflexivity|]. replace (0 <=? j - p) with true by lia. cbn [andb].
        destruct (Z.ltb_spec j (p + ncol sino)); [replace (j - p <? w) with true by lia; rewrite V1 by (unfold in_rng; lia); cbn [px]; replace (j - p <? ncol sino) with true by lia; reflexivity|].
        destruct (Z.ltb_spec j (p + w)); [replace (j - p <? w) with true by lia; rewrite V1 by (unfold in_rng; lia); cbn [px]; replace (j - p <? ncol sino) with false by lia; reflexivity|].
        replace (j - p <? w) with false by lia. reflexivity.
      - unfold clipZ. rewrite V1 by (unfold in_rng; lia). cbn [px].
        destruct (Z.ltb_spec j p); [replace (Z.min (Z.max (j - p) 0) (w - 1)) with 0 by lia; replace (0 <? ncol sino) with true by lia; reflexivity|].
        destruct (Z.ltb_spec j (p + ncol sino)); [replace (Z.min (Z.max (j - p) 0) (w - 1)) with (j - p) by lia; replace (j - p <? ncol sino) with true by lia; reflexivity|].
        destruct (Z.ltb_spec j (p + w)); replace (Z.min (Z.max (j - p) 0) (w - 1) <? ncol sino) with (w <=? ncol sino) by lia; destruct (Z.leb_spec w (ncol sino)); try reflexivity; try (f_equal; lia). }
    destruct D as (R1 & C1' & V1). destruct al; cbn [dfi_log]; [|repeat split; [exact R1|exact C1'|exact V1] ].
    repeat split; cbn [imap nrow ncol px]; [exact R1|exact C1'|]. intros i j Hi Hj. rewrite (V1 i j Hi Hj). unfold q, prepared. cbn [px].
    destruct (Rle_dec _ 0); [rewrite ln_1; ring|reflexivity]. }
  assert (Exy := img_eq_trans' _ _ _ Ex (img_eq_sym' _ _ Ey)).
  assert (Wx : ncol x = w + 2 * p) by (destruct Ex as (_ & -> & _); exact Wq). assert (Wy : ncol y = w + 2 * p) by (destruct Ey as (_ & -> & _); exact Wq).
  rewrite Wx, Wy. set (win := match smooth with Some f => Some (f (w + 2 * p)) | None => None end).
  assert (K := single_slice_ext atan2 interp win x y HI Exy). destruct K as (_ & _ & K).
  assert (N1 : nrow (dfi_single_slice atan2 interp win x) = w + 2 * p) by exact Wx. assert (N2 : ncol (dfi_single_slice atan2 interp win x) = w + 2 * p) by exact Wx.
  assert (N3 : nrow (dfi_single_slice atan2 interp win y) = w + 2 * p) by exact Wy. assert (N4 : ncol (dfi_single_slice atan2 interp win y) = w + 2 * p) by exact Wy.
  set (X := dfi_single_slice atan2 interp win x) in *. set (Y := dfi_single_slice atan2 interp win y) in *. clearbody X Y.
  do 2 eexists. split; [reflexivity|]. split; [reflexivity|]. cbn [islice nrow ncol px]. rewrite N1, N2. rewrite !slen_id by lia. split; [lia|]. split; [lia|].
  unfold in_rng. intros i j Hi Hj. rewrite N3, N4. rewrite !py_adj_id by lia. rewrite (Z.add_0_l (i + p)), (Z.add_0_l (j + p)), (Z.add_comm p i), (Z.add_comm p j).
  apply K; unfold in_rng; lia.
Qed.
Print Assumptions dfi_padding_and_log.
(** such a number of columns and such shifts exist; an even width counts its repeated column: 0.3 * 11 = 3.3, 0.3 * 10 = 3.0 *)
Example dfi_padding_case : reads_pixels (fun m _ _ => px (mkimg (nrow m) (ncol m) (fun _ _ => IZR (nrow m))) 0 0) /\ no_shift (fun m _ => m) /\
  (IZR 4 <= 4 / 11 * IZR (odd_width 10) < IZR 4 + 1)%R /\ (4 / 11 * IZR 10 < 4)%R.
Proof.
  repeat split; try reflexivity.
  - intros m m' _ _ (E & _). cbn [px]. rewrite E. reflexivity.
  - change (odd_width 10) with 11%Z. lra.
  - change (odd_width 10) with 11%Z. lra.
  - lra.
Qed.
