(** Property theorems for the slice index and the angular range of helical scans (C140). *)
From Coq Require Import ZArith QArith Qround Lia Lqa Bool List. Import ListNotations.
From Verif Require Import Np P_Np M_conversion T_conversion.
Open Scope Z_scope.

(** calculate_maximum_index: the slices are y_s, y_s + pixel, ... (the first has the index 1), and the largest index is that of
    the last slice that is not above y_e *)
Theorem maximum_index_is_that_of_the_last_reconstructable_slice : forall (y_start y_stop pitch pixel : Q) (t180 : bool) (index : Z),
  let margin := (if t180 then pitch / 2 else pitch)%Q in
  let y_s := (y_start + margin)%Q in let y_e := (y_stop - margin)%Q in
  (0 < pixel)%Q -> (y_s <= y_e)%Q ->
  (index <= calculate_maximum_index y_start y_stop pitch pixel t180 <-> (y_s + inject_Z (index - 1) * pixel <= y_e)%Q).
Proof.
  intros y_start y_stop pitch pixel t180 index margin y_s y_e Hp Hy.
  assert (E : calculate_maximum_index y_start y_stop pitch pixel t180 = Qfloor ((y_e - y_s) / pixel) + 1).
  { unfold calculate_maximum_index, calculate_reconstructable_height. subst y_s y_e margin. 
    destruct t180; (unfold Qtrunc; match goal with |- context [Qle_bool 0 ?x] => assert (N : (0 <= x)%Q) by (apply Qle_shift_div_l; [exact Hp|]; lra) end;
      apply Qle_bool_iff in N; rewrite N; reflexivity). }
  rewrite E. split; intros H.
  - assert (F := Qfloor_le ((y_e - y_s) / pixel)). assert (L : (inject_Z (index - 1) <= inject_Z (Qfloor ((y_e - y_s) / pixel)))%Q) by (rewrite <- Zle_Qle; lia).
    assert (G : (inject_Z (index - 1) * pixel <= (y_e - y_s) / pixel * pixel)%Q) by (apply Qmult_le_compat_r; lra).
    assert (X : ((y_e - y_s) / pixel * pixel == y_e - y_s)%Q) by (field; lra). lra.
  - assert (L : (inject_Z (index - 1) <= (y_e - y_s) / pixel)%Q) by (apply Qle_shift_div_l; [exact Hp|]; lra).
    apply Qfloor_resp_le in L. rewrite Qfloor_Z in L. lia.
Qed.
Print Assumptions maximum_index_is_that_of_the_last_reconstructable_slice.

(** with the default angles (lines 519-521) a sinogram covers exactly a half turn (a full turn) *)
Theorem helical_sinogram_covers_a_half_or_full_turn : forall index d num_proj pixel y_start y_stop pitch (t180 : bool) flat dark blob ct cb cl cr rows angs,
  2 <= num_proj ->
  helical false index d num_proj pixel y_start y_stop pitch t180 (mkvec (dep d) (fun k => (inject_Z k * (180 / inject_Z (num_proj - 1)))%Q)) flat dark blob (ct, cb, cl, cr) = Ok (rows, angs) ->
  vlen angs = (if t180 then num_proj else 2 * num_proj - 1) /\
  (vat angs (vlen angs - 1) - vat angs 0 == (if t180 then 180 else 360))%Q /\
  (forall k, 0 <= k < vlen angs - 1 -> (vat angs (k + 1) - vat angs k == 180 / inject_Z (num_proj - 1))%Q) /\
  (t180 = false -> forall k, 0 <= k < num_proj -> (vat angs (k + (num_proj - 1)) - vat angs k == 180)%Q).
Proof.
  intros index d num_proj pixel y_start y_stop pitch t180 flat dark blob ct cb cl cr rows angs Hn H.
  destruct (helical_rows_are_convex_combinations _ _ _ _ _ _ _ _ _ _ _ _ _ _ _ _ _ _ _ H) as (i0 & I0 & I1 & A & N & _).
  destruct (A eq_refl) as (L & V). specialize (N eq_refl). rewrite <- L in N.
  assert (NE : rows <> []). { intros C. rewrite C in L. cbn in L. destruct t180; lia. } specialize (I1 NE). rewrite <- L in I1.
  assert (V' : forall t, 0 <= t < vlen angs -> vat angs t = (inject_Z (i0 + t) * (180 / inject_Z (num_proj - 1)))%Q) by (intros t Ht; rewrite V by (cbn [vlen]; destruct t180; lia); reflexivity).
  assert (D : (0 < inject_Z (num_proj - 1))%Q) by (change 0%Q with (inject_Z 0); rewrite <- Zlt_Qlt; lia).
  assert (W : forall s t, 0 <= s < vlen angs -> 0 <= t < vlen angs -> (vat angs t - vat angs s == inject_Z (t - s) * (180 / inject_Z (num_proj - 1)))%Q).
  { intros s t Hs Ht. rewrite !V' by assumption. unfold Z.sub at 3. rewrite !inject_Z_plus, inject_Z_opp. ring. }
  split; [exact N|]. split; [|split].
  - rewrite W by (destruct t180; lia). rewrite N, Z.sub_0_r. destruct t180.
    + field. lra.
    + replace (2 * num_proj - 1 - 1) with (2 * (num_proj - 1)) by lia. rewrite inject_Z_mult. change (inject_Z 2) with 2%Q. field. lra.
  - intros k Hk. rewrite W by lia. replace (k + 1 - k) with 1 by lia. change (inject_Z 1) with 1%Q. ring.
  - intros -> k Hk. rewrite W by lia. replace (k + (num_proj - 1) - k) with (num_proj - 1) by lia. field. lra.
Qed.
Print Assumptions helical_sinogram_covers_a_half_or_full_turn.

(** the index 0 is accepted although its slice is one pixel below the reconstructable heights that the error message promises *)
Theorem helical_index_zero_refuted : exists d num_proj pixel y_start y_stop pitch angles flat dark rows angs,
  helical false 0 d num_proj pixel y_start y_stop pitch true angles flat dark (fun _ v => Ok v) (0, 0, 0, 0) = Ok (rows, angs) /\ length rows = 3%nat /\
  (0 < pixel)%Q /\ (y_start + pitch / 2 <= y_stop - pitch / 2)%Q /\ (y_start + pitch / 2 + inject_Z (0 - 1) * pixel < y_start + pitch / 2)%Q.
Proof.
  exists (mkvol 7 4 2 (fun a b c => inject_Z (100 * a + 10 * b + c))), 3, 1%Q, 0%Q, 6%Q, 4%Q, (mkvec 7 inject_Z), (mkimg 4 2 (fun _ _ => 1%Q)), (mkimg 4 2 (fun _ _ => 0%Q)).
  match goal with |- exists rows angs, ?h = _ /\ _ => assert (E : match h with Ok (r, _) => length r = 3%nat | Err _ => False end) by (vm_compute; reflexivity); destruct h as [ [rows angs] |e] end; [|contradiction].
  exists rows, angs. split; [reflexivity|]. split; [exact E|]. repeat split; vm_compute; congruence.
Qed.
Print Assumptions helical_index_zero_refuted.
Example ex_helical_angles :
  let d := mkvol 7 4 2 (fun a b c => inject_Z (100 * a + 10 * b + c)) in
  match helical false 1 d 3 1 0 6 4 true (mkvec 7 (fun k => (inject_Z k * (180 / 2))%Q)) (mkimg 4 2 (fun _ _ => 1%Q)) (mkimg 4 2 (fun _ _ => 0%Q)) (fun _ v => Ok v) (0, 0, 0, 0) with
  | Ok (_, a) => (vlen a, Qred (vat a 0), Qred (vat a 2)) = (3, 180%Q, 360%Q) | Err _ => False end.
Proof. vm_compute. reflexivity. Qed.
Example ex_maximum_index : calculate_maximum_index 0 20 6 1 true = 15.
Proof. reflexivity. Qed.
