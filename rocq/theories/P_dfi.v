(** Proofs about direct Fourier inversion: angles. *)
From Coq Require Import Reals Lra ZArith Lia Bool List. Import ListNotations.
From Verif Require Import Np P_Np M_phase_R P_phase_R M_simR S_simR P_simR P_simR2 P_simR4 M_dfi S_dfi.
Open Scope Z_scope.

Section views.
Variables (w : Z) (view : R -> Z -> R).
Hypothesis Hv : parallel_views w view.
Lemma view_turn angle x k : in_rng w x -> view (angle + 2 * PI * IZR k)%R x = view angle x.
Proof.
  intros Hx.
  assert (One : forall a, view (a + 2 * PI)%R x = view a x).
  { intros a. replace (a + 2 * PI)%R with (a + PI + PI)%R by ring. rewrite Hv by exact Hx. rewrite Hv by (unfold in_rng in *; lia). f_equal. lia. }
  assert (N : forall (q : nat) a, view (a + 2 * PI * INR q)%R x = view a x).
  { induction q as [|q IH]; intros a; [f_equal; cbn; ring|]. rewrite S_INR. replace (a + 2 * PI * (INR q + 1))%R with (a + 2 * PI * INR q + 2 * PI)%R by ring. rewrite One. apply IH. }
  destruct (Z.le_gt_cases 0 k) as [G|G].
  - rewrite <- (N (Z.to_nat k) angle). rewrite INR_IZR_INZ, Z2Nat.id by lia. reflexivity.
  - rewrite <- (N (Z.to_nat (- k)) (angle + 2 * PI * IZR k)%R). rewrite INR_IZR_INZ, Z2Nat.id, opp_IZR by lia. f_equal. ring.
Qed.
Lemma view_mirror angle x : in_rng w x -> view angle (w - 1 - x) = view (angle + PI)%R x.
Proof. intros Hx. symmetry. apply Hv, Hx. Qed.
End views.

Lemma from_row_small M x : 0 < M -> - M < x <= M -> from_row (M + 1) x = if x <? 0 then x + M else x.
Proof.
  intros HM Hx. unfold from_row. replace (M + 1 - 1) with M by lia. destruct (x <? 0) eqn:E.
  - rewrite Z.div_small by lia. lia.
  - replace (M <? x) with false by lia. reflexivity.
Qed.
(** angles that are whole numbers of the step *)
Lemma start_angle n k : 2 <= n -> let step := (PI / IZR (n - 1))%R in
  ((IZR k * step - IZR (Int_part (IZR k * step / (2 * PI))) * (2 * PI)) / step = IZR (k mod (2 * (n - 1))))%R.
Proof.
  intros Hn step. assert (P := PI_RGT_0). assert (N : (0 < IZR (n - 1))%R) by (apply IZR_lt; lia).
  assert (S : (0 < step)%R) by (apply Rmult_lt_0_compat; [exact P|apply Rinv_0_lt_compat, N]).
  assert (E : (IZR k * step / (2 * PI) = IZR k / IZR (2 * (n - 1)))%R) by (unfold step; rewrite mult_IZR; field; lra).
  assert (D := Z.div_mod k (2 * (n - 1)) ltac:(lia)). assert (B := Z.mod_pos_bound k (2 * (n - 1)) ltac:(lia)).
  assert (M0 : (0 < IZR (2 * (n - 1)))%R) by (apply IZR_lt; lia).
  assert (I : Int_part (IZR k * step / (2 * PI)) = k / (2 * (n - 1))).
  { apply Int_part_unique. rewrite E. split.
    - apply (Rmult_le_reg_r (IZR (2 * (n - 1)))); [exact M0|]. replace (IZR k / IZR (2 * (n - 1)) * IZR (2 * (n - 1)))%R with (IZR k) by (field; lra). rewrite <- mult_IZR. apply IZR_le. lia.
    - apply (Rmult_lt_reg_r (IZR (2 * (n - 1)))); [exact M0|]. replace (IZR k / IZR (2 * (n - 1)) * IZR (2 * (n - 1)))%R with (IZR k) by (field; lra). rewrite <- plus_IZR, <- mult_IZR. apply IZR_lt. lia. }
  rewrite I. replace (2 * PI)%R with (IZR (2 * (n - 1)) * step)%R by (unfold step; rewrite mult_IZR; field; lra).
  rewrite Z.mod_eq by lia. rewrite minus_IZR, (mult_IZR (2 * (n - 1)) (k / (2 * (n - 1)))). field. lra.
Qed.
Lemma steps_total n f d : 1 <= n -> (forall k, 0 <= k < n -> Rabs (f (k + 1)%Z - f k) = d) -> (rsum n (fun k => Rabs (f (k + 1)%Z - f k)) = IZR n * d)%R.
Proof. intros Hn H. rewrite (rsum_ext n _ (fun _ => d)) by exact H. apply rsum_const. lia. Qed.

Section angles.
Variables (shift : img R -> R -> img R) (w n : Z) (view : R -> Z -> R) (k sg : Z).
Hypothesis (Hs : shifts_rows shift) (Hv : parallel_views w view) (Hn : 2 <= n) (Hsg : sg = 1 \/ sg = -1).
Let step := (PI / IZR (n - 1))%R.
Lemma step_pos : (0 < step)%R.
Proof. assert (P := PI_RGT_0). apply Rmult_lt_0_compat; [exact P|apply Rinv_0_lt_compat, IZR_lt; lia]. Qed.
Lemma step_pi : (IZR (n - 1) * step = PI)%R.
Proof. unfold step. field. apply not_0_IZR. lia. Qed.
Lemma view_mod a b x : a mod (2 * (n - 1)) = b mod (2 * (n - 1)) -> in_rng w x -> view (IZR a * step)%R x = view (IZR b * step)%R x.
Proof.
  intros E Hx. rewrite <- (view_turn w view Hv (IZR b * step)%R x (a / (2 * (n - 1)) - b / (2 * (n - 1))) Hx). f_equal.
  assert (A := Z.div_mod a (2 * (n - 1)) ltac:(lia)). assert (B := Z.div_mod b (2 * (n - 1)) ltac:(lia)). rewrite E in A.
  assert (D : a = b + 2 * (n - 1) * (a / (2 * (n - 1)) - b / (2 * (n - 1)))) by lia.
  rewrite D at 1. rewrite plus_IZR, mult_IZR, (mult_IZR 2). rewrite <- step_pi. ring.
Qed.
(** the double sinogram, shifted: row i is the view number  k + sg * q  with  q = i - k  modulo 2 (n - 1) *)
Lemma doubled_rows (m : img R) i x : nrow m = n -> ncol m = w -> views_at view (fun q => IZR (k + sg * q) * step)%R m ->
  in_rng n i -> in_rng w x ->
  let top := islice m 0 (n - 1) 0 (ncol m) in
  let double := mkimg (nrow top + nrow m) (ncol m) (fun i j => if i <? nrow top then px top i j else px (ifliplr m) (i - nrow top) j) in
  nrow double = 2 * n - 1 /\ ncol double = w /\
  px (shift double (IZR (k mod (2 * (n - 1))))) i x = view (IZR (if sg =? 1 then i else 2 * k - i) * step)%R x.
Proof.
  intros Hr Hc HV Hi Hx top double. unfold in_rng in *.
  assert (T1 : nrow top = n - 1) by (unfold top; cbn [nrow islice]; rewrite slen_id by lia; lia).
  assert (D1 : nrow double = 2 * n - 1) by (unfold double; cbn [nrow]; lia).
  split; [exact D1|]. split; [exact Hc|].
  assert (Dq : forall q, 0 <= q < 2 * n - 1 -> px double q x = view (IZR (k + sg * q) * step)%R x).
  { intros q Hq. unfold double. cbn [px]. rewrite T1. destruct (q <? n - 1) eqn:E.
    - unfold top. cbn [px islice]. rewrite !py_adj_id by lia. rewrite !Z.add_0_l. rewrite HV by (unfold in_rng; lia). reflexivity.
    - cbn [px ifliplr]. rewrite HV by (unfold in_rng; lia). rewrite Hc. rewrite (view_mirror w view Hv) by (unfold in_rng; lia).
      rewrite <- step_pi, <- Rmult_plus_distr_r, <- plus_IZR. apply view_mod; [|unfold in_rng; lia].
      destruct Hsg as [-> | ->].
      + f_equal. lia.
      + replace (k + -1 * (q - (n - 1)) + (n - 1)) with (k + -1 * q + 1 * (2 * (n - 1))) by lia. apply Z_mod_plus_full. }
  assert (B := Z.mod_pos_bound k (2 * (n - 1)) ltac:(lia)).
  destruct (Hs double (k mod (2 * (n - 1))) ltac:(lia)) as (_ & _ & V). rewrite V by (unfold in_rng; cbn [ncol double]; lia).
  rewrite D1. replace (2 * n - 1) with (2 * (n - 1) + 1) by lia. rewrite from_row_small by lia.
  set (q := if i - k mod (2 * (n - 1)) <? 0 then i - k mod (2 * (n - 1)) + 2 * (n - 1) else i - k mod (2 * (n - 1))).
  assert (Q : 0 <= q < 2 * n - 1) by (unfold q; destruct (i - k mod (2 * (n - 1)) <? 0) eqn:E; lia).
  assert (Qm : exists z, q = i - k + z * (2 * (n - 1))).
  { assert (D := Z.div_mod k (2 * (n - 1)) ltac:(lia)). unfold q. destruct (i - k mod (2 * (n - 1)) <? 0).
    - exists (k / (2 * (n - 1)) + 1). lia.
    - exists (k / (2 * (n - 1))). lia. }
  rewrite Dq by exact Q. apply view_mod; [|unfold in_rng; lia]. destruct Qm as (z & ->).
  destruct Hsg as [-> | ->]; cbn [Z.eqb].
  - replace (k + 1 * (i - k + z * (2 * (n - 1)))) with (i + z * (2 * (n - 1))) by lia. apply Z_mod_plus_full.
  - change (-1 =? 1) with false. cbv iota. replace (k + -1 * (i - k + z * (2 * (n - 1)))) with (2 * k - i + (- z) * (2 * (n - 1))) by lia. apply Z_mod_plus_full.
Qed.
End angles.

(** the part of __dfi_handle_angles after the optional averaging (742-746) *)
Definition turned (shift : img R -> R -> img R) (n : Z) (m : img R) (start step : R) (down : bool) : img R :=
  let top := islice m 0 (n - 1) 0 (ncol m) in
  let double := mkimg (nrow top + nrow m) (ncol m) (fun i j => if i <? nrow top then px top i j else px (ifliplr m) (i - nrow top) j) in
  let shifted := islice (shift double ((start - IZR (Int_part (start / (2 * PI))) * (2 * PI)) / step)%R) 0 n 0 (ncol double) in
  if down then iflipud (ifliplr shifted) else shifted.
Lemma turned_spec shift w n view k sg (m : img R) : shifts_rows shift -> parallel_views w view -> 2 <= n -> sg = 1 \/ sg = -1 -> 0 <= w ->
  let step := (PI / IZR (n - 1))%R in
  nrow m = n -> ncol m = w -> views_at view (fun q => IZR (k + sg * q) * step)%R m ->
  let out := turned shift n m (IZR k * step)%R step (sg =? -1) in
  nrow out = n /\ ncol out = w /\ views_at view (fun i => IZR (if sg =? 1 then i else 2 * k + i) * step)%R out.
Proof.
  intros Hs Hv Hn Hsg Hw step Hr Hc HV. unfold turned.
  assert (SA := start_angle n k Hn). cbv zeta in SA. fold step in SA.
  set (top := islice m 0 (n - 1) 0 (ncol m)) in *.
  set (double := mkimg (nrow top + nrow m) (ncol m) (fun i j => if i <? nrow top then px top i j else px (ifliplr m) (i - nrow top) j)) in *.
  rewrite SA. cbv zeta.
  assert (T1 : nrow top = n - 1) by (unfold top; cbn [nrow islice]; rewrite slen_id by lia; lia).
  assert (D1 : nrow double = 2 * n - 1) by (unfold double; cbn [nrow]; lia).
  assert (D2 : ncol double = w) by exact Hc.
  destruct (Hs double (k mod (2 * (n - 1))) ltac:(lia)) as (S1 & S2 & _).
  set (sh := shift double (IZR (k mod (2 * (n - 1))))) in *.
  assert (R : forall i x, in_rng n i -> in_rng w x -> px (islice sh 0 n 0 (ncol double)) i x = view (IZR (if sg =? 1 then i else 2 * k - i) * step)%R x).
  { intros i x Hi Hx. unfold in_rng in *. cbn [px islice]. rewrite !py_adj_id by lia. rewrite !Z.add_0_l.
    destruct (doubled_rows shift w n view k sg Hs Hv Hn Hsg m i x Hr Hc HV Hi Hx) as (_ & _ & V). exact V. }
  assert (I1 : nrow (islice sh 0 n 0 (ncol double)) = n) by (cbn [nrow islice]; rewrite slen_id by lia; lia).
  assert (I2 : ncol (islice sh 0 n 0 (ncol double)) = w) by (cbn [ncol islice]; rewrite slen_id by lia; lia).
  set (b := islice sh 0 n 0 (ncol double)) in *.
  destruct Hsg as [-> | ->].
  - change (1 =? 1) with true in *. change (1 =? -1) with false. cbv iota in *. split; [exact I1|]. split; [exact I2|].
    intros i x Hi Hx. rewrite I1 in Hi. rewrite I2 in Hx. apply R; assumption.
  - change (-1 =? 1) with false in *. change (-1 =? -1) with true. cbv iota in *. cbn [nrow ncol iflipud ifliplr]. split; [exact I1|]. split; [exact I2|].
    intros i x Hi Hx. cbn [nrow ncol iflipud ifliplr px] in *. rewrite I1 in *. rewrite I2 in *. unfold in_rng in *. rewrite R by lia.
    rewrite (view_mirror w view Hv) by (unfold in_rng; lia). replace PI with (IZR (n - 1) * step)%R by (unfold step; field; apply not_0_IZR; lia).
    rewrite <- Rmult_plus_distr_r, <- plus_IZR. f_equal. f_equal. f_equal. lia.
Qed.

Lemma step_sign sg : sg = 1 \/ sg = -1 -> Rabs (IZR sg) = 1%R.
Proof. intros [-> | ->]; [apply Rabs_R1|]. rewrite Rabs_left; lra. Qed.

Section scan.
Variables (shift : img R -> R -> img R) (w : Z) (view : R -> Z -> R) (k sg : Z) (sino : img R) (angles : vec R).
Hypothesis (Hs : shifts_rows shift) (Hv : parallel_views w view) (Hsg : sg = 1 \/ sg = -1) (Hw : 0 <= w)
  (Hc : ncol sino = w) (Hl : vlen angles = nrow sino) (HV : views_at view (vat angles) sino).

Lemma scan_steps n step : 2 <= nrow sino -> (0 < step)%R -> (forall i, in_rng (nrow sino) i -> vat angles i = IZR (k + sg * i) * step)%R -> n = nrow sino - 1 ->
  (abs_steps angles / IZR (vlen angles - 1) = step /\
   rsum (vlen angles - 1) (fun k => Rabs (vat angles (k + 1)%Z * 180 / PI - vat angles k * 180 / PI)) = IZR n * step * 180 / PI)%R.
Proof.
  intros Hn S A ->. assert (P := PI_RGT_0). unfold abs_steps. rewrite Hl.
  assert (D : forall q, 0 <= q < nrow sino - 1 -> (vat angles (q + 1) - vat angles q = IZR sg * step)%R).
  { intros q Hq. rewrite !A by (unfold in_rng; lia). rewrite <- Rmult_minus_distr_r, <- minus_IZR. f_equal. f_equal. lia. }
  assert (N : (0 < IZR (nrow sino - 1))%R) by (apply IZR_lt; lia). split.
  - rewrite (rsum_ext _ _ (fun _ => step)).
    + rewrite rsum_const by lia. field. lra.
    + intros q Hq. rewrite D by exact Hq. rewrite Rabs_mult, (step_sign sg Hsg), Rabs_pos_eq by lra. ring.
  - rewrite (rsum_ext _ _ (fun _ => step * 180 / PI)%R).
    + rewrite rsum_const by lia. field. lra.
    + intros q Hq. replace (vat angles (q + 1)%Z * 180 / PI - vat angles q * 180 / PI)%R with ((vat angles (q + 1)%Z - vat angles q) * (180 / PI))%R by (field; lra).
      rewrite D by exact Hq. rewrite !Rabs_mult, (step_sign sg Hsg), Rabs_pos_eq by lra.
      assert (0 < 180 / PI)%R by (apply Rmult_lt_0_compat; [lra|apply Rinv_0_lt_compat, P]). rewrite Rabs_pos_eq by lra. field. lra.
Qed.
Lemma scan_down step (b : bool) {A} (u v : A) : 2 <= nrow sino -> (0 < step)%R -> (forall i, in_rng (nrow sino) i -> vat angles i = IZR (k + sg * i) * step)%R ->
  (if Rlt_dec (vat angles (vlen angles - 1)) (vat angles 0) then u else v) = if sg =? -1 then u else v.
Proof.
  intros Hn S Ha. rewrite !Ha by (unfold in_rng; lia). rewrite Hl.
  destruct (Rlt_dec (IZR (k + sg * (nrow sino - 1)) * step) (IZR (k + sg * 0) * step)) as [L|L].
  - apply Rmult_lt_reg_r in L; [|exact S]. apply lt_IZR in L. destruct Hsg as [-> | ->]; [lia|reflexivity].
  - destruct Hsg as [-> | ->]; [reflexivity|]. exfalso. apply L. apply Rmult_lt_compat_r; [exact S|]. apply IZR_lt. lia.
Qed.

Lemma half_scan n : 2 <= n -> nrow sino = n -> (forall i, in_rng n i -> vat angles i = IZR (k + sg * i) * (PI / IZR (n - 1)))%R ->
  exists out, dfi_handle_angles shift sino angles = Ok out /\ nrow out = n /\ ncol out = w /\
    views_at view (fun i => IZR (if sg =? 1 then i else 2 * k + i) * (PI / IZR (n - 1)))%R out.
Proof.
  intros Hn Hr Ha. assert (P := PI_RGT_0). set (step := (PI / IZR (n - 1))%R) in *.
  assert (S : (0 < step)%R) by (apply Rmult_lt_0_compat; [exact P|apply Rinv_0_lt_compat, IZR_lt; lia]).
  rewrite <- Hr in Ha. destruct (scan_steps (n - 1) step ltac:(lia) S Ha ltac:(lia)) as (E1 & E2).
  unfold dfi_handle_angles. rewrite Hl, Z.eqb_refl. cbn [negb]. rewrite Hl in E1, E2. rewrite E2.
  destruct (Rlt_dec (Rabs (IZR (n - 1) * step * 180 / PI - 360)) 10) as [L|_].
  { exfalso. replace (IZR (n - 1) * step * 180 / PI)%R with 180%R in L by (unfold step; field; repeat split; first [exact PI_neq0|apply not_0_IZR; lia]).
    replace (180 - 360)%R with (- (180))%R in L by lra. rewrite Rabs_Ropp, Rabs_pos_eq in L by lra. lra. }
  rewrite E1. rewrite <- Hl. rewrite (scan_down step true) by (assumption || lia). rewrite Hl.
  eexists. split; [reflexivity|].
  assert (T := turned_spec shift w n view k sg sino Hs Hv Hn Hsg Hw Hr Hc). cbv zeta in T. fold step in T.
  assert (V0 : views_at view (fun q => IZR (k + sg * q) * step)%R sino).
  { intros i x Hi Hx. rewrite HV by assumption. rewrite Ha by assumption. reflexivity. }
  specialize (T V0). unfold turned in T. rewrite Hr in *. rewrite (Ha 0) by (unfold in_rng; lia). rewrite Z.mul_0_r, Z.add_0_r. exact T.
Qed.

Lemma full_scan m : 1 <= m -> nrow sino = 2 * m + 1 -> (forall i, in_rng (2 * m + 1) i -> vat angles i = IZR (k + sg * i) * (PI / IZR m))%R ->
  exists out, dfi_handle_angles shift sino angles = Ok out /\ nrow out = m + 1 /\ ncol out = w /\
    views_at view (fun i => IZR (if sg =? 1 then i else 2 * k + i) * (PI / IZR m))%R out.
Proof.
  intros Hn Hr Ha. assert (P := PI_RGT_0). set (step := (PI / IZR m)%R) in *.
  assert (S : (0 < step)%R) by (apply Rmult_lt_0_compat; [exact P|apply Rinv_0_lt_compat, IZR_lt; lia]).
  rewrite <- Hr in Ha. destruct (scan_steps (2 * m) step ltac:(lia) S Ha ltac:(lia)) as (E1 & E2).
  unfold dfi_handle_angles. rewrite Hl, Z.eqb_refl. cbn [negb]. rewrite Hl in E1, E2. rewrite E2.
  destruct (Rlt_dec (Rabs (IZR (2 * m) * step * 180 / PI - 360)) 10) as [_|L].
  2: { exfalso. apply L. replace (IZR (2 * m) * step * 180 / PI)%R with 360%R by (unfold step; rewrite mult_IZR; field; repeat split; first [exact PI_neq0|apply not_0_IZR; lia]).
    replace (360 - 360)%R with 0%R by lra. rewrite Rabs_R0. lra. }
  rewrite E1. rewrite <- Hl. rewrite (scan_down step true) by (assumption || lia). rewrite Hl.
  eexists. split; [reflexivity|].
  replace (nrow sino / 2 + 1) with (m + 1) by (rewrite Hr; replace (2 * m + 1) with (1 + m * 2) by lia; rewrite Z_div_plus_full by lia; change (1 / 2) with 0; lia).
  set (a := islice sino 0 (m + 1) 0 (ncol sino)). set (b := ifliplr (islice sino (- (m + 1)) (nrow sino) 0 (ncol sino))).
  set (avg := mkimg (nrow a) (ncol a) (fun i j => (px a i j + px b i j) / 2)%R).
  assert (A1 : nrow avg = m + 1) by (unfold avg, a; cbn [nrow islice]; rewrite slen_id by lia; lia).
  assert (A2 : ncol avg = w) by (unfold avg, a; cbn [ncol islice]; rewrite slen_id by lia; lia).
  assert (T := turned_spec shift w (m + 1) view k sg avg Hs Hv ltac:(lia) Hsg Hw A1 A2). cbv zeta in T.
  replace (m + 1 - 1) with m in T by lia. fold step in T.
  assert (V0 : views_at view (fun q => IZR (k + sg * q) * step)%R avg).
  { intros i x Hi Hx. rewrite A1 in Hi. rewrite A2 in Hx. unfold in_rng in *.
    assert (F : px a i x = view (IZR (k + sg * i) * step)%R x).
    { unfold a. cbn [px islice]. rewrite !py_adj_id by lia. rewrite !Z.add_0_l. rewrite HV by (unfold in_rng; lia). rewrite Ha by (unfold in_rng; lia). reflexivity. }
    assert (G : px b i x = view (IZR (k + sg * i) * step)%R x).
    { unfold b. cbn [px ifliplr ncol islice]. rewrite !(py_adj_id _ 0) by lia. rewrite py_adj_neg by lia. rewrite !Z.add_0_l. rewrite slen_id by lia.
      rewrite HV by (unfold in_rng; lia). rewrite Ha by (unfold in_rng; lia). rewrite Z.sub_0_r, Hc, (view_mirror w view Hv) by (unfold in_rng; lia).
      replace PI with (IZR m * step)%R by (unfold step; field; apply not_0_IZR; lia). rewrite <- Rmult_plus_distr_r, <- plus_IZR.
      assert (VM := view_mod w (m + 1) view Hv ltac:(lia) (k + sg * (nrow sino + - (m + 1) + i) + m) (k + sg * i) x). cbv zeta in VM.
      replace (m + 1 - 1) with m in VM by lia. fold step in VM. apply VM; [|unfold in_rng; lia].
      rewrite Hr. destruct Hsg as [-> | ->].
      - replace (k + 1 * (2 * m + 1 + - (m + 1) + i) + m) with (k + 1 * i + 1 * (2 * m)) by lia. apply Z_mod_plus_full.
      - f_equal. lia. }
    unfold avg. cbn [px]. rewrite F, G. field. }
  specialize (T V0). unfold turned in T. replace (m + 1 - 1) with m in * by lia.
  rewrite (Ha 0) by (unfold in_rng; lia). rewrite Z.mul_0_r, Z.add_0_r. exact T.
Qed.
End scan.
