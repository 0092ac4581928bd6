(** Proofs about find_shift_based_correlation_map and exactness of the sub-pixel peak. *)
From Coq Require Import Reals Lra ZArith Lia Permutation.
From Verif Require Import Np P_Np M_phase_R M_corr S_corr P_corr P_corr2.
From Coq Require Import List. Import ListNotations.
Open Scope Z_scope.

Lemma brightest_of_first m y x : first_max2 m y x -> brightest m y x.
Proof. intros (Y & X & M & _). split; [exact Y|]. split; [exact X|exact M]. Qed.
Lemma darkest_of_inverted m y x : first_max2 (inverted m) y x -> darkest m y x.
Proof.
  intros (Y & X & M & _). split; [exact Y|]. split; [exact X|]. intros i j Hi Hj. specialize (M i j Hi Hj).
  unfold inverted in M. cbn [px nrow ncol] in M. lra.
Qed.

Section exact.
Context (polyfit2 : vec R -> R * R) (surface : img R -> R * R * R * R * R).
Lemma peak_quadratic m vy vx y0 x0 size : quadratic_surface m vy vx -> first_max2 m y0 x0 ->
  0 < y0 < nrow m - 1 -> 0 < x0 < ncol m - 1 -> (Rabs (vy - IZR y0) < 1)%R -> (Rabs (vx - IZR x0) < 1)%R ->
  locate_peak polyfit2 surface m true Diff false size true = Ok (vx, vy).
Proof.
  intros (c0 & c1 & c2 & c3 & c4 & c5 & Q & D & G1 & G2) F Hy Hx By Bx. unfold locate_peak. cbv iota.
  rewrite (argmax2_is m y0 x0 F). cbn [bindr negb]. change (clipZ 3 3 9) with 3. change (3 / 2) with 1.
  destruct (Z.ltb_spec y0 (nrow m - 1)); [|lia]. destruct (Z.ltb_spec 0 y0); [|lia].
  destruct (Z.ltb_spec x0 (ncol m - 1)); [|lia]. destruct (Z.ltb_spec 0 x0); [|lia].
  destruct (Z.leb_spec 3 (ncol m)); [|lia]. destruct (Z.leb_spec 3 (nrow m)); [|lia]. cbn [andb].
  replace (clipZ (y0 - 1) 0 (nrow m - 3)) with (y0 - 1) by (unfold clipZ; lia).
  replace (clipZ (x0 - 1) 0 (ncol m - 3)) with (x0 - 1) by (unfold clipZ; lia).
  set (w := islice m (y0 - 1) (y0 - 1 + 3) (x0 - 1) (x0 - 1 + 3)).
  assert (Fs : first_max2 w (y0 - (y0 - 1)) (x0 - (x0 - 1))) by (apply first_max2_slice; [exact F|lia..]).
  replace (y0 - (y0 - 1)) with 1 in Fs by lia. replace (x0 - (x0 - 1)) with 1 in Fs by lia.
  assert (Nw : nrow w = 3 /\ ncol w = 3) by (unfold w; cbn [islice nrow ncol]; rewrite !slice_len by lia; split; reflexivity).
  destruct Nw as [N1 N2].
  assert (E : locate_2d_peak_subpixel surface w Diff = Ok (vx - IZR (x0 - 1), vy - IZR (y0 - 1))%R).
  { unfold locate_2d_peak_subpixel. rewrite (argmax2_is w 1 1 Fs). cbn [bindr]. rewrite N1, N2.
    change (1 =? 3 - 1) with false. change (1 =? 0) with false. change (1 + 1) with 2. change (1 - 1) with 0. cbn [orb negb andb].
    assert (P : forall a b, 0 <= a <= 2 -> 0 <= b <= 2 -> px w a b =
       (c0 + c1 * (IZR x0 + (IZR b - 1)) + c2 * (IZR y0 + (IZR a - 1)) + c3 * ((IZR x0 + (IZR b - 1)) * (IZR x0 + (IZR b - 1)))
        + c4 * ((IZR x0 + (IZR b - 1)) * (IZR y0 + (IZR a - 1))) + c5 * ((IZR y0 + (IZR a - 1)) * (IZR y0 + (IZR a - 1))))%R).
    { intros a b Ha Hb. unfold w. cbn [islice px]. rewrite !slice_at by lia. rewrite Q by lia.
      replace (y0 - 1 + a) with (y0 + (a - 1)) by lia. replace (x0 - 1 + b) with (x0 + (b - 1)) by lia. rewrite !plus_IZR, !minus_IZR. reflexivity. }
    rewrite !P by lia. cbv zeta. clear P.
    set (X := IZR x0) in *. set (Y := IZR y0) in *.
    match goal with |- context [Reqb (?a * ?a - ?b * ?c) 0] =>
      assert (E1 : a = c4) by field; assert (E2 : b = (2 * c3)%R) by ring; assert (E3 : c = (2 * c5)%R) by ring; rewrite !E1, !E2, !E3 end.
    match goal with |- context [((2 * c5 * ?d - c4 * ?e) / _)%R] =>
      assert (E4 : d = (c1 + 2 * c3 * X + c4 * Y)%R) by field; assert (E5 : e = (c2 + c4 * X + 2 * c5 * Y)%R) by field; rewrite !E4, !E5 end.
    clear E1 E2 E3 E4 E5.
    assert (NZ : (c4 * c4 - 2 * c3 * (2 * c5))%R <> 0%R) by (intros Z; apply D; lra).
    destruct (Reqb _ 0) eqn:Rq; [apply Reqb_t in Rq; contradiction|].
    assert (Ex : ((2 * c5 * (c1 + 2 * c3 * X + c4 * Y) - c4 * (c2 + c4 * X + 2 * c5 * Y)) / (c4 * c4 - 2 * c3 * (2 * c5)) = vx - X)%R)
      by (replace c1 with (- (2 * c3 * vx) - c4 * vy)%R by lra; replace c2 with (- (c4 * vx) - 2 * c5 * vy)%R by lra; field; exact NZ).
    assert (Ey : ((2 * c3 * (c2 + c4 * X + 2 * c5 * Y) - c4 * (c1 + 2 * c3 * X + c4 * Y)) / (c4 * c4 - 2 * c3 * (2 * c5)) = vy - Y)%R)
      by (replace c1 with (- (2 * c3 * vx) - c4 * vy)%R by lra; replace c2 with (- (c4 * vx) - 2 * c5 * vy)%R by lra; field; exact NZ).
    rewrite ?Ex, ?Ey.
    assert (Sel : forall o, (Rabs o < 1)%R -> (if Rltb (Rabs o) 1 && Rltb 0 (Rabs o) then 1 + o else 1)%R = (1 + o)%R).
    { intros o Ho; rewrite (proj2 (Rltb_t _ _) Ho); destruct (Rltb 0 (Rabs o)) eqn:Z; [reflexivity|]; apply Rltb_f in Z;
         assert (Rabs o = 0)%R by (pose proof (Rabs_pos o); lra); assert (o = 0)%R by (destruct (Req_dec o 0) as [z|z]; [exact z|apply Rabs_no_R0 in z; contradiction]); subst o; cbn; lra. }
    rewrite !Sel by assumption; f_equal; f_equal; rewrite minus_IZR; unfold X, Y; lra. }
  rewrite E. cbn [bindr fst snd].
  assert (Y1 : (1 <= IZR y0)%R) by (apply IZR_le; lia). assert (Y2 : (IZR y0 <= IZR (nrow m - 1) - 1)%R) by (rewrite <- minus_IZR; apply IZR_le; lia).
  assert (X1 : (1 <= IZR x0)%R) by (apply IZR_le; lia). assert (X2 : (IZR x0 <= IZR (ncol m - 1) - 1)%R) by (rewrite <- minus_IZR; apply IZR_le; lia).
  apply Rabs_def2 in By, Bx.
  replace (IZR (x0 - 1) + (vx - IZR (x0 - 1)))%R with vx by lra. replace (IZR (y0 - 1) + (vy - IZR (y0 - 1)))%R with vy by lra.
  rewrite (proj2 (Reqb_f vy 0)), (proj2 (Reqb_f vy (IZR (nrow m - 1)))) by lra. cbn [orb andb bindr].
  rewrite (proj2 (Reqb_f vx 0)), (proj2 (Reqb_f vx (IZR (ncol m - 1)))) by lra. reflexivity.
Qed.
End exact.

(** ** find_shift_based_correlation_map *)
Lemma shape2_spec d : shape2 d = (height d, width d).
Proof. destruct d; reflexivity. Qed.
Lemma crop_len n a b : 0 <= a -> 0 < b -> a + b <= n -> slen n a (- b) = n - a - b.
Proof. intros. unfold slen, py_adj. destruct (Z.ltb_spec a 0), (Z.ltb_spec (- b) 0); lia. Qed.
Lemma dslice_shape d a b l r : height (dslice d a b l r) = slen (height d) a b /\ width (dslice d a b l r) = slen (width d) l r /\ depth (dslice d a b l r) = depth d.
Proof. destruct d; repeat split; reflexivity. Qed.
Lemma dslice_value d a b l r k i j : value (dslice d a b l r) k i j = value d k (py_adj (height d) a + i) (py_adj (width d) l + j).
Proof. destruct d; reflexivity. Qed.
Lemma dslice_kind ref d a b l r : same_kind ref d -> same_kind ref (dslice d a b l r).
Proof. destruct ref, d; cbn; auto. Qed.
Lemma window_slice d a b l r h w : 0 <= a <= height d -> 0 <= l <= width d ->
  window (dslice d a b l r) 0 0 h w = window d a l h w.
Proof.
  intros A L. unfold window. destruct (dslice_shape d a b l r) as (_ & _ & ->). apply flat_map_ext_in. intros k _.
  apply flat_map_ext_in. intros i _. apply map_ext. intros j. rewrite dslice_value, !slice_at by lia. reflexivity.
Qed.
Lemma window_length d i j h w : length (window d i j h w) = (Z.to_nat (depth d) * (Z.to_nat h * Z.to_nat w))%nat.
Proof. apply (pixels3_length (depth d) h w (fun k a b => value d k (i + a) (j + b))). Qed.
Lemma kind_depth a b : same_kind a b -> depth a = depth b.
Proof. destruct a, b; cbn; try contradiction; auto. Qed.

Section shift.
Context (polyfit2 : vec R -> R * R) (surface : img R -> R * R * R * R * R).
Notation find_shift := (find_shift_based_correlation_map polyfit2 surface).

(** the search once the data are prepared: the map is that of (ref, mat) *)
Definition axis_dim (axis : axis_option) (dim1 : bool) : bool := match axis with NoAxis => dim1 | _ => true end.
Lemma search_spec ref mat gpu block sched axis sub meth dim1 size : fits ref mat -> any_launch block sched ->
  exists m x y, generate_correlation_map ref mat gpu block sched = Ok m /\
    nrow m = height ref - height mat + 1 /\ ncol m = width ref - width mat + 1 /\
    (forall i j, 0 <= i < nrow m -> 0 <= j < ncol m -> px m i j = correlation_at ref mat i j) /\
    locate_peak polyfit2 surface m sub meth (axis_dim axis dim1) size true = Ok (x, y) /\
    exists y0 x0, first_max2 m y0 x0 /\ (0 <= x <= IZR (ncol m - 1))%R /\ (0 <= y <= IZR (nrow m - 1))%R /\
      (sub = false -> x = IZR x0 /\ y = IZR y0) /\ (meth <> PolyFit -> Rabs (x - IZR x0) < 1 /\ Rabs (y - IZR y0) < 1)%R.
Proof.
  intros Ft ((B1 & B2) & P). destruct (corr_map_spec ref mat gpu block sched Ft B1 B2 P) as (m & E & N & C & V).
  destruct Ft as (_ & _ & H & W).
  destruct (argmax2_total m ltac:(lia) ltac:(lia)) as (y0 & x0 & _ & F).
  destruct (locate_spec polyfit2 surface m sub meth (axis_dim axis dim1) size true y0 x0 F) as (x & y & L & Bx & By & S & D & _).
  exists m, x, y. repeat (split; [assumption|]). exists y0, x0. repeat (split; [assumption|]). exact D.
Qed.

(** images of equal shape, margin too large: the answer is always "no shift" *)
Lemma shift_no_room ref mat margin axis sub meth dim1 size gpu block sched : fits ref mat -> any_launch block sched ->
  height mat = height ref -> width mat = width ref ->
  match axis with Axis0 => height ref - 2 * margin <= 3 | Axis1 => width ref - 2 * margin <= 3
                | NoAxis => height ref - 2 * margin <= 3 \/ width ref - 2 * margin <= 3 end ->
  find_shift ref mat margin axis sub meth dim1 size gpu block sched = Ok (0, 0)%R.
Proof.
  intros Ft Lo Hh Hw A. unfold find_shift_based_correlation_map, crop_margin. rewrite !shape2_spec, Hh, Hw, !Z.eqb_refl. cbn [andb].
  assert (Cr : (match axis with
     | Axis0 => if 3 <? height ref - 2 * margin then (dslice mat margin (- margin) 0 (width ref), true) else (mat, false)
     | Axis1 => if 3 <? width ref - 2 * margin then (dslice mat 0 (height ref) margin (- margin), true) else (mat, false)
     | NoAxis => if (3 <? height ref - 2 * margin) && (3 <? width ref - 2 * margin) then (dslice mat margin (- margin) margin (- margin), true) else (mat, false) end)
     = (mat, false)).
  { destruct axis.
    - destruct (Z.ltb_spec 3 (height ref - 2 * margin)); [lia|reflexivity].
    - destruct (Z.ltb_spec 3 (width ref - 2 * margin)); [lia|reflexivity].
    - destruct (Z.ltb_spec 3 (height ref - 2 * margin)), (Z.ltb_spec 3 (width ref - 2 * margin)); try reflexivity. lia. }
  rewrite Cr, shape2_spec. cbn [negb].
  destruct (search_spec ref mat gpu block sched axis sub meth dim1 size Ft Lo) as (m & x & y & E & N & C & V & L & y0 & x0 & F & Bx & By & _).
  rewrite E. cbn [bindr]. unfold axis_dim in L. rewrite L. cbn [bindr fst snd].
  replace (nrow m) with 1 in * by lia. replace (ncol m) with 1 in * by lia. change (1 / 2) with 0. change (1 - 1) with 0 in Bx, By.
  assert (x = 0)%R by (cbn in Bx; lra). assert (y = 0)%R by (cbn in By; lra). subst. f_equal. destruct axis; f_equal; cbn; lra.
Qed.

(** the part of the second image that is used *)
Definition searched (mat : data) (margin : Z) (axis : axis_option) : data :=
  match axis with
  | Axis0 => dslice mat margin (- margin) 0 (width mat)
  | Axis1 => dslice mat 0 (height mat) margin (- margin)
  | NoAxis => dslice mat margin (- margin) margin (- margin) end.
Lemma searched_spec ref mat margin axis : 1 <= margin -> fits ref mat -> height mat = height ref -> width mat = width ref -> room ref margin axis ->
  fits ref (searched mat margin axis) /\
  height (searched mat margin axis) = height ref - 2 * reach_y margin axis /\
  width (searched mat margin axis) = width ref - 2 * reach_x margin axis /\
  (forall h w, window (searched mat margin axis) 0 0 h w = window mat (reach_y margin axis) (reach_x margin axis) h w).
Proof.
  intros M (K & D & H & W) Hh Hw Rm.
  assert (Full : forall n, 0 <= n -> slen n 0 n = n) by (intros n Hn; replace n with (0 + n) at 2 by lia; apply slice_len; lia).
  unfold searched. destruct axis; unfold room in Rm; unfold reach_y, reach_x;
    match goal with |- context [dslice mat ?a ?b ?l ?r] => destruct (dslice_shape mat a b l r) as (S1 & S2 & S3); pose proof (dslice_kind ref mat a b l r K) as K' end;
    (split; [|split; [|split] ]);
    try (intros h w; apply window_slice; lia);
    unfold fits; try rewrite S1; try rewrite S2; try rewrite S3;
    rewrite ?crop_len by lia; rewrite ?Full by lia; try lia; split; try assumption; lia.
Qed.

(** images of equal shape with room for the margin: everything about the result *)
Lemma shift_spec ref mat margin axis sub meth dim1 size gpu block sched : 1 <= margin -> fits ref mat ->
  height mat = height ref -> width mat = width ref -> room ref margin axis -> any_launch block sched ->
  exists m y0 x0 xs ys, find_shift ref mat margin axis sub meth dim1 size gpu block sched = Ok (xs, ys) /\
    nrow m = 2 * reach_y margin axis + 1 /\ ncol m = 2 * reach_x margin axis + 1 /\ first_max2 m y0 x0 /\
    (forall i j, 0 <= i < nrow m -> 0 <= j < ncol m -> px m i j = correlation_at ref (searched mat margin axis) i j) /\
    (Rabs xs <= IZR (reach_x margin axis))%R /\ (Rabs ys <= IZR (reach_y margin axis))%R /\
    (sub = false -> xs = IZR (x0 - reach_x margin axis) /\ ys = IZR (y0 - reach_y margin axis))%R /\
    (meth <> PolyFit -> Rabs (xs - IZR (x0 - reach_x margin axis)) < 1 /\ Rabs (ys - IZR (y0 - reach_y margin axis)) < 1)%R.
Proof.
  intros M Ft Hh Hw Rm Lo. destruct (searched_spec ref mat margin axis M Ft Hh Hw Rm) as (Fs & Sh & Sw & _).
  assert (Cr : crop_margin ref mat margin axis = (searched mat margin axis, true)).
  { unfold crop_margin. rewrite !shape2_spec, Hh, Hw, !Z.eqb_refl. cbn [andb]. unfold searched, room in *. rewrite <- ?Hh, <- ?Hw in *.
    destruct axis.
    - destruct (Z.ltb_spec 3 (height mat - 2 * margin)); [reflexivity|lia].
    - destruct (Z.ltb_spec 3 (width mat - 2 * margin)); [reflexivity|lia].
    - destruct (Z.ltb_spec 3 (height mat - 2 * margin)), (Z.ltb_spec 3 (width mat - 2 * margin)); try lia. reflexivity. }
  destruct (search_spec ref _ gpu block sched axis sub meth dim1 size Fs Lo) as (m & x & y & E & N & C & V & L & y0 & x0 & F & Bx & By & S & D).
  rewrite Sh in N. rewrite Sw in C.
  assert (N' : nrow m = 2 * reach_y margin axis + 1) by lia. assert (C' : ncol m = 2 * reach_x margin axis + 1) by lia.
  assert (My : 0 <= reach_y margin axis) by (destruct axis; cbn; lia). assert (Mx : 0 <= reach_x margin axis) by (destruct axis; cbn; lia).
  assert (Hy : nrow m / 2 = reach_y margin axis) by (rewrite N'; symmetry; apply Z.div_unique_pos with 1; lia).
  assert (Hx : ncol m / 2 = reach_x margin axis) by (rewrite C'; symmetry; apply Z.div_unique_pos with 1; lia).
  unfold find_shift_based_correlation_map. rewrite Cr, !shape2_spec.
  assert (Ck : (match axis with
      | Axis0 => negb (height ref - 2 * margin <? height (searched mat margin axis))
      | Axis1 => negb (width ref - 2 * margin <? width (searched mat margin axis))
      | NoAxis => negb ((height ref - 2 * margin <? height (searched mat margin axis)) && (width ref - 2 * margin <? width (searched mat margin axis))) end) = true).
  { rewrite Sh, Sw. destruct axis; cbn [reach_y reach_x]; rewrite Z.ltb_irrefl; reflexivity. }
  rewrite Ck, E. cbn [bindr]. unfold axis_dim in L. rewrite L. cbn [bindr fst snd]. rewrite Hy, Hx.
  rewrite N' in By. rewrite C' in Bx. replace (2 * reach_y margin axis + 1 - 1) with (2 * reach_y margin axis) in By by lia.
  replace (2 * reach_x margin axis + 1 - 1) with (2 * reach_x margin axis) in Bx by lia. rewrite mult_IZR in Bx, By.
  assert (X0 : (0 <= IZR (reach_x margin axis))%R) by (apply IZR_le; lia).
  assert (Y0 : (0 <= IZR (reach_y margin axis))%R) by (apply IZR_le; lia).
  assert (Fy : 0 <= y0 < nrow m) by (destruct F; assumption). assert (Fx : 0 <= x0 < ncol m) by (destruct F as (_ & ? & _); assumption).
  eexists m, y0, x0, _, _. split; [reflexivity|]. split; [exact N'|]. split; [exact C'|]. split; [exact F|]. split; [exact V|].
  rewrite !minus_IZR. destruct axis; cbn [reach_x reach_y] in *.
  - assert (x0 = 0) by lia. subst x0. assert (x = 0)%R by lra. subst x.
    split; [rewrite Rminus_diag_eq by reflexivity; rewrite Rabs_R0; lra|]. split; [apply Rabs_le; lra|]. split.
    + intros H. destruct (S H) as [_ ->]. split; lra.
    + intros H. destruct (D H) as [_ D2]. split; [rewrite Rminus_diag_eq by lra; rewrite Rabs_R0; lra|].
      replace (y - IZR margin - (IZR y0 - IZR margin))%R with (y - IZR y0)%R by lra. exact D2.
  - assert (y0 = 0) by lia. subst y0. assert (y = 0)%R by lra. subst y.
    split; [apply Rabs_le; lra|]. split; [rewrite Rminus_diag_eq by reflexivity; rewrite Rabs_R0; lra|]. split.
    + intros H. destruct (S H) as [-> _]. split; lra.
    + intros H. destruct (D H) as [D1 _]. split; [|rewrite Rminus_diag_eq by lra; rewrite Rabs_R0; lra].
      replace (x - IZR margin - (IZR x0 - IZR margin))%R with (x - IZR x0)%R by lra. exact D1.
  - split; [apply Rabs_le; lra|]. split; [apply Rabs_le; lra|]. split.
    + intros H. destruct (S H) as [-> ->]. split; lra.
    + intros H. destruct (D H) as [D1 D2]. split.
      * replace (x - IZR margin - (IZR x0 - IZR margin))%R with (x - IZR x0)%R by lra. exact D1.
      * replace (y - IZR margin - (IZR y0 - IZR margin))%R with (y - IZR y0)%R by lra. exact D2.
Qed.

(** an exact displacement is found *)
Lemma shift_exact ref mat margin sub meth dim1 size gpu block sched dy dx : 1 <= margin -> fits ref mat ->
  height mat = height ref -> width mat = width ref -> room ref margin NoAxis -> any_launch block sched ->
  - margin <= dy <= margin -> - margin <= dx <= margin ->
  varies (window mat margin margin (height mat - 2 * margin) (width mat - 2 * margin)) ->
  displaced ref mat margin dy dx ->
  (forall dy' dx', - margin <= dy' <= margin -> - margin <= dx' <= margin -> displaced ref mat margin dy' dx' -> dy' = dy /\ dx' = dx) ->
  exists xs ys, find_shift ref mat margin NoAxis sub meth dim1 size gpu block sched = Ok (xs, ys) /\
    (sub = false -> xs = IZR dx /\ ys = IZR dy) /\ (meth <> PolyFit -> Rabs (xs - IZR dx) < 1 /\ Rabs (ys - IZR dy) < 1)%R.
Proof.
  intros M Ft Hh Hw Rm Lo Dy Dx Vr Dis Un.
  destruct (shift_spec ref mat margin NoAxis sub meth dim1 size gpu block sched M Ft Hh Hw Rm Lo)
    as (m & y0 & x0 & xs & ys & E & N & C & F & V & _ & _ & S & D).
  cbn [reach_x reach_y] in *.
  destruct (searched_spec ref mat margin NoAxis M Ft Hh Hw Rm) as (_ & Sh & Sw & Wn). cbn [reach_x reach_y] in *.
  assert (Val : forall i j, 0 <= i < nrow m -> 0 <= j < ncol m ->
     px m i j = pearson (combine (window mat margin margin (height mat - 2 * margin) (width mat - 2 * margin))
                                 (window ref i j (height mat - 2 * margin) (width mat - 2 * margin)))).
  { intros i j Hi Hj. rewrite V by assumption. unfold correlation_at. rewrite Wn, Sh, Sw, Hh, Hw. reflexivity. }
  assert (One1 : px m (margin + dy) (margin + dx) = 1%R).
  { rewrite Val by lia. apply pearson_copy; [exact Vr|exact Dis]. }
  destruct F as (Fy & Fx & Mx & _). pose proof (Mx (margin + dy) (margin + dx) ltac:(lia) ltac:(lia)) as Ge. rewrite One1 in Ge.
  assert (Is1 : px m y0 x0 = 1%R).
  { rewrite Val in Ge |- * by lia. match type of Ge with (_ <= pearson ?l)%R => pose proof (pearson_bounds l) end. lra. }
  rewrite Val in Is1 by lia. apply pearson_one in Is1.
  2:{ rewrite !window_length. destruct Ft as (K & _). rewrite (kind_depth _ _ K). reflexivity. }
  destruct (Un (y0 - margin) (x0 - margin) ltac:(lia) ltac:(lia)) as [Uy Ux].
  { unfold displaced. replace (margin + (y0 - margin)) with y0 by lia. replace (margin + (x0 - margin)) with x0 by lia. exact Is1. }
  exists xs, ys. split; [exact E|]. rewrite Uy, Ux in *. split; [exact S|exact D].
Qed.

(** the returned shift is the best displacement within the margins *)
Lemma shift_best ref mat margin axis sub meth dim1 size gpu block sched : 1 <= margin -> fits ref mat ->
  height mat = height ref -> width mat = width ref -> room ref margin axis -> any_launch block sched ->
  let my := reach_y margin axis in let mx := reach_x margin axis in
  exists xs ys, find_shift ref mat margin axis sub meth dim1 size gpu block sched = Ok (xs, ys) /\
    (Rabs xs <= IZR mx)%R /\ (Rabs ys <= IZR my)%R /\
    exists dy dx, - my <= dy <= my /\ - mx <= dx <= mx /\
      (forall dy' dx', - my <= dy' <= my -> - mx <= dx' <= mx ->
         (similarity ref mat my mx dy' dx' <= similarity ref mat my mx dy dx)%R /\
         (dy' < dy \/ dy' = dy /\ dx' < dx -> (similarity ref mat my mx dy' dx' < similarity ref mat my mx dy dx)%R)) /\
      (sub = false -> xs = IZR dx /\ ys = IZR dy) /\
      (meth <> PolyFit -> Rabs (xs - IZR dx) < 1 /\ Rabs (ys - IZR dy) < 1)%R.
Proof.
  intros M Ft Hh Hw Rm Lo my mx.
  destruct (shift_spec ref mat margin axis sub meth dim1 size gpu block sched M Ft Hh Hw Rm Lo)
    as (m & y0 & x0 & xs & ys & E & N & C & F & V & Bx & By & S & D).
  destruct (searched_spec ref mat margin axis M Ft Hh Hw Rm) as (_ & Sh & Sw & Wn). fold my in N, Sh, Wn, By, S, D. fold mx in C, Sw, Wn, Bx, S, D.
  assert (Val : forall dy dx, - my <= dy <= my -> - mx <= dx <= mx -> px m (my + dy) (mx + dx) = similarity ref mat my mx dy dx).
  { intros dy dx Hy Hx. rewrite V by lia. unfold correlation_at, similarity. rewrite Wn, Sh, Sw, Hh, Hw. reflexivity. }
  exists xs, ys. split; [exact E|]. split; [exact Bx|]. split; [exact By|]. destruct F as (Fy & Fx & Mx & Fi).
  exists (y0 - my), (x0 - mx). split; [lia|]. split; [lia|]. split; [|split; [exact S|exact D] ].
  intros dy' dx' Hy Hx. rewrite <- !Val by lia. replace (my + (y0 - my)) with y0 by lia. replace (mx + (x0 - mx)) with x0 by lia.
  split; [apply Mx; lia|]. intros L. apply Fi; lia.
Qed.

(** a smaller second image: its best place in the reference, relative to the centre *)
Lemma shift_template ref mat margin axis sub meth dim1 size gpu block sched : fits ref mat ->
  ~ (height mat = height ref /\ width mat = width ref) -> any_launch block sched ->
  (match axis with
   | Axis0 => height mat <= height ref - 2 * margin | Axis1 => width mat <= width ref - 2 * margin
   | NoAxis => height mat <= height ref - 2 * margin \/ width mat <= width ref - 2 * margin end) ->
  exists m xs ys x y, generate_correlation_map ref mat gpu block sched = Ok m /\
    find_shift ref mat margin axis sub meth dim1 size gpu block sched = Ok (xs, ys) /\
    locate_peak polyfit2 surface m sub meth (axis_dim axis dim1) size true = Ok (x, y) /\
    xs = (match axis with Axis0 => 0 | _ => x - IZR ((width ref - width mat + 1) / 2) end)%R /\
    ys = (match axis with Axis1 => 0 | _ => y - IZR ((height ref - height mat + 1) / 2) end)%R /\
    exists i j, 0 <= i <= height ref - height mat /\ 0 <= j <= width ref - width mat /\
      (forall i' j', 0 <= i' <= height ref - height mat -> 0 <= j' <= width ref - width mat -> (correlation_at ref mat i' j' <= correlation_at ref mat i j)%R) /\
      (sub = false -> x = IZR j /\ y = IZR i) /\ (meth <> PolyFit -> Rabs (x - IZR j) < 1 /\ Rabs (y - IZR i) < 1)%R /\
      (0 <= x <= IZR (width ref - width mat))%R /\ (0 <= y <= IZR (height ref - height mat))%R.
Proof.
  intros Ft Ne Lo Ck. destruct (search_spec ref mat gpu block sched axis sub meth dim1 size Ft Lo) as (m & x & y & E & N & C & V & L & y0 & x0 & F & Bx & By & S & D).
  assert (Cr : crop_margin ref mat margin axis = (mat, true)).
  { unfold crop_margin. rewrite !shape2_spec. destruct (Z.eqb_spec (height ref) (height mat)), (Z.eqb_spec (width ref) (width mat)); try reflexivity. exfalso. apply Ne. split; lia. }
  assert (K : (match axis with
      | Axis0 => negb (height ref - 2 * margin <? height mat)
      | Axis1 => negb (width ref - 2 * margin <? width mat)
      | NoAxis => negb ((height ref - 2 * margin <? height mat) && (width ref - 2 * margin <? width mat)) end) = true).
  { destruct axis.
    - destruct (Z.ltb_spec (height ref - 2 * margin) (height mat)); [lia|reflexivity].
    - destruct (Z.ltb_spec (width ref - 2 * margin) (width mat)); [lia|reflexivity].
    - destruct (Z.ltb_spec (height ref - 2 * margin) (height mat)), (Z.ltb_spec (width ref - 2 * margin) (width mat)); try reflexivity. lia. }
  eexists m, _, _, x, y. split; [exact E|]. split.
  { unfold find_shift_based_correlation_map. rewrite Cr, !shape2_spec, K, E. cbn [bindr]. unfold axis_dim in L. rewrite L. cbn [bindr fst snd]. reflexivity. }
  split; [exact L|]. rewrite N, C in *. split; [destruct axis; lra|]. split; [destruct axis; lra|].
  destruct F as (Fy & Fx & Mx & _). exists y0, x0. split; [lia|]. split; [lia|]. split.
  { intros i' j' Hi Hj. rewrite <- !V by lia. apply Mx; lia. }
  split; [exact S|]. split; [exact D|]. replace (width ref - width mat + 1 - 1) with (width ref - width mat) in Bx by lia.
  replace (height ref - height mat + 1 - 1) with (height ref - height mat) in By by lia. split; assumption.
Qed.
Lemma shift_template_error ref mat margin axis sub meth dim1 size gpu block sched :
  ~ (height mat = height ref /\ width mat = width ref) ->
  (match axis with
   | Axis0 => height ref - 2 * margin < height mat | Axis1 => width ref - 2 * margin < width mat
   | NoAxis => height ref - 2 * margin < height mat /\ width ref - 2 * margin < width mat end) ->
  find_shift ref mat margin axis sub meth dim1 size gpu block sched = Err ValueError.
Proof.
  intros Ne Ck.
  assert (Cr : crop_margin ref mat margin axis = (mat, true)).
  { unfold crop_margin. rewrite !shape2_spec. destruct (Z.eqb_spec (height ref) (height mat)), (Z.eqb_spec (width ref) (width mat)); try reflexivity. exfalso. apply Ne. split; lia. }
  unfold find_shift_based_correlation_map. rewrite Cr, !shape2_spec. destruct axis.
  - rewrite (proj2 (Z.ltb_lt _ _) Ck). reflexivity.
  - rewrite (proj2 (Z.ltb_lt _ _) Ck). reflexivity.
  - rewrite (proj2 (Z.ltb_lt _ _) (proj1 Ck)), (proj2 (Z.ltb_lt _ _) (proj2 Ck)). reflexivity.
Qed.
Lemma map_too_large ref mat gpu block sched : height ref < height mat \/ width ref < width mat ->
  generate_correlation_map ref mat gpu block sched = Err ValueError.
Proof.
  intros H. unfold generate_correlation_map. rewrite !shape2_spec.
  destruct (Z.ltb_spec (height ref) (height mat)), (Z.ltb_spec (width ref) (width mat)); try lia; reflexivity.
Qed.
End shift.
