(** Theorems about the double-wedge filter (C127). *)
From Coq Require Import Reals Lra ZArith Lia Bool.
From Verif Require Import Np P_Np M_phase_R P_phase_R M_simR P_simR M_fourier P_fourier P_kernel M_fresnel S_fresnel P_fresnel P_fresnel2 M_wedge S_wedge P_wedge P_wedge2.
Open Scope Z_scope.

(** the mask: three rows around zero frequency are kept; in any other row exactly the columns within the wedge are removed *)
Theorem wedge_mask_values : forall height width radius i j n, 0 < height -> 0 < width -> radius <> 0%R -> in_rng height i -> in_rng width j ->
  ceiling (wedge_line height width radius (i - height / 2)) n ->
  let m := make_double_wedge_mask height width radius in
  nrow m = height /\ ncol m = width /\
  (Z.abs (i - height / 2) <= 1 -> px m i j = 1%R) /\
  (1 < Z.abs (i - height / 2) -> Z.abs (j - width / 2) <= Z.abs n -> px m i j = 0%R) /\
  (Z.abs n < Z.abs (j - width / 2) -> px m i j = 1%R).
Proof.
  intros height width radius i j n Hh Hw Hr Hi Hj Hn m. unfold m. rewrite (mask_at height width radius i j n Hh Hw Hr Hi Hj Hn).
  split; [reflexivity|]. split; [reflexivity|].
  destruct (Z.leb_spec (Z.abs (i - height / 2)) 1), (Z.leb_spec (Z.abs (j - width / 2)) (Z.abs n)); repeat split; intros; try reflexivity; lia.
Qed.
Print Assumptions wedge_mask_values.
Example ex_ceiling : ceiling (wedge_line 8 8 4 2) 1 /\ ceiling (wedge_line 8 8 4 (- 2)) 0.
Proof.
  assert (P3 := PI2_3_2). assert (P4 := PI_4). unfold ceiling, wedge_line.
  assert (E : forall k : R, (k * (8 - 1) * 8 / (2 * PI * 8 * 4) = k * (7 / 8) * / PI)%R) by (intros k; field; lra). rewrite !E.
  assert (I1 : (0 < / PI)%R) by (apply Rinv_0_lt_compat; lra). assert (I2 : (/ PI < / 3)%R) by (apply Rinv_lt_contravar; lra). lra.
Qed.

(** The mask treats a frequency and its opposite, which always come together in a real image, in the same way: refuted. *)
Theorem wedge_mask_symmetric_refuted : ~ (forall height width radius u v, 0 < height -> 0 < width -> (0 < radius)%R -> inside height width u v ->
  weight (make_double_wedge_mask height width radius) u v = weight (make_double_wedge_mask height width radius) (- u) (- v)).
Proof.
  intros H. specialize (H 8 8 4%R 2 1 ltac:(lia) ltac:(lia) ltac:(lra) ltac:(unfold inside; lia)). unfold weight in H. cbn [nrow ncol make_double_wedge_mask] in H.
  fold (make_double_wedge_mask 8 8 4) in H. destruct ex_ceiling as (C1 & C2). change (8 / 2 + 2) with 6 in H. change (8 / 2 + 1) with 5 in H. change (8 / 2 + - (2)) with 2 in H. change (8 / 2 + - (1)) with 3 in H.
  rewrite (mask_at 8 8 4 6 5 1) in H; [|lia|lia|lra|unfold in_rng; lia|unfold in_rng; lia|exact C1].
  rewrite (mask_at 8 8 4 2 3 0) in H; [|lia|lia|lra|unfold in_rng; lia|unfold in_rng; lia|exact C2]. cbn in H. lra.
Qed.
Print Assumptions wedge_mask_symmetric_refuted.

Lemma weight_at height width radius u v n : 0 < height -> 0 < width -> radius <> 0%R -> inside height width u v -> ceiling (wedge_line height width radius u) n ->
  weight (make_double_wedge_mask height width radius) u v = (if Z.abs u <=? 1 then 1%R else if Z.abs v <=? Z.abs n then 0%R else 1%R).
Proof.
  intros Hh Hw Hr (Hu & Hv) Hn. unfold weight. cbn [nrow ncol make_double_wedge_mask]. fold (make_double_wedge_mask height width radius).
  assert (X := Z.div_mod height 2 ltac:(lia)). assert (Y := Z.mod_pos_bound height 2 ltac:(lia)). assert (X' := Z.div_mod width 2 ltac:(lia)). assert (Y' := Z.mod_pos_bound width 2 ltac:(lia)).
  assert (E1 : height / 2 + u - height / 2 = u) by lia. assert (E2 : width / 2 + v - width / 2 = v) by lia.
  rewrite (mask_at height width radius _ _ n); [|lia|lia|exact Hr|unfold in_rng; lia|unfold in_rng; lia|rewrite E1; exact Hn]. rewrite E1, E2. reflexivity.
Qed.
(** left and right are treated in the same way, and the wedge of a row and that of the opposite row differ by at most one pixel *)
Theorem wedge_mask_symmetric_partial : forall height width radius u v, 0 < height -> 0 < width -> (0 < radius)%R -> inside height width u v ->
  let m := make_double_wedge_mask height width radius in
  weight m u (- v) = weight m u v /\
  (forall v', inside height width u v' -> Z.abs v' = Z.abs v + 1 -> weight m u v' = 0%R -> weight m (- u) (- v) = 0%R).
Proof.
  intros height width radius u v Hh Hw Hr HI m. unfold m. assert (Hr' : radius <> 0%R) by lra. assert (HI' : inside height width u (- v)) by (unfold inside in *; lia). assert (HN : inside height width (- u) (- v)) by (unfold inside in *; lia).
  set (x := wedge_line height width radius u). assert (C := rceil_spec x). assert (D := rceil_spec (wedge_line height width radius (- u))).
  rewrite (weight_at height width radius u (- v) _ Hh Hw Hr' HI' C), (weight_at height width radius u v _ Hh Hw Hr' HI C). split; [rewrite Z.abs_opp; reflexivity|].
  intros v' Hv' E W. rewrite (weight_at height width radius (- u) (- v) _ Hh Hw Hr' HN D). rewrite !Z.abs_opp. rewrite (weight_at height width radius u v' _ Hh Hw Hr' Hv' C) in W.
  destruct (Z.abs u <=? 1); [lra|]. destruct (Z.leb_spec (Z.abs v') (Z.abs (rceil x))) as [L|]; [|lra]. clear W.
  assert (NE : wedge_line height width radius (- u) = (- x)%R) by (unfold x, wedge_line; rewrite opp_IZR; unfold Rdiv; ring). rewrite NE in *. set (n := rceil x) in *. set (k := rceil (- x)) in *.
  destruct C as [C1 C2], D as [D1 D2]. assert (IZR n + IZR k < 2)%R by lra. assert (0 <= IZR n + IZR k)%R by lra. rewrite <- plus_IZR in *. apply lt_IZR in H. apply le_IZR in H0.
  destruct (Z.leb_spec (Z.abs v) (Z.abs k)); [reflexivity|]. lia.
Qed.
Print Assumptions wedge_mask_symmetric_partial.

(** the function: the shape of the sinogram is kept; the ValueErrors *)
Theorem wedge_filter_shape : forall shift sino center stype iteration mask ratio pad, 0 < nrow sino -> 0 < ncol sino ->
  (forall m x, nrow (shift m x) = nrow m /\ ncol (shift m x) = ncol m) ->
  let rows := match stype with Type180 => 2 * nrow sino - 1 | _ => nrow sino end in
  let usable := forall m, mask = Some m -> nrow m = rows /\ ncol m = ncol sino + 2 * pad in
  (stype <> OtherType -> (stype = Type180 -> center <> 0%R) -> usable -> 0 <= pad ->
     exists out, double_wedge_filter shift sino center stype iteration mask ratio pad = Ok out /\ nrow out = nrow sino /\ ncol out = ncol sino) /\
  (stype = OtherType \/ (stype = Type180 /\ center = 0%R) \/ ~ usable \/ (pad < 0 /\ 0 < iteration) ->
     double_wedge_filter shift sino center stype iteration mask ratio pad = Err ValueError).
Proof.
  intros shift sino center stype iteration mask ratio pad Hr Hc HS rows usable.
  assert (T : nrow (to_360 shift sino center) = 2 * nrow sino - 1 /\ ncol (to_360 shift sino center) = ncol sino).
  { unfold to_360. cbn [nrow ncol islice]. split; [|reflexivity]. destruct (HS (ifliplr (shift sino ((IZR (ncol sino) - 1) / 2 - center))%R) (- ((IZR (ncol sino) - 1) / 2 - center))%R) as (-> & _). cbn [ifliplr nrow].
    destruct (HS sino ((IZR (ncol sino) - 1) / 2 - center)%R) as (-> & _). unfold slen, py_adj. destruct (Z.ltb_spec 1 0), (Z.ltb_spec (nrow sino) 0); lia. }
  set (s := match stype with Type180 => to_360 shift sino center | _ => sino end).
  assert (S : nrow s = rows /\ ncol s = ncol sino) by (unfold s, rows; destruct stype; [exact T|split; reflexivity|split; reflexivity]).
  destruct S as (S1 & S2). assert (R0 : nrow sino <= rows) by (unfold rows; destruct stype; lia).
  set (msel := match mask with None => Ok (make_double_wedge_mask rows (ncol sino + 2 * pad) (ratio * IZR (ncol sino) / 2)%R) | Some m => if (nrow m =? rows) && (ncol m =? ncol sino + 2 * pad) then Ok m else Err ValueError end).
  assert (U : usable -> exists m, msel = Ok m).
  { intros U. unfold msel. destruct mask as [m|]; [|eexists; reflexivity]. destruct (U m eq_refl) as (A & B). exists m. rewrite A, B, !Z.eqb_refl. reflexivity. }
  assert (NU : ~ usable -> msel = Err ValueError).
  { intros N. unfold msel. destruct mask as [m|]; [|exfalso; apply N; intros m Q; discriminate]. destruct (Z.eqb_spec (nrow m) rows) as [E1|]; [|reflexivity]. destruct (Z.eqb_spec (ncol m) (ncol sino + 2 * pad)) as [E2|]; [|reflexivity].
    exfalso. apply N. intros m' Q. assert (Q' : m' = m) by congruence. rewrite Q'. split; assumption. }
  assert (F : double_wedge_filter shift sino center stype iteration mask ratio pad =
    match stype with OtherType => Err ValueError | Type180 => if Req_EM_T center 0 then Err ValueError else
       do m <- msel; if (0 <? iteration) && (pad <? 0) then Err ValueError else let f := Nat.iter (Z.to_nat iteration) (wedge_step m pad) s in Ok (islice f 0 (nrow sino) 0 (ncol f))
    | Type360 => do m <- msel; if (0 <? iteration) && (pad <? 0) then Err ValueError else Ok (Nat.iter (Z.to_nat iteration) (wedge_step m pad) s) end).
  { unfold double_wedge_filter, msel. destruct stype; [|reflexivity|reflexivity]. destruct (Req_EM_T center 0); [reflexivity|]. cbn [bindr]. cbv zeta. unfold s in S1, S2. rewrite S1, S2. reflexivity. }
  rewrite F. clear F. clearbody msel. split.
  - intros N1 N2 HU Hp. destruct (U HU) as (m & ->). destruct (iter_size (Z.to_nat iteration) m pad s Hp ltac:(lia) ltac:(lia)) as (A & B).
    cbn [bindr]. replace (pad <? 0) with false by lia. rewrite andb_false_r. destruct stype; [|eexists; split; [reflexivity|]; rewrite A, B; split; assumption|contradiction N1; reflexivity].
    destruct (Req_EM_T center 0) as [E|_]; [contradiction (N2 eq_refl)|]. eexists. split; [reflexivity|]. cbv zeta. cbn [islice nrow ncol]. rewrite A, B, S1, S2. rewrite !slen_id by lia. split; lia.
  - intros [->|[(-> & ->)|[N|(N1 & N2)] ] ]; [reflexivity|destruct (Req_EM_T 0 0); [reflexivity|contradiction]| |].
    + rewrite (NU N). destruct stype; try reflexivity. destruct (Req_EM_T center 0); reflexivity.
    + replace (0 <? iteration) with true by lia. replace (pad <? 0) with true by lia. cbn [andb]. assert (V : forall A (x : res A) (y : res (img R)), (x = Err ValueError \/ exists m, x = Ok m) -> y = Err ValueError -> bindr x (fun _ => y) = Err ValueError)
        by (intros A x y [->|(m & ->)] ->; reflexivity).
      assert (M : msel = Err ValueError \/ exists m, msel = Ok m).
      { destruct mask as [m|].
        - destruct (Z.eq_dec (nrow m) rows), (Z.eq_dec (ncol m) (ncol sino + 2 * pad)); try (left; apply NU; intros U'; destruct (U' m eq_refl); contradiction).
          right. apply U. intros m' Q. assert (Q' : m' = m) by congruence. rewrite Q'. split; assumption.
        - right. apply U. intros m' Q. discriminate. }
      destruct stype; [destruct (Req_EM_T center 0); [reflexivity|]| |reflexivity]; apply V; try exact M; reflexivity.
Qed.
Print Assumptions wedge_filter_shape.

(** no iteration: the sinogram itself *)
Theorem wedge_filter_no_iteration : forall shift sino center iteration mask ratio pad out, iteration <= 0 ->
  double_wedge_filter shift sino center Type360 iteration mask ratio pad = Ok out -> out = sino.
Proof. intros shift sino center iteration mask ratio pad out Hi O. destruct (wedge_cases _ _ _ _ _ _ _ _ O) as (_ & _ & [(_ & E)|(N & _)]); [exact E|lia]. Qed.
Print Assumptions wedge_filter_no_iteration.
(** a mask of ones changes nothing *)
Theorem wedge_filter_ones : forall shift sino center iteration mask ratio pad out, 0 < nrow sino -> 0 < ncol sino ->
  (forall i j, in_rng (nrow mask) i -> in_rng (ncol mask) j -> px mask i j = 1%R) ->
  double_wedge_filter shift sino center Type360 iteration (Some mask) ratio pad = Ok out -> img_eq out sino.
Proof.
  intros shift sino center iteration mask ratio pad out Hr Hc HM O. destruct (wedge_cases _ _ _ _ _ _ _ _ O) as (A & B & _). cbn [mask_of] in A, B. rewrite A, B in HM.
  apply (wedge_inv shift sino center iteration (Some mask) ratio pad out (fun x => img_eq x sino) Hr Hc O); [repeat split; reflexivity|].
  intros x Hp E1 E2 (_ & _ & E3). cbn [mask_of]. destruct (wstep_ones mask pad x Hp) as (X1 & X2 & X3); [lia|lia|rewrite E1, E2; exact HM|].
  split; [congruence|]. split; [congruence|]. intros i j Hi Hj. rewrite X3 by assumption. apply E3; congruence.
Qed.
Print Assumptions wedge_filter_ones.
(** the filter is linear in the sinogram *)
Theorem wedge_filter_linear : forall shift m1 m2 m3 a b center iteration mask ratio pad out1 out2 out3, 0 < nrow m1 -> 0 < ncol m1 -> combination a b m1 m2 m3 ->
  double_wedge_filter shift m1 center Type360 iteration mask ratio pad = Ok out1 -> double_wedge_filter shift m2 center Type360 iteration mask ratio pad = Ok out2 ->
  double_wedge_filter shift m3 center Type360 iteration mask ratio pad = Ok out3 -> combination a b out1 out2 out3.
Proof.
  intros shift m1 m2 m3 a b center iteration mask ratio pad o1 o2 o3 Hr Hc C O1 O2 O3. assert (C' := C). destruct C' as (R1 & R2 & R3 & R4 & _).
  destruct (wedge_cases _ _ _ _ _ _ _ _ O1) as (_ & _ & K1). destruct (wedge_cases _ _ _ _ _ _ _ _ O2) as (_ & _ & K2). destruct (wedge_cases _ _ _ _ _ _ _ _ O3) as (_ & _ & K3).
  destruct K1 as [(L1 & ->)|(L1 & Hp & ->)], K2 as [(L2 & ->)|(L2 & _ & ->)], K3 as [(L3 & ->)|(L3 & _ & ->)]; try lia; [exact C|]. clear O1 O2 O3. rewrite R3, R4, <- R1, <- R2.
  set (m := mask_of mask (nrow m1) (ncol m1) pad ratio). clearbody m. clear R1 R2 R3 R4. induction (Z.to_nat iteration) as [|k IH]; [exact C|]. cbn [Nat.iter nat_rect].
  fold (Nat.iter k (wedge_step m pad) m1) (Nat.iter k (wedge_step m pad) m2) (Nat.iter k (wedge_step m pad) m3). destruct (iter_size k m pad m1 Hp ltac:(lia) ltac:(lia)) as (A & B). apply wstep_lin; [exact Hp|lia|lia|exact IH].
Qed.
Print Assumptions wedge_filter_linear.
(** with the default mask the sum of every column (the average over the angles) stays as it is, and a sinogram whose rows are all the same is returned unchanged *)
Theorem wedge_filter_keeps_averages : forall shift sino center iteration ratio pad out, 0 < nrow sino -> 0 < ncol sino -> ratio <> 0%R ->
  double_wedge_filter shift sino center Type360 iteration None ratio pad = Ok out ->
  (forall j, in_rng (ncol sino) j -> column_sum out j = column_sum sino j) /\ (equal_rows sino -> img_eq out sino).
Proof.
  intros shift sino center iteration ratio pad out Hr Hc Hq O. split.
  - intros j Hj. apply (wedge_inv shift sino center iteration None ratio pad out (fun x => column_sum x j = column_sum sino j) Hr Hc O); [reflexivity|].
    intros x Hp E1 E2 E3. rewrite wstep_column; [exact E3|exact Hp|lia|lia|rewrite E2; exact Hj|]. intros v Hv. rewrite E1. apply default_middle; try assumption. rewrite <- E2. exact Hv.
  - intros HE. apply (wedge_inv shift sino center iteration None ratio pad out (fun x => img_eq x sino) Hr Hc O); [repeat split; reflexivity|].
    intros x Hp E1 E2 (_ & _ & E3). destruct (wstep_equal_rows (mask_of None (nrow sino) (ncol sino) pad ratio) pad x Hp) as (X1 & X2 & X3).
    + lia.
    + lia.
    + intros i i' j Hi Hi' Hj. rewrite !E3 by assumption. rewrite E1 in Hi, Hi'. rewrite E2 in Hj. apply HE; assumption.
    + intros v Hv. rewrite E1. apply default_middle; try assumption. rewrite <- E2. exact Hv.
    + split; [congruence|]. split; [congruence|]. intros i j Hi Hj. rewrite X3 by assumption. apply E3; congruence.
Qed.
Print Assumptions wedge_filter_keeps_averages.
(** half a turn of the sinogram turns the result (any mask), a mirror image gives the mirror image (default mask) *)
Theorem wedge_filter_half_turn : forall shift s t center iteration mask ratio pad out out', 0 < nrow s -> 0 < ncol s -> half_turned s t ->
  double_wedge_filter shift s center Type360 iteration mask ratio pad = Ok out -> double_wedge_filter shift t center Type360 iteration mask ratio pad = Ok out' -> half_turned out out'.
Proof.
  intros shift s t center iteration mask ratio pad out out' Hr Hc H O O'. assert (H' := H). destruct H' as (E1 & E2 & _).
  apply (wedge_rel shift shift s t center center iteration mask ratio pad out out' half_turned Hr Hc E1 E2 O O' H). intros x y Hp X1 X2 Y1 Y2 HT. apply wstep_half_turn; try assumption; lia.
Qed.
Print Assumptions wedge_filter_half_turn.
Theorem wedge_filter_mirror : forall shift s t center iteration ratio pad out out', 0 < nrow s -> 0 < ncol s -> ratio <> 0%R -> mirrored s t ->
  double_wedge_filter shift s center Type360 iteration None ratio pad = Ok out -> double_wedge_filter shift t center Type360 iteration None ratio pad = Ok out' -> mirrored out out'.
Proof.
  intros shift s t center iteration ratio pad out out' Hr Hc Hq H O O'. assert (H' := H). destruct H' as (E1 & E2 & _).
  apply (wedge_rel shift shift s t center center iteration None ratio pad out out' mirrored Hr Hc E1 E2 O O' H). intros x y Hp X1 X2 Y1 Y2 HT. apply wstep_mirror; try assumption; [lia|lia|].
  rewrite X1, X2. intros u v Hu Hv. cbn [mask_of]. apply default_flip; try assumption; [lia|].
  assert (IZR (ncol s) <> 0)%R by (apply not_0_IZR; lia). intros E. assert (P : (ratio * IZR (ncol s) = 0)%R) by lra. destruct (Rmult_integral _ _ P); contradiction.
Qed.
Print Assumptions wedge_filter_mirror.

(** Without padding every wave of the sinogram is either kept (outside the wedge) or removed (inside it): refuted. *)
Definition kept_or_removed : Prop := forall shift sino center ratio out u v amp f, 0 < nrow sino -> 0 < ncol sino -> (0 < ratio)%R ->
  inside (nrow sino) (ncol sino) u v -> is_wave sino u v amp f -> double_wedge_filter shift sino center Type360 1 None ratio 0 = Ok out ->
  img_eq out sino \/ (forall i j, in_rng (nrow sino) i -> in_rng (ncol sino) j -> px out i j = 0%R).
(** what happens to a wave with u periods over the angles and v over the width: with x the exact half-width of the wedge at u,
    it is kept if |u| <= 1 or |v| >= x + 1, removed if |v| <= x, and halved in every iteration if x < |v| < x + 1 *)
Theorem wedge_filter_waves_partial : forall shift sino center iteration ratio out u v amp f, 0 < nrow sino -> 0 < ncol sino -> (0 < ratio)%R -> 0 < iteration ->
  inside (nrow sino) (ncol sino) u v -> is_wave sino u v amp f -> double_wedge_filter shift sino center Type360 iteration None ratio 0 = Ok out ->
  let x := wedge_line (nrow sino) (ncol sino) (ratio * IZR (ncol sino) / 2)%R (Z.abs u) in
  nrow out = nrow sino /\ ncol out = ncol sino /\ forall i j, in_rng (nrow sino) i -> in_rng (ncol sino) j ->
  (Z.abs u <= 1 \/ (x + 1 <= IZR (Z.abs v))%R -> px out i j = px sino i j) /\
  (1 < Z.abs u -> (IZR (Z.abs v) <= x)%R -> px out i j = 0%R) /\
  (1 < Z.abs u -> (x < IZR (Z.abs v) < x + 1)%R -> px out i j = ((1 / 2) ^ Z.to_nat iteration * px sino i j)%R).
Proof.
  intros shift sino center iteration ratio out u v amp f Hr Hc Hq Hit HI HW O x. destruct (wedge_cases _ _ _ _ _ _ _ _ O) as (A & B & K). cbn [mask_of] in A, B, K.
  destruct K as [(N & _)|(_ & _ & ->)]; [lia|]. clear O. replace (ncol sino + 2 * 0) with (ncol sino) in * by lia.
  set (h := nrow sino) in *. set (w := ncol sino) in *. set (r := (ratio * IZR w / 2)%R) in *. set (m := make_double_wedge_mask h w r) in *.
  assert (W0 : (0 < IZR w)%R) by (apply IZR_lt; lia). assert (Hr0 : (0 < r)%R) by (unfold r; assert (0 < ratio * IZR w)%R by (apply Rmult_lt_0_compat; assumption); lra).
  destruct (iter_size (Z.to_nat iteration) m 0 sino ltac:(lia) ltac:(lia) ltac:(lia)) as (S1 & S2). split; [exact S1|]. split; [exact S2|]. intros i j Hi Hj.
  rewrite (iter_wave (Z.to_nat iteration) m sino u v amp f i j Hr Hc A B HI HW Hi Hj).
  assert (X0 : (0 <= x)%R).
  { unfold x, wedge_line. apply Rmult_le_pos; [apply Rmult_le_pos; [apply Rmult_le_pos|] |].
    - apply IZR_le. lia.
    - assert (1 <= IZR h)%R by (apply IZR_le; lia). lra.
    - lra.
    - apply Rlt_le, Rinv_0_lt_compat. assert (0 < IZR h)%R by (apply IZR_lt; lia). assert (Pp := PI_RGT_0). apply Rmult_lt_0_compat; [apply Rmult_lt_0_compat; [lra|assumption]|exact Hr0]. }
  assert (SG : forall k, wedge_line h w r (- k) = (- wedge_line h w r k)%R) by (intros k; unfold wedge_line; rewrite opp_IZR; unfold Rdiv; ring).
  assert (Q : ((weight m u v + weight m (- u) (- v)) / 2 = (weight m (Z.abs u) v + weight m (- Z.abs u) v) / 2)%R).
  { assert (LR : forall a b, inside h w a b -> weight m a (- b) = weight m a b) by (intros a b HH; unfold m; apply (wedge_mask_symmetric_partial h w r a b Hr Hc Hr0 HH)).
    rewrite (LR (- u) v) by (unfold inside in *; lia). destruct (Z.abs_spec u) as [(_ & ->)|(_ & ->)]; [reflexivity|]. rewrite Z.opp_involutive. f_equal. ring. }
  rewrite Q. clear Q. set (k := Z.abs u) in *. assert (HIk : inside h w k v) by (unfold inside, k in *; lia). assert (HIk' : inside h w (- k) v) by (unfold inside, k in *; lia).
  assert (C := rceil_spec x). set (n := rceil x) in *. assert (D : ceiling (wedge_line h w r (- k)) (rceil (- x))) by (rewrite SG; apply rceil_spec). set (n' := rceil (- x)) in *.
  assert (D' : ceiling (- x) n') by apply rceil_spec.
  assert (Hne : r <> 0%R) by lra. unfold m. rewrite (weight_at h w r k v n Hr Hc Hne HIk C), (weight_at h w r (- k) v n' Hr Hc Hne HIk' D).
  rewrite Z.abs_opp. replace (Z.abs k) with k by (unfold k; lia). destruct C as [C1 C2], D' as [D1 D2].
  assert (Nn : 0 <= n) by (assert (-1 < IZR n)%R by lra; assert (-1 < n) by (apply lt_IZR; lra); lia).
  assert (Nn' : n' <= 0) by (assert (IZR n' < 1)%R by lra; assert (n' < 1) by (apply lt_IZR; lra); lia).
  assert (AN : IZR (Z.abs n') = (- IZR n')%R) by (rewrite Z.abs_neq by lia; apply opp_IZR).
  replace (Z.abs n) with n by lia.
  assert (LE : forall a b, (IZR a < IZR b + 1)%R -> a <= b) by (intros a b L; rewrite <- plus_IZR in L; apply lt_IZR in L; lia).
  assert (LT : forall a b, (IZR a < IZR b)%R -> a < b) by (intros a b; apply lt_IZR).
  split; [|split].
  - intros [L|L].
    + replace (k <=? 1) with true by lia. replace ((1 + 1) / 2)%R with 1%R by lra. rewrite pow1. ring.
    + assert (n < Z.abs v) by (apply LT; lra). assert (Z.abs n' < Z.abs v) by (apply LT; rewrite AN; lra). replace (Z.abs v <=? n) with false by lia. replace (Z.abs v <=? Z.abs n') with false by lia.
      destruct (k <=? 1); replace ((1 + 1) / 2)%R with 1%R by lra; rewrite pow1; ring.
  - intros L1 L2. replace (k <=? 1) with false by lia. assert (Z.abs v <= n) by (apply LE; lra). assert (Z.abs v <= Z.abs n') by (apply LE; rewrite AN; lra).
    replace (Z.abs v <=? n) with true by lia. replace (Z.abs v <=? Z.abs n') with true by lia. replace ((0 + 0) / 2)%R with 0%R by lra. rewrite pow_i by lia. ring.
  - intros L1 (L2 & L3). replace (k <=? 1) with false by lia. assert (Z.abs v <= n) by (apply LE; lra). assert (Z.abs n' < Z.abs v) by (apply LT; rewrite AN; lra).
    replace (Z.abs v <=? n) with true by lia. replace (Z.abs v <=? Z.abs n') with false by lia. replace ((0 + 1) / 2)%R with (1 / 2)%R by lra. reflexivity.
Qed.
Print Assumptions wedge_filter_waves_partial.
Definition wave_2_1 : img R := mkimg 8 8 (fun i j => 1 * cos (2 * PI * (IZR (2 * i) / IZR 8 + IZR (1 * j) / IZR 8) + 0))%R.
Theorem wedge_filter_waves_refuted : ~ kept_or_removed.
Proof.
  intros H. set (sh := fun (m : img R) (_ : R) => m).
  destruct (proj1 (wedge_filter_shape sh wave_2_1 0%R Type360 1 None 1 0 ltac:(cbn; lia) ltac:(cbn; lia) ltac:(intros; split; reflexivity)) ltac:(discriminate) ltac:(discriminate) ltac:(intros m Q; discriminate) ltac:(lia)) as (out & O & S1 & S2).
  assert (HI : inside (nrow wave_2_1) (ncol wave_2_1) 2 1) by (cbn; unfold inside; lia). assert (HW : is_wave wave_2_1 2 1 1 0) by (intros i j _ _; reflexivity).
  assert (H1 := H sh wave_2_1 0%R 1%R out 2 1 1%R 0%R ltac:(cbn; lia) ltac:(cbn; lia) ltac:(lra) HI HW O).
  destruct (wedge_filter_waves_partial sh wave_2_1 0%R 1 1%R out 2 1 1%R 0%R ltac:(cbn; lia) ltac:(cbn; lia) ltac:(lra) ltac:(lia) HI HW O) as (_ & _ & V).
  assert (Z0 : in_rng (nrow wave_2_1) 0) by (cbn; unfold in_rng; lia). assert (Z1 : in_rng (ncol wave_2_1) 0) by (cbn; unfold in_rng; lia).
  destruct (V 0 0 Z0 Z1) as (_ & _ & V3). clear V. destruct ex_ceiling as (C & C0). cbn [nrow ncol wave_2_1] in V3. change (Z.abs 2) with 2 in V3. change (Z.abs 1) with 1 in V3. replace (1 * 8 / 2)%R with 4%R in V3 by lra.
  assert (N2 : wedge_line 8 8 4 (- 2) = (- wedge_line 8 8 4 2)%R) by (unfold wedge_line, Rdiv; ring). rewrite N2 in C0. unfold ceiling in C, C0. destruct C as [C1 C2].
  assert (V4 := V3 ltac:(lia)). clear V3. assert (LT1 : (wedge_line 8 8 4 2 < 1)%R).
  { assert (P3 := PI2_3_2). assert (P4 := PI_4). unfold wedge_line. replace (2 * (8 - 1) * 8 / (2 * PI * 8 * 4))%R with (7 / 4 * / PI)%R by (field; lra). assert (/ PI < / 3)%R by (apply Rinv_lt_contravar; lra). lra. }
  assert (GT0 : (0 < wedge_line 8 8 4 2)%R) by lra. specialize (V4 ltac:(lra)).
  assert (W1 : px wave_2_1 0 0 = 1%R) by (cbn [px wave_2_1]; rewrite !Z.mul_0_r; replace (2 * PI * (0 / 8 + 0 / 8) + 0)%R with 0%R by lra; rewrite cos_0; lra).
  rewrite W1 in V4. change (Z.to_nat 1) with 1%nat in V4. rewrite pow_1 in V4. destruct H1 as [(_ & _ & E)|E].
  - rewrite (E 0 0) in V4; [|rewrite S1; exact Z0|rewrite S2; exact Z1]. rewrite W1 in V4. lra.
  - rewrite (E 0 0 Z0 Z1) in V4. lra.
Qed.
Print Assumptions wedge_filter_waves_refuted.

(** a 180-degree sinogram: the filter for 360 degrees is applied to the sinogram followed by its mirrored rows (from the second one on), and the first rows are returned *)
Theorem wedge_filter_180 : forall shift sino center iteration mask ratio pad out, 0 < nrow sino -> 0 < ncol sino ->
  (forall m x, nrow (shift m x) = nrow m /\ ncol (shift m x) = ncol m) -> 0 <= pad ->
  double_wedge_filter shift sino center Type180 iteration mask ratio pad = Ok out ->
  exists big big_out, nrow big = 2 * nrow sino - 1 /\ ncol big = ncol sino /\
    (forall i j, in_rng (nrow sino) i -> in_rng (ncol sino) j -> px big i j = px sino i j) /\
    (let d := ((IZR (ncol sino) - 1) / 2 - center)%R in forall i j, 1 <= i < nrow sino -> in_rng (ncol sino) j ->
       px big (nrow sino - 1 + i) j = px (shift (ifliplr (shift sino d)) (- d)%R) i j) /\
    (center = ((IZR (ncol sino) - 1) / 2)%R -> (forall m x i j, x = 0%R -> px (shift m x) i j = px m i j) ->
       forall i j, 1 <= i < nrow sino -> in_rng (ncol sino) j -> px big (nrow sino - 1 + i) j = px sino i (ncol sino - 1 - j)) /\
    double_wedge_filter shift big center Type360 iteration mask ratio pad = Ok big_out /\
    (forall i j, in_rng (nrow sino) i -> in_rng (ncol sino) j -> px out i j = px big_out i j).
Proof.
  intros shift sino center iteration mask ratio pad out Hr Hc HS Hp O. unfold double_wedge_filter in O. destruct (Req_EM_T center 0) as [|NC]; [discriminate|]. cbn [bindr] in O. cbv zeta in O.
  set (d := ((IZR (ncol sino) - 1) / 2 - center)%R). set (flip := shift (ifliplr (shift sino d)) (- d)%R).
  assert (F : nrow flip = nrow sino /\ ncol flip = ncol sino).
  { unfold flip. destruct (HS (ifliplr (shift sino d)) (- d)%R) as (-> & ->). cbn [ifliplr nrow ncol]. apply HS. }
  destruct F as (F1 & F2). set (big := to_360 shift sino center) in *.
  assert (B1 : nrow big = 2 * nrow sino - 1).
  { unfold big, to_360. cbn [nrow islice]. fold d. fold flip. rewrite F1. rewrite slen_id by lia. lia. }
  assert (B2 : ncol big = ncol sino) by reflexivity.
  assert (BV : forall i j, 1 <= i < nrow sino -> in_rng (ncol sino) j -> px big (nrow sino - 1 + i) j = px flip i j).
  { intros i j Hi Hj. unfold big, to_360. cbn [px islice]. fold d. fold flip. destruct (Z.ltb_spec (nrow sino - 1 + i) (nrow sino)); [lia|]. rewrite F1, F2. rewrite !py_adj_id by lia. f_equal; lia. }
  set (rest := match mask with None => _ | Some m => _ end) in O. destruct rest as [m|e] eqn:ER; [|discriminate]. cbn [bindr] in O.
  destruct ((0 <? iteration) && (pad <? 0)) eqn:EP; [discriminate|]. set (bo := Nat.iter (Z.to_nat iteration) (wedge_step m pad) big) in *.
  exists big, bo. split; [exact B1|]. split; [exact B2|]. split.
  { intros i j Hi Hj. unfold in_rng in Hi. unfold big, to_360. cbn [px]. destruct (Z.ltb_spec i (nrow sino)); [reflexivity|lia]. }
  split; [exact BV|]. split.
  { intros EC SZ i j Hi Hj. rewrite BV by assumption. assert (D0 : d = 0%R) by (unfold d; lra). unfold flip. rewrite SZ by lra. cbn [ifliplr px]. rewrite SZ by exact D0. destruct (HS sino d) as (_ & ->). f_equal. }
  split.
  { unfold double_wedge_filter. cbn [bindr]. cbv zeta. fold rest. rewrite ER. cbn [bindr]. rewrite EP. reflexivity. }
  intros i j Hi Hj. match type of O with Ok ?X = Ok ?Y => assert (E : Y = X) by congruence end. rewrite E. cbn [islice px].
  destruct (iter_size (Z.to_nat iteration) m pad big Hp ltac:(lia) ltac:(lia)) as (S1 & S2). fold bo in S1, S2. unfold in_rng in *. rewrite !py_adj_id by lia. rewrite !Z.add_0_l. reflexivity.
Qed.
Print Assumptions wedge_filter_180.
Example ex_wedge : exists out, double_wedge_filter (fun m _ => m) wave_2_1 3%R Type180 5 None 1 2 = Ok out /\ nrow out = 8 /\ ncol out = 8.
Proof.
  apply (proj1 (wedge_filter_shape (fun m _ => m) wave_2_1 3%R Type180 5 None 1 2 ltac:(cbn; lia) ltac:(cbn; lia) ltac:(intros; split; reflexivity))); [discriminate|intros _; lra|intros m Q; discriminate|lia].
Qed.
