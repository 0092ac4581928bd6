(** Proofs about maps of local shifts on a GPU: sub-pixel peaks against the CPU. *)
From Coq Require Import Reals Lra ZArith Lia Permutation FunctionalExtensionality.
From Verif Require Import Np P_Np M_phase_R P_phase_R M_corr S_corr P_corr P_corr2 P_corr3 P_corr4 M_local S_local P_peakext P_local P_local2 P_local3 P_local4 P_local5 P_local6 P_local7 P_local8.
From Coq Require Import List. Import ListNotations.
Open Scope Z_scope.

Lemma first_max2_unique m y x y' x' : first_max2 m y x -> first_max2 m y' x' -> y = y' /\ x = x'.
Proof. intros F F'. pose proof (argmax2_is m y x F) as E. rewrite (argmax2_is m y' x' F') in E. injection E as -> ->. auto. Qed.
Lemma first_max2_ext m m' y x : img_eq m m' -> first_max2 m y x -> first_max2 m' y x.
Proof.
  intros (N & C & E) (Y & X & M & F). unfold in_rng in E. unfold first_max2. rewrite <- N, <- C. split; [exact Y|]. split; [exact X|].
  split; intros i j Hi Hj; rewrite <- !E by lia; [apply M|apply F]; assumption.
Qed.
Lemma kernel_ext m m' y x : img_eq m m' -> 0 <= y < nrow m -> 0 <= x < ncol m -> locate_2d_peak_kernel m x y = locate_2d_peak_kernel m' x y.
Proof.
  intros (N & C & E) Y X. unfold in_rng in E. unfold locate_2d_peak_kernel. rewrite <- N, <- C.
  assert (Ec : px m' y x = px m y x) by (symmetry; apply E; lia).
  destruct (Z.eqb_spec y 0), (Z.eqb_spec y (nrow m - 1)), (Z.eqb_spec x 0), (Z.eqb_spec x (ncol m - 1)),
    (Z.ltb_spec 0 x), (Z.ltb_spec x (ncol m - 1)), (Z.ltb_spec 0 y), (Z.ltb_spec y (nrow m - 1)); try lia; cbn [negb orb andb];
    rewrite ?Ec;
    rewrite <- ?(E (y + 1) (x + 1)), <- ?(E (y - 1) (x - 1)), <- ?(E (y - 1) (x + 1)), <- ?(E (y + 1) (x - 1)), <- ?(E (y + 1) x), <- ?(E (y - 1) x), <- ?(E y (x + 1)), <- ?(E y (x - 1)) by lia; reflexivity.
Qed.
(** value of a thread from its correlation map *)
Definition gpu_pixel (margin : Z) (coef : img R) : R * R :=
  let (x_max, y_max) := locate_max_value coef in
  let (x_pos, y_pos) := locate_2d_peak_kernel coef x_max y_max in (x_pos - IZR margin, y_pos - IZR margin)%R.
Lemma gpu_pixel_ext margin m m' : img_eq m m' -> 1 <= nrow m -> 1 <= ncol m -> gpu_pixel margin m = gpu_pixel margin m'.
Proof.
  intros V N C. pose proof V as (N' & C' & _). unfold gpu_pixel.
  destruct (max_value_first m N C) as (y & x & -> & F). destruct (max_value_first m') as (y' & x' & -> & F'); [lia..|].
  destruct (first_max2_unique m' y x y' x' (first_max2_ext m m' y x V F) F') as (<- & <-).
  destruct F as (Fy & Fx & _). rewrite (kernel_ext m m') by assumption. reflexivity.
Qed.

Section peak.
Context (polyfit2 : vec R -> R * R) (surface : img R -> R * R * R * R * R).
Lemma peak_interior m y0 x0 size : first_max2 m y0 x0 -> 0 < y0 < nrow m - 1 -> 0 < x0 < ncol m - 1 ->
  locate_peak polyfit2 surface m true Diff false size true = Ok (locate_2d_peak_kernel m x0 y0).
Proof.
  intros F Hy Hx. unfold locate_peak. cbv iota.
  rewrite (argmax2_is m y0 x0 F). cbn [bindr negb]. change (clipZ 3 3 9) with 3. change (3 / 2) with 1.
  destruct (Z.ltb_spec y0 (nrow m - 1)); [|lia]. destruct (Z.ltb_spec 0 y0); [|lia].
  destruct (Z.ltb_spec x0 (ncol m - 1)); [|lia]. destruct (Z.ltb_spec 0 x0); [|lia].
  destruct (Z.leb_spec 3 (ncol m)); [|lia]. destruct (Z.leb_spec 3 (nrow m)); [|lia]. cbn [andb].
  replace (clipZ (y0 - 1) 0 (nrow m - 3)) with (y0 - 1) by (unfold clipZ; lia).
  replace (clipZ (x0 - 1) 0 (ncol m - 3)) with (x0 - 1) by (unfold clipZ; lia).
  set (w := islice m (y0 - 1) (y0 - 1 + 3) (x0 - 1) (x0 - 1 + 3)).
  assert (Fs : first_max2 w (y0 - (y0 - 1)) (x0 - (x0 - 1))) by (apply first_max2_slice; [exact F|lia..]).
  replace (y0 - (y0 - 1)) with 1 in Fs by lia. replace (x0 - (x0 - 1)) with 1 in Fs by lia.
  assert (Nw : nrow w = 3 /\ ncol w = 3) by (unfold w; cbn [islice nrow ncol]; rewrite !slice_len by lia; split; reflexivity).
  destruct Nw as [N1 N2].
  destruct (peak_2d surface w 1 1 Diff Fs ltac:(lia) ltac:(lia)) as (a & b & Ea & Ba & Bb & _).
  assert (E : locate_2d_peak_subpixel surface w Diff = Ok (fst (locate_2d_peak_kernel m x0 y0) - IZR (x0 - 1), snd (locate_2d_peak_kernel m x0 y0) - IZR (y0 - 1))%R).
  { unfold locate_2d_peak_subpixel. rewrite (argmax2_is w 1 1 Fs). cbn [bindr]. rewrite N1, N2.
    change (1 =? 3 - 1) with false. change (1 =? 0) with false. change (1 + 1) with 2. change (1 - 1) with 0. cbn [orb negb andb].
    assert (P : forall a b, 0 <= a <= 2 -> 0 <= b <= 2 -> px w a b = px m (y0 + (a - 1)) (x0 + (b - 1))).
    { intros c d Hc Hd. unfold w. cbn [islice px]. rewrite !slice_at by lia. f_equal; lia. }
    rewrite !P by lia. change (1 - 1) with 0. change (0 - 1) with (-1). change (2 - 1) with 1. rewrite !Z.add_0_r.
    unfold locate_2d_peak_kernel.
    destruct (Z.ltb_spec y0 (nrow m - 1)); [|lia]. destruct (Z.ltb_spec 0 y0); [|lia].
    destruct (Z.ltb_spec x0 (ncol m - 1)); [|lia]. destruct (Z.ltb_spec 0 x0); [|lia]. cbn [andb]. rewrite !Bool.orb_true_r.
    change (y0 + -1) with (y0 - 1). change (x0 + -1) with (x0 - 1).
    rewrite !(minus_IZR _ 1).
    destruct (Reqb _ 0); [cbn [fst snd]; f_equal; f_equal; lra|]. cbn [fst snd].
    f_equal. f_equal; match goal with |- context [if ?c then _ else _] => destruct c; lra end. }
  rewrite Ea in E. injection E as Xa Xb. rewrite Ea. cbn [bindr fst snd]. destruct (locate_2d_peak_kernel m x0 y0) as (kx & ky). cbn [fst snd] in *.
  assert (Y1 : (1 <= IZR y0)%R) by (apply IZR_le; lia). assert (Y2 : (IZR y0 <= IZR (nrow m - 1) - 1)%R) by (rewrite <- minus_IZR; apply IZR_le; lia).
  assert (X1 : (1 <= IZR x0)%R) by (apply IZR_le; lia). assert (X2 : (IZR x0 <= IZR (ncol m - 1) - 1)%R) by (rewrite <- minus_IZR; apply IZR_le; lia).
  rewrite N1, N2 in *. cbn in Ba, Bb. rewrite !(minus_IZR _ 1) in *. subst a b.
  rewrite (proj2 (Reqb_f _ 0)) by lra. rewrite (proj2 (Reqb_f _ (IZR (nrow m) - 1)%R)) by lra. cbn [orb andb bindr].
  rewrite (proj2 (Reqb_f _ 0)) by lra. rewrite (proj2 (Reqb_f _ (IZR (ncol m) - 1)%R)) by lra. cbn [orb andb].
  f_equal. f_equal; lra.
Qed.
Lemma kernel_boundary m y0 x0 : first_max2 m y0 x0 -> ~ (0 < y0 < nrow m - 1 /\ 0 < x0 < ncol m - 1) ->
  locate_2d_peak_kernel m x0 y0 = (IZR x0, IZR y0).
Proof using.
  clear.
  intros F B. unfold locate_2d_peak_kernel. destruct F as (Fy & Fx & _).
  assert (Z0 : forall a b : R, Reqb (0 * 0 - a * 0) 0 = true /\ Reqb (0 * 0 - 0 * b) 0 = true) by (intros; split; apply Reqb_t; lra).
  destruct (Z.eqb_spec y0 0), (Z.eqb_spec y0 (nrow m - 1)), (Z.eqb_spec x0 0), (Z.eqb_spec x0 (ncol m - 1)),
    (Z.ltb_spec 0 x0), (Z.ltb_spec x0 (ncol m - 1)), (Z.ltb_spec 0 y0), (Z.ltb_spec y0 (nrow m - 1)); try lia; cbn [negb orb andb];
    try (rewrite (proj1 (Z0 _ 0%R)); reflexivity); try (rewrite (proj2 (Z0 0%R _)); reflexivity).
Qed.
Lemma peak_corner m y0 x0 size : first_max2 m y0 x0 -> y0 = 0 \/ y0 = nrow m - 1 -> x0 = 0 \/ x0 = ncol m - 1 ->
  locate_peak polyfit2 surface m true Diff false size true = Ok (IZR x0, IZR y0).
Proof.
  intros F Hy Hx. unfold locate_peak. cbv iota. rewrite (argmax2_is m y0 x0 F). cbn [bindr negb]. change (clipZ 3 3 9) with 3.
  assert (T1 : forall a b : Z, a = 0 \/ a = b - 1 -> (Rltb (IZR a) (IZR (b - 1)) && Rltb 0 (IZR a))%bool = false).
  { intros a b [-> | ->].
    - rewrite (proj2 (Rltb_f 0 0)) by lra. apply Bool.andb_false_r.
    - rewrite (proj2 (Rltb_f (IZR (b - 1)) (IZR (b - 1)))) by lra. reflexivity. }
  assert (T2 : forall a b : Z, a = 0 \/ a = b - 1 -> ((a <? b - 1) && (0 <? a))%bool = false).
  { intros a b [-> | ->]; [apply Bool.andb_false_r|]. rewrite Z.ltb_irrefl. reflexivity. }
  rewrite (T2 y0 (nrow m) Hy). cbn [andb bindr].
  rewrite <- !Bool.andb_assoc. rewrite (Bool.andb_assoc (Rltb (IZR x0) _)). rewrite (T1 x0 (ncol m) Hx). cbn [andb]. rewrite Bool.andb_false_r. cbn [bindr].
  rewrite <- !Bool.andb_assoc. rewrite (Bool.andb_assoc (Rltb (IZR y0) _)). rewrite (T1 y0 (nrow m) Hy). cbn [andb]. rewrite Bool.andb_false_r. reflexivity.
Qed.

(** one-dimensional maps *)
Lemma peak_line m size dim1 x0 : nrow m = 1 -> first_max2 m 0 x0 -> 3 <= ncol m ->
  locate_peak polyfit2 surface m true Diff dim1 size true = Ok (locate_1d_peak_kernel (map (px m 0) (zrange 0 (ncol m))), 0%R).
Proof.
  intros N F C.
  assert (Fr : first_max (ncol m) (px m 0) x0).
  { destruct F as (Y & X & M & Fs). split; [exact X|]. split; intros i Hi; [apply M|apply Fs]; lia. }
  assert (K : locate_1d_peak_kernel (map (px m 0) (zrange 0 (ncol m))) =
     if (x0 <? ncol m - 1) && (0 <? x0) then
       if Reqb (px m 0 (x0 + 1)%Z + px m 0 (x0 - 1)%Z - 2 * px m 0 x0) 0 then IZR x0
       else (IZR x0 + - ((px m 0 (x0 + 1)%Z - px m 0 (x0 - 1)%Z) / 2) / (px m 0 (x0 + 1)%Z + px m 0 (x0 - 1)%Z - 2 * px m 0 x0))%R else IZR x0).
  { unfold locate_1d_peak_kernel. destruct (scan_first (ncol m) (px m 0)) as (k & -> & Fk); [lia|].
    rewrite (first_max_unique _ _ _ _ Fk Fr). rewrite map_length, zrange_length, Z2Nat.id by lia.
    destruct (Z.ltb_spec x0 (ncol m - 1)); [|reflexivity]. destruct (Z.ltb_spec 0 x0); [|reflexivity]. cbn [andb].
    assert (Nt : forall k, 0 <= k < ncol m -> nth (Z.to_nat k) (map (px m 0) (zrange 0 (ncol m))) 0%R = px m 0 k).
    { intros q Hq. pose proof (prange_nth (px m 0) 0 (ncol m) q 0%R Hq) as P. unfold prange in P. replace (0 + ncol m - 0) with (ncol m) in P by lia. exact P. }
    rewrite !Nt by lia. reflexivity. }
  unfold locate_peak. cbv iota. rewrite (argmax2_is m 0 x0 F). cbn [bindr negb]. change (clipZ 3 3 9) with 3. change (3 / 2) with 1. rewrite N.
  change (0 <? 1 - 1) with false. cbn [andb bindr]. change (1 - 1) with 0.
  rewrite (proj2 (Reqb_t 0 0)) by reflexivity. rewrite (proj2 (Rltb_f 0 0)) by lra. cbn [orb andb]. rewrite ?Bool.andb_false_r. cbn [andb].
  destruct (Z.leb_spec 3 (ncol m)); [|lia]. rewrite Bool.andb_true_r.
  destruct F as (_ & Fx & _). rewrite K.
  destruct (Z.ltb_spec x0 (ncol m - 1)) as [L1|L1].
  - rewrite (proj2 (Rltb_t (IZR x0) (IZR (ncol m - 1)))) by (apply IZR_lt; lia). cbn [andb].
    destruct (Z.ltb_spec 0 x0) as [L2|L2].
    + rewrite (proj2 (Rltb_t 0 (IZR x0))) by (apply IZR_lt; lia). cbn [bindr].
      replace (clipZ (x0 - 1) 0 (ncol m - 3)) with (x0 - 1) by (unfold clipZ; lia). rewrite (vslice_row surface) by lia.
      assert (E : locate_1d_peak_subpixel polyfit2 (mkvec 3 (fun k => px m 0 (x0 - 1 + k))) Diff =
        Ok (if Reqb (px m 0 (x0 + 1)%Z + px m 0 (x0 - 1)%Z - 2 * px m 0 x0) 0 then 1
            else (1 + - ((px m 0 (x0 + 1)%Z - px m 0 (x0 - 1)%Z) / 2) / (px m 0 (x0 + 1)%Z + px m 0 (x0 - 1)%Z - 2 * px m 0 x0)))%R).
      { unfold locate_1d_peak_subpixel. change (vlist (mkvec 3 (fun k => px m 0 (x0 - 1 + k)))) with (map (fun k => px m 0 (x0 - 1 + k)) (zrange 0 3)).
        rewrite (argmaxR_is 3 (fun k => px m 0 (x0 - 1 + k)) 1).
        - cbn [bindr vlen vat]. change (1 <? 3 - 1) with true. change (0 <? 1) with true. cbn [andb]. change (1 + 1) with 2. change (1 - 1) with 0.
          replace (x0 - 1 + 2) with (x0 + 1) by lia. replace (x0 - 1 + 0) with (x0 - 1) by lia. replace (x0 - 1 + 1) with x0 by lia. reflexivity.
        - destruct Fr as (Q0 & Q1 & Q2). split; [lia|]. replace (x0 - 1 + 1) with x0 by lia. split; intros i Hi; [apply Q1|apply Q2]; lia. }
      rewrite E. cbn [bindr]. rewrite !Bool.andb_false_r. rewrite minus_IZR. destruct (Reqb _ 0); f_equal; f_equal; lra.
    + assert (x0 = 0) as -> by lia. rewrite (proj2 (Rltb_f 0 0)) by lra. cbn [bindr andb]. rewrite !Bool.andb_false_r. cbn [andb]. reflexivity.
  - assert (x0 = ncol m - 1) as -> by lia. rewrite (proj2 (Rltb_f (IZR (ncol m - 1)) (IZR (ncol m - 1)))) by lra. cbn [andb bindr].
    rewrite !Bool.andb_false_r. cbn [andb]. reflexivity.
Qed.
End peak.
