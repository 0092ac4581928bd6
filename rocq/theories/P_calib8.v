(** Proofs about binarising images, background normalisation and the distance of two dots. *)
From Coq Require Import Reals Lra ZArith Lia Bool List Permutation. Import ListNotations.
From Verif Require Import Np P_Np M_phase_R P_phase_R M_corr P_corr M_simR S_simR P_simR P_simR3 M_calib S_calib P_calib5 P_calib6 P_calib7.
Open Scope Z_scope.

Lemma rsum_Z n g : 0 <= n -> rsum n (fun k => IZR (g k)) = IZR (lsum (map g (zrange 0 n))).
Proof.
  revert n. apply natlike_ind; [reflexivity|]. intros n Hn IH. unfold rsum in *. replace (Z.to_nat (Z.succ n)) with (S (Z.to_nat n)) by lia. cbn [rsumn]. rewrite IH.
  replace (Z.succ n) with (n + 1) by lia. rewrite zrange_app, map_app, lsum_app by lia. rewrite Z2Nat.id by lia. change (zrange (0 + n) 1) with [0 + n + 0]. cbn [map]. rewrite plus_IZR. f_equal. f_equal.
  unfold lsum. cbn [fold_left]. replace (0 + n + 0) with n by lia. lia.
Qed.
Lemma rsum2_Z h w g : 0 <= h -> 0 <= w -> rsum2 h w (fun i j => IZR (g i j)) = IZR (zsum2 h w g).
Proof.
  intros Hh Hw. unfold rsum2. rewrite (rsum_ext h _ (fun i => IZR (lsum (map (g i) (zrange 0 w))))) by (intros; apply rsum_Z; exact Hw).
  rewrite rsum_Z by exact Hh. f_equal. unfold zsum2, lsum at 1. 
  assert (G : forall l a, fold_left Z.add (map (fun k => lsum (map (g k) (zrange 0 w))) l) a = fold_left Z.add (flat_map (fun i => map (g i) (zrange 0 w)) l) a).
  { induction l as [|b l IH]; intros a; [reflexivity|]. cbn [map flat_map fold_left]. rewrite fold_left_app, IH. f_equal. rewrite (fold_add_acc (map (g b) (zrange 0 w)) a). reflexivity. }
  apply G.
Qed.
Lemma above_sum mat t n : 0 <= nrow mat -> 0 <= ncol mat -> pixels_above mat t n -> rsum2 (nrow mat) (ncol mat) (px (thresholded mat t)) = IZR n.
Proof.
  intros Hh Hw (l & N & I & <-). set (g := fun i j => if Rlt_dec t (px mat i j) then 1 else 0).
  rewrite (rsum2_ext _ _ _ (fun i j => IZR (g i j))).
  - rewrite rsum2_Z by assumption. f_equal. apply zsum2_count; [exact N| |].
    + intros p. rewrite I. unfold g, inside. destruct (Rlt_dec t (px mat (fst p) (snd p))); split; intros (A & B); split; try exact A; try assumption; try reflexivity; try contradiction; discriminate.
    + intros p _. unfold g. destruct (Rlt_dec _ _); auto.
  - intros i j _ _. unfold g, thresholded, imap. cbn [px]. destruct (Rlt_dec _ _); reflexivity.
Qed.
Lemma above_exists mat t n : pixels_above mat t n -> 0 < n -> exists p, inside mat p /\ (t < px mat (fst p) (snd p))%R.
Proof. intros (l & _ & I & <-) H. destruct l as [|p l]; [cbn in H; lia|]. exists p. apply I. left. reflexivity. Qed.
Lemma inverted mat t n : 1 <= nrow mat -> 1 <= ncol mat -> pixels_above mat t n ->
  let out := invert_dot_contrast (thresholded mat t) in nrow out = nrow mat /\ ncol out = ncol mat /\
  forall i j, in_rng (nrow mat) i -> in_rng (ncol mat) j -> px out i j = if Rlt_dec t (px mat i j) then (if nrow mat * ncol mat <? 2 * n then 0 else 1)%R else (if nrow mat * ncol mat <? 2 * n then 1 else 0)%R.
Proof.
  intros Hh Hw HA out. assert (S := above_sum mat t n ltac:(lia) ltac:(lia) HA). unfold out, invert_dot_contrast.
  assert (D : nrow (thresholded mat t) = nrow mat /\ ncol (thresholded mat t) = ncol mat) by (split; reflexivity). destruct D as (D1 & D2). rewrite D1, D2, S.
  set (N := nrow mat * ncol mat). assert (HN : 0 < N) by (unfold N; apply Z.mul_pos_pos; lia). assert (HNr : (0 < IZR N)%R) by (apply IZR_lt; exact HN).
  destruct (Z.ltb_spec N (2 * n)) as [L|L].
  - assert (Q : (0.5 < IZR n / IZR N)%R). { apply IZR_lt in L. rewrite mult_IZR in L. apply (Rmult_lt_reg_r (IZR N)); [exact HNr|]. replace (IZR n / IZR N * IZR N)%R with (IZR n) by (field; lra). lra. }
    destruct (Rlt_dec 0.5 (IZR n / IZR N)) as [_|X]; [|contradiction]. split; [reflexivity|]. split; [reflexivity|].
    assert (M : rmax2 (thresholded mat t) = 1%R).
    { destruct (rmax2_spec (thresholded mat t) ltac:(rewrite D1; lia) ltac:(rewrite D2; lia)) as (A & (i & j & Hi & Hj & E)).
      destruct (above_exists mat t n HA ltac:(lia)) as ((u & v) & (U1 & U2) & U3). cbn [fst snd] in *. assert (B := A u v U1 U2). cbn [thresholded imap px] in B.
      destruct (Rlt_dec t (px mat u v)) as [_|X]; [|contradiction]. set (mx := rmax2 (thresholded mat t)) in *. change (mx = if Rlt_dec t (px mat i j) then 1%R else 0%R) in E. change (1 <= mx)%R in B. destruct (Rlt_dec t (px mat i j)); [exact E|exfalso; lra]. }
    intros i j Hi Hj. cbn [px imap thresholded]. rewrite M. destruct (Rlt_dec t (px mat i j)); lra.
  - assert (Q : ~ (0.5 < IZR n / IZR N)%R). { intros X. apply IZR_le in L. rewrite mult_IZR in L. apply (Rmult_lt_compat_r (IZR N)) in X; [|exact HNr]. replace (IZR n / IZR N * IZR N)%R with (IZR n) in X by (field; lra). lra. }
    destruct (Rlt_dec 0.5 (IZR n / IZR N)) as [X|_]; [contradiction|]. split; [reflexivity|]. split; [reflexivity|]. intros i j Hi Hj. reflexivity.
Qed.
Lemma rmin2_spec m : 1 <= nrow m -> 1 <= ncol m -> (forall i j, in_rng (nrow m) i -> in_rng (ncol m) j -> (rmin2 m <= px m i j)%R) /\ exists i j, in_rng (nrow m) i /\ in_rng (ncol m) j /\ rmin2 m = px m i j.
Proof.
  intros H1 H2. destruct (rmax2_spec (imap Ropp m) H1 H2) as (A & (i & j & Hi & Hj & E)). unfold rmin2. cbn [imap nrow ncol px] in *. split.
  - intros u v Hu Hv. assert (B := A u v Hu Hv). lra.
  - exists i, j. split; [exact Hi|]. split; [exact Hj|]. rewrite E. lra.
Qed.
Lemma binarized fill median3 normalized auto mat t invert n : 1 <= nrow mat -> 1 <= ncol mat -> pixels_above mat t n ->
  (exists p, inside mat p /\ (px mat (fst p) (snd p) <= t)%R) -> (exists p, inside mat p /\ (t <= px mat (fst p) (snd p))%R) ->
  exists m, binarize_image median3 normalized auto fill mat (Some t) false false invert = Ok (fill m) /\ nrow m = nrow mat /\ ncol m = ncol mat /\
    forall i j, in_rng (nrow mat) i -> in_rng (ncol mat) j ->
      px m i j = if Rlt_dec t (px mat i j) then (if invert && (nrow mat * ncol mat <? 2 * n) then 0 else 1)%R else (if invert && (nrow mat * ncol mat <? 2 * n) then 1 else 0)%R.
Proof.
  intros Hh Hw HA (p & (P1 & P2) & P3) (q & (Q1 & Q2) & Q3). unfold binarize_image. cbn [bindr].
  destruct (rmin2_spec mat Hh Hw) as (MI & _). destruct (rmax2_spec mat Hh Hw) as (MA & _). assert (X1 := MI _ _ P1 P2). assert (X2 := MA _ _ Q1 Q2).
  destruct (Rlt_dec t (rmin2 mat)) as [X|_]; [exfalso; lra|]. destruct (Rlt_dec (rmax2 mat) t) as [X|_]; [exfalso; lra|]. cbn [bindr].
  destruct invert; cbn [andb].
  - eexists. split; [reflexivity|]. destruct (inverted mat t n Hh Hw HA) as (A & B & C). split; [exact A|]. split; [exact B|exact C].
  - eexists. split; [reflexivity|]. split; [reflexivity|]. split; [reflexivity|]. intros i j Hi Hj. reflexivity.
Qed.
Lemma binarize_range fill median3 normalized auto mat t invert : 1 <= nrow mat -> 1 <= ncol mat ->
  (forall p, inside mat p -> (t < px mat (fst p) (snd p))%R) \/ (forall p, inside mat p -> (px mat (fst p) (snd p) < t)%R) ->
  binarize_image median3 normalized auto fill mat (Some t) false false invert = Err ValueError.
Proof.
  intros Hh Hw H. unfold binarize_image. cbn [bindr]. destruct (rmin2_spec mat Hh Hw) as (_ & (i & j & Hi & Hj & E)). destruct (rmax2_spec mat Hh Hw) as (_ & (u & v & Hu & Hv & F)).
  destruct (Rlt_dec t (rmin2 mat)) as [_|X]; [reflexivity|]. destruct (Rlt_dec (rmax2 mat) t) as [_|Y]; [reflexivity|]. exfalso.
  destruct H as [H|H]; [apply X; rewrite E; exact (H (i, j) (conj Hi Hj))|apply Y; rewrite F; exact (H (u, v) (conj Hu Hv))].
Qed.

(** ** background *)
Lemma divide_ok integer mat bg : (forall i j, in_rng (nrow mat) i -> in_rng (ncol mat) j -> divisor integer bg i j <> 0%R) ->
  divide_background integer mat bg = Ok (mkimg (nrow mat) (ncol mat) (fun i j => rmean2 bg * px mat i j / divisor integer bg i j)%R).
Proof.
  intros H. unfold divide_background. destruct (existsb _ _) eqn:X; [exfalso|reflexivity]. apply existsb_exists in X. destruct X as (i & Hi & X). apply existsb_exists in X. destruct X as (j & Hj & X).
  apply zrange_In in Hi. apply zrange_In in Hj. destruct (Req_EM_T _ 0) as [E|E]; [|discriminate]. apply (H i j); [unfold in_rng; lia..|exact E].
Qed.
Lemma divide_zero integer mat bg i j : in_rng (nrow mat) i -> in_rng (ncol mat) j -> divisor integer bg i j = 0%R -> divide_background integer mat bg = Err ZeroDivisionError.
Proof.
  intros Hi Hj E. unfold divide_background. destruct (existsb _ _) eqn:X; [reflexivity|exfalso]. enough (true = false) by discriminate. rewrite <- X. symmetry.
  apply existsb_exists. exists i. split; [apply zrange_In; unfold in_rng in Hi; lia|]. apply existsb_exists. exists j. split; [apply zrange_In; unfold in_rng in Hj; lia|]. destruct (Req_EM_T _ 0) as [_|N]; [reflexivity|contradiction].
Qed.

(** ** distance *)
Lemma distance_moved binarize label find_objects median opt mat1 mat2 b1 b2 lab1 num1 lab2 num2 dy dx :
  binarize mat1 = Ok b1 -> binarize mat2 = Ok b2 -> binary b1 -> binary b2 ->
  label b1 = (lab1, num1) -> labelled b1 lab1 num1 -> objects lab1 num1 (find_objects lab1 num1) ->
  label b2 = (lab2, num2) -> labelled b2 lab2 num2 -> objects lab2 num2 (find_objects lab2 num2) ->
  (forall n, median [n] = IZR n) -> (exists p, white b1 p) -> (forall p q, white b1 p -> white b1 q -> same_dot b1 p q) -> moved b1 b2 dy dx ->
  calculate_distance binarize label find_objects median opt mat1 mat2 = Ok (sqrt (IZR dy ^ 2 + IZR dx ^ 2)).
Proof.
  intros E1 E2 B1 B2 L1 HL1 O1 L2 HL2 O2 Hmed (p & Hp) Hone Hmv. assert (Hmv' := Hmv). destruct Hmv' as (F & G).
  assert (Hone2 : forall p q, white b2 p -> white b2 q -> same_dot b2 p q).
  { assert (T : forall p q, same_dot b1 p q -> same_dot b2 (fst p + dy, snd p + dx) (fst q + dy, snd q + dx)).
    { intros u v H. induction H as [H|v r H IH Hr Ht]; [apply dot_here, F, H|]. apply (dot_step _ _ _ _ IH); [apply F, Hr|]. unfold touching in *. cbn [fst snd]. replace (fst v + dy - (fst r + dy)) with (fst v - fst r) by lia. replace (snd v + dx - (snd r + dx)) with (snd v - snd r) by lia. exact Ht. }
    intros u v Hu Hv. assert (X := T _ _ (Hone _ _ (G u Hu) (G v Hv))). cbn [fst snd] in X. destruct u as (u1 & u2), v as (v1 & v2). cbn [fst snd] in X.
    replace (u1 - dy + dy) with u1 in X by lia. replace (u2 - dx + dx) with u2 in X by lia. replace (v1 - dy + dy) with v1 in X by lia. replace (v2 - dx + dx) with v2 in X by lia. exact X. }
  unfold calculate_distance. rewrite E1. cbn [bindr].
  destruct (one_size b1 lab1 num1 label find_objects median B1 L1 HL1 O1 Hmed p Hp Hone opt) as (n1 & N1 & _). rewrite N1. cbn [bindr]. rewrite E2. cbn [bindr].
  destruct (one_size b2 lab2 num2 label find_objects median B2 L2 HL2 O2 Hmed _ (F p Hp) Hone2 opt) as (n2 & N2 & _). rewrite N2. cbn [bindr].
  destruct (one_selected b1 lab1 num1 label find_objects median B1 L1 HL1 O1 Hmed p Hp Hone opt _ N1) as (c1 & C1 & ->).
  destruct (one_selected b2 lab2 num2 label find_objects median B2 L2 HL2 O2 Hmed _ (F p Hp) Hone2 opt _ N2) as (c2 & C2 & ->). cbn [bindr].
  rewrite (com_moved b1 b2 dy dx c1 B1 B2 Hmv C1) in C2. assert (E : c2 = (fst c1 + IZR dy, snd c1 + IZR dx)%R) by congruence. rewrite E. cbn [fst snd]. f_equal. f_equal. ring.
Qed.
Lemma distance_lost binarize label find_objects median lab num mat1 mat2 b2 s2 : binarize mat1 = Ok two_dots -> binarize mat2 = Ok b2 -> get_dot_size label median b2 Mean = Ok s2 ->
  label two_dots = (lab, num) -> labelled two_dots lab num -> objects lab num (find_objects lab num) ->
  calculate_distance binarize label find_objects median Mean mat1 mat2 = Err ZeroDivisionError.
Proof.
  intros E1 E2 S2 HE HL HO. destruct (two_lost label find_objects median lab num HE HL HO) as (A & B). unfold calculate_distance. rewrite E1. cbn [bindr]. rewrite A. cbn [bindr]. rewrite E2. cbn [bindr]. rewrite S2. cbn [bindr]. rewrite B. reflexivity.
Qed.
