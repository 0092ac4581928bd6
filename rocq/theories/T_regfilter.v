(** C123: the regularisation filter. *)
From Coq Require Import Reals Lra Lia ZArith.
From Verif Require Import Np P_Np M_regularization P_regularization M_regfilter S_regfilter P_regfilter.
From Coq Require Import List. Import ListNotations.
Open Scope Z_scope.

(** same shape; every line of the result depends on the same line of the image only; axis=0 filters the columns instead of the rows *)
Theorem regularization_filter_lines_are_independent :
  forall (m m' : img R) alpha i, 2 <= ncol m -> nrow m' = nrow m -> ncol m' = ncol m -> in_rng (nrow m) i ->
  (forall j, in_rng (ncol m) j -> px m' i j = px m i j) ->
  exists r r', apply_regularization_filter m alpha 1 = Ok r /\ apply_regularization_filter m' alpha 1 = Ok r' /\
    nrow r = nrow m /\ ncol r = ncol m /\ forall j, in_rng (ncol m) j -> px r' i j = px r i j.
Proof.
  intros m m' alpha i H Er Ec Hi E. destruct (line_ok m alpha H) as (r & Hr & R1 & R2 & P). destruct (line_ok m' alpha ltac:(lia)) as (r' & Hr' & _ & _ & P').
  exists r, r'. split; [exact Hr|]. split; [exact Hr'|]. split; [exact R1|]. split; [exact R2|]. intros j Hj.
  rewrite P by assumption. rewrite P' by (rewrite ?Er, ?Ec; assumption). rewrite Ec, E by exact Hj. f_equal. apply correction_ext; [exact H|]. intros k Hk. apply E. exact Hk.
Qed.
Print Assumptions regularization_filter_lines_are_independent.

Theorem regularization_filter_axis :
  forall (m : img R) alpha axis, 1 <= nrow m -> 1 <= ncol m ->
  apply_regularization_filter m alpha 0 = (do r <- apply_regularization_filter (itrans m) alpha 1; Ok (itrans r)) /\
  (axis <> 0 -> apply_regularization_filter m alpha axis = apply_regularization_filter m alpha 1) /\
  (is_ok (apply_regularization_filter m alpha 0) = true <-> 2 <= nrow m) /\ (is_ok (apply_regularization_filter m alpha 1) = true <-> 2 <= ncol m).
Proof.
  intros m alpha axis Hr Hc. split; [apply axis0|]. split; [apply axis_other|]. split.
  - rewrite axis0. destruct (Z_lt_le_dec (nrow m) 2) as [L|L].
    + rewrite line_short by (cbn; lia). cbn. split; [discriminate|lia].
    + destruct (line_ok (itrans m) alpha) as (r & -> & _); [exact L|]. cbn. split; [intros _; exact L|reflexivity].
  - destruct (Z_lt_le_dec (ncol m) 2) as [L|L].
    + rewrite line_short by (cbn; lia). cbn. split; [discriminate|lia].
    + destruct (line_ok m alpha L) as (r & -> & _). cbn. split; [intros _; exact L|reflexivity].
Qed.
Print Assumptions regularization_filter_axis.

(** the filter is linear and leaves constant lines alone *)
Theorem regularization_filter_linear :
  forall (m1 m2 : img R) alpha a b, 2 <= ncol m1 -> nrow m2 = nrow m1 -> ncol m2 = ncol m1 ->
  exists r1 r2 r, apply_regularization_filter m1 alpha 1 = Ok r1 /\ apply_regularization_filter m2 alpha 1 = Ok r2 /\
    apply_regularization_filter (combined a b m1 m2) alpha 1 = Ok r /\ img_eq r (combined a b r1 r2).
Proof.
  intros m1 m2 alpha a b H Er Ec. destruct (line_ok m1 alpha H) as (r1 & H1 & A1 & B1 & P1). destruct (line_ok m2 alpha ltac:(lia)) as (r2 & H2 & A2 & B2 & P2).
  destruct (line_ok (combined a b m1 m2) alpha H) as (r & H3 & A3 & B3 & P3). exists r1, r2, r. split; [exact H1|]. split; [exact H2|]. split; [exact H3|].
  cbn [combined nrow ncol] in A3, B3. split; [cbn [combined nrow]; congruence|]. split; [cbn [combined ncol]; congruence|]. intros i j Hi Hj. rewrite A3 in Hi. rewrite B3 in Hj. rewrite P3 by assumption. cbn [combined px nrow ncol] in *.
  rewrite P1 by assumption. rewrite P2 by (rewrite ?Er, ?Ec; assumption). rewrite Ec. rewrite correction_lin. ring.
Qed.
Print Assumptions regularization_filter_linear.

(** a constant line is unchanged, and that is the solution of the regularisation problem -- missing: lines that are not constant *)
Theorem regularization_filter_solves_problem_partial :
  forall (m : img R) alpha i c, 2 <= ncol m -> (0 < alpha)%R -> in_rng (nrow m) i -> (forall j, in_rng (ncol m) j -> px m i j = c) ->
  exists r, apply_regularization_filter m alpha 1 = Ok r /\ (forall j, in_rng (ncol m) j -> px r i j = c) /\ regularised (ncol m) alpha (fun _ => c) (fun _ => c).
Proof.
  intros m alpha i c H Ha Hi E. destruct (line_ok m alpha H) as (r & Hr & _ & _ & P). exists r. split; [exact Hr|]. split; [|apply regularised_const; exact Ha].
  intros j Hj. rewrite P by assumption. rewrite (correction_ext (ncol m) alpha (px m i) (fun _ => c)) by (try exact H; exact E). rewrite correction_const, E by exact Hj. ring.
Qed.
Print Assumptions regularization_filter_solves_problem_partial.

(** a ramp: the sum of the line changes, so that the result is not the solution of the regularisation problem, whatever the width,
    the weight and the slope *)
Theorem regularization_filter_solves_problem_refuted :
  forall (m : img R) alpha i c s, 2 <= ncol m -> (0 < alpha)%R -> s <> 0%R -> in_rng (nrow m) i -> (forall j, in_rng (ncol m) j -> px m i j = (c - s * IZR j)%R) ->
  exists r, apply_regularization_filter m alpha 1 = Ok r /\ total (Z.to_nat (ncol m)) (px r i) <> total (Z.to_nat (ncol m)) (px m i) /\
    ~ regularised (ncol m) alpha (px m i) (px r i).
Proof.
  intros m alpha i c s H Ha Hs Hi E. destruct (line_ok m alpha H) as (r & Hr & _ & _ & P). exists r. split; [exact Hr|].
  assert (D : total (Z.to_nat (ncol m)) (px r i) <> total (Z.to_nat (ncol m)) (px m i)).
  { change total with rsum. intros X. apply (ramp_sum_nonzero (ncol m) alpha c s H Ha Hs).
    rewrite (rsum_ext' _ (profile_correction (ncol m) alpha (fun j => c - s * IZR j)%R) (fun j => px r i j - px m i j)%R).
    - pose proof (rsum_minus (Z.to_nat (ncol m)) (px r i) (px m i)) as Y. cbv beta in Y. rewrite Y, X. lra.
    - intros j Hj. rewrite P by (unfold in_rng in *; lia). rewrite (correction_ext (ncol m) alpha (px m i) (fun j => c - s * IZR j)%R) by (try exact H; exact E). ring. }
  split; [exact D|]. intros X. apply D. change total with rsum. apply (regularised_sum (ncol m) alpha); [lia|exact Ha|exact X].
Qed.
Print Assumptions regularization_filter_solves_problem_refuted.

(** the mirrored image does not give the mirrored result *)
Theorem regularization_filter_mirrored_refuted :
  forall n alpha, 2 <= n -> (0 < alpha)%R ->
  exists (m : img R) r r', nrow m = 1 /\ ncol m = n /\ apply_regularization_filter m alpha 1 = Ok r /\ apply_regularization_filter (ifliplr m) alpha 1 = Ok r' /\ ~ img_eq r' (ifliplr r).
Proof.
  intros n alpha H Ha. destruct (not_mirror n alpha H Ha) as (p & N). set (m := mkimg 1 n (fun _ j => p j)).
  destruct (line_ok m alpha H) as (r & Hr & A & B & P). destruct (line_ok (ifliplr m) alpha H) as (r' & Hr' & A' & B' & P'). exists m, r, r'.
  split; [reflexivity|]. split; [reflexivity|]. split; [exact Hr|]. split; [exact Hr'|]. intros (_ & _ & X). specialize (X 0 0).
  rewrite A', B' in X. change (nrow (ifliplr m)) with 1 in X. change (ncol (ifliplr m)) with n in X. specialize (X ltac:(unfold in_rng; lia) ltac:(unfold in_rng; lia)).
  cbn [ifliplr px] in X. rewrite B in X. change (ncol m) with n in X. rewrite P in X by (cbn; unfold in_rng; lia). rewrite P' in X by (cbn; unfold in_rng; lia).
  cbn [ifliplr m px ncol nrow] in X. apply N. replace (n - 1 - 0) with (n - 1) in X by lia.
  assert (Y : profile_correction n alpha (px (ifliplr m) 0) 0 = profile_correction n alpha (px m 0) (n - 1)) by (cbn [ifliplr m px ncol nrow] in *; lra). exact Y.
Qed.
Print Assumptions regularization_filter_mirrored_refuted.

(** a case meeting the hypotheses *)
Example ex_ramp : let m := mkimg 3 5 (fun i j => (IZR i - 2 * IZR j)%R) in 2 <= ncol m /\ (0 < 1/100)%R /\ in_rng (nrow m) 1 /\ forall j, in_rng (ncol m) j -> px m 1 j = (1 - 2 * IZR j)%R.
Proof. cbv zeta. cbn [ncol nrow px]. split; [lia|]. split; [lra|]. split; [unfold in_rng; lia|reflexivity]. Qed.
