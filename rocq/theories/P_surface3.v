(** Proofs for C115: consequences and the options. *)
From Coq Require Import Reals ZArith Lia Lra Bool List.
From Verif Require P_calib3.
From Verif Require Import Np P_Np M_phase_R P_phase_R P_simR M_calib P_calib8 M_fourier P_fourier P_fresnel M_surface S_surface S_fresnel P_surface P_surface2.
Open Scope Z_scope.

Definition is_poisson (gx gy s : img R) : Prop := forall a b,
  (4 * at_ s a b - at_ s a (b + 1)%Z - at_ s a (b - 1)%Z - at_ s (a + 1)%Z b - at_ s (a - 1)%Z b =
   (at_ gx a (b - 1)%Z - at_ gx a (b + 1)%Z) / 2 + (at_ gy (a - 1)%Z b - at_ gy (a + 1)%Z b) / 2)%R.
Lemma raised_mean c (a b : img R) : 0 < nrow a -> 0 < ncol a -> raised c a b -> mean_value b = (mean_value a + c)%R.
Proof.
  intros H1 H2 [[E1 E2] V]. unfold mean_value. rewrite <- E1, <- E2.
  rewrite (rsum_ext (nrow a) (fun i => rsum (ncol a) (fun j => px b i j)) (fun i => rsum (ncol a) (fun j => px a i j) + IZR (ncol a) * c)%R).
  - rewrite rsum_add, rsum_const by lia. assert (0 < IZR (nrow a))%R by (apply (IZR_lt 0); assumption). assert (0 < IZR (ncol a))%R by (apply (IZR_lt 0); assumption). field. lra.
  - intros i Hi. rewrite (rsum_ext _ _ (fun j => px a i j + c)%R) by (intros j Hj; apply V; assumption). rewrite rsum_add, rsum_const by lia. reflexivity.
Qed.
Lemma poisson_unique gx gy (s : img R) : 0 < nrow gx -> 0 < ncol gx -> same_size gx gy -> same_size s gx -> is_poisson gx gy s -> mean_value s = 0%R ->
  img_eq (scs_image gx gy) s.
Proof.
  intros Hh Hw S T P M. set (F := scs_image gx gy).
  assert (E1 := scs_energy gx gy Hh Hw S s T).
  assert (E2 : slope_error gx gy F = (slope_error gx gy s + rough (nrow gx) (ncol gx) (fun i j => at_ F i j - at_ s i j))%R).
  { destruct S as [S1 S2], T as [T1 T2]. rewrite !slope_energy by (split; cbn [F scs_image nrow ncol]; congruence). change (nrow F) with (nrow gx). change (ncol F) with (ncol gx). rewrite T1, T2.
    apply energy_split; try assumption.
    - rewrite <- T1, <- T2. apply at_per; lia.
    - apply at_per; assumption.
    - rewrite S1, S2. apply at_per; lia.
    - apply (at_per F); assumption. }
  assert (N1 := rough_nonneg (nrow gx) (ncol gx) (fun i j => at_ F i j - at_ s i j)%R). fold F in E1.
  assert (N2 := rough_nonneg (nrow gx) (ncol gx) (fun i j => at_ s i j - at_ F i j)%R).
  assert (Q : slope_error gx gy s = slope_error gx gy F) by lra.
  destruct (proj2 (scs_least gx gy Hh Hw S s T) Q) as [[A B] V]. rewrite M in V.
  split; [exact A|]. split; [exact B|]. intros i j Hi Hj. rewrite V by assumption. symmetry. apply Rplus_0_r.
Qed.
Lemma at_raised c (a b : img R) i j : 0 < nrow a -> 0 < ncol a -> raised c a b -> at_ b i j = (at_ a i j + c)%R.
Proof. intros H1 H2 [[E1 E2] V]. unfold at_. rewrite <- E1, <- E2. apply V; unfold in_rng; apply Z.mod_pos_bound; assumption. Qed.
Lemma at_combination x y (a b c : img R) i j : 0 < nrow a -> 0 < ncol a -> combination x y a b c -> at_ c i j = (x * at_ a i j + y * at_ b i j)%R.
Proof. intros H1 H2 (E1 & E2 & E3 & E4 & V). unfold at_. rewrite <- E1, <- E2, E3, E4. apply V; unfold in_rng; rewrite ?E3, ?E4; apply Z.mod_pos_bound; assumption. Qed.
Lemma at_transposed (a b : img R) i j : 0 < nrow a -> 0 < ncol a -> transposed a b -> at_ b i j = at_ a j i.
Proof. intros H1 H2 (E1 & E2 & V). unfold at_. rewrite E1, E2. apply V; unfold in_rng; rewrite ?E1, ?E2; apply Z.mod_pos_bound; assumption. Qed.

Lemma scs_tilt gx gy gx' gy' c d : 0 < nrow gx -> 0 < ncol gx -> same_size gx gy -> raised c gx gx' -> raised d gy gy' ->
  img_eq (scs_image gx' gy') (scs_image gx gy).
Proof.
  intros Hh Hw S A B. destruct (proj1 A) as [A1 A2]. destruct (proj1 B) as [B1 B2]. destruct S as [S1 S2].
  apply poisson_unique; try lia; try (split; cbn [scs_image nrow ncol]; congruence).
  - intros i j. rewrite (scs_poisson gx gy Hh Hw (conj S1 S2) i j). rewrite !(at_raised c gx gx') by (assumption || lia). rewrite !(at_raised d gy gy') by (assumption || lia). lra.
  - apply scs_mean; assumption.
Qed.
Lemma scs_linear x y gx gy gx' gy' gx'' gy'' : 0 < nrow gx -> 0 < ncol gx -> same_size gx gy -> same_size gx' gy' -> combination x y gx gx' gx'' -> combination x y gy gy' gy'' ->
  combination x y (scs_image gx gy) (scs_image gx' gy') (scs_image gx'' gy'').
Proof.
  intros Hh Hw S S' A B. destruct A as (A1 & A2 & A3 & A4 & AV). destruct B as (B1 & B2 & B3 & B4 & BV). destruct S as [S1 S2], S' as [S1' S2'].
  set (s := mkimg (nrow gx) (ncol gx) (fun i j => x * px (scs_image gx gy) i j + y * px (scs_image gx' gy') i j)%R).
  assert (C : combination x y (scs_image gx gy) (scs_image gx' gy') s) by (repeat split; cbn [scs_image nrow ncol s]; congruence).
  assert (E : img_eq (scs_image gx'' gy'') s).
  { apply poisson_unique; try lia; try (split; cbn [s scs_image nrow ncol]; congruence).
    - intros i j. rewrite !(at_combination x y (scs_image gx gy) (scs_image gx' gy') s) by (assumption).
      rewrite !(at_combination x y gx gx' gx'') by (try assumption; repeat split; assumption). rewrite !(at_combination x y gy gy' gy'') by (try lia; repeat split; assumption).
      assert (P := scs_poisson gx gy Hh Hw (conj S1 S2) i j). assert (P' := scs_poisson gx' gy' ltac:(lia) ltac:(lia) (conj S1' S2') i j). nra.
    - assert (M := scs_mean gx gy Hh Hw). assert (M' := scs_mean gx' gy' ltac:(lia) ltac:(lia)). unfold mean_value in *. cbn [s nrow ncol px scs_image] in *. rewrite <- A1, <- A2 in M'.
      rewrite (rsum_ext _ _ (fun i => x * rsum (ncol gx) (fun j => scs_at (nrow gx) (ncol gx) gx gy i j) + y * rsum (ncol gx) (fun j => scs_at (nrow gx') (ncol gx') gx' gy' i j))%R).
      + rewrite rsum_add, !rsum_scal. rewrite <- A1, <- A2. unfold Rdiv in *. rewrite Rmult_plus_distr_r, !Rmult_assoc, M, M'. ring.
      + intros i _. rewrite rsum_add, !rsum_scal. reflexivity. }
  destruct E as (E1 & E2 & EV). repeat split; try (cbn [scs_image nrow ncol]; congruence). intros i j Hi Hj. rewrite EV by assumption. reflexivity.
Qed.
Lemma scs_transpose gx gy gx' gy' : 0 < nrow gx -> 0 < ncol gx -> same_size gx gy -> transposed gx gx' -> transposed gy gy' ->
  transposed (scs_image gx gy) (scs_image gy' gx').
Proof.
  intros Hh Hw [S1 S2] A B. assert (A0 := A). assert (B0 := B). destruct A as (A1 & A2 & _). destruct B as (B1 & B2 & _).
  set (s := mkimg (ncol gx) (nrow gx) (fun i j => px (scs_image gx gy) j i)).
  assert (C : transposed (scs_image gx gy) s) by (repeat split).
  assert (E : img_eq (scs_image gy' gx') s).
  { apply poisson_unique; try lia; try (split; cbn [s nrow ncol]; congruence).
    - intros i j. rewrite !(at_transposed (scs_image gx gy) s) by assumption. rewrite !(at_transposed gx gx') by assumption. rewrite !(at_transposed gy gy') by (assumption || lia).
      assert (P := scs_poisson gx gy Hh Hw (conj S1 S2) j i). lra.
    - assert (M := scs_mean gx gy Hh Hw). unfold mean_value in *. cbn [s nrow ncol px scs_image] in *. rewrite rsum_swap. rewrite (Rmult_comm (IZR (ncol gx))). exact M. }
  destruct E as (E1 & E2 & EV). split; [cbn [scs_image nrow ncol]; congruence|]. split; [cbn [scs_image nrow ncol]; congruence|]. intros i j Hi Hj. rewrite EV by assumption. reflexivity.
Qed.

(** ** correct_negative *)
Lemma lift_spec (m : img R) : 0 < nrow m -> 0 < ncol m -> exists c, (0 <= c)%R /\ raised c m (lift_negative true m) /\
  (forall i j, in_rng (nrow m) i -> in_rng (ncol m) j -> (0 <= px (lift_negative true m) i j)%R) /\
  ((forall i j, in_rng (nrow m) i -> in_rng (ncol m) j -> (0 <= px m i j)%R) -> c = 0%R) /\
  (forall k, (k < 0)%R -> (exists i j, in_rng (nrow m) i /\ in_rng (ncol m) j /\ px m i j = k) -> (forall i j, in_rng (nrow m) i -> in_rng (ncol m) j -> (k <= px m i j)%R) -> c = (- 2 * k)%R).
Proof.
  intros H1 H2. destruct (rmin2_spec m ltac:(lia) ltac:(lia)) as (L & i0 & j0 & Hi0 & Hj0 & E). unfold lift_negative. destruct (Rlt_dec (rmin2 m) 0) as [N|N].
  - exists (- 2 * rmin2 m)%R. split; [lra|]. split; [split; [split; reflexivity|]; intros i j Hi Hj; cbn [imap px]; ring|]. split; [|split].
    + intros i j Hi Hj. cbn [imap px]. assert (X := L i j Hi Hj). lra.
    + intros P. assert (X := P i0 j0 Hi0 Hj0). lra.
    + intros k Hk (i & j & Hi & Hj & Ek) Lk. assert (X := L i j Hi Hj). assert (Y := Lk i0 j0 Hi0 Hj0). lra.
  - exists 0%R. split; [lra|]. split; [split; [split; reflexivity|]; intros; symmetry; apply Rplus_0_r|]. split; [|split].
    + intros i j Hi Hj. assert (X := L i j Hi Hj). lra.
    + reflexivity.
    + intros k Hk (i & j & Hi & Hj & Ek) Lk. assert (X := L i j Hi Hj). lra.
Qed.
Lemma scs_lift np gx gy win pad : surface_SCS np gx gy true win pad = (do m <- surface_SCS np gx gy false win pad; Ok (lift_negative true m)).
Proof.
  unfold surface_SCS. destruct (negb _); [reflexivity|]. destruct (pad <? 0); [reflexivity|].
  destruct win as [w|]; cbn [bindr].
  - destruct (negb _); [reflexivity|]. cbn [bindr]. destruct w as [[su sv] wi]. reflexivity.
  - destruct (make_window_SCS _ _) as [[su sv] wi]. reflexivity.
Qed.
(** ** padding *)
Lemma scs_pad np gx gy cn pad : 0 < pad -> same_size gx gy -> same_size (np pad gx) (np pad gy) ->
  surface_SCS np gx gy cn None pad = (do m <- surface_SCS np (np pad gx) (np pad gy) false None 0; Ok (lift_negative cn (islice m pad (- pad) pad (- pad)))).
Proof.
  intros P [A B] [A' B']. unfold surface_SCS. rewrite <- A, <- B, <- A', <- B', !Z.eqb_refl. cbn [andb negb]. replace (pad <? 0) with false by lia. replace (0 <? 0) with false by lia.
  replace (pad =? 0) with false by lia. cbn [bindr]. destruct (make_window_SCS _ _) as [[su sv] wi]. reflexivity.
Qed.
(** ** windows *)
Lemma scs_window np gx gy cn pad : surface_SCS np gx gy cn (Some (make_window_SCS (nrow (if pad =? 0 then gx else np pad gx)) (ncol (if pad =? 0 then gx else np pad gx)))) pad
  = surface_SCS np gx gy cn None pad.
Proof.
  unfold surface_SCS. destruct (negb _); [reflexivity|]. destruct (pad <? 0); [reflexivity|]. unfold make_window_SCS at 1 2. cbn [snd nrow ncol]. rewrite !Z.eqb_refl. reflexivity.
Qed.
Lemma scs_reject_shape np gx gy cn win pad : ~ same_size gx gy -> surface_SCS np gx gy cn win pad = Err ValueError.
Proof. intros H. unfold surface_SCS. replace ((nrow gx =? nrow gy) && (ncol gx =? ncol gy)) with false; [reflexivity|]. unfold same_size in H. symmetry. apply not_true_is_false. lia. Qed.
Lemma scs_reject_window np gx gy cn su sv (wi : img cx) : ~ same_size wi gx -> surface_SCS np gx gy cn (Some (su, sv, wi)) 0 = Err ValueError.
Proof.
  intros H. unfold surface_SCS. destruct (negb _); [reflexivity|]. destruct (0 <? 0); [reflexivity|]. cbn [snd]. rewrite Z.eqb_refl.
  replace ((nrow wi =? nrow gx) && (ncol wi =? ncol gx)) with false; [reflexivity|]. unfold same_size in H. symmetry. apply not_true_is_false. lia.
Qed.
Lemma scs_reject_pad np gx gy cn win pad : pad < 0 -> surface_SCS np gx gy cn win pad = Err ValueError.
Proof. intros H. unfold surface_SCS. destruct (negb _); [reflexivity|]. replace (pad <? 0) with true by lia. reflexivity. Qed.
