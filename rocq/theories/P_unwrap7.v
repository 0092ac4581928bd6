(** Proofs for C117: properties of the iterates. *)
From Coq Require Import Reals ZArith Lia Lra Bool List.
From Verif Require P_calib3.
From Verif Require Import Np P_Np M_phase_R P_phase_R M_simR P_simR M_calib M_fourier P_fourier P_kernel P_fresnel M_surface S_surface S_fresnel P_surface P_surface4 P_surface5 M_unwrap S_unwrap P_unwrap P_unwrap2 P_unwrap3 P_unwrap4 P_unwrap5 P_unwrap6.
Open Scope Z_scope.

Section Rel.
Variable T : img R -> img R -> Prop.
Hypothesis TU : forall m m', 0 < nrow m -> 0 < ncol m -> T m m' -> T (unw m) (unw m').
Hypothesis TP : forall a b a' b', nrow a = nrow b -> ncol a = ncol b -> T a a' -> T b b' -> T (map2 Rplus a b) (map2 Rplus a' b').
Hypothesis TM : forall a b a' b', nrow a = nrow b -> ncol a = ncol b -> T a a' -> T b b' -> T (map2 Rminus a b) (map2 Rminus a' b').
Lemma iterate_rel n : forall m m' u u', 0 < nrow m -> 0 < ncol m -> nrow u = nrow m -> ncol u = ncol m -> T m m' -> T u u' -> T (iterate n m u) (iterate n m' u').
Proof using TU TP TM.
  induction n; intros m m' u u' Hh Hw R C M U; cbn [iterate]; [exact U|]. apply IHn; try assumption. apply TP; try assumption. apply TU; try assumption. apply TM; (symmetry; assumption) || assumption.
Qed.
Lemma iterated_rel n m m' : 0 < nrow m -> 0 < ncol m -> T m m' -> T (iterate n m (unw m)) (iterate n m' (unw m')).
Proof using TU TP TM. intros Hh Hw M. apply iterate_rel; try assumption; try reflexivity. apply TU; assumption. Qed.
End Rel.
Lemma iterated_negated n (m m' : img R) : 0 < nrow m -> 0 < ncol m -> negated m m' -> negated (iterate n m (unw m)) (iterate n m' (unw m')).
Proof.
  apply iterated_rel.
  - exact unw_negated.
  - intros a b a' b' R C (AR & AC & A) (BR & BC & B). split; [exact AR|]. split; [exact AC|]. cbn [map2 nrow ncol px]. intros i j Hi Hj. rewrite A, B by congruence. ring.
  - intros a b a' b' R C (AR & AC & A) (BR & BC & B). split; [exact AR|]. split; [exact AC|]. cbn [map2 nrow ncol px]. intros i j Hi Hj. rewrite A, B by congruence. ring.
Qed.
Ltac sym_op := intros a b a' b' R C (AR & AC & A) (BR & BC & B); split; [exact AR|]; split; [exact AC|]; cbn [map2 nrow ncol px]; intros i j Hi Hj; rewrite A by assumption; rewrite B by congruence; rewrite ?R, ?C; reflexivity.
Lemma iterated_mirrored n (m m' : img R) : 0 < nrow m -> 0 < ncol m -> mirrored m m' -> mirrored (iterate n m (unw m)) (iterate n m' (unw m')).
Proof. apply iterated_rel; [exact unw_mirrored|sym_op|sym_op]. Qed.
Lemma iterated_upside n (m m' : img R) : 0 < nrow m -> 0 < ncol m -> upside_down m m' -> upside_down (iterate n m (unw m)) (iterate n m' (unw m')).
Proof. apply iterated_rel; [exact unw_upside|sym_op|sym_op]. Qed.
Lemma iterated_transposed n (m m' : img R) : 0 < nrow m -> 0 < ncol m -> transposed m m' -> transposed (iterate n m (unw m)) (iterate n m' (unw m')).
Proof. apply iterated_rel; [exact unw_transposed|sym_op|sym_op]. Qed.
Lemma iterate_congruent n c : forall m m' u u' : img R, 0 < nrow m -> 0 < ncol m -> nrow u = nrow m -> ncol u = ncol m -> congruent c m m' -> img_eq u' u -> img_eq (iterate n m' u') (iterate n m u).
Proof.
  induction n; intros m m' u u' Hh Hw R C K U; cbn [iterate]; [exact U|]. destruct U as (UR & UC & U). apply IHn; try assumption. split; [exact UR|]. split; [exact UC|]. cbn [map2 nrow ncol px].
  intros i j Hi Hj. rewrite U by assumption. f_equal. destruct K as (KR & KC & K).
  destruct (unw_congruent c (map2 Rminus m u) (map2 Rminus m' u')) as (_ & _ & E); try assumption.
  - split; [exact KR|]. split; [exact KC|]. cbn [map2 nrow ncol px]. intros a b Ha Hb. destruct (K a b Ha Hb) as (k & ->). exists k. rewrite U by congruence. ring.
  - apply E; cbn [unw map2 nrow ncol]; congruence.
Qed.
Lemma iterated_congruent n c (m m' : img R) : 0 < nrow m -> 0 < ncol m -> congruent c m m' -> img_eq (iterate n m' (unw m')) (iterate n m (unw m)).
Proof. intros Hh Hw K. apply (iterate_congruent n c); try assumption; try reflexivity. apply (unw_congruent c); assumption. Qed.
Lemma iterated_mean n (m : img R) : 0 < nrow m -> 0 < ncol m -> rsum (nrow m) (fun i => rsum (ncol m) (fun j => px (iterate n m (unw m)) i j)) = 0%R.
Proof.
  intros Hh Hw. induction n; [apply unw_mean; assumption|]. rewrite iterate_S. cbn [map2 px]. assert (U := unw_mean (map2 Rminus m (iterate n m (unw m))) Hh Hw). cbn [map2 nrow ncol] in U.
  rewrite <- (Rplus_0_l 0). rewrite <- IHn at 1. rewrite <- U. rewrite <- rsum_add. apply rsum_ext. intros i _. rewrite <- rsum_add. reflexivity.
Qed.
Lemma bit_if (b : bool) t x : (if b then t + x else t)%R = (t + x * bit b)%R. Proof. destruct b; unfold bit; ring. Qed.
Lemma bits_mean (m : img R) M t x : 0 < nrow m -> 0 < ncol m -> two_level t x M m -> average m = (t + x * mean_of (bits (nrow m) (ncol m) M))%R.
Proof.
  intros Hh Hw V. unfold average, mean_of, bits. cbn [nrow ncol px]. assert (0 < IZR (nrow m))%R by (apply (IZR_lt 0); assumption). assert (0 < IZR (ncol m))%R by (apply (IZR_lt 0); assumption).
  rewrite (rsum_ext (nrow m) (fun i => rsum (ncol m) (fun j => px m i j)) (fun i => t * IZR (ncol m) + x * rsum (ncol m) (fun j => bit (M i j)))%R).
  - rewrite rsum_add, !rsum_scal, rsum_const by lia. field. lra.
  - intros i Hi. rewrite <- rsum_scal. rewrite <- (Rmult_comm (IZR (ncol m)) t). rewrite <- rsum_const by lia. rewrite <- rsum_add. apply rsum_ext. intros j Hj. rewrite V, bit_if by assumption. reflexivity.
Qed.
Lemma iterated_two n (m : img R) M x t : 0 < nrow m -> 0 < ncol m -> two_level t x M m ->
  forall i j, in_rng (nrow m) i -> in_rng (ncol m) j -> px (iterate n m (unw m)) i j = (step_after n x * (bit (M i j) - mean_of (bits (nrow m) (ncol m) M)))%R.
Proof.
  intros Hh Hw V. induction n; intros i j Hi Hj.
  - cbn [iterate step_after]. apply (unw_two m M x t); try assumption. intros a b Ha Hb. rewrite V, bit_if by assumption. reflexivity.
  - rewrite iterate_S. cbn [map2 px step_after]. rewrite IHn by assumption. set (b := mean_of (bits (nrow m) (ncol m) M)) in *.
    rewrite (unw_two (map2 Rminus m (iterate n m (unw m))) M (x - step_after n x) (t + step_after n x * b)); try assumption.
    + cbn [map2 nrow ncol]. fold b. ring.
    + cbn [map2 nrow ncol px]. intros p q Hp Hq. rewrite IHn, V, bit_if by assumption. ring.
Qed.
Lemma rest_S n x : (x - step_after (S n) x = (x - step_after n x) - sin (x - step_after n x))%R. Proof. cbn [step_after]. ring. Qed.
Lemma shrink y : (0 <= y < PI -> 0 <= y - sin y <= y)%R.
Proof.
  intros [A B]. assert (0 <= sin y)%R by (apply sin_ge_0; lra). destruct (Req_dec y 0) as [->|N]; [rewrite sin_0; lra|]. assert (sin y < y)%R by (apply sin_lt_x; lra). lra.
Qed.
Lemma rest_range n x : (0 <= x < PI -> 0 <= x - step_after n x <= x)%R.
Proof.
  intros H. induction n; [apply shrink; exact H|]. rewrite rest_S. assert (S := shrink (x - step_after n x) ltac:(lra)). lra.
Qed.
Lemma rest_limit x : (0 <= x < PI)%R -> Un_cv (fun n => x - step_after n x)%R 0.
Proof.
  intros H. set (u := fun n => (x - step_after n x)%R).
  assert (D : Un_decreasing u). { intros n. unfold u. rewrite rest_S. assert (S := rest_range n x H). assert (Q := shrink (x - step_after n x) ltac:(lra)). lra. }
  assert (B : has_lb u). { exists 0%R. intros y (n & ->). unfold opp_seq, u. assert (S := rest_range n x H). lra. }
  destruct (decreasing_cv u D B) as (l & L).
  assert (L1 : Un_cv (fun n => u (S n)) l). { intros e E. destruct (L e E) as (N & HN). exists N. intros n Hn. apply HN. lia. }
  assert (L2 : Un_cv (fun n => u n - sin (u n))%R (l - sin l)%R). { apply CV_minus; [exact L|]. apply (continuity_seq sin u l); [apply continuity_sin|exact L]. }
  assert (E : l = (l - sin l)%R). { apply (UL_sequence (fun n => u (S n))); [exact L1|]. intros e He. destruct (L2 e He) as (N & HN). exists N. intros n Hn. unfold u at 1. rewrite rest_S. apply HN; exact Hn. }
  assert (R0 : (0 <= l)%R). { apply (@Rle_cv_lim (fun _ => 0%R) u 0%R l); [intros n; apply rest_range; exact H| |exact L]. intros e E0. exists 0%nat. intros n _. unfold R_dist. rewrite Rminus_diag_eq by reflexivity. rewrite Rabs_R0. exact E0. }
  assert (R1 : (l <= x)%R). { apply (@Rle_cv_lim u (fun _ => x) l x); [intros n; apply rest_range; exact H|exact L|]. intros e E0. exists 0%nat. intros n _. unfold R_dist. rewrite Rminus_diag_eq by reflexivity. rewrite Rabs_R0. exact E0. }
  destruct (Req_dec l 0) as [->|N]; [exact L|]. assert (0 < sin l)%R by (apply sin_gt_0; lra). lra.
Qed.
Lemma step_neg n x : step_after n (- x) = (- step_after n x)%R.
Proof. induction n; cbn [step_after]; [apply sin_neg|]. rewrite IHn. replace (- x - - step_after n x)%R with (- (x - step_after n x))%R by ring. rewrite sin_neg. ring. Qed.
Lemma step_limit x : (Rabs x < PI)%R -> Un_cv (fun n => step_after n x) x.
Proof.
  intros H. assert (P : forall y, (0 <= y < PI)%R -> Un_cv (fun n => step_after n y) y).
  { intros y Hy e E. destruct (rest_limit y Hy e E) as (N & HN). exists N. intros n Hn. specialize (HN n Hn). unfold R_dist in *. rewrite Rabs_minus_sym. rewrite Rminus_0_r in HN. exact HN. }
  destruct (Rle_dec 0 x) as [N|N]; [apply P; rewrite Rabs_right in H by lra; lra|]. rewrite Rabs_left in H by lra.
  intros e E. destruct (P (- x)%R ltac:(lra) e E) as (M & HM). exists M. intros n Hn. specialize (HM n Hn). unfold R_dist in *. rewrite step_neg in HM. rewrite <- Rabs_Ropp. replace (- (step_after n x - x))%R with (- step_after n x - - x)%R by ring. exact HM.
Qed.
Lemma mean_centred (m : img R) : 0 < nrow m -> 0 < ncol m -> rsum (nrow m) (fun i => rsum (ncol m) (fun j => px (centred m) i j)) = 0%R.
Proof.
  intros Hh Hw. cbn [centred px]. rewrite (rsum_ext _ _ (fun i => rsum (ncol m) (fun j => px m i j) - IZR (ncol m) * average m)%R).
  - rewrite rsum_sub, rsum_const by lia. unfold average. assert (0 < IZR (nrow m))%R by (apply (IZR_lt 0); assumption). assert (0 < IZR (ncol m))%R by (apply (IZR_lt 0); assumption). field. lra.
  - intros i _. rewrite rsum_sub, rsum_const by lia. reflexivity.
Qed.
Lemma iterated_weak n (m : img R) e : 0 < nrow m -> 0 < ncol m -> (e <= 1)%R -> (weak_bound (nrow m) (ncol m) * e ^ 2 <= / 2)%R -> (forall i j, in_rng (nrow m) i -> in_rng (ncol m) j -> (Rabs (px m i j - average m) <= e)%R) ->
  forall i j, in_rng (nrow m) i -> in_rng (ncol m) j -> (Rabs (px (iterate n m (unw m)) i j - (px m i j - average m)) <= e * (/ 2) ^ (S n))%R.
Proof.
  intros Hh Hw E1 EB B. set (c := average m) in *.
  assert (E0 : (0 <= e)%R). { eapply Rle_trans; [apply Rabs_pos|apply (B 0 0); unfold in_rng; lia]. }
  assert (W0 : (0 <= weak_bound (nrow m) (ncol m))%R). { unfold weak_bound. apply Rmult_le_pos; [apply mass_nonneg|]. apply Rmult_le_pos; [apply mass_nonneg|lra]. }
  assert (S : forall (d u : img R) y i j, nrow d = nrow m -> ncol d = ncol m -> (0 <= y <= e)%R -> congruent (- c) (map2 Rminus m u) d -> (forall i j, in_rng (nrow m) i -> in_rng (ncol m) j -> (Rabs (px d i j) <= y)%R) ->
    rsum (nrow m) (fun i => rsum (ncol m) (fun j => px d i j)) = 0%R -> in_rng (nrow m) i -> in_rng (ncol m) j -> (Rabs (px (unw (map2 Rminus m u)) i j - px d i j) <= y * / 2)%R).
  { intros d u y i j DR DC Y K BD MD Hi Hj. destruct (unw_congruent (- c) (map2 Rminus m u) d Hh Hw K) as (_ & _ & E). rewrite <- E by (cbn [unw nrow ncol]; congruence).
    assert (X := unw_weak d y i j). rewrite DR, DC in X. unfold mean_of in X. rewrite DR, DC, MD in X. specialize (X Hh Hw Hi Hj ltac:(lra) BD). unfold Rdiv in X. rewrite Rmult_0_l, Rminus_0_r in X.
    eapply Rle_trans; [exact X|]. replace (weak_bound (nrow m) (ncol m) * y ^ 3)%R with (y * (weak_bound (nrow m) (ncol m) * y ^ 2))%R by ring. apply Rmult_le_compat_l; [lra|].
    eapply Rle_trans; [|exact EB]. apply Rmult_le_compat_l; [exact W0|]. apply pow_incr. exact Y. }
  induction n; intros i j Hi Hj.
  - cbn [iterate]. rewrite pow_1. assert (X := S (centred m) (mkimg (nrow m) (ncol m) (fun _ _ => 0%R)) e i j eq_refl eq_refl ltac:(lra)).
    assert (U : px (unw (map2 Rminus m (mkimg (nrow m) (ncol m) (fun _ _ => 0%R)))) i j = px (unw m) i j).
    { destruct (unw_same m (map2 Rminus m (mkimg (nrow m) (ncol m) (fun _ _ => 0%R))) Hh Hw) as (_ & _ & K); [|apply K; assumption].
      split; [reflexivity|]. split; [reflexivity|]. cbn [map2 px]. intros; ring. }
    rewrite U in X. apply X; try assumption.
    + split; [reflexivity|]. split; [reflexivity|]. cbn [map2 centred nrow ncol px]. intros a b _ _. exists 0. fold c. ring.
    + apply mean_centred; assumption.
  - rewrite iterate_S. cbn [map2 px]. set (u := iterate n m (unw m)) in *. set (y := (e * (/ 2) ^ Datatypes.S n)%R) in *.
    set (d := mkimg (nrow m) (ncol m) (fun i j => px m i j - c - px u i j)%R).
    assert (P : (0 <= (/ 2) ^ Datatypes.S n <= 1)%R). { split; [apply pow_le; lra|]. rewrite <- (pow1 (Datatypes.S n)). apply pow_incr. lra. }
    assert (X := S d u y i j eq_refl eq_refl).
    replace (px u i j + px (unw (map2 Rminus m u)) i j - (px m i j - c))%R with (px (unw (map2 Rminus m u)) i j - px d i j)%R by (unfold d; cbn [px]; ring).
    replace (e * (/ 2) ^ Datatypes.S (Datatypes.S n))%R with (y * / 2)%R by (unfold y; simpl; ring). apply X; try assumption.
    + unfold y. split; [apply Rmult_le_pos; lra|]. rewrite <- (Rmult_1_r e) at 2. apply Rmult_le_compat_l; lra.
    + split; [reflexivity|]. split; [reflexivity|]. cbn [map2 d nrow ncol px]. intros a b _ _. exists 0. ring.
    + intros a b Ha Hb. unfold d; cbn [px]. rewrite <- Rabs_Ropp. replace (- (px m a b - c - px u a b))%R with (px u a b - (px m a b - c))%R by ring. apply IHn; assumption.
    + unfold d; cbn [px]. rewrite (rsum_ext _ _ (fun i => rsum (ncol m) (fun j => px (centred m) i j) - rsum (ncol m) (fun j => px u i j))%R).
      * rewrite rsum_sub, mean_centred by assumption. unfold u. rewrite iterated_mean by assumption. ring.
      * intros a _. rewrite <- rsum_sub. reflexivity.
Qed.
(** once the result is the input up to a constant and whole turns, it stays *)
Lemma iterate_fixed c : forall m u : img R, 0 < nrow m -> 0 < ncol m -> nrow u = nrow m -> ncol u = ncol m -> congruent c m u -> img_eq (map2 Rplus u (unw (map2 Rminus m u))) u.
Proof.
  intros m u Hh Hw R C (_ & _ & K). split; [reflexivity|]. split; [reflexivity|]. cbn [map2 nrow ncol px]. rewrite R, C. intros i j Hi Hj.
  rewrite (unw_binary (map2 Rminus m u) (- c) Hh Hw); try assumption; [ring|]. cbn [map2 nrow ncol px]. intros a b Ha Hb. destruct (K a b Ha Hb) as (k & ->). exists (- 2 * k). rewrite mult_IZR. ring.
Qed.
(** with a weight map *)
Lemma refine_weight n : forall mat weight u : img R, 0 < nrow mat -> 0 < ncol mat -> nrow u = nrow mat -> ncol u = ncol mat -> rsum (nrow mat) (fun i => rsum (ncol mat) (fun j => px u i j)) = 0%R ->
  exists f, refine n mat weight (wfor mat) (wback mat) u = Ok f /\ nrow f = nrow mat /\ ncol f = ncol mat /\ rsum (nrow mat) (fun i => rsum (ncol mat) (fun j => px f i j)) = 0%R.
Proof.
  induction n; intros mat weight u Hh Hw R C M; cbn [refine]; [exists u; split; [reflexivity|]; split; [exact R|]; split; [exact C|exact M]|].
  destruct (step_is mat weight u Hh Hw) as (f & -> & RF & CF & V). cbn [bindr]. apply IHn; try assumption; try congruence.
  assert (U := unw_mean (map2 Rmult (residual mat u) weight) Hh Hw). cbn [map2 residual imap nrow ncol] in U. rewrite <- (Rplus_0_l 0). rewrite <- M at 1. rewrite <- U. rewrite <- rsum_add. apply rsum_ext. intros i Hi. rewrite <- rsum_add. apply rsum_ext. intros j Hj. apply V; assumption.
Qed.
Lemma weighted_is (m weight : img R) n : 0 < nrow m -> 0 < ncol m ->
  exists f, unwrap_iterative m n None None (Some weight) = Ok f /\ nrow f = nrow m /\ ncol f = ncol m /\ rsum (nrow m) (fun i => rsum (ncol m) (fun j => px f i j)) = 0%R.
Proof.
  intros Hh Hw. unfold unwrap_iterative. destruct (unw_is (map2 Rmult m weight) Hh Hw) as (f & _ & E & R & C & V). cbn [map2 nrow ncol] in E. rewrite E. cbn [bindr].
  assert (U := unw_mean (map2 Rmult m weight) Hh Hw). cbn [map2 nrow ncol] in U. cbn [unw map2 nrow ncol] in R, C. apply refine_weight; try assumption. rewrite <- U. apply rsum_ext. intros i Hi. apply rsum_ext. intros j Hj. apply V; [rewrite R; exact Hi|rewrite C; exact Hj].
Qed.
Lemma average_zero (m : img R) : rsum (nrow m) (fun i => rsum (ncol m) (fun j => px m i j)) = 0%R -> average m = 0%R.
Proof. intros E. unfold average. rewrite E. unfold Rdiv. ring. Qed.
Lemma result_two (m : img R) M x t k : 0 < nrow m -> 0 < ncol m -> two_level t x M m ->
  forall i j, in_rng (nrow m) i -> in_rng (ncol m) j -> (x * px (iterate k m (unw m)) i j = step_after k x * (px m i j - average m))%R.
Proof.
  intros Hh Hw V i j Hi Hj. rewrite (iterated_two k m M x t Hh Hw V i j Hi Hj), (bits_mean m M t x Hh Hw V), V, bit_if by assumption. ring.
Qed.
