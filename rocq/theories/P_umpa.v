(** Proofs about UMPA: the cost of a displacement is a weighted least-squares minimum. *)
From Coq Require Import Reals Lra ZArith Lia FunctionalExtensionality.
From Verif Require Import Np P_Np M_phase_R P_phase_R M_corr P_corr M_umpa S_umpa.
Open Scope Z_scope.

Lemma pow2_gt_0 x : x <> 0%R -> (0 < x ^ 2)%R.
Proof. intros H. pose proof (Rsqr_pos_lt x H) as P. unfold Rsqr in P. lra. Qed.
Lemma rsum2_add h w f g : rsum2 h w (fun i j => f i j + g i j)%R = (rsum2 h w f + rsum2 h w g)%R.
Proof. unfold rsum2. rewrite <- rsum_add. apply rsum_ext. intros. apply rsum_add. Qed.
Lemma rsum3_add d h w f g : rsum3 d h w (fun k i j => f k i j + g k i j)%R = (rsum3 d h w f + rsum3 d h w g)%R.
Proof. unfold rsum3. rewrite <- rsum_add. apply rsum_ext. intros. apply rsum2_add. Qed.
Lemma rsum2_scal h w c f : rsum2 h w (fun i j => c * f i j)%R = (c * rsum2 h w f)%R.
Proof. unfold rsum2. rewrite <- rsum_scal. apply rsum_ext. intros. apply rsum_scal. Qed.
Lemma rsum3_scal d h w c f : rsum3 d h w (fun k i j => c * f k i j)%R = (c * rsum3 d h w f)%R.
Proof. unfold rsum3. rewrite <- rsum_scal. apply rsum_ext. intros. apply rsum2_scal. Qed.
Lemma rsum_nonneg n f : (forall k, 0 <= k < n -> (0 <= f k)%R) -> (0 <= rsum n f)%R.
Proof.
  intros H. unfold rsum. assert (G : forall m, Z.of_nat m <= n -> (0 <= rsumn m f)%R \/ n < 0).
  { induction m as [|m IH]; intros L; [left; cbn; lra|]. destruct IH as [I|I]; [lia| |right; exact I]. left. cbn. pose proof (H (Z.of_nat m) ltac:(lia)). lra. }
  destruct (Z_lt_le_dec n 0) as [L|L]; [replace (Z.to_nat n) with O by lia; cbn; lra|]. destruct (G (Z.to_nat n)); [lia|assumption|lia].
Qed.
Lemma rsum_pos n f k : (forall k, 0 <= k < n -> (0 <= f k)%R) -> 0 <= k < n -> (0 < f k)%R -> (0 < rsum n f)%R.
Proof.
  intros H K P. assert (E : rsum n f = (rsum n (fun i => if i =? k then f k else 0) + rsum n (fun i => if i =? k then 0 else f i))%R).
  { rewrite <- rsum_add. apply rsum_ext. intros i Hi. destruct (Z.eqb_spec i k) as [->|]; lra. }
  assert (Z0 : forall i, 0 <= i < n -> i <> k -> (if i =? k then f k else 0)%R = 0%R) by (intros i Hi Ni; destruct (Z.eqb_spec i k); [congruence|reflexivity]).
  rewrite E. rewrite (rsum_single n _ k K Z0). rewrite Z.eqb_refl.
  assert (0 <= rsum n (fun i => if i =? k then 0 else f i))%R; [|lra]. apply rsum_nonneg. intros i Hi. destruct (Z.eqb_spec i k); [lra|apply H; lia].
Qed.
Lemma rsum3_nonneg d h w f : (forall k i j, 0 <= k < d -> 0 <= i < h -> 0 <= j < w -> (0 <= f k i j)%R) -> (0 <= rsum3 d h w f)%R.
Proof. intros H. apply rsum_nonneg. intros k Hk. apply rsum_nonneg. intros i Hi. apply rsum_nonneg. intros j Hj. apply H; assumption. Qed.
Lemma rsum3_pos d h w f k i j : (forall k i j, 0 <= k < d -> 0 <= i < h -> 0 <= j < w -> (0 <= f k i j)%R) ->
  0 <= k < d -> 0 <= i < h -> 0 <= j < w -> (0 < f k i j)%R -> (0 < rsum3 d h w f)%R.
Proof.
  intros H K I J P. apply rsum_pos with k; [|exact K|].
  - intros k' Hk. apply rsum_nonneg. intros i' Hi. apply rsum_nonneg. intros j' Hj. apply H; assumption.
  - apply rsum_pos with i; [|exact I|].
    + intros i' Hi. apply rsum_nonneg. intros j' Hj. apply H; assumption.
    + apply rsum_pos with j; [|exact J|exact P]. intros j' Hj. apply H; assumption.
Qed.
Lemma rsum3_swap d h w f : rsum3 d h w f = rsum2 h w (fun i j => rsum d (fun k => f k i j)).
Proof.
  unfold rsum3, rsum2. rewrite rsum_swap. apply rsum_ext. intros i Hi. rewrite rsum_swap. reflexivity.
Qed.

(** ** weighted least squares *)
Section squares.
Context (d n : Z) (w : Z -> Z -> R) (S R1 : Z -> Z -> Z -> R) (c : R).
Hypothesis (W0 : forall a b, 0 <= a < n -> 0 <= b < n -> (0 < w a b)%R) (W1 : rsum2 n n w = 1%R) (D1 : 1 <= d).
Definition wsum (f : Z -> Z -> Z -> R) : R := rsum3 d n n (fun k a b => w a b * f k a b)%R.
Definition left_over (k b : R) : R := wsum (fun q y x => (S q y x - (k * R1 q y x + b * c)) ^ 2)%R.
Let t1 := wsum (fun q y x => S q y x ^ 2)%R.
Let t2 := (c ^ 2 * IZR d)%R.
Let t3 := wsum (fun q y x => R1 q y x ^ 2)%R.
Let t4 := (c * wsum S)%R.
Let t5 := wsum (fun q y x => R1 q y x * S q y x)%R.
Let t6 := (c * wsum R1)%R.
Lemma wsum_add f g : wsum (fun q y x => f q y x + g q y x)%R = (wsum f + wsum g)%R.
Proof using. clear W0 W1 D1. unfold wsum. rewrite <- rsum3_add. apply rsum3_ext. intros. ring. Qed.
Lemma wsum_scal s f : wsum (fun q y x => s * f q y x)%R = (s * wsum f)%R.
Proof using. clear W0 W1 D1. unfold wsum. rewrite <- rsum3_scal. apply rsum3_ext. intros. ring. Qed.
Lemma wsum_ext f g : (forall q y x, 0 <= q < d -> 0 <= y < n -> 0 <= x < n -> f q y x = g q y x) -> wsum f = wsum g.
Proof using. clear W0 W1 D1. intros E. unfold wsum. apply rsum3_ext. intros. rewrite E by lia. reflexivity. Qed.
Lemma wsum_const s : wsum (fun _ _ _ => s) = (s * IZR d)%R.
Proof using W0 W1 D1.
  unfold wsum, rsum3. rewrite (rsum_ext _ _ (fun _ => s)); [rewrite rsum_const by lia; ring|].
  intros k Hk. rewrite (rsum2_ext _ _ _ (fun a b => s * w a b)%R) by (intros; ring). rewrite rsum2_scal, W1. ring.
Qed.
Lemma left_over_expand k b : left_over k b = (t1 + b ^ 2 * t2 + k ^ 2 * t3 - 2 * b * t4 - 2 * k * t5 + 2 * b * k * t6)%R.
Proof using W0 W1 D1.
  unfold left_over.
  rewrite (wsum_ext _ (fun q y x => (S q y x ^ 2 + (b * c) ^ 2) + (k ^ 2 * (R1 q y x ^ 2) + ((- 2 * b * c) * S q y x + ((- 2 * k) * (R1 q y x * S q y x) + (2 * b * c * k) * R1 q y x))))%R)
    by (intros; ring).
  rewrite !wsum_add, !wsum_scal, wsum_const. unfold t1, t2, t3, t4, t5, t6. ring.
Qed.
Lemma wsum_nonneg f : (forall q y x, 0 <= q < d -> 0 <= y < n -> 0 <= x < n -> (0 <= f q y x)%R) -> (0 <= wsum f)%R.
Proof using W0. intros H. apply rsum3_nonneg. intros. apply Rmult_le_pos; [left; apply W0; assumption|apply H; assumption]. Qed.
Lemma wsum_pos f q y x : (forall q y x, 0 <= q < d -> 0 <= y < n -> 0 <= x < n -> (0 <= f q y x)%R) ->
  0 <= q < d -> 0 <= y < n -> 0 <= x < n -> (0 < f q y x)%R -> (0 < wsum f)%R.
Proof using W0.
  intros H Q Y X P. apply rsum3_pos with q y x; try assumption; [|apply Rmult_lt_0_compat; [apply W0; assumption|exact P] ].
  intros. apply Rmult_le_pos; [left; apply W0; assumption|apply H; assumption].
Qed.
(** difference to a point where the normal equations hold *)
Lemma left_over_normal k b k' b' : (k * t3 + b * t6 = t5)%R -> (k * t6 + b * t2 = t4)%R ->
  left_over k' b' = (left_over k b + wsum (fun q y x => ((k' - k) * R1 q y x + (b' - b) * c) ^ 2))%R.
Proof using W0 W1 D1.
  intros E1 E2. rewrite !left_over_expand.
  rewrite (wsum_ext _ (fun q y x => ((k' - k) ^ 2 * (R1 q y x ^ 2) + ((2 * (k' - k) * (b' - b) * c) * R1 q y x + ((b' - b) * c) ^ 2)))%R) by (intros; ring).
  rewrite !wsum_add, !wsum_scal, wsum_const. fold t3.
  replace (2 * (k' - k) * (b' - b) * c * wsum R1)%R with (2 * (k' - k) * (b' - b) * t6)%R by (unfold t6; ring).
  replace (((b' - b) * c) ^ 2 * IZR d)%R with ((b' - b) ^ 2 * t2)%R by (unfold t2; ring).
  rewrite <- E1, <- E2. ring.
Qed.
Lemma left_over_normal0 k k' : (k * t3 = t5)%R -> left_over k' 0 = (left_over k 0 + (k' - k) ^ 2 * t3)%R.
Proof using W0 W1 D1. intros E1. rewrite !left_over_expand. rewrite <- E1. ring. Qed.
(** the determinant is positive where the reference varies *)
Lemma det_positive : c <> 0%R -> ~ (exists v, forall q y x, 0 <= q < d -> 0 <= y < n -> 0 <= x < n -> R1 q y x = v) -> (0 < t2 * t3 - t6 ^ 2)%R.
Proof using W0 W1 D1.
  intros C V. assert (Dp : (0 < IZR d)%R) by (apply IZR_lt; lia). set (m := (wsum R1 / IZR d)%R).
  assert (P : (0 < wsum (fun q y x => (R1 q y x - m) ^ 2))%R).
  { assert (N : (0 <= wsum (fun q y x => (R1 q y x - m) ^ 2))%R) by (apply wsum_nonneg; intros; apply pow2_ge_0).
    destruct N as [N|N]; [exact N|]. exfalso. apply V. exists m. intros q y x Q Y X.
    destruct (Req_dec (R1 q y x) m) as [E|E]; [exact E|]. exfalso.
    assert (0 < wsum (fun q y x => (R1 q y x - m) ^ 2))%R; [|lra].
    apply wsum_pos with q y x; try assumption; [intros; apply pow2_ge_0|]. apply pow2_gt_0. lra. }
  rewrite (wsum_ext _ (fun q y x => (R1 q y x ^ 2 + ((- 2 * m) * R1 q y x + m ^ 2)))%R) in P by (intros; ring).
  rewrite !wsum_add, wsum_scal, wsum_const in P. fold t3 in P.
  replace (t2 * t3 - t6 ^ 2)%R with (c ^ 2 * (IZR d * (t3 + (- 2 * m * wsum R1 + m ^ 2 * IZR d))))%R by (unfold t2, t6, m; field; lra).
  apply Rmult_lt_0_compat; [apply pow2_gt_0; exact C|]. apply Rmult_lt_0_compat; assumption.
Qed.
Lemma square_positive : ~ (forall q y x, 0 <= q < d -> 0 <= y < n -> 0 <= x < n -> R1 q y x = 0%R) -> (0 < t3)%R.
Proof using W0.
  intros V. assert (N : (0 <= t3)%R) by (apply wsum_nonneg; intros; apply pow2_ge_0). destruct N as [N|N]; [exact N|].
  exfalso. apply V. intros q y x Q Y X. destruct (Req_dec (R1 q y x) 0) as [E|E]; [exact E|]. exfalso.
  assert (0 < t3)%R; [|lra]. apply wsum_pos with q y x; try assumption; [intros; apply pow2_ge_0|]. apply pow2_gt_0. exact E.
Qed.
(** the factors and the cost of the code *)
Lemma fit_minimal (dark : bool) :
  (if dark then c <> 0%R /\ ~ (exists v, forall q y x, 0 <= q < d -> 0 <= y < n -> 0 <= x < n -> R1 q y x = v)
   else ~ (forall q y x, 0 <= q < d -> 0 <= y < n -> 0 <= x < n -> R1 q y x = 0%R)) ->
  forall u2 u4 u6, (dark = true -> u2 = t2 /\ u4 = t4 /\ u6 = t6) ->
  let '(k, b, cost) := umpa_fit dark t1 u2 t3 u4 t5 u6 in
  cost = left_over k b /\ (dark = false -> b = 0%R) /\
  forall k' b', (dark = false -> b' = 0%R) -> (left_over k b <= left_over k' b')%R /\
    (left_over k' b' <= left_over k b -> k' = k /\ b' = b)%R.
Proof using W0 W1 D1.
  intros V u2 u4 u6 U. unfold umpa_fit. destruct dark.
  - destruct (U eq_refl) as (-> & -> & ->). destruct V as (C & V). pose proof (det_positive C V) as P.
    set (tmp := (t2 * t3 - t6 ^ 2)%R) in *. set (k := ((t2 * t5 - t4 * t6) / tmp)%R). set (b := ((t3 * t4 - t5 * t6) / tmp)%R).
    assert (E1 : (k * t3 + b * t6 = t5)%R) by (unfold k, b, tmp in *; field; lra).
    assert (E2 : (k * t6 + b * t2 = t4)%R) by (unfold k, b, tmp in *; field; lra).
    split; [rewrite left_over_expand; reflexivity|]. split; [discriminate|]. intros k' b' _. rewrite (left_over_normal k b k' b' E1 E2).
    assert (N : (0 <= wsum (fun q y x => ((k' - k) * R1 q y x + (b' - b) * c) ^ 2))%R) by (apply wsum_nonneg; intros; apply pow2_ge_0).
    split; [lra|]. intros L.
    destruct (Req_dec k' k) as [Ek|Ek].
    + split; [exact Ek|]. destruct (Req_dec b' b) as [Eb|Eb]; [exact Eb|]. exfalso.
      assert (Q : (wsum (fun q y x => ((k' - k) * R1 q y x + (b' - b) * c) ^ 2) = ((b' - b) * c) ^ 2 * IZR d)%R).
      { rewrite <- wsum_const. apply wsum_ext. intros. rewrite Ek. ring. }
      assert (0 < IZR d)%R by (apply IZR_lt; lia).
      assert (0 < ((b' - b) * c) ^ 2)%R by (apply pow2_gt_0; apply Rmult_integral_contrapositive_currified; [lra|exact C]).
      assert (0 < ((b' - b) * c) ^ 2 * IZR d)%R by (apply Rmult_lt_0_compat; assumption). lra.
    + exfalso. apply V. exists (- ((b' - b) * c) / (k' - k))%R. intros q y x Q Y X.
      destruct (Req_dec ((k' - k) * R1 q y x + (b' - b) * c) 0) as [E|E].
      * apply (Rmult_eq_reg_l (k' - k)); [|lra]. field_simplify; [|lra]. lra.
      * exfalso. assert (0 < wsum (fun q y x => ((k' - k) * R1 q y x + (b' - b) * c) ^ 2))%R; [|lra].
        apply wsum_pos with q y x; try assumption; [intros; apply pow2_ge_0|]. apply pow2_gt_0. exact E.
  - pose proof (square_positive V) as P. set (k := (t5 / t3)%R).
    assert (E1 : (k * t3 = t5)%R) by (unfold k; field; lra).
    split; [rewrite left_over_expand; ring|]. split; [reflexivity|]. intros k' b' B. rewrite (B eq_refl), (left_over_normal0 k k' E1).
    pose proof (pow2_ge_0 (k' - k)). split.
    + assert (0 <= (k' - k) ^ 2 * t3)%R by (apply Rmult_le_pos; lra). lra.
    + intros L. split; [|reflexivity]. destruct (Req_dec k' k) as [E|E]; [exact E|]. exfalso.
      assert (0 < (k' - k) ^ 2 * t3)%R by (apply Rmult_lt_0_compat; [apply pow2_gt_0; lra|exact P]). lra.
Qed.
End squares.
