(** Proofs about the slice metrics. *)
From Coq Require Import Reals Lra ZArith Lia Bool List. Import ListNotations.
From Verif Require Import Np P_Np M_phase_R P_phase_R M_fourier P_fourier M_corr P_corr M_simR S_simR P_simR M_calib S_calib P_calib5 P_calib8 P_unwrap5 P_stackshift M_score S_score.
Open Scope Z_scope.

(** ** grey levels *)
Lemma uint8_level v g : (0 <= v)%R -> (uint8_of v = g <-> grey_level v g).
Proof.
  intros H. unfold uint8_of, rtrunc, grey_level. destruct (Rle_dec 0 (v * 255)) as [_|N]; [|lra].
  destruct (base_Int_part (v * 255)) as (A & B). split; [intros <-; lra|]. intros (C & D).
  assert (L1 : (IZR (Int_part (v * 255)) < IZR g + 1)%R) by lra. assert (L2 : (IZR g < IZR (Int_part (v * 255)) + 1)%R) by lra.
  rewrite <- plus_IZR in L1, L2. apply lt_IZR in L1, L2. lia.
Qed.
Lemma uint8_range v : (0 <= v <= 1)%R -> 0 <= uint8_of v <= 255.
Proof.
  intros H. pose proof (proj1 (uint8_level v _ ltac:(lra)) eq_refl) as (A & B). unfold grey_level in *.
  assert (L1 : (IZR (uint8_of v) <= 255)%R) by lra. assert (L2 : (0 < IZR (uint8_of v) + 1)%R) by lra. rewrite <- plus_IZR in L2. apply le_IZR in L1. apply lt_IZR in L2. lia.
Qed.
Lemma bin_is_level u : 0 <= u <= 255 -> histogram_bin u = u.
Proof.
  intros H. unfold histogram_bin. destruct (Z.eq_dec u 255) as [->|N]; [reflexivity|].
  rewrite <- (Z.div_unique (u * 256) 255 u u); lia.
Qed.
Lemma bin_level v g : (0 <= v <= 1)%R -> (histogram_bin (uint8_of v) = g <-> grey_level v g).
Proof. intros H. rewrite bin_is_level by (apply uint8_range, H). apply uint8_level. lra. Qed.
Definition count (m : img R) (k : Z) : R :=
  rsum (nrow m) (fun i => rsum (ncol m) (fun j => if (histogram_bin (uint8_of (px m i j)) =? k)%Z then 1 else 0))%R.
Lemma count_is m g n : 0 <= nrow m -> 0 <= ncol m -> unit_range m -> pixels_of_level m g n -> count m g = IZR n.
Proof.
  intros Hh Hw U (l & N & <- & I). unfold count. set (f := fun i j => if (histogram_bin (uint8_of (px m i j)) =? g)%Z then 1%Z else 0%Z).
  transitivity (rsum2 (nrow m) (ncol m) (fun i j => IZR (f i j))).
  { apply rsum_ext. intros i _. apply rsum_ext. intros j _. unfold f. destruct (_ =? _)%Z; reflexivity. }
  rewrite rsum2_Z by assumption. f_equal. apply zsum2_count; [exact N| |].
  - intros [i j]. cbn [fst snd]. rewrite I. unfold f. split.
    + intros (A & B & C). split; [split; assumption|]. apply (bin_level _ _ (U i j A B)) in C. rewrite C, Z.eqb_refl. reflexivity.
    + intros ((A & B) & C). split; [exact A|]. split; [exact B|]. apply (bin_level _ _ (U i j A B)). destruct (Z.eqb_spec (histogram_bin (uint8_of (px m i j))) g); [assumption|discriminate].
  - intros p _. unfold f. destruct (_ =? _)%Z; auto.
Qed.
Lemma smoothed_is m j : smoothed (histogram_plus1 m) j = (7 + rsum 7 (fun t => count m (j + t)))%R.
Proof.
  unfold smoothed, histogram_plus1. rewrite (rsum_add 7 (fun _ => 1%R)). rewrite rsum_const by lia. unfold count. lra.
Qed.
Lemma entropy_is m (n : Z -> Z) : 0 <= nrow m -> 0 <= ncol m -> unit_range m -> (forall g, pixels_of_level m g (n g)) ->
  histogram_entropy m = (- rsum 250 (fun j => (7 + rsum 7 (fun t => IZR (n (j + t)%Z))) * (ln (7 + rsum 7 (fun t => IZR (n (j + t)%Z))) / ln 2)))%R.
Proof.
  intros Hh Hw U C. unfold histogram_entropy. f_equal. apply rsum_ext. intros j Hj. cbv zeta. rewrite smoothed_is.
  rewrite (rsum_ext 7 (fun t => count m (j + t)) (fun t => IZR (n (j + t)%Z))); [reflexivity|]. intros t Ht. apply count_is; auto.
Qed.

(** ** convexity of x ln x *)
Definition xlnx (x : R) : R := (x * ln x)%R.
Lemma ln_below x : (0 < x)%R -> x <> 1%R -> (ln x < x - 1)%R.
Proof.
  intros H N. assert (K : ln x <> 0%R). { intros E. apply N. rewrite <- (exp_ln x H), E. apply exp_0. }
  pose proof (exp_ineq1 (ln x) K) as E. rewrite exp_ln in E by exact H. lra.
Qed.
Lemma chord a b x : (0 < a)%R -> (a < x < b)%R -> (xlnx x < xlnx a + (x - a) / (b - a) * (xlnx b - xlnx a))%R.
Proof.
  intros Ha Hx. unfold xlnx. set (q := ((x - a) / (b - a))%R). assert (Q : (0 < q < 1)%R).
  { unfold q. split; [apply Rdiv_lt_0_compat; lra|]. apply (Rmult_lt_reg_r (b - a)); [lra|]. replace ((x - a) / (b - a) * (b - a))%R with (x - a)%R by (field; lra). lra. }
  assert (X : (x = (1 - q) * a + q * b)%R) by (unfold q; field; lra).
  assert (L1 : (ln (x / a) < x / a - 1)%R). { apply ln_below; [apply Rdiv_lt_0_compat; lra|]. intros E. assert (x = a) by (apply (Rmult_eq_reg_r (/ a)); [unfold Rdiv in E; rewrite E; field; lra|apply Rinv_neq_0_compat; lra]). lra. }
  assert (L2 : (ln (x / b) < x / b - 1)%R). { apply ln_below; [apply Rdiv_lt_0_compat; lra|]. intros E. assert (x = b) by (apply (Rmult_eq_reg_r (/ b)); [unfold Rdiv in E; rewrite E; field; lra|apply Rinv_neq_0_compat; lra]). lra. }
  unfold Rdiv in L1, L2. rewrite ln_mult, ln_Rinv in L1 by (try apply Rinv_0_lt_compat; lra). rewrite ln_mult, ln_Rinv in L2 by (try apply Rinv_0_lt_compat; lra).
  assert (M1 : ((1 - q) * a * (ln x - ln a) < (1 - q) * (x - a))%R).
  { replace ((1 - q) * (x - a))%R with ((1 - q) * a * (x * / a - 1))%R by (field; lra). apply Rmult_lt_compat_l; [apply Rmult_lt_0_compat; lra|lra]. }
  assert (M2 : (q * b * (ln x - ln b) < q * (x - b))%R).
  { replace (q * (x - b))%R with (q * b * (x * / b - 1))%R by (field; lra). apply Rmult_lt_compat_l; [apply Rmult_lt_0_compat; lra|lra]. }
  assert (S0 : ((1 - q) * (x - a) + q * (x - b) = 0)%R) by (rewrite X at 1 2; ring).
  assert (T : (((1 - q) * a + q * b) * ln x < (1 - q) * a * ln a + q * b * ln b)%R) by lra. rewrite <- X in T. lra.
Qed.
Lemma chord_le a b x : (0 < a)%R -> (a < b)%R -> (a <= x <= b)%R -> (xlnx x <= xlnx a + (x - a) / (b - a) * (xlnx b - xlnx a))%R.
Proof.
  intros Ha Hab Hx. destruct (Req_dec x a) as [->|N1]; [replace (a - a)%R with 0%R by ring; unfold Rdiv; lra|].
  destruct (Req_dec x b) as [->|N2]; [apply Req_le; field; lra|]. left. apply chord; lra.
Qed.

(** ** the sums over the windows *)
Section windows.
Variables (c : Z -> R) (N : R).
Hypothesis (Hc : forall k, (0 <= c k)%R) (HN : rsum 256 c = N).
Let S (j : Z) : R := rsum 7 (fun t => c (j + t)%Z).
Lemma nonneg_sum n f : (forall k, (0 <= f k)%R) -> (0 <= rsum n f)%R.
Proof. intros H. rewrite <- (rsum_zero n). apply rsum_le. intros; apply H. Qed.
Lemma split3 a b : 0 <= a -> 0 <= b -> a + b <= 256 ->
  (N = rsum a c + rsum b (fun k => c (a + k)%Z) + rsum (256 - a - b) (fun k => c (a + b + k)%Z))%R.
Proof.
  intros Ha Hb Hab. rewrite <- HN. replace 256 with ((a + b) + (256 - a - b)) at 1 by lia. rewrite rsum_app by lia. rewrite rsum_app by lia. reflexivity.
Qed.
Lemma window_range j : 0 <= j < 250 -> (0 <= S j <= N)%R.
Proof.
  intros Hj. split; [apply nonneg_sum; auto|]. rewrite (split3 j 7) by lia. unfold S.
  pose proof (nonneg_sum j c Hc). pose proof (nonneg_sum (256 - j - 7) (fun k => c (j + 7 + k)%Z) (fun k => Hc _)). lra.
Qed.
Lemma windows_sum : (rsum 250 S = rsum 7 (fun t => rsum 250 (fun j => c (t + j)%Z)))%R.
Proof. unfold S. rewrite rsum_swap. apply rsum_ext; intros t _. apply rsum_ext; intros j _. f_equal. lia. Qed.
Lemma line_le t : 0 <= t < 7 -> (rsum 250 (fun j => c (t + j)%Z) <= N)%R.
Proof.
  intros Ht. rewrite (split3 t 250) by lia. pose proof (nonneg_sum t c Hc). pose proof (nonneg_sum (256 - t - 250) (fun k => c (t + 250 + k)%Z) (fun k => Hc _)). lra.
Qed.
Lemma windows_le : (rsum 250 S <= 7 * N)%R.
Proof. rewrite windows_sum. rewrite <- (rsum_const 7 N) by lia. apply rsum_le. exact line_le. Qed.
Let D : R := (xlnx (7 + N) - xlnx 7)%R.
Hypothesis (N0 : (0 < N)%R).
Lemma D_pos : (0 < D)%R.
Proof.
  unfold D, xlnx. assert (A : (ln 7 < ln (7 + N))%R) by (apply ln_increasing; lra). assert (B : (0 < ln 7)%R) by (rewrite <- ln_1; apply ln_increasing; lra).
  assert (C : (7 * ln 7 < 7 * ln (7 + N))%R) by lra. assert (E : (0 < N * ln (7 + N))%R) by (apply Rmult_lt_0_compat; lra). lra.
Qed.
Lemma term_le j : 0 <= j < 250 -> (xlnx (7 + S j) <= xlnx 7 + S j * (D / N))%R.
Proof.
  intros Hj. pose proof (window_range j Hj). pose proof (chord_le 7 (7 + N) (7 + S j) ltac:(lra) ltac:(lra) ltac:(lra)) as C.
  replace ((7 + S j - 7) / (7 + N - 7) * (xlnx (7 + N) - xlnx 7))%R with (S j * (D / N))%R in C by (unfold D; field; lra). exact C.
Qed.
Lemma bound : (rsum 250 (fun j => xlnx (7 + S j)) <= 250 * xlnx 7 + 7 * D)%R.
Proof.
  apply Rle_trans with (rsum 250 (fun j => xlnx 7 + S j * (D / N)))%R; [apply rsum_le, term_le|].
  rewrite rsum_add, rsum_const, rsum_scal_r by lia. pose proof windows_le as W. pose proof D_pos as P. assert (Q : (0 < D / N)%R) by (apply Rdiv_lt_0_compat; assumption).
  apply (Rmult_le_compat_r (D / N)) in W; [|lra]. replace (7 * N * (D / N))%R with (7 * D)%R in W by (field; lra). lra.
Qed.
Lemma tight : (rsum 250 (fun j => xlnx (7 + S j)) = 250 * xlnx 7 + 7 * D)%R -> exists g, 6 <= g <= 249 /\ c g = N.
Proof.
  intros E. pose proof D_pos as P. assert (Q : (0 < D / N)%R) by (apply Rdiv_lt_0_compat; assumption).
  assert (M : (rsum 250 (fun j => xlnx 7 + S j * (D / N)) = 250 * xlnx 7 + rsum 250 S * (D / N))%R) by (rewrite rsum_add, rsum_const, rsum_scal_r by lia; reflexivity).
  pose proof (rsum_le 250 _ _ term_le) as L. cbv beta in L. rewrite M in L. pose proof windows_le as W.
  assert (W2 : (rsum 250 S = 7 * N)%R).
  { apply Rle_antisym; [exact W|]. apply (Rmult_le_reg_r (D / N)); [exact Q|]. replace (7 * N * (D / N))%R with (7 * D)%R by (field; lra). lra. }
  assert (T : forall j, 0 <= j < 250 -> S j = 0%R \/ S j = N).
  { intros j Hj. assert (Z0 : (rsum 250 (fun j => xlnx 7 + S j * (D / N) - xlnx (7 + S j)) <= 0)%R).
    { rewrite rsum_sub, M, W2, E. replace (7 * N * (D / N))%R with (7 * D)%R by (field; lra). lra. }
    apply (Rle_trans (xlnx 7 + S j * (D / N) - xlnx (7 + S j)) _ _ (rsum_term 250 (fun j => xlnx 7 + S j * (D / N) - xlnx (7 + S j))%R j ltac:(intros i Hi; pose proof (term_le i Hi); lra) Hj)) in Z0.
    pose proof (window_range j Hj) as R0. destruct (Req_dec (S j) 0) as [|N1]; [left; assumption|]. destruct (Req_dec (S j) N) as [|N2]; [right; assumption|]. exfalso.
    pose proof (chord 7 (7 + N) (7 + S j) ltac:(lra) ltac:(lra)) as C.
    replace ((7 + S j - 7) / (7 + N - 7) * (xlnx (7 + N) - xlnx 7))%R with (S j * (D / N))%R in C by (unfold D; field; lra). lra. }
  assert (Lt : forall t, 0 <= t < 7 -> rsum 250 (fun j => c (t + j)%Z) = N).
  { intros t Ht. apply Rle_antisym; [apply line_le, Ht|]. rewrite windows_sum in W2.
    assert (Z0 : (rsum 7 (fun t => N - rsum 250 (fun j => c (t + j)%Z)) <= 0)%R) by (rewrite rsum_sub, W2, rsum_const by lia; lra).
    apply (Rle_trans (N - rsum 250 (fun j => c (t + j)%Z)) _ _ (rsum_term 7 (fun t => N - rsum 250 (fun j => c (t + j)%Z))%R t ltac:(intros i Hi; pose proof (line_le i Hi); lra) Ht)) in Z0. lra. }
  assert (Low : forall k, 0 <= k < 6 -> c k = 0%R).
  { intros k Hk. pose proof (split3 6 250 ltac:(lia) ltac:(lia) ltac:(lia)) as S3. rewrite Lt in S3 by lia.
    pose proof (nonneg_sum (256 - 6 - 250) (fun k => c (6 + 250 + k)%Z) (fun k => Hc _)). pose proof (rsum_term 6 c k (fun i _ => Hc i) Hk). pose proof (Hc k). lra. }
  assert (High : forall k, 250 <= k < 256 -> c k = 0%R).
  { intros k Hk. pose proof (split3 0 250 ltac:(lia) ltac:(lia) ltac:(lia)) as S3. rewrite Lt in S3 by lia.
    pose proof (rsum_term (256 - 0 - 250) (fun k => c (0 + 250 + k)%Z) (k - 250) (fun i _ => Hc _) ltac:(lia)) as Y. cbv beta in Y. replace (0 + 250 + (k - 250)) with k in Y by lia.
    pose proof (nonneg_sum 0 c Hc). pose proof (Hc k). lra. }
  assert (First : forall n, (exists k, 0 <= k < Z.of_nat n /\ (0 < c k)%R /\ forall j, 0 <= j < k -> c j = 0%R) \/ (forall k, 0 <= k < Z.of_nat n -> c k = 0%R)).
  { induction n as [|n IH]; [right; intros; lia|]. destruct IH as [(k & K1 & K2 & K3)|A]; [left; exists k; repeat split; try assumption; lia|].
    destruct (Req_dec (c (Z.of_nat n)) 0) as [Z0|NZ].
    - right. intros k Hk. destruct (Z.eq_dec k (Z.of_nat n)) as [->|]; [exact Z0|apply A; lia].
    - left. exists (Z.of_nat n). split; [lia|]. split; [|exact A]. pose proof (Hc (Z.of_nat n)). lra. }
  destruct (First 256%nat) as [(a & A1 & A2 & A3)|A].
  - assert (B1 : 6 <= a) by (destruct (Z_lt_le_dec a 6) as [F|F]; [rewrite Low in A2 by lia; lra|exact F]).
    assert (B2 : a <= 249) by (destruct (Z_lt_le_dec a 250) as [F|F]; [lia|rewrite High in A2 by lia; lra]).
    exists a. split; [lia|]. assert (Sa : S (a - 6) = c a).
    { unfold S. rewrite (rsum_single 7 _ 6); [f_equal; lia|lia|]. intros i Hi Ni. apply A3. lia. }
    destruct (T (a - 6) ltac:(lia)) as [X|X]; rewrite Sa in X; [lra|exact X].
  - exfalso. rewrite (rsum_ext 256 c (fun _ => 0%R)) in HN by (intros; apply A; lia). rewrite rsum_zero in HN. lra.
Qed.
Lemma attained g : 6 <= g <= 249 -> c g = N -> (rsum 250 (fun j => xlnx (7 + S j)) = 250 * xlnx 7 + 7 * D)%R.
Proof.
  intros Hg E. assert (Other : forall k, 0 <= k < 256 -> k <> g -> c k = 0%R).
  { pose proof (split3 g 1 ltac:(lia) ltac:(lia) ltac:(lia)) as S3. replace (rsum 1 (fun k => c (g + k)%Z)) with (c g) in S3 by (rewrite (rsum_single 1 _ 0) by (intros; lia); f_equal; lia).
    pose proof (nonneg_sum g c Hc). pose proof (nonneg_sum (256 - g - 1) (fun k => c (g + 1 + k)%Z) (fun k => Hc _)). intros k Hk Nk. pose proof (Hc k). destruct (Z_lt_le_dec k g) as [L|L].
    - pose proof (rsum_term g c k (fun i _ => Hc i) ltac:(lia)). lra.
    - pose proof (rsum_term (256 - g - 1) (fun k => c (g + 1 + k)%Z) (k - g - 1) (fun i _ => Hc _) ltac:(lia)) as Y. cbv beta in Y. replace (g + 1 + (k - g - 1)) with k in Y by lia. lra. }
  assert (T : forall j, 0 <= j < 250 -> S j = 0%R \/ S j = N).
  { intros j Hj. destruct (Z_le_dec j g) as [L1|L1]; [destruct (Z_le_dec g (j + 6)) as [L2|L2]|].
    - right. unfold S. rewrite (rsum_single 7 _ (g - j)); [rewrite <- E; f_equal; lia|lia|]. intros i Hi Ni. apply Other; lia.
    - left. unfold S. rewrite (rsum_ext 7 _ (fun _ => 0%R)); [apply rsum_zero|]. intros i Hi. apply Other; lia.
    - left. unfold S. rewrite (rsum_ext 7 _ (fun _ => 0%R)); [apply rsum_zero|]. intros i Hi. apply Other; lia. }
  assert (W : rsum 250 S = (7 * N)%R).
  { rewrite windows_sum. rewrite (rsum_ext 7 _ (fun _ => N)); [rewrite rsum_const by lia; lra|]. intros t Ht.
    rewrite (rsum_single 250 _ (g - t)); [rewrite <- E; f_equal; lia|lia|]. intros i Hi Ni. apply Other; lia. }
  rewrite (rsum_ext 250 _ (fun j => xlnx 7 + S j * (D / N))%R).
  - rewrite rsum_add, rsum_const, rsum_scal_r by lia. rewrite W. field. lra.
  - intros j Hj. destruct (T j Hj) as [-> | ->]; [rewrite Rplus_0_r; lra|]. unfold D. field. lra.
Qed.
End windows.

(** ** the entropy metric *)
Lemma count_nonneg m k : (0 <= count m k)%R.
Proof. apply nonneg_sum. intros i. apply nonneg_sum. intros j. destruct (_ =? _)%Z; lra. Qed.
Lemma count_total m : 0 <= nrow m -> 0 <= ncol m -> unit_range m -> rsum 256 (count m) = (IZR (nrow m) * IZR (ncol m))%R.
Proof.
  intros Hh Hw U. unfold count. rewrite rsum_swap. rewrite (rsum_ext (nrow m) _ (fun _ => IZR (ncol m))); [rewrite rsum_const by lia; reflexivity|].
  intros i Hi. rewrite rsum_swap. rewrite (rsum_ext (ncol m) _ (fun _ => 1%R)); [rewrite rsum_const by lia; lra|].
  intros j Hj. rewrite (rsum_single 256 _ (histogram_bin (uint8_of (px m i j)))).
  - rewrite Z.eqb_refl. reflexivity.
  - pose proof (uint8_range _ (U i j Hi Hj)). rewrite bin_is_level by lia. lia.
  - intros k Hk Nk. destruct (Z.eqb_spec (histogram_bin (uint8_of (px m i j))) k); [congruence|reflexivity].
Qed.
Lemma entropy_F m : histogram_entropy m = (- (rsum 250 (fun j => xlnx (7 + rsum 7 (fun t => count m (j + t)%Z))) / ln 2))%R.
Proof.
  unfold histogram_entropy. f_equal. unfold Rdiv. rewrite <- rsum_scal_r. apply rsum_ext; intros j _. cbv zeta. rewrite smoothed_is. unfold xlnx. ring.
Qed.
Lemma ln2_pos : (0 < ln 2)%R. Proof. rewrite <- ln_1. apply ln_increasing; lra. Qed.
Lemma count_full m g : 0 <= nrow m -> 0 <= ncol m -> unit_range m -> (count m g = (IZR (nrow m) * IZR (ncol m))%R <-> uniform_level m g).
Proof.
  intros Hh Hw U. set (ind := fun i j => if (histogram_bin (uint8_of (px m i j)) =? g)%Z then 1%R else 0%R). split.
  - intros E. assert (Z0 : (rsum (nrow m) (fun i => rsum (ncol m) (fun j => 1 - ind i j)) <= 0)%R).
    { rewrite (rsum_ext (nrow m) _ (fun i => IZR (ncol m) - rsum (ncol m) (ind i))%R) by (intros; rewrite rsum_sub, rsum_const by lia; lra).
      rewrite rsum_sub, rsum_const by lia. change (rsum (nrow m) (fun i => rsum (ncol m) (ind i))) with (count m g). lra. }
    assert (P : forall i j, (0 <= 1 - ind i j)%R) by (intros; unfold ind; destruct (_ =? _)%Z; lra).
    intros i j Hi Hj. apply (bin_level _ _ (U i j Hi Hj)).
    pose proof (rsum_term (nrow m) (fun i => rsum (ncol m) (fun j => 1 - ind i j)%R) i (fun i _ => nonneg_sum _ _ (P i)) Hi) as A. cbv beta in A.
    pose proof (rsum_term (ncol m) (fun j => 1 - ind i j)%R j (fun j _ => P i j) Hj) as B. cbv beta in B. unfold ind in B at 1. destruct (Z.eqb_spec (histogram_bin (uint8_of (px m i j))) g); [assumption|lra].
  - intros L. unfold count. rewrite (rsum_ext (nrow m) _ (fun _ => IZR (ncol m))); [rewrite rsum_const by lia; reflexivity|]. intros i Hi.
    rewrite (rsum_ext (ncol m) _ (fun _ => 1%R)); [rewrite rsum_const by lia; lra|]. intros j Hj.
    rewrite (proj2 (bin_level _ _ (U i j Hi Hj)) (L i j Hi Hj)), Z.eqb_refl. reflexivity.
Qed.
Lemma entropy_least m u g : 1 <= nrow m -> 1 <= ncol m -> unit_range m -> nrow u = nrow m -> ncol u = ncol m -> unit_range u ->
  6 <= g <= 249 -> uniform_level u g ->
  (histogram_entropy u <= histogram_entropy m)%R /\ (histogram_entropy m = histogram_entropy u <-> exists g', 6 <= g' <= 249 /\ uniform_level m g').
Proof.
  intros Hh Hw U Eh Ew U' Hg L. set (N := (IZR (nrow m) * IZR (ncol m))%R).
  assert (N0 : (0 < N)%R) by (apply Rmult_lt_0_compat; apply (IZR_lt 0); lia).
  assert (Tm : rsum 256 (count m) = N) by (apply count_total; [lia|lia|exact U]).
  assert (Tu : rsum 256 (count u) = N) by (unfold N; rewrite <- Eh, <- Ew; apply count_total; [lia|lia|exact U']).
  assert (Cu : count u g = N) by (unfold N; rewrite <- Eh, <- Ew; apply count_full; [lia|lia|exact U'|exact L]).
  pose proof (bound (count m) N (count_nonneg m) Tm N0) as B. pose proof (attained (count u) N (count_nonneg u) Tu N0 g Hg Cu) as A.
  pose proof ln2_pos as L2. rewrite !entropy_F, A. split; [|split].
  - apply Ropp_le_contravar. apply Rmult_le_compat_r; [left; apply Rinv_0_lt_compat, L2|exact B].
  - intros E. destruct (tight (count m) N (count_nonneg m) Tm N0) as (g' & H1 & H2).
    + apply (Rmult_eq_reg_r (/ ln 2)); [|apply Rinv_neq_0_compat; lra]. unfold Rdiv in E. lra.
    + exists g'. split; [exact H1|]. apply count_full; [lia|lia|exact U|exact H2].
  - intros (g' & H1 & H2). apply count_full in H2; [|lia|lia|exact U]. rewrite (attained (count m) N (count_nonneg m) Tm N0 g' H1 H2). reflexivity.
Qed.
Lemma entropy_ext m m' : nrow m = nrow m' -> ncol m = ncol m' -> (forall i j, in_rng (nrow m) i -> in_rng (ncol m) j -> px m i j = px m' i j) -> histogram_entropy m = histogram_entropy m'.
Proof.
  intros Eh Ew E. rewrite !entropy_F. f_equal. f_equal. apply rsum_ext; intros j _. f_equal. f_equal. apply rsum_ext; intros t _. unfold count. rewrite <- Eh, <- Ew.
  apply rsum_ext; intros a Ha. apply rsum_ext; intros b Hb. rewrite E by assumption. reflexivity.
Qed.
Lemma entropy_score_scaled m a b nmin nmax : (0 < a)%R -> (nmin < nmax)%R ->
  entropy_score (imap (fun v => a * v + b)%R m) (a * nmin + b) (a * nmax + b) = entropy_score m nmin nmax.
Proof.
  intros Ha H. unfold entropy_score. apply entropy_ext; try reflexivity. intros i j _ _. unfold imap. cbn [px].
  replace ((a * px m i j + b - (a * nmin + b)) / (a * nmax + b - (a * nmin + b)))%R with ((px m i j - nmin) / (nmax - nmin))%R; [reflexivity|].
  replace (a * nmax + b - (a * nmin + b))%R with (a * (nmax - nmin))%R by ring. field. split; lra.
Qed.

(** ** sharpness *)
Lemma gradient_zero n f : 2 <= n -> (forall i, in_rng n i -> np_gradient n f i = 0%R) -> forall i, in_rng n i -> f i = f 0.
Proof.
  intros Hn G. unfold in_rng in *. assert (P : forall k : nat, (Z.of_nat k < n -> f (Z.of_nat k) = f 0) /\ (Z.of_nat k + 1 < n -> f (Z.of_nat k + 1) = f 0)).
  { induction k as [|k (IH1 & IH2)].
    - split; [reflexivity|]. intros _. pose proof (G 0 ltac:(lia)) as E. unfold np_gradient in E. cbn [Z.eqb] in E. change (Z.of_nat 0 + 1) with 1. lra.
    - replace (Z.of_nat (S k)) with (Z.of_nat k + 1) by lia. split; [exact IH2|]. intros H. pose proof (G (Z.of_nat k + 1) ltac:(lia)) as E. unfold np_gradient in E.
      destruct (Z.eqb_spec (Z.of_nat k + 1) 0); [lia|]. destruct (Z.eqb_spec (Z.of_nat k + 1) (n - 1)); [lia|].
      replace (Z.of_nat k + 1 - 1) with (Z.of_nat k) in E by lia. rewrite IH1 in E by lia. lra. }
  intros i Hi. rewrite <- (Z2Nat.id i) by lia. apply P. lia.
Qed.
Lemma sharpness_blank m s : edge_sharpness m = Ok s -> (0 <= s)%R /\ (s = 0%R <-> blank m).
Proof.
  unfold edge_sharpness. destruct (Z.ltb_spec (nrow m) 2); [discriminate|]. destruct (Z.ltb_spec (ncol m) 2); [discriminate|]. cbn [orb]. intros E. injection E as <-.
  set (t := fun i j => sqrt (np_gradient (nrow m) (fun a => px m a j) i ^ 2 + np_gradient (ncol m) (fun b => px m i b) j ^ 2)).
  assert (T : forall i j, (0 <= t i j)%R) by (intros; apply sqrt_pos).
  assert (N0 : (0 < IZR (nrow m) * IZR (ncol m))%R) by (apply Rmult_lt_0_compat; apply (IZR_lt 0); lia).
  assert (N1 : (0 <= / (IZR (nrow m) * IZR (ncol m)))%R) by (left; apply Rinv_0_lt_compat, N0).
  split; [apply Rmult_le_pos; [apply nonneg_sum; intros i; apply nonneg_sum; intros j; apply T|exact N1]|]. split.
  - intros E. assert (E0 : (rsum (nrow m) (fun i => rsum (ncol m) (t i)) <= 0)%R).
    { apply Req_le. apply (Rmult_eq_reg_r (/ (IZR (nrow m) * IZR (ncol m)))); [|apply Rinv_neq_0_compat; lra]. unfold Rdiv in E. change (rsum (nrow m) (fun i => rsum (ncol m) (t i))) with (rsum (nrow m) (fun i => rsum (ncol m) (fun j => t i j))). fold t in E. rewrite Rmult_0_l. exact E. }
    assert (Z0 : forall i j, in_rng (nrow m) i -> in_rng (ncol m) j -> t i j = 0%R).
    { intros i j Hi Hj. pose proof (rsum_term (nrow m) (fun i => rsum (ncol m) (t i)) i (fun i _ => nonneg_sum _ _ (T i)) Hi). cbv beta in *.
      pose proof (rsum_term (ncol m) (t i) j (fun j _ => T i j) Hj). pose proof (T i j). lra. }
    assert (G : forall i j, in_rng (nrow m) i -> in_rng (ncol m) j -> np_gradient (nrow m) (fun a => px m a j) i = 0%R /\ np_gradient (ncol m) (fun b => px m i b) j = 0%R).
    { intros i j Hi Hj. pose proof (Z0 i j Hi Hj) as Y. unfold t in Y. set (p := np_gradient (nrow m) (fun a => px m a j) i) in *. set (q := np_gradient (ncol m) (fun b => px m i b) j) in *.
      pose proof (pow2_ge_0 p). pose proof (pow2_ge_0 q). apply sqrt_eq_0 in Y; [|lra]. split; [destruct (Req_dec p 0) as [|K]|destruct (Req_dec q 0) as [|K]]; try assumption; apply (pow_nonzero _ 2) in K; lra. }
    assert (A : forall i j, in_rng (nrow m) i -> in_rng (ncol m) j -> px m i j = px m 0 0).
    { intros i j Hi Hj. rewrite (gradient_zero (nrow m) (fun a => px m a j) ltac:(lia) (fun a Ha => proj1 (G a j Ha Hj)) i Hi).
      apply (gradient_zero (ncol m) (fun b => px m 0 b) ltac:(lia)); [|exact Hj]. intros b Hb. apply (G 0 b); [unfold in_rng; lia|exact Hb]. }
    intros i j i' j' Hi Hj Hi' Hj'. rewrite (A i j), (A i' j') by assumption. reflexivity.
  - intros B. rewrite (rsum_ext (nrow m) _ (fun _ => 0%R)); [rewrite rsum_zero; unfold Rdiv; ring|]. intros i Hi. rewrite (rsum_ext (ncol m) _ (fun _ => 0%R)); [apply rsum_zero|]. intros j Hj.
    assert (C : forall n f x, 2 <= n -> (forall k, in_rng n k -> f k = x) -> forall k, in_rng n k -> np_gradient n f k = 0%R).
    { unfold in_rng. intros n f x Hn Hf k Hk. unfold np_gradient. destruct (Z.eqb_spec k 0); [rewrite !Hf by lia; lra|]. destruct (Z.eqb_spec k (n - 1)); [rewrite !Hf by lia; lra|]. rewrite !Hf by lia. lra. }
    rewrite (C (nrow m) _ (px m i j)), (C (ncol m) _ (px m i j)); [|lia| |exact Hj|lia| |exact Hi].
    + transitivity (sqrt 0); [f_equal; ring|apply sqrt_0].
    + intros k Hk. apply B; assumption.
    + intros k Hk. apply B; assumption.
Qed.
Lemma gradient_scaled n f a b i : np_gradient n (fun k => a * f k + b)%R i = (a * np_gradient n f i)%R.
Proof. unfold np_gradient. destruct (_ =? _)%Z; [ring|]. destruct (_ =? _)%Z; [ring|]. field. Qed.
Lemma sharpness_scaled m a b s : edge_sharpness m = Ok s -> edge_sharpness (imap (fun v => a * v + b)%R m) = Ok (Rabs a * s)%R.
Proof.
  unfold edge_sharpness. cbn [nrow ncol imap px]. destruct (_ || _); [discriminate|]. intros E. injection E as <-. f_equal. unfold Rdiv. rewrite <- Rmult_assoc. f_equal.
  rewrite <- rsum_scal. apply rsum_ext; intros i _. rewrite <- rsum_scal. apply rsum_ext; intros j _. rewrite !gradient_scaled.
  set (p := np_gradient (nrow m) _ i). set (q := np_gradient (ncol m) _ j). replace ((a * p) ^ 2 + (a * q) ^ 2)%R with (a ^ 2 * (p ^ 2 + q ^ 2))%R by ring.
  rewrite sqrt_mult by (try apply pow2_ge_0; pose proof (pow2_ge_0 p); pose proof (pow2_ge_0 q); lra). f_equal.
  rewrite <- (sqrt_Rsqr_abs a). f_equal. unfold Rsqr. ring.
Qed.

(** ** autocorrelation *)
Lemma cabs_add a b : (cabs (cadd a b) <= cabs a + cabs b)%R.
Proof.
  destruct a as [a1 a2], b as [b1 b2]. unfold cabs, cadd. cbn [fst snd].
  pose proof (triangle 0 0 (a1 + b1) (a2 + b2) a1 a2) as T. unfold dist_euc in T.
  replace ((a1 + b1) ^ 2 + (a2 + b2) ^ 2)%R with (Rsqr (0 - (a1 + b1)) + Rsqr (0 - (a2 + b2)))%R by (unfold Rsqr; ring).
  replace (a1 ^ 2 + a2 ^ 2)%R with (Rsqr (0 - a1) + Rsqr (0 - a2))%R by (unfold Rsqr; ring).
  replace (b1 ^ 2 + b2 ^ 2)%R with (Rsqr (a1 - (a1 + b1)) + Rsqr (a2 - (a2 + b2)))%R by (unfold Rsqr; ring). exact T.
Qed.
Lemma cabs_csum n f : (cabs (csum n f) <= rsum n (fun k => cabs (f k)))%R.
Proof.
  unfold csum, rsum. induction (Z.to_nat n) as [|k IH].
  - cbn [rsumn]. replace (0%R, 0%R) with (c_ 0) by reflexivity. rewrite cabs_nonneg_real; lra.
  - cbn [rsumn]. eapply Rle_trans; [apply (cabs_add (rsumn k (fun k => fst (f k)), rsumn k (fun k => snd (f k))) (f (Z.of_nat k)))|]. lra.
Qed.
Lemma conj_square a : cmul a (cconj a) = c_ (cabs a ^ 2).
Proof.
  unfold cabs. apply cx_eq; unfold cmul, cconj, c_; cbn [fst snd]; [|ring].
  rewrite pow2_sqrt by (pose proof (pow2_ge_0 (fst a)); pose proof (pow2_ge_0 (snd a)); lra). ring.
Qed.
Lemma csum_c n f : csum n (fun k => c_ (f k)) = c_ (rsum n f).
Proof. unfold csum, c_. cbn [fst snd]. rewrite rsum_zero. reflexivity. Qed.
Section row.
Variables (m : img R) (i : Z).
Hypothesis (Hw : 1 <= ncol m).
Let w := ncol m.
Let F (v : Z) : cx := px (fft1 (imap c_ m)) i v.
Lemma parseval : rsum w (fun v => (cabs (F v) ^ 2)%R) = (IZR w * rsum w (fun k => (px m i k ^ 2)%R))%R.
Proof.
  assert (W0 : IZR w <> 0%R) by (apply not_0_IZR; unfold w; lia).
  assert (Inv : forall k, in_rng w k -> csum w (fun v => cmul (F v) (root w (v * k))) = cmul (c_ (IZR w)) (c_ (px m i k))).
  { intros k Hk. pose proof (ifft1_fft1 (imap c_ m) i k Hk) as E. cbn [px imap] in E. unfold ifft1 in E. cbn [px nrow ncol fft1 imap] in E. fold w in E.
    assert (G : forall a b, cdivr a (IZR w) = b -> a = cmul (c_ (IZR w)) b).
    { intros a b <-. apply cx_eq; unfold cdivr, cmul, c_; cbn [fst snd]; field; exact W0. }
    apply G in E. rewrite <- E. apply csum_ext. intros v Hv. reflexivity. }
  assert (E : csum w (fun v => c_ (cabs (F v) ^ 2)) = csum w (fun k => cmul (c_ (px m i k)) (cmul (c_ (IZR w)) (c_ (px m i k))))).
  { transitivity (csum w (fun v => csum w (fun k => cmul (c_ (px m i k)) (cmul (F v) (root w (v * k)))))).
    - apply csum_ext. intros v Hv. rewrite <- conj_square. change (cconj (F v)) with (cconj (csum w (fun b => cmul (c_ (px m i b)) (root w (- (v * b)))))).
      rewrite <- csum_conj, <- csum_scal. apply csum_ext. intros k Hk. rewrite root_opp. apply cx_eq; unfold cmul, cconj, c_; cbn [fst snd]; ring.
    - rewrite csum_swap. apply csum_ext. intros k Hk. rewrite csum_scal. rewrite Inv by exact Hk. reflexivity. }
  rewrite csum_c in E. apply (f_equal fst) in E. unfold csum in E. cbn [fst c_ cmul snd] in E. rewrite E. rewrite <- rsum_scal. apply rsum_ext. intros k Hk. ring.
Qed.
Lemma autocorr_max : rmaximum (map (fun b => cabs (px (ifft1 (imap (fun z => c_ (cabs z ^ 2)) (fft1 (imap c_ m)))) i b)) (zrange 0 w)) = rsum w (fun k => (px m i k ^ 2)%R).
Proof.
  assert (W0 : (0 < IZR w)%R) by (apply (IZR_lt 0); unfold w; lia).
  assert (E : forall b, px (ifft1 (imap (fun z => c_ (cabs z ^ 2)) (fft1 (imap c_ m)))) i b = cdivr (csum w (fun v => cmul (c_ (cabs (F v) ^ 2)) (root w (v * b)))) (IZR w)) by reflexivity.
  assert (S0 : (0 <= rsum w (fun k => (px m i k ^ 2)%R))%R) by (apply nonneg_sum; intros; apply pow2_ge_0).
  apply rmaximum_is.
  - apply in_map_iff. exists 0. split; [|apply zrange_In; unfold w; lia]. rewrite E.
    rewrite (csum_ext w _ (fun v => c_ (cabs (F v) ^ 2))) by (intros v Hv; rewrite Z.mul_0_r, root_0; apply cx_eq; unfold cmul, c_; cbn [fst snd]; ring).
    rewrite csum_c, parseval. rewrite cabs_divr by exact W0. rewrite cabs_nonneg_real by (apply Rmult_le_pos; lra). field. lra.
  - intros y Hy. apply in_map_iff in Hy as (b & <- & Hb). rewrite E, cabs_divr by exact W0.
    apply (Rmult_le_reg_r (IZR w)); [exact W0|]. unfold Rdiv. rewrite Rmult_assoc, Rinv_l, Rmult_1_r by lra. eapply Rle_trans; [apply cabs_csum|].
    rewrite (rsum_ext w _ (fun v => (cabs (F v) ^ 2)%R)); [rewrite parseval; lra|]. intros v Hv. rewrite cabs_mul, cabs_root, cabs_nonneg_real by apply pow2_ge_0. ring.
Qed.
End row.
Lemma autocorrelation_is m : 1 <= ncol m ->
  autocorrelation_coefficient m = (rsum (nrow m) (fun i => rsum (ncol m) (fun j => px m i j ^ 2)) / IZR (nrow m))%R.
Proof.
  intros Hw. unfold autocorrelation_coefficient. f_equal. apply rsum_ext. intros i _. rewrite <- autocorr_max by exact Hw. reflexivity.
Qed.

Lemma gradient_line n (f : Z -> R) a c i : 2 <= n -> 0 <= i < n -> (forall k, f k = a * IZR k + c)%R -> np_gradient n f i = a.
Proof.
  intros Hn Hi E. unfold np_gradient. destruct (Z.eqb_spec i 0).
  - rewrite !E. ring.
  - destruct (Z.eqb_spec i (n - 1)).
    + rewrite !E, !minus_IZR. ring.
    + rewrite !E, plus_IZR, minus_IZR. field.
Qed.
Lemma sharpness_plane a b c h w : 2 <= h -> 2 <= w ->
  edge_sharpness (mkimg h w (fun i j => a * IZR i + b * IZR j + c)%R) = Ok (sqrt (a ^ 2 + b ^ 2)).
Proof.
  intros Hh Hw. unfold edge_sharpness. cbn [nrow ncol px].
  destruct (Z.ltb_spec h 2); [lia|]. destruct (Z.ltb_spec w 2); [lia|]. cbn [orb]. f_equal.
  rewrite (rsum_ext h _ (fun _ => IZR w * sqrt (a ^ 2 + b ^ 2))%R).
  - rewrite rsum_const by lia. field. split; apply not_0_IZR; lia.
  - intros i Hi. rewrite (rsum_ext w _ (fun _ => sqrt (a ^ 2 + b ^ 2))%R); [apply rsum_const; lia|].
    intros j Hj. f_equal. rewrite (gradient_line h _ a (b * IZR j + c) i); [|lia|lia|intros; ring].
    rewrite (gradient_line w _ b (a * IZR i + c) j); [reflexivity|lia|lia|intros; ring].
Qed.
