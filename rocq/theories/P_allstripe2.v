(** Proofs for remove_all_stripe: order statistics of columns and the restoration of alike columns. *)
From Verif Require Import Np P_Np M_utility S_utility P_utility M_io_load M_conversion P_conversion M_correction M_calculation M_removal S_removal P_removal P_removal2 P_removal3 M_allstripe S_allstripe P_allstripe.
From Coq Require Import QArith Qround Qabs String ZArith Lia Lqa Psatz Permutation Sorting.Sorted.
From Coq Require Import List. Import ListNotations.
Open Scope Z_scope.

(** ** the k-th smallest value does not depend on how ties are sorted *)
Lemma argsort_le v p q k : is_argsort v p -> is_argsort v q -> in_rng (vlen v) k -> (vat v (p k) <= vat v (q k))%Q.
Proof.
  intros (P1 & P2 & P3) (Q1 & Q2 & Q3) Hk. destruct (Qlt_le_dec (vat v (q k)) (vat v (p k))) as [G|G]; [exfalso|exact G].
  set (A := map q (zrange 0 (k + 1))). set (B := map p (zrange 0 k)). unfold in_rng in Hk.
  assert (HA : NoDup A).
  { unfold A. assert (G2 : forall a b, In a (zrange 0 (k + 1)) -> In b (zrange 0 (k + 1)) -> q a = q b -> a = b).
    { intros a b Ha Hb E. apply zrange_In in Ha, Hb. apply Q2; unfold in_rng; try lia; try exact E. }
    generalize (zrange_NoDup 0 (k + 1)). revert G2. generalize (zrange 0 (k + 1)). induction l as [|a t IH]; intros G2 N; cbn; [constructor|].
    inversion N as [|? ? N1 N2]; subst. constructor.
    - intros I. apply in_map_iff in I as (b & E & Hb). apply N1. rewrite <- (G2 b a (or_intror Hb) (or_introl eq_refl) E). exact Hb.
    - apply IH; [|exact N2]. intros x y Hx Hy. apply G2; right; assumption. }
  assert (I : incl A B).
  { intros x Hx. apply in_map_iff in Hx as (l & <- & Hl). apply zrange_In in Hl.
    destruct (inj_surj (vlen v) p P1 P2 (q l) (Q1 l ltac:(unfold in_rng; lia))) as (l' & Hl' & E). unfold in_rng in Hl'.
    apply in_map_iff. exists l'. split; [exact E|]. apply zrange_In. destruct (Z_lt_le_dec l' k) as [L|L]; [lia|exfalso].
    assert (W1 : (vat v (q l) <= vat v (q k))%Q) by (destruct (Z.eq_dec l k) as [->|]; [apply Qle_refl|apply Q3; lia]).
    assert (W2 : (vat v (p k) <= vat v (p l'))%Q) by (destruct (Z.eq_dec k l') as [->|]; [apply Qle_refl|apply P3; lia]).
    rewrite E in W2. lra. }
  pose proof (NoDup_incl_length HA I) as L. unfold A, B in L. rewrite !map_length, !zrange_length in L. lia.
Qed.
Lemma argsort_unique v p q k : is_argsort v p -> is_argsort v q -> in_rng (vlen v) k -> (vat v (p k) == vat v (q k))%Q.
Proof. intros Hp Hq Hk. apply Qle_antisym; apply argsort_le; assumption. Qed.
Lemma argsort_transfer n f g p : is_argsort (mkvec n f) p -> (forall a b, in_rng n a -> in_rng n b -> (f a <= f b)%Q -> (g a <= g b)%Q) -> is_argsort (mkvec n g) p.
Proof.
  intros (P1 & P2 & P3) H. cbn [vlen vat] in *. split; [exact P1|]. split; [exact P2|]. intros a b Ha Hab Hb. cbn [vlen vat] in *.
  apply H; [apply P1|apply P1|apply P3]; unfold in_rng; lia.
Qed.
Lemma columns_argsort (m s : img Q) rank j : sorted_columns m s rank -> in_rng (ncol m) j -> is_argsort (mkvec (nrow m) (fun i => px m i j)) (rank j).
Proof.
  intros (A & B & C) Hj. destruct (C j Hj) as (C1 & C2 & C3). split; [|split]; cbn [vlen vat].
  - intros k Hk. apply C1, Hk.
  - exact C2.
  - intros a b Ha Hab Hb. destruct (C1 a ltac:(unfold in_rng; lia)) as [_ <-]. destruct (C1 b ltac:(unfold in_rng; lia)) as [_ <-]. apply C3; assumption.
Qed.
(** the k-th smallest value of column j, read through any sort of that column *)
Lemma kth_value (m s : img Q) rank p j k : sorted_columns m s rank -> in_rng (ncol m) j -> in_rng (nrow m) k ->
  is_argsort (mkvec (nrow m) (fun i => px m i j)) p -> (px s k j == px m (p k) j)%Q.
Proof.
  intros H Hj Hk Hp. pose proof (columns_argsort m s rank j H Hj) as Hr. destruct H as (A & B & C). destruct (C j Hj) as (C1 & _).
  destruct (C1 k Hk) as [_ ->]. exact (argsort_unique _ (rank j) p k Hr Hp Hk).
Qed.
Lemma kth_same (m m' s s' : img Q) rank rank' j k : sorted_columns m s rank -> sorted_columns m' s' rank' -> nrow m' = nrow m -> in_rng (ncol m) j -> in_rng (ncol m') j -> in_rng (nrow m) k ->
  (forall i, in_rng (nrow m) i -> (px m i j == px m' i j)%Q) -> (px s k j == px s' k j)%Q.
Proof.
  intros H H' En Hj Hj' Hk E. pose proof (columns_argsort m s rank j H Hj) as Hr.
  assert (Hr' : is_argsort (mkvec (nrow m') (fun i => px m' i j)) (rank j)).
  { rewrite En. apply (argsort_transfer _ (fun i => px m i j)); [exact Hr|]. intros a b Ha Hb L. cbn beta. rewrite <- (E a Ha), <- (E b Hb). exact L. }
  rewrite (kth_value m' s' rank' (rank j) j k H' Hj' ltac:(rewrite En; exact Hk) Hr').
  destruct H as (_ & _ & C). destruct (C j Hj) as (C1 & _). destruct (C1 k Hk) as [Ha ->]. apply E, Ha.
Qed.

(** ** factors *)
Lemma wf_trans f g x y z : (0 <= f)%Q -> (0 <= g)%Q -> within_factor f x y -> within_factor g y z -> within_factor (f * g) x z.
Proof.
  intros Hf Hg [A B] [C D]. split.
  - apply Qle_trans with (f * y)%Q; [exact A|]. rewrite <- Qmult_assoc. apply Qmult_le_l_nonneg || (rewrite (Qmult_comm f y), (Qmult_comm f (g * z)); apply Qmult_le_compat_r; assumption).
  - apply Qle_trans with (g * y)%Q; [exact D|]. setoid_replace (f * g * x)%Q with (g * (f * x))%Q by ring. rewrite (Qmult_comm g y), (Qmult_comm g (f * x)). apply Qmult_le_compat_r; assumption.
Qed.
Lemma wf_sym f x y : within_factor f x y -> within_factor f y x.
Proof. intros [A B]; split; assumption. Qed.
Lemma wf_weak f g x y : (f <= g)%Q -> (0 <= x)%Q -> (0 <= y)%Q -> within_factor f x y -> within_factor g x y.
Proof.
  intros H Hx Hy [A B]. split.
  - apply Qle_trans with (f * y)%Q; [exact A|]. apply Qmult_le_compat_r; assumption.
  - apply Qle_trans with (f * x)%Q; [exact B|]. apply Qmult_le_compat_r; assumption.
Qed.
Lemma wf_eq f x y x' y' : (x == x')%Q -> (y == y')%Q -> within_factor f x y -> within_factor f x' y'.
Proof. unfold within_factor. intros -> ->. tauto. Qed.
Lemma median_rows_factor size (m : img Q) bad i j f X : 1 <= size -> in_rng (ncol m) j -> few_bad (ncol m) size bad j -> (0 < f)%Q ->
  (forall c, in_rng (ncol m) c -> bad c = false -> 2 * Z.abs (c - j) <= size -> within_factor f X (px m i c)) ->
  within_factor f X (px (median_along_rows size m) i j).
Proof.
  intros Hs Hj Hf Hp H.
  assert (B : (X / f <= px (median_along_rows size m) i j <= f * X)%Q).
  { apply (median_rows_between size m bad); try assumption. intros c H1 H2 H3. destruct (H c H1 H2 H3) as [A B]. split; [|exact B].
    apply Qle_shift_div_r; [exact Hp|]. rewrite Qmult_comm. exact A. }
  destruct B as [B1 B2]. split; [|exact B2]. setoid_replace X with (f * (X / f))%Q at 1 by (field; lra).
  rewrite (Qmult_comm f (X / f)), (Qmult_comm f (px _ i j)). apply Qmult_le_compat_r; lra.
Qed.
Lemma median_rows_pos size (m : img Q) i j : 1 <= size -> in_rng (ncol m) j -> (forall c, in_rng (ncol m) c -> (0 < px m i c)%Q) -> (0 < px (median_along_rows size m) i j)%Q.
Proof.
  intros Hs Hj H. assert (Hn : 1 <= ncol m) by (unfold in_rng in Hj; lia). unfold median_along_rows. cbn [px].
  set (l := map _ (zrange 0 size)). assert (I : In (median_value l) l).
  { unfold median_value. apply (Permutation_in _ (Permutation_sym (qsorted_perm l))). apply nth_In. rewrite qsorted_length. apply half_lt. unfold l. rewrite map_length, zrange_length. lia. }
  unfold l in I at 2. apply in_map_iff in I as (d & <- & _). apply H. apply (reflect_shows _ _ Hn).
Qed.

Lemma row_mean_le (s t : img Q) b len j : (forall k, 0 <= k < len -> (px s (b + k) j <= px t (b + k) j)%Q) -> (row_mean s b len j <= row_mean t b len j)%Q.
Proof.
  intros H. unfold row_mean, qmean. destruct (Z_le_gt_dec len 0) as [L|L].
  - unfold qsum. replace (Z.to_nat len) with 0%nat by lia. cbn [qsumn]. apply Qle_refl.
  - pose proof (inject_Z_pos len ltac:(lia)). unfold Qdiv. apply Qmult_le_compat_r; [apply qsum_le; exact H|]. apply Qlt_le_weak, Qinv_lt_0_compat. assumption.
Qed.
Lemma row_mean_scal (s : img Q) c b len j : (row_mean (imap (fun x => (c * x)%Q) s) b len j == c * row_mean s b len j)%Q.
Proof. unfold row_mean, qmean. cbn [imap px]. rewrite (qsum_scal len c (fun k => px s (b + k) j)). unfold Qdiv. ring. Qed.
Lemma row_mean_pos (s : img Q) b len j : 1 <= len -> (forall k, 0 <= k < len -> (0 < px s (b + k) j)%Q) -> (0 < row_mean s b len j)%Q.
Proof.
  intros L H. unfold row_mean, qmean. pose proof (inject_Z_pos len ltac:(lia)). apply Qlt_shift_div_l; [assumption|]. rewrite Qmult_0_l.
  apply (P_removal3.qsum_sq_pos len (fun k => px s (b + k) j)) with 0; [|lia|apply H; lia]. intros k Hk. apply Qlt_le_weak, H, Hk.
Qed.
Lemma row_mean_factor (s t : img Q) f b len j : (forall k, 0 <= k < len -> within_factor f (px s (b + k) j) (px t (b + k) j)) -> within_factor f (row_mean s b len j) (row_mean t b len j).
Proof.
  intros H. split; rewrite <- row_mean_scal; apply row_mean_le; intros k Hk; cbn [imap px]; apply H, Hk.
Qed.
Lemma row_mean_zero (s : img Q) b j : (row_mean s b 0 j == 0)%Q.
Proof. unfold row_mean, qmean. cbn. unfold Qdiv. ring. Qed.

(** ** sorting step *)
Section steps.
Context (asort : argsort_fn) (Hs : forall v, is_argsort v (asort v)).
Lemma sort_step filt (m : img Q) : keeps_shape filt ->
  let out := remove_stripe_based_sorting asort filt m in
  nrow out = nrow m /\ ncol out = ncol m /\
  exists s rank, sorted_columns m s rank /\ forall j k, in_rng (ncol m) j -> in_rng (nrow m) k -> px out (rank j k) j = px (filt s) k j.
Proof.
  intros Hf out. unfold out, remove_stripe_based_sorting. destruct (sorted_columns_forward asort Hs m) as (rank & H1 & H2).
  destruct (sort_forward asort m 0) as [s x] eqn:E. cbn [fst snd] in *. destruct (Hf s) as [F1 F2]. pose proof H1 as (A & B & _).
  split; [cbn; congruence|]. split; [cbn; congruence|]. exists s, rank. split; [exact H1|]. intros j k Hj Hk. apply H2; congruence || assumption.
Qed.
Lemma median_shape size : keeps_shape (median_along_rows size).
Proof. intros m. split; reflexivity. Qed.
Lemma rank_surj (m s : img Q) rank j i : sorted_columns m s rank -> in_rng (ncol m) j -> in_rng (nrow m) i -> exists k, in_rng (nrow m) k /\ rank j k = i.
Proof. intros H Hj Hi. destruct (columns_argsort m s rank j H Hj) as (P1 & P2 & _). cbn [vlen] in *. apply (inj_surj (nrow m) (rank j)); assumption. Qed.
(** the filter does not change the order of sorted columns *)
Lemma median_sorted size (m s : img Q) rank j a b : sorted_columns m s rank -> 1 <= size -> in_rng (ncol m) j -> 0 <= a -> a < b -> b < nrow m ->
  (px (median_along_rows size s) a j <= px (median_along_rows size s) b j)%Q.
Proof.
  intros (A & B & C) H1 Hj Ha Hab Hb. apply median_rows_mono; [exact H1|rewrite B; unfold in_rng in Hj; lia|].
  intros c Hc. rewrite B in Hc. destruct (C c Hc) as (_ & _ & C3). apply C3; assumption.
Qed.
Lemma sorting_keeps_order size (m : img Q) j i1 i2 : 1 <= size -> in_rng (ncol m) j -> in_rng (nrow m) i1 -> in_rng (nrow m) i2 ->
  (px m i1 j < px m i2 j)%Q -> (px (remove_stripe_based_sorting asort (median_along_rows size) m) i1 j <= px (remove_stripe_based_sorting asort (median_along_rows size) m) i2 j)%Q.
Proof.
  intros H1 Hj Hi1 Hi2 L. destruct (sort_step _ m (median_shape size)) as (_ & _ & s & rank & Hc & Hp).
  destruct (rank_surj m s rank j i1 Hc Hj Hi1) as (k1 & K1 & <-). destruct (rank_surj m s rank j i2 Hc Hj Hi2) as (k2 & K2 & <-).
  rewrite (Hp j k1 Hj K1), (Hp j k2 Hj K2). pose proof Hc as (A & B & C). destruct (C j Hj) as (C1 & C2 & C3).
  destruct (C1 k1 K1) as [_ E1]. destruct (C1 k2 K2) as [_ E2]. unfold in_rng in *. destruct (Z_lt_le_dec k1 k2) as [G|G].
  - apply (median_sorted size m s rank); try assumption; lia.
  - exfalso. destruct (Z.eq_dec k1 k2) as [->|N]; [lra|]. assert (px s k2 j <= px s k1 j)%Q by (apply C3; lia). rewrite E1, E2 in H. lra.
Qed.
(** values: the k-th smallest pixel of a column becomes a value near the k-th smallest ones of most neighbours *)
Lemma sorting_between size (m : img Q) : 1 <= size -> exists s rank, sorted_columns m s rank /\
  forall j k bad a b, in_rng (ncol m) j -> in_rng (nrow m) k -> few_bad (ncol m) size bad j ->
    (forall c, in_rng (ncol m) c -> bad c = false -> 2 * Z.abs (c - j) <= size -> (a <= px s k c <= b)%Q) ->
    (a <= px (remove_stripe_based_sorting asort (median_along_rows size) m) (rank j k) j <= b)%Q.
Proof.
  intros H1. destruct (sort_step _ m (median_shape size)) as (_ & _ & s & rank & Hc & Hp). exists s, rank. split; [exact Hc|].
  intros j k bad a b Hj Hk Hf H. rewrite (Hp j k Hj Hk). pose proof Hc as (A & B & C). apply (median_rows_between size s bad); rewrite ?B; assumption.
Qed.
Lemma same_order_le (a b : img Q) j : same_order a b j -> forall i1 i2, in_rng (nrow a) i1 -> in_rng (nrow a) i2 -> (px a i1 j <= px a i2 j)%Q -> (px b i1 j <= px b i2 j)%Q.
Proof. intros H i1 i2 H1 H2 L. destruct (Qlt_le_dec (px b i2 j) (px b i1 j)) as [G|G]; [|exact G]. apply (H i2 i1 H2 H1) in G. lra. Qed.
Lemma alike_ge1 r size (m s : img Q) rank j k : alike_columns r size m -> 0 <= size -> sorted_columns m s rank -> positive_pixels m -> in_rng (ncol m) j -> in_rng (nrow m) k -> (1 <= r)%Q.
Proof.
  intros H H0 Hc Hp Hj Hk. specialize (H s rank Hc j j k Hj Hj ltac:(lia) Hk). destruct Hc as (_ & _ & C). destruct (C j Hj) as (C1 & _). destruct (C1 k Hk) as [I E].
  specialize (Hp _ _ I Hj). rewrite <- E in Hp. destruct (Qlt_le_dec r 1) as [G|G]; [|exact G].
  assert (r * px s k j < 1 * px s k j)%Q by (apply Qmult_lt_compat_r; assumption). lra.
Qed.
Lemma sorting_restores size (m scene : img Q) bad r : 1 <= size -> nrow scene = nrow m -> ncol scene = ncol m -> positive_pixels scene ->
  (forall j, in_rng (ncol m) j -> same_order m scene j) ->
  (forall j, in_rng (ncol m) j -> bad j = false -> forall i, in_rng (nrow m) i -> (px m i j == px scene i j)%Q) ->
  alike_columns r size scene -> (forall j, in_rng (ncol m) j -> few_bad (ncol m) size bad j) ->
  forall i j, in_rng (nrow m) i -> in_rng (ncol m) j -> within_factor r (px scene i j) (px (remove_stripe_based_sorting asort (median_along_rows size) m) i j).
Proof.
  intros H1 En Ec Hpos Ho Hclean Hal Hfew i j Hi Hj.
  destruct (sort_step _ m (median_shape size)) as (_ & _ & s & rank & Hc & Hp).
  destruct (sorted_columns_forward asort Hs scene) as (R & HS & _). set (S := fst (sort_forward asort scene 0)) in *.
  destruct (rank_surj m s rank j i Hc Hj Hi) as (k & Hk & <-). rewrite (Hp j k Hj Hk).
  assert (Hr : (1 <= r)%Q) by (apply (alike_ge1 r size scene S R j k); try assumption; try lia; rewrite ?En, ?Ec; assumption).
  assert (ES : (px S k j == px scene (rank j k) j)%Q).
  { apply (kth_value scene S R); rewrite ?En, ?Ec; try assumption. apply (argsort_transfer _ (fun i => px m i j)); [apply (columns_argsort m s rank); assumption|].
    intros a b Ha Hb. apply (same_order_le m scene j (Ho j Hj) a b Ha Hb). }
  pose proof Hc as (A & B & C). apply (wf_eq r (px S k j) _ _ _ ES (Qeq_refl _)).
  apply (median_rows_factor size s bad); rewrite ?B; try assumption; try lra; [apply Hfew, Hj|].
  intros c Hcc Hb Hn. assert (E : (px s k c == px S k c)%Q) by (apply (kth_same m scene s S rank R); rewrite ?En, ?Ec; try assumption; try reflexivity; apply Hclean; assumption).
  unfold within_factor. rewrite E. split; apply (Hal S R HS); rewrite ?En, ?Ec; try assumption; lia.
Qed.
End steps.
