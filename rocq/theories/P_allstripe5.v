(** Proofs for remove_all_stripe: order after the large-stripe step, noise-free sinograms, and lemmas for the examples. *)
From Verif Require Import Np P_Np M_utility S_utility P_utility M_io_load M_conversion P_conversion M_correction M_calculation M_removal S_removal P_removal P_removal2 P_removal3 M_blob P_blob M_allstripe S_allstripe P_allstripe P_allstripe2 P_allstripe3.
From Coq Require Import QArith Qround Qabs String ZArith Lia Lqa Psatz Permutation Sorting.Sorted.
From Coq Require Import List. Import ListNotations.
Open Scope Z_scope.

Lemma few_bad_by_reflect n size bad j : 1 <= n -> 2 * Z.of_nat (length (filter (fun d => bad (reflect_idx n (j - size / 2 + d))) (zrange 0 size))) < size -> few_bad n size bad j.
Proof.
  intros Hn H w Hw. erewrite filter_ext_in; [exact H|]. intros d Hd. apply zrange_In in Hd. cbn beta. f_equal.
  apply (shows_det n (j - size / 2 + d)); [exact Hn|apply Hw; lia|apply reflect_shows; exact Hn].
Qed.
Lemma none_bad n size j : 1 <= n -> 1 <= size -> few_bad n size (fun _ => false) j.
Proof.
  intros Hn H. apply few_bad_by_reflect; [exact Hn|].
  assert (E : forall l : list Z, filter (fun _ => false) l = []) by (induction l; [reflexivity|assumption]). rewrite E. cbn. lia.
Qed.

Section five.
Context (asort : argsort_fn) (Hs : forall v, is_argsort v (asort v)).
Lemma large_keeps_order size detect (m out : img Q) ratio norm : 1 <= size -> positive_pixels m ->
  remove_large_stripe asort (median_along_rows size) detect m ratio norm = Ok out ->
  forall j i1 i2, in_rng (ncol m) j -> in_rng (nrow m) i1 -> in_rng (nrow m) i2 -> (px m i1 j < px m i2 j)%Q -> (px out i1 j <= px out i2 j)%Q.
Proof.
  intros H1 Hp Eo j i1 i2 Hj Hi1 Hi2 L. assert (H0 : 0 <= nrow m) by (unfold in_rng in Hi1; lia).
  destruct (large_stripe_spec asort Hs _ (median_shape size) detect m ratio norm out Eo H0) as (s & rank & drop & fact & mask & Hc & _ & Hd0 & Hd1 & _ & Hfact & _ & _ & _ & Hout).
  pose proof Hc as (A & B & C). destruct (Hout j Hj) as [U K]. destruct (marked_dec mask j) as [Hm|Hm].
  - destruct (rank_surj m s rank j i1 Hc Hj Hi1) as (k1 & K1 & <-). destruct (rank_surj m s rank j i2 Hc Hj Hi2) as (k2 & K2 & <-).
    rewrite (K Hm k1 K1), (K Hm k2 K2). destruct (C j Hj) as (C1 & C2 & C3).
    destruct (C1 k1 K1) as [_ E1]. destruct (C1 k2 K2) as [_ E2]. unfold in_rng in *. destruct (Z_lt_le_dec k1 k2) as [G|G].
    + apply (median_sorted size m s rank); try assumption; lia.
    + exfalso. destruct (Z.eq_dec k1 k2) as [->|N]; [lra|]. assert (px s k2 j <= px s k1 j)%Q by (apply C3; lia). rewrite E1, E2 in H. lra.
  - rewrite (U Hm i1 Hi1), (U Hm i2 Hi2). destruct norm; [|lra].
    set (len := nrow m - 2 * drop) in *. assert (Hlen : 1 <= len) by (unfold in_rng in Hi1; unfold len; lia).
    assert (RR : forall k, 0 <= k < len -> in_rng (nrow m) (drop + k)) by (unfold in_rng, len; intros; lia).
    assert (PSs : forall k c, in_rng (nrow m) k -> in_rng (ncol m) c -> (0 < px s k c)%Q).
    { intros k c Hk Hcc. destruct (C c Hcc) as (C1 & _). destruct (C1 k Hk) as [I ->]. apply Hp; assumption. }
    assert (P1 : (0 < row_mean s drop len j)%Q) by (apply row_mean_pos; [exact Hlen|]; intros k Hk; apply PSs; [apply RR, Hk|exact Hj]).
    assert (P2 : (0 < row_mean (median_along_rows size s) drop len j)%Q).
    { apply row_mean_pos; [exact Hlen|]. intros k Hk. apply median_rows_pos; [exact H1|rewrite B; exact Hj|]. intros c Hcc. rewrite B in Hcc. apply PSs; [apply RR, Hk|exact Hcc]. }
    specialize (Hfact j Hj). cbv zeta in Hfact. fold len in Hfact. destruct Hfact as [F _]. rewrite (F ltac:(intros E; rewrite E in P2; lra)).
    assert (P : (0 < row_mean s drop len j / row_mean (median_along_rows size s) drop len j)%Q) by (apply Qlt_shift_div_l; [exact P2|lra]).
    unfold Qdiv at 1 3. apply Qmult_le_compat_r; [lra|]. apply Qlt_le_weak, Qinv_lt_0_compat, P.
Qed.

(** ** sinograms without noise *)
Lemma detect_constant v c snr : 6 <= vlen v -> (forall j, in_rng (vlen v) j -> (vat v j == c)%Q) -> detect_stripe asort v snr = Err ValueError.
Proof.
  intros Lv Vl. unfold detect_stripe. set (n := vlen v) in *. set (y := fun k => vat v (asort v k)).
  assert (Hm' : slen n (n / 4) (- (n / 4) - 1) = n - 2 * (n / 4) - 1 /\ 0 <= n / 4 /\ n / 4 + (n - 2 * (n / 4) - 1) <= n /\ 2 <= n - 2 * (n / 4) - 1).
  { pose proof (Z.div_mod n 4 ltac:(lia)). pose proof (Z.mod_pos_bound n 4 ltac:(lia)). unfold slen, py_adj.
    replace (n / 4 <? 0) with false by lia. replace (- (n / 4) - 1 <? 0) with true by lia. lia. }
  destruct Hm' as (-> & M0 & M1 & M2). replace (n - 2 * (n / 4) - 1 <? 2) with false by lia.
  destruct (line_fit_exact (n / 4) (n - 2 * (n / 4) - 1) y c 0 M2) as [F1 F2].
  { intros k Hk. unfold y. rewrite Vl; [ring|]. apply (proj1 (Hs v)). unfold in_rng. fold n. lia. }
  destruct (line_fit (n / 4) (n - 2 * (n / 4) - 1) y) as [s1 i1]. cbn [fst snd] in F1, F2.
  replace (Qltb (Qabs (i1 + s1 * inject_Z (n - 1) - i1)) (1 # 100000)) with true; [reflexivity|]. symmetry. apply Qltb_lt.
  rewrite F1. setoid_replace (i1 + 0 * inject_Z (n - 1) - i1)%Q with 0%Q by ring. reflexivity.
Qed.
Lemma large_noise_free size (m : img Q) snr ratio norm : 1 <= size -> 1 <= nrow m -> 6 <= ncol m ->
  (forall i j k, in_rng (nrow m) i -> in_rng (ncol m) j -> in_rng (ncol m) k -> (px m i j == px m i k)%Q) ->
  remove_large_stripe asort (median_along_rows size) (fun v => detect_stripe asort v snr) m ratio norm = Err ValueError.
Proof.
  intros H1 Hn Hm Heq. unfold remove_large_stripe. destruct (sorted_columns_forward asort Hs m) as (rank & Hc & _).
  destruct (sort_forward asort m 0) as [s x]. cbn [fst] in Hc. set (p := Qtrunc _). set (f := mkvec (ncol m) _).
  enough (E : forall j, in_rng (vlen f) j -> (vat f j == 1)%Q) by (rewrite (detect_constant f 1 snr); [reflexivity|exact Hm|exact E]).
  pose proof Hc as (A & B & C). unfold f. cbn [vlen vat]. intros j Hj. unfold stripe_factor.
  assert (ES : forall k a b, in_rng (nrow m) k -> in_rng (ncol m) a -> in_rng (ncol m) b -> (px s k a == px s k b)%Q).
  { intros k a b Hk Ha Hb. rewrite (kth_value m s rank (rank a) b k Hc Hb Hk).
    - destruct (C a Ha) as (C1 & _). destruct (C1 k Hk) as [I ->]. apply Heq; assumption.
    - apply (argsort_transfer _ (fun i => px m i a)); [apply (columns_argsort m s rank); assumption|]. intros u v Hu Hv. rewrite (Heq u a b Hu Ha Hb), (Heq v a b Hv Ha Hb). tauto. }
  assert (EM : forall k, in_rng (nrow m) k -> (px (median_along_rows size s) k j == px s k j)%Q).
  { intros k Hk. destruct (median_rows_between size s (fun _ => false) k j (px s k j) (px s k j)) as [W1 W2]; rewrite ?B; try assumption.
    - apply none_bad; lia.
    - intros c Hcc _ _. rewrite (ES k c j Hk Hcc Hj). split; apply Qle_refl.
    - apply Qle_antisym; assumption. }
  assert (EB : (mean_rows (median_along_rows size s) p (nrow m - p) j == mean_rows s p (nrow m - p) j)%Q).
  { unfold mean_rows, qmean. cbn [median_along_rows nrow].
    rewrite (qsum_ext (slen (nrow s) p (nrow m - p)) (fun k => px (median_along_rows size s) (py_adj (nrow s) p + k) j) (fun k => px s (py_adj (nrow s) p + k) j)); [reflexivity|].
    intros k Hk. apply EM. unfold in_rng, slen in *. pose proof (py_adj_bounds (nrow s) p ltac:(lia)). pose proof (py_adj_bounds (nrow s) (nrow m - p) ltac:(lia)). lia. }
  destruct (Qeq_bool (mean_rows (median_along_rows size s) p (nrow m - p) j) 0) eqn:E; [reflexivity|]. rewrite EB. field.
  rewrite <- EB. intros G. apply Qeq_bool_iff in G. congruence.
Qed.
Lemma dead_noise_free (m : img Q) snr size strength : 1 <= size -> 2 <= nrow m -> 6 <= ncol m ->
  (forall i j k, in_rng (nrow m) i -> in_rng (ncol m) j -> in_rng (ncol m) k -> (px m i j == px m i k)%Q) ->
  remove_dead_stripe_full asort m snr size false strength = Err ValueError \/ remove_dead_stripe_full asort m snr size false strength = Ok m.
Proof.
  intros H1 Hn Hm Heq. unfold remove_dead_stripe_full.
  assert (ED : forall j k, in_rng (ncol m) j -> in_rng (ncol m) k -> (vat (list_diff strength m) j == vat (list_diff strength m) k)%Q).
  { intros j k Hj Hk. cbn [list_diff vat]. apply qsum_ext. intros i Hi. rewrite (Heq i j k Hi Hj Hk).
    assert (E : (px (smooth_columns strength m) i j == px (smooth_columns strength m) i k)%Q).
    { cbn [smooth_columns px]. unfold qmean. rewrite (qsum_ext strength _ (fun d => px m (reflect_idx (nrow m) (i - strength / 2 + d)) k)); [reflexivity|].
      intros d _. apply Heq; try assumption. apply reflect_shows. lia. }
    rewrite E. reflexivity. }
  assert (EB : forall j, in_rng (ncol m) j -> (vat (median_line size (list_diff strength m)) j == vat (list_diff strength m) j)%Q).
  { intros j Hj. set (d := list_diff strength m) in *. unfold median_line. cbn [vat].
    destruct (median_between (fun e => vat d (reflect_idx (vlen d) (j - size / 2 + e))) (fun _ => false) (zrange 0 size) (vat d j) (vat d j)) as [W1 W2].
    - assert (E : forall l : list Z, filter (fun _ => false) l = []) by (induction l; [reflexivity|assumption]). rewrite E, zrange_length. cbn. lia.
    - intros e _ _. rewrite (ED (reflect_idx (vlen d) (j - size / 2 + e)) j); [split; apply Qle_refl| |exact Hj]. apply (reflect_shows (ncol m)). lia.
    - apply Qle_antisym; assumption. }
  destruct (Qeq_bool (diff_mean size strength m) 0) eqn:Z0.
  - right. unfold remove_dead_stripe. cbn [bindr].
    assert (D : forall j, vat (dilate (mkvec (vlen (dead_profile size strength m)) (fun _ => 0%Q))) j = 0%Q).
    { intros j. destruct (dilate_spec (mkvec (vlen (dead_profile size strength m)) (fun _ => 0%Q)) j) as [ [_ (k & _ & _ & G)] | [E _] ]; [|exact E]. cbn [vat] in G. lra. }
    assert (DC : forall j, vat (clear_mask_ends (dilate (mkvec (vlen (dead_profile size strength m)) (fun _ => 0%Q)))) j = 0%Q).
    { intros j. unfold clear_mask_ends. cbn [vat]. destruct (_ || _); [reflexivity|apply D]. }
    set (mk := clear_mask_ends _) in *.
    assert (G1 : count_miss (ncol m) (fun j => Qltb (vat mk j) 1) = ncol m).
    { unfold count_miss. rewrite filter_all; [rewrite zrange_length; lia|]. intros j _. rewrite DC. reflexivity. }
    assert (G2 : count_miss (ncol m) (fun j => Qltb 0 (vat mk j)) = 0).
    { unfold count_miss. assert (E : forall l : list Z, filter (fun j => Qltb 0 (vat mk j)) l = []) by (induction l as [|a l IH]; [reflexivity|cbn [filter]; rewrite DC; exact IH]). rewrite E. reflexivity. }
    rewrite G1, G2. replace (nrow m <? 2) with false by lia. replace (ncol m <? 2) with false by lia. rewrite andb_false_r. reflexivity.
  - left. unfold remove_dead_stripe. rewrite (detect_constant (dead_profile size strength m) 1 snr); [reflexivity|exact Hm|].
    intros j Hj. change (vlen (dead_profile size strength m)) with (ncol m) in Hj. cbn [dead_profile vat].
    assert (N : ~ (vat (list_diff strength m) j == 0)%Q).
    { intros G. assert (diff_mean size strength m == 0)%Q; [|apply Qeq_bool_iff in H; congruence].
      unfold diff_mean, qmean. cbn [median_line vlen list_diff]. rewrite (qsum_ext (ncol m) _ (fun _ => 0%Q)); [rewrite qsum_const by lia; unfold Qdiv; ring|].
      intros k Hk. change (Qabs (vat (median_line size (list_diff strength m)) k) == 0)%Q. rewrite (EB k Hk), (ED k j Hk Hj), G. reflexivity. }
    destruct (Qeq_bool (vat (median_line size (list_diff strength m)) j) 0) eqn:E.
    + apply Qeq_bool_iff in E. rewrite (EB j Hj) in E. contradiction.
    + rewrite (EB j Hj). field. exact N.
Qed.
Lemma all_noise_free (m : img Q) snr la sm ratio dim : 1 <= la -> 2 <= nrow m -> 6 <= ncol m ->
  (forall i j k, in_rng (nrow m) i -> in_rng (ncol m) j -> in_rng (ncol m) k -> (px m i j == px m i k)%Q) ->
  remove_all_stripe asort m snr la sm ratio dim None = Err ValueError.
Proof.
  intros H1 Hn Hm Heq. unfold remove_all_stripe. destruct (dead_noise_free m snr la 10 H1 Hn Hm Heq) as [-> | ->]; [reflexivity|]. cbn [bindr].
  rewrite large_noise_free; [reflexivity|exact H1|lia|exact Hm|exact Heq].
Qed.
(** positive pixels stay positive when dead columns are bridged *)
Lemma detect_len v snr mask : detect_stripe asort v snr = Ok mask -> vlen mask = vlen v.
Proof.
  unfold detect_stripe. destruct (_ <? 2); [discriminate|]. destruct (line_fit _ _ _). destruct (Qltb _ (1 # 100000)); [discriminate|]. intros E. apply Ok_inj in E. subst mask. reflexivity.
Qed.
Lemma dead_positive (m s1 : img Q) snr size strength : positive_pixels m -> remove_dead_stripe_full asort m snr size false strength = Ok s1 -> positive_pixels s1.
Proof.
  intros Hp E. destruct (dead_shape asort _ _ _ _ _ E) as [N1 N2]. intros i j Hi Hj. rewrite N1 in Hi. rewrite N2 in Hj.
  unfold remove_dead_stripe_full in E. set (det := fun v : vec Q => if Qeq_bool (diff_mean size strength m) 0 then _ else _) in E.
  assert (Hlen : forall v k, det v = Ok k -> vlen k = vlen v).
  { intros v k. unfold det. destruct (Qeq_bool _ 0); [intros G; apply Ok_inj in G; subst k; reflexivity|apply detect_len]. }
  destruct (remove_dead_stripe (dead_profile size strength) det m) as [t|e] eqn:Ed; [|discriminate]. cbn [bindr] in E. apply Ok_inj in E. subst t.
  destruct (Z_lt_le_dec (ncol m) 2) as [W|W].
  { unfold remove_dead_stripe in Ed. destruct (det _); cbn [bindr] in Ed; [|discriminate]. destruct ((nrow m <? 2) || _); [discriminate|].
    destruct ((_ <? ncol m / 3) && _) eqn:G.
    - exfalso. unfold in_rng in Hj. assert (ncol m = 1) as Q1 by lia. rewrite Q1 in G. change (1 / 3) with 0 in G. lia.
    - apply Ok_inj in Ed. subst s1. apply Hp; assumption. }
  destruct (dead_stripe_spec _ _ _ _ Ed W Hlen eq_refl) as (mask & _ & _ & _ & Hk & Hb & _).
  destruct (marked_dec mask j) as [Hm|Hm]; [|rewrite Hk by (try assumption; left; exact Hm); apply Hp; assumption].
  destruct (Z_lt_le_dec j 2) as [J|J]; [rewrite Hk by (try assumption; right; left; exact J); apply Hp; assumption|].
  destruct (Z_lt_le_dec j (ncol m - 2)) as [J2|J2]; [|rewrite Hk by (try assumption; right; right; exact J2); apply Hp; assumption].
  destruct Hb as [Hb|Hb]; [rewrite Hb by assumption; apply Hp; assumption|].
  destruct (Hb j Hj Hm ltac:(lia) i) as (a & b & Hab & A0 & Bn & _ & _ & _ & L). unfold on_line in L.
  pose proof (Hp i a Hi ltac:(unfold in_rng; lia)) as Pa. pose proof (Hp i b Hi ltac:(unfold in_rng; lia)) as Pb.
  pose proof (inject_Z_pos (b - a) ltac:(lia)) as D1. pose proof (inject_Z_pos (j - a) ltac:(lia)) as D2. pose proof (inject_Z_pos (b - j) ltac:(lia)) as D3.
  assert (ED : (inject_Z (b - a) == inject_Z (j - a) + inject_Z (b - j))%Q) by (rewrite <- inject_Z_plus; replace (j - a + (b - j)) with (b - a) by lia; reflexivity).
  assert (V : (px s1 i j * inject_Z (b - a) == px m i a * inject_Z (b - j) + px m i b * inject_Z (j - a))%Q).
  { setoid_replace (px s1 i j * inject_Z (b - a))%Q with ((px s1 i j - px m i a) * inject_Z (b - a) + px m i a * inject_Z (b - a))%Q by ring. rewrite L. rewrite ED. ring. }
  assert (P1 : (0 < px m i a * inject_Z (b - j))%Q) by (apply Qmult_lt_0_compat; assumption). assert (P2 : (0 < px m i b * inject_Z (j - a))%Q) by (apply Qmult_lt_0_compat; assumption).
  destruct (Qlt_le_dec 0 (px s1 i j)) as [G|G]; [exact G|exfalso].
  assert (px s1 i j * inject_Z (b - a) <= 0 * inject_Z (b - a))%Q by (apply Qmult_le_compat_r; lra). lra.
Qed.
End five.
