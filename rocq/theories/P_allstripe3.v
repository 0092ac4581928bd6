(** Proofs for remove_all_stripe: large stripes and the three steps together. *)
From Verif Require Import Np P_Np M_utility S_utility P_utility M_io_load M_conversion P_conversion M_correction M_calculation M_removal S_removal P_removal P_removal2 P_removal3 M_allstripe S_allstripe P_allstripe P_allstripe2.
From Coq Require Import QArith Qround Qabs String ZArith Lia Lqa Psatz Permutation Sorting.Sorted.
From Coq Require Import List. Import ListNotations.
Open Scope Z_scope.

Lemma marked_dec mask j : marked_near mask j \/ ~ marked_near mask j.
Proof. destruct (dilate_spec mask j) as [ [_ H] | [_ H] ]; [left|right]; exact H. Qed.
(** a / b for means a, b within a factor *)
Lemma fact_bounds (fact : vec Q) j a b r : (0 < a)%Q -> (0 < b)%Q -> within_factor r a b ->
  (~ (b == 0)%Q -> vat fact j = (a / b)%Q) /\ ((b == 0)%Q -> vat fact j = 1%Q) -> (0 < vat fact j)%Q /\ (vat fact j <= r)%Q /\ (1 <= r * vat fact j)%Q.
Proof.
  intros Ha Hb [W1 W2] [F _]. rewrite (F ltac:(intros E; rewrite E in Hb; lra)). split; [|split].
  - apply Qlt_shift_div_l; [exact Hb|]. lra.
  - apply Qle_shift_div_r; [exact Hb|]. exact W1.
  - setoid_replace (r * (a / b))%Q with ((r * a) / b)%Q by (field; lra). apply Qle_shift_div_l; [exact Hb|]. lra.
Qed.
Lemma divided_factor r x f : (0 < x)%Q -> (0 < f)%Q -> (f <= r)%Q -> (1 <= r * f)%Q -> within_factor r x (x / f).
Proof.
  intros Hx Hf H1 H2. assert (E : (x == f * (x / f))%Q) by (field; lra). assert (P : (0 < x / f)%Q) by (apply Qlt_shift_div_l; [exact Hf|lra]). split.
  - rewrite E at 1. apply Qmult_le_compat_r; [exact H1|lra].
  - setoid_replace (r * x)%Q with ((r * f) * (x / f))%Q by (field; lra). setoid_replace (x / f)%Q with (1 * (x / f))%Q at 1 by ring. apply Qmult_le_compat_r; [exact H2|lra].
Qed.

Section large.
Context (asort : argsort_fn) (Hs : forall v, is_argsort v (asort v)).

(** ** gain errors *)
Lemma large_gain size detect (m scene : img Q) (gain : Z -> Q) bad r ratio out : 1 <= size -> nrow scene = nrow m -> ncol scene = ncol m -> positive_pixels scene ->
  (forall j, in_rng (ncol m) j -> (0 < gain j)%Q /\ (bad j = false -> gain j == 1)%Q /\ forall i, in_rng (nrow m) i -> (px m i j == gain j * px scene i j)%Q) ->
  alike_columns r size scene -> (forall j, in_rng (ncol m) j -> few_bad (ncol m) size bad j) -> 0 <= nrow m ->
  remove_large_stripe asort (median_along_rows size) detect m ratio true = Ok out ->
  nrow out = nrow m /\ ncol out = ncol m /\
  forall i j, in_rng (nrow m) i -> in_rng (ncol m) j -> within_factor r (px scene i j) (px out i j).
Proof.
  intros H1 En Ec Hpos Hg Hal Hfew H0 Eo.
  destruct (large_stripe_spec asort Hs _ (median_shape size) detect m ratio true out Eo H0) as (s & L & drop & fact & mask & Hc & _ & Hd0 & Hd1 & Hfl & Hfact & _ & Or & Oc & Hout).
  split; [exact Or|]. split; [exact Oc|]. intros i j Hi Hj.
  destruct (sorted_columns_forward asort Hs scene) as (R & HS & _). set (S := fst (sort_forward asort scene 0)) in *.
  assert (Hr : (1 <= r)%Q) by (apply (alike_ge1 r size scene S R j i); try assumption; try lia; rewrite ?En, ?Ec; assumption).
  (* the order of a column does not depend on its gain *)
  assert (SS : forall c, in_rng (ncol m) c -> is_argsort (mkvec (nrow scene) (fun i => px scene i c)) (L c)).
  { intros c Hcc. rewrite En. apply (argsort_transfer _ (fun i => px m i c)); [apply (columns_argsort m s L); assumption|].
    intros a b Ha Hb W. destruct (Hg c Hcc) as (G1 & _ & G3). rewrite (G3 a Ha), (G3 b Hb) in W. apply Qmult_le_l in W; assumption. }
  assert (ES : forall k c, in_rng (nrow m) k -> in_rng (ncol m) c -> (px S k c == px scene (L c k) c)%Q).
  { intros k c Hk Hcc. apply (kth_value scene S R); rewrite ?En, ?Ec; try assumption. rewrite <- En. apply SS, Hcc. }
  pose proof Hc as (A & B & C).
  assert (Es : forall k c, in_rng (nrow m) k -> in_rng (ncol m) c -> (px s k c == gain c * px S k c)%Q).
  { intros k c Hk Hcc. destruct (C c Hcc) as (C1 & _). destruct (C1 k Hk) as [I ->]. rewrite (ES k c Hk Hcc). apply Hg; assumption. }
  assert (SP : forall k c, in_rng (nrow m) k -> in_rng (ncol m) c -> (0 < px S k c)%Q).
  { intros k c Hk Hcc. rewrite (ES k c Hk Hcc). destruct (C c Hcc) as (C1 & _). destruct (C1 k Hk) as [I _]. apply Hpos; rewrite ?En, ?Ec; assumption. }
  assert (M : forall k, in_rng (nrow m) k -> within_factor r (px S k j) (px (median_along_rows size s) k j)).
  { intros k Hk. apply (median_rows_factor size s bad); rewrite ?B; try assumption; try lra; [apply Hfew, Hj|].
    intros c Hcc Hb Hn. assert (E : (px s k c == px S k c)%Q).
    { rewrite (Es k c Hk Hcc). destruct (Hg c Hcc) as (_ & G & _). rewrite (G Hb). ring. }
    unfold within_factor. rewrite E. split; apply (Hal S R HS); rewrite ?En, ?Ec; try assumption; lia. }
  destruct (Hg j Hj) as (G1 & _ & G3). destruct (Hout j Hj) as [U K]. destruct (marked_dec mask j) as [Hm|Hm].
  - destruct (rank_surj m s L j i Hc Hj Hi) as (k & Hk & <-). rewrite (K Hm k Hk). apply (wf_eq r (px S k j) _ _ _ (ES k j Hk Hj) (Qeq_refl _)), M, Hk.
  - rewrite (U Hm i Hi). specialize (Hfact j Hj). cbv zeta in Hfact. set (len := nrow m - 2 * drop) in *.
    pose proof (Hpos i j ltac:(rewrite En; exact Hi) ltac:(rewrite Ec; exact Hj)) as Pij.
    assert (RR : forall k, 0 <= k < len -> in_rng (nrow m) (drop + k)) by (unfold in_rng, len; intros; lia).
    assert (Eg : (row_mean s drop len j == gain j * row_mean S drop len j)%Q).
    { rewrite <- row_mean_scal. apply Qle_antisym; apply row_mean_le; intros k Hk; cbn [imap px]; rewrite (Es _ j (RR k Hk) Hj); apply Qle_refl. }
    assert (Hlen : 1 <= len) by (unfold in_rng in Hi; unfold len; lia).
    assert (PS : (0 < row_mean S drop len j)%Q) by (apply row_mean_pos; [exact Hlen|]; intros k Hk; apply SP; [apply RR, Hk|exact Hj]).
    assert (W : within_factor r (row_mean S drop len j) (row_mean (median_along_rows size s) drop len j)).
    { apply row_mean_factor. intros k Hk. apply M, RR, Hk. }
    assert (PM : (0 < row_mean (median_along_rows size s) drop len j)%Q).
    { apply row_mean_pos; [exact Hlen|]. intros k Hk. destruct (M _ (RR k Hk)) as [W1 W2]. pose proof (SP _ j (RR k Hk) Hj) as P1.
      destruct (Qlt_le_dec 0 (px (median_along_rows size s) (drop + k) j)) as [G|G]; [exact G|exfalso].
      assert (r * px (median_along_rows size s) (drop + k) j <= 0)%Q by nra. lra. }
    set (bS := row_mean S drop len j) in *. set (bM := row_mean (median_along_rows size s) drop len j) in *.
    destruct Hfact as [F _]. rewrite (F ltac:(intros E; rewrite E in PM; lra)).
    apply (wf_eq r (px scene i j) (px scene i j / (bS / bM)) _ _ (Qeq_refl _)).
    { rewrite (G3 i Hi), Eg. field. repeat split; lra. }
    destruct (fact_bounds (mkvec 1 (fun _ => bS / bM)%Q) 0 bS bM r PS PM W) as (F1 & F2 & F3).
    { cbn [vat]. split; [reflexivity|]. intros E. rewrite E in PM. lra. }
    cbn [vat] in *. apply divided_factor; assumption.
Qed.

(** ** three steps *)
Lemma dead_shape (sino s1 : img Q) snr size strength : remove_dead_stripe_full asort sino snr size false strength = Ok s1 -> nrow s1 = nrow sino /\ ncol s1 = ncol sino.
Proof.
  unfold remove_dead_stripe_full, remove_dead_stripe. destruct (if Qeq_bool _ 0 then _ else _); cbn [bindr]; [|discriminate].
  destruct ((nrow sino <? 2) || _); [discriminate|]. destruct ((_ <? _) && _); cbn [bindr]; intros E; apply Ok_inj in E; subst s1; split; reflexivity.
Qed.
Lemma all_restores (sino scene s1 out : img Q) bad touched snr la sm ratio r : 1 <= la -> 1 <= sm -> nrow scene = nrow sino -> ncol scene = ncol sino ->
  positive_pixels sino -> positive_pixels scene ->
  (forall j, in_rng (ncol sino) j -> same_order sino scene j) ->
  (forall j, in_rng (ncol sino) j -> bad j = false -> forall i, in_rng (nrow sino) i -> (px sino i j == px scene i j)%Q) ->
  alike_columns r (la + sm) scene ->
  remove_dead_stripe_full asort sino snr la false 10 = Ok s1 ->
  (forall j, in_rng (ncol sino) j -> touched j = false -> forall i, in_rng (nrow sino) i -> (px s1 i j == px sino i j)%Q) ->
  (forall j, in_rng (ncol sino) j -> few_bad (ncol sino) la (fun c => bad c || touched c) j /\ few_bad (ncol sino) sm (fun c => bad c || touched c) j) ->
  0 <= nrow sino -> remove_all_stripe asort sino snr la sm ratio 1 None = Ok out ->
  nrow out = nrow sino /\ ncol out = ncol sino /\
  (forall i j, in_rng (nrow sino) i -> in_rng (ncol sino) j -> touched j = false -> within_factor (r * r * r) (px scene i j) (px out i j)) /\
  (forall S R S' R', sorted_columns scene S R -> sorted_columns out S' R' -> forall j k, in_rng (ncol sino) j -> in_rng (nrow sino) k -> within_factor (r * r) (px S k j) (px S' k j)).
Proof.
  intros H1 H2 En Ec Hps Hpos Ho Hclean Hal Ed Ht Hfew H0 Eo. unfold remove_all_stripe in Eo. rewrite Ed in Eo. cbn [bindr] in Eo.
  change (1 =? 2) with false in Eo. cbv iota in Eo.
  destruct (remove_large_stripe asort (median_along_rows la) (fun v => detect_stripe asort v snr) s1 ratio true) as [s2|e] eqn:El; [|discriminate].
  cbn [bindr] in Eo. apply Ok_inj in Eo. subst out. destruct (dead_shape _ _ _ _ _ Ed) as [N1 C1].
  destruct (large_stripe_spec asort Hs _ (median_shape la) _ s1 ratio true s2 El ltac:(lia)) as (s & L & drop & fact & mask & Hc & _ & Hd0 & Hd1 & Hfl & Hfact & _ & N2 & C2 & Hout).
  rewrite N1, C1 in *.
  destruct (sort_step asort Hs _ s2 (median_shape sm)) as (N3 & C3 & t & K & Hk2 & Hfin). rewrite N2, C2 in *.
  destruct (sorted_columns_forward asort Hs scene) as (R & HS & _). set (S := fst (sort_forward asort scene 0)) in *.
  set (M := median_along_rows la s) in *. set (out := remove_stripe_based_sorting asort (median_along_rows sm) s2) in *.
  pose proof Hc as (A & B & C). rewrite N1 in A. rewrite C1 in B. rewrite N1, C1 in C. pose proof Hk2 as (A2 & B2 & D2). rewrite N2 in A2. rewrite C2 in B2. rewrite N2, C2 in D2.
  assert (Hr : forall j k, in_rng (ncol sino) j -> in_rng (nrow sino) k -> (1 <= r)%Q) by
    (intros j k Hj Hk; apply (alike_ge1 r (la + sm) scene S R j k); try assumption; try lia; rewrite ?En, ?Ec; assumption).
  assert (SP : forall k c, in_rng (nrow sino) k -> in_rng (ncol sino) c -> (0 < px S k c)%Q).
  { intros k c Hk Hcc. destruct HS as (_ & _ & D). destruct (D c ltac:(rewrite Ec; exact Hcc)) as (D1 & _). destruct (D1 k ltac:(rewrite En; exact Hk)) as [I ->].
    apply Hpos; [exact I|rewrite Ec; exact Hcc]. }
  assert (SA : forall a b k, in_rng (ncol sino) a -> in_rng (ncol sino) b -> 2 * Z.abs (a - b) <= la + sm -> in_rng (nrow sino) k -> within_factor r (px S k a) (px S k b)).
  { intros a b k Ha Hb Hab Hk. split; apply (Hal S R HS); rewrite ?En, ?Ec; try assumption; lia. }
  (* clean columns of the first result *)
  assert (Sc : forall c k, in_rng (ncol sino) c -> in_rng (nrow sino) k -> bad c || touched c = false -> (px s k c == px S k c)%Q).
  { intros c k Hcc Hk Hb. apply orb_false_iff in Hb as [Hb1 Hb2]. apply (kth_same s1 scene s S L R); rewrite ?N1, ?C1, ?En, ?Ec; try assumption; try reflexivity.
    intros i Hi. rewrite (Ht c Hcc Hb2 i Hi). apply Hclean; assumption. }
  (* the filtered columns *)
  assert (MW : forall j c k, in_rng (ncol sino) j -> in_rng (ncol sino) c -> 2 * Z.abs (c - j) <= sm -> in_rng (nrow sino) k -> within_factor r (px S k c) (px M k j)).
  { intros j c k Hj Hcc Hn Hk. pose proof (Hr j k Hj Hk). apply (median_rows_factor la s (fun c => bad c || touched c)); rewrite ?B; try assumption; try lra; [apply Hfew, Hj|].
    intros c0 H3 H4 H5. apply (wf_eq r (px S k c) (px S k c0) _ _ (Qeq_refl _)); [symmetry; apply Sc; assumption|]. apply SA; try assumption. lia. }
  assert (MP : forall j k, in_rng (ncol sino) j -> in_rng (nrow sino) k -> (0 < px M k j)%Q).
  { intros j k Hj Hk. destruct (MW j j k Hj Hj ltac:(lia) Hk) as [W1 W2]. pose proof (SP k j Hk Hj) as P1. pose proof (Hr j k Hj Hk).
    destruct (Qlt_le_dec 0 (px M k j)) as [G|G]; [exact G|exfalso]. assert (r * px M k j <= 0)%Q by nra. lra. }
  assert (MS : forall j a b, in_rng (ncol sino) j -> 0 <= a -> a < b -> b < nrow sino -> (px M a j <= px M b j)%Q).
  { intros j a b Hj Ha Hab Hb. apply (median_sorted la s1 s L); rewrite ?N1, ?C1; assumption. }
  set (len := nrow sino - 2 * drop) in *.
  assert (RR : forall k, 0 <= k < len -> in_rng (nrow sino) (drop + k)) by (unfold in_rng, len; intros; lia).
  assert (FP : forall j i, in_rng (ncol sino) j -> in_rng (nrow sino) i -> touched j = false -> (0 < vat fact j)%Q).
  { intros j i Hj Hi Htj. specialize (Hfact j Hj). cbv zeta in Hfact. destruct Hfact as [F1 F2]. fold len in F1, F2.
    assert (Hlen : 1 <= len) by (unfold in_rng in Hi; unfold len; lia).
    assert (P1 : (0 < row_mean s drop len j)%Q).
    { apply row_mean_pos; [exact Hlen|]. intros k Hk. destruct (C j Hj) as (D1 & _). destruct (D1 _ (RR k Hk)) as [I ->]. rewrite (Ht j Hj Htj _ I). apply Hps; assumption. }
    assert (P2 : (0 < row_mean M drop len j)%Q) by (apply row_mean_pos; [exact Hlen|]; intros k Hk; apply MP; [exact Hj|apply RR, Hk]).
    rewrite (F1 ltac:(intros E; rewrite E in P2; lra)). apply Qlt_shift_div_l; [exact P2|]. lra. }
  assert (FW : forall c i, in_rng (ncol sino) c -> in_rng (nrow sino) i -> bad c || touched c = false -> (0 < vat fact c)%Q /\ (vat fact c <= r)%Q /\ (1 <= r * vat fact c)%Q).
  { intros c i Hcc Hi Hb. specialize (Hfact c Hcc). cbv zeta in Hfact. fold len in Hfact.
    assert (Hlen : 1 <= len) by (unfold in_rng in Hi; unfold len; lia).
    apply (fact_bounds fact c (row_mean s drop len c) (row_mean M drop len c)); [| | |exact Hfact].
    - apply row_mean_pos; [exact Hlen|]. intros k Hk. rewrite (Sc c _ Hcc (RR k Hk) Hb). apply SP; [apply RR, Hk|exact Hcc].
    - apply row_mean_pos; [exact Hlen|]. intros k Hk. apply MP; [exact Hcc|apply RR, Hk].
    - apply row_mean_factor. intros k Hk. apply (wf_eq r (px S (drop + k) c) (px M (drop + k) c)); [symmetry; apply Sc; try assumption; apply RR, Hk|reflexivity|].
      apply MW; try assumption; try lia. apply RR, Hk. }
  (* the order of marked columns after the second step *)
  assert (LM : forall j, in_rng (ncol sino) j -> marked_near mask j -> is_argsort (mkvec (nrow sino) (fun i => px s2 i j)) (L j)).
  { intros j Hj Hm. destruct (Hout j Hj) as [_ U]. destruct (C j Hj) as (D1 & D3 & _). split; [|split]; cbn [vlen vat].
    - intros k Hk. apply D1, Hk.
    - exact D3.
    - intros a b Ha Hab Hb. rewrite (U Hm a), (U Hm b) by (unfold in_rng; lia). apply MS; assumption. }
  assert (TM : forall j k, in_rng (ncol sino) j -> in_rng (nrow sino) k -> marked_near mask j -> (px t k j == px M k j)%Q).
  { intros j k Hj Hk Hm. rewrite (kth_value s2 t K (L j) j k Hk2 ltac:(rewrite C2; exact Hj) ltac:(rewrite N2; exact Hk) ltac:(rewrite N2; apply LM; assumption)).
    destruct (Hout j Hj) as [_ U]. rewrite (U Hm k Hk). reflexivity. }
  (* unmarked columns keep their order *)
  assert (UO : forall j, in_rng (ncol sino) j -> ~ marked_near mask j -> touched j = false -> forall a b, in_rng (nrow sino) a -> in_rng (nrow sino) b -> ((px s2 a j <= px s2 b j)%Q <-> (px s1 a j <= px s1 b j)%Q)).
  { intros j Hj Hm Htj a b Ha Hb. destruct (Hout j Hj) as [U _]. rewrite (U Hm a Ha), (U Hm b Hb). pose proof (FP j a Hj Ha Htj) as P. unfold Qdiv.
    apply Qmult_le_r. apply Qinv_lt_0_compat, P. }
  assert (TW : forall c k, in_rng (ncol sino) c -> in_rng (nrow sino) k -> bad c || touched c = false -> within_factor r (px S k c) (px t k c)).
  { intros c k Hcc Hk Hb. destruct (marked_dec mask c) as [Hm|Hm].
    - apply (wf_eq r (px S k c) (px M k c)); [reflexivity|symmetry; apply TM; assumption|]. apply MW; try assumption; lia.
    - pose proof Hb as Hb'. apply orb_false_iff in Hb' as [_ Htc].
      assert (KA : is_argsort (mkvec (nrow s2) (fun i => px s2 i c)) (L c)).
      { rewrite N2. apply (argsort_transfer _ (fun i => px s1 i c)); [rewrite <- N1; apply (columns_argsort s1 s L); [exact Hc|rewrite C1; exact Hcc]|].
        intros a b Ha Hb2. apply UO; assumption. }
      assert (E : (px t k c == px S k c / vat fact c)%Q).
      { rewrite (kth_value s2 t K (L c) c k Hk2 ltac:(rewrite C2; exact Hcc) ltac:(rewrite N2; exact Hk) KA).
        destruct (C c Hcc) as (D1 & _). destruct (D1 k Hk) as [I Es]. destruct (Hout c Hcc) as [U _]. rewrite (U Hm _ I), <- Es, (Sc c k Hcc Hk Hb). reflexivity. }
      destruct (FW c k Hcc Hk Hb) as (F1 & F2 & F3). apply (wf_eq r (px S k c) (px S k c / vat fact c)); [reflexivity|symmetry; exact E|].
      apply divided_factor; try assumption. apply SP; assumption. }
  (* the last step *)
  assert (FW1 : forall j k X g, in_rng (ncol sino) j -> in_rng (nrow sino) k -> (0 < g)%Q -> (forall c, in_rng (ncol sino) c -> 2 * Z.abs (c - j) <= sm -> within_factor g X (px S k c)) ->
     within_factor (g * r) X (px out (K j k) j)).
  { intros j k X g Hj Hk Hg W. rewrite (Hfin j k Hj Hk). pose proof (Hr j k Hj Hk).
    apply (median_rows_factor sm t (fun c => bad c || touched c)); rewrite ?B2; try assumption; [apply Hfew, Hj|nra|].
    intros c H3 H4 H5. apply wf_trans with (px S k c); try lra; [apply W; assumption|]. apply TW; assumption. }
  assert (F2 : forall j k, in_rng (ncol sino) j -> in_rng (nrow sino) k -> within_factor (r * r) (px S k j) (px out (K j k) j)).
  { intros j k Hj Hk. pose proof (Hr j k Hj Hk). apply FW1; try assumption; [lra|]. intros c H3 H4. apply SA; try assumption. lia. }
  split; [exact N3|]. split; [exact C3|]. split.
  - intros i j Hi Hj Htj. destruct (rank_surj s2 t K j i Hk2 ltac:(rewrite C2; exact Hj) ltac:(rewrite N2; exact Hi)) as (k & Hk & <-). rewrite N2 in Hk.
    pose proof (Hr j k Hj Hk) as R1.
    assert (O1 : forall a b, in_rng (nrow sino) a -> in_rng (nrow sino) b -> (px s1 a j <= px s1 b j)%Q -> (px scene a j <= px scene b j)%Q).
    { intros a b Ha Hb. rewrite (Ht j Hj Htj a Ha), (Ht j Hj Htj b Hb). apply (same_order_le sino scene j (Ho j Hj) a b Ha Hb). }
    destruct (marked_dec mask j) as [Hm|Hm].
    + destruct (rank_surj s1 s L j (K j k) Hc ltac:(rewrite C1; exact Hj) ltac:(rewrite N1; exact Hi)) as (q & Hq & Eq). rewrite N1 in Hq.
      assert (ES : (px S q j == px scene (K j k) j)%Q).
      { rewrite <- Eq. apply (kth_value scene S R); rewrite ?En, ?Ec; try assumption. apply (argsort_transfer _ (fun i => px s1 i j)); [rewrite <- N1; apply (columns_argsort s1 s L); [exact Hc|rewrite C1; exact Hj]|]. exact O1. }
      assert (EM : (px M q j == px M k j)%Q).
      { destruct (Hout j Hj) as [_ U]. rewrite <- (U Hm q Hq), Eq. destruct (D2 j Hj) as (T1 & _). destruct (T1 k Hk) as [_ <-]. apply TM; assumption. }
      assert (W : within_factor (r * r) (px M k j) (px out (K j k) j)).
      { apply FW1; try assumption; [lra|]. intros c H3 H4. apply wf_sym, MW; assumption. }
      apply (wf_eq _ _ _ _ _ ES (Qeq_refl _)). enough (WW : within_factor (r * (r * r)) (px S q j) (px out (K j k) j)) by (unfold within_factor in *; setoid_replace (r * r * r)%Q with (r * (r * r))%Q by ring; exact WW).
      apply wf_trans with (px M k j); [lra|nra| |exact W]. apply (wf_eq r (px S q j) (px M q j)); [reflexivity|exact EM|]. apply MW; try assumption; lia.
    + assert (ES : (px S k j == px scene (K j k) j)%Q).
      { apply (kth_value scene S R); rewrite ?En, ?Ec; try assumption. apply (argsort_transfer _ (fun i => px s2 i j)); [rewrite <- N2; apply (columns_argsort s2 t K); [exact Hk2|rewrite C2; exact Hj]|].
        intros a b Ha Hb W. apply O1; try assumption. apply (UO j Hj Hm Htj a b Ha Hb). exact W. }
      apply (wf_eq _ _ _ _ _ ES (Qeq_refl _)). pose proof (F2 j k Hj Hk) as W. pose proof (SP k j Hk Hj) as P1.
      apply wf_weak with (r * r)%Q; [nra|lra| |exact W]. destruct W as [W1 _]. destruct (Qlt_le_dec (px out (K j k) j) 0) as [G|G]; [|exact G].
      exfalso. assert (0 <= r * r)%Q by nra. assert (r * r * px out (K j k) j <= 0)%Q by nra. lra.
  - intros S0 R0 S' R' HS0 HS' j k Hj Hk.
    assert (KO : is_argsort (mkvec (nrow out) (fun i => px out i j)) (K j)).
    { destruct (D2 j Hj) as (T1 & T2 & T3). split; [|split]; cbn [vlen vat]; rewrite N3.
      - intros a Ha. apply T1, Ha.
      - exact T2.
      - intros a b Ha Hab Hb. rewrite (Hfin j a Hj), (Hfin j b Hj) by (unfold in_rng; lia). apply (median_sorted sm s2 t K); rewrite ?N2, ?C2; assumption. }
    pose proof (kth_value out S' R' (K j) j k HS' ltac:(rewrite C3; exact Hj) ltac:(rewrite N3; exact Hk) KO) as E'.
    assert (E0 : (px S k j == px S0 k j)%Q).
    { apply (kth_same scene scene S S0 R R0); rewrite ?En, ?Ec; try assumption; reflexivity. }
    apply (wf_eq _ _ _ _ _ E0 (Qeq_sym _ _ E')). apply F2; assumption.
Qed.
End large.
