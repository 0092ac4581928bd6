(** Proofs for removal.py (first part). *)
From Verif Require Import Np P_Np M_utility S_utility P_utility M_io_load M_conversion M_correction M_calculation M_removal.
From Coq Require Import QArith Qround Qabs String ZArith Lia Lqa Psatz.
From Coq Require Import List. Import ListNotations.
Open Scope Z_scope.

Section sorted.
Context (asort : argsort_fn) (Hs : forall v, is_argsort v (asort v)).
(** processing between sort_forward and sort_backward, pixel by pixel *)
Lemma sorted_rel (R : Q -> Q -> Prop) m g :
  nrow g = nrow m -> ncol g = ncol m ->
  (forall i j, in_rng (nrow m) i -> in_rng (ncol m) j -> R (px g i j) (px (fst (sort_forward asort m 0)) i j)) ->
  img_eqv R (sort_backward asort g (snd (sort_forward asort m 0)) 0) m.
Proof.
  intros Hr Hc H. destruct (sort_forward_spec asort Hs m 0 (or_introl eq_refl)) as ((S1 & S2 & S3 & S4) & HH).
  change (0 =? 0) with true in HH. cbv iota in HH.
  split; [|split].
  - cbn. exact Hr.
  - cbn. exact Hc.
  - intros i j Hi Hj. cbn in Hi, Hj. rewrite Hr in Hi. rewrite Hc in Hj.
    destruct (HH j Hj) as (p & H1 & H2 & H3 & H4 & H5).
    destruct (inj_surj (nrow m) p H1 H2 i Hi) as (l & Hl & <-).
    rewrite (H5 g Hr Hc l Hl). destruct (H3 l Hl) as [_ E]. rewrite <- E. apply H; auto.
Qed.
Lemma sorting_spec filt sino :
  (forall m, nrow (filt m) = nrow m /\ ncol (filt m) = ncol m) ->
  nrow (remove_stripe_based_sorting asort filt sino) = nrow sino /\
  ncol (remove_stripe_based_sorting asort filt sino) = ncol sino /\
  exists s : img Q, nrow s = nrow sino /\ ncol s = ncol sino /\
  forall j, in_rng (ncol sino) j -> exists p : Z -> Z,
    (forall k, in_rng (nrow sino) k -> in_rng (nrow sino) (p k)) /\
    (forall a b, in_rng (nrow sino) a -> in_rng (nrow sino) b -> p a = p b -> a = b) /\
    (forall k, in_rng (nrow sino) k -> px s k j = px sino (p k) j) /\
    (forall a b, 0 <= a -> a < b -> b < nrow sino -> (px s a j <= px s b j)%Q) /\
    (forall k, in_rng (nrow sino) k -> px (remove_stripe_based_sorting asort filt sino) (p k) j = px (filt s) k j).
Proof.
  intros Hf. unfold remove_stripe_based_sorting.
  destruct (sort_forward_spec asort Hs sino 0 (or_introl eq_refl)) as ((S1 & S2 & S3 & S4) & HH).
  change (0 =? 0) with true in HH. cbv iota in HH.
  destruct (sort_forward asort sino 0) as [s x] eqn:E. cbn [fst snd] in *.
  destruct (Hf s) as [F1 F2].
  split; [cbn; congruence|]. split; [cbn; congruence|].
  exists s. split; [exact S1|]. split; [exact S2|]. intros j Hj.
  destruct (HH j Hj) as (p & H1 & H2 & H3 & H4 & H5). exists p.
  split; [exact H1|]. split; [exact H2|]. split; [intros k Hk; apply (H3 k Hk)|]. split; [exact H4|].
  intros k Hk. apply H5; congruence || exact Hk.
Qed.

Context (filt : img Q -> img Q) (Hid : forall m, img_Qeq (filt m) m).
Lemma fshape m : nrow (filt m) = nrow m /\ ncol (filt m) = ncol m.
Proof. destruct (Hid m) as (A & B & C). auto. Qed.
Lemma fpx m i j : in_rng (nrow m) i -> in_rng (ncol m) j -> (px (filt m) i j == px m i j)%Q.
Proof. intros Hi Hj. destruct (Hid m) as (A & B & C). apply C; [rewrite A|rewrite B]; assumption. Qed.
Lemma sorting_id sino : img_Qeq (remove_stripe_based_sorting asort filt sino) sino.
Proof.
  unfold remove_stripe_based_sorting. destruct (sort_forward asort sino 0) as [s x] eqn:E.
  destruct (sort_forward_spec asort Hs sino 0 (or_introl eq_refl)) as ((S1 & S2 & S3 & S4) & _).
  assert (E1 : s = fst (sort_forward asort sino 0)) by (rewrite E; reflexivity).
  assert (E2 : x = snd (sort_forward asort sino 0)) by (rewrite E; reflexivity).
  rewrite <- E1 in S1, S2. subst x. apply sorted_rel.
  - rewrite <- S1. apply fshape.
  - rewrite <- S2. apply fshape.
  - intros i j Hi Hj. rewrite <- E1. apply fpx; congruence.
Qed.
Lemma filtering_id sw lp sino sigma sort :
  exists out, remove_stripe_based_filtering sw lp asort filt sino sigma sort = Ok out /\ img_Qeq out sino.
Proof.
  unfold remove_stripe_based_filtering.
  destruct (separate_sum sw lp sino 0 (WDict "gaussian" [sigma]) (or_introl eq_refl) I) as (a & b & E & A1 & A2 & B1 & B2 & H).
  rewrite E. cbn [bindr]. eexists. split; [reflexivity|].
  assert (G : img_Qeq (if sort then let '(s, x) := sort_forward asort a 0 in sort_backward asort (filt s) x 0 else filt a) a).
  { destruct sort; [apply (sorting_id a)|apply Hid]. }
  destruct G as (G1 & G2 & G3).
  set (sm := if sort then _ else _) in *. clearbody sm.
  unfold img_add. split; [cbn; congruence|]. split; [cbn; congruence|].
  intros i j Hi Hj. cbn in Hi, Hj. cbn [px]. rewrite (G3 i j Hi Hj). apply H.
Qed.
Lemma sorting2d_id smooth sino :
  nrow (smooth sino) = nrow sino -> ncol (smooth sino) = ncol sino ->
  img_Qeq (remove_stripe_based_2d_filtering_sorting asort filt smooth sino) sino.
Proof.
  intros Hr Hc. unfold remove_stripe_based_2d_filtering_sorting.
  pose proof (sorting_id (img_sub sino (smooth sino))) as (G1 & G2 & G3).
  set (c := remove_stripe_based_sorting _ _ _) in *. clearbody c.
  unfold img_add. split; [exact Hr|]. split; [exact Hc|].
  intros i j Hi Hj. cbn in Hi, Hj. rewrite Hr in Hi. rewrite Hc in Hj.
  cbn [px]. rewrite (G3 i j).
  - cbn. ring.
  - rewrite G1. cbn. assumption.
  - rewrite G2. cbn. assumption.
Qed.
Lemma sort_pair_cases (sort : bool) (sino0 : img Q) :
  let p := if sort then sort_forward asort sino0 0 else (sino0, sino0) in
  nrow (fst p) = nrow sino0 /\ ncol (fst p) = ncol sino0 /\
  forall (R : Q -> Q -> Prop) g, nrow g = nrow sino0 -> ncol g = ncol sino0 ->
   (forall i j, in_rng (nrow sino0) i -> in_rng (ncol sino0) j -> R (px g i j) (px (fst p) i j)) ->
   img_eqv R (if sort then sort_backward asort g (snd p) 0 else g) sino0.
Proof.
  clear Hid. destruct sort; cbn [fst snd].
  - destruct (sort_forward_spec asort Hs sino0 0 (or_introl eq_refl)) as ((S1 & S2 & S3 & S4) & _).
    split; [exact S1|]. split; [exact S2|]. intros R g Hr Hc H. apply sorted_rel; assumption.
  - split; [reflexivity|]. split; [reflexivity|]. intros R g Hr Hc H.
    split; [assumption|]. split; [assumption|]. intros i j Hi Hj. apply H; congruence.
Qed.

Lemma qsum2_ext n m f g : (forall i j, 0 <= i < n -> 0 <= j < m -> (f i j == g i j)%Q) -> (qsum2 n m f == qsum2 n m g)%Q.
Proof. intros H. unfold qsum2. apply qsum_ext. intros i Hi. apply qsum_ext. intros j Hj. apply H; assumption. Qed.
Lemma fitting_id fit sino0 sort :
  (forall m, nrow (fit m) = nrow m /\ ncol (fit m) = ncol m) ->
  (forall m i j, ~ (px (fit m) i j == 0)%Q) ->
  1 <= nrow sino0 -> 1 <= ncol sino0 ->
  img_Qeq (remove_stripe_based_fitting asort fit filt sino0 sort) sino0.
Proof.
  intros Hf Hn Hr Hc. unfold remove_stripe_based_fitting.
  destruct (sort_pair_cases sort sino0) as (S1 & S2 & H).
  destruct (if sort then sort_forward asort sino0 0 else (sino0, sino0)) as [s x]. cbn [fst snd] in *.
  apply (H Qeq).
  - cbn. exact S1.
  - cbn. exact S2.
  - intros i j Hi Hj. cbn [px imap].
    destruct (Hf s) as [F1 F2].
    assert (Ei : (px (filt (fit s)) i j == px (fit s) i j)%Q) by (apply fpx; congruence).
    assert (Em : (abs_mean (filt (fit s)) == abs_mean (fit s))%Q).
    { unfold abs_mean. destruct (fshape (fit s)) as [-> ->]. unfold qmean2.
      rewrite (qsum2_ext _ _ _ (fun a b => Qabs (px (fit s) a b))); [reflexivity|].
      intros a b Ha Hb. apply Qabs_wd. apply fpx; assumption. }
    assert (Ep : (0 < abs_mean (fit s))%Q).
    { unfold abs_mean, qmean2. rewrite F1, F2, S1, S2.
      assert (Q0 : (0 < qsum2 (nrow sino0) (ncol sino0) (fun i0 j0 => Qabs (px (fit s) i0 j0)))%Q).
      { assert (P : forall n f, 1 <= n -> (forall i0, 0 <= i0 < n -> (0 < f i0)%Q) -> (0 < qsum n f)%Q).
        { intros n f Hn1 Hp. replace n with (Z.of_nat (Z.to_nat n)) in Hp by lia. unfold qsum.
          assert (Hl : (1 <= Z.to_nat n)%nat) by lia. revert Hp Hl. generalize (Z.to_nat n). clear.
          induction n as [|n IH]; intros Hp Hl; [lia|]. cbn [qsumn].
          pose proof (Hp (Z.of_nat n) ltac:(lia)). destruct n as [|n].
          - cbn [qsumn]. lra.
          - assert (0 < qsumn (S n) f)%Q by (apply IH; [intros; apply Hp; lia|lia]). lra. }
        unfold qsum2. apply P; [assumption|]. intros a _. apply P; [assumption|]. intros b _.
        pose proof (Qabs_nonneg (px (fit s) a b)). destruct (Qlt_le_dec 0 (Qabs (px (fit s) a b))) as [G|G]; [exact G|].
        exfalso. apply (Hn s a b). pose proof (Qabs_Qle_condition (px (fit s) a b) 0) as [C _].
        destruct (C G). lra. }
      unfold Qdiv. apply Qmult_lt_0_compat; [exact Q0|]. apply Qinv_lt_0_compat.
      apply Qmult_lt_0_compat; apply inject_Z_pos; lia. }
    rewrite Em, Ei. field. split; [lra|]. apply Hn.
Qed.
End sorted.

(** ** C41 *)
Lemma qsum_ext_eq n f g : (forall i, 0 <= i < n -> f i = g i) -> qsum n f = qsum n g.
Proof.
  intros H. unfold qsum.
  assert (L : forall m, (m <= Z.to_nat n)%nat -> qsumn m f = qsumn m g).
  { induction m as [|m IH]; intros Hm; [reflexivity|]. cbn [qsumn]. rewrite IH by lia. rewrite H by lia. reflexivity. }
  apply L. lia.
Qed.
Definition profile_of (s : img Q) (b len : Z) : vec Q :=
  mkvec (ncol s) (fun j => qmean len (fun k => px s (b + k) j)).

Lemma mean_rows_id s b len j : 0 <= b -> 0 <= len -> b + len <= nrow s ->
  mean_rows s b (b + len) j = qmean len (fun k => px s (b + k) j).
Proof.
  intros. unfold mean_rows. rewrite slen_id by lia. rewrite py_adj_id by lia. replace (b + len - b) with len by lia. reflexivity.
Qed.
Lemma chunk_loop_spec corr (Hcorr : forall u v, vec_eq u v -> vec_eq (corr u) (corr v)) (Hlen : forall u, vlen (corr u) = vlen u) :
  forall sizes start (s : img Q), Forall (fun l => 1 <= l) sizes -> 0 <= start ->
  start + fold_right Z.add 0 sizes <= nrow s ->
  exists out, chunk_loop corr s (split_from start sizes) = Ok out /\ nrow out = nrow s /\ ncol out = ncol s /\
    (forall i j, i < start \/ start + fold_right Z.add 0 sizes <= i -> px out i j = px s i j) /\
    forall b len, In (b, len) (split_from start sizes) ->
      forall i j, b <= i < b + len -> in_rng (ncol s) j -> px out i j = (px s i j + vat (corr (profile_of s b len)) j)%Q.
Proof.
  induction sizes as [|l sizes IH]; intros start s Hpos H0 Hle; cbn [split_from chunk_loop fold_right] in *.
  - exists s. repeat split; auto. intros b len [].
  - inversion Hpos as [|? ? Hl Hrest]; subst.
    assert (Hsum : 0 <= fold_right Z.add 0 sizes).
    { clear -Hrest. induction Hrest; cbn; lia. }
    replace (l =? 0) with false by lia.
    set (s' := mkimg _ _ _).
    destruct (IH (start + l) s' Hrest) as (out & E & R & C & Hout & Hin); [lia|cbn; lia|].
    exists out. split; [exact E|]. split; [exact R|]. split; [exact C|].
    assert (Hs' : forall i j, px s' i j = if (start <=? i) && (i <? start + l)
        then (px s i j + vat (corr (mkvec (ncol s) (mean_rows s start (start + l)))) j)%Q else px s i j).
    { intros i j. unfold s'. cbn [px]. rewrite !py_adj_id by lia. reflexivity. }
    split.
    + intros i j Hij. rewrite Hout by lia. rewrite Hs'. replace ((start <=? i) && (i <? start + l)) with false by lia. reflexivity.
    + intros b len [Eq|Hbl] i j Hi Hj.
      * injection Eq as <- <-. rewrite Hout by lia. rewrite Hs'. replace ((start <=? i) && (i <? start + l)) with true by lia.
        f_equal. apply Hcorr; [|rewrite Hlen; exact Hj].
        split; [reflexivity|]. intros k Hk. cbn. apply mean_rows_id; lia.
      * destruct (split_from_In sizes (start + l) (b, len)) as (P1 & P2 & P3); [|exact Hbl|].
        { eapply Forall_impl; [|exact Hrest]. cbn. intros; lia. }
        cbn [fst snd] in *.
        rewrite (Hin b len Hbl i j Hi Hj).
        assert (Hsame : forall a c, start + l <= a -> px s' a c = px s a c).
        { intros a c Ha. rewrite Hs'. replace ((start <=? a) && (a <? start + l)) with false by lia. reflexivity. }
        rewrite (Hsame i j) by lia. f_equal. apply Hcorr; [|rewrite Hlen; exact Hj].
        split; [reflexivity|]. intros k Hk. cbn. unfold qmean. f_equal. apply qsum_ext_eq. intros q Hq. apply Hsame. lia.
Qed.

Lemma chunked_spec asort (Hs : forall v, is_argsort v (asort v)) corr
  (Hcorr : forall u v, vec_eq u v -> vec_eq (corr u) (corr v)) (Hlen : forall u, vlen (corr u) = vlen u) sino num_chunk sort :
  1 <= num_chunk <= nrow sino ->
  exists out chunks (s : img Q) (rank : Z -> Z -> Z), chunked_correction asort corr sino num_chunk sort = Ok out /\
    nrow out = nrow sino /\ ncol out = ncol sino /\ nrow s = nrow sino /\ ncol s = ncol sino /\
    Z.of_nat (List.length chunks) = num_chunk /\
    concat (map (fun c => zrange (fst c) (snd c)) chunks) = zrange 0 (nrow sino) /\
    (forall c, In c chunks -> 1 <= snd c) /\
    (sort = false -> s = sino /\ forall j i, rank j i = i) /\
    (forall j, in_rng (ncol sino) j ->
       (forall k, in_rng (nrow sino) k -> in_rng (nrow sino) (rank j k) /\ px s k j = px sino (rank j k) j) /\
       (forall a b, in_rng (nrow sino) a -> in_rng (nrow sino) b -> rank j a = rank j b -> a = b) /\
       (sort = true -> forall a b, 0 <= a -> a < b -> b < nrow sino -> (px s a j <= px s b j)%Q)) /\
    forall b len, In (b, len) chunks -> 0 <= b /\ b + len <= nrow sino /\
      forall k j, b <= k < b + len -> in_rng (ncol sino) j ->
        px out (rank j k) j = (px s k j + vat (corr (profile_of s b len)) j)%Q.
Proof.
  intros Hn. unfold chunked_correction, array_split.
  replace (num_chunk <=? 0) with false by lia. cbn [bindr].
  assert (Hpos : Forall (fun l => 1 <= l) (split_sizes (nrow sino) num_chunk)).
  { apply Forall_forall. intros x Hx. unfold split_sizes in Hx.
    assert (1 <= nrow sino / num_chunk) by (apply Z.div_le_lower_bound; lia).
    apply in_app_or in Hx. destruct Hx as [Hx|Hx]; apply repeat_spec in Hx; lia. }
  pose proof (split_sizes_sum (nrow sino) num_chunk ltac:(lia) ltac:(lia)) as Hsum.
  set (chunks := split_from 0 (split_sizes (nrow sino) num_chunk)).
  assert (Hac : array_split (nrow sino) num_chunk = Ok chunks).
  { unfold array_split. replace (num_chunk <=? 0) with false by lia. reflexivity. }
  assert (G1 := array_split_length _ _ _ Hac ltac:(lia)).
  assert (G2 := array_split_cover (nrow sino) num_chunk chunks ltac:(lia) Hac).
  assert (G3 : forall c, In c chunks -> 1 <= snd c).
  { intros c Hc. destruct (array_split_In (nrow sino) num_chunk chunks c ltac:(lia) Hac Hc) as (_ & _ & [-> | ->] );
    assert (1 <= nrow sino / num_chunk) by (apply Z.div_le_lower_bound; lia); lia. }
  assert (G4 : forall b len, In (b, len) chunks -> 0 <= b /\ b + len <= nrow sino).
  { intros b len Hc. destruct (array_split_In (nrow sino) num_chunk chunks (b, len) ltac:(lia) Hac Hc) as (P1 & P2 & _). cbn in *. lia. }
  destruct sort.
  - destruct (sort_forward_spec asort Hs sino 0 (or_introl eq_refl)) as ((S1 & S2 & S3 & S4) & HH).
    change (0 =? 0) with true in HH. cbv iota in HH.
    destruct (sort_forward asort sino 0) as [s x] eqn:E. cbn [fst snd] in *.
    destruct (chunk_loop_spec corr Hcorr Hlen _ 0 s Hpos) as (o & Eo & R & C & _ & Hin); [lia|rewrite S1, Hsum; lia|].
    fold chunks in Eo, Hin. rewrite Eo. cbn [bindr].
    assert (Ep : forall j, in_rng (ncol sino) j -> exists p, (forall k, in_rng (nrow sino) k -> Qfloor (px x k j) = p k) /\
       (forall k, in_rng (nrow sino) k -> in_rng (nrow sino) (p k)) /\
       (forall a b, in_rng (nrow sino) a -> in_rng (nrow sino) b -> p a = p b -> a = b) /\
       (forall k, in_rng (nrow sino) k -> px s k j = px sino (p k) j) /\
       (forall a b, 0 <= a -> a < b -> b < nrow sino -> (px s a j <= px s b j)%Q) /\
       (forall g, nrow g = nrow sino -> ncol g = ncol sino -> forall k, in_rng (nrow sino) k -> px (sort_backward asort g x 0) (p k) j = px g k j)).
    { intros j Hj. destruct (HH j Hj) as (p & H1 & H2 & H3 & H4 & H5). exists p.
      split. { intros k Hk. destruct (H3 k Hk) as [-> _]. apply Qfloor_Z. }
      split; [exact H1|]. split; [exact H2|]. split; [intros k Hk; apply (H3 k Hk)|]. split; [exact H4|exact H5]. }
    exists (sort_backward asort o x 0), chunks, s, (fun j k => Qfloor (px x k j)).
    split; [reflexivity|]. split; [cbn; congruence|]. split; [cbn; congruence|]. split; [exact S1|]. split; [exact S2|].
    split; [exact G1|]. split; [exact G2|]. split; [exact G3|]. split; [discriminate|]. split.
    + intros j Hj. destruct (Ep j Hj) as (p & H0 & H1 & H2 & H3 & H4 & H5).
      split. { intros k Hk. rewrite (H0 k Hk). split; [apply H1, Hk|apply H3, Hk]. }
      split. { intros a b Ha Hb. rewrite (H0 a Ha), (H0 b Hb). apply H2; assumption. }
      intros _. exact H4.
    + intros b len Hc. destruct (G4 b len Hc) as [P1 P2]. split; [exact P1|]. split; [exact P2|].
      intros k j Hk Hj. destruct (Ep j Hj) as (p & H0 & H1 & H2 & H3 & H4 & H5).
      rewrite (H0 k) by (unfold in_rng; lia). rewrite H5 by (congruence || (unfold in_rng; lia)).
      apply Hin; [exact Hc|exact Hk|congruence].
  - destruct (chunk_loop_spec corr Hcorr Hlen _ 0 sino Hpos) as (o & Eo & R & C & _ & Hin); [lia|rewrite Hsum; lia|].
    fold chunks in Eo, Hin. rewrite Eo. cbn [bindr].
    exists o, chunks, sino, (fun _ k => k).
    repeat (split; [first [assumption|reflexivity]|]).
    split; [intros _; split; reflexivity|]. split.
    + intros j Hj. split; [intros k Hk; split; [exact Hk|reflexivity]|]. split; [auto|discriminate].
    + intros b len Hc. destruct (G4 b len Hc) as [P1 P2]. split; [exact P1|]. split; [exact P2|].
      intros k j Hk Hj. apply Hin; assumption.
Qed.
Lemma chunked_too_many asort corr sino num_chunk sort :
  1 <= nrow sino -> nrow sino < num_chunk -> is_ok (chunked_correction asort corr sino num_chunk sort) = false.
Proof.
  intros H0 H. unfold chunked_correction.
  assert (L : forall l s, In 0 l -> forall start, is_ok (chunk_loop corr s (split_from start l)) = false).
  { induction l as [|a l IH]; intros s Hin start; [destruct Hin|]. cbn [split_from chunk_loop].
    destruct (a =? 0) eqn:E; [reflexivity|]. destruct Hin as [->|Hin]; [discriminate|]. apply IH, Hin. }
  assert (H00 : In 0 (split_sizes (nrow sino) num_chunk)).
  { unfold split_sizes. apply in_or_app. right. rewrite Z.div_small, Z.mod_small by lia.
    destruct (Z.to_nat (num_chunk - nrow sino)) eqn:E; [lia|]. left. reflexivity. }
  destruct (if sort then _ else _) as [s x]. unfold array_split. replace (num_chunk <=? 0) with false by lia. cbn [bindr].
  specialize (L _ s H00 0). destruct (chunk_loop corr s _); [discriminate|reflexivity].
Qed.
(** the mean profile after the correction is the filtered profile *)
Lemma mean_after (s : img Q) (f : vec Q) b len j : 1 <= len ->
  (qmean len (fun k => px s (b + k)%Z j + (vat f j - qmean len (fun q => px s (b + q)%Z j)))%Q == vat f j)%Q.
Proof.
  intros Hl. unfold qmean at 1. rewrite qsum_add, qsum_const by lia. unfold qmean.
  assert (~ (inject_Z len == 0)%Q) by (apply inject_Z_neq0; lia). field. assumption.
Qed.
