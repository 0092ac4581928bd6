(** Proofs for removal.py (third part): stripe masks, FFT and wavelet methods, regularisation. *)
From Verif Require Import Np P_Np M_utility S_utility P_utility M_io_load M_conversion P_conversion M_correction M_calculation M_removal S_removal P_removal P_removal2.
From Coq Require Import QArith Qround Qabs String ZArith Lia Lqa Psatz.
From Coq Require Import List. Import ListNotations.
Open Scope Z_scope.

Lemma Ok_inj {A} (a b : A) : Ok a = Ok b -> a = b.
Proof. congruence. Qed.
Lemma Qtrunc_nonneg q : (0 <= q)%Q -> 0 <= Qtrunc q /\ (inject_Z (Qtrunc q) <= q)%Q.
Proof.
  intros H. unfold Qtrunc. rewrite (proj2 (Qle_bool_iff 0 q) H). split; [|apply Qfloor_le].
  pose proof (Qfloor_resp_le 0 q H) as G. change (Qfloor 0) with 0 in G. exact G.
Qed.
Lemma sorted_columns_forward asort (Hs : forall v, is_argsort v (asort v)) m :
  exists rank, sorted_columns m (fst (sort_forward asort m 0)) rank /\
   (forall g, nrow g = nrow m -> ncol g = ncol m -> forall j k, in_rng (ncol m) j -> in_rng (nrow m) k ->
      px (sort_backward asort g (snd (sort_forward asort m 0)) 0) (rank j k) j = px g k j).
Proof.
  destruct (sort_forward_spec asort Hs m 0 (or_introl eq_refl)) as ((S1 & S2 & S3 & S4) & HH).
  change (0 =? 0) with true in HH. cbv iota in HH.
  set (s := fst (sort_forward asort m 0)) in *. set (x := snd (sort_forward asort m 0)) in *.
  exists (fun j k => Qfloor (px x k j)).
  assert (Ep : forall j, in_rng (ncol m) j -> exists p, (forall k, in_rng (nrow m) k -> Qfloor (px x k j) = p k) /\
       (forall k, in_rng (nrow m) k -> in_rng (nrow m) (p k)) /\
       (forall a b, in_rng (nrow m) a -> in_rng (nrow m) b -> p a = p b -> a = b) /\
       (forall k, in_rng (nrow m) k -> px s k j = px m (p k) j) /\
       (forall a b, 0 <= a -> a < b -> b < nrow m -> (px s a j <= px s b j)%Q) /\
       (forall g, nrow g = nrow m -> ncol g = ncol m -> forall k, in_rng (nrow m) k -> px (sort_backward asort g x 0) (p k) j = px g k j)).
  { intros j Hj. destruct (HH j Hj) as (p & H1 & H2 & H3 & H4 & H5). exists p.
    split. { intros k Hk. destruct (H3 k Hk) as [-> _]. apply Qfloor_Z. }
    split; [exact H1|]. split; [exact H2|]. split; [intros k Hk; apply (H3 k Hk)|]. split; [exact H4|exact H5]. }
  split.
  - split; [exact S1|]. split; [exact S2|]. intros j Hj. destruct (Ep j Hj) as (p & H0 & H1 & H2 & H3 & H4 & H5).
    split. { intros k Hk. rewrite (H0 k Hk). split; [apply H1, Hk|apply H3, Hk]. }
    split. { intros a b Ha Hb. rewrite (H0 a Ha), (H0 b Hb). apply H2; assumption. }
    exact H4.
  - intros g G1 G2 j k Hj Hk. destruct (Ep j Hj) as (p & H0 & H1 & H2 & H3 & H4 & H5). rewrite (H0 k Hk). apply H5; assumption.
Qed.

Lemma dilate_spec mask j : (vat (dilate mask) j = 1%Q /\ marked_near mask j) \/ (vat (dilate mask) j = 0%Q /\ ~ marked_near mask j).
Proof.
  unfold dilate. cbn [vat].
  set (on := fun j => (0 <=? j) && (j <? vlen mask) && negb (Qeq_bool (vat mask j) 0)).
  assert (Hon : forall k, on k = true <-> in_rng (vlen mask) k /\ ~ (vat mask k == 0)%Q).
  { intros k. unfold on, in_rng. destruct (Qeq_bool (vat mask k) 0) eqn:E.
    - apply Qeq_bool_iff in E. rewrite andb_false_r. split; [discriminate|]. intros [_ N]. contradiction.
    - assert (~ (vat mask k == 0)%Q) by (intros G; apply Qeq_bool_iff in G; congruence).
      rewrite andb_true_r, andb_true_iff. split; [intros [A B]; split; [lia|assumption]|]. intros [A _]. lia. }
  change ((vat (mkvec (vlen mask) (fun j0 => if on (j0 - 1) || on j0 || on (j0 + 1) then 1%Q else 0%Q)) j = 1%Q /\ marked_near mask j) \/
          (vat (mkvec (vlen mask) (fun j0 => if on (j0 - 1) || on j0 || on (j0 + 1) then 1%Q else 0%Q)) j = 0%Q /\ ~ marked_near mask j)).
  cbn [vat]. destruct (on (j - 1) || on j || on (j + 1)) eqn:E.
  - left. split; [reflexivity|]. rewrite !orb_true_iff in E. destruct E as [ [E|E] |E]; apply Hon in E as [A B]; eexists; split; eauto; split; auto; lia.
  - right. split; [reflexivity|]. intros (k & A & B & C). rewrite !orb_false_iff in E. destruct E as [ [E1 E2] E3].
    assert (on k = true) by (apply Hon; auto). assert (k = j - 1 \/ k = j \/ k = j + 1) as [-> | [-> | ->] ] by lia; congruence.
Qed.

Lemma large_stripe_spec asort (Hs : forall v, is_argsort v (asort v)) filt (Hf : keeps_shape filt) detect sino ratio (norm : bool) out :
  remove_large_stripe asort filt detect sino ratio norm = Ok out ->
  0 <= nrow sino ->
  exists s rank drop fact mask,
    sorted_columns sino s rank /\ drop = Qtrunc ((1#2) * clipQ ratio 0 (4#5) * inject_Z (nrow sino)) /\ 0 <= drop /\ 5 * drop <= 2 * nrow sino /\
    vlen fact = ncol sino /\
    (forall j, in_rng (ncol sino) j -> let a := row_mean s drop (nrow sino - 2 * drop) j in let b := row_mean (filt s) drop (nrow sino - 2 * drop) j in
        (~ (b == 0)%Q -> vat fact j = (a / b)%Q) /\ ((b == 0)%Q -> vat fact j = 1%Q)) /\
    detect fact = Ok mask /\
    nrow out = nrow sino /\ ncol out = ncol sino /\
    forall j, in_rng (ncol sino) j ->
      (~ marked_near mask j -> forall i, in_rng (nrow sino) i ->
          px out i j = if norm then (px sino i j / vat fact j)%Q else px sino i j) /\
      (marked_near mask j -> forall k, in_rng (nrow sino) k -> px out (rank j k) j = px (filt s) k j).
Proof.
  intros E H0. unfold remove_large_stripe in E.
  destruct (sorted_columns_forward asort Hs sino) as (rank & Hsc & Hback).
  destruct (sort_forward asort sino 0) as [s x] eqn:Es. cbn [fst snd] in *.
  set (ndrop := Qtrunc _) in *.
  assert (Hd : 0 <= ndrop /\ 5 * ndrop <= 2 * nrow sino).
  { pose proof (clipQ_bounds ratio 0 (4#5) ltac:(lra)) as [C1 C2].
    assert (Hq : (0 <= (1#2) * clipQ ratio 0 (4#5) * inject_Z (nrow sino) <= (2#5) * inject_Z (nrow sino))%Q).
    { assert (0 <= inject_Z (nrow sino))%Q by (rewrite <- (Zle_Qle 0); exact H0). split; nra. }
    destruct (Qtrunc_nonneg _ (proj1 Hq)) as [F0 F1]. fold ndrop in F0, F1.
    split; [exact F0|]. assert (0 <= inject_Z (nrow sino))%Q by (rewrite <- (Zle_Qle 0); exact H0).
    assert (G : (inject_Z (5 * ndrop) <= inject_Z (2 * nrow sino))%Q).
    { rewrite !inject_Z_mult. change (inject_Z 2) with 2%Q. change (inject_Z 5) with 5%Q. lra. }
    rewrite <- Zle_Qle in G. exact G. }
  clearbody ndrop. destruct Hd as [Hd0 Hd1].
  set (fact := mkvec (ncol sino) _) in *.
  destruct (detect fact) as [mask|e] eqn:Ed; cbn [bindr] in E; [|discriminate]. apply Ok_inj in E; subst out.
  destruct (Hf s) as [F1 F2]. destruct Hsc as (Sr & Sc & Hcol).
  exists s, rank, ndrop, fact, mask.
  split; [split; [exact Sr|split; [exact Sc|exact Hcol] ]|]. split; [reflexivity|]. split; [exact Hd0|]. split; [exact Hd1|]. split; [reflexivity|].
  split.
  { intros j Hj. cbv zeta. unfold fact. cbn [vat].
    assert (M : forall m, nrow m = nrow sino -> mean_rows m ndrop (nrow sino - ndrop) j = row_mean m ndrop (nrow sino - 2 * ndrop) j).
    { intros m Hm. replace (nrow sino - ndrop) with (ndrop + (nrow sino - 2 * ndrop)) by lia. rewrite mean_rows_id by lia. reflexivity. }
    rewrite (M s Sr). rewrite (M (filt s)) by congruence. unfold stripe_factor. split; intros Hb.
    - destruct (Qeq_bool _ 0) eqn:G; [apply Qeq_bool_iff in G; contradiction|reflexivity].
    - apply Qeq_bool_iff in Hb. rewrite Hb. reflexivity. }
  split; [exact Ed|]. cbn [nrow ncol]. split; [reflexivity|]. split; [reflexivity|].
  intros j Hj. cbn [px]. destruct (dilate_spec mask j) as [ [-> Hm] | [-> Hm] ].
  - split; [contradiction|]. intros _ k Hk. change (Qltb 0 1) with true. cbv iota. apply Hback; congruence || assumption.
  - split; [|contradiction]. intros _ i Hi. change (Qltb 0 0) with false. cbv iota. destruct norm; reflexivity.
Qed.
Lemma large_stripe_total asort filt detect sino ratio norm :
  (forall v, is_ok (detect v) = true) -> is_ok (remove_large_stripe asort filt detect sino ratio norm) = true.
Proof.
  intros H. unfold remove_large_stripe. destruct (sort_forward asort sino 0) as [s x].
  match goal with |- context [detect ?v] => specialize (H v); destruct (detect v) end; [reflexivity|discriminate].
Qed.

(** ** C77: dead stripes *)
Lemma interp_masked (mask : vec Q) n (f : Z -> Q) j : vlen mask = n -> 2 <= n -> in_rng n j ->
  let m := clear_mask_ends (dilate mask) in
  let good := fun j => Qltb (vat m j) 1 in let miss := fun j => Qltb 0 (vat m j) in
  (~ marked_near mask j \/ j < 2 \/ n - 2 <= j -> miss j = false) /\
  (marked_near mask j -> 2 <= j < n - 2 -> miss j = true /\
     exists a b, a < j < b /\ 0 <= a /\ b < n /\
         (~ marked_near mask a \/ a < 2) /\ (~ marked_near mask b \/ n - 2 <= b) /\
         (forall k, a < k < b -> 2 <= k < n - 2 /\ marked_near mask k) /\
         on_line a (f a) b (f b) j (lin_interp good n f j)).
Proof.
  intros Hl Hn Hj m good miss.
  assert (Hm : forall k, in_rng n k -> vat m k = if (k <? 2) || (n - 2 <=? k) then 0%Q else vat (dilate mask) k).
  { intros k Hk. unfold m. rewrite clear_ends by (cbn [dilate vlen]; rewrite Hl; auto). cbn [dilate vlen]. rewrite Hl. reflexivity. }
  split.
  - intros Hc. unfold miss. rewrite Hm by assumption. destruct ((j <? 2) || (n - 2 <=? j)) eqn:E; [reflexivity|].
    destruct (dilate_spec mask j) as [ [-> Hk] | [-> Hk] ]; [|reflexivity]. destruct Hc as [Hc|Hc]; [contradiction|lia].
  - intros Hmark Hin. unfold in_rng in Hj.
    assert (Hv : vat m j = 1%Q).
    { rewrite Hm by (unfold in_rng; lia). replace ((j <? 2) || (n - 2 <=? j)) with false by lia.
      destruct (dilate_spec mask j) as [ [-> Hk] | [-> Hk] ]; [reflexivity|contradiction]. }
    split; [unfold miss; rewrite Hv; reflexivity|].
    assert (Hbad : good j = false) by (unfold good; rewrite Hv; reflexivity).
    assert (Hg0 : good 0 = true) by (unfold good; rewrite Hm by (unfold in_rng; lia); reflexivity).
    assert (Hg1 : good (n - 1) = true).
    { unfold good. rewrite Hm by (unfold in_rng; lia). replace (n - 2 <=? n - 1) with true by lia. rewrite orb_true_r. reflexivity. }
    destruct (knot_left_spec good j (Z.to_nat (j + 1))) as (A1 & A2 & A3).
    { exists 0. split; [lia|assumption]. }
    destruct (knot_right_spec good j (Z.to_nat (n - j))) as (B1 & B2 & B3).
    { exists (n - 1). split; [lia|assumption]. }
    unfold lin_interp.
    set (a := knot_left good j (Z.to_nat (j + 1))) in *. set (b := knot_right good j (Z.to_nat (n - j))) in *.
    assert (a <> j) by congruence. assert (b <> j) by congruence.
    assert (Hgm : forall k, in_rng n k -> good k = true -> ~ marked_near mask k \/ k < 2 \/ n - 2 <= k).
    { intros k Hk. unfold good. rewrite Hm by assumption.
      destruct ((k <? 2) || (n - 2 <=? k)) eqn:E; [intros; right; lia|].
      destruct (dilate_spec mask k) as [ [-> Hx] | [-> Hx] ]; [discriminate|auto]. }
    exists a, b. split; [lia|]. split; [lia|]. split; [lia|].
    split. { destruct (Hgm a) as [H1|[H1|H1] ]; unfold in_rng; auto; lia. }
    split. { destruct (Hgm b) as [H1|[H1|H1] ]; unfold in_rng; auto; lia. }
    split.
    { intros k Hk. assert (Hkb : good k = false).
      { destruct (Z.le_gt_cases k j); [apply A3|apply B3]; lia. }
      unfold good in Hkb. rewrite Hm in Hkb by (unfold in_rng; lia).
      destruct ((k <? 2) || (n - 2 <=? k)) eqn:E; [discriminate|]. split; [lia|].
      destruct (dilate_spec mask k) as [ [_ Hx] | [Hx _] ]; [exact Hx|]. rewrite Hx in Hkb. discriminate. }
    replace (a =? b) with false by lia. unfold on_line.
    assert (Hne : ~ (inject_Z (b - a) == 0)%Q) by (apply inject_Z_neq0; lia).
    field. exact Hne.
Qed.
Lemma dead_stripe_spec profile detect sino out :
  remove_dead_stripe profile detect sino = Ok out -> 2 <= ncol sino ->
  (forall v m, detect v = Ok m -> vlen m = vlen v) -> vlen (profile sino) = ncol sino ->
  exists mask, detect (profile sino) = Ok mask /\ nrow out = nrow sino /\ ncol out = ncol sino /\
    (forall j, in_rng (ncol sino) j -> ~ marked_near mask j \/ j < 2 \/ ncol sino - 2 <= j -> forall i, px out i j = px sino i j) /\
    ((forall j, in_rng (ncol sino) j -> forall i, px out i j = px sino i j) \/
     (forall j, in_rng (ncol sino) j -> marked_near mask j -> 2 <= j < ncol sino - 2 -> forall i, bridged (ncol sino) mask (px sino i) (px out i) j)) /\
    forall affected : Z -> bool, (forall j, in_rng (ncol sino) j -> (affected j = true <-> marked_near mask j /\ 2 <= j < ncol sino - 2)) ->
      let number := Z.of_nat (length (filter affected (zrange 0 (ncol sino)))) in
      (number < ncol sino / 3 -> forall j, in_rng (ncol sino) j -> affected j = true -> forall i, bridged (ncol sino) mask (px sino i) (px out i) j) /\
      (ncol sino / 3 <= number -> forall j, in_rng (ncol sino) j -> forall i, px out i j = px sino i j).
Proof.
  intros E Hn Hlen Hpl. unfold remove_dead_stripe in E.
  destruct (detect (profile sino)) as [mask|e] eqn:Ed; cbn [bindr] in E; [|discriminate].
  assert (Hl : vlen mask = ncol sino) by (rewrite (Hlen _ _ Ed); exact Hpl).
  exists mask. split; [reflexivity|].
  destruct ((nrow sino <? 2) || _); [discriminate|].
  assert (CN : forall affected : Z -> bool, (forall j, in_rng (ncol sino) j -> (affected j = true <-> marked_near mask j /\ 2 <= j < ncol sino - 2)) ->
    count_miss (ncol sino) (fun j => Qltb 0 (vat (clear_mask_ends (dilate mask)) j)) = Z.of_nat (length (filter affected (zrange 0 (ncol sino))))).
  { intros affected HA. unfold count_miss. do 2 f_equal. apply filter_ext_in. intros j Hj. apply zrange_In in Hj. assert (Hj' : in_rng (ncol sino) j) by (unfold in_rng; lia).
    destruct (interp_masked mask (ncol sino) (fun _ => 0%Q) j Hl Hn Hj') as [H1 H2]. cbv zeta in H1, H2. specialize (HA j Hj'). destruct (affected j).
    - destruct HA as [HA _]. destruct (HA eq_refl) as [HA1 HA2]. apply (H2 HA1 HA2).
    - apply H1. destruct (Z_lt_le_dec j 2) as [|]; [right; left; assumption|]. destruct (Z_lt_le_dec j (ncol sino - 2)) as [|]; [|right; right; assumption]. left. intros M. destruct HA as [_ HA]. discriminate HA. split; [exact M|lia]. }
  destruct ((_ <? _) && _) eqn:EB.
  - apply Ok_inj in E; subst out. cbn [nrow ncol px]. split; [reflexivity|]. split; [reflexivity|]. split; [|split].
    + intros j Hj Hc i. destruct (interp_masked mask (ncol sino) (px sino i) j Hl Hn Hj) as [H1 _]. rewrite (H1 Hc). reflexivity.
    + right. intros j Hj Hmk Hin i. destruct (interp_masked mask (ncol sino) (px sino i) j Hl Hn Hj) as [_ H2].
      destruct (H2 Hmk Hin) as (Hmiss & a & b & P). unfold bridged. exists a, b. rewrite Hmiss. exact P.
    + intros affected HA. set (number := Z.of_nat (length (filter affected (zrange 0 (ncol sino))))). rewrite (CN affected HA) in EB. fold number in EB. split; [|lia].
      intros _ j Hj Haj i. apply HA in Haj as [Hmk Hin]; [|exact Hj]. destruct (interp_masked mask (ncol sino) (px sino i) j Hl Hn Hj) as [_ H2].
      destruct (H2 Hmk Hin) as (Hmiss & a & b & P). unfold bridged. exists a, b. rewrite Hmiss. exact P.
  - apply Ok_inj in E; subst out. split; [reflexivity|]. split; [reflexivity|]. split; [reflexivity|]. split; [left; reflexivity|].
    intros affected HA number. rewrite (CN affected HA) in EB. fold number in EB. split; [|reflexivity].
    intros Hlt j Hj Haj. exfalso. assert (N0 : number = 0) by lia. unfold number in N0. destruct (filter affected (zrange 0 (ncol sino))) as [|x t] eqn:EF; [|cbn in N0; lia].
    assert (In j []) as []. rewrite <- EF. apply filter_In. split; [|exact Haj]. apply zrange_In. unfold in_rng in Hj. lia.
Qed.
Lemma interpolation_spec vsort filt detect sino ratio out :
  remove_stripe_based_interpolation vsort filt detect sino ratio false = Ok out -> 2 <= ncol sino ->
  (forall v m, detect v = Ok m -> vlen m = vlen v) ->
  exists fact mask, detect fact = Ok mask /\ vlen fact = ncol sino /\ nrow out = nrow sino /\ ncol out = ncol sino /\
    forall j, in_rng (ncol sino) j -> forall i,
      (~ marked_near mask j \/ j < 2 \/ ncol sino - 2 <= j -> px out i j = px sino i j) /\
      (marked_near mask j -> 2 <= j < ncol sino - 2 -> bridged (ncol sino) mask (px sino i) (px out i) j).
Proof.
  intros E Hn Hlen. unfold remove_stripe_based_interpolation in E.
  match type of E with context [detect ?v] => set (fact := v) in *; destruct (detect fact) as [mask|e] eqn:Ed end; cbn [bindr] in E; [|discriminate].
  assert (Hl : vlen mask = ncol sino) by (rewrite (Hlen _ _ Ed); reflexivity).
  exists fact, mask. split; [exact Ed|]. split; [reflexivity|].
  destruct ((nrow sino <? 2) || _); [discriminate|].
  apply Ok_inj in E; subst out. cbn [nrow ncol px]. split; [reflexivity|]. split; [reflexivity|].
  intros j Hj i. destruct (interp_masked mask (ncol sino) (px sino i) j Hl Hn Hj) as [H1 H2]. split.
  - intros Hc. rewrite (H1 Hc). reflexivity.
  - intros Hmk Hin. destruct (H2 Hmk Hin) as (Hmiss & a & b & P). exists a, b. rewrite Hmiss. exact P.
Qed.

(** ** C76: FFT and wavelet methods *)
Lemma pad_nonneg n m : 0 <= n -> 0 <= m -> 0 <= Z.min 150 (Qtrunc ((1#10) * inject_Z (Z.min n m))).
Proof.
  intros. apply Z.min_glb; [lia|]. apply Qtrunc_nonneg.
  assert (0 <= inject_Z (Z.min n m))%Q by (rewrite <- (Zle_Qle 0); lia). lra.
Qed.
Lemma cut_padded (f : img Q) (out : img Q -> Z -> Z -> Q) s pad i j : 0 <= pad -> 0 <= nrow s -> 0 <= ncol s ->
  nrow s + 2 * pad <= nrow f -> ncol s + 2 * pad <= ncol f ->
  (forall i j, in_rng (nrow s + 2 * pad) i -> in_rng (ncol s + 2 * pad) j -> (px f i j == px (pad_all out s pad) i j)%Q) ->
  in_rng (nrow s) i -> in_rng (ncol s) j ->
  let c := islice f pad (nrow s + pad) pad (ncol s + pad) in
  nrow c = nrow s /\ ncol c = ncol s /\ (px c i j == px s i j)%Q.
Proof.
  intros Hp Hr Hc Hfr Hfc H Hi Hj c. unfold c, islice. cbn [nrow ncol px]. unfold in_rng in *.
  rewrite !slen_id by lia. rewrite !py_adj_id by lia. split; [lia|]. split; [lia|].
  rewrite H by lia. unfold pad_all. cbn [px]. replace (pad + i - pad) with i by lia. replace (pad + j - pad) with j by lia.
  unfold in_img. replace ((0 <=? i) && (i <? nrow s) && (0 <=? j) && (j <? ncol s)) with true by lia. reflexivity.
Qed.
Lemma wavelet_id asort (Hs : forall v, is_argsort v (asort v)) out wav sino0 sort :
  0 <= nrow sino0 -> 0 <= ncol sino0 ->
  (forall m, nrow m <= nrow (wav m) /\ ncol m <= ncol (wav m) /\
     forall i j, in_rng (nrow m) i -> in_rng (ncol m) j -> (px (wav m) i j == px m i j)%Q) ->
  img_Qeq (remove_stripe_based_wavelet_fft asort out wav sino0 sort) sino0.
Proof.
  intros Hr Hc H. unfold remove_stripe_based_wavelet_fft.
  destruct (sort_pair_cases asort Hs sort sino0) as (S1 & S2 & HH).
  destruct (if sort then sort_forward asort sino0 0 else (sino0, sino0)) as [s x]. cbn [fst snd] in *.
  set (pad := Z.min 150 _). assert (Hp : 0 <= pad) by (apply pad_nonneg; lia).
  destruct (H (pad_all out s pad)) as (W1 & W2 & W3). cbn [pad_all nrow ncol] in W1, W2.
  apply (HH Qeq).
  - unfold islice. cbn [nrow]. rewrite slen_id by lia. lia.
  - unfold islice. cbn [ncol]. rewrite slen_id by lia. lia.
  - intros i j Hi Hj. apply (cut_padded (wav (pad_all out s pad)) out s pad i j); auto; try lia; congruence.
Qed.
Lemma fft_id asort (Hs : forall v, is_argsort v (asort v)) out win sino0 sort :
  0 <= nrow sino0 -> 0 <= ncol sino0 -> neutral win ->
  (forall i j, in_rng (nrow sino0) i -> in_rng (ncol sino0) j -> (0 <= px sino0 i j)%Q) ->
  img_Qeq (remove_stripe_based_fft asort out win sino0 sort) sino0.
Proof.
  intros Hr Hc Hw Hnn. unfold remove_stripe_based_fft.
  assert (Hns : forall i j, in_rng (nrow sino0) i -> in_rng (ncol sino0) j ->
     (0 <= px (fst (if sort then sort_forward asort sino0 0 else (sino0, sino0))) i j)%Q).
  { intros i j Hi Hj. destruct sort; cbn [fst]; [|apply Hnn; assumption].
    destruct (sorted_columns_forward asort Hs sino0) as (rank & (A & B & C) & _). destruct (C j Hj) as [C1 _].
    destruct (C1 i Hi) as [C2 ->]. apply Hnn; assumption. }
  destruct (sort_pair_cases asort Hs sort sino0) as (S1 & S2 & HH).
  destruct (if sort then sort_forward asort sino0 0 else (sino0, sino0)) as [s x]. cbn [fst snd] in *.
  set (pad := Z.min 150 _). assert (Hp : 0 <= pad) by (apply pad_nonneg; lia).
  destruct (Hw (pad_all out s pad)) as (W1 & W2 & W3). cbn [pad_all nrow ncol] in W1, W2.
  assert (En : nrow (pad_all out s pad) - pad = nrow s + pad) by (cbn [nrow ncol pad_all]; lia).
  assert (Ec : ncol (pad_all out s pad) - pad = ncol s + pad) by (cbn [nrow ncol pad_all]; lia).
  rewrite En, Ec. apply (HH Qeq).
  - unfold imap, islice. cbn [nrow]. rewrite slen_id by lia. lia.
  - unfold imap, islice. cbn [ncol]. rewrite slen_id by lia. lia.
  - intros i j Hi Hj.
    assert (W3' : forall a b, in_rng (nrow s + 2 * pad) a -> in_rng (ncol s + 2 * pad) b -> (px (win (pad_all out s pad)) a b == px (pad_all out s pad) a b)%Q).
    { intros a b Ha Hb. apply W3; [rewrite W1|rewrite W2]; assumption. }
    destruct (cut_padded (win (pad_all out s pad)) out s pad i j Hp ltac:(lia) ltac:(lia) ltac:(lia) ltac:(lia) W3' ltac:(congruence) ltac:(congruence)) as (_ & _ & Q1).
    unfold imap. cbn [px]. cbn zeta in Q1. rewrite (Qabs_wd _ _ Q1). apply Qabs_pos. apply Hns; assumption.
Qed.

(** ** C78: regularisation leaves a constant profile alone *)
Lemma reg_const sij (m : vec Q) c i : 2 <= vlen m -> (forall j, in_rng (vlen m) j -> (vat m j == c)%Q) ->
  (vat (regularization_coe sij m) i == 0)%Q.
Proof.
  intros Hn Hc. unfold regularization_coe. cbn [vat].
  rewrite (qsum_ext _ _ (fun _ => 0%Q)). { rewrite qsum_const by lia. ring. }
  intros j Hj. assert (Hg : (reg_grad m j == 0)%Q).
  { unfold reg_grad. destruct (j =? 0) eqn:E0; [rewrite !Hc by (unfold in_rng; lia); ring|].
    destruct (j =? vlen m - 1) eqn:E1; rewrite !Hc by (unfold in_rng; lia); ring. }
  rewrite Hg. ring.
Qed.
(** the gradient always sums to zero *)
Lemma reg_grad_sum (m : vec Q) : 2 <= vlen m -> (qsum (vlen m) (reg_grad m) == 0)%Q.
Proof.
  intros Hn.
  assert (L : forall k : nat, (1 <= Z.of_nat k <= vlen m - 1) -> (qsumn k (reg_grad m) == vat m (Z.of_nat k - 1)%Z - vat m (Z.of_nat k))%Q).
  { induction k as [|k IH]; intros Hk; [lia|]. cbn [qsumn]. destruct k as [|k].
    - cbn. ring.
    - rewrite IH by lia. unfold reg_grad. replace (Z.of_nat (S k) =? 0) with false by lia.
      replace (Z.of_nat (S k) =? vlen m - 1) with false by lia.
      replace (Z.of_nat (S (S k)) - 1) with (Z.of_nat (S k)) by lia.
      replace (Z.of_nat (S (S k))) with (Z.of_nat (S k) + 1) by lia. ring. }
  unfold qsum. destruct (Z.to_nat (vlen m)) as [|k] eqn:E; [lia|]. cbn [qsumn].
  rewrite L by lia. unfold reg_grad. replace (Z.of_nat k =? 0) with false by lia.
  replace (Z.of_nat k =? vlen m - 1) with true by lia. replace (Z.of_nat k) with (vlen m - 1) by lia.
  replace (vlen m - 1 - 1) with (vlen m - 2) by lia. ring.
Qed.

(** ** detect_stripe on a straight profile *)
Lemma qsum_sq_pos n f : (forall k, (0 <= k < n)%Z -> 0 <= f k)%Q -> forall k, (0 <= k < n)%Z -> (0 < f k)%Q -> (0 < qsum n f)%Q.
Proof.
  intros Hf k Hk Hp. unfold qsum. replace n with (Z.of_nat (Z.to_nat n)) in Hf, Hk by lia.
  revert Hf Hk. generalize (Z.to_nat n) as p. induction p as [|p IH]; intros Hf Hk; [lia|]. cbn [qsumn].
  assert (Hnn : (0 <= qsumn p f)%Q).
  { clear IH Hk. assert (G : (qsumn p (fun _ => 0) <= qsumn p f)%Q) by (apply qsumn_le; intros; apply Hf; lia).
    assert (Z0 : (qsumn p (fun _ => 0%Q) == 0)%Q) by (rewrite qsumn_const; ring). lra. }
  destruct (Z.eq_dec k (Z.of_nat p)) as [->|N]; [lra|].
  assert (0 < qsumn p f)%Q by (apply IH; [intros; apply Hf; lia|lia]). pose proof (Hf (Z.of_nat p) ltac:(lia)). lra.
Qed.
Lemma sq_nonneg (x : Q) : (0 <= x * x)%Q.
Proof. nra. Qed.
Lemma sq_pos (x : Q) : ~ (x == 0)%Q -> (0 < x * x)%Q.
Proof. intros H. destruct (Qlt_le_dec x 0); [nra|]. destruct (Qlt_le_dec 0 x); [nra|]. exfalso. apply H. lra. Qed.
Lemma line_fit_exact a m y c d : 2 <= m -> (forall k, (0 <= k < m)%Z -> (y (a + k)%Z == c + d * inject_Z (a + k))%Q) ->
  (fst (line_fit a m y) == d)%Q /\ (snd (line_fit a m y) == c)%Q.
Proof.
  intros Hm Hy. unfold line_fit. cbn [fst snd].
  set (xm := qmean m (fun k => inject_Z (a + k))).
  assert (Eym : (qmean m (fun k => y (a + k)%Z) == c + d * xm)%Q).
  { unfold xm, qmean. rewrite (qsum_ext _ _ (fun k => c + d * inject_Z (a + k))%Q) by (intros; apply Hy; assumption).
    rewrite qsum_add, qsum_const, qsum_scal by lia.
    assert (~ (inject_Z m == 0)%Q) by (apply inject_Z_neq0; lia). field. assumption. }
  assert (Esxy : (qsum m (fun k => (inject_Z (a + k) - xm) * (y (a + k)%Z - qmean m (fun k => y (a + k)%Z))) ==
                  d * qsum m (fun k => (inject_Z (a + k) - xm) * (inject_Z (a + k) - xm)))%Q).
  { rewrite <- qsum_scal. apply qsum_ext. intros k Hk. rewrite Eym, Hy by assumption. ring. }
  assert (Hsxx : (0 < qsum m (fun k => (inject_Z (a + k) - xm) * (inject_Z (a + k) - xm)))%Q).
  { destruct (Qeq_dec (inject_Z (a + 0)) xm) as [E0|N0].
    - apply qsum_sq_pos with (k := 1); [intros; apply sq_nonneg|lia|]. apply sq_pos. rewrite <- E0.
      rewrite !inject_Z_plus. change (inject_Z 1) with 1%Q. change (inject_Z 0) with 0%Q. intros G. ring_simplify in G. discriminate.
    - apply qsum_sq_pos with (k := 0); [intros; apply sq_nonneg|lia|]. apply sq_pos. intros G. apply N0. lra. }
  assert (Es : (qsum m (fun k => (inject_Z (a + k) - xm) * (y (a + k)%Z - qmean m (fun k => y (a + k)%Z))) /
                 qsum m (fun k => (inject_Z (a + k) - xm) * (inject_Z (a + k) - xm)) == d)%Q).
  { rewrite Esxy. field. lra. }
  split; [exact Es|]. rewrite Es, Eym. ring.
Qed.
Lemma detect_line asort data snr c d : 6 <= vlen data -> (0 < d)%Q -> (0 < snr)%Q ->
  (1 # 100000 <= d * inject_Z (vlen data - 1))%Q ->
  (forall k, in_rng (vlen data) k -> (vat data (asort data k) == c + d * inject_Z k)%Q) ->
  exists mask, detect_stripe asort data snr = Ok mask /\ vlen mask = vlen data /\ forall j, vat mask j = 0%Q.
Proof.
  intros Hn Hd Hsnr Hlev Hy. unfold detect_stripe.
  set (n := vlen data) in *. set (y := fun k => vat data (asort data k)).
  assert (Hm : slen n (n / 4) (- (n / 4) - 1) = n - 2 * (n / 4) - 1 /\ 0 <= n / 4 /\ n / 4 + (n - 2 * (n / 4) - 1) <= n /\ 2 <= n - 2 * (n / 4) - 1).
  { pose proof (Z.div_mod n 4 ltac:(lia)). pose proof (Z.mod_pos_bound n 4 ltac:(lia)). unfold slen, py_adj.
    replace (n / 4 <? 0) with false by lia. replace (- (n / 4) - 1 <? 0) with true by lia. lia. }
  destruct Hm as (-> & Hd0 & Hd1 & Hm2). set (m := n - 2 * (n / 4) - 1) in *.
  replace (m <? 2) with false by lia.
  destruct (line_fit_exact (n / 4) m y c d Hm2) as [E1 E2].
  { intros k Hk. unfold y. apply Hy. unfold in_rng. lia. }
  destruct (line_fit (n / 4) m y) as [sl ic]. cbn [fst snd] in E1, E2.
  assert (Ey : (ic + sl * inject_Z (n - 1) == c + d * inject_Z (n - 1))%Q) by (rewrite E1, E2; reflexivity).
  assert (Hlevel : (Qabs (ic + sl * inject_Z (n - 1) - ic) == d * inject_Z (n - 1))%Q).
  { assert (Hpos : (0 <= d * inject_Z (n - 1))%Q) by lra.
    rewrite <- (Qabs_pos _ Hpos). apply Qabs_wd. rewrite E1. ring. }
  destruct (Qltb (Qabs _) (1 # 100000)) eqn:G. { apply Qltb_lt in G. exfalso. rewrite Hlevel in G. lra. }
  eexists. split; [reflexivity|]. split; [reflexivity|]. intros j. cbn [vat].
  assert (V1 : (Qabs (vat data (asort data (n - 1)%Z) - (ic + sl * inject_Z (n - 1))) == 0)%Q).
  { rewrite (Qabs_wd _ 0); [reflexivity|]. rewrite Ey, (Hy (n - 1)) by (unfold in_rng; lia). ring. }
  assert (V2 : (Qabs (ic - vat data (asort data 0%Z)) == 0)%Q).
  { rewrite (Qabs_wd _ 0); [reflexivity|]. rewrite E2, (Hy 0) by (unfold in_rng; lia). change (inject_Z 0) with 0%Q. ring. }
  assert (Hz : forall v w, (v == 0)%Q -> Qle_bool snr (v / w) = false).
  { intros v w Hv. destruct (Qle_bool snr (v / w)) eqn:E; [|reflexivity]. apply Qle_bool_iff in E.
    assert ((v / w == 0)%Q) by (rewrite Hv; unfold Qdiv; ring). lra. }
  rewrite (Hz _ _ V1), (Hz _ _ V2). reflexivity.
Qed.
