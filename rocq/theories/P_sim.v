(** Proofs about add_stripe_artifact. *)
From Verif Require Import Np P_Np M_utility S_utility P_utility M_conversion P_conversion M_correction P_correction P_removal3 M_par P_par M_sim S_sim.
From Coq Require Import QArith Qround Qabs Bool ZArith Lia Lqa.
Open Scope Z_scope.

Lemma img_max_spec m : 1 <= nrow m -> 1 <= ncol m -> largest m (img_max m).
Proof.
  intros H1 H2. unfold img_max, largest. destruct (amax_spec (nrow m) (fun i => amax (ncol m) (px m i)) H1) as (A & i & Hi & Ei).
  split.
  - intros a b Ha Hb. destruct (amax_spec (ncol m) (px m a) H2) as (B & _). eapply Qle_trans; [apply B, Hb|apply (A a Ha)].
  - destruct (amax_spec (ncol m) (px m i) H2) as (_ & j & Hj & Ej). exists i, j. split; [exact Hi|]. split; [exact Hj|]. rewrite Ei. exact Ej.
Qed.
Lemma strength_clip s : used_strength s (clipQ s 0 1) /\ (0 <= clipQ s 0 1 <= 1)%Q.
Proof.
  unfold clipQ, Qminb, Qmaxb, used_strength.
  destruct (Qle_bool s 0) eqn:E1.
  - apply Qle_bool_iff in E1. change (Qle_bool 0 1) with true. cbn iota. repeat split; intros; lra.
  - assert (~ (s <= 0)%Q) by (intros H; apply Qle_bool_iff in H; congruence).
    destruct (Qle_bool s 1) eqn:E2.
    + apply Qle_bool_iff in E2. repeat split; intros; lra.
    + assert (~ (s <= 1)%Q) by (intros H0; apply Qle_bool_iff in H0; congruence). repeat split; intros; lra.
Qed.
Lemma start_clip nc size pos : 1 <= size < nc -> stripe_start nc size pos (clipZ pos 0 (nc - size - 1)).
Proof. intros H. unfold stripe_start, clipZ. lia. Qed.

Lemma ratio_fade s n k : (0 <= s <= 1)%Q -> 0 <= k < n -> fade s n k (partial_ratio s n k) /\ (1 - s <= partial_ratio s n k <= 1)%Q.
Proof.
  intros Hs Hk. unfold fade, partial_ratio.
  assert (Hn : (0 < inject_Z n)%Q) by (apply inject_Z_pos; lia).
  assert (P : (0 <= (1 - s) * inject_Z n)%Q) by (apply Qmult_le_0_compat; lra).
  assert (T : Qtrunc ((1 - s) * inject_Z n) = Qfloor ((1 - s) * inject_Z n)).
  { unfold Qtrunc. apply Qle_bool_iff in P. rewrite P. reflexivity. }
  rewrite T. set (c := Qfloor ((1 - s) * inject_Z n)).
  assert (C0 : 0 <= c) by (change 0 with (Qfloor (inject_Z 0)); apply Qfloor_resp_le; exact P).
  assert (Cn : c <= n). { rewrite <- (Qfloor_Z n). apply Qfloor_resp_le. nra. }
  cbv zeta. destruct (k <? c) eqn:Ek.
  - repeat split; intros; try lia; try lra.
  - unfold linspace. destruct (n - c =? 1) eqn:E1.
    + repeat split; intros; try lia; try lra.
    + assert (D : (0 < inject_Z (n - c - 1))%Q) by (apply inject_Z_pos; lia).
      assert (K0 : (0 <= inject_Z (k - c))%Q) by (change 0%Q with (inject_Z 0); rewrite <- Zle_Qle; lia).
      assert (K1 : (inject_Z (k - c) <= inject_Z (n - c - 1))%Q) by (rewrite <- Zle_Qle; lia).
      assert (F : (1 + (1 - s - 1) * inject_Z (k - c) / inject_Z (n - c - 1) == 1 - s * (inject_Z (k - c) / inject_Z (n - c - 1)))%Q) by (field; lra).
      assert (G0 : (0 <= inject_Z (k - c) / inject_Z (n - c - 1))%Q) by (apply Qle_shift_div_l; lra).
      assert (G1 : (inject_Z (k - c) / inject_Z (n - c - 1) <= 1)%Q) by (apply Qle_shift_div_r; lra).
      set (g := (inject_Z (k - c) / inject_Z (n - c - 1))%Q) in *.
      split; [split|split].
      * intros L. assert (Z : k - c = 0) by lia. rewrite F. unfold g. rewrite Z. unfold Qdiv. ring.
      * intros _. rewrite F. unfold g. field. lra.
      * rewrite F. nra.
      * rewrite F. nra.
Qed.
(** what the four stripes look like *)
Definition stripe_value normal (m : img Q) start size s ty (out : img Q) :=
  nrow out = nrow m /\ ncol out = ncol m /\
  (forall i j, in_rng (nrow m) i -> in_rng (ncol m) j -> ~ (start <= j < start + size) -> px out i j = px m i j) /\
  (forall j, start <= j < start + size ->
    match ty with
    | FullOrOther => forall i, in_rng (nrow m) i -> (px out i j == (1 - s) * px m i j)%Q
    | Dead => forall i, in_rng (nrow m) i -> (px out i j == s * img_max m)%Q
    | Fluctuating => forall i, in_rng (nrow m) i -> (px out i j == px m i j + normal 0 (nonzero_mean m * s) i (j - start)%Z)%Q
    | Partial => exists rank, ranking m j rank /\
        forall k, in_rng (nrow m) k -> px out (rank k) j = (px m (rank k) j * partial_ratio s (nrow m) k)%Q
    end).
Section stripe.
Context (asort : argsort_fn) (Hs : forall v, is_argsort v (asort v)) (normal : Q -> Q -> Z -> Z -> Q).
Lemma stripe_spec m size pos str ty :
  1 <= nrow m -> 1 <= size < ncol m ->
  (ty = Fluctuating -> (0 <= nonzero_mean m * clipQ str 0 1)%Q) ->
  exists c, add_stripe_artifact asort normal m size pos str ty = Ok c /\ caller c = m /\
    stripe_value normal m (clipZ pos 0 (ncol m - size - 1)) size (clipQ str 0 1) ty (returned c).
Proof using Hs.
  intros Hr Hz Hf. unfold add_stripe_artifact. cbv zeta. cbn [ncol nrow].
  set (own := mkimg (nrow m) (ncol m) (px m)).
  assert (St := start_clip (ncol m) size pos Hz). set (p := clipZ pos 0 (ncol m - size - 1)) in *.
  destruct St as (P1 & _).
  destruct (strength_clip str) as (_ & S1). set (s := clipQ str 0 1) in *.
  set (st := islice own 0 (nrow m) p (p + size)).
  assert (N : nrow st = nrow m) by (unfold st, own; cbn; rewrite slen_id; lia).
  assert (C : ncol st = size) by (unfold st, own; cbn; rewrite slen_id; lia).
  assert (X : forall i j, px st i j = px m i (p + j)).
  { intros i j. unfold st, own. cbn [px islice ncol nrow]. rewrite !py_adj_id by lia. f_equal; lia. }
  assert (T : forall r ratio, ncol r = size -> times_tiled r size ratio = Ok (mkimg (nrow r) (ncol r) (fun i j => px r i j * ratio i)%Q)).
  { intros r ratio E. unfold times_tiled. replace (size <? 0) with false by lia. replace (ncol r =? size) with true by lia. reflexivity. }
  assert (W : forall g (V : img Q -> Prop), ncol g = size ->
     (forall out, nrow out = nrow m -> ncol out = ncol m ->
        (forall i j, px out i j = if (p <=? j) && (j <? p + size) then px g i (j - p) else px m i j) -> V out) ->
     exists c, (do g' <- Ok g; do o <- set_cols assign own p (p + size) g'; Ok (mkcall o m)) = Ok c /\ caller c = m /\ V (returned c)).
  { intros g V E H. cbn [bindr].
    destruct (set_cols_ok assign own p (p + size) g) as (out & O1 & O2 & O3 & O4); try (unfold own; cbn; lia).
    rewrite O1. cbn [bindr]. exists (mkcall out m). split; [reflexivity|]. split; [reflexivity|]. cbn [returned]. apply H; auto. }
  assert (out_range : forall j, ~ (p <= j < p + size) -> (p <=? j) && (j <? p + size) = false) by (intros; lia).
  assert (in_range : forall j, p <= j < p + size -> (p <=? j) && (j <? p + size) = true) by (intros; lia).
  destruct ty.
  - destruct (sort_forward asort st 0) as [g x] eqn:E.
    destruct (sorted_columns_forward asort Hs st) as (rank & (G1 & G2 & G3) & G4). rewrite E in *. cbn [fst snd] in *.
    rewrite T by lia. cbn [bindr].
    set (t := mkimg (nrow g) (ncol g) _).
    apply (W (sort_backward asort t x 0)); [cbn; lia|].
    intros out O1 O2 O3. split; [exact O1|]. split; [exact O2|]. split.
    { intros i j _ _ H. rewrite O3, out_range by exact H. reflexivity. }
    intros j Hj. destruct (G3 (j - p)) as (R1 & R2 & R3); [unfold in_rng; lia|].
    rewrite N in *. exists (rank (j - p)). split.
    + split; [intros k Hk; apply (R1 k Hk)|]. split; [exact R2|]. intros a b A1 A2 A3.
      specialize (R3 a b A1 A2 A3). destruct (R1 a ltac:(unfold in_rng; lia)) as (_ & Ea). destruct (R1 b ltac:(unfold in_rng; lia)) as (_ & Eb).
      rewrite Ea, Eb, !X in R3. replace (p + (j - p)) with j in R3 by lia. exact R3.
    + intros k Hk. rewrite O3, in_range by exact Hj.
      rewrite (G4 t) by (unfold t; cbn [nrow ncol]; solve [lia | unfold in_rng; lia | assumption]).
      unfold t. cbn [px]. destruct (R1 k Hk) as (_ & Ek). rewrite Ek, X. replace (p + (j - p)) with j by lia. reflexivity.
  - replace ((nrow m <=? 0) || (ncol m <=? 0)) with false by lia.
    apply W; [cbn [ncol imap]; exact C|].
    intros out O1 O2 O3. split; [exact O1|]. split; [exact O2|]. split.
    { intros i j _ _ H. rewrite O3, out_range by exact H. reflexivity. }
    intros j Hj i Hi. rewrite O3, in_range by exact Hj. cbn [px imap].
    change (img_max own) with (img_max m). ring.
  - change (nonzero_mean own) with (nonzero_mean m). specialize (Hf eq_refl).
    replace (Qltb (nonzero_mean m * s) 0) with false.
    2:{ symmetry. destruct (Qltb (nonzero_mean m * s) 0) eqn:L; [|reflexivity]. apply Qltb_lt in L. lra. }
    apply W; [exact C|].
    intros out O1 O2 O3. split; [exact O1|]. split; [exact O2|]. split.
    { intros i j _ _ H. rewrite O3, out_range by exact H. reflexivity. }
    intros j Hj i Hi. rewrite O3, in_range by exact Hj. cbn [px]. rewrite X. replace (p + (j - p)) with j by lia. reflexivity.
  - rewrite T by exact C.
    apply W; [exact C|].
    intros out O1 O2 O3. split; [exact O1|]. split; [exact O2|]. split.
    { intros i j _ _ H. rewrite O3, out_range by exact H. reflexivity. }
    intros j Hj i Hi. rewrite O3, in_range by exact Hj. cbn [px]. rewrite X. replace (p + (j - p)) with j by lia. ring.
Qed.
End stripe.
Lemma qsum_nonneg n f : (forall k, in_rng n k -> (0 <= f k)%Q) -> (0 <= qsum n f)%Q.
Proof.
  intros H. destruct (Z.leb_spec n 0).
  - unfold qsum. replace (Z.to_nat n) with 0%nat by lia. cbn. lra.
  - assert (E : (qsum n (fun _ => 0) <= qsum n f)%Q) by (apply qsum_le; exact H). rewrite qsum_const in E by lia. lra.
Qed.
Lemma qsum_pos n f k : in_rng n k -> (forall k, in_rng n k -> (0 <= f k)%Q) -> (0 < f k)%Q -> (0 < qsum n f)%Q.
Proof.
  intros Hk H P.
  assert (E : (qsum n (fun i => if (i =? k)%Z then f k else 0) <= qsum n f)%Q).
  { apply qsum_le. intros i Hi. destruct (i =? k)%Z eqn:E; [replace i with k by lia; lra|apply H, Hi]. }
  rewrite (qsum_pick n k (fun _ => f k) Hk) in E. lra.
Qed.
Lemma count_pos m : some_nonzero_pixel m -> (0 < nonzero_count m)%Q.
Proof.
  intros (i & j & Hi & Hj & N). unfold nonzero_count, qsum2.
  set (f := fun i j => if Qeq_bool (px m i j) 0 then 0%Q else 1%Q).
  assert (P : forall i j, (0 <= f i j)%Q) by (intros a b; unfold f; destruct (Qeq_bool (px m a b) 0); lra).
  apply (qsum_pos _ _ i Hi).
  - intros a Ha. apply qsum_nonneg. intros; apply P.
  - apply (qsum_pos _ _ j Hj); [intros; apply P|]. unfold f. destruct (Qeq_bool (px m i j) 0) eqn:E; [|lra]. apply Qeq_bool_iff in E. contradiction.
Qed.
Lemma deviation_nonneg m s : no_negative_pixel m -> (0 <= s)%Q -> (0 <= nonzero_mean m * s)%Q.
Proof.
  intros H S. unfold nonzero_mean. apply Qmult_le_0_compat; [|exact S].
  assert (A : (0 <= qsum2 (nrow m) (ncol m) (px m))%Q).
  { unfold qsum2. apply qsum_nonneg. intros i Hi. apply qsum_nonneg. intros j Hj. apply H; assumption. }
  assert (B : (0 <= nonzero_count m)%Q).
  { unfold nonzero_count, qsum2. apply qsum_nonneg. intros i Hi. apply qsum_nonneg. intros j Hj. destruct (Qeq_bool (px m i j) 0); lra. }
  unfold nonzero_count in B. unfold Qdiv. apply Qmult_le_0_compat; [exact A|]. apply Qinv_le_0_compat. exact B.
Qed.
(** a stripe that is as wide as the sinogram *)
Lemma too_wide_slice (m : img Q) p size : 0 <= ncol m <= size -> p = ncol m - size - 1 -> 2 <= size ->
  let w := slen (ncol m) p (p + size) in w < size.
Proof. intros H -> H2. unfold slen, py_adj. destruct (ncol m - size - 1 <? 0) eqn:E1; destruct (ncol m - size - 1 + size <? 0) eqn:E2; lia. Qed.
Lemma too_wide asort normal m size pos str ty : 0 <= nrow m -> 0 <= ncol m <= size -> 2 <= size -> ty = FullOrOther \/ ty = Partial ->
  add_stripe_artifact asort normal m size pos str ty = Err ValueError.
Proof.
  intros R0 C0 Z2 Hty. unfold add_stripe_artifact. cbv zeta. cbn [ncol nrow].
  set (own := mkimg (nrow m) (ncol m) (px m)).
  assert (P : clipZ pos 0 (ncol m - size - 1) = ncol m - size - 1) by (unfold clipZ; lia). rewrite P. clear P.
  set (p := ncol m - size - 1). set (s := clipQ str 0 1).
  assert (L := too_wide_slice m p size C0 eq_refl Z2). cbv zeta in L.
  set (st := islice own 0 (nrow m) p (p + size)).
  assert (W : ncol st = slen (ncol m) p (p + size)) by reflexivity.
  assert (T : forall r ratio, ncol r = ncol st -> times_tiled r size ratio = Err ValueError \/
     exists t, times_tiled r size ratio = Ok t /\ ncol t = size).
  { intros r ratio E. unfold times_tiled. replace (size <? 0) with false by lia.
    replace ((ncol r =? size) || (size =? 1)) with false by lia.
    destruct (ncol r =? 1); [right; eexists; split; reflexivity|left; reflexivity]. }
  assert (A : forall g, ncol g = size -> set_cols assign own p (p + size) g = Err ValueError).
  { intros g E. unfold set_cols. change (ncol own) with (ncol m). rewrite E.
    replace ((slen (ncol m) p (p + size) =? size) || (size =? 1)) with false by lia. reflexivity. }
  destruct Hty as [-> | ->].
  - destruct (T st (fun _ => (1 - s) * 1)%Q eq_refl) as [-> | (t & -> & E)]; [reflexivity|]. cbn [bindr]. rewrite A by exact E. reflexivity.
  - destruct (sort_forward asort st 0) as [g x] eqn:E.
    assert (G : ncol g = ncol st) by (replace g with (fst (sort_forward asort st 0)) by (rewrite E; reflexivity); reflexivity).
    destruct (T g (partial_ratio s (nrow m)) G) as [-> | (t & -> & Et)]; [reflexivity|]. cbn [bindr]. rewrite A by (cbn; exact Et). reflexivity.
Qed.
(** a dead stripe exactly as wide as the sinogram is not added *)
Lemma dead_full_width asort normal m pos str : 1 <= nrow m -> 1 <= ncol m ->
  exists c, add_stripe_artifact asort normal m (ncol m) pos str Dead = Ok c /\ caller c = m /\ img_eq (returned c) m.
Proof.
  intros R0 C0. unfold add_stripe_artifact. cbv zeta. cbn [ncol nrow].
  set (own := mkimg (nrow m) (ncol m) (px m)).
  assert (P : clipZ pos 0 (ncol m - ncol m - 1) = -1) by (unfold clipZ; lia). rewrite P. clear P.
  replace ((nrow m <=? 0) || (ncol m <=? 0)) with false by lia. cbn [bindr].
  assert (W : slen (ncol m) (-1) (-1 + ncol m) = 0).
  { unfold slen, py_adj. replace (-1 <? 0) with true by lia. destruct (-1 + ncol m <? 0) eqn:E; lia. }
  unfold set_cols. cbn [ncol imap islice nrow]. change (ncol own) with (ncol m). rewrite W. cbn [Z.eqb orb]. cbn [bindr].
  eexists. split; [reflexivity|]. split; [reflexivity|]. cbn [returned]. split; [reflexivity|]. split; [reflexivity|].
  intros i j Hi Hj. cbn [px]. match goal with |- context [if ?b then _ else _] => replace b with false by lia end. reflexivity.
Qed.
Lemma weak_ratio s n k : (0 <= s <= 1)%Q -> (s * inject_Z n <= 1)%Q -> 0 <= k < n -> (partial_ratio s n k == 1)%Q.
Proof.
  intros Hs Hw Hk. destruct (ratio_fade s n k Hs Hk) as ((F & _) & _). apply F.
  assert (n - 1 <= Qfloor ((1 - s) * inject_Z n)); [|lia].
  rewrite <- (Qfloor_Z (n - 1)). apply Qfloor_resp_le. unfold Z.sub. rewrite inject_Z_plus. change (inject_Z (-(1))) with (- (1))%Q. lra.
Qed.
