(** Proofs about maps of local shifts: windows, chunks. *)
From Coq Require Import Reals Lra ZArith Lia Permutation FunctionalExtensionality.
From Verif Require Import Np P_Np M_phase_R P_phase_R M_corr S_corr P_corr P_corr2 P_corr3 P_corr4 M_local S_local.
From Coq Require Import List. Import ListNotations.
Open Scope Z_scope.

(** ** chunks *)
Lemma over_chunks_ok {A} (step : A -> Z -> Z -> res A) base (Inv : Z -> A -> Prop) sizes : forall start s,
  Forall (fun n => 0 < n) sizes -> Inv start s ->
  (forall p len s, start <= p -> 0 < len -> p + len <= start + fold_right Z.add 0 sizes -> Inv p s ->
     exists s', step s (base + p) (base + p + len) = Ok s' /\ Inv (p + len) s') ->
  exists s', over_chunks step base (split_from start sizes) s = Ok s' /\ Inv (start + fold_right Z.add 0 sizes) s'.
Proof.
  induction sizes as [|n sizes IH]; intros start s P I St; cbn [split_from over_chunks fold_right] in *.
  - exists s. split; [reflexivity|]. rewrite Z.add_0_r. exact I.
  - inversion_clear P. destruct (Z.eqb_spec n 0); [lia|].
    assert (Nn : 0 <= fold_right Z.add 0 sizes). { clear -H0. induction sizes; cbn; [lia|]. inversion_clear H0. specialize (IHsizes H1). lia. }
    destruct (St start n s) as (s1 & E1 & I1); [lia..|exact I|]. rewrite E1. cbn [bindr].
    destruct (IH (start + n) s1) as (s' & E' & I'); [assumption|exact I1| |].
    { intros p len s2 H1 H2 H3 H4. apply St; [lia..|exact H4]. }
    exists s'. split; [exact E'|]. rewrite Z.add_assoc. exact I'.
Qed.
Lemma over_chunks_empty {A} (step : A -> Z -> Z -> res A) base (Inv : Z -> A -> Prop) l1 l2 : forall start s,
  Forall (fun n => 0 < n) l1 -> Inv start s ->
  (forall p len s, start <= p -> 0 < len -> p + len <= start + fold_right Z.add 0 l1 -> Inv p s ->
     exists s', step s (base + p) (base + p + len) = Ok s' /\ Inv (p + len) s') ->
  over_chunks step base (split_from start (l1 ++ 0 :: l2)) s = Err IndexError.
Proof.
  induction l1 as [|n l1 IH]; intros start s P I St; cbn [app split_from over_chunks fold_right] in *; [reflexivity|].
  inversion_clear P. destruct (Z.eqb_spec n 0); [lia|].
  assert (Nn : 0 <= fold_right Z.add 0 l1). { clear -H0. induction l1; cbn; [lia|]. inversion_clear H0. specialize (IHl1 H1). lia. }
  destruct (St start n s) as (s1 & E1 & I1); [lia..|exact I|]. rewrite E1. cbn [bindr].
  apply IH; [assumption|exact I1|]. intros p len s2 H1 H2 H3 H4. apply St; [lia..|exact H4].
Qed.
Lemma split_sizes_pos n k : 0 < k -> k <= n -> Forall (fun s => 0 < s) (split_sizes n k).
Proof.
  intros K N. assert (1 <= n / k) by (apply Z.div_le_lower_bound; lia).
  unfold split_sizes. apply Forall_app. split; apply Forall_forall; intros x Hx; apply repeat_spec in Hx; lia.
Qed.
Lemma split_sizes_empty n k : 0 <= n < k -> exists l1 l2, split_sizes n k = l1 ++ 0 :: l2 /\ Forall (fun s => 0 < s) l1 /\ fold_right Z.add 0 l1 = n.
Proof.
  intros H. unfold split_sizes. rewrite Z.div_small, Z.mod_small by lia.
  exists (repeat (0 + 1) (Z.to_nat n)), (repeat 0 (Z.to_nat (k - n) - 1)). split; [|split].
  - f_equal. replace (Z.to_nat (k - n)) with (S (Z.to_nat (k - n) - 1)) at 1 by lia. reflexivity.
  - apply Forall_forall. intros x Hx. apply repeat_spec in Hx. lia.
  - rewrite fold_add_repeat. lia.
Qed.
Lemma num_chunk_pieces h c : 1 <= h -> num_chunk_of h c = pieces h c /\ 1 <= pieces h c.
Proof.
  intros H. unfold num_chunk_of, pieces, clipZ. destruct c as [c|].
  - assert (0 <= h / Z.min (Z.max c 1) h) by (apply Z.div_pos; lia). lia.
  - rewrite Z.div_small by lia. lia.
Qed.

(** ** windows *)
Lemma full_len n : 0 <= n -> slen n 0 n = n.
Proof. intros. replace n with (0 + n) at 2 by lia. apply slice_len; lia. Qed.
Lemma square_patch d i j r : 0 <= r -> 0 <= i - r -> i + r < height d -> 0 <= j - r -> j + r < width d -> square d i j r = patch d i j r.
Proof.
  intros R0 I0 I1 J0 J1. unfold square, patch, dslice. destruct d as [m|v]; cbn [height width] in *.
  - unfold islice. replace (i + (r + 1)) with (i - r + (2 * r + 1)) by lia. replace (j + (r + 1)) with (j - r + (2 * r + 1)) by lia.
    rewrite !slice_len, !slice_at by lia. reflexivity.
  - unfold wslice. replace (i + (r + 1)) with (i - r + (2 * r + 1)) by lia. replace (j + (r + 1)) with (j - r + (2 * r + 1)) by lia.
    rewrite !slice_len, !slice_at by lia. reflexivity.
Qed.
Lemma square_rows d b e i j r : 0 <= b -> b <= e -> e <= height d -> 0 <= r -> 0 <= i - r -> b + i + r < e -> 0 <= j - r -> j + r < width d ->
  square (dslice d b e 0 (width d)) i j r = patch d (b + i) j r.
Proof.
  intros B E0 E1 R0 I0 I1 J0 J1. destruct (dslice_shape d b e 0 (width d)) as (Sh & Sw & _).
  replace e with (b + (e - b)) in Sh by lia. rewrite slice_len in Sh by lia.
  replace (b + (e - b)) with e in Sh by lia. rewrite full_len in Sw by lia.
  rewrite square_patch by lia.
  destruct d as [m|v]; cbn [dslice patch]; f_equal.
  - unfold islice. cbn [px]. f_equal. apply functional_extensionality. intros x. apply functional_extensionality. intros y.
    cbn [height width] in *. rewrite !slice_at by lia. f_equal; lia.
  - unfold wslice. cbn [vx dep]. f_equal. apply functional_extensionality. intros k. apply functional_extensionality. intros x. apply functional_extensionality. intros y.
    cbn [height width] in *. rewrite !slice_at by lia. f_equal; lia.
Qed.
Lemma patch_shape d i j r : height (patch d i j r) = 2 * r + 1 /\ width (patch d i j r) = 2 * r + 1 /\ depth (patch d i j r) = depth d.
Proof. destruct d; repeat split. Qed.
Lemma patch_kind a b i j i' j' r s : same_kind a b -> same_kind (patch a i j r) (patch b i' j' s).
Proof. destruct a, b; cbn; auto. Qed.
Lemma patch_window d i j r a b h w : window (patch d i j r) a b h w = window d (i - r + a) (j - r + b) h w.
Proof.
  unfold window. rewrite (proj2 (proj2 (patch_shape d i j r))). apply flat_map_ext_in. intros k _. apply flat_map_ext_in. intros x _.
  apply map_ext. intros y. destruct d; cbn [value patch px vx]; f_equal; lia.
Qed.
Lemma patch_fits ref mat i j r m : same_kind ref mat -> 1 <= depth mat -> 0 <= r -> 0 <= m -> fits (patch ref i j (r + m)) (patch mat i j r).
Proof.
  intros K D R0 M. unfold fits. destruct (patch_shape ref i j (r + m)) as (-> & -> & _). destruct (patch_shape mat i j r) as (-> & -> & ->).
  split; [apply patch_kind; exact K|lia].
Qed.
Lemma normalize_shape b d : height (normalize_if b d) = height d /\ width (normalize_if b d) = width d /\ depth (normalize_if b d) = depth d.
Proof. destruct b, d; repeat split. Qed.
Lemma normalize_kind b c a a' : same_kind a a' -> same_kind (normalize_if b a) (normalize_if c a').
Proof. destruct b, c, a, a'; cbn; auto. Qed.
Lemma same_shape_spec a b : same_shape a b = true <-> same_size a b.
Proof.
  unfold same_shape, same_size. destruct a as [m|v], b as [n|w]; cbn.
  - rewrite Bool.andb_true_iff, !Z.eqb_eq. tauto.
  - split; [discriminate|tauto].
  - split; [discriminate|tauto].
  - rewrite !Bool.andb_true_iff, !Z.eqb_eq. tauto.
Qed.
Lemma dslice_same a b s e l r : same_size a b -> same_size (dslice a s e l r) (dslice b s e l r).
Proof.
  intros (K & H & W). split; [|split].
  - destruct a, b; cbn in *; auto.
  - rewrite (proj1 (dslice_shape a s e l r)), (proj1 (dslice_shape b s e l r)), H. reflexivity.
  - rewrite (proj1 (proj2 (dslice_shape a s e l r))), (proj1 (proj2 (dslice_shape b s e l r))), W. reflexivity.
Qed.

(** ** storing the rows of a chunk *)
Lemma store_block_ok m b e l r c : 0 <= b -> b <= e -> e <= nrow m -> 0 <= l -> slen (ncol m) l r = ncol c -> l <= ncol m -> nrow c = e - b ->
  exists m', store_block m b e l r c = Ok m' /\ nrow m' = nrow m /\ ncol m' = ncol m /\
    forall i j, px m' i j = if (b <=? i) && (i <? e) && (l <=? j) && (j <? l + ncol c) then px c (i - b) (j - l) else px m i j.
Proof.
  intros B0 B1 B2 L0 L1 L2 N. unfold store_block.
  assert (SL : slen (nrow m) b e = e - b) by (replace e with (b + (e - b)) at 1 by lia; apply slice_len; lia). rewrite SL, N, L1, !Z.eqb_refl. cbn [andb].
  eexists. split; [reflexivity|]. cbn [nrow ncol px]. split; [reflexivity|]. split; [reflexivity|]. intros i j. rewrite !slice_at by lia.
  replace (b + (e - b)) with e by lia. reflexivity.
Qed.
