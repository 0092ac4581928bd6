(** Proofs about the automatic threshold. *)
From Coq Require Import Reals Lra ZArith Lia Bool List Permutation Sorted. Import ListNotations.
From Verif Require Import Np P_Np M_phase_R P_phase_R P_simR P_unwrap5 P_calib5 M_corr M_global M_calib M_threshold S_threshold.
Open Scope Z_scope.

(** ** best approximation by combinations of functions *)
Definition dot (n : Z) (f g : Z -> R) : R := rsum n (fun k => f k * g k)%R.
Fixpoint comb (cs : list R) (bs : list (Z -> R)) (k : Z) : R :=
  match cs, bs with c :: cs', b :: bs' => (c * b k + comb cs' bs' k)%R | _, _ => 0%R end.
Fixpoint less (cs es : list R) (t : R) : list R := match cs, es with c :: cs', e :: es' => (c - t * e)%R :: less cs' es' t | _, _ => [] end.
Lemma less_length (bs : list (Z -> R)) : forall cs es t, length cs = length bs -> length es = length bs -> length (less cs es t) = length bs.
Proof. induction bs as [|b bs IH]; intros [|c cs] [|e es] t H1 H2; try discriminate; [reflexivity|]. cbn [less length]. f_equal. apply IH; [injection H1|injection H2]; auto. Qed.
Lemma comb_less (bs : list (Z -> R)) : forall cs es t k, length cs = length bs -> length es = length bs -> comb (less cs es t) bs k = (comb cs bs k - t * comb es bs k)%R.
Proof.
  induction bs as [|b bs IH]; intros [|c cs] [|e es] t k H1 H2; try discriminate; [cbn; ring|]. cbn [less comb]. rewrite IH by (injection H1; injection H2; auto). ring.
Qed.
Lemma dot_sub_l n f g h : dot n (fun k => f k - g k)%R h = (dot n f h - dot n g h)%R.
Proof. unfold dot. rewrite <- rsum_sub. apply rsum_ext. intros; ring. Qed.
Lemma dot_scal_l n t f h : dot n (fun k => t * f k)%R h = (t * dot n f h)%R.
Proof. unfold dot. rewrite <- rsum_scal. apply rsum_ext. intros; ring. Qed.
Lemma dot_comb n f (bs : list (Z -> R)) : (forall b, In b bs -> dot n f b = 0%R) -> forall cs, dot n f (comb cs bs) = 0%R.
Proof.
  induction bs as [|b bs IH]; intros H cs.
  - unfold dot. transitivity (rsum n (fun _ => 0%R)); [|apply rsum_zero]. apply rsum_ext. intros. destruct cs; cbn; ring.
  - destruct cs as [|c cs]; [unfold dot; transitivity (rsum n (fun _ => 0%R)); [|apply rsum_zero]; apply rsum_ext; intros; cbn; ring|].
    assert (E := IH (fun x Hx => H x (or_intror Hx)) cs). assert (F := H b (or_introl eq_refl)). unfold dot in *. cbn [comb].
    transitivity (rsum n (fun k => c * (f k * b k) + f k * comb cs bs k)%R); [apply rsum_ext; intros; ring|]. rewrite rsum_add, rsum_scal, E, F. ring.
Qed.
Lemma dot_ext n f f' g g' : (forall k, 0 <= k < n -> f k = f' k) -> (forall k, 0 <= k < n -> g k = g' k) -> dot n f g = dot n f' g'.
Proof. intros H1 H2. unfold dot. apply rsum_ext. intros k Hk. rewrite H1, H2 by exact Hk. reflexivity. Qed.
Lemma projection n (bs : list (Z -> R)) : forall v : Z -> R, {cs | length cs = length bs /\ forall b, In b bs -> dot n (fun k => v k - comb cs bs k)%R b = 0%R}.
Proof.
  induction bs as [|b bs IH]; intros v; [exists []; split; [reflexivity|intros b []]|].
  destruct (IH v) as (cs & L1 & C). destruct (IH b) as (es & L2 & E). set (g := fun k => (b k - comb es bs k)%R) in *. set (r := fun k => (v k - comb cs bs k)%R) in *.
  set (t := if Req_EM_T (dot n g g) 0 then 0%R else (dot n r g / dot n g g)%R).
  exists (t :: less cs es t). split; [cbn [length]; f_equal; apply less_length; assumption|].
  assert (Ex : forall k, (v k - comb (t :: less cs es t) (b :: bs) k = r k - t * g k)%R) by (intros k; cbn [comb]; rewrite comb_less by assumption; unfold r, g; ring).
  assert (Eq : forall h, dot n (fun k => v k - comb (t :: less cs es t) (b :: bs) k)%R h = (dot n r h - t * dot n g h)%R).
  { intros h. rewrite (dot_ext n _ (fun k => r k - t * g k)%R h h) by (intros; auto). rewrite (dot_sub_l n r (fun k => t * g k)%R), dot_scal_l. reflexivity. }
  assert (Gr : (dot n r g - t * dot n g g = 0)%R).
  { unfold t. destruct (Req_EM_T (dot n g g) 0) as [Z|NZ]; [|field; exact NZ]. enough (dot n r g = 0%R) by lra.
    transitivity (rsum n (fun _ => 0%R)); [|apply rsum_zero]. apply rsum_ext. intros k Hk. enough (g k = 0%R) by nra.
    assert (T := rsum_term n (fun k => g k * g k)%R k ltac:(intros; nra) Hk). unfold dot in Z. rewrite Z in T. cbv beta in T. nra. }
  intros x [<-|Hx].
  - rewrite Eq. assert (Hb : forall f, (forall y, In y bs -> dot n f y = 0%R) -> dot n f b = dot n f g).
    { intros f Hf. assert (D := dot_comb n f bs Hf es). unfold dot in *. transitivity (rsum n (fun k => f k * g k + f k * comb es bs k)%R); [apply rsum_ext; intros; unfold g; ring|]. rewrite rsum_add, D. ring. }
    rewrite (Hb r C), (Hb g E). exact Gr.
  - rewrite Eq, (C x Hx), (E x Hx). ring.
Qed.
Definition powers : list (Z -> R) := [(fun _ => 1%R); (fun k => IZR k); (fun k => (IZR k ^ 2)%R); (fun k => (IZR k ^ 3)%R)].
Lemma comb_powers c0 c1 c2 c3 k : comb [c0; c1; c2; c3] powers k = cubic c0 c1 c2 c3 (IZR k).
Proof. unfold powers, cubic. cbn [comb]. ring. Qed.
Lemma best_cubic_exists v : {c | best_cubic v c}.
Proof.
  destruct (projection (vlen v) powers (vat v)) as (cs & L & C). destruct cs as [|c0 [|c1 [|c2 [|c3 [|? ?] ] ] ] ]; try discriminate.
  exists [c0; c1; c2; c3]. exists c0, c1, c2, c3. split; [reflexivity|]. intros d0 d1 d2 d3.
  assert (D : forall es, dot (vlen v) (fun k => vat v k - comb [c0; c1; c2; c3] powers k)%R (comb es powers) = 0%R) by (intros es; apply dot_comb, C).
  specialize (D [(c0 - d0)%R; (c1 - d1)%R; (c2 - d2)%R; (c3 - d3)%R]). unfold dot in D.
  assert (E : rsum (vlen v) (fun k => (vat v k - cubic d0 d1 d2 d3 (IZR k)) ^ 2)%R =
    (rsum (vlen v) (fun k => (vat v k - cubic c0 c1 c2 c3 (IZR k)) ^ 2) + rsum (vlen v) (fun k => (cubic c0 c1 c2 c3 (IZR k) - cubic d0 d1 d2 d3 (IZR k)) ^ 2) +
     2 * rsum (vlen v) (fun k => (vat v k - comb [c0; c1; c2; c3] powers k) * comb [(c0 - d0); (c1 - d1); (c2 - d2); (c3 - d3)] powers k))%R).
  { rewrite <- rsum_scal, <- !rsum_add. apply rsum_ext. intros k _. rewrite !comb_powers. unfold cubic. ring. }
  rewrite E, D. assert (N := rsum_le (vlen v) (fun _ => 0%R) (fun k => (cubic c0 c1 c2 c3 (IZR k) - cubic d0 d1 d2 d3 (IZR k)) ^ 2)%R). rewrite rsum_zero in N.
  enough (0 <= rsum (vlen v) (fun k => (cubic c0 c1 c2 c3 (IZR k) - cubic d0 d1 d2 d3 (IZR k)) ^ 2))%R by lra. apply N. intros k _. apply pow2_ge_0.
Qed.
(** ** uniqueness at the places of the values, changes of brightness, the other direction *)
Lemma cubic_at_is c0 c1 c2 c3 x : cubic_at [c0; c1; c2; c3] x = cubic c0 c1 c2 c3 x.
Proof. reflexivity. Qed.
Lemma best_unique v w c d k : best_cubic v c -> best_cubic w d -> vlen w = vlen v -> (forall i, in_rng (vlen v) i -> vat w i = vat v i) -> in_rng (vlen v) k ->
  cubic_at c (IZR k) = cubic_at d (IZR k).
Proof.
  intros (c0 & c1 & c2 & c3 & -> & C) (d0 & d1 & d2 & d3 & -> & D) EL Ew Hk. rewrite !cubic_at_is. rewrite EL in D.
  set (P := fun i => cubic c0 c1 c2 c3 (IZR i)). set (Q := fun i => cubic d0 d1 d2 d3 (IZR i)).
  specialize (C ((c0 + d0) / 2) ((c1 + d1) / 2) ((c2 + d2) / 2) ((c3 + d3) / 2))%R. specialize (D ((c0 + d0) / 2) ((c1 + d1) / 2) ((c2 + d2) / 2) ((c3 + d3) / 2))%R.
  assert (D' : (rsum (vlen v) (fun i => (vat v i - Q i) ^ 2) <= rsum (vlen v) (fun k => (vat v k - cubic ((c0 + d0) / 2) ((c1 + d1) / 2) ((c2 + d2) / 2) ((c3 + d3) / 2) (IZR k)) ^ 2))%R).
  { rewrite (rsum_ext _ _ (fun i => (vat w i - cubic d0 d1 d2 d3 (IZR i)) ^ 2)%R) by (intros i Hi; unfold Q; rewrite Ew by exact Hi; reflexivity).
    rewrite (rsum_ext _ (fun k => (vat v k - _) ^ 2)%R (fun k => (vat w k - cubic ((c0 + d0) / 2) ((c1 + d1) / 2) ((c2 + d2) / 2) ((c3 + d3) / 2) (IZR k)) ^ 2)%R) by (intros i Hi; rewrite Ew by exact Hi; reflexivity). exact D. }
  clear D. assert (M : rsum (vlen v) (fun k => (vat v k - cubic ((c0 + d0) / 2) ((c1 + d1) / 2) ((c2 + d2) / 2) ((c3 + d3) / 2) (IZR k)) ^ 2)%R =
    (/ 2 * rsum (vlen v) (fun i => (vat v i - P i) ^ 2) + / 2 * rsum (vlen v) (fun i => (vat v i - Q i) ^ 2) - rsum (vlen v) (fun i => ((P i - Q i) / 2) ^ 2))%R).
  { rewrite <- !rsum_scal, <- rsum_add, <- rsum_sub. apply rsum_ext. intros i _. unfold P, Q, cubic. field. }
  rewrite M in C, D'. change (rsum (vlen v) (fun k => (vat v k - cubic c0 c1 c2 c3 (IZR k)) ^ 2)%R) with (rsum (vlen v) (fun i => (vat v i - P i) ^ 2)%R) in C.
  assert (T := rsum_term (vlen v) (fun i => ((P i - Q i) / 2) ^ 2)%R k ltac:(intros; apply pow2_ge_0) Hk). cbv beta in T.
  assert (Z : (((P k - Q k) / 2) ^ 2 <= 0)%R) by lra. assert (Z2 := pow2_ge_0 ((P k - Q k) / 2)). assert (Z3 : (((P k - Q k) / 2) ^ 2 = 0)%R) by lra.
  assert (Z4 : ((P k - Q k) / 2 = 0)%R) by (apply Rsqr_0_uniq; rewrite Rsqr_pow2; exact Z3). change (P k = Q k). lra.
Qed.
Lemma best_affine v w c a b : a <> 0%R -> best_cubic v c -> vlen w = vlen v -> (forall i, in_rng (vlen v) i -> vat w i = a * vat v i + b)%R ->
  exists d, best_cubic w d /\ forall x, cubic_at d x = (a * cubic_at c x + b)%R.
Proof.
  intros Ha (c0 & c1 & c2 & c3 & -> & C) EL Ew. exists [(a * c0 + b)%R; (a * c1)%R; (a * c2)%R; (a * c3)%R]. split.
  - exists (a * c0 + b)%R, (a * c1)%R, (a * c2)%R, (a * c3)%R. split; [reflexivity|]. intros d0 d1 d2 d3. rewrite EL. specialize (C ((d0 - b) / a) (d1 / a) (d2 / a) (d3 / a))%R.
    rewrite (rsum_ext _ _ (fun k => (a * a) * (vat v k - cubic c0 c1 c2 c3 (IZR k)) ^ 2)%R) by (intros k Hk; rewrite Ew by exact Hk; unfold cubic; ring).
    rewrite (rsum_ext _ (fun k => (vat w k - _) ^ 2)%R (fun k => (a * a) * (vat v k - cubic ((d0 - b) / a) (d1 / a) (d2 / a) (d3 / a) (IZR k)) ^ 2)%R) by (intros k Hk; rewrite Ew by exact Hk; unfold cubic; field; exact Ha).
    rewrite !rsum_scal. apply Rmult_le_compat_l; [nra|exact C].
  - intros x. rewrite !cubic_at_is. unfold cubic. ring.
Qed.
Lemma best_reverse v w c : 1 <= vlen v -> best_cubic v c -> vlen w = vlen v -> (forall i, in_rng (vlen v) i -> vat w i = vat v (vlen v - 1 - i)) ->
  exists d, best_cubic w d /\ forall x, cubic_at d x = cubic_at c (IZR (vlen v - 1) - x)%R.
Proof.
  intros Hn (c0 & c1 & c2 & c3 & -> & C) EL Ew. set (m := IZR (vlen v - 1)).
  assert (F : forall a0 a1 a2 a3 x, cubic (a0 + a1 * m + a2 * m ^ 2 + a3 * m ^ 3) (- (a1 + 2 * a2 * m + 3 * a3 * m ^ 2)) (a2 + 3 * a3 * m) (- a3) x = cubic a0 a1 a2 a3 (m - x)) by (intros; unfold cubic; ring).
  exists [(c0 + c1 * m + c2 * m ^ 2 + c3 * m ^ 3)%R; (- (c1 + 2 * c2 * m + 3 * c3 * m ^ 2))%R; (c2 + 3 * c3 * m)%R; (- c3)%R]. split; [|intros x; rewrite !cubic_at_is; apply F].
  eexists _, _, _, _. split; [reflexivity|]. intros d0 d1 d2 d3. rewrite EL.
  assert (G : forall a0 a1 a2 a3, rsum (vlen v) (fun k => (vat w k - cubic a0 a1 a2 a3 (IZR k)) ^ 2)%R = rsum (vlen v) (fun k => (vat v k - cubic a0 a1 a2 a3 (m - IZR k)) ^ 2)%R).
  { intros. rewrite <- (rsum_rev (vlen v) (fun k => (vat v k - cubic a0 a1 a2 a3 (m - IZR k)) ^ 2)%R) by lia. apply rsum_ext. intros k Hk. rewrite Ew by exact Hk. f_equal. f_equal. f_equal. unfold m. rewrite !minus_IZR. ring. }
  rewrite !G. rewrite (rsum_ext _ _ (fun k => (vat v k - cubic c0 c1 c2 c3 (IZR k)) ^ 2)%R) by (intros k _; rewrite F; do 3 f_equal; ring).
  specialize (C (d0 + d1 * m + d2 * m ^ 2 + d3 * m ^ 3) (- (d1 + 2 * d2 * m + 3 * d3 * m ^ 2)) (d2 + 3 * d3 * m) (- d3))%R.
  rewrite (rsum_ext _ (fun k => (vat v k - cubic d0 d1 d2 d3 (m - IZR k)) ^ 2)%R (fun k => (vat v k - cubic (d0 + d1 * m + d2 * m ^ 2 + d3 * m ^ 3) (- (d1 + 2 * d2 * m + 3 * d3 * m ^ 2)) (d2 + 3 * d3 * m) (- d3) (IZR k)) ^ 2)%R) by (intros k _; rewrite F; reflexivity).
  exact C.
Qed.

(** ** sorting *)
Lemma rinsert_perm x l : Permutation (x :: l) (rinsert x l).
Proof. induction l as [|y l IH]; [reflexivity|]. cbn [rinsert]. destruct (Rltb y x); [|reflexivity]. rewrite perm_swap. apply perm_skip, IH. Qed.
Lemma rsort_perm l : Permutation l (rsort l).
Proof. induction l as [|x l IH]; [reflexivity|]. cbn [rsort fold_right]. fold (rsort l). rewrite <- rinsert_perm. apply perm_skip, IH. Qed.
Lemma rinsert_sorted x l : StronglySorted Rle l -> StronglySorted Rle (rinsert x l).
Proof.
  induction 1 as [|y l H IH F]; [repeat constructor|]. cbn [rinsert]. unfold Rltb. destruct (Rlt_dec y x) as [L|L].
  - constructor; [exact IH|]. rewrite Forall_forall in *. intros z Hz. apply (Permutation_in _ (Permutation_sym (rinsert_perm x l))) in Hz. destruct Hz as [<-|Hz]; [lra|apply F, Hz].
  - constructor; [constructor; assumption|]. constructor; [lra|]. rewrite Forall_forall in *. intros z Hz. specialize (F z Hz). lra.
Qed.
Lemma rsort_sorted l : StronglySorted Rle (rsort l).
Proof. induction l as [|x l IH]; [constructor|]. apply rinsert_sorted, IH. Qed.
Lemma rsorted_unique (l : list R) : forall l', StronglySorted Rle l -> StronglySorted Rle l' -> Permutation l l' -> l = l'.
Proof.
  induction l as [|a l IH]; intros l' H H' P; [apply Permutation_nil in P; symmetry; exact P|].
  destruct l' as [|b l']; [symmetry in P; apply Permutation_nil in P; discriminate|].
  inversion H as [|? ? H1 H2]; subst. inversion H' as [|? ? H1' H2']; subst. rewrite Forall_forall in H2, H2'.
  assert (E : a = b).
  { assert (A : In a (b :: l')) by (apply (Permutation_in _ P); left; reflexivity). assert (B : In b (a :: l)) by (apply (Permutation_in _ (Permutation_sym P)); left; reflexivity).
    destruct A as [A|A]; [symmetry; exact A|]. destruct B as [B|B]; [exact B|]. specialize (H2 _ B). specialize (H2' _ A). lra. }
  subst b. f_equal. apply IH; [assumption..|]. exact (Permutation_cons_inv P).
Qed.
Lemma rsort_same l l' : Permutation l l' -> rsort l = rsort l'.
Proof. intros P. apply rsorted_unique; [apply rsort_sorted..|]. rewrite <- !rsort_perm. exact P. Qed.
Lemma rsort_id l : StronglySorted Rle l -> rsort l = l.
Proof. intros H. apply rsorted_unique; [apply rsort_sorted|exact H|symmetry; apply rsort_perm]. Qed.
Lemma sorted_map (f : R -> R) l : (forall x y, (x <= y)%R -> (f x <= f y)%R) -> StronglySorted Rle l -> StronglySorted Rle (map f l).
Proof. intros Hf. induction 1 as [|x l H IH F]; [constructor|]. cbn [map]. constructor; [exact IH|]. rewrite Forall_forall in *. intros z Hz. apply in_map_iff in Hz. destruct Hz as (y & <- & Hy). apply Hf, F, Hy. Qed.
Lemma sorted_snoc l x : StronglySorted Rle l -> (forall y, In y l -> (y <= x)%R) -> StronglySorted Rle (l ++ [x]).
Proof.
  induction 1 as [|z l H IH F]; intros G; [repeat constructor|]. cbn [app]. constructor; [apply IH; intros y Hy; apply G; right; exact Hy|].
  rewrite Forall_forall in *. intros y Hy. apply in_app_iff in Hy. destruct Hy as [Hy|[<-|[] ] ]; [apply F, Hy|apply G; left; reflexivity].
Qed.
Lemma sorted_map_rev (f : R -> R) l : (forall x y, (x <= y)%R -> (f y <= f x)%R) -> StronglySorted Rle l -> StronglySorted Rle (map f (rev l)).
Proof.
  intros Hf. induction 1 as [|x l H IH F]; [constructor|]. cbn [rev]. rewrite map_app. cbn [map]. apply sorted_snoc; [exact IH|].
  rewrite Forall_forall in F. intros y Hy. apply in_map_iff in Hy. destruct Hy as (z & <- & Hz). apply in_rev in Hz. apply Hf, F, Hz.
Qed.
Lemma rsort_up a b l : (0 < a)%R -> rsort (map (fun x => a * x + b)%R l) = map (fun x => a * x + b)%R (rsort l).
Proof.
  intros Ha. apply rsorted_unique; [apply rsort_sorted|apply sorted_map; [intros x y L; nra|apply rsort_sorted]|]. rewrite <- rsort_perm. apply Permutation_map, rsort_perm.
Qed.
Lemma rsort_down a b l : (a < 0)%R -> rsort (map (fun x => a * x + b)%R l) = map (fun x => a * x + b)%R (rev (rsort l)).
Proof.
  intros Ha. apply rsorted_unique; [apply rsort_sorted|apply sorted_map_rev; [intros x y L; nra|apply rsort_sorted]|]. rewrite <- rsort_perm. apply Permutation_map. rewrite <- Permutation_rev. apply rsort_perm.
Qed.
Lemma flat_grid m : flat m = map (fun p => px m (fst p) (snd p)) (grid (nrow m) (ncol m)).
Proof.
  unfold flat, grid. induction (zrange 0 (nrow m)) as [|i l IH]; [reflexivity|]. cbn [flat_map]. rewrite map_app, <- IH, map_map. reflexivity.
Qed.
Lemma pixels_perm m l : pixels_are m l -> Permutation l (flat m).
Proof.
  intros (ps & N & I & ->). rewrite flat_grid. apply Permutation_map, same_members; [exact N|apply grid_NoDup|]. intros p. rewrite I, grid_In. reflexivity.
Qed.
Lemma pixels_flat m : pixels_are m (flat m).
Proof. exists (grid (nrow m) (ncol m)). split; [apply grid_NoDup|]. split; [intros p; apply grid_In|apply flat_grid]. Qed.
Lemma flat_map_img m m' f : nrow m' = nrow m -> ncol m' = ncol m -> (forall i j, in_rng (nrow m) i -> in_rng (ncol m) j -> px m' i j = f (px m i j)) -> flat m' = map f (flat m).
Proof.
  intros E1 E2 H. rewrite !flat_grid, map_map, E1, E2. apply map_ext_in. intros p Hp. apply grid_In in Hp. apply H; apply Hp.
Qed.
Lemma flat_length m : 0 <= nrow m -> 0 <= ncol m -> Z.of_nat (length (flat m)) = nrow m * ncol m.
Proof.
  intros Hh Hw. unfold flat. rewrite <- (Z2Nat.id (nrow m) Hh) at 2. rewrite <- (zrange_length 0 (nrow m)). induction (zrange 0 (nrow m)) as [|i l IH]; [reflexivity|].
  cbn [flat_map length]. rewrite app_length, map_length, zrange_length, Nat2Z.inj_add, IH. lia.
Qed.
Lemma vec_of_affine (f : R -> R) l k : in_rng (vlen (vec_of l)) k -> vat (vec_of (map f l)) k = f (vat (vec_of l) k).
Proof. unfold in_rng, vec_of. cbn [vlen vat]. intros H. rewrite (nth_indep _ 0%R (f 0%R)) by (rewrite map_length; lia). apply map_nth. Qed.
Lemma vec_of_rev l k : in_rng (vlen (vec_of l)) k -> vat (vec_of (rev l)) k = vat (vec_of l) (vlen (vec_of l) - 1 - k).
Proof. unfold in_rng, vec_of. cbn [vlen vat]. intros H. rewrite rev_nth by lia. f_equal. lia. Qed.

(** ** the threshold *)
Section Threshold.
Variables (zoom : vec R -> Z -> vec R) (polyfit3 : vec R -> list R).
Hypotheses (HZ : fair_zoom zoom) (HP : forall v, 4 <= vlen v -> best_cubic v (polyfit3 v)).
Definition size (m : img R) : Z := Z.max (nrow m) (ncol m).
Definition resampled (m : img R) : vec R := zoom (vec_of (rsort (flat m))) (size m).
Definition window (m : img R) : Z := 2 * (size m / 2) - 1.
Definition head_part (m : img R) : vec R := mkvec (window m) (vat (resampled m)).
Definition tail_part (m : img R) : vec R := mkvec (window m) (fun k => vat (resampled m) (size m - window m + k)).
Lemma window_range m : 6 <= size m -> 5 <= window m < size m.
Proof. unfold window. intros H. assert (D := Z.div_mod (size m) 2 ltac:(lia)). assert (B := Z.mod_pos_bound (size m) 2 ltac:(lia)). lia. Qed.
Lemma threshold_value m bright : 1 <= nrow m -> 1 <= ncol m -> 6 <= size m ->
  calculate_threshold zoom polyfit3 m bright = Ok (if bright then cubic_at (polyfit3 (head_part m)) 0 else cubic_at (polyfit3 (tail_part m)) (IZR (window m - 1))).
Proof using HZ.
  intros Hh Hw Hs. unfold calculate_threshold. fold (size m). fold (resampled m).
  assert (L : vlen (vec_of (rsort (flat m))) <> 0). { unfold vec_of. cbn [vlen]. rewrite <- (Permutation_length (rsort_perm (flat m))), flat_length by lia. apply Z.neq_mul_0. lia. }
  destruct (Z.eqb_spec (vlen (vec_of (rsort (flat m)))) 0) as [C|_]; [contradiction|].
  assert (E : vlen (resampled m) = size m) by (apply HZ; lia). rewrite E. fold (window m). assert (W := window_range m Hs). destruct (Z.leb_spec (window m) 3); [lia|]. destruct bright; reflexivity.
Qed.
Lemma threshold_small m bright : 1 <= nrow m -> 1 <= ncol m -> size m < 6 -> calculate_threshold zoom polyfit3 m bright = Err ValueError.
Proof using HZ.
  intros Hh Hw Hs. unfold calculate_threshold. fold (size m). fold (resampled m).
  assert (L : vlen (vec_of (rsort (flat m))) <> 0). { unfold vec_of. cbn [vlen]. rewrite <- (Permutation_length (rsort_perm (flat m))), flat_length by lia. apply Z.neq_mul_0. lia. }
  destruct (Z.eqb_spec (vlen (vec_of (rsort (flat m)))) 0) as [C|_]; [contradiction|].
  assert (Hs1 : 1 <= size m) by (unfold size; lia). assert (E : vlen (resampled m) = size m) by (apply HZ; exact Hs1). rewrite E. fold (window m).
  assert (D := Z.div_mod (size m) 2 ltac:(lia)). assert (B := Z.mod_pos_bound (size m) 2 ltac:(lia)). destruct (Z.leb_spec (window m) 3) as [_|X]; [reflexivity|]. unfold window in X. lia.
Qed.
Definition related (m m' : img R) (f : R -> R) : Prop := nrow m' = nrow m /\ ncol m' = ncol m /\ forall i j, in_rng (nrow m) i -> in_rng (ncol m) j -> px m' i j = f (px m i j).
Lemma related_size m m' f : related m m' f -> size m' = size m /\ window m' = window m.
Proof. intros (E1 & E2 & _). unfold window, size. rewrite E1, E2. auto. Qed.
Lemma pixels_some m : 1 <= nrow m -> 1 <= ncol m -> 1 <= vlen (vec_of (rsort (flat m))).
Proof. intros Hh Hw. unfold vec_of. cbn [vlen]. rewrite <- (Permutation_length (rsort_perm (flat m))), flat_length by lia. apply (Z.le_trans _ (1 * 1)); [lia|]. apply Z.mul_le_mono_nonneg; lia. Qed.
Lemma resampled_up m m' a b k : 1 <= nrow m -> 1 <= ncol m -> 6 <= size m -> (0 < a)%R -> related m m' (fun x => a * x + b)%R -> in_rng (size m) k -> vat (resampled m') k = (a * vat (resampled m) k + b)%R.
Proof using HZ.
  intros Hh Hw Hs Ha Hr Hk. assert (Hv := pixels_some m Hh Hw). destruct (related_size m m' _ Hr) as (S1 & _). destruct Hr as (E1 & E2 & E3). unfold resampled. rewrite S1, (flat_map_img m m' (fun x => a * x + b)%R E1 E2 E3), rsort_up by exact Ha.
  destruct HZ as (_ & A & _). apply A; [lia|exact Hv|unfold vec_of; cbn [vlen]; rewrite map_length; reflexivity| |exact Hk]. intros i Hi. apply (vec_of_affine (fun x => a * x + b)%R _ _ Hi).
Qed.
Lemma resampled_down m m' a b k : 1 <= nrow m -> 1 <= ncol m -> 6 <= size m -> (a < 0)%R -> related m m' (fun x => a * x + b)%R -> in_rng (size m) k -> vat (resampled m') k = (a * vat (resampled m) (size m - 1 - k) + b)%R.
Proof using HZ.
  intros Hh Hw Hs Ha Hr Hk. assert (Hv := pixels_some m Hh Hw). destruct (related_size m m' _ Hr) as (S1 & _). destruct Hr as (E1 & E2 & E3). unfold resampled. rewrite S1, (flat_map_img m m' (fun x => a * x + b)%R E1 E2 E3), rsort_down by exact Ha.
  destruct HZ as (_ & A & B & _). set (u := rsort (flat m)).
  rewrite (A (vec_of (rev u)) _ a b); [|lia|unfold u, vec_of in *; cbn [vlen] in *; rewrite rev_length; exact Hv|unfold vec_of; cbn [vlen]; rewrite map_length; reflexivity|intros i Hi; apply (vec_of_affine (fun x => a * x + b)%R _ _ Hi)|exact Hk].
  f_equal. f_equal. apply B; [lia|exact Hv|unfold vec_of; cbn [vlen]; rewrite rev_length; reflexivity| |exact Hk]. intros i Hi. apply vec_of_rev, Hi.
Qed.
Lemma threshold_up m m' a b bright : 1 <= nrow m -> 1 <= ncol m -> 6 <= size m -> (0 < a)%R -> related m m' (fun x => a * x + b)%R ->
  exists t, calculate_threshold zoom polyfit3 m bright = Ok t /\ calculate_threshold zoom polyfit3 m' bright = Ok (a * t + b)%R.
Proof using HZ HP.
  intros Hh Hw Hs Ha Hr. destruct (related_size m m' _ Hr) as (S1 & S2). assert (W := window_range m Hs). eexists. split; [apply threshold_value; assumption|].
  assert (Hr' := Hr). destruct Hr' as (E1 & E2 & _). rewrite threshold_value by lia. f_equal. rewrite S2.
  assert (G : forall v w k, vlen v = window m -> vlen w = window m -> (forall i, in_rng (window m) i -> vat w i = a * vat v i + b)%R -> in_rng (window m) k ->
    cubic_at (polyfit3 w) (IZR k) = (a * cubic_at (polyfit3 v) (IZR k) + b)%R).
  { intros v w k Lv Lw E Hk. destruct (best_affine v w (polyfit3 v) a b ltac:(lra) (HP v ltac:(lia)) ltac:(lia) ltac:(rewrite Lv; exact E)) as (d & D1 & D2). rewrite <- D2.
    symmetry. apply (best_unique w w); [exact D1|apply HP; lia|reflexivity|reflexivity|rewrite Lw; exact Hk]. }
  destruct bright.
  - change 0%R with (IZR 0). apply G; [reflexivity|unfold head_part; cbn [vlen]; exact S2| |unfold in_rng; lia]. intros i Hi. unfold head_part. cbn [vat]. apply resampled_up; [assumption..|unfold in_rng in *; lia].
  - apply G; [reflexivity|unfold tail_part; cbn [vlen]; exact S2| |unfold in_rng; lia]. intros i Hi. unfold tail_part. cbn [vat]. rewrite S1, S2. apply resampled_up; [assumption..|unfold in_rng in *; lia].
Qed.
Lemma threshold_down m m' a b bright : 1 <= nrow m -> 1 <= ncol m -> 6 <= size m -> (a < 0)%R -> related m m' (fun x => a * x + b)%R ->
  exists t, calculate_threshold zoom polyfit3 m (negb bright) = Ok t /\ calculate_threshold zoom polyfit3 m' bright = Ok (a * t + b)%R.
Proof using HZ HP.
  intros Hh Hw Hs Ha Hr. destruct (related_size m m' _ Hr) as (S1 & S2). assert (W := window_range m Hs). eexists. split; [apply threshold_value; assumption|].
  assert (Hr' := Hr). destruct Hr' as (E1 & E2 & _). rewrite threshold_value by lia. f_equal. rewrite S2.
  assert (G : forall v w k, vlen v = window m -> vlen w = window m -> (forall i, in_rng (window m) i -> vat w i = a * vat v (window m - 1 - i) + b)%R -> in_rng (window m) k ->
    cubic_at (polyfit3 w) (IZR k) = (a * cubic_at (polyfit3 v) (IZR (window m - 1 - k)) + b)%R).
  { intros v w k Lv Lw E Hk. set (u := mkvec (window m) (fun i => vat v (window m - 1 - i))).
    destruct (best_reverse v u (polyfit3 v) ltac:(lia) (HP v ltac:(lia)) ltac:(unfold u; cbn [vlen]; lia) ltac:(rewrite Lv; reflexivity)) as (e & F1 & F2).
    destruct (best_affine u w e a b ltac:(lra) F1 ltac:(unfold u; cbn [vlen]; lia) ltac:(unfold u; cbn [vlen vat]; exact E)) as (d & D1 & D2).
    rewrite (best_unique w w (polyfit3 w) d k); [|apply HP; lia|exact D1|reflexivity|reflexivity|rewrite Lw; exact Hk]. rewrite D2, F2, Lv, <- minus_IZR. reflexivity. }
  destruct bright; cbn [negb].
  - change 0%R with (IZR 0). rewrite (G (tail_part m) (head_part m') 0); [rewrite Z.sub_0_r; reflexivity|reflexivity|unfold head_part; cbn [vlen]; exact S2| |unfold in_rng; lia].
    intros i Hi. unfold head_part, tail_part. cbn [vat]. rewrite (resampled_down m m' a b) by (try assumption; unfold in_rng in *; lia). do 3 f_equal. lia.
  - rewrite (G (head_part m) (tail_part m') (window m - 1)); [rewrite Z.sub_diag; reflexivity|reflexivity|unfold tail_part; cbn [vlen]; exact S2| |unfold in_rng; lia].
    intros i Hi. unfold head_part, tail_part. cbn [vat]. rewrite S1, S2. rewrite (resampled_down m m' a b) by (try assumption; unfold in_rng in *; lia). do 3 f_equal. lia.
Qed.
Lemma threshold_positions m m' l l' bright : size m' = size m -> pixels_are m l -> pixels_are m' l' -> Permutation l l' ->
  calculate_threshold zoom polyfit3 m' bright = calculate_threshold zoom polyfit3 m bright.
Proof.
  intros S1 P P' Q. unfold calculate_threshold. fold (size m) (size m'). rewrite S1.
  rewrite (rsort_same (flat m') (flat m)); [reflexivity|]. rewrite <- (pixels_perm m l P), <- (pixels_perm m' l' P'). symmetry. exact Q.
Qed.
Lemma threshold_constant m c bright : 1 <= nrow m -> 1 <= ncol m -> 6 <= size m -> (forall i j, in_rng (nrow m) i -> in_rng (ncol m) j -> px m i j = c) ->
  calculate_threshold zoom polyfit3 m bright = Ok c.
Proof using HZ HP.
  intros Hh Hw Hs Hc.
  destruct (threshold_up m m 2 (- c) bright Hh Hw Hs ltac:(lra)) as (t & T1 & T2).
  { split; [reflexivity|]. split; [reflexivity|]. intros i j Hi Hj. rewrite Hc by assumption. lra. }
  rewrite T1 in T2. assert (E : t = (2 * t + - c)%R) by congruence. rewrite T1. f_equal. lra.
Qed.
End Threshold.
Lemma flat_positions m l : Permutation l (flat m) -> pixels_are m l.
Proof.
  intros P. rewrite flat_grid in P. destruct (Permutation_map_inv _ _ P) as (ps & E & Q). exists ps. split; [apply (Permutation_NoDup Q), grid_NoDup|]. split; [|exact E].
  intros p. rewrite <- grid_In. split; intros I; [exact (Permutation_in _ (Permutation_sym Q) I)|exact (Permutation_in _ Q I)].
Qed.
Lemma sorted_nth l : StronglySorted Rle l -> forall i j, (i <= j < length l)%nat -> (nth i l 0 <= nth j l 0)%R.
Proof.
  induction 1 as [|x l H IH F]; intros i j L; [cbn in L; lia|]. destruct i as [|i], j as [|j]; cbn [nth]; [lra| |lia|apply IH; cbn in L; lia].
  rewrite Forall_forall in F. apply F, nth_In. cbn in L. lia.
Qed.
Lemma vec_of_list l : map (vat (vec_of l)) (zrange 0 (vlen (vec_of l))) = l.
Proof.
  unfold vec_of. cbn [vlen vat]. apply (nth_ext _ _ 0%R 0%R); [rewrite map_length, zrange_length; lia|]. intros n Hn. rewrite map_length, zrange_length in Hn.
  rewrite (nth_indep _ 0%R (nth (Z.to_nat 0) l 0%R)) by (rewrite map_length, zrange_length; lia). rewrite (map_nth (fun k => nth (Z.to_nat k) l 0%R)). rewrite zrange_nth by lia. f_equal. lia.
Qed.

(** ** two levels: the threshold leaves the range of the pixels *)
Definition two_levels : img R := mkimg 1 7 (fun _ j => if j <? 2 then 0%R else 1%R).
Lemma two_flat : rsort (flat two_levels) = [0; 0; 1; 1; 1; 1; 1]%R.
Proof.
  assert (E : flat two_levels = [0; 0; 1; 1; 1; 1; 1]%R) by reflexivity. rewrite E. apply rsort_id. repeat (constructor; [|repeat (constructor; [lra|]); constructor]). constructor.
Qed.
Lemma two_resampled zoom k : fair_zoom zoom -> in_rng 5 k -> vat (resampled zoom two_levels) k = nth (Z.to_nat k) [0; 0; 1; 1; 1]%R 0%R.
Proof.
  intros (_ & _ & _ & H) Hk. unfold resampled. rewrite two_flat. set (v := vec_of _). assert (L : vlen v = 7) by reflexivity. change (size two_levels) with 7. rewrite <- L, H by (unfold in_rng in *; lia).
  unfold in_rng in Hk. assert (C : k = 0 \/ k = 1 \/ k = 2 \/ k = 3 \/ k = 4) by lia. destruct C as [-> | [-> | [-> | [-> | ->] ] ] ]; reflexivity.
Qed.
Lemma five_best : best_cubic (mkvec 5 (fun k => nth (Z.to_nat k) [0; 0; 1; 1; 1]%R 0%R)) [(- (3 / 70))%R; (- (55 / 420))%R; (30 / 70)%R; (- (35 / 420))%R].
Proof.
  eexists _, _, _, _. split; [reflexivity|]. intros d0 d1 d2 d3. set (q := fun k => (cubic (- (3 / 70)) (- (55 / 420)) (30 / 70) (- (35 / 420)) (IZR k) - cubic d0 d1 d2 d3 (IZR k))%R).
  assert (N : (0 <= rsum 5 (fun k => q k ^ 2))%R).
  { assert (M := rsum_le 5 (fun _ => 0%R) (fun k => q k ^ 2)%R ltac:(intros; apply pow2_ge_0)). rewrite rsum_zero in M. exact M. }
  match goal with |- (?a <= ?b)%R => enough (E : b = (a + rsum 5 (fun k => q k ^ 2))%R) by lra end.
  unfold q, cubic, rsum. cbn [vlen vat]. change (Z.to_nat 5) with 5%nat. cbn [rsumn]. change (Z.of_nat 0) with 0. change (Z.of_nat 1) with 1. change (Z.of_nat 2) with 2. change (Z.of_nat 3) with 3. change (Z.of_nat 4) with 4.
  change (Z.to_nat 0) with 0%nat. change (Z.to_nat 1) with 1%nat. change (Z.to_nat 2) with 2%nat. change (Z.to_nat 3) with 3%nat. change (Z.to_nat 4) with 4%nat. cbn [nth]. field.
Qed.
Lemma two_threshold zoom polyfit3 : fair_zoom zoom -> (forall v, 4 <= vlen v -> best_cubic v (polyfit3 v)) -> calculate_threshold zoom polyfit3 two_levels true = Ok (- (3 / 70))%R.
Proof.
  intros HZ HP. assert (L : vlen (head_part zoom two_levels) = 5) by reflexivity. rewrite (threshold_value zoom polyfit3 HZ); [|cbn; lia|cbn; lia|change (size two_levels) with 7; lia]. f_equal.
  assert (E := best_unique (mkvec 5 (fun k => nth (Z.to_nat k) [0; 0; 1; 1; 1]%R 0%R)) (head_part zoom two_levels) _ _ 0 five_best (HP _ ltac:(rewrite L; lia)) L).
  rewrite <- E; [|intros i Hi; unfold head_part; cbn [vat]; apply two_resampled; assumption|unfold in_rng; cbn [vlen]; lia].
  unfold cubic_at. cbn [nth]. change (IZR 0) with 0%R. ring.
Qed.
Lemma exact_best v c0 c1 c2 c3 : (forall k, in_rng (vlen v) k -> vat v k = cubic c0 c1 c2 c3 (IZR k)) -> best_cubic v [c0; c1; c2; c3].
Proof.
  intros H. exists c0, c1, c2, c3. split; [reflexivity|]. intros d0 d1 d2 d3.
  assert (E : rsum (vlen v) (fun k => (vat v k - cubic c0 c1 c2 c3 (IZR k)) ^ 2)%R = 0%R).
  { transitivity (rsum (vlen v) (fun _ => 0%R)); [|apply rsum_zero]. apply rsum_ext. intros k Hk. rewrite H by exact Hk. ring. }
  rewrite E. assert (M := rsum_le (vlen v) (fun _ => 0%R) (fun k => (vat v k - cubic d0 d1 d2 d3 (IZR k)) ^ 2)%R ltac:(intros; apply pow2_ge_0)). rewrite rsum_zero in M. exact M.
Qed.
Lemma steps_sorted a b s : (0 <= b)%R -> forall n, StronglySorted Rle (map (fun k => a + b * IZR k)%R (zrange s n)).
Proof.
  intros Hb n. unfold zrange. generalize (Z.to_nat n) as m. intros m. rewrite map_map.
  assert (G : forall m o, StronglySorted Rle (map (fun x => a + b * IZR (s + Z.of_nat x))%R (seq o m))).
  { clear m. induction m as [|m IH]; intros o; cbn [seq map]; constructor; [apply IH|]. apply Forall_forall. intros y Hy. apply in_map_iff in Hy. destruct Hy as (x & <- & Hx). apply in_seq in Hx.
    assert (L : (IZR (s + Z.of_nat o) <= IZR (s + Z.of_nat x))%R) by (apply IZR_le; lia). nra. }
  apply G.
Qed.
Lemma steps_threshold zoom polyfit3 m a b bright : fair_zoom zoom -> (forall v, 4 <= vlen v -> best_cubic v (polyfit3 v)) -> 1 <= nrow m -> 1 <= ncol m -> 6 <= size m -> (0 <= b)%R ->
  pixels_are m (map (fun k => a + b * IZR k)%R (zrange 0 (size m))) ->
  calculate_threshold zoom polyfit3 m bright = Ok (if bright then a else a + b * IZR (size m - 1))%R.
Proof.
  intros HZ HP Hh Hw Hs Hb P. rewrite (threshold_value zoom polyfit3 HZ) by assumption. assert (W := window_range m Hs).
  assert (E : rsort (flat m) = map (fun k => a + b * IZR k)%R (zrange 0 (size m))).
  { apply rsorted_unique; [apply rsort_sorted|apply steps_sorted; exact Hb|]. rewrite <- rsort_perm. symmetry. apply pixels_perm, P. }
  assert (V : forall k, in_rng (size m) k -> vat (resampled zoom m) k = (a + b * IZR k)%R).
  { intros k Hk. unfold resampled. rewrite E. set (v := vec_of _). assert (L : vlen v = size m) by (unfold v, vec_of; cbn [vlen]; rewrite map_length, zrange_length; lia).
    rewrite <- L. destruct HZ as (_ & _ & _ & H). rewrite H by (rewrite L; exact Hk). unfold v, vec_of. cbn [vat]. unfold in_rng in Hk.
    pose (f := (fun k => a + b * IZR k)%R). change (nth (Z.to_nat k) (map f (zrange 0 (size m))) 0 = f k)%R.
    rewrite (nth_indep _ 0%R (f 0)) by (rewrite map_length, zrange_length; lia). rewrite map_nth, zrange_nth by lia. f_equal. lia. }
  destruct bright; f_equal.
  - assert (B : best_cubic (head_part zoom m) [a; b; 0; 0]%R). { apply exact_best. intros k Hk. unfold head_part in *. cbn [vat vlen] in *. rewrite V by (unfold in_rng in *; lia). unfold cubic. ring. }
    rewrite (best_unique (head_part zoom m) (head_part zoom m) _ _ 0 (HP (head_part zoom m) ltac:(unfold head_part; cbn [vlen]; lia)) B eq_refl); [|reflexivity|unfold in_rng, head_part; cbn [vlen]; lia].
    unfold cubic_at. cbn [nth]. ring.
  - assert (B : best_cubic (tail_part zoom m) [a + b * IZR (size m - window m); b; 0; 0]%R).
    { apply exact_best. intros k Hk. unfold tail_part in *. cbn [vat vlen] in *. rewrite V by (unfold in_rng in *; lia). rewrite plus_IZR. unfold cubic. ring. }
    rewrite (best_unique (tail_part zoom m) (tail_part zoom m) _ _ (window m - 1) (HP (tail_part zoom m) ltac:(unfold tail_part; cbn [vlen]; lia)) B eq_refl); [|reflexivity|unfold in_rng, tail_part; cbn [vlen]; lia].
    unfold cubic_at. cbn [nth]. rewrite !minus_IZR. ring.
Qed.
