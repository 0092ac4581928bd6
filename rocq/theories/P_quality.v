(** Proofs for C118: the quality map. *)
From Coq Require Import Reals ZArith Lia Lra Bool List.
From Verif Require P_calib3.
From Verif Require Import Np P_Np M_phase_R P_phase_R P_simR M_corr M_global P_global M_quality S_fresnel S_unwrap S_quality P_unwrap5.
Import ListNotations.
Open Scope Z_scope.

Definition gx (m : img R) (i j : Z) : R := wrap_to_pi (px (pad1 m) i (j + 1) - px (pad1 m) i j).
Definition gy (m : img R) (i j : Z) : R := wrap_to_pi (px (pad1 m) (i + 1) j - px (pad1 m) i j).
Definition box (h w r : Z) (g : Z -> Z -> R) (i j : Z) : R :=
  (rsum (2 * r + 1) (fun a => rsum (2 * r + 1) (fun b => g (mirror_source h (i - (a - r))) (mirror_source w (j - (b - r))) * (1 * 1 / IZR (2 * r + 1) ^ 2))))%R.
Definition dev (h w r : Z) (g : Z -> Z -> R) (i j : Z) : R :=
  (rsum (2 * r + 1) (fun a => rsum (2 * r + 1) (fun b => (g ((i - (a - r)) mod h) ((j - (b - r)) mod w) - box h w r g i j) ^ 2)))%R.
Definition qual (m : img R) (r i j : Z) : R := ((sqrt (dev (nrow m) (ncol m) r (gx m) i j) + sqrt (dev (nrow m) (ncol m) r (gy m) i j)) / IZR (2 * r + 1) ^ 2)%R.
Lemma half_odd r : (2 * r + 1) / 2 = r. Proof. symmetry. apply (Z.div_unique _ 2 r 1); lia. Qed.
Lemma quality_is (m : img R) size : 0 < nrow m -> 0 < ncol m -> 0 <= size ->
  exists f, quality_map m size = Ok f /\ nrow f = nrow m /\ ncol f = ncol m /\ forall i j, px f i j = qual m (size / 2) i j.
Proof.
  intros Hh Hw Hs. assert (0 <= size / 2) by (apply Z.div_pos; lia). unfold quality_map. replace ((nrow m <=? 0) || (ncol m <=? 0)) with false by lia. replace (2 * (size / 2) + 1 <? 0) with false by lia.
  rewrite half_odd. eexists. split; [reflexivity|]. split; [reflexivity|]. split; [reflexivity|]. intros i j. cbn [px]. unfold qual, dev, box. cbn [roll2 convolve_box px nrow ncol]. rewrite half_odd. reflexivity.
Qed.
Lemma dev_nonneg h w r g i j : (0 <= dev h w r g i j)%R.
Proof. apply P_calib3.rsum_nonneg. intros a _. apply P_calib3.rsum_nonneg. intros b _. apply pow2_ge_0. Qed.
Lemma qual_nonneg m r i j : 0 <= r -> (0 <= qual m r i j)%R.
Proof.
  intros H. unfold qual. assert (P : (0 < IZR (2 * r + 1))%R) by (apply (IZR_lt 0); lia). apply Rmult_le_pos; [|left; apply Rinv_0_lt_compat, pow_lt; exact P].
  assert (A := sqrt_pos (dev (nrow m) (ncol m) r (gx m) i j)). assert (B := sqrt_pos (dev (nrow m) (ncol m) r (gy m) i j)). lra.
Qed.
Lemma qual_zero m r i j : 0 <= r -> qual m r i j = 0%R -> forall a b, in_rng (2 * r + 1) a -> in_rng (2 * r + 1) b ->
  gx m ((i - (a - r)) mod nrow m) ((j - (b - r)) mod ncol m) = box (nrow m) (ncol m) r (gx m) i j /\
  gy m ((i - (a - r)) mod nrow m) ((j - (b - r)) mod ncol m) = box (nrow m) (ncol m) r (gy m) i j.
Proof.
  intros Hr Q a b Ha Hb. unfold qual in Q. assert (P : (0 < / IZR (2 * r + 1) ^ 2)%R) by (apply Rinv_0_lt_compat, pow_lt, (IZR_lt 0); lia).
  assert (A := sqrt_pos (dev (nrow m) (ncol m) r (gx m) i j)). assert (B := sqrt_pos (dev (nrow m) (ncol m) r (gy m) i j)).
  assert (S : (sqrt (dev (nrow m) (ncol m) r (gx m) i j) + sqrt (dev (nrow m) (ncol m) r (gy m) i j) = 0)%R). { apply Rmult_integral in Q. destruct Q as [Q|Q]; [exact Q|lra]. }
  assert (G : forall g, sqrt (dev (nrow m) (ncol m) r g i j) = 0%R -> g ((i - (a - r)) mod nrow m) ((j - (b - r)) mod ncol m) = box (nrow m) (ncol m) r g i j).
  { intros g E. apply sqrt_eq_0 in E; [|apply dev_nonneg].
    assert (T := rsum2_term (2 * r + 1) (2 * r + 1) (fun a b => (g ((i - (a - r)) mod nrow m)%Z ((j - (b - r)) mod ncol m)%Z - box (nrow m) (ncol m) r g i j) ^ 2)%R a b ltac:(intros; apply pow2_ge_0) Ha Hb).
    cbv beta in T. unfold dev in E. rewrite E in T. assert (N := pow2_ge_0 (g ((i - (a - r)) mod nrow m) ((j - (b - r)) mod ncol m) - box (nrow m) (ncol m) r g i j)).
    assert (Z0 : ((g ((i - (a - r)) mod nrow m)%Z ((j - (b - r)) mod ncol m)%Z - box (nrow m) (ncol m) r g i j) ^ 2 = 0)%R) by lra. simpl in Z0. rewrite Rmult_1_r in Z0. apply Rmult_integral in Z0. lra. }
  split; apply G; lra.
Qed.
(** congruent images *)
Lemma pad_source_in n k : 0 < n -> -1 <= k <= n -> in_rng n (pad_source n k).
Proof. unfold in_rng, pad_source. intros H K. destruct (Z.eqb_spec n 1); [lia|]. destruct (Z.ltb_spec k 0); [lia|]. destruct (Z.leb_spec n k); lia. Qed.
Lemma mirror_in n k : 0 < n -> in_rng n (mirror_source n k).
Proof. intros H. unfold mirror_source, in_rng. assert (M := Z.mod_pos_bound k (2 * n) ltac:(lia)). destruct (Z.ltb_spec (k mod (2 * n)) n); lia. Qed.
Lemma wrap_same x y k : (x = y + 2 * PI * IZR k)%R -> wrap_to_pi x = wrap_to_pi y. Proof. intros ->. apply wrap_periodic. Qed.
Lemma pad_congruent c (m m' : img R) i j : 0 < nrow m -> 0 < ncol m -> congruent c m m' -> 0 <= i <= nrow m + 1 -> 0 <= j <= ncol m + 1 -> exists k, px (pad1 m') i j = (px (pad1 m) i j + c + 2 * PI * IZR k)%R.
Proof. intros Hh Hw (R & C & V) Hi Hj. cbn [pad1 px]. rewrite R, C. apply V; apply pad_source_in; lia. Qed.
Lemma gx_congruent c m m' i j : 0 < nrow m -> 0 < ncol m -> congruent c m m' -> in_rng (nrow m) i -> in_rng (ncol m) j -> gx m' i j = gx m i j /\ gy m' i j = gy m i j.
Proof.
  unfold in_rng. intros Hh Hw K Hi Hj. destruct (pad_congruent c m m' i j Hh Hw K) as (p & P); try lia. destruct (pad_congruent c m m' i (j + 1) Hh Hw K) as (q & Q); try lia. destruct (pad_congruent c m m' (i + 1) j Hh Hw K) as (s & S); try lia.
  unfold gx, gy. rewrite P, Q, S. split; [apply (wrap_same _ _ (q - p))|apply (wrap_same _ _ (s - p))]; rewrite minus_IZR; ring.
Qed.
Lemma box_ext h w r g g' i j : 0 < h -> 0 < w -> (forall a b, in_rng h a -> in_rng w b -> g' a b = g a b) -> box h w r g' i j = box h w r g i j.
Proof. intros Hh Hw E. unfold box. apply rsum_ext. intros a _. apply rsum_ext. intros b _. rewrite E by (apply mirror_in; assumption). reflexivity. Qed.
Lemma dev_ext h w r g g' i j : 0 < h -> 0 < w -> (forall a b, in_rng h a -> in_rng w b -> g' a b = g a b) -> dev h w r g' i j = dev h w r g i j.
Proof. intros Hh Hw E. unfold dev. rewrite (box_ext h w r g g') by assumption. apply rsum_ext. intros a _. apply rsum_ext. intros b _. rewrite E by (apply Z.mod_pos_bound; assumption). reflexivity. Qed.
Lemma qual_congruent c m m' r i j : 0 < nrow m -> 0 < ncol m -> congruent c m m' -> qual m' r i j = qual m r i j.
Proof.
  intros Hh Hw K. assert (R := proj1 K). assert (C := proj1 (proj2 K)). unfold qual. rewrite R, C.
  rewrite (dev_ext (nrow m) (ncol m) r (gx m) (gx m')), (dev_ext (nrow m) (ncol m) r (gy m) (gy m')); try assumption; [reflexivity| |]; intros a b Ha Hb; destruct (gx_congruent c m m' a b Hh Hw K Ha Hb) as [X Y]; assumption.
Qed.
(** transposed images *)
Lemma dev_trans h w r g g' i j : 0 < h -> 0 < w -> (forall a b, in_rng h a -> in_rng w b -> g' b a = g a b) -> dev w h r g' j i = dev h w r g i j.
Proof.
  intros Hh Hw E. assert (B : box w h r g' j i = box h w r g i j).
  { unfold box. rewrite rsum_swap. apply rsum_ext. intros a _. apply rsum_ext. intros b _. rewrite E by (apply mirror_in; assumption). reflexivity. }
  unfold dev. rewrite rsum_swap, B. apply rsum_ext. intros a _. apply rsum_ext. intros b _. rewrite E by (apply Z.mod_pos_bound; assumption). reflexivity.
Qed.
Lemma qual_trans m m' r i j : 0 < nrow m -> 0 < ncol m -> transposed m m' -> qual m' r j i = qual m r i j.
Proof.
  intros Hh Hw (R & C & V).
  assert (P : forall a b, 0 <= a <= nrow m + 1 -> 0 <= b <= ncol m + 1 -> px (pad1 m') b a = px (pad1 m) a b).
  { intros a b Ha Hb. cbn [pad1 px]. rewrite R, C. apply V; rewrite ?R, ?C; apply pad_source_in; lia. }
  unfold qual. rewrite R, C. rewrite (dev_trans (nrow m) (ncol m) r (gy m) (gx m')), (dev_trans (nrow m) (ncol m) r (gx m) (gy m')); try assumption; unfold in_rng.
  - rewrite Rplus_comm. reflexivity.
  - intros a b Ha Hb. unfold gx, gy. rewrite !P by lia. reflexivity.
  - intros a b Ha Hb. unfold gx, gy. rewrite !P by lia. reflexivity.
Qed.
(** inside *)
Lemma wrapped_is x d : is_wrapped x d -> d = wrap_to_pi x.
Proof. intros (B & k & E). symmetry. apply (wrap_unique x d (- k) B). rewrite E, opp_IZR. ring. Qed.
Lemma mirror_id n k : 0 < n -> in_rng n k -> mirror_source n k = k.
Proof. unfold in_rng, mirror_source. intros H K. rewrite Z.mod_small by lia. replace (k <? n) with true by lia. reflexivity. Qed.
Lemma box_inside h w r g i j : 0 <= r -> r <= i < h - r -> r <= j < w - r -> box h w r g i j = window_mean r g i j.
Proof.
  intros Hr Hi Hj. unfold box, window_mean. assert (P : (0 < IZR (2 * r + 1))%R) by (apply (IZR_lt 0); lia).
  rewrite (rsum_ext _ _ (fun a => rsum (2 * r + 1) (fun b => g (i - r + (2 * r + 1 - 1 - a))%Z (j - r + (2 * r + 1 - 1 - b))%Z) * (1 * 1 / IZR (2 * r + 1) ^ 2))%R).
  - rewrite rsum_scal_r. rewrite (rsum_rev (2 * r + 1) (fun a => rsum (2 * r + 1) (fun b => g (i - r + a) (j - r + (2 * r + 1 - 1 - b))))) by lia.
    rewrite (rsum_ext _ (fun a => rsum (2 * r + 1) (fun b => g (i - r + a) (j - r + (2 * r + 1 - 1 - b)))) (fun a => rsum (2 * r + 1) (fun b => g (i - r + a) (j - r + b)))); [field; lra|].
    intros a _. apply (rsum_rev (2 * r + 1) (fun b => g (i - r + a) (j - r + b))). lia.
  - intros a Ha. rewrite <- rsum_scal_r. apply rsum_ext. intros b Hb. rewrite !mirror_id by (unfold in_rng; lia). f_equal. f_equal; lia.
Qed.
Lemma dev_inside h w r g i j : 0 <= r -> r <= i < h - r -> r <= j < w - r ->
  dev h w r g i j = rsum (2 * r + 1) (fun a => rsum (2 * r + 1) (fun b => (g (i - r + a)%Z (j - r + b)%Z - window_mean r g i j) ^ 2))%R.
Proof.
  intros Hr Hi Hj. unfold dev. rewrite box_inside by assumption.
  rewrite (rsum_ext _ _ (fun a => rsum (2 * r + 1) (fun b => (g (i - r + (2 * r + 1 - 1 - a))%Z (j - r + (2 * r + 1 - 1 - b))%Z - window_mean r g i j) ^ 2))%R).
  - rewrite (rsum_rev (2 * r + 1) (fun a => rsum (2 * r + 1) (fun b => (g (i - r + a)%Z (j - r + (2 * r + 1 - 1 - b))%Z - window_mean r g i j) ^ 2))%R) by lia.
    apply rsum_ext. intros a _. apply (rsum_rev (2 * r + 1) (fun b => (g (i - r + a)%Z (j - r + b)%Z - window_mean r g i j) ^ 2)%R). lia.
  - intros a Ha. apply rsum_ext. intros b Hb. rewrite !Z.mod_small by lia. do 2 f_equal. f_equal; lia.
Qed.
Lemma mean_shift r g g' i j i' j' : (forall a b, 0 <= a <= 2 * r -> 0 <= b <= 2 * r -> g' (i' - r + a) (j' - r + b) = g (i - r + a) (j - r + b)) -> window_mean r g' i' j' = window_mean r g i j.
Proof. intros E. unfold window_mean. f_equal. apply rsum_ext. intros a Ha. apply rsum_ext. intros b Hb. apply E; lia. Qed.
Lemma spread_shift r g g' i j i' j' : (forall a b, 0 <= a <= 2 * r -> 0 <= b <= 2 * r -> g' (i' - r + a) (j' - r + b) = g (i - r + a) (j - r + b)) -> spread r g' i' j' = spread r g i j.
Proof. intros E. unfold spread. rewrite (mean_shift r g g' i j i' j') by exact E. f_equal. apply rsum_ext. intros a Ha. apply rsum_ext. intros b Hb. rewrite E by lia. reflexivity. Qed.
Lemma qual_inside m r i j sx sy : 0 <= r -> r + 1 <= i < nrow m - r -> r + 1 <= j < ncol m - r -> steps_x m sx -> steps_y m sy ->
  qual m r i j = ((spread r sx (i - 1) j + spread r sy i (j - 1)) / (IZR (2 * r + 1) * IZR (2 * r + 1)))%R.
Proof.
  intros Hr Hi Hj X Y. unfold qual. rewrite !dev_inside by lia. fold (spread r (gx m) i j). fold (spread r (gy m) i j). simpl pow. rewrite Rmult_1_r.
  rewrite (spread_shift r sx (gx m) (i - 1) j i j), (spread_shift r sy (gy m) i (j - 1) i j); [reflexivity| |].
  - intros a b Ha Hb. rewrite (wrapped_is _ _ (Y (i - r + a) (j - 1 - r + b) ltac:(lia) ltac:(unfold in_rng; lia))). unfold gy. f_equal. cbn [pad1 px]. unfold pad_source.
    destruct (Z.eqb_spec (nrow m) 1); [lia|]. destruct (Z.eqb_spec (ncol m) 1); [lia|].
    repeat match goal with |- context [?p <? ?q] => destruct (Z.ltb_spec p q); [lia|] end. repeat match goal with |- context [?p <=? ?q] => destruct (Z.leb_spec p q); [lia|] end. f_equal; f_equal; lia.
  - intros a b Ha Hb. rewrite (wrapped_is _ _ (X (i - 1 - r + a) (j - r + b) ltac:(unfold in_rng; lia) ltac:(lia))). unfold gx. f_equal. cbn [pad1 px]. unfold pad_source.
    destruct (Z.eqb_spec (nrow m) 1); [lia|]. destruct (Z.eqb_spec (ncol m) 1); [lia|].
    repeat match goal with |- context [?p <? ?q] => destruct (Z.ltb_spec p q); [lia|] end. repeat match goal with |- context [?p <=? ?q] => destruct (Z.leb_spec p q); [lia|] end. f_equal; f_equal; lia.
Qed.
Lemma qual_edge m r i j sx sy : 0 <= r -> r <= i < nrow m - r -> r <= j < ncol m - r -> 2 <= nrow m -> 2 <= ncol m -> edge_steps_x m sx -> edge_steps_y m sy ->
  qual m r i j = ((spread r sx (i - 1) j + spread r sy i (j - 1)) / (IZR (2 * r + 1) * IZR (2 * r + 1)))%R.
Proof.
  intros Hr Hi Hj H2 W2 X Y. unfold qual. rewrite !dev_inside by lia. fold (spread r (gx m) i j). fold (spread r (gy m) i j). simpl pow. rewrite Rmult_1_r.
  assert (Src : forall n k, 2 <= n -> -1 <= k < n -> pad_source n k = Z.abs k).
  { intros n k Hn Hk. unfold pad_source. destruct (Z.eqb_spec n 1); [lia|]. destruct (Z.ltb_spec k 0); [lia|]. destruct (Z.leb_spec n k); lia. }
  rewrite (spread_shift r sx (gx m) (i - 1) j i j), (spread_shift r sy (gy m) i (j - 1) i j); [reflexivity| |].
  - intros a b Ha Hb. rewrite (wrapped_is _ _ (Y (i - r + a) (j - 1 - r + b) ltac:(unfold in_rng; lia) ltac:(lia))). unfold gy. f_equal. cbn [pad1 px]. rewrite !Src by lia. f_equal; f_equal; lia.
  - intros a b Ha Hb. rewrite (wrapped_is _ _ (X (i - 1 - r + a) (j - r + b) ltac:(lia) ltac:(unfold in_rng; lia))). unfold gx. f_equal. cbn [pad1 px]. rewrite !Src by lia. f_equal; f_equal; lia.
Qed.
(** steady windows *)
Lemma spread_zero r g i j : 0 <= r -> (spread r g i j = 0%R <-> steady r g i j).
Proof.
  intros Hr. assert (P : (0 < IZR (2 * r + 1))%R) by (apply (IZR_lt 0); lia). split.
  - intros E a b Ha Hb. unfold spread in E. apply sqrt_eq_0 in E; [|apply P_calib3.rsum_nonneg; intros; apply P_calib3.rsum_nonneg; intros; apply pow2_ge_0].
    assert (T : forall c d, 0 <= c <= 2 * r -> 0 <= d <= 2 * r -> g (i - r + c) (j - r + d) = window_mean r g i j).
    { intros c d Hc Hd. assert (T := rsum2_term (2 * r + 1) (2 * r + 1) (fun a b => (g (i - r + a)%Z (j - r + b)%Z - window_mean r g i j) ^ 2)%R c d ltac:(intros; apply pow2_ge_0) ltac:(lia) ltac:(lia)). cbv beta in T. rewrite E in T.
      assert (N := pow2_ge_0 (g (i - r + c) (j - r + d) - window_mean r g i j)). assert (Z0 : ((g (i - r + c)%Z (j - r + d)%Z - window_mean r g i j) ^ 2 = 0)%R) by lra. simpl in Z0. rewrite Rmult_1_r in Z0. apply Rmult_integral in Z0. lra. }
    assert (A := T (a - (i - r)) (b - (j - r)) ltac:(lia) ltac:(lia)). assert (B := T r r ltac:(lia) ltac:(lia)). replace (i - r + (a - (i - r))) with a in A by lia. replace (j - r + (b - (j - r))) with b in A by lia.
    replace (i - r + r) with i in B by lia. replace (j - r + r) with j in B by lia. rewrite A, B. reflexivity.
  - intros S. assert (V : forall c d, 0 <= c < 2 * r + 1 -> 0 <= d < 2 * r + 1 -> g (i - r + c) (j - r + d) = g i j) by (intros c d Hc Hd; apply S; lia).
    assert (M : window_mean r g i j = g i j). { unfold window_mean. rewrite (rsum_ext _ _ (fun _ => IZR (2 * r + 1) * g i j)%R); [rewrite rsum_const by lia; field; lra|]. intros a Ha. rewrite <- rsum_const by lia. apply rsum_ext. intros b Hb. apply V; assumption. }
    unfold spread. rewrite M. rewrite (rsum_ext _ _ (fun _ => 0%R)); [rewrite rsum_zero; apply sqrt_0|]. intros a Ha. rewrite (rsum_ext _ _ (fun _ => 0%R)); [apply rsum_zero|]. intros b Hb. rewrite V by assumption. ring.
Qed.
Lemma spread_nonneg r g i j : (0 <= spread r g i j)%R. Proof. apply sqrt_pos. Qed.
(** flat images *)
Lemma wrap_0 : wrap_to_pi 0 = 0%R. Proof. assert (P := PI_RGT_0). apply (wrap_unique 0 0 0); [lra|ring]. Qed.
Lemma wrap_1 : wrap_to_pi 1 = 1%R. Proof. assert (P := PI2_1). apply (wrap_unique 1 1 0); [lra|ring]. Qed.
Lemma dev_flat h w r g i j : 0 < h -> 0 < w -> (forall a b, in_rng h a -> in_rng w b -> g a b = 0%R) -> dev h w r g i j = 0%R.
Proof.
  intros Hh Hw E. assert (B : box h w r g i j = 0%R). { unfold box. rewrite (rsum_ext _ _ (fun _ => 0%R)); [apply rsum_zero|]. intros a _. rewrite (rsum_ext _ _ (fun _ => 0%R)); [apply rsum_zero|]. intros b _. rewrite E by (apply mirror_in; assumption). ring. }
  unfold dev. rewrite B. rewrite (rsum_ext _ _ (fun _ => 0%R)); [apply rsum_zero|]. intros a _. rewrite (rsum_ext _ _ (fun _ => 0%R)); [apply rsum_zero|]. intros b _. rewrite E by (apply Z.mod_pos_bound; assumption). ring.
Qed.
