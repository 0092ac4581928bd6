(** Proofs for C118: the weight mask. *)
From Coq Require Import Reals ZArith Lia Lra Bool List Permutation Sorted.
From Verif Require P_calib3 P_unwrap5.
From Verif Require Import Np P_Np M_phase_R P_phase_R P_simR M_corr P_corr2 M_global P_global P_calib5 M_quality S_quality.
Import ListNotations.
Open Scope Z_scope.

Lemma flatten_grid (m : img R) : flatten m = map (fun q => px m (fst q) (snd q)) (grid (nrow m) (ncol m)).
Proof. unfold flatten, grid. induction (zrange 0 (nrow m)) as [|i l IH]; [reflexivity|]. cbn [flat_map]. rewrite map_app, <- IH, map_map. reflexivity. Qed.
Lemma grid_length h w : length (grid h w) = (Z.to_nat h * Z.to_nat w)%nat.
Proof.
  unfold grid. assert (G : forall l, length (flat_map (fun i : Z => map (pair i) (zrange 0 w)) l) = (length l * Z.to_nat w)%nat).
  { induction l as [|i l IH]; [reflexivity|]. cbn [flat_map length]. rewrite app_length, IH, map_length, zrange_length. lia. }
  rewrite G, zrange_length. reflexivity.
Qed.
Lemma flatten_rearranged p (m m' : img R) : rearranged p m m' -> Permutation (flatten m') (flatten m).
Proof.
  intros (S & V & I). rewrite !flatten_grid.
  assert (E : map (fun q => px m' (fst q) (snd q)) (grid (nrow m') (ncol m')) = map (fun q => px m (fst q) (snd q)) (map p (grid (nrow m') (ncol m')))).
  { rewrite map_map. apply map_ext_in. intros [i j] Q. apply grid_In in Q. cbn [fst snd] in *. apply V; tauto. }
  rewrite E. apply Permutation_map. apply NoDup_Permutation_bis.
  - assert (N := grid_NoDup (nrow m') (ncol m')). assert (J : forall x y, In x (grid (nrow m') (ncol m')) -> In y (grid (nrow m') (ncol m')) -> p x = p y -> x = y).
    { intros [i j] [a b] X Y Q. apply grid_In in X. apply grid_In in Y. cbn [fst snd] in *. destruct (I i j a b) as [-> ->]; try tauto. }
    revert N J. generalize (grid (nrow m') (ncol m')). induction l as [|x l IH]; intros N J; cbn [map]; [constructor|]. inversion N as [|x' l' NI N']. subst. constructor.
    + intros Q. apply in_map_iff in Q. destruct Q as (y & Q & Y). apply NI. rewrite (J x y); [exact Y|left; reflexivity|right; exact Y|symmetry; exact Q].
    + apply IH; [exact N'|]. intros a b A B. apply J; right; assumption.
  - rewrite map_length, !grid_length. destruct S as [ [-> ->]|[-> ->] ]; lia.
  - intros q Q. apply in_map_iff in Q. destruct Q as ([i j] & <- & Q). apply grid_In in Q. cbn [fst snd] in Q. apply grid_In. destruct (V i j) as (A & B & _); tauto.
Qed.
Section Z.
Context (zoom : list R -> R -> list R).
Lemma threshold_rearranged p (m m' : img R) snr : rearranged p m m' -> mask_threshold zoom m' snr = mask_threshold zoom m snr.
Proof.
  intros S. unfold mask_threshold. rewrite (rsort_respects _ _ (flatten_rearranged p m m' S)). replace (Z.max (nrow m') (ncol m')) with (Z.max (nrow m) (ncol m)); [reflexivity|]. destruct S as ([ [-> ->]|[-> ->] ] & _); lia.
Qed.
Lemma threshold_snr (m : img R) s s' t t' : (s <= s')%R -> mask_threshold zoom m s = Ok t -> mask_threshold zoom m s' = Ok t' -> (t <= t')%R.
Proof.
  intros L. unfold mask_threshold. destruct (Nat.eqb _ 0); [discriminate|]. destruct (Nat.eqb _ 0); [discriminate|]. destruct (Nat.eqb _ 1); [discriminate|]. destruct (line_fit _ _) as [sl ic].
  intros [= <-] [= <-]. assert (P := Rabs_pos (ic + sl * IZR (Z.of_nat (length (zoom (rsort (flatten m)) (1 * IZR (Z.max (nrow m) (ncol m)) / INR (length (rsort (flatten m))))%R)) - 1) - ic)).
  apply Rplus_le_compat_l. apply Rmult_le_compat_r; [lra|]. apply Rmult_le_compat_l; assumption.
Qed.
Lemma threshold_snr_ok (m : img R) s s' t : mask_threshold zoom m s = Ok t -> exists t', mask_threshold zoom m s' = Ok t'.
Proof.
  unfold mask_threshold. destruct (Nat.eqb _ 0); [discriminate|]. destruct (Nat.eqb _ 0); [discriminate|]. destruct (Nat.eqb _ 1); [discriminate|]. destruct (line_fit _ _) as [sl ic]. intros _. eexists. reflexivity.
Qed.
Lemma mask_at (m : img R) snr f : weight_mask zoom m snr = Ok f -> exists t, mask_threshold zoom m snr = Ok t /\ nrow f = nrow m /\ ncol f = ncol m /\
  forall i j, (px f i j = 1 /\ t < px m i j \/ px f i j = 0 /\ px m i j <= t)%R.
Proof.
  unfold weight_mask. destruct (mask_threshold zoom m snr) as [t|]; cbn [bindr]; [|discriminate]. intros [= <-]. exists t. split; [reflexivity|]. split; [reflexivity|]. split; [reflexivity|]. intros i j. cbn [px].
  unfold Rltb. destruct (Rlt_dec t (px m i j)); [left|right]; (split; [reflexivity|lra]).
Qed.
(** brightness and contrast *)
Lemma rsort_affine a b l : (0 < a)%R -> rsort (map (fun v => a * v + b)%R l) = map (fun v => a * v + b)%R (rsort l).
Proof.
  intros A. apply rsort_unique; [|apply Permutation_map, rsort_perm]. assert (S := rsort_sorted l). induction S as [|x t S IH F]; cbn [map]; constructor; [exact IH|].
  apply Forall_map. eapply Forall_impl; [|exact F]. intros y Y. cbv beta. assert (a * x <= a * y)%R by (apply Rmult_le_compat_l; lra). lra.
Qed.
Lemma cut_map {A B} (f : A -> B) x y l : cut x y (map f l) = map f (cut x y l).
Proof. unfold cut. rewrite skipn_map, firstn_map. reflexivity. Qed.
Lemma fit_affine a b k y : y <> [] -> line_fit k (map (fun v => a * v + b)%R y) = (a * fst (line_fit k y), a * snd (line_fit k y) + b)%R.
Proof.
  intros NE. assert (N : 0 < Z.of_nat (length y)) by (destruct y; [congruence|cbn; lia]). assert (P : (0 < IZR (Z.of_nat (length y)))%R) by (apply (IZR_lt 0); exact N).
  unfold line_fit. rewrite map_length. set (n := Z.of_nat (length y)) in *. cbn [fst snd].
  assert (V : forall i, 0 <= i < n -> nth (Z.to_nat i) (map (fun v => a * v + b)%R y) 0%R = (a * nth (Z.to_nat i) y 0 + b)%R).
  { intros i Hi. rewrite (nth_indep _ 0%R (a * 0 + b)%R) by (rewrite map_length; lia). exact (map_nth (fun v => a * v + b)%R y 0%R (Z.to_nat i)). }
  assert (M : (rsum n (fun i => nth (Z.to_nat i) (map (fun v => a * v + b)%R y) 0%R) / IZR n = a * (rsum n (fun i => nth (Z.to_nat i) y 0%R) / IZR n) + b)%R).
  { rewrite (rsum_ext n _ (fun i => a * nth (Z.to_nat i) y 0 + b)%R) by exact V. rewrite rsum_add, rsum_scal, rsum_const by lia. field. lra. }
  rewrite M. set (ym := (rsum n (fun i => nth (Z.to_nat i) y 0%R) / IZR n)%R). set (xm := (rsum n (fun i => IZR (k + i)) / IZR n)%R).
  rewrite (rsum_ext n (fun i => (IZR (k + i) - xm) * (nth (Z.to_nat i) (map (fun v => a * v + b) y) 0 - (a * ym + b)))%R (fun i => a * ((IZR (k + i) - xm) * (nth (Z.to_nat i) y 0 - ym)))%R) by (intros i Hi; rewrite V by exact Hi; ring).
  rewrite rsum_scal. unfold Rdiv. f_equal; ring.
Qed.
Lemma threshold_affine a b (m m' : img R) snr : (0 < a)%R -> (forall l q, zoom (map (fun v => a * v + b)%R l) q = map (fun v => a * v + b)%R (zoom l q)) -> rescaled a b m m' ->
  mask_threshold zoom m' snr = (do t <- mask_threshold zoom m snr; Ok (a * t + b)%R).
Proof.
  intros A Z (R & C & V). unfold mask_threshold.
  assert (F : flatten m' = map (fun v => a * v + b)%R (flatten m)).
  { rewrite !flatten_grid, map_map, R, C. apply map_ext_in. intros [i j] Q. apply grid_In in Q. cbn [fst snd] in *. apply V; tauto. }
  rewrite F, rsort_affine, !map_length, R, C by exact A. rewrite Z, !map_length, cut_map, !map_length.
  destruct (Nat.eqb _ 0); [reflexivity|]. destruct (Nat.eqb_spec (length (cut (Z.of_nat (length (zoom (rsort (flatten m)) (1 * IZR (Z.max (nrow m) (ncol m)) / INR (length (rsort (flatten m))))%R)) / 4)
    (Z.of_nat (length (zoom (rsort (flatten m)) (1 * IZR (Z.max (nrow m) (ncol m)) / INR (length (rsort (flatten m))))%R)) - Z.of_nat (length (zoom (rsort (flatten m)) (1 * IZR (Z.max (nrow m) (ncol m)) / INR (length (rsort (flatten m))))%R)) / 4 - 1)
    (zoom (rsort (flatten m)) (1 * IZR (Z.max (nrow m) (ncol m)) / INR (length (rsort (flatten m))))%R))) 0) as [E|E]; [reflexivity|]. destruct (Nat.eqb _ 1); [reflexivity|].
  rewrite fit_affine by (intros Q; rewrite Q in E; apply E; reflexivity). destruct (line_fit _ _) as [sl ic]. cbn [fst snd bindr]. f_equal.
  match goal with |- context [IZR ?e] => set (n := IZR e) end.
  replace (a * ic + b + a * sl * n - (a * ic + b))%R with (a * (ic + sl * n - ic))%R by ring. rewrite Rabs_mult, (Rabs_right a) by lra. ring.
Qed.
Lemma fit_flat c k n : (0 < n)%nat -> line_fit k (repeat c n) = (0, c)%R.
Proof.
  intros N. assert (E : repeat c n = map (fun v => 0 * v + c)%R (repeat 0%R n)). { clear N. induction n; [reflexivity|]. cbn [repeat map]. rewrite IHn. f_equal. ring. }
  rewrite E, fit_affine by (destruct n; [lia|discriminate]). f_equal; ring.
Qed.
Lemma rsort_flat c n : rsort (repeat c n) = repeat c n.
Proof. apply rsort_unique; [|apply Permutation_refl]. induction n; cbn [repeat]; constructor; [exact IHn|]. apply Forall_forall. intros x Q. apply repeat_spec in Q. rewrite Q. apply Rle_refl. Qed.
Lemma cut_flat (c : R) x y n : exists k, cut x y (repeat c n) = repeat c k.
Proof.
  unfold cut. assert (S : forall q, skipn q (repeat c n) = repeat c (n - q)). { intros q. revert n. induction q; intros n; [rewrite Nat.sub_0_r; reflexivity|]. destruct n; [reflexivity|]. cbn [repeat skipn Nat.sub]. apply IHq. }
  rewrite S. generalize (n - Z.to_nat x)%nat. generalize (Z.to_nat (y - x)). induction n0; intros k; [exists O; reflexivity|]. destruct k; [exists O; reflexivity|]. cbn [repeat firstn]. destruct (IHn0 k) as (l & ->). exists (Datatypes.S l). reflexivity.
Qed.
Lemma threshold_flat (m : img R) c snr t : (forall k q, exists n, zoom (repeat c k) q = repeat c n) -> (forall i j, in_rng (nrow m) i -> in_rng (ncol m) j -> px m i j = c) ->
  mask_threshold zoom m snr = Ok t -> t = c.
Proof.
  intros Z V. unfold mask_threshold.
  assert (F : exists k, flatten m = repeat c k).
  { rewrite flatten_grid. exists (length (grid (nrow m) (ncol m))). assert (G : forall q, In q (grid (nrow m) (ncol m)) -> px m (fst q) (snd q) = c) by (intros q Q; apply grid_In in Q; apply V; tauto).
    revert G. generalize (grid (nrow m) (ncol m)). induction l as [|q l IH]; intros G; [reflexivity|]. cbn [map length repeat]. rewrite G by (left; reflexivity). f_equal. apply IH. intros x X. apply G. right. exact X. }
  destruct F as (k & ->). rewrite rsort_flat. destruct (Nat.eqb _ 0); [discriminate|]. destruct (Z k (1 * IZR (Z.max (nrow m) (ncol m)) / INR (length (repeat c k)))%R) as (n & ->).
  destruct (cut_flat c (Z.of_nat (length (repeat c n)) / 4) (Z.of_nat (length (repeat c n)) - Z.of_nat (length (repeat c n)) / 4 - 1) n) as (l & ->).
  destruct (Nat.eqb_spec (length (repeat c l)) 0) as [|N]; [discriminate|]. destruct (Nat.eqb _ 1); [discriminate|]. rewrite repeat_length in N. rewrite fit_flat by lia. intros [= <-].
  rewrite Rmult_0_l, Rplus_0_r, Rminus_diag_eq by reflexivity. rewrite Rabs_R0. ring.
Qed.
Lemma cut_zrange a b n : 0 <= a -> a <= b -> b <= n -> cut a b (zrange 0 n) = zrange a (b - a).
Proof.
  clear. intros A B N. unfold cut. replace n with (a + ((b - a) + (n - b))) by lia. rewrite zrange_app by lia. rewrite skipn_app, skipn_all2 by (rewrite zrange_length; lia). rewrite zrange_length, Nat.sub_diag. cbn [skipn app].
  rewrite zrange_app by lia. rewrite firstn_app, firstn_all2 by (rewrite zrange_length; lia). rewrite zrange_length, Nat.sub_diag. cbn [firstn]. rewrite app_nil_r. f_equal.
Qed.
Lemma fit_line b s k n : 2 <= n -> line_fit k (map (fun i => b + s * IZR i)%R (zrange k n)) = (s, b).
Proof.
  clear. intros N. unfold line_fit. rewrite map_length, zrange_length, Z2Nat.id by lia. assert (P : (0 < IZR n)%R) by (apply (IZR_lt 0); lia).
  assert (V : forall i, 0 <= i < n -> nth (Z.to_nat i) (map (fun i => b + s * IZR i)%R (zrange k n)) 0%R = (b + s * IZR (k + i))%R).
  { intros i Hi. set (g := fun i => (b + s * IZR i)%R). rewrite (nth_indep _ 0%R (g 0)) by (rewrite map_length, zrange_length; lia). rewrite map_nth, zrange_nth by lia. unfold g. do 3 f_equal. lia. }
  set (xm := (rsum n (fun i => IZR (k + i)) / IZR n)%R).
  assert (M : (rsum n (fun i => nth (Z.to_nat i) (map (fun i => b + s * IZR i)%R (zrange k n)) 0%R) / IZR n = b + s * xm)%R).
  { rewrite (rsum_ext n _ (fun i => s * IZR (k + i) + b)%R) by (intros i Hi; rewrite V by exact Hi; ring). rewrite rsum_add, rsum_scal, rsum_const by lia. unfold xm. field. lra. }
  rewrite M. rewrite (rsum_ext n (fun i => (IZR (k + i) - xm) * _)%R (fun i => s * (IZR (k + i) - xm) ^ 2)%R) by (intros i Hi; rewrite V by exact Hi; simpl pow; ring). rewrite rsum_scal.
  assert (D : (0 < rsum n (fun i => (IZR (k + i) - xm) ^ 2))%R).
  { assert (T : forall i, 0 <= i < n -> (((IZR (k + i) - xm) ^ 2) <= rsum n (fun i => (IZR (k + i) - xm) ^ 2))%R) by (intros i Hi; apply (P_unwrap5.rsum_term n (fun i => ((IZR (k + i) - xm) ^ 2)%R) i); [intros; apply pow2_ge_0|exact Hi]).
    apply Rnot_le_lt. intros L. assert (T0 := T 0 ltac:(lia)). assert (T1 := T 1 ltac:(lia)). rewrite plus_IZR in T0, T1. assert (Q0 := pow2_ge_0 (IZR k + 0 - xm)). assert (Q1 := pow2_ge_0 (IZR k + 1 - xm)).
    assert (E0 : ((IZR k + 0 - xm) ^ 2 = 0)%R) by lra. assert (E1 : ((IZR k + 1 - xm) ^ 2 = 0)%R) by lra. simpl in E0, E1. rewrite Rmult_1_r in E0, E1. apply Rmult_integral in E0. apply Rmult_integral in E1. lra. }
  f_equal; field; lra.
Qed.
Lemma threshold_line (m : img R) snr t b s n : zoom (rsort (flatten m)) (IZR (Z.max (nrow m) (ncol m)) / INR (length (flatten m)))%R = map (fun k => b + s * IZR k)%R (zrange 0 n) -> 0 <= n ->
  mask_threshold zoom m snr = Ok t -> t = (b + s * IZR (n - 1) + Rabs (s * IZR (n - 1)) * snr / 2)%R.
Proof.
  intros Z N. unfold mask_threshold. rewrite rsort_length. destruct (Nat.eqb _ 0); [discriminate|]. rewrite Rmult_1_l, Z, map_length, zrange_length, Z2Nat.id by exact N.
  assert (D : 0 <= n / 4 /\ 4 * (n / 4) <= n) by (split; [apply Z.div_pos; lia|apply Z.mul_div_le; lia]).
  destruct (Z.eq_dec n 0) as [->|Nz]; [change (map (fun k => b + s * IZR k)%R (zrange 0 0)) with (@nil R); cbn; discriminate|].
  destruct (Z_le_gt_dec (n / 4) (n - n / 4 - 1)) as [L|L]; [|exfalso; lia].
  rewrite cut_map, cut_zrange by lia. rewrite map_length, zrange_length. destruct (Nat.eqb_spec (Z.to_nat (n - n / 4 - 1 - n / 4)) 0); [discriminate|]. destruct (Nat.eqb_spec (Z.to_nat (n - n / 4 - 1 - n / 4)) 1); [discriminate|].
  rewrite fit_line by lia. intros [= <-]. replace (b + s * IZR (n - 1) - b)%R with (s * IZR (n - 1))%R by ring. replace (1 / 2)%R with (/ 2)%R by lra. lra.
Qed.
End Z.
