From Verif Require Import Np P_Np M_utility M_conversion M_correction P_utility P_conversion P_conversion3 P_correction M_calculation S_calculation.
From Coq Require Import QArith Qround Qabs Permutation Lqa.
From Coq Require Import List. Import ListNotations.
Open Scope Z_scope.

Lemma gather_fold {V} (f : Z -> V) order s k :
  fold_left (fun s i => fun k => if k =? i then Some (f i) else s k) order s k =
  if existsb (Z.eqb k) order then Some (f k) else s k.
Proof.
  revert s. induction order as [|i t IH]; intros s; cbn; [reflexivity|].
  rewrite IH. destruct (k =? i) eqn:E; cbn; [|reflexivity].
  apply Z.eqb_eq in E. subst. destruct (existsb _ t); reflexivity.
Qed.
Lemma run_list_ok {V} (f : Z -> V) n order : Permutation (zrange 0 n) order -> run_list f n order = Ok (map f (zrange 0 n)).
Proof.
  intros P. unfold run_list. rewrite (map_ext_in _ (fun i => Some (f i))).
  - rewrite all_some_map. reflexivity.
  - intros k Hk. unfold gather. rewrite gather_fold. replace (existsb (Z.eqb k) order) with true; [reflexivity|].
    symmetry. apply existsb_exists. exists k. split; [eapply Permutation_in; eauto | apply Z.eqb_refl].
Qed.
Lemma lnth_ok {V} (l : list V) k d : 0 <= k < Z.of_nat (length l) -> lnth l k = Ok (nth (Z.to_nat k) l d).
Proof.
  intros H. unfold lnth. rewrite py_idx_in by assumption. cbn [bindr].
  rewrite (nth_error_nth' l d) by lia. reflexivity.
Qed.
Lemma argmin_total l : l <> [] -> exists k, argminQ l = Ok k.
Proof. destruct l; [congruence|]. intros _. eexists. reflexivity. Qed.
(** the common pattern: metrics of the candidates, argmin, candidate *)
Lemma search_best {A} (cands : list A) (f : A -> Q) d order : cands <> [] ->
  Permutation (zrange 0 (Z.of_nat (length cands))) order ->
  exists c, (do ms <- run_list (fun i => f (nth (Z.to_nat i) cands d)) (Z.of_nat (length cands)) order;
             do k <- argminQ ms; lnth cands k) = Ok c /\ best f cands c.
Proof.
  intros Hne P. rewrite run_list_ok by assumption. cbn [bindr].
  assert (E : map (fun i => f (nth (Z.to_nat i) cands d)) (zrange 0 (Z.of_nat (length cands))) = map f cands).
  { unfold zrange. rewrite map_map, Nat2Z.id. transitivity (map (fun k => f (nth k cands d)) (seq 0 (length cands))).
    - apply map_ext. intros k. do 2 f_equal. lia.
    - rewrite <- (map_map (fun k => nth k cands d) f). f_equal.
      clear. induction cands as [|a t IH]; [reflexivity|]. cbn [length seq map nth].
      f_equal. rewrite <- seq_shift, map_map. exact IH. }
  rewrite E. destruct (argmin_total (map f cands)) as (k & Hk). { destruct cands; [congruence|discriminate]. }
  rewrite Hk. cbn [bindr]. destruct (argminQ_spec _ _ Hk) as (R & y & Hy & Hmin). rewrite map_length in R.
  rewrite (lnth_ok _ _ d) by assumption. eexists. split; [reflexivity|]. split; [apply nth_In; lia|].
  intros c Hc. assert (f (nth (Z.to_nat k) cands d) = y).
  { rewrite nth_error_map in Hy. rewrite (nth_error_nth' cands d) in Hy by lia. cbn in Hy. congruence. }
  rewrite H. apply Hmin, in_map, Hc.
Qed.

Lemma Qtrunc_clip x n : 1 <= n -> 0 <= Qtrunc (clipQ x 0 (inject_Z (n - 1))) <= n - 1.
Proof.
  intros H. assert (B : (0 <= clipQ x 0 (inject_Z (n - 1)) <= inject_Z (n - 1))%Q).
  { apply clipQ_bounds. change 0%Q with (inject_Z 0). rewrite <- Zle_Qle. lia. }
  unfold Qtrunc. replace (Qle_bool 0 (clipQ x 0 (inject_Z (n - 1)))) with true by (symmetry; apply Qle_bool_iff, B).
  split.
  - rewrite <- (Qfloor_Z 0). apply Qfloor_resp_le. apply B.
  - rewrite <- (Qfloor_Z (n - 1)) at 2. apply Qfloor_resp_le. apply B.
Qed.
(** candidates of the fine search *)
Definition fine_cands (nc : Z) (start radius step : Q) : list Q :=
  map (fun k => clipQ (start + (- radius + inject_Z k * step)) 0 (inject_Z nc - 1)) (zrange 0 (Qceiling ((radius + step - - radius) / step))).
(** where the candidates are *)
Lemma fine_cands_where nc start radius step c : 1 <= nc -> (0 <= radius)%Q -> (0 < step)%Q ->
  In c (fine_cands nc start radius step) ->
  (0 <= c <= inject_Z nc - 1)%Q /\
  exists d, (c == clipQ (start + d) 0 (inject_Z nc - 1))%Q /\ (- radius <= d)%Q /\ (d < radius + step)%Q.
Proof.
  intros Hn Hr Hs H. unfold fine_cands in H. apply in_map_iff in H as (k & <- & Hk). apply zrange_In in Hk.
  assert (1 <= inject_Z nc)%Q by (change 1%Q with (inject_Z 1); rewrite <- Zle_Qle; lia).
  split; [apply clipQ_bounds; lra|]. exists (- radius + inject_Z k * step)%Q. split; [reflexivity|].
  assert (0 <= inject_Z k)%Q by (change 0%Q with (inject_Z 0); rewrite <- Zle_Qle; lia). split; [nra|].
  assert (K : (inject_Z k < (radius + step - - radius) / step)%Q).
  { apply Qnot_le_lt. intros C. pose proof (Qceiling_resp_le _ _ C). rewrite Qceiling_Z in H1. lia. }
  apply (Qmult_lt_r _ _ step Hs) in K. unfold Qdiv in K. rewrite <- Qmult_assoc, (Qmult_comm (/ step)), Qmult_inv_r in K by lra.
  lra.
Qed.
(** every position of the search interval is within one step of a candidate *)
Lemma fine_cands_cover nc start radius step x : 1 <= nc -> (0 <= radius)%Q -> (0 < step)%Q ->
  (start - radius <= x <= start + radius)%Q -> (0 <= x <= inject_Z nc - 1)%Q ->
  exists c, In c (fine_cands nc start radius step) /\ (c <= x)%Q /\ (x - c < step)%Q.
Proof.
  intros Hn Hr Hs Hx Hx'. set (k := Qfloor ((x - start + radius) / step)).
  assert (K1 : (inject_Z k * step <= x - start + radius)%Q).
  { pose proof (Qfloor_le ((x - start + radius) / step)) as L. fold k in L. apply (Qmult_le_r _ _ step Hs) in L.
    unfold Qdiv in L. rewrite <- Qmult_assoc, (Qmult_comm (/ step)), Qmult_inv_r in L by lra. lra. }
  assert (K2 : (x - start + radius < (inject_Z k + 1) * step)%Q).
  { pose proof (Qlt_floor ((x - start + radius) / step)) as L. fold k in L. apply (Qmult_lt_r _ _ step Hs) in L.
    unfold Qdiv in L. rewrite <- Qmult_assoc, (Qmult_comm (/ step)), Qmult_inv_r in L by lra.
    rewrite inject_Z_plus in L. change (inject_Z 1) with 1%Q in L. lra. }
  assert (K0 : 0 <= k).
  { unfold k. rewrite <- (Qfloor_Z 0). apply Qfloor_resp_le. change (inject_Z 0) with 0%Q. apply Qle_shift_div_l; lra. }
  assert (K3 : k < Qceiling ((radius + step - - radius) / step)).
  { rewrite Zlt_Qlt. eapply Qlt_le_trans; [|apply Qle_ceiling]. apply Qlt_shift_div_l; lra. }
  set (v := (start + (- radius + inject_Z k * step))%Q).
  exists (clipQ v 0 (inject_Z nc - 1)). split.
  { unfold fine_cands. apply in_map_iff. exists k. split; [reflexivity|]. apply zrange_In. lia. }
  unfold v in *. unfold clipQ.
  destruct (Qmaxb_spec (start + (- radius + inject_Z k * step)) 0) as (A & B & C).
  destruct (Qminb_spec (Qmaxb (start + (- radius + inject_Z k * step)) 0) (inject_Z nc - 1)) as (D & E & F).
  split; destruct C as [C|C], F as [F|F]; lra.
Qed.
Section S.
Context (twopi : Q) (blur_3_1 blur_2_2 : img Q -> img Q) (cubic : img Q -> Q -> img Q)
        (fmetric : img Q -> img Q -> Q) (corr : img Q -> img Q -> Q).
Notation ccm := (calculate_center_metric cubic fmetric).
Notation wmask := (make_inverse_double_wedge_mask twopi).

Definition metric_of (sino : img Q) (ratio : Q) hor ver (c : Q) : Q :=
  ccm c sino (ifliplr sino) (iflipud sino) (wmask (2 * nrow sino) (ncol sino) ((1#2) * ratio * inject_Z (ncol sino)) hor ver).

Lemma coarse_best sino0 start stop ratio (denoise : bool) hor ver order :
  let sino := if denoise then blur_3_1 sino0 else sino0 in
  let lo := Qtrunc (clipQ start 0 (inject_Z (ncol sino - 1))) in
  let hi := Qtrunc (clipQ stop 0 (inject_Z (ncol sino - 1))) in
  1 <= ncol sino -> lo <= hi -> Permutation (zrange 0 (hi - lo + 1)) order ->
  exists c, coarse_search_cor twopi blur_3_1 cubic fmetric sino0 start stop ratio denoise hor ver order = Ok c /\
    0 <= lo /\ lo <= c <= hi /\ hi <= ncol sino - 1 /\
    forall c', lo <= c' <= hi -> (metric_of sino ratio hor ver (inject_Z c) <= metric_of sino ratio hor ver (inject_Z c'))%Q.
Proof.
  clear blur_2_2 corr. intros sino lo hi Hn Hlh P. unfold coarse_search_cor. fold sino. fold lo hi. cbv zeta.
  assert (Hne : prange lo (hi + 1) <> []).
  { intros E. assert (In lo (prange lo (hi + 1))) by (apply prange_In; lia). rewrite E in H. contradiction. }
  assert (HL : Z.of_nat (length (prange lo (hi + 1))) = hi - lo + 1).
  { unfold prange. rewrite zrange_length. lia. }
  destruct (search_best (prange lo (hi + 1)) (fun z => metric_of sino ratio hor ver (inject_Z z)) 0 order Hne) as (c & E & (I & M)).
  { rewrite HL. exact P. }
  exists c. unfold metric_of in *. split; [exact E|].
  apply prange_In in I. pose proof (Qtrunc_clip start (ncol sino) Hn). pose proof (Qtrunc_clip stop (ncol sino) Hn).
  fold lo in H. fold hi in H0. split; [lia|]. split; [lia|]. split; [lia|].
  intros c' Hc. apply M. apply prange_In. lia.
Qed.
Lemma coarse_empty sino0 start stop ratio (denoise : bool) hor ver order :
  let sino := if denoise then blur_3_1 sino0 else sino0 in
  Qtrunc (clipQ stop 0 (inject_Z (ncol sino - 1))) < Qtrunc (clipQ start 0 (inject_Z (ncol sino - 1))) ->
  is_ok (coarse_search_cor twopi blur_3_1 cubic fmetric sino0 start stop ratio denoise hor ver order) = false.
Proof.
  clear blur_2_2 corr. intros sino H. unfold coarse_search_cor. fold sino. cbv zeta.
  unfold prange. rewrite zrange_nil by lia. cbn. unfold run_list. cbn. reflexivity.
Qed.
Lemma fine_best sino0 start radius step ratio (denoise : bool) hor ver order :
  let sino := if denoise then blur_2_2 sino0 else sino0 in
  let cands := fine_cands (ncol sino) start radius step in
  (0 <= radius)%Q -> (0 < step)%Q -> Permutation (zrange 0 (Z.of_nat (length cands))) order ->
  exists c, fine_search_cor twopi blur_2_2 cubic fmetric sino0 start radius step ratio denoise hor ver order = Ok c /\
    best (metric_of sino ratio hor ver) cands c.
Proof.
  clear blur_3_1 corr. intros sino cands Hr Hs P. unfold fine_search_cor. fold sino. unfold arangeQ.
  destruct (Qeq_bool step 0) eqn:E0. { apply Qeq_bool_iff in E0. lra. }
  cbn [bindr]. rewrite map_map. fold (fine_cands (ncol sino) start radius step). fold cands.
  apply (search_best cands (metric_of sino ratio hor ver) 0%Q order); [|exact P].
  assert (0 < Qceiling ((radius + step - - radius) / step)).
  { assert ((1 <= (radius + step - - radius) / step)%Q). { apply Qle_shift_div_l; lra. }
    pose proof (Qle_ceiling ((radius + step - - radius) / step)). assert (inject_Z 1 <= inject_Z (Qceiling ((radius + step - - radius) / step)))%Q by (eapply Qle_trans; eassumption).
    rewrite <- Zle_Qle in H1. lia. }
  unfold cands, fine_cands. rewrite zrange_cons by assumption. discriminate.
Qed.
End S.
