(** C55, C58, C54: centre searches by slice metric. *)
From Verif Require Import Np P_Np M_utility P_utility M_conversion M_calculation P_calculation M_recon S_recon M_metric S_metric P_metric M_vertrec S_vertrec P_vertrec.
From Coq Require Import QArith Qround Lia Lqa Permutation.
From Coq Require Import List. Import ListNotations.
Open Scope Z_scope.

(** one search: the result is a candidate no other candidate beats, for every metric, direction and task order *)
Theorem slice_metric_search_returns_a_best_candidate :
  forall (S : Type) (score : S -> list Q -> Q -> res Q) (s : S) (start stop step : Q) (invert parallel : bool) (order : Z -> list Z),
  (0 < step)%Q -> (forall n, schedule (zrange 0 n) (order n)) ->
  (forall c, slice_metric_search score s start stop step invert parallel order = Ok c ->
     exists l, lists_candidates start stop step l /\ best_searched (score s l) start stop step invert c) /\
  ((start < stop)%Q -> (forall l, lists_candidates start stop step l -> forall k, searched start stop step k ->
                          exists v, score s l (candidate start step k) = Ok v) ->
     exists c, slice_metric_search score s start stop step invert parallel order = Ok c) /\
  ((stop <= start)%Q -> slice_metric_search score s start stop step invert parallel order = Err ValueError).
Proof.
  intros S score s start stop step invert parallel order Hs O. split; [|split].
  - intros c E. eapply search_ok; eassumption.
  - intros L T. unfold slice_metric_search. destruct (arange_candidates start stop step Hs) as (l & El & LC). rewrite El. cbn [bindr].
    pose proof LC as (n & Dl & Sn).
    assert (N0 : 0 < n). { assert (0 <= 0 < n); [|lia]. apply Sn. split; [lia|]. unfold candidate. change (inject_Z 0) with 0%Q. lra. }
    assert (NE : l <> []). { intros Z. apply (f_equal (@length Q)) in Z. rewrite Dl, map_length, zrange_length in Z. cbn in Z. lia. }
    assert (M : exists m, mapr (score s l) l = Ok m /\ length m = length l).
    { set (g := fun c => match score s l c with Ok v => v | Err _ => 0%Q end). exists (map g l). split; [|apply map_length].
      apply mapr_total. intros c Hc. rewrite Dl in Hc. apply in_map_iff in Hc as (k & <- & Hk). apply zrange_In in Hk.
      destruct (T l LC k) as [v Ev]; [apply Sn; lia|]. unfold g. rewrite Ev. reflexivity. }
    destruct M as (m & Em & Lm).
    assert (F : exists c, opt_center l m invert = Ok c).
    { unfold opt_center. set (m' := if invert then _ else _).
      assert (Lm' : length m' = length l) by (unfold m'; destruct invert; rewrite ?map_length; exact Lm).
      destruct (argmin_total m') as [k Ek]; [intros Z; rewrite Z in Lm'; destruct l; [congruence|discriminate]|].
      rewrite Ek. cbn [bindr]. destruct (argminQ_spec _ _ Ek) as (R & _). rewrite (lnth_ok l k 0%Q) by lia. eexists. reflexivity. }
    destruct l as [|x t] eqn:Dx; [congruence|]. rewrite <- Dx in *.
    destruct parallel; [rewrite metrics_branch by apply O|]; rewrite Em; exact F.
  - intros L. unfold slice_metric_search. destruct (arange_candidates start stop step Hs) as (l & El & n & Dl & Sn). rewrite El. cbn [bindr].
    assert (n <= 0). { destruct (Z_le_gt_dec n 0); [lia|]. destruct (proj1 (Sn 0)) as [_ X]; [lia|]. unfold candidate in X. change (inject_Z 0) with 0%Q in X. lra. }
    assert (Zl : l = []) by (rewrite Dl, zrange_nil by lia; reflexivity). rewrite Zl. reflexivity.
Qed.
Print Assumptions slice_metric_search_returns_a_best_candidate.

Lemma used_zoom_range zoom : let z := clipQ zoom (1#100) 1 in (1#100 <= z)%Q /\ (z <= 1)%Q.
Proof. apply clipQ_bounds. discriminate. Qed.

(** coarse then fine: both stages return an optimum of their own candidates, and the result stays within the widened range *)
Theorem find_center_based_slice_metric_optimum_partial :
  forall (S : Type) (score score_zoom : S -> list Q -> Q -> res Q) (zoomed : S -> Q -> S) (s : S) (start stop step radius zoom : Q)
    (invert parallel : bool) (order1 order2 : Z -> list Z) (c : Q),
  (0 < step)%Q -> (start <= stop)%Q -> (forall n, schedule (zrange 0 n) (order1 n)) -> (forall n, schedule (zrange 0 n) (order2 n)) ->
  find_center_based_slice_metric score score_zoom zoomed s start stop step radius zoom invert parallel order1 order2 = Ok c ->
  let z := clipQ zoom (1#100) 1 in
  let r := Qmaxb radius (step + 1 / z) in
  exists coarse,
    (start <= coarse)%Q /\ (coarse < stop + 1 / z \/ coarse == stop)%Q /\
    ((start < stop)%Q -> exists centre l, (coarse == centre / z)%Q /\
       exists sc sz from to, (from == start * z)%Q /\ (to == stop * z + 1)%Q /\ (sc = score /\ sz = s \/ sc = score_zoom /\ sz = zoomed s z) /\
         lists_candidates from to 1 l /\ best_searched (sc sz l) from to 1 invert centre) /\
    ((radius == 0)%Q -> c = coarse) /\
    (~ (radius == 0)%Q -> (start - r <= c)%Q /\ (c < stop + 1 / z + r + step)%Q /\
       exists l, lists_candidates (coarse - r) (coarse + r + step) step l /\
         best_searched (score s l) (coarse - r) (coarse + r + step) step invert c).
Proof.
  intros S score score_zoom zoomed s start stop step radius zoom invert parallel o1 o2 c Hs Hss O1 O2 E z r.
  destruct (used_zoom_range zoom) as [Z0 Z1]. fold z in Z0, Z1.
  unfold find_center_based_slice_metric in E. fold z in E. fold r in E. cbv zeta in E.
  set (cs := if Qltb z 1 then (start * z)%Q else start) in E. set (ct := if Qltb z 1 then (stop * z)%Q else stop) in E.
  assert (NZ : ~ (z == 0)%Q) by (intros X; rewrite X in Z0; lra).
  assert (Ecs : (cs == start * z)%Q /\ (ct == stop * z)%Q).
  { unfold cs, ct. destruct (Qltb z 1) eqn:B; [split; reflexivity|]. apply Qltb_f in B. assert (X : (z == 1)%Q) by (apply Qle_antisym; assumption).
    rewrite X. split; ring. }
  destruct Ecs as [Ecs Ect].
  assert (Iz : (1 <= 1 / z)%Q) by (apply Qle_shift_div_l; lra).
  set (B := if Qltb cs ct then _ else _) in E.
  assert (CO : exists coarse, B = Ok coarse /\ (start <= coarse)%Q /\ (coarse < stop + 1 / z \/ coarse == stop)%Q /\
     ((start < stop)%Q -> exists centre l, (coarse == centre / z)%Q /\
       exists sc sz from to, (from == start * z)%Q /\ (to == stop * z + 1)%Q /\ (sc = score /\ sz = s \/ sc = score_zoom /\ sz = zoomed s z) /\
         lists_candidates from to 1 l /\ best_searched (sc sz l) from to 1 invert centre)).
  { unfold B in *. clear B. destruct (Qltb cs ct) eqn:L.
    - destruct (slice_metric_search _ _ cs (ct + 1) 1 invert parallel o1) as [cc|] eqn:SE; [|discriminate E].
      exists (cc / z)%Q. split; [reflexivity|].
      assert (P1 : (0 < 1)%Q) by reflexivity. destruct (search_ok _ _ _ _ _ _ _ _ _ P1 O1 SE) as (l & LC & BS).
      pose proof BS as (k & v & [K0 K1] & Ec & _). unfold candidate in K1, Ec.
      assert (C0 : (start <= cc / z)%Q).
      { apply Qle_shift_div_l; [lra|]. rewrite Ec. assert (0 <= inject_Z k)%Q by (rewrite <- (Zle_Qle 0); lia). lra. }
      assert (C1 : (cc / z < stop + 1 / z)%Q).
      { apply Qlt_shift_div_r; [lra|]. rewrite Ec. assert (X : ((stop + 1 / z) * z == stop * z + 1)%Q) by (field; exact NZ). rewrite X. lra. }
      split; [exact C0|]. split; [left; exact C1|]. intros _. exists cc, l. split; [reflexivity|].
      exists (if Qltb z 1 then score_zoom else score), (if Qltb z 1 then zoomed s z else s), cs, (ct + 1)%Q.
      split; [exact Ecs|]. split; [rewrite Ect; reflexivity|]. split; [|split; [exact LC|exact BS] ].
      destruct (Qltb z 1); [right|left]; split; reflexivity.
    - exists (cs / z)%Q. split; [reflexivity|].
      assert (X : (cs / z == start)%Q) by (rewrite Ecs; field; exact NZ).
      apply Qltb_f in L. rewrite Ecs, Ect in L. assert (LE : (stop <= start)%Q) by (apply Qmult_le_r with z; lra).
      split; [rewrite X; lra|]. split; [right; rewrite X; lra|]. intros F. exfalso. lra. }
  destruct CO as (coarse & EB & C0 & C1 & CB). rewrite EB in E. cbn [bindr] in E.
  exists coarse. split; [exact C0|]. split; [exact C1|]. split; [exact CB|].
  destruct (Qeq_bool radius 0) eqn:R.
  - apply Qeq_bool_iff in R. split; [intros _; congruence|]. intros N. contradiction.
  - split; [intros X; apply Qeq_bool_iff in X; congruence|]. intros _.
    destruct (search_ok _ _ _ _ _ _ _ _ _ Hs O2 E) as (l & LC & BS).
    pose proof BS as (k & v & [K0 K1] & Ec & _). rewrite <- Ec in K1. unfold candidate in Ec.
    assert (0 <= inject_Z k * step)%Q. { apply Qmult_le_0_compat; [rewrite <- (Zle_Qle 0); lia|lra]. }
    split; [rewrite Ec; lra|]. split; [destruct C1; lra|]. exists l. split; assumption.
Qed.
Print Assumptions find_center_based_slice_metric_optimum_partial.

Definition ex_score (_ : unit) (_ : list Q) (c : Q) : res Q := if Qltb c 0 then Err ValueError else Ok c.
Lemma ex_schedule : forall n, schedule (zrange 0 n) ((fun n => zrange 0 n) n).
Proof. intros n. apply Permutation_refl. Qed.
(** the claim "inside the searched range" is false: the fine search leaves it *)
Theorem find_center_based_slice_metric_leaves_the_range_refuted :
  exists (score : unit -> list Q -> Q -> res Q) (start stop step radius zoom c : Q),
    (0 < step)%Q /\ (start < stop)%Q /\
    find_center_based_slice_metric score score (fun s _ => s) tt start stop step radius zoom false false (fun n => zrange 0 n) (fun n => zrange 0 n) = Ok c /\
    (c < start)%Q.
Proof. exists ex_score, 10%Q, 20%Q, (1#2)%Q, 2%Q, 1%Q, (candidate (10 / 1 - 2) (1#2) 0). repeat split. Qed.
Print Assumptions find_center_based_slice_metric_leaves_the_range_refuted.
(** and a range of valid centres close to the left edge makes the call fail *)
Theorem find_center_based_slice_metric_fails_near_the_edge_refuted :
  exists (score : unit -> list Q -> Q -> res Q) (start stop step radius zoom : Q),
    (0 < step)%Q /\ (start < stop)%Q /\ (forall s l c, (start <= c)%Q -> exists v, score s l c = Ok v) /\
    find_center_based_slice_metric score score (fun s _ => s) tt start stop step radius zoom false false (fun n => zrange 0 n) (fun n => zrange 0 n)
      = Err ValueError.
Proof.
  exists ex_score, 1%Q, 5%Q, (1#2)%Q, 2%Q, 1%Q. split; [reflexivity|]. split; [reflexivity|]. split; [|vm_compute; reflexivity].
  intros s l c H. exists c. unfold ex_score. destruct (Qltb c 0) eqn:X; [apply Qltb_lt in X; lra|reflexivity].
Qed.
Print Assumptions find_center_based_slice_metric_fails_near_the_edge_refuted.

(** C54: without smoothing the fine search overwrites the caller's sinogram *)
Theorem find_center_based_slice_metric_overwrites_the_sinogram_refuted :
  exists (sino : img Q) (sigma : Q), (sigma == 0)%Q /\ 1 <= nrow sino /\ 1 <= ncol sino /\
    ~ img_Qeq (metric_search_caller sino sigma true true) sino.
Proof.
  exists (mkimg 2 2 (fun _ _ => 0%Q)), 0%Q. split; [reflexivity|]. split; [cbn; lia|]. split; [cbn; lia|].
  intros (_ & _ & E). specialize (E 0 0 ltac:(unfold in_rng; cbn; lia) ltac:(unfold in_rng; cbn; lia)). cbn in E. discriminate.
Qed.
Print Assumptions find_center_based_slice_metric_overwrites_the_sinogram_refuted.

(** it is left alone if the data are positive, smoothed (a new array), not transformed, or only searched coarsely (a copy);
    otherwise exactly the values <= 0 are replaced, by 1 *)
Theorem find_center_based_slice_metric_leaves_the_sinogram_unchanged_partial :
  forall (sino : img Q) (sigma : Q) (apply_log fine : bool),
  let after := metric_search_caller sino sigma apply_log fine in
  nrow after = nrow sino /\ ncol after = ncol sino /\
  forall i j, in_rng (nrow sino) i -> in_rng (ncol sino) j ->
    ((0 < px sino i j)%Q \/ (0 < sigma)%Q \/ apply_log = false \/ fine = false -> px after i j = px sino i j) /\
    ((px sino i j <= 0)%Q -> (sigma <= 0)%Q -> apply_log = true -> fine = true -> px after i j = 1%Q).
Proof.
  intros sino sigma al fi after. unfold after, metric_search_caller.
  destruct fi, al; cbn [andb]; try (repeat split; intros; congruence). destruct (Qle_bool sigma 0) eqn:S; cbn [nrow ncol px].
  - repeat split; intros; unfold fix_log; destruct (Qle_bool (px sino i j) 0) eqn:X; try reflexivity.
    + apply Qle_bool_iff in X, S. destruct H1 as [H1|[H1|[H1|H1] ] ]; try discriminate; lra.
    + exfalso. apply Qle_bool_iff in H1. congruence.
  - repeat split; intros. exfalso. apply Qle_bool_iff in H2. congruence.
Qed.
Print Assumptions find_center_based_slice_metric_leaves_the_sinogram_unchanged_partial.

(** C58: with floating-point arguments the result is a best candidate ... *)
Theorem find_center_vertical_slice_returns_a_best_candidate_partial :
  forall (S : Type) (score : S -> list Q -> Q -> res Q) (s : S) (start stop step : Q) (invert : bool) (c : Q),
  (0 < step)%Q -> find_center_vertical_slice score s start stop step invert false = Ok c ->
  (start <= c)%Q /\ (c < stop + step)%Q /\
  exists l, lists_candidates start (stop + step) step l /\ best_searched (score s l) start (stop + step) step invert c.
Proof.
  intros S score s start stop step invert c Hs E. unfold find_center_vertical_slice in E.
  destruct (arange_candidates start (stop + step) step Hs) as (l & El & LC). rewrite El in E. cbn [bindr] in E.
  destruct (mapr _ l) as [m|] eqn:Em; [|discriminate]. cbn [bindr] in E.
  assert (Em' : mapr (score s l) l = Ok m).
  { rewrite <- Em. clear. generalize l at 2 4 as t. induction t as [|a t IH]; [reflexivity|]. cbn [mapr]. rewrite IH. destruct (score s l a); reflexivity. }
  pose proof (best_from_metrics _ _ _ _ _ _ _ _ LC Em' E) as BS.
  pose proof BS as (k & v & [K0 K1] & Ec & _). rewrite <- Ec in K1. unfold candidate in Ec.
  assert (0 <= inject_Z k * step)%Q. { apply Qmult_le_0_compat; [rewrite <- (Zle_Qle 0); lia|lra]. }
  split; [rewrite Ec; lra|]. split; [exact K1|]. exists l. split; assumption.
Qed.
Print Assumptions find_center_vertical_slice_returns_a_best_candidate_partial.
(** ... with integer start, stop and step the metric is truncated and a worse candidate can be returned *)
Theorem find_center_vertical_slice_truncates_the_metric_refuted :
  exists (score : unit -> list Q -> Q -> res Q) (start stop c c' v v' : Q),
    (forall l, score tt l c = Ok v /\ score tt l c' = Ok v') /\ (start <= c' <= stop)%Q /\ (v' < v)%Q /\
    find_center_vertical_slice score tt start stop 1 false true = Ok c.
Proof.
  exists (fun _ _ c => Ok (/ c)%Q), 2%Q, 3%Q, (candidate 2 1 0), (candidate 2 1 1), (1#2)%Q, (1#3)%Q.
  split; [intros l; split; reflexivity|]. repeat split; discriminate.
Qed.
Print Assumptions find_center_vertical_slice_truncates_the_metric_refuted.

Lemma kept_wider width c c' j : 1 <= width -> (c <= c')%Q -> (c' <= inject_Z width / 2)%Q -> (0 <= c)%Q ->
  kept_column width c j = true -> kept_column width c' j = true.
Proof.
  intros W L H H0 K. unfold kept_column in *.
  assert (A : forall x, (x <= inject_Z width / 2)%Q -> (if Qle_bool x (inject_Z width - x) then x else inject_Z width - x)%Q = x).
  { intros x Hx. assert (Y : (x <= inject_Z width - x)%Q). { assert (inject_Z width / 2 + inject_Z width / 2 == inject_Z width)%Q by field. lra. }
    rewrite (proj2 (Qle_bool_iff _ _) Y). reflexivity. }
  rewrite (A c) in K by lra. rewrite (A c') by exact H. cbv zeta in *.
  pose proof (Qfloor_resp_le _ _ L) as F. pose proof (Qfloor_resp_le _ _ H0) as F0. change (Qfloor 0) with 0 in F0.
  apply andb_prop in K as [K1 K2]. apply Z.leb_le in K1. apply Z.ltb_lt in K2.
  set (r := Qfloor c) in *. set (r' := Qfloor c') in *.
  assert (D : (width - 2 * r') / 2 = (width - 2 * r) / 2 - (r' - r)).
  { replace (width - 2 * r') with (width - 2 * r + (- (r' - r)) * 2) by lia. rewrite Z.div_add by lia. lia. }
  apply andb_true_intro. split; [apply Z.leb_le|apply Z.ltb_lt]; lia.
Qed.
(** the mask: if no candidate lies right of the middle, a column is kept only if it can be reconstructed with every candidate *)
Theorem find_center_vertical_slice_mask_ignores_unreconstructable_columns_partial :
  forall (width : Z) (centers : list Q) (j : Z),
  1 <= width -> centers <> [] -> (forall c, In c centers -> (0 <= c)%Q /\ (c <= inject_Z width / 2)%Q) ->
  (search_mask_col width centers j = 1%Q <-> forall c, In c centers -> kept_column width c j = true).
Proof.
  intros width centers j W NE HC. destruct centers as [|x t]; [congruence|].
  destruct (fold_min_spec t x) as [Mn Mi]. unfold search_mask_col in *. set (mn := fold_left Qminb t x) in *.
  destruct (HC mn Mi) as [M0 M1].
  assert (Y : (mn <= inject_Z width - mn)%Q). { assert (inject_Z width / 2 + inject_Z width / 2 == inject_Z width)%Q by field. lra. }
  assert (EM : Qminb mn (inject_Z width - mn) = mn) by (unfold Qminb; rewrite (proj2 (Qle_bool_iff _ _) Y); reflexivity).
  rewrite EM, Qtrunc_floor in * by exact M0.
  assert (K : kept_column width mn j = ((width - 2 * Qfloor mn) / 2 <=? j) && (j <? (width - 2 * Qfloor mn) / 2 + 2 * Qfloor mn)).
  { unfold kept_column. rewrite (proj2 (Qle_bool_iff _ _) Y). reflexivity. }
  rewrite <- K in *. split.
  - intros E c Hc. apply (kept_wider width mn c j W (Mn c Hc)); [apply HC, Hc|exact M0|]. destruct (kept_column width mn j); [reflexivity|discriminate].
  - intros A. rewrite (A mn Mi). reflexivity.
Qed.
Print Assumptions find_center_vertical_slice_mask_ignores_unreconstructable_columns_partial.

(** right of the middle the mask keeps columns that the reconstruction with the largest candidate cannot give *)
Theorem find_center_vertical_slice_mask_keeps_unreconstructable_columns_refuted :
  exists (width : Z) (centers : list Q) (j : Z), (forall c, In c centers -> (0 <= c)%Q /\ (c <= inject_Z (width - 1))%Q) /\
    search_mask_col width centers j = 1%Q /\ exists c, In c centers /\ kept_column width c j = false.
Proof.
  exists 10, [6; 7; 8; 9]%Q, 1. split; [intros c [<-|[<-|[<-|[<-|[] ] ] ] ]; split; discriminate|]. split; [reflexivity|].
  exists 9%Q. split; [right; right; right; left; reflexivity|reflexivity].
Qed.
Print Assumptions find_center_vertical_slice_mask_keeps_unreconstructable_columns_refuted.

(** hypotheses met by concrete searches *)
Example ex_search : slice_metric_search (fun (_ : unit) (_ : list Q) c => Ok ((c - 7) * (c - 7))%Q) tt 5 9 1 false true (fun n => rev (zrange 0 n)) = Ok (candidate 5 1 2).
Proof. vm_compute. reflexivity. Qed.
Example ex_find : find_center_based_slice_metric (fun (_ : unit) (_ : list Q) c => Ok (- ((c - 7) * (c - 7)))%Q) (fun _ _ c => Ok (- ((c - (7#2)) * (c - (7#2))))%Q)
   (fun s _ => s) tt 4 10 (1#2) 2 (1#2) true false (fun n => zrange 0 n) (fun n => zrange 0 n) = Ok (candidate (candidate (4 * clipQ (1#2) (1#100) 1) 1 1 / clipQ (1#2) (1#100) 1 - (5#2)) (1#2) 7).
Proof. vm_compute. reflexivity. Qed.
Example ex_find_vertical : find_center_vertical_slice (fun (_ : unit) (_ : list Q) c => Ok ((c - 7) * (c - 7))%Q) tt 5 8 (1#2) false false = Ok (candidate 5 (1#2) 4).
Proof. vm_compute. reflexivity. Qed.
Example ex_mask : map (search_mask_col 10 [3; 4; 5]%Q) [1; 2; 7; 8] = [0; 1; 1; 0]%Q.
Proof. reflexivity. Qed.
