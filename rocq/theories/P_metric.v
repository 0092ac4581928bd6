(** Proofs about the centre searches by metric. *)
From Verif Require Import Np P_Np M_utility P_utility M_conversion M_calculation P_calculation M_recon M_metric S_metric.
From Coq Require Import QArith Qround Lia Lqa Permutation.
From Coq Require Import List. Import ListNotations.
Open Scope Z_scope.

Lemma arange_candidates a b s : (0 < s)%Q -> exists l, arangeQ a b s = Ok l /\ lists_candidates a b s l.
Proof.
  intros Hs. unfold arangeQ. destruct (Qeq_bool s 0) eqn:E0; [apply Qeq_bool_iff in E0; lra|].
  eexists. split; [reflexivity|]. exists (Qceiling ((b - a) / s)). split; [reflexivity|].
  intros k. unfold searched, candidate. split; intros [K0 K1]; (split; [exact K0|]).
  - assert (inject_Z k < (b - a) / s)%Q.
    { destruct (Qlt_le_dec (inject_Z k) ((b - a) / s)) as [L|L]; [exact L|]. exfalso.
      apply Qceiling_resp_le in L. rewrite Qceiling_Z in L. lia. }
    assert (inject_Z k * s < b - a)%Q; [|lra].
    apply (Qmult_lt_r _ _ s Hs) in H. unfold Qdiv in H.
    assert (E : ((b - a) * / s * s == b - a)%Q) by (field; lra). rewrite E in H. exact H.
  - assert (inject_Z k < (b - a) / s)%Q by (apply Qlt_shift_div_l; lra).
    pose proof (Qle_ceiling ((b - a) / s)) as C. assert (L : (inject_Z k < inject_Z (Qceiling ((b - a) / s)))%Q) by (eapply Qlt_le_trans; eassumption).
    rewrite <- Zlt_Qlt in L. exact L.
Qed.
Lemma fold_max_spec t x : (forall y, In y (x :: t) -> (y <= fold_left Qmaxb t x)%Q) /\ In (fold_left Qmaxb t x) (x :: t).
Proof.
  revert x. induction t as [|a t IH]; intros x; cbn [fold_left].
  - split; [intros y [<-|[] ]; apply Qle_refl|left; reflexivity].
  - destruct (IH (Qmaxb x a)) as [B I]. split.
    + intros y [<-|[<-|Hy] ].
      * apply Qle_trans with (Qmaxb x a); [|apply B; left; reflexivity]. unfold Qmaxb. destruct (Qle_bool x a) eqn:E; [apply Qle_bool_iff in E; exact E|apply Qle_refl].
      * apply Qle_trans with (Qmaxb x a); [|apply B; left; reflexivity]. unfold Qmaxb. destruct (Qle_bool x a) eqn:E; [apply Qle_refl|].
        apply Qlt_le_weak. apply Qnot_le_lt. intros L. apply Qle_bool_iff in L. congruence.
      * apply B. right. exact Hy.
    + destruct I as [E|I]; [|right; right; exact I]. rewrite <- E. unfold Qmaxb. destruct (Qle_bool x a); [right; left|left]; reflexivity.
Qed.
Lemma fold_min_spec t x : (forall y, In y (x :: t) -> (fold_left Qminb t x <= y)%Q) /\ In (fold_left Qminb t x) (x :: t).
Proof.
  revert x. induction t as [|a t IH]; intros x; cbn [fold_left].
  - split; [intros y [<-|[] ]; apply Qle_refl|left; reflexivity].
  - destruct (IH (Qminb x a)) as [B I]. split.
    + intros y [<-|[<-|Hy] ].
      * apply Qle_trans with (Qminb x a); [apply B; left; reflexivity|]. unfold Qminb. destruct (Qle_bool x a) eqn:E; [apply Qle_refl|].
        apply Qlt_le_weak. apply Qnot_le_lt. intros L. apply Qle_bool_iff in L. congruence.
      * apply Qle_trans with (Qminb x a); [apply B; left; reflexivity|]. unfold Qminb. destruct (Qle_bool x a) eqn:E; [apply Qle_bool_iff in E; exact E|apply Qle_refl].
      * apply B. right. exact Hy.
    + destruct I as [E|I]; [|right; right; exact I]. rewrite <- E. unfold Qminb. destruct (Qle_bool x a); [left|right; left]; reflexivity.
Qed.
(** the optimum of the stored metrics *)
Lemma opt_best centers metrics invert c : length metrics = length centers -> opt_center centers metrics invert = Ok c ->
  exists k v, nth_error centers k = Some c /\ nth_error metrics k = Some v /\
    forall v', In v' metrics -> if invert then (v' <= v)%Q else (v <= v')%Q.
Proof.
  intros L E. unfold opt_center in E. set (m := if invert then _ else _) in E.
  destruct (argminQ m) as [k|] eqn:A; [|discriminate]. cbn [bindr] in E. destruct (argminQ_spec m k A) as (R & y & Ny & Min).
  assert (Lm : length m = length centers) by (unfold m; destruct invert; rewrite ?map_length; exact L).
  rewrite (lnth_ok centers k 0%Q) in E by lia. injection E as E.
  exists (Z.to_nat k). assert (Nc : nth_error centers (Z.to_nat k) = Some c) by (rewrite (nth_error_nth' centers 0%Q) by lia; congruence).
  destruct (nth_error metrics (Z.to_nat k)) as [v|] eqn:Nv; [|apply nth_error_None in Nv; lia].
  exists v. split; [exact Nc|]. split; [reflexivity|]. intros v' Hv. unfold m in *. destruct invert.
  - rewrite nth_error_map, Nv in Ny. cbn in Ny. injection Ny as <-. specialize (Min _ (in_map _ _ _ Hv)). cbv beta in Min. lra.
  - rewrite Nv in Ny. injection Ny as <-. apply Min, Hv.
Qed.
Lemma map_nth_seq {A} (l : list A) d : map (fun i => nth (Z.to_nat i) l d) (zrange 0 (Z.of_nat (length l))) = l.
Proof.
  unfold zrange. rewrite map_map, Nat2Z.id. transitivity (map (fun k => nth k l d) (seq 0 (length l))).
  - apply map_ext. intros k. f_equal. lia.
  - induction l as [|a t IH]; [reflexivity|]. cbn [length seq map nth]. f_equal. rewrite <- seq_shift, map_map. exact IH.
Qed.
Lemma mapr_map {A B C} (f : B -> res C) (g : A -> B) l : mapr f (map g l) = mapr (fun x => f (g x)) l.
Proof. induction l as [|a l IH]; [reflexivity|]. cbn [map mapr]. rewrite IH. reflexivity. Qed.
(** both branches compute the metrics of the candidates *)
Lemma metrics_branch (f : Q -> res Q) l order : Permutation (zrange 0 (Z.of_nat (length l))) order ->
  (do r <- run_list (fun i => f (nth (Z.to_nat i) l 0%Q)) (Z.of_nat (length l)) order; mapr (fun x => x) r) = mapr f l.
Proof.
  intros P. rewrite run_list_ok by exact P. cbn [bindr]. rewrite mapr_map.
  transitivity (mapr f (map (fun i => nth (Z.to_nat i) l 0%Q) (zrange 0 (Z.of_nat (length l))))); [rewrite mapr_map; reflexivity|].
  rewrite map_nth_seq. reflexivity.
Qed.
Lemma mapr_nth {A B} (f : A -> res B) l r k x : mapr f l = Ok r -> nth_error l k = Some x -> exists y, nth_error r k = Some y /\ f x = Ok y.
Proof.
  intros E. apply mapr_ok in E. revert k. induction E as [|a b l r H F IH]; intros k N; [destruct k; discriminate|].
  destruct k; [cbn in N; injection N as <-; exists b; split; [reflexivity|exact H]|]. apply IH, N.
Qed.
Lemma candidate_nth a s n k : 0 <= k < n -> nth_error (map (candidate a s) (zrange 0 n)) (Z.to_nat k) = Some (candidate a s k).
Proof.
  intros H. rewrite (nth_error_nth' _ 0%Q) by (rewrite map_length, zrange_length; lia). f_equal.
  rewrite (nth_map_zrange (candidate a s)) by exact H. reflexivity.
Qed.
Lemma best_from_metrics (f : Q -> res Q) start stop step l metrics invert c :
  lists_candidates start stop step l -> mapr f l = Ok metrics -> opt_center l metrics invert = Ok c ->
  best_searched f start stop step invert c.
Proof.
  intros (n & El & Sn) Em Eo.
  assert (L : length metrics = length l) by (apply mapr_ok, Forall2_length in Em; congruence).
  destruct (opt_best _ _ _ _ L Eo) as (k & v & Nc & Nv & Best).
  assert (Ln : length l = Z.to_nat n) by (rewrite El, map_length, zrange_length; reflexivity).
  assert (Hk : (k < length l)%nat) by (apply nth_error_Some; congruence).
  assert (Hk' : 0 <= Z.of_nat k < n) by lia.
  assert (Ec : c = candidate start step (Z.of_nat k)).
  { pose proof (candidate_nth start step n (Z.of_nat k) Hk') as X. rewrite Nat2Z.id, <- El in X. congruence. }
  destruct (mapr_nth f l metrics k c Em Nc) as (y & Ny & Fy). rewrite Nv in Ny. injection Ny as <-.
  exists (Z.of_nat k), v. split; [apply Sn; exact Hk'|]. split; [exact Ec|]. split; [exact Fy|].
  intros k' Hk2. apply Sn in Hk2. pose proof (candidate_nth start step n k' Hk2) as X. rewrite <- El in X.
  destruct (mapr_nth f l metrics _ _ Em X) as (y & Ny & Fy2). exists y. split; [exact Fy2|]. apply Best. eapply nth_error_In, Ny.
Qed.
Lemma search_ok {S} (sc : S -> list Q -> Q -> res Q) s start stop step invert parallel order c : (0 < step)%Q ->
  (forall n, schedule (zrange 0 n) (order n)) ->
  slice_metric_search sc s start stop step invert parallel order = Ok c ->
  exists l, lists_candidates start stop step l /\ best_searched (sc s l) start stop step invert c.
Proof.
  intros Hs P E. unfold slice_metric_search in E. destruct (arange_candidates start stop step Hs) as (l & El & LC).
  rewrite El in E. cbn [bindr] in E. exists l. split; [exact LC|].
  destruct l as [|x t] eqn:Dl; [discriminate|]. rewrite <- Dl in *.
  destruct parallel.
  - rewrite metrics_branch in E by apply P. destruct (mapr (sc s l) l) as [m|] eqn:Em; [|discriminate]. cbn [bindr] in E.
    eapply best_from_metrics; eassumption.
  - destruct (mapr (sc s l) l) as [m|] eqn:Em; [|discriminate]. cbn [bindr] in E. eapply best_from_metrics; eassumption.
Qed.
