(** Proofs about the shift from several points: sorting, averages of the middle of a sorted list. *)
From Coq Require Import Reals Lra ZArith Lia Permutation Sorted.
From Verif Require Import Np P_Np M_phase_R P_phase_R M_corr S_corr P_corr P_corr2 M_local S_local M_global S_global.
From Coq Require Import List. Import ListNotations.
Open Scope R_scope.

Lemma rinsert_perm x l : Permutation (x :: l) (rinsert x l).
Proof.
  induction l as [|y t IH]; cbn [rinsert]; [constructor; constructor|]. destruct (Rltb y x); [|apply Permutation_refl].
  apply perm_trans with (y :: x :: t); [constructor|]. constructor. exact IH.
Qed.
Lemma rsort_perm l : Permutation l (rsort l).
Proof.
  induction l as [|x t IH]; [constructor|]. cbn [rsort fold_right]. fold (rsort t). apply perm_trans with (x :: rsort t); [constructor; exact IH|]. apply rinsert_perm.
Qed.
Lemma rinsert_sorted x l : StronglySorted Rle l -> StronglySorted Rle (rinsert x l).
Proof.
  induction l as [|y t IH]; intros S; cbn [rinsert]; [constructor; constructor|]. inversion S as [|? ? St Fy]; subst. destruct (Rltb y x) eqn:Q.
  - apply Rltb_t in Q. constructor; [apply IH; exact St|]. apply Forall_forall. intros z Hz.
    apply (Permutation_in _ (Permutation_sym (rinsert_perm x t))) in Hz. destruct Hz as [<- |Hz]; [lra|]. rewrite Forall_forall in Fy. apply Fy, Hz.
  - apply Rltb_f in Q. constructor; [exact S|]. constructor; [lra|]. rewrite Forall_forall in Fy |- *. intros z Hz. specialize (Fy z Hz). lra.
Qed.
Lemma rsort_sorted l : StronglySorted Rle (rsort l).
Proof. induction l as [|x t IH]; [constructor|]. cbn [rsort fold_right]. fold (rsort t). apply rinsert_sorted, IH. Qed.
Lemma rsort_length l : length (rsort l) = length l.
Proof. symmetry. apply Permutation_length, rsort_perm. Qed.
Lemma sorted_unique s : forall s', StronglySorted Rle s -> StronglySorted Rle s' -> Permutation s s' -> s = s'.
Proof.
  induction s as [|x t IH]; intros s' S S' P.
  - apply Permutation_nil in P. congruence.
  - destruct s' as [|y t']; [apply Permutation_sym, Permutation_nil in P; discriminate|].
    inversion S as [|? ? St Fx]; subst. inversion S' as [|? ? St' Fy]; subst. rewrite Forall_forall in Fx, Fy.
    assert (E : x = y).
    { assert (Hx : In x (y :: t')) by (apply (Permutation_in _ P); left; reflexivity).
      assert (Hy : In y (x :: t)) by (apply (Permutation_in _ (Permutation_sym P)); left; reflexivity).
      destruct Hx as [E|Hx]; [congruence|]. destruct Hy as [E|Hy]; [congruence|]. apply Rle_antisym; [apply Fx, Hy|apply Fy, Hx]. }
    subst y. f_equal. apply IH; [assumption..|]. apply Permutation_cons_inv with x. exact P.
Qed.
Lemma rsort_unique l s : StronglySorted Rle s -> Permutation l s -> rsort l = s.
Proof. intros S P. apply sorted_unique; [apply rsort_sorted|exact S|]. apply perm_trans with l; [apply Permutation_sym, rsort_perm|exact P]. Qed.
Lemma rsort_respects l l' : Permutation l l' -> rsort l = rsort l'.
Proof. intros P. apply rsort_unique; [apply rsort_sorted|]. apply perm_trans with l'; [exact P|apply rsort_perm]. Qed.
Lemma sorted_nth s : StronglySorted Rle s -> forall i j, (i <= j < length s)%nat -> nth i s 0 <= nth j s 0.
Proof.
  induction 1 as [|x t St IH F]; intros i j H; [cbn in H; lia|]. destruct i as [|i], j as [|j]; cbn [nth]; [lra| |lia|].
  - rewrite Forall_forall in F. apply F, nth_In. cbn in H. lia.
  - apply IH. cbn in H. lia.
Qed.

(** ** elements in the middle *)
Lemma filter_app_len {A} (p : A -> bool) (l l' : list A) : length (filter p (l ++ l')) = (length (filter p l) + length (filter p l'))%nat.
Proof. induction l as [|x t IH]; [reflexivity|]. cbn [app filter]. destruct (p x); cbn [length]; lia. Qed.
Lemma filter_le_len {A} (p : A -> bool) (l : list A) : (length (filter p l) <= length l)%nat.
Proof. induction l as [|x t IH]; [constructor|]. cbn [filter]. destruct (p x); cbn [length]; lia. Qed.
Lemma filter_all {A} (p : A -> bool) (l : list A) : Forall (fun x => p x = true) l -> filter p l = l.
Proof. induction 1 as [|x t H F IH]; [reflexivity|]. cbn [filter]. rewrite H, IH. reflexivity. Qed.
Lemma filter_none {A} (p : A -> bool) (l : list A) : Forall (fun x => p x = false) l -> filter p l = [].
Proof. induction 1 as [|x t H F IH]; [reflexivity|]. cbn [filter]. rewrite H, IH. reflexivity. Qed.
Lemma filter_perm_len {A} (p : A -> bool) (l l' : list A) : Permutation l l' -> length (filter p l) = length (filter p l').
Proof. induction 1; cbn [filter]; try (destruct (p x)); try (destruct (p y)); cbn [length]; congruence. Qed.
Lemma low_nth s good bad a j : StronglySorted Rle s -> Permutation s (good ++ bad) -> Forall (fun x => a < x) good -> (length bad <= j < length s)%nat -> a < nth j s 0.
Proof.
  intros S P F H. apply Rnot_le_lt. intros L. set (p := fun x => negb (Rltb a x)).
  assert (Fa : Forall (fun x => p x = true) (firstn (Datatypes.S j) s)).
  { apply Forall_forall. intros x Hx. apply In_nth with (d := 0) in Hx. destruct Hx as (i & Hi & <-). rewrite firstn_length in Hi.
    assert (E : nth i (firstn (Datatypes.S j) s) 0 = nth i s 0).
    { rewrite <- (firstn_skipn (Datatypes.S j) s) at 2. rewrite app_nth1; [reflexivity|]. rewrite firstn_length. exact Hi. }
    rewrite E. unfold p. replace (Rltb a (nth i s 0)) with false; [reflexivity|]. symmetry. destruct (Rltb a (nth i s 0)) eqn:Q; [|reflexivity].
    apply Rltb_t in Q. assert (nth i s 0 <= nth j s 0) by (apply sorted_nth; [assumption|lia]). lra. }
  assert (L1 : (Datatypes.S j <= length (filter p s))%nat).
  { rewrite <- (firstn_skipn (Datatypes.S j) s). rewrite filter_app_len, (filter_all p _ Fa), firstn_length. lia. }
  rewrite (filter_perm_len p _ _ P), filter_app_len in L1. rewrite (filter_none p good) in L1.
  - pose proof (filter_le_len p bad). cbn [length] in L1. lia.
  - eapply Forall_impl; [|exact F]. intros x Hx. cbn beta in Hx. unfold p. replace (Rltb a x) with true; [reflexivity|]. symmetry.
    destruct (Rltb a x) eqn:Q; [reflexivity|]. apply Rltb_f in Q. lra.
Qed.
Lemma high_nth s good bad c j : StronglySorted Rle s -> Permutation s (good ++ bad) -> Forall (fun x => x < c) good -> (j + length bad < length s)%nat -> nth j s 0 < c.
Proof.
  intros S P F H. apply Rnot_le_lt. intros L. set (p := fun x => negb (Rltb x c)).
  assert (Fa : Forall (fun x => p x = true) (skipn j s)).
  { apply Forall_forall. intros x Hx. apply In_nth with (d := 0) in Hx. destruct Hx as (i & Hi & <-). rewrite skipn_length in Hi.
    assert (E : nth i (skipn j s) 0 = nth (j + i) s 0).
    { rewrite <- (firstn_skipn j s) at 2. rewrite app_nth2; rewrite firstn_length; [f_equal; lia|lia]. }
    rewrite E. unfold p. replace (Rltb (nth (j + i) s 0) c) with false; [reflexivity|]. symmetry. destruct (Rltb (nth (j + i) s 0) c) eqn:Q; [|reflexivity].
    apply Rltb_t in Q. assert (nth j s 0 <= nth (j + i) s 0) by (apply sorted_nth; [assumption|lia]). lra. }
  assert (L1 : (length s - j <= length (filter p s))%nat).
  { rewrite <- (firstn_skipn j s) at 2. rewrite filter_app_len, (filter_all p _ Fa), skipn_length. lia. }
  rewrite (filter_perm_len p _ _ P), filter_app_len in L1. rewrite (filter_none p good) in L1.
  - pose proof (filter_le_len p bad). cbn [length] in L1. lia.
  - eapply Forall_impl; [|exact F]. intros x Hx. cbn beta in Hx. unfold p. replace (Rltb x c) with true; [reflexivity|]. symmetry.
    destruct (Rltb x c) eqn:Q; [reflexivity|]. apply Rltb_f in Q. lra.
Qed.

(** ** averages *)
Lemma lmean_total l : lmean l = average l.
Proof.
  unfold lmean, average. f_equal. assert (G : forall a, fold_left Rplus l a = a + total l).
  { induction l as [|x t IH]; intros a; cbn [fold_left]; [unfold total; cbn; lra|]. rewrite IH. unfold total. cbn [fold_right]. lra. }
  rewrite G. lra.
Qed.
Lemma total_low a l : Forall (fun x => a < x) l -> l <> [] -> INR (length l) * a < total l.
Proof.
  intros F. induction F as [|x t H F IH]; [congruence|]. intros _. change (length (x :: t)) with (Datatypes.S (length t)). rewrite S_INR.
  change (total (x :: t)) with (x + total t). destruct t as [|y t]; [unfold total; cbn; lra|]. specialize (IH ltac:(discriminate)). lra.
Qed.
Lemma total_opp l : total (map Ropp l) = - total l.
Proof. induction l as [|x t IH]; [unfold total; cbn; lra|]. change (total (map Ropp (x :: t))) with (- x + total (map Ropp t)). rewrite IH. change (total (x :: t)) with (x + total t). lra. Qed.
Lemma average_low a l : Forall (fun x => a < x) l -> l <> [] -> a < average l.
Proof.
  intros F N. pose proof (total_low a l F N). unfold average. assert (0 < INR (length l)) by (destruct l; [congruence|apply lt_0_INR; cbn; lia]).
  apply Rmult_lt_reg_r with (INR (length l)); [assumption|]. unfold Rdiv. rewrite Rmult_assoc, Rinv_l by lra. lra.
Qed.
Lemma average_opp l : average (map Ropp l) = - average l.
Proof. unfold average. rewrite total_opp, map_length. unfold Rdiv. lra. Qed.
Lemma average_high c l : Forall (fun x => x < c) l -> l <> [] -> average l < c.
Proof.
  intros F N. assert (- c < average (map Ropp l)).
  { apply average_low; [|intros E; apply map_eq_nil in E; congruence]. rewrite Forall_map. eapply Forall_impl; [|exact F]. cbn. intros; lra. }
  rewrite average_opp in H. lra.
Qed.
Lemma total_perm l l' : Permutation l l' -> total l = total l'.
Proof. induction 1; unfold total in *; cbn [fold_right]; lra. Qed.
Lemma average_perm l l' : Permutation l l' -> average l = average l'.
Proof. intros P. unfold average. rewrite (total_perm l l' P), (Permutation_length P). reflexivity. Qed.

(** ** the global value as the average of a slice of the sorted values *)
Definition middle (b e : nat) (l : list R) : list R := firstn (e - b) (skipn b l).
Definition bounds (how : global_value) (n : nat) : nat * nat :=
  match how with
  | Median => if Nat.even n then (n / 2 - 1, n / 2 + 1)%nat else (n / 2, n / 2 + 1)%nat
  | Mixed => (n / 2 - 3, Nat.min (n / 2 + 3) n)%nat
  | Mean => if Nat.ltb 7 n then (2, n - 2)%nat else (0, n)%nat end.
Lemma cut_middle {b e : nat} (b' e' : Z) (l : list R) : b' = Z.of_nat b -> e' = Z.of_nat e -> cut b' e' l = middle b e l.
Proof. intros -> ->. unfold cut, middle. f_equal; [lia|]. rewrite Nat2Z.id. reflexivity. Qed.
Lemma middle_one (s : list R) k : (k < length s)%nat -> middle k (k + 1) s = [nth k s 0].
Proof.
  intros H. unfold middle. replace (k + 1 - k)%nat with 1%nat by lia. revert k H. induction s as [|x t IH]; intros k H; [cbn in H; lia|].
  destruct k as [|k]; [reflexivity|]. cbn [skipn nth]. apply IH. cbn in H. lia.
Qed.
Lemma middle_two (s : list R) k : (1 <= k < length s)%nat -> middle (k - 1) (k + 1) s = [nth (k - 1) s 0; nth k s 0].
Proof.
  intros H. unfold middle. replace (k + 1 - (k - 1))%nat with 2%nat by lia. destruct k as [|k]; [lia|]. replace (S k - 1)%nat with k by lia.
  revert k H. induction s as [|x t IH]; intros k H; [cbn in H; lia|]. destruct k as [|k].
  - destruct t as [|y t]; [cbn in H; lia|]. reflexivity.
  - cbn [skipn]. change (nth (S (S k)) (x :: t) 0) with (nth (S k) t 0). change (nth (S k) (x :: t) 0) with (nth k t 0). apply IH. cbn in H. lia.
Qed.
Lemma even_half n : Nat.even n = true -> (n = 2 * (n / 2))%nat.
Proof. intros E. apply Nat.even_spec in E. destruct E as (m & ->). rewrite Nat.mul_comm, Nat.div_mul by lia. lia. Qed.
Lemma median_middle l : l <> [] -> np_median l = average (middle (fst (bounds Median (length l))) (snd (bounds Median (length l))) (rsort l)).
Proof.
  intros N. unfold np_median, bounds. assert (L : (0 < length l)%nat) by (destruct l; [congruence|cbn; lia]). destruct (Nat.even (length l)) eqn:Ev; cbn [fst snd].
  - pose proof (even_half _ Ev) as H. rewrite middle_two by (rewrite rsort_length; lia). unfold average, total. cbn. lra.
  - rewrite middle_one by (rewrite rsort_length; apply Nat.div_lt; lia). unfold average, total. cbn. lra.
Qed.
Lemma summarise_middle how l : l <> [] -> summarise how l = average (middle (fst (bounds how (length l))) (snd (bounds how (length l))) (rsort l)).
Proof.
  intros N. assert (L : (0 < length l)%nat) by (destruct l; [congruence|cbn; lia]). destruct how; unfold summarise; [apply median_middle; exact N| |].
  - assert (D : Z.div (Z.of_nat (length l)) 2 = Z.of_nat (length l / 2)) by (rewrite Nat2Z.inj_div; reflexivity). rewrite D.
    assert (H2 : (length l / 2 < length l)%nat) by (apply Nat.div_lt; lia).
    assert (E1 : Z.max (Z.of_nat (length l / 2) - 3) 0 = Z.of_nat (length l / 2 - 3)) by lia.
    assert (E2 : clipZ (Z.of_nat (length l / 2) + 3) (Z.of_nat (length l / 2)) (Z.of_nat (length l)) = Z.of_nat (Nat.min (length l / 2 + 3) (length l))) by (unfold clipZ; lia).
    rewrite E1, E2. destruct (Z.ltb_spec (Z.of_nat (length l / 2 - 3)) (Z.of_nat (Nat.min (length l / 2 + 3) (length l)))); [|lia].
    rewrite lmean_total. f_equal. apply cut_middle; reflexivity.
  - unfold bounds. destruct (Z.ltb_spec 7 (Z.of_nat (length l))) as [H|H]; destruct (Nat.ltb_spec 7 (length l)) as [H'|H']; try lia; cbn [fst snd]; rewrite lmean_total.
    + f_equal. apply cut_middle; lia.
    + unfold middle. cbn [skipn]. rewrite Nat.sub_0_r, <- (rsort_length l), firstn_all. apply average_perm, rsort_perm.
Qed.
Lemma bounds_ok how n : (0 < n)%nat -> let (b, e) := bounds how n in (b < e <= n /\ tolerated how n <= b /\ e + tolerated how n <= n)%nat.
Proof.
  intros N. assert (D : (n = 2 * (n / 2) + n mod 2)%nat) by (apply Nat.div_mod; lia). assert (M : (n mod 2 < 2)%nat) by (apply Nat.mod_upper_bound; lia). unfold bounds, tolerated. destruct how.
  - assert (D' : (n - 1 = 2 * ((n - 1) / 2) + (n - 1) mod 2)%nat) by (apply Nat.div_mod; lia). assert (M' : ((n - 1) mod 2 < 2)%nat) by (apply Nat.mod_upper_bound; lia).
    destruct (Nat.even n) eqn:Ev; [pose proof (even_half _ Ev); lia|]. lia.
  - lia.
  - destruct (Nat.ltb_spec 7 n); lia.
Qed.
Lemma middle_length b e (s : list R) : (b <= e <= length s)%nat -> length (middle b e s) = (e - b)%nat.
Proof. intros H. unfold middle. rewrite firstn_length, skipn_length. lia. Qed.
Lemma middle_nth b e (s : list R) j : (b + j < e)%nat -> (e <= length s)%nat -> nth j (middle b e s) 0 = nth (b + j) s 0.
Proof.
  intros H L. unfold middle. rewrite <- (firstn_skipn b s) at 2. rewrite app_nth2; rewrite firstn_length; [|lia]. replace (b + j - Nat.min b (length s))%nat with j by lia.
  rewrite <- (firstn_skipn (e - b) (skipn b s)) at 2. rewrite app_nth1; [reflexivity|]. rewrite firstn_length, skipn_length. lia.
Qed.
Lemma middle_In b e (s : list R) x : (b <= e <= length s)%nat -> In x (middle b e s) -> exists j, (b <= j < e)%nat /\ x = nth j s 0.
Proof.
  intros H I. apply In_nth with (d := 0) in I. destruct I as (j & Hj & <-). rewrite middle_length in Hj by lia. exists (b + j)%nat. split; [lia|]. apply middle_nth; lia.
Qed.
(** all but the tolerated number of values strictly between a and c *)
Lemma summarise_between how l a c : l <> [] -> all_but (tolerated how (length l)) (fun x => a < x < c) l -> a < summarise how l < c.
Proof.
  intros N (good & bad & P & B & F). assert (L : (0 < length l)%nat) by (destruct l; [congruence|cbn; lia]).
  pose proof (bounds_ok how (length l) L) as Bo. rewrite summarise_middle by exact N. destruct (bounds how (length l)) as [b e]. cbn [fst snd] in *.
  destruct Bo as (B1 & B2 & B3).
  assert (Ps : Permutation (rsort l) (good ++ bad)) by (apply perm_trans with l; [apply Permutation_sym, rsort_perm|exact P]).
  pose proof (rsort_length l) as Ls. pose proof (rsort_sorted l) as S.
  assert (Ne : middle b e (rsort l) <> []) by (intros E; pose proof (middle_length b e (rsort l) ltac:(lia)) as Q; rewrite E in Q; cbn in Q; lia).
  split.
  - apply average_low; [|exact Ne]. apply Forall_forall. intros x Hx. apply middle_In in Hx; [|lia]. destruct Hx as (j & Hj & ->).
    apply (low_nth _ good bad); try assumption; [|lia]. eapply Forall_impl; [|exact F]. cbn. intros; lra.
  - apply average_high; [|exact Ne]. apply Forall_forall. intros x Hx. apply middle_In in Hx; [|lia]. destruct Hx as (j & Hj & ->).
    apply (high_nth _ good bad); try assumption; [|lia]. eapply Forall_impl; [|exact F]. cbn. intros; lra.
Qed.
Lemma summarise_within how l a c : l <> [] -> all_but (tolerated how (length l)) (fun x => a <= x <= c) l -> a <= summarise how l <= c.
Proof.
  intros N (good & bad & P & B & F).
  assert (G : forall eps, 0 < eps -> a - eps < summarise how l < c + eps).
  { intros eps He. apply summarise_between; [exact N|]. exists good, bad. split; [exact P|]. split; [exact B|]. eapply Forall_impl; [|exact F]. cbn. intros; lra. }
  split; apply le_epsilon; intros eps He; specialize (G eps He); lra.
Qed.
Lemma summarise_perm how l l' : Permutation l l' -> summarise how l = summarise how l'.
Proof.
  intros P. destruct l as [|x t]; [apply Permutation_nil in P; subst; reflexivity|].
  assert (N' : l' <> []) by (intros ->; apply Permutation_sym, Permutation_nil in P; discriminate).
  rewrite !summarise_middle by (assumption || discriminate). rewrite (rsort_respects _ _ P), (Permutation_length P). reflexivity.
Qed.

(** ** symmetric values *)
Lemma flip_sorted c s : StronglySorted Rle s -> StronglySorted Rle (rev (map (fun x => 2 * c - x) s)).
Proof.
  induction 1 as [|x t St IH F]; cbn [map rev]; [constructor|].
  assert (G : forall u v, StronglySorted Rle u -> Forall (fun y => y <= v) u -> StronglySorted Rle (u ++ [v])).
  { induction u as [|y u IHu]; intros v Su Fu; cbn [app]; [constructor; constructor|]. inversion Su; subst. inversion Fu; subst. constructor; [apply IHu; assumption|].
    apply Forall_app. split; [assumption|]. constructor; [assumption|constructor]. }
  apply G; [exact IH|]. apply Forall_rev. rewrite Forall_map. eapply Forall_impl; [|exact F]. cbn. intros; lra.
Qed.
Lemma centred_nth c l j : centred c l -> (j < length l)%nat -> nth j (rsort l) 0 + nth (length l - 1 - j) (rsort l) 0 = 2 * c.
Proof.
  intros C H. assert (E : rsort l = rev (map (fun x => 2 * c - x) (rsort l))).
  { apply rsort_unique; [apply flip_sorted, rsort_sorted|]. apply perm_trans with (map (fun x => 2 * c - x) l); [exact C|].
    apply perm_trans with (map (fun x => 2 * c - x) (rsort l)); [apply Permutation_map, rsort_perm|apply Permutation_rev]. }
  pose proof (rsort_length l) as L.
  assert (Q : nth j (rsort l) 0 = 2 * c - nth (length l - 1 - j) (rsort l) 0).
  { rewrite E at 1. rewrite rev_nth by (rewrite map_length; lia). rewrite map_length, L.
    rewrite (nth_indep _ 0 (2 * c - 0)) by (rewrite map_length; lia). rewrite (map_nth (fun x => 2 * c - x)). f_equal. f_equal. lia. }
  lra.
Qed.
Lemma middle_centred c l b e : centred c l -> (b < e)%nat -> (b + e = length l)%nat -> average (middle b e (rsort l)) = c.
Proof.
  intros C H L. pose proof (rsort_length l) as Ls. set (m := middle b e (rsort l)). assert (Lm : length m = (e - b)%nat) by (apply middle_length; lia).
  assert (R : m = rev (map (fun x => 2 * c - x) m)).
  { apply nth_ext with 0 0; [rewrite rev_length, map_length; reflexivity|]. intros j Hj. rewrite rev_nth by (rewrite map_length; exact Hj).
    rewrite ?map_length. rewrite (nth_indep (map _ m) 0 (2 * c - 0)) by (rewrite map_length; lia). rewrite (map_nth (fun x => 2 * c - x)). rewrite Lm in *.
    unfold m. rewrite !middle_nth by lia. pose proof (centred_nth c l (b + j) C ltac:(lia)) as Q. replace (length l - 1 - (b + j))%nat with (b + (e - b - S j))%nat in Q by lia. lra. }
  assert (T : total m = INR (length m) * (2 * c) - total m).
  { rewrite R at 1. rewrite <- (total_perm _ _ (Permutation_rev _)). clear. induction m as [|x t IH]; [unfold total; cbn; lra|].
    cbn [map]. change (total (2 * c - x :: map (fun x => 2 * c - x) t)) with (2 * c - x + total (map (fun x => 2 * c - x) t)). rewrite IH.
    change (total (x :: t)) with (x + total t). change (length (x :: t)) with (S (length t)). rewrite S_INR. lra. }
  unfold average. assert (0 < INR (length m)) by (apply lt_0_INR; lia). apply Rmult_eq_reg_r with (INR (length m)); [|lra].
  unfold Rdiv. rewrite Rmult_assoc, Rinv_l by lra. lra.
Qed.
