(** Proofs about the line target, continued: the two loops and the pattern. *)
From Coq Require Import Reals Lra ZArith Lia Bool.
From Verif Require Import Np P_Np M_phase_R M_simR M_linetarget S_linetarget P_face P_linetarget.
From Coq Require Import List. Import ListNotations.
Open Scope Z_scope.

Lemma right_middle_next h w : right_middle h (w + 1) = right_middle h w + 6 * w + 6.
Proof. unfold right_middle. ring. Qed.
Lemma left_middle_prev h n w : left_middle h n (w - 1) = left_middle h n w - 6 * w - 6.
Proof. unfold left_middle. ring. Qed.
(** all bars of the widths w + 1 .. w + k on the right *)
Definition right_bars (h w : Z) (k : nat) : list bar := flat_map (fun v => right_group v (right_middle h v) (right_middle h v + 3 * 2 * v)) (zrange (w + 1) (Z.of_nat k)).
Lemma right_bars_cons h w k : right_bars h w (S k) = right_group (w + 1) (right_middle h (w + 1)) (right_middle h (w + 1) + 3 * 2 * (w + 1)) ++ right_bars h (w + 1) k.
Proof. unfold right_bars. rewrite (zrange_cons (w + 1)) by lia. cbn [flat_map]. replace (Z.of_nat (S k) - 1) with (Z.of_nat k) by lia. reflexivity. Qed.
Lemma right_loop_spec size h fuel : forall w, 0 <= w -> (0 < fuel)%nat -> size / 2 - right_middle h (w + 1) < Z.of_nat fuel ->
  exists k : nat, right_loop fuel size w (right_middle h (w + 1)) = Some (right_bars h w k, w + Z.of_nat k + 1) /\
    (forall v, w < v <= w + Z.of_nat k -> right_middle h v + 6 * v <= size / 2 - 6) /\ size / 2 - 6 < right_middle h (w + Z.of_nat k + 1) + 6 * (w + Z.of_nat k + 1).
Proof.
  induction fuel as [|fuel IH]; intros w Hw F0 HF; [lia|]. cbn [right_loop]. destruct (Z.ltb_spec (size / 2 - 6) (right_middle h (w + 1) + 3 * 2 * (w + 1))) as [L|L].
  - exists O. change (Z.of_nat 0) with 0. rewrite Z.add_0_r. split; [|split].
    + unfold right_bars. change (Z.of_nat 0) with 0. rewrite zrange_nil by lia. reflexivity.
    + intros v Hv. lia.
    + lia.
  - assert (N : right_middle h (w + 1) + 3 * 2 * (w + 1) + 6 = right_middle h (w + 1 + 1)) by (rewrite (right_middle_next h (w + 1)); ring). rewrite N.
    destruct (IH (w + 1)) as (k & E1 & E3 & E2); [lia|lia|lia|].
    rewrite E1. exists (S k). split; [|split].
    + rewrite right_bars_cons. do 2 f_equal. lia.
    + intros v Hv. destruct (Z.eq_dec v (w + 1)) as [->|NE]; [lia|]. apply E3. lia.
    + replace (w + Z.of_nat (S k) + 1) with (w + 1 + Z.of_nat k + 1) by lia. exact E2.
Qed.
(** the number of bars of the widths 1 .. k at x *)
Fixpoint right_count (h : Z) (k : nat) (x : Z) : Z := match k with O => 0 | S k' => let w := Z.of_nat k in right_count h k' x + three (right_middle h w - (w - 1) / 2) (2 * w) w x end.
Fixpoint left_count (h n : Z) (k : nat) (x : Z) : Z := match k with O => 0 | S k' => let w := Z.of_nat k in left_count h n k' x + three (left_middle h n w - w / 2 - 4 * w) (2 * w) w x end.
Lemma right_bars_snoc h k x : (Z.of_nat k < 100) -> hits x (right_bars h 0 k) = right_count h k x.
Proof.
  induction k as [|k IH]; intros Hk; [reflexivity|]. unfold right_bars in *. replace (Z.of_nat (S k)) with (Z.of_nat k + 1) by lia. rewrite zrange_app by lia. rewrite flat_map_app, hits_app, IH by lia.
  cbn [right_count]. f_equal. rewrite zrange_cons by lia. rewrite zrange_nil by lia. cbn [flat_map]. rewrite app_nil_r. replace (0 + 1 + Z.of_nat k) with (Z.of_nat (S k)) by lia. rewrite right_group_hits by lia. reflexivity.
Qed.
Lemma left_loop_hits h n k x : Z.of_nat k < 100 -> hits x (left_loop k (left_middle h n (Z.of_nat k))) = left_count h n k x.
Proof.
  induction k as [|k IH]; intros Hk; [reflexivity|]. cbn [left_loop left_count]. rewrite hits_app. rewrite left_group_hits by lia.
  replace (left_middle h n (Z.of_nat (S k)) - 3 * 2 * Z.of_nat (S k) - 6) with (left_middle h n (Z.of_nat k)) by (replace (Z.of_nat k) with (Z.of_nat (S k) - 1) by lia; rewrite left_middle_prev; ring). rewrite IH by lia. ring.
Qed.
Lemma half2 w : 0 <= w -> w / 2 <= w /\ 0 <= w / 2 /\ (w = 2 * (w / 2) \/ w = 2 * (w / 2) + 1).
Proof. intros Hw. assert (X := Z.div_mod w 2 ltac:(lia)). assert (Y := Z.mod_pos_bound w 2 ltac:(lia)). lia. Qed.
(** counts are 0 or 1, and 1 exactly on the bars *)
Lemma right_count_val h k x : (right_count h k x = 1 /\ (exists w, 1 <= w <= Z.of_nat k /\ on_right_bar h w x) /\ x <= right_middle h (Z.of_nat k) + 4 * Z.of_nat k + Z.of_nat k / 2 /\ h / 2 + 1 <= x) \/ (right_count h k x = 0 /\ ~ exists w, 1 <= w <= Z.of_nat k /\ on_right_bar h w x).
Proof.
  induction k as [|k IH]; [right; split; [reflexivity|]; intros (w & Hw & _); lia|]. set (w := Z.of_nat (S k)). assert (Hw : 1 <= w) by (unfold w; lia). assert (EK : Z.of_nat k = w - 1) by (unfold w; lia). rewrite EK in IH.
  assert (NX : right_middle h w = right_middle h (w - 1) + 6 * (w - 1) + 6) by (replace w with (w - 1 + 1) at 1 by ring; apply right_middle_next).
  assert (H1 := half2 (w - 1) ltac:(lia)). assert (H2 := half2 w ltac:(lia)).
  assert (G : h / 2 + 1 <= right_middle h w - (w - 1) / 2). { unfold right_middle. assert (P : 0 <= 3 * w * (w - 1)) by (apply Z.mul_nonneg_nonneg; lia). set (q := 3 * w * (w - 1)) in *. clearbody q. lia. }
  cbn [right_count]. fold w. destruct (three_val (right_middle h w - (w - 1) / 2) (2 * w) w x ltac:(lia)) as [(-> & (q & Hq & Hx))|(-> & NT)].
  - assert (Hq2 : 0 <= 2 * w * q <= 4 * w) by (assert (q = 0 \/ q = 1 \/ q = 2) as [Q0|[Q0|Q0] ] by lia; rewrite Q0; lia). destruct IH as [(_ & _ & IH & _)|(-> & _)]; [exfalso; lia|]. left. split; [reflexivity|]. split; [|lia]. exists w. split; [lia|]. exists q. split; [exact Hq|]. cbv zeta. lia.
  - destruct IH as [(-> & (v & Hv & OV) & IH & I2)|(-> & NV)].
    + left. split; [reflexivity|]. split; [exists v; split; [lia|exact OV]|lia].
    + right. split; [reflexivity|]. intros (v & Hv & OV). destruct (Z.eq_dec v w) as [->|NE]; [|apply NV; exists v; split; [lia|exact OV]]. destruct OV as (q & Hq & Hx). cbv zeta in Hx. apply NT. exists q. split; [exact Hq|]. lia.
Qed.
Lemma left_count_val h n k x : Z.of_nat k <= n -> (left_count h n k x = 1 /\ (exists w, 1 <= w <= Z.of_nat k /\ on_left_bar h n w x) /\ x < left_middle h n (Z.of_nat k) - Z.of_nat k / 2 + Z.of_nat k /\ left_middle h n 1 - 4 <= x) \/ (left_count h n k x = 0 /\ ~ exists w, 1 <= w <= Z.of_nat k /\ on_left_bar h n w x).
Proof.
  induction k as [|k IH]; intros Kn; [right; split; [reflexivity|]; intros (w & Hw & _); lia|]. specialize (IH ltac:(lia)). set (w := Z.of_nat (S k)) in *. assert (Hw : 1 <= w) by (unfold w; lia). assert (EK : Z.of_nat k = w - 1) by (unfold w; lia). rewrite EK in IH.
  assert (NX := left_middle_prev h n w).
  assert (H1 := half2 (w - 1) ltac:(lia)). assert (H2 := half2 w ltac:(lia)).
  assert (G : left_middle h n 1 - 4 <= left_middle h n w - 4 * w - w / 2). { unfold left_middle. assert (P : 0 <= (w - 1) * w) by (apply Z.mul_nonneg_nonneg; lia). replace (w * (w + 1)) with ((w - 1) * w + 2 * w) by ring. set (q := (w - 1) * w) in *. clearbody q. lia. }
  cbn [left_count]. fold w. destruct (three_val (left_middle h n w - w / 2 - 4 * w) (2 * w) w x ltac:(lia)) as [(-> & (q & Hq & Hx))|(-> & NT)].
  - assert (Hq2 : 0 <= 2 * w * q <= 4 * w) by (assert (q = 0 \/ q = 1 \/ q = 2) as [Q0|[Q0|Q0] ] by lia; rewrite Q0; lia). destruct IH as [(_ & _ & IH & _)|(-> & _)]; [exfalso; lia|]. left. split; [reflexivity|]. split; [|lia]. exists w. split; [lia|]. exists (2 - q). split; [lia|]. cbv zeta. lia.
  - destruct IH as [(-> & (v & Hv & OV) & IH & I2)|(-> & NV)].
    + left. split; [reflexivity|]. split; [exists v; split; [lia|exact OV]|lia].
    + right. split; [reflexivity|]. intros (v & Hv & OV). destruct (Z.eq_dec v w) as [->|NE]; [|apply NV; exists v; split; [lia|exact OV]]. destruct OV as (q & Hq & Hx). cbv zeta in Hx. apply NT. exists (2 - q). split; [lia|]. lia.
Qed.
(** the whole middle row *)
Definition first_col (h n : Z) : Z := left_middle h n 1 - 4.
Definition last_col (h n : Z) : Z := right_middle h n + 4 * n + n / 2.
Lemma row_val h n x : 0 <= h -> 1 <= n -> let c := right_count h (Z.to_nat n) x + left_count h n (Z.to_nat n) x in
  (c = 1 /\ on_bar h n x /\ first_col h n <= x <= last_col h n /\ h < 2 * Z.abs x) \/ (c = 0 /\ ~ on_bar h n x).
Proof.
  intros Hh Hn c. assert (EN : Z.of_nat (Z.to_nat n) = n) by lia. assert (RV := right_count_val h (Z.to_nat n) x). assert (LV := left_count_val h n (Z.to_nat n) x ltac:(lia)). rewrite EN in *.
  assert (H1 := half2 h Hh). assert (H2 := half2 (h + 1) ltac:(lia)). assert (H3 := half2 n ltac:(lia)). assert (H4 := half2 (n + 1) ltac:(lia)).
  assert (LN : left_middle h n n = - ((h + 1) / 2) - (n + 1) / 2) by (unfold left_middle; ring).
  assert (F1 : first_col h n <= left_middle h n n). { unfold first_col. rewrite LN. unfold left_middle. assert (P : 1 * 2 <= n * (n + 1)) by (apply Z.mul_le_mono_nonneg; lia). set (q := n * (n + 1)) in *. clearbody q. lia. }
  assert (F2 : h / 2 + 1 <= last_col h n). { unfold last_col, right_middle. assert (P : 0 <= 3 * n * (n - 1)) by (apply Z.mul_nonneg_nonneg; lia). set (q := 3 * n * (n - 1)) in *. clearbody q. lia. }
  unfold c. destruct RV as [(-> & RE & R1 & R2)|(-> & RN)], LV as [(-> & LE & L1 & L2)|(-> & LN')].
  - exfalso. lia.
  - left. split; [reflexivity|]. split; [destruct RE as (w & Hw & O); exists w; split; [exact Hw|left; exact O]|]. fold (first_col h n) (last_col h n) in *. lia.
  - left. split; [reflexivity|]. split; [destruct LE as (w & Hw & O); exists w; split; [exact Hw|right; exact O]|]. fold (first_col h n) (last_col h n) in *. lia.
  - right. split; [reflexivity|]. intros (w & Hw & [O|O]); [apply RN|apply LN']; exists w; split; assumption.
Qed.
Lemma first_on_bar h n : 1 <= n -> on_bar h n (first_col h n).
Proof. intros Hn. exists 1. split; [lia|]. right. exists 2. split; [lia|]. cbv zeta. unfold first_col. change (1 / 2) with 0. lia. Qed.
Lemma last_on_bar h n : 1 <= n -> on_bar h n (last_col h n).
Proof.
  intros Hn. exists n. split; [lia|]. left. exists 2. split; [lia|]. cbv zeta. unfold last_col. assert (H1 := half2 n ltac:(lia)). assert (H2 := half2 (n - 1) ltac:(lia)). lia.
Qed.
(** first and last element of a filtered range *)
Lemma filter_zrange (f : Z -> bool) n lo hi : 0 <= n -> in_rng n lo -> in_rng n hi -> f lo = true -> f hi = true -> (forall j, in_rng n j -> f j = true -> lo <= j <= hi) ->
  exists t, filter f (zrange 0 n) = lo :: t /\ last (lo :: t) 0 = hi.
Proof.
  intros Hn Hlo Hhi Flo Fhi HB. unfold in_rng in *.
  assert (E : zrange 0 n = zrange 0 lo ++ zrange lo (hi - lo + 1) ++ zrange (hi + 1) (n - hi - 1)).
  { assert (lo <= hi) by (apply (HB lo); [lia|exact Flo]). replace n with (lo + ((hi - lo + 1) + (n - hi - 1))) at 1 by ring. rewrite zrange_app by lia. rewrite Z.add_0_l. f_equal. rewrite zrange_app by lia. replace (lo + (hi - lo + 1)) with (hi + 1) by ring. reflexivity. }
  assert (LH : lo <= hi) by (apply (HB lo); [lia|exact Flo]).
  assert (N1 : filter f (zrange 0 lo) = []). { destruct (filter f (zrange 0 lo)) as [|a t] eqn:EF; [reflexivity|exfalso]. assert (I : In a (a :: t)) by (left; reflexivity). rewrite <- EF in I. apply filter_In in I. destruct I as (I & FA). apply zrange_In in I. assert (X := HB a ltac:(lia) FA). lia. }
  assert (N2 : filter f (zrange (hi + 1) (n - hi - 1)) = []). { destruct (filter f (zrange (hi + 1) (n - hi - 1))) as [|a t] eqn:EF; [reflexivity|exfalso]. assert (I : In a (a :: t)) by (left; reflexivity). rewrite <- EF in I. apply filter_In in I. destruct I as (I & FA). apply zrange_In in I. assert (X := HB a ltac:(lia) FA). lia. }
  rewrite E, !filter_app, N1, N2, app_nil_r, app_nil_l. clear E N1 N2.
  destruct (Z.eq_dec lo hi) as [->|NE].
  - replace (hi - hi + 1) with 1 by ring. rewrite zrange_cons, zrange_nil by lia. cbn [filter]. rewrite Fhi. exists []. split; reflexivity.
  - rewrite zrange_cons by lia. cbn [filter]. rewrite Flo. eexists. split; [reflexivity|]. replace (hi - lo + 1 - 1) with (hi - lo - 1 + 1) by ring. rewrite zrange_app by lia. replace (lo + 1 + (hi - lo - 1)) with hi by ring.
    rewrite (zrange_cons hi 1) by lia. rewrite (zrange_nil (hi + 1) (1 - 1)) by lia. rewrite filter_app. cbn [filter]. rewrite Fhi. rewrite app_comm_cons. apply last_last.
Qed.
