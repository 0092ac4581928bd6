From Verif Require Import Np.
From Coq Require Import QArith Qround Qabs Permutation Setoid Lqa.
Open Scope Z_scope.
Ltac Zify.zify_post_hook ::= Z.div_mod_to_equations.

Lemma zrange_In a n x : In x (zrange a n) <-> a <= x < a + n.
Proof.
  unfold zrange. rewrite in_map_iff. split.
  - intros (k & <- & Hk). apply in_seq in Hk. lia.
  - intros H. exists (Z.to_nat (x - a)). split; [lia|]. apply in_seq. lia.
Qed.
Lemma zrange_length a n : length (zrange a n) = Z.to_nat n.
Proof. unfold zrange. rewrite map_length, seq_length. reflexivity. Qed.
Lemma zrange_nth a n k d : (k < Z.to_nat n)%nat -> nth k (zrange a n) d = a + Z.of_nat k.
Proof.
  intros H. unfold zrange.
  rewrite nth_indep with (d' := a + Z.of_nat 0) by (rewrite map_length, seq_length; lia).
  rewrite (map_nth (fun k => a + Z.of_nat k)). rewrite seq_nth by lia. lia.
Qed.
Lemma zrange_NoDup a n : NoDup (zrange a n).
Proof.
  unfold zrange. apply FinFun.Injective_map_NoDup; [|apply seq_NoDup].
  intros x y H. lia.
Qed.
Lemma zrange_nil a n : n <= 0 -> zrange a n = [].
Proof. intros H. unfold zrange. replace (Z.to_nat n) with 0%nat by lia. reflexivity. Qed.
Lemma zrange_cons a n : 0 < n -> zrange a n = a :: zrange (a + 1) (n - 1).
Proof.
  intros H. unfold zrange. replace (Z.to_nat n) with (S (Z.to_nat (n - 1))) by lia.
  cbn [seq map]. rewrite Z.add_0_r. f_equal.
  rewrite <- seq_shift, map_map. apply map_ext. intros; lia.
Qed.
Lemma zrange_app a n m : 0 <= n -> 0 <= m -> zrange a (n + m) = zrange a n ++ zrange (a + n) m.
Proof.
  intros Hn Hm. unfold zrange. rewrite Z2Nat.inj_add by lia. rewrite seq_app, map_app. f_equal.
  rewrite Nat.add_0_l.
  assert (G : forall k s, map (fun k => a + Z.of_nat k) (seq (Z.to_nat n + s) k)
              = map (fun k => a + n + Z.of_nat k) (seq s k)).
  { induction k as [|k IH]; intros s; [reflexivity|]. cbn [seq map]. f_equal; [lia|].
    rewrite <- IH. do 2 f_equal. lia. }
  specialize (G (Z.to_nat m) 0%nat). rewrite Nat.add_0_r in G. exact G.
Qed.
Lemma prange_In a b x : In x (prange a b) <-> a <= x < b.
Proof. unfold prange. rewrite zrange_In. lia. Qed.

Lemma split_from_concat sizes start :
  Forall (fun s => 0 <= s) sizes ->
  concat (map (fun c => zrange (fst c) (snd c)) (split_from start sizes))
  = zrange start (fold_right Z.add 0 sizes).
Proof.
  revert start. induction sizes as [|s t IH]; intros start H; [reflexivity|].
  inversion H as [|? ? Hs Ht]; subst. cbn [split_from map concat fst snd fold_right].
  rewrite IH by assumption. rewrite zrange_app; [reflexivity|assumption|].
  clear -Ht. induction Ht; cbn; lia.
Qed.
Lemma fold_add_repeat x k : fold_right Z.add 0 (repeat x k) = x * Z.of_nat k.
Proof. induction k as [|k IH]; cbn [repeat fold_right]; [lia|]. rewrite IH. lia. Qed.
Lemma fold_add_app l m : fold_right Z.add 0 (l ++ m) = fold_right Z.add 0 l + fold_right Z.add 0 m.
Proof. induction l as [|x l IH]; cbn [app fold_right]; [lia|]. rewrite IH. lia. Qed.
Lemma split_sizes_sum n k : 0 < k -> 0 <= n -> fold_right Z.add 0 (split_sizes n k) = n.
Proof.
  intros Hk Hn. unfold split_sizes. rewrite fold_add_app, !fold_add_repeat.
  rewrite !Z2Nat.id by lia.
  transitivity (k * (n / k) + n mod k); [ring|]. symmetry. apply Z.div_mod. lia.
Qed.
Lemma split_sizes_nonneg n k : 0 < k -> 0 <= n -> Forall (fun s => 0 <= s) (split_sizes n k).
Proof.
  intros Hk Hn. pose proof (Z.div_pos n k Hn Hk). unfold split_sizes.
  apply Forall_app; split; apply Forall_forall; intros x Hx; apply repeat_spec in Hx; lia.
Qed.
(** the chunks of [np.array_split] are consecutive and cover everything once *)
Lemma array_split_cover n k chunks :
  0 <= n -> array_split n k = Ok chunks ->
  concat (map (fun c => zrange (fst c) (snd c)) chunks) = zrange 0 n.
Proof.
  unfold array_split. intros Hn. destruct (Z.leb_spec k 0); [discriminate|].
  intros E; injection E as <-. rewrite split_from_concat by (apply split_sizes_nonneg; lia).
  rewrite split_sizes_sum by lia. reflexivity.
Qed.
Lemma split_from_In sizes start c :
  Forall (fun s => 0 <= s) sizes -> In c (split_from start sizes) ->
  start <= fst c /\ In (snd c) sizes /\ fst c + snd c <= start + fold_right Z.add 0 sizes.
Proof.
  revert start. induction sizes as [|s t IH]; intros start H; cbn [split_from]; [intros []|].
  inversion H as [|? ? Hs Ht]; subst.
  assert (P : 0 <= fold_right Z.add 0 t) by (clear -Ht; induction Ht; cbn; lia).
  intros [<-|Hc]; cbn [fst snd fold_right].
  - split; [lia|]. split; [left; reflexivity|]. lia.
  - destruct (IH _ Ht Hc) as (A & B & C). split; [lia|]. split; [right; exact B|]. lia.
Qed.
Lemma array_split_In n k chunks c :
  0 <= n -> array_split n k = Ok chunks -> In c chunks ->
  0 <= fst c /\ fst c + snd c <= n /\ (snd c = n / k \/ snd c = n / k + 1).
Proof.
  unfold array_split. intros Hn. destruct (Z.leb_spec k 0) as [|Hk]; [discriminate|].
  intros E Hc; injection E as <-.
  destruct (split_from_In _ _ _ (split_sizes_nonneg n k Hk Hn) Hc) as (A & B & C).
  rewrite split_sizes_sum in C by lia. split; [lia|]. split; [lia|].
  unfold split_sizes in B. apply in_app_or in B.
  destruct B as [B|B]; apply repeat_spec in B; auto.
Qed.
Lemma array_split_length n k chunks : array_split n k = Ok chunks -> 0 <= n ->
  Z.of_nat (length chunks) = k.
Proof.
  unfold array_split. destruct (Z.leb_spec k 0) as [|Hk]; [discriminate|].
  intros E Hn; injection E as <-.
  assert (L : forall l s, length (split_from s l) = length l).
  { induction l as [|x l IH]; intros s; cbn; [reflexivity|]. rewrite IH; reflexivity. }
  rewrite L. unfold split_sizes. rewrite app_length, !repeat_length.
  pose proof (Z.mod_pos_bound n k Hk). lia.
Qed.

(** ** slices *)
Lemma py_adj_bounds n i : 0 <= n -> 0 <= py_adj n i <= n.
Proof. unfold py_adj. destruct (Z.ltb_spec i 0); lia. Qed.
Lemma py_adj_id n i : 0 <= i <= n -> py_adj n i = i.
Proof. unfold py_adj. destruct (Z.ltb_spec i 0); lia. Qed.
Lemma py_adj_neg n i : 0 < i <= n -> py_adj n (- i) = n - i.
Proof. unfold py_adj. destruct (Z.ltb_spec (-i) 0); lia. Qed.
Lemma py_adj_neg' n i : -n <= i < 0 -> py_adj n i = n + i.
Proof. unfold py_adj. destruct (Z.ltb_spec i 0); lia. Qed.
Lemma slen_id n i j : 0 <= i <= j -> j <= n -> slen n i j = j - i.
Proof. intros. unfold slen. rewrite !py_adj_id by lia. lia. Qed.
Lemma py_idx_in n i : 0 <= i < n -> py_idx n i = Ok i.
Proof. intros. unfold py_idx. destruct (Z.leb_spec 0 i), (Z.ltb_spec i n); try lia; reflexivity. Qed.
Lemma py_idx_ok n i k : py_idx n i = Ok k -> 0 <= k < n /\ (k = i \/ k = i + n).
Proof.
  unfold py_idx. destruct (Z.leb_spec 0 i), (Z.ltb_spec i n), (Z.leb_spec (-n) i), (Z.ltb_spec i 0);
    cbn; intros E; try discriminate; injection E as <-; lia.
Qed.
Lemma vget_in {V} (v : vec V) i : 0 <= i < vlen v -> vget v i = Ok (vat v i).
Proof. intros H. unfold vget. rewrite py_idx_in by assumption. reflexivity. Qed.
Lemma vlist_length {V} (v : vec V) : length (vlist v) = Z.to_nat (vlen v).
Proof. unfold vlist. rewrite map_length. apply zrange_length. Qed.

(** ** monad *)
Lemma mapr_ok {A B} (f : A -> res B) l bs :
  mapr f l = Ok bs <-> Forall2 (fun a b => f a = Ok b) l bs.
Proof.
  revert bs. induction l as [|a t IH]; intros bs; cbn.
  - split; [intros E; injection E as <-; constructor|]. intros H; inversion H; reflexivity.
  - destruct (f a) as [b|e] eqn:Ef; cbn.
    + destruct (mapr f t) as [bs'|e] eqn:Et; cbn.
      * split.
        -- intros E; injection E as <-. constructor; [exact Ef|]. apply IH. reflexivity.
        -- intros H; inversion H as [|? ? ? ? H1 H2]; subst. apply IH in H2.
           injection H2 as ->. rewrite Ef in H1. injection H1 as ->. reflexivity.
      * split; [discriminate|]. intros H; inversion H as [|? ? ? ? H1 H2]; subst.
        apply IH in H2. discriminate.
    + split; [discriminate|]. intros H; inversion H as [|? ? ? ? H1 H2]; subst.
      rewrite Ef in H1; discriminate.
Qed.
Lemma mapr_total {A B} (f : A -> res B) (g : A -> B) l :
  (forall a, In a l -> f a = Ok (g a)) -> mapr f l = Ok (map g l).
Proof.
  intros H. apply mapr_ok. induction l as [|a t IH]; cbn; constructor.
  - apply H; left; reflexivity.
  - apply IH; intros; apply H; right; assumption.
Qed.

(** ** sums *)
Lemma qsumn_ext n f g : (forall i, (0 <= i < Z.of_nat n)%Z -> f i == g i)%Q -> (qsumn n f == qsumn n g)%Q.
Proof.
  induction n as [|n IH]; intros H; cbn [qsumn]; [reflexivity|].
  rewrite IH by (intros; apply H; lia). rewrite H by lia. reflexivity.
Qed.
Lemma qsum_ext n f g : (forall i, (0 <= i < n)%Z -> f i == g i)%Q -> (qsum n f == qsum n g)%Q.
Proof. intros H. unfold qsum. apply qsumn_ext. intros; apply H; lia. Qed.
Lemma qsumn_add n f g : (qsumn n (fun i => f i + g i) == qsumn n f + qsumn n g)%Q.
Proof. induction n as [|n IH]; cbn [qsumn]; [reflexivity|]. rewrite IH. ring. Qed.
Lemma qsumn_scal n c f : (qsumn n (fun i => c * f i) == c * qsumn n f)%Q.
Proof. induction n as [|n IH]; cbn [qsumn]; [ring|]. rewrite IH. ring. Qed.
Lemma qsum_add n f g : (qsum n (fun i => f i + g i) == qsum n f + qsum n g)%Q.
Proof. apply qsumn_add. Qed.
Lemma qsum_scal n c f : (qsum n (fun i => c * f i) == c * qsum n f)%Q.
Proof. apply qsumn_scal. Qed.
Lemma qsumn_const n c : (qsumn n (fun _ => c) == inject_Z (Z.of_nat n) * c)%Q.
Proof.
  induction n as [|n IH]; cbn [qsumn]; [change (inject_Z (Z.of_nat 0)) with 0%Q; ring|].
  rewrite IH. rewrite Nat2Z.inj_succ, <- Z.add_1_r, inject_Z_plus. change (inject_Z 1) with 1%Q. ring.
Qed.
Lemma qsum_const n c : 0 <= n -> (qsum n (fun _ => c) == inject_Z n * c)%Q.
Proof. intros H. unfold qsum. rewrite qsumn_const, Z2Nat.id by lia. reflexivity. Qed.
Lemma qsumn_le n f g : (forall i, (0 <= i < Z.of_nat n)%Z -> f i <= g i)%Q -> (qsumn n f <= qsumn n g)%Q.
Proof.
  induction n as [|n IH]; intros H; cbn [qsumn]; [apply Qle_refl|].
  apply Qplus_le_compat; [apply IH; intros; apply H; lia|apply H; lia].
Qed.
Lemma qsum_le n f g : (forall i, (0 <= i < n)%Z -> f i <= g i)%Q -> (qsum n f <= qsum n g)%Q.
Proof. intros H. apply qsumn_le. intros; apply H; lia. Qed.
Lemma inject_Z_pos n : 0 < n -> (0 < inject_Z n)%Q.
Proof. intros H. unfold Qlt; cbn. lia. Qed.
Lemma inject_Z_neq0 n : n <> 0 -> ~ (inject_Z n == 0)%Q.
Proof. intros H E. unfold Qeq in E; cbn in E. lia. Qed.
Lemma qmean_const n c : 0 < n -> (qmean n (fun _ => c) == c)%Q.
Proof.
  intros H. unfold qmean. rewrite qsum_const by lia. field. apply inject_Z_neq0; lia.
Qed.
Lemma qmean_bounds n f lo hi : 0 < n -> (forall i, (0 <= i < n)%Z -> lo <= f i <= hi)%Q ->
  (lo <= qmean n f <= hi)%Q.
Proof.
  intros Hn H. unfold qmean. pose proof (inject_Z_pos _ Hn) as P. split.
  - apply Qle_shift_div_l; [exact P|]. rewrite Qmult_comm, <- qsum_const by lia.
    apply qsum_le. intros; apply H; assumption.
  - apply Qle_shift_div_r; [exact P|]. rewrite Qmult_comm, <- qsum_const by lia.
    apply qsum_le. intros; apply H; assumption.
Qed.

(** ** argmin *)
Section Arg.
  Context {A : Type} (better : A -> A -> bool).
  Variable le : A -> A -> Prop.   (* [le b x]: b is at least as good as x *)
  Hypothesis le_refl : forall x, le x x.
  Hypothesis le_trans : forall x y z, le x y -> le y z -> le x z.
  Hypothesis better_t : forall x b, better x b = true -> le x b.
  Hypothesis better_f : forall x b, better x b = false -> le b x.
  Lemma best_from_spec l : forall i bi b,
    0 <= bi < i ->
    let r := best_from better i bi b l in
    (r = bi /\ (forall x, In x l -> le b x)) \/
    (i <= r < i + Z.of_nat (length l) /\
     exists y, nth_error l (Z.to_nat (r - i)) = Some y /\ le y b /\ (forall x, In x l -> le y x)).
  Proof.
    induction l as [|x t IH]; intros i bi b Hbi; cbn [best_from].
    - left. split; [reflexivity|]. intros ? [].
    - destruct (better x b) eqn:E.
      + right. destruct (IH (i + 1) i x ltac:(lia)) as [(R & H)|(R & y & N & L & H)].
        * rewrite R. split; [cbn [length]; lia|]. exists x. replace (i - i) with 0 by lia.
          split; [reflexivity|]. split; [apply better_t; exact E|].
          intros z [<-|Hz]; [apply le_refl|apply H; exact Hz].
        * split; [cbn [length]; lia|]. exists y.
          set (r := best_from better (i + 1) i x t) in *.
          replace (Z.to_nat (r - i)) with (S (Z.to_nat (r - (i + 1)))) by lia.
          split; [exact N|]. split; [apply le_trans with x; [exact L|apply better_t; exact E]|].
          intros z [<-|Hz]; [exact L|apply H; exact Hz].
      + destruct (IH (i + 1) bi b ltac:(lia)) as [(R & H)|(R & y & N & L & H)].
        * left. split; [exact R|]. intros z [<-|Hz]; [apply better_f; exact E|apply H; exact Hz].
        * right. split; [cbn [length]; lia|]. exists y.
          set (r := best_from better (i + 1) bi b t) in *.
          replace (Z.to_nat (r - i)) with (S (Z.to_nat (r - (i + 1)))) by lia.
          split; [exact N|]. split; [exact L|].
          intros z [<-|Hz]; [apply le_trans with b; [exact L|apply better_f; exact E]|apply H; exact Hz].
  Qed.
  Lemma argbest_spec l k : argbest better l = Ok k ->
    0 <= k < Z.of_nat (length l) /\
    exists y, nth_error l (Z.to_nat k) = Some y /\ forall x, In x l -> le y x.
  Proof.
    destruct l as [|b t]; cbn [argbest]; [discriminate|]. intros E; injection E as <-.
    destruct (best_from_spec t 1 0 b ltac:(lia)) as [(R & H)|(R & y & N & L & H)].
    - rewrite R. split; [cbn [length]; lia|]. exists b. split; [reflexivity|].
      intros z [<-|Hz]; [apply le_refl|apply H; exact Hz].
    - split; [cbn [length]; lia|]. exists y.
      set (r := best_from better 1 0 b t) in *.
      replace (Z.to_nat r) with (S (Z.to_nat (r - 1))) by lia.
      split; [exact N|]. intros z [<-|Hz]; [exact L|apply H; exact Hz].
  Qed.
End Arg.
Lemma Qltb_t x y : Qltb x y = true -> (x <= y)%Q.
Proof.
  unfold Qltb. intros H. apply negb_true_iff in H.
  destruct (Qlt_le_dec x y) as [L|L]; [apply Qlt_le_weak, L|].
  apply Qle_bool_iff in L. congruence.
Qed.
Lemma Qltb_lt x y : Qltb x y = true <-> (x < y)%Q.
Proof.
  unfold Qltb. rewrite negb_true_iff. split.
  - intros H. apply Qnot_le_lt. intros L. apply Qle_bool_iff in L. congruence.
  - intros H. destruct (Qle_bool y x) eqn:E; [|reflexivity].
    apply Qle_bool_iff in E. exfalso. apply (Qlt_not_le _ _ H E).
Qed.
Lemma Qltb_f x y : Qltb x y = false -> (y <= x)%Q.
Proof. unfold Qltb. intros H. apply negb_false_iff in H. apply Qle_bool_iff, H. Qed.
Lemma argminQ_spec l k : argminQ l = Ok k ->
  0 <= k < Z.of_nat (length l) /\
  exists y, nth_error l (Z.to_nat k) = Some y /\ forall x, In x l -> (y <= x)%Q.
Proof.
  apply (argbest_spec Qltb Qle Qle_refl Qle_trans Qltb_t Qltb_f).
Qed.
Lemma argmaxQ_spec l k : argmaxQ l = Ok k ->
  0 <= k < Z.of_nat (length l) /\
  exists y, nth_error l (Z.to_nat k) = Some y /\ forall x, In x l -> (x <= y)%Q.
Proof.
  apply (argbest_spec _ (fun y x => (x <= y)%Q) Qle_refl); intros.
  - eapply Qle_trans; eauto.
  - apply Qltb_t; assumption.
  - apply Qltb_f; assumption.
Qed.

(** ** Qminb / Qmaxb / clip *)
Lemma Qle_bool_false x y : Qle_bool x y = false -> (y < x)%Q.
Proof. intros H. apply Qnot_le_lt. intros L. apply Qle_bool_iff in L. congruence. Qed.
Lemma Qminb_spec x y : (Qminb x y <= x /\ Qminb x y <= y /\ (Qminb x y == x \/ Qminb x y == y))%Q.
Proof.
  unfold Qminb. destruct (Qle_bool x y) eqn:E.
  - apply Qle_bool_iff in E. repeat split; [apply Qle_refl|exact E|left; reflexivity].
  - apply Qle_bool_false in E. repeat split; [apply Qlt_le_weak, E|apply Qle_refl|right; reflexivity].
Qed.
Lemma Qmaxb_spec x y : (x <= Qmaxb x y /\ y <= Qmaxb x y /\ (Qmaxb x y == x \/ Qmaxb x y == y))%Q.
Proof.
  unfold Qmaxb. destruct (Qle_bool x y) eqn:E.
  - apply Qle_bool_iff in E. repeat split; [exact E|apply Qle_refl|right; reflexivity].
  - apply Qle_bool_false in E. repeat split; [apply Qle_refl|apply Qlt_le_weak, E|left; reflexivity].
Qed.
Lemma clipQ_bounds x lo hi : (lo <= hi)%Q -> (lo <= clipQ x lo hi <= hi)%Q.
Proof.
  intros H. unfold clipQ. destruct (Qminb_spec (Qmaxb x lo) hi) as (A & B & C).
  destruct (Qmaxb_spec x lo) as (D & E & F). split; [|exact B].
  destruct C as [C|C]; rewrite C; assumption.
Qed.
Lemma clipQ_id x lo hi : (lo <= x <= hi)%Q -> (clipQ x lo hi == x)%Q.
Proof.
  intros [L H]. unfold clipQ. unfold Qmaxb.
  destruct (Qle_bool x lo) eqn:E.
  - apply Qle_bool_iff in E. assert (X : (x == lo)%Q) by (apply Qle_antisym; assumption).
    unfold Qminb. destruct (Qle_bool lo hi) eqn:E2; [symmetry; exact X|].
    apply Qle_bool_false in E2. exfalso. apply (Qlt_not_le _ _ E2). rewrite <- X; exact H.
  - unfold Qminb. destruct (Qle_bool x hi) eqn:E2; [reflexivity|].
    apply Qle_bool_false in E2. exfalso. apply (Qlt_not_le _ _ E2 H).
Qed.
Lemma Forall2_length {A B} {R : A -> B -> Prop} {l l'} : Forall2 R l l' -> length l = length l'.
Proof. induction 1; cbn; congruence. Qed.
