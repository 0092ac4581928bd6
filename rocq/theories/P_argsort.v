(** A sorting procedure meets [is_argsort] for every row: the hypothesis of the theorems about numpy's argsort is satisfiable. *)
From Verif Require Import Np P_Np M_utility S_utility.
From Coq Require Import QArith ZArith Lia List Permutation Sorted. Import ListNotations.
Open Scope Z_scope.

Fixpoint put (v : vec Q) (a : Z) (l : list Z) : list Z :=
  match l with [] => [a] | b :: r => if Qle_bool (vat v a) (vat v b) then a :: b :: r else b :: put v a r end.
Fixpoint order_of (v : vec Q) (l : list Z) : list Z := match l with [] => [] | a :: r => put v a (order_of v r) end.
Definition insertion_argsort (v : vec Q) (k : Z) : Z := nth (Z.to_nat k) (order_of v (zrange 0 (vlen v))) 0.

Lemma put_perm v a l : Permutation (a :: l) (put v a l).
Proof. induction l as [|b r IH]; cbn; [reflexivity|]. destruct (Qle_bool (vat v a) (vat v b)); [reflexivity|]. rewrite perm_swap. constructor. exact IH. Qed.
Lemma order_perm v l : Permutation l (order_of v l).
Proof. induction l as [|a r IH]; cbn; [reflexivity|]. rewrite <- put_perm. constructor. exact IH. Qed.
Definition below (v : vec Q) a b := (vat v a <= vat v b)%Q.
Lemma put_sorted v a l : StronglySorted (below v) l -> StronglySorted (below v) (put v a l).
Proof.
  induction l as [|b r IH]; intros S; cbn; [repeat constructor|].
  inversion S as [|? ? S1 F]; subst. destruct (Qle_bool (vat v a) (vat v b)) eqn:E.
  - apply Qle_bool_iff in E. constructor; [exact S|]. constructor; [exact E|].
    eapply Forall_impl; [|exact F]. intros c H. unfold below in *. eapply Qle_trans; eassumption.
  - assert (L : (vat v b <= vat v a)%Q).
    { destruct (Qlt_le_dec (vat v b) (vat v a)) as [H|H]; [apply Qlt_le_weak, H|]. apply Qle_bool_iff in H. congruence. }
    constructor; [apply IH, S1|]. rewrite <- (put_perm v a r). constructor; [exact L|exact F].
Qed.
Lemma order_sorted v l : StronglySorted (below v) (order_of v l).
Proof. induction l as [|a r IH]; cbn; [constructor|apply put_sorted, IH]. Qed.
Lemma strongly_nth (R : Z -> Z -> Prop) l : StronglySorted R l -> forall a b, (a < b < length l)%nat -> R (nth a l 0) (nth b l 0).
Proof.
  induction 1 as [|x r S IH F]; intros a b H; [cbn in H; lia|]. cbn in H. destruct b as [|b]; [lia|]. destruct a as [|a]; cbn.
  - rewrite Forall_forall in F. apply F, nth_In. lia.
  - apply IH. lia.
Qed.
Lemma insertion_argsort_ok v : is_argsort v (insertion_argsort v).
Proof.
  unfold is_argsort, insertion_argsort. set (l := order_of v (zrange 0 (vlen v))).
  assert (P : Permutation (zrange 0 (vlen v)) l) by apply order_perm.
  assert (L : length l = Z.to_nat (vlen v)) by (rewrite <- (Permutation_length P), zrange_length; reflexivity).
  assert (ND : NoDup l) by (eapply Permutation_NoDup; [exact P|apply zrange_NoDup]).
  unfold in_rng. split; [|split].
  - intros k Hk. assert (I : In (nth (Z.to_nat k) l 0) l) by (apply nth_In; lia).
    eapply Permutation_in in I; [|symmetry; exact P]. apply zrange_In in I. lia.
  - intros a b Ha Hb E. assert (Z.to_nat a = Z.to_nat b); [|lia]. eapply NoDup_nth; [exact ND| | |exact E]; lia.
  - intros a b H1 H2 H3. apply (strongly_nth (below v) l); [apply order_sorted|lia].
Qed.
Lemma argsort_exists : exists asort : argsort_fn, forall v, is_argsort v (asort v).
Proof. exists insertion_argsort. apply insertion_argsort_ok. Qed.
