(** Rounding of the overlap, and missing overlaps (C25-C27). *)
From Verif Require Import Np P_Np M_utility M_conversion S_conversion P_conversion.
From Coq Require Import QArith Qround Qabs Lqa.
From Coq Require Import List. Import ListNotations.
Open Scope Z_scope.

Lemma round_half_even_spec q : nearest_integer q (round_half_even q).
Proof.
  unfold round_half_even, nearest_integer. set (f := Qfloor q).
  pose proof (Qfloor_le q) as L. pose proof (Qlt_floor q) as U. fold f in L, U.
  rewrite inject_Z_plus in U. change (inject_Z 1) with 1%Q in U.
  assert (A : forall x : Q, (-(1#2) <= x)%Q -> (x <= 1#2)%Q -> (Qabs x <= 1#2)%Q).
  { intros x H1 H2. apply Qabs_Qle_condition. split; assumption. }
  assert (B : forall x : Q, (Qabs x == 1#2)%Q -> (x == 1#2)%Q \/ (x == -(1#2))%Q).
  { intros x H. destruct (Qlt_le_dec x 0).
    - rewrite Qabs_neg in H by (apply Qlt_le_weak; assumption). right. lra.
    - rewrite Qabs_pos in H by assumption. left. exact H. }
  destruct (Qltb (q - inject_Z f) (1#2)) eqn:E1.
  { apply Qltb_lt in E1. split.
    - apply A; lra.
    - intros T. apply B in T. destruct T; lra. }
  apply Qltb_f in E1.
  destruct (Qltb (1#2) (q - inject_Z f)) eqn:E2.
  { apply Qltb_lt in E2. rewrite inject_Z_plus. change (inject_Z 1) with 1%Q. split.
    - apply A; lra.
    - intros T. apply B in T. destruct T; lra. }
  apply Qltb_f in E2. destruct (Z.even f) eqn:Ev.
  - split; [apply A; lra|]. intros _. exact Ev.
  - rewrite inject_Z_plus. change (inject_Z 1) with 1%Q. split; [apply A; lra|]. intros _.
    rewrite Z.even_add, Ev. reflexivity.
Qed.
Lemma set_cols_shape f m a b s out : set_cols f m a b s = Ok out -> nrow out = nrow m /\ ncol out = ncol m.
Proof. unfold set_cols. destruct (_ || _); [|discriminate]. intros E. assert (E' := f_equal (fun r => match r with Ok x => Some (nrow x, ncol x) | Err _ => None end) E). cbn in E'. split; congruence. Qed.

Section s.
Context (shift : img Q -> Q -> img Q).
Lemma stitch_width m1 m2 ov side w1 w2 norm out :
  stitch_image shift m1 m2 ov side w1 w2 norm None = Ok out ->
  exists n, nearest_integer (ov + (1#1000)) n /\ ncol out = ncol m1 + ncol m2 - n /\ nrow out = nrow m1.
Proof.
  intros E. exists (overlap_to_int ov). split; [apply round_half_even_spec|].
  unfold stitch_image in E.
  destruct (negb _); [discriminate|].
  destruct (match w1 with PNone => _ | _ => _ end) as [w|]; [|discriminate]. cbn [bindr] in E.
  destruct (_ <? 0); [discriminate|]. rewrite Z.ltb_irrefl in E.
  destruct (side =? 1).
  all: match type of E with bindr (bindr ?A _) _ = _ => destruct A as [c1|] eqn:E1; [|discriminate] end; cbn [bindr] in E;
       match type of E with bindr ?A _ = _ => destruct A as [c2|] eqn:E2; [|discriminate] end; cbn [bindr] in E;
       apply set_cols_shape in E1 as [R1 C1]; apply set_cols_shape in E2 as [R2 C2]; cbn [nrow ncol zeros] in *;
       assert (c2 = out) by congruence; subst c2; split; lia.
Qed.
Lemma join_width m1 m2 g side norm out :
  join_image shift m1 m2 g side norm None = Ok out ->
  exists n, nearest_integer (g + (1#1000)) n /\ ncol out = ncol m1 + ncol m2 + n /\ nrow out = nrow m1.
Proof.
  intros E. exists (overlap_to_int g). split; [apply round_half_even_spec|].
  unfold join_image in E.
  destruct (negb _); [discriminate|].
  destruct (_ <? 0); [discriminate|]. rewrite Z.ltb_irrefl in E.
  assert (RF : forall c a b o, refill c a b = Ok o -> nrow o = nrow c /\ ncol o = ncol c).
  { intros c a b o H. unfold refill in H. destruct (_ || _); [discriminate|].
    assert (E' := f_equal (fun r => match r with Ok x => Some (nrow x, ncol x) | Err _ => None end) H). cbn in E'. split; congruence. }
  destruct (side =? 1).
  all: match type of E with bindr (bindr ?A _) _ = _ => destruct A as [c1|] eqn:E1; [|discriminate] end; cbn [bindr] in E;
       match type of E with bindr (bindr ?A _) _ = _ => destruct A as [c2|] eqn:E2; [|discriminate] end; cbn [bindr] in E;
       match type of E with bindr ?A _ = _ => destruct A as [c3|] eqn:E3; [|discriminate] end; cbn [bindr] in E;
       apply set_cols_shape in E1 as [R1 C1]; apply set_cols_shape in E2 as [R2 C2]; apply RF in E3 as [R3 C3]; cbn [nrow ncol zeros] in *;
       assert (c3 = out) by congruence; subst c3; split; lia.
Qed.
Lemma stitch_missing mats ovs norm tw : (length ovs + 1 < length mats)%nat ->
  is_ok (stitch_image_multiple shift mats ovs norm tw) = false.
Proof.
  destruct mats as [|m [|m' ms] ]; cbn [length]; try lia. intros H. unfold stitch_image_multiple.
  assert (G : forall ms ovs c, (length ovs < length ms)%nat -> is_ok (stitch_loop shift c ms ovs norm) = false).
  { clear. induction ms as [|m ms IH]; intros ovs c H; (destruct ovs as [|[ov s] os]; cbn [length] in H; [try lia; reflexivity|]); cbn -[stitch_image join_image]; try lia.
    destruct (stitch_image _ _ _ _ _ _ _ _ _); cbn [bindr]; [apply IH; lia|reflexivity]. }
  specialize (G (m' :: ms) ovs m ltac:(cbn; lia)).
  destruct (stitch_loop shift m (m' :: ms) ovs norm); [discriminate|reflexivity].
Qed.
Lemma join_missing mats gs norm tw : (length gs + 1 < length mats)%nat ->
  is_ok (join_image_multiple shift mats gs norm tw) = false.
Proof.
  destruct mats as [|m [|m' ms] ]; cbn [length]; try lia. intros H. unfold join_image_multiple.
  assert (G : forall ms ovs c, (length ovs < length ms)%nat -> is_ok (join_loop shift c ms ovs norm) = false).
  { clear. induction ms as [|m ms IH]; intros ovs c H; (destruct ovs as [|[ov s] os]; cbn [length] in H; [try lia; reflexivity|]); cbn -[stitch_image join_image]; try lia.
    destruct (join_image _ _ _ _ _ _ _); cbn [bindr]; [apply IH; lia|reflexivity]. }
  specialize (G (m' :: ms) gs m ltac:(cbn; lia)).
  destruct (join_loop shift m (m' :: ms) gs norm); [discriminate|reflexivity].
Qed.
End s.
