(** Counterexamples for the selection of dots. *)
From Coq Require Import Reals Lra ZArith Lia Bool List Permutation. Import ListNotations.
From Verif Require Import Np P_Np M_phase_R P_phase_R M_corr P_corr M_simR S_simR P_simR M_calib S_calib P_calib5 P_calib6.
Open Scope Z_scope.

(** an L of five pixels around a dot of one pixel: (0,2) lies inside the rectangle around the L *)
Definition lshape : img Z := mkimg 3 3 (fun i j => if (j =? 0) || (i =? 2) || ((i =? 0) && (j =? 2)) then 1 else 0).
Lemma lshape_binary : binary lshape.
Proof. intros p _. cbn [px lshape]. destruct (_ || _ || _); auto. Qed.
Definition in_L (p : Z * Z) : Prop := In p [(0, 0); (1, 0); (2, 0); (2, 1); (2, 2)].
Lemma lshape_white p : white lshape p <-> in_L p \/ p = (0, 2).
Proof.
  destruct p as (i & j). unfold white, inside, in_L, in_rng. cbn [nrow ncol px lshape fst snd]. split.
  - intros ((Hi & Hj) & H).
    assert (I : i = 0 \/ i = 1 \/ i = 2) by lia. assert (J : j = 0 \/ j = 1 \/ j = 2) by lia.
    destruct I as [-> | [-> | ->] ]; destruct J as [-> | [-> | ->] ]; cbn in *; try tauto; exfalso; apply H; reflexivity.
  - intros [H|H]; [cbn [In] in H; repeat (destruct H as [H|H]; [injection H as <- <-; cbn; split; [split; lia|discriminate]|]); contradiction|]. injection H as -> ->. cbn. split; [split; lia|discriminate].
Qed.
Lemma in_L_white p : in_L p -> white lshape p.
Proof. intros H. apply lshape_white. left. exact H. Qed.
Lemma lshape_corner : white lshape (0, 2).
Proof. apply lshape_white. right. reflexivity. Qed.
Lemma lshape_dot_L q : same_dot lshape (0, 0) q <-> in_L q.
Proof.
  split.
  - induction 1 as [H|q r H IH Hr Ht]; [left; reflexivity|]. apply lshape_white in Hr. destruct Hr as [Hr| -> ]; [exact Hr|exfalso].
    unfold in_L, touching in *. cbn [In] in IH. repeat (destruct IH as [IH|IH]; [subst q; cbn in Ht; lia|]). exact IH.
  - assert (S0 : same_dot lshape (0, 0) (0, 0)) by (apply dot_here, in_L_white; cbn; tauto).
    assert (S1 : same_dot lshape (0, 0) (1, 0)) by (apply (dot_step _ _ _ _ S0); [apply in_L_white; cbn; tauto|reflexivity]).
    assert (S2 : same_dot lshape (0, 0) (2, 0)) by (apply (dot_step _ _ _ _ S1); [apply in_L_white; cbn; tauto|reflexivity]).
    assert (S3 : same_dot lshape (0, 0) (2, 1)) by (apply (dot_step _ _ _ _ S2); [apply in_L_white; cbn; tauto|reflexivity]).
    assert (S4 : same_dot lshape (0, 0) (2, 2)) by (apply (dot_step _ _ _ _ S3); [apply in_L_white; cbn; tauto|reflexivity]).
    unfold in_L. cbn [In]. intros H. repeat (destruct H as [H|H]; [subst q; assumption|]). contradiction.
Qed.
Lemma lshape_dot_corner q : same_dot lshape (0, 2) q -> q = (0, 2).
Proof.
  induction 1 as [H|q r H IH Hr Ht]; [reflexivity|]. subst q. apply lshape_white in Hr. destruct Hr as [Hr|Hr]; [exfalso|exact Hr].
  unfold in_L, touching in *. cbn [In] in Hr. repeat (destruct Hr as [Hr|Hr]; [subst r; cbn in Ht; lia|]). exact Hr.
Qed.
Lemma lshape_size : dot_pixels lshape (0, 0) 5.
Proof.
  exists [(0, 0); (1, 0); (2, 0); (2, 1); (2, 2)]. split; [|split; [intros q; symmetry; apply lshape_dot_L|reflexivity] ].
  repeat constructor; cbn [In]; intros H; repeat (destruct H as [H|H]; [discriminate|]); exact H.
Qed.
Lemma sym_dot lab num p q : labelled lshape lab num -> white lshape p -> white lshape q -> same_dot lshape p q -> same_dot lshape q p.
Proof. intros (_ & _ & _ & _ & _ & H3) Hp Hq H. apply H3 in H; [|assumption..]. apply H3; [assumption..|]. symmetry. exact H. Qed.
Lemma lshape_box lab num l k r0 r1 c0 c1 : labelled lshape lab num -> objects lab num l -> 1 <= k <= num -> nth (Z.to_nat (k - 1)) l (0, 0, 0, 0) = (r0, r1, c0, c1) ->
  (r0, r1, c0, c1) = (0, 3, 0, 3) \/ (r0, r1, c0, c1) = (0, 1, 2, 3).
Proof.
  intros HL HO Hk E. assert (HL' := HL). destruct HL' as (E1 & E2 & _ & H1 & H2 & H3). cbn [nrow ncol lshape] in E1, E2. destruct HO as (_ & HO).
  destruct (HO k r0 r1 c0 c1 Hk E) as (A & (a & A1 & A2 & A3) & (b & B1 & B2 & B3) & (c & C1 & C2 & C3) & (d & D1 & D2 & D3)).
  assert (IN : forall z, inside lab z <-> inside lshape z) by (intros z; unfold inside; rewrite E1, E2; reflexivity).
  destruct (H2 k Hk) as (p & Hp & Pk). apply lshape_white in Hp as Hp'. destruct Hp' as [Hp'|Hp'].
  - left. assert (LK : forall q, in_L q -> px lab (fst q) (snd q) = k).
    { intros q Hq. rewrite <- Pk. assert (W0 : white lshape (0, 0)) by (apply in_L_white; left; reflexivity).
      transitivity (px lab (fst (0, 0)) (snd (0, 0))); [symmetry|]; apply H3; try exact W0; try exact Hp; try (apply in_L_white; exact Hq); apply lshape_dot_L; assumption. }
    assert (A00 := A (0, 0) (proj2 (IN _) (proj1 (in_L_white (0, 0) ltac:(cbn; tauto)))) (LK (0, 0) ltac:(cbn; tauto))).
    assert (A22 := A (2, 2) (proj2 (IN _) (proj1 (in_L_white (2, 2) ltac:(cbn; tauto)))) (LK (2, 2) ltac:(cbn; tauto))).
    apply IN in A1. apply IN in B1. apply IN in C1. apply IN in D1. unfold inside, in_rng in *. cbn [nrow ncol lshape fst snd] in *. repeat f_equal; lia.
  - right. subst p. assert (LK : forall z, inside lab z -> px lab (fst z) (snd z) = k -> z = (0, 2)).
    { intros z Hz Ez. apply lshape_dot_corner. apply (label_same lshape lab num HL (0, 2)); [exact lshape_corner|]. split; [apply IN, Hz|]. rewrite Ez, Pk. reflexivity. }
    assert (a = (0, 2)) by (apply LK; assumption). assert (b = (0, 2)) by (apply LK; assumption). assert (c = (0, 2)) by (apply LK; assumption). assert (d = (0, 2)) by (apply LK; assumption). subst a b c d. cbn [fst snd] in *. repeat f_equal; lia.
Qed.
Lemma rtrunc_is x n : (0 <= x)%R -> (IZR n <= x < IZR n + 1)%R -> rtrunc x = n.
Proof. intros H0 (A & B). unfold rtrunc. destruct (Rle_dec 0 x) as [_|N]; [|contradiction]. apply Z.le_antisymm; [apply int_part_le|apply int_part_ge]; assumption. Qed.
Lemma lshape_lost label find_objects lab num : label lshape = (lab, num) -> labelled lshape lab num -> objects lab num (find_objects lab num) ->
  forall i j, px (select_dot_based_size label find_objects lshape 5 (1 / 100)) i j = 0.
Proof.
  intros HE HL HO i j. unfold select_dot_based_size. rewrite HE. cbn [px].
  rewrite (rtrunc_is (5 - 1 / 100 * 5) 4), (rtrunc_is (5 + 1 / 100 * 5) 5) by lra. change (Z.max 4 1) with 4. change (Z.max 5 1) with 5.
  destruct (existsb _ _) eqn:X; [exfalso|reflexivity]. apply existsb_exists in X. destruct X as (b & Hb & _). apply filter_In in Hb. destruct Hb as (Hb & Hc).
  destruct (In_nth _ _ (0, 0, 0, 0) Hb) as (n & Hn & En). set (len := length (find_objects lab num)) in *. assert (HO' := HO). destruct HO' as (HLn & _). change (Z.of_nat len = num) in HLn. change (n < len)%nat in Hn.
  destruct b as (((r0 & r1) & c0) & c1).
  destruct (lshape_box lab num _ (Z.of_nat n + 1) r0 r1 c0 c1 HL HO ltac:(lia)) as [Eb|Eb]; [replace (Z.to_nat (Z.of_nat n + 1 - 1)) with n by lia; exact En|..]; rewrite Eb in Hc; vm_compute in Hc; discriminate.
Qed.

(** a row with a dot of one pixel and a dot of five pixels *)
Definition two_dots : img Z := mkimg 1 7 (fun _ j => if j =? 1 then 0 else 1).
Lemma two_binary : binary two_dots.
Proof. intros p _. cbn [px two_dots]. destruct (_ =? _); auto. Qed.
Lemma two_white p : white two_dots p <-> fst p = 0 /\ 0 <= snd p < 7 /\ snd p <> 1.
Proof. unfold white, inside, in_rng. cbn [nrow ncol px two_dots]. destruct (Z.eqb_spec (snd p) 1); lia. Qed.
Lemma two_first q : same_dot two_dots (0, 0) q <-> q = (0, 0).
Proof.
  split; [|intros ->; apply dot_here, two_white; cbn; lia]. induction 1 as [H|q r H IH Hr Ht]; [reflexivity|]. subst q. apply two_white in Hr. destruct r as (i & j). unfold touching in Ht. cbn [fst snd] in *. lia.
Qed.
Lemma two_second q : same_dot two_dots (0, 2) q <-> In q [(0, 2); (0, 3); (0, 4); (0, 5); (0, 6)].
Proof.
  split.
  - intros H. assert (G : 2 <= snd q).
    { induction H as [H|q r H IH Hr Ht]; [cbn; lia|]. apply two_white in Hr. destruct (same_dot_white _ _ _ H) as (_ & Hq). apply two_white in Hq. destruct r as (i & j), q as (u & v). unfold touching in Ht. cbn [fst snd] in *. lia. }
    destruct (same_dot_white _ _ _ H) as (_ & Hq). apply two_white in Hq. destruct q as (i & j). cbn [fst snd] in *. assert (J : j = 2 \/ j = 3 \/ j = 4 \/ j = 5 \/ j = 6) by lia. destruct Hq as (-> & _).
    destruct J as [-> | [-> | [-> | [-> | ->] ] ] ]; cbn [In]; tauto.
  - assert (W : forall j, 2 <= j < 7 -> white two_dots (0, j)) by (intros j Hj; apply two_white; cbn; lia).
    assert (S0 : same_dot two_dots (0, 2) (0, 2)) by (apply dot_here, W; lia).
    assert (S1 : same_dot two_dots (0, 2) (0, 3)) by (apply (dot_step _ _ _ _ S0); [apply W; lia|reflexivity]).
    assert (S2 : same_dot two_dots (0, 2) (0, 4)) by (apply (dot_step _ _ _ _ S1); [apply W; lia|reflexivity]).
    assert (S3 : same_dot two_dots (0, 2) (0, 5)) by (apply (dot_step _ _ _ _ S2); [apply W; lia|reflexivity]).
    assert (S4 : same_dot two_dots (0, 2) (0, 6)) by (apply (dot_step _ _ _ _ S3); [apply W; lia|reflexivity]).
    cbn [In]. intros H. repeat (destruct H as [H|H]; [subst q; assumption|]). contradiction.
Qed.
Lemma two_one p : white two_dots p -> p = (0, 0) \/ same_dot two_dots (0, 2) p.
Proof.
  intros H. apply two_white in H. destruct p as (i & j). cbn [fst snd] in H. destruct H as (-> & Hj & Hn). destruct (Z.eq_dec j 0) as [-> |Hz]; [left; reflexivity|right]. apply two_second.
  assert (J : j = 2 \/ j = 3 \/ j = 4 \/ j = 5 \/ j = 6) by lia. destruct J as [-> | [-> | [-> | [-> | ->] ] ] ]; cbn [In]; tauto.
Qed.
Lemma two_sizes : dot_pixels two_dots (0, 0) 1 /\ dot_pixels two_dots (0, 2) 5.
Proof.
  split.
  - exists [(0, 0)]. split; [repeat constructor; cbn; tauto|]. split; [|reflexivity]. intros q. rewrite two_first. cbn [In]. split; [intros [<-|[] ]; reflexivity|intros ->; left; reflexivity].
  - exists [(0, 2); (0, 3); (0, 4); (0, 5); (0, 6)]. split; [repeat constructor; cbn [In]; intros H; repeat (destruct H as [H|H]; [discriminate|]); exact H|]. split; [|reflexivity]. intros q. symmetry. apply two_second.
Qed.
Lemma dot_sym lab num m p q : labelled m lab num -> same_dot m p q -> same_dot m q p.
Proof. intros (_ & _ & _ & _ & _ & H3) H. destruct (same_dot_white _ _ _ H) as (Hp & Hq). apply H3 in H; [|assumption..]. apply H3; [assumption..|]. symmetry. exact H. Qed.
Lemma dot_trans lab num m p q r : labelled m lab num -> same_dot m p q -> same_dot m q r -> same_dot m p r.
Proof. intros (_ & _ & _ & _ & _ & H3) H G. destruct (same_dot_white _ _ _ H) as (Hp & Hq). destruct (same_dot_white _ _ _ G) as (_ & Hr). apply H3 in H; [|assumption..]. apply H3 in G; [|assumption..]. apply H3; [assumption..|]. congruence. Qed.
Lemma size_move lab num m p q n : labelled m lab num -> same_dot m p q -> dot_pixels m p n -> dot_pixels m q n.
Proof.
  intros HL S (l & A & B & C). exists l. split; [exact A|]. split; [|exact C]. intros r. rewrite B. split; intros X.
  - apply (dot_trans lab num m q p r HL); [apply (dot_sym lab num m p q HL S)|exact X].
  - apply (dot_trans lab num m p q r HL S X).
Qed.
Lemma two_lost label find_objects median lab num : label two_dots = (lab, num) -> labelled two_dots lab num -> objects lab num (find_objects lab num) ->
  get_dot_size label median two_dots Mean = Ok 3%R /\ center_of_mass (select_dot_based_size label find_objects two_dots 3 (1 / 100)) = Err ZeroDivisionError.
Proof.
  intros HE HL HO. destruct two_sizes as (Z1 & Z5). assert (HL' := HL). destruct HL' as (E1 & E2 & Hn & H1 & H2 & H3).
  assert (W0 : white two_dots (0, 0)) by (apply two_white; cbn; lia). assert (W2 : white two_dots (0, 2)) by (apply two_white; cbn; lia).
  assert (K : forall k, 1 <= k <= num -> k = px lab 0 0 \/ k = px lab 0 2).
  { intros k Hk. destruct (H2 k Hk) as (p & Hp & <-). destruct (two_one p Hp) as [-> |S]; [left; reflexivity|right]. symmetry. apply (H3 (0, 2) p W2 Hp), S. }
  assert (L0 := H1 _ (proj1 W0)). assert (L2 := H1 _ (proj1 W2)). cbn [fst snd] in L0, L2. cbn [px two_dots] in L0, L2. change (0 =? 1) with false in L0. change (2 =? 1) with false in L2.
  assert (ND : px lab 0 0 <> px lab 0 2). { intros X. apply (H3 (0, 0) (0, 2) W0 W2) in X. apply two_first in X. discriminate. }
  assert (N2 : num = 2). { assert (A1 := K 1 ltac:(lia)). assert (A2 := K num ltac:(lia)). assert (A3 := K 2). lia. }
  assert (D0 := dot_sum_size two_dots lab num two_binary HL (0, 0) 1 W0 Z1). assert (D2 := dot_sum_size two_dots lab num two_binary HL (0, 2) 5 W2 Z5). cbn [fst snd] in D0, D2.
  split.
  - unfold get_dot_size. rewrite HE, N2. change (zrange 1 2) with [1; 2]. cbn [map]. f_equal. unfold zmean.
    assert (S : dot_sum two_dots lab 1 + dot_sum two_dots lab 2 = 6). { assert (C : (px lab 0 0 = 1 /\ px lab 0 2 = 2) \/ (px lab 0 0 = 2 /\ px lab 0 2 = 1)) by lia. destruct C as [(C1 & C2)|(C1 & C2)]; rewrite C1 in D0; rewrite C2 in D2; lia. }
    cbn [fold_left length Z.of_nat Pos.of_succ_nat Pos.succ]. rewrite Z.add_0_l, S. lra.
  - set (out := select_dot_based_size _ _ _ _ _).
    assert (Sep : forall p q, white two_dots p -> white two_dots q -> in_rectangle two_dots p q -> same_dot two_dots p q).
    { intros p q Hp Hq (a & b & c & d & Ra & Rb & Rc & Rd & _ & R2). destruct (two_one p Hp) as [-> |S].
      - apply two_first in Rc. apply two_first in Rd. subst. apply two_first. apply two_white in Hq. destruct q. cbn [fst snd] in *. f_equal; lia.
      - assert (Rc' := dot_trans lab num _ _ _ _ HL S Rc). apply two_second in Rc'. assert (G : 2 <= snd c) by (cbn [In] in Rc'; repeat (destruct Rc' as [Rc'|Rc']; [subst c; cbn; lia|]); contradiction).
        apply (dot_trans lab num _ p (0, 2) q HL); [apply (dot_sym lab num _ _ _ HL S)|]. destruct (two_one q Hq) as [-> |S2]; [cbn [snd] in R2; lia|exact S2]. }
    assert (Z : forall i j, in_rng 1 i -> in_rng 7 j -> px out i j = 0).
    { intros i j Hi Hj. destruct (two_binary (i, j) (conj Hi Hj)) as [X|X]; cbn [fst snd] in X; [apply selected_black; exact X|].
      assert (W : white two_dots (i, j)) by (split; [split; assumption|cbn [fst snd]; lia]).
      assert (SZ : exists n, dot_pixels two_dots (i, j) n /\ (n = 1 \/ n = 5)). { destruct (two_one _ W) as [-> |S]; [exists 1; auto|exists 5; split; [apply (size_move lab num _ (0, 2)); assumption|auto] ]. }
      destruct SZ as (n & Hd & Hn15). assert (S := selected_pixel two_dots lab num _ two_binary HL HO Sep label find_objects 3 (1 / 100) (i, j) n HE eq_refl W Hd). cbv zeta in S. cbn [fst snd] in S.
      unfold out. rewrite S. rewrite (rtrunc_is (3 - 1 / 100 * 3) 2), (rtrunc_is (3 + 1 / 100 * 3) 3) by lra. destruct Hn15 as [-> | ->]; reflexivity. }
    assert (Dim : nrow out = 1 /\ ncol out = 7) by (unfold out, select_dot_based_size; rewrite HE; split; reflexivity). destruct Dim as (R1 & C7).
    unfold center_of_mass. rewrite R1, C7. rewrite (zsum2_ext 1 7 (px out) (fun _ _ => 0)) by exact Z. reflexivity.
Qed.
