(** Proofs about find_file. *)
From Coq Require Import Sorted Permutation.
From Verif Require Import Np P_Np M_fs S_io M_io_save M_find S_find P_fs P_io_save P_io_save2.
From Coq Require Import Ascii String.
From Coq Require Import List. Import ListNotations.
Open Scope Z_scope.

Lemma until_bracket_some s : forall t q, until_bracket s = Some (t, q) <-> s = t ++ "]"%char :: q /\ ~ In "]"%char t.
Proof.
  induction s as [|c r IH]; intros t q; cbn [until_bracket].
  - split; [discriminate|]. intros (E & _). destruct t; discriminate.
  - destruct (ascii_dec c "]") as [->|N].
    + split; [intros E; injection E as <- <-; split; [reflexivity|intros []]|]. intros (E & F). destruct t as [|x t]; cbn in E; [injection E as ->; reflexivity|].
      injection E as <- _. destruct F. left. reflexivity.
    + destruct (until_bracket r) as [[t' q']|] eqn:U.
      * destruct (proj1 (IH t' q') eq_refl) as (E & F). split.
        -- intros G. injection G as <- <-. split; [rewrite E; reflexivity|]. intros [G|G]; [congruence|exact (F G)].
        -- intros (G & K). destruct t as [|x t]; cbn in G; [congruence|]. injection G as <- G. assert (V : Some (t', q') = Some (t, q)) by (apply IH; split; [exact G|intros X; apply K; right; exact X]). injection V as -> ->. reflexivity.
      * split; [discriminate|]. intros (G & K). destruct t as [|x t]; cbn in G; [congruence|]. injection G as <- G.
        assert (V : None = Some (t, q)) by (apply IH; split; [exact G|intros X; apply K; right; exact X]). discriminate.
Qed.
Lemma closing_some s body q : closing s = Some (body, q) <-> closes s body q.
Proof.
  unfold closes. destruct s as [|c r]; cbn [closing].
  - split; [discriminate|]. intros (E & _). destruct body; discriminate.
  - destruct (ascii_dec c "!") as [->|N].
    + unfold one_then. destruct r as [|y r].
      * split; [discriminate|]. intros (E & bang & x & t & -> & [(-> & X)| ->] & _); cbn in E; injection E as E; [congruence|discriminate].
      * destruct (until_bracket r) as [[t' q']|] eqn:U.
        -- destruct (proj1 (until_bracket_some r t' q') U) as (E & F). split.
           ++ intros G. injection G as <- <-. split; [rewrite E; reflexivity|]. exists ["!"%char], y, t'. auto.
           ++ intros (G & bang & x & t & -> & [(-> & X)| ->] & K); cbn in G; [congruence|]. injection G as <- G.
              assert (V := proj2 (until_bracket_some r t q) (conj G K)). rewrite U in V. injection V as -> ->. reflexivity.
        -- split; [discriminate|]. intros (G & bang & x & t & -> & [(-> & X)| ->] & K); cbn in G; [congruence|]. injection G as <- G.
           assert (V := proj2 (until_bracket_some r t q) (conj G K)). congruence.
    + unfold one_then. destruct (until_bracket r) as [[t' q']|] eqn:U.
      * destruct (proj1 (until_bracket_some r t' q') U) as (E & F). split.
        -- intros G. injection G as <- <-. split; [rewrite E; reflexivity|]. exists [], c, t'. auto.
        -- intros (G & bang & x & t & -> & [(-> & X)| ->] & K); cbn in G; [|congruence]. injection G as <- G.
           assert (V := proj2 (until_bracket_some r t q) (conj G K)). rewrite U in V. injection V as -> ->. reflexivity.
      * split; [discriminate|]. intros (G & bang & x & t & -> & [(-> & X)| ->] & K); cbn in G; [|congruence]. injection G as <- G.
        assert (V := proj2 (until_bracket_some r t q) (conj G K)). congruence.
Qed.
Lemma single_bool (a c : ascii) : (if ascii_dec a c then true else false) = true <-> a = c.
Proof. destruct (ascii_dec a c); split; congruence. Qed.
Lemma listed_iff n : forall body c, (List.length body <= n)%nat -> (listed body c = true <-> lists_char body c).
Proof.
  induction n as [|n IH]; intros body c L.
  - destruct body; [|cbn in L; lia]. split; [discriminate|]. intros H; inversion H.
  - destruct body as [|a r]; [split; [discriminate|intros H; inversion H]|].
    assert (Sg : (forall b r', r <> "-"%char :: b :: r') -> ((if ascii_dec a c then true else false) || listed r c = true <-> lists_char (a :: r) c)).
    { intros N. rewrite Bool.orb_true_iff, single_bool, (IH r c) by (cbn in L; lia). split.
      - intros [->|H]; [apply lists_single; exact N|apply lists_later; [exact N|exact H] ].
      - intros H. inversion H; subst; try (exfalso; eapply N; reflexivity); auto. }
    destruct r as [|m [|b r']]; [apply Sg; discriminate|apply Sg; intros b r'; discriminate|].
    cbn [listed]. destruct (ascii_dec m "-") as [->|Nm].
    + rewrite Bool.orb_true_iff, Bool.andb_true_iff, !N.leb_le, (IH r' c) by (cbn in L; lia). split.
      * intros [H|H]; [apply lists_range; exact H|apply lists_after_range; exact H].
      * intros H. inversion H; subst; auto; exfalso; match goal with K : forall _ _, _ <> _ |- _ => eapply K; reflexivity end.
    + apply Sg. intros b' r'' E. congruence.
Qed.
Lemma allowed_iff body c : allowed body c = true <-> allows_char body c.
Proof.
  destruct body as [|b r]; cbn [allowed].
  - split; [discriminate|]. intros H. inversion H as [body c0 _ K|]; subst. inversion K.
  - destruct (ascii_dec b "!") as [->|N].
    + rewrite Bool.negb_true_iff. split.
      * intros E. apply allows_other. intros K. apply (listed_iff _ _ c (le_n _)) in K. congruence.
      * intros H. inversion H as [body c0 X|r0 c0 K]; subst; [exfalso; eapply X; reflexivity|]. destruct (listed r c) eqn:E; [|reflexivity]. exfalso. apply K. apply (listed_iff _ _ c (le_n _)), E.
    + rewrite (listed_iff _ _ c (le_n _)). split; [intros H; apply allows_listed; [intros r' E; congruence|exact H]|]. intros H. inversion H; subst; [assumption|congruence].
Qed.
Lemma tmatch_iff n : forall p s, (List.length p <= n)%nat -> (tmatch (tokens n p) s = true <-> fits_pattern p s).
Proof.
  induction n as [|n IH]; intros p s L.
  - destruct p; [|cbn in L; lia]. cbn. destruct s; split; intros H; try discriminate; try constructor. inversion H.
  - destruct p as [|c p]; cbn [tokens].
    { cbn. destruct s; split; intros H; try discriminate; try constructor. inversion H. }
    assert (Lp : (List.length p <= n)%nat) by (cbn in L; lia).
    assert (One : forall k q, (List.length q <= n)%nat -> k <> Star ->
      tmatch (k :: tokens n q) s = true <-> exists d t, s = d :: t /\ token_one k d = true /\ fits_pattern q t).
    { intros k q Lq NS. transitivity (match s with [] => false | d :: t => token_one k d && tmatch (tokens n q) t end = true); [destruct k; [congruence|reflexivity..]|].
      destruct s as [|d t]; [split; [discriminate|intros (d & t & X & _); discriminate]|]. rewrite Bool.andb_true_iff, (IH q t Lq). split.
      - intros (A & B). exists d, t. auto.
      - intros (d0 & t0 & X & A & B). injection X as -> ->. auto. }
    destruct (ascii_dec c "*") as [->|N1].
    + cbn [tmatch]. set (any := fix any (s : str) : bool := tmatch (tokens n p) s || match s with [] => false | _ :: t => any t end).
      assert (A : forall s, any s = true <-> exists a t, s = a ++ t /\ fits_pattern p t).
      { induction s0 as [|d t IHs]; cbn [any]; fold any; rewrite Bool.orb_true_iff, (IH p _ Lp).
        - split; [intros [H|H]; [exists [], []; auto|discriminate]|]. intros (a & t & E & F). apply eq_sym, app_eq_nil in E as [-> ->]. left; exact F.
        - rewrite IHs. split.
          + intros [H|(a & t0 & -> & F)]; [exists [], (d :: t); auto|exists (d :: a), t0; auto].
          + intros (a & t0 & E & F). destruct a as [|d' a]; cbn in E; [subst t0; left; exact F|]. injection E as <- ->. right. exists a, t0. auto. }
      rewrite A. split; [intros (a & t & -> & F); constructor; exact F|].
      intros H. inversion H; subst; [eauto|congruence].
    + destruct (ascii_dec c "?") as [->|N2].
      { rewrite One by (assumption || discriminate). split.
        - intros (d & t & -> & _ & F). constructor. exact F.
        - intros H. inversion H; subst; [eauto|]. exists "?"%char. eauto. }
      destruct (ascii_dec c "[") as [->|N3].
      * destruct (closing p) as [[body q]|] eqn:C.
        -- assert (K := proj1 (closing_some p body q) C). assert (Lq : (List.length q <= n)%nat) by (destruct K as (-> & _); rewrite app_length in Lp; cbn [List.length] in Lp; lia).
           rewrite One by (assumption || discriminate). cbn [token_one]. split.
           ++ intros (d & t & -> & A & F). apply (fits_set p body q); [exact K|apply allowed_iff, A|exact F].
           ++ intros H. inversion H as [| | |p0 body' q' d t K' A F| |]; subst.
              ** apply closing_some in K'. rewrite C in K'. injection K' as <- <-. exists d, t. split; [reflexivity|]. split; [apply allowed_iff, A|exact F].
              ** exfalso. match goal with X : forall _ _, ~ closes _ _ _ |- _ => exact (X _ _ K) end.
              ** congruence.
        -- assert (K : forall body q, ~ closes p body q) by (intros body q X; apply closing_some in X; congruence).
           rewrite One by (assumption || discriminate). cbn [token_one]. split.
           ++ intros (d & t & -> & A & F). apply single_bool in A. subst d. apply fits_bracket; assumption.
           ++ intros H. inversion H as [| | |p0 body' q' d t K' A F| |]; subst; [exfalso; exact (K _ _ K')| |congruence]. exists "["%char. eexists. split; [reflexivity|]. split; [apply single_bool; reflexivity|assumption].
      * rewrite One by (assumption || discriminate). cbn [token_one]. split.
        -- intros (d & t & -> & A & F). apply single_bool in A. subst d. apply fits_same; assumption.
        -- intros H. inversion H; subst; try congruence. exists c. eexists. split; [reflexivity|]. split; [apply single_bool; reflexivity|assumption].
Qed.
Lemma fnmatch_iff p s : fnmatch p s = true <-> fits_pattern p s.
Proof. apply tmatch_iff. reflexivity. Qed.

(** the order of strings *)
Lemma leb_refl a : str_leb a a = true.
Proof. induction a as [|c a IH]; [reflexivity|]. cbn. rewrite N.ltb_irrefl. exact IH. Qed.
Lemma leb_total a : forall b, str_leb a b = true \/ str_leb b a = true.
Proof.
  induction a as [|c a IH]; intros [|d b]; cbn; auto. destruct (N.ltb_spec (N_of_ascii c) (N_of_ascii d)); [auto|].
  destruct (N.ltb_spec (N_of_ascii d) (N_of_ascii c)); [auto|]. apply IH.
Qed.
Lemma ascii_N_inj c d : N_of_ascii c = N_of_ascii d -> c = d.
Proof. intros H. rewrite <- (ascii_N_embedding c), <- (ascii_N_embedding d), H. reflexivity. Qed.
Lemma before_iff a : forall b, before a b <-> str_leb a b = true /\ a <> b.
Proof.
  induction a as [|c a IH]; intros b.
  - cbn [str_leb]. split.
    + intros [(c & t & ->)|(p & c & d & s & t & E & _)]; [split; [reflexivity|discriminate]|]. destruct p; discriminate.
    + intros (_ & N). destruct b as [|d t]; [congruence|]. left. exists d, t. reflexivity.
  - destruct b as [|d b]; cbn [str_leb].
    + split; [|intros (H & _); discriminate]. intros [(e & t & E)|(p & e & d & s & t & _ & E & _)]; [discriminate|destruct p; discriminate].
    + destruct (N.ltb_spec (N_of_ascii c) (N_of_ascii d)) as [L|L].
      { split; [intros _; split; [reflexivity|intros E; injection E as -> _; lia]|]. intros _. right. exists [], c, d, a, b. auto. }
      destruct (N.ltb_spec (N_of_ascii d) (N_of_ascii c)) as [L'|L'].
      { split; [|intros (H & _); discriminate]. intros [(e & t & E)|(p & e & g & s & t & E1 & E2 & H)].
        - cbn in E. injection E as -> _. lia.
        - destruct p as [|x p]; cbn in E1, E2; [injection E1 as -> _; injection E2 as -> _; lia|]. injection E1 as -> _. injection E2 as -> _. lia. }
      assert (c = d) by (apply ascii_N_inj; lia). subst d. specialize (IH b). split.
      * intros H. assert (B : before a b).
        { destruct H as [(e & t & E)|(p & e & g & s & t & E1 & E2 & H)].
          - cbn in E. injection E as ->. left. eauto.
          - destruct p as [|x p]; cbn in E1, E2; [injection E1 as -> _; injection E2 as -> _; lia|]. injection E1 as _ ->. injection E2 as _ ->. right. exists p, e, g, s, t. auto. }
        apply IH in B as (B1 & B2). split; [exact B1|congruence].
      * intros (H1 & H2). assert (B : before a b) by (apply IH; split; [exact H1|congruence]).
        destruct B as [(e & t & ->)|(p & e & g & s & t & -> & -> & H)]; [left; exists e, t; reflexivity|].
        right. exists (c :: p), e, g, s, t. auto.
Qed.
Lemma leb_trans a : forall b c, str_leb a b = true -> str_leb b c = true -> str_leb a c = true.
Proof.
  induction a as [|x a IH]; intros [|y b] [|z c] H1 H2; cbn in *; try reflexivity; try discriminate.
  destruct (N.ltb_spec (N_of_ascii x) (N_of_ascii y)); destruct (N.ltb_spec (N_of_ascii y) (N_of_ascii z)); destruct (N.ltb_spec (N_of_ascii x) (N_of_ascii z)); try reflexivity; try lia;
  destruct (N.ltb_spec (N_of_ascii y) (N_of_ascii x)); destruct (N.ltb_spec (N_of_ascii z) (N_of_ascii y)); destruct (N.ltb_spec (N_of_ascii z) (N_of_ascii x)); try discriminate; try lia; eauto.
Qed.
Lemma leb_antisym a : forall b, str_leb a b = true -> str_leb b a = true -> a = b.
Proof.
  induction a as [|x a IH]; intros [|y b] H1 H2; cbn in *; try reflexivity; try discriminate.
  destruct (N.ltb_spec (N_of_ascii x) (N_of_ascii y)); destruct (N.ltb_spec (N_of_ascii y) (N_of_ascii x)); try discriminate; try lia.
  assert (x = y) by (apply ascii_N_inj; lia). subst. f_equal. apply IH; assumption.
Qed.

Lemma insert_In x y l : In y (insert_str x l) <-> y = x \/ In y l.
Proof.
  induction l as [|z l IH]; cbn; [intuition|]. destruct (str_leb x z); cbn; [intuition|]. rewrite IH. intuition.
Qed.
Lemma sorted_In y l : In y (sorted_str l) <-> In y l.
Proof. induction l as [|x l IH]; cbn; [reflexivity|]. rewrite insert_In, IH. intuition. Qed.
Lemma insert_sorted x l : ~ In x l -> StronglySorted before l -> StronglySorted before (insert_str x l).
Proof.
  intros N H. induction l as [|z l IH]; cbn; [repeat constructor|]. inversion H as [|? ? Hl Hz]; subst.
  destruct (str_leb x z) eqn:E.
  - constructor; [exact H|]. assert (B : before x z) by (apply before_iff; split; [exact E|intros ->; apply N; left; reflexivity]). constructor; [exact B|].
    apply Forall_forall. intros y Hy. rewrite Forall_forall in Hz. apply before_iff. specialize (Hz y Hy). apply before_iff in Hz as (Z1 & _). split; [eapply leb_trans; eassumption|].
    intros ->. apply N. right; exact Hy.
  - constructor.
    + apply IH; [|exact Hl]. intros Y; apply N; right; exact Y.
    + apply Forall_forall. intros y Hy. apply insert_In in Hy as [->|Hy]; [|rewrite Forall_forall in Hz; apply Hz, Hy].
      apply before_iff. destruct (leb_total x z) as [T|T]; [congruence|]. split; [exact T|]. intros ->. apply N. left; reflexivity.
Qed.
Lemma sorted_sorted l : NoDup l -> StronglySorted before (sorted_str l).
Proof.
  induction l as [|x l IH]; intros ND; cbn; [constructor|]. inversion ND; subst. apply insert_sorted; [rewrite sorted_In; assumption|apply IH; assumption].
Qed.
Lemma before_irrefl a : ~ before a a.
Proof. intros H. apply before_iff in H as (_ & H). congruence. Qed.
Lemma before_asym a b : before a b -> before b a -> False.
Proof. intros H K. apply before_iff in H as (H1 & H2). apply before_iff in K as (K1 & _). apply H2. apply leb_antisym; assumption. Qed.
Lemma sorted_unique l : forall l', StronglySorted before l -> StronglySorted before l' -> (forall x, In x l <-> In x l') -> l = l'.
Proof.
  induction l as [|a l IH]; intros [|b l'] S1 S2 E; [reflexivity| | |].
  - exfalso. apply (proj2 (E b)). left; reflexivity.
  - exfalso. apply (proj1 (E a)). left; reflexivity.
  - inversion S1 as [|? ? Sl Fa]; subst. inversion S2 as [|? ? Sl' Fb]; subst. rewrite Forall_forall in Fa, Fb.
    assert (a = b).
    { destruct (proj1 (E a) (or_introl eq_refl)) as [->|Ha]; [reflexivity|]. destruct (proj2 (E b) (or_introl eq_refl)) as [->|Hb]; [reflexivity|].
      exfalso. eapply before_asym; [apply Fa, Hb|apply Fb, Ha]. }
    subst b. f_equal. apply IH; [assumption..|]. intros x. split; intros Hx.
    + destruct (proj1 (E x) (or_intror Hx)) as [<-|H]; [exfalso; eapply before_irrefl, Fa, Hx|exact H].
    + destruct (proj2 (E x) (or_intror Hx)) as [<-|H]; [exfalso; eapply before_irrefl, Fb, Hx|exact H].
Qed.

Section FSP.
Context {C : Type}.
Lemma In_lookup (f : fs C) p : In p (map fst f) -> exists nd, lookup f p = Some nd.
Proof.
  induction f as [|[q n] f IH]; [intros []|]. cbn [map fst lookup]. intros [<-|H]; destruct (path_eq_dec q _); try congruence; eauto.
Qed.
Lemma entries_In (f : fs C) d nm : In nm (entries f d) <-> exists nd, lookup f (nm :: d) = Some nd.
Proof.
  unfold entries. rewrite nodup_In, in_flat_map. split.
  - intros ([q n] & H1 & H2). cbn [fst] in H2. destruct q as [|m q]; [destruct H2|]. destruct (path_eq_dec q d) as [->|]; [|destruct H2].
    destruct H2 as [->|[]]. apply In_lookup. apply in_map_iff. exists (nm :: d, n). auto.
  - intros (nd & H). apply lookup_In in H. apply in_map_iff in H as ([q n] & E & H). cbn [fst] in E. subst q. exists (nm :: d, n). split; [exact H|].
    cbn [fst]. destruct (path_eq_dec d d); [left; reflexivity|congruence].
Qed.
Lemma matches_In (f : fs C) d pat nm : In nm (sorted_str (filter (fnmatch pat) (entries f d))) <-> found_in f d pat (nm :: d).
Proof.
  rewrite sorted_In, filter_In, entries_In, fnmatch_iff. unfold found_in. split.
  - intros ((nd & L) & F). exists nm, nd. auto.
  - intros (n & nd & E & L & F). injection E as <-. eauto.
Qed.
Lemma matches_sorted (f : fs C) d pat : StronglySorted before (sorted_str (filter (fnmatch pat) (entries f d))).
Proof. apply sorted_sorted, NoDup_filter. unfold entries. apply NoDup_nodup. Qed.
Lemma find_spec (f : fs C) d pat : 
  ((forall p, ~ found_in f d pat p) /\ find_file f d pat = Err FileNotFoundError) \/
  (exists l, find_file f d pat = Ok l /\ l <> [] /\ (forall p, In p l <-> found_in f d pat p) /\ StronglySorted (fun p q => before (pname p) (pname q)) l).
Proof.
  unfold find_file. pose proof (matches_In f d pat) as MI. pose proof (matches_sorted f d pat) as MS.
  assert (Shape : forall p, found_in f d pat p -> exists nm, p = nm :: d) by (intros p (nm & nd & E & _); exists nm; exact E).
  destruct (sorted_str _) as [|x t] eqn:E.
  - left. split; [|reflexivity]. intros p H. destruct (Shape p H) as (nm & ->). apply MI in H. destruct H.
  - right. exists (map (fun n => n :: d) (x :: t)). split; [reflexivity|]. split; [discriminate|]. split.
    + intros p. split.
      * intros H. apply in_map_iff in H as (nm & <- & H). apply MI, H.
      * intros H. destruct (Shape p H) as (nm & ->). apply in_map_iff. exists nm. split; [reflexivity|]. apply MI, H.
    + clear -MS. induction MS as [|a l S IH F]; cbn [map]; constructor; [exact IH|]. apply Forall_forall. intros p H. apply in_map_iff in H as (nm & <- & H).
      cbn [pname hd]. rewrite Forall_forall in F. apply F, H.
Qed.
End FSP.

(** numbers of the same length are ordered like their values *)
Lemma digits_before : forall a b, forallb is_digit a = true -> forallb is_digit b = true -> List.length a = List.length b ->
  (decimal_value a < decimal_value b)%N -> before a b.
Proof.
  induction a as [|c a IH]; intros [|d b] Da Db L V; [cbn in V; lia|cbn in L; lia|cbn in L; lia|].
  cbn [forallb] in Da, Db. apply andb_true_iff in Da as [Dc Da], Db as [Dd Db]. cbn [List.length] in L.
  assert (V' : forall x l, decimal_value (x :: l) = ((N_of_ascii x - 48) * 10 ^ N.of_nat (List.length l) + decimal_value l)%N).
  { intros x l. change (x :: l) with ([x] ++ l). rewrite val_app, val_single. reflexivity. }
  rewrite !V' in V. replace (List.length b) with (List.length a) in V by lia.
  pose proof (val_bound a Da) as Ba. pose proof (val_bound b Db) as Bb. replace (List.length b) with (List.length a) in Bb by lia.
  unfold is_digit in Dc, Dd. apply andb_true_iff in Dc as [C1 C2], Dd as [D1 D2]. apply N.leb_le in C1, C2, D1, D2.
  set (P := (10 ^ N.of_nat (List.length a))%N) in *.
  destruct (N.lt_trichotomy (N_of_ascii c) (N_of_ascii d)) as [H|[H|H]].
  - right. exists [], c, d, a, b. auto.
  - assert (c = d) by (apply ascii_N_inj, H). subst d. assert (B : before a b) by (apply IH; [assumption..|lia|lia]).
    destruct B as [(e & t & ->)|(p & e & g & s & t & -> & -> & K)]; [left; exists e, t; reflexivity|]. right. exists (c :: p), e, g, s, t. auto.
  - exfalso. assert (E : exists z, (N_of_ascii c - 48 = (N_of_ascii d - 48) + 1 + z)%N) by (exists (N_of_ascii c - N_of_ascii d - 1)%N; lia).
    destruct E as (z & E). rewrite E in V. rewrite !N.mul_add_distr_r, N.mul_1_l in V.
    assert (0 <= z * P)%N by apply N.le_0_l. lia.
Qed.
Lemma before_context p a b s : before a b -> List.length a = List.length b -> before (p ++ a ++ s) (p ++ b ++ s).
Proof.
  intros [(c & t & ->)|(q & c & d & s1 & t1 & -> & -> & H)] L.
  - rewrite app_length in L. cbn in L. lia.
  - right. exists (p ++ q), c, d, (s1 ++ s), (t1 ++ s). split; [rewrite <- !app_assoc; reflexivity|]. split; [rewrite <- !app_assoc; reflexivity|exact H].
Qed.
Lemma img_name_written i : 0 <= i < 100000 -> exists ds, written 5 (Z.to_N i) ds /\ img_name i = s_ "img_" ++ ds ++ s_ ".tif" /\ List.length ds = 5%nat.
Proof.
  intros Hi. exists (lastn 5 (s_ "00000" ++ str_Z i)). split; [|split; [reflexivity|] ].
  - unfold str_Z. destruct (Z.ltb_spec i 0); [lia|]. apply last5_written. lia.
  - apply lastn5_length. rewrite app_length. cbn. lia.
Qed.
Lemma img_name_before i j : 0 <= i -> i < j -> j < 100000 -> before (img_name i) (img_name j).
Proof.
  intros H0 H1 H2. destruct (img_name_written i) as (a & (A1 & A2 & _) & -> & A3); [lia|]. destruct (img_name_written j) as (b & (B1 & B2 & _) & -> & B3); [lia|].
  apply before_context; [|congruence]. apply digits_before; [assumption..|congruence|lia].
Qed.

Lemma save_then_find {C V} (enc : str -> img V -> C) scale8 cplx pil_ok (f : fs C) folder (stack : vol V) axis start order pat :
  0 <= start -> start + axis_len stack axis <= 100000 -> 1 <= axis_len stack axis ->
  usable_folder f folder -> pil_ok (s_ ".tif") = true ->
  (forall i, cplx (axis_slice stack axis i) = false) ->
  (forall i, 0 <= i < axis_len stack axis -> lookup f (img_name (start + i) :: folder) <> Some Dir) ->
  schedule (save_tasks folder stack axis start) order ->
  (forall ds, forallb is_digit ds = true -> List.length ds = 5%nat -> fits_pattern pat (s_ "img_" ++ ds ++ s_ ".tif")) ->
  (forall nm nd, lookup f (nm :: folder) = Some nd -> fits_pattern pat nm -> exists i, 0 <= i < axis_len stack axis /\ nm = img_name (start + i)) ->
  exists f' rs, save_image_multiple enc scale8 cplx pil_ok f folder stack axis true order = (f', rs) /\
    (forall r, In r rs -> is_ok r = true) /\
    find_file f' folder pat = Ok (map (fun i => img_name (start + i) :: folder) (zrange 0 (axis_len stack axis))) /\
    (forall i, 0 <= i < axis_len stack axis -> lookup f' (img_name (start + i) :: folder) = Some (File (enc (s_ ".tif") (axis_slice stack axis i)))).
Proof.
  intros H0 H1 Hn U K X Nd Sch Fit Old. unfold save_image_multiple. set (n := axis_len stack axis) in *.
  destruct (run_saves_ok enc scale8 cplx pil_ok (axis_slice stack axis) folder order f) as (f' & rs & E & R & L & P & G); try assumption.
  - eapply Permutation_NoDup; [apply Permutation_map, Sch|]. rewrite save_tasks_fst. fold n.
    assert (Q : forall l, NoDup l -> (forall i, In i l -> 0 <= i < n) -> NoDup (map (fun i => img_name (start + i) :: folder) l)).
    { induction l as [|a l IH]; intros ND B; cbn [map]; constructor.
      - inversion ND as [|? ? Na ND']; subst. intros Y. apply in_map_iff in Y as (b & Y & Hb).
        apply (f_equal (hd [])) in Y. cbn [hd] in Y. apply img_name_inj in Y.
        + assert (a = b) by lia. subst. contradiction.
        + specialize (B b (or_intror Hb)). lia.
        + specialize (B a (or_introl eq_refl)). lia.
      - inversion ND; subst. apply IH; [assumption|]. intros; apply B; right; assumption. }
    apply Q; [apply zrange_NoDup|]. intros i Hi. apply zrange_In in Hi. lia.
  - intros p i Hi. apply (Permutation_in _ (Permutation_sym Sch)) in Hi.
    apply in_map_iff in Hi as (k & Hk & _). injection Hk as <- _. eexists. split; [reflexivity|]. apply img_name_suffix.
  - intros p i Hi. apply (Permutation_in _ (Permutation_sym Sch)) in Hi.
    apply in_map_iff in Hi as (k & Hk & Hr). injection Hk as <- _. apply zrange_In in Hr. apply Nd. fold n in Hr. lia.
  - exists f', rs. split; [exact E|]. split; [exact R|].
    assert (L' : forall i, 0 <= i < n -> lookup f' (img_name (start + i) :: folder) = Some (File (enc (s_ ".tif") (axis_slice stack axis i)))).
    { intros i Hi. apply L. apply (Permutation_in _ Sch). apply in_map_iff. exists i. split; [reflexivity|]. apply zrange_In. fold n. lia. }
    split; [|exact L']. unfold find_file.
    assert (Eq : sorted_str (filter (fnmatch pat) (entries f' folder)) = map (fun i => img_name (start + i)) (zrange 0 n)).
    { apply sorted_unique; [apply matches_sorted| |].
      - assert (Q : forall m a, 0 <= a -> a + Z.of_nat m <= n -> StronglySorted before (map (fun i => img_name (start + i)) (zrange a (Z.of_nat m)))).
        { induction m as [|m IH]; intros a Ha Hm; [constructor|]. rewrite zrange_cons by lia. cbn [map]. constructor.
          - replace (Z.of_nat (S m) - 1) with (Z.of_nat m) by lia. apply IH; lia.
          - apply Forall_forall. intros x Hx. apply in_map_iff in Hx as (i & <- & Hi). apply zrange_In in Hi. apply img_name_before; lia. }
        replace n with (Z.of_nat (Z.to_nat n)) by lia. apply Q; lia.
      - intros x. rewrite matches_In. split.
        + intros (nm & nd & Enm & Lnm & Fnm). injection Enm as <-.
          destruct (in_dec path_eq_dec (x :: folder) (map fst order)) as [Hin|Hout].
          * apply in_map_iff in Hin as ([p i] & Ep & Hi). cbn [fst] in Ep. subst p. apply (Permutation_in _ (Permutation_sym Sch)) in Hi.
            apply in_map_iff in Hi as (k & Hk & Hr). injection Hk as Hx _. apply in_map_iff. exists k. split; [exact Hx|exact Hr].
          * rewrite G in Lnm; [|exact Hout|cbn [List.length]; lia]. destruct (Old x nd Lnm Fnm) as (i & Hi & ->). apply in_map_iff. exists i. split; [reflexivity|]. apply zrange_In. lia.
        + intros Hx. apply in_map_iff in Hx as (i & <- & Hi). apply zrange_In in Hi. exists (img_name (start + i)). eexists. split; [reflexivity|].
          split; [apply L'; lia|]. destruct (img_name_written (start + i)) as (ds & (W1 & _) & -> & W3); [lia|]. apply Fit; assumption. }
    rewrite Eq. rewrite zrange_cons by lia. cbn [map]. rewrite map_map. reflexivity.
Qed.
