(** Proofs about hdf files. *)
From Coq Require Import ZArith Lia Bool Permutation.
From Verif Require Import Np P_Np M_fs P_fs M_hdf S_hdf.
From Coq Require Import Ascii String.
From Coq Require Import List. Import ListNotations.
Open Scope Z_scope.

Lemma node_ind' {V} (P : node V -> Prop) : (forall s d c, P (DSet s d c)) -> (forall cs, (forall k n, In (k, n) cs -> P n) -> P (Grp cs)) -> P Dangling -> forall n, P n.
Proof.
  intros H1 H2 H3. fix IH 1. intros [s d c|cs|]; [apply H1| |apply H3]. apply H2.
  induction cs as [|(k, n) cs IHc]; intros k' n' H; [contradiction|]. destruct H as [H|H]; [|apply (IHc k' n' H)].
  assert (E : n = n') by congruence. rewrite <- E. apply IH.
Qed.
(** ** paths *)
Lemma parse_name k : ~ In slash k -> forall cur r, parse_from cur (k ++ r) = parse_from (cur ++ k) r.
Proof.
  induction k as [|c k IH]; intros H cur r; [rewrite app_nil_r; reflexivity|]. cbn [app parse_from]. destruct (ascii_dec c slash) as [E|E]; [exfalso; apply H; left; exact E|].
  rewrite IH by (intros X; apply H; right; exact X). rewrite <- app_assoc. reflexivity.
Qed.
Lemma parse_one k : good_name k -> parse k = [k].
Proof. intros (H1 & H2). unfold parse. rewrite <- (app_nil_r k) at 1. rewrite (parse_name k H2). cbn [app parse_from]. destruct k; [congruence|reflexivity]. Qed.
Lemma parse_from_joined a : forall cur b, parse_from cur (a ++ slash :: b) = parse_from cur a ++ parse b.
Proof.
  induction a as [|c a IH]; intros cur b; cbn [app parse_from].
  - destruct (ascii_dec slash slash) as [_|N]; [|congruence]. destruct cur; reflexivity.
  - destruct (ascii_dec c slash); [destruct cur; rewrite IH; reflexivity|apply IH].
Qed.
Lemma parse_joined a b : parse (joined a b) = parse a ++ parse b.
Proof. apply parse_from_joined. Qed.
Lemma parse_abs a : parse (slash :: a) = parse a.
Proof. unfold parse. cbn [parse_from]. destruct (ascii_dec slash slash); [reflexivity|congruence]. Qed.
Lemma parse_text p : (forall k, In k p -> good_name k) -> parse (path_text p) = p.
Proof.
  induction p as [|k p IH]; intros H; [reflexivity|]. cbn [path_text]. destruct p as [|k2 p]; [apply parse_one, H; left; reflexivity|].
  change (k ++ "/"%char :: path_text (k2 :: p)) with (joined k (path_text (k2 :: p))). rewrite parse_joined, IH by (intros x Hx; apply H; right; exact Hx). rewrite parse_one by (apply H; left; reflexivity). reflexivity.
Qed.
Lemma path_text_app p q : p <> [] -> q <> [] -> path_text (p ++ q) = joined (path_text p) (path_text q).
Proof.
  intros Hp Hq. induction p as [|k p IH]; [congruence|]. cbn [app path_text]. destruct p as [|k2 p]; cbn [app].
  - destruct q as [|k3 q]; [congruence|]. reflexivity.
  - change (k2 :: p ++ q) with ((k2 :: p) ++ q). rewrite IH by discriminate. unfold joined. rewrite <- app_assoc. reflexivity.
Qed.
(** ** objects *)
Section File.
Context {V : Type}.
Lemma str_eqb_refl k : str_eqb k k = true.
Proof. unfold str_eqb. destruct (str_eq_dec k k); congruence. Qed.
Lemma str_eqb_eq a b : str_eqb a b = true -> a = b.
Proof. unfold str_eqb. destruct (str_eq_dec a b); congruence. Qed.
Lemma assoc_In k (cs : list (str * node V)) n : assoc k cs = Some n -> In (k, n) cs.
Proof. induction cs as [|(k', m) cs IH]; cbn [assoc]; [discriminate|]. destruct (str_eqb k k') eqn:E; intros H; [apply str_eqb_eq in E; inversion H; subst; left; reflexivity|right; apply IH, H]. Qed.
Lemma assoc_unique k (cs : list (str * node V)) n : NoDup (map fst cs) -> In (k, n) cs -> assoc k cs = Some n.
Proof.
  induction cs as [|(k', m) cs IH]; cbn [assoc map fst]; intros ND H; [contradiction|]. inversion ND as [|? ? N1 N2]; subst. destruct H as [H|H].
  - inversion H; subst. rewrite str_eqb_refl. reflexivity.
  - destruct (str_eqb k k') eqn:E; [apply str_eqb_eq in E; subst; exfalso; apply N1; apply (in_map fst) in H; exact H|apply IH; assumption].
Qed.
Lemma good_below cs k (m : node V) : good_file (Grp cs) -> In (k, m) cs -> m <> Dangling -> good_file m.
Proof.
  intros (G & H) Hin Hm. split; [apply (H [k]); constructor; assumption|]. intros p n Ho. apply (H (k :: p)). apply (object_below cs k m); assumption.
Qed.
Lemma object_not_dangling (f : node V) p n : object f p n -> n <> Dangling.
Proof. induction 1; assumption. Qed.
Lemma object_root (f : node V) p n : object f p n -> p <> [].
Proof. destruct 1; discriminate. Qed.
Lemma object_walk (f : node V) p n : good_file f -> object f p n -> walk f p = Some n.
Proof.
  intros G H. induction H as [cs k n Hin Hn|cs k m p n Hin Ho IH]; cbn [walk children].
  - rewrite (assoc_unique k cs n (proj1 (proj1 G)) Hin). destruct n; [reflexivity|reflexivity|congruence].
  - rewrite (assoc_unique k cs m (proj1 (proj1 G)) Hin). assert (Hm : m <> Dangling) by (destruct Ho; discriminate). assert (I := IH (good_below cs k m G Hin Hm)). destruct m; [exact I|exact I|congruence].
Qed.
Lemma walk_object p : forall (f n : node V), p <> [] -> walk f p = Some n -> object f p n.
Proof.
  induction p as [|k p IH]; intros f n Hp H; [congruence|]. cbn [walk] in H. destruct f as [s d c|cs|]; cbn [children] in H; try discriminate.
  destruct (assoc k cs) as [m|] eqn:E; [|discriminate]. apply assoc_In in E. destruct p as [|k2 p].
  - destruct m; cbn [walk] in H; try discriminate; inversion H; subst; constructor; try exact E; discriminate.
  - destruct m as [s d c|cs'|]; [| |discriminate]; eapply object_below; try exact E; apply IH; try discriminate; exact H.
Qed.
Lemma object_names (f : node V) p n : good_file f -> object f p n -> forall k, In k p -> good_name k.
Proof.
  intros G H. induction H as [cs k n Hin Hn|cs k m p n Hin Ho IH]; intros k' Hk.
  - destruct Hk as [<-|[] ]. apply (proj2 (proj1 G) k n Hin).
  - destruct Hk as [<-|Hk]; [apply (proj2 (proj1 G) k m Hin)|]. apply IH; [|exact Hk]. apply (good_below cs k m G Hin). destruct Ho; discriminate.
Qed.
Lemma lookup_text (f : node V) p n : good_file f -> object f p n -> lookup f (path_text p) = Some n /\ lookup f (absolute_text p) = Some n.
Proof.
  intros G H. assert (E : parse (path_text p) = p) by (apply parse_text; eapply object_names; eassumption). unfold lookup, absolute_text. split; [|change "/"%char with slash; rewrite parse_abs]; rewrite E; apply object_walk; assumption.
Qed.
Lemma lookup_object (f : node V) key n : lookup f key = Some n -> parse key = [] \/ object f (parse key) n.
Proof. intros H. unfold lookup in H. destruct (parse key) as [|k p] eqn:E; [left; reflexivity|right]. apply walk_object; [discriminate|exact H]. Qed.
(** ** visiting *)
Lemma visit_under_In (n : node V) : forall path s, In s (visit_under path n) <-> exists p m, object n p m /\ s = joined path (path_text p).
Proof.
  induction n as [s0 d c|cs IH|] using node_ind'; intros path s.
  - split; [contradiction|]. intros (p & m & H & _). inversion H.
  - cbn [visit_under]. rewrite in_flat_map. split.
    + intros ((k & m) & Hin & H). cbn [fst snd] in H. assert (Hm : m <> Dangling) by (destruct m; [discriminate|discriminate|contradiction]).
      assert (H' : s = joined path k \/ In s (visit_under (joined path k) m)) by (destruct m; [destruct H as [H|H]; [left; symmetry; exact H|right; exact H]|destruct H as [H|H]; [left; symmetry; exact H|right; exact H]|contradiction]).
      destruct H' as [-> |H']; [exists [k], m; split; [constructor; assumption|reflexivity]|].
      apply (IH k m Hin) in H'. destruct H' as (p & m' & Ho & ->). exists (k :: p), m'. split; [eapply object_below; eassumption|].
      assert (Hp := object_root _ _ _ Ho). destruct p as [|k2 p]; [congruence|]. unfold joined. cbn [path_text]. rewrite <- app_assoc. reflexivity.
    + intros (p & m & Ho & ->). inversion Ho as [cs' k m' Hin Hm E1 E2 E3|cs' k m' p' n' Hin Ho' E1 E2 E3]; subst.
      * exists (k, m). split; [exact Hin|]. cbn [fst snd]. destruct m; [left; reflexivity|left; reflexivity|congruence].
      * exists (k, m'). split; [exact Hin|]. cbn [fst snd]. assert (Hm : m' <> Dangling) by (destruct Ho'; discriminate).
        assert (I : In (joined path (path_text (k :: p'))) (visit_under (joined path k) m')).
        { apply (IH k m' Hin). exists p', m. split; [exact Ho'|]. assert (Hp := object_root _ _ _ Ho'). destruct p' as [|k2 p']; [congruence|]. unfold joined. cbn [path_text]. rewrite <- app_assoc. reflexivity. }
        destruct m'; [right; exact I|right; exact I|congruence].
  - split; [contradiction|]. intros (p & m & H & _). inversion H.
Qed.
Lemma visit_In (f : node V) s : In s (visit f) <-> exists p m, object f p m /\ s = path_text p.
Proof.
  unfold visit. rewrite in_flat_map. split.
  - intros ((k & m) & Hin & H). destruct f as [s0 d c|cs|]; cbn [children] in Hin; try contradiction. cbn [fst snd] in H.
    assert (Hm : m <> Dangling) by (destruct m; [discriminate|discriminate|contradiction]).
    assert (H' : s = k \/ In s (visit_under k m)) by (destruct m; [destruct H as [H|H]; [left; symmetry; exact H|right; exact H]|destruct H as [H|H]; [left; symmetry; exact H|right; exact H]|contradiction]).
    destruct H' as [-> |H']; [exists [k], m; split; [constructor; assumption|reflexivity]|].
    apply visit_under_In in H'. destruct H' as (p & m' & Ho & ->). exists (k :: p), m'. split; [eapply object_below; eassumption|].
    assert (Hp := object_root _ _ _ Ho). destruct p as [|k2 p]; [congruence|]. reflexivity.
  - intros (p & m & Ho & ->). inversion Ho as [cs' k m' Hin Hm E1 E2 E3|cs' k m' p' n' Hin Ho' E1 E2 E3]; subst.
    + exists (k, m). split; [exact Hin|]. cbn [fst snd]. destruct m; [left; reflexivity|left; reflexivity|congruence].
    + exists (k, m'). split; [exact Hin|]. cbn [fst snd]. assert (Hm : m' <> Dangling) by (destruct Ho'; discriminate).
      assert (I : In (path_text (k :: p')) (visit_under k m')).
      { apply visit_under_In. exists p', m. split; [exact Ho'|]. assert (Hp := object_root _ _ _ Ho'). destruct p' as [|k2 p']; [congruence|]. reflexivity. }
      destruct m'; [right; exact I|right; exact I|congruence].
Qed.
(** ** the listed keys *)
Lemma list_keys_same (f : node V) : good_file f -> list_keys_find f = list_keys f.
Proof.
  intros G. unfold list_keys_find, list_keys. rewrite !flat_map_concat_map. f_equal. apply map_ext_in. intros key Hk. apply visit_In in Hk. destruct Hk as (p & m & Ho & ->).
  destruct (lookup_text f p m G Ho) as (-> & _). reflexivity.
Qed.
(** every listed key: a dataset with a leading slash, or an entry of a group, or an empty group *)
Lemma list_keys_In (f : node V) key : good_file f -> (In key (list_keys f) <->
  (exists p s d c, object f p (DSet s d c) /\ key = absolute_text p) \/
  (exists p cs k c, object f p (Grp cs) /\ In (k, c) cs /\ key = path_text (p ++ [k])) \/
  (exists p, object f p (Grp []) /\ key = path_text p)).
Proof.
  intros G. unfold list_keys. rewrite in_flat_map. split.
  - intros (q & Hq & H). apply visit_In in Hq. destruct Hq as (p & m & Ho & ->). destruct (lookup_text f p m G Ho) as (E & _). rewrite E in H.
    destruct m as [s d c|cs|].
    + left. exists p, s, d, c. split; [exact Ho|]. destruct H as [<-|[] ]. reflexivity.
    + right. destruct cs as [|kc cs]; [right; exists p; split; [exact Ho|]; destruct H as [<-|[] ]; reflexivity|left].
      apply in_map_iff in H. destruct H as ((k & c) & <- & Hin). cbn [fst]. exists p, (kc :: cs), k, c. split; [exact Ho|]. split; [exact Hin|].
      rewrite path_text_app; [reflexivity|apply (object_root _ _ _ Ho)|discriminate].
    + exfalso. apply (object_not_dangling _ _ _ Ho). reflexivity.
  - intros [(p & s & d & c & Ho & ->)|[(p & cs & k & c & Ho & Hin & ->)|(p & Ho & ->)] ]; exists (path_text p); (split; [apply visit_In; eexists; eexists; split; [exact Ho|reflexivity]|]); destruct (lookup_text f p _ G Ho) as (-> & _).
    + left. reflexivity.
    + destruct cs as [|kc cs]; [contradiction|]. apply in_map_iff. exists (k, c). split; [|exact Hin]. cbn [fst]. rewrite path_text_app; [reflexivity|apply (object_root _ _ _ Ho)|discriminate].
    + left. reflexivity.
Qed.
Lemma object_split (f : node V) p k n : object f (p ++ [k]) n -> p <> [] -> exists cs, object f p (Grp cs) /\ In (k, n) cs.
Proof.
  revert f. induction p as [|k1 p IH]; intros f H Hp; [congruence|]. cbn [app] in H. inversion H as [cs k' n' Hin Hn E1 E2 E3|cs k' m p' n' Hin Ho E1 E2 E3]; subst.
  - exfalso. destruct p; discriminate.
  - destruct p as [|k2 p].
    + cbn [app] in Ho. inversion Ho as [cs' k' n' Hin' Hn' E1 E2 E3|cs' k' m' p' n' Hin' Ho' E1 E2 E3]; subst; [|inversion Ho']. exists cs'. split; [constructor; [exact Hin|discriminate]|exact Hin'].
    + destruct (IH m Ho ltac:(discriminate)) as (cs' & A & B). exists cs'. split; [eapply object_below; eassumption|exact B].
Qed.
Lemma object_child (f : node V) p cs k n : object f p (Grp cs) -> In (k, n) cs -> n <> Dangling -> object f (p ++ [k]) n.
Proof.
  intros H Hin Hn. remember (Grp cs) as g eqn:E. induction H as [cs' k' n' Hin' Hn'|cs' k' m p n' Hin' Ho IH]; subst; cbn [app].
  - eapply object_below; [exact Hin'|]. constructor; assumption.
  - eapply object_below; [exact Hin'|]. apply IH. reflexivity.
Qed.
(** ** substrings *)
Lemma prefixb_spec a : forall b, prefixb a b = true <-> exists r, b = a ++ r.
Proof.
  induction a as [|x a IH]; intros b; cbn [prefixb]; [split; [intros _; exists b; reflexivity|reflexivity]|]. destruct b as [|y b]; [split; [discriminate|intros (r & E); discriminate]|].
  destruct (ascii_dec x y) as [-> |N].
  - rewrite IH. split; intros (r & E); exists r; [rewrite E; reflexivity|inversion E; reflexivity].
  - split; [discriminate|]. intros (r & E). inversion E. congruence.
Qed.
Lemma substrb_spec a b : substrb a b = true <-> contains a b.
Proof.
  induction b as [|y b IH]; cbn [substrb]; rewrite orb_true_iff, prefixb_spec.
  - split; [intros [(r & E)|H]; [exists [], r; exact E|discriminate]|]. intros (u & r & E). left. exists r. destruct u; [exact E|discriminate].
  - rewrite IH. split.
    + intros [(r & E)|(u & r & E)]; [exists [], r; exact E|exists (y :: u), r; rewrite E; reflexivity].
    + intros (u & r & E). destruct u as [|z u]; [left; exists r; exact E|right]. inversion E; subst. exists u, r. reflexivity.
Qed.
End File.
