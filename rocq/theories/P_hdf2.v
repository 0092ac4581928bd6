(** Proofs about the printed tree of an hdf file. *)
From Coq Require Import ZArith Lia Bool Permutation.
From Verif Require Import Np P_Np M_fs P_fs M_hdf S_hdf P_hdf.
From Coq Require Import Ascii String.
From Coq Require Import List. Import ListNotations.
Open Scope Z_scope.

Lemma read_app lines1 : forall prev lines2, read_paths prev (lines1 ++ lines2) = read_paths prev lines1 ++ read_paths (last (read_paths prev lines1) prev) lines2.
Proof.
  induction lines1 as [|(d, k) l IH]; intros prev lines2; [reflexivity|]. cbn [app read_paths]. rewrite IH. cbn [app]. f_equal. f_equal. f_equal.
  assert (G : forall (b : list (list str)) a x y, last (a :: b) x = last (a :: b) y).
  { induction b as [|c b IHb]; intros a x y; [reflexivity|]. exact (IHb c x y). }
  destruct (read_paths (firstn d prev ++ [k]) l) as [|a b]; [reflexivity|]. exact (G b a _ _).
Qed.
Lemma last_map_app (q : list str) r : forall prev, firstn (length q) prev = q -> firstn (length q) (last (map (app q) r) prev) = q.
Proof.
  induction r as [|a r IH]; intros prev H; [exact H|]. cbn [map]. destruct r as [|b r]; [cbn [map last]; rewrite firstn_app, firstn_all, Nat.sub_diag, firstn_O, app_nil_r; reflexivity|].
  change (firstn (length q) (last (map (app q) (b :: r)) prev) = q). apply IH, H.
Qed.
Lemma object_lines_app a b : object_lines (a ++ b) = object_lines a ++ object_lines b.
Proof. unfold object_lines. apply flat_map_app. Qed.
Section Tree.
Context {V : Type}.
Variables (sorted : list str -> list str) (f : node V) (sh : bool).
Hypotheses (Hsort : forall l, Permutation (sorted l) l) (Hgood : good_file f).
Definition branch (fuel : nat) (prefix : list symbol) (level : nat) (key key1 : str) (index last : nat) (con : connector) : res (list line) :=
  let key_comb := joined key key1 in
  let shape := if sh then match lookup f key_comb with Some (DSet s _ _) => Some s | _ => None end else None in
  do rest <- tree_body sorted fuel f (prefix ++ [if Nat.eqb index last then SPACE_PREFIX else PIPE_PREFIX]) (Some key_comb) level sh;
  Ok (ObjLine prefix con key1 shape :: rest).
Definition body_rest (fuel : nat) (prefix : list symbol) (level : nat) (key1 key : str) (entries : list str) : res (list line) :=
  match entries with
  | [] => Ok []
  | [e] => branch fuel prefix level key1 e 0%nat 0%nat (if Nat.ltb 1 level then ELBOW else NO_CONNECTOR)
  | _ =>
      do parts <- mapr (fun ie => branch fuel prefix level key (snd ie) (fst ie) (length entries - 1)%nat (if Nat.eqb (fst ie) (length entries - 1)%nat then ELBOW else TEE)) (enumerated entries);
      Ok (PipeLine prefix :: concat parts)
  end.
Lemma tree_body_step fuel prefix key level : tree_body sorted (S fuel) f prefix key level sh =
  let '(entries, k) := get_subgroups sorted f key in body_rest fuel prefix (S level) (if Nat.eqb (S level) 1 then [] else k) k entries.
Proof. cbn [tree_body]. destruct (get_subgroups sorted f key) as (entries, k). destruct entries as [|e [|e2 r] ]; reflexivity. Qed.
(** [lines] show the entries [rel] (paths below [q]) *)
Definition shown (q : list str) (rel : list (list str)) (lines : list line) : Prop :=
  (forall prev, firstn (length q) prev = q -> read_paths prev (map fst (object_lines lines)) = map (app q) rel) /\
  Forall2 (fun l p => shows_shape f sh (q ++ p) (snd l)) (object_lines lines) rel.
Lemma shown_app q r1 r2 l1 l2 : shown q r1 l1 -> shown q r2 l2 -> shown q (r1 ++ r2) (l1 ++ l2).
Proof.
  intros (A1 & A2) (B1 & B2). split.
  - intros prev H. rewrite object_lines_app, map_app, read_app, (A1 prev H), map_app. f_equal. apply B1. apply last_map_app, H.
  - rewrite object_lines_app. apply Forall2_app; assumption.
Qed.
Lemma walk_app p : forall (n : node V) r, walk n (p ++ r) = match walk n p with Some m => walk m r | None => None end.
Proof. induction p as [|k p IH]; intros n r; [reflexivity|]. cbn [app walk]. destruct (assoc k (children n)) as [m|]; [|reflexivity]. destruct m; [apply IH|apply IH|reflexivity]. Qed.
Definition P (n : node V) : Prop := forall q prefix key level, (n <> Dangling -> walk f q = Some n) -> (n = Dangling -> walk f q = None) -> parse key = q -> length prefix = length q -> (1 <= level)%nat -> (q <> []) ->
  exists N lines rel, (forall fuel, (N <= fuel)%nat -> tree_body sorted fuel f prefix (Some key) level sh = Ok lines) /\
    NoDup rel /\ (forall p, In p rel <-> entry n p) /\ shown q rel lines.
Section Group.
Variables (cs : list (str * node V)) (IH : forall k c, In (k, c) cs -> P c) (q : list str) (prefix : list symbol) (key : str) (level : nat).
Hypotheses (Hw : walk f q = Some (Grp cs)) (Hk : parse key = q) (Hp : length prefix = length q) (Hl : (1 <= level)%nat) (Hg : good_group (Grp cs)).
Lemma branch_ok e c index last con : In (e, c) cs -> exists N lines rel, (forall fuel, (N <= fuel)%nat -> branch fuel prefix level key e index last con = Ok lines) /\
  NoDup rel /\ (forall p, In p rel <-> p = [e] \/ exists p', p = e :: p' /\ entry c p') /\ shown q rel lines.
Proof using All.
  intros Hin. destruct Hg as (Hnd & Hnames). assert (Hn := Hnames e c Hin).
  assert (Pq : parse (joined key e) = q ++ [e]) by (rewrite parse_joined, Hk, (parse_one e Hn); reflexivity).
  assert (W : walk f (q ++ [e]) = match c with Dangling => None | _ => Some c end).
  { rewrite walk_app, Hw. cbn [walk children]. rewrite (assoc_unique e cs c Hnd Hin). destruct c; reflexivity. }
  destruct (IH e c Hin (q ++ [e]) (prefix ++ [if Nat.eqb index last then SPACE_PREFIX else PIPE_PREFIX]) (joined key e) level) as (N & lines & rel & A & B & C & D1 & D2).
  { intros H. rewrite W. destruct c; congruence. } { intros ->. exact W. } { exact Pq. } { rewrite !app_length, Hp. reflexivity. } { exact Hl. } { destruct q; discriminate. }
  eexists N, _, ([e] :: map (cons e) rel). split; [|split; [|split] ].
  - intros fuel Hf. unfold branch. rewrite (A fuel Hf). reflexivity.
  - constructor.
    + intros H. apply in_map_iff in H. destruct H as (x & E & Hx). inversion E; subst. apply C in Hx. inversion Hx.
    + apply FinFun.Injective_map_NoDup; [intros x y E; congruence|exact B].
  - intros p. cbn [In]. rewrite in_map_iff. split; (intros [H|H]; [left; symmetry; exact H|right]).
    + destruct H as (x & <- & Hx). exists x. split; [reflexivity|apply C, Hx].
    + destruct H as (x & -> & Hx). exists x. split; [reflexivity|apply C, Hx].
  - unfold shown. cbn [object_lines flat_map app map fst]. split.
    + intros prev H. cbn [read_paths]. rewrite Hp, H. f_equal. assert (X := D1 (q ++ [e])). unfold object_lines in X. rewrite X by apply firstn_all.
      rewrite map_map. apply map_ext. intros x. rewrite <- app_assoc. reflexivity.
    + constructor.
      * cbn [snd]. assert (LK : lookup f (joined key e) = match c with Dangling => None | _ => Some c end) by (unfold lookup; rewrite Pq; exact W). rewrite LK. split.
        -- intros Hs s d x Ho. rewrite Hs. apply (object_walk f _ _ Hgood) in Ho. rewrite W in Ho. destruct c; inversion Ho; reflexivity.
        -- intros s Hs. destruct sh; [|discriminate]. destruct c as [s' d x| |]; try discriminate. inversion Hs; subst. exists d, x. apply walk_object; [destruct (parse key); discriminate|exact W].
      * clear - D2. unfold object_lines in D2. induction D2 as [|l p ls ps H H' IH']; [constructor|]. cbn [map]. constructor; [|exact IH']. rewrite <- app_assoc in H. exact H.
Qed.
Lemma branches_ok last (con : nat -> connector) l : NoDup l -> (forall e, In e l -> In e (map fst cs)) -> forall a, exists N parts rel,
  (forall fuel, (N <= fuel)%nat -> mapr (fun ie => branch fuel prefix level key (snd ie) (fst ie) last (con (fst ie))) (combine (seq a (length l)) l) = Ok parts) /\
  NoDup rel /\ (forall p, In p rel <-> exists e c, In e l /\ In (e, c) cs /\ (p = [e] \/ exists p', p = e :: p' /\ entry c p')) /\ shown q rel (concat parts).
Proof using All.
  induction l as [|e l IHl]; intros ND Hin a.
  - exists 0%nat, [], []. split; [intros; reflexivity|]. split; [constructor|]. split; [|split; [intros; reflexivity|constructor] ]. intros p. split; [contradiction|]. intros (e & c & H & _). contradiction.
  - apply NoDup_cons_iff in ND. destruct ND as (N1 & N2). assert (He := Hin e (or_introl eq_refl)). apply in_map_iff in He. destruct He as ((e' & c) & E & Hec). cbn [fst] in E. rewrite E in Hec; clear E e'.
    destruct (branch_ok e c a last (con a) Hec) as (M1 & lines & r1 & A1 & A2 & A3 & A4).
    destruct (IHl N2 (fun x Hx => Hin x (or_intror Hx)) (S a)) as (M2 & parts & r2 & B1 & B2 & B3 & B4).
    exists (Nat.max M1 M2), (lines :: parts), (r1 ++ r2). split; [|split; [|split] ].
    + intros fuel Hf. cbn [length seq combine mapr fst snd]. rewrite (A1 fuel) by lia. rewrite (B1 fuel) by lia. reflexivity.
    + assert (G : forall (x y : list (list str)), NoDup x -> NoDup y -> (forall p, In p x -> ~ In p y) -> NoDup (x ++ y)).
      { induction x as [|b x IHx]; intros y H1 H2 H3; [exact H2|]. cbn [app]. apply NoDup_cons_iff in H1. destruct H1 as (H1 & H1'). constructor.
        - rewrite in_app_iff. intros [X|X]; [contradiction|apply (H3 b); [left; reflexivity|exact X] ].
        - apply IHx; [assumption..|]. intros p Hpp. apply H3. right. exact Hpp. }
      apply G; [exact A2|exact B2|]. intros p H1 H2. apply A3 in H1. apply B3 in H2. destruct H2 as (e2 & c2 & X1 & _ & X3).
      assert (e = e2). { destruct H1 as [-> | (p1 & -> & _)]; destruct X3 as [E|(p2 & E & _)]; congruence. } subst e2. contradiction.
    + intros p. rewrite in_app_iff, A3, B3. split.
      * intros [H|(e2 & c2 & H1 & H2 & H3)]; [exists e, c; split; [left; reflexivity|split; [exact Hec|exact H] ]|exists e2, c2; split; [right; exact H1|split; assumption] ].
      * intros (e2 & c2 & [<-|H1] & H2 & H3); [left|right; exists e2, c2; auto]. assert (c2 = c) by (destruct Hg as (Hnd & _); assert (Y1 := assoc_unique e cs c Hnd Hec); assert (Y2 := assoc_unique e cs c2 Hnd H2); congruence). subst c2. exact H3.
    + cbn [concat]. apply shown_app; assumption.
Qed.
Lemma group_ok : exists N lines rel, (forall fuel, (N <= fuel)%nat -> body_rest fuel prefix level key key (sorted (map fst cs)) = Ok lines) /\
  NoDup rel /\ (forall p, In p rel <-> entry (Grp cs) p) /\ shown q rel lines.
Proof using All.
  destruct Hg as (Hnd & _). assert (HP := Hsort (map fst cs)). set (entries := sorted (map fst cs)) in *.
  assert (ND : NoDup entries) by (apply (Permutation_NoDup (Permutation_sym HP)), Hnd).
  assert (HE : forall e, In e entries <-> In e (map fst cs)) by (intros e; split; apply Permutation_in; [exact HP|apply Permutation_sym, HP]).
  assert (EN : forall p, entry (Grp cs) p <-> exists e c, In e entries /\ In (e, c) cs /\ (p = [e] \/ exists p', p = e :: p' /\ entry c p')).
  { intros p. split.
    - intros H. inversion H as [cs' k n Hin E1 E2|cs' k m p' Hin Hen E1 E2]; subst; [exists k, n|exists k, m]; (split; [apply HE; apply (in_map fst) in Hin; exact Hin|split; [exact Hin|] ]); [left; reflexivity|right; exists p'; auto].
    - intros (e & c & _ & Hin & [-> | (p' & -> & He)]); [econstructor; exact Hin|eapply entry_below; eassumption]. }
  unfold body_rest. remember entries as ents eqn:Ee. destruct ents as [|e [|e2 r] ].
  - exists 0%nat, [], []. split; [intros; reflexivity|]. split; [constructor|]. split; [|split; [intros; reflexivity|constructor] ]. intros p. rewrite EN. split; [contradiction|]. intros (x & c & H & _). contradiction.
  - assert (He := proj1 (HE e) (or_introl eq_refl)). apply in_map_iff in He. destruct He as ((e' & c) & E & Hec). cbn [fst] in E. rewrite E in Hec; clear E e'.
    destruct (branch_ok e c 0%nat 0%nat (if Nat.ltb 1 level then ELBOW else NO_CONNECTOR) Hec) as (N & lines & rel & A & B & C & D).
    exists N, lines, rel. split; [exact A|]. split; [exact B|]. split; [|exact D]. intros p. rewrite C, EN. split.
    + intros H. exists e, c. split; [left; reflexivity|split; [exact Hec|exact H] ].
    + intros (x & c' & [<-|[] ] & H1 & H2). assert (c' = c) by (assert (Y1 := assoc_unique e cs c Hnd Hec); assert (Y2 := assoc_unique e cs c' Hnd H1); congruence). subst c'. exact H2.
  - set (l := e :: e2 :: r) in *. set (last := (length l - 1)%nat).
    destruct (branches_ok last (fun i => if Nat.eqb i last then ELBOW else TEE) l ND (fun x Hx => proj1 (HE x) Hx) 0%nat) as (N & parts & rel & A & B & C & D).
    exists N, (PipeLine prefix :: concat parts), rel. split; [intros fuel Hf; unfold enumerated; rewrite (A fuel Hf); reflexivity|]. split; [exact B|]. split; [intros p; rewrite C, EN; reflexivity|exact D].
Qed.
End Group.
Lemma all_ok n : P n.
Proof using All.
  induction n as [s d c|cs IH|] using node_ind'; intros q prefix key level Hw Hd Hk Hp Hl Hq.
  - exists 1%nat, [], []. split; [|split; [constructor|split; [|split; [intros; reflexivity|constructor] ] ] ].
    + intros [|fuel] Hf; [lia|]. rewrite tree_body_step. unfold get_subgroups, lookup. rewrite Hk, Hw by discriminate. reflexivity.
    + intros p. split; [contradiction|]. intros H. inversion H.
  - assert (W := Hw ltac:(discriminate)). assert (Ho := walk_object q f _ Hq W). assert (G : good_group (Grp cs)) by (apply (proj2 Hgood q), Ho).
    destruct (group_ok cs IH q prefix key (S level) W Hk Hp ltac:(lia) G) as (N & lines & rel & A & B & C & D). exists (S N), lines, rel. split; [|auto].
    intros [|fuel] Hf; [lia|]. rewrite tree_body_step. unfold get_subgroups, lookup. rewrite Hk, W. destruct (Nat.eqb_spec (S level) 1); [lia|]. apply A. lia.
  - exists 1%nat, [], []. split; [|split; [constructor|split; [|split; [intros; reflexivity|constructor] ] ] ].
    + intros [|fuel] Hf; [lia|]. rewrite tree_body_step. unfold get_subgroups, lookup. rewrite Hk, Hd by reflexivity. reflexivity.
    + intros p. split; [contradiction|]. intros H. inversion H.
Qed.
End Tree.
Lemma tree_complete {V} (sorted : list str -> list str) (cs : list (str * node V)) sh : (forall l, Permutation (sorted l) l) -> good_file (Grp cs) ->
  exists N lines, (forall fuel, (N <= fuel)%nat -> get_hdf_tree sorted fuel (Grp cs) sh = Ok lines) /\
    let paths := read_paths [] (map fst (object_lines lines)) in
    NoDup paths /\ (forall p, In p paths <-> entry (Grp cs) p) /\ Forall2 (fun l p => shows_shape (Grp cs) sh p (snd l)) (object_lines lines) paths.
Proof.
  intros Hsort Hgood. set (f := Grp cs) in *.
  destruct (group_ok sorted f sh Hsort Hgood cs (fun k c _ => all_ok sorted f sh Hsort Hgood c) [] [] [] 1%nat eq_refl eq_refl eq_refl (le_n 1) (proj1 Hgood)) as (N & lines & rel & A & B & C & D1 & D2).
  exists (S N), lines. split.
  - intros [|fuel] Hf; [lia|]. unfold get_hdf_tree. rewrite tree_body_step. cbn [get_subgroups]. change (Nat.eqb 1 1) with true. cbv iota.
    assert (Hmulti : match map fst (children f) with [k] => k | _ => [] end = [] \/ exists k, map fst (children f) = [k]).
    { destruct (map fst (children f)) as [|k [|k2 r] ]; [left; reflexivity|right; exists k; reflexivity|left; reflexivity]. }
    destruct Hmulti as [E|(k & E)].
    + rewrite E. apply A. lia.
    + assert (L : exists e, sorted (map fst (children f)) = [e]).
      { assert (HP := Hsort (map fst (children f))). rewrite E in HP. apply Permutation_sym, Permutation_length_1_inv in HP. rewrite E, HP. eauto. }
      destruct L as (e & L). assert (A' := A fuel ltac:(lia)). change (map fst cs) with (map fst (children f)) in A'. rewrite L in *. cbn [body_rest] in *. exact A'.
  - assert (E : read_paths [] (map fst (object_lines lines)) = rel) by (rewrite (D1 [] eq_refl); apply map_id). cbv zeta. rewrite E. split; [exact B|]. split; [exact C|exact D2].
Qed.
