(** Theorems about looking into hdf files (C107). *)
From Coq Require Import ZArith Lia Bool Permutation.
From Verif Require Import Np P_Np M_fs P_fs M_hdf S_hdf P_hdf P_hdf2.
From Coq Require Import Ascii String.
From Coq Require Import List. Import ListNotations.
Open Scope Z_scope.

(** ** get_hdf_information *)
(** no dataset is missed: it is listed by its full path, with its shape and type *)
Theorem hdf_information_complete : forall V (f : node V) p shape dtype content, good_file f -> object f p (DSet shape dtype content) ->
  In (absolute_text p, Some (shape, dtype)) (get_hdf_information f).
Proof.
  intros V f p s d c G Ho. unfold get_hdf_information. apply in_map_iff. exists (absolute_text p). split.
  - unfold describe. destruct (lookup_text f p _ G Ho) as (_ & ->). reflexivity.
  - apply list_keys_In; [exact G|]. left. exists p, s, d, c. auto.
Qed.
Print Assumptions hdf_information_complete.
(** a shape is only listed for a dataset of the file, with its path (with or without the leading slash) as key *)
Theorem hdf_information_sound : forall V (f : node V) key shape dtype, good_file f -> In (key, Some (shape, dtype)) (get_hdf_information f) ->
  exists p content, object f p (DSet shape dtype content) /\ (key = absolute_text p \/ key = path_text p).
Proof.
  intros V f key s d G H. unfold get_hdf_information in H. apply in_map_iff in H. destruct H as (k & E & Hk). unfold describe in E. inversion E as [[E1 E2] ]. subst k. clear E.
  apply list_keys_In in Hk; [|exact G]. destruct Hk as [(p & s' & d' & c & Ho & ->)|[(p & cs & k & c & Ho & Hin & ->)|(p & Ho & ->)] ].
  - destruct (lookup_text f p _ G Ho) as (_ & L). rewrite L in E2. inversion E2; subst. exists p, c. auto.
  - destruct c as [s' d' c|cs'|].
    + assert (Ho' := object_child f p cs k _ Ho Hin ltac:(discriminate)). destruct (lookup_text f _ _ G Ho') as (L & _). rewrite L in E2. inversion E2; subst. exists (p ++ [k]), c. auto.
    + assert (Ho' := object_child f p cs k _ Ho Hin ltac:(discriminate)). destruct (lookup_text f _ _ G Ho') as (L & _). rewrite L in E2. discriminate.
    + exfalso. destruct (lookup f (path_text (p ++ [k]))) as [m|] eqn:L; [|discriminate]. unfold lookup in L. rewrite parse_text in L.
      * rewrite walk_app, (object_walk f p _ G Ho) in L. cbn [walk children] in L. assert (GG := proj2 G p _ Ho). cbn [good_group] in GG. rewrite (assoc_unique k cs Dangling (proj1 GG) Hin) in L. discriminate.
      * intros x Hx. apply in_app_iff in Hx. destruct Hx as [Hx|[<-|[] ] ]; [exact (object_names f p _ G Ho x Hx)|]. apply (proj2 (proj2 G p _ Ho) k Dangling Hin).
  - destruct (lookup_text f p _ G Ho) as (L & _). rewrite L in E2. discriminate.
Qed.
Print Assumptions hdf_information_sound.
(** every group is represented: an empty one by its own path, another one by its entries *)
Theorem hdf_information_groups : forall V (f : node V) p cs, good_file f -> object f p (Grp cs) ->
  (cs = [] -> In (path_text p, None) (get_hdf_information f)) /\ (forall k n, In (k, n) cs -> In (path_text (p ++ [k])) (map fst (get_hdf_information f))).
Proof.
  intros V f p cs G Ho. split.
  - intros ->. apply in_map_iff. exists (path_text p). split; [unfold describe; destruct (lookup_text f p _ G Ho) as (-> & _); reflexivity|]. apply list_keys_In; [exact G|]. right. right. exists p. auto.
  - intros k n Hin. unfold get_hdf_information. rewrite map_map. apply in_map_iff. exists (path_text (p ++ [k])). split; [reflexivity|]. apply list_keys_In; [exact G|]. right. left. exists p, cs, k, n. auto.
Qed.
Print Assumptions hdf_information_groups.
(** ** find_hdf_key: exactly the entries of get_hdf_information whose key contains the pattern *)
Theorem find_key_exact : forall V (f : node V) pattern, good_file f ->
  (forall e, In e (find_hdf_key f pattern) <-> In e (get_hdf_information f) /\ contains pattern (fst e)) /\
  exists test, (forall e, test e = true <-> contains pattern (fst e)) /\ find_hdf_key f pattern = filter test (get_hdf_information f).
Proof.
  intros V f pat G. assert (E : find_hdf_key f pat = filter (fun e => substrb pat (fst e)) (get_hdf_information f)).
  { unfold find_hdf_key, get_hdf_information. rewrite (list_keys_same f G). induction (list_keys f) as [|k l IH]; [reflexivity|]. cbn [filter map fst describe]. destruct (substrb pat k); cbn [map]; rewrite IH; reflexivity. }
  split.
  - intros e. rewrite E, filter_In, substrb_spec. reflexivity.
  - eexists. split; [|exact E]. intros e. apply substrb_spec.
Qed.
Print Assumptions find_key_exact.
(** ** load_hdf: a dataset is found by its path, and by every key listed with a shape; nothing else is *)
Theorem load_path : forall V (f : node V) p n, good_file f -> object f p n -> load_hdf (Some f) (path_text p) = Ok n /\ load_hdf (Some f) (absolute_text p) = Ok n.
Proof. intros V f p n G Ho. unfold load_hdf. destruct (lookup_text f p n G Ho) as (-> & ->). auto. Qed.
Print Assumptions load_path.
Theorem load_listed : forall V (f : node V) key shape dtype pattern, good_file f ->
  In (key, Some (shape, dtype)) (get_hdf_information f) \/ In (key, Some (shape, dtype)) (find_hdf_key f pattern) ->
  exists content, load_hdf (Some f) key = Ok (DSet shape dtype content).
Proof.
  intros V f key s d pat G H. assert (H' : In (key, Some (s, d)) (get_hdf_information f)) by (destruct H as [H|H]; [exact H|apply (proj1 (find_key_exact V f pat G)) in H; apply H]).
  destruct (hdf_information_sound V f key s d G H') as (p & c & Ho & Hk). exists c. destruct (load_path V f p _ G Ho) as (A & B). destruct Hk as [-> | ->]; assumption.
Qed.
Print Assumptions load_listed.
Theorem load_missing : forall V (f : node V) p, (forall k, In k p -> good_name k) -> p <> [] -> (forall n, ~ object f p n) ->
  load_hdf (Some f) (path_text p) = Err ValueError /\ load_hdf (Some f) (absolute_text p) = Err ValueError /\ load_hdf (@None (node V)) (path_text p) = Err ValueError.
Proof.
  intros V f p HN Hp H. assert (W : walk f p = None) by (destruct (walk f p) as [n|] eqn:E; [exfalso; apply (H n), (walk_object p f n Hp E)|reflexivity]).
  unfold load_hdf, lookup, absolute_text. change "/"%char with slash. rewrite parse_abs, (parse_text p HN), W. auto.
Qed.
Print Assumptions load_missing.
(** ** get_hdf_tree: the recursion ends; reading the names with their indentation gives every entry of the file exactly once; shapes are those of the datasets *)
Theorem hdf_tree_exact : forall V (sorted : list str -> list str) (cs : list (str * node V)) add_shape,
  (forall l, Permutation (sorted l) l) -> good_file (Grp cs) ->
  exists enough lines, (forall fuel, (enough <= fuel)%nat -> get_hdf_tree sorted fuel (Grp cs) add_shape = Ok lines) /\
    let paths := read_paths [] (map fst (object_lines lines)) in
    NoDup paths /\ (forall p, In p paths <-> entry (Grp cs) p) /\
    Forall2 (fun l p => shows_shape (Grp cs) add_shape p (snd l)) (object_lines lines) paths.
Proof. intros V so cs sh Hs Hg. exact (tree_complete so cs sh Hs Hg). Qed.
Print Assumptions hdf_tree_exact.
(** ** a dataset inside a group is listed twice *)
Definition key_entry : str := s_ "entry".  Definition key_data : str := s_ "data".
Definition one_dataset : node Z := Grp [(key_entry, Grp [(key_data, DSet [4; 5] 0 7)])].
Lemma one_good : good_file one_dataset.
Proof.
  assert (G : forall k (c : node Z), good_name k -> good_group (Grp [(k, c)])).
  { intros k c Hk. split; [repeat constructor; cbn; tauto|]. intros k' c' [E|[] ]. inversion E; subst. exact Hk. }
  assert (N1 : good_name key_entry) by (split; [discriminate|cbn; intuition discriminate]). assert (N2 : good_name key_data) by (split; [discriminate|cbn; intuition discriminate]).
  split; [apply G, N1|]. intros p n Ho. inversion Ho as [cs k m Hin Hn E1 E2 E3|cs k m p' n' Hin Ho' E1 E2 E3]; subst.
  - destruct Hin as [E|[] ]. inversion E; subst. apply G, N2.
  - destruct Hin as [E|[] ]. inversion E; subst. inversion Ho' as [cs k m Hin Hn E1 E2 E3|cs k m p n' Hin Ho'' E1 E2 E3]; subst.
    + destruct Hin as [E'|[] ]. inversion E'; subst. exact I.
    + destruct Hin as [E'|[] ]. inversion E'; subst. inversion Ho''.
Qed.
Theorem hdf_listed_once_refuted : exists (f : node Z) p shape dtype content, good_file f /\ object f p (DSet shape dtype content) /\
  (forall p' s d c, object f p' (DSet s d c) -> p' = p) /\
  get_hdf_information f = [(path_text p, Some (shape, dtype)); (absolute_text p, Some (shape, dtype))] /\
  find_hdf_key f (s_ "data") = [(path_text p, Some (shape, dtype)); (absolute_text p, Some (shape, dtype))].
Proof.
  exists one_dataset, [key_entry; key_data], [4; 5], 0, 7. split; [exact one_good|]. split; [|split; [|split; reflexivity] ].
  - eapply object_below; [left; reflexivity|]. apply object_here; [left; reflexivity|discriminate].
  - intros p s d c Ho. inversion Ho as [cs k m Hin Hn E1 E2 E3|cs k m p' n' Hin Ho' E1 E2 E3]; subst; (destruct Hin as [E|[] ]; inversion E; subst).
    inversion Ho' as [cs k m Hin Hn E1 E2 E3|cs k m p n' Hin Ho'' E1 E2 E3]; subst; (destruct Hin as [E'|[] ]; inversion E'; subst); [reflexivity|inversion Ho''].
Qed.
Print Assumptions hdf_listed_once_refuted.
(** a larger file: two groups, a dangling link, an empty group, a dataset in the root *)
Definition demo_file : node Z := Grp [(s_ "b", Grp [(s_ "x", DSet [3] 1 5); (s_ "gone", Dangling)]); (s_ "a", Grp []); (s_ "flat", DSet [2; 2] 0 9)].
Example demo_information : get_hdf_information demo_file =
  [(s_ "b/x", Some ([3], 1)); (s_ "b/gone", None); (s_ "/b/x", Some ([3], 1)); (s_ "a", None); (s_ "/flat", Some ([2; 2], 0))].
Proof. reflexivity. Qed.
Example demo_find : find_hdf_key demo_file (s_ "/x") = [(s_ "b/x", Some ([3], 1)); (s_ "/b/x", Some ([3], 1))] /\ load_hdf (Some demo_file) (s_ "/b/x") = Ok (DSet [3] 1 5) /\ load_hdf (Some demo_file) (s_ "b/gone") = Err ValueError.
Proof. repeat split; reflexivity. Qed.
Example demo_tree : exists lines, get_hdf_tree (fun l => l) 10 demo_file true = Ok lines /\
  read_paths [] (map fst (object_lines lines)) = [[s_ "b"]; [s_ "b"; s_ "x"]; [s_ "b"; s_ "gone"]; [s_ "a"]; [s_ "flat"] ] /\ map snd (object_lines lines) = [None; Some [3]; None; None; Some [2; 2] ].
Proof. eexists. repeat split; reflexivity. Qed.
