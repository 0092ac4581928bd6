(** Further proofs about saving: content of the files, extensions, folders, keys, one task alone. *)
From Verif Require Import Np P_Np M_fs S_io M_io_save P_fs P_io_save.
From Coq Require Import Ascii String.
From Coq Require Import List. Import ListNotations.
Open Scope Z_scope.

Lemma str_eqb_iff a b : str_eqb a b = true <-> a = b.
Proof. unfold str_eqb. destruct (str_eq_dec a b); split; congruence. Qed.
Lemma is_tif_iff e : is_tif e = true <-> tif_ext e.
Proof. unfold is_tif, tif_ext. rewrite orb_true_iff, !str_eqb_iff. reflexivity. Qed.
Lemma file_content_stored {C M} (enc : str -> M -> C) scale8 e m :
  exists im, stored_image scale8 e m im /\ file_content enc scale8 e m = enc e im.
Proof.
  unfold file_content. exists (if is_tif e then m else scale8 m). split; [|reflexivity].
  split; intros H.
  - apply is_tif_iff in H. rewrite H. reflexivity.
  - destruct (is_tif e) eqn:E; [apply is_tif_iff in E; contradiction|reflexivity].
Qed.
Lemma save_false_content {C M} (enc : str -> M -> C) scale8 cplx pil_ok (f : fs C) p m f' r :
  save_image enc scale8 cplx pil_ok f p m false = (f', r) ->
  preserved f f' /\
  forall q, r = Ok q -> make_file_name f p = Ok q /\ lookup f q = None /\
    exists im, stored_image scale8 (suffix (pname p)) m im /\
      lookup f' q = Some (File (enc (suffix (pname p)) im)).
Proof.
  intros H. apply save_false_safe in H as [A B]. split; [exact A|]. intros q Hq.
  destruct (B q Hq) as (X & Y & Z). split; [exact X|]. split; [exact Y|].
  destruct (file_content_stored enc scale8 (suffix (pname p)) m) as (im & S & E). exists im.
  split; [exact S|]. rewrite <- E. exact Z.
Qed.
Lemma save_true_content {C M} (enc : str -> M -> C) scale8 cplx pil_ok (f : fs C) p m f' r :
  save_image enc scale8 cplx pil_ok f p m true = (f', r) ->
  preserved_except [p] f f' /\
  forall q, r = Ok q -> q = p /\
    exists im, stored_image scale8 (suffix (pname p)) m im /\
      lookup f' p = Some (File (enc (suffix (pname p)) im)).
Proof.
  intros H. apply save_true_frame in H as [A B]. split; [exact A|]. intros q Hq.
  destruct (B q Hq) as (X & Z). split; [exact X|].
  destruct (file_content_stored enc scale8 (suffix (pname p)) m) as (im & S & E). exists im.
  split; [exact S|]. rewrite <- E. exact Z.
Qed.
Lemma save_complex_tif {C M} (enc : str -> M -> C) scale8 cplx pil_ok (f : fs C) p m ow :
  tif_ext (suffix (pname p)) -> cplx m = true ->
  save_image enc scale8 cplx pil_ok f p m ow = (f, Err ValueError).
Proof. intros T X. unfold save_image. apply is_tif_iff in T. rewrite T, X. reflexivity. Qed.

(** make_folder *)
Lemma mkdir_existsb {C} (f f' : fs C) p : mkdir_p f p = Ok f' -> existsb_ f' p = true.
Proof.
  intros H. apply mkdir_is_dir in H. destruct p as [|n p]; [reflexivity|].
  apply is_dir_lookup in H. cbn [existsb_]. rewrite H. reflexivity.
Qed.
Lemma make_folder_outcome {C} (f : fs C) p f' r :
  make_folder f p = (f', r) ->
  let d := match suffix (pname p) with [] => p | _ => parent p end in
  preserved f f' /\ (r = Ok tt <-> existsb_ f' d = true) /\ (r <> Ok tt -> f' = f /\ r = Err ValueError).
Proof.
  cbv zeta. intros H. pose proof (make_folder_preserved _ _ _ _ H) as P. split; [exact P|].
  unfold make_folder in H. set (d := match suffix (pname p) with [] => p | _ => parent p end) in *.
  destruct (existsb_ f d) eqn:E.
  - injection H as <- <-. split; [tauto|congruence].
  - destruct (mkdir_p f d) as [f1|e] eqn:M.
    + injection H as <- <-. split; [|congruence]. split; [|reflexivity]. intros _. eapply mkdir_existsb, M.
    + injection H as <- <-. split; [split; [discriminate|congruence]|auto].
Qed.

(** make_folder_name *)
Lemma make_folder_name_written {C} (f : fs C) d pre z : (0 < z)%nat ->
  exists s k ds, make_folder_name f d pre z = Ok s /\ is_dir f (s :: d) = false /\
    written z k ds /\ s = pre ++ s_ "_" ++ ds /\
    (N.of_nat (List.length (filter (prefixb (pre ++ s_ "_")) (entries f d))) < k)%N.
Proof.
  intros Hz. destruct (make_folder_name_spec f d pre z) as (s & k & A & B & E & L).
  exists s, k, (zpad z (dec k)). split; [exact A|]. split; [exact B|].
  split; [apply zpad_written, Hz|]. split; [exact E|exact L].
Qed.

(** the text of the coefficient file *)
Lemma dec_written n : written 1 n (dec n).
Proof.
  pose proof (zpad_written 1 n ltac:(lia)) as H. unfold zpad in H.
  destruct (dec n) as [|c l] eqn:E.
  - unfold dec in E. apply dec_fuel_nonnil in E; [destruct E|lia].
  - cbn [List.length] in H. replace (1 - Datatypes.S (List.length l))%nat with 0%nat in H by lia. exact H.
Qed.
Lemma factor_lines_text {V} (show : V -> str) l : forall k,
  factor_lines show k l = flat_map (fun s => s ++ [ascii_of_N 10])
    (map (fun p => s_ "factor" ++ dec (k + N.of_nat (fst p)) ++ s_ " = " ++ show (snd p)) (combine (seq 0 (List.length l)) l)).
Proof.
  induction l as [|v l IH]; intros k; [reflexivity|].
  cbn [factor_lines List.length seq combine map flat_map fst snd]. rewrite IH. f_equal.
  - unfold meta_line. replace (k + N.of_nat 0)%N with k by lia. rewrite <- !app_assoc. reflexivity.
  - f_equal. rewrite <- seq_shift.
    assert (G : forall (g : nat -> nat) s (l0 : list V), combine (map g s) l0 = map (fun p => (g (fst p), snd p)) (combine s l0)).
    { intros g s. induction s as [|a s IHs]; intros [|b l0]; [reflexivity..|]. cbn. rewrite IHs. reflexivity. }
    rewrite G, map_map. apply map_ext. intros [a b]. cbn [fst snd].
    replace (k + 1 + N.of_nat a)%N with (k + N.of_nat (Datatypes.S a))%N by lia. reflexivity.
Qed.
Lemma coeff_text_ok {V} (show : V -> str) xc yc l : coefficient_text show xc yc l (coeff_text show xc yc l).
Proof.
  exists ((s_ "xcenter = " ++ show xc) :: (s_ "ycenter = " ++ show yc)
    :: map (fun p => s_ "factor" ++ dec (0 + N.of_nat (fst p)) ++ s_ " = " ++ show (snd p)) (combine (seq 0 (List.length l)) l)).
  split; [|split; [|split; [|split] ] ].
  - cbn [flat_map]. rewrite <- factor_lines_text. unfold coeff_text, meta_line. rewrite <- !app_assoc. reflexivity.
  - cbn [List.length]. rewrite map_length, combine_length, seq_length. lia.
  - reflexivity.
  - reflexivity.
  - intros i v Hi. exists (dec (N.of_nat i)). split; [apply dec_written|]. cbn [Nat.add nth_error].
    rewrite (map_nth_error _ i _ (d := (i, v))); [reflexivity|].
    clear -Hi.
    assert (G : forall (l : list V) a i v, nth_error l i = Some v -> nth_error (combine (seq a (List.length l)) l) i = Some ((a + i)%nat, v)).
    { clear. induction l as [|b l IH]; intros a [|i] v; cbn; try discriminate.
      - intros H; injection H as <-. f_equal. f_equal. lia.
      - intros H. rewrite (IH (Datatypes.S a) i v H). f_equal. f_equal. lia. }
    apply (G l 0%nat i v Hi).
Qed.
Lemma dist_path_ext p : with_default_ext [s_ ".txt"; s_ ".dat"] (s_ ".txt") p (dist_path p).
Proof.
  unfold dist_path, with_default_ext.
  destruct (str_eqb _ (s_ ".txt") || str_eqb _ (s_ ".dat")) eqn:E.
  - split; [reflexivity|]. intros H. exfalso. apply H. apply orb_true_iff in E as [E|E]; apply str_eqb_iff in E; rewrite E; cbn; auto.
  - split; [|reflexivity]. intros H. exfalso. apply orb_false_iff in E as [E1 E2].
    destruct H as [H|[H|[] ] ]; symmetry in H; apply str_eqb_iff in H; congruence.
Qed.
Lemma hdf_path_ext p : with_default_ext [s_ ".hdf"; s_ ".h5"; s_ ".nxs"; s_ ".hdf5"] (s_ ".hdf") p (hdf_path p).
Proof.
  unfold hdf_path, with_default_ext, hdf_suffixes. destruct (existsb _ _) eqn:E.
  - split; [reflexivity|]. intros H. exfalso. apply H. apply existsb_exists in E as (x & Hx & Ex).
    apply str_eqb_iff in Ex. rewrite Ex. exact Hx.
  - split; [|reflexivity]. intros H. exfalso.
    assert (X : existsb (str_eqb (lower (suffix (pname p)))) [s_ ".hdf"; s_ ".h5"; s_ ".nxs"; s_ ".hdf5"] = true).
    { apply existsb_exists. eexists. split; [exact H|]. apply str_eqb_iff. reflexivity. }
    congruence.
Qed.
Lemma mkdir_parent_lookup {C} (f f1 : fs C) p1 : mkdir_p f (parent p1) = Ok f1 -> p1 <> [] -> lookup f1 p1 = lookup f p1.
Proof.
  intros M N. apply (mkdir_lookup_longer _ _ _ M). destruct p1; [congruence|]. cbn. lia.
Qed.
Lemma save_distortion_content {V} (show : V -> str) f p xc yc l f' r :
  save_distortion show f p xc yc l false = (f', r) ->
  preserved f f' /\
  forall q, r = Ok q -> lookup f q = None /\
    (exists txt, coefficient_text show xc yc l txt /\ lookup f' q = Some (File txt)) /\
    (forall p1, with_default_ext [s_ ".txt"; s_ ".dat"] (s_ ".txt") p p1 -> p1 <> [] ->
       (lookup f p1 = None -> q = p1) /\ (lookup f p1 <> None -> exists n, numbered p1 n q)).
Proof.
  intros H. destruct (save_distortion_safe show f p xc yc l f' r H) as [A B]. split; [exact A|].
  intros q Hq. destruct (B q Hq) as [B1 B2]. split; [exact B1|]. split; [eexists; split; [apply coeff_text_ok|exact B2]|].
  intros p1 E N. assert (p1 = dist_path p).
  { destruct E as [E1 E2]. destruct (dist_path_ext p) as [F1 F2].
    destruct (in_dec str_eq_dec (lower (suffix (pname p))) [s_ ".txt"; s_ ".dat"]) as [I|I].
    - rewrite (E1 I), (F1 I). reflexivity.
    - rewrite (E2 I), (F2 I). reflexivity. }
  clear E. subst p1. unfold save_distortion in H.
  destruct (mkdir_p f (parent (dist_path p))) as [f1|e] eqn:M; [|congruence].
  pose proof (mkdir_parent_lookup _ _ _ M N) as L.
  destruct (make_file_name_fresh f1 (dist_path p)) as (q' & Hq' & Fr & FA & FB). rewrite Hq' in H.
  destruct (write_file f1 q' _) as [f2|e]; [|congruence].
  assert (q' = q) by congruence. subst q'.
  assert (X : existsb_ f1 (dist_path p) = match lookup f (dist_path p) with Some _ => true | None => false end).
  { rewrite <- L. destruct (dist_path p); [congruence|reflexivity]. }
  destruct (lookup f (dist_path p)).
  - split; [discriminate|]. intros _. destruct (FB X) as (k0 & Hk0 & _). eauto.
  - split; [intros _; apply FA, X|congruence].
Qed.

(** hdf keys *)
Definition unrelated_keys (a b : str) : Prop :=
  is_prefix (key_parts a) (key_parts b) = false /\ is_prefix (key_parts b) (key_parts a) = false.
Lemma create_dataset_ok {D} (h h' : hdf D) k d : create_dataset h k d = Ok h' ->
  h' = (k, d) :: h /\ forall e, In e h -> unrelated_keys (fst e) k.
Proof.
  unfold create_dataset. destruct (existsb _ h) eqn:E; [discriminate|]. intros H; injection H as <-.
  split; [reflexivity|]. intros e He.
  destruct (is_prefix (key_parts (fst e)) (key_parts k)) eqn:A;
  destruct (is_prefix (key_parts k) (key_parts (fst e))) eqn:B; try (split; assumption); exfalso;
  (rewrite <- not_true_iff_false in E; apply E, existsb_exists; exists e; rewrite A, B; auto).
Qed.
Definition keys_ok {D} (h : hdf D) : Prop :=
  forall i j e e', i <> j -> nth_error h i = Some e -> nth_error h j = Some e' -> unrelated_keys (fst e) (fst e').
Lemma unrelated_sym a b : unrelated_keys a b -> unrelated_keys b a.
Proof. intros [A B]; split; assumption. Qed.
Lemma keys_ok_cons {D} (h : hdf D) k d : keys_ok h -> (forall e, In e h -> unrelated_keys (fst e) k) -> keys_ok ((k, d) :: h).
Proof.
  intros K U [|i] [|j] e e' N; cbn [nth_error]; intros E E'; [congruence| | |].
  - injection E as <-. apply unrelated_sym, U. eapply nth_error_In, E'.
  - injection E' as <-. apply U. eapply nth_error_In, E.
  - apply (K i j); [congruence|assumption|assumption].
Qed.
Lemma add_options_keys {D} key (o : list (str * D)) : forall h h1, keys_ok h ->
  add_options h key o = (h1, None) -> keys_ok h1 /\ h1 = rev o ++ h.
Proof.
  induction o as [|[k d] o IH]; intros h h1 K; cbn [add_options].
  - intros H; injection H as <-. split; [exact K|reflexivity].
  - destruct (substrb key k); [discriminate|]. destruct (create_dataset h k d) as [h'|] eqn:C; [|discriminate].
    apply create_dataset_ok in C as [-> U]. intros H.
    destruct (IH _ _ (keys_ok_cons h k d K U) H) as [A ->]. split; [exact A|].
    cbn [rev]. rewrite <- app_assoc. reflexivity.
Qed.
Lemma open_hdf_content {D} (f : fs (hdf D)) p key d0 opts f' r :
  open_hdf_stream f p key d0 false opts = (f', r) ->
  preserved f f' /\
  forall q, r = Ok q -> lookup f q = None /\
    lookup f' q = Some (File ((key, d0) :: rev opts)) /\
    (forall i j e e', i <> j -> nth_error ((key, d0) :: rev opts) i = Some e ->
       nth_error ((key, d0) :: rev opts) j = Some e' -> unrelated_keys (fst e) (fst e')) /\
    (forall p1, with_default_ext [s_ ".hdf"; s_ ".h5"; s_ ".nxs"; s_ ".hdf5"] (s_ ".hdf") p p1 -> p1 <> [] ->
       (lookup f p1 = None -> q = p1) /\ (lookup f p1 <> None -> exists n, numbered p1 n q)).
Proof.
  intros H. destruct (open_hdf_safe f p key d0 opts f' r H) as [A B]. split; [exact A|].
  intros q Hq. destruct (B q Hq) as (B1 & _ & _). split; [exact B1|].
  unfold open_hdf_stream in H.
  destruct (mkdir_p f (parent (hdf_path p))) as [f1|e] eqn:M; [|congruence].
  destruct (make_file_name_fresh f1 (hdf_path p)) as (q' & Hq' & Fr & FA & FB). rewrite Hq' in H.
  destruct (write_file f1 q' _) as [f2|e] eqn:W; [|congruence].
  destruct (add_options [] key opts) as [h er] eqn:AO. destruct er as [e|]; [congruence|].
  destruct (create_dataset h key d0) as [h'|e] eqn:CD; [|congruence].
  apply create_dataset_ok in CD as [-> U].
  destruct (add_options_keys key opts [] h) as [K E]; [intros [|i] [|j] ? ? ? ?; discriminate|exact AO|].
  rewrite app_nil_r in E.
  assert (q' = q) by congruence. subst q' h.
  split; [|split].
  - pose proof (f_equal fst H) as H1. cbn [fst] in H1. rewrite <- H1.
    rewrite lookup_cons. destruct (path_eq_dec q q); [reflexivity|congruence].
  - apply keys_ok_cons; assumption.
  - intros p1 E1 N. assert (p1 = hdf_path p).
    { destruct E1 as [E1 E2]. destruct (hdf_path_ext p) as [F1 F2].
      destruct (in_dec str_eq_dec (lower (suffix (pname p))) [s_ ".hdf"; s_ ".h5"; s_ ".nxs"; s_ ".hdf5"]) as [I|I].
      - rewrite (E1 I), (F1 I). reflexivity.
      - rewrite (E2 I), (F2 I). reflexivity. }
    subst p1. clear E1.
    pose proof (mkdir_parent_lookup _ _ _ M N) as L.
    assert (X : existsb_ f1 (hdf_path p) = match lookup f (hdf_path p) with Some _ => true | None => false end).
    { rewrite <- L. destruct (hdf_path p); [congruence|reflexivity]. }
    destruct (lookup f (hdf_path p)).
    + split; [discriminate|]. intros _. destruct (FB X) as (k0 & Hk0 & _). eauto.
    + split; [intros _; apply FA, X|congruence].
Qed.

(** ** one call running alone: the steps do what save_image(overwrite=False) does *)
Lemma probe_steps {C} (p q : path) (c : C) f : forall fuel n,
  mfn_loop fuel f p n = Ok q ->
  exists k, run_sched f [mktask p c (TProbe n)] (repeat 0%nat k) = (f, [mktask p c (TWrite q)]).
Proof.
  induction fuel as [|fuel IH]; intros n; cbn [mfn_loop]; [discriminate|].
  destruct (existsb_ f (cand_path p n)) eqn:E.
  - intros H. destruct (IH _ H) as (k & K). exists (Datatypes.S k). cbn [repeat run_sched nth_error].
    unfold tstep. cbn [t_path t_content t_state set_nth]. rewrite E. exact K.
  - intros H; injection H as <-. exists 1%nat. cbn [repeat run_sched nth_error].
    unfold tstep. cbn [t_path t_content t_state set_nth]. rewrite E. reflexivity.
Qed.
Lemma run_sched_app {C} s1 : forall (f : fs C) ts s2,
  run_sched f ts (s1 ++ s2) = let (f1, t1) := run_sched f ts s1 in run_sched f1 t1 s2.
Proof.
  induction s1 as [|a s1 IH]; intros f ts s2; [reflexivity|]. cbn [app run_sched].
  destruct (nth_error ts a); [|apply IH]. destruct (tstep f _). apply IH.
Qed.
Lemma task_alone {C} (f : fs C) (p : path) (c : C) : is_dir f (parent p) = true ->
  exists q k, make_file_name f p = Ok q /\
    run_sched f (start_tasks [(p, c)]) (repeat 0%nat k) = ((q, File c) :: f, [mktask p c (TDone q)]).
Proof.
  intros D. destruct (make_file_name_spec f p) as (q & Hq & Fr & A & B).
  assert (PQ : exists nm, q = nm :: parent p).
  { destruct (existsb_ f p) eqn:E.
    - destruct (B eq_refl) as (k & -> & _). eexists; reflexivity.
    - rewrite (A eq_refl). destruct p as [|nm p]; [discriminate|]. eexists; reflexivity. }
  destruct PQ as (nm & ->). apply exists_false in Fr as [Fr _].
  assert (W : forall st, tstep f (mktask p c (TWrite (nm :: parent p))) = st ->
     st = ((nm :: parent p, File c) :: f, mktask p c (TDone (nm :: parent p)))).
  { intros st <-. unfold tstep. cbn [t_state t_content t_path]. rewrite write_file_can; [reflexivity|exact D|congruence]. }
  assert (K : exists k, run_sched f (start_tasks [(p, c)]) (repeat 0%nat k) = (f, [mktask p c (TWrite (nm :: parent p))])).
  { unfold start_tasks. cbn [map fst snd]. unfold make_file_name in Hq. destruct (existsb_ f p) eqn:E.
    - destruct (probe_steps p (nm :: parent p) c f _ _ Hq) as (k & K). exists (Datatypes.S k).
      cbn [repeat run_sched nth_error]. unfold tstep at 1. cbn [t_path t_content t_state set_nth]. rewrite E. exact K.
    - exists 1%nat. cbn [repeat run_sched nth_error]. unfold tstep. cbn [t_path t_content t_state set_nth]. rewrite E.
      assert (p = nm :: parent p) by congruence. rewrite <- H. reflexivity. }
  destruct K as (k & K). exists (nm :: parent p), (k + 1)%nat. split; [exact Hq|].
  rewrite repeat_app, run_sched_app, K. cbn [repeat run_sched nth_error].
  rewrite (W _ eq_refl). reflexivity.
Qed.
