(** Proofs about interrupted and rejected saving calls. *)
From Verif Require Import Np P_Np M_fs S_io M_io_save M_crash S_crash P_fs P_io_save P_io_save2.
From Coq Require Import Ascii String.
From Coq Require Import List. Import ListNotations.
Open Scope Z_scope.

Lemma runs_one {S} (a : S) : runs_from_to a a [a].
Proof. split; [reflexivity|]. exists []. reflexivity. Qed.
Lemma runs_join {S} (a b c : S) l l' : runs_from_to a b l -> l' = [] /\ b = c \/ (exists t, l' = t ++ [c]) -> runs_from_to a c (l ++ l').
Proof.
  intros (H & t & ->) [ [-> ->] | (t' & ->) ]; split.
  - rewrite app_nil_r. exact H.
  - exists t. rewrite app_nil_r. reflexivity.
  - destruct t; exact H.
  - exists ((t ++ [b]) ++ t'). rewrite app_assoc. reflexivity.
Qed.

Section FSP.
Context {C : Type}.
Implicit Types f g : fs C.
Lemma keeps_refl ow p f : keeps_files ow p f f.
Proof. destruct ow; [intros q nd _ H; exact H|apply preserved_refl]. Qed.
Lemma keeps_preserved ow p f g : preserved f g -> keeps_files ow p f g.
Proof. intros P. destruct ow; [intros q nd _ H; apply P, H|exact P]. Qed.
Lemma keeps_cons ow p f g p2 nd : keeps_files ow p f g -> (ow = true -> p2 = p) -> (ow = false -> lookup f p2 = None) -> keeps_files ow p f ((p2, nd) :: g).
Proof.
  intros K H1 H2. destruct ow.
  - rewrite (H1 eq_refl). intros q n Hn Hq. rewrite lookup_cons. destruct (path_eq_dec p q) as [->|]; [exfalso; apply Hn; left; reflexivity|]. apply K; assumption.
  - intros q n Hq. rewrite lookup_cons. destruct (path_eq_dec p2 q) as [->|]; [rewrite (H2 eq_refl) in Hq; discriminate|]. apply K. exact Hq.
Qed.
Lemma mkdir_steps_run f p : forall g, mkdir_p f p = Ok g -> runs_from_to f g (mkdir_steps f p) /\ Forall (preserved f) (mkdir_steps f p).
Proof.
  induction p as [|n q IH]; intros g; cbn [mkdir_p mkdir_steps].
  - intros H; injection H as <-. split; [apply runs_one|]. repeat constructor. apply preserved_refl.
  - destruct (lookup f (n :: q)) as [ [c|]|] eqn:E; [discriminate| |].
    + intros H; injection H as <-. split; [apply runs_one|]. repeat constructor. apply preserved_refl.
    + destruct (mkdir_p f q) as [g1|] eqn:M; cbn [bindr]; [|discriminate]. intros H; injection H as <-.
      destruct (IH g1 eq_refl) as (R & F). split.
      * apply (runs_join f g1); [exact R|]. right. exists []. reflexivity.
      * apply Forall_app. split; [exact F|]. constructor; [|constructor].
        eapply preserved_trans; [eapply mkdir_preserved, M|]. apply preserved_cons_new. rewrite (mkdir_lookup_longer q f g1 M); [exact E|cbn; lia].
Qed.
Lemma mkdir_states_run f p : runs_from_to f (match mkdir_p f p with Ok g => g | Err _ => f end) (mkdir_states f p) /\ Forall (preserved f) (mkdir_states f p).
Proof.
  unfold mkdir_states. destruct (mkdir_p f p) as [g|] eqn:M; [apply mkdir_steps_run, M|].
  split; [apply runs_one|]. repeat constructor. apply preserved_refl.
Qed.
Lemma write_states_run f g p ow t parts c : keeps_files ow t f g -> (ow = true -> p = t) -> (ow = false -> lookup f p = None) ->
  (exists l, write_states g p parts c = l ++ [match write_file g p c with Ok g' => g' | Err _ => g end]) /\ Forall (keeps_files ow t f) (write_states g p parts c).
Proof.
  intros K H1 H2. unfold write_states. destruct (write_file g p c) as [g'|] eqn:W.
  - apply write_file_ok in W as (-> & _). split.
    + exists (g :: map (fun c' => (p, File c') :: g) parts). reflexivity.
    + constructor; [exact K|]. apply Forall_app. split.
      * apply Forall_forall. intros s Hs. apply in_map_iff in Hs as (c' & <- & _). apply keeps_cons; assumption.
      * constructor; [|constructor]. apply keeps_cons; assumption.
  - split; [exists []; reflexivity|]. repeat constructor. exact K.
Qed.
Lemma fresh_before f g p : preserved f g -> forall q, make_file_name g p = Ok q -> lookup f q = None.
Proof.
  intros P q Hq. destruct (make_file_name_spec g p) as (q' & Hq' & Fr & _). rewrite Hq in Hq'. injection Hq' as <-.
  apply exists_false in Fr as [Fr _]. destruct (lookup f q) eqn:E; [|reflexivity]. apply P in E. congruence.
Qed.
Lemma chosen_path f g (ow : bool) p q : preserved f g -> (if ow then Ok p else make_file_name g p) = Ok q ->
  (ow = true -> q = p) /\ (ow = false -> lookup f q = None).
Proof.
  intros P H. destruct ow; [injection H as <-; split; [reflexivity|discriminate]|]. split; [discriminate|]. intros _. eapply fresh_before; eassumption.
Qed.
End FSP.

Section Save.
Context {C M : Type} (enc : str -> M -> C) (scale8 : M -> M) (cplx : M -> bool) (pil_ok : str -> bool).
Notation save := (save_image enc scale8 cplx pil_ok).
Lemma save_image_run (f : fs C) p m ow parts :
  runs_from_to f (fst (save f p m ow)) (save_image_states enc scale8 cplx pil_ok f p m ow parts) /\
  Forall (keeps_files ow p f) (save_image_states enc scale8 cplx pil_ok f p m ow parts).
Proof.
  unfold save_image_states, save_image. destruct (is_tif _ && cplx m).
  { split; [apply runs_one|]. repeat constructor. apply keeps_refl. }
  destruct (if ow then Ok p else make_file_name f p) as [p1|e] eqn:N.
  2:{ split; [apply runs_one|]. repeat constructor. apply keeps_refl. }
  destruct (chosen_path f f ow p p1 (preserved_refl f) N) as (N1 & N2).
  set (d := match suffix (pname p1) with [] => p1 | _ => parent p1 end).
  set (first := if existsb_ f d then [f] else mkdir_states f d).
  assert (F : exists g r, make_folder f p1 = (g, r) /\ runs_from_to f g first /\ Forall (preserved f) first /\ preserved f g).
  { destruct (make_folder f p1) as [g r] eqn:MF. exists g, r. split; [reflexivity|]. pose proof (make_folder_preserved _ _ _ _ MF) as Pg.
    unfold make_folder in MF. change (match suffix (pname p1) with [] => p1 | _ => parent p1 end) with d in MF. unfold first.
    destruct (existsb_ f d).
    - injection MF as <- <-. split; [apply runs_one|]. split; [repeat constructor; apply preserved_refl|apply preserved_refl].
    - destruct (mkdir_states_run f d) as (R & F). destruct (mkdir_p f d) as [g1|]; injection MF as <- <-; split; try exact R; (split; [exact F|exact Pg]). }
  destruct F as (g & r & MF & R & F & Pg). rewrite MF.
  assert (F' : Forall (keeps_files ow p f) first) by (eapply Forall_impl; [|exact F]; intros s; apply keeps_preserved).
  destruct r as [u|e].
  2:{ rewrite app_nil_r. split; [exact R|exact F']. }
  destruct (pil_ok _).
  2:{ rewrite app_nil_r. split; [exact R|exact F']. }
  destruct (write_states_run f g p1 ow p parts (file_content enc scale8 (suffix (pname p)) m) (keeps_preserved ow p f g Pg) N1 N2) as (W1 & W2).
  split; [|apply Forall_app; split; assumption]. apply (runs_join f g); [exact R|]. right.
  destruct (write_file g p1 _); exact W1.
Qed.
Lemma save_image_rejected f p m ow f' e : save f p m ow = (f', Err e) -> preserved f f'.
Proof.
  unfold save_image. destruct (is_tif _ && cplx m); [intros H; injection H as <- _; apply preserved_refl|].
  destruct (if ow then Ok p else make_file_name f p) as [p1|e0]; [|intros H; injection H as <- _; apply preserved_refl].
  destruct (make_folder f p1) as [g [u|e1]] eqn:MF; pose proof (make_folder_preserved _ _ _ _ MF) as Pg.
  - destruct (pil_ok _); [|intros H; injection H as <- _; exact Pg]. destruct (write_file g p1 _); [discriminate|intros H; injection H as <- _; exact Pg].
  - intros H; injection H as <- _. exact Pg.
Qed.
End Save.

Section Distortion.
Context {V : Type} (show : V -> str) (parse : str -> option V).
Lemma save_distortion_run f p xc yc l ow :
  runs_from_to f (fst (save_distortion show f p xc yc l ow)) (save_distortion_states show f p xc yc l ow) /\
  Forall (keeps_files ow (dist_path p) f) (save_distortion_states show f p xc yc l ow).
Proof.
  unfold save_distortion_states, save_distortion. set (p1 := dist_path p). cbv zeta.
  destruct (mkdir_states_run f (parent p1)) as (R & F).
  assert (F' : Forall (keeps_files ow p1 f) (mkdir_states f (parent p1))) by (eapply Forall_impl; [|exact F]; intros s; apply keeps_preserved).
  destruct (mkdir_p f (parent p1)) as [g|] eqn:Mk.
  2:{ rewrite app_nil_r. split; assumption. }
  pose proof (mkdir_preserved _ _ _ Mk) as Pg.
  destruct (if ow then Ok p1 else make_file_name g p1) as [p2|e] eqn:N.
  2:{ rewrite app_nil_r. split; assumption. }
  destruct (chosen_path f g ow p1 p2 Pg N) as (N1 & N2).
  destruct (write_states_run f g p2 ow p1 (prefixes (coeff_text show xc yc l)) (coeff_text show xc yc l) (keeps_preserved ow p1 f g Pg) N1 N2) as (W1 & W2).
  split; [|apply Forall_app; split; assumption]. apply (runs_join f g); [exact R|]. right. destruct (write_file g p2 _); exact W1.
Qed.
Lemma save_distortion_rejected f p xc yc l ow f' e : save_distortion show f p xc yc l ow = (f', Err e) -> preserved f f'.
Proof.
  unfold save_distortion. set (p1 := dist_path p). destruct (mkdir_p f (parent p1)) as [g|] eqn:Mk; [|intros H; injection H as <- _; apply preserved_refl].
  pose proof (mkdir_preserved _ _ _ Mk) as Pg. destruct (if ow then Ok p1 else make_file_name g p1) as [p2|e0]; [|intros H; injection H as <- _; exact Pg].
  destruct (write_file g p2 _); [discriminate|intros H; injection H as <- _; exact Pg].
Qed.
Lemma factor_prefix l k : forall i, exists rest, factor_lines show i l = factor_lines show i (firstn k l) ++ rest.
Proof.
  revert k. induction l as [|v t IH]; intros k i; [exists []; destruct k; reflexivity|].
  destruct k; [exists (factor_lines show i (v :: t)); reflexivity|]. cbn [firstn factor_lines]. destruct (IH k (i + 1)%N) as (rest & ->).
  exists rest. rewrite app_assoc. reflexivity.
Qed.
Context (Hp : forall v, parse (show v) = Some v) (Hs : forall v, show v <> []) (Hw : forall v c, In c (show v) -> is_ws c = false).
Lemma cut_distortion f p xc yc l ow f' q k : save_distortion show f p xc yc l ow = (f', Ok q) -> (k < List.length l)%nat ->
  exists s, In s (save_distortion_states show f p xc yc l ow) /\ load_distortion parse s q = Ok (xc, yc, firstn k l).
Proof.
  unfold save_distortion_states, save_distortion. set (p1 := dist_path p). cbv zeta.
  destruct (mkdir_p f (parent p1)) as [g|]; [|discriminate].
  destruct (if ow then Ok p1 else make_file_name g p1) as [p2|e]; [|discriminate].
  destruct (write_file g p2 _) as [f2|e] eqn:W; [|discriminate]. intros H Hk; injection H as <- <-.
  unfold write_states. rewrite W.
  exists ((p2, File (coeff_text show xc yc (firstn k l))) :: g). split.
  - apply in_or_app. right. right. apply in_or_app. left. apply in_map_iff. exists (coeff_text show xc yc (firstn k l)). split; [reflexivity|].
    unfold prefixes. apply in_map_iff.
    destruct (factor_prefix l k 0%N) as (rest & E).
    assert (T : coeff_text show xc yc l = coeff_text show xc yc (firstn k l) ++ rest) by (unfold coeff_text; rewrite E, !app_assoc; reflexivity).
    exists (List.length (coeff_text show xc yc (firstn k l))). rewrite T. split.
    + rewrite firstn_app, Nat.sub_diag, firstn_all. cbn [firstn]. apply app_nil_r.
    + apply in_seq. rewrite app_length. assert (rest <> []).
      { intros ->. rewrite app_nil_r in E.
        pose proof (parse_factors show parse Hp Hs Hw l 0%N) as A. pose proof (parse_factors show parse Hp Hs Hw (firstn k l) 0%N) as B.
        rewrite E, B in A. injection A as A. apply (f_equal (@List.length V)) in A. rewrite firstn_length in A. lia. }
      destruct rest; [congruence|cbn; lia].
  - unfold load_distortion. rewrite lookup_cons. destruct (path_eq_dec p2 p2); [|congruence]. rewrite (parse_text show parse Hp Hs Hw). reflexivity.
Qed.
End Distortion.

Section Hdf.
Context {D : Type}.
Lemma open_hdf_run (f : fs (hdf D)) p key d0 ow opts :
  runs_from_to f (fst (open_hdf_stream f p key d0 ow opts)) (open_hdf_stream_states f p key d0 ow opts) /\
  Forall (keeps_files ow (hdf_path p) f) (open_hdf_stream_states f p key d0 ow opts).
Proof.
  unfold open_hdf_stream_states. set (fin := fst (open_hdf_stream f p key d0 ow opts)).
  assert (K : keeps_files ow (hdf_path p) f fin /\ match mkdir_p f (parent (hdf_path p)) with
     | Err _ => fin = f
     | Ok f1 => match (if ow then Ok (hdf_path p) else make_file_name f1 (hdf_path p)) with
                | Err _ => fin = f1
                | Ok p2 => match write_file f1 p2 [] with Err _ => fin = f1 | Ok _ => True end end end).
  { unfold fin, open_hdf_stream. set (p1 := hdf_path p). destruct (mkdir_p f (parent p1)) as [g|] eqn:Mk; [|split; [apply keeps_refl|reflexivity] ].
    pose proof (mkdir_preserved _ _ _ Mk) as Pg. pose proof (keeps_preserved ow p1 f g Pg) as Kg.
    destruct (if ow then Ok p1 else make_file_name g p1) as [p2|e] eqn:N; [|split; [exact Kg|reflexivity] ].
    destruct (chosen_path f g ow p1 p2 Pg N) as (N1 & N2).
    destruct (write_file g p2 []) as [f2|] eqn:W; [|split; [exact Kg|reflexivity] ]. split; [|exact I]. apply write_file_ok in W as (-> & _).
    destruct (add_options [] key opts) as [h er]. destruct er as [e|]; [cbn [fst]; repeat (apply keeps_cons; [|assumption..]); exact Kg|].
    destruct (create_dataset h key d0); cbn [fst]; repeat (apply keeps_cons; [|assumption..]); exact Kg. }
  destruct K as (Kf & K). set (p1 := hdf_path p) in *. cbv zeta.
  destruct (mkdir_states_run f (parent p1)) as (R & F).
  assert (F' : Forall (keeps_files ow p1 f) (mkdir_states f (parent p1))) by (eapply Forall_impl; [|exact F]; intros s; apply keeps_preserved).
  destruct (mkdir_p f (parent p1)) as [g|] eqn:Mk.
  2:{ rewrite app_nil_r, K. split; assumption. }
  pose proof (mkdir_preserved _ _ _ Mk) as Pg. pose proof (keeps_preserved ow p1 f g Pg) as Kg.
  destruct (if ow then Ok p1 else make_file_name g p1) as [p2|e] eqn:N.
  2:{ rewrite app_nil_r, K. split; assumption. }
  destruct (chosen_path f g ow p1 p2 Pg N) as (N1 & N2).
  destruct (write_file g p2 []) as [f2|] eqn:W.
  2:{ rewrite K. split; [apply (runs_join f g); [exact R|right; exists []; reflexivity]|]. apply Forall_app. split; [exact F'|]. constructor; [exact Kg|constructor]. }
  apply write_file_ok in W as (-> & _). split.
  - apply (runs_join f g); [exact R|]. right. eexists (_ :: _). reflexivity.
  - apply Forall_app. split; [exact F'|]. constructor; [apply keeps_cons; assumption|]. apply Forall_app. split; [|constructor; [exact Kf|constructor] ].
    apply Forall_forall. intros s Hs. apply in_map_iff in Hs as (h & <- & _). repeat (apply keeps_cons; [|assumption..]). exact Kg.
Qed.
Lemma open_hdf_emptied (f : fs (hdf D)) n d key d0 k v rest old :
  existsb (str_eqb (lower (suffix n))) hdf_suffixes = true -> is_dir f d = true -> lookup f (n :: d) = Some (File old) -> substrb key k = true ->
  exists f', open_hdf_stream f (n :: d) key d0 true ((k, v) :: rest) = (f', Err ValueError) /\ lookup f' (n :: d) = Some (File []).
Proof.
  intros E Di L S. unfold open_hdf_stream, hdf_path. cbn [pname hd]. rewrite E. cbn [parent tl].
  assert (Mk : mkdir_p f d = Ok f) by (destruct d as [|a d]; [reflexivity|]; cbn [mkdir_p]; rewrite (is_dir_lookup f a d Di); reflexivity).
  rewrite Mk, write_file_can by (exact Di || (rewrite L; discriminate)). cbn [add_options]. rewrite S. eexists. split; [reflexivity|].
  rewrite lookup_cons. destruct (path_eq_dec (n :: d) (n :: d)); [reflexivity|congruence].
Qed.
Lemma open_hdf_rejected_new (f : fs (hdf D)) p key d0 opts f' e : open_hdf_stream f p key d0 false opts = (f', Err e) -> preserved f f'.
Proof. intros H. apply (open_hdf_safe f p key d0 opts f' (Err e) H). Qed.
End Hdf.
