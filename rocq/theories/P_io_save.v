From Verif Require Import Np P_Np M_fs S_io M_io_save P_fs.
From Coq Require Import NArith Nnat Ascii String Permutation.
From Coq Require Import List. Import ListNotations.
Open Scope Z_scope.
Ltac Zify.zify_post_hook ::= Z.div_mod_to_equations.

Lemma rfind_dot_some s i : rfind_dot s = Some i ->
  s = firstn i s ++ "."%char :: skipn (S i) s /\ ~ In "."%char (skipn (S i) s) /\ (i < length s)%nat.
Proof.
  revert i. induction s as [|c s IH]; intros i; cbn [rfind_dot]; [discriminate|].
  destruct (rfind_dot s) as [k|] eqn:E.
  - intros H; injection H as <-. destruct (IH k eq_refl) as (A & B & D).
    cbn [firstn skipn app length]. split; [f_equal; exact A|]. split; [exact B|lia].
  - destruct (ascii_dec c "."%char) as [->|]; [|discriminate]. intros H; injection H as <-.
    cbn [firstn skipn app length]. split; [reflexivity|]. split; [|lia].
    clear -E. induction s as [|d s IH]; [intros []|]. cbn [rfind_dot] in E.
    destruct (rfind_dot s); [discriminate|]. destruct (ascii_dec d "."%char) as [|N]; [discriminate|].
    intros [X|X]; [congruence|]. apply IH; [reflexivity|exact X].
Qed.
Lemma suffix_nonnil nm : suffix nm <> [] ->
  exists b, suffix nm = "."%char :: b /\ b <> [] /\ ~ In "."%char b /\ stem nm <> [].
Proof.
  unfold suffix, stem, suffix_pos. destruct (rfind_dot nm) as [i|] eqn:E; [|congruence].
  destruct ((0 <? i)%nat && (i <? length nm - 1)%nat)%bool eqn:G; [|congruence]. intros _.
  apply andb_prop in G as [G1 G2]. apply Nat.ltb_lt in G1, G2.
  destruct (rfind_dot_some _ _ E) as (A & B & D).
  exists (skipn (S i) nm). split.
  - rewrite A at 1. rewrite skipn_app, skipn_all2 by (rewrite firstn_length; lia).
    rewrite firstn_length. replace (i - Nat.min i (length nm))%nat with 0%nat by lia. reflexivity.
  - split; [|split; [exact B|]].
    + intros X. apply (f_equal (@length _)) in X. rewrite skipn_length in X. cbn in X. lia.
    + intros X. apply (f_equal (@length _)) in X. rewrite firstn_length in X. cbn in X. lia.
Qed.
Lemma suffix_cand nm n : suffix nm <> [] -> suffix (cand_name (stem nm) (suffix nm) n) = suffix nm.
Proof.
  intros H. destruct (suffix_nonnil _ H) as (b & E & Hb & Nb & Hs). unfold cand_name. rewrite E.
  rewrite !app_assoc. apply suffix_app; try assumption.
  intros X. apply app_eq_nil in X as [X _]. apply app_eq_nil in X as [X _]. congruence.
Qed.

Section SaveP.
  Context {C M : Type} (enc : str -> M -> C) (scale8 : M -> M) (cplx : M -> bool) (pil_ok : str -> bool).
  Notation save_image := (save_image enc scale8 cplx pil_ok).
  Implicit Types f : fs C.

  Lemma save_false_safe f p m f' r : save_image f p m false = (f', r) ->
    preserved f f' /\
    forall q, r = Ok q -> make_file_name f p = Ok q /\ lookup f q = None /\
      lookup f' q = Some (File (file_content enc scale8 (suffix (pname p)) m)).
  Proof.
    unfold M_io_save.save_image.
    destruct (is_tif (suffix (pname p)) && cplx m).
    { intros H; injection H as <- <-. split; [apply preserved_refl|discriminate]. }
    destruct (make_file_name_spec f p) as (q & Hq & Fr & _). rewrite Hq.
    apply exists_false in Fr as [Fr Nn].
    destruct (make_folder f q) as [f1 [u|e]] eqn:MF;
      pose proof (make_folder_preserved _ _ _ _ MF) as P1.
    2:{ intros H; injection H as <- <-. split; [exact P1|discriminate]. }
    destruct (pil_ok _).
    2:{ intros H; injection H as <- <-. split; [exact P1|discriminate]. }
    match goal with |- context [write_file f1 q ?c] => destruct (write_file f1 q c) as [f2|e] eqn:W end.
    2:{ intros H; injection H as <- <-. split; [exact P1|discriminate]. }
    intros H; injection H as <- <-. apply write_file_ok in W as (-> & _ & _ & _). split.
    - intros z nd Hz. rewrite lookup_cons. destruct (path_eq_dec q z) as [->|]; [congruence|apply P1, Hz].
    - intros z Hz. injection Hz as <-. repeat split; [exact Fr|].
      rewrite lookup_cons. destruct (path_eq_dec q q); [reflexivity|congruence].
  Qed.

  Lemma usable_is_dir f d : usable_folder f d -> existsb_ f d = true -> is_dir f d = true.
  Proof.
    destruct d as [|n d]; [reflexivity|]. intros [H _] E. apply exists_true in E as (nd & E).
    cbn [is_dir]. rewrite E. destruct nd as [c|]; [exfalso; eapply H, E|reflexivity].
  Qed.
  Lemma make_folder_usable f p : suffix (pname p) <> [] -> usable_folder f (parent p) ->
    exists f1, make_folder f p = (f1, Ok tt) /\ is_dir f1 (parent p) = true /\
      (forall q, (length (parent p) < length q)%nat -> lookup f1 q = lookup f q) /\
      preserved f f1 /\
      (forall q, lookup f q = None -> lookup f1 q = None \/ lookup f1 q = Some Dir).
  Proof.
    intros S U. unfold make_folder. destruct (suffix (pname p)) as [|c s] eqn:E; [congruence|].
    destruct (existsb_ f (parent p)) eqn:X.
    - exists f. split; [reflexivity|]. split; [apply usable_is_dir; assumption|].
      split; [reflexivity|]. split; [apply preserved_refl|auto].
    - destruct (usable_mkdir _ _ U) as (f1 & M1). rewrite M1. exists f1. split; [reflexivity|].
      split; [eapply mkdir_is_dir, M1|]. split; [apply (mkdir_lookup_longer _ _ _ M1)|].
      split; [eapply mkdir_preserved, M1|eapply mkdir_new, M1].
  Qed.
  Lemma save_false_succeeds f p m :
    suffix (pname p) <> [] -> pil_ok (suffix (pname p)) = true -> cplx m = false ->
    usable_folder f (parent p) ->
    exists q, snd (save_image f p m false) = Ok q.
  Proof.
    intros S K X U. unfold M_io_save.save_image. rewrite X, andb_false_r, K.
    destruct (make_file_name_spec f p) as (q & Hq & Fr & A & B). rewrite Hq.
    assert (Q : exists nm, q = nm :: parent p /\ suffix nm <> []).
    { destruct (existsb_ f p) eqn:E.
      - destruct (B eq_refl) as (k & -> & _). unfold cand_path. eexists. split; [reflexivity|].
        rewrite suffix_cand; assumption.
      - rewrite (A eq_refl). destruct p as [|n p]; [discriminate|]. exists n. split; [reflexivity|exact S]. }
    destruct Q as (nm & -> & Sn).
    destruct (make_folder_usable f (nm :: parent p)) as (f1 & -> & D1 & L1 & _); [exact Sn|exact U|].
    cbn [parent tl] in *. rewrite write_file_can; [cbn [snd]; eauto|exact D1|].
    apply exists_false in Fr as [Fr _]. rewrite L1 by (cbn; lia). congruence.
  Qed.

  Lemma save_true_frame f p m f' r : save_image f p m true = (f', r) ->
    preserved_except [p] f f' /\
    forall q, r = Ok q -> q = p /\
      lookup f' p = Some (File (file_content enc scale8 (suffix (pname p)) m)).
  Proof.
    assert (PE : forall g, preserved f g -> preserved_except [p] f g) by (intros g H z nd _ Hz; apply H, Hz).
    unfold M_io_save.save_image.
    destruct (is_tif (suffix (pname p)) && cplx m).
    { intros H; injection H as <- <-. split; [apply PE, preserved_refl|discriminate]. }
    destruct (make_folder f p) as [f1 [u|e]] eqn:MF;
      pose proof (make_folder_preserved _ _ _ _ MF) as P1.
    2:{ intros H; injection H as <- <-. split; [apply PE, P1|discriminate]. }
    destruct (pil_ok _).
    2:{ intros H; injection H as <- <-. split; [apply PE, P1|discriminate]. }
    destruct (write_file f1 p _) as [f2|e] eqn:W.
    2:{ intros H; injection H as <- <-. split; [apply PE, P1|discriminate]. }
    intros H; injection H as <- <-. apply write_file_ok in W as (-> & _ & _ & _). split.
    - intros z nd Hn Hz. rewrite lookup_cons. destruct (path_eq_dec p z) as [->|].
      + exfalso. apply Hn. left; reflexivity.
      + apply P1, Hz.
    - intros q Hq. injection Hq as <-. split; [reflexivity|].
      rewrite lookup_cons. destruct (path_eq_dec p p); [reflexivity|congruence].
  Qed.

  (** one successful overwriting save: full description of the new file system *)
  Lemma save_true_step f p m : suffix (pname p) <> [] -> pil_ok (suffix (pname p)) = true ->
    cplx m = false -> usable_folder f (parent p) -> lookup f p <> Some Dir ->
    exists f', save_image f p m true = (f', Ok p) /\
      lookup f' p = Some (File (file_content enc scale8 (suffix (pname p)) m)) /\
      (forall q, q <> p -> (forall nd, lookup f q = Some nd -> lookup f' q = Some nd) /\
                           ((length (parent p) < length q)%nat -> lookup f' q = lookup f q) /\
                           (lookup f q = None -> lookup f' q = None \/ lookup f' q = Some Dir)).
  Proof.
    intros S K X U D. unfold M_io_save.save_image. rewrite X, andb_false_r, K.
    destruct (make_folder_usable f p S U) as (f1 & -> & D1 & L1 & P1 & N1).
    destruct p as [|n d]; [cbn in S; congruence|]. cbn [parent tl] in *.
    rewrite write_file_can; [|exact D1|rewrite L1 by (cbn; lia); exact D].
    eexists. split; [reflexivity|]. split.
    - rewrite lookup_cons. destruct (path_eq_dec (n :: d) (n :: d)); [reflexivity|congruence].
    - intros q Hq. rewrite lookup_cons. destruct (path_eq_dec (n :: d) q); [congruence|].
      split; [intros nd; apply P1|]. split; [intros; apply L1; assumption|apply N1].
  Qed.
  Lemma usable_mono f g (d : path) :
    (forall q, (length q <= length d)%nat ->
       (forall nd, lookup f q = Some nd -> lookup g q = Some nd) /\
       (lookup f q = None -> lookup g q = None \/ lookup g q = Some Dir)) ->
    usable_folder f d -> usable_folder g d.
  Proof.
    induction d as [|n d IH]; intros H U; [exact I|]. destruct U as [U1 U2]. split.
    - intros c Hc. destruct (H (n :: d) ltac:(lia)) as [A B].
      destruct (lookup f (n :: d)) as [[c'|]|] eqn:E.
      + eapply U1, eq_refl.
      + rewrite (A _ eq_refl) in Hc. discriminate.
      + destruct (B eq_refl) as [X|X]; rewrite X in Hc; discriminate.
    - apply IH; [|exact U2]. intros q Hq. apply H. cbn; lia.
  Qed.

  Lemma run_saves_ok (slice : Z -> M) (folder : path) order : forall f,
    NoDup (map fst order) ->
    usable_folder f folder -> pil_ok (s_ ".tif") = true -> (forall i, cplx (slice i) = false) ->
    (forall p i, In (p, i) order -> exists nm, p = nm :: folder /\ suffix nm = s_ ".tif") ->
    (forall p i, In (p, i) order -> lookup f p <> Some Dir) ->
    exists f' rs, run_saves enc scale8 cplx pil_ok slice true f order = (f', rs) /\
      (forall r, In r rs -> is_ok r = true) /\
      (forall p i, In (p, i) order -> lookup f' p = Some (File (enc (s_ ".tif") (slice i)))) /\
      preserved_except (map fst order) f f' /\
      (forall q, ~ In q (map fst order) -> (length folder < length q)%nat -> lookup f' q = lookup f q).
  Proof.
    induction order as [|[p i] order IH]; intros f ND U K X Sh Nd.
    - exists f, []. cbn [run_saves]. split; [reflexivity|]. split; [intros ? []|]. split; [intros ? ? []|].
      split; [intros q nd _ H; exact H|reflexivity].
    - cbn [map fst] in ND. inversion ND as [|? ? Np ND']; subst.
      destruct (Sh p i (or_introl eq_refl)) as (nm & -> & Sn).
      destruct (save_true_step f (nm :: folder) (slice i)) as (f1 & E1 & L1 & F1).
      { cbn [pname hd]. rewrite Sn. discriminate. }
      { cbn [pname hd]. rewrite Sn. exact K. }
      { apply X. }
      { exact U. }
      { apply (Nd _ i). left; reflexivity. }
      cbn [pname hd parent tl] in *. rewrite Sn in L1.
      assert (U1 : usable_folder f1 folder).
      { eapply usable_mono; [|exact U]. intros q Hq.
        assert (Hn : q <> nm :: folder) by (intros ->; cbn in Hq; lia).
        destruct (F1 q Hn) as (A & _ & B). split; assumption. }
      destruct (IH f1 ND' U1 K X) as (f' & rs & E2 & R2 & L2 & P2 & G2).
      { intros p0 i0 H0. apply (Sh p0 i0). right; exact H0. }
      { intros p0 i0 H0. destruct (Sh p0 i0 (or_intror H0)) as (nm0 & -> & _).
        assert (Hn : nm0 :: folder <> nm :: folder).
        { intros Y. apply Np. rewrite <- Y. apply in_map_iff. exists (nm0 :: folder, i0). auto. }
        destruct (F1 _ Hn) as (_ & B & _). rewrite B by (cbn; lia). apply (Nd _ i0). right; exact H0. }
      exists f', (Ok (nm :: folder) :: rs). cbn [run_saves]. rewrite E1, E2. split; [reflexivity|].
      split; [intros r [<-|Hr]; [reflexivity|apply R2, Hr]|]. split; [|split].
      + intros p0 i0 [H0|H0]; [|apply L2, H0]. injection H0 as <- <-.
        rewrite G2; [exact L1|exact Np|cbn; lia].
      + intros q nd Hq Hl. cbn [map fst] in Hq. apply P2; [intros Y; apply Hq; right; exact Y|].
        apply (F1 q); [intros ->; apply Hq; left; reflexivity|exact Hl].
      + intros q Hq Hlen. cbn [map fst] in Hq. rewrite G2; [|intros Y; apply Hq; right; exact Y|exact Hlen].
        apply (F1 q); [intros ->; apply Hq; left; reflexivity|exact Hlen].
  Qed.
End SaveP.

Lemma img_name_suffix i : suffix (img_name i) = s_ ".tif" /\
  stem (img_name i) = s_ "img_" ++ lastn 5 (s_ "00000" ++ str_Z i).
Proof.
  unfold img_name. change (s_ ".tif") with ("."%char :: s_ "tif"). rewrite app_assoc.
  apply suffix_app; [discriminate|discriminate|].
  intros [H|[H|[H|[]]]]; discriminate.
Qed.
Lemma save_tasks_fst {V} folder (stack : vol V) axis start :
  map fst (save_tasks folder stack axis start)
  = map (fun i => img_name (start + i) :: folder) (zrange 0 (axis_len stack axis)).
Proof. unfold save_tasks. rewrite map_map. reflexivity. Qed.

Lemma axis_slice_is {V} (stack : vol V) axis i : is_slice stack axis i (axis_slice stack axis i).
Proof. repeat split; subst; reflexivity. Qed.

Lemma save_multiple_ok {C V} (enc : str -> img V -> C) scale8 cplx pil_ok
    (f : fs C) folder (stack : vol V) axis start order :
  0 <= start -> start + axis_len stack axis <= 100000 ->
  usable_folder f folder -> pil_ok (s_ ".tif") = true ->
  (forall i, cplx (axis_slice stack axis i) = false) ->
  (forall nm, lookup f (nm :: folder) <> Some Dir) ->
  schedule (save_tasks folder stack axis start) order ->
  exists f' rs, save_image_multiple enc scale8 cplx pil_ok f folder stack axis true order = (f', rs) /\
    (forall r, In r rs -> is_ok r = true) /\
    (forall i, 0 <= i < axis_len stack axis ->
       exists ds m, written 5 (Z.to_N (start + i)) ds /\ is_slice stack axis i m /\
         lookup f' ((s_ "img_" ++ ds ++ s_ ".tif") :: folder) = Some (File (enc (s_ ".tif") m))) /\
    preserved_except (map fst order) f f'.
Proof.
  intros H0 H1 U K X Nd Sch. unfold save_image_multiple.
  set (n := axis_len stack axis) in *.
  destruct (run_saves_ok enc scale8 cplx pil_ok (axis_slice stack axis) folder order f)
    as (f' & rs & E & R & L & P & _); try assumption.
  - eapply Permutation_NoDup; [apply Permutation_map, Sch|]. rewrite save_tasks_fst.
    assert (G : forall l, NoDup l -> (forall i, In i l -> 0 <= i < n) ->
                NoDup (map (fun i => img_name (start + i) :: folder) l)).
    { induction l as [|a l IH]; intros ND B; cbn [map]; constructor.
      - inversion ND as [|? ? Na ND']; subst. intros Y. apply in_map_iff in Y as (b & Y & Hb).
        apply (f_equal (hd [])) in Y. cbn [hd] in Y. apply img_name_inj in Y.
        + assert (a = b) by lia. subst. contradiction.
        + specialize (B b (or_intror Hb)). lia.
        + specialize (B a (or_introl eq_refl)). lia.
      - inversion ND; subst. apply IH; [assumption|]. intros; apply B; right; assumption. }
    apply G; [apply zrange_NoDup|]. intros i Hi. apply zrange_In in Hi. lia.
  - intros p i Hi. apply (Permutation_in _ (Permutation_sym Sch)) in Hi.
    apply in_map_iff in Hi as (k & Hk & _). injection Hk as <- _. eexists. split; [reflexivity|].
    apply img_name_suffix.
  - intros p i Hi. apply (Permutation_in _ (Permutation_sym Sch)) in Hi.
    apply in_map_iff in Hi as (k & Hk & _). injection Hk as <- _. apply Nd.
  - exists f', rs. split; [exact E|]. split; [exact R|]. split; [|exact P].
    intros i Hi. exists (lastn 5 (s_ "00000" ++ str_Z (start + i))), (axis_slice stack axis i).
    split; [|split; [apply axis_slice_is|]].
    + unfold str_Z. destruct (Z.ltb_spec (start + i) 0); [lia|]. apply last5_written. lia.
    + apply (L (img_name (start + i) :: folder) i). apply (Permutation_in _ Sch).
      apply in_map_iff. exists i. split; [reflexivity|]. apply zrange_In. lia.
Qed.

(** ** interleavings *)
Definition cands (p q : path) : Prop := q = p \/ exists n, q = cand_path p n.

Section Inter.
  Context {C : Type}.
  Implicit Types f : fs C.
  Definition start_tasks (l : list (path * C)) : list (task C) :=
    map (fun pc => mktask (fst pc) (snd pc) TStart) l.
  Definition task_inv f0 f (pc : path * C) (t : task C) : Prop :=
    t_path t = fst pc /\ t_content t = snd pc /\
    match t_state t with
    | TStart | TProbe _ => True
    | TWrite q => cands (fst pc) q /\ lookup f q = None
    | TDone q => cands (fst pc) q /\ lookup f q = Some (File (snd pc)) /\ lookup f0 q = None
    end.
  Definition inter_inv f0 (l : list (path * C)) f (ts : list (task C)) : Prop :=
    preserved f0 f /\ Forall2 (task_inv f0 f) l ts.

  Lemma Forall2_nth {A B} (R : A -> B -> Prop) l l' k b : Forall2 R l l' -> nth_error l' k = Some b ->
    exists a, nth_error l k = Some a /\ R a b.
  Proof.
    intros H. revert k. induction H as [|x y l l' Hxy H IH]; intros k E; [destruct k; discriminate|].
    destruct k as [|k]; cbn in *; [injection E as <-; eauto|apply IH, E].
  Qed.
  Lemma Forall2_set {A B} (R R' : A -> B -> Prop) l l' k b a :
    Forall2 R l l' -> nth_error l k = Some a -> R' a b ->
    (forall j x y, j <> k -> nth_error l j = Some x -> nth_error l' j = Some y -> R x y -> R' x y) ->
    Forall2 R' l (set_nth k b l').
  Proof.
    intros H. revert k. induction H as [|x y l l' Hxy H IH]; intros k E Hb St; [destruct k; discriminate|].
    destruct k as [|k]; cbn in *.
    - injection E as ->. constructor; [exact Hb|].
      assert (St' : forall j x0 y0, nth_error l j = Some x0 -> nth_error l' j = Some y0 -> R x0 y0 -> R' x0 y0)
        by (intros j x0 y0; apply (St (S j)); discriminate).
      clear -H St'. induction H as [|u v l l' Huv H IH]; constructor.
      + apply (St' O); [reflexivity|reflexivity|exact Huv].
      + apply IH. intros j. apply (St' (S j)).
    - constructor.
      + apply (St O); [discriminate|reflexivity|reflexivity|exact Hxy].
      + apply IH; [exact E|exact Hb|]. intros j x0 y0 Hj. apply (St (S j)). congruence.
  Qed.

  Lemma step_inv f0 l f ts k t f' t' :
    (forall i j a b q, i <> j -> nth_error l i = Some a -> nth_error l j = Some b ->
        cands (fst a) q -> cands (fst b) q -> False) ->
    inter_inv f0 l f ts -> nth_error ts k = Some t -> tstep f t = (f', t') ->
    inter_inv f0 l f' (set_nth k t' ts).
  Proof.
    intros Dis [P F] Hk E. destruct (Forall2_nth _ _ _ _ _ F Hk) as (pc & Hl & Hp & Hc & Hs).
    unfold tstep in E.
    assert (Same : f' = f -> task_inv f0 f pc t' -> inter_inv f0 l f' (set_nth k t' ts)).
    { intros -> TI. split; [exact P|]. eapply Forall2_set; [exact F|exact Hl|exact TI|]. auto. }
    destruct (t_state t) as [|n|q|q] eqn:St.
    - apply pair_equal_spec in E as [<- <-]. apply Same; [reflexivity|]. split; [exact Hp|]. split; [exact Hc|]. cbn [t_state].
      destruct (existsb_ f (t_path t)) eqn:X; [exact I|]. apply exists_false in X as [X _].
      split; [left; exact Hp|exact X].
    - apply pair_equal_spec in E as [<- <-]. apply Same; [reflexivity|]. split; [exact Hp|]. split; [exact Hc|]. cbn [t_state].
      destruct (existsb_ f (cand_path (t_path t) n)) eqn:X; [exact I|]. apply exists_false in X as [X _].
      split; [right; exists n; rewrite <- Hp; reflexivity|exact X].
    - destruct Hs as [Hq Fr]. destruct (write_file f q (t_content t)) as [g|e] eqn:W.
      + apply pair_equal_spec in E as [<- <-]. apply write_file_ok in W as (-> & _ & _ & _).
        assert (P' : preserved f ((q, File (t_content t)) :: f)) by (apply preserved_cons_new, Fr).
        split; [eapply preserved_trans; eassumption|].
        eapply Forall2_set; [exact F|exact Hl| |].
        * split; [exact Hp|]. split; [exact Hc|]. cbn [t_state]. split; [exact Hq|].
          rewrite lookup_cons. destruct (path_eq_dec q q); [|congruence]. rewrite Hc. split; [reflexivity|].
          destruct (lookup f0 q) eqn:Y; [|reflexivity]. apply P in Y. congruence.
        * intros j x y Hj Hx Hy (A & B & D). split; [exact A|]. split; [exact B|].
          destruct (t_state y) as [|n|z|z]; try exact I.
          -- destruct D as [D1 D2]. split; [exact D1|]. rewrite lookup_cons.
             destruct (path_eq_dec q z) as [->|]; [|exact D2].
             exfalso. eapply (Dis j k); [exact Hj|exact Hx|exact Hl|exact D1|exact Hq].
          -- destruct D as (D1 & D2 & D3). split; [exact D1|]. split; [apply P', D2|exact D3].
      + apply pair_equal_spec in E as [<- <-]. apply Same; [reflexivity|].
        split; [exact Hp|]. split; [exact Hc|]. cbn [t_state]. split; assumption.
    - apply pair_equal_spec in E as [<- <-]. apply Same; [reflexivity|]. split; [exact Hp|]. split; [exact Hc|].
      rewrite St. exact Hs.
  Qed.
  Lemma run_inv f0 l sched : 
    (forall i j a b q, i <> j -> nth_error l i = Some a -> nth_error l j = Some b ->
        cands (fst a) q -> cands (fst b) q -> False) ->
    forall f ts, inter_inv f0 l f ts ->
    inter_inv f0 l (fst (run_sched f ts sched)) (snd (run_sched f ts sched)).
  Proof.
    intros Dis. induction sched as [|k s IH]; intros f ts H; cbn [run_sched]; [exact H|].
    destruct (nth_error ts k) as [t|] eqn:E; [|apply IH, H].
    destruct (tstep f t) as [f' t'] eqn:S. apply IH. eapply step_inv; eassumption.
  Qed.
  Lemma start_inv f l : inter_inv f l f (start_tasks l).
  Proof.
    split; [apply preserved_refl|]. unfold start_tasks. induction l as [|pc l IH]; cbn [map]; constructor.
    - repeat split.
    - exact IH.
  Qed.
End Inter.

Lemma lastn5_length {A} (s : list A) : (5 <= length s)%nat -> length (lastn 5 s) = 5%nat.
Proof. intros H. unfold lastn. rewrite skipn_length. lia. Qed.
Lemma cands_img_name i folder q : cands (img_name i :: folder) q ->
  firstn 9 (pname q) = s_ "img_" ++ lastn 5 (s_ "00000" ++ str_Z i).
Proof.
  assert (L : length (s_ "img_" ++ lastn 5 (s_ "00000" ++ str_Z i)) = 9%nat).
  { rewrite app_length, lastn5_length; [reflexivity|]. rewrite app_length. cbn. lia. }
  assert (G : forall s, firstn 9 ((s_ "img_" ++ lastn 5 (s_ "00000" ++ str_Z i)) ++ s)
              = s_ "img_" ++ lastn 5 (s_ "00000" ++ str_Z i)).
  { intros s. rewrite <- L at 1. rewrite firstn_app, firstn_all, Nat.sub_diag. cbn [firstn].
    apply app_nil_r. }
  intros [->|(n & ->)].
  - cbn [pname hd]. unfold img_name. rewrite app_assoc. apply G.
  - cbn [pname hd cand_path]. unfold cand_name. rewrite (proj2 (img_name_suffix i)). apply G.
Qed.
Lemma folder_tasks_disjoint {C} start (cs : list C) folder :
  0 <= start -> start + Z.of_nat (length cs) <= 100000 ->
  let l := combine (map (fun i => img_name (start + i) :: folder) (zrange 0 (Z.of_nat (length cs)))) cs in
  forall i j a b q, i <> j -> nth_error l i = Some a -> nth_error l j = Some b ->
        cands (fst a) q -> cands (fst b) q -> False.
Proof.
  intros H0 H1 l i j a b q Hij Ha Hb Ca Cb.
  assert (G : forall k x, nth_error l k = Some x ->
             fst x = img_name (start + Z.of_nat k) :: folder /\ (k < length cs)%nat).
  { intros k x Hx. assert (Hk : (k < length cs)%nat).
    { assert (k < length l)%nat by (apply nth_error_Some; congruence).
      unfold l in H. rewrite combine_length in H. lia. }
    split; [|exact Hk]. unfold l in Hx.
    rewrite (surjective_pairing x) in Hx.
    assert (Y : nth_error (map fst (combine (map (fun i => img_name (start + i) :: folder)
                (zrange 0 (Z.of_nat (length cs)))) cs)) k = Some (fst x)).
    { rewrite nth_error_map, Hx. reflexivity. }
    assert (Z0 : forall A B (u : list A) (v : list B), length u = length v -> map fst (combine u v) = u).
    { induction u as [|u0 u IHu]; intros [|v0 v]; cbn; intros Hl; try lia; [reflexivity|].
      f_equal. apply IHu. lia. }
    rewrite Z0 in Y by (rewrite map_length, zrange_length; lia).
    rewrite nth_error_map in Y.
    destruct (nth_error (zrange 0 (Z.of_nat (length cs))) k) as [z|] eqn:Ez; [|discriminate].
    injection Y as Y. rewrite <- Y. f_equal. f_equal. f_equal.
    apply (nth_error_nth _ _ 0) in Ez. rewrite zrange_nth in Ez by lia. lia. }
  destruct (G i a Ha) as [Ea Ia]. destruct (G j b Hb) as [Eb Ib]. rewrite Ea in Ca. rewrite Eb in Cb.
  apply cands_img_name in Ca. apply cands_img_name in Cb. rewrite Ca in Cb.
  apply (f_equal (fun s => s ++ s_ ".tif")) in Cb. rewrite <- !app_assoc in Cb.
  apply (img_name_inj (start + Z.of_nat i) (start + Z.of_nat j)) in Cb; lia.
Qed.
Lemma concurrent_saves_ok {C} (f : fs C) folder start (cs : list C) sched :
  0 <= start -> start + Z.of_nat (length cs) <= 100000 ->
  let l := combine (map (fun i => img_name (start + i) :: folder) (zrange 0 (Z.of_nat (length cs)))) cs in
  let f' := fst (run_sched f (start_tasks l) sched) in
  let ts := snd (run_sched f (start_tasks l) sched) in
  preserved f f' /\
  (forall k t c q, nth_error ts k = Some t -> nth_error cs k = Some c -> t_state t = TDone q ->
     lookup f q = None /\ lookup f' q = Some (File c)) /\
  (forall j k t u q, j <> k -> nth_error ts j = Some t -> nth_error ts k = Some u ->
     t_state t = TDone q -> t_state u = TDone q -> False).
Proof.
  intros H0 H1 l f' ts.
  pose proof (folder_tasks_disjoint start cs folder H0 H1) as Dis.
  destruct (run_inv f l sched Dis f (start_tasks l) (start_inv f l)) as [P F].
  split; [exact P|]. split.
  - intros k t c q Hk Hc St. destruct (Forall2_nth _ _ _ _ _ F Hk) as (pc & Hl & _ & _ & Hs).
    rewrite St in Hs. destruct Hs as (_ & A & B). split; [exact B|].
    assert (snd pc = c); [|subst c; exact A].
    assert (Z1 : forall A B (u : list A) (v : list B) k x y,
       nth_error (combine u v) k = Some x -> nth_error v k = Some y -> snd x = y).
    { clear. intros A B. induction u as [|u0 u IHu]; intros [|v0 v] [|k]; cbn; intros x y Hx Hy; try discriminate.
      - injection Hx as <-. injection Hy as <-. reflexivity.
      - eapply IHu; eassumption. }
    eapply Z1; eassumption.
  - intros j k t u q Hjk Hj Hk Sj Sk.
    destruct (Forall2_nth _ _ _ _ _ F Hj) as (a & La & _ & _ & Ha).
    destruct (Forall2_nth _ _ _ _ _ F Hk) as (b & Lb & _ & _ & Hb).
    rewrite Sj in Ha. rewrite Sk in Hb. eapply (Dis j k a b q); tauto.
Qed.

(** ** distortion files *)
Section DistP.
  Context {V : Type} (show : V -> str) (parse : str -> option V).
  Hypothesis parse_show : forall v, parse (show v) = Some v.
  Hypothesis show_nonnil : forall v, show v <> [].
  Hypothesis show_ws : forall v c, In c (show v) -> is_ws c = false.

  Lemma nl_ws c : is_nl c = true -> is_ws c = true.
  Proof. unfold is_nl, is_ws. lia. Qed.
  Lemma splitlines_line l rest cur : (forall c, In c l -> is_nl c = false) ->
    splitlines_aux cur (l ++ ascii_of_N 10 :: rest) = (rev cur ++ l) :: splitlines_aux [] rest.
  Proof.
    revert cur. induction l as [|c l IH]; intros cur H.
    - cbn. rewrite app_nil_r. reflexivity.
    - cbn [app splitlines_aux]. rewrite (H c) by (left; reflexivity).
      rewrite IH by (intros; apply H; right; assumption). cbn [rev]. rewrite <- app_assoc. reflexivity.
  Qed.
  Lemma split_ws_token t cur : (forall c, In c t -> is_ws c = false) -> rev cur ++ t <> [] ->
    split_ws_aux cur t = [rev cur ++ t].
  Proof.
    revert cur. induction t as [|c t IH]; intros cur H N; cbn [split_ws_aux].
    - rewrite app_nil_r in *. destruct cur; [cbn in N; congruence|reflexivity].
    - rewrite (H c) by (left; reflexivity). rewrite IH.
      + cbn [rev]. rewrite <- app_assoc. reflexivity.
      + intros; apply H; right; assumption.
      + cbn [rev]. destruct (rev cur); discriminate.
  Qed.
  Lemma split_ws_last a t cur : (forall c, In c t -> is_ws c = false) -> t <> [] ->
    exists pre, split_ws_aux cur (a ++ " "%char :: t) = pre ++ [t].
  Proof.
    intros H N. revert cur. induction a as [|c a IH]; intros cur; cbn [app split_ws_aux].
    - cbn. destruct cur as [|x cur].
      + exists []. rewrite split_ws_token; [reflexivity|exact H|exact N].
      + exists [rev (x :: cur)]. rewrite split_ws_token; [reflexivity|exact H|exact N].
    - destruct (is_ws c); [destruct cur as [|x cur]|].
      + apply IH.
      + destruct (IH []) as (pre & ->). exists (rev (x :: cur) :: pre). reflexivity.
      + apply IH.
  Qed.
  Lemma parse_meta key v : parse_line parse (key ++ s_ " = " ++ show v) = Ok v.
  Proof.
    unfold parse_line, split_ws.
    replace (key ++ s_ " = " ++ show v) with ((key ++ s_ " =") ++ " "%char :: show v)
      by (rewrite <- app_assoc; reflexivity).
    destruct (split_ws_last (key ++ s_ " =") (show v) [] (show_ws v) (show_nonnil v)) as (pre & ->).
    unfold last_r. rewrite rev_app_distr. cbn. rewrite parse_show. reflexivity.
  Qed.
  Lemma dec_no_nl n c : In c (dec n) -> is_nl c = false.
  Proof.
    intros H. pose proof (dec_digits n) as D. rewrite forallb_forall in D. specialize (D c H).
    unfold is_digit in D. unfold is_nl. lia.
  Qed.
  Lemma lines_meta key v rest : (forall c, In c key -> is_nl c = false) ->
    splitlines (meta_line show key v ++ rest) = (key ++ s_ " = " ++ show v) :: splitlines rest.
  Proof.
    intros H. unfold splitlines, meta_line.
    replace ((key ++ s_ " = " ++ show v ++ [ascii_of_N 10]) ++ rest)
      with ((key ++ s_ " = " ++ show v) ++ ascii_of_N 10 :: rest)
      by (rewrite <- !app_assoc; reflexivity).
    rewrite splitlines_line; [reflexivity|]. intros c Hc.
    apply in_app_or in Hc as [Hc|Hc]; [apply H, Hc|].
    apply in_app_or in Hc as [Hc|Hc].
    - destruct Hc as [<-|[<-|[<-|[]]]]; reflexivity.
    - apply show_ws in Hc. destruct (is_nl c) eqn:E; [|reflexivity]. apply nl_ws in E. congruence.
  Qed.
  Lemma parse_factors l : forall i, mapr (parse_line parse) (splitlines (factor_lines show i l)) = Ok l.
  Proof.
    induction l as [|v l IH]; intros i; cbn [factor_lines]; [reflexivity|].
    rewrite lines_meta.
    - cbn [mapr]. rewrite parse_meta. cbn [bindr]. rewrite IH. reflexivity.
    - intros c Hc. apply in_app_or in Hc as [Hc|Hc]; [|eapply dec_no_nl, Hc].
      repeat (destruct Hc as [<-|Hc]; [reflexivity|]). destruct Hc.
  Qed.
  Lemma parse_text xc yc l :
    mapr (parse_line parse) (splitlines (coeff_text show xc yc l)) = Ok (xc :: yc :: l).
  Proof.
    unfold coeff_text. rewrite !lines_meta.
    - cbn [mapr]. rewrite !parse_meta. cbn [bindr]. rewrite parse_factors. reflexivity.
    - intros c Hc. repeat (destruct Hc as [<-|Hc]; [reflexivity|]). destruct Hc.
    - intros c Hc. repeat (destruct Hc as [<-|Hc]; [reflexivity|]). destruct Hc.
  Qed.
  Lemma distortion_roundtrip f p xc yc l ow f' q :
    save_distortion show f p xc yc l ow = (f', Ok q) -> load_distortion parse f' q = Ok (xc, yc, l).
  Proof.
    unfold save_distortion. set (p1 := dist_path p).
    destruct (mkdir_p f (parent p1)) as [f1|e]; [|discriminate].
    destruct (if ow then Ok p1 else make_file_name f1 p1) as [p2|e]; [|discriminate].
    destruct (write_file f1 p2 _) as [f2|e] eqn:W; [|discriminate].
    intros H; injection H as <- <-. apply write_file_ok in W as (-> & _).
    unfold load_distortion. rewrite lookup_cons. destruct (path_eq_dec p2 p2); [|congruence].
    rewrite parse_text. reflexivity.
  Qed.
End DistP.

Lemma save_distortion_safe {V} (show : V -> str) f p xc yc l f' r :
  save_distortion show f p xc yc l false = (f', r) ->
  preserved f f' /\
  forall q, r = Ok q -> lookup f q = None /\ lookup f' q = Some (File (coeff_text show xc yc l)).
Proof.
  unfold save_distortion. set (p1 := dist_path p).
  destruct (mkdir_p f (parent p1)) as [f1|e] eqn:M.
  2:{ intros H; injection H as <- <-. split; [apply preserved_refl|discriminate]. }
  pose proof (mkdir_preserved _ _ _ M) as P1.
  destruct (make_file_name_spec f1 p1) as (q & Hq & Fr & _). rewrite Hq.
  apply exists_false in Fr as [Fr _].
  assert (Fr0 : lookup f q = None).
  { destruct (lookup f q) eqn:E; [|reflexivity]. apply P1 in E. congruence. }
  match goal with |- context [write_file f1 q ?c] => destruct (write_file f1 q c) as [f2|e] eqn:W end.
  2:{ intros H; injection H as <- <-. split; [exact P1|discriminate]. }
  intros H; injection H as <- <-. apply write_file_ok in W as (-> & _). split.
  - intros z nd Hz. rewrite lookup_cons. destruct (path_eq_dec q z) as [->|]; [congruence|apply P1, Hz].
  - intros z Hz; injection Hz as <-. split; [exact Fr0|]. rewrite lookup_cons.
    destruct (path_eq_dec q q); [reflexivity|congruence].
Qed.

Lemma open_hdf_safe {D} (f : fs (hdf D)) p key d0 opts f' r :
  open_hdf_stream f p key d0 false opts = (f', r) ->
  preserved f f' /\
  forall q, r = Ok q -> lookup f q = None /\ parent q = parent p /\
    exists h, lookup f' q = Some (File ((key, d0) :: h)) /\
      forall k d, In (k, d) opts -> In (k, d) h.
Proof.
  unfold open_hdf_stream. set (p1 := hdf_path p).
  assert (PP : parent p1 = parent p).
  { unfold p1, hdf_path. destruct (existsb _ _); reflexivity. }
  destruct (mkdir_p f (parent p1)) as [f1|e] eqn:M.
  2:{ intros H; injection H as <- <-. split; [apply preserved_refl|discriminate]. }
  pose proof (mkdir_preserved _ _ _ M) as P1.
  destruct (make_file_name_spec f1 p1) as (q & Hq & Fr & FA & FB). rewrite Hq.
  assert (PQ : parent q = parent p1).
  { destruct (existsb_ f1 p1); [destruct (FB eq_refl) as (k & -> & _); reflexivity|rewrite FA; reflexivity]. }
  apply exists_false in Fr as [Fr _].
  assert (Fr0 : lookup f q = None).
  { destruct (lookup f q) eqn:E; [|reflexivity]. apply P1 in E. congruence. }
  match goal with |- context [write_file f1 q ?c] => destruct (write_file f1 q c) as [f2|e] eqn:W end.
  2:{ intros H; injection H as <- <-. split; [exact P1|discriminate]. }
  apply write_file_ok in W as (-> & _).
  assert (PG : forall h0 h : hdf D, preserved f ((q, File h) :: (q, File h0) :: f1)).
  { intros h0 h z nd Hz. rewrite !lookup_cons. destruct (path_eq_dec q z) as [->|]; [congruence|apply P1, Hz]. }
  destruct (add_options [] key opts) as [h er] eqn:AO.
  destruct er as [e|].
  { intros H; injection H as <- <-. split; [apply PG|discriminate]. }
  destruct (create_dataset h key d0) as [h'|e] eqn:CD.
  2:{ intros H; injection H as <- <-. split; [apply PG|discriminate]. }
  intros H; injection H as <- <-. split; [apply PG|].
  intros z Hz; injection Hz as <-. split; [exact Fr0|]. split; [congruence|]. exists h.
  rewrite lookup_cons. destruct (path_eq_dec q q); [|congruence].
  assert (h' = (key, d0) :: h).
  { unfold create_dataset in CD. destruct (existsb _ h); [discriminate|]. injection CD as <-. reflexivity. }
  subst h'. split; [reflexivity|].
  assert (G : forall (o : list (str * D)) h0 h1, add_options h0 key o = (h1, None) ->
     (forall k d, In (k, d) o -> In (k, d) h1) /\ (forall e, In e h0 -> In e h1)).
  { clear. induction o as [|[k d] o IH]; intros h0 h1; cbn [add_options].
    - intros H; injection H as <-. split; [intros ? ? []|auto].
    - destruct (substrb key k); [discriminate|].
      unfold create_dataset. destruct (existsb _ h0); [discriminate|]. intros H.
      destruct (IH _ _ H) as [A B]. split.
      + intros k0 d0 [Y|Y]; [injection Y as <- <-; apply B; left; reflexivity|apply A, Y].
      + intros e He. apply B. right; exact He. }
  apply (G _ _ _ AO).
Qed.

(** ** refutations and examples *)
Lemma make_folder_name_file_refuted :
  exists (f : fs unit) d prefix zero s,
    make_folder_name f d prefix zero = Ok s /\ existsb_ f (s :: d) = true.
Proof.
  exists [([s_ "Output_00002"; s_ "data"], File tt); ([s_ "data"], Dir)], [s_ "data"], (s_ "Output"), 5%nat.
  eexists. split; vm_compute; reflexivity.
Qed.

Definition id_enc (e : str) (m : img Z) : img Z := m.
Definition one_slice (v : Z) : vol Z := mkvol 1 1 1 (fun _ _ _ => v).
Lemma save_multiple_refuted :
  exists (f : fs (img Z)) folder,
    let f1 := fst (save_image_multiple id_enc (fun m => m) (fun _ => false) (fun _ => true)
                     f folder (one_slice 7) 0 true (save_tasks folder (one_slice 7) 0 0)) in
    let f2 := fst (save_image_multiple id_enc (fun m => m) (fun _ => false) (fun _ => true)
                     f1 folder (one_slice 8) 0 true (save_tasks folder (one_slice 8) 0 100000)) in
    (exists q m, lookup f1 q = Some (File m) /\ px m 0 0 = 7) /\
    (forall q m, lookup f2 q = Some (File m) -> px m 0 0 <> 7).
Proof.
  exists [([s_ "out"], Dir)], [s_ "out"]. cbv zeta. split.
  - exists [s_ "img_00000.tif"; s_ "out"], (axis_slice (one_slice 7) 0 0).
    split; vm_compute; reflexivity.
  - intros q m H.
    match type of H with lookup ?g q = _ =>
      replace g with ([([s_ "img_00000.tif"; s_ "out"], File (axis_slice (one_slice 8) 0 0));
                       ([s_ "img_00000.tif"; s_ "out"], File (axis_slice (one_slice 7) 0 0));
                       ([s_ "out"], Dir)]) in H by (vm_compute; reflexivity) end.
    rewrite !lookup_cons in H.
    destruct (path_eq_dec [s_ "img_00000.tif"; s_ "out"] q).
    + injection H as <-. cbn. discriminate.
    + destruct (path_eq_dec [s_ "out"] q); discriminate.
Qed.

(** two concurrent calls for the same path, overwrite=False: check, check, write, write *)
Lemma concurrent_same_path_refuted :
  exists (f : fs Z) (p : path) (sched : list nat),
    let r := run_sched f (start_tasks [(p, 1); (p, 2)]) sched in
    Forall (fun t => exists q, t_state t = TDone q) (snd r) /\
    (forall q, lookup (fst r) q <> Some (File 1)).
Proof.
  exists [([s_ "out"], Dir)], [s_ "a.tif"; s_ "out"], [0%nat; 1%nat; 0%nat; 1%nat]. cbv zeta. split.
  - cbv [run_sched start_tasks map]. vm_compute. repeat constructor; eexists; reflexivity.
  - intros q H.
    match type of H with lookup ?g q = _ =>
      replace g with ([([s_ "a.tif"; s_ "out"], File 2);
                       ([s_ "a.tif"; s_ "out"], File 1);
                       ([s_ "out"], Dir)]) in H by (vm_compute; reflexivity) end.
    rewrite !lookup_cons in H.
    destruct (path_eq_dec [s_ "a.tif"; s_ "out"] q); [discriminate|].
    destruct (path_eq_dec [s_ "out"] q); discriminate.
Qed.

(** a metadata key that merely contains the text of [key_path] is refused *)
Lemma hdf_key_refuted :
  exists (k key_path : str),
    is_prefix (key_parts key_path) (key_parts k) = false /\
    is_prefix (key_parts k) (key_parts key_path) = false /\
    forall (f : fs (hdf Z)), snd (open_hdf_stream f [s_ "a.hdf"; s_ "out"] key_path 0 true [(k, 5)])
      <> Ok [s_ "a.hdf"; s_ "out"].
Proof.
  exists (s_ "flat/my_entry/data"), (s_ "entry/data"). split; [reflexivity|]. split; [reflexivity|].
  intros f. unfold open_hdf_stream.
  destruct (mkdir_p f _); [|discriminate]. destruct (write_file _ _ _); [|discriminate].
  vm_compute. discriminate.
Qed.
Lemma hdf_child_key_rejected {D} (f : fs (hdf D)) p key d0 ow opts k d :
  In (k, d) opts -> substrb key k = true -> is_ok (snd (open_hdf_stream f p key d0 ow opts)) = false.
Proof.
  intros Hin Hs. unfold open_hdf_stream. destruct (mkdir_p f _) as [f1|]; [|reflexivity].
  destruct (if ow then _ else _) as [p2|]; [|reflexivity].
  destruct (write_file f1 p2 _) as [f2|]; [|reflexivity].
  destruct (add_options [] key opts) as [h [e|]] eqn:A; [reflexivity|]. exfalso.
  revert A. generalize (@nil (str * D)) as h0. induction opts as [|[k0 d1] o IH]; [destruct Hin|].
  intros h0. cbn [add_options]. destruct Hin as [E|Hin].
  - injection E as -> ->. rewrite Hs. discriminate.
  - destruct (substrb key k0); [discriminate|]. destruct (create_dataset h0 k0 d1) as [h1|]; [|discriminate].
    apply IH, Hin.
Qed.
