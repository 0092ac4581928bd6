(** Proofs for postprocessing.py: reslicing (data flow) and the files it touches. *)
From Verif Require Import Np P_Np M_utility M_conversion P_conversion M_correction P_correction P_utility M_io_load M_fs S_io P_fs M_io_save P_io_save M_post P_post.
From Coq Require Import QArith ZArith Lia Ascii String.
From Coq Require Import List. Import ListNotations.
Open Scope Z_scope.

(** ** the chunk loop visits 0 .. n - 1 once, in order *)
Lemma flat_steps c : 0 <= c -> forall k, flat_map (fun b : Z * Z => map (fun j => fst b + j) (zrange 0 (snd b))) (map (fun i => (Z.of_nat i * c, c)) (seq 0 k)) = zrange 0 (Z.of_nat k * c).
Proof.
  intros Hc. induction k as [|k IH]; [reflexivity|].
  rewrite seq_S, map_app, flat_map_app, IH. cbn [map flat_map fst snd]. rewrite app_nil_r.
  replace (Z.of_nat (S k) * c) with (Z.of_nat k * c + c) by lia. rewrite zrange_app by lia. f_equal.
  rewrite Z.add_0_l. unfold zrange. rewrite map_map. apply map_ext. intros a. cbn [fst snd]. lia.
Qed.
Lemma prange_step_seq n c : 1 <= c -> 0 <= n -> prange_step 0 (c * (n / c)) c = map (fun i => Z.of_nat i * c) (seq 0 (Z.to_nat (n / c))).
Proof.
  intros Hc Hn. unfold prange_step.
  replace ((c * (n / c) - 0 + c - 1) / c) with (n / c); [reflexivity|].
  replace (c * (n / c) - 0 + c - 1) with (c - 1 + n / c * c) by lia. rewrite Z.div_add by lia. rewrite (Z.div_small (c - 1) c) by lia. lia.
Qed.
Definition good_blocks (n : Z) (bl : list (Z * Z)) : Prop :=
  flat_map (fun b => map (fun j => fst b + j) (zrange 0 (snd b))) bl = zrange 0 n /\
  Forall (fun b => 0 <= fst b /\ 1 <= snd b /\ fst b + snd b <= n) bl.
Lemma blocks_ok n chunk : 2 <= n -> exists bl, blocks n chunk = Ok bl /\ good_blocks n bl.
Proof.
  intros Hn. unfold blocks. set (c := clipZ chunk 1 (n - 1)). assert (Hc : 1 <= c <= n - 1) by (unfold c, clipZ; lia).
  replace (c =? 0) with false by lia. eexists. split; [reflexivity|].
  pose proof (Z.mul_div_le n c ltac:(lia)) as M1. pose proof (Z.mod_pos_bound n c ltac:(lia)) as M2.
  pose proof (Z.div_mod n c ltac:(lia)) as M3. assert (Hq : 0 <= n / c) by (apply Z.div_pos; lia).
  replace (n - (n - c * (n / c))) with (c * (n / c)) by lia.
  rewrite prange_step_seq by lia. rewrite map_map. split.
  - rewrite flat_map_app, flat_steps by lia. rewrite Z2Nat.id by lia.
    destruct (Z.eqb_spec (n - c * (n / c)) 0) as [E|E].
    + cbn [flat_map]. rewrite app_nil_r. f_equal. lia.
    + cbn [flat_map fst snd]. rewrite app_nil_r. replace n with (n / c * c + (n - c * (n / c))) at 4 by lia.
      rewrite zrange_app by lia. f_equal. rewrite Z.add_0_l. unfold zrange. rewrite map_map. apply map_ext. intros a. lia.
  - apply Forall_app. split.
    + apply Forall_forall. intros b Hb. apply in_map_iff in Hb as (i & <- & Hi). apply in_seq in Hi. cbn [fst snd].
      assert (Z.of_nat i + 1 <= n / c) by lia. split; [nia|]. split; [lia|nia].
    + destruct (Z.eqb_spec (n - c * (n / c)) 0) as [E|E]; constructor; [|constructor]. cbn [fst snd]. nia.
Qed.
Lemma blocks_1 chunk : blocks 1 chunk = Err ValueError.
Proof. unfold blocks. replace (clipZ chunk 1 (1 - 1) =? 0) with true by (unfold clipZ; lia). reflexivity. Qed.

Lemma load_block_ok {V} tif (data : vol V) d1 n i len : 0 <= d1 -> d1 + n <= dep data -> 0 <= i -> 0 <= len -> i + len <= n ->
  load_block tif data d1 (i, len) = Ok (map (fun j => vimg data ((if tif then d1 else 0) + (i + j))) (zrange 0 len)).
Proof.
  intros A B C D E. unfold load_block. set (a := if tif then i + d1 else i). assert (Ha : 0 <= a /\ a + len <= dep data) by (unfold a; destruct tif; lia).
  rewrite slen_id, py_adj_id by lia. apply mapr_total. intros j Hj. apply zrange_In in Hj.
  rewrite py_idx_in by lia. cbn [bindr]. do 2 f_equal. unfold a. destruct tif; lia.
Qed.

Lemma fold_put {V} (F : Z -> img V) (d : img V) parts : forall cur,
  Forall (fun p : Z * Z * list (img V) => snd p = map (fun j => F (fst (fst p) + j)) (zrange 0 (snd (fst p)))) parts ->
  forall k, (cur k = F k \/ exists p, In p parts /\ fst (fst p) <= k < fst (fst p) + snd (fst p)) ->
  fold_left (fun cur p => put_block cur (fst (fst p)) (snd (fst p)) (snd p) d) parts cur k = F k.
Proof.
  induction parts as [|p parts IH]; intros cur HF k H; cbn [fold_left].
  - destruct H as [H|(p & [] & _)]. exact H.
  - inversion HF as [|? ? Hp HF' E1]. subst. apply IH; [exact HF'|].
    assert (Hin : fst (fst p) <= k < fst (fst p) + snd (fst p) -> put_block cur (fst (fst p)) (snd (fst p)) (snd p) d k = F k).
    { intros R. unfold put_block. replace ((fst (fst p) <=? k) && (k <? fst (fst p) + snd (fst p))) with true by lia.
      rewrite Hp. rewrite nth_map_zrange by lia. f_equal. lia. }
    destruct H as [H|(q & [<-|Hq] & R)].
    + destruct (Z_lt_ge_dec k (fst (fst p))) as [L|L]; [|destruct (Z_lt_ge_dec k (fst (fst p) + snd (fst p))) as [L2|L2] ].
      * left. unfold put_block. replace ((fst (fst p) <=? k) && (k <? fst (fst p) + snd (fst p))) with false by lia. exact H.
      * left. apply Hin. lia.
      * left. unfold put_block. replace ((fst (fst p) <=? k) && (k <? fst (fst p) + snd (fst p))) with false by lia. exact H.
    + left. apply Hin. exact R.
    + right. exists q. auto.
Qed.
Lemma blocks_hit n bl k : good_blocks n bl -> 0 <= k < n -> exists b, In b bl /\ fst b <= k < fst b + snd b.
Proof.
  intros [E _] Hk. assert (In k (flat_map (fun b => map (fun j => fst b + j) (zrange 0 (snd b))) bl)) by (rewrite E; apply zrange_In; lia).
  apply in_flat_map in H as (b & Hb & H). apply in_map_iff in H as (j & <- & Hj). apply zrange_In in Hj. exists b. split; [exact Hb|lia].
Qed.
Lemma intermediate_ok {V} tif rot (data : vol V) axis c chunk d :
  good_crop (dep data) (hei data) (wid data) c ->
  let d1 := dep data - c_d2 c - c_d1 c in let h1 := hei data - c_h2 c - c_h1 c in let w1 := wid data - c_w2 c - c_w1 c in
  2 <= d1 ->
  exists tmp, save_intermediate tif rot data axis c chunk d =
    Ok (d1, (if axis =? 2 then w1 else h1), (if axis =? 2 then h1 else w1), tmp) /\
  forall k, 0 <= k < d1 ->
    tmp k = let m1 := islice (rot (vimg data ((if tif then c_d1 c else 0) + k))) (c_h1 c) (hei data - c_h2 c) (c_w1 c) (wid data - c_w2 c) in
            if axis =? 2 then itrans m1 else m1.
Proof.
  intros (A1 & A2 & A3 & A4 & A5 & A6 & Hd & Hh & Hw) d1 h1 w1 L. unfold save_intermediate. rewrite cropped_ok by lia. cbn [bindr].
  fold d1 h1 w1. destruct (blocks_ok d1 chunk L) as (bl & -> & HB). cbn [bindr b_d1 b_h1 b_h2 b_w1 b_w2].
  set (F := fun k => let m1 := islice (rot (vimg data ((if tif then c_d1 c else 0) + k))) (c_h1 c) (hei data - c_h2 c) (c_w1 c) (wid data - c_w2 c) in
            if axis =? 2 then itrans m1 else m1).
  rewrite (mapr_total _ (fun b : Z * Z => (b, map (fun j => F (fst b + j)) (zrange 0 (snd b))))).
  2:{ intros [i len] Hb. destruct HB as [_ HB]. rewrite Forall_forall in HB. specialize (HB _ Hb). cbn [fst snd] in HB.
      rewrite (load_block_ok tif data (c_d1 c) d1) by (unfold d1 in *; lia). cbn [bindr fst snd]. rewrite map_map. reflexivity. }
  cbn [bindr]. eexists. split; [reflexivity|]. intros k Hk. transitivity (F k); [|reflexivity]. apply (fold_put F).
  - apply Forall_forall. intros p Hp. apply in_map_iff in Hp as (b & <- & Hb). reflexivity.
  - right. destruct (blocks_hit _ _ k HB Hk) as (b & Hb & R). exists (b, map (fun j => F (fst b + j)) (zrange 0 (snd b))). split; [|exact R].
    apply in_map_iff. exists b. auto.
Qed.
Lemma flat_map_blocks {A} (g : Z -> A) bl :
  flat_map (fun b : Z * Z => map (fun j => g (fst b + j)) (zrange 0 (snd b))) bl = map g (flat_map (fun b => map (fun j => fst b + j) (zrange 0 (snd b))) bl).
Proof.
  induction bl as [|b bl IH]; [reflexivity|]. cbn [flat_map]. rewrite map_app, map_map, IH. reflexivity.
Qed.
Definition same_shape {V} (rot : img V -> img V) : Prop := forall m, nrow (rot m) = nrow m /\ ncol (rot m) = ncol m.
Lemma reslice_ok {V W} tif rot (resc : V -> W) (data : vol V) axis c chunk d :
  same_shape rot -> (axis = 1 \/ axis = 2) -> good_crop (dep data) (hei data) (wid data) c ->
  let d1 := dep data - c_d2 c - c_d1 c in let h1 := hei data - c_h2 c - c_h1 c in let w1 := wid data - c_w2 c - c_w1 c in
  let n := if axis =? 1 then h1 else w1 in
  2 <= d1 -> 2 <= n ->
  exists out, reslice tif rot resc data axis c chunk d = Ok out /\ map fst out = zrange 0 n /\
  forall s m, In (s, m) out -> nrow m = d1 /\ ncol m = (if axis =? 1 then w1 else h1) /\
    forall a k, in_rng (nrow m) a -> in_rng (ncol m) k ->
      px m a k = resc (let im := rot (vimg data ((if tif then c_d1 c else 0) + a)) in
                       if axis =? 1 then px im (c_h1 c + s) (c_w1 c + k) else px im (c_h1 c + k) (c_w1 c + s)).
Proof.
  intros Hrot Hax Hg d1 h1 w1 n L1 L2. unfold reslice.
  replace (negb (axis =? 1) && negb (axis =? 2)) with false by lia.
  destruct (intermediate_ok tif rot data axis c chunk d Hg L1) as (tmp & -> & HT). cbn [bindr]. fold d1 h1 w1.
  assert (En : (if axis =? 2 then w1 else h1) = n) by (unfold n; destruct Hax as [->| ->]; reflexivity). rewrite En.
  destruct (blocks_ok n chunk L2) as (bl & -> & HB). cbn [bindr].
  set (g := fun s => (s, mkimg d1 (if axis =? 2 then h1 else w1) (fun a k => resc (px (tmp a) s k)))).
  eexists. split; [reflexivity|].
  rewrite (flat_map_blocks g). rewrite (proj1 HB). split.
  - rewrite map_map. cbn [g fst]. apply map_id.
  - intros s m Hin. apply in_map_iff in Hin as (s' & E & Hs). unfold g in E. injection E as -> <-. apply zrange_In in Hs. cbn [nrow ncol px].
    split; [reflexivity|]. split; [destruct Hax as [->| ->]; reflexivity|]. unfold in_rng. intros a k Ha Hk. f_equal.
    destruct Hg as (A1 & A2 & A3 & A4 & A5 & A6 & Hd & Hh & Hw).
    rewrite HT by exact Ha. cbn zeta. set (im := rot _).
    assert (Him : nrow im = hei data /\ ncol im = wid data) by (unfold im; apply Hrot).
    destruct Hax as [->| ->]; cbn [Z.eqb Pos.eqb]; unfold itrans, islice; cbn [px]; rewrite !py_adj_id by lia; reflexivity.
Qed.
Lemma reslice_single {V W} tif rot (resc : V -> W) (data : vol V) axis c chunk d :
  (axis = 1 \/ axis = 2) -> good_crop (dep data) (hei data) (wid data) c ->
  dep data - c_d2 c - c_d1 c = 1 \/ (if axis =? 1 then hei data - c_h2 c - c_h1 c else wid data - c_w2 c - c_w1 c) = 1 ->
  reslice tif rot resc data axis c chunk d = Err ValueError.
Proof.
  intros Hax Hg H. unfold reslice. replace (negb (axis =? 1) && negb (axis =? 2)) with false by lia.
  assert (Hd0 : 0 < dep data - c_d2 c - c_d1 c) by (unfold good_crop in Hg; lia).
  destruct (Z.eq_dec (dep data - c_d2 c - c_d1 c) 1) as [E|E].
  - unfold save_intermediate. unfold good_crop in Hg. rewrite cropped_ok by lia. cbn [bindr]. rewrite E, blocks_1. reflexivity.
  - destruct (intermediate_ok tif rot data axis c chunk d Hg ltac:(lia)) as (tmp & -> & _). cbn [bindr].
    destruct H as [H|H]; [lia|]. assert (E2 : (if axis =? 2 then wid data - c_w2 c - c_w1 c else hei data - c_h2 c - c_h1 c) = 1) by (destruct Hax as [->| ->]; exact H).
    rewrite E2, blocks_1. reflexivity.
Qed.

(** ** files *)
Lemma underb_refl d : underb d d = true.
Proof. destruct d; cbn [underb]; [reflexivity|]. destruct (path_eq_dec _ _); congruence. Qed.
Lemma underb_cons d n p : underb d p = true -> underb d (n :: p) = true.
Proof. intros H. cbn [underb]. destruct (path_eq_dec d (n :: p)); [reflexivity|exact H]. Qed.
Lemma lookup_rmtree {C} (f : fs C) d q : lookup (rmtree f d) q = if underb d q then None else lookup f q.
Proof.
  induction f as [|[p nd] f IH]; cbn [rmtree filter lookup fst]; [destruct (underb d q); reflexivity|].
  destruct (underb d p) eqn:U; cbn [negb].
  - unfold rmtree in IH. rewrite IH. destruct (path_eq_dec p q) as [<-|N]; [rewrite U; reflexivity|reflexivity].
  - cbn [lookup]. destruct (path_eq_dec p q) as [<-|N]; [rewrite U; reflexivity|exact IH].
Qed.
Section reslice_files.
  Context {C M : Type} (enc : str -> M -> C) (scale8 : M -> M) (cplx : M -> bool) (pil_ok : str -> bool) (slice : Z -> M).
  (** the paths the call may create, change or delete *)
  Definition claimed (out : path) (order : list Z) (q : path) : Prop :=
    match suffix (pname out) with
    | [] => underb (s_ "tmp_" :: out) q = true \/ exists i, In i order /\ q = out_name i :: out
    | _ => q = out \/ underb (stem (pname out) :: parent out) q = true
    end.
  Definition keeps (P : path -> Prop) (f f' : fs C) : Prop := forall q nd, ~ P q -> lookup f q = Some nd -> lookup f' q = Some nd.
  Lemma keeps_trans P a b c : keeps P a b -> keeps P b c -> keeps P a c.
  Proof. intros H1 H2 q nd N L. apply H2; [exact N|]. apply H1; assumption. Qed.
  Lemma preserved_keeps P a b : preserved a b -> keeps P a b.
  Proof. intros H q nd _ L. apply H. exact L. Qed.
  Lemma keeps_refl P a : keeps P a a.
  Proof. intros q nd _ L. exact L. Qed.
  Lemma write_keeps (P : path -> Prop) a p c b : write_file a p c = Ok b -> P p -> keeps P a b.
  Proof.
    intros H HP q nd N L. apply write_file_ok in H as (-> & _). cbn [lookup]. destruct (path_eq_dec p q) as [->|]; [contradiction|exact L].
  Qed.
  Lemma rmtree_keeps (P : path -> Prop) a d : (forall q, underb d q = true -> P q) -> keeps P a (rmtree a d).
  Proof.
    intros H q nd N L. rewrite lookup_rmtree. destruct (underb d q) eqn:U; [|exact L]. exfalso. apply N, H. exact U.
  Qed.
  Lemma save_states_keep (P : path -> Prop) l : forall f, (forall p i, In (p, i) l -> P p) ->
    Forall (keeps P f) (save_states enc scale8 cplx pil_ok slice f l).
  Proof.
    induction l as [|[p i] l IH]; intros f H; cbn [save_states]; constructor.
    - intros q nd N L. destruct (save_image enc scale8 cplx pil_ok f p (slice i) true) as [f' r] eqn:E. cbn [fst].
      apply (proj1 (save_true_frame _ _ _ _ _ _ _ _ _ E)); [|exact L]. intros [E'|[] ]. apply N. rewrite <- E'. apply (H p i). left. reflexivity.
    - set (f1 := fst (save_image enc scale8 cplx pil_ok f p (slice i) true)).
      assert (K : keeps P f f1).
      { intros q nd N L. unfold f1. destruct (save_image enc scale8 cplx pil_ok f p (slice i) true) as [f' r] eqn:E. cbn [fst].
        apply (proj1 (save_true_frame _ _ _ _ _ _ _ _ _ E)); [|exact L]. intros [E'|[] ]. apply N. rewrite <- E'. apply (H p i). left. reflexivity. }
      eapply Forall_impl; [|apply (IH f1); intros p' i' Hin; apply (H p' i'); right; exact Hin].
      intros g Hg. eapply keeps_trans; [exact K|exact Hg].
  Qed.
  Lemma last_keeps (P : path -> Prop) (f : fs C) l : Forall (keeps P f) l -> keeps P f (last l f).
  Proof.
    intros H. destruct (exists_last (l := f :: l)) as (l' & x & E); [discriminate|].
    induction l as [|a l IH] using rev_ind; [apply keeps_refl|]. rewrite last_last. apply Forall_app in H as [_ H]. inversion H; subst; assumption.
  Qed.
  Lemma cleanup_keeps (P : path -> Prop) (f : fs C) out : (forall q, underb (tmp_folder out) q = true -> P q) ->
    (suffix (pname out) <> [] -> forall q, underb (base_of out) q = true -> P q) ->
    Forall (keeps P f) (cleanup f out).
  Proof.
    intros H1 H2. unfold cleanup. destruct (is_dir f (tmp_folder out)); [|constructor].
    assert (K : keeps P f (rmtree f (tmp_folder out))) by (apply rmtree_keeps; exact H1).
    constructor; [exact K|]. destruct (suffix (pname out)) as [|a t]; [constructor|]. constructor; [|constructor].
    eapply keeps_trans; [exact K|]. apply rmtree_keeps. apply H2. discriminate.
  Qed.
  Lemma reslice_fs_frame f out overwrite tmpc outc order :
    Forall (keeps (claimed out order) f) (reslice_fs enc scale8 cplx pil_ok slice f out overwrite tmpc outc order).
  Proof.
    set (P := claimed out order).
    assert (HT : forall q, underb (tmp_folder out) q = true -> P q).
    { intros q Hq. unfold P, claimed, tmp_folder, base_of in *. destruct (suffix (pname out)); [left; exact Hq|right].
      clear P. revert Hq. generalize (stem (pname out) :: parent out) as b. intros b. induction q as [|n q IH]; cbn [underb].
      - destruct (path_eq_dec _ _); discriminate.
      - destruct (path_eq_dec (s_ "tmp_" :: b) (n :: q)) as [E|N].
        + injection E as _ ->. intros _. destruct (path_eq_dec q (n :: q)); [reflexivity|]. apply underb_refl.
        + intros Hq. destruct (path_eq_dec b (n :: q)); [reflexivity|]. apply IH. exact Hq. }
    unfold reslice_fs. destruct (if overwrite then Ok tt else check_output f out); [|constructor].
    destruct (make_folder f (tmp_folder out)) as [f1 r1] eqn:M1.
    assert (K1 : keeps P f f1) by (apply preserved_keeps; eapply make_folder_preserved; exact M1).
    destruct r1 as [|]; [|constructor; [exact K1|constructor] ].
    destruct (write_file f1 (tmp_file out) tmpc) as [f2|] eqn:W2; [|constructor; [exact K1|constructor] ].
    assert (K2 : keeps P f f2).
    { eapply keeps_trans; [exact K1|]. eapply write_keeps; [exact W2|]. apply HT. apply underb_cons, underb_refl. }
    destruct (suffix (pname out)) as [|ch tl_] eqn:S.
    - constructor; [exact K1|]. constructor; [exact K2|].
      set (l := map (fun i => (out_name i :: out, i)) order).
      assert (HS : Forall (keeps P f2) (save_states enc scale8 cplx pil_ok slice f2 l)).
      { apply save_states_keep. intros p i Hin. apply in_map_iff in Hin as (k & E & Hk). injection E as <- <-.
        unfold P, claimed. rewrite S. right. exists k. auto. }
      apply Forall_app. split.
      + eapply Forall_impl; [|exact HS]. intros g Hg. eapply keeps_trans; [exact K2|exact Hg].
      + eapply Forall_impl; [|apply (cleanup_keeps P); [exact HT|rewrite S; congruence] ].
        intros g Hg. eapply keeps_trans; [exact K2|]. eapply keeps_trans; [apply last_keeps; exact HS|exact Hg].
    - destruct (mkdir_p f2 (parent out)) as [f3|] eqn:M3; [|repeat (constructor; [assumption|]); constructor].
      assert (K3 : keeps P f f3) by (eapply keeps_trans; [exact K2|]; apply preserved_keeps; eapply mkdir_preserved; exact M3).
      destruct (write_file f3 out outc) as [f4|] eqn:W4; [|repeat (constructor; [assumption|]); constructor].
      assert (K4 : keeps P f f4).
      { eapply keeps_trans; [exact K3|]. eapply write_keeps; [exact W4|]. unfold P, claimed. rewrite S. left. reflexivity. }
      repeat (constructor; [assumption|]). eapply Forall_impl; [|apply (cleanup_keeps P); [exact HT|] ].
      + intros g Hg. eapply keeps_trans; [exact K4|exact Hg].
      + intros _ q Hq. unfold P, claimed. unfold base_of in Hq. rewrite S in *. right. exact Hq.
  Qed.
End reslice_files.

(** every entry of the file system lies in an existing folder *)
Definition tree {C} (f : fs C) : Prop := forall n p nd, lookup f (n :: p) = Some nd -> p = [] \/ lookup f p = Some Dir.
Lemma tree_under {C} (f : fs C) d : tree f -> d <> [] -> lookup f d = None -> forall q, underb d q = true -> lookup f q = None.
Proof.
  intros T Hd L. induction q as [|n q IH]; cbn [underb]; destruct (path_eq_dec d _) as [E|N].
  - congruence.
  - discriminate.
  - intros _. rewrite <- E. exact L.
  - intros U. destruct (lookup f (n :: q)) as [nd|] eqn:Q; [|reflexivity]. exfalso. destruct (T _ _ _ Q) as [->|D].
    + cbn [underb] in U. destruct (path_eq_dec d []); [contradiction|discriminate].
    + rewrite IH in D by exact U. discriminate.
Qed.
Lemma reslice_fs_fresh {C M} enc scale8 cplx pil_ok (slice : Z -> M) (f : fs C) out tmpc outc order : tree f -> out <> [] ->
  suffix (pname out) = [] ->
  Forall (preserved f) (reslice_fs enc scale8 cplx pil_ok slice f out false tmpc outc order).
Proof.
  intros T Ho S. destruct (existsb_ f out) eqn:X.
  - unfold reslice_fs, check_output. rewrite S, X. constructor.
  - assert (L : lookup f out = None) by (unfold existsb_ in X; destruct out; [congruence|]; destruct (lookup f _); [discriminate|reflexivity]).
    eapply Forall_impl; [|apply reslice_fs_frame]. intros g Hg q nd Lq. apply Hg; [|exact Lq]. unfold claimed. rewrite S.
    assert (U : forall n, lookup f (n :: out) = None).
    { intros n. apply (tree_under f out T Ho L). apply underb_cons, underb_refl. }
    intros [U1|(i & _ & ->)]; [|rewrite U in Lq; discriminate].
    rewrite (tree_under f (s_ "tmp_" :: out) T ltac:(discriminate) (U _) q U1) in Lq. discriminate.
Qed.
Lemma reslice_fs_hdf {C M} enc scale8 cplx pil_ok (slice : Z -> M) (f : fs C) out overwrite tmpc outc order : tree f ->
  suffix (pname out) <> [] -> lookup f out = None -> lookup f (stem (pname out) :: parent out) = None ->
  Forall (preserved f) (reslice_fs enc scale8 cplx pil_ok slice f out overwrite tmpc outc order).
Proof.
  intros T S L1 L2. eapply Forall_impl; [|apply reslice_fs_frame]. intros g Hg q nd Lq. apply Hg; [|exact Lq]. unfold claimed.
  destruct (suffix (pname out)) eqn:E; [congruence|]. intros [->|U]; [congruence|].
  rewrite (tree_under f (stem (pname out) :: parent out) T ltac:(discriminate) L2 q U) in Lq. discriminate.
Qed.
Lemma stem_neq nm : suffix nm <> [] -> stem nm <> nm.
Proof. intros S E. pose proof (stem_suffix nm) as H. rewrite E in H. apply S. apply (app_inv_head nm). rewrite app_nil_r. exact H. Qed.
Lemma underb_len d q : underb d q = true -> (List.length d <= List.length q)%nat.
Proof.
  induction q as [|n q IH]; cbn [underb].
  - destruct (path_eq_dec d []) as [->|N]; [lia|discriminate].
  - destruct (path_eq_dec d (n :: q)) as [->|N]; [lia|]. intros H. apply IH in H. cbn [List.length]. lia.
Qed.
Lemma reslice_fs_done {C M} enc scale8 cplx pil_ok (slice : Z -> M) (f : fs C) out tmpc outc order :
  suffix (pname out) <> [] -> usable_folder f (tmp_folder out) -> lookup f (tmp_file out) <> Some Dir -> lookup f out <> Some Dir ->
  exists tr fin, reslice_fs enc scale8 cplx pil_ok slice f out true tmpc outc order = tr ++ [fin] /\
    lookup fin out = Some (File outc) /\ forall q, underb (stem (pname out) :: parent out) q = true -> lookup fin q = None.
Proof.
  intros S U HT HO. unfold reslice_fs.
  assert (B : base_of out = stem (pname out) :: parent out) by (unfold base_of; destruct (suffix (pname out)); [congruence|reflexivity]).
  assert (Ho : out = pname out :: parent out) by (destruct out; [cbn in S; congruence|reflexivity]).
  assert (Lo : List.length out = Datatypes.S (List.length (parent out))) by (rewrite Ho at 1; reflexivity).
  destruct (make_folder f (tmp_folder out)) as [f1 r1] eqn:M1.
  assert (D1 : r1 = Ok tt /\ is_dir f1 (tmp_folder out) = true /\ preserved f f1 /\ (forall q, (List.length (tmp_folder out) < List.length q)%nat -> lookup f1 q = lookup f q) /\ (forall q, lookup f q = None -> lookup f1 q = None \/ lookup f1 q = Some Dir)
     /\ (forall q, lookup f1 q <> lookup f q -> underb q (tmp_folder out) = true)).
  { unfold make_folder in M1. change (suffix (pname (tmp_folder out))) with (@nil ascii) in M1. destruct (existsb_ f (tmp_folder out)) eqn:X.
    - assert (f = f1 /\ r1 = Ok tt) as [<- ->] by (split; congruence). split; [reflexivity|]. split; [|split; [apply preserved_refl|split; [reflexivity|split; [auto|congruence] ] ] ].
      unfold existsb_, tmp_folder in X. unfold is_dir, tmp_folder in *. destruct U as [U _]. destruct (lookup f _) as [[c|]|]; [exfalso; eapply U; reflexivity|reflexivity|discriminate].
    - destruct (usable_mkdir _ f U) as (g & Eg). rewrite Eg in M1. assert (g = f1 /\ r1 = Ok tt) as [-> ->] by (split; congruence). split; [reflexivity|].
      split; [eapply mkdir_is_dir; exact Eg|]. split; [eapply mkdir_preserved; exact Eg|]. split; [eapply mkdir_lookup_longer; exact Eg|].
      split; [eapply mkdir_new; exact Eg|]. clear -Eg. revert Eg. generalize f1 as g. generalize (tmp_folder out) as p. induction p as [|n p IH]; intros g; cbn [mkdir_p].
      + intros E; injection E as <-. congruence.
      + destruct (lookup f (n :: p)) as [[c|]|] eqn:L; [discriminate| |].
        * intros E; injection E as <-. congruence.
        * destruct (mkdir_p f p) as [h|] eqn:Eh; cbn [bindr]; [|discriminate]. intros E; injection E as <-. intros q. cbn [lookup].
          destruct (path_eq_dec (n :: p) q) as [<-|N]; [intros _; apply underb_refl|]. intros Hq. apply underb_cons. eapply IH; [reflexivity|exact Hq]. }
  destruct D1 as (-> & D1 & P1 & Lg1 & Nw1 & Ch1).
  unfold tmp_file at 1. rewrite (write_file_can f1 (s_ "file_tmp.hdf") (tmp_folder out) tmpc D1) by (rewrite Lg1 by (cbn [List.length]; lia); exact HT).
  destruct (suffix (pname out)) as [|ch rest] eqn:Sx; [congruence|]. change (s_ "file_tmp.hdf" :: tmp_folder out) with (tmp_file out).
  set (f2 := (tmp_file out, File tmpc) :: f1).
  assert (NT : forall q, (List.length q <= List.length out)%nat -> lookup f2 q = lookup f1 q).
  { intros q Hq. unfold f2. cbn [lookup]. destruct (path_eq_dec (tmp_file out) q) as [<-|]; [|reflexivity].
    exfalso. unfold tmp_file, tmp_folder in Hq. rewrite B in Hq. cbn [List.length] in Hq. lia. }
  assert (NO : lookup f2 out <> Some Dir).
  { rewrite NT by lia. destruct (lookup f out) as [nd|] eqn:Lf.
    - rewrite (P1 _ _ Lf). congruence.
    - intros E. assert (Hc : underb out (tmp_folder out) = true) by (apply Ch1; congruence).
      unfold tmp_folder in Hc. rewrite B in Hc. cbn [underb] in Hc.
      destruct (path_eq_dec out (s_ "tmp_" :: stem (pname out) :: parent out)) as [E2|_].
      { apply (f_equal (@List.length str)) in E2. cbn [List.length] in E2. lia. }
      destruct (path_eq_dec out (stem (pname out) :: parent out)) as [E2|_].
      { rewrite Ho in E2 at 1. injection E2 as E2. apply (stem_neq (pname out)); congruence. }
      apply underb_len in Hc. lia. }
  assert (Up : usable_folder f2 (parent out)).
  { assert (U0 : usable_folder f (parent out)) by (unfold tmp_folder in U; rewrite B in U; apply U).
    assert (G : forall p, (List.length p <= List.length (parent out))%nat -> usable_folder f p -> usable_folder f2 p).
    { induction p as [|n p IH]; [exact (fun _ _ => I)|]. intros Hl [H1 H2]. split; [|apply IH; [cbn [List.length] in Hl; lia|exact H2] ].
      intros c. rewrite NT by lia. destruct (lookup f (n :: p)) as [nd|] eqn:Lf; [rewrite (P1 _ _ Lf); apply H1|].
      destruct (Nw1 _ Lf) as [-> | ->]; discriminate. }
    apply G; [lia|exact U0]. }
  destruct (usable_mkdir _ _ Up) as (f3 & E3). change ((tmp_file out, File tmpc) :: f1) with f2. rewrite E3.
  assert (L3 : forall q, (List.length (parent out) < List.length q)%nat -> lookup f3 q = lookup f2 q) by (apply mkdir_lookup_longer; exact E3).
  assert (W : write_file f3 out outc = Ok ((out, File outc) :: f3)).
  { rewrite Ho at 1. rewrite write_file_can; [rewrite <- Ho; reflexivity|eapply mkdir_is_dir; exact E3|]. rewrite <- Ho. rewrite L3 by lia. exact NO. }
  rewrite W. set (f4 := (out, File outc) :: f3).
  assert (D4 : is_dir f4 (tmp_folder out) = true).
  { unfold is_dir, tmp_folder. fold (tmp_folder out). change (s_ "tmp_" :: base_of out) with (tmp_folder out). unfold f4. cbn [lookup].
    assert (Lt : List.length (tmp_folder out) = Datatypes.S (List.length out)) by (unfold tmp_folder; rewrite B; cbn [List.length]; lia).
    destruct (path_eq_dec out (tmp_folder out)) as [E|_]; [apply (f_equal (@List.length str)) in E; lia|].
    rewrite L3 by lia. unfold f2. cbn [lookup]. destruct (path_eq_dec (tmp_file out) (tmp_folder out)) as [E|_].
    { apply (f_equal (@List.length str)) in E. unfold tmp_file in E. cbn [List.length] in E. lia. }
    unfold is_dir, tmp_folder in D1. unfold tmp_folder. exact D1. }
  unfold cleanup. rewrite D4, Sx. set (f5 := rmtree f4 (tmp_folder out)).
  exists [f1; f2; f3; f4; f5], (rmtree f5 (base_of out)). split; [reflexivity|]. rewrite B.
  assert (NU : underb (stem (pname out) :: parent out) out = false).
  { destruct (underb _ out) eqn:Eu; [|reflexivity]. rewrite Ho in Eu at 3. cbn [underb] in Eu.
    destruct (path_eq_dec (stem (pname out) :: parent out) (pname out :: parent out)) as [E|_].
    - injection E as E. exfalso. apply (stem_neq (pname out)); congruence.
    - apply underb_len in Eu. cbn [List.length] in Eu. lia. }
  split.
  - rewrite lookup_rmtree, NU. unfold f5. rewrite lookup_rmtree.
    assert (NU2 : underb (tmp_folder out) out = false).
    { destruct (underb (tmp_folder out) out) eqn:Eu; [|reflexivity]. apply underb_len in Eu. unfold tmp_folder in Eu. rewrite B in Eu. cbn [List.length] in Eu. lia. }
    rewrite NU2. unfold f4. cbn [lookup]. destruct (path_eq_dec out out); [reflexivity|congruence].
  - intros q Hq. rewrite lookup_rmtree, Hq. reflexivity.
Qed.
Lemma out_name_written i : 0 <= i < 100000 -> exists ds, written 5 (Z.to_N i) ds /\ out_name i = s_ "img_" ++ ds ++ s_ ".tif".
Proof.
  intros Hi. exists (lastn 5 (s_ "0000" ++ str_Z i)). split; [|reflexivity]. unfold str_Z. replace (i <? 0) with false by lia.
  replace (lastn 5 (s_ "0000" ++ dec (Z.to_N i))) with (lastn 5 (s_ "00000" ++ dec (Z.to_N i))); [apply last5_written; lia|].
  change (s_ "00000" ++ dec (Z.to_N i)) with ("0"%char :: (s_ "0000" ++ dec (Z.to_N i))). set (s := s_ "0000" ++ dec (Z.to_N i)).
  assert (Ls : (5 <= List.length s)%nat).
  { unfold s. rewrite app_length. pose proof (dec_fuel_nonnil (S (N.size_nat (Z.to_N i))) (Z.to_N i) ltac:(lia)) as N.
    fold (dec (Z.to_N i)) in N. destruct (dec (Z.to_N i)); [congruence|]. cbn [List.length]. change (List.length (s_ "0000")) with 4%nat. lia. }
  unfold lastn. cbn [List.length]. replace (S (List.length s) - 5)%nat with (S (List.length s - 5))%nat by lia. reflexivity.
Qed.
