(** Further proofs about the loaders: Python slices, whole stacks, field checks (C09, C12-C14). *)
From Verif Require Import Np P_Np M_io_load S_io_load P_io_load.
From Coq Require Import QArith Sorted.
From Coq Require Import List. Import ListNotations.
Open Scope Z_scope.

(** lists sorted for a strict order are determined by their elements *)
Lemma strict_unique (R : Z -> Z -> Prop) : (forall x, ~ R x x) -> (forall x y, R x y -> R y x -> False) ->
  forall l1 l2, StronglySorted R l1 -> StronglySorted R l2 -> (forall x, In x l1 <-> In x l2) -> l1 = l2.
Proof.
  intros Irr Asym. induction l1 as [|a t IH]; intros l2 S1 S2 E.
  { destruct l2 as [|b u]; [reflexivity|]. destruct (proj2 (E b) (or_introl eq_refl)). }
  destruct l2 as [|b u]; [destruct (proj1 (E a) (or_introl eq_refl))|].
  apply StronglySorted_inv in S1 as [S1 F1]. apply StronglySorted_inv in S2 as [S2 F2].
  rewrite Forall_forall in F1, F2.
  assert (a = b).
  { destruct (proj1 (E a) (or_introl eq_refl)) as [->|Ha]; [reflexivity|].
    destruct (proj2 (E b) (or_introl eq_refl)) as [->|Hb]; [reflexivity|].
    destruct (Asym a b (F1 _ Hb) (F2 _ Ha)). }
  subst b. f_equal. apply IH; [assumption..|]. intros x. split; intros Hx.
  - destruct (proj1 (E x) (or_intror Hx)) as [->|]; [|assumption]. destruct (Irr x (F1 _ Hx)).
  - destruct (proj2 (E x) (or_intror Hx)) as [->|]; [|assumption]. destruct (Irr x (F2 _ Hx)).
Qed.
Lemma sorted_filter (R : Z -> Z -> Prop) P l : StronglySorted R l -> StronglySorted R (filter P l).
Proof.
  induction 1 as [|a t S IH F]; cbn; [constructor|]. destruct (P a); [|assumption].
  constructor; [assumption|]. rewrite Forall_forall in *. intros x Hx. apply filter_In in Hx. apply F. tauto.
Qed.
Lemma sorted_steps (a step : Z) (R : Z -> Z -> Prop) : (forall i j : nat, (i < j)%nat -> R (a + Z.of_nat i * step) (a + Z.of_nat j * step)) ->
  forall n m, StronglySorted R (map (fun k => a + Z.of_nat k * step) (seq m n)).
Proof.
  intros H. induction n as [|n IH]; intros m; cbn; [constructor|]. constructor; [apply IH|].
  rewrite Forall_forall. intros x Hx. apply in_map_iff in Hx as (k & <- & Hk). apply in_seq in Hk. apply H. lia.
Qed.
Lemma sorted_zrange a n : StronglySorted Z.lt (zrange a n).
Proof.
  unfold zrange. erewrite map_ext; [apply (sorted_steps a 1 Z.lt)|]; [intros; lia|]. intros; cbn; lia.
Qed.
Lemma sorted_rev l : StronglySorted Z.lt l -> StronglySorted Z.gt (rev l).
Proof.
  induction 1 as [|a t S IH F]; cbn; [constructor|].
  rewrite Forall_forall in F.
  assert (G : forall x, In x (rev t) -> a < x) by (intros x Hx; apply F, in_rev; assumption).
  clear -IH G. induction IH as [|b u S IH F]; cbn; [repeat constructor|].
  constructor; [apply IH; intros; apply G; right; assumption|].
  rewrite Forall_forall in *. intros x Hx. apply in_app_or in Hx as [Hx|[<-|[] ] ]; [auto|].
  specialize (G b (or_introl eq_refl)). lia.
Qed.
Lemma in_steps a step cnt x :
  In x (map (fun k => a + Z.of_nat k * step) (seq 0 (Z.to_nat cnt))) <-> exists k, 0 <= k < cnt /\ x = a + k * step.
Proof.
  rewrite in_map_iff. split.
  - intros (k & <- & Hk). apply in_seq in Hk. exists (Z.of_nat k). lia.
  - intros (k & Hk & ->). exists (Z.to_nat k). rewrite Z2Nat.id by lia. split; [reflexivity|]. apply in_seq. lia.
Qed.

Lemma slice_positions n s : 0 <= n -> s_step s <> Some 0 -> slice_list n s = Ok (np_positions n s).
Proof.
  intros Hn Hs. unfold slice_list, np_positions.
  set (step := match s_step s with None => 1 | Some k => k end) in *.
  assert (St : step <> 0) by (unfold step; destruct (s_step s); [congruence|lia]).
  destruct (Z.eqb_spec step 0); [congruence|]. f_equal.
  destruct (Z.ltb_spec step 0) as [Neg|Pos].
  - destruct (Z.ltb_spec 0 step); [lia|].
    apply (strict_unique Z.gt); [intros; lia|intros; lia| | |].
    + apply sorted_steps. intros i j Hij. nia.
    + apply sorted_filter, sorted_rev, sorted_zrange.
    + intros x. rewrite in_steps, filter_In, <- in_rev, zrange_In. rewrite !andb_true_iff.
      set (lo := match s_start s with None => _ | Some a => _ end).
      set (hi := match s_stop s with None => _ | Some b => _ end).
      set (lo' := match s_start s with None => n - 1 | Some a => Z.min (n - 1) _ end).
      set (hi' := match s_stop s with None => -1 | Some b => _ end).
      assert (L1 : lo = lo' \/ (lo = -1 /\ lo' < 0)).
      { unfold lo, lo'. destruct (s_start s) as [a|]; [|left; reflexivity]. unfold wrap. destruct (Z.ltb_spec a 0); lia. }
      assert (L2 : lo <= n - 1).
      { unfold lo. destruct (s_start s) as [a|]; [|lia]. destruct (Z.ltb_spec a 0); lia. }
      assert (H2 : forall x, 0 <= x < n -> (hi < x <-> hi' < x)).
      { intros y Hy. unfold hi, hi'. destruct (s_stop s) as [a|]; [|tauto]. unfold wrap. destruct (Z.ltb_spec a 0); lia. }
      assert (H3 : -1 <= hi).
      { unfold hi. destruct (s_stop s) as [a|]; [|lia]. destruct (Z.ltb_spec a 0); lia. }
      clearbody lo hi lo' hi'. rewrite Z.leb_le, Z.ltb_lt, Z.eqb_eq.
      assert (C : forall k, k < (lo - hi + - step - 1) / - step <-> hi < lo + k * step).
      { intros k. pose proof (Z.div_mod (lo - hi + - step - 1) (- step) ltac:(lia)).
        pose proof (Z.mod_pos_bound (lo - hi + - step - 1) (- step) ltac:(lia)). nia. }
      split.
      * intros (k & Hk & ->). pose proof (proj1 (C k) ltac:(lia)) as Ck.
        assert (0 <= lo + k * step < n) by nia. split; [lia|].
        assert (lo = lo') by nia. subst lo'. rewrite <- (H2 (lo + k * step)) by lia.
        split; [split; [nia|exact Ck]|]. replace (lo - (lo + k * step)) with (k * - step) by lia. apply Z_mod_mult.
      * intros [Hx [[E1 E2] E3] ]. assert (lo = lo') by lia. subst lo'.
        apply Z_div_exact_full_2 in E3; [|lia]. exists ((lo - x) / - step).
        assert (0 <= (lo - x) / - step) by (apply Z.div_pos; lia).
        rewrite C. apply (H2 x) in E2; [|lia]. split; [|lia]. split; [lia|]. lia.
  - destruct (Z.ltb_spec 0 step); [|lia].
    apply (strict_unique Z.lt); [intros; lia|intros; lia| | |].
    + apply sorted_steps. intros i j Hij. nia.
    + apply sorted_filter, sorted_zrange.
    + intros x. rewrite in_steps, filter_In, zrange_In. rewrite !andb_true_iff.
      set (lo := match s_start s with None => _ | Some a => _ end).
      set (hi := match s_stop s with None => _ | Some b => _ end).
      set (lo' := match s_start s with None => 0 | Some a => Z.max 0 _ end).
      set (hi' := match s_stop s with None => n | Some b => wrap n b end).
      assert (L1 : lo = lo' \/ (lo = n /\ n <= lo')).
      { unfold lo, lo'. destruct (s_start s) as [a|]; [|left; reflexivity]. unfold wrap. destruct (Z.ltb_spec a 0); lia. }
      assert (L2 : 0 <= lo).
      { unfold lo. destruct (s_start s) as [a|]; [|lia]. destruct (Z.ltb_spec a 0); lia. }
      assert (H2 : forall x, 0 <= x < n -> (x < hi <-> x < hi')).
      { intros y Hy. unfold hi, hi'. destruct (s_stop s) as [a|]; [|tauto]. unfold wrap. destruct (Z.ltb_spec a 0); lia. }
      assert (H3 : hi <= n).
      { unfold hi. destruct (s_stop s) as [a|]; [|lia]. destruct (Z.ltb_spec a 0); lia. }
      clearbody lo hi lo' hi'. rewrite Z.leb_le, Z.ltb_lt, Z.eqb_eq.
      assert (C : forall k, k < (hi - lo + step - 1) / step <-> lo + k * step < hi).
      { intros k. pose proof (Z.div_mod (hi - lo + step - 1) step ltac:(lia)).
        pose proof (Z.mod_pos_bound (hi - lo + step - 1) step ltac:(lia)). nia. }
      split.
      * intros (k & Hk & ->). pose proof (proj1 (C k) ltac:(lia)) as Ck.
        assert (0 <= lo + k * step < n) by nia. split; [lia|].
        assert (lo = lo') by nia. subst lo'. rewrite <- (H2 (lo + k * step)) by lia.
        split; [split; [nia|exact Ck]|]. replace (lo + k * step - lo) with (k * step) by lia. apply Z_mod_mult.
      * intros [Hx [[E1 E2] E3] ]. assert (lo = lo') by lia. subst lo'.
        apply Z_div_exact_full_2 in E3; [|lia]. exists ((x - lo) / step).
        assert (0 <= (x - lo) / step) by (apply Z.div_pos; lia).
        rewrite C. apply (H2 x) in E2; [|lia]. split; [|lia]. split; [lia|]. lia.
Qed.
Lemma slice_step_zero n a b : slice_list n (mkslice a b (Some 0)) = Err ValueError.
Proof. reflexivity. Qed.

(** ** get_tif_stack on the whole folder *)
Lemma tif_stack_all f0 fs n F D ct cb cl cr u :
  let files := f0 :: fs in
  (forall x, In x files -> nrow x = nrow f0 /\ ncol x = ncol f0) ->
  0 <= ct -> 0 <= cb -> 0 <= cl -> 0 <= cr ->
  ct + cb < nrow f0 -> cl + cr < ncol f0 -> nrow f0 <> 3 ->
  nrow F = nrow f0 -> ncol F = ncol f0 -> nrow D = nrow f0 -> ncol D = ncol f0 ->
  n = Z.of_nat (length files) ->
  exists v den,
    get_tif_stack files None (ct, cb, cl, cr) (Some (A2 F)) (Some (A2 D)) u false = Ok v /\
    dep v = match u with None => n | Some u => Z.max 1 (Z.min u n) end /\
    hei v = nrow f0 - ct - cb /\ wid v = ncol f0 - cl - cr /\
    (forall i j, ~ (px F (ct + i) (cl + j) - px D (ct + i) (cl + j) == 0)%Q ->
       (den i j == px F (ct + i) (cl + j) - px D (ct + i) (cl + j))%Q) /\
    (forall i j, (px F (ct + i) (cl + j) - px D (ct + i) (cl + j) == 0)%Q ->
       (den i j == qmean2 (hei v) (wid v) (fun i j => px F (ct + i) (cl + j) - px D (ct + i) (cl + j)))%Q) /\
    forall k m, Z.of_nat k < dep v -> nth_error files k = Some m ->
    forall i j, 0 <= i < hei v -> 0 <= j < wid v ->
      (vx v (Z.of_nat k) i j == (px m (ct + i) (cl + j) - px D (ct + i) (cl + j)) / den i j)%Q.
Proof.
  intros files Sh H1 H2 H3 H4 H5 H6 N3 F1 F2 D1 D2 Hn. unfold get_tif_stack, files.
  set (fl := f0 :: fs). fold files in fl. fold fl. unfold fl. rewrite <- Hn.
  cbn [bindr].
  destruct ((nrow f0 - cb - ct <? 1) || (ncol f0 - cr - cl <? 1)) eqn:E; [lia|].
  unfold check_field_opt. rewrite !check_field_2d by (try assumption; congruence). cbn [bindr].
  set (fd := fix_zero _).
  set (nuse := match u with None => n | Some u0 => clipZ u0 1 n end).
  assert (N1 : 1 <= n) by (rewrite Hn; unfold files; cbn [length]; lia).
  assert (Nu : nuse = match u with None => n | Some u => Z.max 1 (Z.min u n) end).
  { unfold nuse, clipZ. destruct u; lia. }
  exists (mkvol (Z.of_nat (length (map (fun m => img_div (img_sub (crop_img m ct (nrow f0 - cb) cl (ncol f0 - cr))
      (crop_img D ct (nrow f0 - cb) cl (ncol f0 - cr))) fd) (firstn (Z.to_nat nuse) files))))
    (slen (nrow f0) ct (nrow f0 - cb)) (slen (ncol f0) cl (ncol f0 - cr))
    (fun k i j => px (nth (Z.to_nat k) (map (fun m => img_div (img_sub (crop_img m ct (nrow f0 - cb) cl (ncol f0 - cr))
      (crop_img D ct (nrow f0 - cb) cl (ncol f0 - cr))) fd) (firstn (Z.to_nat nuse) files)) f0) i j)).
  exists (px fd).
  split; [reflexivity|]. cbn [dep hei wid vx].
  rewrite map_length, firstn_length.
  assert (Len : Z.of_nat (Init.Nat.min (Z.to_nat nuse) (length files)) = nuse).
  { assert (nuse <= n) by (rewrite Nu; destruct u; lia). assert (0 <= nuse) by (rewrite Nu; destruct u; lia). lia. }
  rewrite Len. split; [exact Nu|]. rewrite !slen_id by lia. split; [lia|]. split; [lia|].
  assert (Vd : forall i j, px (img_sub (crop_img F ct (nrow f0 - cb) cl (ncol f0 - cr))
                         (crop_img D ct (nrow f0 - cb) cl (ncol f0 - cr))) i j
               = (px F (ct + i) (cl + j) - px D (ct + i) (cl + j))%Q).
  { intros i j. unfold img_sub, crop_img. cbn [px islice]. rewrite !py_adj_id by lia. reflexivity. }
  split; [|split].
  - intros i j Nz. unfold fd. rewrite fix_zero_keeps; rewrite Vd; [reflexivity|exact Nz].
  - intros i j Zr. unfold fd, fix_zero. cbn [px imap].
    assert (Qz : Qzerob (px (img_sub (crop_img F ct (nrow f0 - cb) cl (ncol f0 - cr))
                         (crop_img D ct (nrow f0 - cb) cl (ncol f0 - cr))) i j) = true).
    { rewrite Vd. unfold Qeq in Zr. cbn in Zr. unfold Qzerob. apply Z.eqb_eq. cbn. lia. }
    rewrite Qz. set (g := img_sub _ _) in *.
    assert (G1 : nrow g = nrow f0 - cb - ct) by (unfold g, img_sub, crop_img; cbn [nrow islice]; apply slen_id; lia).
    assert (G2 : ncol g = ncol f0 - cr - cl) by (unfold g, img_sub, crop_img; cbn [ncol islice]; apply slen_id; lia).
    rewrite G1, G2. unfold qmean2, qsum2. apply Qmult_comp; [|reflexivity].
    apply qsum_ext. intros i' _. apply qsum_ext. intros j' _. rewrite Vd. reflexivity.
  - intros k m Hk Hm i j Hi Hj.
    rewrite Nat2Z.id.
    assert (Hf : nth_error (firstn (Z.to_nat nuse) files) k = Some m).
    { rewrite <- (firstn_skipn (Z.to_nat nuse) files) in Hm. rewrite nth_error_app1 in Hm; [exact Hm|].
      rewrite firstn_length. lia. }
    erewrite nth_indep with (d' := (fun m => img_div (img_sub (crop_img m ct (nrow f0 - cb) cl (ncol f0 - cr))
      (crop_img D ct (nrow f0 - cb) cl (ncol f0 - cr))) fd) m).
    2:{ rewrite map_length. apply nth_error_Some. rewrite Hf. discriminate. }
    rewrite (map_nth (fun m => img_div (img_sub (crop_img m ct (nrow f0 - cb) cl (ncol f0 - cr))
      (crop_img D ct (nrow f0 - cb) cl (ncol f0 - cr))) fd)). rewrite (nth_error_nth _ _ _ Hf).
    unfold img_div, img_sub, crop_img. cbn [px islice].
    pose proof (Sh m (nth_error_In _ _ Hm)) as [S1 S2].
    rewrite !py_adj_id by lia. reflexivity.
Qed.

(** a flat or dark field of another shape is rejected *)
Lemma tif_stack_bad_field f0 fs idx crop F D u z :
  (nrow F <> nrow f0 \/ ncol F <> ncol f0 \/ nrow D <> nrow f0 \/ ncol D <> ncol f0) ->
  is_ok (get_tif_stack (f0 :: fs) idx crop (Some (A2 F)) (Some (A2 D)) u z) = false.
Proof.
  intros H. unfold get_tif_stack.
  destruct (match idx with None => _ | Some i => _ end) as [i0|e]; cbn [bindr]; [|reflexivity].
  destruct crop as [[[ct cb] cl] cr].
  destruct ((_ <? 1) || _); [reflexivity|]. unfold check_field_opt.
  assert (R : forall m h w, nrow m <> h \/ ncol m <> w -> is_ok (check_field (A2 m) h w) = false).
  { intros m h w Hm. unfold check_field. cbn [nd_len nd_mean0].
    destruct (nrow m =? 3); cbn [bindr]; [reflexivity|].
    destruct (Z.eqb_spec (nrow m) h), (Z.eqb_spec (ncol m) w); cbn; try reflexivity. tauto. }
  destruct H as [H|[H|[H|H] ] ];
  (destruct (check_field (A2 F) (nrow f0) (ncol f0)) as [a|] eqn:EF; cbn [bindr]; [|reflexivity];
   destruct (check_field (A2 D) (nrow f0) (ncol f0)) as [b|] eqn:ED; cbn [bindr]; [|reflexivity]).
  1,2: pose proof (R F (nrow f0) (ncol f0) ltac:(tauto)) as X; rewrite EF in X; discriminate.
  all: pose proof (R D (nrow f0) (ncol f0) ltac:(tauto)) as X; rewrite ED in X; discriminate.
Qed.
