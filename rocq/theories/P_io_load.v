From Verif Require Import Np P_Np M_io_load S_io_load.
From Coq Require Import QArith Qfield Lqa Permutation.
Open Scope Z_scope.
Ltac Zify.zify_post_hook ::= Z.div_mod_to_equations.

Lemma lget_nat {A} (l : list A) i a : lget l i = Ok a ->
  exists k, (k < length l)%nat /\ nth_error l k = Some a /\ py_idx (Z.of_nat (length l)) i = Ok (Z.of_nat k).
Proof.
  unfold lget. destruct (py_idx (Z.of_nat (length l)) i) as [k|] eqn:E; cbn; [|discriminate].
  destruct (nth_error l (Z.to_nat k)) as [b|] eqn:N; [|discriminate]. intros H; injection H as ->.
  apply py_idx_ok in E as [B _]. exists (Z.to_nat k). rewrite Z2Nat.id by lia.
  split; [lia|]. split; [exact N|reflexivity].
Qed.
Lemma lget_in {A} (l : list A) i : 0 <= i < Z.of_nat (length l) ->
  exists a, nth_error l (Z.to_nat i) = Some a /\ lget l i = Ok a.
Proof.
  intros H. destruct (nth_error l (Z.to_nat i)) as [a|] eqn:E.
  - exists a. split; [reflexivity|]. unfold lget. rewrite py_idx_in by lia. cbn. rewrite E. reflexivity.
  - apply nth_error_None in E. lia.
Qed.

(** ** C09 *)
Lemma slice_list_range n s l : 0 <= n -> slice_list n s = Ok l -> forall k, In k l -> 0 <= k < n.
Proof.
  intros Hn. unfold slice_list.
  set (step := match s_step s with None => 1 | Some k => k end). clearbody step.
  destruct (Z.eqb_spec step 0) as [|Hs]; [discriminate|].
  set (bound := fun (o : option Z) (dflt : Z) => match o with None => dflt | Some x =>
       if x <? 0 then Z.max (x + n) (if step <? 0 then -1 else 0)
       else Z.min x (if step <? 0 then n - 1 else n) end).
  cbv zeta. intros H; injection H as <-. intros k Hk. apply in_map_iff in Hk as (j & <- & Hj).
  apply in_seq in Hj as [_ Hj]. cbn [Nat.add] in Hj.
  destruct (Z.ltb_spec step 0) as [Ng|Ps].
  - assert (B1 : bound (s_start s) (n - 1) <= n - 1).
    { unfold bound. destruct (s_start s) as [x|]; [|lia]. destruct (x <? 0) eqn:X; lia. }
    assert (B2 : -1 <= bound (s_stop s) (-1)).
    { unfold bound. destruct (s_stop s) as [x|]; [|lia]. destruct (x <? 0) eqn:X; lia. }
    unfold bound in B1, B2.
    match goal with |- context [?st + Z.of_nat j * step] => set (a := st) in * end.
    match type of Hj with context [a - ?sp] => set (b := sp) in * end.
    assert (J : Z.of_nat j + 1 <= (a - b + - step - 1) / - step) by lia.
    pose proof (Z.mul_div_le (a - b + - step - 1) (- step) ltac:(lia)). nia.
  - assert (B1 : 0 <= bound (s_start s) 0).
    { unfold bound. destruct (s_start s) as [x|]; [|lia]. destruct (x <? 0) eqn:X; lia. }
    assert (B2 : bound (s_stop s) n <= n).
    { unfold bound. destruct (s_stop s) as [x|]; [|lia]. destruct (x <? 0) eqn:X; lia. }
    unfold bound in B1, B2.
    match goal with |- context [?st + Z.of_nat j * step] => set (a := st) in * end.
    match type of Hj with context [?sp - a] => set (b := sp) in * end.
    assert (J : Z.of_nat j + 1 <= (b - a + step - 1) / step) by lia.
    pose proof (Z.mul_div_le (b - a + step - 1) step ltac:(lia)). nia.
Qed.
Lemma slice_full n : 0 <= n -> slice_list n (mkslice None None None) = Ok (zrange 0 n).
Proof.
  intros H. unfold slice_list, zrange. cbn [s_step s_start s_stop].
  change (1 =? 0) with false. change (1 <? 0) with false. cbv iota.
  replace ((n - 0 + 1 - 1) / 1) with n by (rewrite Z.div_1_r; lia).
  f_equal. apply map_ext. intros; lia.
Qed.
Lemma whole_eq {V} (m : img V) (a : vol V) k :
  nrow m = hei a -> ncol m = wid a -> (forall i j, px m i j = vx a k i j) ->
  whole m = NL (map (fun i => NL (map (fun j => Scal (vx a k i j)) (zrange 0 (wid a)))) (zrange 0 (hei a))).
Proof.
  intros H1 H2 H3. unfold whole. rewrite H1, H2. f_equal. apply map_ext. intros i. f_equal.
  apply map_ext. intros j. rewrite H3. reflexivity.
Qed.
Lemma lget_files {V} (files : list (img V)) (a : vol V) k : stacked files a -> 0 <= k < dep a ->
  exists m, lget files k = Ok m /\ nrow m = hei a /\ ncol m = wid a /\
    forall i j, px m i j = vx a k i j.
Proof.
  intros (D & _ & _ & S) Hk. destruct (lget_in files k ltac:(lia)) as (m & N & E).
  exists m. split; [exact E|]. destruct (S _ _ N) as (A & B & C). rewrite Z2Nat.id in C by lia. auto.
Qed.
Lemma mapr_files {V W} (files : list (img V)) (a : vol V) l (g : img V -> W) (h : Z -> W) :
  stacked files a -> (forall k, In k l -> 0 <= k < dep a) ->
  (forall k m, 0 <= k < dep a -> lget files k = Ok m -> g m = h k) ->
  exists ims, mapr (lget files) l = Ok ims /\ map g ims = map h l.
Proof.
  intros S R G. induction l as [|k l IH]; [exists []; split; reflexivity|].
  destruct IH as (ims & E & M); [intros; apply R; right; assumption|].
  destruct (lget_files files a k S (R k (or_introl eq_refl))) as (m & Em & _).
  exists (m :: ims). cbn [mapr map]. rewrite Em. cbn [bindr]. rewrite E. cbn [bindr].
  split; [reflexivity|]. rewrite M, (G k m (R k (or_introl eq_refl)) Em). reflexivity.
Qed.
Lemma img_index_eq {V} (m : img V) (a : vol V) k y x :
  nrow m = hei a -> ncol m = wid a -> (forall i j, px m i j = vx a k i j) ->
  img_index m y x = do sy <- select (hei a) y; do sx <- select (wid a) x;
    Ok (sel_map sy (fun i => sel_map sx (fun j => Scal (vx a k i j)))).
Proof.
  intros H1 H2 H3. unfold img_index. rewrite H1, H2.
  destruct (select (hei a) y) as [sy|]; [|reflexivity]. cbn [bindr].
  destruct (select (wid a) x) as [sx|]; [|reflexivity]. cbn [bindr]. f_equal.
  assert (G : forall (s : sel) (f g : Z -> nd V), (forall i, f i = g i) -> sel_map s f = sel_map s g).
  { intros s f g E. destruct s as [k0|l]; cbn; [apply E|]. f_equal. apply map_ext, E. }
  apply G. intros i. apply G. intros j. rewrite H3. reflexivity.
Qed.

Definition empty_first_axis (n : Z) (ix : emu_index) : Prop :=
  match ix with
  | ESlice s => slice_list n s = Ok []
  | ETuple (ISlice s :: _) => slice_list n s = Ok []
  | _ => False
  end.
Definition plain_index (ix : emu_index) : Prop :=
  match ix with ETuple [_; _; _] | EInt _ | ESlice _ => True | _ => False end.

Lemma emu_matches_numpy {V} (files : list (img V)) (a : vol V) ix :
  stacked files a -> plain_index ix -> ~ empty_first_axis (dep a) ix ->
  emu_get files ix = np_get a ix.
Proof.
  intros S P E. pose proof S as (D & Hh & Hw & _).
  assert (Fh : select (hei a) full = Ok (SL (zrange 0 (hei a))))
    by (unfold select, full; rewrite slice_full by lia; reflexivity).
  assert (Fw : select (wid a) full = Ok (SL (zrange 0 (wid a))))
    by (unfold select, full; rewrite slice_full by lia; reflexivity).
  unfold emu_get, np_get. rewrite <- D in *. destruct ix as [i|s|[|z [|y [|x [|]]]]]; try (destruct P; fail).
  - unfold vol_index. rewrite Fh, Fw. cbn [bindr select].
    unfold lget. rewrite <- D. destruct (py_idx (dep a) i) as [k|] eqn:K; [|reflexivity]. cbn [bindr].
    apply py_idx_ok in K as [K _]. destruct (lget_files files a k S K) as (m & Em & A & B & C).
    unfold lget in Em. rewrite py_idx_in in Em by lia. cbn [bindr] in Em.
    destruct (nth_error files (Z.to_nat k)); [|discriminate]. injection Em as ->. cbn [bindr sel_map].
    f_equal. apply whole_eq; assumption.
  - unfold vol_index. cbn [select]. destruct (slice_list (dep a) s) as [l|] eqn:L; [|reflexivity]. cbn [bindr].
    rewrite Fh, Fw. cbn [bindr].
    destruct (mapr_files files a l whole (fun k => NL (map (fun i => NL (map (fun j => Scal (vx a k i j))
                (zrange 0 (wid a)))) (zrange 0 (hei a)))) S) as (ims & Ei & Mi).
    { eapply slice_list_range; [|exact L]. lia. }
    { intros k m Hk Em. destruct (lget_files files a k S Hk) as (m' & Em' & A & B & C).
      rewrite Em in Em'. injection Em' as <-. apply whole_eq; assumption. }
    rewrite Ei. cbn [bindr sel_map]. rewrite Mi. destruct l as [|k l]; [exfalso; apply E; exact L|].
    reflexivity.
  - unfold vol_index. destruct z as [i|s].
    + cbn [select]. unfold lget. rewrite <- D.
      destruct (py_idx (dep a) i) as [k|] eqn:K; [|reflexivity]. cbn [bindr].
      apply py_idx_ok in K as [K _]. destruct (lget_files files a k S K) as (m & Em & A & B & C).
      unfold lget in Em. rewrite py_idx_in in Em by lia. cbn [bindr] in Em.
      destruct (nth_error files (Z.to_nat k)); [|discriminate]. injection Em as ->. cbn [bindr].
      rewrite (img_index_eq m a k) by assumption. reflexivity.
    + cbn [select]. destruct (slice_list (dep a) s) as [l|] eqn:L; [|reflexivity]. cbn [bindr].
      assert (R : forall k, In k l -> 0 <= k < dep a) by (eapply slice_list_range; [|exact L]; lia).
      destruct (mapr_files files a l (fun m => img_index m y x)
                 (fun k => do sy <- select (hei a) y; do sx <- select (wid a) x;
                    Ok (sel_map sy (fun i => sel_map sx (fun j => Scal (vx a k i j))))) S R) as (ims & Ei & Mi).
      { intros k m Hk Em. destruct (lget_files files a k S Hk) as (m' & Em' & A & B & C).
        rewrite Em in Em'. injection Em' as <-. apply img_index_eq; assumption. }
      rewrite Ei. cbn [bindr].
      assert (G : forall ims : list (img V), mapr (fun m => img_index m y x) ims
                = mapr (fun r => r) (map (fun m => img_index m y x) ims)).
      { induction ims0 as [|m ms IH]; [reflexivity|]. cbn [map mapr]. rewrite IH. reflexivity. }
      rewrite G, Mi. destruct l as [|k0 l]; [exfalso; apply E; exact L|].
      destruct (select (hei a) y) as [sy|]; cbn [bindr map mapr]; [|reflexivity].
      destruct (select (wid a) x) as [sx|]; cbn [bindr map mapr]; [|reflexivity].
      assert (G2 : forall l : list Z, mapr (fun r => r) (map (fun k => Ok (sel_map sy (fun i =>
                 sel_map sx (fun j => Scal (vx a k i j))))) l)
               = Ok (map (fun k => sel_map sy (fun i => sel_map sx (fun j => Scal (vx a k i j)))) l)).
      { induction l0 as [|k l' IH]; [reflexivity|]. cbn [map mapr bindr]. rewrite IH. reflexivity. }
      rewrite G2. cbn [bindr]. reflexivity.
Qed.
Lemma emu_empty_slice_refuted :
  exists (files : list (img Z)) (a : vol Z) ix, stacked files a /\
    np_get a ix = Ok (NL []) /\ emu_get files ix = Err ValueError.
Proof.
  exists [mkimg 1 1 (fun _ _ => 5)], (mkvol 1 1 1 (fun _ _ _ => 5)), (ESlice (mkslice (Some 1) None None)).
  split; [|split; vm_compute; reflexivity]. split; [reflexivity|]. split; [cbn; lia|]. split; [cbn; lia|].
  intros [|[|k]] m H; cbn in H; try discriminate. injection H as <-. repeat split.
Qed.
Lemma emu_short_tuple_refuted :
  exists (files : list (img Z)) (a : vol Z) ix v, stacked files a /\
    np_get a ix = Ok v /\ emu_get files ix = Err ValueError.
Proof.
  exists [mkimg 1 1 (fun _ _ => 5)], (mkvol 1 1 1 (fun _ _ _ => 5)), (ETuple [IInt 0; IInt 0]).
  eexists. split; [|split; vm_compute; reflexivity]. split; [reflexivity|]. split; [cbn; lia|]. split; [cbn; lia|].
  intros [|[|k]] m H; cbn in H; try discriminate. injection H as <-. repeat split.
Qed.

(** ** C07 *)
Lemma convert_ok {V} (f0 : img V) fs ct cb cl cr :
  let files := f0 :: fs in
  (forall m, In m files -> nrow m = nrow f0 /\ ncol m = ncol f0) ->
  0 <= ct -> 0 <= cb -> 0 <= cl -> 0 <= cr ->
  if (nrow f0 - ct - cb <? 1) || (ncol f0 - cl - cr <? 1)
  then convert_tif_to_hdf files (ct, cb, cl, cr) = Err ValueError
  else exists v, convert_tif_to_hdf files (ct, cb, cl, cr) = Ok v /\
    dep v = Z.of_nat (length files) /\ hei v = nrow f0 - ct - cb /\ wid v = ncol f0 - cl - cr /\
    forall k m, nth_error files k = Some m ->
    forall i j, 0 <= i < hei v -> 0 <= j < wid v -> vx v (Z.of_nat k) i j = px m (i + ct) (j + cl).
Proof.
  intros files Sh H1 H2 H3 H4. unfold convert_tif_to_hdf, files. cbv zeta.
  set (h := nrow f0 - ct - cb). set (w := ncol f0 - cl - cr).
  destruct ((h <? 1) || (w <? 1)) eqn:E; [reflexivity|].
  assert (Hh : 1 <= h) by lia. assert (Hw : 1 <= w) by lia.
  assert (M : mapr (fun m => if (nrow (islice m ct (h + ct) cl (w + cl)) =? h)
                  && (ncol (islice m ct (h + ct) cl (w + cl)) =? w)
                then Ok (islice m ct (h + ct) cl (w + cl)) else Err TypeError) (f0 :: fs)
              = Ok (map (fun m => islice m ct (h + ct) cl (w + cl)) (f0 :: fs))).
  { apply mapr_total. intros m Hm. destruct (Sh m Hm) as [A B]. cbn [nrow ncol islice].
    rewrite !slen_id by lia.
    replace ((h + ct - ct =? h) && (w + cl - cl =? w)) with true by lia. reflexivity. }
  rewrite M. cbn [bindr]. eexists. split; [reflexivity|]. cbn [dep hei wid vx].
  split; [reflexivity|]. split; [reflexivity|]. split; [reflexivity|].
  intros k m Hk i j Hi Hj. rewrite Nat2Z.id.
  assert (N : nth_error (map (fun m => islice m ct (h + ct) cl (w + cl)) (f0 :: fs)) k
              = Some (islice m ct (h + ct) cl (w + cl))) by (rewrite nth_error_map, Hk; reflexivity).
  rewrite (nth_error_nth _ _ _ N). cbn [px islice].
  destruct (Sh m (nth_error_In _ _ Hk)) as [A B].
  rewrite !py_adj_id by lia. f_equal; lia.
Qed.

(** ** C08 *)
Lemma prange_step_spec a b s x : 0 < s -> In x (prange_step a b s) <->
  (a <= x < b /\ (x - a) mod s = 0).
Proof.
  intros Hs. unfold prange_step. rewrite in_map_iff. split.
  - intros (k & <- & Hk). apply in_seq in Hk as [_ Hk]. cbn [Nat.add] in Hk.
    assert (J : Z.of_nat k + 1 <= (b - a + s - 1) / s) by lia.
    pose proof (Z.mul_div_le (b - a + s - 1) s Hs).
    replace (a + Z.of_nat k * s - a) with (Z.of_nat k * s) by lia.
    rewrite Z.mod_mul by lia. nia.
  - intros [H M]. exists (Z.to_nat ((x - a) / s)).
    pose proof (Z.div_mod (x - a) s ltac:(lia)) as DM. rewrite M in DM.
    assert (0 <= (x - a) / s) by (apply Z.div_pos; lia).
    split; [rewrite Z2Nat.id by lia; lia|]. apply in_seq. split; [lia|]. cbn [Nat.add].
    apply Nat2Z.inj_lt. rewrite !Z2Nat.id by (try apply Z.div_pos; lia).
    apply Z.div_le_lower_bound with (a := b - a + s - 1) (q := (x - a) / s + 1) in Hs; nia.
Qed.
Lemma extract_range_ok start stop step n : 0 <= start < stop -> stop <= n -> 0 < step ->
  extract_range (HTup start stop step) n = Ok (prange_step start stop step).
Proof.
  intros H1 H2 H3. unfold extract_range, clipZ.
  destruct (Z.ltb_spec stop 1); [lia|]. destruct (Z.gtb_spec stop n); [lia|]. cbn [orb].
  destruct (Z.eqb_spec step 0); [lia|]. destruct (Z.ltb_spec step 0); [lia|].
  replace (Z.min (Z.max start 0) (stop - 1)) with start by lia. reflexivity.
Qed.
Lemma extract_int_ok i n : 0 <= i < n -> extract_range (HInt i) n = Ok [i].
Proof.
  intros H. unfold extract_range, clipZ.
  destruct (Z.ltb_spec (i + 1) 1); [lia|]. destruct (Z.gtb_spec (i + 1) n); [lia|]. cbn [orb].
  change (1 =? 0) with false. change (1 <? 0) with false. cbv iota.
  replace (Z.min (Z.max i 0) (i + 1 - 1)) with i by lia.
  unfold prange_step. replace ((i + 1 - i + 1 - 1) / 1) with 1 by (rewrite Z.div_1_r; lia).
  change (Z.to_nat 1) with 1%nat. cbn [seq map]. replace (i + Z.of_nat 0 * 1) with i by lia. reflexivity.
Qed.
(** spec of the image number i extracted along an axis *)
Definition is_crop_slice {V} (data : vol V) (axis i ct cb cl cr : Z) (m : img V) : Prop :=
  (axis = 0 -> nrow m = hei data - ct - cb /\ ncol m = wid data - cl - cr /\
     forall a b, 0 <= a < nrow m -> 0 <= b < ncol m -> px m a b = vx data i (a + ct) (b + cl)) /\
  (axis = 1 -> nrow m = dep data - ct - cb /\ ncol m = wid data - cl - cr /\
     forall a b, 0 <= a < nrow m -> 0 <= b < ncol m -> px m a b = vx data (a + ct) i (b + cl)) /\
  (axis = 2 -> nrow m = dep data - ct - cb /\ ncol m = hei data - cl - cr /\
     forall a b, 0 <= a < nrow m -> 0 <= b < ncol m -> px m a b = vx data (a + ct) (b + cl) i).
Definition axis_size {V} (data : vol V) (axis : Z) : Z :=
  if axis =? 1 then hei data else if axis =? 2 then wid data else dep data.
(** extents of the slice plane along an axis: rows and columns *)
Definition axis_rows {V} (data : vol V) (axis : Z) : Z := if axis =? 0 then hei data else dep data.
Definition axis_cols {V} (data : vol V) (axis : Z) : Z := if axis =? 2 then hei data else wid data.
Lemma extract_general {V} (data : vol V) axis index l ct cb cl cr :
  (axis = 0 \/ axis = 1 \/ axis = 2) ->
  0 <= ct -> 0 <= cb -> 0 <= cl -> 0 <= cr ->
  ct + cb <= axis_rows data axis -> cl + cr <= axis_cols data axis ->
  extract_range index (axis_size data axis) = Ok l ->
  exists out, extract_tif_from_hdf data index axis (ct, cb, cl, cr) = Ok out /\
    map fst out = l /\
    forall i m, In (i, m) out -> is_crop_slice data axis i ct cb cl cr m.
Proof.
  intros Ax H1 H2 H3 H4 H5 H6 E. unfold extract_tif_from_hdf.
  unfold axis_size, axis_rows, axis_cols in *.
  destruct Ax as [-> | [-> | ->] ]; cbn [Z.eqb Pos.eqb] in *; rewrite E; cbn [bindr];
    (eexists; split; [reflexivity|]; split; [rewrite map_map; apply map_id|]);
    intros i m Hm; apply in_map_iff in Hm as (k & Hk & _); injection Hk as <- <-;
    unfold is_crop_slice; cbn [nrow ncol px islice];
    rewrite !slen_id by lia; (repeat split); intros; try lia;
    rewrite !py_adj_id by lia; f_equal; lia.
Qed.
Lemma extract_tuple {V} (data : vol V) axis start stop step ct cb cl cr :
  (axis = 0 \/ axis = 1 \/ axis = 2) ->
  0 <= ct -> 0 <= cb -> 0 <= cl -> 0 <= cr ->
  ct + cb <= axis_rows data axis -> cl + cr <= axis_cols data axis ->
  0 <= start < stop -> stop <= axis_size data axis -> 0 < step ->
  exists out, extract_tif_from_hdf data (HTup start stop step) axis (ct, cb, cl, cr) = Ok out /\
    (forall x, In x (map fst out) <-> (start <= x < stop /\ (x - start) mod step = 0)) /\
    forall i m, In (i, m) out -> is_crop_slice data axis i ct cb cl cr m.
Proof.
  intros Ax H1 H2 H3 H4 H5 H6 H7 H8 H9.
  destruct (extract_general data axis (HTup start stop step) (prange_step start stop step) ct cb cl cr)
    as (out & A & B & C); try assumption.
  { apply extract_range_ok; assumption. }
  exists out. split; [exact A|]. split; [|exact C]. intros x. rewrite B. apply prange_step_spec, H9.
Qed.
Lemma extract_int {V} (data : vol V) axis i ct cb cl cr :
  (axis = 0 \/ axis = 1 \/ axis = 2) ->
  0 <= ct -> 0 <= cb -> 0 <= cl -> 0 <= cr ->
  ct + cb <= axis_rows data axis -> cl + cr <= axis_cols data axis ->
  0 <= i < axis_size data axis ->
  exists m, extract_tif_from_hdf data (HInt i) axis (ct, cb, cl, cr) = Ok [(i, m)] /\
    is_crop_slice data axis i ct cb cl cr m.
Proof.
  intros Ax H1 H2 H3 H4 H5 H6 H7.
  destruct (extract_general data axis (HInt i) [i] ct cb cl cr)
    as (out & A & B & C); try assumption.
  { apply extract_int_ok; assumption. }
  destruct out as [|[k m] [|]]; cbn in B; try discriminate. injection B as ->.
  exists m. split; [exact A|]. apply C. left; reflexivity.
Qed.
Lemma extract_int_negative_refuted :
  exists (data : vol Z) i, - dep data <= i < dep data /\
    exists out, extract_tif_from_hdf data (HInt i) 0 (0, 0, 0, 0) = Ok out /\ length out = 3%nat.
Proof.
  exists (mkvol 3 2 2 (fun a b c => a)), (-1). split; [cbn; lia|]. eexists. split; [reflexivity|reflexivity].
Qed.
Lemma extract_int_too_large_refuted :
  exists (data : vol Z) i, dep data <= i /\
    exists m, extract_tif_from_hdf data (HInt i) 0 (0, 0, 0, 0) = Ok [(dep data - 1, m)].
Proof.
  exists (mkvol 3 2 2 (fun a b c => a)), 7. split; [cbn; lia|]. eexists. reflexivity.
Qed.

(** ** C10, C11 *)
Lemma where_from_spec k keys : forall i x, In x (where_from i k keys) <->
  (i <= x /\ nth_error keys (Z.to_nat (x - i)) = Some k).
Proof.
  induction keys as [|a t IH]; intros i x; cbn [where_from].
  - split; [intros []|]. intros [_ H]. destruct (Z.to_nat (x - i)); discriminate.
  - assert (Q : forall y, i + 1 <= y ->
        nth_error (a :: t) (Z.to_nat (y - i)) = nth_error t (Z.to_nat (y - (i + 1)))).
    { intros y Hy. replace (Z.to_nat (y - i)) with (S (Z.to_nat (y - (i + 1)))) by lia. reflexivity. }
    destruct (Z.eqb_spec a k) as [->|N].
    + cbn [In]. rewrite IH. split.
      * intros [<-|[A B]]; [split; [lia|]; replace (Z.to_nat (i - i)) with O by lia; reflexivity|].
        split; [lia|]. rewrite Q by lia. exact B.
      * intros [A B]. destruct (Z.eq_dec i x) as [E|E]; [left; exact E|right].
        split; [lia|]. rewrite Q in B by lia. exact B.
    + rewrite IH. split.
      * intros [A B]. split; [lia|]. rewrite Q by lia. exact B.
      * intros [A B]. destruct (Z.eq_dec i x) as [<-|E].
        -- replace (Z.to_nat (i - i)) with O in B by lia. cbn in B. congruence.
        -- split; [lia|]. rewrite Q in B by lia. exact B.
Qed.
Lemma where_eq_spec k keys x : In x (where_eq k keys) <->
  (0 <= x /\ nth_error keys (Z.to_nat x) = Some k).
Proof. unfold where_eq. rewrite where_from_spec, Z.sub_0_r. reflexivity. Qed.

(** the sample / dark / reference frames of a dataset *)
Definition frames (k : Z) (d : dset) : list Z :=
  match d_keys d with Some keys => where_eq k keys | None => if k =? 0 then zrange 0 (d_num d) else [] end.
Lemma lmin_spec l m : lmin l = Ok m -> forall x, In x l -> m <= x.
Proof.
  destruct l as [|a t]; [discriminate|]. cbn [lmin]. intros H; injection H as <-.
  assert (G : forall t a, fold_left Z.min t a <= a /\ forall x, In x t -> fold_left Z.min t a <= x).
  { induction t0 as [|b t0 IH]; intros a0; cbn [fold_left]; [split; [lia|intros ? []]|].
    destruct (IH (Z.min a0 b)) as [A B]. split; [lia|]. intros x [<-|H]; [lia|apply B, H]. }
  intros x [<-|H]; [apply (proj1 (G t a))|apply (proj2 (G t a)), H].
Qed.
Lemma app_nonempty_ok ls l ls' : app_nonempty ls l = Ok ls' ->
  (l = [] /\ ls' = ls) \/ (l <> [] /\ ls' = ls ++ [l]).
Proof.
  unfold app_nonempty, sort_squeezed. destruct l as [|a [|b l]]; [| |]; cbn.
  - intros H; injection H as <-. left; auto.
  - discriminate.
  - intros H; injection H as <-. right; split; [discriminate|reflexivity].
Qed.
Lemma scan1_ok s d s' : 0 <= d_num d -> scan1 s d = Ok s' ->
  nprojs s' = nprojs s ++ [Z.of_nat (length (frames 0 d))] /\
  (frames 0 d <> [] -> sam s' = sam s ++ [frames 0 d]) /\
  (frames 1 d <> [] -> refs s' = refs s ++ [frames 1 d]) /\
  (frames 2 d <> [] -> darks s' = darks s ++ [frames 2 d]).
Proof.
  intros Hn. unfold scan1, frames. destruct (d_keys d) as [keys|].
  - destruct (where_eq 0 keys) as [|a t] eqn:E0; cbn [bindr].
    + destruct (app_nonempty (refs s) (where_eq 1 keys)) as [r|] eqn:E1; cbn [bindr]; [|discriminate].
      destruct (app_nonempty (darks s) (where_eq 2 keys)) as [k|] eqn:E2; cbn [bindr]; [|discriminate].
      intros H; injection H as <-. cbn [nprojs sam refs darks].
      apply app_nonempty_ok in E1, E2. split; [reflexivity|]. split; [congruence|].
      split; intros N; [destruct E1 as [[? ?]|[? ?]]|destruct E2 as [[? ?]|[? ?]]]; congruence.
    + destruct (sort_squeezed (a :: t)) as [l|] eqn:ES; cbn [bindr]; [|discriminate].
      assert (l = a :: t) by (unfold sort_squeezed in ES; destruct t; [discriminate|congruence]). subst l.
      destruct (lget (a :: t) 0) as [x|]; cbn [bindr]; [|discriminate].
      destruct (lget (a :: t) (-1)) as [y|]; cbn [bindr]; [|discriminate].
      destruct (app_nonempty (refs s) (where_eq 1 keys)) as [r|] eqn:E1; cbn [bindr]; [|discriminate].
      destruct (app_nonempty (darks s) (where_eq 2 keys)) as [k|] eqn:E2; cbn [bindr]; [|discriminate].
      intros H; injection H as <-. cbn [nprojs sam refs darks].
      apply app_nonempty_ok in E1, E2. split; [reflexivity|]. split; [reflexivity|].
      split; intros N; [destruct E1 as [[? ?]|[? ?]]|destruct E2 as [[? ?]|[? ?]]]; congruence.
  - intros H; injection H as <-. cbn [nprojs sam refs darks]. change (0 =? 0) with true.
    change (1 =? 0) with false. change (2 =? 0) with false. cbv iota.
    rewrite zrange_length, Z2Nat.id by lia. split; [reflexivity|]. split; [reflexivity|].
    split; congruence.
Qed.
Lemma scan_ok ds : forall s s', (forall d, In d ds -> 0 <= d_num d) -> scan s ds = Ok s' ->
  nprojs s' = nprojs s ++ map (fun d => Z.of_nat (length (frames 0 d))) ds /\
  ((forall d, In d ds -> frames 0 d <> []) -> sam s' = sam s ++ map (frames 0) ds) /\
  ((forall d, In d ds -> frames 1 d <> []) -> refs s' = refs s ++ map (frames 1) ds) /\
  ((forall d, In d ds -> frames 2 d <> []) -> darks s' = darks s ++ map (frames 2) ds).
Proof.
  induction ds as [|d ds IH]; intros s s' Hn; cbn [scan].
  - intros H; injection H as <-. cbn [map]. rewrite !app_nil_r. auto.
  - destruct (scan1 s d) as [s1|] eqn:E; cbn [bindr]; [|discriminate]. intros H.
    apply scan1_ok in E as (A & B & C & D); [|apply Hn; left; reflexivity].
    destruct (IH s1 s') as (A' & B' & C' & D'); [intros; apply Hn; right; assumption|exact H|].
    cbn [map]. split; [rewrite A', A, <- app_assoc; reflexivity|].
    split; [|split]; intros N.
    + rewrite B', B, <- app_assoc; [reflexivity|apply N; left; reflexivity|].
      intros; apply N; right; assumption.
    + rewrite C', C, <- app_assoc; [reflexivity|apply N; left; reflexivity|].
      intros; apply N; right; assumption.
    + rewrite D', D, <- app_assoc; [reflexivity|apply N; left; reflexivity|].
      intros; apply N; right; assumption.
Qed.
Lemma dls_check_ok s p : dls_check s p = Ok tt -> 0 <= p /\ forall n, In n (nprojs s) -> p < n.
Proof.
  unfold dls_check. destruct (lmin (nprojs s)) as [np|] eqn:E1; cbn [bindr]; [|discriminate].
  destruct (lmax (starts s)) as [st|]; cbn [bindr]; [|discriminate].
  destruct (lmin (stops s)) as [sp|]; cbn [bindr]; [|discriminate].
  set (stop := if sp - st + 1 >? np then st + np - 1 else sp).
  destruct ((p + st >? stop) || (p + st <? st)) eqn:E; [discriminate|]. intros _.
  assert (stop <= st + np - 1).
  { unfold stop. destruct (sp - st + 1 >? np) eqn:X; lia. }
  split; [lia|]. intros n Hn. pose proof (lmin_spec _ _ E1 n Hn). lia.
Qed.
Lemma Forall2_nth_r {A B} (R : A -> B -> Prop) l l' k b : Forall2 R l l' -> nth_error l' k = Some b ->
  exists a, nth_error l k = Some a /\ R a b.
Proof.
  intros H. revert k. induction H as [|x y l l' Hxy H IH]; intros k E; [destruct k; discriminate|].
  destruct k as [|k]; cbn in *; [injection E as <-; eauto|apply IH, E].
Qed.
Lemma plan_nth s p (ds : list dset) l i pl : mapr (plan1 s p) (zrange 0 (Z.of_nat (length ds))) = Ok l ->
  nth_error l i = Some pl -> (i < length ds)%nat /\ plan1 s p (Z.of_nat i) = Ok pl /\ length l = length ds.
Proof.
  intros M N. apply mapr_ok in M. pose proof (Forall2_length M) as L. rewrite zrange_length in L.
  destruct (Forall2_nth_r _ _ _ _ _ M N) as (a & Na & Pa).
  assert (i < length ds)%nat.
  { assert (i < length l)%nat by (apply nth_error_Some; congruence). lia. }
  apply (nth_error_nth _ _ 0) in Na. rewrite zrange_nth in Na by lia. split; [assumption|].
  split; [|lia]. replace (Z.of_nat i) with a by lia. exact Pa.
Qed.
Lemma dls_sample_ok ds p l : (forall d, In d ds -> 0 <= d_num d) -> dls_plan p ds = Ok l ->
  length l = length ds /\
  forall i d pl, nth_error ds i = Some d -> nth_error l i = Some pl ->
    0 <= p < Z.of_nat (length (frames 0 d)) /\ nth_error (frames 0 d) (Z.to_nat p) = Some (p_sam pl).
Proof.
  intros Hn. unfold dls_plan. destruct (scan _ ds) as [s|] eqn:S; cbn [bindr]; [|discriminate].
  destruct (dls_check s p) as [[]|] eqn:C; cbn [bindr]; [|discriminate]. intros M.
  apply scan_ok in S as (A & B & _); [|exact Hn]. cbn [nprojs sam app] in *.
  apply dls_check_ok in C as [C1 C2].
  assert (LN : forall d, In d ds -> p < Z.of_nat (length (frames 0 d))).
  { intros d Hd. apply C2. rewrite A. apply in_map_iff. exists d. auto. }
  assert (NE : forall d, In d ds -> frames 0 d <> []).
  { intros d Hd E. specialize (LN d Hd). rewrite E in LN. cbn in LN. lia. }
  split.
  { apply mapr_ok in M. apply Forall2_length in M. rewrite zrange_length in M. lia. }
  intros i d pl Nd Nl. destruct (plan_nth _ _ _ _ _ _ M Nl) as (Hi & P & _).
  specialize (LN d (nth_error_In _ _ Nd)). split; [lia|].
  unfold plan1 in P. destruct (use_range (darks s) _); cbn [bindr] in P; [|discriminate].
  destruct (use_range (refs s) _); cbn [bindr] in P; [|discriminate].
  rewrite (B NE) in P.
  destruct (lget (map (frames 0) ds) (Z.of_nat i)) as [fl|] eqn:L; cbn [bindr] in P; [|discriminate].
  destruct (lget fl p) as [ix|] eqn:L2; cbn [bindr] in P; [|discriminate]. injection P as <-. cbn [p_sam].
  apply lget_nat in L as (k & _ & Nk & Ik). rewrite map_length in Ik. rewrite py_idx_in in Ik by lia.
  injection Ik as Ik. apply Nat2Z.inj in Ik. subst k.
  rewrite nth_error_map, Nd in Nk. cbn in Nk. injection Nk as <-.
  apply lget_nat in L2 as (j & _ & Nj & Ij). rewrite py_idx_in in Ij by lia.
  injection Ij as ->. rewrite Nat2Z.id. exact Nj.
Qed.
(** frames of kind k are contiguous: no other frame between two of them *)
Definition contiguous (l : list Z) : Prop := forall x y z, In x l -> In z l -> x <= y <= z -> In y l.
Lemma where_from_sorted k keys : forall i, 
  (forall x, In x (where_from i k keys) -> i <= x) /\
  forall a t, where_from i k keys = a :: t -> (forall x, In x t -> a < x).
Proof.
  induction keys as [|y keys IH]; intros i; cbn [where_from]; [split; [intros ? []|discriminate]|].
  destruct (IH (i + 1)) as [A B]. destruct (Z.eqb_spec y k).
  - split.
    + intros x [<-|H]; [lia|]. specialize (A x H). lia.
    + intros a t E. injection E as <- <-. intros x H. specialize (A x H). lia.
  - split; [intros x H; specialize (A x H); lia|exact B].
Qed.
Lemma where_from_last k keys : forall i l b, where_from i k keys = l ++ [b] -> forall x, In x l -> x < b.
Proof.
  induction keys as [|y keys IH]; intros i l b; cbn [where_from].
  - intros E. destruct l; discriminate.
  - destruct (Z.eqb_spec y k); [|apply IH]. destruct l as [|c l]; [intros _ x []|].
    cbn [app]. intros E. injection E as <- E. intros x [<-|H]; [|eapply IH; [exact E|exact H]].
    destruct (where_from_sorted k keys (i + 1)) as [A _].
    specialize (A b). rewrite E in A. specialize (A ltac:(apply in_or_app; right; left; reflexivity)). lia.
Qed.
Lemma use_range_ok ls i l a b : ls <> [] -> nth_error ls i = Some l -> use_range ls (Z.of_nat i) = Ok (Some (a, b)) ->
  nth_error l 0 = Some a /\ nth_error l (length l - 1) = Some (b - 1) /\ l <> [].
Proof.
  intros N Ni. unfold use_range. destruct ls as [|l0 ls]; [congruence|].
  destruct (lget (l0 :: ls) (Z.of_nat i)) as [l'|] eqn:L; cbn [bindr]; [|discriminate].
  apply lget_nat in L as (k & Hk & Nk & Ik). rewrite py_idx_in in Ik.
  2:{ split; [lia|]. apply Nat2Z.inj_lt. apply nth_error_Some. rewrite Ni. discriminate. }
  injection Ik as Ik. apply Nat2Z.inj in Ik. subst k. rewrite Ni in Nk. injection Nk as <-.
  destruct (lget l 0) as [x|] eqn:L1; cbn [bindr]; [|discriminate].
  destruct (lget l (-1)) as [y|] eqn:L2; cbn [bindr]; [|discriminate].
  intros H; injection H as <- <-.
  apply lget_nat in L1 as (k1 & H1 & N1 & I1). apply lget_nat in L2 as (k2 & H2 & N2 & I2).
  rewrite py_idx_in in I1 by lia. injection I1 as I1. replace k1 with O in N1 by lia.
  apply py_idx_ok in I2 as [I2 J2]. replace (length l - 1)%nat with k2 by lia.
  split; [exact N1|]. split; [rewrite N2; f_equal; lia|]. destruct l; [cbn in H1; lia|discriminate].
Qed.
Lemma contiguous_range k d : k <> 0 -> contiguous (frames k d) -> forall a b,
  nth_error (frames k d) 0 = Some a -> nth_error (frames k d) (length (frames k d) - 1) = Some (b - 1) ->
  forall x, In x (frames k d) <-> a <= x < b.
Proof.
  intros Hk0 Ct a b Na Nb x.
  assert (Ia : In a (frames k d)) by (eapply nth_error_In, Na).
  assert (Ib : In (b - 1) (frames k d)) by (eapply nth_error_In, Nb).
  split; [|intros H; apply (Ct a x (b - 1)); try assumption; lia].
  unfold frames in *. destruct (d_keys d) as [keys|].
  2:{ destruct (Z.eqb_spec k 0); [congruence|destruct Ia]. }
  unfold where_eq in *. set (L := where_from 0 k keys) in *. intros Hx. split.
  - destruct L as [|a0 t] eqn:EL; [destruct Hx|]. cbn in Na. injection Na as ->.
    destruct Hx as [->|Hx]; [lia|]. pose proof (proj2 (where_from_sorted k keys 0) a t EL x Hx). lia.
  - destruct (exists_last (l := L)) as (l' & c & EL); [intros E; rewrite E in Hx; destruct Hx|].
    rewrite EL in Nb. rewrite app_length in Nb. cbn [length] in Nb.
    rewrite nth_error_app2 in Nb by lia.
    replace (length l' + 1 - 1 - length l')%nat with O in Nb by lia. cbn in Nb. injection Nb as ->.
    rewrite EL in Hx. apply in_app_or in Hx as [Hx|[<-|[]]]; [|lia].
    pose proof (where_from_last k keys 0 l' (b - 1) EL x Hx). lia.
Qed.
Lemma dls_average_ok ds p l : (forall d, In d ds -> 0 <= d_num d) -> dls_plan p ds = Ok l ->
  (forall d, In d ds -> frames 2 d <> [] /\ contiguous (frames 2 d)) ->
  (forall d, In d ds -> frames 1 d <> [] /\ contiguous (frames 1 d)) ->
  forall i d pl, nth_error ds i = Some d -> nth_error l i = Some pl ->
    exists a b a' b', p_dark pl = Some (a, b) /\ p_ref pl = Some (a', b') /\
      (forall x, a <= x < b <-> In x (frames 2 d)) /\ (forall x, a' <= x < b' <-> In x (frames 1 d)).
Proof.
  intros Hn. unfold dls_plan. destruct (scan _ ds) as [s|] eqn:S; cbn [bindr]; [|discriminate].
  destruct (dls_check s p) as [[]|] eqn:C; cbn [bindr]; [|discriminate]. intros M D2 D1 i d pl Nd Nl.
  apply scan_ok in S as (_ & _ & R & K); [|exact Hn]. cbn [refs darks app] in *.
  destruct (plan_nth _ _ _ _ _ _ M Nl) as (Hi & P & _).
  unfold plan1 in P. rewrite R in P by (intros d' Hd'; apply D1, Hd').
  rewrite K in P by (intros d' Hd'; apply D2, Hd').
  assert (NN : forall k, map (frames k) ds <> []) by (intros k; destruct ds; [destruct i; discriminate|discriminate]).
  assert (NI : forall k, nth_error (map (frames k) ds) i = Some (frames k d))
    by (intros k; rewrite nth_error_map, Nd; reflexivity).
  destruct (use_range (map (frames 2) ds) _) as [o2|] eqn:U2; cbn [bindr] in P; [|discriminate].
  destruct (use_range (map (frames 1) ds) _) as [o1|] eqn:U1; cbn [bindr] in P; [|discriminate].
  destruct (lget _ _) as [fl|]; cbn [bindr] in P; [|discriminate].
  destruct (lget fl p) as [ix|]; cbn [bindr] in P; [|discriminate]. injection P as <-. cbn [p_dark p_ref].
  assert (O : forall k o, use_range (map (frames k) ds) (Z.of_nat i) = Ok o -> exists a b, o = Some (a, b)).
  { intros k o. unfold use_range. destruct (map (frames k) ds) eqn:E; [exfalso; apply (NN k), E|].
    destruct (lget _ _) as [q|]; cbn [bindr]; [|discriminate].
    destruct (lget q 0); cbn [bindr]; [|discriminate]. destruct (lget q (-1)); cbn [bindr]; [|discriminate].
    intros H; injection H as <-. eauto. }
  destruct (O _ _ U2) as (a & b & ->). destruct (O _ _ U1) as (a' & b' & ->).
  exists a, b, a', b'. split; [reflexivity|]. split; [reflexivity|].
  destruct (use_range_ok _ _ _ _ _ (NN 2) (NI 2) U2) as (X1 & X2 & _).
  destruct (use_range_ok _ _ _ _ _ (NN 1) (NI 1) U1) as (Y1 & Y2 & _).
  split; intros x; symmetry.
  - apply contiguous_range; [lia|apply D2, (nth_error_In _ _ Nd)|exact X1|exact X2].
  - apply contiguous_range; [lia|apply D1, (nth_error_In _ _ Nd)|exact Y1|exact Y2].
Qed.
(** flats at both ends of the scan: the projections in between are averaged as flats *)
Lemma dls_flats_both_ends_refuted :
  exists ds p l pl d a b x, dls_plan p ds = Ok l /\ nth_error ds 0 = Some d /\ nth_error l 0 = Some pl /\
    p_ref pl = Some (a, b) /\ a <= x < b /\ In x (frames 0 d).
Proof.
  exists [mkdset 6 (Some [1; 1; 0; 0; 1; 1])], 0.
  eexists _, _, _, _, _, 2. split; [vm_compute; reflexivity|]. split; [reflexivity|]. split; [reflexivity|].
  split; [reflexivity|]. split; [lia|]. vm_compute. left; reflexivity.
Qed.
(** the first dataset has no dark frames: it gets the second one's positions, the second one fails *)
Lemma dls_misaligned_refuted :
  exists ds p, (forall d, In d ds -> d_keys d <> None) /\
    (exists s, scan (mkdls [] [] [] [] [] []) ds = Ok s /\ dls_check s p = Ok tt /\
      use_range (darks s) 0 = Ok (Some (2, 4)) /\ frames 2 (hd (mkdset 0 None) ds) = []) /\
    dls_plan p ds = Err IndexError.
Proof.
  exists [mkdset 4 (Some [0; 0; 0; 0]); mkdset 4 (Some [0; 0; 2; 2])], 0. split.
  { intros d [<-|[<-|[]]]; discriminate. }
  split; [|vm_compute; reflexivity]. eexists. split; [vm_compute; reflexivity|].
  repeat split; vm_compute; reflexivity.
Qed.
(** a dataset with one single dark frame cannot be loaded *)
Lemma dls_single_frame_refuted :
  exists ds, (forall d, In d ds -> length (frames 0 d) = 3%nat /\ length (frames 2 d) = 1%nat) /\
    forall p, is_ok (dls_plan p ds) = false.
Proof.
  exists [mkdset 4 (Some [2; 0; 0; 0])]. split; [intros d [<-|[]]; split; reflexivity|].
  intros p. reflexivity.
Qed.

(** ** C12 *)
Lemma tif_index_ok n i : 0 <= n -> -n <= i < n ->
  tif_index n i = Ok (if i <? 0 then n + i else i).
Proof.
  intros Hn H. unfold tif_index. set (k := if i <? 0 then n + i else i).
  assert (0 <= k < n) by (unfold k; destruct (i <? 0) eqn:E; lia).
  destruct (Z.gtb_spec k (n - 1)); [lia|]. apply py_idx_in. lia.
Qed.
Lemma tif_index_large n i : n <= i -> 0 <= n -> tif_index n i = Err ValueError.
Proof.
  intros H Hn. unfold tif_index. destruct (Z.ltb_spec i 0); [lia|]. destruct (Z.gtb_spec i (n - 1)); [reflexivity|lia].
Qed.
Lemma tif_index_low n i : 0 <= n -> i < - (2 * n) -> tif_index n i = Err IndexError.
Proof.
  intros Hn H. unfold tif_index. destruct (Z.ltb_spec i 0); [|lia]. destruct (Z.gtb_spec (n + i) (n - 1)); [lia|].
  unfold py_idx. destruct (Z.leb_spec 0 (n + i)); [lia|]. destruct (Z.leb_spec (- n) (n + i)); [lia|]. reflexivity.
Qed.
Lemma tif_index_refuted : exists n i k, i < - n /\ tif_index n i = Ok k.
Proof. exists 3, (-4), 2. split; [lia|reflexivity]. Qed.

(** ** C13 *)
Lemma check_field_2d m h w : nrow m = h -> ncol m = w -> h <> 3 -> check_field (A2 m) h w = Ok m.
Proof.
  intros <- <- N. unfold check_field. cbn [nd_len]. destruct (Z.eqb_spec (nrow m) 3); [congruence|]. cbn [bindr].
  rewrite !Z.eqb_refl. reflexivity.
Qed.
Lemma check_field_3 v h w : dep v = 3 -> hei v = h -> wid v = w ->
  exists m, check_field (A3 v) h w = Ok m /\ nrow m = h /\ ncol m = w /\
    forall i j, (px m i j == (vx v 0 i j + vx v 1 i j + vx v 2 i j) / 3)%Q.
Proof.
  intros D <- <-. unfold check_field. cbn [nd_len]. rewrite D. cbn [Z.eqb Pos.eqb bindr nd_mean0].
  cbn [nrow ncol]. rewrite !Z.eqb_refl. cbn [andb]. eexists. split; [reflexivity|]. split; [reflexivity|].
  split; [reflexivity|]. intros i j. cbn [px]. rewrite D. unfold qmean, qsum.
  change (Z.to_nat 3) with 3%nat. cbn [qsumn]. change (Z.of_nat 0) with 0. change (Z.of_nat 1) with 1.
  change (Z.of_nat 2) with 2. change (inject_Z 3) with 3%Q. field.
Qed.
Lemma check_field_stack_refuted :
  exists v : vol Q, dep v <> 0 /\ forall h w, check_field (A3 v) h w = Err ValueError.
Proof. exists (mkvol 10 4 4 (fun _ _ _ => 1%Q)). split; [cbn; lia|]. reflexivity. Qed.
Lemma check_field_three_rows_refuted :
  exists m : img Q, check_field (A2 m) (nrow m) (ncol m) = Err ValueError.
Proof. exists (mkimg 3 4 (fun _ _ => 1%Q)). reflexivity. Qed.

(** ** C14 *)
Lemma Qzerob_iff q : Qzerob q = true <-> (q == 0)%Q.
Proof. unfold Qzerob, Qeq. cbn. lia. Qed.
Lemma fix_zero_nonzero m : ~ (qmean2 (nrow m) (ncol m) (px m) == 0)%Q ->
  forall i j, ~ (px (fix_zero m) i j == 0)%Q.
Proof.
  intros N i j. unfold fix_zero. cbn [px imap]. destruct (Qzerob (px m i j)) eqn:E; [exact N|].
  intros X. apply Qzerob_iff in X. congruence.
Qed.
Lemma fix_zero_keeps m i j : ~ (px m i j == 0)%Q -> px (fix_zero m) i j = px m i j.
Proof.
  intros N. unfold fix_zero. cbn [px imap]. destruct (Qzerob (px m i j)) eqn:E; [|reflexivity].
  apply Qzerob_iff in E. contradiction.
Qed.
Lemma fix_zero_refuted : exists flat dark : img Q,
  nrow flat = 2 /\ ncol flat = 2 /\ nrow dark = 2 /\ ncol dark = 2 /\
  forall i j, (px (fix_zero (img_sub flat dark)) i j == 0)%Q.
Proof.
  exists (mkimg 2 2 (fun _ _ => 7%Q)), (mkimg 2 2 (fun _ _ => 7%Q)). repeat split.
Qed.
(** and the zero can also arise from positive and negative differences cancelling *)
Lemma fix_zero_cancel_refuted : exists flat dark : img Q,
  (forall i j, (0 <= px dark i j)%Q /\ (0 <= px flat i j)%Q) /\
  (exists i j, 0 <= i < nrow flat /\ 0 <= j < ncol flat /\ ~ (px flat i j == px dark i j)%Q) /\
  exists i j, 0 <= i < nrow flat /\ 0 <= j < ncol flat /\ (px (fix_zero (img_sub flat dark)) i j == 0)%Q.
Proof.
  exists (mkimg 1 3 (fun _ j => if j =? 0 then 2%Q else if j =? 1 then 0%Q else 1%Q)), (mkimg 1 3 (fun _ _ => 1%Q)).
  split; [intros i j; cbn [px]; split; [lra|]; destruct (j =? 0), (j =? 1); lra|].
  split.
  - exists 0, 0. cbn. split; [lia|]. split; [lia|]. lra.
  - exists 0, 2. cbn [nrow ncol]. split; [lia|]. split; [lia|]. vm_compute. reflexivity.
Qed.

(** value of get_tif_stack for one file *)
Lemma tif_stack_value f0 fs n m F D ct cb cl cr k :
  let files := f0 :: fs in
  (forall x, In x files -> nrow x = nrow f0 /\ ncol x = ncol f0) ->
  0 <= ct -> 0 <= cb -> 0 <= cl -> 0 <= cr ->
  ct + cb < nrow f0 -> cl + cr < ncol f0 -> nrow f0 <> 3 ->
  nrow F = nrow f0 -> ncol F = ncol f0 -> nrow D = nrow f0 -> ncol D = ncol f0 ->
  n = Z.of_nat (length files) -> -n <= k < n ->
  nth_error files (Z.to_nat (if k <? 0 then n + k else k)) = Some m ->
  exists v, get_tif_stack files (Some k) (ct, cb, cl, cr) (Some (A2 F)) (Some (A2 D)) None false = Ok v /\
    dep v = 1 /\ hei v = nrow f0 - ct - cb /\ wid v = ncol f0 - cl - cr /\
    forall i j, 0 <= i < hei v -> 0 <= j < wid v ->
      ~ (px F (ct + i) (cl + j) - px D (ct + i) (cl + j) == 0)%Q ->
      vx v 0 i j = ((px m (ct + i) (cl + j) - px D (ct + i) (cl + j))
                    / (px F (ct + i) (cl + j) - px D (ct + i) (cl + j)))%Q.
Proof.
  intros files Sh H1 H2 H3 H4 H5 H6 N3 F1 F2 D1 D2 Hn Hk Nk. unfold get_tif_stack, files.
  set (fl := f0 :: fs). fold files in fl. fold fl. unfold fl. rewrite <- Hn.
  rewrite tif_index_ok by lia. cbn [bindr].
  destruct ((nrow f0 - cb - ct <? 1) || (ncol f0 - cr - cl <? 1)) eqn:E; [lia|].
  unfold check_field_opt. rewrite !check_field_2d by (try assumption; congruence). cbn [bindr].
  destruct (lget_in files (if k <? 0 then n + k else k)) as (m' & Nm & Lm).
  { rewrite <- Hn. destruct (k <? 0) eqn:X; lia. }
  rewrite Nk in Nm. injection Nm as <-. rewrite Lm. cbn [bindr].
  eexists. split; [reflexivity|]. cbn [dep hei wid vx length]. rewrite !slen_id by lia.
  split; [reflexivity|]. split; [lia|]. split; [lia|].
  intros i j Hi Hj Nz. cbn [nth Z.to_nat]. unfold img_div, crop_img. cbn [px].
  rewrite fix_zero_keeps.
  - unfold img_sub. cbn [px islice].
    pose proof (Sh m (nth_error_In _ _ Nk)) as [S1 S2].
    rewrite !py_adj_id by lia. reflexivity.
  - unfold img_sub. cbn [px islice]. rewrite !py_adj_id by lia. exact Nz.
Qed.
