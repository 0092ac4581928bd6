(** Proofs for postprocessing.py: statistics, downsampling, rescaling. *)
From Verif Require Import Np P_Np M_utility M_conversion P_conversion M_correction P_correction M_calculation P_calculation P_removal3 M_io_load M_fs M_io_save M_post.
From Coq Require Import QArith Qround Qabs ZArith Lia Lqa Psatz.
From Coq Require Import List. Import ListNotations.
Open Scope Z_scope.

(** ** crop *)
Lemma cropped_ok d h w c : 0 < d - c_d2 c - c_d1 c -> 0 < h - c_h2 c - c_h1 c -> 0 < w - c_w2 c - c_w1 c ->
  cropped_shape d h w c = Ok (mkbox (c_d1 c) (d - c_d2 c) (c_h1 c) (h - c_h2 c) (c_w1 c) (w - c_w2 c),
     (d - c_d2 c - c_d1 c, h - c_h2 c - c_h1 c, w - c_w2 c - c_w1 c)).
Proof.
  intros A B C. unfold cropped_shape. cbn zeta.
  replace ((d - c_d2 c - c_d1 c <=? 0) || (h - c_h2 c - c_h1 c <=? 0) || (w - c_w2 c - c_w1 c <=? 0)) with false by lia. reflexivity.
Qed.

(** ** lists *)
Lemma fold_min l : forall a, (fold_left Qminb l a <= a)%Q /\ (forall x, In x l -> (fold_left Qminb l a <= x)%Q) /\
  (fold_left Qminb l a == a \/ exists x, In x l /\ (fold_left Qminb l a == x))%Q.
Proof.
  induction l as [|b l IH]; intros a; cbn [fold_left].
  - split; [lra|]. split; [intros x []|]. left. reflexivity.
  - destruct (IH (Qminb a b)) as (H1 & H2 & H3). destruct (Qminb_spec a b) as (M1 & M2 & M3).
    split; [lra|]. split.
    + intros x [<-|Hx]; [lra|apply H2; exact Hx].
    + destruct H3 as [H3|(x & Hx & H3)]; [|right; exists x; split; [right; exact Hx|exact H3] ].
      destruct M3 as [M3|M3]; [left; eapply Qeq_trans; [exact H3|exact M3]|right; exists b; split; [left; reflexivity|eapply Qeq_trans; [exact H3|exact M3] ] ].
Qed.
Lemma fold_max l : forall a, (a <= fold_left Qmaxb l a)%Q /\ (forall x, In x l -> (x <= fold_left Qmaxb l a)%Q) /\
  (fold_left Qmaxb l a == a \/ exists x, In x l /\ (fold_left Qmaxb l a == x))%Q.
Proof.
  induction l as [|b l IH]; intros a; cbn [fold_left].
  - split; [lra|]. split; [intros x []|]. left. reflexivity.
  - destruct (IH (Qmaxb a b)) as (H1 & H2 & H3). destruct (Qmaxb_spec a b) as (M1 & M2 & M3).
    split; [lra|]. split.
    + intros x [<-|Hx]; [lra|apply H2; exact Hx].
    + destruct H3 as [H3|(x & Hx & H3)]; [|right; exists x; split; [right; exact Hx|exact H3] ].
      destruct M3 as [M3|M3]; [left; eapply Qeq_trans; [exact H3|exact M3]|right; exists b; split; [left; reflexivity|eapply Qeq_trans; [exact H3|exact M3] ] ].
Qed.
Lemma lmin_spec l : l <> [] -> (forall x, In x l -> (lmin l <= x)%Q) /\ exists x, In x l /\ (lmin l == x)%Q.
Proof.
  destruct l as [|a l]; [congruence|]. intros _. destruct (fold_min l a) as (H1 & H2 & H3). unfold lmin. split.
  - intros x [<-|Hx]; auto.
  - destruct H3 as [H3|(x & Hx & H3)]; [exists a; split; [left; reflexivity|exact H3]|exists x; split; [right; exact Hx|exact H3] ].
Qed.
Lemma lmax_spec l : l <> [] -> (forall x, In x l -> (x <= lmax l)%Q) /\ exists x, In x l /\ (lmax l == x)%Q.
Proof.
  destruct l as [|a l]; [congruence|]. intros _. destruct (fold_max l a) as (H1 & H2 & H3). unfold lmax. split.
  - intros x [<-|Hx]; auto.
  - destruct H3 as [H3|(x & Hx & H3)]; [exists a; split; [left; reflexivity|exact H3]|exists x; split; [right; exact Hx|exact H3] ].
Qed.
Lemma prange_step_In a b s i : 1 <= s -> (In i (prange_step a b s) <-> exists k, 0 <= k /\ i = a + k * s /\ i < b).
Proof.
  intros Hs. unfold prange_step. rewrite in_map_iff. split.
  - intros (k & <- & Hk). apply in_seq in Hk. exists (Z.of_nat k). split; [lia|]. split; [reflexivity|].
    assert (Hk' : Z.of_nat k < (b - a + s - 1) / s) by lia.
    assert (Z.of_nat k + 1 <= (b - a + s - 1) / s) by lia.
    assert ((Z.of_nat k + 1) * s <= b - a + s - 1) by (pose proof (Z.mul_div_le (b - a + s - 1) s ltac:(lia)); nia). nia.
  - intros (k & Hk & -> & Hb). exists (Z.to_nat k). rewrite Z2Nat.id by lia. split; [reflexivity|]. apply in_seq.
    assert (k + 1 <= (b - a + s - 1) / s) by (apply Z.div_le_lower_bound; nia). lia.
Qed.

(** ** C46 *)
Lemma stat_ok info smooth med data c skip :
  0 <= c_d1 c -> 0 <= c_d2 c -> 0 <= c_h1 c -> 0 <= c_h2 c -> 0 <= c_w1 c -> 0 <= c_w2 c ->
  2 <= dep data - c_d2 c - c_d1 c -> 0 < hei data - c_h2 c - c_h1 c -> 0 < wid data - c_w2 c - c_w1 c ->
  let skip' := clipZ skip 1 (dep data - c_d2 c - c_d1 c - 1) in
  let visited := prange_step (c_d1 c) (dep data - c_d2 c) skip' in
  let cut := fun k => islice (vimg data k) (c_h1 c) (hei data - c_h2 c) (c_w1 c) (wid data - c_w2 c) in
  1 <= skip' /\ In (c_d1 c) visited /\
  let l := map (fun i => info (smooth (cut i))) visited in
  stat_dataset info smooth med data c skip = Ok (mkstat (lmin (map s_min l)) (lmax (map s_max l)) (lmin (map s_pmin l)) (lmax (map s_pmax l))
             (lmean (map s_median l)) (med (map s_mean l)) (lmean (map s_var l))).
Proof.
  intros A1 A2 A3 A4 A5 A6 Hd Hh Hw skip' visited cut.
  assert (Hs : 1 <= skip') by (unfold skip', clipZ; lia). split; [exact Hs|]. split.
  - apply prange_step_In; [exact Hs|]. exists 0. lia.
  - cbn zeta. unfold stat_dataset. rewrite cropped_ok by lia. cbn [bindr]. fold skip'. unfold prange_step_r.
    cbn [b_d1 b_d2 b_h1 b_h2 b_w1 b_w2]. replace (skip' =? 0) with false by lia. cbn [bindr]. reflexivity.
Qed.
Lemma stat_extremes info med data c skip :
  (forall m, 1 <= nrow m -> 1 <= ncol m ->
     (forall i j, in_rng (nrow m) i -> in_rng (ncol m) j -> (s_min (info m) <= px m i j <= s_max (info m))%Q) /\
     (exists i j, in_rng (nrow m) i /\ in_rng (ncol m) j /\ (s_min (info m) == px m i j)%Q) /\
     (exists i j, in_rng (nrow m) i /\ in_rng (ncol m) j /\ (s_max (info m) == px m i j)%Q)) ->
  0 <= c_d1 c -> 0 <= c_d2 c -> 0 <= c_h1 c -> 0 <= c_h2 c -> 0 <= c_w1 c -> 0 <= c_w2 c ->
  2 <= dep data - c_d2 c - c_d1 c -> 0 < hei data - c_h2 c - c_h1 c -> 0 < wid data - c_w2 c - c_w1 c ->
  let step := clipZ skip 1 (dep data - c_d2 c - c_d1 c - 1) in
  let visited := fun k i j => (exists n, 0 <= n /\ k = c_d1 c + n * step) /\ k < dep data - c_d2 c /\
       c_h1 c <= i < hei data - c_h2 c /\ c_w1 c <= j < wid data - c_w2 c in
  exists r, stat_dataset info (fun m => m) med data c skip = Ok r /\
    (forall k i j, visited k i j -> (s_min r <= vx data k i j <= s_max r)%Q) /\
    (exists k i j, visited k i j /\ (s_min r == vx data k i j)%Q) /\
    (exists k i j, visited k i j /\ (s_max r == vx data k i j)%Q).
Proof.
  intros Hinfo A1 A2 A3 A4 A5 A6 Hd Hh Hw step visited.
  destruct (stat_ok info (fun m => m) med data c skip A1 A2 A3 A4 A5 A6 Hd Hh Hw) as (Hs & Hin & Hok).
  cbn zeta in Hs, Hin, Hok. fold step in Hs, Hin, Hok.
  set (vis := prange_step (c_d1 c) (dep data - c_d2 c) step) in *.
  set (cut := fun k => islice (vimg data k) (c_h1 c) (hei data - c_h2 c) (c_w1 c) (wid data - c_w2 c)) in *.
  set (l := map (fun i => info (cut i)) vis) in *.
  assert (Hne : vis <> []) by (intros E; rewrite E in Hin; destruct Hin).
  assert (Hvis : forall k, In k vis <-> (exists n, 0 <= n /\ k = c_d1 c + n * step) /\ k < dep data - c_d2 c).
  { intros k. unfold vis. rewrite prange_step_In by exact Hs. split.
    - intros (n & Hn & E & Hb). split; [exists n; auto|exact Hb].
    - intros [(n & Hn & E) Hb]. exists n. auto. }
  assert (Hsh : forall k, nrow (cut k) = hei data - c_h2 c - c_h1 c /\ ncol (cut k) = wid data - c_w2 c - c_w1 c /\
      forall i j, px (cut k) i j = vx data k (c_h1 c + i) (c_w1 c + j)).
  { intros k. unfold cut, islice, vimg. cbn [nrow ncol px]. rewrite !slen_id, !py_adj_id by lia. auto. }
  assert (Hl : l <> []) by (unfold l; destruct vis; [congruence|discriminate]).
  assert (Hlm : forall (g : stat -> Q), map g l <> []) by (intros g; destruct l; [congruence|discriminate]).
  eexists. split; [exact Hok|]. cbn [s_min s_max].
  destruct (lmin_spec (map s_min l) (Hlm s_min)) as [Mn1 (xn & Hxn & Mn2)].
  destruct (lmax_spec (map s_max l) (Hlm s_max)) as [Mx1 (xx & Hxx & Mx2)].
  split; [|split].
  - intros k i j (Hk & Hkb & Hi & Hj). assert (Hk' : In k vis) by (apply Hvis; auto).
    destruct (Hsh k) as (S1 & S2 & S3). destruct (Hinfo (cut k)) as [B _]; [lia|lia|].
    specialize (B (i - c_h1 c) (j - c_w1 c)). rewrite S3 in B.
    replace (c_h1 c + (i - c_h1 c)) with i in B by lia. replace (c_w1 c + (j - c_w1 c)) with j in B by lia.
    specialize (B ltac:(unfold in_rng; lia) ltac:(unfold in_rng; lia)).
    assert (I1 : In (s_min (info (cut k))) (map s_min l)) by (apply in_map; unfold l; apply (in_map (fun i => info (cut i))); exact Hk').
    assert (I2 : In (s_max (info (cut k))) (map s_max l)) by (apply in_map; unfold l; apply (in_map (fun i => info (cut i))); exact Hk').
    specialize (Mn1 _ I1). specialize (Mx1 _ I2). destruct B as [B1 B2]. split; eapply Qle_trans; eassumption.
  - apply in_map_iff in Hxn as (st & <- & Hst). apply in_map_iff in Hst as (k & <- & Hk).
    destruct (Hsh k) as (S1 & S2 & S3). destruct (Hinfo (cut k)) as (_ & (i & j & Hi & Hj & E) & _); [lia|lia|].
    rewrite S3 in E. exists k, (c_h1 c + i), (c_w1 c + j). unfold in_rng in *. apply Hvis in Hk as [K1 K2].
    split; [split; [exact K1|split; [exact K2|split; lia] ]|]. eapply Qeq_trans; [exact Mn2|exact E].
  - apply in_map_iff in Hxx as (st & <- & Hst). apply in_map_iff in Hst as (k & <- & Hk).
    destruct (Hsh k) as (S1 & S2 & S3). destruct (Hinfo (cut k)) as (_ & _ & (i & j & Hi & Hj & E)); [lia|lia|].
    rewrite S3 in E. exists k, (c_h1 c + i), (c_w1 c + j). unfold in_rng in *. apply Hvis in Hk as [K1 K2].
    split; [split; [exact K1|split; [exact K2|split; lia] ]|]. eapply Qeq_trans; [exact Mx2|exact E].
Qed.
Lemma stat_single info smooth med data c skip :
  dep data - c_d2 c - c_d1 c = 1 -> 0 < hei data - c_h2 c - c_h1 c -> 0 < wid data - c_w2 c - c_w1 c ->
  stat_dataset info smooth med data c skip = Err ValueError.
Proof.
  intros Hd Hh Hw. unfold stat_dataset. rewrite cropped_ok by lia. cbn [bindr]. unfold prange_step_r.
  rewrite Hd. replace (clipZ skip 1 (1 - 1) =? 0) with true by (unfold clipZ; lia). reflexivity.
Qed.

(** ** C47 *)
Lemma reshape4_px (m : img Q) h c0 w c1 i a j b : 1 <= c0 -> 1 <= c1 -> ncol m = w * c1 ->
  0 <= i -> 0 <= a < c0 -> 0 <= j < w -> 0 <= b < c1 ->
  reshape4 m h c0 w c1 i a j b = px m (i * c0 + a) (j * c1 + b).
Proof.
  intros H0 H1 Hn Hi Ha Hj Hb. unfold reshape4. rewrite Hn.
  replace (((i * c0 + a) * w + j) * c1 + b) with (j * c1 + b + (i * c0 + a) * (w * c1)) by ring.
  assert (0 <= j * c1 + b < w * c1) by nia.
  rewrite Z.div_add, Z.mod_add by lia. rewrite Z.div_small, Z.mod_small by lia. f_equal.
Qed.
(** what a reduction must satisfy to be treated here: it looks at the values only *)
Definition agg_ext (agg : Z -> (Z -> Q) -> Q) : Prop :=
  forall n f g, 1 <= n -> (forall i, 0 <= i < n -> (f i == g i)%Q) -> (agg n f == agg n g)%Q.
Lemma downsample_px agg mat c0 c1 : agg_ext agg -> 0 <= nrow mat -> 0 <= ncol mat -> 1 <= c0 -> 1 <= c1 ->
  exists out, downsample agg mat c0 c1 = Ok out /\ nrow out = nrow mat / c0 /\ ncol out = ncol mat / c1 /\
  forall i j, in_rng (nrow out) i -> in_rng (ncol out) j ->
    i * c0 + c0 <= nrow mat /\ j * c1 + c1 <= ncol mat /\
    (px out i j == agg c0 (fun a => agg c1 (fun b => px mat (i * c0 + a)%Z (j * c1 + b)%Z)))%Q.
Proof.
  intros Hx Hr Hc H0 H1. unfold downsample. replace ((c0 =? 0) || (c1 =? 0)) with false by lia.
  eexists. split; [reflexivity|]. split; [reflexivity|]. split; [reflexivity|]. unfold in_rng. cbn [nrow ncol px]. intros i j Hi Hj.
  pose proof (Z.mul_div_le (nrow mat) c0 ltac:(lia)). pose proof (Z.mul_div_le (ncol mat) c1 ltac:(lia)).
  split; [nia|]. split; [nia|]. apply Hx; [lia|]. intros a Ha. apply Hx; [lia|]. intros b Hb.
  rewrite reshape4_px by (try lia; unfold islice; cbn [ncol]; rewrite slen_id by nia; lia).
  unfold islice. cbn [px]. rewrite !py_adj_id by nia. rewrite !Z.add_0_l. reflexivity.
Qed.
Lemma qmean_ext n f g : 1 <= n -> (forall i, 0 <= i < n -> (f i == g i)%Q) -> (qmean n f == qmean n g)%Q.
Proof. intros _ H. unfold qmean. apply Qmult_comp; [|reflexivity]. apply qsum_ext. exact H. Qed.
Lemma mean_of_means n m f : 1 <= n -> 1 <= m -> (qmean n (fun a => qmean m (f a)) == qsum2 n m f / (inject_Z n * inject_Z m))%Q.
Proof.
  intros Hn Hm. unfold qmean, qsum2. rewrite (qsum_ext n _ (fun a => (1 / inject_Z m) * qsum m (f a))%Q).
  - rewrite qsum_scal. field. split; apply inject_Z_neq0; lia.
  - intros a _. field. apply inject_Z_neq0. lia.
Qed.
Lemma downsample_mean mat c0 c1 : 0 <= nrow mat -> 0 <= ncol mat -> 1 <= c0 -> 1 <= c1 ->
  exists out, downsample qmean mat c0 c1 = Ok out /\ nrow out = nrow mat / c0 /\ ncol out = ncol mat / c1 /\
  forall i j, in_rng (nrow out) i -> in_rng (ncol out) j ->
    i * c0 + c0 <= nrow mat /\ j * c1 + c1 <= ncol mat /\
    (px out i j == qsum2 c0 c1 (fun a b => px mat (i * c0 + a)%Z (j * c1 + b)%Z) / (inject_Z c0 * inject_Z c1))%Q.
Proof.
  intros Hr Hc H0 H1. destruct (downsample_px qmean mat c0 c1 qmean_ext Hr Hc H0 H1) as (out & E & R & C & P).
  exists out. split; [exact E|]. split; [exact R|]. split; [exact C|]. intros i j Hi Hj. destruct (P i j Hi Hj) as (A & B & V).
  split; [exact A|]. split; [exact B|]. rewrite V. apply mean_of_means; assumption.
Qed.
Lemma amin_ext n f g : 1 <= n -> (forall i, 0 <= i < n -> (f i == g i)%Q) -> (amin n f == amin n g)%Q.
Proof.
  intros Hn H.
  destruct (amin_spec n f Hn) as [A (i & Hi & Ei)]. destruct (amin_spec n g Hn) as [B (j & Hj & Ej)].
  unfold in_rng in *. pose proof (A j Hj) as A'. pose proof (B i Hi) as B'. pose proof (H j Hj). pose proof (H i Hi). lra.
Qed.
Lemma amax_ext n f g : 1 <= n -> (forall i, 0 <= i < n -> (f i == g i)%Q) -> (amax n f == amax n g)%Q.
Proof.
  intros Hn H.
  destruct (amax_spec n f Hn) as [A (i & Hi & Ei)]. destruct (amax_spec n g Hn) as [B (j & Hj & Ej)].
  unfold in_rng in *. pose proof (A j Hj) as A'. pose proof (B i Hi) as B'. pose proof (H j Hj). pose proof (H i Hi). lra.
Qed.
(** a reduction that stays between the smallest and the largest value *)
Definition between (agg : Z -> (Z -> Q) -> Q) : Prop :=
  agg_ext agg /\ forall n f lo hi, 1 <= n -> (forall i, 0 <= i < n -> (lo <= f i <= hi)%Q) -> (lo <= agg n f <= hi)%Q.
Lemma between_amin : between amin.
Proof.
  split; [exact amin_ext|]. intros n f lo hi Hn H. destruct (amin_spec n f Hn) as [_ (i & Hi & ->)]. apply H. exact Hi.
Qed.
Lemma between_amax : between amax.
Proof.
  split; [exact amax_ext|]. intros n f lo hi Hn H. destruct (amax_spec n f Hn) as [_ (i & Hi & ->)]. apply H. exact Hi.
Qed.
Lemma between_mean : between qmean.
Proof. split; [exact qmean_ext|]. intros n f lo hi Hn H. apply qmean_bounds; [lia|exact H]. Qed.
Lemma downsample_between agg mat c0 c1 : between agg -> 0 <= nrow mat -> 0 <= ncol mat -> 1 <= c0 -> 1 <= c1 ->
  exists out, downsample agg mat c0 c1 = Ok out /\ nrow out = nrow mat / c0 /\ ncol out = ncol mat / c1 /\
  forall i j lo hi, in_rng (nrow out) i -> in_rng (ncol out) j ->
    (forall a b, i * c0 <= a < i * c0 + c0 -> j * c1 <= b < j * c1 + c1 -> (lo <= px mat a b <= hi)%Q) ->
    (lo <= px out i j <= hi)%Q.
Proof.
  intros [Hx Hb] Hr Hc H0 H1. destruct (downsample_px agg mat c0 c1 Hx Hr Hc H0 H1) as (out & E & R & C & P).
  exists out. split; [exact E|]. split; [exact R|]. split; [exact C|]. intros i j lo hi Hi Hj H. destruct (P i j Hi Hj) as (A & B & V).
  rewrite V. apply Hb; [exact H0|]. intros a Ha. apply Hb; [exact H1|]. intros b Hb'. apply H; lia.
Qed.
Lemma downsample_min mat c0 c1 : 0 <= nrow mat -> 0 <= ncol mat -> 1 <= c0 -> 1 <= c1 ->
  exists out, downsample amin mat c0 c1 = Ok out /\ nrow out = nrow mat / c0 /\ ncol out = ncol mat / c1 /\
  forall i j, in_rng (nrow out) i -> in_rng (ncol out) j ->
    (forall a b, i * c0 <= a < i * c0 + c0 -> j * c1 <= b < j * c1 + c1 -> (px out i j <= px mat a b)%Q) /\
    exists a b, i * c0 <= a < i * c0 + c0 /\ j * c1 <= b < j * c1 + c1 /\ (px out i j == px mat a b)%Q.
Proof.
  intros Hr Hc H0 H1. destruct (downsample_px amin mat c0 c1 amin_ext Hr Hc H0 H1) as (out & E & R & C & P).
  exists out. split; [exact E|]. split; [exact R|]. split; [exact C|]. intros i j Hi Hj. destruct (P i j Hi Hj) as (_ & _ & V).
  destruct (amin_spec c0 (fun a => amin c1 (fun b => px mat (i * c0 + a) (j * c1 + b))) H0) as [A (a & Ha & Ea)]. split.
  - intros a' b' Ha' Hb'. rewrite V. specialize (A (a' - i * c0)). unfold in_rng in A. specialize (A ltac:(lia)). cbn beta in A.
    destruct (amin_spec c1 (fun b => px mat (i * c0 + (a' - i * c0)) (j * c1 + b)) H1) as [B _].
    specialize (B (b' - j * c1)). unfold in_rng in B. specialize (B ltac:(lia)). cbn beta in B.
    replace (i * c0 + (a' - i * c0)) with a' in * by lia. replace (j * c1 + (b' - j * c1)) with b' in B by lia. lra.
  - destruct (amin_spec c1 (fun b => px mat (i * c0 + a) (j * c1 + b)) H1) as [_ (b & Hb & Eb)]. unfold in_rng in *.
    exists (i * c0 + a), (j * c1 + b). split; [lia|]. split; [lia|]. rewrite V, Ea. exact Eb.
Qed.
Lemma downsample_max mat c0 c1 : 0 <= nrow mat -> 0 <= ncol mat -> 1 <= c0 -> 1 <= c1 ->
  exists out, downsample amax mat c0 c1 = Ok out /\ nrow out = nrow mat / c0 /\ ncol out = ncol mat / c1 /\
  forall i j, in_rng (nrow out) i -> in_rng (ncol out) j ->
    (forall a b, i * c0 <= a < i * c0 + c0 -> j * c1 <= b < j * c1 + c1 -> (px mat a b <= px out i j)%Q) /\
    exists a b, i * c0 <= a < i * c0 + c0 /\ j * c1 <= b < j * c1 + c1 /\ (px out i j == px mat a b)%Q.
Proof.
  intros Hr Hc H0 H1. destruct (downsample_px amax mat c0 c1 amax_ext Hr Hc H0 H1) as (out & E & R & C & P).
  exists out. split; [exact E|]. split; [exact R|]. split; [exact C|]. intros i j Hi Hj. destruct (P i j Hi Hj) as (_ & _ & V).
  destruct (amax_spec c0 (fun a => amax c1 (fun b => px mat (i * c0 + a) (j * c1 + b))) H0) as [A (a & Ha & Ea)]. split.
  - intros a' b' Ha' Hb'. rewrite V. specialize (A (a' - i * c0)). unfold in_rng in A. specialize (A ltac:(lia)). cbn beta in A.
    destruct (amax_spec c1 (fun b => px mat (i * c0 + (a' - i * c0)) (j * c1 + b)) H1) as [B _].
    specialize (B (b' - j * c1)). unfold in_rng in B. specialize (B ltac:(lia)). cbn beta in B.
    replace (i * c0 + (a' - i * c0)) with a' in * by lia. replace (j * c1 + (b' - j * c1)) with b' in B by lia. lra.
  - destruct (amax_spec c1 (fun b => px mat (i * c0 + a) (j * c1 + b)) H1) as [_ (b & Hb & Eb)]. unfold in_rng in *.
    exists (i * c0 + a), (j * c1 + b). split; [lia|]. split; [lia|]. rewrite V, Ea. exact Eb.
Qed.

(** 3D *)
Lemma reshape6_px (m : vol Q) c0 h c1 w c2 z i a j b : 1 <= c1 -> 1 <= c2 -> hei m = h * c1 -> wid m = w * c2 ->
  0 <= z < c0 -> 0 <= i < h -> 0 <= a < c1 -> 0 <= j < w -> 0 <= b < c2 ->
  reshape6 m h c1 w c2 z i a j b = vx m z (i * c1 + a) (j * c2 + b).
Proof.
  intros H1 H2 Hh Hw Hz Hi Ha Hj Hb. unfold reshape6. rewrite Hh, Hw.
  set (r := i * c1 + a). set (q := j * c2 + b).
  assert (Hr : 0 <= r < h * c1) by (unfold r; nia). assert (Hq : 0 <= q < w * c2) by (unfold q; nia).
  replace ((((z * h + i) * c1 + a) * w + j) * c2 + b) with (q + (r + z * (h * c1)) * (w * c2)) by (unfold r, q; ring).
  assert (E1 : (q + (r + z * (h * c1)) * (w * c2)) / (w * c2) = r + z * (h * c1)) by (rewrite Z.div_add by lia; rewrite Z.div_small by lia; lia).
  assert (E2 : (q + (r + z * (h * c1)) * (w * c2)) mod (w * c2) = q) by (rewrite Z.mod_add by lia; apply Z.mod_small; lia).
  rewrite E2. rewrite (Z.mul_comm (h * c1) (w * c2)), <- Z.div_div by lia. rewrite E1.
  rewrite Z.div_add, Z.mod_add by lia. rewrite Z.div_small, Z.mod_small by lia. f_equal.
Qed.
Lemma ds_loop_nth agg data b depth1 hd wd c0 c1 c2 : forall l n,
  (forall k i, (k < n)%nat -> nth_error l k = Some i -> b_d1 b + depth1 >= i + c0) -> (n <= length l)%nat ->
  (forall i, nth_error l n = Some i -> b_d1 b + depth1 < i + c0) ->
  length (ds_loop agg data b depth1 hd wd c0 c1 c2 l) = n /\
  forall k i, (k < n)%nat -> nth_error l k = Some i ->
    nth_error (ds_loop agg data b depth1 hd wd c0 c1 c2 l) k =
    Some (ds_cell agg (vslab data i (i + c0) (b_h1 b) (b_h1 b + hd * c1) (b_w1 b) (b_w1 b + wd * c2)) hd wd c0 c1 c2).
Proof.
  induction l as [|x l IH]; intros n H1 H2 H3; cbn [ds_loop length] in *.
  - replace n with O by lia. split; [reflexivity|]. intros k i Hk. lia.
  - destruct n as [|n].
    + specialize (H3 x eq_refl). replace (b_d1 b + depth1 <? x + c0) with true by lia. split; [reflexivity|]. intros k i Hk. lia.
    + pose proof (H1 O x ltac:(lia) eq_refl). replace (b_d1 b + depth1 <? x + c0) with false by lia.
      destruct (IH n) as [L P].
      * intros k i Hk E. apply (H1 (S k) i); [lia|exact E].
      * lia.
      * intros i E. apply (H3 i). exact E.
      * cbn [length]. split; [lia|]. intros [|k] i Hk E; cbn [nth_error] in *; [congruence|]. apply P; [lia|exact E].
Qed.
Lemma prange_step_nth a b s k : 1 <= s -> 0 <= k -> a + k * s < b -> nth_error (prange_step a b s) (Z.to_nat k) = Some (a + k * s).
Proof.
  intros Hs Hk Hb. unfold prange_step. rewrite nth_error_map.
  assert (k + 1 <= (b - a + s - 1) / s) by (apply Z.div_le_lower_bound; nia).
  rewrite (nth_error_nth' _ O) by (rewrite seq_length; lia). rewrite seq_nth by lia. cbn [option_map]. f_equal. lia.
Qed.
Lemma prange_step_len a b s : 1 <= s -> a <= b -> Z.of_nat (length (prange_step a b s)) = (b - a + s - 1) / s.
Proof. intros Hs Hab. unfold prange_step. rewrite map_length, seq_length. rewrite Z2Nat.id; [reflexivity|]. apply Z.div_pos; lia. Qed.
Definition good_crop (d h w : Z) (c : crop6) : Prop :=
  0 <= c_d1 c /\ 0 <= c_d2 c /\ 0 <= c_h1 c /\ 0 <= c_h2 c /\ 0 <= c_w1 c /\ 0 <= c_w2 c /\
  0 < d - c_d2 c - c_d1 c /\ 0 < h - c_h2 c - c_h1 c /\ 0 < w - c_w2 c - c_w1 c.
Lemma downsample_dataset_px agg data c c0 c1 c2 : agg_ext agg ->
  good_crop (dep data) (hei data) (wid data) c -> 1 <= c0 -> 1 <= c1 -> 1 <= c2 ->
  let d1 := dep data - c_d2 c - c_d1 c in let h1 := hei data - c_h2 c - c_h1 c in let w1 := wid data - c_w2 c - c_w1 c in
  c0 <= d1 -> c1 <= h1 -> c2 <= w1 ->
  exists out, downsample_dataset agg data c c0 c1 c2 = Ok out /\ Z.of_nat (length out) = d1 / c0 /\
  forall n m, 0 <= n -> nth_error out (Z.to_nat n) = Some m ->
    nrow m = h1 / c1 /\ ncol m = w1 / c2 /\
    forall i j, in_rng (h1 / c1) i -> in_rng (w1 / c2) j ->
    (px m i j == agg c1 (fun a => agg c0 (fun z => agg c2 (fun b =>
        vx data (c_d1 c + n * c0 + z)%Z (c_h1 c + i * c1 + a)%Z (c_w1 c + j * c2 + b)%Z))))%Q.
Proof.
  intros Hx (A1 & A2 & A3 & A4 & A5 & A6 & Hd & Hh & Hw) H0 H1 H2 d1 h1 w1 L0 L1 L2.
  unfold downsample_dataset. rewrite cropped_ok by lia. cbn [bindr]. fold d1 h1 w1.
  replace ((c0 =? 0) || (c1 =? 0) || (c2 =? 0)) with false by lia.
  assert (P0 : 1 <= d1 / c0) by (apply Z.div_le_lower_bound; lia).
  assert (P1 : 1 <= h1 / c1) by (apply Z.div_le_lower_bound; lia).
  assert (P2 : 1 <= w1 / c2) by (apply Z.div_le_lower_bound; lia).
  replace ((d1 / c0 =? 0) || (h1 / c1 =? 0) || (w1 / c2 =? 0)) with false by lia.
  unfold prange_step_r. cbn [b_d1 b_d2]. replace (c0 =? 0) with false by lia. cbn [bindr].
  set (l := prange_step (c_d1 c) (dep data - c_d2 c) c0).
  set (b := mkbox (c_d1 c) (dep data - c_d2 c) (c_h1 c) (hei data - c_h2 c) (c_w1 c) (wid data - c_w2 c)).
  pose proof (Z.mul_div_le d1 c0 ltac:(lia)) as M0. pose proof (Z.mul_div_le h1 c1 ltac:(lia)) as M1. pose proof (Z.mul_div_le w1 c2 ltac:(lia)) as M2.
  pose proof (Z.mul_succ_div_gt d1 c0 ltac:(lia)) as G0.
  assert (Ll : Z.of_nat (length l) = (d1 + c0 - 1) / c0).
  { unfold l. rewrite prange_step_len by lia. f_equal; unfold d1; lia. }
  assert (Hle : d1 / c0 <= (d1 + c0 - 1) / c0) by (apply Z.div_le_mono; lia).
  destruct (ds_loop_nth agg data b d1 (h1 / c1) (w1 / c2) c0 c1 c2 l (Z.to_nat (d1 / c0))) as [L P].
  { intros k i Hk E. rewrite <- (Nat2Z.id k) in E. unfold l in E. rewrite prange_step_nth in E by (unfold d1 in *; nia).
    injection E as <-. cbn [b b_d1]. nia. }
  { lia. }
  { intros i E. assert (In i l) by (eapply nth_error_In; exact E). apply prange_step_In in H as (k & Hk & -> & Hb); [|lia].
    assert (Ek : nth_error l (Z.to_nat k) = Some (c_d1 c + k * c0)) by (apply prange_step_nth; lia).
    assert (Z.to_nat k = Z.to_nat (d1 / c0)).
    { assert (ND : NoDup l).
      { unfold l, prange_step. apply FinFun.Injective_map_NoDup; [|apply seq_NoDup]. intros u v Euv. nia. }
      rewrite NoDup_nth_error in ND. apply ND; [apply nth_error_Some; congruence|congruence]. }
    assert (k = d1 / c0) by lia. subst k. cbn [b b_d1]. unfold d1 in *. nia. }
  eexists. split; [reflexivity|]. split; [rewrite L; lia|]. intros n m Hn E.
  assert (Hn' : n < d1 / c0).
  { assert (Z.to_nat n < length (ds_loop agg data b d1 (h1 / c1) (w1 / c2) c0 c1 c2 l))%nat by (apply nth_error_Some; congruence). lia. }
  assert (El : nth_error l (Z.to_nat n) = Some (c_d1 c + n * c0)) by (apply prange_step_nth; unfold d1 in *; nia).
  rewrite (P (Z.to_nat n) (c_d1 c + n * c0)) in E by (auto; lia). injection E as <-.
  unfold ds_cell. cbn [nrow ncol px]. split; [reflexivity|]. split; [reflexivity|]. unfold in_rng. intros i j Hi Hj.
  assert (Bn : c_d1 c + n * c0 + c0 <= dep data) by (unfold d1 in *; nia).
  assert (Bh : c_h1 c + h1 / c1 * c1 <= hei data) by (unfold h1 in *; nia).
  assert (Bw : c_w1 c + w1 / c2 * c2 <= wid data) by (unfold w1 in *; nia).
  assert (N0 : 0 <= c_d1 c + n * c0) by nia.
  apply Hx; [lia|]. intros a Ha. apply Hx; [lia|]. intros z Hz. apply Hx; [lia|]. intros b' Hb'.
  rewrite (reshape6_px _ c0) by (try lia; unfold vslab; cbn [hei wid b_h1 b_w1 b]; rewrite slen_id by nia; lia).
  unfold vslab. cbn [vx b b_h1 b_w1]. rewrite !py_adj_id by nia. rewrite !Z.add_assoc. reflexivity.
Qed.
Lemma qsum_swap n m f : (qsum n (fun i => qsum m (fun j => f i j)) == qsum m (fun j => qsum n (fun i => f i j)))%Q.
Proof.
  unfold qsum at 1. unfold qsum at 3. induction (Z.to_nat n) as [|k IH]; cbn [qsumn].
  - symmetry. unfold qsum. rewrite qsumn_const. ring.
  - rewrite IH. rewrite <- qsum_add. reflexivity.
Qed.
Lemma downsample_dataset_mean data c c0 c1 c2 :
  good_crop (dep data) (hei data) (wid data) c -> 1 <= c0 -> 1 <= c1 -> 1 <= c2 ->
  let d1 := dep data - c_d2 c - c_d1 c in let h1 := hei data - c_h2 c - c_h1 c in let w1 := wid data - c_w2 c - c_w1 c in
  c0 <= d1 -> c1 <= h1 -> c2 <= w1 ->
  exists out, downsample_dataset qmean data c c0 c1 c2 = Ok out /\ Z.of_nat (length out) = d1 / c0 /\
  forall n m, 0 <= n -> nth_error out (Z.to_nat n) = Some m ->
    nrow m = h1 / c1 /\ ncol m = w1 / c2 /\
    forall i j, in_rng (h1 / c1) i -> in_rng (w1 / c2) j ->
    (px m i j == qsum c0 (fun z => qsum2 c1 c2 (fun a b =>
        vx data (c_d1 c + n * c0 + z)%Z (c_h1 c + i * c1 + a)%Z (c_w1 c + j * c2 + b)%Z)) / (inject_Z c0 * inject_Z c1 * inject_Z c2))%Q.
Proof.
  intros Hg H0 H1 H2 d1 h1 w1 L0 L1 L2.
  destruct (downsample_dataset_px qmean data c c0 c1 c2 qmean_ext Hg H0 H1 H2 L0 L1 L2) as (out & E & L & P).
  exists out. split; [exact E|]. split; [exact L|]. intros n m Hn En. destruct (P n m Hn En) as (R & C & V).
  split; [exact R|]. split; [exact C|]. intros i j Hi Hj. rewrite (V i j Hi Hj).
  rewrite (qmean_ext c1 _ (fun a => (1 / (inject_Z c0 * inject_Z c2)) * qsum c0 (fun z => qsum c2 (fun b =>
     vx data (c_d1 c + n * c0 + z)%Z (c_h1 c + i * c1 + a)%Z (c_w1 c + j * c2 + b)%Z)))%Q).
  - unfold qmean, qsum2. rewrite qsum_scal. rewrite qsum_swap. field. repeat split; apply inject_Z_neq0; lia.
  - exact H1.
  - intros a Ha. rewrite mean_of_means by lia. unfold qsum2. field. repeat split; apply inject_Z_neq0; lia.
Qed.
Lemma downsample_dataset_between agg data c c0 c1 c2 : between agg ->
  good_crop (dep data) (hei data) (wid data) c -> 1 <= c0 -> 1 <= c1 -> 1 <= c2 ->
  let d1 := dep data - c_d2 c - c_d1 c in let h1 := hei data - c_h2 c - c_h1 c in let w1 := wid data - c_w2 c - c_w1 c in
  c0 <= d1 -> c1 <= h1 -> c2 <= w1 ->
  exists out, downsample_dataset agg data c c0 c1 c2 = Ok out /\ Z.of_nat (length out) = d1 / c0 /\
  forall n m, 0 <= n -> nth_error out (Z.to_nat n) = Some m ->
    forall i j lo hi, in_rng (h1 / c1) i -> in_rng (w1 / c2) j ->
    (forall z a b, 0 <= z < c0 -> 0 <= a < c1 -> 0 <= b < c2 ->
        (lo <= vx data (c_d1 c + n * c0 + z)%Z (c_h1 c + i * c1 + a)%Z (c_w1 c + j * c2 + b)%Z <= hi)%Q) ->
    (lo <= px m i j <= hi)%Q.
Proof.
  intros [Hx Hb] Hg H0 H1 H2 d1 h1 w1 L0 L1 L2.
  destruct (downsample_dataset_px agg data c c0 c1 c2 Hx Hg H0 H1 H2 L0 L1 L2) as (out & E & L & P).
  exists out. split; [exact E|]. split; [exact L|]. intros n m Hn En i j lo hi Hi Hj H. destruct (P n m Hn En) as (R & C & V).
  rewrite (V i j Hi Hj). apply Hb; [lia|]. intros a Ha. apply Hb; [lia|]. intros z Hz. apply Hb; [lia|]. intros b Hb'. apply H; lia.
Qed.

(** ** C48 *)
Lemma Qtrunc_pos q : (0 <= q)%Q -> Qtrunc q = Qfloor q.
Proof. intros H. unfold Qtrunc. replace (Qle_bool 0 q) with true; [reflexivity|]. symmetry. apply Qle_bool_iff. exact H. Qed.
Lemma Qtrunc_mono a b : (0 <= a)%Q -> (a <= b)%Q -> Qtrunc a <= Qtrunc b.
Proof.
  intros Ha Hab. rewrite !Qtrunc_pos by lra. apply Qfloor_resp_le. exact Hab.
Qed.
Lemma Qfloor_comp' a b : (a == b)%Q -> Qfloor a = Qfloor b.
Proof. intros H. apply Qfloor_comp. exact H. Qed.
Lemma clipQ_mono lo hi a b : (a <= b)%Q -> (clipQ a lo hi <= clipQ b lo hi)%Q.
Proof.
  intros H. unfold clipQ. destruct (Qminb_spec (Qmaxb a lo) hi) as (A1 & A2 & _). destruct (Qmaxb_spec a lo) as (_ & _ & A3).
  destruct (Qminb_spec (Qmaxb b lo) hi) as (_ & _ & B1). destruct (Qmaxb_spec b lo) as (B2 & B3 & _).
  destruct A3 as [A3|A3]; destruct B1 as [B1|B1]; lra.
Qed.
Definition top (nbit : Z) : Z := if nbit =? 8 then 255 else 65535.
Lemma rescale_px_floor nbit gmin gmax v : (gmin < gmax)%Q ->
  rescale_px nbit gmin gmax v = Qfloor ((clipQ v gmin gmax - gmin) / (gmax - gmin) * inject_Z (top nbit)) /\
  0 <= rescale_px nbit gmin gmax v <= top nbit.
Proof.
  intros H. unfold rescale_px. set (c := clipQ v gmin gmax).
  assert (Hc : (gmin <= c <= gmax)%Q) by (apply clipQ_bounds; lra).
  set (T := if nbit =? 8 then 255%Q else 65535%Q).
  assert (ET : T = inject_Z (top nbit)) by (unfold T, top; destruct (nbit =? 8); reflexivity).
  assert (PT : (0 < T)%Q) by (unfold T; destruct (nbit =? 8); reflexivity).
  set (x := ((c - gmin) / (gmax - gmin))%Q).
  assert (Hx : (0 <= x <= 1)%Q).
  { unfold x. split; [apply Qle_shift_div_l; lra|apply Qle_shift_div_r; lra]. }
  assert (HxT : (0 <= x * T <= T)%Q).
  { split; [apply Qmult_le_0_compat; lra|]. setoid_replace T with (1 * T)%Q at 2 by ring. apply Qmult_le_compat_r; lra. }
  assert (E : Qtrunc (clipQ (x * T) 0 T) = Qfloor (x * T)).
  { rewrite Qtrunc_pos by (apply clipQ_bounds; lra). apply Qfloor_comp. apply clipQ_id; lra. }
  rewrite E. split; [rewrite ET; reflexivity|].
  split.
  - change 0 with (Qfloor (inject_Z 0)). apply Qfloor_resp_le. change (inject_Z 0) with 0%Q. lra.
  - rewrite <- (Qfloor_Z (top nbit)). apply Qfloor_resp_le. rewrite <- ET. lra.
Qed.
Lemma rescale_px_mono nbit gmin gmax a b : (gmin < gmax)%Q -> (a <= b)%Q -> rescale_px nbit gmin gmax a <= rescale_px nbit gmin gmax b.
Proof.
  intros H Hab. destruct (rescale_px_floor nbit gmin gmax a H) as [-> _]. destruct (rescale_px_floor nbit gmin gmax b H) as [-> _].
  apply Qfloor_resp_le. apply Qmult_le_compat_r.
  - unfold Qdiv. apply Qmult_le_compat_r; [|apply Qlt_le_weak, Qinv_lt_0_compat; lra].
    pose proof (clipQ_mono gmin gmax a b Hab). lra.
  - unfold top. destruct (nbit =? 8); discriminate.
Qed.
Lemma rescale_px_ends nbit gmin gmax v : (gmin < gmax)%Q ->
  ((v <= gmin)%Q -> rescale_px nbit gmin gmax v = 0) /\ ((gmax <= v)%Q -> rescale_px nbit gmin gmax v = top nbit).
Proof.
  intros H. destruct (rescale_px_floor nbit gmin gmax v H) as [-> _]. split; intros Hv.
  - assert (E : (clipQ v gmin gmax == gmin)%Q) by (unfold clipQ; destruct (Qmaxb_spec v gmin) as (? & ? & ?); destruct (Qminb_spec (Qmaxb v gmin) gmax) as (? & ? & [?|?]); lra).
    rewrite E. transitivity (Qfloor (inject_Z 0)); [|reflexivity]. apply Qfloor_comp. change (inject_Z 0) with 0%Q. field. lra.
  - assert (E : (clipQ v gmin gmax == gmax)%Q) by (unfold clipQ; destruct (Qmaxb_spec v gmin) as (? & ? & ?); destruct (Qminb_spec (Qmaxb v gmin) gmax) as (? & ? & [?|?]); lra).
    rewrite E. rewrite <- (Qfloor_Z (top nbit)) at 2. apply Qfloor_comp. field. lra.
Qed.

Lemma downsample_dataset_amin data c c0 c1 c2 :
  good_crop (dep data) (hei data) (wid data) c -> 1 <= c0 -> 1 <= c1 -> 1 <= c2 ->
  let d1 := dep data - c_d2 c - c_d1 c in let h1 := hei data - c_h2 c - c_h1 c in let w1 := wid data - c_w2 c - c_w1 c in
  c0 <= d1 -> c1 <= h1 -> c2 <= w1 ->
  exists out, downsample_dataset amin data c c0 c1 c2 = Ok out /\ Z.of_nat (length out) = d1 / c0 /\
  forall n m, 0 <= n -> nth_error out (Z.to_nat n) = Some m ->
    forall i j, in_rng (h1 / c1) i -> in_rng (w1 / c2) j ->
    (forall z a b, 0 <= z < c0 -> 0 <= a < c1 -> 0 <= b < c2 -> (px m i j <= vx data (c_d1 c + n * c0 + z)%Z (c_h1 c + i * c1 + a)%Z (c_w1 c + j * c2 + b)%Z)%Q) /\
    exists z a b, 0 <= z < c0 /\ 0 <= a < c1 /\ 0 <= b < c2 /\ (px m i j == vx data (c_d1 c + n * c0 + z)%Z (c_h1 c + i * c1 + a)%Z (c_w1 c + j * c2 + b)%Z)%Q.
Proof.
  intros Hg H0 H1 H2 d1 h1 w1 L0 L1 L2.
  destruct (downsample_dataset_px amin data c c0 c1 c2 amin_ext Hg H0 H1 H2 L0 L1 L2) as (out & E & L & P).
  exists out. split; [exact E|]. split; [exact L|]. intros n m Hn En i j Hi Hj. destruct (P n m Hn En) as (_ & _ & V).
  specialize (V i j Hi Hj). set (x := fun z a b => vx data (c_d1 c + n * c0 + z)%Z (c_h1 c + i * c1 + a)%Z (c_w1 c + j * c2 + b)%Z) in *.
  destruct (amin_spec c1 (fun a => amin c0 (fun z => amin c2 (fun b => x z a b))) H1) as [A (a0 & Ha0 & Ea)]. split.
  - intros z a b Hz Ha Hb. specialize (A a Ha). cbn beta in A.
    destruct (amin_spec c0 (fun z => amin c2 (fun b => x z a b)) H0) as [B _]. specialize (B z Hz). cbn beta in B.
    destruct (amin_spec c2 (fun b => x z a b) H2) as [D _]. specialize (D b Hb). cbn beta in D.
    unfold x in V, A, B, D. cbn beta in *. rewrite V. eapply Qle_trans; [exact A|]. eapply Qle_trans; [exact B|exact D].
  - destruct (amin_spec c0 (fun z => amin c2 (fun b => x z a0 b)) H0) as [_ (z0 & Hz0 & Ez)].
    destruct (amin_spec c2 (fun b => x z0 a0 b) H2) as [_ (b0 & Hb0 & Eb)]. unfold in_rng in *.
    exists z0, a0, b0. split; [lia|]. split; [lia|]. split; [lia|].
    eapply Qeq_trans; [exact V|]. eapply Qeq_trans; [exact Ea|]. eapply Qeq_trans; [exact Ez|exact Eb].
Qed.

Lemma downsample_dataset_amax data c c0 c1 c2 :
  good_crop (dep data) (hei data) (wid data) c -> 1 <= c0 -> 1 <= c1 -> 1 <= c2 ->
  let d1 := dep data - c_d2 c - c_d1 c in let h1 := hei data - c_h2 c - c_h1 c in let w1 := wid data - c_w2 c - c_w1 c in
  c0 <= d1 -> c1 <= h1 -> c2 <= w1 ->
  exists out, downsample_dataset amax data c c0 c1 c2 = Ok out /\ Z.of_nat (length out) = d1 / c0 /\
  forall n m, 0 <= n -> nth_error out (Z.to_nat n) = Some m ->
    forall i j, in_rng (h1 / c1) i -> in_rng (w1 / c2) j ->
    (forall z a b, 0 <= z < c0 -> 0 <= a < c1 -> 0 <= b < c2 -> (vx data (c_d1 c + n * c0 + z)%Z (c_h1 c + i * c1 + a)%Z (c_w1 c + j * c2 + b)%Z <= px m i j)%Q) /\
    exists z a b, 0 <= z < c0 /\ 0 <= a < c1 /\ 0 <= b < c2 /\ (px m i j == vx data (c_d1 c + n * c0 + z)%Z (c_h1 c + i * c1 + a)%Z (c_w1 c + j * c2 + b)%Z)%Q.
Proof.
  intros Hg H0 H1 H2 d1 h1 w1 L0 L1 L2.
  destruct (downsample_dataset_px amax data c c0 c1 c2 amax_ext Hg H0 H1 H2 L0 L1 L2) as (out & E & L & P).
  exists out. split; [exact E|]. split; [exact L|]. intros n m Hn En i j Hi Hj. destruct (P n m Hn En) as (_ & _ & V).
  specialize (V i j Hi Hj). set (x := fun z a b => vx data (c_d1 c + n * c0 + z)%Z (c_h1 c + i * c1 + a)%Z (c_w1 c + j * c2 + b)%Z) in *.
  destruct (amax_spec c1 (fun a => amax c0 (fun z => amax c2 (fun b => x z a b))) H1) as [A (a0 & Ha0 & Ea)]. split.
  - intros z a b Hz Ha Hb. specialize (A a Ha). cbn beta in A.
    destruct (amax_spec c0 (fun z => amax c2 (fun b => x z a b)) H0) as [B _]. specialize (B z Hz). cbn beta in B.
    destruct (amax_spec c2 (fun b => x z a b) H2) as [D _]. specialize (D b Hb). cbn beta in D.
    unfold x in V, A, B, D. cbn beta in *. rewrite V. eapply Qle_trans; [exact D|]. eapply Qle_trans; [exact B|exact A].
  - destruct (amax_spec c0 (fun z => amax c2 (fun b => x z a0 b)) H0) as [_ (z0 & Hz0 & Ez)].
    destruct (amax_spec c2 (fun b => x z0 a0 b) H2) as [_ (b0 & Hb0 & Eb)]. unfold in_rng in *.
    exists z0, a0, b0. split; [lia|]. split; [lia|]. split; [lia|].
    eapply Qeq_trans; [exact V|]. eapply Qeq_trans; [exact Ea|]. eapply Qeq_trans; [exact Ez|exact Eb].
Qed.
