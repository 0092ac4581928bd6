(** Proofs about UMPA: chunks of rows and the whole maps. *)
From Coq Require Import Reals Lra ZArith Lia Permutation FunctionalExtensionality.
From Verif Require Import Np P_Np M_phase_R P_phase_R M_corr S_corr P_corr P_corr2 P_corr3 M_local S_local P_local P_local2 P_local8 M_fresnel P_fresnel M_umpa S_umpa P_umpa P_umpa2.
From Coq Require Import List. Import ListNotations.
Open Scope Z_scope.

Lemma rows_vol v b e i j r : 0 <= b -> b <= e -> e <= hei v -> 0 <= r -> 0 <= i - r -> b + i + r < e -> 0 <= j - r -> j + r < wid v ->
  wslice (wslice v b e 0 (wid v)) (i - r) (i + (r + 1)) (j - r) (j + (r + 1)) = pvol v (b + i) j r.
Proof.
  intros. pose proof (square_rows (Stack v) b e i j r) as Q. cbn [height width] in Q. specialize (Q ltac:(lia) ltac:(lia) ltac:(lia) ltac:(lia) ltac:(lia) ltac:(lia) ltac:(lia) ltac:(lia)).
  unfold square in Q. cbn [dslice patch] in Q. unfold pvol. congruence.
Qed.
Lemma rows_img (m : img R) b e i j r : 0 <= b -> b <= e -> e <= nrow m -> 0 <= r -> 0 <= i - r -> b + i + r < e -> 0 <= j - r -> j + r < ncol m ->
  islice (islice m b e 0 (ncol m)) (i - r) (i + (r + 1)) (j - r) (j + (r + 1)) = pimg m (b + i) j r.
Proof.
  intros. pose proof (square_rows (One m) b e i j r) as Q. cbn [height width] in Q. specialize (Q ltac:(lia) ltac:(lia) ltac:(lia) ltac:(lia) ltac:(lia) ltac:(lia) ltac:(lia) ltac:(lia)).
  unfold square in Q. cbn [dslice patch] in Q. unfold pimg. congruence.
Qed.
Lemma rows_px (m : img R) b e i j : 0 <= b <= nrow m -> 0 <= ncol m -> px (islice m b e 0 (ncol m)) i j = px m (b + i) j.
Proof. intros. cbn [islice px]. rewrite !slice_at by lia. reflexivity. Qed.

(** the four maps of a block hold the values of [q] *)
Definition are_maps (h w : Z) (q : Z -> Z -> quad) (c : maps) : Prop :=
  ((nrow (fst (fst c)) = h /\ ncol (fst (fst c)) = w) /\ (nrow (snd (fst c)) = h /\ ncol (snd (fst c)) = w) /\
   (nrow (fst (snd c)) = h /\ ncol (fst (snd c)) = w) /\ (nrow (snd (snd c)) = h /\ ncol (snd (snd c)) = w)) /\
  forall i j, 0 <= i < h -> 0 <= j < w ->
    (px (fst (fst c)) i j, px (snd (fst c)) i j, (px (fst (snd c)) i j, px (snd (snd c)) i j)) = q i j.
Lemma to_maps_are h w q f : (forall i j, 0 <= i < h -> 0 <= j < w -> f i j = q i j) -> are_maps h w q (to_maps h w f).
Proof.
  intros F. split; [repeat split|]. intros i j Hi Hj. cbn [to_maps fst snd px]. rewrite F by assumption. destruct (q i j) as ((a & b) & (c & d)). reflexivity.
Qed.

Section chunks.
Context (polyfit2 : vec R -> R * R) (surface : img R -> R * R * R * R * R).
Context (taper : Z -> R) (ref mat : vol R) (r m : Z) (dark : bool).
Let H := hei ref.
Let W := wid ref.
Let e := r + m.
Hypothesis (Dm : dep mat = dep ref) (Hm : hei mat = H) (Wm : wid mat = W) (R0 : 0 <= r) (M1 : 1 <= m).
Hypothesis (He : 2 * e + 1 <= H) (We : 2 * e + 1 <= W).
Notation L1 := (ul1 taper mat r). Notation L3 := (ul3 taper ref r). Notation L2 := (ul2 ref). Notation L4 := (ul4 taper ref mat r). Notation L6 := (ul6 taper ref r).
Notation rows m b f := (islice m b f 0 W).
Lemma table_rows u b f i j : nrow u = H -> ncol u = W -> e <= b -> b < f -> f <= H - e -> e <= i < f - b + e -> e <= j < W - e ->
  islice (rows u (b - e) (f + e)) (i - m) (i + (m + 1)) (j - m) (j + (m + 1)) = pimg u (b - e + i) j m /\ px (rows u (b - e) (f + e)) i j = px u (b - e + i) j.
Proof using All.
  intros Nr Nc B0 B1 B2 Hi Hj. unfold e in *. split.
  - rewrite <- Nc. apply rows_img; rewrite ?Nr, ?Nc; lia.
  - rewrite <- Nc. apply rows_px; rewrite ?Nr, ?Nc; lia.
Qed.
Lemma tables_shape : (nrow L1 = H /\ ncol L1 = W) /\ (nrow L3 = H /\ ncol L3 = W) /\ (nrow L4 = H /\ ncol L4 = W) /\ (nrow L6 = H /\ ncol L6 = W).
Proof using All. repeat split; unfold ul1, ul3, ul4, ul6; cbn [imap nrow ncol correlate_same sum_stack]; auto. Qed.

Lemma cpu_chunk win b f meth size (q : Z -> Z -> quad) : win / 2 = r -> e <= b -> b < f -> f <= H - e ->
  (forall i j, e <= i < H - e -> e <= j < W - e -> cpu_px polyfit2 surface taper ref mat r m dark i j meth size = Ok (q i j)) ->
  exists c, umpa_rows_cpu polyfit2 surface (wslice ref (b - e) (f + e) 0 W) (wslice mat (b - e) (f + e) 0 W) win m (uwindow taper r)
      (rows L1 (b - e) (f + e)) (rows L3 (b - e) (f + e)) L2 (rows L4 (b - e) (f + e)) (rows L6 (b - e) (f + e)) meth size dark = Ok c /\
    are_maps (f - b) (W - 2 * e) (fun i j => q (b + i) (e + j)) c.
Proof using All.
  intros Wr B0 B1 B2 Q. unfold umpa_rows_cpu. rewrite radius_of, Wr. fold e. cbn [wslice hei wid]. fold H W.
  replace (slen H (b - e) (f + e)) with (f - b + 2 * e) by (replace (f + e) with (b - e + (f - b + 2 * e)) by lia; rewrite slice_len by lia; lia).
  rewrite full_len by lia.
  replace (f - b + 2 * e - e) with (e + (f - b)) by lia. replace (W - e) with (e + (W - 2 * e)) by lia.
  destruct tables_shape as ((N1 & C1) & (N3 & C3) & (N4 & C4) & (N6 & C6)).
  match goal with |- context [mapr (fun i => mapr (fun j => @?F i j) _) _] =>
    pose proof (nested_mapr F (fun i j => q (b - e + i) j) e (f - b) e (W - 2 * e) ltac:(lia) ltac:(lia)) as N end.
  cbv beta in N. rewrite N; clear N.
  - cbn [bindr]. eexists. split; [reflexivity|].
    replace (e + (f - b) - e) with (f - b) by lia. replace (e + (W - 2 * e) - e) with (W - 2 * e) by lia. apply to_maps_are. intros i j Hi Hj.
    rewrite (prange_nth (fun i => map (fun j => q (b - e + i) j) (prange e (e + (W - 2 * e))))) by lia.
    rewrite (prange_nth (fun j => q (b - e + (e + i)) j)) by lia. f_equal; lia.
  - intros i j Hi Hj. rewrite <- Q by lia. unfold cpu_px. fold e.
    rewrite (proj1 (table_rows L3 b f i j N3 C3 B0 B1 B2 ltac:(lia) ltac:(lia))), (proj1 (table_rows L6 b f i j N6 C6 B0 B1 B2 ltac:(lia) ltac:(lia))),
      (proj2 (table_rows L1 b f i j N1 C1 B0 B1 B2 ltac:(lia) ltac:(lia))), (proj2 (table_rows L4 b f i j N4 C4 B0 B1 B2 ltac:(lia) ltac:(lia))).
    f_equal.
    + rewrite <- rows_vol with (b := b - e) (e := f + e) by (fold H W; lia). reflexivity.
    + rewrite <- rows_vol with (b := b - e) (e := f + e) by (rewrite ?Hm, ?Wm; unfold e in *; lia). rewrite Wm. reflexivity.
Qed.

Lemma gpu_chunk win b f block sched : win / 2 = r -> e <= b -> b < f -> f <= H - e -> any_launch block sched ->
  exists c, umpa_rows_gpu (wslice ref (b - e) (f + e) 0 W) (wslice mat (b - e) (f + e) 0 W) win m (uwindow taper r)
      (rows L1 (b - e) (f + e)) (rows L3 (b - e) (f + e)) L2 (rows L4 (b - e) (f + e)) (rows L6 (b - e) (f + e)) block sched dark = Ok c /\
    are_maps (f - b) (W - 2 * e) (fun i j => gpu_px taper ref mat r m dark (b + i) (e + j)) c.
Proof using All.
  intros Wr B0 B1 B2 (Bl & Sc). unfold umpa_rows_gpu.
  rewrite (proj2 (same_shape_spec (Stack (wslice ref (b - e) (f + e) 0 W)) (Stack (wslice mat (b - e) (f + e) 0 W)))).
  2: { split; [cbn; auto|]. cbn [height width wslice hei wid]. rewrite Hm, Wm. auto. }
  cbn [negb]. rewrite radius_of, Wr. fold e. cbn [wslice hei wid]. fold H W.
  replace (slen H (b - e) (f + e)) with (f - b + 2 * e) by (replace (f + e) with (b - e + (f - b + 2 * e)) by lia; rewrite slice_len by lia; lia).
  rewrite full_len by lia. replace (f - b + 2 * e - 2 * e) with (f - b) by lia.
  destruct (Z.ltb_spec (W - 2 * e) 1); [lia|]. destruct (Z.ltb_spec (f - b) 1); [lia|]. cbn [orb].
  eexists. split; [reflexivity|]. apply to_maps_are. intros i j Hi Hj.
  refine (launch_spec _ _ _ (fun i j => gpu_px taper ref mat r m dark (b + i) (e + j)) _ _ _ _ (proj1 Bl) (proj2 Bl) (Sc _) i j Hi Hj).
  intros x y Hx Hy. unfold umpa_kernel. replace (m + r) with e by (unfold e; lia).
  destruct (Z.ltb_spec y (f - b)); [|reflexivity]. destruct (Z.ltb_spec x (W - 2 * e)); [|reflexivity]. cbn [andb].
  destruct tables_shape as ((N1 & C1) & (N3 & C3) & (N4 & C4) & (N6 & C6)).
  rewrite (proj1 (table_rows L3 b f (y + e) (x + e) N3 C3 B0 B1 B2 ltac:(lia) ltac:(lia))), (proj1 (table_rows L6 b f (y + e) (x + e) N6 C6 B0 B1 B2 ltac:(lia) ltac:(lia))),
    (proj2 (table_rows L1 b f (y + e) (x + e) N1 C1 B0 B1 B2 ltac:(lia) ltac:(lia))), (proj2 (table_rows L4 b f (y + e) (x + e) N4 C4 B0 B1 B2 ltac:(lia) ltac:(lia))).
  assert (E1 : wslice (wslice ref (b - e) (f + e) 0 W) (y + e - e) (y + e + (e + 1)) (x + e - e) (x + e + (e + 1)) = pvol ref (b + y) (e + x) e).
  { rewrite rows_vol by (fold H W; lia). f_equal; lia. }
  assert (E2 : wslice (wslice mat (b - e) (f + e) 0 W) (y + e - r) (y + e + (r + 1)) (x + e - r) (x + e + (r + 1)) = pvol mat (b + y) (e + x) r).
  { rewrite <- Wm. rewrite rows_vol by (rewrite ?Hm, ?Wm; unfold e in *; lia). f_equal; lia. }
  rewrite E1, E2. unfold gpu_px. fold e. replace (b - e + (y + e)) with (b + y) by lia. replace (x + e) with (e + x) by lia. cbn [dep wslice].
  cbv zeta. destruct (locate_max_value _) as (xm & ym). destruct (locate_2d_peak_kernel _ xm ym) as (xp & yp). reflexivity.
Qed.

(** ** all chunks *)
Definition holds4 (q : Z -> Z -> quad) (p : Z) (s : maps) : Prop :=
  ((nrow (fst (fst s)) = H /\ ncol (fst (fst s)) = W) /\ (nrow (snd (fst s)) = H /\ ncol (snd (fst s)) = W) /\
   (nrow (fst (snd s)) = H /\ ncol (fst (snd s)) = W) /\ (nrow (snd (snd s)) = H /\ ncol (snd (snd s)) = W)) /\
  forall i j, 0 <= i < H -> 0 <= j < W ->
    if (e <=? i) && (i <? e + p) && (e <=? j) && (j <? W - e) then
      px (fst (fst s)) i j = fst (fst (q i j)) /\ px (snd (fst s)) i j = snd (fst (q i j)) /\
      (dark = true -> px (fst (snd s)) i j = fst (snd (q i j)) /\ px (snd (snd s)) i j = snd (snd (q i j)))
    else px (fst (fst s)) i j = 0%R /\ px (snd (fst s)) i j = 0%R.
Definition whole (q : Z -> Z -> quad) (o : img R * img R * option (img R * img R)) : Prop :=
  let in_e i n := e <= i < n - e in
  (nrow (fst (fst o)) = H /\ ncol (fst (fst o)) = W) /\ (nrow (snd (fst o)) = H /\ ncol (snd (fst o)) = W) /\
  (forall i j, in_e i H -> in_e j W -> px (fst (fst o)) i j = fst (fst (q i j)) /\ px (snd (fst o)) i j = snd (fst (q i j))) /\
  (forall i j, 0 <= i < H -> 0 <= j < W -> ~ (in_e i H /\ in_e j W) -> px (fst (fst o)) i j = 0%R /\ px (snd (fst o)) i j = 0%R) /\
  (dark = false -> snd o = None) /\
  (dark = true -> exists t v, snd o = Some (t, v) /\ nrow t = H /\ ncol t = W /\ nrow v = H /\ ncol v = W /\
     forall i j i' j', i' = clipZ i e (H - e - 1) -> j' = clipZ j e (W - e - 1) -> px t i j = fst (snd (q i' j')) /\ px v i j = snd (snd (q i' j'))).
Lemma umpa_spec smooth win meth size (gpu : bool) block sched chunk (q : Z -> Z -> quad) : win / 2 = r -> smooth (2 * r + 1) = taper ->
  (if gpu then any_launch block sched /\ (forall i j, e <= i < H - e -> e <= j < W - e -> q i j = gpu_px taper ref mat r m dark i j)
   else forall i j, e <= i < H - e -> e <= j < W - e -> cpu_px polyfit2 surface taper ref mat r m dark i j meth size = Ok (q i j)) ->
  (pieces H chunk <= H - 2 * e ->
     exists o, find_local_shifts_umpa polyfit2 surface smooth ref mat win m meth size gpu block sched chunk dark = Ok o /\ whole q o) /\
  (H - 2 * e < pieces H chunk -> find_local_shifts_umpa polyfit2 surface smooth ref mat win m meth size gpu block sched chunk dark = Err IndexError).
Proof using All.
  intros Wr Sm Q. unfold find_local_shifts_umpa.
  rewrite (proj2 (same_shape_spec (Stack ref) (Stack mat))) by (split; [cbn; auto|cbn [height width]; fold H W; rewrite Hm, Wm; auto]).
  cbn [negb]. fold H W. rewrite radius_of, Wr. replace (m + r) with e by (unfold e; lia).
  destruct (Z.ltb_spec W (2 * r + 1 + 2 * m)); [unfold e in *; lia|]. destruct (Z.ltb_spec H (2 * r + 1 + 2 * m)); [unfold e in *; lia|]. cbn [orb].
  destruct (num_chunk_pieces H chunk) as (Nc & Np); [lia|]. rewrite Nc. unfold array_split. destruct (Z.leb_spec (pieces H chunk) 0); [lia|]. cbn [bindr].
  rewrite Sm. replace (H - e - e) with (H - 2 * e) by lia.
  match goal with |- context [over_chunks ?st e _ ?z] => set (step := st); set (zero := z) end.
  assert (I0 : holds4 q 0 zero).
  { split; [repeat split|]. intros i j Hi Hj. rewrite Z.add_0_r.
    destruct (Z.leb_spec e i), (Z.ltb_spec i e); cbn [andb]; try lia; split; reflexivity. }
  assert (St : forall p len s, 0 <= p -> 0 < len -> p + len <= H - 2 * e -> holds4 q p s ->
     exists s', step s (e + p) (e + p + len) = Ok s' /\ holds4 q (p + len) s').
  { intros p len [[x y] [t v]] P0 Ln0 Ln1 (((S1 & S1') & (S2 & S2') & (S3 & S3') & (S4 & S4')) & I). cbn [fst snd] in *.
    set (b := e + p). set (f := b + len).
    assert (C : exists c, (if gpu then umpa_rows_gpu (wslice ref (b - e) (f + e) 0 W) (wslice mat (b - e) (f + e) 0 W) (2 * r + 1) m (uwindow taper r)
          (rows L1 (b - e) (f + e)) (rows L3 (b - e) (f + e)) L2 (rows L4 (b - e) (f + e)) (rows L6 (b - e) (f + e)) block sched dark
        else umpa_rows_cpu polyfit2 surface (wslice ref (b - e) (f + e) 0 W) (wslice mat (b - e) (f + e) 0 W) (2 * r + 1) m (uwindow taper r)
          (rows L1 (b - e) (f + e)) (rows L3 (b - e) (f + e)) L2 (rows L4 (b - e) (f + e)) (rows L6 (b - e) (f + e)) meth size dark) = Ok c /\
      are_maps (f - b) (W - 2 * e) (fun i j => q (b + i) (e + j)) c).
    { assert (Wn : (2 * r + 1) / 2 = r) by (symmetry; apply Z.div_unique_pos with 1; lia). destruct gpu.
      - destruct Q as (La & Qg). destruct (gpu_chunk (2 * r + 1) b f block sched Wn) as (c & Ec & Ac); [unfold f, b; lia..|exact La|].
        exists c. split; [exact Ec|]. destruct Ac as (A1 & A2). split; [exact A1|]. intros i j Hi Hj. rewrite A2 by assumption. symmetry. apply Qg; unfold f, b in *; lia.
      - apply (cpu_chunk (2 * r + 1) b f meth size q Wn); [unfold f, b; lia..|exact Q]. }
    destruct C as ([[cx cy] [ct cv]] & Ec & ((N1 & C1) & (N2 & C2) & (N3 & C3) & (N4 & C4)) & V). cbn [fst snd] in *.
    assert (SW : slen W e (- e) = W - 2 * e) by (rewrite crop_len by lia; lia).
    destruct (store_block_ok x b f e (- e) cx) as (x' & Ex & Sx1 & Sx2 & Vx); [rewrite ?S1, ?S1'; unfold f, b in *; lia..|].
    destruct (store_block_ok y b f e (- e) cy) as (y' & Ey & Sy1 & Sy2 & Vy); [rewrite ?S2, ?S2'; unfold f, b in *; lia..|].
    destruct (store_block_ok t b f e (- e) ct) as (t' & Et & St1 & St2 & Vt); [rewrite ?S3, ?S3'; unfold f, b in *; lia..|].
    destruct (store_block_ok v b f e (- e) cv) as (v' & Ev & Sv1 & Sv2 & Vv); [rewrite ?S4, ?S4'; unfold f, b in *; lia..|].
    exists (x', y', (if dark then (t', v') else (t, v))). split.
    - unfold step. fold b. fold f. cbn [fst snd].
      match goal with |- context [bindr ?A _] => match A with (if gpu then _ else _) => change A with (if gpu then umpa_rows_gpu (wslice ref (b - e) (f + e) 0 W) (wslice mat (b - e) (f + e) 0 W) (2 * r + 1) m (uwindow taper r)
          (rows L1 (b - e) (f + e)) (rows L3 (b - e) (f + e)) L2 (rows L4 (b - e) (f + e)) (rows L6 (b - e) (f + e)) block sched dark
        else umpa_rows_cpu polyfit2 surface (wslice ref (b - e) (f + e) 0 W) (wslice mat (b - e) (f + e) 0 W) (2 * r + 1) m (uwindow taper r)
          (rows L1 (b - e) (f + e)) (rows L3 (b - e) (f + e)) L2 (rows L4 (b - e) (f + e)) (rows L6 (b - e) (f + e)) meth size dark) end end.
      rewrite Ec. cbn [bindr fst snd]. rewrite Ex. cbn [bindr]. rewrite Ey. cbn [bindr]. destruct dark; [rewrite Et; cbn [bindr]; rewrite Ev|]; reflexivity.
    - split; [cbn [fst snd]; destruct dark; cbn [fst snd]; repeat split; congruence|]. cbn [fst snd]. intros i j Hi Hj. specialize (I i j Hi Hj).
      assert (Tv : dark = true -> px (fst (if dark then (t', v') else (t, v))) i j = px t' i j /\ px (snd (if dark then (t', v') else (t, v))) i j = px v' i j)
        by (intros ->; auto).
      rewrite Vx, Vy, C1, C2. rewrite Vt, Vv, C3, C4 in Tv. replace (e + (W - 2 * e)) with (W - e) in * by lia. replace (e + (p + len)) with f by (unfold f, b; lia). fold b in I.
      destruct (Z.leb_spec e j), (Z.ltb_spec j (W - e)); cbn [andb] in *; rewrite ?Bool.andb_false_r, ?Bool.andb_true_r in *; cbn [andb] in *;
        rewrite ?Bool.andb_false_r, ?Bool.andb_true_r in *; try assumption.
      destruct (Z.leb_spec b i), (Z.ltb_spec i f); cbn [andb] in *; rewrite ?Bool.andb_false_r, ?Bool.andb_true_r in *; try (unfold f in *; lia).
      + destruct (Z.leb_spec e i); [|unfold b in *; lia]. specialize (V (i - b) (j - e) ltac:(lia) ltac:(lia)). replace (b + (i - b)) with i in V by lia. replace (e + (j - e)) with j in V by lia.
        rewrite <- V. cbn [fst snd]. split; [reflexivity|]. split; [reflexivity|exact Tv].
      + destruct (Z.ltb_spec i b); [lia|]. rewrite Bool.andb_false_r in I. exact I.
      + destruct (Z.ltb_spec i b); [|lia]. rewrite Bool.andb_true_r in I. destruct (Z.leb_spec e i); [|exact I].
        destruct I as (I1 & I2 & I3). split; [exact I1|]. split; [exact I2|]. intros Dk. destruct (Tv Dk) as (-> & ->). exact (I3 Dk). }
  split.
  - intros K. destruct (over_chunks_ok step e (holds4 q) (split_sizes (H - 2 * e) (pieces H chunk)) 0 zero) as ([[xs ys] [ts vs]] & Eo & ((S1 & S2 & S3 & S4) & I)).
    + apply split_sizes_pos; lia.
    + exact I0.
    + intros p len s P0 Ln0 Ln1. rewrite split_sizes_sum in Ln1 by lia. apply St; lia.
    + rewrite split_sizes_sum in I by lia. cbn [fst snd] in *. rewrite Eo. cbn [bindr]. eexists. split; [reflexivity|].
      replace (e + (0 + (H - 2 * e))) with (H - e) in I by lia.
      split; [exact S1|]. split; [exact S2|]. cbn [fst snd]. split; [|split; [|split] ].
      * intros i j Hi Hj. specialize (I i j ltac:(lia) ltac:(lia)).
        destruct (Z.leb_spec e i); [|lia]. destruct (Z.ltb_spec i (H - e)); [|lia]. destruct (Z.leb_spec e j); [|lia]. destruct (Z.ltb_spec j (W - e)); [|lia].
        cbn [andb] in I. split; apply I.
      * intros i j Hi Hj O. specialize (I i j ltac:(lia) ltac:(lia)).
        destruct (Z.leb_spec e i); [|exact I]. destruct (Z.ltb_spec i (H - e)); [|exact I]. destruct (Z.leb_spec e j); [|exact I]. destruct (Z.ltb_spec j (W - e)); [|exact I].
        exfalso. apply O. lia.
      * intros Dk. rewrite Dk. reflexivity.
      * intros Dk. rewrite Dk. eexists _, _. split; [reflexivity|]. destruct S3 as (T1 & T2). destruct S4 as (T3 & T4).
        cbn [pad_edge islice nrow ncol px]. rewrite T1, T2, T3, T4. rewrite !crop_len by lia. rewrite !slice_at by lia.
        repeat (split; [lia|]). intros i j i' j' Ei Ej.
        assert (G : forall a n, 2 * e + 1 <= n -> e + clipZ (a - e) 0 (n - e - e - 1) = clipZ a e (n - e - 1)) by (intros; unfold clipZ; lia).
        rewrite !G by lia. rewrite <- Ei, <- Ej.
        assert (e <= i' <= H - e - 1) by (rewrite Ei; unfold clipZ; lia). assert (e <= j' <= W - e - 1) by (rewrite Ej; unfold clipZ; lia).
        specialize (I i' j' ltac:(lia) ltac:(lia)).
        destruct (Z.leb_spec e i'); [|lia]. destruct (Z.ltb_spec i' (H - e)); [|lia]. destruct (Z.leb_spec e j'); [|lia]. destruct (Z.ltb_spec j' (W - e)); [|lia].
        cbn [andb] in I. apply I. exact Dk.
  - intros K. destruct (split_sizes_empty (H - 2 * e) (pieces H chunk)) as (l1 & l2 & -> & P1 & Sq); [lia|].
    rewrite (over_chunks_empty step e (holds4 q)); [reflexivity|exact P1|exact I0|]. intros p len s P0 Ln0 Ln1. apply St; lia.
Qed.
End chunks.
