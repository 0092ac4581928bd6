(** Proofs about maps of local shifts in two dimensions: normalisation, meaning of the CPU result. *)
From Coq Require Import Reals Lra ZArith Lia Permutation FunctionalExtensionality.
From Verif Require Import Np P_Np M_phase_R P_phase_R M_corr S_corr P_corr P_corr2 P_corr3 P_corr4 M_local S_local P_peakext P_local P_local2.
From Coq Require Import List. Import ListNotations.
Open Scope Z_scope.

(** ** normalisation rescales *)
Lemma spread_pos d h w f : 0 <= d -> 0 <= h -> 0 <= w -> varies (pixels3 d h w f) ->
  let mean := (rsum3 d h w f / (IZR d * IZR h * IZR w))%R in
  (0 < sqrt (rsum3 d h w (fun k a b => (f k a b - mean) * (f k a b - mean)) / (IZR d * IZR h * IZR w)))%R.
Proof.
  intros D H W V mean. apply varies_pos in V as P. unfold deviations, average in P. rewrite INR_pixels3 in P by lia. rewrite pixels3_map, dot_pixels3 in P.
  rewrite <- !rsum3_total in P. fold mean in P. apply sqrt_lt_R0. apply Rdiv_lt_0_compat; [exact P|].
  rewrite <- (INR_pixels3 d h w f) by lia. apply lt_0_INR. destruct V as (x & _ & Hx & _). destruct (pixels3 d h w f); [destruct Hx|cbn; lia].
Qed.
Lemma normalize_stack v : 0 <= dep v -> 0 <= hei v -> 0 <= wid v -> varies (window (Stack v) 0 0 (hei v) (wid v)) ->
  exists s t, (0 < s)%R /\ normalize_image (Stack v) = rescaled s t (Stack v).
Proof.
  intros D H W V. pose proof (spread_pos (dep v) (hei v) (wid v) (vx v) D H W V) as P. cbv zeta in P.
  unfold normalize_image. set (mean := rmean3 v). set (std := sqrt _). set (mn := rminimum _).
  assert (Ps : (0 < std)%R) by exact P. exists (/ std)%R, (- (mean / std) - mn)%R. split; [apply Rinv_0_lt_compat; exact Ps|].
  cbn [rescaled]. f_equal. f_equal. apply functional_extensionality. intros k. apply functional_extensionality. intros i. apply functional_extensionality. intros j.
  unfold Rdiv. ring.
Qed.
Definition standardised (h w : Z) (m1 : Z -> Z -> R) : data :=
  let mean := rmean2i (mkimg h w m1) in
  let std := sqrt (rmean2i (mkimg h w (fun i j => (m1 i j - mean) * (m1 i j - mean))%R)) in
  One (mkimg h w (fun i j => (m1 i j - mean) / std)%R).
Lemma normalize_one m : 0 <= nrow m -> 0 <= ncol m -> varies (window (One (equalised m)) 0 0 (nrow m) (ncol m)) ->
  exists s t, (0 < s)%R /\ normalize_image (One m) = rescaled s t (One (equalised m)).
Proof.
  intros H W V. pose proof (spread_pos 1 (nrow m) (ncol m) (fun _ => px (equalised m)) ltac:(lia) H W V) as P. cbv zeta in P.
  rewrite !rsum3_1 in P. rewrite !Rmult_1_l in P.
  change (normalize_image (One m)) with (standardised (nrow m) (ncol m) (fun i j => (px m i j / rsum (nrow m) (fun a => px m a j) / rsum (ncol m) (fun b => px m i b))%R)).
  replace (fun i j => (px m i j / rsum (nrow m) (fun a => px m a j) / rsum (ncol m) (fun b => px m i b))%R) with (px (equalised m))
    by (apply functional_extensionality; intros i; apply functional_extensionality; intros j; rewrite !rsum_total; reflexivity).
  unfold standardised. set (mean := rmean2i _). set (std := sqrt _).
  assert (Ps : (0 < std)%R) by exact P. exists (/ std)%R, (- (mean / std))%R. split; [apply Rinv_0_lt_compat; exact Ps|].
  cbn [rescaled]. f_equal. cbn [nrow ncol equalised]. f_equal. apply functional_extensionality. intros i. apply functional_extensionality. intros j.
  unfold Rdiv. cbn [px equalised]. unfold Rdiv. ring.
Qed.
Lemma rescaled_rescaled s t s' t' d : rescaled s t (rescaled s' t' d) = rescaled (s * s') (s * t' + t) d.
Proof.
  destruct d; cbn; f_equal; f_equal; repeat (apply functional_extensionality; intros); ring.
Qed.
Lemma rescaled_id d : rescaled 1 0 d = d.
Proof. destruct d as [ [n c f]|[k n c f] ]; cbn; f_equal; f_equal; repeat (apply functional_extensionality; intros); ring. Qed.
Lemma rescaled_slice s t d a b l r : dslice (rescaled s t d) a b l r = rescaled s t (dslice d a b l r).
Proof. destruct d; reflexivity. Qed.
Lemma rescaled_patch s t d i j r : patch (rescaled s t d) i j r = rescaled s t (patch d i j r).
Proof. destruct d; reflexivity. Qed.
Lemma rescaled_varies s t l : (0 < s)%R -> varies l -> varies (map (fun x => s * x + t)%R l).
Proof.
  intros S (x & y & Hx & Hy & N). exists (s * x + t)%R, (s * y + t)%R. split; [apply in_map_iff; eauto|]. split; [apply in_map_iff; eauto|].
  intros E. apply N. apply (Rmult_eq_reg_l s); lra.
Qed.
Lemma window_sub d i j h w i' j' h' w' : i <= i' -> i' + h' <= i + h -> j <= j' -> j' + w' <= j + w ->
  varies (window d i' j' h' w') -> varies (window d i j h w).
Proof.
  intros A B C D (x & y & Hx & Hy & N). exists x, y.
  assert (S : forall z, In z (window d i' j' h' w') -> In z (window d i j h w)); [|auto].
  intros z Hz. unfold window in *. apply in_flat_map in Hz. destruct Hz as (k & Hk & Hz). apply in_flat_map in Hz. destruct Hz as (a & Ha & Hz).
  apply in_map_iff in Hz. destruct Hz as (b & <- & Hb). apply zrange_In in Ha, Hb.
  apply in_flat_map. exists k. split; [exact Hk|]. apply in_flat_map. exists (i' + a - i). split; [apply zrange_In; lia|].
  apply in_map_iff. exists (j' + b - j). split; [f_equal; lia|apply zrange_In; lia].
Qed.

Lemma chunk_normal (norm ng : bool) v b b' e : let d := Stack v in 0 <= dep v -> 0 <= e -> 2 * e + 1 <= hei v -> 0 <= wid v ->
  e <= b -> b < b' -> b' <= hei v - e -> ((norm || ng)%bool = true -> textured d e) ->
  exists s t, (0 < s)%R /\ normalize_if norm (dslice (normalize_if ng d) (b - e) (b' + e) 0 (wid v)) = rescaled s t (dslice d (b - e) (b' + e) 0 (wid v)).
Proof.
  intros d D E H W B1 B2 B3 T.
  assert (G : exists s t, (0 < s)%R /\ normalize_if ng d = rescaled s t d).
  { destruct ng; cbn [normalize_if].
    - apply normalize_stack; try lia. apply (window_sub _ _ _ _ _ (e - e) 0 (2 * e + 1) (wid v)); try lia. apply T; [apply Bool.orb_true_r|cbn; lia].
    - exists 1%R, 0%R. split; [lra|]. symmetry. apply rescaled_id. }
  destruct G as (s & t & S & ->). rewrite rescaled_slice. destruct norm; cbn [normalize_if].
  - set (c := dslice d (b - e) (b' + e) 0 (wid v)).
    assert (Hc : hei (match c with Stack w => w | One _ => v end) = b' - b + 2 * e).
    { unfold c. cbn [dslice d wslice hei]. replace (b' + e) with (b - e + (b' - b + 2 * e)) by lia. rewrite slice_len by lia. reflexivity. }
    assert (Wc : wid (match c with Stack w => w | One _ => v end) = wid v) by (unfold c; cbn [dslice d wslice wid]; rewrite full_len by lia; reflexivity).
    destruct (normalize_stack (match rescaled s t c with Stack w => w | One _ => v end)) as (s' & t' & S' & E').
    + cbn. lia.
    + change (0 <= hei (match c with Stack w => w | One _ => v end)). lia.
    + change (0 <= wid (match c with Stack w => w | One _ => v end)). lia.
    + change (varies (window (rescaled s t c) 0 0 (hei (match c with Stack w => w | One _ => v end)) (wid (match c with Stack w => w | One _ => v end)))).
      rewrite rescaled_window. apply rescaled_varies; [exact S|]. rewrite Hc, Wc. unfold c. rewrite window_slice by (cbn; lia).
      apply (window_sub _ _ _ _ _ (b - e) 0 (2 * e + 1) (wid v)); try lia. apply T; [reflexivity|cbn; lia].
    + exists (s' * s)%R, (s' * t + t')%R. split; [apply Rmult_lt_0_compat; assumption|]. rewrite <- rescaled_rescaled. exact E'.
  - exists s, t. split; [exact S|reflexivity].
Qed.

Section cpu.
Context (polyfit2 : vec R -> R * R) (surface : img R -> R * R * R * R * R).
Notation find_shift := (find_shift_based_correlation_map polyfit2 surface).

Lemma default_launch : any_launch (1, 1) (fun l => l).
Proof. split; [cbn; lia|intros; apply Permutation_refl]. Qed.
Lemma cpu_launch ref mat margin axis sub meth dim1 size block sched block' sched' :
  find_shift ref mat margin axis sub meth dim1 size false block sched = find_shift ref mat margin axis sub meth dim1 size false block' sched'.
Proof. reflexivity. Qed.
Lemma pixel_rescaled ref mat i j r margin sub meth dim1 size block sched block' sched' s t s' t' :
  (meth = PolyFit -> reads_elements polyfit2 surface) ->
  same_kind ref mat -> 1 <= depth mat -> 0 <= r -> 1 <= margin -> (0 < s)%R -> (0 < s')%R ->
  find_shift (rescaled s t (patch ref i j (r + margin))) (rescaled s' t' (patch mat i j r)) margin NoAxis sub meth dim1 size false block sched =
  find_shift (patch ref i j (r + margin)) (patch mat i j r) margin NoAxis sub meth dim1 size false block' sched'.
Proof.
  intros RE K D R0 M S S'. rewrite (cpu_launch _ _ _ _ _ _ _ _ block sched (1, 1) (fun l => l)).
  pose proof (patch_fits ref mat i j r margin K D R0 ltac:(lia)) as F.
  destruct (patch_shape ref i j (r + margin)) as (Hr & Wr & _). destruct (patch_shape mat i j r) as (Hm & Wm & _).
  destruct (rescaled_shape s t (patch ref i j (r + margin))) as (Hr' & Wr' & _). destruct (rescaled_shape s' t' (patch mat i j r)) as (Hm' & Wm' & _).
  rewrite (cpu_launch (patch ref i j (r + margin)) _ _ _ _ _ _ _ block' sched' (1, 1) (fun l => l)).
  apply shift_same; try assumption; try (apply default_launch); try congruence; try lia.
  - apply rescaled_fits; exact F.
  - intros a b Ha Hb. apply correlation_rescaled; assumption.
Qed.

Lemma cpu_stack_spec v w win margin meth size block sched norm ng chunk : let ref := Stack v in let mat := Stack w in
  (meth = PolyFit -> reads_elements polyfit2 surface) ->
  same_size ref mat -> 1 <= dep w -> 0 <= win / 2 -> 1 <= margin ->
  let r := win / 2 in let e := r + margin in let H := height ref in let W := width ref in
  2 * e + 1 <= H -> 2 * e + 1 <= W -> ((norm || ng)%bool = true -> textured ref e /\ textured mat e) ->
  let result := find_local_shifts polyfit2 surface ref mat false win margin meth size CPU block sched norm ng chunk in
  (pieces H chunk <= H - 2 * e -> exists xs ys, result = Ok (xs, ys) /\
     shift_maps ref e e (fun i j => find_shift (patch ref i j e) (patch mat i j r) margin NoAxis true meth false size false (1, 1) (fun l => l)) xs ys) /\
  (H - 2 * e < pieces H chunk -> result = Err IndexError).
Proof.
  intros ref mat RE Ss D R0 M r e H W Hh Hw T result.
  set (f := fun i j => find_shift (patch ref i j e) (patch mat i j r) margin NoAxis true meth false size false (1, 1) (fun l => l)).
  pose proof Ss as (K & Sh & Sw). cbn [height width] in Sh, Sw. assert (Dv : dep v = dep w) by exact K.
  assert (Hv : hei v = H) by reflexivity. assert (Wv : wid v = W) by reflexivity. assert (Hw' : hei w = H) by (rewrite <- Hv; symmetry; exact Sh).
  assert (Ww : wid w = W) by (rewrite <- Wv; symmetry; exact Sw). assert (E0 : 1 <= e) by (unfold e, r; lia).
  assert (F : forall i j, exists p, f i j = Ok p) by (intros; apply pixel_total; try assumption; left; reflexivity).
  pose proof (full_2d_spec (fun n => multi_rows_2d_cpu polyfit2 surface win margin true meth size false block sched false n) false chunk win margin norm ng ref mat
     (fun i j => value_of (f i j)) Ss) as S. fold r in S. replace (margin + r) with e in S by (unfold e; lia). fold H W in S. cbv zeta in S. cbn [andb] in S.
  destruct S as (S1 & S2); try lia; [|split].
  - intros b b' B1 B2 B3.
    destruct (chunk_normal norm ng v b b' e) as (s & t & Sp & Es); try (clearbody e; lia); [intros N; apply (T N)|].
    destruct (chunk_normal norm ng w b b' e) as (s' & t' & Sp' & Es'); try (clearbody e; lia); [intros N; apply (T N)|].
    rewrite Wv in Es. rewrite Ww in Es'. fold ref in Es. fold mat in Es'.
    destruct (dslice_shape (normalize_if ng ref) (b - e) (b' + e) 0 W) as (Ch & Cw & Cd).
    destruct (normalize_shape ng ref) as (Nh & Nw & Nd). rewrite Nh in Ch. rewrite Nw in Cw. fold H in Ch. fold W in Cw. rewrite full_len in Cw by lia.
    replace (b' + e) with (b - e + (b' - b + 2 * e)) in Ch by lia. rewrite slice_len in Ch by (clearbody e; lia).
    replace (b - e + (b' - b + 2 * e)) with (b' + e) in Ch by lia.
    destruct (multi_cpu_spec polyfit2 surface win margin true meth size false block sched false norm
       (dslice (normalize_if ng ref) (b - e) (b' + e) 0 W) (dslice (normalize_if ng mat) (b - e) (b' + e) 0 W)) as (xs & ys & Em & N1 & N2 & N3 & N4 & V).
    + apply dslice_same, normalize_same, Ss.
    + rewrite (proj2 (proj2 (dslice_shape _ _ _ _ _))), (proj2 (proj2 (normalize_shape ng mat))). exact D.
    + exact R0.
    + exact M.
    + left. reflexivity.
    + rewrite Ch. fold r. fold e. lia.
    + rewrite Cw. fold r. fold e. lia.
    + fold r in N1, N2, N3, N4, V. fold e in N1, N2, N3, N4, V. rewrite Ch in N1, N3, V. rewrite Cw in N2, N4, V.
      exists xs, ys. split; [exact Em|]. repeat (split; [lia|]). intros a c Ha Hc. specialize (V a c ltac:(lia) ltac:(lia)).
      rewrite Es, Es' in V. unfold square in V. rewrite !rescaled_slice in V. fold (square (dslice ref (b - e) (b' + e) 0 W) (e + a) (e + c) e) in V.
      fold (square (dslice mat (b - e) (b' + e) 0 W) (e + a) (e + c) r) in V.
      assert (We : W = width mat) by (symmetry; exact Ww).
      rewrite (square_rows ref) in V by (change (height ref) with H; change (width ref) with W; clearbody e; lia). rewrite We in V.
      rewrite (square_rows mat) in V by (change (height mat) with (hei w); change (width mat) with (wid w); assert (0 <= r <= e) by (unfold e, r; lia); clearbody e r; lia).
      rewrite (pixel_rescaled ref mat _ _ r margin true meth false size block sched (1, 1) (fun l => l)) in V by assumption.
      replace (b - e + (e + a)) with (b + a) in V by lia. fold e in V. fold (f (b + a) (e + c)) in V. rewrite <- V. reflexivity.
  - intros P. destruct (S1 P) as (xs & ys & E & Sz & V). exists xs, ys. split; [exact E|]. split; [exact Sz|].
    intros i j Hi Hj. specialize (V i j Hi Hj). unfold holds_block in V. fold H W. destruct (F i j) as (p & Fp). fold (f i j). rewrite Fp in V |- *. cbn [value_of] in V.
    destruct (Z.leb_spec e i), (Z.ltb_spec i (H - e)), (Z.leb_spec e j), (Z.ltb_spec j (W - e)); cbn [andb] in V;
      (split; [intros; try lia; congruence|intros; try (exfalso; lia); exact V]).
  - exact S2.
Qed.
End cpu.
