(** Proofs about maps of local shifts in two dimensions: meaning, single images. *)
From Coq Require Import Reals Lra ZArith Lia Permutation FunctionalExtensionality.
From Verif Require Import Np P_Np M_phase_R P_phase_R M_corr S_corr P_corr P_corr2 P_corr3 P_corr4 M_local S_local P_peakext P_local P_local2 P_local3.
From Coq Require Import List. Import ListNotations.
Open Scope Z_scope.

Lemma patch_correlation ref mat i j r margin a b :
  correlation_at (patch ref i j (r + margin)) (patch mat i j r) a b = local_similarity ref mat i j r (a - margin) (b - margin).
Proof.
  unfold correlation_at, local_similarity. destruct (patch_shape mat i j r) as (-> & -> & _). rewrite !patch_window.
  f_equal. f_equal; f_equal; lia.
Qed.
Section cpu.
Context (polyfit2 : vec R -> R * R) (surface : img R -> R * R * R * R * R).
Notation find_shift := (find_shift_based_correlation_map polyfit2 surface).
Lemma pixel_best ref mat i j r margin meth size x y : same_kind ref mat -> 1 <= depth mat -> 0 <= r -> 1 <= margin ->
  find_shift (patch ref i j (r + margin)) (patch mat i j r) margin NoAxis true meth false size false (1, 1) (fun l => l) = Ok (x, y) ->
  (Rabs x <= IZR margin /\ Rabs y <= IZR margin)%R /\
  exists dy dx, - margin <= dy <= margin /\ - margin <= dx <= margin /\
    (forall dy' dx', - margin <= dy' <= margin -> - margin <= dx' <= margin ->
       (local_similarity ref mat i j r dy' dx' <= local_similarity ref mat i j r dy dx)%R) /\
    (meth <> PolyFit -> Rabs (x - IZR dx) < 1 /\ Rabs (y - IZR dy) < 1)%R.
Proof.
  intros K D R0 M E. pose proof (patch_fits ref mat i j r margin K D R0 ltac:(lia)) as F.
  destruct (patch_shape ref i j (r + margin)) as (Hr & Wr & _). destruct (patch_shape mat i j r) as (Hm & Wm & _).
  destruct (shift_template polyfit2 surface _ _ margin NoAxis true meth false size false (1, 1) (fun l => l) F) as (m & xs & ys & xp & yp & _ & E' & _ & Ex & Ey & a & b & Ha & Hb & Mx & _ & Near & Bx & By); [lia|apply default_launch|lia|].
  rewrite E in E'. injection E' as -> ->.
  replace ((width (patch ref i j (r + margin)) - width (patch mat i j r) + 1) / 2) with margin in Ex by (rewrite Wr, Wm; apply Z.div_unique_pos with 1; lia).
  replace ((height (patch ref i j (r + margin)) - height (patch mat i j r) + 1) / 2) with margin in Ey by (rewrite Hr, Hm; apply Z.div_unique_pos with 1; lia).
  rewrite Hr, Hm in Ha, By, Mx. rewrite Wr, Wm in Hb, Bx, Mx.
  replace (2 * (r + margin) + 1 - (2 * r + 1)) with (2 * margin) in * by lia. rewrite mult_IZR in Bx, By.
  split; [split; apply Rabs_le; lra|]. exists (a - margin), (b - margin). split; [lia|]. split; [lia|]. split.
  - intros dy' dx' Hy Hx. specialize (Mx (dy' + margin) (dx' + margin) ltac:(lia) ltac:(lia)). rewrite !patch_correlation in Mx.
    replace (dy' + margin - margin) with dy' in Mx by lia. replace (dx' + margin - margin) with dx' in Mx by lia. exact Mx.
  - intros Nm. destruct (Near Nm) as (N1 & N2). rewrite !minus_IZR. subst xs ys. split; [replace (xp - IZR margin - (IZR b - IZR margin))%R with (xp - IZR b)%R by lra|replace (yp - IZR margin - (IZR a - IZR margin))%R with (yp - IZR a)%R by lra]; assumption.
Qed.

Lemma cpu_one_spec m n win margin meth size block sched ng chunk (norm : bool) :
  (meth = PolyFit -> reads_elements polyfit2 surface) ->
  nrow m = nrow n -> ncol m = ncol n -> 0 <= win / 2 -> 1 <= margin ->
  let r := win / 2 in let e := r + margin in
  2 * e + 1 <= nrow m -> 2 * e + 1 <= ncol m ->
  (norm = true -> varies (window (One (equalised m)) 0 0 (nrow m) (ncol m)) /\ varies (window (One (equalised n)) 0 0 (nrow n) (ncol n))) ->
  let ref := One (if norm then equalised m else m) in let mat := One (if norm then equalised n else n) in
  exists xs ys, find_local_shifts polyfit2 surface (One m) (One n) false win margin meth size CPU block sched norm ng chunk = Ok (xs, ys) /\
     shift_maps (One m) e e (fun i j => find_shift (patch ref i j e) (patch mat i j r) margin NoAxis true meth false size false (1, 1) (fun l => l)) xs ys.
Proof.
  intros RE Nh Nw R0 M r e Hh Hw V ref mat. cbn [find_local_shifts].
  assert (E0 : 1 <= e) by (unfold e, r; lia).
  assert (Er : exists s t, (0 < s)%R /\ normalize_if norm (One m) = rescaled s t ref).
  { unfold ref. destruct norm; cbn [normalize_if]; [apply normalize_one; [lia..|apply V; reflexivity]|]. exists 1%R, 0%R. split; [lra|]. symmetry. apply rescaled_id. }
  assert (En : exists s t, (0 < s)%R /\ normalize_if norm (One n) = rescaled s t mat).
  { unfold mat. destruct norm; cbn [normalize_if]; [apply normalize_one; [lia..|apply V; reflexivity]|]. exists 1%R, 0%R. split; [lra|]. symmetry. apply rescaled_id. }
  destruct Er as (s & t & Sp & Er). destruct En as (s' & t' & Sp' & En).
  destruct (multi_cpu_spec polyfit2 surface win margin true meth size false block sched true norm (One m) (One n)) as (xs & ys & E & N1 & N2 & N3 & N4 & Vx);
    try assumption; [split; [exact I|split; assumption]|cbn; lia|left; reflexivity|].
  fold r in E, N1, N2, N3, N4, Vx. fold e in E, N1, N2, N3, N4, Vx. cbn [height width] in N1, N2, N3, N4, Vx.
  exists (pad_zero xs e), (pad_zero ys e). split; [exact E|]. split; [cbn [pad_zero nrow ncol height width]; rewrite N1, N2, N3, N4; lia|].
  cbn [height width]. intros i j Hi Hj. cbn [pad_zero px]. rewrite N1, N2, N3, N4. split.
  - intros (Bi & Bj). destruct (Z.leb_spec e i); [|lia]. destruct (Z.ltb_spec i (e + (nrow m - 2 * e))); [|lia].
    destruct (Z.leb_spec e j); [|lia]. destruct (Z.ltb_spec j (e + (ncol m - 2 * e))); [|lia]. cbn [andb]. rewrite Vx by lia.
    replace (e + (i - e)) with i by lia. replace (e + (j - e)) with j by lia. rewrite Er, En. unfold square. rewrite !rescaled_slice.
    fold (square ref i j e) (square mat i j r).
    assert (Re : r <= e) by (unfold e; lia).
    rewrite !square_patch by (unfold ref, mat; destruct norm; cbn [height width equalised nrow ncol]; unfold r in *; clearbody e; lia).
    symmetry. apply pixel_rescaled; try assumption; [exact I|cbn; lia].
  - intros B. destruct ((e <=? i) && (i <? e + (nrow m - 2 * e)) && (e <=? j) && (j <? e + (ncol m - 2 * e))) eqn:Q; [|split; reflexivity].
    exfalso. apply B. rewrite !Bool.andb_true_iff, !Z.leb_le, !Z.ltb_lt in Q. lia.
Qed.
End cpu.
