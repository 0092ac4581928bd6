(** Proofs about maps of local shifts in two dimensions on a GPU and in hybrid mode. *)
From Coq Require Import Reals Lra ZArith Lia Permutation FunctionalExtensionality.
From Verif Require Import Np P_Np M_phase_R P_phase_R M_corr S_corr P_corr P_corr2 P_corr3 P_corr4 M_local S_local P_peakext P_local P_local2 P_local3 P_local4 P_local8 P_local9.
From Coq Require Import List. Import ListNotations.
Open Scope Z_scope.

Lemma kernel_near m y x : (Rabs (fst (locate_2d_peak_kernel m x y) - IZR x) < 1 /\ Rabs (snd (locate_2d_peak_kernel m x y) - IZR y) < 1)%R.
Proof.
  unfold locate_2d_peak_kernel. destruct (Reqb _ 0); cbn [fst snd].
  - rewrite !Rminus_diag_eq, Rabs_R0 by reflexivity. lra.
  - assert (G : forall z o : R, (Rabs ((if (Rltb (Rabs o) 1 && Rltb 0 (Rabs o))%bool then z + o else z) - z) < 1)%R).
    { intros z o. destruct (Rltb (Rabs o) 1) eqn:Q; cbn [andb].
      - apply Rltb_t in Q. destruct (Rltb 0 (Rabs o)); [replace (z + o - z)%R with o by lra; exact Q|rewrite Rminus_diag_eq, Rabs_R0 by reflexivity; lra].
      - rewrite Rminus_diag_eq, Rabs_R0 by reflexivity. lra. }
    split; apply G.
Qed.

Section pixel.
Context (polyfit2 : vec R -> R * R) (surface : img R -> R * R * R * R * R).
Notation find_shift := (find_shift_based_correlation_map polyfit2 surface).
(** the shift found by the CPU from the correlation map of a GPU thread *)
Lemma find_of_map ref mat i j r margin meth size : (meth = PolyFit -> reads_elements polyfit2 surface) ->
  same_kind ref mat -> 1 <= depth mat -> 0 <= r -> 1 <= margin ->
  let m := gen_2d_corr_map (patch ref i j (r + margin)) (patch mat i j r) in
  (nrow m = 2 * margin + 1 /\ ncol m = 2 * margin + 1 /\
   forall a b, 0 <= a < nrow m -> 0 <= b < ncol m -> px m a b = local_similarity ref mat i j r (a - margin) (b - margin)) /\
  exists x y, locate_peak polyfit2 surface m true meth false size true = Ok (x, y) /\
  find_shift (patch ref i j (r + margin)) (patch mat i j r) margin NoAxis true meth false size false (1, 1) (fun l => l) = Ok (x - IZR margin, y - IZR margin)%R.
Proof.
  intros RE K D R0 M m. pose proof (patch_fits ref mat i j r margin K D R0 ltac:(lia)) as F.
  destruct (patch_shape ref i j (r + margin)) as (Hr & Wr & _). destruct (patch_shape mat i j r) as (Hm & Wm & _).
  destruct (gpu_map_spec _ _ F) as (Gn & Gc & Gv). fold m in Gn, Gc, Gv. rewrite Hr, Hm in Gn, Gv. rewrite Wr, Wm in Gc, Gv.
  replace (2 * (r + margin) + 1 - (2 * r + 1)) with (2 * margin) in * by lia.
  split. { split; [exact Gn|]. split; [exact Gc|]. intros a b Ha Hb. rewrite Gv by lia. apply patch_correlation. }
  destruct (shift_template polyfit2 surface _ _ margin NoAxis true meth false size false (1, 1) (fun l => l) F) as (m' & xs & ys & xp & yp & Em & E & L & Ex & Ey & _); [lia|apply default_launch|lia|].
  replace ((width (patch ref i j (r + margin)) - width (patch mat i j r) + 1) / 2) with margin in Ex by (rewrite Wr, Wm; apply Z.div_unique_pos with 1; lia).
  replace ((height (patch ref i j (r + margin)) - height (patch mat i j r) + 1) / 2) with margin in Ey by (rewrite Hr, Hm; apply Z.div_unique_pos with 1; lia).
  exists xp, yp. rewrite E, Ex, Ey. split; [|reflexivity]. rewrite <- L. cbn [axis_dim].
  destruct (corr_map_spec _ _ false (1, 1) (fun l => l) F) as (m2 & Em' & Nm & Cm & Vm); [cbn; lia|cbn; lia|intros; apply Permutation_refl|].
  rewrite Em in Em'. injection Em' as <-. rewrite Hr, Hm in Nm. rewrite Wr, Wm in Cm.
  apply peak_ext; try assumption; try lia. split; [lia|]. split; [lia|]. intros a b Ha Hb. unfold in_rng in Ha, Hb. rewrite Gv, Vm by lia. reflexivity.
Qed.
Lemma best_first ref mat i j r margin m y x : nrow m = 2 * margin + 1 -> ncol m = 2 * margin + 1 ->
  (forall a b, 0 <= a < nrow m -> 0 <= b < ncol m -> px m a b = local_similarity ref mat i j r (a - margin) (b - margin)) ->
  (first_max2 m y x <-> best_displacement ref mat i j r margin (y - margin) (x - margin)).
Proof using.
  clear.
  intros N C V. unfold best_displacement. split.
  - intros (Fy & Fx & Mx & Fi). split; [lia|]. split; [lia|]. intros dy' dx' Hy Hx.
    pose proof (Mx (dy' + margin) (dx' + margin) ltac:(lia) ltac:(lia)) as Q. rewrite !V in Q by lia.
    replace (dy' + margin - margin) with dy' in Q by lia. replace (dx' + margin - margin) with dx' in Q by lia. split; [exact Q|].
    intros Eq. destruct (Z_lt_le_dec (y - margin) dy') as [|Hle]; [auto|]. destruct (Z.eq_dec (y - margin) dy') as [E1|E1]; [destruct (Z_le_gt_dec (x - margin) dx'); [auto|]|];
      exfalso; specialize (Fi (dy' + margin) (dx' + margin) ltac:(lia) ltac:(lia) ltac:(lia)); rewrite !V in Fi by lia;
      replace (dy' + margin - margin) with dy' in Fi by lia; replace (dx' + margin - margin) with dx' in Fi by lia; lra.
  - intros (By & Bx & Q). split; [lia|]. split; [lia|]. split.
    + intros i' j' Hi Hj. rewrite !V by lia. apply Q; lia.
    + intros i' j' Hi Hj Lt. rewrite !V by lia. destruct (Q (i' - margin) (j' - margin)) as (Q1 & Q2); [lia..|].
      destruct Q1 as [Q1|Q1]; [exact Q1|]. destruct (Q2 Q1); lia.
Qed.
(** GPU against CPU at one pixel *)
Lemma pixel_gpu ref mat i j r margin size : same_kind ref mat -> 1 <= depth mat -> 0 <= r -> 1 <= margin ->
  let g := gpu_pixel margin (gen_2d_corr_map (patch ref i j (r + margin)) (patch mat i j r)) in
  exists dy dx, best_displacement ref mat i j r margin dy dx /\
    (Rabs (fst g - IZR dx) < 1 /\ Rabs (snd g - IZR dy) < 1)%R /\
    (on_a_side margin dy dx -> g = (IZR dx, IZR dy)) /\
    (~ on_a_side margin dy dx -> find_shift (patch ref i j (r + margin)) (patch mat i j r) margin NoAxis true Diff false size false (1, 1) (fun l => l) = Ok g).
Proof.
  intros K D R0 M g. destruct (find_of_map ref mat i j r margin Diff size ltac:(discriminate) K D R0 M) as ((N & C & V) & x & y & L & E).
  set (m := gen_2d_corr_map _ _) in *. destruct (max_value_first m) as (y0 & x0 & Em & F); [lia..|].
  pose proof (proj1 (best_first ref mat i j r margin m y0 x0 N C V) F) as B. exists (y0 - margin), (x0 - margin). split; [exact B|].
  unfold g, gpu_pixel. rewrite Em. pose proof (kernel_near m y0 x0) as (K1 & K2). destruct (locate_2d_peak_kernel m x0 y0) as (kx & ky) eqn:Ek. cbn [fst snd] in *.
  rewrite !minus_IZR. split; [|split].
  - split; [replace (kx - IZR margin - (IZR x0 - IZR margin))%R with (kx - IZR x0)%R by lra|replace (ky - IZR margin - (IZR y0 - IZR margin))%R with (ky - IZR y0)%R by lra]; assumption.
  - intros Sd. pose proof (kernel_boundary m y0 x0 F) as Kb. destruct F as (Fy & Fx & _). rewrite Kb in Ek by (unfold on_a_side in Sd; lia). injection Ek as <- <-. reflexivity.
  - intros Ns. rewrite E. pose proof F as (Fy & Fx & _). rewrite N in Fy. rewrite C in Fx.
    destruct (Z.eq_dec (Z.abs (y0 - margin)) margin) as [Ey|Ey].
    + assert (Z.abs (x0 - margin) = margin) as Ex by (unfold on_a_side in Ns; lia).
      rewrite (peak_corner polyfit2 surface m y0 x0 size F) in L by lia. injection L as <- <-.
      rewrite (kernel_boundary m y0 x0 F) in Ek by lia. injection Ek as <- <-. reflexivity.
    + assert (Z.abs (x0 - margin) <> margin) as Ex by (unfold on_a_side in Ns; lia).
      rewrite (peak_interior polyfit2 surface m y0 x0 size F) in L by lia. rewrite Ek in L. injection L as <- <-. reflexivity.
Qed.
End pixel.

(** ** one chunk *)
Lemma gpu_2d_spec win margin block sched norm ref mat : same_size ref mat -> any_launch block sched ->
  0 <= win / 2 -> 1 <= margin ->
  let r := win / 2 in let e := r + margin in let H := height ref in let W := width ref in
  2 * e + 1 <= H -> 2 * e + 1 <= W ->
  let ref' := normalize_if norm ref in let mat' := normalize_if norm mat in
  exists xs ys, multi_rows_2d_gpu win margin block sched false norm ref mat = Ok (xs, ys) /\
    nrow xs = H - 2 * e /\ ncol xs = W - 2 * e /\ nrow ys = H - 2 * e /\ ncol ys = W - 2 * e /\
    forall i j, 0 <= i < H - 2 * e -> 0 <= j < W - 2 * e ->
      (px xs i j, px ys i j) = gpu_pixel margin (gen_2d_corr_map (square ref' (e + i) (e + j) e) (square mat' (e + i) (e + j) r)).
Proof.
  intros Ss ((B1 & B2) & P) R0 M r e H W Hh Hw ref' mat'. unfold multi_rows_2d_gpu. rewrite (proj2 (same_shape_spec _ _) Ss). cbn [negb]. rewrite shape2_spec.
  rewrite radius_of. fold r. fold H W. fold e. fold ref' mat'.
  destruct (Z.ltb_spec (W - 2 * e) 1); [lia|]. destruct (Z.ltb_spec (H - 2 * e) 1); [lia|]. cbn [orb].
  set (val := fun i j => gpu_pixel margin (gen_2d_corr_map (square ref' (e + i) (e + j) e) (square mat' (e + i) (e + j) r))).
  assert (T : forall x y, 0 <= x -> 0 <= y -> kernel_2d ref' mat' (H - 2 * e) (W - 2 * e) r margin (x, y) =
     if (y <? H - 2 * e) && (x <? W - 2 * e) then Some (y, x, val y x) else None).
  { intros x y Hx Hy. unfold kernel_2d. fold e. destruct (Z.ltb_spec y (H - 2 * e)); [|reflexivity]. destruct (Z.ltb_spec x (W - 2 * e)); [|reflexivity]. cbn [andb].
    unfold val, gpu_pixel. replace (e + y) with (y + e) by lia. replace (e + x) with (x + e) by lia.
    destruct (locate_max_value _) as (xm & ym). destruct (locate_2d_peak_kernel _ xm ym). reflexivity. }
  pose proof (launch_spec _ _ _ val block _ (fun _ _ => (0%R, 0%R)) T B1 B2 (P _)) as L.
  eexists _, _. split; [reflexivity|]. cbn [nrow ncol px]. repeat (split; [reflexivity|]). intros i j Hi Hj. rewrite !L by lia. unfold val. destruct (gpu_pixel _ _). reflexivity.
Qed.
Section hybrid.
Context (polyfit2 : vec R -> R * R) (surface : img R -> R * R * R * R * R).
Notation find_shift := (find_shift_based_correlation_map polyfit2 surface).
Definition hybrid_pixel (meth : method) (size margin : Z) (ref mat : data) : R * R :=
  let p := value_of (locate_peak polyfit2 surface (gen_2d_corr_map ref mat) true meth false size true) in (fst p - IZR margin, snd p - IZR margin)%R.
Lemma hybrid_2d_spec win margin meth size block sched norm ref mat : (meth = PolyFit -> reads_elements polyfit2 surface) ->
  same_size ref mat -> 1 <= depth mat -> any_launch block sched ->
  0 <= win / 2 -> 1 <= margin ->
  let r := win / 2 in let e := r + margin in let H := height ref in let W := width ref in
  2 * e + 1 <= H -> 2 * e + 1 <= W ->
  let ref' := normalize_if norm ref in let mat' := normalize_if norm mat in
  exists xs ys, multi_rows_2d_hybrid polyfit2 surface win margin meth size block sched false norm ref mat = Ok (xs, ys) /\
    nrow xs = H - 2 * e /\ ncol xs = W - 2 * e /\ nrow ys = H - 2 * e /\ ncol ys = W - 2 * e /\
    forall i j, 0 <= i < H - 2 * e -> 0 <= j < W - 2 * e ->
      (px xs i j, px ys i j) = hybrid_pixel meth size margin (square ref' (e + i) (e + j) e) (square mat' (e + i) (e + j) r).
Proof.
  intros RE Ss D ((B1 & B2) & P) R0 M r e H W Hh Hw ref' mat'. unfold multi_rows_2d_hybrid. rewrite (proj2 (same_shape_spec _ _) Ss). cbn [negb]. rewrite shape2_spec.
  rewrite radius_of. fold r. fold H W. fold e. fold ref' mat'.
  destruct (Z.ltb_spec (W - 2 * e) 1); [lia|]. destruct (Z.ltb_spec (H - 2 * e) 1); [lia|]. cbn [orb].
  set (val := fun i j => gen_2d_corr_map (square ref' (e + i) (e + j) e) (square mat' (e + i) (e + j) r)).
  assert (T : forall x y, 0 <= x -> 0 <= y -> kernel_4d ref' mat' (H - 2 * e) (W - 2 * e) r margin (x, y) =
     if (y <? H - 2 * e) && (x <? W - 2 * e) then Some (y, x, val y x) else None).
  { intros x y Hx Hy. unfold kernel_4d. replace (margin + r) with e by (unfold e; lia). destruct (Z.ltb_spec y (H - 2 * e)); [|reflexivity]. destruct (Z.ltb_spec x (W - 2 * e)); [|reflexivity]. cbn [andb].
    unfold val. replace (e + y) with (y + e) by lia. replace (e + x) with (x + e) by lia. reflexivity. }
  pose proof (launch_spec _ _ _ val block _ (fun _ _ => mkimg (2 * margin + 1) (2 * margin + 1) (fun _ _ => 0%R)) T B1 B2 (P _)) as L.
  set (c4 := launch _ _ _) in *.
  set (f := fun i j => locate_peak polyfit2 surface (c4 i j) true meth false size true).
  destruct Ss as (K & Sh & Sw). destruct (normalize_shape norm ref) as (Nh & Nw & Nd). destruct (normalize_shape norm mat) as (Mh & Mw & Md).
  assert (F : forall i j, 0 <= i < 0 + (H - 2 * e) -> 0 <= j < 0 + (W - 2 * e) -> f i j = Ok (value_of (locate_peak polyfit2 surface (val i j) true meth false size true))).
  { intros i j Hi Hj. unfold f. rewrite L by lia. unfold val, ref', mat'. rewrite !square_patch by (rewrite ?Nh, ?Nw, ?Mh, ?Mw; fold H W; rewrite <- ?Sh, <- ?Sw; fold H W; lia).
    destruct (find_of_map polyfit2 surface (normalize_if norm ref) (normalize_if norm mat) (e + i) (e + j) r margin meth size) as (_ & x & y & Q & _); try assumption; [apply normalize_kind; exact K|rewrite Md; exact D|]. fold e in Q. rewrite Q. reflexivity. }
  pose proof (nested_mapr f _ 0 (H - 2 * e) 0 (W - 2 * e) ltac:(lia) ltac:(lia) F) as Em. unfold f in Em at 1. unfold prange in Em.
  replace (0 + (H - 2 * e) - 0) with (H - 2 * e) in Em by lia. replace (0 + (W - 2 * e) - 0) with (W - 2 * e) in Em by lia. rewrite Em. cbn [bindr]. clear Em.
  pose proof (two_images_px (fun i j => value_of (locate_peak polyfit2 surface (val i j) true meth false size true)) 0 (H - 2 * e) 0 (W - 2 * e)) as TI. cbv zeta in TI. unfold prange in TI.
  replace (0 + (H - 2 * e) - 0) with (H - 2 * e) in TI by lia. replace (0 + (W - 2 * e) - 0) with (W - 2 * e) in TI by lia.
  set (ti := two_images _ _ _) in *. destruct ti as (xp & yp). cbn [fst snd] in TI.
  eexists _, _. split; [reflexivity|]. cbn [nrow ncol px]. repeat (split; [reflexivity|]). intros i j Hi Hj. specialize (TI i j Hi Hj). unfold hybrid_pixel. fold (val i j).
  replace (0 + i) with i in TI by lia. replace (0 + j) with j in TI by lia. rewrite <- TI. reflexivity.
Qed.
End hybrid.

(** ** whole images *)
Section whole.
Context (win margin : Z) (R0 : 0 <= win / 2) (M : 1 <= margin).
Let r := win / 2.
Let e := r + margin.
Context (pv : data -> data -> R * R).
Context (multi : bool -> data -> data -> res (img R * img R)).
Lemma whole_2d (only : bool) chunk norm ng ref mat : same_size ref mat -> 1 <= depth mat ->
  let H := height ref in let W := width ref in 2 * e + 1 <= H -> 2 * e + 1 <= W ->
  let n1 := if (only && ng)%bool then false else norm in
  (forall ref mat, same_size ref mat -> 1 <= depth mat -> 2 * e + 1 <= height ref -> 2 * e + 1 <= width ref ->
     exists xs ys, multi n1 ref mat = Ok (xs, ys) /\
       nrow xs = height ref - 2 * e /\ ncol xs = width ref - 2 * e /\ nrow ys = height ref - 2 * e /\ ncol ys = width ref - 2 * e /\
       forall i j, 0 <= i < height ref - 2 * e -> 0 <= j < width ref - 2 * e ->
         (px xs i j, px ys i j) = pv (square (normalize_if n1 ref) (e + i) (e + j) e) (square (normalize_if n1 mat) (e + i) (e + j) r)) ->
  (forall i j s t s' t', (0 < s)%R -> (0 < s')%R -> pv (rescaled s t (patch ref i j e)) (rescaled s' t' (patch mat i j r)) = pv (patch ref i j e) (patch mat i j r)) ->
  (forall d, d = ref \/ d = mat -> forall b b', e <= b -> b < b' -> b' <= H - e -> exists s t, (0 < s)%R /\
     normalize_if n1 (dslice (normalize_if ng d) (b - e) (b' + e) 0 W) = rescaled s t (dslice d (b - e) (b' + e) 0 W)) ->
  (pieces H chunk <= H - 2 * e -> exists xs ys, full_image_2d multi only chunk win margin norm ng ref mat = Ok (xs, ys) /\
     shift_maps ref e e (fun i j => Ok (pv (patch ref i j e) (patch mat i j r))) xs ys) /\
  (H - 2 * e < pieces H chunk -> full_image_2d multi only chunk win margin norm ng ref mat = Err IndexError).
Proof using R0 M.
  intros Ss D H W Hh Hw n1 Mu Inv Nor.
  pose proof Ss as (K & Sh & Sw). assert (E0 : 1 <= e) by (unfold e; fold r in R0; lia). assert (Re : 0 <= r <= e) by (unfold e; fold r in R0; lia).
  pose proof (full_2d_spec multi only chunk win margin norm ng ref mat (fun i j => pv (patch ref i j e) (patch mat i j r)) Ss) as S.
  fold r in S. replace (margin + r) with e in S by (unfold e; lia). fold H W in S. cbv zeta in S. fold n1 in S.
  destruct S as (S1 & S2); try lia; [|split].
  - intros b b' B1 B2 B3.
    destruct (Nor ref (or_introl eq_refl) b b' B1 B2 B3) as (s & t & Sp & Es).
    destruct (Nor mat (or_intror eq_refl) b b' B1 B2 B3) as (s' & t' & Sp' & Es').
    destruct (dslice_shape (normalize_if ng ref) (b - e) (b' + e) 0 W) as (Ch & Cw & Cd).
    destruct (normalize_shape ng ref) as (Nh & Nw & Nd). rewrite Nh in Ch. rewrite Nw in Cw. fold H in Ch. fold W in Cw. rewrite full_len in Cw by lia.
    replace (b' + e) with (b - e + (b' - b + 2 * e)) in Ch by lia. rewrite slice_len in Ch by (clearbody e; lia).
    replace (b - e + (b' - b + 2 * e)) with (b' + e) in Ch by lia.
    destruct (Mu (dslice (normalize_if ng ref) (b - e) (b' + e) 0 W) (dslice (normalize_if ng mat) (b - e) (b' + e) 0 W)) as (xs & ys & Em & N1 & N2 & N3 & N4 & V).
    + apply dslice_same, normalize_same, Ss.
    + rewrite (proj2 (proj2 (dslice_shape _ _ _ _ _))), (proj2 (proj2 (normalize_shape ng mat))). exact D.
    + rewrite Ch. lia.
    + rewrite Cw. lia.
    + rewrite Ch in N1, N3, V. rewrite Cw in N2, N4, V.
      exists xs, ys. split; [exact Em|]. repeat (split; [lia|]). intros a c Ha Hc. specialize (V a c ltac:(lia) ltac:(lia)). rewrite V.
      rewrite Es, Es'. unfold square. rewrite !rescaled_slice. fold (square (dslice ref (b - e) (b' + e) 0 W) (e + a) (e + c) e).
      fold (square (dslice mat (b - e) (b' + e) 0 W) (e + a) (e + c) r).
      unfold W at 1. rewrite (square_rows ref) by (fold H W; clearbody e; lia). unfold W. rewrite Sw.
      rewrite (square_rows mat) by (rewrite <- ?Sh, <- ?Sw; fold H W; clearbody e r; lia).
      replace (b - e + (e + a)) with (b + a) by lia. apply Inv; assumption.
  - intros P. destruct (S1 P) as (xs & ys & E & Sz & V). exists xs, ys. split; [exact E|]. split; [exact Sz|].
    intros i j Hi Hj. specialize (V i j Hi Hj). unfold holds_block in V. fold H W.
    destruct (Z.leb_spec e i), (Z.ltb_spec i (H - e)), (Z.leb_spec e j), (Z.ltb_spec j (W - e)); cbn [andb] in V;
      (split; [intros; try lia; congruence|intros; try (exfalso; lia); exact V]).
  - exact S2.
Qed.
End whole.
