(** Proofs about maps of local shifts: devices compared; a peak on the side of the map. *)
From Coq Require Import Reals Lra ZArith Lia Permutation FunctionalExtensionality.
From Verif Require Import Np P_Np M_phase_R P_phase_R M_corr S_corr P_corr P_corr2 P_corr3 P_corr4 M_local S_local P_peakext P_local P_local2 P_local3 P_local4 P_local5 P_local6 P_local7 P_local8 P_local9 P_local11.
From Coq Require Import List. Import ListNotations.
Open Scope Z_scope.

Section devices.
Context (polyfit2 : vec R -> R * R) (surface : img R -> R * R * R * R * R).
Notation find_shift := (find_shift_based_correlation_map polyfit2 surface).
Lemma map_rescaled ref mat i j r margin s t s' t' : same_kind ref mat -> 1 <= depth mat -> 0 <= r -> 1 <= margin -> (0 < s)%R -> (0 < s')%R ->
  img_eq (gen_2d_corr_map (rescaled s t (patch ref i j (r + margin))) (rescaled s' t' (patch mat i j r))) (gen_2d_corr_map (patch ref i j (r + margin)) (patch mat i j r)) /\
  nrow (gen_2d_corr_map (patch ref i j (r + margin)) (patch mat i j r)) = 2 * margin + 1 /\ ncol (gen_2d_corr_map (patch ref i j (r + margin)) (patch mat i j r)) = 2 * margin + 1.
Proof using.
  clear. intros K D R0 M S S'. pose proof (patch_fits ref mat i j r margin K D R0 ltac:(lia)) as F.
  destruct (gpu_map_spec _ _ F) as (N & C & V). destruct (gpu_map_spec _ _ (rescaled_fits s t s' t' _ _ F)) as (N' & C' & V').
  destruct (rescaled_shape s t (patch ref i j (r + margin))) as (E1 & E2 & _). destruct (rescaled_shape s' t' (patch mat i j r)) as (E3 & E4 & _).
  rewrite E1, E2, E3, E4 in *. destruct (patch_shape ref i j (r + margin)) as (Hr & Wr & _). destruct (patch_shape mat i j r) as (Hm & Wm & _). rewrite Hr, Wr, Hm, Wm in *.
  split; [|lia]. split; [lia|]. split; [lia|]. unfold in_rng. intros a b Ha Hb. rewrite V, V' by lia. apply correlation_rescaled; assumption.
Qed.
Lemma hybrid_find ref mat i j r margin meth size : (meth = PolyFit -> reads_elements polyfit2 surface) ->
  same_kind ref mat -> 1 <= depth mat -> 0 <= r -> 1 <= margin ->
  Ok (hybrid_pixel polyfit2 surface meth size margin (patch ref i j (r + margin)) (patch mat i j r)) =
  find_shift (patch ref i j (r + margin)) (patch mat i j r) margin NoAxis true meth false size false (1, 1) (fun l => l).
Proof.
  intros RE K D R0 M. destruct (find_of_map polyfit2 surface ref mat i j r margin meth size RE K D R0 M) as (_ & x & y & L & E). rewrite E. unfold hybrid_pixel. rewrite L. reflexivity.
Qed.
Lemma hybrid_rescaled ref mat i j r margin meth size s t s' t' : (meth = PolyFit -> reads_elements polyfit2 surface) ->
  same_kind ref mat -> 1 <= depth mat -> 0 <= r -> 1 <= margin -> (0 < s)%R -> (0 < s')%R ->
  hybrid_pixel polyfit2 surface meth size margin (rescaled s t (patch ref i j (r + margin))) (rescaled s' t' (patch mat i j r)) =
  hybrid_pixel polyfit2 surface meth size margin (patch ref i j (r + margin)) (patch mat i j r).
Proof.
  intros RE K D R0 M S S'. destruct (map_rescaled ref mat i j r margin s t s' t' K D R0 M S S') as (V & N & C). unfold hybrid_pixel.
  pose proof V as (Vn & Vc & _). rewrite (peak_ext polyfit2 surface meth RE _ _ true false size V) by lia. reflexivity.
Qed.
Lemma gpu_rescaled ref mat i j r margin s t s' t' :
  same_kind ref mat -> 1 <= depth mat -> 0 <= r -> 1 <= margin -> (0 < s)%R -> (0 < s')%R ->
  gpu_pixel margin (gen_2d_corr_map (rescaled s t (patch ref i j (r + margin))) (rescaled s' t' (patch mat i j r))) =
  gpu_pixel margin (gen_2d_corr_map (patch ref i j (r + margin)) (patch mat i j r)).
Proof using.
  clear. intros K D R0 M S S'. destruct (map_rescaled ref mat i j r margin s t s' t' K D R0 M S S') as (V & N & C).
  pose proof V as (Vn & Vc & _). apply gpu_pixel_ext; [exact V|lia..].
Qed.

(** whole stacks *)
Lemma stack_normal (only norm ng : bool) v w H W e : let n1 := if (only && ng)%bool then false else norm in
  dep v = dep w -> 1 <= dep w -> hei v = H -> wid v = W -> hei w = H -> wid w = W -> 1 <= e -> 2 * e + 1 <= H -> 2 * e + 1 <= W ->
  ((norm || ng)%bool = true -> textured (Stack v) e /\ textured (Stack w) e) ->
  forall d, d = Stack v \/ d = Stack w -> forall b b', e <= b -> b < b' -> b' <= H - e -> exists s t, (0 < s)%R /\
     normalize_if n1 (dslice (normalize_if ng d) (b - e) (b' + e) 0 W) = rescaled s t (dslice d (b - e) (b' + e) 0 W).
Proof using.
  clear. intros n1 D D1 Hv Wv Hw Ww E0 Hh Hw' T d Hd b b' B1 B2 B3.
  assert (T' : (n1 || ng)%bool = true -> (norm || ng)%bool = true) by (unfold n1; destruct only, ng, norm; cbn; auto).
  destruct Hd as [-> | ->].
  - rewrite <- Wv. apply chunk_normal; try lia. intros N. apply T, T', N.
  - rewrite <- Ww. apply chunk_normal; try lia. intros N. apply T, T', N.
Qed.
Lemma hybrid_stack_spec v w win margin meth size block sched norm ng chunk : let ref := Stack v in let mat := Stack w in
  (meth = PolyFit -> reads_elements polyfit2 surface) ->
  same_size ref mat -> 1 <= dep w -> any_launch block sched -> 0 <= win / 2 -> 1 <= margin ->
  let r := win / 2 in let e := r + margin in let H := height ref in let W := width ref in
  2 * e + 1 <= H -> 2 * e + 1 <= W -> ((norm || ng)%bool = true -> textured ref e /\ textured mat e) ->
  forall dim1, let result := find_local_shifts polyfit2 surface ref mat dim1 win margin meth size Hybrid block sched norm ng chunk in
  (pieces H chunk <= H - 2 * e -> exists xs ys, result = Ok (xs, ys) /\
     shift_maps ref e e (fun i j => find_shift (patch ref i j e) (patch mat i j r) margin NoAxis true meth false size false (1, 1) (fun l => l)) xs ys) /\
  (H - 2 * e < pieces H chunk -> result = Err IndexError).
Proof.
  intros ref mat RE Ss D L R0 M r e H W Hh Hw T dim1 result. pose proof Ss as (K & Sh & Sw).
  destruct (whole_2d win margin R0 M (hybrid_pixel polyfit2 surface meth size margin)
     (fun n => multi_rows_2d_hybrid polyfit2 surface win margin meth size block sched false n) true chunk norm ng ref mat Ss D Hh Hw) as (S1 & S2).
  - intros rf mt Ss' D' H' W'. apply hybrid_2d_spec; assumption.
  - intros i j s t s' t' S S'. apply hybrid_rescaled; assumption.
  - apply stack_normal; try assumption; try reflexivity; try (symmetry; assumption). unfold r in *; lia.
  - split; [|exact S2]. intros P. destruct (S1 P) as (xs & ys & E & Sz & V). exists xs, ys. split; [exact E|]. split; [exact Sz|].
    intros i j Hi Hj. destruct (V i j Hi Hj) as (V1 & V2). split; [|exact V2]. intros B. specialize (V1 B). rewrite <- V1. symmetry. apply hybrid_find; assumption.
Qed.
Lemma gpu_stack_spec v w win margin meth size block sched norm ng chunk : let ref := Stack v in let mat := Stack w in
  same_size ref mat -> 1 <= dep w -> any_launch block sched -> 0 <= win / 2 -> 1 <= margin ->
  let r := win / 2 in let e := r + margin in let H := height ref in let W := width ref in
  2 * e + 1 <= H -> 2 * e + 1 <= W -> ((norm || ng)%bool = true -> textured ref e /\ textured mat e) ->
  let result := find_local_shifts polyfit2 surface ref mat false win margin meth size GPU block sched norm ng chunk in
  (pieces H chunk <= H - 2 * e -> exists xs ys, result = Ok (xs, ys) /\
     shift_maps ref e e (fun i j => Ok (gpu_pixel margin (gen_2d_corr_map (patch ref i j e) (patch mat i j r)))) xs ys) /\
  (H - 2 * e < pieces H chunk -> result = Err IndexError).
Proof.
  intros ref mat Ss D L R0 M r e H W Hh Hw T result. pose proof Ss as (K & Sh & Sw).
  destruct (whole_2d win margin R0 M (fun a b => gpu_pixel margin (gen_2d_corr_map a b))
     (fun n => multi_rows_2d_gpu win margin block sched false n) true chunk norm ng ref mat Ss D Hh Hw) as (S1 & S2).
  - intros rf mt Ss' D' H' W'. apply gpu_2d_spec; assumption.
  - intros i j s t s' t' S S'. apply gpu_rescaled; assumption.
  - apply stack_normal; try assumption; try reflexivity; try (symmetry; assumption). unfold r in *; lia.
  - split; [|exact S2]. exact S1.
Qed.
Lemma gpu_one_spec m n win margin meth size dev dim1 block sched ng chunk : let ref := One m in let mat := One n in dev <> CPU ->
  same_size ref mat -> any_launch block sched -> 0 <= win / 2 -> 1 <= margin ->
  let r := win / 2 in let e := r + margin in let H := height ref in let W := width ref in
  2 * e + 1 <= H -> 2 * e + 1 <= W ->
  let result := find_local_shifts polyfit2 surface ref mat dim1 win margin meth size dev block sched false ng chunk in
  (pieces H chunk <= H - 2 * e -> exists xs ys, result = Ok (xs, ys) /\
     shift_maps ref e e (fun i j => Ok (gpu_pixel margin (gen_2d_corr_map (patch ref i j e) (patch mat i j r)))) xs ys) /\
  (H - 2 * e < pieces H chunk -> result = Err IndexError).
Proof.
  intros ref mat Dv Ss L R0 M r e H W Hh Hw result. pose proof Ss as (K & Sh & Sw).
  destruct (whole_2d win margin R0 M (fun a b => gpu_pixel margin (gen_2d_corr_map a b))
     (fun n => multi_rows_2d_gpu win margin block sched false n) false chunk false false ref mat Ss ltac:(cbn; lia) Hh Hw) as (S1 & S2).
  - intros rf mt Ss' D' H' W'. apply gpu_2d_spec; assumption.
  - intros i j s t s' t' S S'. apply gpu_rescaled; try assumption. cbn; lia.
  - intros d _ b b' _ _ _. exists 1%R, 0%R. split; [lra|]. cbn [andb normalize_if]. symmetry. apply rescaled_id.
  - assert (Er : result = full_image_2d (fun n => multi_rows_2d_gpu win margin block sched false n) false chunk win margin false false ref mat) by (unfold result; destruct dev; [congruence|reflexivity|reflexivity]).
    rewrite Er. split; assumption.
Qed.

(** a maximum on the left side of a map *)
Lemma peak_left m y0 size : first_max2 m y0 0 -> 0 < y0 < nrow m - 1 ->
  let d1 := ((px m (y0 + 1) 0 - px m (y0 - 1) 0) / 2)%R in let d2 := (px m (y0 + 1) 0 + px m (y0 - 1) 0 - 2 * px m y0 0)%R in d2 <> 0%R ->
  locate_peak polyfit2 surface m true Diff false size true = Ok (0, IZR y0 + - d1 / d2)%R.
Proof.
  intros F Hy d1 d2 N. unfold locate_peak. cbv iota. rewrite (argmax2_is m y0 0 F). cbn [bindr negb]. change (clipZ 3 3 9) with 3. change (3 / 2) with 1.
  change (0 <? 0) with false. rewrite !Bool.andb_false_r. cbn [andb bindr].
  assert (Y1 : (0 < IZR y0)%R) by (apply IZR_lt; lia). assert (Y2 : (IZR y0 < IZR (nrow m - 1))%R) by (apply IZR_lt; lia).
  rewrite (proj2 (Reqb_f (IZR y0) 0)) by lra. rewrite (proj2 (Reqb_f (IZR y0) (IZR (nrow m - 1)))) by lra. cbn [orb andb bindr].
  rewrite (proj2 (Reqb_t 0 0)) by reflexivity. rewrite (proj2 (Rltb_t (IZR y0) (IZR (nrow m - 1)))) by lra. rewrite (proj2 (Rltb_t 0 (IZR y0))) by lra. cbn [orb andb].
  destruct (Z.leb_spec 3 (nrow m)); [|lia].
  replace (clipZ (y0 - 1) 0 (nrow m - 3)) with (y0 - 1) by (unfold clipZ; lia). rewrite (vslice_col surface) by lia.
  assert (E : locate_1d_peak_subpixel polyfit2 (mkvec 3 (fun k => px m (y0 - 1 + k) 0)) Diff = Ok (1 + - d1 / d2)%R).
  { unfold locate_1d_peak_subpixel. change (vlist (mkvec 3 (fun k => px m (y0 - 1 + k) 0))) with (map (fun k => px m (y0 - 1 + k) 0) (zrange 0 3)).
    rewrite (argmaxR_is 3 (fun k => px m (y0 - 1 + k) 0) 1).
    - cbn [bindr vlen vat]. change (1 <? 3 - 1) with true. change (0 <? 1) with true. cbn [andb]. change (1 + 1) with 2. change (1 - 1) with 0.
      replace (y0 - 1 + 2) with (y0 + 1) by lia. replace (y0 - 1 + 0) with (y0 - 1) by lia. replace (y0 - 1 + 1) with y0 by lia.
      fold d2. rewrite (proj2 (Reqb_f d2 0) N). reflexivity.
    - destruct F as (Fy & Fx & Q1 & Q2). split; [lia|]. replace (y0 - 1 + 1) with y0 by lia. split; intros i Hi; [apply Q1|apply Q2]; lia. }
  rewrite E. cbn [bindr]. rewrite minus_IZR. f_equal. f_equal. lra.
Qed.
End devices.

(** ** a single bright pixel, on the left side of the search region *)
Definition dot_image (y x : Z) : img R := mkimg 5 5 (fun i j => if (i =? y) && (j =? x) then 1 else 0)%R.
Definition side_ref : data := One (dot_image 1 0).
Definition side_mat : data := One (dot_image 1 1).
Lemma flat_pearson a n c : length a = n -> pearson (combine a (repeat c n)) = 0%R.
Proof.
  intros L. unfold pearson. rewrite map_fst_combine, map_snd_combine by (rewrite repeat_length; exact L).
  assert (Db : dot (deviations (repeat c n)) (deviations (repeat c n)) = 0%R).
  { destruct n as [|n]; [reflexivity|].
    assert (T : forall k, total (repeat c k) = (INR k * c)%R).
    { induction k as [|k IH]; [cbn; lra|]. cbn [repeat total fold_right]. fold (total (repeat c k)). rewrite IH, S_INR. lra. }
    assert (A : average (repeat c (S n)) = c).
    { unfold average. rewrite T, repeat_length. field. apply not_0_INR. discriminate. }
    unfold deviations. rewrite A. clear. induction (S n) as [|k IH]; [reflexivity|]. unfold dot in *. cbn [repeat map combine total fold_right fst snd].
    unfold total in IH. rewrite IH. lra. }
  rewrite Db. rewrite Rmult_0_r. destruct (Req_EM_T 0 0); [reflexivity|congruence].
Qed.
Definition nine (k : nat) : list R := map (fun n => if Nat.eqb n k then 1%R else 0%R) (seq 0 9).
Lemma side_mat_window : window side_mat 1 1 3 3 = nine 0. Proof. reflexivity. Qed.
Lemma side_ref_windows dy dx : -1 <= dy <= 1 -> -1 <= dx <= 1 ->
  window side_ref (1 + dy) (1 + dx) 3 3 = if dx =? -1 then (if dy =? 0 then nine 0 else if dy =? -1 then nine 3 else repeat 0%R 9) else repeat 0%R 9.
Proof.
  intros Hy Hx. assert (dy = -1 \/ dy = 0 \/ dy = 1) as [-> | [-> | ->] ] by lia; assert (dx = -1 \/ dx = 0 \/ dx = 1) as [-> | [-> | ->] ] by lia; reflexivity.
Qed.
Lemma nine_apart : pearson (combine (nine 0) (nine 3)) = (- (1 / 8))%R.
Proof.
  unfold pearson. rewrite map_fst_combine, map_snd_combine by reflexivity.
  assert (A : forall k, (k < 9)%nat -> average (nine k) = (1 / 9)%R).
  { intros k Hk. unfold average, nine. cbn [length map seq]. do 9 (destruct k as [|k]; [cbn; field|]). lia. }
  assert (D : forall k, (k < 9)%nat -> deviations (nine k) = map (fun n => if Nat.eqb n k then (8 / 9)%R else (- (1 / 9))%R) (seq 0 9)).
  { intros k Hk. unfold deviations. rewrite A by exact Hk. unfold nine. rewrite map_map. apply map_ext. intros n. destruct (Nat.eqb n k); lra. }
  rewrite !D by lia. cbn [map seq Nat.eqb]. unfold dot. cbn [combine map fst snd total fold_right].
  match goal with |- context [Req_EM_T (?a * ?b) 0] => replace a with (8 / 9)%R by lra; replace b with (8 / 9)%R by lra end.
  destruct (Req_EM_T _ 0) as [E|E]; [lra|]. rewrite sqrt_square by lra. field.
Qed.
Lemma side_similarity dy dx : -1 <= dy <= 1 -> -1 <= dx <= 1 ->
  local_similarity side_ref side_mat 2 2 1 dy dx = if dx =? -1 then (if dy =? 0 then 1%R else if dy =? -1 then (- (1 / 8))%R else 0%R) else 0%R.
Proof.
  intros Hy Hx. unfold local_similarity. change (2 - 1) with 1. change (2 * 1 + 1) with 3. replace (2 + dy - 1) with (1 + dy) by lia. replace (2 + dx - 1) with (1 + dx) by lia.
  rewrite side_mat_window, side_ref_windows by assumption. destruct (dx =? -1); [destruct (dy =? 0); [|destruct (dy =? -1)]|].
  - apply pearson_copy; [exists 1%R, 0%R; split; [left; reflexivity|split; [right; left; reflexivity|exact R1_neq_R0] ]|]. exists 1%R, 0%R. split; [lra|]. rewrite <- (map_id (nine 0)) at 1. apply map_ext. intros; lra.
  - exact nine_apart.
  - apply flat_pearson. reflexivity.
  - apply flat_pearson. reflexivity.
Qed.
Lemma side_best : best_displacement side_ref side_mat 2 2 1 1 0 (-1).
Proof.
  split; [lia|]. split; [lia|]. intros dy' dx' Hy Hx. rewrite !side_similarity by lia. change (-1 =? -1) with true. change (0 =? 0) with true. cbv iota.
  destruct (Z.eqb_spec dx' (-1)); [destruct (Z.eqb_spec dy' 0); [|destruct (Z.eqb_spec dy' (-1))]|]; (split; [lra|intros Q; first [exfalso; lra|lia] ]).
Qed.
Lemma side_cpu polyfit2 surface size :
  find_shift_based_correlation_map polyfit2 surface (patch side_ref 2 2 2) (patch side_mat 2 2 1) 1 NoAxis true Diff false size false (1, 1) (fun l => l) = Ok (-1, 1 / 34)%R.
Proof.
  destruct (find_of_map polyfit2 surface side_ref side_mat 2 2 1 1 Diff size) as ((N & C & V) & x & y & L & E); [discriminate|exact I|cbn; lia|lia|lia|].
  change (1 + 1) with 2 in *. change (2 * 1 + 1) with 3 in *. rewrite E. set (m := gen_2d_corr_map _ _) in *.
  assert (F : first_max2 m 1 0) by (apply (best_first side_ref side_mat 2 2 1 1 m 1 0 N C V); exact side_best).
  assert (P0 : px m 0 0 = (- (1 / 8))%R) by (rewrite V by lia; rewrite side_similarity by lia; reflexivity).
  assert (P1 : px m 1 0 = 1%R) by (rewrite V by lia; rewrite side_similarity by lia; reflexivity).
  assert (P2 : px m 2 0 = 0%R) by (rewrite V by lia; rewrite side_similarity by lia; reflexivity).
  pose proof (peak_left polyfit2 surface m 1 size F ltac:(lia)) as P. cbv zeta in P. change (1 + 1) with 2 in P. change (1 - 1) with 0 in P. rewrite P0, P1, P2 in P.
  rewrite P in L by lra. injection L as <- <-. f_equal. f_equal; [lra|field].
Qed.

(** ** values near the best displacement *)
Lemma vary_planes v : equalised_lines_vary v -> lines_vary v.
Proof.
  intros (X & Y). split; [intros i Hi; specialize (X i Hi)|intros j Hj; specialize (Y j Hj)].
  - unfold window. cbn [depth]. change (zrange 0 1) with [0]. cbn [flat_map]. rewrite app_nil_r. exact X.
  - unfold window. cbn [depth]. change (zrange 0 1) with [0]. cbn [flat_map]. rewrite app_nil_r. exact Y.
Qed.
Section near.
Context (polyfit2 : vec R -> R * R) (surface : img R -> R * R * R * R * R).
Notation find_shift := (find_shift_based_correlation_map polyfit2 surface).
Lemma cpu_near ref mat i j r margin meth size x y : same_kind ref mat -> 1 <= depth mat -> 0 <= r -> 1 <= margin ->
  (meth = PolyFit -> reads_elements polyfit2 surface) ->
  find_shift (patch ref i j (r + margin)) (patch mat i j r) margin NoAxis true meth false size false (1, 1) (fun l => l) = Ok (x, y) ->
  near_best ref mat i j r margin (meth <> PolyFit) x y.
Proof.
  intros K D R0 M RE E. split; [exact (proj1 (pixel_best polyfit2 surface ref mat i j r margin meth size x y K D R0 M E))|].
  destruct (find_of_map polyfit2 surface ref mat i j r margin meth size RE K D R0 M) as ((N & C & V) & xp & yp & L & E'). rewrite E in E'. injection E' as -> ->.
  set (m := gen_2d_corr_map _ _) in *. destruct (argmax2_total m ltac:(lia) ltac:(lia)) as (y0 & x0 & _ & F).
  exists (y0 - margin), (x0 - margin). split; [apply (best_first ref mat i j r margin m y0 x0 N C V); exact F|]. intros Nm.
  destruct (locate_spec polyfit2 surface m true meth false size true y0 x0 F) as (a & b & L' & _ & _ & _ & Near & _). rewrite L in L'. injection L' as <- <-.
  destruct (Near Nm) as (N1 & N2). rewrite !minus_IZR.
  split; [replace (xp - IZR margin - (IZR x0 - IZR margin))%R with (xp - IZR x0)%R by lra|replace (yp - IZR margin - (IZR y0 - IZR margin))%R with (yp - IZR y0)%R by lra]; assumption.
Qed.
Lemma gpu_near ref mat i j r margin : same_kind ref mat -> 1 <= depth mat -> 0 <= r -> 1 <= margin ->
  let g := gpu_pixel margin (gen_2d_corr_map (patch ref i j (r + margin)) (patch mat i j r)) in near_best ref mat i j r margin True (fst g) (snd g).
Proof.
  intros K D R0 M g. destruct (pixel_gpu polyfit2 surface ref mat i j r margin 3 K D R0 M) as (dy & dx & B & N & Sd & Ns). fold g in N, Sd, Ns.
  split; [|exists dy, dx; split; [exact B|intros _; exact N] ].
  assert (Dec : on_a_side margin dy dx \/ ~ on_a_side margin dy dx) by (unfold on_a_side; lia). destruct Dec as [Q|Q].
  - rewrite (Sd Q). cbn [fst snd]. destruct B as (By & Bx & _). split; apply Rabs_le; rewrite <- opp_IZR; split; apply IZR_le; lia.
  - specialize (Ns Q). destruct g as (gx & gy). exact (proj1 (pixel_best polyfit2 surface ref mat i j r margin Diff 3 gx gy K D R0 M Ns)).
Qed.
End near.
Lemma best_unique ref mat i j r margin dy dx dy' dx' : best_displacement ref mat i j r margin dy dx -> best_displacement ref mat i j r margin dy' dx' -> dy = dy' /\ dx = dx'.
Proof.
  intros (Y & X & B) (Y' & X' & B'). destruct (B dy' dx' Y' X') as (L & F). destruct (B' dy dx Y X) as (L' & F').
  assert (E : local_similarity ref mat i j r dy dx = local_similarity ref mat i j r dy' dx') by lra. destruct (F (eq_sym E)), (F' E); lia.
Qed.
(** the only copy within the margin is the best displacement *)
Lemma best_copy ref mat i j r margin dy dx : same_kind ref mat -> 
  let win d y x := window d (y - r) (x - r) (2 * r + 1) (2 * r + 1) in
  - margin <= dy <= margin -> - margin <= dx <= margin -> varies (win mat i j) ->
  (forall dy' dx', - margin <= dy' <= margin -> - margin <= dx' <= margin -> (affine_copy (win mat i j) (win ref (i + dy') (j + dx')) <-> dy' = dy /\ dx' = dx)) ->
  best_displacement ref mat i j r margin dy dx.
Proof.
  intros K win Hy Hx V U. split; [exact Hy|]. split; [exact Hx|].
  assert (S1 : local_similarity ref mat i j r dy dx = 1%R) by (apply pearson_copy; [exact V|apply U; [assumption..|split; reflexivity] ]).
  intros dy' dx' Hy' Hx'. rewrite S1. split; [apply pearson_bounds|]. intros E. right. assert (Q : dy' = dy /\ dx' = dx); [|lia].
  apply U; [assumption..|]. apply pearson_one; [|exact E]. unfold win. rewrite !window_length, (kind_depth _ _ K). reflexivity.
Qed.
