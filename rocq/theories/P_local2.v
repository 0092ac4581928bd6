(** Proofs about maps of local shifts in two dimensions. *)
From Coq Require Import Reals Lra ZArith Lia Permutation FunctionalExtensionality.
From Verif Require Import Np P_Np M_phase_R P_phase_R M_corr S_corr P_corr P_corr2 P_corr3 P_corr4 M_local S_local P_local.
From Coq Require Import List. Import ListNotations.
Open Scope Z_scope.

Lemma normalize_same b a a' : same_size a a' -> same_size (normalize_if b a) (normalize_if b a').
Proof.
  intros (K & H & W). split; [apply normalize_kind; exact K|]. destruct (normalize_shape b a) as (-> & -> & _). destruct (normalize_shape b a') as (-> & -> & _). auto.
Qed.

Section full.
Context (multi : bool -> data -> data -> res (img R * img R)).
Definition holds_block (v : Z -> Z -> R * R) (b e l r : Z) (x y : img R) (i j : Z) : Prop :=
  if (b <=? i) && (i <? e) && (l <=? j) && (j <? r) then (px x i j, px y i j) = v i j else px x i j = 0%R /\ px y i j = 0%R.
Lemma full_2d_spec only chunk win margin norm ng ref mat v : same_size ref mat ->
  let e := margin + win / 2 in let H := height ref in let W := width ref in
  1 <= e -> 2 * e + 1 <= H -> 2 * e <= W ->
  let n1 := if (only && ng)%bool then false else norm in
  (forall b e', e <= b -> b < e' -> e' <= H - e ->
     exists cx cy, multi n1 (dslice (normalize_if ng ref) (b - e) (e' + e) 0 W) (dslice (normalize_if ng mat) (b - e) (e' + e) 0 W) = Ok (cx, cy) /\
       nrow cx = e' - b /\ ncol cx = W - 2 * e /\ nrow cy = e' - b /\ ncol cy = W - 2 * e /\
       forall a c, 0 <= a < e' - b -> 0 <= c < W - 2 * e -> (px cx a c, px cy a c) = v (b + a) (e + c)) ->
  (pieces H chunk <= H - 2 * e ->
     exists xs ys, full_image_2d multi only chunk win margin norm ng ref mat = Ok (xs, ys) /\
       (nrow xs = H /\ ncol xs = W /\ nrow ys = H /\ ncol ys = W) /\
       forall i j, 0 <= i < H -> 0 <= j < W -> holds_block v e (H - e) e (W - e) xs ys i j) /\
  (H - 2 * e < pieces H chunk -> full_image_2d multi only chunk win margin norm ng ref mat = Err IndexError).
Proof.
  intros Ss e H W E1 Hh Hw n1 M. unfold full_image_2d. rewrite (proj2 (same_shape_spec _ _) Ss). cbn [negb]. rewrite shape2_spec.
  fold e. fold H W. destruct (Z.ltb_spec H (2 * e + 1)); [lia|].
  destruct (num_chunk_pieces H chunk) as (Nc & Np); [lia|]. rewrite Nc. unfold array_split. destruct (Z.leb_spec (pieces H chunk) 0); [lia|]. cbn [bindr].
  replace (H - e - e) with (H - 2 * e) by lia.
  set (Inv := fun (p : Z) (s : img R * img R) =>
      (nrow (fst s) = H /\ ncol (fst s) = W /\ nrow (snd s) = H /\ ncol (snd s) = W) /\
      forall i j, 0 <= i < H -> 0 <= j < W -> holds_block v e (e + p) e (W - e) (fst s) (snd s) i j).
  match goal with |- context [over_chunks ?st e _ ?z] => set (step := st); set (zero := z) end.
  assert (I0 : Inv 0 zero).
  { split; [repeat split|]. intros i j Hi Hj. unfold holds_block. rewrite Z.add_0_r.
    destruct (Z.leb_spec e i), (Z.ltb_spec i e); cbn [andb]; try lia; split; reflexivity. }
  assert (St : forall p len s, 0 <= p -> 0 < len -> p + len <= H - 2 * e -> Inv p s ->
     exists s', step s (e + p) (e + p + len) = Ok s' /\ Inv (p + len) s').
  { intros p len [x y] P0 L0 L1 ((S1 & S2 & S3 & S4) & I). cbn [fst snd] in *.
    destruct (M (e + p) (e + p + len)) as (cx & cy & Ec & Nx & Cx & Ny & Cy & V); [lia..|].
    assert (SW : slen W e (- e) = W - 2 * e) by (rewrite crop_len by lia; lia).
    destruct (store_block_ok x (e + p) (e + p + len) e (- e) cx) as (x' & Ex & Sx1 & Sx2 & Vx); [rewrite ?S1, ?S2; lia..|].
    destruct (store_block_ok y (e + p) (e + p + len) e (- e) cy) as (y' & Ey & Sy1 & Sy2 & Vy); [rewrite ?S3, ?S4; lia..|].
    exists (x', y'). unfold step. fold n1. rewrite Ec. cbn [bindr fst snd]. rewrite Ex. cbn [bindr]. rewrite Ey. cbn [bindr]. split; [reflexivity|].
    split; [cbn [fst snd]; repeat split; congruence|]. cbn [fst snd]. intros i j Hi Hj. specialize (I i j Hi Hj). unfold holds_block in *.
    rewrite Vx, Vy, Cx, Cy. replace (e + (W - 2 * e)) with (W - e) by lia. replace (e + (p + len)) with (e + p + len) by lia.
    destruct (Z.leb_spec e j), (Z.ltb_spec j (W - e)); cbn [andb]; rewrite ?Bool.andb_false_r; rewrite ?Bool.andb_true_r in *; cbn [andb] in *;
      rewrite ?Bool.andb_false_r in I; rewrite ?Bool.andb_true_r in I; try assumption.
    destruct (Z.leb_spec (e + p) i), (Z.ltb_spec i (e + p + len)); cbn [andb].
    - destruct (Z.leb_spec e i); [|lia]. cbn [andb]. rewrite V by lia. f_equal; lia.
    - destruct (Z.ltb_spec i (e + p)); [lia|]. rewrite Bool.andb_false_r in I |- *. exact I.
    - destruct (Z.ltb_spec i (e + p)); [|lia]. exact I.
    - lia. }
  split.
  - intros K. destruct (over_chunks_ok step e Inv (split_sizes (H - 2 * e) (pieces H chunk)) 0 zero) as ([xs ys] & Eo & ((S1 & S2 & S3 & S4) & I)).
    + apply split_sizes_pos; lia.
    + exact I0.
    + intros p len s P0 L0 L1. rewrite split_sizes_sum in L1 by lia. apply St; lia.
    + rewrite split_sizes_sum in I by lia. cbn [fst snd] in *. exists xs, ys. split; [exact Eo|]. split; [auto|].
      intros i j Hi Hj. specialize (I i j Hi Hj). replace (e + (0 + (H - 2 * e))) with (H - e) in I by lia. exact I.
  - intros K. destruct (split_sizes_empty (H - 2 * e) (pieces H chunk)) as (l1 & l2 & -> & P1 & Sm); [lia|].
    apply (over_chunks_empty step e Inv); [exact P1|exact I0|]. intros p len s P0 L0 L1. apply St; lia.
Qed.
End full.

Section cpu.
Context (polyfit2 : vec R -> R * R) (surface : img R -> R * R * R * R * R).
Notation find_shift := (find_shift_based_correlation_map polyfit2 surface).

(** the shift of one pixel is always computed *)
Lemma pixel_total ref mat i j r margin sub meth dim1 size gpu block sched : same_kind ref mat -> 1 <= depth mat -> 0 <= r -> 1 <= margin ->
  gpu = false \/ any_launch block sched ->
  exists p, find_shift (patch ref i j (r + margin)) (patch mat i j r) margin NoAxis sub meth dim1 size gpu block sched = Ok p.
Proof.
  intros K D R0 M L.
  assert (L' : exists block' sched', any_launch block' sched' /\
    find_shift (patch ref i j (r + margin)) (patch mat i j r) margin NoAxis sub meth dim1 size gpu block sched =
    find_shift (patch ref i j (r + margin)) (patch mat i j r) margin NoAxis sub meth dim1 size gpu block' sched').
  { destruct L as [->|L]; [|exists block, sched; split; [exact L|reflexivity] ].
    exists (1, 1), (fun l => l). split; [split; [cbn; lia|intros; apply Permutation_refl]|reflexivity]. }
  destruct L' as (block' & sched' & L' & ->).
  pose proof (patch_fits ref mat i j r margin K D R0 ltac:(lia)) as F.
  destruct (patch_shape ref i j (r + margin)) as (Hr & Wr & _). destruct (patch_shape mat i j r) as (Hm & Wm & _).
  destruct (shift_template polyfit2 surface _ _ margin NoAxis sub meth dim1 size gpu block' sched' F) as (m & xs & ys & x & y & _ & E & _); [lia|exact L'|lia|].
  eexists. exact E.
Qed.

(** one chunk *)
Definition value_of (r : res (R * R)) : R * R := match r with Ok p => p | Err _ => (0, 0)%R end.
Lemma nested_mapr {A} (f : Z -> Z -> res A) (v : Z -> Z -> A) a n b m : 0 <= n -> 0 <= m ->
  (forall i j, a <= i < a + n -> b <= j < b + m -> f i j = Ok (v i j)) ->
  mapr (fun i => mapr (fun j => f i j) (prange b (b + m))) (prange a (a + n)) = Ok (map (fun i => map (fun j => v i j) (prange b (b + m))) (prange a (a + n))).
Proof.
  intros N M F. apply mapr_total. intros i Hi. apply prange_In in Hi. apply mapr_total. intros j Hj. apply prange_In in Hj. apply F; lia.
Qed.
Lemma prange_nth {A} (g : Z -> A) a n k d : 0 <= k < n -> nth (Z.to_nat k) (map g (prange a (a + n))) d = g (a + k).
Proof.
  intros H. unfold prange. replace (a + n - a) with n by lia. rewrite <- (Z.sub_0_r k) at 1. unfold zrange. rewrite map_map.
  rewrite (nth_indep _ d (g (a + Z.of_nat 0))) by (rewrite map_length, seq_length; lia).
  rewrite (map_nth (fun x => g (a + Z.of_nat x))). rewrite seq_nth by lia. f_equal. lia.
Qed.
Lemma two_images_px (v : Z -> Z -> R * R) a n b m i j : 0 <= i < n -> 0 <= j < m ->
  let l := map (fun i => map (fun j => v i j) (prange b (b + m))) (prange a (a + n)) in
  (px (fst (two_images n m l)) i j, px (snd (two_images n m l)) i j) = v (a + i) (b + j).
Proof.
  intros Hi Hj l. cbn [two_images fst snd px]. unfold l. rewrite (prange_nth (fun i => map (fun j => v i j) (prange b (b + m)))) by lia.
  rewrite (prange_nth (v (a + i))) by lia. destruct (v (a + i) (b + j)); reflexivity.
Qed.
Lemma radius_of win : (2 * (win / 2) + 1) / 2 = win / 2.
Proof. symmetry. apply Z.div_unique_pos with 1; lia. Qed.

Lemma multi_cpu_spec win margin sub meth size gpu block sched pad norm ref mat : same_size ref mat -> 1 <= depth mat ->
  0 <= win / 2 -> 1 <= margin -> gpu = false \/ any_launch block sched ->
  let r := win / 2 in let e := r + margin in let H := height ref in let W := width ref in
  2 * e + 1 <= H -> 2 * e + 1 <= W ->
  let ref' := normalize_if norm ref in let mat' := normalize_if norm mat in
  exists xs ys, multi_rows_2d_cpu polyfit2 surface win margin sub meth size gpu block sched pad norm ref mat =
      Ok (if pad then (pad_zero xs e, pad_zero ys e) else (xs, ys)) /\
    nrow xs = H - 2 * e /\ ncol xs = W - 2 * e /\ nrow ys = H - 2 * e /\ ncol ys = W - 2 * e /\
    forall i j, 0 <= i < H - 2 * e -> 0 <= j < W - 2 * e ->
      Ok (px xs i j, px ys i j) = find_shift (square ref' (e + i) (e + j) e) (square mat' (e + i) (e + j) r) margin NoAxis sub meth false size gpu block sched.
Proof.
  intros Ss D R0 M L r e H W Hh Hw ref' mat'. unfold multi_rows_2d_cpu. rewrite (proj2 (same_shape_spec _ _) Ss). cbn [negb]. rewrite shape2_spec.
  rewrite radius_of. fold r. fold H W. fold e. fold ref' mat'.
  destruct (Z.ltb_spec W (2 * r + 1 + 2 * margin)); [lia|]. destruct (Z.ltb_spec H (2 * r + 1 + 2 * margin)); [lia|]. cbn [orb].
  destruct Ss as (K & Sh & Sw). destruct (normalize_shape norm ref) as (Nh & Nw & Nd). destruct (normalize_shape norm mat) as (Mh & Mw & Md).
  set (f := fun i j => find_shift (square ref' i j e) (square mat' i j r) margin NoAxis sub meth false size gpu block sched).
  assert (F : forall i j, e <= i < e + (H - 2 * e) -> e <= j < e + (W - 2 * e) -> f i j = Ok (value_of (f i j))).
  { intros i j Hi Hj. unfold f, ref', mat'. rewrite !square_patch by (rewrite ?Nh, ?Nw, ?Mh, ?Mw; fold H W; rewrite <- ?Sh, <- ?Sw; fold H W; lia).
    destruct (pixel_total (normalize_if norm ref) (normalize_if norm mat) i j r margin sub meth false size gpu block sched) as (p & Ep); try assumption; [apply normalize_kind; exact K|rewrite Md; exact D|].
    unfold e. rewrite Ep. reflexivity. }
  replace (H - e) with (e + (H - 2 * e)) by lia. replace (W - e) with (e + (W - 2 * e)) by lia.
  pose proof (nested_mapr f (fun i j => value_of (f i j)) e (H - 2 * e) e (W - 2 * e) ltac:(lia) ltac:(lia) F) as Em. unfold f in Em at 1. rewrite Em. cbn [bindr].
  replace (e + (H - 2 * e) - e) with (H - 2 * e) by lia. replace (e + (W - 2 * e) - e) with (W - 2 * e) by lia.
  set (l := map _ _). exists (fst (two_images (H - 2 * e) (W - 2 * e) l)), (snd (two_images (H - 2 * e) (W - 2 * e) l)).
  split; [destruct (two_images _ _ l); reflexivity|]. repeat (split; [reflexivity|]). intros i j Hi Hj. unfold l.
  rewrite (two_images_px (fun i j => value_of (f i j)) e (H - 2 * e) e (W - 2 * e)) by assumption. rewrite <- F by lia. reflexivity.
Qed.
End cpu.
