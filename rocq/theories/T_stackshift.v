(** Theorems for C120: shifts between stacks of images and between sample images. *)
From Coq Require Import Reals Lra ZArith Lia Bool.
From Verif Require Import Np P_Np P_metric M_phase_R M_corr S_corr P_corr M_local S_local P_local M_global S_global P_global2 T_global M_simR M_umpa M_stackshift S_stackshift P_stackshift P_stackshift2.
From Coq Require Import List. Import ListNotations.
Open Scope Z_scope.

Section stackshift.
Context (polyfit2 : vec R -> R * R) (surface : img R -> R * R * R * R * R) (randint : Z -> bool -> Z -> Z -> Z -> list Z) (shift : img R -> R -> R -> img R).
Notation stacks := (find_shift_between_image_stacks polyfit2 surface randint).
Notation samples := (find_shift_between_sample_images polyfit2 surface randint shift).
Notation between k m n := (find_global_shift polyfit2 surface (randint k) (One m) (One n)).

(** one shift for every pair of images, found from this pair alone; it is an error if one pair fails; a single image counts as a stack of one *)
Theorem one_shift_for_every_pair_of_images ref sam win margin pts how (gpu : bool) block sched (sub : bool) meth size (norm : bool) : 0 <= depth ref ->
  (~ same_size ref sam -> stacks ref sam win margin pts how gpu block sched sub meth size norm = Err ValueError) /\
  (same_size ref sam -> forall l, stacks ref sam win margin pts how gpu block sched sub meth size norm = Ok l <->
     Z.of_nat (length l) = depth ref /\
     forall k, 0 <= k < depth ref -> between k (picture ref k) (picture sam k) win margin pts None how gpu block sched sub meth size norm false
                                     = Ok (Global (fst (nth (Z.to_nat k) l (0, 0)%R)) (snd (nth (Z.to_nat k) l (0, 0)%R)))).
Proof.
  intros D. split.
  - intros N. unfold find_shift_between_image_stacks. destruct (same_shape ref sam) eqn:E; [|reflexivity]. exfalso. apply N, same_shape_spec, E.
  - intros S l. rewrite stacks_eq by assumption. split.
    + intros E. assert (L := E). apply mapr_ok, Forall2_length in L. rewrite zrange_length in L. split; [lia|]. intros k Hk.
      destruct (mapr_nth _ _ _ (Z.to_nat k) k E) as (y & N & P); [rewrite (nth_error_nth' _ 0) by (rewrite zrange_length; lia); rewrite zrange_nth by lia; f_equal; lia|].
      rewrite (nth_error_nth _ _ _ N). apply pair_inv, P.
    + intros (L & H). set (f := fun k => nth (Z.to_nat k) l (0, 0)%R). replace l with (map f (zrange 0 (depth ref))).
      * apply mapr_total. intros k Hk. apply zrange_In in Hk. apply pair_inv, H. lia.
      * apply (nth_ext _ _ (0, 0)%R (0, 0)%R); rewrite map_length, zrange_length; [lia|]. intros n Hn.
        rewrite (nth_indep _ _ (f 0)) by (rewrite map_length, zrange_length; lia). rewrite map_nth, zrange_nth by lia. unfold f. f_equal. lia.
Qed.

(** if, around all places where the windows fit, the k-th pair matches at the displacement (dy k, dx k) only, this is what is found *)
Theorem stacks_of_displaced_images ref sam win margin pts how (gpu : bool) block sched (sub : bool) meth size (norm : bool) (dy dx : Z -> Z) :
  let r := win / 2 in let e := r + margin in
  same_size ref sam -> 0 <= depth ref -> 0 <= r -> 1 <= margin ->
  (meth = PolyFit -> reads_elements polyfit2 surface) -> (forall k, random_integers (randint k)) -> (gpu = true -> any_launch (block, 1) sched) -> some_points pts (height ref) (width ref) e ->
  (forall k, 0 <= k < depth ref -> - margin <= dy k <= margin /\ - margin <= dx k <= margin /\ comparable (picture ref k) (picture sam k) e norm /\
     forall p, window_inside ref e (fst p) (snd p) ->
       only_match (One (if norm then equalised (picture ref k) else picture ref k)) (One (if norm then equalised (picture sam k) else picture sam k)) r margin (dy k) (dx k) p) ->
  exists l, stacks ref sam win margin pts how gpu block sched sub meth size norm = Ok l /\ Z.of_nat (length l) = depth ref /\
    forall k, 0 <= k < depth ref -> finds gpu sub meth (nth (Z.to_nat k) l (0, 0)%R) (dy k) (dx k).
Proof.
  intros r e S D R0 M RE Rn L Sp H. rewrite stacks_eq by assumption.
  assert (G : forall k, 0 <= k < depth ref -> exists v, pair_shift polyfit2 surface randint k (picture ref k) (picture sam k) win margin pts how gpu block sched sub meth size norm = Ok v /\ finds gpu sub meth v (dy k) (dx k)).
  { intros k Hk. destruct (H k Hk) as (Hy & Hx & C & A). apply pair_recovers; try assumption. apply Rn. }
  set (g := fun k => match pair_shift polyfit2 surface randint k (picture ref k) (picture sam k) win margin pts how gpu block sched sub meth size norm with Ok v => v | Err _ => (0, 0)%R end).
  exists (map g (zrange 0 (depth ref))). split; [|split].
  - apply mapr_total. intros k Hk. apply zrange_In in Hk. destruct (G k ltac:(lia)) as (v & E & _). unfold g. rewrite E. reflexivity.
  - rewrite map_length, zrange_length. lia.
  - intros k Hk. rewrite (nth_indep _ _ (g 0)) by (rewrite map_length, zrange_length; lia). rewrite map_nth, zrange_nth by lia. replace (0 + Z.of_nat (Z.to_nat k)) with k by lia.
    destruct (G k Hk) as (v & E & F). unfold g. rewrite E. exact F.
Qed.

(** ** the sample images *)
(** the first shift is zero, there is one shift for every image; wrong arguments are rejected *)
Theorem sample_shifts_arguments ref sam sr win margin pts how (gpu : bool) block sched (sub : bool) meth size (norm : bool) : 0 <= depth ref ->
  let result := samples ref sam sr win margin pts how gpu block sched sub meth size norm in
  (forall l, result = Ok l -> Z.of_nat (length l) = depth ref /\ nth_error l 0 = Some (0, 0)%R) /\
  (~ same_size ref sam -> result = Err ValueError) /\ (sr = [] -> result = Err ValueError) /\
  (Z.of_nat (length sr) < depth ref -> forall l, result <> Ok l) /\
  (same_size ref sam -> sr <> [] -> depth ref = 1 -> result = Ok [(0, 0)%R]).
Proof.
  intros D result.
  assert (Im : same_size ref sam -> depth sam = depth ref) by (intros (K & _); destruct ref, sam; cbn in *; try contradiction; congruence).
  repeat split.
  - unfold result, find_shift_between_sample_images in H. destruct (same_shape ref sam) eqn:S; [|discriminate]. cbn [negb] in H. destruct sr as [|s sr]; [discriminate|].
    apply same_shape_spec in S. rewrite images_len in H by exact D.
    match type of H with bindr ?x _ = _ => destruct x as [m0|] eqn:E0; [|discriminate] end. cbn [bindr] in H.
    match type of H with bindr ?x _ = _ => destruct x as [q|] eqn:E1; [|discriminate] end. cbn [bindr] in H. injection H as <-.
    apply mapr_ok, Forall2_length in E1. rewrite zrange_length in E1. cbn [length].
    destruct (lget (images ref) 0) as [r0|] eqn:E2; [|discriminate]. apply lget_inv in E2; [|lia]. rewrite images_len in E2 by exact D. lia.
  - unfold result, find_shift_between_sample_images in H. destruct (same_shape ref sam) eqn:S; [|discriminate]. cbn [negb] in H. destruct sr as [|s sr]; [discriminate|].
    match type of H with bindr ?x _ = _ => destruct x as [m0|] eqn:E0; [|discriminate] end. cbn [bindr] in H.
    match type of H with bindr ?x _ = _ => destruct x as [q|] eqn:E1; [|discriminate] end. cbn [bindr] in H. injection H as <-. reflexivity.
  - intros N. unfold result, find_shift_between_sample_images. destruct (same_shape ref sam) eqn:E; [|reflexivity]. exfalso. apply N, same_shape_spec, E.
  - intros ->. unfold result, find_shift_between_sample_images. destruct (same_shape ref sam); reflexivity.
  - intros Ls l E. unfold result, find_shift_between_sample_images in E. destruct (same_shape ref sam) eqn:S; [|discriminate]. cbn [negb] in E. destruct sr as [|s sr]; [discriminate|].
    rewrite images_len in E by exact D. match type of E with bindr ?x _ = _ => destruct x as [m0|] eqn:E0; [|discriminate] end. cbn [bindr] in E.
    match type of E with bindr ?x _ = _ => destruct x as [q|] eqn:E1; [|discriminate] end. set (n := Z.of_nat (length (s :: sr))) in *. assert (N1 : 1 <= n) by (unfold n; cbn [length]; lia).
    destruct (mapr_nth _ _ _ (Z.to_nat (n - 1)) n E1) as (y & _ & P); [rewrite (nth_error_nth' _ 0) by (rewrite zrange_length; lia); rewrite zrange_nth by lia; f_equal; lia|].
    destruct (lget (images ref) n); [|discriminate]. cbn [bindr] in P. destruct (lget (images sam) n); [|discriminate]. cbn [bindr] in P.
    rewrite (lget_short (s :: sr) n) in P by (unfold n; lia). discriminate.
  - intros S N D1. unfold result, find_shift_between_sample_images. rewrite (proj2 (same_shape_spec ref sam) S). cbn [negb]. destruct sr as [|s sr]; [congruence|].
    rewrite images_len by exact D. rewrite D1. rewrite !lget_picture by (rewrite ?Im by exact S; lia). cbn [bindr]. change (lget (s :: sr) 0) with (Ok s). cbn [bindr]. reflexivity.
Qed.

(** the k-th shift depends on the first and the k-th images and on the shifts given for them only, as long as the largest shift remains *)
Theorem sample_shift_depends_on_two_images_only ref sam sr ref' sam' sr' win margin pts how (gpu : bool) block sched (sub : bool) meth size (norm : bool) l l' k :
  samples ref sam sr win margin pts how gpu block sched sub meth size norm = Ok l -> samples ref' sam' sr' win margin pts how gpu block sched sub meth size norm = Ok l' ->
  0 <= k < depth ref -> k < depth ref' ->
  (forall i, i = 0 \/ i = k -> picture ref' i = picture ref i /\ picture sam' i = picture sam i /\ nth (Z.to_nat i) sr' (0, 0)%R = nth (Z.to_nat i) sr (0, 0)%R) ->
  (forall z, (forall s, In s sr -> Rabs (fst s) <= z /\ Rabs (snd s) <= z) <-> (forall s, In s sr' -> Rabs (fst s) <= z /\ Rabs (snd s) <= z))%R ->
  nth (Z.to_nat k) l' (0, 0)%R = nth (Z.to_nat k) l (0, 0)%R.
Proof.
  intros E E' Hk Hk' Same Mx. unfold find_shift_between_sample_images in E, E'.
  destruct (same_shape ref sam) eqn:S; [|discriminate]. destruct (same_shape ref' sam') eqn:S'; [|discriminate]. cbn [negb] in E, E'.
  destruct sr as [|s sr]; [discriminate|]. destruct sr' as [|s' sr']; [discriminate|]. apply same_shape_spec in S, S'.
  assert (Im : depth sam = depth ref) by (destruct S as (K & _); destruct ref, sam; cbn in *; try contradiction; congruence).
  assert (Im' : depth sam' = depth ref') by (destruct S' as (K & _); destruct ref', sam'; cbn in *; try contradiction; congruence).
  assert (Cr : rmaximum (flat_map (fun s => [Rabs (fst s); Rabs (snd s)]) (s' :: sr')) = rmaximum (flat_map (fun s => [Rabs (fst s); Rabs (snd s)]) (s :: sr))).
  { assert (Up : forall q t z, (forall p, In p (q :: t) -> Rabs (fst p) <= z /\ Rabs (snd p) <= z)%R <-> (rmaximum (flat_map (fun s => [Rabs (fst s); Rabs (snd s)]) (q :: t)) <= z)%R).
    { intros q t z. cbn [flat_map app rmaximum]. set (L := Rabs (snd q) :: _). destruct (fold_max_ge L (Rabs (fst q))) as (A & B). split.
      - intros H. destruct (fold_max_in L (Rabs (fst q))) as [->|I]; [apply (H q); left; reflexivity|]. destruct I as [<-|I]; [apply (H q); left; reflexivity|].
        apply in_flat_map in I. destruct I as (p & Ip & [<-|[<-|[] ] ]); apply (H p); right; exact Ip.
      - intros H p [<-|Ip]; [split; [lra|]|split].
        + pose proof (B (Rabs (snd q)) ltac:(left; reflexivity)). lra.
        + pose proof (B (Rabs (fst p)) ltac:(right; apply in_flat_map; exists p; split; [exact Ip|left; reflexivity])). lra.
        + pose proof (B (Rabs (snd p)) ltac:(right; apply in_flat_map; exists p; split; [exact Ip|right; left; reflexivity])). lra. }
    apply Rle_antisym; [apply (proj1 (Up s' sr' _)), Mx, (proj2 (Up s sr _))|apply (proj1 (Up s sr _)), Mx, (proj2 (Up s' sr' _))]; lra. }
  rewrite Cr in E'. set (crop := 1 + rtrunc _) in *. rewrite images_len in E, E' by lia.
  assert (Sl : forall i, i = 0 \/ i = k -> forall a b, lget (s' :: sr') i = Ok a -> lget (s :: sr) i = Ok b -> a = b).
  { intros i Hi a b A B. destruct (Same i Hi) as (_ & _ & N). unfold lget in A, B. destruct (nth_error (s' :: sr') (Z.to_nat i)) eqn:A1; [|discriminate]. destruct (nth_error (s :: sr) (Z.to_nat i)) eqn:B1; [|discriminate].
    rewrite (nth_error_nth _ _ _ A1), (nth_error_nth _ _ _ B1) in N. congruence. }
  rewrite !lget_picture in E, E' by lia. cbn [bindr] in E, E'. change (lget (s :: sr) 0) with (Ok s) in E. change (lget (s' :: sr') 0) with (Ok s') in E'. cbn [bindr] in E, E'.
  assert (s' = s) as -> by (apply (Sl 0 (or_introl eq_refl)); reflexivity). destruct (Same 0 (or_introl eq_refl)) as (P1 & P2 & _). rewrite P1, P2 in E'.
  match type of E with bindr ?x _ = _ => destruct x as [q|] eqn:E1; [|discriminate] end. cbn [bindr] in E. injection E as <-.
  match type of E' with bindr ?x _ = _ => destruct x as [q'|] eqn:E1'; [|discriminate] end. cbn [bindr] in E'. injection E' as <-.
  destruct (Z.eq_dec k 0) as [-> |K0]; [reflexivity|].
  destruct (mapr_nth _ _ _ (Z.to_nat (k - 1)) k E1) as (y & N & P); [rewrite (nth_error_nth' _ 0) by (rewrite zrange_length; lia); rewrite zrange_nth by lia; f_equal; lia|].
  destruct (mapr_nth _ _ _ (Z.to_nat (k - 1)) k E1') as (y' & N' & P'); [rewrite (nth_error_nth' _ 0) by (rewrite zrange_length; lia); rewrite zrange_nth by lia; f_equal; lia|].
  replace (Z.to_nat k) with (Datatypes.S (Z.to_nat (k - 1))) by lia. cbn [nth]. rewrite (nth_error_nth _ _ _ N), (nth_error_nth _ _ _ N').
  rewrite !lget_picture in P, P' by lia. cbn [bindr] in P, P'. destruct (lget (s :: sr) k) as [b|] eqn:B; [|discriminate]. destruct (lget (s :: sr') k) as [a|] eqn:A; [|discriminate]. cbn [bindr] in P, P'.
  assert (a = b) as -> by (apply (Sl k (or_intror eq_refl)); assumption). destruct (Same k (or_intror eq_refl)) as (P3 & P4 & _). rewrite P3, P4 in P'. congruence.
Qed.

(** What is found.  Every sample image shows the same scene, displaced by [d k], in front of the reference image, displaced by [s k] (as the
    given shifts say): the result is the displacement of the scene relative to the displacement of the reference, compared with the first
    image *)
Section scene.
Context (T : Z -> Z -> R) (ref sam : data) (d s : Z -> Z * Z) (win margin : Z) (pts : points).
Let r := win / 2.
Let e := r + margin.
Let sr := map (fun k => as_xy (s k)) (zrange 0 (depth ref)).
Let rim := 1 + largest (map s (zrange 0 (depth ref))).
Theorem sample_shifts_are_relative_to_the_references how (gpu : bool) block sched (sub : bool) meth size :
  one_scene T ref sam d s (win / 2) margin pts -> moves_images shift -> (meth = PolyFit -> reads_elements polyfit2 surface) -> (forall k, random_integers (randint k)) -> (gpu = true -> any_launch (block, 1) sched) ->
  let dy k := (fst (d k) - fst (s k)) - (fst (d 0) - fst (s 0)) in let dx k := (snd (d k) - snd (s k)) - (snd (d 0) - snd (s 0)) in
  (forall k, 0 <= k < depth ref -> - margin <= dy k <= margin /\ - margin <= dx k <= margin) ->
  exists l, samples ref sam sr win margin pts how gpu block sched sub meth size false = Ok l /\ Z.of_nat (length l) = depth ref /\
    forall k, 0 <= k < depth ref -> finds gpu sub meth (nth (Z.to_nat k) l (0, 0)%R) (dy k) (dx k).
Proof.
  intros O Mv RE Rn L dy dx Hd. unfold one_scene in O. cbv zeta in O. fold rim r e in O. destruct O as (S & D & R0 & M & Rc & F & Hr & Hc & Sp).
  assert (Im : depth sam = depth ref) by (destruct S as (K & _); destruct ref, sam; cbn in *; try contradiction; congruence). assert (Sz := S). destruct Sz as (_ & Sh & Sw).
  assert (Nz : zrange 0 (depth ref) <> []) by (intros N; apply (f_equal (@length Z)) in N; rewrite zrange_length in N; cbn in N; lia).
  assert (Cr : 1 + rtrunc (rmaximum (flat_map (fun q => [Rabs (fst q); Rabs (snd q)]) sr)) = rim).
  { unfold rim, sr. rewrite <- (map_map s as_xy). rewrite crop_is; [reflexivity|]. intros N. apply map_eq_nil in N. contradiction. }
  assert (Sm : forall k, 0 <= k < depth ref -> let m := normalised_sample shift (picture ref k) (picture sam k) (as_xy (s k)) rim in
     nrow m = height ref - 2 * rim /\ ncol m = width ref - 2 * rim /\
     forall u v, in_rng (nrow m) u -> in_rng (ncol m) v -> px m u v = T (u + (rim + (fst (d k) - fst (s k)))) (v + (rim + (snd (d k) - snd (s k))))).
  { intros k Hk. destruct (F k Hk) as (F1 & F2). destruct (largest_ge (s k) (map s (zrange 0 (depth ref)))) as (G1 & G2); [apply in_map, zrange_In; lia|].
    apply (normalised_shows shift T (picture ref k) (picture sam k) (d k) (s k)); try assumption; cbn [picture nrow ncol]; unfold rim in *; try lia; congruence. }
  assert (G : forall k, 0 <= k < depth ref -> exists v, pair_shift polyfit2 surface randint k (normalised_sample shift (picture ref 0) (picture sam 0) (as_xy (s 0)) rim)
      (normalised_sample shift (picture ref k) (picture sam k) (as_xy (s k)) rim) win margin pts how gpu block sched sub meth size false = Ok v /\ finds gpu sub meth v (dy k) (dx k)).
  { intros k Hk. destruct (Sm 0 ltac:(lia)) as (A1 & A2 & A3). destruct (Sm k Hk) as (B1 & B2 & B3). destruct (Hd k Hk) as (Hy & Hx).
    apply pair_recovers; try assumption; [apply Rn|unfold comparable; rewrite A1, A2, B1, B2; repeat split; try (unfold e, r in *; lia); discriminate|rewrite A1, A2; exact Sp|].
    intros p Hp. replace (dy k) with (rim + (fst (d k) - fst (s k)) - (rim + (fst (d 0) - fst (s 0)))) by (unfold dy; lia).
    replace (dx k) with (rim + (snd (d k) - snd (s k)) - (rim + (snd (d 0) - snd (s 0)))) by (unfold dx; lia).
    apply (scene_match _ _ T); try assumption; try (unfold dy, dx in *; lia); congruence. }
  set (g := fun k => match pair_shift polyfit2 surface randint k (normalised_sample shift (picture ref 0) (picture sam 0) (as_xy (s 0)) rim)
      (normalised_sample shift (picture ref k) (picture sam k) (as_xy (s k)) rim) win margin pts how gpu block sched sub meth size false with Ok v => v | Err _ => (0, 0)%R end).
  exists ((0, 0)%R :: map g (zrange 1 (depth ref - 1))). split; [|split].
  - unfold find_shift_between_sample_images. rewrite (proj2 (same_shape_spec ref sam) S). cbn [negb]. rewrite Cr. rewrite images_len by lia.
    assert (Q : forall i, 0 <= i < depth ref -> lget sr i = Ok (as_xy (s i))) by (intros i Hi; apply (lget_map (fun k => as_xy (s k))); exact Hi).
    rewrite !lget_picture by lia. cbn [bindr]. rewrite Q by lia. cbn [bindr].
    rewrite (mapr_total _ g); [|intros k Hk; apply zrange_In in Hk; rewrite !lget_picture by lia; cbn [bindr]; rewrite Q by lia; cbn [bindr]; destruct (G k ltac:(lia)) as (v & E & _); unfold g; rewrite E; reflexivity].
    cbn [bindr]. destruct sr eqn:Es; [|reflexivity]. exfalso. unfold sr in Es. apply map_eq_nil in Es. contradiction.
  - cbn [length]. rewrite map_length, zrange_length. lia.
  - intros k Hk. destruct (Z.eq_dec k 0) as [-> |K0].
    + cbn [nth Z.to_nat]. unfold finds, dy, dx. rewrite !Z.sub_diag. cbn [fst snd]. split; [reflexivity|]. intros _. rewrite Rminus_0_r, Rabs_R0. lra.
    + replace (Z.to_nat k) with (Datatypes.S (Z.to_nat (k - 1))) by lia. cbn [nth]. rewrite (nth_indep _ _ (g 0)) by (rewrite map_length, zrange_length; lia). rewrite map_nth, zrange_nth by lia.
      replace (1 + Z.of_nat (Z.to_nat (k - 1))) with k by lia. destruct (G k Hk) as (v & E & Fk). unfold g. rewrite E. exact Fk.
Qed.

(** so it is the displacement of the scene between the sample images if all references are displaced in the same way *)
Theorem sample_shifts_are_those_of_the_sample_partial how (gpu : bool) block sched (sub : bool) meth size :
  one_scene T ref sam d s (win / 2) margin pts -> moves_images shift -> (meth = PolyFit -> reads_elements polyfit2 surface) -> (forall k, random_integers (randint k)) -> (gpu = true -> any_launch (block, 1) sched) ->
  let dy k := fst (d k) - fst (d 0) in let dx k := snd (d k) - snd (d 0) in
  (forall k, 0 <= k < depth ref -> - margin <= dy k <= margin /\ - margin <= dx k <= margin) ->
  (forall k, 0 <= k < depth ref -> s k = s 0) ->
  exists l, samples ref sam sr win margin pts how gpu block sched sub meth size false = Ok l /\ Z.of_nat (length l) = depth ref /\
    forall k, 0 <= k < depth ref -> finds gpu sub meth (nth (Z.to_nat k) l (0, 0)%R) (dy k) (dx k).
Proof.
  intros O Mv RE Rn L dy dx Hd Same.
  destruct (sample_shifts_are_relative_to_the_references how gpu block sched sub meth size O Mv RE Rn L) as (l & E & N & Fd).
  - intros k Hk. rewrite (Same k Hk). destruct (Hd k Hk). unfold dy, dx in *. lia.
  - exists l. split; [exact E|]. split; [exact N|]. intros k Hk. specialize (Fd k Hk). rewrite (Same k Hk) in Fd.
    replace (dy k) with (fst (d k) - fst (s 0) - (fst (d 0) - fst (s 0))) by (unfold dy; lia). replace (dx k) with (snd (d k) - snd (s 0) - (snd (d 0) - snd (s 0))) by (unfold dx; lia). exact Fd.
Qed.
End scene.
End stackshift.
Print Assumptions one_shift_for_every_pair_of_images.
Print Assumptions stacks_of_displaced_images.
Print Assumptions sample_shifts_arguments.
Print Assumptions sample_shift_depends_on_two_images_only.
Print Assumptions sample_shifts_are_relative_to_the_references.
Print Assumptions sample_shifts_are_those_of_the_sample_partial.
(** In general it is not: if only the speckles move (the given shifts say by how much) and the sample does not, a displacement of the
    sample images is reported, which align_image_stacks then applies to both stacks *)
Theorem sample_shifts_are_those_of_the_sample_refuted : exists T ref sam d s win margin pts,
  one_scene T ref sam d s (win / 2) margin pts /\ (forall k, d k = d 0) /\
  forall polyfit2 surface randint shift how block sched meth size, moves_images shift -> (meth = PolyFit -> reads_elements polyfit2 surface) -> (forall k, random_integers (randint k)) ->
  find_shift_between_sample_images polyfit2 surface randint shift ref sam (map (fun k => as_xy (s k)) (zrange 0 (depth ref))) win margin pts how false block sched false meth size false
    = Ok [(0, 0); (0, -1)]%R.
Proof.
  exists cubes, (Stack two_refs), (Stack two_sams), no_motion, speckle_motion, 5, 1, (Points [Indices [4]; Indices [4]]).
  split; [exact two_scene|]. split; [reflexivity|]. intros polyfit2 surface randint shift how block sched meth size Mv RE Rn.
  destruct (sample_shifts_are_relative_to_the_references polyfit2 surface randint shift cubes (Stack two_refs) (Stack two_sams) no_motion speckle_motion 5 1 (Points [Indices [4]; Indices [4]])
    how false block sched false meth size two_scene Mv RE Rn) as (l & E & N & F); [discriminate| |].
  - intros k Hk. unfold no_motion, speckle_motion. cbn [fst snd depth two_refs dep] in *. lia.
  - rewrite E. f_equal. cbn [depth two_refs dep] in N, F. destruct l as [|a l]; [discriminate|]. destruct l as [|b l]; [discriminate|]. destruct l; [|cbn [length] in N; lia].
    destruct (F 0 ltac:(lia)) as (F0 & _). destruct (F 1 ltac:(lia)) as (F1 & _). specialize (F0 eq_refl eq_refl). specialize (F1 eq_refl eq_refl). change (Z.to_nat 0) with 0%nat in F0. change (Z.to_nat 1) with 1%nat in F1. cbn [nth] in F0, F1. rewrite F0, F1. reflexivity.
Qed.
Print Assumptions sample_shifts_are_those_of_the_sample_refuted.
(** np.roll moves images by whole pixels; a displacement of 0.5 is cut off *)
Example ex_moves : moves_images (fun m dy dx => mkimg (nrow m) (ncol m) (fun i j => px m ((i - rtrunc dy) mod nrow m) ((j - rtrunc dx) mod ncol m))).
Proof.
  assert (Tr : forall z, rtrunc (IZR z) = z).
  { intros z. unfold rtrunc. destruct (Rle_dec 0 (IZR z)); [apply P_phase_R.Int_part_unique; lra|]. rewrite <- opp_IZR, (P_phase_R.Int_part_unique _ (- z)) by lra. lia. }
  intros m dy dx. cbn [nrow ncol px]. split; [reflexivity|]. split; [reflexivity|]. intros i j Hi Hj Hi' Hj'. unfold in_rng in *. rewrite !Tr, !Z.mod_small by lia. reflexivity.
Qed.
(** the same scene in front of speckles that are always displaced in the same way *)
Example ex_same : one_scene cubes (Stack two_refs) (Stack (mkvol 2 13 13 (fun k i j => cubes (i + k) j * (vx two_refs k i j + 1 / 1000000000))%R)) (fun k => (k, 0)) no_motion (5 / 2) 1 NoPoints.
Proof.
  unfold one_scene. cbv zeta. change (largest (map no_motion (zrange 0 (depth (Stack two_refs))))) with 0. change (5 / 2) with 2. cbn [depth height width two_refs dep hei wid].
  split; [unfold same_size; cbn; repeat split|]. split; [lia|]. split; [lia|]. split; [lia|]. split; [apply cubes_recognisable; lia|]. split.
  - intros k Hk. split.
    + intros i j _ _ _ _. unfold no_motion, picture. cbn [px value fst snd vx]. rewrite !Z.add_0_r. reflexivity.
    + apply (proj1 (proj2 (proj2 (proj2 (proj2 (proj2 two_scene))))) k Hk).
  - split; [lia|]. split; [lia|]. exact I.
Qed.
