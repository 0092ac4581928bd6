(** C114: local shifts, transmission and dark signal found by matching windows (UMPA): algotom/util/correlation.py find_local_shifts_umpa. *)
From Coq Require Import Reals Lra ZArith Lia Permutation.
From Verif Require Import Np P_Np M_corr S_corr M_local S_local M_umpa S_umpa P_local P_umpa2 P_umpa3 P_umpa4.
From Coq Require Import List. Import ListNotations.
Open Scope Z_scope.

Section umpa.
Context (polyfit2 : vec R -> R * R) (surface : img R -> R * R * R * R * R) (smooth : Z -> Z -> R).
Notation umpa ref mat win margin meth size gpu block sched chunk dark :=
  (find_local_shifts_umpa polyfit2 surface smooth ref mat win margin meth size gpu block sched chunk dark).

(** With a positive smoothing window and a speckled reference, for every size, window, margin, method and device: at every pixel with room for the
    search, the shift lies within one pixel of the displacement with the smallest weighted sum of squares (over all displacements, transmissions and
    contrasts), transmission and dark signal belong to the least-squares fit at the displacement nearest to the shift, shifts are zero elsewhere and
    transmission and dark signal are continued outwards.  Rows must be cut into at most as many chunks as there are rows to search. *)
Theorem umpa_best_fit_partial ref mat win margin meth size gpu block sched chunk dark :
  same_size (Stack ref) (Stack mat) -> 1 <= dep ref -> 0 <= win -> 1 <= margin ->
  let r := win / 2 in let e := r + margin in
  2 * e + 1 <= hei ref -> 2 * e + 1 <= wid ref -> pieces (hei ref) chunk <= hei ref - 2 * e ->
  (forall k, 0 <= k < 2 * r + 1 -> (0 < smooth (2 * r + 1) k)%R) -> speckled dark ref r -> gpu = false \/ any_launch block sched ->
  exists o, umpa ref mat win margin meth size gpu block sched chunk dark = Ok o /\
    tracked_maps dark (smooth (2 * r + 1)) ref mat r margin (gpu = true \/ meth <> PolyFit) o.
Proof.
  intros Ss D Wn M r e He We K Tp Sp L. assert (R0 : 0 <= win / 2) by (apply Z.div_pos; lia).
  destruct (dev_spec polyfit2 surface smooth ref mat win margin dark Tp Sp Ss D R0 M He We meth size gpu block sched chunk L) as (A & _).
  destruct (A K) as (o & Eo & Wo). exists o. split; [exact Eo|]. exact (whole_tracked polyfit2 surface smooth ref mat win margin dark Tp Sp Ss D R0 M He We gpu meth size o Wo).
Qed.

(** A sample that shows the speckles displaced by (dy, dx), with transmission T and contrast V, and not explained by another displacement: the shift is
    found within one pixel, and where it rounds to the displacement, transmission and contrast are those of the sample. *)
Theorem umpa_recovers_partial ref mat win margin meth size gpu block sched chunk dark :
  same_size (Stack ref) (Stack mat) -> 1 <= dep ref -> 0 <= win -> 1 <= margin ->
  let r := win / 2 in let e := r + margin in
  2 * e + 1 <= hei ref -> 2 * e + 1 <= wid ref -> pieces (hei ref) chunk <= hei ref - 2 * e ->
  (forall k, 0 <= k < 2 * r + 1 -> (0 < smooth (2 * r + 1) k)%R) -> speckled dark ref r -> gpu = false \/ any_launch block sched -> gpu = true \/ meth <> PolyFit ->
  exists xs ys extra, umpa ref mat win margin meth size gpu block sched chunk dark = Ok (xs, ys, extra) /\
    forall i j dy dx T V, inner_pixel ref e i j -> - margin <= dy <= margin -> - margin <= dx <= margin -> (dark = false -> V = 1%R) ->
      shows ref mat r i j dy dx T V -> only_there dark ref mat r margin i j dy dx ->
      (Rabs (px xs i j - IZR dx) < 1 /\ Rabs (px ys i j - IZR dy) < 1)%R /\
      match extra with
      | None => dark = false
      | Some (t, v) => dark = true /\
          (Rabs (px xs i j - IZR dx) < 1 / 2 -> Rabs (px ys i j - IZR dy) < 1 / 2 -> px t i j = Rabs T /\ (T <> 0 -> px v i j = Rabs V))%R
      end.
Proof.
  intros Ss D Wn M r e He We K Tp Sp L Nr. assert (R0 : 0 <= win / 2) by (apply Z.div_pos; lia).
  destruct (umpa_best_fit_partial ref mat win margin meth size gpu block sched chunk dark Ss D Wn M He We K Tp Sp L) as ([[xs ys] ex] & Eo & (_ & _ & _ & Tm)).
  cbn [fst snd] in Tm. exists xs, ys, ex. split; [exact Eo|]. intros i j dy dx T V I Hy Hx V1 Sh On.
  destruct ex as [(t & v)|].
  - destruct Tm as (Dk & _ & _ & Tr & _). specialize (Tr i j I).
    destruct (recovered polyfit2 surface smooth ref mat win margin dark Tp Sp Ss D R0 M He We i j dy dx T V _ _ _ _ _ I Nr Tr Hy Hx Sh V1 On) as (N & Q). split; [exact N|]. split; [exact Dk|].
    intros X Y. exact (Q Dk X Y).
  - destruct Tm as (Dk & Tr). specialize (Tr i j I).
    destruct (recovered polyfit2 surface smooth ref mat win margin dark Tp Sp Ss D R0 M He We i j dy dx T V _ _ _ _ _ I Nr Tr Hy Hx Sh V1 On) as (N & _). auto.
Qed.

(** The maps do not depend on [chunk_size], as long as there are not more chunks than rows to search. *)
Theorem umpa_chunk_size_partial ref mat win margin meth size gpu block sched block' sched' chunk chunk' dark :
  same_size (Stack ref) (Stack mat) -> 1 <= dep ref -> 0 <= win -> 1 <= margin ->
  let r := win / 2 in let e := r + margin in
  2 * e + 1 <= hei ref -> 2 * e + 1 <= wid ref -> pieces (hei ref) chunk <= hei ref - 2 * e -> pieces (hei ref) chunk' <= hei ref - 2 * e ->
  (forall k, 0 <= k < 2 * r + 1 -> (0 < smooth (2 * r + 1) k)%R) -> speckled dark ref r ->
  gpu = false \/ (any_launch block sched /\ any_launch block' sched') ->
  exists o o', umpa ref mat win margin meth size gpu block sched chunk dark = Ok o /\
    umpa ref mat win margin meth size gpu block' sched' chunk' dark = Ok o' /\ same_maps o o'.
Proof.
  intros Ss D Wn M r e He We K K' Tp Sp L. assert (R0 : 0 <= win / 2) by (apply Z.div_pos; lia).
  destruct (dev_spec polyfit2 surface smooth ref mat win margin dark Tp Sp Ss D R0 M He We meth size gpu block sched chunk ltac:(tauto)) as (A & _).
  destruct (dev_spec polyfit2 surface smooth ref mat win margin dark Tp Sp Ss D R0 M He We meth size gpu block' sched' chunk' ltac:(tauto)) as (A' & _).
  destruct (A K) as (o & Eo & Wo). destruct (A' K') as (o' & Eo' & Wo'). exists o, o'. split; [exact Eo|]. split; [exact Eo'|].
  apply (whole_same polyfit2 surface smooth ref mat win margin dark Tp Sp Ss D R0 M He We _ _ o o' (fun i j _ => eq_refl) Wo Wo').
Qed.
(** Otherwise the call fails: a small [chunk_size] always fails, since the number of chunks is computed from all rows. *)
Theorem umpa_chunk_size_refuted ref mat win margin meth size gpu block sched chunk dark :
  same_size (Stack ref) (Stack mat) -> 1 <= dep ref -> 0 <= win -> 1 <= margin ->
  let r := win / 2 in let e := r + margin in
  2 * e + 1 <= hei ref -> 2 * e + 1 <= wid ref -> hei ref - 2 * e < pieces (hei ref) chunk ->
  (forall k, 0 <= k < 2 * r + 1 -> (0 < smooth (2 * r + 1) k)%R) -> speckled dark ref r -> gpu = false \/ any_launch block sched ->
  umpa ref mat win margin meth size gpu block sched chunk dark = Err IndexError.
Proof.
  intros Ss D Wn M r e He We K Tp Sp L. assert (R0 : 0 <= win / 2) by (apply Z.div_pos; lia).
  destruct (dev_spec polyfit2 surface smooth ref mat win margin dark Tp Sp Ss D R0 M He We meth size gpu block sched chunk L) as (_ & A). exact (A K).
Qed.

(** GPU and CPU give the same shifts and transmissions, and the same dark signal where the transmission is not zero, if the best displacement
    is nowhere at the limit of the search. *)
Theorem umpa_gpu_cpu_partial ref mat win margin size block sched chunk dark :
  same_size (Stack ref) (Stack mat) -> 1 <= dep ref -> 0 <= win -> 1 <= margin ->
  let r := win / 2 in let e := r + margin in
  2 * e + 1 <= hei ref -> 2 * e + 1 <= wid ref -> pieces (hei ref) chunk <= hei ref - 2 * e ->
  (forall k, 0 <= k < 2 * r + 1 -> (0 < smooth (2 * r + 1) k)%R) -> speckled dark ref r -> any_launch block sched ->
  (forall i j dy dx k b, inner_pixel ref e i j -> fits_best dark (smooth (2 * r + 1)) ref mat r margin i j dy dx k b -> Z.abs dy < margin /\ Z.abs dx < margin) ->
  exists xs ys xs' ys' extra extra', umpa ref mat win margin Diff size true block sched chunk dark = Ok (xs, ys, extra) /\
    umpa ref mat win margin Diff size false block sched chunk dark = Ok (xs', ys', extra') /\ img_eq xs xs' /\ img_eq ys ys' /\
    match extra, extra' with
    | Some (t, v), Some (t', v') => img_eq t t' /\ forall i j, 0 <= i < hei ref -> 0 <= j < wid ref -> px t i j <> 0%R -> px v i j = px v' i j
    | None, None => True | _, _ => False end.
Proof.
  intros Ss D Wn M r e He We K Tp Sp L In. assert (R0 : 0 <= win / 2) by (apply Z.div_pos; lia).
  destruct (dev_spec polyfit2 surface smooth ref mat win margin dark Tp Sp Ss D R0 M He We Diff size true block sched chunk (or_intror L)) as (A & _).
  destruct (dev_spec polyfit2 surface smooth ref mat win margin dark Tp Sp Ss D R0 M He We Diff size false block sched chunk (or_introl eq_refl)) as (A' & _).
  destruct (A K) as ([[xs ys] ex] & Eo & Wo). destruct (A' K) as ([[xs' ys'] ex'] & Eo' & Wo'). clear A A'.
  exists xs, ys, xs', ys', ex, ex'. split; [exact Eo|]. split; [exact Eo'|].
  destruct (shape_facts polyfit2 surface smooth ref mat win margin dark Tp Sp Ss D R0 M He We) as (F1 & F2 & F3).
  assert (Eq : forall i j, inner_pixel ref e i j -> exists x y t v v',
    qdev polyfit2 surface smooth ref mat win margin dark true Diff size i j = (x, y, (t, v)) /\
    qdev polyfit2 surface smooth ref mat win margin dark false Diff size i j = (x, y, (t, v')) /\ (t <> 0%R -> v = v')).
  { intros i j (Hi & Hj). destruct (gpu_cpu_px polyfit2 surface (smooth (2 * r + 1)) ref mat r margin dark Tp Sp F1 F2 F3 D R0 M He We i j Hi Hj size) as (x & y & t & v & v' & E1 & E2 & E3).
    - intros dy dx k b. apply In. split; assumption.
    - exists x, y, t, v, v'. split; [exact E1|]. split; [|exact E3]. cbn [qdev]. unfold qcpu. fold r. rewrite E2. reflexivity. }
  destruct Wo as ((S1 & S2) & (S3 & S4) & I & O & Df & Dt). destruct Wo' as ((S1' & S2') & (S3' & S4') & I' & O' & Df' & Dt'). cbn [fst snd] in *.
  assert (G : forall i j, 0 <= i < hei ref -> 0 <= j < wid ref -> px xs i j = px xs' i j /\ px ys i j = px ys' i j).
  { intros i j Hi Hj. assert (Q : inner_pixel ref e i j \/ ~ inner_pixel ref e i j) by (unfold inner_pixel; lia). destruct Q as [Q|Q].
    - destruct (Eq i j Q) as (x & y & t & v & v' & E1 & E2 & _). destruct (I i j (proj1 Q) (proj2 Q)) as (-> & ->). destruct (I' i j (proj1 Q) (proj2 Q)) as (-> & ->). rewrite E1, E2. auto.
    - destruct (O i j Hi Hj Q) as (-> & ->). destruct (O' i j Hi Hj Q) as (-> & ->). auto. }
  split; [split; [congruence|]; split; [congruence|]; unfold in_rng; rewrite S1, S2; intros i j Hi Hj; apply G; assumption|].
  split; [split; [congruence|]; split; [congruence|]; unfold in_rng; rewrite S3, S4; intros i j Hi Hj; apply G; assumption|].
  destruct (Bool.bool_dec dark true) as [Q|Q].
  - destruct (Dt Q) as (t & v & -> & T1 & T2 & T3 & T4 & Tv). destruct (Dt' Q) as (t' & v' & -> & T1' & T2' & T3' & T4' & Tv').
    assert (Kk : forall i j, px t i j = px t' i j /\ (px t i j <> 0%R -> px v i j = px v' i j)).
    { intros i j. set (a := clipZ i e (hei ref - e - 1)). set (c := clipZ j e (wid ref - e - 1)).
      destruct (Tv i j a c eq_refl eq_refl) as (-> & ->). destruct (Tv' i j a c eq_refl eq_refl) as (-> & ->).
      destruct (Eq a c) as (x & y & t0 & v0 & v0' & E1 & E2 & E3); [unfold inner_pixel, a, c, clipZ; lia|]. rewrite E1, E2. cbn [fst snd]. auto. }
    split; [split; [congruence|]; split; [congruence|]; intros i j _ _; apply Kk|]. intros i j _ _. apply Kk.
  - apply Bool.not_true_is_false in Q. rewrite (Df Q), (Df' Q). exact Logic.I.
Qed.

(** Images of different shapes and images without room for the search are rejected. *)
Theorem umpa_rejects ref mat win margin meth size gpu block sched chunk dark :
  ~ same_size (Stack ref) (Stack mat) \/ wid ref < 2 * (win / 2) + 1 + 2 * margin \/ hei ref < 2 * (win / 2) + 1 + 2 * margin ->
  umpa ref mat win margin meth size gpu block sched chunk dark = Err ValueError.
Proof.
  intros Q. unfold find_local_shifts_umpa. destruct (same_shape (Stack ref) (Stack mat)) eqn:E; [|reflexivity]. cbn [negb].
  apply same_shape_spec in E. destruct Q as [Q|Q]; [contradiction|].
  destruct (Z.ltb_spec (wid ref) (2 * (win / 2) + 1 + 2 * margin)); [reflexivity|]. destruct (Z.ltb_spec (hei ref) (2 * (win / 2) + 1 + 2 * margin)); [reflexivity|]. lia.
Qed.
End umpa.
Print Assumptions umpa_best_fit_partial.
Print Assumptions umpa_recovers_partial.
Print Assumptions umpa_chunk_size_partial.
Print Assumptions umpa_chunk_size_refuted.
Print Assumptions umpa_gpu_cpu_partial.
Print Assumptions umpa_rejects.

(** a speckle pattern displaced by one row, with transmission 2 and contrast 1/2 *)
Example umpa_example pf sf meth gpu chunk : chunk = None \/ chunk = Some 3 -> gpu = true \/ meth <> PolyFit ->
  exists xs ys t v, find_local_shifts_umpa pf sf (fun _ _ => 1%R) eref emat 1 1 meth 3 gpu (2, 2) (fun l => rev l) chunk true = Ok (xs, ys, Some (t, v)) /\
    forall i j, 1 <= i <= 3 -> 1 <= j <= 3 ->
      (Rabs (px xs i j) < 1 /\ Rabs (px ys i j - 1) < 1)%R /\ (Rabs (px xs i j) < 1 / 2 -> Rabs (px ys i j - 1) < 1 / 2 -> px t i j = 2 /\ px v i j = 1 / 2)%R.
Proof.
  intros Ch Nr.
  assert (La : any_launch (2, 2) (fun l : list (Z * Z) => rev l)) by (split; [cbn; lia|intros; apply Permutation_rev]).
  destruct (umpa_recovers_partial pf sf (fun _ _ => 1%R) eref emat 1 1 meth 3 gpu (2, 2) (fun l => rev l) chunk true) as (xs & ys & ex & E & Q).
  - repeat split.
  - cbn. lia.
  - lia.
  - lia.
  - cbn. lia.
  - cbn. lia.
  - destruct Ch as [->| ->]; cbn; lia.
  - intros. lra.
  - exact eref_speckled.
  - right. exact La.
  - exact Nr.
  - change (1 / 2)%Z with 0 in Q. pose proof (Q 1 1 1 0 2%R (1 / 2)%R) as Q0.
    assert (On : forall i j, 1 <= i <= 3 -> 1 <= j <= 3 -> inner_pixel eref (0 + 1) i j) by (intros; unfold inner_pixel; cbn [eref hei wid]; lia).
    destruct ex as [(t & v)|].
    + exists xs, ys, t, v. split; [exact E|]. intros i j Hi Hj.
      destruct (Q i j 1 0 2%R (1 / 2)%R (On i j Hi Hj) ltac:(lia) ltac:(lia) ltac:(discriminate) (emat_shows i j) (emat_only 1 i j ltac:(lia) ltac:(lia) ltac:(lia))) as ((A & B) & _ & C).
      rewrite Rminus_0_r in A. rewrite Rminus_0_r in C. split; [auto|]. intros X Y. destruct (C X Y) as (-> & V). rewrite V by lra. rewrite !Rabs_pos_eq by lra. auto.
    + destruct (Q 1 1 1 0 2%R (1 / 2)%R (On 1 1 ltac:(lia) ltac:(lia)) ltac:(lia) ltac:(lia) ltac:(discriminate) (emat_shows 1 1) (emat_only 1 1 1 ltac:(lia) ltac:(lia) ltac:(lia))) as (_ & F). discriminate.
Qed.
(** with chunk_size = 1 the same call fails *)
Example umpa_chunk_example pf sf meth : find_local_shifts_umpa pf sf (fun _ _ => 1%R) eref emat 1 1 meth 3 false (2, 2) (fun l => l) (Some 1) true = Err IndexError.
Proof.
  apply umpa_chunk_size_refuted; try (cbn; lia); [repeat split|intros; lra|exact eref_speckled].
Qed.
(** margin 2: the best displacement is not at the limit of the search, and the devices agree *)
Example umpa_gpu_example pf sf : exists xs ys xs' ys' e1 e2,
  find_local_shifts_umpa pf sf (fun _ _ => 1%R) eref emat 1 2 Diff 3 true (2, 2) (fun l => l) None true = Ok (xs, ys, e1) /\
  find_local_shifts_umpa pf sf (fun _ _ => 1%R) eref emat 1 2 Diff 3 false (2, 2) (fun l => l) None true = Ok (xs', ys', e2) /\ img_eq xs xs' /\ img_eq ys ys'.
Proof.
  assert (Sm : same_size (Stack eref) (Stack emat)) by (repeat split).
  assert (Tp : forall k, 0 <= k < 2 * (1 / 2) + 1 -> (0 < 1)%R) by (intros; lra).
  destruct (umpa_gpu_cpu_partial pf sf (fun _ _ => 1%R) eref emat 1 2 3 (2, 2) (fun l => l) None true Sm ltac:(cbn; lia) ltac:(lia) ltac:(lia) ltac:(cbn; lia) ltac:(cbn; lia) ltac:(cbn; lia) Tp eref_speckled)
    as (xs & ys & xs' & ys' & e1 & e2 & E1 & E2 & E3 & E4 & _).
  - split; [cbn; lia|intros; apply Permutation_refl].
  - intros i j dy dx k b (Hi & Hj) (Hy & Hx & _ & Best). change (1 / 2)%Z with 0 in *. cbn [eref hei wid] in Hi, Hj.
    pose proof (misfit_zero pf sf (fun _ _ => 1%R) eref emat 1 2 true Tp eref_speckled Sm ltac:(cbn; lia) ltac:(cbn; lia) ltac:(lia) ltac:(cbn; lia) ltac:(cbn; lia)) as Mz.
    pose proof (misfit_nonneg pf sf (fun _ _ => 1%R) eref emat 1 2 true Tp eref_speckled Sm ltac:(cbn; lia) ltac:(cbn; lia) ltac:(lia) ltac:(cbn; lia) ltac:(cbn; lia)) as Mn.
    change (1 / 2)%Z with 0 in Mz, Mn.
    assert (X : explains eref emat 0 i j 1 0 1 1).
    { intros q y x Hq Ay Ax. rewrite (emat_shows i j q y x Hq Ay Ax). field. }
    apply Mz in X. specialize (Best 1 0 1%R 1%R ltac:(lia) ltac:(lia) ltac:(discriminate)). rewrite X in Best.
    assert (Z0 : misfit (fun _ => 1%R) eref emat 0 i j dy dx k b = 0%R) by (apply Rle_antisym; [exact Best|apply Mn]).
    apply Mz in Z0. destruct (emat_only 2 i j ltac:(lia) ltac:(lia) ltac:(lia) dy dx k b Hy Hx ltac:(discriminate) Z0) as (-> & ->). lia.
  - exists xs, ys, xs', ys', e1, e2. auto.
Qed.
