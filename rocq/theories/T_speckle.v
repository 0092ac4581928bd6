(** Theorems for C119: phase retrieval by speckle tracking. *)
From Coq Require Import Reals ZArith Lia Lra Bool List.
From Verif Require Import Np P_Np M_phase_R M_corr S_corr M_local S_local P_local T_local M_umpa M_fourier M_surface S_surface P_surface2 M_speckle S_speckle P_speckle P_speckle2 P_speckle3.
Import ListNotations.
Open Scope Z_scope.

Section speckle.
Context (polyfit2 : vec R -> R * R) (surface : img R -> R * R * R * R * R) (np_pad : Z -> img R -> img R).
Context (dark_field : data -> data -> img R -> img R -> Z -> Z -> res (img R * img R)).
Notation retrieve := (retrieve_phase polyfit2 surface np_pad dark_field).
Notation local_shifts := (find_local_shifts polyfit2 surface).
Notation umpa_shifts := (find_local_shifts_umpa polyfit2 surface).

(** Asking for the shifts only adds the shifts to the result; asking for the dark signal only adds the signals if the shifts are found by correlation *)
Theorem speckle_options_only_add_results ref sam how (dark : bool) win margin meth size dev block sched chunk sm (neg ret : bool) :
  retrieve ref sam how dark win margin meth size dev block sched chunk sm neg false =
    match retrieve ref sam how dark win margin meth size dev block sched chunk sm neg true with Ok o => Ok (mkresult None (phase_of o) (signals_of o)) | Err e => Err e end /\
  (forall d n g o, how = Correl d n g -> retrieve ref sam how true win margin meth size dev block sched chunk sm neg ret = Ok o ->
     retrieve ref sam how false win margin meth size dev block sched chunk sm neg ret = Ok (mkresult (shift_maps_of o) (phase_of o) None)) /\
  (dark = false -> forall o, retrieve ref sam how dark win margin meth size dev block sched chunk sm neg ret = Ok o -> signals_of o = None).
Proof.
  split; [|split].
  - unfold retrieve_phase. destruct (track _ _ _ _ _ _ _ _ _ _ _ _ _ _ _) as [ ((lx, ly), sig)|]; [|reflexivity]. cbn [bindr].
    destruct (clean_border lx _) as [xs|]; [|reflexivity]. cbn [bindr]. destruct (clean_border ly _) as [ys|]; [|reflexivity]. cbn [bindr].
    match goal with |- bindr ?m _ = _ => destruct m as [ph|] end; reflexivity.
  - intros d n g o -> E. destruct (retrieve_inv _ _ _ _ _ _ _ _ _ _ _ _ _ _ _ _ _ _ _ _ E) as (lx & ly & sig & xs & ys & T & X & Y & S & Sh & Sg).
    rewrite (retrieve_fwd polyfit2 surface np_pad dark_field ref sam (Correl d n g) false win margin meth size dev block sched chunk sm neg ret lx ly None xs ys (phase_of o)); try assumption.
    + rewrite Sh. reflexivity.
    + unfold track in *. destruct (local_shifts ref sam d (Z.max win 1) (Z.max margin 1) meth (Z.max size 3) dev block sched n g chunk) as [ (x, y)|]; [|discriminate]. cbn [bindr fst snd] in *.
      destruct (dark_field _ _ _ _ _ _); [|discriminate]. cbn [bindr] in T. congruence.
  - intros -> o E. destruct (retrieve_inv _ _ _ _ _ _ _ _ _ _ _ _ _ _ _ _ _ _ _ _ E) as (lx & ly & sig & xs & ys & _ & _ & _ & _ & _ & Sg). exact Sg.
Qed.

(** The phase is the surface of the shifts that are returned; all have the size of the images, which must be larger than the border replaced *)
Theorem speckle_phase_is_the_surface_of_the_shifts ref sam how (dark : bool) win margin meth size dev block sched chunk sm (neg : bool) o :
  0 <= height ref -> 0 <= width ref -> (forall p m, nrow (np_pad p m) = nrow m + 2 * p /\ ncol (np_pad p m) = ncol m + 2 * p) ->
  retrieve ref sam how dark win margin meth size dev block sched chunk sm neg true = Ok o ->
  exists xs ys, shift_maps_of o = Some (xs, ys) /\ of_size ref xs /\ of_size ref ys /\ of_size ref (phase_of o) /\
    match sm with SCS w pad => surface_SCS np_pad xs ys neg w pad | FC w => surface_FC xs ys neg w end = Ok (phase_of o) /\
    2 * (Z.max margin 1 + 2) < height ref /\ 2 * (Z.max margin 1 + 2) < width ref.
Proof.
  intros H0 W0 NP E. destruct (retrieve_inv _ _ _ _ _ _ _ _ _ _ _ _ _ _ _ _ _ _ _ _ E) as (lx & ly & sig & xs & ys & T & X & Y & S & Sh & Sg).
  destruct (track_framed polyfit2 surface np_pad dark_field ref sam how dark _ _ _ _ _ _ _ _ lx ly sig H0 W0 (half_pos win) (Z.le_max_r margin 1) T) as ((R1 & C1 & _) & (R2 & C2 & _)).
  destruct (clean_inv lx (Z.max margin 1 + 2) xs) as (A1 & A2 & A3 & A4 & _); try lia; try assumption. destruct (clean_inv ly (Z.max margin 1 + 2) ys) as (B1 & B2 & B3 & B4 & _); try lia; try assumption.
  exists xs, ys. split; [exact Sh|]. split; [split; congruence|]. split; [split; congruence|]. split; [|split; [exact S|split; lia] ].
  assert (Rx : nrow xs = height ref) by congruence. assert (Cx : ncol xs = width ref) by congruence. unfold of_size. rewrite <- Rx, <- Cx. clear -S NP H0 W0 Rx Cx.
  assert (LN : forall m, nrow (lift_negative neg m) = nrow m /\ ncol (lift_negative neg m) = ncol m) by (intros m; unfold lift_negative; destruct neg; [destruct (Rlt_dec _ _)|]; split; reflexivity).
  destruct sm as [w pad|w]; cbn [surf_of] in S.
  - unfold surface_SCS in S. destruct (negb _); [discriminate|]. destruct (Z.ltb_spec pad 0); [discriminate|].
    match type of S with bindr ?m _ = _ => destruct m as [ ((su, sv), wi)|] end; [|discriminate]. cbn [bindr] in S. injection S as <-. rewrite (proj1 (LN _)), (proj2 (LN _)).
    destruct (Z.eqb_spec pad 0); [split; reflexivity|]. cbn [islice nrow ncol imap ifft2]. destruct (NP pad xs) as [-> ->]. unfold slen, py_adj. destruct (Z.ltb_spec pad 0), (Z.ltb_spec (- pad) 0); lia.
  - unfold surface_FC in S. destruct (negb _); [discriminate|]. match type of S with bindr ?m _ = _ => destruct m as [ ((su, sv), wi)|] end; [|discriminate]. cbn [bindr] in S. injection S as <-. rewrite (proj1 (LN _)), (proj2 (LN _)).
    match goal with |- nrow (islice ?m _ _ _ _) = _ /\ _ => assert (N : nrow m = 2 * nrow xs /\ ncol m = 2 * ncol xs) by (split; reflexivity); destruct N as (N1 & N2); set (big := m) in * end.
    split; [change (slen (nrow big) (nrow xs) (2 * nrow xs) = nrow xs); rewrite N1|change (slen (ncol big) 0 (ncol xs) = ncol xs); rewrite N2]; unfold slen, py_adj; clear N1 N2.
    + destruct (Z.ltb_spec (nrow xs) 0), (Z.ltb_spec (2 * nrow xs) 0); lia.
    + destruct (Z.ltb_spec (ncol xs) 0), (Z.ltb_spec 0 0); lia.
Qed.

(** The shifts returned are the local shifts, except for a border of margin + 2 pixels, where they are those of inner pixels (the ones opposite to the ends of the inner area if this is large enough); the signals are those of the local shifts *)
Theorem speckle_shifts_are_the_inner_local_shifts ref sam how (dark : bool) win margin meth size dev block sched chunk sm (neg : bool) o xs ys :
  0 <= height ref -> 0 <= width ref -> retrieve ref sam how dark win margin meth size dev block sched chunk sm neg true = Ok o -> shift_maps_of o = Some (xs, ys) ->
  exists lx ly, border_replaced ref (Z.max margin 1 + 2) lx ly xs ys /\
    match how with
    | Correl d n g => local_shifts ref sam d (Z.max win 1) (Z.max margin 1) meth (Z.max size 3) dev block sched n g chunk = Ok (lx, ly) /\
        (dark = true -> exists td, dark_field ref sam lx ly (Z.max win 1) (Z.max margin 1) = Ok td /\ signals_of o = Some td)
    | Umpa smooth => exists r s sig, ref = Stack r /\ sam = Stack s /\
        umpa_shifts smooth r s (Z.max win 1) (Z.max margin 1) meth (Z.max size 3) (match dev with CPU => false | _ => true end) block sched chunk dark = Ok (lx, ly, sig) /\ signals_of o = (if dark then sig else None)
    end.
Proof.
  intros H0 W0 E Q. destruct (retrieve_inv _ _ _ _ _ _ _ _ _ _ _ _ _ _ _ _ _ _ _ _ E) as (lx & ly & sig & xs' & ys' & T & X & Y & S & Sh & Sg).
  rewrite Q in Sh. assert (xs' = xs /\ ys' = ys) as [-> ->] by (split; congruence).
  destruct (track_framed polyfit2 surface np_pad dark_field ref sam how dark _ _ _ _ _ _ _ _ lx ly sig H0 W0 (half_pos win) (Z.le_max_r margin 1) T) as ((R1 & C1 & _) & (R2 & C2 & _)).
  destruct (clean_inv lx (Z.max margin 1 + 2) xs) as (A1 & A2 & A3 & A4 & A5); try lia; try assumption. destruct (clean_inv ly (Z.max margin 1 + 2) ys) as (B1 & B2 & B3 & B4 & B5); try lia; try assumption.
  exists lx, ly. split.
  - intros i j Hi Hj. exists (inner (height ref) (Z.max margin 1 + 2) i), (inner (width ref) (Z.max margin 1 + 2) j). split; [apply inner_stands; lia|]. split; [apply inner_stands; lia|].
    split; [rewrite A5, R1, C1; reflexivity|]. split; [rewrite B5, R2, C2; reflexivity|]. unfold in_rng in *. split; intros K; apply inner_opposite; lia.
  - destruct how as [d n g|smooth]; unfold track in T.
    + destruct (local_shifts ref sam d (Z.max win 1) (Z.max margin 1) meth (Z.max size 3) dev block sched n g chunk) as [ (x, y)|]; [|discriminate]. cbn [bindr fst snd] in *.
      destruct dark; [destruct (dark_field _ _ _ _ _ _) as [td|] eqn:Ed; [|discriminate]; cbn [bindr] in T|].
      * assert (x = lx) by congruence. assert (y = ly) by congruence. subst x y. split; [reflexivity|]. intros _. exists td. split; [exact Ed|]. rewrite Sg. congruence.
      * split; [congruence|discriminate].
    + destruct ref as [m|r]; [discriminate|]. destruct sam as [m|s]; [discriminate|]. exists r, s, sig. split; [reflexivity|]. split; [reflexivity|]. split; assumption.
Qed.

(** UMPA needs stacks of images *)
Theorem speckle_umpa_needs_stacks ref sam smooth (dark : bool) win margin meth size dev block sched chunk sm (neg ret : bool) m :
  ref = One m \/ sam = One m -> retrieve ref sam (Umpa smooth) dark win margin meth size dev block sched chunk sm neg ret = Err ValueError.
Proof. intros [ -> | -> ]; unfold retrieve_phase, track; [reflexivity|]. destruct (as_stack ref); reflexivity. Qed.

(** A window size or margin below 1 acts as 1, a fitting size below 3 as 3 *)
Theorem speckle_small_parameters ref sam how (dark : bool) win margin meth size dev block sched chunk sm (neg ret : bool) :
  (win <= 1 -> retrieve ref sam how dark win margin meth size dev block sched chunk sm neg ret = retrieve ref sam how dark 1 margin meth size dev block sched chunk sm neg ret) /\
  (margin <= 1 -> retrieve ref sam how dark win margin meth size dev block sched chunk sm neg ret = retrieve ref sam how dark win 1 meth size dev block sched chunk sm neg ret) /\
  (size <= 3 -> retrieve ref sam how dark win margin meth size dev block sched chunk sm neg ret = retrieve ref sam how dark win margin meth 3 dev block sched chunk sm neg ret).
Proof.
  split; [|split]; intros L; unfold retrieve_phase; [replace (Z.max win 1) with 1 by lia|replace (Z.max margin 1) with 1 by lia|replace (Z.max size 3) with 3 by lia]; reflexivity.
Qed.

(** With windows of 6 pixels or more (7 is the default), whatever the images, lines next to the replaced border are left blank *)
Theorem speckle_wide_windows_leave_blank_lines ref sam how (dark : bool) win margin meth size dev block sched chunk sm (neg : bool) o xs ys :
  0 <= height ref -> 0 <= width ref -> retrieve ref sam how dark win margin meth size dev block sched chunk sm neg true = Ok o -> shift_maps_of o = Some (xs, ys) ->
  let b := Z.max margin 1 + 2 in let e := Z.max margin 1 + Z.max win 1 / 2 in
  (forall i j, in_rng (height ref) i -> b <= j < width ref - b -> j < e \/ width ref - e <= j -> px xs i j = 0%R) /\
  (forall i j, b <= i < height ref - b -> in_rng (width ref) j -> i < e \/ height ref - e <= i -> px ys i j = 0%R) /\
  (6 <= win -> b < e).
Proof.
  intros H0 W0 E Q b e. destruct (retrieve_inv _ _ _ _ _ _ _ _ _ _ _ _ _ _ _ _ _ _ _ _ E) as (lx & ly & sig & xs' & ys' & T & X & Y & S & Sh & Sg).
  rewrite Q in Sh. assert (xs' = xs /\ ys' = ys) as [-> ->] by (split; congruence).
  destruct (track_framed polyfit2 surface np_pad dark_field ref sam how dark _ _ _ _ _ _ _ _ lx ly sig H0 W0 (half_pos win) (Z.le_max_r margin 1) T) as ((R1 & C1 & V1) & (R2 & C2 & V2)).
  destruct (clean_inv lx b xs) as (A1 & A2 & A3 & A4 & A5); unfold b in *; try lia; try assumption. destruct (clean_inv ly (Z.max margin 1 + 2) ys) as (B1 & B2 & B3 & B4 & B5); try lia; try assumption.
  assert (St : forall n i, 2 * (Z.max margin 1 + 2) < n -> stands_in n (Z.max margin 1 + 2) i (inner n (Z.max margin 1 + 2) i)) by (intros; apply inner_stands; assumption).
  split; [|split].
  - intros i j Hi Hj D. rewrite A5, R1, C1. destruct (St (height ref) i ltac:(lia)) as (S1 & _). destruct (St (width ref) j ltac:(lia)) as (S2 & S3). rewrite (S3 Hj). apply V1; unfold in_rng, e in *; lia.
  - intros i j Hi Hj D. rewrite B5, R2, C2. destruct (St (height ref) i ltac:(lia)) as (S1 & S3). destruct (St (width ref) j ltac:(lia)) as (S2 & _). rewrite (S3 Hi). apply V2; unfold in_rng, e in *; lia.
  - intros W. unfold e. assert (3 <= Z.max win 1 / 2) by (apply Z.div_le_lower_bound; lia). lia.
Qed.

(** If every inner window shows the reference displaced by (dy, dx), and shows it nowhere else within the margin, then all shifts returned are within one pixel of (dx, dy): for windows of up to 5 pixels *)
Theorem speckle_recovers_a_uniform_displacement_partial v w win margin size dev block sched (norm ng : bool) chunk sm (neg : bool) dy dx :
  let ref := Stack v in let sam := Stack w in
  any_launch block sched -> S_local.same_size ref sam -> 1 <= dep w -> 1 <= win -> 1 <= margin ->
  let r := win / 2 in let e := r + margin in
  2 * (margin + 2) < height ref -> 2 * (margin + 2) < width ref -> ((norm || ng)%bool = true -> textured ref e /\ textured sam e) ->
  pieces (height ref) chunk <= height ref - 2 * e -> sm = SCS None 0 \/ sm = FC None ->
  win <= 5 -> uniformly_displaced ref sam r margin dy dx ->
  exists xs ys phase, retrieve ref sam (Correl false norm ng) false win margin Diff size dev block sched chunk sm neg true = Ok (mkresult (Some (xs, ys)) phase None) /\ within_one ref dy dx xs ys.
Proof.
  intros ref sam L Ss D W M r e Hh Hw T P Sm W5 (Dy & Dx & U). assert (R0 : 0 <= r) by (apply Z.div_pos; lia). assert (R2 : r <= 2) by (unfold r; apply Z.lt_succ_r, Z.div_lt_upper_bound; lia).
  destruct (local_shifts_recover_local_displacement polyfit2 surface v w win margin (Z.max size 3) dev block sched norm ng chunk L Ss D R0 M) as (lx & ly & E & V); try assumption; try (fold r e ref; unfold e; lia).
  destruct (local_framed polyfit2 surface ref sam false win margin Diff (Z.max size 3) dev block sched norm ng chunk lx ly ltac:(lia) ltac:(lia) R0 M E) as ((R1 & C1 & _) & (R3 & C3 & _)).
  destruct (proj1 (clean_spec lx (margin + 2) ltac:(lia))) as (xs & X & Xr & Xc & Xv); [lia..|]. destruct (proj1 (clean_spec ly (margin + 2) ltac:(lia))) as (ys & Y & Yr & Yc & Yv); [lia..|].
  assert (SS : nrow xs = nrow ys /\ ncol xs = ncol ys) by (split; congruence).
  assert (Ph : exists ph, surf_of np_pad sm neg xs ys = Ok ph).
  { destruct SS as [Sr Sc]. destruct Sm as [-> | ->]; cbn [surf_of]; [unfold surface_SCS|unfold surface_FC]; rewrite <- Sr, <- Sc, !Z.eqb_refl; cbn [andb negb]; [replace (0 <? 0) with false by lia; destruct (make_window_SCS _ _) as ((a & b) & c)|destruct (make_window_FC _ _) as ((a & b) & c)]; cbn [bindr]; eexists; reflexivity. }
  destruct Ph as (ph & Ph). exists xs, ys, ph. split.
  - assert (W1 : Z.max win 1 = win) by lia. assert (M1 : Z.max margin 1 = margin) by lia.
    rewrite (retrieve_fwd polyfit2 surface np_pad dark_field ref sam (Correl false norm ng) false win margin Diff size dev block sched chunk sm neg true lx ly None xs ys ph); rewrite ?W1, ?M1; try assumption; try reflexivity.
    unfold track. fold ref sam in E. rewrite E. reflexivity.
  - intros i j Hi Hj. rewrite Xv, Yv, R1, C1, R3, C3. destruct (inner_stands (height ref) (margin + 2) i ltac:(lia)) as (P1 & _). destruct (inner_stands (width ref) (margin + 2) j ltac:(lia)) as (P2 & _).
    set (p := inner (height ref) (margin + 2) i) in *. set (q := inner (width ref) (margin + 2) j) in *. destruct (U p q) as (U1 & U2); [unfold e in *; lia..|].
    apply (V p q dy dx); try assumption; unfold r, e in *; fold ref; lia.
Qed.
End speckle.
Print Assumptions speckle_options_only_add_results.
Print Assumptions speckle_phase_is_the_surface_of_the_shifts.
Print Assumptions speckle_shifts_are_the_inner_local_shifts.
Print Assumptions speckle_umpa_needs_stacks.
Print Assumptions speckle_small_parameters.
Print Assumptions speckle_wide_windows_leave_blank_lines.
Print Assumptions speckle_recovers_a_uniform_displacement_partial.
(** three images of 30 x 30 pixels, displaced by 2 rows and 1 column; windows of 3 pixels, margin 4 *)
Example speckle_recovers_case : let ref := Stack (coded 30 30 0 0) in let sam := Stack (coded 30 30 2 1) in
  S_local.same_size ref sam /\ uniformly_displaced ref sam 1 4 2 1 /\ pieces (height ref) (Some 100) <= height ref - 2 * 5.
Proof.
  cbv zeta. split; [split; [reflexivity|split; reflexivity]|]. split; [|cbn; lia]. split; [lia|]. split; [lia|]. intros i j _ _. apply coded_shows; lia.
Qed.

(** The same for the default window size 7 and margin 10: not true *)
Theorem speckle_recovers_a_uniform_displacement_refuted polyfit2 surface np_pad dark_field :
  ~ (forall v w win margin size dev block sched sm neg dy dx,
       let ref := Stack v in let sam := Stack w in any_launch block sched -> S_local.same_size ref sam -> 1 <= dep w -> 1 <= win -> 1 <= margin ->
       let r := win / 2 in let e := r + margin in 2 * e + 10 < height ref -> 2 * e + 10 < width ref -> sm = SCS None 0 ->
       uniformly_displaced ref sam r margin dy dx ->
       exists xs ys phase, retrieve_phase polyfit2 surface np_pad dark_field ref sam (Correl false false false) false win margin Diff size dev block sched None sm neg true = Ok (mkresult (Some (xs, ys)) phase None) /\ within_one ref dy dx xs ys).
Proof.
  intros H. destruct (H (coded 60 60 0 0) (coded 60 60 2 1) 7 10 3 CPU (16, 16) (fun l => l) (SCS None 0) false 2 1) as (xs & ys & ph & E & V); try reflexivity; try (cbn; lia).
  - split; [cbn; lia|]. intros l. apply Permutation.Permutation_refl.
  - split; [reflexivity|split; reflexivity].
  - split; [lia|]. split; [lia|]. intros i j _ _. apply coded_shows; [cbn|..]; lia.
  - destruct (speckle_wide_windows_leave_blank_lines polyfit2 surface np_pad dark_field (Stack (coded 60 60 0 0)) _ _ _ _ _ _ _ _ _ _ _ _ _ _ xs ys ltac:(cbn; lia) ltac:(cbn; lia) E eq_refl) as (B & _).
    assert (Z0 := B 20 12). cbn [height width coded hei wid] in Z0. change (Z.max 10 1) with 10 in Z0. change (Z.max 7 1) with 7 in Z0. change (7 / 2) with 3 in Z0.
    specialize (Z0 ltac:(unfold in_rng; lia) ltac:(lia) ltac:(lia)). destruct (V 20 12) as (V1 & _); [unfold in_rng; cbn; lia..|]. rewrite Z0 in V1. unfold Rabs in V1. destruct (Rcase_abs _) in V1; lra.
Qed.
Print Assumptions speckle_recovers_a_uniform_displacement_refuted.
