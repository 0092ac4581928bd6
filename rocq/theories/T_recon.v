(** Property theorems for fbp_reconstruction and bpf_reconstruction (C54, C83-C87). *)
From Verif Require Import Np P_Np M_utility P_utility M_conversion M_par P_par M_backproj S_backproj P_backproj M_recon S_recon P_recon.
From Coq Require Import QArith Qround Lia Lqa Permutation.
From Coq Require Import List. Import ListNotations.
Open Scope Z_scope.

Lemma pad_of_pos nc pad : 0 <= nc -> (forall p, pad = Some p -> 0 <= p) -> 0 <= pad_of nc pad.
Proof.
  intros N H. destruct pad as [p|]; [apply H; reflexivity|]. cbn [pad_of]. apply Z.min_glb; [|lia]. unfold Qtrunc.
  assert (0 <= (15#100) * inject_Z nc)%Q.
  { apply Qmult_le_0_compat; [discriminate|]. change 0%Q with (inject_Z 0). rewrite <- Zle_Qle. exact N. }
  rewrite (proj2 (Qle_bool_iff _ _) H0). change 0 with (Qfloor 0). apply Qfloor_resp_le, H0.
Qed.

(** C83: the reconstruction of a stack of sinograms is the stack of the reconstructions, for every schedule,
    completion order and number of cores (floating-point sinograms: [cast] changes nothing) *)
Theorem fbp_of_a_stack_is_slice_by_slice :
  forall (cosf sinf neglog : Q -> Q) (pi : Q) (window name mode : Type) (wshape : window -> Z * Z)
    (make_2d : Z -> Z -> name -> window) (np_pad_cols : img Q -> Z -> mode -> img Q) (fft_rows : img Q -> window -> img Q)
    (v : vol Q) center angles ratio ramp_win fname pad pmode apply_log gpu block cpu ncore cast order scheds,
  trig_parity cosf sinf -> pads_columns np_pad_cols -> keeps_shape fft_rows ->
  valid_arguments (dep v) (wid v) center angles pad block -> 1 <= hei v ->
  (forall i, 0 <= i < hei v -> proper_schedule gpu (dep v) (wid v) (scheds i)) -> Permutation (zrange 0 (hei v)) order ->
  (forall q, (cast q == q)%Q) ->
  let fbp a := fbp_reconstruction cosf sinf neglog pi wshape make_2d np_pad_cols fft_rows a center angles ratio ramp_win fname pad
                 pmode apply_log gpu block cpu ncore cast in
  exists o out, fbp (A3 v) order scheds = Ok o /\ recon o = A3 out /\
    (completed o -> dep out = wid v /\ hei out = hei v /\ wid out = wid v /\
     forall j order' scheds', 0 <= j < hei v -> proper_schedule gpu (dep v) (wid v) (scheds' 0) ->
       exists o' out', fbp (A2 (sinogram_of v j)) order' scheds' = Ok o' /\ recon o' = A2 out' /\
         (completed o' -> nrow out' = wid v /\ ncol out' = wid v /\
          forall y x, 0 <= y < wid v -> 0 <= x < wid v -> (vx out y j x == px out' y x)%Q)).
Proof.
  intros cosf sinf neglog pi window name mode wshape make_2d pc fr v center angles ratio rw fname pad pmode lg gpu block cpu ncore cast order scheds
    TP PC [FR FE] (N1 & N2 & C1 & C2 & A & P & B1 & B2) H PS O Ca fbp.
  assert (HP : 0 <= pad_of (wid v) pad) by (apply pad_of_pos; [lia|exact P]).
  destruct (fbp3_spec cosf sinf TP neglog pi wshape make_2d pc fr PC FR center angles ratio rw fname pad pmode lg gpu block
              (dep v) (wid v) N1 N2 C1 C2 A HP B1 B2 v cpu ncore cast order scheds eq_refl eq_refl H PS O (or_intror (or_intror Ca)))
    as (o & E & _ & out & R & X).
  exists o, out. split; [exact E|]. split; [exact R|]. intros D. destruct (X D) as (S1 & S2 & S3 & V).
  split; [exact S1|]. split; [exact S2|]. split; [exact S3|]. intros j order' scheds' Hj PS'.
  destruct (fbp2_spec cosf sinf TP neglog pi wshape make_2d pc fr PC FR center angles ratio rw fname pad pmode lg gpu block
              (dep v) (wid v) N1 N2 C1 C2 A HP B1 B2 (sinogram_of v j) cpu ncore cast order' scheds' eq_refl eq_refl PS')
    as (o' & E' & _ & out' & R' & X').
  exists o', out'. split; [exact E'|]. split; [exact R'|]. intros D'. destruct (X' D') as (T1 & T2 & V').
  split; [exact T1|]. split; [exact T2|]. intros y x Hy Hx. rewrite V, V' by assumption. reflexivity.
Qed.
Print Assumptions fbp_of_a_stack_is_slice_by_slice.

(** C84: the same for bpf_reconstruction, if the window that is used has the size of the padded slice *)
Theorem bpf_of_a_stack_is_slice_by_slice_partial :
  forall (cosf sinf neglog : Q -> Q) (pi : Q) (window name mode : Type) (wshape : window -> Z * Z)
    (make_circ : Z -> name -> window) (np_pad_all : img Q -> Z -> mode -> img Q) (fft_2d : img Q -> window -> img Q) (no_name : name)
    (v : vol Q) center angles ratio ramp_win fname pad pmode apply_log gpu block order scheds,
  trig_parity cosf sinf -> pads_all_sides np_pad_all -> keeps_shape fft_2d -> (forall n f, wshape (make_circ n f) = (n, n)) ->
  valid_arguments (dep v) (wid v) center angles pad block -> 1 <= hei v ->
  (forall w, ramp_win = Some w -> wshape w = (wid v + 2 * pad_of (wid v) pad, wid v + 2 * pad_of (wid v) pad)) ->
  (forall i, 0 <= i < hei v -> proper_schedule gpu (dep v) (wid v) (scheds i)) -> Permutation (zrange 0 (hei v)) order ->
  let bpf a := bpf_reconstruction cosf sinf neglog pi wshape make_circ np_pad_all fft_2d no_name a center angles ratio ramp_win fname pad
                 pmode apply_log gpu block in
  exists o out, bpf (A3 v) order scheds = Ok o /\ recon o = A3 out /\
    (completed o -> dep out = wid v /\ hei out = hei v /\ wid out = wid v /\
     forall j order' scheds', 0 <= j < hei v -> proper_schedule gpu (dep v) (wid v) (scheds' 0) ->
       exists o' out', bpf (A2 (sinogram_of v j)) order' scheds' = Ok o' /\ recon o' = A2 out' /\
         (completed o' -> nrow out' = wid v /\ ncol out' = wid v /\
          forall y x, 0 <= y < wid v -> 0 <= x < wid v -> (vx out y j x == px out' y x)%Q)).
Proof.
  intros cosf sinf neglog pi window name mode wshape make_circ pa f2 nn v center angles ratio rw fname pad pmode lg gpu block order scheds
    TP [PA PE] [FR FE] WS (N1 & N2 & C1 & C2 & A & P & B1 & B2) H W PS O bpf.
  assert (HP : 0 <= pad_of (wid v) pad) by (apply pad_of_pos; [lia|exact P]).
  assert (W' : wshape (bpf_w make_circ rw fname pad (wid v)) = (wid v + 2 * pad_of (wid v) pad, wid v + 2 * pad_of (wid v) pad)).
  { unfold bpf_w. destruct rw as [w|]; [apply W; reflexivity|apply WS]. }
  destruct (bpf3_spec cosf sinf TP neglog pi wshape make_circ pa f2 PA FR center angles ratio rw fname pad pmode lg gpu block
              (dep v) (wid v) N1 N2 C1 C2 A HP B1 B2 PE FE nn W' v order scheds eq_refl eq_refl H PS O)
    as (o & E & _ & out & R & X).
  exists o, out. split; [exact E|]. split; [exact R|]. intros D. destruct (X D) as (S1 & S2 & S3 & V).
  split; [exact S1|]. split; [exact S2|]. split; [exact S3|]. intros j order' scheds' Hj PS'.
  destruct (bpf2_spec cosf sinf TP neglog pi wshape make_circ pa f2 PA FR center angles ratio rw fname pad pmode lg gpu block
              (dep v) (wid v) N1 N2 C1 C2 A HP B1 B2 PE FE nn W' (sinogram_of v j) order' scheds' eq_refl eq_refl PS')
    as (o' & E' & _ & out' & R' & X').
  exists o', out'. split; [exact E'|]. split; [exact R'|]. intros D'. destruct (X' D') as (T1 & T2 & V').
  split; [exact T1|]. split; [exact T2|]. intros y x Hy Hx. rewrite V, V' by assumption. reflexivity.
Qed.
Print Assumptions bpf_of_a_stack_is_slice_by_slice_partial.

Lemma after_log_eq (lg : bool) neglog (m : img Q) : img_eq (after_log lg neglog m) (logged neglog lg m).
Proof. unfold img_eq, after_log, logged, fix_log. destruct lg; split; try reflexivity; split; reflexivity. Qed.
Lemma mask_circle center ratio nc y x : 0 <= y < nc -> 0 <= x < nc ->
  (mask_at center ratio nc y x ==
   if inside_circle nc (match ratio with Some r => Some (rec_ratio nc center r) | None => None end) y x then 1 else 0)%Q.
Proof.
  intros Hy Hx. unfold mask_at, inside_circle. destruct ratio as [r|]; [|reflexivity]. cbv zeta. unfold make_circle_mask. cbn [px]. reflexivity.
Qed.

(** C85: every pixel inside the circle is pi / (number of rows - 1) times the sum over all projections of the filtered
    sinogram where the pixel is seen; pixels outside the circle are 0; ratio 0 stands for the distance from the centre of
    rotation to the nearer side relative to half of the width *)
Theorem fbp_pixel_is_the_filtered_back_projection :
  forall (cosf sinf neglog : Q -> Q) (pi : Q) (window name mode : Type) (wshape : window -> Z * Z)
    (make_2d : Z -> Z -> name -> window) (np_pad_cols : img Q -> Z -> mode -> img Q) (fft_rows : img Q -> window -> img Q)
    (m : img Q) center angles ratio fname pad pmode (apply_log gpu : bool) block cpu ncore cast order scheds,
  trig_parity cosf sinf -> pads_columns np_pad_cols -> keeps_shape fft_rows ->
  valid_arguments (nrow m) (ncol m) center angles pad block -> proper_schedule gpu (nrow m) (ncol m) (scheds 0) ->
  let p := match pad with Some p => p | None => Z.min (Qtrunc ((15#100) * inject_Z (ncol m))) 150 end in
  let filtered := apply_ramp_filter wshape make_2d np_pad_cols fft_rows (if apply_log then after_log true neglog m else m)
                    (Some (make_2d (nrow m) (ncol m + 2 * p) fname)) fname (Some p) pmode in
  let radius := match ratio with
                | Some r => Some (if Qeq_bool r 0 then Qminb center (inject_Z (ncol m) - center) / (inject_Z (ncol m) / 2) else r)%Q
                | None => None end in
  exists o out,
    fbp_reconstruction cosf sinf neglog pi wshape make_2d np_pad_cols fft_rows (A2 m) center angles ratio None fname pad
                 pmode apply_log gpu block cpu ncore cast order scheds = Ok o /\ recon o = A2 out /\
    (completed o -> nrow out = ncol m /\ ncol out = ncol m /\
     forall y x, 0 <= y < ncol m -> 0 <= x < ncol m ->
       (px out y x == if inside_circle (ncol m) radius y x
                      then pi / inject_Z (nrow m - 1) *
                           sum_over (slice_pixel cosf sinf false filtered (used_angles pi (nrow m) angles) center y x) (zrange 0 (nrow m))
                      else 0)%Q).
Proof.
  intros cosf sinf neglog pi window name mode wshape make_2d pc fr m center angles ratio fname pad pmode lg gpu block cpu ncore cast order scheds
    TP PC [FR FE] (N1 & N2 & C1 & C2 & A & P & B1 & B2) PS p filtered radius.
  assert (HP : 0 <= pad_of (ncol m) pad) by (apply pad_of_pos; [lia|exact P]).
  destruct (fbp2_spec cosf sinf TP neglog pi wshape make_2d pc fr PC FR center angles ratio None fname pad pmode lg gpu block
              (nrow m) (ncol m) N1 N2 C1 C2 A HP B1 B2 m cpu ncore cast order scheds eq_refl eq_refl PS)
    as (o & E & _ & out & R & X).
  exists o, out. split; [exact E|]. split; [exact R|]. intros D. destruct (X D) as (S1 & S2 & V).
  split; [exact S1|]. split; [exact S2|]. intros y x Hy Hx. rewrite V by assumption. unfold fbp_val.
  rewrite mask_circle by assumption.
  assert (Rd : inside_circle (ncol m) (match ratio with Some r => Some (rec_ratio (ncol m) center r) | None => None end) y x
             = inside_circle (ncol m) radius y x).
  { unfold radius, inside_circle, rec_ratio. destruct ratio as [r|]; [|reflexivity]. cbv zeta. destruct (Qeq_bool r 0); [|reflexivity].
    assert (Q1 : ((1#2) * inject_Z (ncol m) == inject_Z (ncol m) / 2)%Q) by field.
    apply eq_true_iff_eq. rewrite !Qle_bool_iff, Q1. tauto. }
  rewrite Rd. clear Rd.
  assert (Fl : bp_sum cosf sinf false (fbp_filtered neglog wshape make_2d pc fr None fname pad pmode lg (nrow m) (ncol m) m)
                 (ang pi angles (nrow m)) center y x =
               sum_over (slice_pixel cosf sinf false filtered (used_angles pi (nrow m) angles) center y x) (zrange 0 (nrow m))).
  { unfold bp_sum. destruct (logged_shape neglog lg m) as [L1 L2].
    destruct (filt_shape wshape make_2d pc fr PC FR (logged neglog lg m) (fbp_win make_2d None fname pad (nrow m) (ncol m)) fname (pad_of (ncol m) pad) pmode) as [S3 _]; [lia..|].
    unfold fbp_filtered. rewrite S3, L1. unfold filtered, logged, after_log, fix_log. destruct lg; reflexivity. }
  assert (NZ : ~ (inject_Z (nrow m - 1) == 0)%Q) by (apply inject_Z_neq0; lia).
  rewrite Fl. destruct (inside_circle _ _ y x); field; exact NZ.
Qed.
Print Assumptions fbp_pixel_is_the_filtered_back_projection.

(** C86: wrong arguments are rejected, before anything else happens *)
Definition columns (a : arr) : Z := match a with A2 m => ncol m | A3 v => wid v end.
Definition rows (a : arr) : Z := match a with A2 m => nrow m | A3 v => dep v end.
Theorem reconstruction_rejects_a_centre_outside_and_a_wrong_number_of_angles :
  forall (cosf sinf neglog : Q -> Q) (pi : Q) (window name mode : Type) (wshape : window -> Z * Z)
    (make_2d : Z -> Z -> name -> window) (make_circ : Z -> name -> window)
    (np_pad_cols np_pad_all : img Q -> Z -> mode -> img Q) (fft_rows fft_2d : img Q -> window -> img Q) (no_name : name)
    (a : arr) center angles ratio ramp_win fname pad pmode apply_log gpu block cpu ncore cast order scheds,
  (center < 0)%Q \/ (inject_Z (columns a) <= center)%Q \/ (exists v, angles = Some v /\ vlen v <> rows a) ->
  fbp_reconstruction cosf sinf neglog pi wshape make_2d np_pad_cols fft_rows a center angles ratio ramp_win fname pad
                 pmode apply_log gpu block cpu ncore cast order scheds = Err ValueError /\
  bpf_reconstruction cosf sinf neglog pi wshape make_circ np_pad_all fft_2d no_name a center angles ratio ramp_win fname pad
                 pmode apply_log gpu block order scheds = Err ValueError.
Proof.
  intros cosf sinf neglog pi window name mode wshape make_2d make_circ pc pa fr f2 nn a center angles ratio rw fname pad pmode lg gpu block cpu ncore cast
    order scheds H.
  assert (Ck : check_args pi a center angles = Err ValueError).
  { unfold check_args. assert (S : exists s, shape3 a = (rows a, s, columns a)) by (destruct a; eexists; reflexivity).
    destruct S as [s ->]. destruct (Qltb center 0) eqn:X; [reflexivity|]. destruct (Qle_bool _ _) eqn:Y; [reflexivity|]. cbn [orb].
    destruct H as [H|[H|(v & -> & H)] ].
    - apply Qltb_lt in H. congruence.
    - apply Qle_bool_iff in H. congruence.
    - destruct (Z.eqb_spec (vlen v) (rows a)); [contradiction|reflexivity]. }
  unfold fbp_reconstruction, bpf_reconstruction. rewrite Ck. destruct (shape3 a) as [ [r s] c]. split; reflexivity.
Qed.
Print Assumptions reconstruction_rejects_a_centre_outside_and_a_wrong_number_of_angles.

(** C54: what happens to the caller's sinogram *)
Lemma fix_log_pos v : (0 < v)%Q -> fix_log v = v.
Proof. intros H. unfold fix_log. destruct (Qle_bool v 0) eqn:E; [apply Qle_bool_iff in E; lra|reflexivity]. Qed.
Lemma same_array_refl a : same_array a a.
Proof. destruct a as [m|v]; cbn; [|repeat (split; [reflexivity|]); reflexivity]. unfold img_Qeq. split; [reflexivity|]. split; [reflexivity|]. reflexivity. Qed.
Lemma same_array_pos a : all_positive a -> same_array (amap fix_log a) a.
Proof.
  destruct a as [m|v]; cbn; intros P.
  - split; [reflexivity|]. split; [reflexivity|]. intros i j Hi Hj. cbn [px]. rewrite fix_log_pos by (apply P; assumption). reflexivity.
  - repeat (split; [reflexivity|]). intros i j k Hi Hj Hk. rewrite fix_log_pos by (apply P; assumption). reflexivity.
Qed.
Lemma fbp_caller cosf sinf neglog pi window name mode wshape make_2d pc fr a center angles ratio rw fname pad pmode lg gpu block cpu ncore cast order scheds o :
  fbp_reconstruction cosf sinf neglog pi (window:=window) (name:=name) (mode:=mode) wshape make_2d pc fr a center angles ratio rw fname pad
                 pmode lg gpu block cpu ncore cast order scheds = Ok o ->
  caller o = if lg then amap fix_log a else a.
Proof.
  unfold fbp_reconstruction. destruct (shape3 a) as [ [r s] c]. destruct (check_args _ _ _ _) as [ang|]; cbn [bindr]; [|discriminate].
  destruct (pad_of c pad <? 0); [discriminate|]. destruct (s =? 1).
  - destruct (squeeze2 _) as [m|]; cbn [bindr]; [|discriminate]. destruct (back_project2 _ _ _ _ _ _ _ _ _) as [ [x ts]|]; cbn [bindr]; [|discriminate].
    intros E. apply Ok_inj in E. subst o. reflexivity.
  - destruct (if lg then amap neglog _ else _) as [m|v]; [discriminate|]. destruct (if ncore_of cpu ncore =? 1 then _ else _) as [f|]; cbn [bindr]; [|discriminate].
    destruct (back_project3 _ _ _ _ _ _ _ _ _) as [ [x ts]|]; cbn [bindr]; [|discriminate].
    intros E. apply Ok_inj in E. subst o. reflexivity.
Qed.
Lemma bpf_caller cosf sinf neglog pi window name mode wshape make_circ pa f2 nn a center angles ratio rw fname pad pmode lg gpu block order scheds o :
  bpf_reconstruction cosf sinf neglog pi (window:=window) (name:=name) (mode:=mode) wshape make_circ pa f2 nn a center angles ratio rw fname pad
                 pmode lg gpu block order scheds = Ok o ->
  caller o = if lg then amap fix_log a else a.
Proof.
  unfold bpf_reconstruction. destruct (shape3 a) as [ [r s] c]. destruct (check_args _ _ _ _) as [ang|]; cbn [bindr]; [|discriminate].
  destruct (pad_of c pad <? 0); [discriminate|]. destruct (s =? 1).
  - destruct (squeeze2 _) as [m|]; cbn [bindr]; [|discriminate]. destruct (back_project2 _ _ _ _ _ _ _ _ _) as [ [x ts]|]; cbn [bindr]; [|discriminate].
    intros E. apply Ok_inj in E. subst o. reflexivity.
  - destruct (if lg then amap neglog _ else _) as [m|v]; [discriminate|].
    destruct (back_project3 _ _ _ _ _ _ _ _ _) as [ [x ts]|]; cbn [bindr]; [|discriminate].
    destruct (parallel_process_slices _ _ _ _) as [f|]; cbn [bindr]; [|discriminate].
    intros E. apply Ok_inj in E. subst o. reflexivity.
Qed.
Theorem reconstruction_keeps_positive_sinograms_partial :
  forall (cosf sinf neglog : Q -> Q) (pi : Q) (window name mode : Type) (wshape : window -> Z * Z)
    (make_2d : Z -> Z -> name -> window) (make_circ : Z -> name -> window)
    (np_pad_cols np_pad_all : img Q -> Z -> mode -> img Q) (fft_rows fft_2d : img Q -> window -> img Q) (no_name : name)
    (a : arr) center angles ratio ramp_win fname pad pmode apply_log gpu block cpu ncore cast order scheds o,
  fbp_reconstruction cosf sinf neglog pi wshape make_2d np_pad_cols fft_rows a center angles ratio ramp_win fname pad
                 pmode apply_log gpu block cpu ncore cast order scheds = Ok o \/
  bpf_reconstruction cosf sinf neglog pi wshape make_circ np_pad_all fft_2d no_name a center angles ratio ramp_win fname pad
                 pmode apply_log gpu block order scheds = Ok o ->
  (apply_log = false \/ all_positive a -> same_array (caller o) a) /\
  (apply_log = true -> caller o = amap (fun v => if Qle_bool v 0 then 1%Q else v) a).
Proof.
  intros cosf sinf neglog pi window name mode wshape make_2d make_circ pc pa fr f2 nn a center angles ratio rw fname pad pmode lg gpu block cpu ncore cast
    order scheds o H.
  assert (C : caller o = if lg then amap fix_log a else a) by (destruct H as [H|H]; [eapply fbp_caller, H|eapply bpf_caller, H]).
  rewrite C. split.
  - intros [->|P]; [apply same_array_refl|]. destruct lg; [apply same_array_pos, P|apply same_array_refl].
  - intros ->. reflexivity.
Qed.
Print Assumptions reconstruction_keeps_positive_sinograms_partial.

(** *** a concrete setting: windows are (height, width, factor), the filters multiply by the factor, padding with zeros *)
Definition w_t : Type := (Z * Z * Q)%type.
Definition w_shape (w : w_t) : Z * Z := let '(h, v, _) := w in (h, v).
Definition w_make2 (h w : Z) (f : bool) : w_t := (h, w, if f then (1#2)%Q else 3%Q).
Definition w_make1 (n : Z) (f : bool) : w_t := (n, n, if f then (1#2)%Q else 3%Q).
Definition w_cols (m : img Q) (p : Z) (_ : unit) : img Q := mkimg (nrow m) (ncol m + 2 * p) (fun i j => px m i (j - p)).
Definition w_all (m : img Q) (p : Z) (_ : unit) : img Q :=
  mkimg (nrow m + 2 * p) (ncol m + 2 * p)
    (fun i j => if (0 <=? i - p) && (i - p <? nrow m) && (0 <=? j - p) && (j - p <? ncol m) then px m (i - p) (j - p) else 0%Q).
Definition w_filter (m : img Q) (w : w_t) : img Q := let '(_, _, k) := w in mkimg (nrow m) (ncol m) (fun i j => (k * px m i j)%Q).
Lemma w_cols_ok : pads_columns w_cols.
Proof. intros m p md H. split; reflexivity. Qed.
Lemma w_all_ok : pads_all_sides w_all.
Proof.
  split; [intros m p md H; split; reflexivity|]. intros m m' p md (R & C & E). unfold w_all. split; [cbn; lia|]. split; [cbn; lia|].
  intros i j Hi Hj. cbn [px nrow ncol] in *. rewrite <- R, <- C.
  destruct (Z.leb_spec 0 (i - p)); cbn [andb]; [|reflexivity]. destruct (Z.ltb_spec (i - p) (nrow m)); cbn [andb]; [|reflexivity].
  destruct (Z.leb_spec 0 (j - p)); cbn [andb]; [|reflexivity]. destruct (Z.ltb_spec (j - p) (ncol m)); cbn [andb]; [|reflexivity].
  apply E; unfold in_rng; lia.
Qed.
Lemma w_filter_ok : keeps_shape w_filter.
Proof.
  split; [intros m [ [h v] k]; split; reflexivity|]. intros m m' [ [h v] k] (R & C & E). split; [exact R|]. split; [exact C|].
  intros i j Hi Hj. cbn [px w_filter nrow ncol] in *. rewrite E by assumption. reflexivity.
Qed.
Definition ex_stack : vol Q := mkvol 2 2 2 (fun i j k => 1%Q).
Definition ex_sched : Z -> list nat := fun _ => concat (repeat [0; 1; 2; 3]%nat 8).
Lemma ex_parity : trig_parity (fun _ => 1%Q) (fun _ => 0%Q).
Proof. intros a. split; reflexivity. Qed.
Definition ex_fbp a ncore cast sched := fbp_reconstruction (fun _ => 1%Q) (fun _ => 0%Q) (fun v => (1 - v)%Q) 3 w_shape w_make2 w_cols w_filter
   a (1#2) None None None true (Some 0) tt false true (2, 2) 4 ncore cast [1; 0] sched.
Definition trunc (q : Q) : Q := inject_Z (Qtrunc q).
(** the value of pixel (y, j, x) and whether the call finished *)
Definition pixel_of (r : res outcome) (y j x : Z) : option (Q * bool) :=
  match r with
  | Ok o => let d := forallb (forallb (fun t => match todo t with [] => true | _ => false end)) (launches o) in
            match recon o with A3 v => Some (Qred (vx v y j x), d) | A2 m => Some (Qred (px m y x), d) end
  | Err _ => None
  end.
Lemma pixel_of_ok r y j x q d : pixel_of r y j x = Some (q, d) ->
  exists o, r = Ok o /\ (d = true -> completed o) /\
    match recon o with A3 v => (vx v y j x == q)%Q | A2 m => (px m y x == q)%Q end.
Proof.
  destruct r as [o|]; [|discriminate]. intros E. exists o. split; [reflexivity|]. cbn [pixel_of] in E.
  assert (D : forallb (forallb (fun t => match todo t with [] => true | _ => false end)) (launches o) = d) by (destruct (recon o); congruence).
  split.
  - intros ->. rewrite forallb_forall in D. intros ts Hts t Ht. specialize (D ts Hts). rewrite forallb_forall in D. specialize (D t Ht).
    destruct (todo t); [reflexivity|discriminate].
  - destruct (recon o); injection E as <- _; symmetry; apply Qred_correct.
Qed.

(** C87 is false for integer sinograms without logarithm: with one core the filtered data are cut to integers *)
Theorem fbp_of_an_integer_stack_depends_on_the_number_of_cores_refuted :
  exists (v : vol Q) (sched : Z -> list nat) o1 o2 out1 out2,
    (forall i j k, exists z, vx v i j k = inject_Z z) /\
    ex_fbp (A3 v) (Some 1) trunc sched = Ok o1 /\ completed o1 /\ recon o1 = A3 out1 /\
    ex_fbp (A3 v) (Some 2) trunc sched = Ok o2 /\ completed o2 /\ recon o2 = A3 out2 /\
    (vx out1 0 0 0 == 0)%Q /\ (vx out2 0 0 0 == 3)%Q.
Proof.
  exists ex_stack, ex_sched.
  assert (E1 : pixel_of (ex_fbp (A3 ex_stack) (Some 1) trunc ex_sched) 0 0 0 = Some (0%Q, true)) by (vm_compute; reflexivity).
  assert (E2 : pixel_of (ex_fbp (A3 ex_stack) (Some 2) trunc ex_sched) 0 0 0 = Some (3%Q, true)) by (vm_compute; reflexivity).
  assert (K : forall nc o, ex_fbp (A3 ex_stack) nc trunc ex_sched = Ok o -> exists u, recon o = A3 u).
  { intros nc o. unfold ex_fbp, fbp_reconstruction. cbn [shape3 ex_stack dep hei wid]. destruct (check_args _ _ _ _) as [ang|]; cbn [bindr]; [|discriminate].
    change (2 =? 1) with false. cbv iota. destruct (pad_of 2 (Some 0) <? 0); [discriminate|]. destruct (if ncore_of 4 nc =? 1 then _ else _) as [f|]; cbn [bindr]; [|discriminate].
    destruct (back_project3 _ _ _ _ _ _ _ _ _) as [ [x ts]|]; cbn [bindr]; [|discriminate]. intros E. apply Ok_inj in E. subst o. eexists. reflexivity. }
  destruct (pixel_of_ok _ _ _ _ _ _ E1) as (o1 & R1 & D1 & V1). destruct (pixel_of_ok _ _ _ _ _ _ E2) as (o2 & R2 & D2 & V2).
  destruct (K _ _ R1) as [u1 U1]. destruct (K _ _ R2) as [u2 U2]. rewrite U1 in V1. rewrite U2 in V2.
  exists o1, o2, u1, u2. split; [intros i j k; exists 1; reflexivity|]. repeat (split; [auto|]); assumption.
Qed.
Print Assumptions fbp_of_an_integer_stack_depends_on_the_number_of_cores_refuted.

(** C87: otherwise the number of cores does not matter *)
Theorem fbp_number_of_cores_does_not_matter_partial :
  forall (cosf sinf neglog : Q -> Q) (pi : Q) (window name mode : Type) (wshape : window -> Z * Z)
    (make_2d : Z -> Z -> name -> window) (np_pad_cols : img Q -> Z -> mode -> img Q) (fft_rows : img Q -> window -> img Q)
    (v : vol Q) center angles ratio ramp_win fname pad pmode apply_log gpu block cast cpu ncore order scheds cpu' ncore' order' scheds',
  trig_parity cosf sinf -> pads_columns np_pad_cols -> keeps_shape fft_rows ->
  valid_arguments (dep v) (wid v) center angles pad block -> 1 <= hei v ->
  (forall i, 0 <= i < hei v -> proper_schedule gpu (dep v) (wid v) (scheds i)) -> Permutation (zrange 0 (hei v)) order ->
  (forall i, 0 <= i < hei v -> proper_schedule gpu (dep v) (wid v) (scheds' i)) -> Permutation (zrange 0 (hei v)) order' ->
  apply_log = true \/ (forall q, (cast q == q)%Q) ->
  let fbp := fbp_reconstruction cosf sinf neglog pi wshape make_2d np_pad_cols fft_rows (A3 v) center angles ratio ramp_win fname pad
                 pmode apply_log gpu block in
  exists o out o' out', fbp cpu ncore cast order scheds = Ok o /\ recon o = A3 out /\ fbp cpu' ncore' cast order' scheds' = Ok o' /\ recon o' = A3 out' /\
    (completed o -> completed o' -> same_array (A3 out) (A3 out')).
Proof.
  intros cosf sinf neglog pi window name mode wshape make_2d pc fr v center angles ratio rw fname pad pmode lg gpu block cast cpu ncore order scheds
    cpu' ncore' order' scheds' TP PC [FR FE] (N1 & N2 & C1 & C2 & A & P & B1 & B2) H PS O PS' O' Ca fbp.
  assert (HP : 0 <= pad_of (wid v) pad) by (apply pad_of_pos; [lia|exact P]).
  assert (Ca1 : forall c n, lg = true \/ ncore_of c n <> 1 \/ forall q, (cast q == q)%Q) by (intros; destruct Ca; auto).
  destruct (fbp3_spec cosf sinf TP neglog pi wshape make_2d pc fr PC FR center angles ratio rw fname pad pmode lg gpu block
              (dep v) (wid v) N1 N2 C1 C2 A HP B1 B2 v cpu ncore cast order scheds eq_refl eq_refl H PS O (Ca1 _ _)) as (o & E & _ & out & R & X).
  destruct (fbp3_spec cosf sinf TP neglog pi wshape make_2d pc fr PC FR center angles ratio rw fname pad pmode lg gpu block
              (dep v) (wid v) N1 N2 C1 C2 A HP B1 B2 v cpu' ncore' cast order' scheds' eq_refl eq_refl H PS' O' (Ca1 _ _)) as (o' & E' & _ & out' & R' & X').
  exists o, out, o', out'. repeat (split; [assumption|]). intros D D'. destruct (X D) as (S1 & S2 & S3 & V). destruct (X' D') as (T1 & T2 & T3 & V').
  cbn [same_array]. split; [congruence|]. split; [congruence|]. split; [congruence|]. intros i j k Hi Hj Hk. unfold in_rng in *.
  rewrite V, V' by lia. reflexivity.
Qed.
Print Assumptions fbp_number_of_cores_does_not_matter_partial.

(** C84 is false for a user window of another size: the window is rebuilt, in a 2D call without the requested filter name *)
Theorem bpf_stack_and_slice_differ_for_a_window_of_another_size_refuted :
  exists (v : vol Q) (w : w_t) (scheds : Z -> list nat) o o' out out',
    let bpf a := bpf_reconstruction (fun _ => 1%Q) (fun _ => 0%Q) (fun q => (1 - q)%Q) 3 w_shape w_make1 w_all w_filter false a (1#2) None None
                   (Some w) true (Some 0) tt false true (2, 2) [1; 0] in
    bpf (A3 v) scheds = Ok o /\ completed o /\ recon o = A3 out /\
    bpf (A2 (sinogram_of v 0)) scheds = Ok o' /\ completed o' /\ recon o' = A2 out' /\
    ~ (vx out 0 0 0 == px out' 0 0)%Q.
Proof.
  exists ex_stack, ((5, 5, 1%Q) : w_t), ex_sched.
  set (bpf := fun a => bpf_reconstruction (fun _ => 1%Q) (fun _ => 0%Q) (fun q => (1 - q)%Q) 3 w_shape w_make1 w_all w_filter false a (1#2) None None
                   (Some ((5, 5, 1%Q) : w_t)) true (Some 0) tt false true (2, 2) [1; 0] ex_sched).
  assert (E1 : pixel_of (bpf (A3 ex_stack)) 0 0 0 = Some (3%Q, true)) by (vm_compute; reflexivity).
  assert (E2 : pixel_of (bpf (A2 (sinogram_of ex_stack 0))) 0 0 0 = Some (18%Q, true)) by (vm_compute; reflexivity).
  assert (K1 : forall o, bpf (A3 ex_stack) = Ok o -> exists u, recon o = A3 u).
  { intros o. unfold bpf, bpf_reconstruction. cbn [shape3 ex_stack dep hei wid]. destruct (check_args _ _ _ _) as [ang|]; cbn [bindr]; [|discriminate].
    change (2 =? 1) with false. cbv iota. destruct (pad_of 2 (Some 0) <? 0); [discriminate|].
    destruct (back_project3 _ _ _ _ _ _ _ _ _) as [ [x ts]|]; cbn [bindr]; [|discriminate].
    destruct (parallel_process_slices _ _ _ _) as [f|]; cbn [bindr]; [|discriminate]. intros E. apply Ok_inj in E. subst o. eexists. reflexivity. }
  assert (K2 : forall o, bpf (A2 (sinogram_of ex_stack 0)) = Ok o -> exists u, recon o = A2 u).
  { intros o. unfold bpf, bpf_reconstruction. cbn [shape3 sinogram_of nrow ncol ex_stack dep hei wid]. destruct (check_args _ _ _ _) as [ang|]; cbn [bindr]; [|discriminate].
    change (1 =? 1) with true. cbv iota. destruct (pad_of 2 (Some 0) <? 0); [discriminate|].
    destruct (squeeze2 _) as [m|]; cbn [bindr]; [|discriminate]. destruct (back_project2 _ _ _ _ _ _ _ _ _) as [ [x ts]|]; cbn [bindr]; [|discriminate].
    intros E. apply Ok_inj in E. subst o. eexists. reflexivity. }
  destruct (pixel_of_ok _ _ _ _ _ _ E1) as (o1 & R1 & D1 & V1). destruct (pixel_of_ok _ _ _ _ _ _ E2) as (o2 & R2 & D2 & V2).
  destruct (K1 _ R1) as [u1 U1]. destruct (K2 _ R2) as [u2 U2]. rewrite U1 in V1. rewrite U2 in V2.
  exists o1, o2, u1, u2. cbv zeta. repeat (split; [auto|]). rewrite V1, V2. discriminate.
Qed.
Print Assumptions bpf_stack_and_slice_differ_for_a_window_of_another_size_refuted.

(** C54 is false with the logarithm and a value that is not positive *)
Theorem fbp_overwrites_nonpositive_values_refuted :
  exists (m : img Q) o,
    fbp_reconstruction (fun _ => 1%Q) (fun _ => 0%Q) (fun v => (1 - v)%Q) 3 w_shape w_make2 w_cols w_filter
      (A2 m) (1#2) None None None true (Some 0) tt true true (2, 2) 4 None (fun q => q) [] ex_sched = Ok o /\
    completed o /\ ~ same_array (caller o) (A2 m).
Proof.
  set (m := mkimg 2 2 (fun _ _ => 0%Q)). exists m.
  set (r := fbp_reconstruction _ _ _ _ _ _ _ _ _ _ _ _ _ _ _ _ _ _ _ _ _ _ _ _).
  assert (E : pixel_of r 0 0 0 = Some (0%Q, true)) by (vm_compute; reflexivity).
  destruct (pixel_of_ok _ _ _ _ _ _ E) as (o & R & D & _). exists o. split; [exact R|]. split; [apply D; reflexivity|].
  unfold r in R. apply fbp_caller in R. rewrite R. cbn. intros (_ & _ & X). specialize (X 0 0 ltac:(unfold in_rng; cbn; lia) ltac:(unfold in_rng; cbn; lia)).
  cbn in X. discriminate.
Qed.
Print Assumptions fbp_overwrites_nonpositive_values_refuted.

(** *** the hypotheses of C83-C85 are met by this setting, with the expected values *)
Example ex_valid : valid_arguments (dep ex_stack) (wid ex_stack) (1#2) None (Some 0) (2, 2).
Proof. unfold valid_arguments. cbn. repeat split; try lia; try (cbn; lra); try discriminate. intros p H. injection H as <-. lia. Qed.
Example ex_stack_value : pixel_of (ex_fbp (A3 ex_stack) (Some 2) (fun q => q) ex_sched) 0 1 0 = Some (3%Q, true) /\
  pixel_of (ex_fbp (A2 (sinogram_of ex_stack 1)) (Some 2) (fun q => q) ex_sched) 0 7 0 = Some (3%Q, true).
Proof. split; vm_compute; reflexivity. Qed.
(** no overlap: the two iterations one after the other, second first *)
Example ex_cpu_schedule : proper_schedule false 2 2 (repeat 1%nat 8 ++ repeat 0%nat 8).
Proof. right. exists [1; 0]%nat, 8%nat. split; [apply perm_swap|]. split; [cbn; lia|reflexivity]. Qed.
(** circle of ratio 1 on a 4 x 4 slice: the corner (0, 0) is outside *)
Example ex_circle : inside_circle 4 (Some 1%Q) 0 0 = false /\ inside_circle 4 (Some 1%Q) 0 2 = true /\ inside_circle 4 None 0 0 = true.
Proof. repeat split; vm_compute; reflexivity. Qed.
