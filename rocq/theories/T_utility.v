(** Property theorems for utility.py (C15-C23, C66-C68). *)
From Verif Require Import Np P_Np M_utility S_utility P_utility P_grid.
From Coq Require Import QArith Qabs Permutation Lqa.
From Coq Require Import List. Import ListNotations.
Open Scope Z_scope.

(** C15 *)
Theorem parallel_process_slices_is_slicewise :
  forall V W (method : img V -> img W) (data : vol V) axis order r c,
  (axis = 0 \/ axis = 1 \/ axis = 2) ->
  Permutation (zrange 0 (slices_along axis data)) order ->
  0 < slices_along axis data ->
  (forall i, in_rng (slices_along axis data) i ->
     nrow (method (slice_at axis data i)) = r /\ ncol (method (slice_at axis data i)) = c) ->
  exists out, parallel_process_slices method data axis order = Ok out /\
    slices_along axis out = slices_along axis data /\
    forall i, in_rng (slices_along axis data) i ->
      img_eq (slice_at axis out i) (method (slice_at axis data i)).
Proof. intros V W method data axis order r c [-> | [-> | ->] ]; [apply (pps_correct method data 0)|apply (pps_correct method data 1)|apply (pps_correct method data 2)]; tauto. Qed.
Print Assumptions parallel_process_slices_is_slicewise.
Theorem parallel_process_slices_schedule_independent :
  forall V W (method : img V -> img W) (data : vol V) axis order1 order2,
  (axis = 0 \/ axis = 1 \/ axis = 2) ->
  Permutation (zrange 0 (slices_along axis data)) order1 ->
  Permutation (zrange 0 (slices_along axis data)) order2 ->
  parallel_process_slices method data axis order1 = parallel_process_slices method data axis order2.
Proof. intros V W method data axis order1 order2 [-> | [-> | ->] ]; [apply (pps_schedule method data 0)|apply (pps_schedule method data 1)|apply (pps_schedule method data 2)]. Qed.
Print Assumptions parallel_process_slices_schedule_independent.
Theorem parallel_process_slices_identity :
  forall V (data : vol V) axis order,
  (axis = 0 \/ axis = 1 \/ axis = 2) ->
  Permutation (zrange 0 (slices_along axis data)) order ->
  0 < slices_along axis data -> 0 <= dep data -> 0 <= hei data -> 0 <= wid data ->
  exists out, parallel_process_slices (fun m => m) data axis order = Ok out /\ vol_eq out data.
Proof. intros V data axis order [-> | [-> | ->] ]; [apply (pps_identity data 0)|apply (pps_identity data 1)|apply (pps_identity data 2)]; tauto. Qed.
Print Assumptions parallel_process_slices_identity.
Example ex_pps :
  let d := mkvol 2 3 4 (fun a b c => 100 * a + 10 * b + c) in
  Permutation (zrange 0 (slices_along 1 d)) [2; 0; 1] /\
  match parallel_process_slices (imap Z.opp) d 1 [2; 0; 1] with
  | Ok v => (dep v, hei v, wid v) = (2, 3, 4) /\ vx v 1 2 3 = -123
  | Err _ => False
  end.
Proof.
  split; [|vm_compute; auto]. cbn. apply Permutation_trans with [0; 2; 1].
  - apply perm_skip, perm_swap.
  - apply perm_swap.
Qed.

(** C16 *)
Theorem sort_forward_sorts_and_sort_backward_restores :
  forall asort, (forall v, is_argsort v (asort v)) ->
  forall (m : img Q) axis, (axis = 0 \/ axis = 1) ->
  let s := fst (sort_forward asort m axis) in
  let x := snd (sort_forward asort m axis) in
  let n := if axis =? 0 then nrow m else ncol m in
  let lines := if axis =? 0 then ncol m else nrow m in
  let at_ := fun (a : img Q) l k => if axis =? 0 then px a k l else px a l k in
  (nrow s = nrow m /\ ncol s = ncol m /\ nrow x = nrow m /\ ncol x = ncol m) /\
  forall l, in_rng lines l ->
  exists p,
    (forall k, in_rng n k -> in_rng n (p k)) /\
    (forall a b, in_rng n a -> in_rng n b -> p a = p b -> a = b) /\
    (forall k, in_rng n k -> at_ x l k = inject_Z (p k) /\ at_ s l k = at_ m l (p k)) /\
    (forall a b, 0 <= a -> a < b -> b < n -> (at_ s l a <= at_ s l b)%Q) /\
    (forall g, nrow g = nrow m -> ncol g = ncol m -> forall k, in_rng n k ->
       at_ (sort_backward asort g x axis) l (p k) = at_ g l k).
Proof. exact sort_forward_spec. Qed.
Print Assumptions sort_forward_sorts_and_sort_backward_restores.
Theorem sort_backward_inverts_sort_forward :
  forall asort, (forall v, is_argsort v (asort v)) ->
  forall (m : img Q) axis, (axis = 0 \/ axis = 1) ->
  img_eq (sort_backward asort (fst (sort_forward asort m axis)) (snd (sort_forward asort m axis)) axis) m.
Proof. exact sort_roundtrip. Qed.
Print Assumptions sort_backward_inverts_sort_forward.
(** the argsort hypothesis is met: a row with a tie has two legal argsorts *)
Example ex_argsort :
  let v := mkvec 3 (fun k => if k =? 0 then 5%Q else 1%Q) in
  is_argsort v (fun k => if k =? 0 then 1 else if k =? 1 then 2 else 0) /\
  is_argsort v (fun k => if k =? 0 then 2 else if k =? 1 then 1 else 0).
Proof.
  assert (G : forall a b, 0 <= a -> a < b -> b < 3 -> (a = 0 /\ b = 1) \/ (a = 0 /\ b = 2) \/ (a = 1 /\ b = 2)) by lia.
  split; (split; [|split]); unfold in_rng; cbn [vlen vat].
  - intros k H. assert (k = 0 \/ k = 1 \/ k = 2) as [->|[->| ->] ] by lia; cbn; lia.
  - intros a b Ha Hb. assert (a = 0 \/ a = 1 \/ a = 2) as [->|[->| ->] ] by lia;
    assert (b = 0 \/ b = 1 \/ b = 2) as [->|[->| ->] ] by lia; cbn; lia.
  - intros a b H1 H2 H3. destruct (G a b H1 H2 H3) as [[-> ->]|[[-> ->]|[-> ->] ] ]; vm_compute; discriminate.
  - intros k H. assert (k = 0 \/ k = 1 \/ k = 2) as [->|[->| ->] ] by lia; cbn; lia.
  - intros a b Ha Hb. assert (a = 0 \/ a = 1 \/ a = 2) as [->|[->| ->] ] by lia;
    assert (b = 0 \/ b = 1 \/ b = 2) as [->|[->| ->] ] by lia; cbn; lia.
  - intros a b H1 H2 H3. destruct (G a b H1 H2 H3) as [[-> ->]|[[-> ->]|[-> ->] ] ]; vm_compute; discriminate.
Qed.

(** C17 *)
Theorem circle_mask_is_the_disk :
  forall width ratio i j, (0 <= ratio)%Q -> in_rng width i -> in_rng width j ->
  let dx := j - width / 2 in let dy := i - width / 2 in
  let r := (ratio * inject_Z (width / 2))%Q in
  nrow (make_circle_mask width ratio) = width /\ ncol (make_circle_mask width ratio) = width /\
  ((inject_Z (dx * dx + dy * dy) <= r * r)%Q -> px (make_circle_mask width ratio) i j = 1%Q) /\
  ((r * r < inject_Z (dx * dx + dy * dy))%Q -> px (make_circle_mask width ratio) i j = 0%Q).
Proof. exact circle_mask. Qed.
Print Assumptions circle_mask_is_the_disk.
Example ex_circle : map (fun j => px (make_circle_mask 5 1) 1 j) [0; 1; 2; 3; 4] = [0; 1; 1; 1; 0]%Q.
Proof. reflexivity. Qed.

(** C18 *)
Theorem stripe_interpolation_touches_only_masked_columns :
  forall (m : img Q) (mask : vec Q),
  vlen mask = ncol m -> 2 <= nrow m -> 2 <= ncol m ->
  exists out, interpolate_inside_stripe m mask = Ok out /\
    nrow out = nrow m /\ ncol out = ncol m /\
    forall j, in_rng (ncol m) j ->
      ((vat mask j < 1)%Q \/ j < 2 \/ ncol m - 2 <= j ->
         forall i, in_rng (nrow m) i -> px out i j = px m i j) /\
      ((1 <= vat mask j)%Q -> 2 <= j < ncol m - 2 ->
         exists a b, a < j < b /\ 0 <= a /\ b < ncol m /\
           ((vat mask a < 1)%Q \/ a < 2) /\ ((vat mask b < 1)%Q \/ ncol m - 2 <= b) /\
           (forall k, a < k < b -> 2 <= k < ncol m - 2 /\ (1 <= vat mask k)%Q) /\
           forall i, in_rng (nrow m) i -> on_line a (px m i a) b (px m i b) j (px out i j)).
Proof. exact stripe_interp. Qed.
Print Assumptions stripe_interpolation_touches_only_masked_columns.
Theorem stripe_interpolation_rejects_wrong_mask_length :
  forall (m : img Q) (mask : vec Q), vlen mask <> ncol m ->
  interpolate_inside_stripe m mask = Err ValueError.
Proof. exact stripe_bad_length. Qed.
Print Assumptions stripe_interpolation_rejects_wrong_mask_length.
Example ex_stripe :
  let m := mkimg 2 8 (fun i j => if (j =? 3) || (j =? 4) then 100%Q else inject_Z (10 * i + j)) in
  let mask := mkvec 8 (fun j => if (j =? 0) || (j =? 3) || (j =? 4) then 1%Q else 0%Q) in
  match interpolate_inside_stripe m mask with
  | Ok o => (px o 1 3 == 13)%Q /\ (px o 1 4 == 14)%Q /\ px o 1 0 = 10%Q
  | Err _ => False
  end.
Proof. vm_compute. repeat split. Qed.

(** C19: the weight of a row grows linearly from its edge over the overlap *)
Theorem locate_slice_finds_every_slice_partial :
  forall h ov, sane_overlaps h ov ->
  forall side idx, ov <> [] -> 0 <= idx < scan_height h ov ->
  (exists i p, locate_slice side h (map inject_Z ov) idx = Ok [(i, p, Some 1%Q)] /\
     sees side h ov i p idx /\ (forall i' p', sees side h ov i' p' idx -> i' = i)) \/
  (exists i p p' w w',
     locate_slice side h (map inject_Z ov) idx = Ok [(i, p, Some w); (i + 1, p', Some w')] /\
     sees side h ov i p idx /\ sees side h ov (i + 1) p' idx /\
     (0 <= w <= 1)%Q /\ (0 <= w' <= 1)%Q /\ (w + w' == 1)%Q /\
     exists o, nth_error ov (Z.to_nat i) = Some o /\
       (w * inject_Z (o - 1) == inject_Z (if side =? 1 then h - 1 - p else p))%Q /\
       (w' * inject_Z (o - 1) == inject_Z (if side =? 1 then p' else h - 1 - p'))%Q).
Proof. exact locate_ok. Qed.
Print Assumptions locate_slice_finds_every_slice_partial.
Theorem locate_slice_outside_the_scan_is_empty :
  forall h ov, sane_overlaps h ov ->
  forall side idx, ov <> [] -> idx < 0 \/ scan_height h ov <= idx ->
  locate_slice side h (map inject_Z ov) idx = Ok [].
Proof. exact locate_none. Qed.
Print Assumptions locate_slice_outside_the_scan_is_empty.
Theorem locate_slice_fractional_overlap_refuted : exists h ovs idx,
  0 <= idx /\ (forall o, In o ovs -> (2 <= o)%Q /\ (o <= inject_Z h)%Q) /\
  (inject_Z idx < inject_Z (Z.of_nat (length ovs) + 1) * inject_Z h - qlsum ovs)%Q /\
  locate_slice 1 h ovs idx = Ok [].
Proof. exact locate_fractional_refuted. Qed.
Print Assumptions locate_slice_fractional_overlap_refuted.
Example ex_locate : sane_overlaps 10 [4; 3] /\ scan_height 10 [4; 3] = 23 /\
  locate_slice 1 10 (map inject_Z [4; 3]) 7 = Ok [(0, 7, Some (2#3)%Q); (1, 1, Some (1#3)%Q)].
Proof.
  split; [split|split; [reflexivity|vm_compute; reflexivity] ].
  - intros [|[|[|i] ] ] o H; cbn in H; try discriminate; injection H as <-; lia.
  - intros [|[|[|i] ] ] o o' H H'; cbn in H, H'; try discriminate; injection H as <-; injection H' as <-; lia.
Qed.

(** C20 *)
Theorem locate_slice_chunk_agrees_for_equal_overlaps_partial :
  forall h ov, sane_overlaps h ov ->
  forall u, (forall i o, nth_error ov i = Some o -> o = u) ->
  forall side start stop, ov <> [] -> start <= stop ->
  exists rows, locate_slice_chunk side h (map inject_Z ov) start stop = Ok rows /\
   (forall i p f, In (i, p, f) (concat rows) ->
      exists idx hs f', start <= idx < stop /\ locate_slice side h (map inject_Z ov) idx = Ok hs /\
                        In (i, p, f') hs /\ same_weight f f') /\
   (forall idx hs i p f', start <= idx < stop -> locate_slice side h (map inject_Z ov) idx = Ok hs ->
      In (i, p, f') hs -> exists f, In (i, p, f) (concat rows) /\ same_weight f f').
Proof. exact locate_chunk_ok. Qed.
Print Assumptions locate_slice_chunk_agrees_for_equal_overlaps_partial.
Theorem locate_slice_chunk_unequal_overlaps_refuted :
  exists side h ov start stop rows idx hs i p f,
    sane_overlaps h ov /\ ov <> [] /\ start <= idx < stop /\ 0 <= idx < scan_height h ov /\
    locate_slice side h (map inject_Z ov) idx = Ok hs /\ In (i, p, f) hs /\
    locate_slice_chunk side h (map inject_Z ov) start stop = Ok rows /\
    forall g, In (i, p, g) (concat rows) -> ~ same_weight g f.
Proof. exact locate_chunk_refuted. Qed.
Print Assumptions locate_slice_chunk_unequal_overlaps_refuted.
Example ex_chunk : match locate_slice_chunk 0 10 (map inject_Z [4; 4]) 5 8 with
  | Ok [[(0, 4, Some a); _; _]; [(1, 9, Some b); (1, 8, Some c)] ] =>
      (a == 1)%Q /\ (b == 0)%Q /\ (c == 1#3)%Q
  | _ => False end.
Proof. vm_compute. auto. Qed.

(** C21 *)
Theorem fix_non_sample_areas_keeps_filled_cells :
  forall vertical nr nc g i j, in_grid nr nc i j -> ~ (fst (g i j) == 0)%Q ->
  fix_non_sample_areas vertical nr nc g i j = g i j.
Proof. exact fix_keep. Qed.
Print Assumptions fix_non_sample_areas_keeps_filled_cells.
Theorem fix_non_sample_areas_copies_original_cells :
  forall vertical nr nc g i j, in_grid nr nc i j -> (fst (g i j) == 0)%Q ->
  fix_non_sample_areas vertical nr nc g i j = g i j \/
  exists a b, in_grid nr nc a b /\ ~ (fst (g a b) == 0)%Q /\
    fix_non_sample_areas vertical nr nc g i j = g a b.
Proof. exact fix_from. Qed.
Print Assumptions fix_non_sample_areas_copies_original_cells.
(** an empty cell with a filled neighbour takes the first one in the documented order *)
Theorem fix_non_sample_areas_takes_the_preferred_neighbour :
  forall (vertical : bool) nr nc (g : cgrid) (i j : Z) (k : nat) (p : Z * Z),
  in_grid nr nc i j -> (fst (g i j) == 0)%Q ->
  let nbrs := if vertical then [(i, j - 1); (i, j + 1); (i - 1, j); (i + 1, j)]
              else [(i - 1, j); (i + 1, j); (i, j - 1); (i, j + 1)] in
  nth_error nbrs k = Some p ->
  in_grid nr nc (fst p) (snd p) -> ~ (fst (g (fst p) (snd p)) == 0)%Q ->
  (forall k' p', (k' < k)%nat -> nth_error nbrs k' = Some p' ->
     ~ (in_grid nr nc (fst p') (snd p') /\ ~ (fst (g (fst p') (snd p')) == 0)%Q)) ->
  fix_non_sample_areas vertical nr nc g i j = g (fst p) (snd p).
Proof. exact fix_preferred. Qed.
Print Assumptions fix_non_sample_areas_takes_the_preferred_neighbour.
(** not every hole is filled, even when the grid has a filled cell *)
Theorem fix_non_sample_areas_may_leave_holes_refuted : exists g : cgrid,
  in_grid 1 4 0 3 /\ ~ (fst (g 0%Z 0%Z) == 0)%Q /\ (fst (fix_non_sample_areas true 1 4 g 0%Z 3%Z) == 0)%Q.
Proof. exact fix_hole_refuted. Qed.
Print Assumptions fix_non_sample_areas_may_leave_holes_refuted.
Example ex_fix :
  let g := fun i j => if (i =? 0) && (j =? 2) then (7%Q, 1) else if (i =? 1) && (j =? 1) then (3%Q, 0) else (0%Q, 0) in
  map (fun j => fst (fix_non_sample_areas true 2 3 g 0 j)) [0; 1; 2] = [7; 7; 7]%Q /\
  map (fun j => fst (fix_non_sample_areas true 2 3 g 1 j)) [0; 1; 2] = [3; 3; 3]%Q.
Proof. vm_compute. auto. Qed.

(** C22 *)
Theorem frequency_components_add_up :
  forall sw lp (m : img Q) axis w, (axis = 0 \/ axis = 1) ->
  match w with WSeq v => vlen v = (if axis =? 0 then nrow m else ncol m) | WDict _ _ => True end ->
  exists a b, separate_frequency_component sw lp m axis w = Ok (a, b) /\
    nrow a = nrow m /\ ncol a = ncol m /\ nrow b = nrow m /\ ncol b = ncol m /\
    forall i j, (px a i j + px b i j == px m i j)%Q.
Proof. exact separate_sum. Qed.
Print Assumptions frequency_components_add_up.
Theorem frequency_separation_rejects_wrong_window_length :
  forall sw lp (m : img Q) axis v, (axis = 0 \/ axis = 1) ->
  vlen v <> (if axis =? 0 then nrow m else ncol m) ->
  separate_frequency_component sw lp m axis (WSeq v) = Err ValueError.
Proof. exact separate_bad. Qed.
Print Assumptions frequency_separation_rejects_wrong_window_length.
Example ex_freq :
  let lp := fun pad w line j => ((vat line 0 + vat line j) / 2)%Q in
  let m := mkimg 2 3 (fun i j => inject_Z (i + j)) in
  match separate_frequency_component (fun _ _ n => mkvec n (fun _ => 1%Q)) lp m 1 (WSeq (mkvec 3 (fun _ => 1%Q))) with
  | Ok (a, b) => (px a 1 2 == 2)%Q /\ (px b 1 2 == 1)%Q
  | Err _ => False end.
Proof. vm_compute. auto. Qed.

(** C23 *)
Theorem check_level_validates :
  forall level n,
  match level with
  | LNone => check_level level n = Ok (prange 1 (n + 1))
  | LInt l => if (1 <=? l) && (l <=? n) then check_level level n = Ok [l] else check_level level n = Err ValueError
  | LSeq l => (Forall (fun x => 1 <= x <= n) l -> check_level level n = Ok l) /\
              (Exists (fun x => ~ (1 <= x <= n)) l -> check_level level n = Err ValueError)
  | LOther => check_level level n = Err ValueError
  end.
Proof. exact check_level_iff. Qed.
Print Assumptions check_level_validates.
Theorem check_level_returns_valid_levels :
  forall level n ls, check_level level n = Ok ls -> forall l, In l ls -> 1 <= l <= n.
Proof. exact check_level_ok. Qed.
Print Assumptions check_level_returns_valid_levels.
Theorem ignore_level_zeroes_exactly_that_level :
  forall C (zeros : C -> C) data k, 1 <= k <= Z.of_nat (length data) - 1 ->
  exists out, wavelet_ignore zeros data (Some k) = Ok out /\ length out = length data /\
    forall n c, nth_error data n = Some c ->
      nth_error out n = Some (if Z.of_nat n =? Z.of_nat (length data) - k then zeros c else c).
Proof. exact @wavelet_ignore_exact. Qed.
Print Assumptions ignore_level_zeroes_exactly_that_level.
Theorem ignore_level_out_of_range_changes_nothing :
  forall C (zeros : C -> C) data k, k < 1 \/ Z.of_nat (length data) - 1 < k ->
  wavelet_ignore zeros data (Some k) = Ok data.
Proof. exact @wavelet_ignore_other. Qed.
Print Assumptions ignore_level_out_of_range_changes_nothing.
Theorem wavelet_filter_touches_only_requested_components :
  forall A (filt : A -> A) details level order ls,
  check_level level (Z.of_nat (length details)) = Ok ls -> NoDup ls ->
  exists out, filter_wavelet filt details level order = Ok out /\ length out = length details /\
    forall n t, nth_error details n = Some t ->
      nth_error out n = Some (if existsb (Z.eqb (Z.of_nat n + 1)) ls
                              then filtered_component order filt t else t).
Proof.
  intros A filt details level order ls H1 H2.
  destruct (filter_wavelet_spec filt details level order ls H1 H2) as (out & E & L & N).
  exists out. split; [exact E|]. split; [exact L|]. intros n t Ht. rewrite (N n t Ht). f_equal.
  destruct (existsb _ ls); [|reflexivity]. destruct t as [[a b] c]. unfold upd_triple, filtered_component, clipZ.
  destruct (Z.leb_spec order 0), (Z.eqb_spec order 1), (Z.eqb_spec (Z.min (Z.max order 0) 2) 0),
    (Z.eqb_spec (Z.min (Z.max order 0) 2) 1); try reflexivity; lia.
Qed.
Print Assumptions wavelet_filter_touches_only_requested_components.
Example ex_wavelet : wavelet_ignore (fun _ => 0) [9; 3; 2; 1] (Some 1) = Ok [9; 3; 2; 0] /\
  filter_wavelet Z.opp [(1, 2, 3); (4, 5, 6)] (LInt 2) 1 = Ok [(1, 2, 3); (4, -5, 6)].
Proof. split; reflexivity. Qed.

(** C66 *)
Theorem butterworth_window_damps_the_central_rows_partial :
  forall width height v win i j, 0 <= v <= (height + 1) / 2 - 1 -> in_rng height i ->
  let c := (height + 1) / 2 - 1 in
  px (make_2d_butterworth_window width height v win) i j = if (Z.abs (i - c) <=? v) then win j else 1%Q.
Proof. exact butterworth_ok. Qed.
Print Assumptions butterworth_window_damps_the_central_rows_partial.
Theorem butterworth_window_large_v_refuted : exists height v (win : Z -> Q) i,
  0 <= v /\ in_rng height i /\ Z.abs (i - ((height + 1) / 2 - 1)) <= v /\ (win 0%Z < 1)%Q /\
  px (make_2d_butterworth_window 1 height v win) i 0 = 1%Q.
Proof. exact butterworth_refuted. Qed.
Print Assumptions butterworth_window_large_v_refuted.

(** C67 *)
Theorem spiral_positions_stay_in_the_field_of_view :
  forall cs rt step num height width pos, 0 <= num ->
  generate_spiral_positions cs rt step num height width = Ok pos ->
  Z.of_nat (length pos) = num /\
  forall n x y, nth_error pos n = Some (x, y) ->
    let i := Z.of_nat n in
    (x == step * rt i * fst (cs i))%Q /\ (y == step * rt i * snd (cs i))%Q /\
    (Qabs x <= inject_Z (width / 2))%Q /\ (Qabs y <= inject_Z (height / 2))%Q.
Proof. exact spiral_positions. Qed.
Print Assumptions spiral_positions_stay_in_the_field_of_view.
Example ex_spiral : exists pos,
  generate_spiral_positions (fun i => if i =? 0 then (1, 0)%Q else (0, 1)%Q) inject_Z 3 3 15 10 = Ok pos /\
  length pos = 3%nat.
Proof. eexists. vm_compute. split; reflexivity. Qed.
