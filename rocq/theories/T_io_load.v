(** Property theorems for the loaders and converters (C07-C14). *)
From Verif Require Import Np M_io_load S_io_load P_io_load P_io_load2.
From Coq Require Import QArith.
Open Scope Z_scope.

(** C07 *)
Theorem convert_tif_to_hdf_keeps_order_content_and_crop :
  forall V (f0 : img V) fs ct cb cl cr,
  let files := f0 :: fs in
  (forall m, In m files -> nrow m = nrow f0 /\ ncol m = ncol f0) ->
  0 <= ct -> 0 <= cb -> 0 <= cl -> 0 <= cr ->
  if (nrow f0 - ct - cb <? 1) || (ncol f0 - cl - cr <? 1)
  then convert_tif_to_hdf files (ct, cb, cl, cr) = Err ValueError
  else exists v, convert_tif_to_hdf files (ct, cb, cl, cr) = Ok v /\
    dep v = Z.of_nat (length files) /\ hei v = nrow f0 - ct - cb /\ wid v = ncol f0 - cl - cr /\
    forall k m, nth_error files k = Some m ->
    forall i j, 0 <= i < hei v -> 0 <= j < wid v -> vx v (Z.of_nat k) i j = px m (i + ct) (j + cl).
Proof. exact @convert_ok. Qed.
Print Assumptions convert_tif_to_hdf_keeps_order_content_and_crop.
Example ex_convert :
  let a := mkimg 4 5 (fun i j => 10 * i + j) in let b := mkimg 4 5 (fun i j => 100 + 10 * i + j) in
  match convert_tif_to_hdf [a; b] (1, 1, 2, 0) with
  | Ok v => dep v = 2 /\ hei v = 2 /\ wid v = 3 /\ vx v 1 1 2 = 124
  | Err _ => False
  end.
Proof. vm_compute. auto. Qed.

(** C08 *)
Theorem extract_tif_from_hdf_tuple_index_partial :
  forall V (data : vol V) axis start stop step ct cb cl cr,
  (axis = 0 \/ axis = 1 \/ axis = 2) ->
  0 <= ct -> 0 <= cb -> 0 <= cl -> 0 <= cr ->
  ct + cb <= axis_rows data axis -> cl + cr <= axis_cols data axis ->
  0 <= start < stop -> stop <= axis_size data axis -> 0 < step ->
  exists out, extract_tif_from_hdf data (HTup start stop step) axis (ct, cb, cl, cr) = Ok out /\
    (forall x, In x (map fst out) <-> (start <= x < stop /\ (x - start) mod step = 0)) /\
    forall i m, In (i, m) out -> is_crop_slice data axis i ct cb cl cr m.
Proof. exact @extract_tuple. Qed.
Print Assumptions extract_tif_from_hdf_tuple_index_partial.
Theorem extract_tif_from_hdf_int_index_partial :
  forall V (data : vol V) axis i ct cb cl cr,
  (axis = 0 \/ axis = 1 \/ axis = 2) ->
  0 <= ct -> 0 <= cb -> 0 <= cl -> 0 <= cr ->
  ct + cb <= axis_rows data axis -> cl + cr <= axis_cols data axis ->
  0 <= i < axis_size data axis ->
  exists m, extract_tif_from_hdf data (HInt i) axis (ct, cb, cl, cr) = Ok [(i, m)] /\
    is_crop_slice data axis i ct cb cl cr m.
Proof. exact @extract_int. Qed.
Print Assumptions extract_tif_from_hdf_int_index_partial.
Theorem extract_tif_from_hdf_negative_index_refuted :
  exists (data : vol Z) i, - dep data <= i < dep data /\
    exists out, extract_tif_from_hdf data (HInt i) 0 (0, 0, 0, 0) = Ok out /\ length out = 3%nat.
Proof. exact extract_int_negative_refuted. Qed.
Print Assumptions extract_tif_from_hdf_negative_index_refuted.
Theorem extract_tif_from_hdf_index_out_of_range_refuted :
  exists (data : vol Z) i, dep data <= i /\
    exists m, extract_tif_from_hdf data (HInt i) 0 (0, 0, 0, 0) = Ok [(dep data - 1, m)].
Proof. exact extract_int_too_large_refuted. Qed.
Print Assumptions extract_tif_from_hdf_index_out_of_range_refuted.
Example ex_extract :
  let d := mkvol 4 5 6 (fun a b c => 100 * a + 10 * b + c) in
  match extract_tif_from_hdf d (HTup 1 5 2) 1 (1, 1, 2, 0) with
  | Ok [(1, m); (3, m')] => nrow m = 2 /\ ncol m = 4 /\ px m' 0 0 = 132
  | _ => False
  end.
Proof. vm_compute. auto. Qed.

(** C09 *)
Theorem hdf_emulator_indexes_like_numpy_partial :
  forall V (files : list (img V)) (a : vol V) ix,
  stacked files a -> plain_index ix -> ~ empty_first_axis (dep a) ix ->
  emu_get files ix = np_get a ix.
Proof. exact @emu_matches_numpy. Qed.
Print Assumptions hdf_emulator_indexes_like_numpy_partial.
(** the slices of the emulator are Python's: see [np_positions] *)
Theorem hdf_emulator_slice_positions :
  forall n s, 0 <= n -> s_step s <> Some 0 -> slice_list n s = Ok (np_positions n s).
Proof. exact slice_positions. Qed.
Print Assumptions hdf_emulator_slice_positions.
Example ex_positions :
  np_positions 10 (mkslice (Some (-3)) None (Some (-4))) = [7; 3] /\
  np_positions 10 (mkslice (Some 2) (Some (-2)) (Some 3)) = [2; 5] /\
  np_positions 4 (mkslice (Some (-9)) (Some 99) None) = [0; 1; 2; 3].
Proof. vm_compute. auto. Qed.
Theorem hdf_emulator_empty_slice_refuted :
  exists (files : list (img Z)) (a : vol Z) ix, stacked files a /\
    np_get a ix = Ok (NL []) /\ emu_get files ix = Err ValueError.
Proof. exact emu_empty_slice_refuted. Qed.
Print Assumptions hdf_emulator_empty_slice_refuted.
Theorem hdf_emulator_short_tuple_refuted :
  exists (files : list (img Z)) (a : vol Z) ix v, stacked files a /\
    np_get a ix = Ok v /\ emu_get files ix = Err ValueError.
Proof. exact emu_short_tuple_refuted. Qed.
Print Assumptions hdf_emulator_short_tuple_refuted.
Example ex_emulator :
  let files := map (fun k => mkimg 2 3 (fun i j => 100 * k + 10 * i + j)) [0; 1; 2] in
  emu_get files (ETuple [ISlice (mkslice None None (Some (-2))); IInt (-1); ISlice (mkslice (Some 1) None None)])
  = Ok (NL [NL [Scal 211; Scal 212]; NL [Scal 11; Scal 12]]).
Proof. vm_compute. reflexivity. Qed.

(** C10 *)
Theorem dls_accepted_index_is_valid_for_every_dataset :
  forall ds p l, (forall d, In d ds -> 0 <= d_num d) -> dls_plan p ds = Ok l ->
  length l = length ds /\
  forall i d pl, nth_error ds i = Some d -> nth_error l i = Some pl ->
    0 <= p < Z.of_nat (length (frames 0 d)) /\ nth_error (frames 0 d) (Z.to_nat p) = Some (p_sam pl).
Proof. exact dls_sample_ok. Qed.
Print Assumptions dls_accepted_index_is_valid_for_every_dataset.
Example ex_dls :
  dls_plan 1 [mkdset 7 (Some [2; 2; 1; 1; 0; 0; 0]); mkdset 8 (Some [1; 1; 2; 2; 2; 0; 0; 0])]
  = Ok [mkplan (Some (0, 2)) (Some (2, 4)) 5; mkplan (Some (2, 5)) (Some (0, 2)) 6].
Proof. vm_compute. reflexivity. Qed.

(** C11 *)
Theorem dls_averages_own_contiguous_frames_partial :
  forall ds p l, (forall d, In d ds -> 0 <= d_num d) -> dls_plan p ds = Ok l ->
  (forall d, In d ds -> frames 2 d <> [] /\ contiguous (frames 2 d)) ->
  (forall d, In d ds -> frames 1 d <> [] /\ contiguous (frames 1 d)) ->
  forall i d pl, nth_error ds i = Some d -> nth_error l i = Some pl ->
    exists a b a' b', p_dark pl = Some (a, b) /\ p_ref pl = Some (a', b') /\
      (forall x, a <= x < b <-> In x (frames 2 d)) /\ (forall x, a' <= x < b' <-> In x (frames 1 d)).
Proof. exact dls_average_ok. Qed.
Print Assumptions dls_averages_own_contiguous_frames_partial.
Theorem dls_flats_at_both_ends_refuted :
  exists ds p l pl d a b x, dls_plan p ds = Ok l /\ nth_error ds 0 = Some d /\ nth_error l 0 = Some pl /\
    p_ref pl = Some (a, b) /\ a <= x < b /\ In x (frames 0 d).
Proof. exact dls_flats_both_ends_refuted. Qed.
Print Assumptions dls_flats_at_both_ends_refuted.
Theorem dls_missing_darks_misalign_refuted :
  exists ds p, (forall d, In d ds -> d_keys d <> None) /\
    (exists s, scan (mkdls [] [] [] [] [] []) ds = Ok s /\ dls_check s p = Ok tt /\
      use_range (darks s) 0 = Ok (Some (2, 4)) /\ frames 2 (hd (mkdset 0 None) ds) = []) /\
    dls_plan p ds = Err IndexError.
Proof. exact dls_misaligned_refuted. Qed.
Print Assumptions dls_missing_darks_misalign_refuted.
Theorem dls_single_frame_cannot_be_loaded_refuted :
  exists ds, (forall d, In d ds -> length (frames 0 d) = 3%nat /\ length (frames 2 d) = 1%nat) /\
    forall p, is_ok (dls_plan p ds) = false.
Proof. exact dls_single_frame_refuted. Qed.
Print Assumptions dls_single_frame_cannot_be_loaded_refuted.

(** C12 *)
(** a valid index gives the slice of the whole stack with that number, counted from the end when it is negative *)
Theorem get_tif_stack_valid_index_selects_that_file :
  forall files crop flat dark u k v, let n := Z.of_nat (length files) in
  get_tif_stack files None crop flat dark None false = Ok v -> -n <= k < n ->
  dep v = n /\
  exists w, get_tif_stack files (Some k) crop flat dark u false = Ok w /\ dep w = 1 /\ hei w = hei v /\ wid w = wid v /\
    forall i j, vx w 0 i j = vx v (if k <? 0 then n + k else k) i j.
Proof.
  intros files crop flat dark u k v n H Hk. assert (Hn : 0 <= n) by (unfold n; lia). unfold get_tif_stack in *. destruct files as [|f0 fs]; [discriminate H|]. fold n in H |- *. cbn [bindr] in H.
  destruct crop as (((ct, cb), cl), cr). rewrite (tif_index_ok n k) by lia. cbn [bindr]. destruct (_ || _) in H |- *; [discriminate H|].
  destruct (check_field_opt flat 1 (nrow f0) (ncol f0)) as [fl|]; [|discriminate H]. cbn [bindr] in H |- *. destruct (check_field_opt dark 0 (nrow f0) (ncol f0)) as [dk|]; [|discriminate H]. cbn [bindr] in H |- *.
  match type of H with Ok ?X = Ok _ => assert (EV : v = X) by congruence end. clear H. rewrite EV. clear EV. set (kk := if k <? 0 then n + k else k). assert (Hkk : 0 <= kk < n) by (unfold kk; destruct (Z.ltb_spec k 0); lia).
  assert (FA : firstn (Z.to_nat n) (f0 :: fs) = f0 :: fs) by (apply firstn_all2; unfold n; rewrite Nat2Z.id; reflexivity). rewrite FA. cbn [dep hei wid vx]. split; [rewrite map_length; reflexivity|].
  destruct (lget_in (f0 :: fs) kk Hkk) as (m & N & E). rewrite E. cbn [bindr]. eexists. split; [reflexivity|]. cbn [dep hei wid vx]. split; [reflexivity|]. split; [reflexivity|]. split; [reflexivity|].
  intros i j. change (Z.to_nat 0) with 0%nat. cbn [nth]. set (one := fun m : img Q => _). rewrite (nth_indep (map one (f0 :: fs)) f0 (one f0)) by (rewrite map_length; unfold n in Hkk; lia). rewrite map_nth. change (px (one m) i j = px (one (nth (Z.to_nat kk) (f0 :: fs) f0)) i j). rewrite (nth_error_nth _ _ f0 N). reflexivity.
Qed.
Print Assumptions get_tif_stack_valid_index_selects_that_file.
Theorem get_tif_stack_rejects_large_index_partial :
  forall files crop flat dark u z k, Z.of_nat (length files) <= k -> get_tif_stack files (Some k) crop flat dark u z = Err ValueError.
Proof.
  intros files crop flat dark u z k Hk. unfold get_tif_stack. destruct files as [|f0 fs]; [reflexivity|]. rewrite tif_index_large by lia. reflexivity.
Qed.
Print Assumptions get_tif_stack_rejects_large_index_partial.
(** an index below minus the number of files is not refused: with two files, -3 loads the last one *)
Theorem get_tif_stack_accepts_too_negative_index_refuted :
  exists files crop k w, k < - Z.of_nat (length files) /\ get_tif_stack files (Some k) crop None None None false = Ok w /\ (vx w 0 0 0 == 9)%Q.
Proof.
  exists [mkimg 1 1 (fun _ _ => 5%Q); mkimg 1 1 (fun _ _ => 9%Q)], (0, 0, 0, 0), (-3). eexists. split; [cbn; lia|]. split; [reflexivity|]. vm_compute. reflexivity.
Qed.
Print Assumptions get_tif_stack_accepts_too_negative_index_refuted.
Example ex_tif_index : exists v, get_tif_stack [mkimg 1 1 (fun _ _ => 5%Q); mkimg 1 1 (fun _ _ => 9%Q)] None (0, 0, 0, 0) None None None false = Ok v /\ (vx v 1 0 0 == 9)%Q.
Proof. eexists. split; [reflexivity|]. vm_compute. reflexivity. Qed.
Theorem get_tif_stack_normalises_the_selected_file :
  forall f0 fs n m F D ct cb cl cr k,
  let files := f0 :: fs in
  (forall x, In x files -> nrow x = nrow f0 /\ ncol x = ncol f0) ->
  0 <= ct -> 0 <= cb -> 0 <= cl -> 0 <= cr ->
  ct + cb < nrow f0 -> cl + cr < ncol f0 -> nrow f0 <> 3 ->
  nrow F = nrow f0 -> ncol F = ncol f0 -> nrow D = nrow f0 -> ncol D = ncol f0 ->
  n = Z.of_nat (length files) -> -n <= k < n ->
  nth_error files (Z.to_nat (if k <? 0 then n + k else k)) = Some m ->
  exists v, get_tif_stack files (Some k) (ct, cb, cl, cr) (Some (A2 F)) (Some (A2 D)) None false = Ok v /\
    dep v = 1 /\ hei v = nrow f0 - ct - cb /\ wid v = ncol f0 - cl - cr /\
    forall i j, 0 <= i < hei v -> 0 <= j < wid v ->
      ~ (px F (ct + i) (cl + j) - px D (ct + i) (cl + j) == 0)%Q ->
      vx v 0 i j = ((px m (ct + i) (cl + j) - px D (ct + i) (cl + j))
                    / (px F (ct + i) (cl + j) - px D (ct + i) (cl + j)))%Q.
Proof. exact tif_stack_value. Qed.
Print Assumptions get_tif_stack_normalises_the_selected_file.
(** no index: the first num_use files of the folder, each normalised; [den] is the flat-minus-dark
    image with its zeros replaced by the mean *)
Theorem get_tif_stack_normalises_every_file :
  forall f0 fs n F D ct cb cl cr u,
  let files := f0 :: fs in
  (forall x, In x files -> nrow x = nrow f0 /\ ncol x = ncol f0) ->
  0 <= ct -> 0 <= cb -> 0 <= cl -> 0 <= cr ->
  ct + cb < nrow f0 -> cl + cr < ncol f0 -> nrow f0 <> 3 ->
  nrow F = nrow f0 -> ncol F = ncol f0 -> nrow D = nrow f0 -> ncol D = ncol f0 ->
  n = Z.of_nat (length files) ->
  exists v den,
    get_tif_stack files None (ct, cb, cl, cr) (Some (A2 F)) (Some (A2 D)) u false = Ok v /\
    dep v = match u with None => n | Some u => Z.max 1 (Z.min u n) end /\
    hei v = nrow f0 - ct - cb /\ wid v = ncol f0 - cl - cr /\
    (forall i j, ~ (px F (ct + i) (cl + j) - px D (ct + i) (cl + j) == 0)%Q ->
       (den i j == px F (ct + i) (cl + j) - px D (ct + i) (cl + j))%Q) /\
    (forall i j, (px F (ct + i) (cl + j) - px D (ct + i) (cl + j) == 0)%Q ->
       (den i j == qmean2 (hei v) (wid v) (fun i j => px F (ct + i) (cl + j) - px D (ct + i) (cl + j)))%Q) /\
    forall k m, Z.of_nat k < dep v -> nth_error files k = Some m ->
    forall i j, 0 <= i < hei v -> 0 <= j < wid v ->
      (vx v (Z.of_nat k) i j == (px m (ct + i) (cl + j) - px D (ct + i) (cl + j)) / den i j)%Q.
Proof. exact tif_stack_all. Qed.
Print Assumptions get_tif_stack_normalises_every_file.
Example ex_tif_stack_all :
  let im k := mkimg 4 4 (fun i j => inject_Z (k + i * j)) in
  match get_tif_stack [im 1; im 2; im 3] None (1, 0, 0, 1)
          (Some (A2 (mkimg 4 4 (fun _ _ => 7%Q)))) (Some (A2 (mkimg 4 4 (fun _ _ => 1%Q)))) (Some 2) false with
  | Ok v => (dep v, hei v, wid v) = (2, 3, 3) /\ (vx v 0 1 2 == 2 # 3)%Q /\ (vx v 1 1 2 == 5 # 6)%Q
  | Err _ => False
  end.
Proof. vm_compute. auto. Qed.
Example ex_tif_stack :
  let im k := mkimg 4 4 (fun i j => inject_Z (k + i * j)) in
  match get_tif_stack [im 1; im 2; im 3] (Some (-1)) (1, 0, 0, 1)
          (Some (A2 (mkimg 4 4 (fun _ _ => 7%Q)))) (Some (A2 (mkimg 4 4 (fun _ _ => 1%Q)))) None false with
  | Ok v => hei v = 3 /\ wid v = 3 /\ (vx v 0 1 2 == 1)%Q
  | Err _ => False
  end.
Proof. vm_compute. auto. Qed.

(** C13 *)
(** three flat (dark) fields in a stack: as if their average had been given *)
Theorem flat_field_stack_of_three_is_averaged_partial :
  forall f0 fs idx crop v other u z, nrow f0 <> 3 -> dep v = 3 -> hei v = nrow f0 -> wid v = ncol f0 ->
  exists m, nrow m = nrow f0 /\ ncol m = ncol f0 /\ (forall i j, (px m i j == (vx v 0 i j + vx v 1 i j + vx v 2 i j) / 3)%Q) /\
    get_tif_stack (f0 :: fs) idx crop (Some (A3 v)) other u z = get_tif_stack (f0 :: fs) idx crop (Some (A2 m)) other u z /\
    get_tif_stack (f0 :: fs) idx crop other (Some (A3 v)) u z = get_tif_stack (f0 :: fs) idx crop other (Some (A2 m)) u z.
Proof.
  intros f0 fs idx crop v other u z N D H W. destruct (check_field_3 v (nrow f0) (ncol f0) D H W) as (m & E & M1 & M2 & M3).
  exists m. split; [exact M1|]. split; [exact M2|]. split; [exact M3|]. assert (E2 := check_field_2d m _ _ M1 M2 N). unfold get_tif_stack, check_field_opt. rewrite E, E2. split; reflexivity.
Qed.
Print Assumptions flat_field_stack_of_three_is_averaged_partial.
Theorem flat_field_stack_is_averaged_refuted :
  exists (m : img Q) (v : vol Q), nrow m = hei v /\ ncol m = wid v /\ dep v = 2 /\ (forall k i j, vx v k i j = 1%Q) /\
    get_tif_stack [m] None (0, 0, 0, 0) (Some (A3 v)) None None false = Err ValueError.
Proof. exists (mkimg 2 2 (fun _ _ => 5%Q)), (mkvol 2 2 2 (fun _ _ _ => 1%Q)). repeat split. Qed.
Print Assumptions flat_field_stack_is_averaged_refuted.
Theorem flat_field_with_three_rows_refuted :
  exists m F : img Q, nrow F = nrow m /\ ncol F = ncol m /\ (forall i j, px F i j = 1%Q) /\
    get_tif_stack [m] None (0, 0, 0, 0) (Some (A2 F)) None None false = Err ValueError.
Proof. exists (mkimg 3 2 (fun _ _ => 5%Q)), (mkimg 3 2 (fun _ _ => 1%Q)). repeat split. Qed.
Print Assumptions flat_field_with_three_rows_refuted.
Theorem get_tif_stack_rejects_fields_of_another_shape :
  forall f0 fs idx crop F D u z,
  (nrow F <> nrow f0 \/ ncol F <> ncol f0 \/ nrow D <> nrow f0 \/ ncol D <> ncol f0) ->
  is_ok (get_tif_stack (f0 :: fs) idx crop (Some (A2 F)) (Some (A2 D)) u z) = false.
Proof. exact tif_stack_bad_field. Qed.
Print Assumptions get_tif_stack_rejects_fields_of_another_shape.
Example ex_check_field :
  nrow (mkimg 4 4 (fun _ _ => 1%Q)) <> 3 /\ dep (mkvol 3 2 2 (fun k i j => inject_Z k)) = 3.
Proof. cbn. lia. Qed.

(** C14 *)
Theorem stack_denominators_nonzero_partial :
  forall f0 fs n F D ct cb cl cr u,
  let files := f0 :: fs in
  (forall x, In x files -> nrow x = nrow f0 /\ ncol x = ncol f0) ->
  0 <= ct -> 0 <= cb -> 0 <= cl -> 0 <= cr ->
  ct + cb < nrow f0 -> cl + cr < ncol f0 -> nrow f0 <> 3 ->
  nrow F = nrow f0 -> ncol F = ncol f0 -> nrow D = nrow f0 -> ncol D = ncol f0 ->
  n = Z.of_nat (length files) ->
  ~ (qmean2 (nrow f0 - ct - cb) (ncol f0 - cl - cr) (fun i j => px F (ct + i) (cl + j) - px D (ct + i) (cl + j)) == 0)%Q ->
  exists v den, get_tif_stack files None (ct, cb, cl, cr) (Some (A2 F)) (Some (A2 D)) u false = Ok v /\
    (forall i j, ~ (den i j == 0)%Q) /\
    forall k m, Z.of_nat k < dep v -> nth_error files k = Some m -> forall i j, 0 <= i < hei v -> 0 <= j < wid v ->
      (vx v (Z.of_nat k) i j * den i j == px m (ct + i) (cl + j) - px D (ct + i) (cl + j))%Q.
Proof.
  intros f0 fs n F D ct cb cl cr u files H1 H2 H3 H4 H5 H6 H7 H8 H9 H10 H11 H12 H13 NM.
  destruct (get_tif_stack_normalises_every_file f0 fs n F D ct cb cl cr u H1 H2 H3 H4 H5 H6 H7 H8 H9 H10 H11 H12 H13) as (v & den & O & _ & Eh & Ew & D1 & D2 & V).
  assert (ND : forall i j, ~ (den i j == 0)%Q).
  { intros i j. destruct (Qeq_dec (px F (ct + i) (cl + j) - px D (ct + i) (cl + j)) 0) as [Z|N]; [rewrite (D2 _ _ Z), Eh, Ew; exact NM|rewrite (D1 _ _ N); exact N]. }
  exists v, den. split; [exact O|]. split; [exact ND|]. intros k m Hk E i j Hi Hj. rewrite (V k m Hk E i j Hi Hj). field. apply ND.
Qed.
Print Assumptions stack_denominators_nonzero_partial.
(** where the stack is divided by zero no denominator explains the result (the model's quotient by 0 is 0; numpy gives inf) *)
Theorem stack_denominators_zero_when_flat_equals_dark_refuted :
  exists m F D v, get_tif_stack [m] None (0, 0, 0, 0) (Some (A2 F)) (Some (A2 D)) None false = Ok v /\
    (forall i j, in_rng (nrow m) i -> in_rng (ncol m) j -> (px F i j == px D i j)%Q /\ ~ exists den, (vx v 0 i j * den == px m i j - px D i j)%Q).
Proof.
  exists (mkimg 2 2 (fun _ _ => 5%Q)), (mkimg 2 2 (fun _ _ => 1%Q)), (mkimg 2 2 (fun _ _ => 1%Q)). eexists. split; [reflexivity|]. intros i j Hi Hj. split; [reflexivity|]. intros (den & H).
  match type of H with (?x * den == ?y)%Q => assert (Z1 : (x == 0)%Q) by (vm_compute; reflexivity); assert (Z2 : (y == 4)%Q) by (vm_compute; reflexivity) end.
  rewrite Z1, Z2, Qmult_0_l in H. discriminate H.
Qed.
Print Assumptions stack_denominators_zero_when_flat_equals_dark_refuted.
Theorem stack_denominators_cancel_refuted :
  exists m F D v, get_tif_stack [m] None (0, 0, 0, 0) (Some (A2 F)) (Some (A2 D)) None false = Ok v /\
    (forall i j, (0 <= px D i j)%Q /\ (0 <= px F i j)%Q) /\
    (exists i j, in_rng (nrow F) i /\ in_rng (ncol F) j /\ ~ (px F i j == px D i j)%Q) /\
    exists i j, in_rng (nrow m) i /\ in_rng (ncol m) j /\ ~ exists den, (vx v 0 i j * den == px m i j - px D i j)%Q.
Proof.
  exists (mkimg 1 3 (fun _ _ => 5%Q)), (mkimg 1 3 (fun _ j => if j =? 0 then 2%Q else if j =? 1 then 0%Q else 1%Q)), (mkimg 1 3 (fun _ _ => 1%Q)). eexists. split; [reflexivity|].
  split; [intros i j; cbn [px]; split; [discriminate|]; destruct (j =? 0), (j =? 1); discriminate|].
  split; [exists 0, 0; unfold in_rng; cbn [nrow ncol px]; repeat split; try lia; intros H; discriminate H|].
  exists 0, 2. unfold in_rng. cbn [nrow ncol]. split; [lia|]. split; [lia|]. intros (den & H).
  match type of H with (?x * den == ?y)%Q => assert (Z1 : (x == 0)%Q) by (vm_compute; reflexivity); assert (Z2 : (y == 4)%Q) by (vm_compute; reflexivity) end.
  rewrite Z1, Z2, Qmult_0_l in H. discriminate H.
Qed.
Print Assumptions stack_denominators_cancel_refuted.
Example ex_fix_zero :
  let m := mkimg 1 3 (fun _ j => inject_Z j) in
  ~ (qmean2 (nrow m) (ncol m) (px m) == 0)%Q /\ (px (fix_zero m) 0 0 == 1)%Q.
Proof. vm_compute. split; [intros H; discriminate H|reflexivity]. Qed.
