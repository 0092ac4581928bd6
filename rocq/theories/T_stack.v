(** Theorems about loading images and stacks of images (C108, C109). *)
From Coq Require Import QArith Qfield Lqa Permutation Lia Bool.
From Verif Require Import Np P_Np M_io_load S_io_load P_io_load M_stack S_stack P_stack P_stack2.
From Coq Require Import List. Import ListNotations.
Open Scope Z_scope.

(** ** C108: load_image, load_image_multiple *)
Theorem load_gray_image : forall m, load_image (Gray m) = Ok m.
Proof. reflexivity. Qed.
Print Assumptions load_gray_image.
Theorem load_unreadable : load_image Unreadable = Err ValueError.
Proof. reflexivity. Qed.
Print Assumptions load_unreadable.
(** a colour image (height x width x channels) becomes the average of its channels, if there are fewer channels than rows and columns *)
Theorem load_colour_image_partial : forall v, wid v < dep v -> wid v < hei v -> 0 < wid v ->
  exists m, load_image (Colour v) = Ok m /\ nrow m = dep v /\ ncol m = hei v /\
    forall i j, (px m i j == average_of (map (fun c => vx v i j c) (zrange 0 (wid v))))%Q.
Proof.
  intros v H1 H2 H3. unfold load_image. rewrite argmin3. destruct (Z.leb_spec (dep v) (wid v)); [lia|]. destruct (Z.leb_spec (hei v) (wid v)); [lia|]. rewrite andb_false_r.
  eexists. split; [reflexivity|]. unfold mean_axis. change (2 =? 0) with false. change (2 =? 1) with false. cbv iota. cbn [nrow ncol px]. split; [reflexivity|]. split; [reflexivity|].
  intros i j. rewrite average_range by exact H3. reflexivity.
Qed.
Print Assumptions load_colour_image_partial.
(** otherwise rows or columns are averaged, and the result has not the shape of the image: for every image with at most as many rows (or
    columns) as channels *)
Theorem load_small_colour_refuted : forall v, 0 < wid v -> (dep v <= wid v \/ hei v <= wid v) ->
  exists m, load_image (Colour v) = Ok m /\ ncol m = wid v /\ (hei v <> wid v -> ~ (nrow m = dep v /\ ncol m = hei v)).
Proof.
  intros v H1 H2. unfold load_image. rewrite argmin3. destruct ((dep v <=? hei v) && (dep v <=? wid v)) eqn:E0.
  - eexists. split; [reflexivity|]. cbn [mean_axis Z.eqb nrow ncol]. split; [reflexivity|]. lia.
  - destruct (Z.leb_spec (hei v) (wid v)); [|destruct (Z.leb_spec (dep v) (hei v)), (Z.leb_spec (dep v) (wid v)); cbn [andb] in E0; try discriminate; lia].
    eexists. split; [reflexivity|]. cbn [mean_axis Z.eqb Pos.eqb nrow ncol]. split; [reflexivity|]. lia.
Qed.
Print Assumptions load_small_colour_refuted.
Example small_colour : exists m, load_image (Colour (mkvol 2 100 3 (fun i _ _ => inject_Z i))) = Ok m /\ (nrow m, ncol m) = (100, 3) /\ (px m 5 1 == 1 # 2)%Q.
Proof. eexists. repeat split; reflexivity. Qed.
Example colour : exists m, load_image (Colour (mkvol 20 100 3 (fun i j c => inject_Z (i + c)))) = Ok m /\ (nrow m, ncol m) = (20, 100) /\ (px m 5 7 == 6)%Q.
Proof. eexists. repeat split; reflexivity. Qed.
(** the images come in the order of the paths, for every number of cores and every order in which the jobs finish *)
Theorem load_multiple_order : forall files ncore cpu_count order imgs, Permutation (seq 0 (length files)) order ->
  load_image_multiple (Some files) ncore cpu_count order = Ok imgs ->
  Forall2 (fun f m => load_image f = Ok m) files imgs /\ forall a b, In a imgs -> In b imgs -> nrow a = nrow b /\ ncol a = ncol b.
Proof.
  intros files ncore cpu order imgs HP. rewrite (load_multiple_seq files ncore cpu order HP). destruct (mapr load_image files) as [l|] eqn:E; cbn [bindr]; [|discriminate].
  destruct (same_shape l) eqn:S; [|discriminate]. intros H. inversion H; subst. split; [apply mapr_ok, E|].
  assert (G : forall a, In a imgs -> nrow a = nrow (hd a imgs) /\ ncol a = ncol (hd a imgs)).
  { destruct imgs as [|x r]; [contradiction|]. cbn [same_shape] in S. rewrite forallb_forall in S. intros a [<-|Ha]; [auto|]. cbn [hd]. assert (Y := S a Ha). apply andb_true_iff in Y. destruct Y as (Y1 & Y2). apply Z.eqb_eq in Y1, Y2. auto. }
  intros a b Ha Hb. destruct (G a Ha) as (A1 & A2). destruct (G b Hb) as (B1 & B2). destruct imgs as [|x r]; [contradiction|]. cbn [hd] in *. split; congruence.
Qed.
Print Assumptions load_multiple_order.
(** ... and nothing else can happen: it succeeds if every file can be loaded and the shapes agree, and fails if not *)
Theorem load_multiple_total : forall files ncore cpu_count order, Permutation (seq 0 (length files)) order ->
  (forall imgs, Forall2 (fun f m => load_image f = Ok m) files imgs -> (forall a b, In a imgs -> In b imgs -> nrow a = nrow b /\ ncol a = ncol b) ->
     load_image_multiple (Some files) ncore cpu_count order = Ok imgs) /\
  (forall f e, In f files -> load_image f = Err e -> is_ok (load_image_multiple (Some files) ncore cpu_count order) = false) /\
  load_image_multiple None ncore cpu_count order = Err ValueError.
Proof.
  intros files ncore cpu order HP. rewrite (load_multiple_seq files ncore cpu order HP). split; [|split; [|reflexivity] ].
  - intros imgs F Sh. rewrite (proj2 (mapr_ok load_image files imgs) F). cbn [bindr]. replace (same_shape imgs) with true; [reflexivity|]. symmetry. destruct imgs as [|a r]; [reflexivity|]. cbn [same_shape]. apply forallb_forall. intros b Hb.
    destruct (Sh a b (or_introl eq_refl) (or_intror Hb)) as (E1 & E2). rewrite E1, E2, !Z.eqb_refl. reflexivity.
  - intros f e Hin He. destruct (mapr load_image files) as [l|] eqn:E; [|reflexivity]. apply mapr_ok in E. exfalso. clear HP. induction E as [|x y xs ys Hxy F IH]; [contradiction|]. destruct Hin as [-> |Hin]; [congruence|exact (IH Hin)].
Qed.
Print Assumptions load_multiple_total.
Example load_three : forall order, Permutation (seq 0 3) order -> exists imgs,
  load_image_multiple (Some (map (fun k => Gray (mkimg 2 2 (fun _ _ => k))) [1%Q; 2%Q; 3%Q])) (Some 5) None order = Ok imgs /\ map (fun m => px m 0 0) imgs = [1%Q; 2%Q; 3%Q].
Proof. intros order HP. rewrite load_multiple_seq by exact HP. eexists. split; reflexivity. Qed.

(** ** C109: get_image_stack, get_reference_sample_stacks *)
(** a list of folders, or of datasets with a key: image k of the stack is the image asked for in path k, cropped and corrected; with
    fix_zero_div the zeros are replaced by the mean *)
Theorem image_stack_correct : forall l (m : Z -> Z -> Z -> Q) idx has_key average crop flat dark num_use h w n,
  l <> [] -> ((forall s, In s l -> is_folder s = true) \/ has_key = true /\ forall s, In s l -> is_folder s = false) ->
  (forall k s, nth_error l (Z.to_nat k) = Some s -> 0 <= k -> image_asked average idx s h w (m k)) ->
  valid_crop h w crop -> plain_field h w flat -> plain_field h w dark ->
  n = match num_use with None => Z.of_nat (length l) | Some u => Z.max 1 (Z.min u (Z.of_nat (length l))) end ->
  exists u v, get_image_stack idx (ListOfPaths l) has_key average crop (as_array flat) (as_array dark) num_use false = Ok u /\
    get_image_stack idx (ListOfPaths l) has_key average crop (as_array flat) (as_array dark) num_use true = Ok v /\
    corrected_stack flat dark h w crop n m u /\ zeros_replaced u v.
Proof.
  intros l m idx has_key average crop flat dark num_use h w n NE K A HC HF HD ->. destruct (image_stack_ok l m idx has_key average crop flat dark num_use h w NE K A HC HF HD) as (u & E & C).
  exists u, (fixed_stack true u). split; [exact (E false)|]. split; [exact (E true)|]. split; [exact C|apply zeros_ok].
Qed.
Print Assumptions image_stack_correct.
Theorem reference_sample_correct : forall refs sams (mr ms : Z -> Z -> Z -> Q) proj_idx crop flat dark num_use h w n,
  refs <> [] -> length refs = length sams ->
  (forall k s, nth_error refs (Z.to_nat k) = Some s -> 0 <= k -> is_folder s = false /\ image_asked true None s h w (mr k)) ->
  (forall k s, nth_error sams (Z.to_nat k) = Some s -> 0 <= k -> (exists v, s = Data3 v) /\ image_asked false (Some proj_idx) s h w (ms k)) ->
  valid_crop h w crop -> plain_field h w flat -> plain_field h w dark ->
  n = match num_use with None => Z.of_nat (length refs) | Some u => Z.max 1 (Z.min u (Z.of_nat (length refs))) end ->
  exists u v u' v', get_reference_sample_stacks proj_idx (Some refs) sams crop (as_array flat) (as_array dark) num_use false = Ok (u, v) /\
    get_reference_sample_stacks proj_idx (Some refs) sams crop (as_array flat) (as_array dark) num_use true = Ok (u', v') /\
    corrected_stack flat dark h w crop n mr u /\ corrected_stack flat dark h w crop n ms v /\ zeros_replaced u u' /\ zeros_replaced v v'.
Proof.
  intros refs sams mr ms p crop flat dark num_use h w n NE EL AR AS HC HF HD ->. destruct (ref_sam_ok refs sams mr ms p crop flat dark num_use h w NE EL AR AS HC HF HD) as (u & v & E & C1 & C2).
  exists u, v, (fixed_stack true u), (fixed_stack true v). split; [exact (E false)|]. split; [exact (E true)|]. split; [exact C1|]. split; [exact C2|]. split; apply zeros_ok.
Qed.
Print Assumptions reference_sample_correct.
(** no image is silently replaced by another: an index outside a used source, or a path without data, is an error *)
Theorem image_stack_bad_source : forall l idx has_key average crop flat dark num_use z k s,
  0 <= k -> nth_error l (Z.to_nat k) = Some s -> k < match num_use with None => Z.of_nat (length l) | Some u => Z.max 1 (Z.min u (Z.of_nat (length l))) end ->
  s = NoSource \/ s = Folder [] \/ (average = false /\ idx = None /\ (forall m, s <> Data2 m)) \/
  (average = false /\ exists i, idx = Some i /\ match s with Folder files => counted (Z.of_nat (length files)) i = None | Data3 v => counted (dep v) i = None | _ => False end) ->
  is_ok (get_image_stack idx (ListOfPaths l) has_key average crop flat dark num_use z) = false.
Proof.
  intros l idx has_key average crop flat dark num_use z k s Hk Hs Hu Bad.
  destruct (get_image_stack idx (ListOfPaths l) has_key average crop flat dark num_use z) as [v|e] eqn:E; [exfalso|reflexivity].
  assert (N1 : 1 <= Z.of_nat (length l)) by (assert ((Z.to_nat k < length l)%nat) by (apply nth_error_Some; congruence); lia).
  destruct (used_clip num_use _ N1) as (U1 & U2). fold (used num_use (Z.of_nat (length l))) in Hu.
  unfold get_image_stack in E. rewrite U1 in E. destruct (lget l 0) as [s0|]; cbn [bindr] in E; [|discriminate].
  destruct (negb (is_folder s0) && negb has_key); [discriminate|].
  match type of E with (do hw <- ?x; _) = _ => destruct x as [hw|]; cbn [bindr] in E; [|discriminate] end.
  destruct (prepare (fst hw) (snd hw) crop flat dark) as [pr|]; cbn [bindr] in E; [|discriminate].
  match type of E with (do ims <- mapr ?f ?r; _) = _ => destruct (mapr f r) as [ims|] eqn:Em; cbn [bindr] in E; [|discriminate] end.
  assert (X : In k (zrange 0 (used num_use (Z.of_nat (length l))))) by (apply zrange_In; lia).
  apply mapr_ok in Em. assert (Y : exists c, (do s <- lget l k; do m <- (if is_folder s0 then one_tif else one_hdf) pr average idx s; Ok (normalised pr m)) = Ok c).
  { clear - Em X. induction Em as [|a b l1 l2 H F IH]; [contradiction|]. destruct X as [-> |X]; [exists b; exact H|exact (IH X)]. }
  destruct Y as (c & Y). rewrite (lget_nth l k s Hs Hk) in Y. cbn [bindr] in Y.
  assert (CN : forall n i, counted n i = None -> exists e, py_idx n i = Err e).
  { intros n i. unfold counted, py_idx. destruct ((0 <=? i) && (i <? n)); [discriminate|]. destruct ((- n <=? i) && (i <? 0)); [discriminate|]. eauto. }
  destruct Bad as [-> |[-> |[(-> & -> & ND)|(-> & i & -> & B)] ] ].
  - destruct (is_folder s0); [|discriminate]. unfold one_tif in Y. cbn [tif_files] in Y. destruct average; [discriminate|]. destruct idx; [|discriminate]. unfold lget in Y. cbn [length] in Y. destruct (py_idx _ _) as [q|]; [|discriminate]. cbn [bindr] in Y. destruct (Z.to_nat q); discriminate.
  - destruct (is_folder s0); [|discriminate]. unfold one_tif in Y. cbn [tif_files] in Y. destruct average; [discriminate|]. destruct idx; [|discriminate]. unfold lget in Y. cbn [length] in Y. destruct (py_idx _ _) as [q|]; [|discriminate]. cbn [bindr] in Y. destruct (Z.to_nat q); discriminate.
  - destruct (is_folder s0); [discriminate|]. destruct s; try discriminate. apply (ND m). reflexivity.
  - destruct s as [files|f|u|]; try contradiction; destruct (CN _ _ B) as (e & Ee); destruct (is_folder s0); try discriminate.
    + unfold one_tif, lget in Y. cbn [tif_files] in Y. rewrite Ee in Y. discriminate.
    + unfold one_tif, lget in Y. cbn [tif_files length] in Y. destruct (py_idx (Z.of_nat 0) i) as [q|] eqn:Eq; [|discriminate]. apply py_idx_ok in Eq. lia.
    + cbn [one_hdf] in Y. rewrite Ee in Y. discriminate.
Qed.
Print Assumptions image_stack_bad_source.
Theorem image_stack_bad_input : forall idx average crop flat dark num_use z,
  (forall s, is_folder s = false -> get_image_stack idx (OnePath s) true average crop flat dark num_use z = Err ValueError) /\
  (forall s l, is_folder s = false -> get_image_stack idx (ListOfPaths (s :: l)) false average crop flat dark num_use z = Err ValueError) /\
  get_image_stack idx OtherType true average crop flat dark num_use z = Err ValueError /\
  (forall s l h w has_key, s = Data2 (mkimg h w (fun _ _ => 0%Q)) -> let '(ct, cb, cl, cr) := crop in h <= ct + cb \/ w <= cl + cr ->
     get_image_stack idx (ListOfPaths (s :: l)) has_key average crop flat dark num_use z = Err ValueError).
Proof.
  intros idx average crop flat dark num_use z. split; [|split; [|split; [reflexivity|] ] ].
  - intros s H. destruct s; cbn [is_folder] in H; try discriminate; reflexivity.
  - intros s l H. unfold get_image_stack. change (lget (s :: l) 0) with (@Ok source s). cbn [bindr]. rewrite H. reflexivity.
  - intros s l h w has_key ->. destruct crop as [ [ [ct cb] cl] cr]. intros H. unfold get_image_stack. change (lget (Data2 (mkimg h w (fun _ _ => 0%Q)) :: l) 0) with (Ok (Data2 (mkimg h w (fun _ _ => 0%Q)))). cbn [bindr is_folder negb andb]. destruct has_key; [|reflexivity].
    cbn [negb hdf_shape bindr fst snd nrow ncol]. unfold prepare. destruct (Z.ltb_spec (h - cb - ct) 1), (Z.ltb_spec (w - cr - cl) 1); try reflexivity. lia.
Qed.
Print Assumptions image_stack_bad_input.
Theorem reference_sample_bad_input : forall p refs sams crop flat dark num_use z,
  get_reference_sample_stacks p None sams crop flat dark num_use z = Err ValueError /\
  (length refs <> length sams -> get_reference_sample_stacks p (Some refs) sams crop flat dark num_use z = Err ValueError).
Proof. intros p refs sams crop flat dark num_use z. split; [reflexivity|]. intros H. unfold get_reference_sample_stacks. destruct (Nat.eqb_spec (length refs) (length sams)); [contradiction|reflexivity]. Qed.
Print Assumptions reference_sample_bad_input.
(** a single folder: [average] has no effect *)
Theorem folder_average_refuted : exists files, (forall f, In f files -> nrow f = 1 /\ ncol f = 1) /\
  exists v, get_image_stack None (OnePath (Folder files)) false true (0, 0, 0, 0) None None None false = Ok v /\ dep v = 2 /\
    forall m, image_asked true None (Folder files) 1 1 m -> ~ (vx v 0%Z 0%Z 0%Z == m 0%Z 0%Z)%Q.
Proof.
  exists [mkimg 1 1 (fun _ _ => 1%Q); mkimg 1 1 (fun _ _ => 3%Q)]. split; [intros f [<-|[<-|[] ] ]; auto|]. eexists. split; [reflexivity|]. split; [reflexivity|].
  intros m (_ & _ & H) E. assert (H0 := H 0 0). rewrite H0 in E. vm_compute in E. discriminate.
Qed.
Print Assumptions folder_average_refuted.
(** the hypotheses can be met: two datasets, a negative index, a flat and a dark field *)
Example stack_demo : exists v, get_image_stack (Some (-1)) (ListOfPaths [Data3 (mkvol 3 4 5 (fun k i j => inject_Z (k + i + j))); Data2 (mkimg 4 5 (fun i j => inject_Z (i * j)))]) true false (1, 1, 0, 2)
    (as_array (Some (mkimg 4 5 (fun _ _ => 5%Q)))) (as_array (Some (mkimg 4 5 (fun _ _ => 1%Q)))) None false = Ok v /\
  (dep v, hei v, wid v) = (2, 2, 3) /\ (vx v 0 1 2 == 5 # 4)%Q /\ (vx v 1 1 2 == 3 # 4)%Q.
Proof. eexists. split; [reflexivity|]. repeat split; vm_compute; reflexivity. Qed.
Example stack_demo_hyp : valid_crop 4 5 (1, 1, 0, 2) /\ plain_field 4 5 (Some (mkimg 4 5 (fun _ _ => 5%Q))) /\
  image_asked false (Some (-1)) (Data3 (mkvol 3 4 5 (fun k i j => inject_Z (k + i + j)))) 4 5 (fun i j => inject_Z (2 + i + j)) /\
  image_asked false (Some (-1)) (Data2 (mkimg 4 5 (fun i j => inject_Z (i * j)))) 4 5 (fun i j => inject_Z (i * j)).
Proof. repeat split; cbn; try lia. exists (-1), 2. repeat split. Qed.
