(** Property theorems for saving files (C01-C06). *)
From Verif Require Import Np M_fs S_io M_io_save P_fs P_io_save P_io_save2.
From Coq Require Import Ascii String.
From Coq Require Import List. Import ListNotations.
Open Scope Z_scope.

(** C01 *)
Theorem make_file_name_returns_fresh_name :
  forall C (f : fs C) (p : path),
  exists q, make_file_name f p = Ok q /\ existsb_ f q = false /\
    (existsb_ f p = false -> q = p) /\
    (existsb_ f p = true -> exists n, numbered p n q /\
       forall m, (m < n)%N -> exists q', numbered p m q' /\ existsb_ f q' = true).
Proof. exact @make_file_name_fresh. Qed.
Print Assumptions make_file_name_returns_fresh_name.
Example ex_make_file_name :
  make_file_name [([s_ "a.tif"; s_ "d"], File 1); ([s_ "a_0000.tif"; s_ "d"], File 2); ([s_ "d"], Dir)]
                 [s_ "a.tif"; s_ "d"] = Ok [s_ "a_0001.tif"; s_ "d"].
Proof. vm_compute. reflexivity. Qed.

(** C02 *)
Theorem save_image_no_overwrite_is_safe :
  forall C M (enc : str -> M -> C) scale8 cplx pil_ok (f : fs C) p m f' r,
  save_image enc scale8 cplx pil_ok f p m false = (f', r) ->
  preserved f f' /\
  forall q, r = Ok q -> make_file_name f p = Ok q /\ lookup f q = None /\
    exists im, stored_image scale8 (suffix (pname p)) m im /\
      lookup f' q = Some (File (enc (suffix (pname p)) im)).
Proof. exact @save_false_content. Qed.
Print Assumptions save_image_no_overwrite_is_safe.
Theorem save_image_no_overwrite_succeeds :
  forall C M (enc : str -> M -> C) scale8 cplx pil_ok (f : fs C) p m,
  suffix (pname p) <> [] -> pil_ok (suffix (pname p)) = true -> cplx m = false ->
  usable_folder f (parent p) ->
  exists q, snd (save_image enc scale8 cplx pil_ok f p m false) = Ok q.
Proof. exact @save_false_succeeds. Qed.
Print Assumptions save_image_no_overwrite_succeeds.
Theorem save_image_overwrite_changes_only_its_target :
  forall C M (enc : str -> M -> C) scale8 cplx pil_ok (f : fs C) p m f' r,
  save_image enc scale8 cplx pil_ok f p m true = (f', r) ->
  preserved_except [p] f f' /\
  forall q, r = Ok q -> q = p /\
    exists im, stored_image scale8 (suffix (pname p)) m im /\
      lookup f' p = Some (File (enc (suffix (pname p)) im)).
Proof. exact @save_true_content. Qed.
Print Assumptions save_image_overwrite_changes_only_its_target.
Theorem save_image_rejects_complex_tif :
  forall C M (enc : str -> M -> C) scale8 cplx pil_ok (f : fs C) p m ow,
  tif_ext (suffix (pname p)) -> cplx m = true ->
  save_image enc scale8 cplx pil_ok f p m ow = (f, Err ValueError).
Proof. exact @save_complex_tif. Qed.
Print Assumptions save_image_rejects_complex_tif.
Theorem make_folder_creates_or_reports :
  forall C (f : fs C) p f' r,
  make_folder f p = (f', r) ->
  let d := match suffix (pname p) with [] => p | _ => parent p end in
  preserved f f' /\ (r = Ok tt <-> existsb_ f' d = true) /\ (r <> Ok tt -> f' = f /\ r = Err ValueError).
Proof. exact @make_folder_outcome. Qed.
Print Assumptions make_folder_creates_or_reports.
Example ex_make_folder :
  make_folder [([s_ "d"], File 1)] [s_ "a.tif"; s_ "x"; s_ "d"] = ([([s_ "d"], File 1)], Err ValueError) /\
  make_folder (C:=Z) [] [s_ "a.tif"; s_ "x"; s_ "d"] = ([([s_ "x"; s_ "d"], Dir); ([s_ "d"], Dir)], Ok tt).
Proof. vm_compute. split; reflexivity. Qed.
Theorem save_distortion_no_overwrite_is_safe :
  forall V (show : V -> str) f p xc yc l f' r,
  save_distortion show f p xc yc l false = (f', r) ->
  preserved f f' /\
  forall q, r = Ok q -> lookup f q = None /\
    (exists txt, coefficient_text show xc yc l txt /\ lookup f' q = Some (File txt)) /\
    (forall p1, with_default_ext [s_ ".txt"; s_ ".dat"] (s_ ".txt") p p1 -> p1 <> [] ->
       (lookup f p1 = None -> q = p1) /\ (lookup f p1 <> None -> exists n, numbered p1 n q)).
Proof. exact @save_distortion_content. Qed.
Print Assumptions save_distortion_no_overwrite_is_safe.
Theorem open_hdf_stream_no_overwrite_is_safe :
  forall D (f : fs (hdf D)) p key d0 opts f' r,
  open_hdf_stream f p key d0 false opts = (f', r) ->
  preserved f f' /\
  forall q, r = Ok q -> lookup f q = None /\
    lookup f' q = Some (File ((key, d0) :: rev opts)) /\
    (forall i j e e', i <> j -> nth_error ((key, d0) :: rev opts) i = Some e ->
       nth_error ((key, d0) :: rev opts) j = Some e' -> unrelated_keys (fst e) (fst e')) /\
    (forall p1, with_default_ext [s_ ".hdf"; s_ ".h5"; s_ ".nxs"; s_ ".hdf5"] (s_ ".hdf") p p1 -> p1 <> [] ->
       (lookup f p1 = None -> q = p1) /\ (lookup f p1 <> None -> exists n, numbered p1 n q)).
Proof. exact @open_hdf_content. Qed.
Print Assumptions open_hdf_stream_no_overwrite_is_safe.
Example ex_save_image :
  let f := [([s_ "a.png"; s_ "d"], File (1, 1)); ([s_ "d"], Dir)] in
  save_image (fun _ m => (m, 0)) (fun m => m + 100) (fun _ => false) (fun _ => true)
    f [s_ "a.png"; s_ "d"] 5 false
  = (([s_ "a_0000.png"; s_ "d"], File (105, 0)) :: f, Ok [s_ "a_0000.png"; s_ "d"]).
Proof. vm_compute. reflexivity. Qed.
Example ex_open_hdf :
  snd (open_hdf_stream [([s_ "a.hdf"; s_ "d"], File []); ([s_ "d"], Dir)] [s_ "a.tif"; s_ "d"]
         (s_ "entry/data") 0 false [(s_ "entry/angles", 4)])
  = Ok [s_ "a_0000.hdf"; s_ "d"].
Proof. vm_compute. reflexivity. Qed.

(** C03: fresh among directories; not fresh among plain files *)
Theorem make_folder_name_fresh_directory_partial :
  forall C (f : fs C) d pre z, (0 < z)%nat ->
  exists s k ds, make_folder_name f d pre z = Ok s /\ is_dir f (s :: d) = false /\
    written z k ds /\ s = pre ++ s_ "_" ++ ds /\
    (N.of_nat (List.length (filter (prefixb (pre ++ s_ "_")) (entries f d))) < k)%N.
Proof. exact @make_folder_name_written. Qed.
Print Assumptions make_folder_name_fresh_directory_partial.
Theorem make_folder_name_fresh_entry_refuted :
  exists (f : fs unit) d prefix zero s,
    make_folder_name f d prefix zero = Ok s /\ existsb_ f (s :: d) = true.
Proof. exact make_folder_name_file_refuted. Qed.
Print Assumptions make_folder_name_fresh_entry_refuted.

(** C04 *)
Theorem save_image_multiple_stores_every_slice_partial :
  forall C V (enc : str -> img V -> C) scale8 cplx pil_ok (f : fs C) folder (stack : vol V) axis start order,
  0 <= start -> start + axis_len stack axis <= 100000 ->
  usable_folder f folder -> pil_ok (s_ ".tif") = true ->
  (forall i, cplx (axis_slice stack axis i) = false) ->
  (forall nm, lookup f (nm :: folder) <> Some Dir) ->
  schedule (save_tasks folder stack axis start) order ->
  exists f' rs, save_image_multiple enc scale8 cplx pil_ok f folder stack axis true order = (f', rs) /\
    (forall r, In r rs -> is_ok r = true) /\
    (forall i, 0 <= i < axis_len stack axis ->
       exists ds m, written 5 (Z.to_N (start + i)) ds /\ is_slice stack axis i m /\
         lookup f' ((s_ "img_" ++ ds ++ s_ ".tif") :: folder) = Some (File (enc (s_ ".tif") m))) /\
    preserved_except (map fst order) f f'.
Proof. exact @save_multiple_ok. Qed.
Print Assumptions save_image_multiple_stores_every_slice_partial.
Theorem save_image_multiple_large_index_refuted :
  exists (f : fs (img Z)) folder,
    let f1 := fst (save_image_multiple id_enc (fun m => m) (fun _ => false) (fun _ => true)
                     f folder (one_slice 7) 0 true (save_tasks folder (one_slice 7) 0 0)) in
    let f2 := fst (save_image_multiple id_enc (fun m => m) (fun _ => false) (fun _ => true)
                     f1 folder (one_slice 8) 0 true (save_tasks folder (one_slice 8) 0 100000)) in
    (exists q m, lookup f1 q = Some (File m) /\ px m 0 0 = 7) /\
    (forall q m, lookup f2 q = Some (File m) -> px m 0 0 <> 7).
Proof. exact save_multiple_refuted. Qed.
Print Assumptions save_image_multiple_large_index_refuted.
Example ex_save_tasks :
  let v := mkvol 3 1 2 (fun a _ c => a + 10 * c) in
  map (fun t => (fst t)) (save_tasks [s_ "o"] v 2 7)
  = [[s_ "img_00007.tif"; s_ "o"]; [s_ "img_00008.tif"; s_ "o"]]
  /\ (exists f' rs, save_image_multiple (fun _ m => m) (fun m => m) (fun _ => false) (fun _ => true) []
        [s_ "o"] v 2 true (rev (save_tasks [s_ "o"] v 2 7)) = (f', rs) /\ length rs = 2%nat).
Proof. cbv zeta. split; [vm_compute; reflexivity|]. eexists _, _. split; vm_compute; reflexivity. Qed.

(** C05 *)
Theorem concurrent_saves_into_folder_keep_all_images_partial :
  forall C (f : fs C) folder start (cs : list C) sched,
  0 <= start -> start + Z.of_nat (length cs) <= 100000 ->
  let l := combine (map (fun i => img_name (start + i) :: folder) (zrange 0 (Z.of_nat (length cs)))) cs in
  let f' := fst (run_sched f (start_tasks l) sched) in
  let ts := snd (run_sched f (start_tasks l) sched) in
  preserved f f' /\
  (forall k t c q, nth_error ts k = Some t -> nth_error cs k = Some c -> t_state t = TDone q ->
     lookup f q = None /\ lookup f' q = Some (File c)) /\
  (forall j k t u q, j <> k -> nth_error ts j = Some t -> nth_error ts k = Some u ->
     t_state t = TDone q -> t_state u = TDone q -> False).
Proof. exact @concurrent_saves_ok. Qed.
Print Assumptions concurrent_saves_into_folder_keep_all_images_partial.
Theorem save_steps_alone_behave_like_a_sequential_save :
  forall C (f : fs C) (p : path) (c : C), is_dir f (parent p) = true ->
  exists q k, make_file_name f p = Ok q /\
    run_sched f (start_tasks [(p, c)]) (repeat 0%nat k) = ((q, File c) :: f, [mktask p c (TDone q)]).
Proof. exact @task_alone. Qed.
Print Assumptions save_steps_alone_behave_like_a_sequential_save.
Theorem concurrent_saves_same_path_refuted :
  exists (f : fs Z) (p : path) (sched : list nat),
    let r := run_sched f (start_tasks [(p, 1); (p, 2)]) sched in
    Forall (fun t => exists q, t_state t = TDone q) (snd r) /\
    (forall q, lookup (fst r) q <> Some (File 1)).
Proof. exact concurrent_same_path_refuted. Qed.
Print Assumptions concurrent_saves_same_path_refuted.
Example ex_concurrent :
  let f := [([s_ "img_00000.tif"; s_ "o"], File 9); ([s_ "o"], Dir)] in
  let l := combine (map (fun i => img_name i :: [s_ "o"]) (zrange 0 2)) [1; 2] in
  map (fun t => t_state t) (snd (run_sched f (start_tasks l) [0; 1; 0; 1; 0]%nat))
  = [TDone [s_ "img_00000_0000.tif"; s_ "o"]; TDone [s_ "img_00001.tif"; s_ "o"]].
Proof. vm_compute. reflexivity. Qed.

(** C06 *)
Theorem distortion_coefficients_round_trip :
  forall V (show : V -> str) (parse : str -> option V),
  (forall v, parse (show v) = Some v) -> (forall v, show v <> []) ->
  (forall v c, In c (show v) -> is_ws c = false) ->
  forall f p xc yc l ow f' q,
  save_distortion show f p xc yc l ow = (f', Ok q) -> load_distortion parse f' q = Ok (xc, yc, l).
Proof. exact @distortion_roundtrip. Qed.
Print Assumptions distortion_coefficients_round_trip.
Example ex_distortion :
  let show n := dec n in
  snd (save_distortion show [([s_ "d"], Dir)] [s_ "c.csv"; s_ "d"] 12%N 34%N [1%N; 500%N; 6%N] false)
    = Ok [s_ "c.txt"; s_ "d"] /\
  load_distortion (fun s => Some (decimal_value s))
    (fst (save_distortion show [([s_ "d"], Dir)] [s_ "c.csv"; s_ "d"] 12%N 34%N [1%N; 500%N; 6%N] false))
    [s_ "c.txt"; s_ "d"] = Ok (12%N, 34%N, [1%N; 500%N; 6%N]).
Proof. vm_compute. split; reflexivity. Qed.

(** C65 *)
Theorem open_hdf_stream_rejects_child_keys :
  forall D (f : fs (hdf D)) p key d0 ow opts k d,
  In (k, d) opts -> substrb key k = true -> is_ok (snd (open_hdf_stream f p key d0 ow opts)) = false.
Proof. exact @hdf_child_key_rejected. Qed.
Print Assumptions open_hdf_stream_rejects_child_keys.
Theorem open_hdf_stream_accepts_unrelated_keys_refuted :
  exists (k key_path : str),
    is_prefix (key_parts key_path) (key_parts k) = false /\
    is_prefix (key_parts k) (key_parts key_path) = false /\
    forall (f : fs (hdf Z)), snd (open_hdf_stream f [s_ "a.hdf"; s_ "out"] key_path 0 true [(k, 5)])
      <> Ok [s_ "a.hdf"; s_ "out"].
Proof. exact hdf_key_refuted. Qed.
Print Assumptions open_hdf_stream_accepts_unrelated_keys_refuted.
