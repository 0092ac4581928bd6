(** C136: a saving call that is rejected or interrupted leaves the files that existed alone. *)
From Verif Require Import Np M_fs S_io M_io_save M_crash S_crash P_io_save2 P_crash.
From Coq Require Import Ascii String.
From Coq Require Import List. Import ListNotations.
Open Scope Z_scope.

(** ** interrupted calls: every crash point, for all contents [parts] a half-written image can have *)
Theorem interrupted_save_image_keeps_other_files : forall C M (enc : str -> M -> C) scale8 cplx pil_ok (f : fs C) p m ow parts,
  let states := save_image_states enc scale8 cplx pil_ok f p m ow parts in
  runs_from_to f (fst (save_image enc scale8 cplx pil_ok f p m ow)) states /\ Forall (keeps_files ow p f) states.
Proof. intros. apply save_image_run. Qed.
Print Assumptions interrupted_save_image_keeps_other_files.

Theorem interrupted_save_of_coefficients_keeps_other_files : forall V (show : V -> str) f p p1 xc yc l ow,
  with_default_ext [s_ ".txt"; s_ ".dat"] (s_ ".txt") p p1 ->
  let states := save_distortion_states show f p xc yc l ow in
  runs_from_to f (fst (save_distortion show f p xc yc l ow)) states /\ Forall (keeps_files ow p1 f) states.
Proof.
  intros V show f p p1 xc yc l ow E. replace p1 with (dist_path p); [apply save_distortion_run|].
  destruct E as (E1 & E2), (dist_path_ext p) as (F1 & F2).
  destruct (in_dec str_eq_dec (lower (suffix (pname p))) [s_ ".txt"; s_ ".dat"]) as [I|I]; [rewrite (E1 I); apply F1, I|rewrite (E2 I); apply F2, I].
Qed.
Print Assumptions interrupted_save_of_coefficients_keeps_other_files.

Theorem interrupted_hdf_stream_keeps_other_files : forall D (f : fs (hdf D)) p p1 key d0 ow opts,
  with_default_ext [s_ ".hdf"; s_ ".h5"; s_ ".nxs"; s_ ".hdf5"] (s_ ".hdf") p p1 ->
  let states := open_hdf_stream_states f p key d0 ow opts in
  runs_from_to f (fst (open_hdf_stream f p key d0 ow opts)) states /\ Forall (keeps_files ow p1 f) states.
Proof.
  intros D f p p1 key d0 ow opts E. replace p1 with (hdf_path p); [apply open_hdf_run|].
  destruct E as (E1 & E2), (hdf_path_ext p) as (F1 & F2).
  destruct (in_dec str_eq_dec (lower (suffix (pname p))) [s_ ".hdf"; s_ ".h5"; s_ ".nxs"; s_ ".hdf5"]) as [I|I]; [rewrite (E1 I); apply F1, I|rewrite (E2 I); apply F2, I].
Qed.
Print Assumptions interrupted_hdf_stream_keeps_other_files.

(** a folder with one old image; saving "a.tif" again and below a new folder *)
Definition ex_disk : fs Z := [([s_ "a.tif"], File 5)].
Example ex_interrupted :
  save_image_states (fun _ m => m) (fun m => m) (fun _ => false) (fun _ => true) ex_disk [s_ "a.tif"] 7 false [0] =
    [ex_disk; ex_disk; ([s_ "a_0000.tif"], File 0) :: ex_disk; ([s_ "a_0000.tif"], File 7) :: ex_disk] /\
  List.length (save_image_states (fun _ m => m) (fun m => m) (fun _ => false) (fun _ => true) ex_disk [s_ "b.tif"; s_ "y"; s_ "x"] 7 true [0; 1]) = 7%nat.
Proof. split; vm_compute; reflexivity. Qed.

(** ** rejected calls *)
Theorem rejected_save_image_keeps_every_file : forall C M (enc : str -> M -> C) scale8 cplx pil_ok (f : fs C) p m ow f' e,
  save_image enc scale8 cplx pil_ok f p m ow = (f', Err e) -> preserved f f'.
Proof. intros C M enc scale8 cplx pil_ok f p m ow f' e. apply save_image_rejected. Qed.
Print Assumptions rejected_save_image_keeps_every_file.
(** a complex tif is rejected although a.tif may be overwritten *)
Example ex_rejected : save_image (fun _ m => m) (fun m => m) (fun _ => true) (fun _ => true) ex_disk [s_ "a.tif"] 7 true = (ex_disk, Err ValueError).
Proof. vm_compute. reflexivity. Qed.

Theorem rejected_save_of_coefficients_keeps_every_file : forall V (show : V -> str) f p xc yc l ow f' e,
  save_distortion show f p xc yc l ow = (f', Err e) -> preserved f f'.
Proof. intros V show f p xc yc l ow f' e. apply save_distortion_rejected. Qed.
Print Assumptions rejected_save_of_coefficients_keeps_every_file.
Example ex_rejected_text : exists f f' e, save_distortion (fun v : str => v) f [s_ "c.txt"; s_ "d"] [] [] [] true = (f', Err e) /\ f <> [].
Proof. exists [([s_ "d"], File [])], [([s_ "d"], File [])], OSError. split; [vm_compute; reflexivity|discriminate]. Qed.

Theorem rejected_hdf_stream_keeps_every_file_partial : forall D (f : fs (hdf D)) p key d0 opts f' e,
  open_hdf_stream f p key d0 false opts = (f', Err e) -> preserved f f'.
Proof. intros D f p key d0 opts f' e. apply open_hdf_rejected_new. Qed.
Print Assumptions rejected_hdf_stream_keeps_every_file_partial.
Example ex_rejected_hdf : exists f', open_hdf_stream [([s_ "a.hdf"], File [(s_ "entry/data", 3)])] [s_ "a.hdf"] (s_ "entry/data") 0 false [(s_ "entry/data/rot", 5)] = (f', Err ValueError).
Proof. eexists. vm_compute. reflexivity. Qed.

(** with overwrite=True the metadata keys are only checked after the existing file was emptied *)
Theorem rejected_hdf_stream_empties_the_existing_file_refuted : forall D (f : fs (hdf D)) n d key d0 k v rest old,
  In (lower (suffix n)) [s_ ".hdf"; s_ ".h5"; s_ ".nxs"; s_ ".hdf5"] -> is_dir f d = true -> lookup f (n :: d) = Some (File old) ->
  substrb key k = true ->
  exists f', open_hdf_stream f (n :: d) key d0 true ((k, v) :: rest) = (f', Err ValueError) /\ lookup f' (n :: d) = Some (File []).
Proof.
  intros D f n d key d0 k v rest old E. apply open_hdf_emptied. apply existsb_exists. exists (lower (suffix n)). split; [exact E|]. apply str_eqb_iff. reflexivity.
Qed.
Print Assumptions rejected_hdf_stream_empties_the_existing_file_refuted.
Example ex_emptied : In (lower (suffix (s_ "scan.HDF"))) [s_ ".hdf"; s_ ".h5"; s_ ".nxs"; s_ ".hdf5"] /\ substrb (s_ "entry/data") (s_ "entry/data/angles") = true.
Proof. split; [left; vm_compute; reflexivity|vm_compute; reflexivity]. Qed.

(** an interrupted save of distortion coefficients is not noticed when loading: any number of the last factors can be missing *)
Theorem interrupted_coefficients_load_without_an_error_refuted : forall V (show : V -> str) (parse : str -> option V),
  (forall v, parse (show v) = Some v) -> (forall v, show v <> []) -> (forall v c, In c (show v) -> is_ws c = false) ->
  forall f p xc yc l ow f' q k, save_distortion show f p xc yc l ow = (f', Ok q) -> (k < List.length l)%nat ->
  exists s, In s (save_distortion_states show f p xc yc l ow) /\ load_distortion parse s q = Ok (xc, yc, firstn k l) /\ firstn k l <> l.
Proof.
  intros V show parse H1 H2 H3 f p xc yc l ow f' q k Sv Hk. destruct (cut_distortion show parse H1 H2 H3 f p xc yc l ow f' q k Sv Hk) as (s & I & L).
  exists s. split; [exact I|]. split; [exact L|]. intros E. apply (f_equal (@List.length V)) in E. rewrite firstn_length in E. lia.
Qed.
Print Assumptions interrupted_coefficients_load_without_an_error_refuted.
Example ex_cut : exists f', save_distortion dec [] [s_ "c.txt"] 3%N 4%N [5%N; 6%N] true = (f', Ok [s_ "c.txt"]).
Proof. eexists. vm_compute. reflexivity. Qed.
