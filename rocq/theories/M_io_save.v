(** Model of the naming and saving functions of /repo/algotom/io/loadersaver.py. *)
From Verif Require Import Np M_fs.
From Coq Require Import Ascii String.
From Coq Require Import List. Import ListNotations.
Open Scope Z_scope.

(** loadersaver.py:329-358 make_file_name.
    The loop [while True] (349-357) runs on fuel; running out of fuel is [Err RuntimeError], which the
    theorems exclude. *)
Definition cand_name (base ext : str) (n : N) : str :=
  base ++ s_ "_" ++ zpad 4 (dec n) ++ ext.                                   (* 350-351 *)
Definition cand_path (p : path) (n : N) : path :=
  cand_name (stem (pname p)) (suffix (pname p)) n :: parent p.               (* 344-346, 352 *)
Fixpoint mfn_loop {C} (fuel : nat) (f : fs C) (p : path) (n : N) : res path :=
  match fuel with
  | O => Err RuntimeError
  | S k => if existsb_ f (cand_path p n) then mfn_loop k f p (n + 1)         (* 353-354 *)
           else Ok (cand_path p n)                                           (* 355-357 *)
  end.
Definition make_file_name {C} (f : fs C) (p : path) : res path :=
  if existsb_ f p then mfn_loop (S (length f)) f p 0 else Ok p.              (* 347-358 *)

(** loadersaver.py:297-326 make_folder_name.
    Simplification: [name_prefix] has no glob metacharacter, so the glob pattern means "name starts with prefix_". *)
Definition folder_cand (prefix : str) (zero : nat) (n : N) : str :=
  prefix ++ s_ "_" ++ zpad zero (dec n).                                     (* 316, 320-321 *)
Fixpoint mfold_loop {C} (fuel : nat) (f : fs C) (d : path) (prefix : str) (zero : nat) (n : N)
  : res str :=
  match fuel with
  | O => Err RuntimeError
  | S k => if is_dir f (folder_cand prefix zero n :: d)                      (* 322 *)
           then mfold_loop k f d prefix zero (n + 1)                         (* 323-325 *)
           else Ok (folder_cand prefix zero n)
  end.
Definition make_folder_name {C} (f : fs C) (d : path) (prefix : str) (zero : nat) : res str :=
  let existing := filter (prefixb (prefix ++ s_ "_")) (entries f d) in       (* 317 *)
  mfold_loop (S (length f)) f d prefix zero (N.of_nat (length existing) + 1). (* 318-319 *)

(** loadersaver.py:275-294 make_folder *)
Definition make_folder {C} (f : fs C) (p : path) : fs C * res unit :=
  let d := match suffix (pname p) with [] => p | _ => parent p end in        (* 286-289 *)
  if existsb_ f d then (f, Ok tt)                                            (* 290 *)
  else match mkdir_p f d with
       | Ok f' => (f', Ok tt)
       | Err _ => (f, Err ValueError)                                        (* 293-294 *)
       end.

Section Save.
  (** [M]: images; [C]: file contents; [enc ext m]: what PIL writes for that extension;
      [scale8]: the uint8 min-max scaling of lines 404-405; [cplx]: complex dtype;
      [pil_ok ext]: PIL knows the extension (otherwise image.save raises before opening the file). *)
  Context {C M : Type} (enc : str -> M -> C) (scale8 : M -> M) (cplx : M -> bool)
          (pil_ok : str -> bool).
  Definition is_tif (ext : str) : bool := str_eqb ext (s_ ".tif") || str_eqb ext (s_ ".tiff").

  (** the content line 415 writes: the image itself for tif, the 8-bit scaled one otherwise *)
  Definition file_content (ext : str) (m : M) : C :=
    enc ext (if is_tif ext then m else scale8 m).                            (* 402-405, 415 *)

  (** loadersaver.py:382-418 save_image.  Returns the file system and the returned path. *)
  Definition save_image (f : fs C) (p : path) (m : M) (overwrite : bool) : fs C * res path :=
    let ext := suffix (pname p) in                                           (* 402 *)
    if is_tif ext && cplx m then (f, Err ValueError)                         (* 406-409 *)
    else
      match (if overwrite then Ok p else make_file_name f p) with            (* 411-412 *)
      | Err e => (f, Err e)
      | Ok p1 =>
          match make_folder f p1 with                                        (* 413 *)
          | (f1, Err e) => (f1, Err e)
          | (f1, Ok _) =>
              if pil_ok ext then
                match write_file f1 p1 (file_content ext m) with             (* 415 *)
                | Ok f2 => (f2, Ok p1)                                       (* 418 *)
                | Err _ => (f1, Err ValueError)                              (* 416-417 *)
                end
              else (f1, Err ValueError)
          end
      end.

  (** loadersaver.py:1274-1278: names used when [list_path] is a folder *)
  Definition img_name (i : Z) : str :=
    s_ "img_" ++ lastn 5 (s_ "00000" ++ str_Z i) ++ s_ ".tif".               (* 1277 *)

  (** run the tasks in the given order; [slice i] is the image saved by task i *)
  Fixpoint run_saves (slice : Z -> M) (overwrite : bool) (f : fs C) (order : list (path * Z))
    : fs C * list (res path) :=
    match order with
    | [] => (f, [])
    | (p, i) :: t => let (f1, r) := save_image f p (slice i) overwrite in
                     let (f2, rs) := run_saves slice overwrite f1 t in (f2, r :: rs)
    end.
End Save.

(** loadersaver.py:1281-1307: slice i of a 3D stack along [axis] (2, 1, anything else = 0) *)
Definition axis_len {V} (v : vol V) (axis : Z) : Z :=
  if axis =? 2 then wid v else if axis =? 1 then hei v else dep v.
Definition axis_slice {V} (v : vol V) (axis : Z) (i : Z) : img V :=
  if axis =? 2 then mkimg (dep v) (hei v) (fun a b => vx v a b i)            (* 1287 *)
  else if axis =? 1 then mkimg (dep v) (wid v) (fun a b => vx v a i b)       (* 1295 *)
  else mkimg (hei v) (wid v) (fun a b => vx v i a b).                        (* 1303 *)

(** loadersaver.py:1274-1307 save_image_multiple for a folder path; [order] is the order in which
    joblib's workers (or the sequential loop, ncore = 1) execute the calls. *)
Definition save_image_multiple {C V} (enc : str -> img V -> C) (scale8 : img V -> img V)
    (cplx : img V -> bool) (pil_ok : str -> bool)
    (f : fs C) (folder : path) (stack : vol V) (axis : Z) (overwrite : bool) (order : list (path * Z))
  : fs C * list (res path) :=
  run_saves enc scale8 cplx pil_ok (axis_slice stack axis) overwrite f order.
Definition save_tasks {V} (folder : path) (stack : vol V) (axis start : Z) : list (path * Z) :=
  map (fun i => (img_name (start + i) :: folder, i)) (zrange 0 (axis_len stack axis)).

(** ** save_image(overwrite=False) as atomic steps, for interleavings (C05).
    A call probes the existence of candidate names one after the other (347-357) and then writes
    (415).  The target folder exists, so make_folder does nothing. *)
Inductive tstate := TStart | TProbe (n : N) | TWrite (q : path) | TDone (q : path).
Record task C := mktask { t_path : path; t_content : C; t_state : tstate }.
Arguments mktask {C}. Arguments t_path {C}. Arguments t_content {C}. Arguments t_state {C}.
Definition tstep {C} (f : fs C) (t : task C) : fs C * task C :=
  let set s := mktask (t_path t) (t_content t) s in
  match t_state t with
  | TStart => (f, set (if existsb_ f (t_path t) then TProbe 0 else TWrite (t_path t)))
  | TProbe n => (f, set (if existsb_ f (cand_path (t_path t) n) then TProbe (n + 1)
                         else TWrite (cand_path (t_path t) n)))
  | TWrite q => match write_file f q (t_content t) with
                | Ok f' => (f', set (TDone q))
                | Err _ => (f, set (TWrite q))
                end
  | TDone q => (f, t)
  end.
Fixpoint set_nth {A} (k : nat) (a : A) (l : list A) : list A :=
  match l, k with
  | [], _ => []
  | _ :: t, O => a :: t
  | x :: t, S j => x :: set_nth j a t
  end.
(** run a schedule: the list of the tasks that perform a step, in order *)
Fixpoint run_sched {C} (f : fs C) (ts : list (task C)) (sched : list nat) : fs C * list (task C) :=
  match sched with
  | [] => (f, ts)
  | k :: s => match nth_error ts k with
              | None => run_sched f ts s
              | Some t => let (f', t') := tstep f t in run_sched f' (set_nth k t' ts) s
              end
  end.

(** ** Distortion-coefficient files: 471-543 *)
Definition is_ws (c : ascii) : bool :=      (* str.split() whitespace, ASCII *)
  let n := N_of_ascii c in ((n =? 32) || ((9 <=? n) && (n <=? 13)) || ((28 <=? n) && (n <=? 31)))%N.
Definition is_nl (c : ascii) : bool :=      (* str.splitlines() boundaries, ASCII; \r\n counts once
                                               in Python, files written here contain no \r *)
  let n := N_of_ascii c in (((10 <=? n) && (n <=? 13)) || ((28 <=? n) && (n <=? 30)))%N.
Fixpoint splitlines_aux (cur : str) (s : str) : list str :=
  match s with
  | [] => match cur with [] => [] | _ => [rev cur] end
  | c :: t => if is_nl c then rev cur :: splitlines_aux [] t else splitlines_aux (c :: cur) t
  end.
Definition splitlines (s : str) : list str := splitlines_aux [] s.
Fixpoint split_ws_aux (cur : str) (s : str) : list str :=
  match s with
  | [] => match cur with [] => [] | _ => [rev cur] end
  | c :: t => if is_ws c then match cur with [] => split_ws_aux [] t | _ => rev cur :: split_ws_aux [] t end
              else split_ws_aux (c :: cur) t
  end.
Definition split_ws (s : str) : list str := split_ws_aux [] s.
(** l[-1] *)
Definition last_r {A} (l : list A) : res A :=
  match rev l with [] => Err IndexError | x :: _ => Ok x end.

Section Distortion.
  (** numbers with Python's str() and float() *)
  Context {V : Type} (show : V -> str) (parse : str -> option V).
  Definition meta_line (key : str) (v : V) : str := key ++ s_ " = " ++ show v ++ [ascii_of_N 10]. (* 541-542 *)
  Fixpoint factor_lines (i : N) (l : list V) : str :=
    match l with [] => [] | v :: t => meta_line (s_ "factor" ++ dec i) v ++ factor_lines (i + 1) t end.
  Definition coeff_text (xc yc : V) (facts : list V) : str :=                (* 533-542 *)
    meta_line (s_ "xcenter") xc ++ meta_line (s_ "ycenter") yc ++ factor_lines 0 facts.
  Definition dist_path (p : path) : path :=                                  (* 528-529 *)
    let sfx := lower (suffix (pname p)) in
    if str_eqb sfx (s_ ".txt") || str_eqb sfx (s_ ".dat") then p else with_suffix p (s_ ".txt").
  (** 503-543 save_distortion_coefficient *)
  Definition save_distortion (f : fs str) (p : path) (xc yc : V) (facts : list V) (overwrite : bool)
    : fs str * res path :=
    let p1 := dist_path p in
    match mkdir_p f (parent p1) with                                         (* 530 *)
    | Err e => (f, Err e)
    | Ok f1 =>
        match (if overwrite then Ok p1 else make_file_name f1 p1) with       (* 531-532 *)
        | Err e => (f1, Err e)
        | Ok p2 => match write_file f1 p2 (coeff_text xc yc facts) with      (* 539-542 *)
                   | Ok f2 => (f2, Ok p2)
                   | Err e => (f1, Err e)
                   end
        end
    end.
  (** 471-500 load_distortion_coefficient *)
  Definition parse_line (l : str) : res V :=
    do tok <- last_r (split_ws l);                                           (* 496, i.split()[-1] *)
    match parse tok with Some v => Ok v | None => Err ValueError end.
  Definition load_distortion (f : fs str) (p : path) : res (V * V * list V) :=
    match lookup f p with
    | Some (File txt) =>
        do data <- mapr parse_line (splitlines txt);                         (* 493-496 *)
        match data with
        | xc :: yc :: facts => Ok (xc, yc, facts)                            (* 497-500 *)
        | _ => Err IndexError
        end
    | _ => Err ValueError
    end.
End Distortion.

(** ** open_hdf_stream: 421-468 *)
Section Hdf.
  (** [D]: dataset contents; an hdf file is the list of its datasets (full key, data) *)
  Context {D : Type}.
  Definition hdf := list (str * D).
  (** components of an hdf5 key: split at '/', empty parts dropped *)
  Fixpoint key_aux (cur : str) (s : str) : list str :=
    match s with
    | [] => match cur with [] => [] | _ => [rev cur] end
    | c :: t => if ascii_dec c "/"%char
                then match cur with [] => key_aux [] t | _ => rev cur :: key_aux [] t end
                else key_aux (c :: cur) t
    end.
  Definition key_parts (s : str) : list str := key_aux [] s.
  Fixpoint is_prefix (a b : list str) : bool :=
    match a, b with
    | [], _ => true
    | x :: a', y :: b' => if str_eq_dec x y then is_prefix a' b' else false
    | _ :: _, [] => false
    end.
  (** File.create_dataset(key): fails when the key is taken by a dataset or a group, or when one of
      its parents is a dataset *)
  Definition create_dataset (h : hdf) (key : str) (d : D) : res hdf :=
    if existsb (fun e => is_prefix (key_parts (fst e)) (key_parts key)
                         || is_prefix (key_parts key) (key_parts (fst e))) h
    then Err ValueError else Ok ((key, d) :: h).
  Definition hdf_suffixes : list str := [s_ ".hdf"; s_ ".h5"; s_ ".nxs"; s_ ".hdf5"].
  Fixpoint add_options (h : hdf) (key_path : str) (opts : list (str * D)) : hdf * option exn :=
    match opts with
    | [] => (h, None)
    | (k, d) :: t =>
        if substrb key_path k then (h, Some ValueError)                      (* 461-465 *)
        else match create_dataset h k d with                                 (* 466 *)
             | Ok h' => add_options h' key_path t
             | Err e => (h, Some e)
             end
    end.
  (** [opts] lists the key/data pairs of all option dictionaries in iteration order.
      The result is the opened file's path; [d0] is the new (still empty) dataset. *)
  Definition hdf_path (p : path) : path :=                                   (* 448-449 *)
    if existsb (str_eqb (lower (suffix (pname p)))) hdf_suffixes then p
    else with_suffix p (s_ ".hdf").
  Definition open_hdf_stream (f : fs hdf) (p : path) (key_path : str) (d0 : D)
      (overwrite : bool) (opts : list (str * D)) : fs hdf * res path :=
    let p1 := hdf_path p in
    match mkdir_p f (parent p1) with                                         (* 450 *)
    | Err e => (f, Err e)
    | Ok f1 =>
        match (if overwrite then Ok p1 else make_file_name f1 p1) with       (* 451-452 *)
        | Err e => (f1, Err e)
        | Ok p2 =>
            match write_file f1 p2 [] with                                   (* 454 *)
            | Err _ => (f1, Err ValueError)                                  (* 455-456 *)
            | Ok f2 =>
                let (h, er) := add_options [] key_path opts in               (* 457-466 *)
                match er with
                | Some e => ((p2, File h) :: f2, Err e)
                | None => match create_dataset h key_path d0 with            (* 467 *)
                          | Ok h' => ((p2, File h') :: f2, Ok p2)
                          | Err e => ((p2, File h) :: f2, Err e)
                          end
                end
            end
        end
    end.
End Hdf.
Arguments hdf D : clear implicits.
