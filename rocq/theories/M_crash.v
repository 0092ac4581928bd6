(** What a process killed inside a saving call of algotom/io/loadersaver.py leaves behind: the file systems between the steps of the
    calls modelled in M_io_save.  Each list starts with the file system before the call and ends with the one after it. *)
From Coq Require Import List ZArith NArith Ascii String Bool.
From Verif Require Import Np M_fs M_io_save.
Import ListNotations.

Section Steps.
  Context {C : Type}.
  (** Path.mkdir(parents=True, exist_ok=True), os.makedirs: one folder at a time, the outermost first; nothing if it cannot succeed *)
  Fixpoint mkdir_steps (f : fs C) (p : path) : list (fs C) :=
    match p with
    | [] => [f]
    | n :: q => match lookup f p with
                | None => mkdir_steps f q ++ match mkdir_p f q with Ok g => [(p, Dir) :: g] | Err _ => [] end
                | _ => [f]
                end
    end.
  Definition mkdir_states (f : fs C) (p : path) : list (fs C) :=
    match mkdir_p f p with Ok _ => mkdir_steps f p | Err _ => [f] end.
  (** opening for writing truncates; [parts]: what the file holds while it is being written *)
  Definition write_states (f : fs C) (p : path) (parts : list C) (c : C) : list (fs C) :=
    match write_file f p c with
    | Ok f' => f :: map (fun c' => (p, File c') :: f) parts ++ [f']
    | Err _ => [f]
    end.
End Steps.

Section Save.
  Context {C M : Type} (enc : str -> M -> C) (scale8 : M -> M) (cplx : M -> bool) (pil_ok : str -> bool).
  (** save_image, 398-418 (make_folder: 286-294) *)
  Definition save_image_states (f : fs C) (p : path) (m : M) (overwrite : bool) (parts : list C) : list (fs C) :=
    let ext := suffix (pname p) in
    if is_tif ext && cplx m then [f]
    else match (if overwrite then Ok p else make_file_name f p) with
         | Err _ => [f]
         | Ok p1 =>
             let d := match suffix (pname p1) with [] => p1 | _ => parent p1 end in
             (if existsb_ f d then [f] else mkdir_states f d) ++
             match make_folder f p1 with
             | (_, Err _) => []
             | (f1, Ok _) => if pil_ok ext then write_states f1 p1 parts (file_content enc scale8 ext m) else []
             end
         end.
End Save.

(** save_distortion_coefficient, 526-543: the text reaches the file from its beginning on, cut anywhere *)
Definition prefixes {A} (l : list A) : list (list A) := map (fun k => firstn k l) (seq 0 (List.length l)).
Definition save_distortion_states {V} (show : V -> str) (f : fs str) (p : path) (xc yc : V) (facts : list V) (overwrite : bool) : list (fs str) :=
  let p1 := dist_path p in
  mkdir_states f (parent p1) ++
  match mkdir_p f (parent p1) with
  | Err _ => []
  | Ok f1 => match (if overwrite then Ok p1 else make_file_name f1 p1) with
             | Err _ => []
             | Ok p2 => let text := coeff_text show xc yc facts in write_states f1 p2 (prefixes text) text
             end
  end.

Section Hdf.
  Context {D : Type}.
  (** the datasets in the file after each step of 457-467 *)
  Fixpoint option_states (h : hdf D) (key_path : str) (opts : list (str * D)) : list (hdf D) :=
    h :: match opts with
         | [] => []
         | (k, d) :: t => if substrb key_path k then []
                          else match create_dataset h k d with Ok h' => option_states h' key_path t | Err _ => [] end
         end.
  (** open_hdf_stream, 446-468 *)
  Definition open_hdf_stream_states (f : fs (hdf D)) (p : path) (key_path : str) (d0 : D) (overwrite : bool) (opts : list (str * D))
    : list (fs (hdf D)) :=
    let p1 := hdf_path p in
    mkdir_states f (parent p1) ++
    match mkdir_p f (parent p1) with
    | Err _ => []
    | Ok f1 =>
        match (if overwrite then Ok p1 else make_file_name f1 p1) with
        | Err _ => []
        | Ok p2 =>
            match write_file f1 p2 [] with
            | Err _ => [f1]
            | Ok f2 => f2 :: map (fun h => (p2, File h) :: f2) (option_states [] key_path opts) ++ [fst (open_hdf_stream f p key_path d0 overwrite opts)]
            end
        end
    end.
End Hdf.
