(** Model of algotom/rec/reconstruction.py: gridrec_reconstruction (910-1006), __astra_recon_single (1009-1044),
    astra_reconstruction (1047-1174).  tomopy.recon, the astra algorithms, -log, scipy's shift and the number pi are
    parameters; exact rationals instead of floats; warnings and the missing-package errors are not modelled. *)
From Verif Require Import Np M_utility M_conversion M_recon.
From Coq Require Import QArith Qround String Ascii.
From Coq Require Import List. Import ListNotations.
Open Scope Z_scope.

Definition the_angles (pi : Q) (nr : Z) (angles : option (vec Q)) : res (vec Q) :=
  match angles with
  | None => Ok (default_angles pi nr)
  | Some v => if vlen v =? nr then Ok v else Err ValueError
  end.
(** the pad argument of gridrec: a boolean or a number *)
Inductive gpad := PadBool (b : bool) | PadInt (p : Z).
(** int(2 ** np.ceil(np.log2(1.0 * x))) (979, 985): the log2 of a number <= 0 ends in a ValueError (int(nan), or a
    negative pad) *)
Definition power2_up (x : Z) : res Z := if x <=? 0 then Err ValueError else Ok (2 ^ Z.log2_up x).
(** 973-987: pad_left, pad_right *)
Definition gridrec_pads (nc : Z) (pad : gpad) : res (Z * Z) :=
  match pad with
  | PadBool false => Ok (0, 0)
  | PadBool true => do n <- power2_up nc; let l := (n - nc) / 2 in Ok (l, n - nc - l)
  | PadInt p => do n <- power2_up (nc + 2 * p); let l := (n - nc) / 2 in Ok (l, n - nc - l)
  end.
(** np.expand_dims(sinogram, 1) (988-989) *)
Definition as_stack (a : arr) : vol Q :=
  match a with A3 v => v | A2 m => mkvol (nrow m) 1 (ncol m) (fun i _ k => px m i k) end.
(** np.pad(sinogram, ((0,0),(0,0),(l,r)), mode='edge') (990-991): a negative number raises ValueError *)
Definition pad_edge3 (v : vol Q) (l r : Z) : res (vol Q) :=
  if (l <? 0) || (r <? 0) then Err ValueError
  else Ok (mkvol (dep v) (hei v) (wid v + l + r) (fun i j k => vx v i j (clipZ (k - l) 0 (wid v - 1)))).

Section params.
Context (neglog : Q -> Q) (pi : Q).

(** gridrec_reconstruction, 910-1006: the result and the final content of the caller's array.  [tomopy_recon] is
    tomopy.recon(sinogram, angles, center, 'gridrec', filter_name, filter_par, ncore), an array of slices.
    np.squeeze of a result of width 1 is a number, not modelled (RuntimeError). *)
Definition gridrec_reconstruction
    (tomopy_recon : vol Q -> vec Q -> Q -> string -> Q -> Z -> vol Q)
    (a : arr) (center : Q) (angles : option (vec Q)) (ratio : option Q) (filter_name : option string) (apply_log : bool)
    (pad : gpad) (filter_par : Q) (cpu_count : Z) (ncore : option Z) : res arr * arr :=
  let '(nr, _, nc) := shape3 a in
  match the_angles pi nr angles with
  | Err e => (Err e, a)
  | Ok ang =>
      let a1 := if apply_log then amap fix_log a else a in                          (* 961-965 *)
      let s := if apply_log then amap neglog a1 else a1 in                          (* 966 *)
      (if Qltb center 0 || Qle_bool (inject_Z nc) center then Err ValueError else   (* 975-976 *)
       do p <- gridrec_pads nc pad;
       let '(pl, pr) := p in
       do padded <- pad_edge3 (as_stack s) pl pr;
       let rec := tomopy_recon padded ang (center + inject_Z pl)%Q
                    (match filter_name with None => "shepp"%string | Some f => f end) filter_par (ncore_of cpu_count ncore) in
       (* 996: recon[:, pl:pl+ncol, pl:pl+ncol], then the mask (997-1002) and np.moveaxis(recon, 0, 1) (1003) *)
       let mask := match ratio with None => None | Some r => Some (make_circle_mask nc (rec_ratio nc center r)) end in
       let cut := fun j => islice (mkimg (hei rec) (wid rec) (fun y x => vx rec j y x)) pl (pl + nc) pl (pl + nc) in
       let out := mkvol (nrow (cut 0)) (dep rec) (ncol (cut 0)) (fun y j x => px (mul_mask mask (cut j)) y x) in
       if is3 a then Ok (A3 out)
       else if nc =? 1 then Err RuntimeError
       else Ok (A2 (mkimg (dep out) (wid out) (fun y x => vx out y 0 x))), a1)
  end.

(** ** astra_reconstruction *)
(** "CUDA" in method, and method.replace("_CUDA", "") (1113-1116) *)
Definition contains (p s : string) : bool := match index 0 p s with Some _ => true | None => false end.
Fixpoint remove_cuda (fuel : nat) (s : string) : string :=
  match fuel with
  | O => s
  | S k => if prefix "_CUDA" s then remove_cuda k (substring 5 (String.length s) s)
           else match s with EmptyString => EmptyString | String c t => String c (remove_cuda k t) end
  end.
Definition cpu_methods : list string := ["BP"; "FBP"; "SIRT"; "SART"; "ART"; "CGLS"]%string.
Definition gpu_methods : list string := ["BP_CUDA"; "FBP_CUDA"; "SIRT_CUDA"; "SART_CUDA"; "CGLS_CUDA"; "EM_CUDA"]%string.
Definition listed (m : string) (l : list string) : bool := existsb (String.eqb m) l.
(** 1109-1129: the method that is run and whether it runs on the GPU *)
Definition select_method (has_gpu : bool) (method : string) : res (string * bool) :=
  let check := fun m (gpu : bool) => if listed m (if gpu then gpu_methods else cpu_methods) then Ok (m, gpu) else Err ValueError in
  if contains "CUDA" method then
    if has_gpu then check method true
    else let m := remove_cuda (S (String.length method)) method in
         if contains "EM" m then Err ValueError else check m false
  else check method false.
(** 1009-1044; [run] is the creation and the run of the astra algorithm on the sinogram (ValueError if the method is
    refused), [shift] scipy's shift of the columns *)
Definition astra_recon_single (shift : img Q -> Q -> img Q) (run : string -> option string -> Z -> vec Q -> img Q -> res (img Q))
    (sino : img Q) (center : Q) (angles : vec Q) (pad : Z) (method filter_name : string) (num_iter : Z) : res (img Q) :=
  let padded := mkimg (nrow sino) (ncol sino + 2 * pad) (fun i k => px sino i (clipZ (k - pad) 0 (ncol sino - 1))) in
  let nc := ncol padded in
  let cen_col := ((inject_Z nc - 1) / 2)%Q in
  let moved := shift padded (cen_col - (center + inject_Z pad))%Q in
  let filt := if String.eqb method "FBP_CUDA" || String.eqb method "FBP" then Some filter_name else None in
  do rec <- run method filt num_iter angles moved;
  Ok (islice rec pad (nc - pad) pad (nc - pad)).
(** 1047-1174: the result and the final content of the caller's array.  joblib returns the results in the order of the
    calls, whatever ncore is (1159-1163), as does the loop for the GPU (1152-1157). *)
Definition astra_reconstruction (has_gpu : bool) (shift : img Q -> Q -> img Q)
    (run : string -> option string -> Z -> vec Q -> img Q -> res (img Q))
    (a : arr) (center : Q) (angles : option (vec Q)) (ratio : option Q) (method : string) (num_iter : Z)
    (filter_name : option string) (pad : option Z) (apply_log : bool) (ncore : option Z) : res arr * arr :=
  let '(nr, ns, nc) := shape3 a in
  match the_angles pi nr angles with
  | Err e => (Err e, a)
  | Ok ang =>
      match select_method has_gpu method with
      | Err e => (Err e, a)
      | Ok (m, gpu) =>
          if Qltb center 0 || Qle_bool (inject_Z nc) center then (Err ValueError, a) else
          let a1 := if apply_log then amap fix_log a else a in
          let s := if apply_log then amap neglog a1 else a1 in
          let f := match filter_name with None => "ram-lak"%string | Some f => f end in
          let p := match pad with None => pad_of nc None | Some p => Z.max p 0 end in
          let mask := match ratio with None => None | Some r => Some (make_circle_mask nc (rec_ratio nc center r)) end in
          let single := fun sino => astra_recon_single shift run sino center ang p m f num_iter in
          (match s with
           | A2 sino => do r <- single sino; Ok (A2 (mul_mask mask r))
           | A3 v => do rs <- mapr (fun j => single (vslice_axis v 1 j)) (zrange 0 ns);
                     let first := nth 0 rs (mkimg 0 0 (fun _ _ => 0%Q)) in
                     Ok (A3 (mul_mask3 mask (mkvol (nrow first) ns (ncol first)
                               (fun y j x => px (nth (Z.to_nat j) rs (mkimg 0 0 (fun _ _ => 0%Q))) y x))))
           end, a1)
      end
  end.
End params.
