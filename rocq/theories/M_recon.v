(** Model of /repo/algotom/rec/reconstruction.py: apply_ramp_filter (118-153), fbp_reconstruction
    (362-493), apply_circular_ramp_filter (527-560), bpf_reconstruction (563-684).
    Parameters of the model: cos, sin, the number pi, -log, the FFT filters (functions of the padded
    image and a window), np.pad's modes and the window generators.  Exact rationals instead of floats;
    warnings are not modelled. *)
From Verif Require Import Np M_utility M_conversion M_par M_backproj.
From Coq Require Import QArith Qround.
From Coq Require Import List. Import ListNotations.
Open Scope Z_scope.

(** a sinogram argument: 2D (nrow, ncol) or 3D (nrow, num_sino, ncol) *)
Inductive arr := A2 (m : img Q) | A3 (v : vol Q).
Definition amap (f : Q -> Q) (a : arr) : arr :=
  match a with
  | A2 m => A2 (mkimg (nrow m) (ncol m) (fun i j => f (px m i j)))
  | A3 v => A3 (mkvol (dep v) (hei v) (wid v) (fun i j k => f (vx v i j k)))
  end.
(** np.squeeze as used at 446 and 647 (num_sino = 1): the result is used as a 2D array, anything else
    fails to unpack (144: ValueError; same for the kernels) *)
Definition squeeze2 (a : arr) : res (img Q) :=
  let m := match a with A2 m => m | A3 v => mkimg (dep v) (wid v) (fun i k => vx v i 0 k) end in
  if (nrow m =? 1) || (ncol m =? 1) then Err ValueError else Ok m.
(** sinogram[sinogram <= 0.0] = np.float32(1.0) (432-435 = 633-636) *)
Definition fix_log (v : Q) : Q := if Qle_bool v 0 then 1%Q else v.
(** pad = min(int(0.15 * ncol), 150) when None (441-442 = 642-643 = 145-146 = 553-554) *)
Definition pad_of (ncol : Z) (pad : option Z) : Z :=
  match pad with None => Z.min (Qtrunc ((15#100) * inject_Z ncol)) 150 | Some p => p end.
(** ratio (437-440 = 638-641) *)
Definition rec_ratio (ncol : Z) (center ratio : Q) : Q :=
  if Qeq_bool ratio 0 then (Qminb center (inject_Z ncol - center) / ((1#2) * inject_Z ncol))%Q else ratio.
Definition mul_mask (mask : option (img Q)) (m : img Q) : img Q :=
  match mask with None => m | Some k => mkimg (nrow m) (ncol m) (fun i j => (px m i j * px k i j)%Q) end.
Definition mul_mask3 (mask : option (img Q)) (v : vol Q) : vol Q :=
  match mask with None => v | Some k => mkvol (dep v) (hei v) (wid v) (fun i j l => (vx v i j l * px k i l)%Q) end.
(** ncore (427-430 = 628-631) *)
Definition ncore_of (cpu_count : Z) (ncore : option Z) : Z :=
  match ncore with None => Z.max (cpu_count - 1) 1 | Some n => Z.max n 1 end.

(** what a call leaves behind: the result, the content of the caller's array, the kernel threads *)
Record outcome := mkoutcome { recon : arr; caller : arr; launches : list (list thread) }.
Definition completed (o : outcome) : Prop := forall ts, In ts (launches o) -> all_done ts.

Section params.
Context (cosf sinf neglog : Q -> Q) (pi : Q).
Context {window name mode : Type}.
Context (wshape : window -> Z * Z).
Context (make_2d_ramp_window : Z -> Z -> name -> window) (make_circular_ramp_window : Z -> name -> window).
Context (np_pad_cols : img Q -> Z -> mode -> img Q) (np_pad_all : img Q -> Z -> mode -> img Q).
Context (fft_filter_rows fft_filter_2d : img Q -> window -> img Q).

Definition shape_eqb (a b : Z * Z) : bool := (fst a =? fst b) && (snd a =? snd b).
(** apply_ramp_filter, 118-153 *)
Definition apply_ramp_filter (sino : img Q) (ramp_win : option window) (fname : name) (pad : option Z) (pmode : mode) : img Q :=
  let nc := ncol sino in
  let p := pad_of nc pad in
  let padded := np_pad_cols sino p pmode in
  let w := match ramp_win with
           | Some w => if shape_eqb (wshape w) (nrow padded, ncol padded) then w
                       else make_2d_ramp_window (nrow sino) (nc + 2 * p) fname
           | None => make_2d_ramp_window (nrow sino) (nc + 2 * p) fname end in
  let f := fft_filter_rows padded w in
  islice f 0 (nrow f) p (nc + p).
(** apply_circular_ramp_filter, 527-560; ncol = rec_img.shape[0] *)
Definition apply_circular_ramp_filter (rec : img Q) (ramp_win : option window) (fname : name) (pad : option Z) (pmode : mode) : img Q :=
  let nc := nrow rec in
  let p := pad_of nc pad in
  let padded := np_pad_all rec p pmode in
  let w := match ramp_win with
           | Some w => if shape_eqb (wshape w) (nrow padded, ncol padded) then w
                       else make_circular_ramp_window (nc + 2 * p) fname
           | None => make_circular_ramp_window (nc + 2 * p) fname end in
  islice (fft_filter_2d padded w) p (nc + p) p (nc + p).

(** np.deg2rad(np.linspace(0.0, 180.0, nrow)) (414-415) *)
Definition default_angles (nr : Z) : vec Q := mkvec nr (fun i => (inject_Z i * pi / inject_Z (nr - 1))%Q).
Definition shape3 (a : arr) : Z * Z * Z :=
  match a with A3 v => (dep v, hei v, wid v) | A2 m => (nrow m, 1, ncol m) end.
Definition is3 (a : arr) : bool := match a with A3 _ => true | A2 _ => false end.
(** 405-419 = 606-620 *)
Definition check_args (a : arr) (center : Q) (angles : option (vec Q)) : res (vec Q) :=
  let '(nr, _, nc) := shape3 a in
  if Qltb center 0 || Qle_bool (inject_Z nc) center then Err ValueError else
  match angles with
  | None => Ok (default_angles nr)
  | Some v => if vlen v =? nr then Ok v else Err ValueError
  end.
(** 445-459 and 646-657: one launch *)
Definition back_project2 (gpu : bool) (m : img Q) (angles : vec Q) (center : Q) (block : Z * Z) (edge : bool) (sched : list nat)
  : res (img Q * list thread) :=
  if gpu then back_projection_gpu cosf sinf m angles center block edge sched
  else back_projection_cpu cosf sinf m angles center edge sched.
(** 476-487 and 663-674: one launch for the whole stack (GPU) or one per sinogram (CPU) *)
Definition back_project3 (gpu : bool) (v : vol Q) (angles : vec Q) (center : Q) (block : Z * Z) (edge : bool) (scheds : Z -> list nat)
  : res (vol Q * list (list thread)) :=
  if gpu then do r <- back_projection_gpu_chunk cosf sinf v angles center block edge (scheds 0); Ok (fst r, [snd r])
  else
    do rs <- mapr (fun i => back_projection_cpu cosf sinf (vslice_axis v 1 i) angles center edge (scheds i)) (zrange 0 (hei v));
    Ok (mkvol (wid v) (hei v) (wid v)
          (fun y i x => px (fst (nth (Z.to_nat i) rs (mkimg 0 0 (fun _ _ => 0%Q), []))) y x), map snd rs).
(** recon * np.pi / (nrow - 1) (493, 684).  Simplification: for nrow = 1 numpy gives inf or nan, here
    the quotient by 0 is 0; the theorems assume nrow >= 2. *)
Definition scale_pi (nr : Z) (q : Q) : Q := (q * pi / inject_Z (nr - 1))%Q.
(** np.expand_dims(recon, 1) (491-492) *)
Definition finish (in3 : bool) (nr : Z) (m : img Q) : arr :=
  amap (scale_pi nr) (if in3 then A3 (mkvol (nrow m) 1 (ncol m) (fun y _ x => px m y x)) else A2 m).

(** fbp_reconstruction, 362-493.  [gpu]: a GPU is requested and available; [block]: threads per block;
    [cast]: conversion to the dtype of the sinogram, applied at 462-464 because np.zeros_like keeps that
    dtype (after the logarithm it is a float type: no conversion); [order]: completion order of the
    joblib tasks; [scheds i]: schedule of launch i. *)
Definition fbp_reconstruction (a : arr) (center : Q) (angles : option (vec Q)) (ratio : option Q) (ramp_win : option window)
    (fname : name) (pad : option Z) (pmode : mode) (apply_log gpu : bool) (block : Z * Z) (cpu_count : Z) (ncore : option Z)
    (cast : Q -> Q) (order : list Z) (scheds : Z -> list nat) : res outcome :=
  let '(nr, ns, nc) := shape3 a in
  do ang <- check_args a center angles;
  let a1 := if apply_log then amap fix_log a else a in
  let s := if apply_log then amap neglog a1 else a1 in
  let mask := match ratio with None => None | Some r => Some (make_circle_mask nc (rec_ratio nc center r)) end in
  let p := pad_of nc pad in
  if p <? 0 then Err ValueError else                                             (* np.pad *)
  let w := match ramp_win with Some w => w | None => make_2d_ramp_window nr (nc + 2 * p) fname end in
  let filt := fun m => apply_ramp_filter m (Some w) fname (Some p) pmode in
  if ns =? 1 then
    do m <- squeeze2 s;
    do r <- back_project2 gpu (filt m) ang center block false (scheds 0);
    Ok (mkoutcome (finish (is3 a) nr (mul_mask mask (fst r))) a1 [snd r])
  else
    match s with
    | A2 _ => Err RuntimeError                                                   (* not reached: ns = 1 *)
    | A3 v =>
        do f <- (if ncore_of cpu_count ncore =? 1 then                            (* 461-467 *)
                   let c := if apply_log then (fun q => q) else cast in
                   Ok (mkvol nr ns nc (fun i j k => c (px (filt (vslice_axis v 1 j)) i k)))
                 else parallel_process_slices filt v 1 order);                   (* 468-475 *)
        do r <- back_project3 gpu f ang center block false scheds;
        Ok (mkoutcome (amap (scale_pi nr) (A3 (mul_mask3 mask (fst r)))) a1 (snd r))
    end.

(** bpf_reconstruction, 563-684 (the one-sinogram branch, 658, does not pass filter_name on: [no_name]
    is the default None of apply_circular_ramp_filter) *)
Definition bpf_reconstruction (no_name : name) (a : arr) (center : Q) (angles : option (vec Q)) (ratio : option Q) (ramp_win : option window)
    (fname : name) (pad : option Z) (pmode : mode) (apply_log gpu : bool) (block : Z * Z)
    (order : list Z) (scheds : Z -> list nat) : res outcome :=
  let '(nr, ns, nc) := shape3 a in
  do ang <- check_args a center angles;
  let a1 := if apply_log then amap fix_log a else a in
  let s := if apply_log then amap neglog a1 else a1 in
  let mask := match ratio with None => None | Some r => Some (make_circle_mask nc (rec_ratio nc center r)) end in
  let p := pad_of nc pad in
  if p <? 0 then Err ValueError else
  let w := match ramp_win with Some w => w | None => make_circular_ramp_window (nc + 2 * p) fname end in
  if ns =? 1 then
    do m <- squeeze2 s;
    do r <- back_project2 gpu m ang center block true (scheds 0);
    let f := apply_circular_ramp_filter (fst r) (Some w) no_name (Some p) pmode in
    Ok (mkoutcome (finish (is3 a) nr (mul_mask mask f)) a1 [snd r])
  else
    match s with
    | A2 _ => Err RuntimeError
    | A3 v =>
        do r <- back_project3 gpu v ang center block true scheds;
        do f <- parallel_process_slices (fun m => apply_circular_ramp_filter m (Some w) fname (Some p) pmode) (fst r) 1 order;
        Ok (mkoutcome (amap (scale_pi nr) (A3 (mul_mask3 mask f))) a1 (snd r))
    end.
End params.
