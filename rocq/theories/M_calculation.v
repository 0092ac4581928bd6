(** Model of algotom/prep/calculation.py.
    External numerics are parameters: the Gaussian filters, the cubic spline shift, the spectral metric
    mean(|fftshift(fft2(mat))| * mask), the correlation metric |1 - pearsonr|, and pi. *)
From Verif Require Import Np M_utility M_conversion M_correction.
From Coq Require Import QArith Qround Qabs.
From Coq Require Import List. Import ListNotations.
Open Scope Z_scope.

(** joblib.Parallel(...)(delayed(f)(i) for i in range(n)): every task writes the slot of its index, in
    the order [order]; the result list is complete when every slot has been written. *)
Definition gather {V} (f : Z -> V) (order : list Z) : Z -> option V :=
  fold_left (fun s i => fun k => if k =? i then Some (f i) else s k) order (fun _ => None).
Definition run_list {V} (f : Z -> V) (n : Z) (order : list Z) : res (list V) :=
  match all_some (map (gather f order) (zrange 0 n)) with Some l => Ok l | None => Err RuntimeError end.

(** list element l[i] with Python indexing *)
Definition lnth {V} (l : list V) (i : Z) : res V :=
  do k <- py_idx (Z.of_nat (length l)) i;
  match nth_error l (Z.to_nat k) with Some v => Ok v | None => Err IndexError end.

Section calc.
Context (twopi : Q) (blur_3_1 blur_2_2 : img Q -> img Q) (cubic : img Q -> Q -> img Q)
        (fmetric : img Q -> img Q -> Q) (corr : img Q -> img Q -> Q).

(** ** calculation.py:46-96; [twopi] is the float 2.0 * np.pi.
    int(np.ceil((height - 1) / 2.0)) is (height / 2) in integers. *)
Definition drop_rows (height : Z) (hor_drop : option Q) : Z :=
  match hor_drop with
  | None => Z.min 20 (Qtrunc ((1#20) * inject_Z height))
  | Some d => clipZ (Qtrunc d) 1 (height / 3)
  end.
Definition drop_cols (width : Z) (ver_drop : option Q) : Z :=
  match ver_drop with None => 1 | Some d => clipZ (Qtrunc d) 1 (width / 3) end.
Definition wedge_num (height width : Z) (radius : Q) (i : Z) : Z :=
  let du := (1 / inject_Z width)%Q in
  let dv := ((inject_Z height - 1) / (inject_Z height * twopi))%Q in
  Qceiling ((inject_Z (i - height / 2) * dv / radius) / du).
Definition make_inverse_double_wedge_mask (height width : Z) (radius : Q) (hor_drop ver_drop : option Q) : img Q :=
  let ndrop := drop_rows height hor_drop in
  let vdrop := drop_cols width ver_drop in
  let yc := height / 2 in let xc := width / 2 in
  mkimg height width (fun i j =>
    let num := wedge_num height width radius i in
    let p1 := clipZ (Z.min (- num + xc) (num + xc)) 0 (width - 1) in
    let p2 := clipZ (Z.max (- num + xc) (num + xc)) 0 (width - 1) in
    (* later assignments win: columns, then rows, then the wedge *)
    if (py_adj width (xc - vdrop) <=? j) && (j <? py_adj width (xc + vdrop + 1)) then 0%Q
    else if (py_adj height (yc - ndrop) <=? i) && (i <? py_adj height (yc + ndrop + 1)) then 0%Q
    else if (p1 <=? j) && (j <=? p2) then 1%Q else 0%Q).

(** ** calculation.py:99-144 *)
(** np.roll(m, s, axis=1) *)
Definition roll_cols (m : img Q) (s : Z) : img Q := mkimg (nrow m) (ncol m) (fun i j => px m i ((j - s) mod ncol m)).
(** m[:, :s] = c[:, :s]  and  m[:, s:] = c[:, s:] *)
Definition set_left (m c : img Q) (s : Z) : img Q :=
  mkimg (nrow m) (ncol m) (fun i j => if j <? py_adj (ncol m) s then px c i j else px m i j).
Definition set_right (m c : img Q) (s : Z) : img Q :=
  mkimg (nrow m) (ncol m) (fun i j => if py_adj (ncol m) s <=? j then px c i j else px m i j).
(** the image whose spectrum is measured *)
Definition center_stack (center : Q) (sino_180 sino_flip sino_comp : img Q) : img Q :=
  let center_flip := ((inject_Z (ncol sino_180) - 1) / 2)%Q in
  let shift_col := (2 * (center - center_flip))%Q in
  if Qeq_bool (Qabs (shift_col - inject_Z (Qfloor shift_col))) 0 then
    let s := Qtrunc shift_col in
    let sino_shift := roll_cols sino_flip s in
    vstack sino_180 (if 0 <=? s then set_left sino_shift sino_comp s else set_right sino_shift sino_comp s)
  else
    let sino_shift := cubic sino_flip shift_col in
    vstack sino_180
      (if Qle_bool 0 shift_col then set_left sino_shift sino_comp (Qceiling shift_col)
       else set_right sino_shift sino_comp (Qfloor shift_col)).
Definition calculate_center_metric (center : Q) (sino_180 sino_flip sino_comp mask : img Q) : Q :=
  fmetric (center_stack center sino_180 sino_flip sino_comp) mask.

(** ** calculation.py:147-208 (warnings are not modelled; [order] is the schedule of the parallel branch,
    the ncore = 1 branch is the schedule 0, 1, 2, ...) *)
Definition coarse_search_cor (sino0 : img Q) (start stop ratio : Q) (denoise : bool)
    (hor_drop ver_drop : option Q) (order : list Z) : res Z :=
  let sino := if denoise then blur_3_1 sino0 else sino0 in
  let top := inject_Z (ncol sino - 1) in
  let start_cor := Qtrunc (clipQ start 0 top) in
  let stop_cor := Qtrunc (clipQ stop 0 top) in
  let list_cor := prange start_cor (stop_cor + 1) in
  let num := Z.of_nat (length list_cor) in
  let mask := make_inverse_double_wedge_mask (2 * nrow sino) (ncol sino) ((1#2) * ratio * inject_Z (ncol sino))
                hor_drop ver_drop in
  do metrics <- run_list (fun i => calculate_center_metric (inject_Z (nth (Z.to_nat i) list_cor 0))
                                     sino (ifliplr sino) (iflipud sino) mask) num order;
  do min_pos <- argminQ metrics;
  lnth list_cor min_pos.

(** np.arange(a, b, step): ceil((b - a) / step) points; step 0 is an error *)
Definition arangeQ (a b step : Q) : res (list Q) :=
  if Qeq_bool step 0 then Err ZeroDivisionError
  else Ok (map (fun k => (a + inject_Z k * step)%Q) (zrange 0 (Qceiling ((b - a) / step)))).
(** ** calculation.py:211-264 *)
Definition fine_search_cor (sino0 : img Q) (start radius step ratio : Q) (denoise : bool)
    (hor_drop ver_drop : option Q) (order : list Z) : res Q :=
  let sino := if denoise then blur_2_2 sino0 else sino0 in
  do offs <- arangeQ (- radius) (radius + step) step;
  let list_cor := map (fun d => clipQ (start + d) 0 (inject_Z (ncol sino) - 1)) offs in
  let num := Z.of_nat (length list_cor) in
  let mask := make_inverse_double_wedge_mask (2 * nrow sino) (ncol sino) ((1#2) * ratio * inject_Z (ncol sino))
                hor_drop ver_drop in
  do metrics <- run_list (fun i => calculate_center_metric (nth (Z.to_nat i) list_cor 0%Q)
                                     sino (ifliplr sino) (iflipud sino) mask) num order;
  do min_pos <- argminQ metrics;
  lnth list_cor min_pos.

(** ** calculation.py:267-293 (factors already int) *)
Definition downsample_cor (image : img Q) (f0 f1 : Z) : img Q :=
  let f0 := clipZ f0 1 (nrow image / 2) in
  let f1 := clipZ f1 1 (ncol image / 2) in
  mkimg (nrow image / f0) (ncol image / f1) (fun i j =>
    qmean f0 (fun a => qmean f1 (fun b => px image (i * f0 + a) (j * f1 + b)))).

(** ** calculation.py:296-368 *)
Definition find_center_vo (sino : img Q) (start stop : option Q) (step radius ratio : Q) (dsp : bool)
    (hor_drop ver_drop : option Q) (order1 order2 : list Z) : res Q :=
  let nc := ncol sino in let nr := nrow sino in
  let start := match start with Some s => s | None => inject_Z (nc / 2 - nc / 16) end in
  let stop := match stop with Some s => s | None => inject_Z (nc / 2 + nc / 16) end in
  if dsp then
    let dsp_col := if 1000 <? nc then Qfloor (inject_Z nc / 640) else 1 in
    let dsp_row := if 1000 <? nr then Qfloor (inject_Z nr / 900) else 1 in
    let sino_dns := blur_3_1 sino in
    let sino_dsp := downsample_cor sino_dns dsp_row dsp_col in
    let radius := Qmaxb radius (inject_Z dsp_col) in
    let off_set := ((1#2) * inject_Z dsp_col)%Q in
    let start := inject_Z (Qfloor (start / inject_Z dsp_col)) in
    let stop := inject_Z (Qceiling (stop / inject_Z dsp_col)) in
    do raw_cor <- coarse_search_cor sino_dsp start stop ratio false hor_drop ver_drop order1;
    fine_search_cor sino (inject_Z (raw_cor * dsp_col) + off_set) radius step ratio true hor_drop ver_drop order2
  else
    do raw_cor <- coarse_search_cor sino start stop ratio true hor_drop ver_drop order1;
    fine_search_cor sino (inject_Z raw_cor) radius step ratio true hor_drop ver_drop order2.

(** ** calculation.py:371-408.  np.polyfit of degree 2: through 3 equidistant points it is the
    interpolating parabola, through 5 the least-squares one (both in closed form; see [P_calculation] for
    the proof that they are).  With a wrong number of points polyfit raises and the except branch is taken. *)
Definition polyfit5_a (l : list Q) : Q :=
  match l with
  | [y0; y1; y2; y3; y4] => ((2 * y0 - y1 - 2 * y2 - y3 + 2 * y4) / 14)%Q
  | _ => 0%Q
  end.
(** coefficients a, b of the parabola a x^2 + b x + c through (x-1,y0) (x,y1) (x+1,y2) *)
Definition polyfit3 (x : Q) (l : list Q) : Q * Q :=
  match l with
  | [y0; y1; y2] => let a := ((y0 - 2 * y1 + y2) / 2)%Q in (a, ((y2 - y0) / 2 - 2 * a * x)%Q)
  | _ => (0, 0)%Q
  end.
Definition lslice {V} (l : list V) (a b : Z) : list V :=
  let n := Z.of_nat (length l) in
  firstn (Z.to_nat (slen n a b)) (skipn (Z.to_nat (py_adj n a)) l).
Definition calculate_curvature (list_metric : list Q) : res (Q * Q) :=
  let radi := 2 in
  let num_metric := Z.of_nat (length list_metric) in
  do am <- argminQ list_metric;
  let min_pos := clipZ am radi (num_metric - radi - 1) in
  let list1 := lslice list_metric (min_pos - radi) (min_pos + radi + 1) in
  let afact1 := polyfit5_a list1 in
  let list2 := lslice list_metric (min_pos - 1) (min_pos + 2) in
  let '(afact2, bfact2) := polyfit3 (inject_Z min_pos) list2 in
  let curvature := Qabs afact1 in
  if negb (Qeq_bool afact2 0) then
    let num := (- bfact2 / (2 * afact2))%Q in
    if Qle_bool (inject_Z (min_pos - 1)) num && Qle_bool num (inject_Z (min_pos + 1))
    then Ok (curvature, num) else Ok (curvature, inject_Z min_pos)
  else Ok (curvature, inject_Z min_pos).

(** ** calculation.py:432-455 *)
Definition cols (m : img Q) (a b : Z) : img Q := islice m 0 (nrow m) a b.
Definition weigh (f : Z -> Q) (m : img Q) : img Q := mkimg (nrow m) (ncol m) (fun i j => (px m i j * f j)%Q).
Definition scale_rows (f : Z -> Q) (m : img Q) : img Q := mkimg (nrow m) (ncol m) (fun i j => (px m i j * f i)%Q).
Definition img_add (a b : img Q) : img Q := mkimg (nrow a) (ncol a) (fun i j => (px a i j + px b i j)%Q).
Definition row_abs_mean (m : img Q) (i : Z) : Q := qmean (ncol m) (fun j => Qabs (px m i j)).
Definition calc_overlap_metric (mat1 : img Q) (pos offset : Z) (use_overlap : bool) (side : Z) (norm : bool)
    (win_width : Z) (mat2_roi mat2_roi_wei : img Q) : Q :=
  let down := ramp_down win_width in let up := fun k => (1 - ramp_down win_width k)%Q in
  let roi := cols mat1 (pos - offset) (pos + offset) in
  let wei := weigh (if side =? 1 then down else up) roi in
  let fact_ := fun i => (row_abs_mean mat2_roi i / row_abs_mean roi i)%Q in
  let roi' := if norm then scale_rows fact_ roi else roi in
  let wei' := if norm then scale_rows fact_ wei else wei in
  if use_overlap then
    let comb := img_add wei' mat2_roi_wei in
    ((corr roi' mat2_roi + corr roi' comb + corr mat2_roi comb) / 3)%Q
  else corr roi' mat2_roi.

(** ** calculation.py:458-540 *)
Definition search_offset (ncol1 ncol2 win_width : Z) : Z := clipZ win_width 6 (Z.min ncol1 ncol2 / 2 - 1) / 2.
Definition search_overlap (mat1_0 mat2_0 : img Q) (win_width side : Z) (denoise norm use_overlap : bool)
    (order : list Z) : res (list Q * Z) :=
  let mat1 := if denoise then blur_2_2 mat1_0 else mat1_0 in
  let mat2 := if denoise then blur_2_2 mat2_0 else mat2_0 in
  if negb (nrow mat1 =? nrow mat2) then Err ValueError else
  let offset := search_offset (ncol mat1) (ncol mat2) win_width in
  let ww := 2 * offset in
  if ww <? 0 then Err ValueError (* np.linspace with a negative number of points *) else
  let down := ramp_down ww in let up := fun k => (1 - ramp_down ww k)%Q in
  let mat2_roi := if side =? 1 then cols mat2 0 ww else cols mat2 (ncol mat2 - ww) (ncol mat2) in
  let mat2_roi_wei := weigh (if side =? 1 then up else down) mat2_roi in
  let list_pos := prange offset (ncol mat1 - offset) in
  let nump := Z.of_nat (length list_pos) in
  do list_metric <- run_list (fun i => calc_overlap_metric mat1 (nth (Z.to_nat i) list_pos 0) offset use_overlap
                                         side norm ww mat2_roi mat2_roi_wei) nump order;
  do k <- argminQ list_metric;
  do mn <- lnth list_metric k; (* np.min *)
  Ok (if negb (Qeq_bool mn 0) then map (fun v => (v / mn)%Q) list_metric else list_metric, offset).

(** ** calculation.py:543-621; [order] is the schedule of each parallel search *)
Definition find_overlap (mat1 mat2 : img Q) (win_width : Z) (side : option Z) (denoise norm use_overlap : bool)
    (order order' : list Z) : res (Q * Z * Q) :=
  let ncol1 := ncol mat1 in let ncol2 := ncol mat2 in
  let win_width := clipZ win_width 6 (Z.min ncol1 ncol2 / 2) in
  let half := inject_Z (win_width / 2) in
  let overlap_1 p := (inject_Z ncol1 - p + half)%Q in
  let overlap_0 p := (p + half)%Q in
  let one s := do lo <- search_overlap mat1 mat2 win_width s denoise norm use_overlap order;
               do cp <- calculate_curvature (fst lo);
               Ok (snd cp + inject_Z (snd lo))%Q in
  let both :=
    (* the two boolean flags are passed in the order norm, denoise *)
    do lo1 <- search_overlap mat1 mat2 win_width 1 norm denoise use_overlap order;
    do lo2 <- search_overlap mat1 mat2 win_width 0 norm denoise use_overlap order';
    do cp1 <- calculate_curvature (fst lo1);
    do cp2 <- calculate_curvature (fst lo2);
    let p1 := (snd cp1 + inject_Z (snd lo1))%Q in
    let p2 := (snd cp2 + inject_Z (snd lo2))%Q in
    if Qltb (fst cp2) (fst cp1) then Ok (overlap_1 p1, 1, p1) else Ok (overlap_0 p2, 0, p2) in
  match side with
  | Some s => if s =? 1 then do p <- one 1; Ok (overlap_1 p, s, p)
              else if s =? 0 then do p <- one 0; Ok (overlap_0 p, s, p)
              else both
  | None => both
  end.

(** ** calculation.py:624-668 *)
Fixpoint overlap_pairs (mats : list (img Q)) (f : img Q -> img Q -> res (Q * Z * Q)) : res (list (Q * Z * Q)) :=
  match mats with
  | a :: ((b :: _) as t) => do r <- f a b; do rs <- overlap_pairs t f; Ok (r :: rs)
  | _ => Ok []
  end.
Definition find_overlap_multiple (mats : list (img Q)) (win_width : Z) (side : option Z)
    (denoise norm use_overlap : bool) (order order' : list Z) : res (list (Q * Z * Q)) :=
  if 1 <? Z.of_nat (length mats) then
    overlap_pairs mats (fun a b => find_overlap a b win_width side denoise norm use_overlap order order')
  else Err ValueError.

(** ** calculation.py:671-724 *)
Definition find_center_360 (sino : img Q) (win_width : Z) (side : option Z) (denoise norm use_overlap : bool)
    (order order' : list Z) : res (Q * Q * Z * Q) :=
  let n180 := nrow sino / 2 + 1 in
  let top := islice sino 0 n180 0 (ncol sino) in
  let bot := ifliplr (islice sino (- n180) (nrow sino) 0 (ncol sino)) in
  do r <- find_overlap top bot win_width side denoise norm use_overlap order order';
  let '(overlap, s, pos) := r in
  let cor := (if s =? 0 then overlap / 2 - (1#2) else inject_Z (ncol sino) - overlap / 2 - (1#2))%Q in
  Ok (cor, overlap, s, pos).

(** ** calculation.py:831-901 (win_width and the integer chunk height given; 872-893 and 894-901) *)
Definition projection_rows (nr : Z) (chunk_height : Z) (start_row : option Z) : Z * Z :=
  let ch := clipZ chunk_height 1 (nr - 1) in
  let start := match start_row with
               | None => nr / 2 - ch / 2
               | Some r => clipZ r 0 (nr / 2 - ch / 2) end in
  (clipZ start 0 (nr - ch - 1), clipZ (start + ch) ch nr).
Definition find_center_projection (mat1 mat2_0 : img Q) (flip : bool) (win_width chunk_height : Z)
    (start_row : option Z) (denoise norm use_overlap : bool) (order order' : list Z) : res Q :=
  let mat2 := if flip then ifliplr mat2_0 else mat2_0 in
  let '(start, stop) := projection_rows (nrow mat1) chunk_height start_row in
  let roi m := islice m start stop 0 (ncol m) in
  do r <- find_overlap (roi mat1) (roi mat2) win_width None denoise norm use_overlap order order';
  let '(overlap, s, _) := r in
  Ok (if s =? 0 then overlap / 2 - 1 else inject_Z (ncol mat1) - overlap / 2 - 1)%Q.

(** ** calculation.py:743-799 after the Fourier part: [mat3] is the correlation map, (ty, tx) its maximum.
    np.unravel_index(argmax) is a parameter: any position of a maximum *)
Definition subpixel (x : Z) (l : list Q) : Q :=
  let '(a, b) := polyfit3 (inject_Z x) l in
  if negb (Qeq_bool a 0) then
    let num := (- b / (2 * a))%Q in
    if Qle_bool (inject_Z (x - 1)) num && Qle_bool num (inject_Z (x + 1)) then num else inject_Z x
  else inject_Z x.
Definition wrap_shift (n : Z) (t : Q) : Q :=
  if Qltb (inject_Z (n / 2)) t (* np.ceil((n-1)*0.5) = n / 2 *) then (- (inject_Z n - t))%Q else t.
Definition peak_shift (mat3 : img Q) (ty tx : Z) : res (Q * Q) :=
  let nr := nrow mat3 in let nc := ncol mat3 in
  do r <- py_idx nr ty; do c <- py_idx nc tx;
  do l <- py_idx nc (tx - 1); do d <- py_idx nc ((tx + 1) mod nc);
  do u <- py_idx nr (ty - 1); do e <- py_idx nr ((ty + 1) mod nr);
  let sx := subpixel tx [px mat3 r l; px mat3 r c; px mat3 r d] in
  let sy := subpixel ty [px mat3 u c; px mat3 r c; px mat3 e c] in
  Ok (wrap_shift nr sy, wrap_shift nc sx).
(** ** calculation.py:802-828 *)
Definition center_from_shift (nc : Z) (tx : Q) : Q := ((inject_Z nc - 1 + tx) * (1#2))%Q.
End calc.
