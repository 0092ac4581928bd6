(** Model of algotom/prep/conversion.py. *)
From Verif Require Import Np M_utility.
From Coq Require Import QArith Qround.
From Coq Require Import List. Import ListNotations.
Open Scope Z_scope.

(** np.round to an integer: round half to even *)
Definition round_half_even (q : Q) : Z :=
  let f := Qfloor q in
  let r := (q - inject_Z f)%Q in
  if Qltb r (1#2) then f else if Qltb (1#2) r then f + 1
  else if Z.even f then f else f + 1.
(** int(np.round(overlap + 1.0e-3)) (conversion.py:109, 176, 362, 435) *)
Definition overlap_to_int (ov : Q) : Z := round_half_even (ov + (1#1000)).

(** np.linspace(1.0, 0.0, n)[k] and np.linspace(0.0, 1.0, n)[k] (n = 1 gives the first end) *)
Definition ramp_down (n k : Z) : Q := if n =? 1 then 1%Q else (1 - inject_Z k / inject_Z (n - 1))%Q.
Definition ramp_up01 (n k : Z) : Q := if n =? 1 then 0%Q else (inject_Z k / inject_Z (n - 1))%Q.

(** m[:, a:b] = f(m[:, a:b], s) : the right-hand side must have the width of the slice, or width 1
    (broadcast); otherwise ValueError.  Rows are equal in all uses. *)
Definition set_cols (f : Q -> Q -> Q) (m : img Q) (a b : Z) (s : img Q) : res (img Q) :=
  let w := slen (ncol m) a b in
  let a' := py_adj (ncol m) a in
  if (w =? ncol s) || (ncol s =? 1) then
    Ok (mkimg (nrow m) (ncol m) (fun i j =>
          let k := j - a' in
          if (0 <=? k) && (k <? w) then f (px m i j) (px s i (if w =? ncol s then k else 0)) else px m i j))
  else Err ValueError.
Definition assign (old new : Q) : Q := new.
(** a 1D list used as a row of a right-hand side (the value is the same for every image row) *)
Definition row_img (nr n : Z) (f : Z -> Q) : img Q := mkimg nr n (fun _ k => f k).
Definition ones_like (m : img Q) : img Q := mkimg (nrow m) (ncol m) (fun _ _ => 1%Q).

(** conversion.py:43-73 ([overlap] already an int; np.linspace rejects a negative number of points) *)
Definition make_weight_matrix (m1 m2 : img Q) (ov side : Z) : res (img Q * img Q) :=
  if ov <? 0 then Err ValueError else
  let down := ramp_down ov in let up := fun k => (1 - ramp_down ov k)%Q in
  if side =? 1 then
    (* "-overlap:" with overlap = 0 is "0:" *)
    do w1 <- set_cols assign (ones_like m1) (- ov) (ncol m1) (row_img (nrow m1) ov down);
    do w2 <- set_cols assign (ones_like m2) 0 ov (row_img (nrow m2) ov up);
    Ok (w1, w2)
  else
    do w2 <- set_cols assign (ones_like m2) (- ov) (ncol m2) (row_img (nrow m2) ov down);
    do w1 <- set_cols assign (ones_like m1) 0 ov (row_img (nrow m1) ov up);
    Ok (w1, w2).

(** an argument that may be None, a bool (passed by mistake) or an array *)
Inductive pyarg := PNone | PBool (b : bool) | PImg (m : img Q).

Definition img_mul (a b : img Q) : img Q := mkimg (nrow a) (ncol a) (fun i j => (px a i j * px b i j)%Q).
Definition img_scale (c : Q) (a : img Q) : img Q := imap (fun v => (v * c)%Q) a.
(** np.pad(m, ((0,0),(0,extra)), mode='edge') *)
Definition pad_right (m : img Q) (extra : Z) : img Q :=
  mkimg (nrow m) (ncol m + extra) (fun i j => px m i (Z.min j (ncol m - 1))).
Definition pad_left (m : img Q) (extra : Z) : img Q :=
  mkimg (nrow m) (ncol m + extra) (fun i j => px m i (Z.max (j - extra) 0)).
(** np.mean(m[:, a:b]) *)
Definition mean_cols (m : img Q) (a b : Z) : Q :=
  let s := islice m 0 (nrow m) a b in qmean2 (nrow s) (ncol s) (px s).
Definition zeros (r c : Z) : img Q := mkimg r c (fun _ _ => 0%Q).

Section with_shift.
(** scipy.ndimage.shift(m, (0, s), mode='nearest'): cubic spline interpolation, a parameter; it keeps
    the shape (assumed where used) *)
Context (shift : img Q -> Q -> img Q).

(** conversion.py:76-144.  [norm] is the test "norm is True".  A weight argument that is neither None
    nor an array of the right shape is a TypeError here (simplification; NumPy would broadcast). *)
Definition stitch_image (m1 m2 : img Q) (overlap : Q) (side : Z) (w1 w2 : pyarg) (norm : bool)
           (total_width : option Z) : res (img Q) :=
  let nrow1 := nrow m1 in let ncol1 := ncol m1 in
  let nrow2 := nrow m2 in let ncol2 := ncol m2 in
  let ov := overlap_to_int overlap in
  let sub := (overlap - inject_Z ov)%Q in
  let m1' := if Qeq_bool sub 0 then m1 else shift m1 (if side =? 1 then sub else - sub)%Q in
  let m2' := if Qeq_bool sub 0 then m2 else shift m2 (if side =? 1 then - sub else sub)%Q in
  if negb (nrow1 =? nrow2) then Err ValueError else
  do w <- match w1, w2 with
          | PNone, _ | _, PNone => make_weight_matrix m1' m2' ov side
          | PImg a, PImg b => Ok (a, b)
          | _, _ => Err TypeError
          end;
  let total0 := ncol1 + ncol2 - ov in
  let total := match total_width with Some t => if t <? total0 then total0 else t | None => total0 end in
  if total0 <? 0 then Err ValueError else
  do comb <-
    (if side =? 1 then
       let m2'' := if norm then img_scale (mean_cols m1' (- ov) ncol1 / mean_cols m2' 0 ov) m2' else m2' in
       do c1 <- set_cols assign (zeros nrow1 total0) 0 ncol1 (img_mul m1' (fst w));
       set_cols Qplus c1 (ncol1 - ov) total0 (img_mul m2'' (snd w))
     else
       let m2'' := if norm then img_scale (mean_cols m1' 0 ov / mean_cols m2' (- ov) ncol2) m2' else m2' in
       do c1 <- set_cols assign (zeros nrow1 total0) 0 ncol2 (img_mul m2'' (snd w));
       set_cols Qplus c1 (ncol2 - ov) total0 (img_mul m1' (fst w)));
  Ok (if total0 <? total then pad_right comb (total - total0) else comb).

(** "list_mask[a:b] = 1" then piecewise-linear refill of the masked columns (conversion.py:199-211,
    219-231); same interpolator as interpolate_inside_stripe *)
Definition refill (m : img Q) (a b : Z) : res (img Q) :=
  let a' := py_adj (ncol m) a in let b' := py_adj (ncol m) b in
  let good := fun j => negb ((a' <=? j) && (j <? b')) in
  if (nrow m <? 2) || (Z.of_nat (length (filter good (zrange 0 (ncol m)))) <? 2) then Err ValueError
  else Ok (mkimg (nrow m) (ncol m)
             (fun i j => if good j then px m i j else lin_interp good (ncol m) (px m i) j)).

(** conversion.py:147-235 *)
Definition join_image (m1 m2 : img Q) (joint : Q) (side : Z) (norm : bool) (total_width : option Z)
  : res (img Q) :=
  let nrow1 := nrow m1 in let ncol1 := ncol m1 in
  let nrow2 := nrow m2 in let ncol2 := ncol m2 in
  let g := overlap_to_int joint in
  let sub := (joint - inject_Z g)%Q in
  let m1' := if Qeq_bool sub 0 then m1 else shift m1 (if side =? 1 then sub else - sub)%Q in
  let m2' := if Qeq_bool sub 0 then m2 else shift m2 (if side =? 1 then - sub else sub)%Q in
  if negb (nrow1 =? nrow2) then Err ValueError else
  let total0 := ncol1 + ncol2 + g in
  let total := match total_width with Some t => if t <? total0 then total0 else t | None => total0 end in
  if total0 <? 0 then Err ValueError else
  do comb <-
    (if side =? 1 then
       let m2'' := if norm then img_scale (mean_cols m1' (-3) ncol1 / mean_cols m2' 0 3) m2' else m2' in
       do c1 <- set_cols assign (zeros nrow1 total0) 0 ncol1 m1';
       do c2 <- set_cols Qplus c1 (ncol1 + g) total0 m2'';
       refill c2 (ncol1 - 2) (ncol1 + g + 3)
     else
       let m2'' := if norm then img_scale (mean_cols m1' 0 3 / mean_cols m2' (-3) ncol2) m2' else m2' in
       do c1 <- set_cols assign (zeros nrow1 total0) 0 ncol2 m2'';
       do c2 <- set_cols Qplus c1 (ncol2 + g) total0 m1';
       refill c2 (ncol2 - 2) (ncol2 + g + 3));
  Ok (if total0 <? total then pad_right comb (total - total0) else comb).

(** conversion.py:238-274.  Line 265 passes [norm] as the 5th positional argument of stitch_image,
    which is wei_mat1; wei_mat2 is None and norm keeps its default True. *)
Fixpoint stitch_loop (comb : img Q) (mats : list (img Q)) (ovs : list (Q * Z)) (norm : bool) : res (img Q) :=
  match mats with
  | [] => Ok comb
  | m :: ms =>
      match ovs with
      | [] => Err IndexError
      | (ov, side) :: os =>
          do c <- stitch_image comb m ov side (PBool norm) PNone true None;
          stitch_loop c ms os norm
      end
  end.
Definition stitch_image_multiple (mats : list (img Q)) (ovs : list (Q * Z)) (norm : bool)
           (total_width : option Z) : res (img Q) :=
  match mats with
  | [] => Err IndexError            (* np.copy(list_mat[0]), line 261 *)
  | [_] => Err ValueError
  | m :: ms =>
      do c <- stitch_loop m ms ovs norm;
      Ok (match total_width with
          | Some t => if ncol c <? t then pad_right c (t - ncol c) else c
          | None => c end)
  end.
(** conversion.py:277-315 (norm is the 5th positional argument of join_image: correct here) *)
Fixpoint join_loop (comb : img Q) (mats : list (img Q)) (gs : list (Q * Z)) (norm : bool) : res (img Q) :=
  match mats with
  | [] => Ok comb
  | m :: ms =>
      match gs with
      | [] => Err IndexError
      | (g, side) :: os =>
          do c <- join_image comb m g side norm None;
          join_loop c ms os norm
      end
  end.
Definition join_image_multiple (mats : list (img Q)) (gs : list (Q * Z)) (norm : bool)
           (total_width : option Z) : res (img Q) :=
  match mats with
  | [] | [_] => Err ValueError
  | m :: ms =>
      do c <- join_loop m ms gs norm;
      Ok (match total_width with
          | Some t => if ncol c <? t then pad_right c (t - ncol c) else c
          | None => c end)
  end.

(** centre argument: a number or an (overlap, side) tuple *)
Inductive cor_arg := CNum (c : Q) | CTup (ov : Q) (side : Z).
(** conversion.py:346-358, 425-434 *)
Definition cor_to_overlap (ncol : Z) (cor : cor_arg) : Q * Z :=
  match cor with
  | CTup ov side => (ov, side)
  | CNum c => if Qle_bool c ((inject_Z ncol - 1) * (1#2)) then ((2 * c + 1)%Q, 0)
              else ((2 * (inject_Z ncol - c) - 1)%Q, 1)
  end.
(** conversion.py:318-364 *)
Definition convert_sinogram_360_to_180 (sino : img Q) (cor : cor_arg) (w1 w2 : pyarg) (norm : bool)
           (total_width : option Z) : res (img Q * Q) :=
  let nr := nrow sino in let nc := ncol sino in
  let nrow_180 := nr / 2 + 1 in
  let top := islice sino 0 nrow_180 0 nc in
  let bot := ifliplr (islice sino (- nrow_180) nr 0 nc) in
  let '(ov, side) := cor_to_overlap nc cor in
  do s <- stitch_image top bot ov side w1 w2 norm total_width;
  Ok (s, (inject_Z nc - inject_Z (overlap_to_int ov) / 2 - (1#2))%Q).

(** conversion.py:367-392 *)
Definition vstack (a b : img Q) : img Q :=
  mkimg (nrow a + nrow b) (ncol a) (fun i j => if i <? nrow a then px a i j else px b (i - nrow a) j).
Definition convert_sinogram_180_to_360 (sino : img Q) (center : Q) : img Q :=
  let xcenter := ((inject_Z (ncol sino) - 1) / 2)%Q in
  let sx := (xcenter - center)%Q in
  let flip := shift (ifliplr (shift sino sx)) (- sx) in
  vstack sino (islice flip 1 (nrow flip) 0 (ncol flip)).

(** conversion.py:395-454 with apply_log=False (the logarithm is applied elementwise before; the
    function works on a copy or on the new array) *)
Definition extend_sinogram (sino0 : img Q) (cor : cor_arg) : res (img Q * Q) :=
  let nr := nrow sino0 in let nc := ncol sino0 in
  let '(overlap, side) := cor_to_overlap nc cor in
  let ov := overlap_to_int overlap in
  let sub := (overlap - inject_Z ov)%Q in
  if ov <? 0 then Err ValueError else                             (* np.linspace *)
  do padded <-
    (if side =? 1 then
       let s := if Qeq_bool sub 0 then sino0 else shift sino0 sub in
       do s' <- set_cols Qmult s (- ov) nc (row_img nr ov (ramp_down ov));
       if nc - ov <? 0 then Err ValueError else Ok (pad_right s' (nc - ov))
     else
       let s := if Qeq_bool sub 0 then sino0 else shift sino0 (- sub) in
       do s' <- set_cols Qmult s 0 ov (row_img nr ov (ramp_up01 ov));
       if nc - ov <? 0 then Err ValueError else Ok (pad_left s' (nc - ov)));
  Ok (imap (fun v => (2 * v)%Q) padded, (inject_Z nc - inject_Z ov / 2 - (1#2))%Q).
End with_shift.

(** ** Helical scans *)
(** calculation.py:904-935 (scan_type: true = "180", false = "360"; other values raise) *)
Definition calculate_reconstructable_height (y_start y_stop pitch : Q) (t180 : bool) : Q * Q :=
  if t180 then (y_start + pitch / 2, y_stop - pitch / 2)%Q else (y_start + pitch, y_stop - pitch)%Q.
(** Python's int(float) truncates towards zero *)
Definition Qtrunc (q : Q) : Z := if Qle_bool 0 q then Qfloor q else Qceiling q.
(** calculation.py:938-966 *)
Definition calculate_maximum_index (y_start y_stop pitch pixel : Q) (t180 : bool) : Z :=
  let '(y_s, y_e) := calculate_reconstructable_height y_start y_stop pitch t180 in
  Qtrunc ((y_e - y_s) / pixel) + 1.

(** tomo[i, r, left:right] *)
Definition vol_row (d : vol Q) (i r left right : Z) : res (vec Q) :=
  do i' <- py_idx (dep d) i; do r' <- py_idx (hei d) r;
  Ok (mkvec (slen (wid d) left right) (fun k => vx d i' r' (py_adj (wid d) left + k))).
Definition img_row (m : img Q) (r left right : Z) : res (vec Q) :=
  do r' <- py_idx (nrow m) r;
  Ok (mkvec (slen (ncol m) left right) (fun k => px m r' (py_adj (ncol m) left + k))).
(** one flat-corrected detector row (lines 556-559, 564-566); [blob r v] is the optional
    remove_blob_1d(v, mask[r, left:right]) (lines 560-562, 567-569) *)
Definition corrected_row (d : vol Q) (flat dark : img Q) (blob : Z -> vec Q -> res (vec Q))
           (i r left right : Z) : res (vec Q) :=
  do t <- vol_row d i r left right;
  do dk <- img_row dark r left right;
  do fl <- img_row flat r left right;
  blob r (mkvec (vlen t) (fun k => ((vat t k - vat dk k) / (vat fl k - vat dk k))%Q)).
(** lines 547-573: one output row *)
Definition helical_row (d : vol Q) (flat dark : img Q) blob (y_e y_pos y_step pixel fov : Q)
           (height crop_top left right i : Z) : res (vec Q) :=
  let j0 := ((y_e + fov - inject_Z i * y_step - y_pos) / pixel - 1)%Q in
  if Qltb j0 0 || Qle_bool (inject_Z height) j0 then Err ValueError else
  let j0 := clipQ j0 0 (inject_Z (height - 1)) in
  let jd := Qfloor j0 in let ju := Qceiling j0 in
  do down <- corrected_row d flat dark blob i (jd + crop_top) left right;
  if negb (ju =? jd) then
    do up <- corrected_row d flat dark blob i (ju + crop_top) left right;
    Ok (mkvec (vlen down) (fun k =>
      (vat down k * (inject_Z ju - j0) / inject_Z (ju - jd) +
       vat up k * (j0 - inject_Z jd) / inject_Z (ju - jd))%Q))
  else Ok down.
(** conversion.py:457-575.  [full] selects conversion.py:578-696 instead. [num_proj = 1] divides by
    zero (ZeroDivisionError). [angles] is a list of length depth unless given by the user. *)
Definition helical (full : bool) (index : Z) (d : vol Q) (num_proj : Z) (pixel y_start y_stop pitch : Q)
           (t180 : bool) (angles : vec Q) (flat dark : img Q) blob (crop : Z * Z * Z * Z)
  : res (list (vec Q) * vec Q) :=
  let '(ct, cb, cl, cr) := crop in
  let '(y_s, y_e) := calculate_reconstructable_height y_start y_stop pitch t180 in
  if negb full && ((index <? 0) || (calculate_maximum_index y_start y_stop pitch pixel t180 <? index))
  then Err ValueError else
  let left := cl in let right := wid d - cr in
  let height := hei d - cb - ct in
  if num_proj =? 1 then Err ZeroDivisionError else
  let fov := (pixel * inject_Z height)%Q in
  let y_step := (pitch / (2 * inject_Z (num_proj - 1)))%Q in
  if Qeq_bool y_step 0 then Err ZeroDivisionError else
  let num := if full then Qfloor (fov / y_step) - 1
             else if t180 then num_proj else 2 * (num_proj - 1) + 1 in
  let y_pos := (inject_Z (index - 1) * pixel + y_s)%Q in
  let i0 := Qceiling ((y_e - y_pos) / y_step) in
  if (i0 <? 0) || (dep d <=? i0) then Err ValueError else
  if full && (dep d <=? i0 + num) then Err ValueError else
  if (num <? 0) || (right - left <? 0) then Err ValueError else       (* np.zeros *)
  do rows <- mapr (helical_row d flat dark blob y_e y_pos y_step pixel fov height ct left right)
                  (zrange i0 num);
  Ok (rows, vslice angles i0 (i0 + num)).
