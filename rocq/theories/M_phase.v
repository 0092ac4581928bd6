(** Model of algotom/prep/phase.py (parts over exact numbers: mirroring, windows, dark-field signal, alignment). *)
From Verif Require Import Np M_utility M_conversion M_correction M_calculation.
From Coq Require Import QArith Qround Qabs.
From Coq Require Import List. Import ListNotations.
Open Scope Z_scope.

(** ** phase.py:91-94 _double_image *)
Definition hstack (a b : img Q) : img Q :=
  mkimg (nrow a) (ncol a + ncol b) (fun i j => if j <? ncol a then px a i j else px b i (j - ncol a)).
Definition double_image (m : img Q) : img Q :=
  let mat1 := hstack m (ifliplr m) in vstack (iflipud mat1) mat1.
(** [height:, 0:width] (phase.py:260, 383) *)
Definition undouble (m : img Q) (height width : Z) : img Q := islice m height (nrow m) 0 width.

(** ** phase.py:312-326 _make_window_FC_method: (u, v, window) *)
Definition window_FC (height width : Z) : img Q * img Q * img Q :=
  let xcenter := width / 2 in let ycenter := height / 2 in
  let u := mkimg height width (fun i j => (inject_Z (j - xcenter) / inject_Z width)%Q) in
  let v := mkimg height width (fun i j => (inject_Z (i - ycenter) / inject_Z width)%Q) in
  let win := mkimg height width (fun i j =>
     if (i =? ycenter) && (j =? xcenter) then 0%Q else (1 / (px u i j * px u i j + px v i j * px v i j))%Q) in
  (u, v, win).
(** phase.py:384-387 and 473-476: correct_negative; [nmin] is np.min *)
Definition correct_negative (nmin : img Q -> Q) (m : img Q) : img Q :=
  if Qltb (nmin m) 0 then imap (fun v => (v - 2 * nmin m)%Q) m else m.

(** ** phase.py:691-707; [std] is np.std *)
Definition tdf_values (std : img Q -> Q) (ref sam : img Q) : Q * Q :=
  let num1 := qmean2 (nrow ref) (ncol ref) (px ref) in
  let num2 := qmean2 (nrow sam) (ncol sam) (px sam) in
  if negb (Qeq_bool num1 0) && negb (Qeq_bool num2 0) then
    let num := std ref in
    ((num2 / num1)%Q, if negb (Qeq_bool num 0) then ((num1 / num2) * (std sam / num))%Q else 1%Q)
  else (1%Q, 1%Q).

Section darkfield.
(** [rnd] is int(np.round(.)), [f] the pair (transmission, dark) of two windows: tdf_values std *)
Context (rnd : Q -> Z) (f : img Q -> img Q -> Q * Q).
(** stack[k, i - radi:i + radi1, j - radi:j + radi1] *)
Definition window (s : vol Q) (k i j radi : Z) : img Q :=
  islice (vol_img s k) (i - radi) (i + radi + 1) (j - radi) (j + radi + 1).
(** the values of the pixel (i, j) before averaging, phase.py:740-750 *)
Definition tdf_pixel (ref sam : vol Q) (xs ys : img Q) (radi i j k : Z) : Q * Q :=
  let i1 := i + rnd (px ys i j) in let j1 := j + rnd (px xs i j) in
  f (window ref k i j radi) (window sam k i1 j1 radi).
(** ** phase.py:711-756 for 3D stacks (2D input is expanded to one image, lines 807-809); win_size odd *)
Definition tdf_seq (ref sam : vol Q) (xs ys : img Q) (win_size margin : Z) : img Q * img Q :=
  let radi := win_size / 2 in
  let start := radi + margin in
  let h := hei ref in let w := wid ref in
  let at_ := fun (p : Q * Q -> Q) i2 j2 => qmean (dep ref) (fun k => p (tdf_pixel ref sam xs ys radi (i2 + start) (j2 + start) k)) in
  (mkimg (h - 2 * start) (w - 2 * start) (at_ fst), mkimg (h - 2 * start) (w - 2 * start) (at_ snd)).
(** rows a:b of a stack / an image *)
Definition vol_rows_of (s : vol Q) (a b : Z) : vol Q :=
  mkvol (dep s) (slen (hei s) a b) (wid s) (fun k i j => vx s k (py_adj (hei s) a + i) j).
Definition img_rows_of (m : img Q) (a b : Z) : img Q := islice m a b 0 (ncol m).
(** out[b:e] = r *)
Definition set_rows (out : img Q) (b e : Z) (r : img Q) : img Q :=
  let a := py_adj (nrow out) b in
  mkimg (nrow out) (ncol out) (fun i j => if (a <=? i) && (i <? py_adj (nrow out) e) then px r (i - a) j else px out i j).
(** np.pad(m, pad, mode="edge") *)
Definition pad_edge (m : img Q) (pad : Z) : img Q :=
  mkimg (nrow m + 2 * pad) (ncol m + 2 * pad) (fun i j =>
    px m (clipZ (i - pad) 0 (nrow m - 1)) (clipZ (j - pad) 0 (ncol m - 1))).
(** ** phase.py:790-830; [order] is the completion order of the workers; margin given *)
Definition dark_field_margin (ref sam : vol Q) (xs ys : img Q) (win_size0 margin ncore : Z) (order : list Z)
  : res (img Q * img Q) :=
  let h := hei ref in let w := wid ref in
  let win_size := 2 * (win_size0 / 2) + 1 in
  let radi := win_size / 2 in
  let pad := radi + margin in
  if (w <=? 2 * pad) || (h <=? 2 * pad) then Err ValueError else
  if ncore =? 0 then Err ZeroDivisionError else
  let chunk_size := (h - 2 * pad) / ncore in
  do p <- (if (ncore =? 1) || (chunk_size <? 20) then Ok (tdf_seq ref sam xs ys win_size margin)
           else
             do l <- array_split (h - 2 * pad) ncore;
             let b_e := map (fun c => (fst c + pad, fst c + snd c + pad)) l in
             let ntime := Z.of_nat (length b_e) in
             do results <- run_list (fun n => let '(b, e) := nth (Z.to_nat n) b_e (0, 0) in
                  tdf_seq (vol_rows_of ref (b - pad) (e + pad)) (vol_rows_of sam (b - pad) (e + pad))
                          (img_rows_of xs (b - pad) (e + pad)) (img_rows_of ys (b - pad) (e + pad)) win_size margin) ntime order;
             let ones := mkimg (h - 2 * pad) (w - 2 * pad) (fun _ _ => 1%Q) in
             Ok (fold_left (fun td br => let '((b, e), (t, d)) := br in
                     (set_rows (fst td) (b - pad) (e - pad) t, set_rows (snd td) (b - pad) (e - pad) d))
                   (combine b_e results) (ones, ones)));
  Ok (pad_edge (fst p) pad, pad_edge (snd p) pad).
(** phase.py:795-796; [amaxabs] is np.max(np.abs(.)) *)
Definition get_transmission_dark_field_signal (amaxabs : img Q -> Q) (ref sam : vol Q) (xs ys : img Q) (win_size : Z)
    (margin : option Z) (ncore : Z) (order : list Z) : res (img Q * img Q) :=
  let m := match margin with Some m => m | None => Qtrunc (Qmaxb (amaxabs xs) (amaxabs ys)) end in
  dark_field_margin ref sam xs ys win_size m ncore order.
End darkfield.

(** ** phase.py:637-687; [shift m dy dx] is ndi.shift(m, (dy, dx), mode=mode), stacks as lists of images *)
Definition align_one (shift : img Q -> Q -> Q -> img Q) (ref sam : img Q) (sr : Q * Q) (ss : option (Q * Q)) : img Q * img Q :=
  let ref1 := shift ref (- snd sr)%Q (- fst sr)%Q in
  match ss with
  | Some s => (shift ref1 (snd s) (fst s), shift sam (snd s) (fst s))
  | None => (ref1, sam)
  end.
Definition align_image_stacks shift (ref sam : list (img Q)) (sr : list (Q * Q)) (ss : option (list (Q * Q)))
  : res (list (img Q * img Q)) :=
  if negb (length ref =? length sam)%nat then Err ValueError
  else if negb (length ref =? length sr)%nat then Err ValueError
  else match ss with
       | None => Ok (map (fun p => align_one shift (fst (fst p)) (snd (fst p)) (snd p) None) (combine (combine ref sam) sr))
       | Some l => if negb (length ref =? length l)%nat then Err ValueError
                   else Ok (map (fun p => align_one shift (fst (fst (fst p))) (snd (fst (fst p))) (snd (fst p)) (Some (snd p)))
                              (combine (combine (combine ref sam) sr) l))
       end.
