(** Model of the centre searches by slice metric: /repo/algotom/rec/reconstruction.py:1231-1458
    (_find_center_based_slice_metric, find_center_based_slice_metric) and
    /repo/algotom/rec/vertrec.py:1264-1428 (find_center_vertical_slice).
    "Reconstruct with this centre and score the slice" is a parameter: [score data candidates centre]; it may raise (the
    reconstruction rejects centres outside the data) and may depend on the list of candidates (the entropy metric is
    normalised with the slice of the mean candidate, 1330-1336).  Exact rationals. *)
From Verif Require Import Np M_utility M_conversion M_calculation M_recon.
From Coq Require Import QArith Qround.
From Coq Require Import List. Import ListNotations.
Open Scope Z_scope.

(** np.max of a list *)
Definition qmaximum (l : list Q) : Q := match l with [] => 0%Q | x :: t => fold_left Qmaxb t x end.
(** 1356-1358 = vertrec.py:1419-1422 *)
Definition opt_center (centers metrics : list Q) (invert : bool) : res Q :=
  let m := if invert then map (fun v => (qmaximum metrics - v)%Q) metrics else metrics in
  do k <- argminQ m;
  lnth centers k.
Section search.
Context {S : Type} (score score_zoom : S -> list Q -> Q -> res Q) (zoomed : S -> Q -> S).
(** _find_center_based_slice_metric, 1254-1362, with return_metric=False; [parallel]: the joblib branch (1341-1347) with
    completion order [order n] of the n tasks, otherwise the loop (1349-1355) *)
Definition slice_metric_search (sc : S -> list Q -> Q -> res Q) (s : S) (start stop step : Q) (invert parallel : bool) (order : Z -> list Z) : res Q :=
  do l <- arangeQ start stop step;
  match l with
  | [] => Err ValueError
  | _ =>
      do metrics <- (if parallel then
                       do r <- run_list (fun i => sc s l (nth (Z.to_nat i) l 0%Q)) (Z.of_nat (length l)) (order (Z.of_nat (length l)));
                       mapr (fun x => x) r
                     else mapr (sc s l) l);
      opt_center l metrics invert
  end.
(** find_center_based_slice_metric, 1365-1458 *)
Definition find_center_based_slice_metric (s : S) (start stop step radius zoom : Q) (invert parallel : bool) (order1 order2 : Z -> list Z) : res Q :=
  let zoom := clipQ zoom (1#100) 1 in
  let small := Qltb zoom 1 in
  let sz := if small then zoomed s zoom else s in
  let start := if small then (start * zoom)%Q else start in
  let stop := if small then (stop * zoom)%Q else stop in
  do coarse <- (if Qltb start stop then
                  do c <- slice_metric_search (if small then score_zoom else score) sz start (stop + 1) 1 invert parallel order1;
                  Ok (c / zoom)%Q
                else Ok (start / zoom)%Q);
  if Qeq_bool radius 0 then Ok coarse else
  let r := Qmaxb radius (step + 1 / zoom) in
  slice_metric_search score s (coarse - r) (coarse + r + step) step invert parallel order2.
(** find_center_vertical_slice, 1264-1428, with return_metric=False.  [integers]: start, stop and step are Python ints, so
    that list_metric = np.zeros_like(list_center) (1338) is an integer array and assignment truncates (1410) *)
Definition find_center_vertical_slice (s : S) (start stop step : Q) (invert integers : bool) : res Q :=
  do l <- arangeQ start (stop + step) step;
  do metrics <- mapr (fun c => do v <- score s l c; Ok (if integers then inject_Z (Qtrunc v) else v)) l;
  opt_center l metrics invert.
End search.
(** the columns kept by the mask of find_center_vertical_slice (1357-1362): np.min is taken twice *)
Definition search_mask_col (width : Z) (centers : list Q) (j : Z) : Q :=
  let mn := match centers with [] => 0%Q | x :: t => fold_left Qminb t x end in
  let rad := Qtrunc (Qminb mn (inject_Z width - mn)) in
  let pad_left := (width - 2 * rad) / 2 in
  if (pad_left <=? j) && (j <? pad_left + 2 * rad) then 1%Q else 0%Q.
(** the content of the caller's sinogram afterwards (1317-1324): without smoothing the array itself is changed.  In
    find_center_based_slice_metric this concerns the fine search (1450); the coarse one works on a copy (1429) *)
Definition metric_search_caller (sino : img Q) (sigma : Q) (apply_log fine : bool) : img Q :=
  if fine && apply_log && Qle_bool sigma 0 then mkimg (nrow sino) (ncol sino) (fun i j => fix_log (px sino i j)) else sino.
