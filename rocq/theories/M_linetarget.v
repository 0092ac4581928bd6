(** Model of make_line_target, algotom/util/simulation.py:178-243 (exact real arithmetic; the masks are those of M_simR). *)
From Coq Require Import Reals ZArith Bool.
From Verif Require Import Np M_phase_R M_simR.
From Coq Require Import List. Import ListNotations.
Open Scope Z_scope.

(** a bar: position of its centre and its width *)
Definition bar := (Z * Z)%type.
(** np.arange(a, b, -s) *)
Definition arange_down (a b s : Z) : list Z := map Z.opp (prange_step (- a) (- b) s).
(** the bars of one width on the right (205-217) and on the left (223-234) *)
Definition right_group (line_wid start stop : Z) : list bar :=
  if line_wid mod 2 =? 1 then map (fun x => (x, line_wid)) (prange_step start stop (2 * line_wid))
  else map (fun x => (x, line_wid - 1)) (prange_step start stop (2 * line_wid)) ++
       map (fun x => (x, 1)) (prange_step (start + line_wid / 2) stop (2 * line_wid)).
Definition left_group (line_wid start stop : Z) : list bar :=
  if line_wid mod 2 =? 1 then map (fun x => (x, line_wid)) (arange_down start stop (2 * line_wid))
  else map (fun x => (x, line_wid - 1)) (arange_down start stop (2 * line_wid)) ++
       map (fun x => (x, 1)) (arange_down (start - line_wid / 2) stop (2 * line_wid)).
(** the first loop (199-218): the bars and the last value of line_wid; [fuel] bounds the rounds (None: not finished) *)
Fixpoint right_loop (fuel : nat) (size line_wid start : Z) : option (list bar * Z) :=
  match fuel with
  | O => None
  | S fuel' =>
      let line_wid := line_wid + 1 in
      let stop := start + 3 * 2 * line_wid in
      if size / 2 - 6 <? stop then Some ([], line_wid)
      else match right_loop fuel' size line_wid (stop + 6) with
           | None => None
           | Some (bars, last) => Some (right_group line_wid start stop ++ bars, last)
           end
  end.
(** the second loop (221-236), line_wid = k *)
Fixpoint left_loop (k : nat) (start : Z) : list bar :=
  match k with
  | O => []
  | S k' => let line_wid := Z.of_nat k in let stop := start - 3 * 2 * line_wid in
            left_group line_wid start stop ++ left_loop k' (stop - 6)
  end.
(** mask += ... (207-234): the sum of the rectangles *)
Definition bar_mask (size line_hei : Z) (bars : list bar) : img R :=
  mkimg size size (fun i j => fold_right (fun b acc =>
    (px (make_rectangular_mask size (Tuple (IZR (fst b)) 0) (Tuple (IZR (snd b)) (IZR line_hei)) 0) i j + acc)%R) 0%R bars).
(** ** make_line_target *)
Definition make_line_target (size : Z) : res (img R) :=
  if size <? 0 then Err ValueError else                                             (* 192 np.zeros *)
  let line_hei := size / 16 in                                                      (* 194 *)
  match right_loop (Z.to_nat size + 1) size 0 (line_hei / 2 + 1) with               (* 197-218 *)
  | None => Err RuntimeError                                                        (* never: see the theorems *)
  | Some (bars, line_wid) =>
      let start := (- line_hei) / 2 - line_wid / 2 in                               (* 219 *)
      let m := bar_mask size line_hei (bars ++ left_loop (Z.to_nat (line_wid - 1)) start) in
      let mask := mkimg size size (fun i j => px m i j + px m j i)%R in             (* 237 *)
      let list_pos := filter (fun j => if Req_EM_T (px mask (size / 2) j) 1 then true else false) (zrange 0 size) in (* 238-239 *)
      match list_pos with
      | [] => Err IndexError                                                        (* also mask[0] of an empty array *)
      | first :: _ =>
          let d := IZR (last list_pos 0 - first + line_hei) in
          let circle := make_elliptic_mask size (Both 0) (Both d) 0 in              (* 240-242 *)
          Ok (mkimg size size (fun i j => px circle i j - px mask i j)%R)           (* 243 *)
      end
  end.
