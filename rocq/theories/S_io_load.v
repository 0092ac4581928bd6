(** Reference semantics for indexing a 3D array (NumPy basic indexing). *)
From Verif Require Import Np M_io_load.
Open Scope Z_scope.
(** the positions selected by the Python slice s on an axis of length n: negative bounds count from
    the end, the walk goes from the start bound towards the stop bound (not reached), and only
    positions that exist are selected *)
Definition wrap (n x : Z) : Z := if x <? 0 then x + n else x.
Definition np_positions (n : Z) (s : slice) : list Z :=
  let step := match s_step s with None => 1 | Some k => k end in
  if 0 <? step then
    let lo := match s_start s with None => 0 | Some a => Z.max 0 (wrap n a) end in
    let hi := match s_stop s with None => n | Some b => wrap n b end in
    filter (fun x => (lo <=? x) && (x <? hi) && ((x - lo) mod step =? 0)) (zrange 0 n)
  else
    let lo := match s_start s with None => n - 1 | Some a => Z.min (n - 1) (wrap n a) end in
    let hi := match s_stop s with None => -1 | Some b => wrap n b end in
    filter (fun x => (x <=? lo) && (hi <? x) && ((lo - x) mod (- step) =? 0)) (rev (zrange 0 n)).
Definition vol_index {V} (a : vol V) (z y x : index) : res (nd V) :=
  do sz <- select (dep a) z; do sy <- select (hei a) y; do sx <- select (wid a) x;
  Ok (sel_map sz (fun k => sel_map sy (fun i => sel_map sx (fun j => Scal (vx a k i j))))).
Definition np_get {V} (a : vol V) (ix : emu_index) : res (nd V) :=
  match ix with
  | EInt i => vol_index a (IInt i) full full
  | ESlice s => vol_index a (ISlice s) full full
  | ETuple [z; y; x] => vol_index a z y x
  | ETuple [z; y] => vol_index a z y full
  | ETuple [z] => vol_index a z full full
  | ETuple [] => vol_index a full full full
  | ETuple _ => Err IndexError
  end.
(** the stack of images of one shape *)
Definition stacked {V} (files : list (img V)) (a : vol V) : Prop :=
  dep a = Z.of_nat (length files) /\ 0 <= hei a /\ 0 <= wid a /\
  forall k m, nth_error files k = Some m ->
    nrow m = hei a /\ ncol m = wid a /\ forall i j, px m i j = vx a (Z.of_nat k) i j.
