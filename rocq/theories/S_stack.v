(** Specifications for loading images and stacks of images (C108, C109). *)
From Coq Require Import QArith.
From Verif Require Import Np M_io_load M_stack.
Open Scope Z_scope.

(** the sum of a list *)
Definition total (l : list Q) : Q := fold_right Qplus 0%Q l.
Definition average_of (l : list Q) : Q := (total l / inject_Z (Z.of_nat (length l)))%Q.
(** position [k] counted from the end if negative, as in Python *)
Definition counted (n k : Z) : option Z := if (0 <=? k) && (k <? n) then Some k else if (- n <=? k) && (k <? 0) then Some (n + k) else None.
(** [m] is the image asked for: the average of all images of the source, or the one with index [idx]; a 2D dataset is its only image *)
Definition image_asked (average : bool) (idx : option Z) (s : source) (h w : Z) (m : Z -> Z -> Q) : Prop :=
  match s with
  | Folder files => files <> [] /\ (forall f, In f files -> nrow f = h /\ ncol f = w) /\
      if average then forall i j, (m i j == average_of (map (fun f => px f i j) files))%Q
      else exists k q f, idx = Some k /\ counted (Z.of_nat (length files)) k = Some q /\ nth_error files (Z.to_nat q) = Some f /\ forall i j, m i j = px f i j
  | Data3 v => hei v = h /\ wid v = w /\ 0 < dep v /\
      if average then forall i j, (m i j == average_of (map (fun k => vx v k i j) (zrange 0 (dep v))))%Q
      else exists k q, idx = Some k /\ counted (dep v) k = Some q /\ forall i j, m i j = vx v q i j
  | Data2 f => nrow f = h /\ ncol f = w /\ forall i j, m i j = px f i j
  | NoSource => False
  end.
(** the value of a pixel [x] with the fields [F], [D] and the divisor [den]: (x - dark) / den with a flat field, x - dark without;
    no dark field is a dark field of 0 *)
Definition field_value (x : Q) (dark : option (img Q)) (i j : Z) : Q := match dark with Some D => (x - px D i j)%Q | None => (x - 0)%Q end.
Definition corrected (flat dark : option (img Q)) (den : Z -> Z -> Q) (x : Q) (i j : Z) : Q :=
  match flat with Some _ => (field_value x dark i j / den i j)%Q | None => field_value x dark i j end.
(** [den] is flat - dark, with the mean over the h x w window at (a, b) where that is zero *)
Definition divisor_of (F : img Q) (dark : option (img Q)) (a b h w : Z) (den : Z -> Z -> Q) : Prop :=
  let d i j := field_value (px F i j) dark i j in
  forall i j, a <= i < a + h -> b <= j < b + w ->
    (~ (d i j == 0)%Q -> (den i j == d i j)%Q) /\ ((d i j == 0)%Q -> (den i j == qmean2 h w (fun y x => d (a + y)%Z (b + x)%Z))%Q).
(** [v] is [u] with every zero replaced by the mean of [u] *)
Definition zeros_replaced (u v : vol Q) : Prop :=
  dep v = dep u /\ hei v = hei u /\ wid v = wid u /\
  let mean := (qsum (dep u) (fun k => qsum2 (hei u) (wid u) (vx u k)) / inject_Z (dep u * hei u * wid u))%Q in
  forall k i j, 0 <= k < dep u -> 0 <= i < hei u -> 0 <= j < wid u ->
    (~ (vx u k i j == 0)%Q -> (vx v k i j == vx u k i j)%Q) /\ ((vx u k i j == 0)%Q -> (vx v k i j == mean)%Q).
(** field given as an array of the shape h x w that is not taken for a stack of three images (C13) *)
Definition plain_field (h w : Z) (f : option (img Q)) : Prop := match f with Some m => nrow m = h /\ ncol m = w /\ h <> 3 | None => True end.
Definition as_array (f : option (img Q)) : option ndarr := match f with Some m => Some (A2 m) | None => None end.
Definition valid_crop (h w : Z) (crop : Z * Z * Z * Z) : Prop :=
  let '(ct, cb, cl, cr) := crop in 0 <= ct /\ 0 <= cb /\ 0 <= cl /\ 0 <= cr /\ ct + cb < h /\ cl + cr < w.
(** the stack of corrected images: image k comes from [m k], cropped *)
Definition corrected_stack (flat dark : option (img Q)) (h w : Z) (crop : Z * Z * Z * Z) (n : Z) (m : Z -> Z -> Z -> Q) (v : vol Q) : Prop :=
  let '(ct, cb, cl, cr) := crop in
  exists den, match flat with Some F => divisor_of F dark ct cl (h - ct - cb) (w - cl - cr) den | None => True end /\
  dep v = n /\ hei v = h - ct - cb /\ wid v = w - cl - cr /\
  forall k i j, 0 <= k < n -> 0 <= i < hei v -> 0 <= j < wid v ->
    (vx v k i j == corrected flat dark den (m k (ct + i)%Z (cl + j)%Z) (ct + i) (cl + j))%Q.
