(** Specification vocabulary for gridrec_reconstruction and astra_reconstruction (C125, C126). *)
From Verif Require Import Np M_recon S_recon.
From Coq Require Import QArith String.
From Coq Require Import List. Import ListNotations.
Open Scope Z_scope.

(** the entry of a stack nearest to column k *)
Definition beyond_edge (w : Z) (row : Z -> Q) (k : Z) : Q := row (Z.min (Z.max k 0) (w - 1)).
(** dimensions and entries of a sinogram (one) or a stack of sinograms *)
Definition rows (a : arr) : Z := match a with A2 m => nrow m | A3 v => dep v end.
Definition cols (a : arr) : Z := match a with A2 m => ncol m | A3 v => wid v end.
Definition count (a : arr) : Z := match a with A2 _ => 1 | A3 v => hei v end.
Definition entry (a : arr) (i j k : Z) : Q := match a with A2 m => px m i k | A3 v => vx v i j k end.
Definition same_kind (a b : arr) : Prop := match a, b with A2 _, A2 _ => True | A3 _, A3 _ => True | _, _ => False end.
(** the values that are reconstructed *)
Definition logged (apply_log : bool) (neglog : Q -> Q) (q : Q) : Q :=
  if apply_log then neglog (if Qle_bool q 0 then 1%Q else q) else q.
(** the stack widened by l columns on the left and r on the right, the border columns continuing *)
Definition widened (apply_log : bool) (neglog : Q -> Q) (a : arr) (l r : Z) : vol Q :=
  mkvol (rows a) (count a) (cols a + l + r) (fun i j k => beyond_edge (cols a) (fun q => logged apply_log neglog (entry a i j q)) (k - l)).
(** the radius used: ratio 0 stands for the largest circle around the middle that the axis position allows *)
Definition used_ratio (nc : Z) (center : Q) (ratio : option Q) : option Q :=
  match ratio with
  | None => None
  | Some r => Some (if Qeq_bool r 0 then ((if Qle_bool center (inject_Z nc - center) then center else inject_Z nc - center) / ((1#2) * inject_Z nc))%Q else r)
  end.
(** a reconstruction of stacks that returns one square slice per sinogram *)
Definition square_slices (r : vol Q -> vol Q) : Prop := forall v, dep (r v) = hei v /\ hei (r v) = wid v /\ wid (r v) = wid v.
(** ... and works slice by slice *)
Definition one_by_one (r : vol Q -> vol Q) : Prop :=
  forall u v a b, in_rng (hei u) a -> in_rng (hei v) b -> dep u = dep v -> wid u = wid v ->
  (forall i k, in_rng (dep u) i -> in_rng (wid u) k -> vx u i a k = vx v i b k) ->
  forall y x, in_rng (wid u) y -> in_rng (wid u) x -> vx (r u) a y x = vx (r v) b y x.
(** a shift of the columns that is exact for whole pixels, the border columns continuing *)
Definition exact_shift (f : img Q -> Q -> img Q) : Prop :=
  (forall m d, nrow (f m d) = nrow m /\ ncol (f m d) = ncol m) /\
  (forall m d n, (d == inject_Z n)%Q -> forall i k, in_rng (nrow m) i -> in_rng (ncol m) k ->
     px (f m d) i k = beyond_edge (ncol m) (px m i) (k - n)).
(** the methods of astra, and the ones that exist only for a GPU *)
Definition known_cpu (m : string) : Prop := In m ["BP"; "FBP"; "SIRT"; "SART"; "ART"; "CGLS"]%string.
Definition known_gpu (m : string) : Prop := In m ["BP_CUDA"; "FBP_CUDA"; "SIRT_CUDA"; "SART_CUDA"; "CGLS_CUDA"; "EM_CUDA"]%string.
(** what astra is given for sinogram j: widened by p columns on both sides and moved so that the axis comes to the middle *)
Definition presented (shift : img Q -> Q -> img Q) (apply_log : bool) (neglog : Q -> Q) (a : arr) (center : Q) (p j : Z) : img Q :=
  shift (mkimg (rows a) (cols a + 2 * p) (fun i k => beyond_edge (cols a) (fun q => logged apply_log neglog (entry a i j q)) (k - p)))
    ((inject_Z (cols a + 2 * p) - 1) / 2 - (center + inject_Z p))%Q.
(** the filter is handed over for filtered back-projection only *)
Definition handed_filter (method filter_name : string) : option string :=
  if (String.eqb method "FBP_CUDA" || String.eqb method "FBP")%bool then Some filter_name else None.
(** the margin if none is given: 15 % of the width, at most 150 columns *)
Definition margin (nc : Z) (pad : option Z) : Z := match pad with None => Z.min (15 * nc / 100) 150 | Some p => Z.max p 0 end.
(** the algorithm that runs when [method] is asked for *)
Definition chosen (has_gpu : bool) (method m : string) : Prop :=
  (known_cpu method /\ m = method) \/ (has_gpu = true /\ known_gpu method /\ m = method) \/
  (has_gpu = false /\ In m ["BP"; "FBP"; "SIRT"; "SART"; "CGLS"]%string /\ method = (m ++ "_CUDA")%string).
