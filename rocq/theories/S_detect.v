(** Specification for detect_sample (C133). *)
From Coq Require Import Reals ZArith.
From Verif Require Import Np.
Open Scope Z_scope.

(** the same 360-degree scan started k projections later (the rows are moved cyclically), the detector moved cyclically by l columns *)
Definition moved_scan (k l : Z) (s t : img R) : Prop := nrow t = nrow s /\ ncol t = ncol s /\
  forall i j, in_rng (nrow s) i -> in_rng (ncol s) j -> px t i j = px s ((i + k) mod nrow s) ((j + l) mod ncol s).
(** the same 180-degree scan started k projections later: the missing rows are the first ones seen from the other side *)
Definition later_scan (k : Z) (s t : img R) : Prop := nrow t = nrow s /\ ncol t = ncol s /\
  forall i j, in_rng (nrow s) i -> in_rng (ncol s) j ->
    px t i j = if i + k <? nrow s then px s (i + k) j else px s (i + k - nrow s) (ncol s - 1 - j).
Definition mirrored_columns (s t : img R) : Prop := nrow t = nrow s /\ ncol t = ncol s /\
  forall i j, in_rng (nrow s) i -> in_rng (ncol s) j -> px t i j = px s i (ncol s - 1 - j).
Definition times (c : R) (s t : img R) : Prop := nrow t = nrow s /\ ncol t = ncol s /\
  forall i j, in_rng (nrow s) i -> in_rng (ncol s) j -> px t i j = (c * px s i j)%R.
(** t is s with a brightness added to every projection and a stripe to every detector column *)
Definition stained (f g : Z -> R) (s t : img R) : Prop := nrow t = nrow s /\ ncol t = ncol s /\
  forall i j, in_rng (nrow s) i -> in_rng (ncol s) j -> px t i j = (px s i j + f i + g j)%R.
(** nothing but brightness changes and stripes *)
Definition no_sample (f g : Z -> R) (s : img R) : Prop := forall i j, in_rng (nrow s) i -> in_rng (ncol s) j -> px s i j = (f i + g j)%R.
