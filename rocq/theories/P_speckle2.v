(** Proofs about speckle tracking: replacing the border, the parts of the result. *)
From Coq Require Import Reals Lra ZArith Lia Bool.
From Verif Require Import Np P_Np M_phase_R M_corr S_corr M_local S_local P_local M_umpa M_fourier M_surface S_surface M_speckle S_speckle P_speckle.
From Coq Require Import List. Import ListNotations.
Open Scope Z_scope.

Lemma reflect_in n k : 1 <= n -> 0 <= reflect_source n k < n.
Proof.
  intros N. unfold reflect_source. destruct (Z.eqb_spec n 1); [lia|]. cbv zeta. assert (B := Z.mod_pos_bound k (2 * (n - 1)) ltac:(lia)).
  destruct (Z.ltb_spec (k mod (2 * (n - 1))) n); lia.
Qed.
Lemma reflect_inside n k : 0 <= k < n -> reflect_source n k = k.
Proof.
  intros K. unfold reflect_source. destruct (Z.eqb_spec n 1); [lia|]. cbv zeta. rewrite Z.mod_small by lia. replace (k <? n) with true by lia. reflexivity.
Qed.
Lemma reflect_before n k : - (n - 1) <= k < 0 -> reflect_source n k = - k.
Proof.
  intros K. unfold reflect_source. destruct (Z.eqb_spec n 1); [lia|]. cbv zeta.
  assert (E : k mod (2 * (n - 1)) = k + 2 * (n - 1)) by (symmetry; apply (Z.mod_unique k (2 * (n - 1)) (-1)); lia). rewrite E.
  destruct (Z.ltb_spec (k + 2 * (n - 1)) n); lia.
Qed.
Lemma reflect_after n k : n <= k <= 2 * (n - 1) -> reflect_source n k = 2 * (n - 1) - k.
Proof.
  intros K. unfold reflect_source. destruct (Z.eqb_spec n 1); [lia|]. cbv zeta.
  destruct (Z.eq_dec k (2 * (n - 1))) as [-> | D].
  - rewrite Z.mod_same by lia. replace (0 <? n) with true by lia. lia.
  - rewrite Z.mod_small by lia. replace (k <? n) with false by lia. lia.
Qed.
(** the position standing in for position i *)
Definition inner (n b i : Z) : Z := b + reflect_source (n - 2 * b) (i - b).
Lemma inner_stands n b i : 2 * b < n -> stands_in n b i (inner n b i).
Proof.
  intros N. unfold inner, stands_in. assert (B := reflect_in (n - 2 * b) (i - b) ltac:(lia)). split; [lia|]. intros I. rewrite reflect_inside by lia. lia.
Qed.
Lemma inner_opposite n b i : 0 <= i < n -> 3 * b < n -> (i < b -> opposite b i (inner n b i)) /\ (n - b <= i -> opposite (n - b - 1) i (inner n b i)).
Proof.
  intros I N. unfold inner, opposite. split; intros J; [rewrite reflect_before by lia|rewrite reflect_after by lia]; lia.
Qed.
Lemma clean_spec m b : 1 <= b -> 
  (2 * b < nrow m -> 2 * b < ncol m -> exists f, clean_border m b = Ok f /\ nrow f = nrow m /\ ncol f = ncol m /\
     forall i j, px f i j = px m (inner (nrow m) b i) (inner (ncol m) b j)) /\
  (0 <= nrow m -> 0 <= ncol m -> nrow m <= 2 * b \/ ncol m <= 2 * b -> clean_border m b = Err ValueError).
Proof.
  intros B. assert (L : forall n, 0 <= n -> slen n b (- b) = Z.max 0 (n - 2 * b)).
  { intros n N. unfold slen, py_adj. destruct (Z.ltb_spec b 0), (Z.ltb_spec (- b) 0); lia. }
  unfold clean_border, pad_reflect. cbn [nrow ncol islice px]. split.
  - intros R C. rewrite !L by lia. replace (Z.max 0 (nrow m - 2 * b)) with (nrow m - 2 * b) by lia. replace (Z.max 0 (ncol m - 2 * b)) with (ncol m - 2 * b) by lia.
    destruct (Z.leb_spec (nrow m - 2 * b) 0); [lia|]. destruct (Z.leb_spec (ncol m - 2 * b) 0); [lia|]. cbn [orb]. eexists. split; [reflexivity|]. cbn [nrow ncol px].
    split; [lia|]. split; [lia|]. intros i j. unfold inner. unfold py_adj. destruct (Z.ltb_spec b 0); [lia|]. rewrite !Z.min_l by lia. reflexivity.
  - intros R C D. rewrite !L by lia. destruct (Z.leb_spec (Z.max 0 (nrow m - 2 * b)) 0); [reflexivity|]. destruct (Z.leb_spec (Z.max 0 (ncol m - 2 * b)) 0); [reflexivity|]. lia.
Qed.
Lemma clean_inv m b f : 1 <= b -> 0 <= nrow m -> 0 <= ncol m -> clean_border m b = Ok f ->
  2 * b < nrow m /\ 2 * b < ncol m /\ nrow f = nrow m /\ ncol f = ncol m /\ forall i j, px f i j = px m (inner (nrow m) b i) (inner (ncol m) b j).
Proof.
  intros B R C E. destruct (clean_spec m b B) as (A & D).
  destruct (Z_lt_ge_dec (2 * b) (nrow m)); [|rewrite D in E by lia; discriminate]. destruct (Z_lt_ge_dec (2 * b) (ncol m)); [|rewrite D in E by lia; discriminate].
  destruct A as (g & G & R' & C' & V); [lia..|]. assert (g = f) by congruence. subst g. repeat split; try assumption.
Qed.

Section parts.
Context (polyfit2 : vec R -> R * R) (surface : img R -> R * R * R * R * R) (np_pad : Z -> img R -> img R).
Context (dark_field : data -> data -> img R -> img R -> Z -> Z -> res (img R * img R)).
Definition surf_of (s : surf) (neg : bool) (x y : img R) : res (img R) := match s with SCS w p => surface_SCS np_pad x y neg w p | FC w => surface_FC x y neg w end.
Lemma retrieve_inv ref sam how dark win margin meth size dev block sched chunk sm neg ret o :
  retrieve_phase polyfit2 surface np_pad dark_field ref sam how dark win margin meth size dev block sched chunk sm neg ret = Ok o ->
  exists lx ly sig xs ys, track polyfit2 surface dark_field ref sam how dark (Z.max win 1) (Z.max margin 1) meth (Z.max size 3) dev block sched chunk = Ok (lx, ly, sig) /\
    clean_border lx (Z.max margin 1 + 2) = Ok xs /\ clean_border ly (Z.max margin 1 + 2) = Ok ys /\ surf_of sm neg xs ys = Ok (phase_of o) /\
    shift_maps_of o = (if ret then Some (xs, ys) else None) /\ signals_of o = (if dark then sig else None).
Proof.
  unfold retrieve_phase. destruct (track _ _ _ _ _ _ _ _ _ _ _ _ _ _ _) as [ ((lx, ly), sig)|]; [|discriminate]. cbn [bindr].
  destruct (clean_border lx _) as [xs|] eqn:X; [|discriminate]. cbn [bindr]. destruct (clean_border ly _) as [ys|] eqn:Y; [|discriminate]. cbn [bindr].
  match goal with |- bindr ?m _ = _ -> _ => change m with (surf_of sm neg xs ys); destruct (surf_of sm neg xs ys) as [ph|] eqn:S end; [|discriminate]. cbn [bindr]. intros Q. injection Q as <-.
  exists lx, ly, sig, xs, ys. cbn [phase_of shift_maps_of signals_of]. repeat split; assumption.
Qed.
Lemma retrieve_fwd ref sam how dark win margin meth size dev block sched chunk sm neg ret lx ly sig xs ys ph :
  track polyfit2 surface dark_field ref sam how dark (Z.max win 1) (Z.max margin 1) meth (Z.max size 3) dev block sched chunk = Ok (lx, ly, sig) ->
    clean_border lx (Z.max margin 1 + 2) = Ok xs -> clean_border ly (Z.max margin 1 + 2) = Ok ys -> surf_of sm neg xs ys = Ok ph ->
  retrieve_phase polyfit2 surface np_pad dark_field ref sam how dark win margin meth size dev block sched chunk sm neg ret = Ok (mkresult (if ret then Some (xs, ys) else None) ph (if dark then sig else None)).
Proof.
  intros T X Y S. unfold retrieve_phase. rewrite T. cbn [bindr]. rewrite X. cbn [bindr]. rewrite Y. cbn [bindr]. change (bindr (surf_of sm neg xs ys) (fun phase => Ok (mkresult (if ret then Some (xs, ys) else None) phase (if dark then sig else None))) = Ok (mkresult (if ret then Some (xs, ys) else None) ph (if dark then sig else None))). rewrite S. reflexivity.
Qed.
(** the border of the maps before it is replaced *)
Lemma track_framed ref sam how dark win margin meth size dev block sched chunk lx ly sig : 0 <= height ref -> 0 <= width ref -> 0 <= win / 2 -> 1 <= margin ->
  track polyfit2 surface dark_field ref sam how dark win margin meth size dev block sched chunk = Ok (lx, ly, sig) ->
  let e := win / 2 + margin in framed (height ref) (width ref) 0 e lx /\ framed (height ref) (width ref) e 0 ly.
Proof.
  intros H0 W0 W M E. cbv zeta. assert (Weak : forall a b a' b' m, a' <= a -> b' <= b -> framed (height ref) (width ref) a b m -> framed (height ref) (width ref) a' b' m).
  { intros a b a' b' m A B (R & C & V). split; [exact R|]. split; [exact C|]. intros i j Hi Hj N. apply V; [exact Hi|exact Hj|lia]. }
  unfold track in E. destruct how as [dim1 norm ng|smooth].
  - match type of E with bindr ?m _ = _ => destruct m as [ (x, y)|] eqn:L end; [|discriminate]. cbn [bindr fst snd] in E.
    assert (x = lx /\ y = ly) as [-> ->]. { destruct dark; [destruct (dark_field _ _ _ _ _ _); [|discriminate]; cbn [bindr] in E|]; split; congruence. }
    destruct (local_framed polyfit2 surface ref sam dim1 win margin meth size dev block sched norm ng chunk lx ly H0 W0 W M L) as (A & B).
    destruct (lines_only ref dim1 dev); (split; [revert A|revert B]); apply Weak; lia.
  - destruct ref as [m|r]; [discriminate|]. destruct sam as [n|s]; [discriminate|]. cbn [as_stack height width] in *.
    destruct (umpa_framed polyfit2 surface smooth r s win margin meth size _ block sched chunk dark lx ly sig W M E) as (A & B). split; [revert A|revert B]; apply Weak; lia.
Qed.
End parts.
Lemma half_pos win : 0 <= Z.max win 1 / 2.
Proof. apply Z.div_pos; lia. Qed.
