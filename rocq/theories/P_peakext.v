(** The peak of a correlation map depends on the elements of the map only. *)
From Coq Require Import Reals Lra ZArith Lia Permutation FunctionalExtensionality.
From Verif Require Import Np P_Np M_phase_R P_phase_R M_corr S_corr P_corr P_corr2 P_corr3 P_corr4 S_local.
From Coq Require Import List. Import ListNotations.
Open Scope Z_scope.

Lemma clip_window p n s : s <= n -> 0 <= clipZ p 0 (n - s) /\ clipZ p 0 (n - s) + s <= n.
Proof. unfold clipZ. lia. Qed.
Lemma argmax2_ext (m m' : img R) : img_eq m m' -> 1 <= ncol m -> argmax2 m = argmax2 m'.
Proof.
  intros (N & C & E) L. unfold argmax2. rewrite <- N, <- C.
  replace (map (fun k => px m' (k / ncol m) (k mod ncol m)) (zrange 0 (nrow m * ncol m)))
     with (map (fun k => px m (k / ncol m) (k mod ncol m)) (zrange 0 (nrow m * ncol m))); [reflexivity|].
  apply map_ext_in. intros k Hk. apply zrange_In in Hk. unfold in_rng in E.
  apply E; [|apply Z.mod_pos_bound; lia]. split; [apply Z.div_pos; lia|apply Z.div_lt_upper_bound; nia].
Qed.
Section ext.
Context (polyfit2 : vec R -> R * R) (surface : img R -> R * R * R * R * R).
Context (meth : method) (RE : meth = PolyFit -> reads_elements polyfit2 surface).

Lemma l1_ext (l l' : vec R) : vec_eq l l' -> 1 <= vlen l -> locate_1d_peak_subpixel polyfit2 l meth = locate_1d_peak_subpixel polyfit2 l' meth.
Proof using RE.
  intros V L. pose proof V as (N & E). unfold in_rng in E. unfold locate_1d_peak_subpixel.
  assert (El : vlist l = vlist l') by (unfold vlist; rewrite <- N; apply map_ext_in; intros k Hk; apply zrange_In in Hk; apply E; lia).
  rewrite <- El. destruct (argmaxR_total (vlen l) (vat l) L) as (k & Ek & Fk). unfold vlist. rewrite Ek. cbn [bindr].
  rewrite <- N. destruct meth.
  - destruct (Z.ltb_spec k (vlen l - 1)); [|reflexivity]. destruct (Z.ltb_spec 0 k); [|reflexivity]. cbn [andb]. rewrite !E by lia. reflexivity.
  - rewrite (proj1 (RE eq_refl) l l' V). reflexivity.
  - destruct (Z.ltb_spec k (vlen l - 1)); [|reflexivity]. destruct (Z.ltb_spec 0 k); [|reflexivity]. cbn [andb]. rewrite !E by lia. reflexivity.
Qed.
Lemma l2_ext (m m' : img R) : img_eq m m' -> 1 <= nrow m -> 1 <= ncol m -> locate_2d_peak_subpixel surface m meth = locate_2d_peak_subpixel surface m' meth.
Proof using RE.
  intros V L1 L2. pose proof V as (N & C & E). unfold in_rng in E. unfold locate_2d_peak_subpixel. rewrite <- (argmax2_ext m m' V) by lia.
  destruct (argmax2_total m L1 L2) as (y & x & -> & F). cbn [bindr]. destruct F as (Fy & Fx & _). rewrite <- N, <- C.
  assert (Ec : px m' y x = px m y x) by (symmetry; apply E; lia).
  destruct (Z.eqb_spec y 0), (Z.eqb_spec y (nrow m - 1)), (Z.eqb_spec x 0), (Z.eqb_spec x (ncol m - 1)); cbn [negb orb andb];
    destruct meth; try (rewrite (proj2 (RE eq_refl) m m' V); reflexivity);
    rewrite ?Ec;
    rewrite <- ?(E (y + 1) (x + 1)), <- ?(E (y - 1) (x - 1)), <- ?(E (y - 1) (x + 1)), <- ?(E (y + 1) (x - 1)), <- ?(E (y + 1) x), <- ?(E (y - 1) x), <- ?(E y (x + 1)), <- ?(E y (x - 1)) by lia; reflexivity.
Qed.

Lemma peak_ext (m m' : img R) sub dim1 size : img_eq m m' -> 1 <= nrow m -> 1 <= ncol m ->
  locate_peak polyfit2 surface m sub meth dim1 size true = locate_peak polyfit2 surface m' sub meth dim1 size true.
Proof using RE.
  intros V L1 L2. pose proof V as (N & C & E). unfold in_rng in E. unfold locate_peak. cbv iota. rewrite <- N, <- C. rewrite <- (argmax2_ext m m' V) by lia.
  destruct (argmax2_total m L1 L2) as (y & x & -> & F). cbn [bindr]. destruct F as (Fy & Fx & _).
  destruct sub; cbn [negb]; [|reflexivity].
  fold (used_size meth size). destruct (used_size_odd meth size) as (q & Sq & Q). set (s := used_size meth size) in *. clearbody s.
  assert (Rw : s <= ncol m -> let c := clipZ (x - s / 2) 0 (ncol m - s) in
     locate_1d_peak_subpixel polyfit2 (vslice (irow m y) c (c + s)) meth = locate_1d_peak_subpixel polyfit2 (vslice (irow m' y) c (c + s)) meth).
  { intros Ls c. destruct (clip_window (x - s / 2) (ncol m) s Ls) as (C1 & C2). fold c in C1, C2. clearbody c. rewrite !(vslice_row surface) by lia.
    apply l1_ext; [|cbn; lia]. split; [reflexivity|]. cbn [vlen vat]. unfold in_rng. intros i Hi. apply E; lia. }
  assert (Cl : s <= nrow m -> let r := clipZ (y - s / 2) 0 (nrow m - s) in
     locate_1d_peak_subpixel polyfit2 (vslice (icol m x) r (r + s)) meth = locate_1d_peak_subpixel polyfit2 (vslice (icol m' x) r (r + s)) meth).
  { intros Ls r. destruct (clip_window (y - s / 2) (nrow m) s Ls) as (C1 & C2). fold r in C1, C2. clearbody r. rewrite !(vslice_col surface) by lia.
    apply l1_ext; [|cbn; lia]. split; [reflexivity|]. cbn [vlen vat]. unfold in_rng. intros i Hi. apply E; lia. }
  assert (Sq2 : s <= ncol m -> s <= nrow m -> let c := clipZ (x - s / 2) 0 (ncol m - s) in let r := clipZ (y - s / 2) 0 (nrow m - s) in
     locate_2d_peak_subpixel surface (islice m r (r + s) c (c + s)) meth = locate_2d_peak_subpixel surface (islice m' r (r + s) c (c + s)) meth).
  { intros Ls Ls' c r. destruct (clip_window (x - s / 2) (ncol m) s Ls) as (C1 & C2). destruct (clip_window (y - s / 2) (nrow m) s Ls') as (R1 & R2).
    fold c in C1, C2. fold r in R1, R2. clearbody c r. unfold islice. rewrite <- N, <- C. rewrite !slice_len, !slice_at by lia. apply l2_ext; [|cbn; lia..].
    split; [reflexivity|]. split; [reflexivity|]. cbn [nrow ncol px]. unfold in_rng. intros i j Hi Hj. apply E; lia. }
  cbv zeta in Rw, Cl, Sq2.
  destruct (Z.leb_spec s (ncol m)) as [Lc|Lc], (Z.leb_spec s (nrow m)) as [Lr|Lr]; rewrite ?Bool.andb_false_r, ?Bool.andb_true_r.
  - rewrite Rw, Cl, Sq2 by assumption. reflexivity.
  - rewrite Rw by assumption. cbn [bindr]. match goal with |- bindr ?a _ = bindr ?a _ => destruct a as [ [xp rf]|]; [|reflexivity] end.
    cbn [bindr]. rewrite !Bool.andb_false_r. reflexivity.
  - rewrite Cl by assumption. cbn [bindr]. rewrite !Bool.andb_false_r. reflexivity.
  - cbn [bindr]. rewrite !Bool.andb_false_r. cbn [bindr]. rewrite !Bool.andb_false_r. reflexivity.
Qed.
End ext.

Section shift.
Context (polyfit2 : vec R -> R * R) (surface : img R -> R * R * R * R * R).
Notation find_shift := (find_shift_based_correlation_map polyfit2 surface).
(** the shift of a smaller image depends on the correlations only *)
Lemma shift_same ref mat ref' mat' margin axis sub meth dim1 size gpu block sched gpu' block' sched' :
  (meth = PolyFit -> reads_elements polyfit2 surface) ->
  fits ref mat -> fits ref' mat' -> height ref = height ref' -> width ref = width ref' -> height mat = height mat' -> width mat = width mat' ->
  ~ (height mat = height ref /\ width mat = width ref) -> any_launch block sched -> any_launch block' sched' ->
  (forall i j, 0 <= i <= height ref - height mat -> 0 <= j <= width ref - width mat -> correlation_at ref mat i j = correlation_at ref' mat' i j) ->
  find_shift ref mat margin axis sub meth dim1 size gpu block sched = find_shift ref' mat' margin axis sub meth dim1 size gpu' block' sched'.
Proof.
  intros RE F F' H W H' W' Ne ((B1 & B2) & P) ((B1' & B2') & P') Cr.
  destruct (corr_map_spec ref mat gpu block sched F B1 B2 P) as (m & Em & Nm & Cm & Vm).
  destruct (corr_map_spec ref' mat' gpu' block' sched' F' B1' B2' P') as (m' & Em' & Nm' & Cm' & Vm').
  assert (X : img_eq m m').
  { split; [lia|]. split; [lia|]. unfold in_rng. intros i j Hi Hj. rewrite Vm, Vm' by lia. apply Cr; lia. }
  assert (Cg : crop_margin ref mat margin axis = (mat, true) /\ crop_margin ref' mat' margin axis = (mat', true)).
  { unfold crop_margin. rewrite !shape2_spec. rewrite <- H, <- W, <- H', <- W'.
    destruct (Z.eqb_spec (height ref) (height mat)), (Z.eqb_spec (width ref) (width mat)); try (split; reflexivity). exfalso. apply Ne. split; lia. }
  destruct Cg as (C1 & C2). unfold find_shift_based_correlation_map. rewrite C1, C2, !shape2_spec, <- H, <- W, <- H', <- W', Em, Em'. cbn [bindr].
  destruct F as (_ & _ & F1 & F2).
  rewrite (peak_ext polyfit2 surface meth RE m m') by (assumption || lia). replace (nrow m') with (nrow m) by lia. replace (ncol m') with (ncol m) by lia. reflexivity.
Qed.
End shift.
