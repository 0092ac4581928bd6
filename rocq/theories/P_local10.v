(** Proofs about maps of local shifts on a GPU in one dimension. *)
From Coq Require Import Reals Lra ZArith Lia Permutation FunctionalExtensionality.
From Verif Require Import Np P_Np M_phase_R P_phase_R M_corr S_corr P_corr P_corr2 P_corr3 P_corr4 M_local S_local P_peakext P_local P_local2 P_local3 P_local4 P_local5 P_local6 P_local7 P_local8 P_local9.
From Coq Require Import List. Import ListNotations.
Open Scope Z_scope.

Section gpu.
Context (polyfit2 : vec R -> R * R) (surface : img R -> R * R * R * R * R).
Notation find_shift := (find_shift_based_correlation_map polyfit2 surface).
Context (size win margin : Z) (R0 : 0 <= win / 2) (M : 1 <= margin).
Let r := win / 2.
Let e := r + margin.
Notation value_at A B j := (line_value polyfit2 surface Diff size win margin A B j).

Lemma kernel_line A B j : nrow A = nrow B -> 1 <= nrow B -> ncol A = ncol B -> 0 <= j - e -> j + e < ncol A ->
  (locate_1d_peak_kernel (gen_1d_corr_map (islice A 0 (nrow A) (j - e) (j + e + 1)) (islice B 0 (nrow B) (j - r) (j + r + 1))) - IZR margin)%R = value_at A B j.
Proof using R0 M.
  intros N N1 C J0 J1. assert (Re : 0 <= r <= e) by (unfold e; fold r in R0; lia).
  pose proof (interval_line A j e ltac:(lia) ltac:(lia) J0 J1) as LA. pose proof (interval_line B j r ltac:(lia) ltac:(lia) ltac:(lia) ltac:(clear -J1 Re C; clearbody e r; lia)) as LB.
  unfold interval in LA, LB. replace (j + (e + 1)) with (j + e + 1) in LA by lia. replace (j + (r + 1)) with (j + r + 1) in LB by lia.
  unfold line_of in LA, LB. assert (OI : forall a b : img R, One a = One b -> a = b) by congruence. apply OI in LA. apply OI in LB. rewrite LA, LB. clear LA LB.
  pose proof (line_fits A B j r margin N N1 R0 M) as F. fold e in F.
  destruct (shift_template polyfit2 surface _ _ margin Axis1 true Diff true size false (1, 1) (fun l => l) F) as (m & xs & ys & xp & yp & Em & E & L & Ex & Ey & _);
    [unfold line_of; cbn [height width nrow ncol]; unfold e; lia|apply default_launch|unfold line_of; cbn [height width nrow ncol]; unfold e; lia|].
  unfold line_value, line_shift. fold r. fold e. rewrite E. cbn [value_of fst]. rewrite Ex.
  destruct (corr_map_spec _ _ false (1, 1) (fun l => l) F) as (m' & Em' & Nm & Cm & Vm); [cbn; lia|cbn; lia|intros; apply Permutation_refl|].
  rewrite Em in Em'. injection Em' as <-. unfold line_of in Nm, Cm. cbn [height width nrow ncol] in Nm, Cm.
  unfold line_of. cbn [width ncol]. replace (2 * e + 1 - (2 * r + 1) + 1) with (2 * margin + 1) in * by (unfold e; lia).
  replace ((2 * margin + 1) / 2) with margin by (apply Z.div_unique_pos with 1; lia).
  f_equal. assert (Nm1 : nrow m = 1) by lia.
  destruct (argmax2_total m ltac:(lia) ltac:(lia)) as (y0 & x0 & _ & Fm).
  assert (y0 = 0) as -> by (destruct Fm as (Fy & _); lia).
  pose proof (peak_line polyfit2 surface m size true x0 Nm1 Fm ltac:(lia)) as P. cbn [axis_dim] in L. rewrite L in P. injection P as P _. rewrite P. f_equal.
  unfold gen_1d_corr_map. cbn [nrow ncol]. rewrite Cm. replace (2 * e + 1 - (2 * r + 1) + 1) with (2 * margin + 1) by (unfold e; lia).
  apply map_ext_in. intros k Hk. apply zrange_In in Hk. rewrite Vm by lia.
  set (MA := mkimg (nrow A) (2 * e + 1) (fun k0 a => px A k0 (j - e + a))). set (MB := mkimg (nrow B) (2 * r + 1) (fun k0 a => px B k0 (j - r + a))).
  pose proof (gpu_coef_2d MA MB 0 k) as G. unfold MA, MB in G. cbn [nrow ncol] in G. fold MA MB in G. rewrite <- N in G. cbn [Z.add] in G.
  apply G; unfold e in *; lia.
Qed.

Lemma gpu_chunk block sched norm : any_launch block sched ->
  chunk_result e norm (line_value polyfit2 surface Diff size win margin) (fun dir pad => multi_rows_1d_gpu dir win margin block sched pad norm).
Proof using R0 M.
  intros ((B1 & B2) & P) dir pad v w D Hh Hw D1 Cn Ex. unfold multi_rows_1d_gpu.
  rewrite (proj2 (same_shape_spec (Stack v) (Stack w))) by (split; [exact D|split; assumption]). cbn [negb].
  replace (match dir with DirX => (hei v, wid v) | DirY => (wid v, hei v) end) with (count dir v, extent dir v) by (destruct dir; reflexivity).
  rewrite radius_of. fold r. fold e. assert (E0 : 1 <= e) by (unfold e; fold r in R0; lia).
  destruct (Z.ltb_spec (extent dir v - 2 * e) 1); [lia|].
  set (A := fun i => norm_plane norm (plane dir v i)). set (B := fun i => norm_plane norm (plane dir w i)).
  set (val := fun i j => value_at (A i) (B i) (e + j)).
  assert (Sp : forall i, nrow (A i) = dep v /\ ncol (A i) = extent dir v /\ nrow (B i) = dep v /\ ncol (B i) = extent dir v).
  { intros i. unfold A, B, norm_plane. destruct norm, dir; cbn; repeat split; lia. }
  assert (T : forall x y, 0 <= x -> 0 <= y -> kernel_1d A B (count dir v) (extent dir v - 2 * e) r margin (x, y) =
     if (y <? count dir v) && (x <? extent dir v - 2 * e) then Some (y, x, val y x) else None).
  { intros x y Hx Hy. unfold kernel_1d. destruct (Z.ltb_spec y (count dir v)); [|reflexivity]. destruct (Z.ltb_spec x (extent dir v - 2 * e)); [|reflexivity]. cbn [andb].
    destruct (Sp y) as (S1 & S2 & S3 & S4). f_equal. f_equal. unfold val. fold e. rewrite kernel_line by (rewrite ?S1, ?S2, ?S3, ?S4; lia). f_equal. lia. }
  pose proof (launch_spec _ _ _ val block _ (fun _ _ => 0%R) T B1 B2 (P _)) as L. fold A B.
  set (s := launch _ _ _) in *.
  assert (Vp : forall i j, 0 <= i < count dir v -> 0 <= j < extent dir v ->
     (if (e <=? j) && (j <? e + (extent dir v - 2 * e)) then s i (j - e) else 0%R) = if (e <=? j) && (j <? extent dir v - e) then value_at (A i) (B i) j else 0%R).
  { intros i j Hi Hj. replace (e + (extent dir v - 2 * e)) with (extent dir v - e) by lia.
    destruct (Z.leb_spec e j); [|reflexivity]. destruct (Z.ltb_spec j (extent dir v - e)); [|reflexivity]. cbn [andb]. rewrite L by lia. unfold val. f_equal. lia. }
  destruct dir, pad; (eexists; split; [reflexivity|]); cbn [nrow ncol px itrans count extent] in *; (split; [lia|]; split; [lia|]); intros i j Hi Hj;
    try (rewrite Vp by lia; reflexivity); rewrite L by lia; reflexivity.
Qed.
End gpu.
