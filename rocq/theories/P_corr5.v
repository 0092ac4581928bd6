(** The refined peak along lines, and the shift of two images on both devices. *)
From Coq Require Import Reals Lra ZArith Lia Permutation.
From Verif Require Import Np P_Np M_phase_R M_corr S_corr S_local S_peak P_corr P_corr2 P_corr3 P_peakext.
From Coq Require Import List. Import ListNotations.
Open Scope Z_scope.

Section lines.
Context (polyfit2 : vec R -> R * R) (surface : img R -> R * R * R * R * R).
Lemma vertex_three f v p : (forall k, p - 1 <= k <= p + 1 -> k <> p -> (f k <= f p)%R) -> (f (p - 1)%Z < f p)%R ->
  (exists a b c, (forall k, (p - 1 <= k <= p + 1)%Z -> f k = a * (IZR k * IZR k) + b * IZR k + c)%R /\ a <> 0%R /\ (2 * a * v + b = 0)%R) ->
  let d2 := (f (p + 1)%Z + f (p - 1)%Z - 2 * f p)%R in let d1 := ((f (p + 1)%Z - f (p - 1)%Z) / 2)%R in
  (d2 < 0)%R /\ v = (IZR p + - d1 / d2)%R /\ (Rabs (v - IZR p) <= / 2)%R.
Proof.
  intros M S (a & b & c & E & Na & V) d2 d1.
  pose proof (M (p + 1) ltac:(lia) ltac:(lia)) as M1.
  assert (D : (d2 < 0)%R) by (unfold d2; lra). split; [exact D|].
  assert (Ed2 : d2 = (2 * a)%R) by (unfold d2; rewrite !E by lia; rewrite plus_IZR, minus_IZR; ring).
  assert (Ed1 : d1 = (2 * a * IZR p + b)%R) by (unfold d1; rewrite !E by lia; rewrite plus_IZR, minus_IZR; field).
  assert (Ev : v = (IZR p + - d1 / d2)%R).
  { rewrite Ed1, Ed2. replace b with (- (2 * a * v))%R by lra. field. exact Na. }
  split; [exact Ev|]. rewrite Ev. replace (IZR p + - d1 / d2 - IZR p)%R with (- d1 / d2)%R by ring.
  apply Rabs_le. set (u := f (p + 1)) in *. set (w := f (p - 1)) in *. set (g := f p) in *.
  replace (- d1 / d2)%R with ((u - w) / (2 * (2 * g - u - w)))%R by (unfold d1, d2 in *; field; lra).
  assert (Q : (0 < 2 * (2 * g - u - w))%R) by (unfold d2 in D; lra). split.
  - apply Rmult_le_reg_r with (2 * (2 * g - u - w))%R; [exact Q|]. unfold Rdiv. rewrite Rmult_assoc, Rinv_l by lra. lra.
  - apply Rmult_le_reg_r with (2 * (2 * g - u - w))%R; [exact Q|]. unfold Rdiv. rewrite Rmult_assoc, Rinv_l by lra. lra.
Qed.
Lemma line_three (f : Z -> R) n p v : 0 < p < n - 1 -> first_max 3 (fun k => f (p - 1 + k)) 1 -> refined_maximum f n p v ->
  locate_1d_peak_subpixel polyfit2 (mkvec 3 (fun k => f (p - 1 + k))) Diff = Ok (v - IZR (p - 1))%R /\ (Rabs (v - IZR p) <= / 2)%R.
Proof.
  intros Hp F [V _]. specialize (V Hp). unfold locate_1d_peak_subpixel. change (vlist (mkvec 3 (fun k => f (p - 1 + k)))) with (map (fun k => f (p - 1 + k)) (zrange 0 3)).
  rewrite (argmaxR_is 3 _ 1 F). cbn [bindr vlen vat]. change (1 <? 3 - 1) with true. change (0 <? 1) with true. cbn [andb].
  destruct F as (_ & M & S). cbn beta in M, S.
  replace (p - 1 + (1 + 1)) with (p + 1) by lia. replace (p - 1 + (1 - 1)) with (p - 1) by lia. replace (p - 1 + 1) with p in * by lia.
  destruct (vertex_three f v p) as (D & E & B).
  - intros k Hk N. specialize (M (k - (p - 1)) ltac:(lia)). replace (p - 1 + (k - (p - 1))) with k in M by lia. exact M.
  - specialize (S 0 ltac:(lia)). replace (p - 1 + 0) with (p - 1) in S by lia. exact S.
  - exact V.
  - split; [|exact B]. destruct (Reqb _ 0) eqn:Z0; [apply Reqb_t in Z0; lra|]. f_equal. rewrite E at 1. rewrite minus_IZR. lra.
Qed.
Lemma peak_lines m y0 x0 vy vx dim1 size : first_max2 m y0 x0 -> dim1 = true \/ ~ (0 < y0 < nrow m - 1 /\ 0 < x0 < ncol m - 1) ->
  refined_maximum (px m y0) (ncol m) x0 vx -> refined_maximum (fun k => px m k x0) (nrow m) y0 vy ->
  locate_peak polyfit2 surface m true Diff dim1 size true = Ok (vx, vy).
Proof.
  intros F Hd Vx Vy. unfold locate_peak. cbv iota.
  rewrite (argmax2_is m y0 x0 F). cbn [bindr negb]. change (clipZ 3 3 9) with 3. change (3 / 2) with 1.
  pose proof F as (Y & X & M & S).
  assert (Rx : 0 < x0 < ncol m - 1 -> locate_1d_peak_subpixel polyfit2 (vslice (irow m y0) (x0 - 1) (x0 - 1 + 3)) Diff = Ok (vx - IZR (x0 - 1))%R /\ (Rabs (vx - IZR x0) <= / 2)%R).
  { intros H. rewrite (vslice_row surface m y0 (x0 - 1) 3) by lia. apply (line_three (px m y0) (ncol m) x0 vx H); [|exact Vx].
    pose proof (first_max_row m y0 x0 (x0 - 1) 3 F ltac:(lia) ltac:(lia) ltac:(lia) ltac:(lia)) as G. replace (x0 - (x0 - 1)) with 1 in G by lia. exact G. }
  assert (Ry : 0 < y0 < nrow m - 1 -> locate_1d_peak_subpixel polyfit2 (vslice (icol m x0) (y0 - 1) (y0 - 1 + 3)) Diff = Ok (vy - IZR (y0 - 1))%R /\ (Rabs (vy - IZR y0) <= / 2)%R).
  { intros H. rewrite (vslice_col surface m x0 (y0 - 1) 3) by lia. apply (line_three (fun k => px m k x0) (nrow m) y0 vy H); [|exact Vy].
    pose proof (first_max_col m y0 x0 (y0 - 1) 3 F ltac:(lia) ltac:(lia) ltac:(lia) ltac:(lia)) as G. replace (y0 - (y0 - 1)) with 1 in G by lia. exact G. }
  assert (Cx : 0 < x0 < ncol m - 1 -> clipZ (x0 - 1) 0 (ncol m - 3) = x0 - 1) by (unfold clipZ; lia).
  assert (Cy : 0 < y0 < nrow m - 1 -> clipZ (y0 - 1) 0 (nrow m - 3) = y0 - 1) by (unfold clipZ; lia).
  assert (Ix : 0 < x0 < ncol m - 1 -> (1 <= IZR x0 /\ IZR x0 <= IZR (ncol m - 1) - 1)%R)
    by (intros H; split; [apply IZR_le; lia|rewrite <- minus_IZR; apply IZR_le; lia]).
  assert (Iy : 0 < y0 < nrow m - 1 -> (1 <= IZR y0 /\ IZR y0 <= IZR (nrow m - 1) - 1)%R)
    by (intros H; split; [apply IZR_le; lia|rewrite <- minus_IZR; apply IZR_le; lia]).
  assert (Ax : forall t, (Rabs (t - IZR x0) <= / 2 -> IZR x0 - / 2 <= t <= IZR x0 + / 2)%R) by (intros t H; unfold Rabs in H; destruct (Rcase_abs _); lra).
  assert (Ay : forall t, (Rabs (t - IZR y0) <= / 2 -> IZR y0 - / 2 <= t <= IZR y0 + / 2)%R) by (intros t H; unfold Rabs in H; destruct (Rcase_abs _); lra).
  assert (Ex : ~ 0 < x0 < ncol m - 1 -> Reqb (IZR x0) 0 || Reqb (IZR x0) (IZR (ncol m - 1)) = true).
  { intros H. assert (C : x0 = 0 \/ x0 = ncol m - 1) by lia. destruct C as [-> | C]; [rewrite (proj2 (Reqb_t 0 0) eq_refl); reflexivity|].
    rewrite <- C, (proj2 (Reqb_t (IZR x0) (IZR x0)) eq_refl). apply Bool.orb_true_r. }
  assert (Ey : ~ 0 < y0 < nrow m - 1 -> Reqb (IZR y0) 0 || Reqb (IZR y0) (IZR (nrow m - 1)) = true).
  { intros H. assert (C : y0 = 0 \/ y0 = nrow m - 1) by lia. destruct C as [-> | C]; [rewrite (proj2 (Reqb_t 0 0) eq_refl); reflexivity|].
    rewrite <- C, (proj2 (Reqb_t (IZR y0) (IZR y0)) eq_refl). apply Bool.orb_true_r. }
  assert (Nx : forall t, 0 < x0 < ncol m - 1 -> (IZR x0 - / 2 <= t <= IZR x0 + / 2)%R ->
     Reqb t 0 || Reqb t (IZR (ncol m - 1)) = false /\ Rltb t (IZR (ncol m - 1)) = true /\ Rltb 0 t = true).
  { intros t H B. specialize (Ix H). rewrite (proj2 (Reqb_f t 0)), (proj2 (Reqb_f t (IZR (ncol m - 1)))) by lra.
    split; [reflexivity|]. split; apply Rltb_t; lra. }
  assert (Ny : forall t, 0 < y0 < nrow m - 1 -> (IZR y0 - / 2 <= t <= IZR y0 + / 2)%R ->
     Reqb t 0 || Reqb t (IZR (nrow m - 1)) = false /\ Rltb t (IZR (nrow m - 1)) = true /\ Rltb 0 t = true).
  { intros t H B. specialize (Iy H). rewrite (proj2 (Reqb_f t 0)), (proj2 (Reqb_f t (IZR (nrow m - 1)))) by lra.
    split; [reflexivity|]. split; apply Rltb_t; lra. }
  assert (Kx : ~ 0 < x0 < ncol m - 1 -> Rltb (IZR x0) (IZR (ncol m - 1)) && Rltb 0 (IZR x0) = false).
  { intros H. assert (C : x0 = 0 \/ x0 = ncol m - 1) by lia. destruct C as [-> | <-].
    - rewrite (proj2 (Rltb_f 0 0)) by lra. apply Bool.andb_false_r.
    - rewrite (proj2 (Rltb_f (IZR x0) (IZR x0))) by lra. reflexivity. }
  assert (Ky : ~ 0 < y0 < nrow m - 1 -> Rltb (IZR y0) (IZR (nrow m - 1)) && Rltb 0 (IZR y0) = false).
  { intros H. assert (C : y0 = 0 \/ y0 = nrow m - 1) by lia. destruct C as [-> | <-].
    - rewrite (proj2 (Rltb_f 0 0)) by lra. apply Bool.andb_false_r.
    - rewrite (proj2 (Rltb_f (IZR y0) (IZR y0))) by lra. reflexivity. }
  assert (Dx : 0 < x0 < ncol m - 1 \/ ~ 0 < x0 < ncol m - 1) by lia.
  assert (Dy : 0 < y0 < nrow m - 1 \/ ~ 0 < y0 < nrow m - 1) by lia.
  destruct Dx as [Hx|Hx], Dy as [Hy|Hy].
  - destruct Hd as [-> | Hd]; [|exfalso; apply Hd; split; assumption].
    destruct (Rx Hx) as (Rx1 & Rx2), (Ry Hy) as (Ry1 & Ry2). apply Ax in Rx2. apply Ay in Ry2.
    replace ((y0 <? nrow m - 1) && (0 <? y0) && (x0 <? ncol m - 1) && (0 <? x0) && (3 <=? ncol m) && (3 <=? nrow m)) with true by lia.
    rewrite (Cx Hx), (Cy Hy), Rx1, Ry1. cbn [bindr].
    replace (IZR (x0 - 1) + (vx - IZR (x0 - 1)))%R with vx by lra. replace (IZR (y0 - 1) + (vy - IZR (y0 - 1)))%R with vy by lra.
    destruct (Ny vy Hy Ry2) as (-> & _). cbn [andb bindr]. destruct (Nx vx Hx Rx2) as (-> & _). reflexivity.
  - destruct (Rx Hx) as (Rx1 & Rx2). apply Ax in Rx2. destruct Vy as [_ Vy]. rewrite (Vy Hy).
    replace ((y0 <? nrow m - 1) && (0 <? y0) && (x0 <? ncol m - 1) && (0 <? x0) && (3 <=? ncol m) && (3 <=? nrow m)) with false by lia. cbn [bindr].
    rewrite (Ey Hy). destruct (Nx (IZR x0) Hx ltac:(lra)) as (_ & -> & ->). replace (3 <=? ncol m) with true by lia. cbn [andb].
    rewrite (Cx Hx), Rx1. cbn [bindr]. replace (IZR (x0 - 1) + (vx - IZR (x0 - 1)))%R with vx by lra. destruct (Nx vx Hx Rx2) as (-> & _). reflexivity.
  - destruct (Ry Hy) as (Ry1 & Ry2). apply Ay in Ry2. destruct Vx as [_ Vx]. rewrite (Vx Hx).
    replace ((y0 <? nrow m - 1) && (0 <? y0) && (x0 <? ncol m - 1) && (0 <? x0) && (3 <=? ncol m) && (3 <=? nrow m)) with false by lia. cbn [bindr].
    destruct (Ny (IZR y0) Hy ltac:(lra)) as (-> & -> & ->). cbn [andb bindr]. rewrite (Ex Hx). replace (3 <=? nrow m) with true by lia. cbn [andb].
    rewrite (Cy Hy), Ry1. cbn [bindr]. replace (IZR (y0 - 1) + (vy - IZR (y0 - 1)))%R with vy by lra. reflexivity.
  - destruct Vx as [_ Vx], Vy as [_ Vy]. rewrite (Vx Hx), (Vy Hy).
    replace ((y0 <? nrow m - 1) && (0 <? y0) && (x0 <? ncol m - 1) && (0 <? x0) && (3 <=? ncol m) && (3 <=? nrow m)) with false by lia. cbn [bindr].
    rewrite (Ey Hy). cbn [andb]. rewrite (Kx Hx). cbn [andb bindr]. rewrite (Ex Hx). cbn [andb]. rewrite (Ky Hy). reflexivity.
Qed.
End lines.

(** the same shift on both devices *)
Lemma shift_devices polyfit2 surface ref mat margin axis sub meth dim1 size gpu block sched gpu' block' sched' :
  (meth = PolyFit -> reads_elements polyfit2 surface) -> fits ref mat -> any_launch block sched -> any_launch block' sched' -> 
  (height mat = height ref -> width mat = width ref -> 1 <= margin) ->
  find_shift_based_correlation_map polyfit2 surface ref mat margin axis sub meth dim1 size gpu block sched =
  find_shift_based_correlation_map polyfit2 surface ref mat margin axis sub meth dim1 size gpu' block' sched'.
Proof.
  intros RE F L L' Hm.
  assert (D : (height mat = height ref /\ width mat = width ref) \/ ~ (height mat = height ref /\ width mat = width ref)) by lia.
  destruct D as [ [D1 D2] | D]; [|apply shift_same; try assumption; reflexivity].
  unfold find_shift_based_correlation_map. destruct (crop_margin ref mat margin axis) as [mat1 check1] eqn:C. rewrite !shape2_spec.
  assert (F1 : fits ref mat1).
  { specialize (Hm D1 D2). unfold crop_margin in C. rewrite !shape2_spec in C. rewrite D1, D2, !Z.eqb_refl in C. cbn [andb] in C.
    destruct F as (K & F). assert (G : forall a b l r, height ref = height mat -> 1 <= slen (height mat) a b <= height ref -> 1 <= slen (width mat) l r <= width ref -> fits ref (dslice mat a b l r)).
    { intros a b l r _ G1 G2. destruct (dslice_shape mat a b l r) as (E1 & E2 & E3). split; [apply dslice_kind; exact K|]. rewrite E1, E2, E3. lia. }
    destruct axis; [destruct (Z.ltb_spec 3 (height ref - 2 * margin))|destruct (Z.ltb_spec 3 (width ref - 2 * margin))|
      destruct (Z.ltb_spec 3 (height ref - 2 * margin)), (Z.ltb_spec 3 (width ref - 2 * margin))]; cbn [andb] in C; injection C as <- <-; try (split; assumption);
      apply G; try lia; try (rewrite crop_len by lia; lia); rewrite slen_id by lia; lia. }
  match goal with |- (if ?c then _ else _) = _ => destruct c; [|reflexivity] end.
  destruct L as ((B1 & B2) & P), L' as ((B1' & B2') & P').
  destruct (corr_map_spec ref mat1 gpu block sched F1 B1 B2 P) as (m & Em & Nm & Cm & Vm).
  destruct (corr_map_spec ref mat1 gpu' block' sched' F1 B1' B2' P') as (m' & Em' & Nm' & Cm' & Vm'). rewrite Em, Em'. cbn [bindr].
  assert (X : img_eq m m').
  { split; [lia|]. split; [lia|]. unfold in_rng. intros i j Hi Hj. rewrite Vm, Vm' by lia. reflexivity. }
  destruct F1 as (_ & _ & F2 & F3).
  rewrite (peak_ext polyfit2 surface meth RE m m') by (assumption || lia). replace (nrow m') with (nrow m) by lia. replace (ncol m') with (ncol m) by lia. reflexivity.
Qed.
