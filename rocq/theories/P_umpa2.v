(** Proofs about UMPA: what is computed at one pixel. *)
From Coq Require Import Reals Lra ZArith Lia FunctionalExtensionality.
From Verif Require Import Np P_Np M_phase_R P_phase_R M_corr S_corr P_corr P_corr2 M_local P_local8 P_local9 P_local11 M_umpa S_umpa P_umpa.
From Coq Require Import List. Import ListNotations.
Open Scope Z_scope.

Lemma Rabs_le_inv x a : (Rabs x <= a -> - a <= x <= a)%R.
Proof. intros L. unfold Rabs in L. destruct (Rcase_abs x); lra. Qed.
Lemma round_even_near x : (Rabs (x - IZR (round_even x)) <= 1 / 2)%R.
Proof.
  unfold round_even. pose proof (base_Int_part x) as (B1 & B2). set (f := Int_part x) in *.
  destruct (Rltb (x - IZR f) (1 / 2)) eqn:E1; [apply Rltb_t in E1; apply Rabs_le; lra|]. apply Rltb_f in E1.
  assert (G : (Rabs (x - IZR (f + 1)) <= 1 / 2)%R) by (rewrite plus_IZR; apply Rabs_le; lra).
  destruct (Rltb (1 / 2) (x - IZR f)) eqn:E2; [exact G|]. apply Rltb_f in E2. destruct (Z.even f); [apply Rabs_le; lra|exact G].
Qed.
Lemma round_even_in x n : (0 <= x <= IZR n)%R -> 0 <= round_even x <= n.
Proof.
  intros (A & B). pose proof (round_even_near x) as N. apply Rabs_le_inv in N.
  assert (-1 < round_even x < n + 1); [|lia]. split; apply lt_IZR; rewrite ?plus_IZR; lra.
Qed.
(** a stack cut to a window *)
Definition pvol (v : vol R) (i j r : Z) : vol R := mkvol (dep v) (2 * r + 1) (2 * r + 1) (fun k a b => vx v k (i - r + a) (j - r + b)).
Definition pimg (m : img R) (i j r : Z) : img R := mkimg (2 * r + 1) (2 * r + 1) (fun a b => px m (i - r + a) (j - r + b)).
Lemma invert_inverted m : 1 <= nrow m -> 1 <= ncol m -> invert_values m = inverted m.
Proof.
  intros N C. unfold invert_values, inverted. f_equal. apply functional_extensionality. intros i. apply functional_extensionality. intros j. f_equal.
  rewrite (zrange_S 0) by nia. cbn [map]. unfold rmaximum. replace (0 / ncol m) with 0 by (symmetry; apply Z.div_small; lia).
  replace (0 mod ncol m) with 0 by (symmetry; apply Z.mod_small; lia).
  cbn [fold_left]. rewrite (proj2 (Rltb_f (px m 0 0) (px m 0 0))) by lra.
  generalize (map (fun k => px m (k / ncol m) (k mod ncol m)) (zrange (0 + 1) (nrow m * ncol m - 1))) (px m 0 0).
  induction l as [|v l IH]; intros s; [reflexivity|]. cbn [fold_left]. rewrite <- IH. f_equal.
  unfold Rmax. destruct (Rltb s v) eqn:E; [apply Rltb_t in E|apply Rltb_f in E]; destruct (Rle_dec s v); lra.
Qed.
Lemma inverted_first m y x : first_max2 (inverted m) y x <->
  0 <= y < nrow m /\ 0 <= x < ncol m /\ (forall i j, 0 <= i < nrow m -> 0 <= j < ncol m -> (px m y x <= px m i j)%R) /\
  (forall i j, 0 <= i < nrow m -> 0 <= j < ncol m -> i < y \/ (i = y /\ j < x) -> (px m y x < px m i j)%R).
Proof.
  unfold first_max2, inverted. cbn [nrow ncol px].
  split; intros (A & B & C & D); (split; [exact A|]; split; [exact B|]; split); intros i j Hi Hj.
  - pose proof (C i j Hi Hj). lra.
  - intros L. pose proof (D i j Hi Hj L). lra.
  - pose proof (C i j Hi Hj). lra.
  - intros L. pose proof (D i j Hi Hj L). lra.
Qed.

Lemma if_pair (b : bool) (A B : R) : exists t v, (if b then (A, B) else (1, 1)%R) = (t, v) /\ (b = true -> t = A /\ v = B).
Proof. destruct b; eexists _, _; (split; [reflexivity|]); intros Q; [auto|discriminate]. Qed.
Section pixel.
Context (polyfit2 : vec R -> R * R) (surface : img R -> R * R * R * R * R).
Context (taper : Z -> R) (ref mat : vol R) (r m : Z) (dark : bool).
Let n := 2 * r + 1.
Let d := dep ref.
Let H := hei ref.
Let W := wid ref.
Let e := r + m.
Let outer a b := (taper a * taper b)%R.
Let total_w := rsum2 n n outer.
Let w a b := (outer a b / total_w)%R.
Definition uwindow : img R := mkimg n n w.
Let im := overall_mean ref.
Definition ul1 := correlate_same (sum_stack mat (fun x => x ^ 2)%R) uwindow.
Definition ul3 := correlate_same (sum_stack ref (fun x => x ^ 2)%R) uwindow.
Definition uim := (rmean2i (sum_stack ref (fun x => x)) / IZR d)%R.
Definition ul2 := (uim ^ 2 * IZR d)%R.
Definition ul4 := imap (fun x => uim * x)%R (correlate_same (sum_stack mat (fun x => x)) uwindow).
Definition ul6 := imap (fun x => uim * x)%R (correlate_same (sum_stack ref (fun x => x)) uwindow).

Hypothesis (Tp : forall k, 0 <= k < n -> (0 < taper k)%R) (Sp : speckled dark ref r).
Hypothesis (Dm : dep mat = d) (Hm : hei mat = H) (Wm : wid mat = W) (D1 : 1 <= d) (R0 : 0 <= r) (M1 : 1 <= m).
Hypothesis (He : 2 * e + 1 <= H) (We : 2 * e + 1 <= W).
Lemma n_pos : 0 < n. Proof using All. unfold n. lia. Qed.
Lemma outer_pos a b : 0 <= a < n -> 0 <= b < n -> (0 < outer a b)%R.
Proof using All. intros A B. apply Rmult_lt_0_compat; apply Tp; assumption. Qed.
Lemma total_pos : (0 < total_w)%R.
Proof using All.
  pose proof n_pos as Np. apply rsum_pos with 0; [|lia|].
  - intros a Ha. apply rsum_nonneg. intros b Hb. left. apply outer_pos; assumption.
  - apply rsum_pos with 0; [|lia|apply outer_pos; lia]. intros b Hb. left. apply outer_pos; lia.
Qed.
Lemma w_pos a b : 0 <= a < n -> 0 <= b < n -> (0 < w a b)%R.
Proof using All. intros A B. apply Rdiv_lt_0_compat; [apply outer_pos; assumption|apply total_pos]. Qed.
Lemma w_one : rsum2 n n w = 1%R.
Proof using All.
  pose proof total_pos as P. rewrite (rsum2_ext _ _ _ (fun a b => / total_w * outer a b)%R) by (intros; unfold w; field; lra).
  rewrite rsum2_scal. fold total_w. field. lra.
Qed.
Lemma uim_mean : uim = im.
Proof using All.
  assert (0 < IZR d)%R by (apply IZR_lt; lia). assert (0 < IZR H)%R by (apply IZR_lt; unfold e in He; lia). assert (0 < IZR W)%R by (apply IZR_lt; unfold e in We; lia).
  unfold uim, im, rmean2i, overall_mean, sum_stack. cbn [nrow ncol px]. rewrite rsum3_swap. fold d H W. field. lra.
Qed.
Lemma corr_same_at v f i j : hei v = H -> wid v = W -> r <= i < H - r -> r <= j < W - r ->
  px (correlate_same (sum_stack v f) uwindow) i j = wsum (dep v) n w (fun q y x => f (vx v q (i - r + y) (j - r + x))).
Proof.
  intros Hv Wv Hi Hj. unfold wsum. rewrite rsum3_swap. unfold correlate_same, sum_stack, uwindow. cbn [nrow ncol px].
  apply rsum2_ext. intros a b Ha Hb. replace ((n - 1) / 2) with r by (unfold n; apply Z.div_unique_pos with 0; lia).
  replace (i + a - r) with (i - r + a) by lia. replace (j + b - r) with (j - r + b) by lia. rewrite Hv, Wv. unfold n in Ha, Hb.
  destruct (Z.leb_spec 0 (i - r + a)); [|lia]. destruct (Z.ltb_spec (i - r + a) H); [|lia].
  destruct (Z.leb_spec 0 (j - r + b)); [|lia]. destruct (Z.ltb_spec (j - r + b) W); [|lia]. cbn [andb].
  rewrite <- rsum_scal_r. apply rsum_ext. intros. ring.
Qed.

Section at_pixel.
Context (i j : Z).
Hypothesis (Hi : e <= i < H - e) (Hj : e <= j < W - e).
Let S q y x := vx mat q (i - r + y) (j - r + x).
Let Rf dy dx q y x := vx ref q (i + dy - r + y) (j + dx - r + x).
Definition pfit (u v : Z) : R * R * R :=
  umpa_fit dark (wsum d n w (fun q y x => S q y x ^ 2)%R) (im ^ 2 * IZR d)%R (wsum d n w (fun q y x => Rf (u - m) (v - m) q y x ^ 2)%R)
    (im * wsum d n w S)%R (wsum d n w (fun q y x => Rf (u - m) (v - m) q y x * S q y x)%R) (im * wsum d n w (Rf (u - m) (v - m)))%R.
Lemma misfit_scaled dy dx k b : misfit taper ref mat r i j dy dx k b = (total_w * left_over d n w S (Rf dy dx) im k b)%R.
Proof using All.
  pose proof total_pos as P. unfold misfit, left_over, wsum. rewrite <- rsum3_scal. apply rsum3_ext. intros q y x Hq Hy Hx.
  unfold w, outer, S, Rf, im. field. lra.
Qed.
Lemma pfit_best u v : 0 <= u < 2 * m + 1 -> 0 <= v < 2 * m + 1 ->
  snd (pfit u v) = (misfit taper ref mat r i j (u - m) (v - m) (fst (fst (pfit u v))) (snd (fst (pfit u v))) / total_w)%R /\
  (dark = false -> snd (fst (pfit u v)) = 0%R) /\
  forall k' b', (dark = false -> b' = 0%R) ->
    (misfit taper ref mat r i j (u - m) (v - m) (fst (fst (pfit u v))) (snd (fst (pfit u v))) <= misfit taper ref mat r i j (u - m) (v - m) k' b')%R /\
    (misfit taper ref mat r i j (u - m) (v - m) k' b' <= misfit taper ref mat r i j (u - m) (v - m) (fst (fst (pfit u v))) (snd (fst (pfit u v))) ->
     k' = fst (fst (pfit u v)) /\ b' = snd (fst (pfit u v)))%R.
Proof using All.
  intros Hu Hv. pose proof total_pos as P. destruct Sp as (S1 & S2).
  assert (V : if dark then im <> 0%R /\ ~ (exists c, forall q y x, 0 <= q < d -> 0 <= y < n -> 0 <= x < n -> Rf (u - m) (v - m) q y x = c)
              else ~ (forall q y x, 0 <= q < d -> 0 <= y < n -> 0 <= x < n -> Rf (u - m) (v - m) q y x = 0%R)).
  { specialize (S2 (i + (u - m)) (j + (v - m)) ltac:(fold H; unfold e in *; lia) ltac:(fold W; unfold e in *; lia)). cbv zeta in S2. destruct dark.
    - split; [apply S1; reflexivity|]. intros (c & C). apply (S2 c). intros q y x Hq Hy Hx. exact (C q y x Hq Hy Hx).
    - intros C. apply S2. intros q y x Hq Hy Hx. exact (C q y x Hq Hy Hx). }
  pose proof (fit_minimal d n w S (Rf (u - m) (v - m)) im w_pos w_one D1 dark V (im ^ 2 * IZR d)%R (im * wsum d n w S)%R (im * wsum d n w (Rf (u - m) (v - m)))%R
    ltac:(intros; auto)) as F.
  fold (pfit u v) in F. destruct (pfit u v) as ((k & b) & c). cbn [fst snd]. destruct F as (F1 & F2 & F3). rewrite !misfit_scaled. split; [rewrite F1; field; lra|].
  split; [exact F2|]. intros k' b' B. destruct (F3 k' b' B) as (G1 & G2). rewrite misfit_scaled. split.
  - apply Rmult_le_compat_l; lra.
  - intros L. apply G2. apply (Rmult_le_reg_l total_w); lra.
Qed.

(** ** the CPU *)
Definition cpu_px (meth : method) (size : Z) : res quad :=
  calc_shift_umpa polyfit2 surface (pvol ref i j e) (pvol mat i j r) uwindow m (px ul1 i j) (pimg ul3 i j m)
    (if dark then ul2 else 0%R) (if dark then px ul4 i j else 0%R) (if dark then pimg ul6 i j m else mkimg (2 * m + 1) (2 * m + 1) (fun _ _ => 0%R)) dark meth size.
Let cfit u v : R * R * R := umpa_fit dark (px ul1 i j) (if dark then ul2 else 0%R) (px (pimg ul3 i j m) u v) (if dark then px ul4 i j else 0%R)
  (rsum d (fun k => px (correlate_valid (image (pvol ref i j e) k) (mkimg n n (fun a b => px uwindow a b * vx (pvol mat i j r) k a b)%R)) u v))
  (px (if dark then pimg ul6 i j m else mkimg (2 * m + 1) (2 * m + 1) (fun _ _ => 0%R)) u v).
Lemma valid_t5 u v : rsum d (fun k => px (correlate_valid (image (pvol ref i j e) k) (mkimg n n (fun a b => px uwindow a b * vx (pvol mat i j r) k a b)%R)) u v) =
  wsum d n w (fun q y x => Rf (u - m) (v - m) q y x * S q y x)%R.
Proof.
  unfold wsum, rsum3. apply rsum_ext. intros k Hk. cbn [correlate_valid px nrow ncol image pvol vx uwindow]. apply rsum2_ext. intros a b Ha Hb.
  unfold Rf, S. replace (i - e + (u + a)) with (i + (u - m) - r + a) by (unfold e; lia). replace (j - e + (v + b)) with (j + (v - m) - r + b) by (unfold e; lia). ring.
Qed.
Lemma tables u v : 0 <= u < 2 * m + 1 -> 0 <= v < 2 * m + 1 ->
  px ul1 i j = wsum d n w (fun q y x => S q y x ^ 2)%R /\ px ul4 i j = (im * wsum d n w S)%R /\
  px (pimg ul3 i j m) u v = wsum d n w (fun q y x => Rf (u - m) (v - m) q y x ^ 2)%R /\
  px (pimg ul6 i j m) u v = (im * wsum d n w (Rf (u - m) (v - m)))%R /\ ul2 = (im ^ 2 * IZR d)%R.
Proof using All.
  intros Hu Hv. unfold ul1, ul3, ul4, ul6, ul2. cbn [pimg imap px]. rewrite uim_mean.
  rewrite !corr_same_at by (unfold e in *; try reflexivity; try assumption; lia). rewrite Dm.
  split; [reflexivity|]. split; [reflexivity|].
  assert (Eq : forall q y x, vx ref q (i - m + u - r + y) (j - m + v - r + x) = Rf (u - m) (v - m) q y x) by (intros; unfold Rf; f_equal; lia).
  split; [apply wsum_ext; intros; cbv beta; rewrite <- Eq; reflexivity|]. split; [f_equal; apply wsum_ext; intros; apply Eq|reflexivity].
Qed.
Lemma cfit_pfit u v : 0 <= u < 2 * m + 1 -> 0 <= v < 2 * m + 1 -> cfit u v = pfit u v.
Proof using All.
  intros Hu Hv. destruct (tables u v Hu Hv) as (E1 & E4 & E3 & E6 & E2). unfold cfit, pfit. rewrite valid_t5, E1, E3. destruct dark.
  - rewrite E4, E6, E2. reflexivity.
  - unfold umpa_fit. cbn [px]. f_equal. ring.
Qed.
(** results of either device from the position of the peak *)
Lemma found x y u0 v0 (near : Prop) : 0 <= u0 < 2 * m + 1 -> 0 <= v0 < 2 * m + 1 ->
  (forall u v, 0 <= u < 2 * m + 1 -> 0 <= v < 2 * m + 1 -> (snd (pfit u0 v0) <= snd (pfit u v))%R) ->
  (0 <= x <= IZR (2 * m))%R -> (0 <= y <= IZR (2 * m))%R -> (near -> Rabs (x - IZR v0) < 1 /\ Rabs (y - IZR u0) < 1)%R ->
  forall t v, let f := pfit (round_even y) (round_even x) in
  (dark = true -> t = Rabs (snd (fst f) + fst (fst f)) /\ (snd (fst f) + fst (fst f) <> 0 -> v = Rabs (fst (fst f) / (snd (fst f) + fst (fst f)))))%R ->
  tracked dark taper ref mat r m i j near (x - IZR m) (y - IZR m) t v.
Proof using All.
  intros Hu Hv Mn Bx By Nr t v f T. pose proof total_pos as P.
  rewrite mult_IZR in Bx, By. split; [split; apply Rabs_le; lra|]. split.
  - destruct (pfit_best u0 v0 Hu Hv) as (C & B & Q). exists (u0 - m), (v0 - m), (fst (fst (pfit u0 v0))), (snd (fst (pfit u0 v0))). split.
    + split; [lia|]. split; [lia|]. split; [exact B|]. intros dy' dx' k' b' Hy' Hx' B'.
      destruct (pfit_best (dy' + m) (dx' + m)) as (C' & _ & Q'); [lia..|]. specialize (Mn (dy' + m) (dx' + m) ltac:(lia) ltac:(lia)). rewrite C, C' in Mn.
      destruct (Q' k' b' B') as (L & _). replace (dy' + m - m) with dy' in * by lia. replace (dx' + m - m) with dx' in * by lia.
      apply Rmult_le_reg_r in Mn; [lra|apply Rinv_0_lt_compat; exact P].
    + intros N. destruct (Nr N) as (N1 & N2). rewrite !minus_IZR.
      replace (x - IZR m - (IZR v0 - IZR m))%R with (x - IZR v0)%R by ring. replace (y - IZR m - (IZR u0 - IZR m))%R with (y - IZR u0)%R by ring. auto.
  - intros Dk. destruct (T Dk) as (T1 & T2).
    assert (Rx : 0 <= round_even x <= 2 * m) by (apply round_even_in; rewrite mult_IZR; lra).
    assert (Ry : 0 <= round_even y <= 2 * m) by (apply round_even_in; rewrite mult_IZR; lra).
    exists (round_even y - m), (round_even x - m), (fst (fst f)), (snd (fst f)). split; [lia|]. split; [lia|]. rewrite !minus_IZR.
    replace (x - IZR m - (IZR (round_even x) - IZR m))%R with (x - IZR (round_even x))%R by ring.
    replace (y - IZR m - (IZR (round_even y) - IZR m))%R with (y - IZR (round_even y))%R by ring.
    split; [apply round_even_near|]. split; [apply round_even_near|].
    destruct (pfit_best (round_even y) (round_even x)) as (_ & _ & Q); [lia..|]. split; [|rewrite (Rplus_comm (fst (fst f))); auto].
    intros k' b'. apply Q. intros F. rewrite F in Dk. discriminate.
Qed.
Lemma cpu_px_spec meth size : exists x y t v, cpu_px meth size = Ok (x, y, (t, v)) /\ tracked dark taper ref mat r m i j (meth <> PolyFit) x y t v.
Proof using All.
  unfold cpu_px, calc_shift_umpa. cbn [dep pvol hei wid]. fold n d. fold cfit.
  set (Dm' := mkimg (2 * m + 1) (2 * m + 1) (fun u v => snd (cfit u v))).
  destruct (argmax2_total (inverted Dm')) as (u0 & v0 & _ & F); [cbn [inverted nrow Dm']; lia|cbn [inverted ncol Dm']; lia|].
  destruct (locate_spec polyfit2 surface Dm' true meth false size false u0 v0 F) as (x & y & E & Bx & By & _ & Nr & _).
  apply inverted_first in F. destruct F as (Fu & Fv & Fm & _). cbn [nrow ncol Dm' px] in Fu, Fv, Fm, Bx, By.
  replace (2 * m + 1 - 1) with (2 * m) in Bx, By by lia.
  pose proof (round_even_in _ _ Bx) as Rx. pose proof (round_even_in _ _ By) as Ry.
  match goal with |- context [locate_peak _ _ ?D0 true meth false size false] => change D0 with Dm' end.
  rewrite E. cbn [bindr]. unfold rd2. cbn [nrow ncol px].
  destruct (Z.leb_spec 0 (round_even y)); [|lia]. destruct (Z.ltb_spec (round_even y) (2 * m + 1)); [|lia].
  destruct (Z.leb_spec 0 (round_even x)); [|lia]. destruct (Z.ltb_spec (round_even x) (2 * m + 1)); [|lia]. cbn [andb bindr].
  fold (cfit (round_even y) (round_even x)). rewrite (cfit_pfit (round_even y) (round_even x)) by lia.
  set (f := pfit (round_even y) (round_even x)).
  match goal with |- context [if dark then (?A, ?B) else _] => destruct (if_pair dark A B) as (t & v & -> & T) end.
  exists (x - IZR m)%R, (y - IZR m)%R, t, v. split; [reflexivity|]. apply (found x y u0 v0); try assumption.
  - intros u v' Hu Hv. rewrite <- !cfit_pfit by assumption. apply Fm; assumption.
  - intros Dk. fold f. destruct (T Dk) as (-> & ->). split; [reflexivity|]. intros _. reflexivity.
Qed.

(** ** the GPU *)
Let gfit u v : R * R * R := umpa_fit dark (px ul1 i j) ul2 (px (pimg ul3 i j m) u v) (px ul4 i j)
  (rsum d (fun k => px (accu_correlate (image (pvol ref i j e) k) (image (pvol mat i j r) k) uwindow) u v)) (px (pimg ul6 i j m) u v).
Definition gpu_px : quad :=
  let dm := invert_values (mkimg (2 * m + 1) (2 * m + 1) (fun u v => snd (gfit u v))) in
  let (x_max, y_max) := locate_max_value dm in
  let (x_pos, y_pos) := locate_2d_peak_kernel dm x_max y_max in
  let j1 := round_even x_pos in let i1 := round_even y_pos in
  let k := fst (fst (gfit i1 j1)) in let a := (snd (fst (gfit i1 j1)) + k)%R in
  (x_pos - IZR m, y_pos - IZR m, (if dark then (Rabs a, Rabs (if Reqb a 0 then 0 else k / a)) else (1, 1)))%R.
Lemma gfit_pfit u v : 0 <= u < 2 * m + 1 -> 0 <= v < 2 * m + 1 -> gfit u v = pfit u v.
Proof using All.
  intros Hu Hv. destruct (tables u v Hu Hv) as (E1 & E4 & E3 & E6 & E2). unfold gfit, pfit. rewrite E1, E2, E3, E4, E6. f_equal.
  unfold wsum, rsum3. apply rsum_ext. intros k Hk. cbn [accu_correlate px nrow ncol image pvol vx uwindow hei wid islice].
  fold n. rewrite !slice_len, !slice_at by (unfold n, e; lia). apply rsum2_ext. intros a b Ha Hb.
  unfold Rf, S. replace (i - e + (u + a)) with (i + (u - m) - r + a) by (unfold e; lia). replace (j - e + (v + b)) with (j + (v - m) - r + b) by (unfold e; lia). ring.
Qed.
Lemma gpu_px_spec : exists x y t v, gpu_px = (x, y, (t, v)) /\ tracked dark taper ref mat r m i j True x y t v.
Proof using All.
  unfold gpu_px. rewrite invert_inverted by (cbn [nrow ncol]; lia). set (D0 := mkimg (2 * m + 1) (2 * m + 1) (fun u v => snd (gfit u v))).
  destruct (max_value_first (inverted D0)) as (u0 & v0 & -> & F); [cbn [inverted nrow ncol D0]; lia..|].
  pose proof (kernel_near (inverted D0) u0 v0) as (K1 & K2). pose proof (kernel_boundary (inverted D0) u0 v0 F) as Kb.
  apply inverted_first in F. destruct F as (Fu & Fv & Fm & _). cbn [nrow ncol D0 px inverted] in Fu, Fv, Fm, Kb.
  destruct (locate_2d_peak_kernel (inverted D0) v0 u0) as (x & y). cbn [fst snd] in K1, K2. replace (2 * m + 1 - 1) with (2 * m) in Kb by lia.
  assert (B : (0 <= x <= IZR (2 * m))%R /\ (0 <= y <= IZR (2 * m))%R).
  { assert (Q : (0 < u0 < 2 * m /\ 0 < v0 < 2 * m) \/ ~ (0 < u0 < 2 * m /\ 0 < v0 < 2 * m)) by lia. destruct Q as [Q|Q].
    - apply Rabs_def2 in K1, K2. assert (1 <= IZR u0 <= IZR (2 * m) - 1)%R by (split; rewrite <- ?minus_IZR; apply IZR_le; lia).
      assert (1 <= IZR v0 <= IZR (2 * m) - 1)%R by (split; rewrite <- ?minus_IZR; apply IZR_le; lia). lra.
    - specialize (Kb Q). injection Kb as -> ->. split; split; apply IZR_le; lia. }
  destruct B as (Bx & By). pose proof (round_even_in _ _ Bx) as Rx. pose proof (round_even_in _ _ By) as Ry. cbv zeta.
  rewrite !(gfit_pfit (round_even y) (round_even x)) by lia. set (f := pfit (round_even y) (round_even x)).
  match goal with |- context [if dark then (?A, ?B) else _] => destruct (if_pair dark A B) as (t & v & -> & T) end.
  exists (x - IZR m)%R, (y - IZR m)%R, t, v. split; [reflexivity|]. apply (found x y u0 v0); try assumption.
  - intros u v' Hu Hv. rewrite <- !gfit_pfit by assumption. apply Fm; assumption.
  - intros _. split; assumption.
  - intros Dk. fold f. destruct (T Dk) as (-> & ->). split; [reflexivity|]. intros N. rewrite (proj2 (Reqb_f _ 0) N). reflexivity.
Qed.
Lemma gpu_cpu_px size : (forall dy dx k b, fits_best dark taper ref mat r m i j dy dx k b -> Z.abs dy < m /\ Z.abs dx < m) ->
  exists x y t v v', gpu_px = (x, y, (t, v)) /\ cpu_px Diff size = Ok (x, y, (t, v')) /\ (t <> 0%R -> v = v').
Proof using All.
  intros In. unfold gpu_px, cpu_px, calc_shift_umpa. cbn [dep pvol hei wid]. fold n d. fold cfit.
  rewrite invert_inverted by (cbn [nrow ncol]; lia). set (D0 := mkimg (2 * m + 1) (2 * m + 1) (fun u v => snd (gfit u v))).
  set (D1' := mkimg (2 * m + 1) (2 * m + 1) (fun u v => snd (cfit u v))).
  assert (Eq : forall u v, 0 <= u < 2 * m + 1 -> 0 <= v < 2 * m + 1 -> snd (gfit u v) = snd (cfit u v)).
  { intros u v Hu Hv. rewrite gfit_pfit, cfit_pfit by assumption. reflexivity. }
  assert (V : img_eq (inverted D0) (inverted D1')).
  { split; [reflexivity|]. split; [reflexivity|]. unfold in_rng. cbn [inverted nrow ncol px D0 D1']. intros a b Ha Hb. f_equal; [|apply Eq; lia].
    f_equal. apply map_ext_in. intros k Hk. apply zrange_In in Hk. apply Eq; [|apply Z.mod_pos_bound; lia].
    split; [apply Z.div_pos; lia|apply Z.div_lt_upper_bound; nia]. }
  destruct (max_value_first (inverted D0)) as (u0 & v0 & -> & F); [cbn [inverted nrow ncol D0]; lia..|].
  pose proof (first_max2_ext _ _ _ _ V F) as F'.
  assert (Mid : 0 < u0 < 2 * m /\ 0 < v0 < 2 * m).
  { pose proof F as G. apply inverted_first in G. destruct G as (Gu & Gv & Gm & _). cbn [nrow ncol D0 px] in Gu, Gv, Gm.
    set (f0 := pfit (round_even (IZR u0)) (round_even (IZR v0))).
    destruct (found (IZR v0) (IZR u0) u0 v0 True) with (t := Rabs (snd (fst f0) + fst (fst f0))) (v := Rabs (fst (fst f0) / (snd (fst f0) + fst (fst f0))))
      as (_ & (dy & dx & k & b & Fb & Nr) & _); try assumption.
    - intros u v Hu Hv. rewrite <- !gfit_pfit by assumption. apply Gm; assumption.
    - split; apply IZR_le; lia.
    - split; apply IZR_le; lia.
    - intros _. rewrite !Rminus_diag_eq, Rabs_R0 by reflexivity. lra.
    - intros _. auto.
    - destruct (In _ _ _ _ Fb) as (I1 & I2). destruct (Nr I) as (N1 & N2). apply Rabs_def2 in N1, N2. rewrite <- !minus_IZR in N1, N2.
      destruct N1 as (N1 & N1'). destruct N2 as (N2 & N2'). assert (Ng : IZR (-1) = (- (1))%R) by lra. assert (-1 < v0 - m - dx) by (apply lt_IZR; lra). assert (v0 - m - dx < 1) by (apply lt_IZR; lra). assert (-1 < u0 - m - dy) by (apply lt_IZR; lra). assert (u0 - m - dy < 1) by (apply lt_IZR; lra). lia. }
  pose proof (kernel_ext _ _ u0 v0 V ltac:(cbn [inverted nrow ncol D0]; lia) ltac:(cbn [inverted nrow ncol D0]; lia)) as Ke.
  pose proof (peak_interior polyfit2 surface (inverted D1') u0 v0 size F' ltac:(cbn [inverted nrow ncol D1']; lia) ltac:(cbn [inverted nrow ncol D1']; lia)) as Lp.
  rewrite <- Ke in Lp.
  pose proof (kernel_near (inverted D0) u0 v0) as (K1 & K2).
  destruct (locate_2d_peak_kernel (inverted D0) v0 u0) as (x & y). cbn [fst snd] in K1, K2.
  assert (B : (0 <= x <= IZR (2 * m))%R /\ (0 <= y <= IZR (2 * m))%R).
  { apply Rabs_def2 in K1, K2. assert (1 <= IZR u0 <= IZR (2 * m) - 1)%R by (split; rewrite <- ?minus_IZR; apply IZR_le; lia).
    assert (1 <= IZR v0 <= IZR (2 * m) - 1)%R by (split; rewrite <- ?minus_IZR; apply IZR_le; lia). lra. }
  destruct B as (Bx & By). pose proof (round_even_in _ _ Bx) as Rx. pose proof (round_even_in _ _ By) as Ry. cbv zeta.
  match goal with |- context [locate_peak _ _ ?D2 true Diff false size false] => change (locate_peak polyfit2 surface D2 true Diff false size false) with (locate_peak polyfit2 surface (inverted D1') true Diff false size true) end.
  rewrite Lp. cbn [bindr]. unfold rd2. cbn [nrow ncol px].
  destruct (Z.leb_spec 0 (round_even y)); [|lia]. destruct (Z.ltb_spec (round_even y) (2 * m + 1)); [|lia].
  destruct (Z.leb_spec 0 (round_even x)); [|lia]. destruct (Z.ltb_spec (round_even x) (2 * m + 1)); [|lia]. cbn [andb bindr].
  fold (cfit (round_even y) (round_even x)). rewrite (cfit_pfit (round_even y) (round_even x)) by lia.
  rewrite !(gfit_pfit (round_even y) (round_even x)) by lia. set (f := pfit (round_even y) (round_even x)).
  match goal with |- context [Rabs (if Reqb ?a 0 then 0 else ?b)%R] => 
    destruct (if_pair dark (Rabs a) (Rabs (if Reqb a 0 then 0 else b)%R)) as (t & v & E1 & T);
    destruct (if_pair dark (Rabs a) (Rabs b)) as (t' & v' & E2 & T') end.
  rewrite E1, E2. assert (Tt : t = t' /\ (t <> 0%R -> v = v')).
  { destruct (Bool.bool_dec dark true) as [Dk|Dk].
    - destruct (T Dk) as (-> & ->). destruct (T' Dk) as (-> & ->). split; [reflexivity|]. intros N. f_equal.
      destruct (Reqb _ 0) eqn:Q; [|reflexivity]. apply Reqb_t in Q. rewrite Q, Rabs_R0 in N. congruence.
    - apply Bool.not_true_is_false in Dk. rewrite Dk in E1, E2. injection E1 as <- <-. injection E2 as <- <-. auto. }
  destruct Tt as (<- & Tv). exists (x - IZR m)%R, (y - IZR m)%R, t, v, v'. split; [reflexivity|]. split; [reflexivity|exact Tv].
Qed.
End at_pixel.
End pixel.
