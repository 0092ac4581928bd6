(** Theorems about phase correlation (C111). *)
From Coq Require Import Reals Lra ZArith Lia Bool.
From Verif Require Import Np P_Np M_phase_R P_phase_R M_simR P_simR M_corr P_corr2 M_fourier P_fourier M_phasecorr S_phasecorr P_phasecorr P_phasecorr2.
Open Scope Z_scope.

(** gradient=False: the displacement of an image moved cyclically is found exactly, as the shortest one *)
Theorem phase_correlation_finds_the_displacement : forall mat1 mat2 s t, 0 < nrow mat1 -> 0 < ncol mat1 -> moved mat1 mat2 s t -> rich_image mat1 ->
  exists s' t', find_shift_based_phase_correlation mat1 mat2 false = Ok (IZR s', IZR t') /\ shortest (nrow mat1) s s' /\ shortest (ncol mat1) t t'.
Proof. exact plain_found. Qed.
Print Assumptions phase_correlation_finds_the_displacement.
(** gradient=True: the same for a feature on a uniform background that stays four pixels away from the border *)
Theorem phase_correlation_of_gradients_finds_the_displacement : forall mat1 mat2 s t, 0 < nrow mat1 -> 0 < ncol mat1 ->
  moved mat1 mat2 s t -> flat_border mat1 -> flat_border mat2 -> rich_differences mat1 ->
  exists s' t', find_shift_based_phase_correlation mat1 mat2 true = Ok (IZR s', IZR t') /\ shortest (nrow mat1) s s' /\ shortest (ncol mat1) t t'.
Proof. exact gradient_found. Qed.
Print Assumptions phase_correlation_of_gradients_finds_the_displacement.
(** the shortest displacement is unique, so a displacement of less than half the image is returned itself *)
Theorem shortest_displacement : forall n s s', 0 < n -> - n < 2 * s <= n -> (shortest n s s' <-> s' = s).
Proof.
  intros n s s' Hn B. split; [intros H; apply (center_of_shift n s s' Hn H B)|intros ->]. split; [rewrite Z.sub_diag; apply Z.mod_0_l; lia|exact B].
Qed.
Print Assumptions shortest_displacement.
(** the centre of rotation from two mirrored projections: the mirror axis *)
Theorem phase_correlation_finds_the_center : forall mat1 mat2 c2, 0 < nrow mat1 -> 0 < ncol mat1 -> mirror_image mat1 mat2 c2 ->
  - ncol mat1 < 2 * (c2 - (ncol mat1 - 1)) <= ncol mat1 ->
  (rich_image mat1 -> find_center_based_phase_correlation mat1 mat2 true false = Ok (IZR c2 / 2)%R) /\
  (flat_border mat1 -> flat_border mat2 -> rich_differences mat1 -> find_center_based_phase_correlation mat1 mat2 true true = Ok (IZR c2 / 2)%R).
Proof.
  intros mat1 mat2 c2 Hh Hw M B. assert (Mv := mirror_moved mat1 mat2 c2 Hh Hw M). unfold find_center_based_phase_correlation. split.
  - intros Hr. destruct (plain_found _ _ _ _ Hh Hw Mv Hr) as (s' & t' & -> & _ & T). cbn [bindr snd]. rewrite (center_of_shift _ _ _ Hw T B).
    f_equal. rewrite !minus_IZR. lra.
  - intros F1 F2 Hr. destruct (gradient_found _ _ _ _ Hh Hw Mv F1 (flat_border_flip _ F2) Hr) as (s' & t' & -> & _ & T). cbn [bindr snd]. rewrite (center_of_shift _ _ _ Hw T B).
    f_equal. rewrite !minus_IZR. lra.
Qed.
Print Assumptions phase_correlation_finds_the_center.
(** images of different shapes are not compared *)
Theorem phase_correlation_shapes : forall mat1 mat2 gradient, (nrow mat1, ncol mat1) <> (nrow mat2, ncol mat2) ->
  find_shift_based_phase_correlation mat1 mat2 gradient = Err ValueError.
Proof.
  intros mat1 mat2 gradient N. unfold find_shift_based_phase_correlation. destruct (Z.eqb_spec (nrow mat1) (nrow mat2)) as [A|A]; [|reflexivity].
  destruct (Z.eqb_spec (ncol mat1) (ncol mat2)) as [B|B]; [|reflexivity]. exfalso. apply N. congruence.
Qed.
Print Assumptions phase_correlation_shapes.

(** The differences used with gradient=True: over two pixels, zero in the outer two rows and columns. *)
Theorem gradient_of_image : forall m, nrow (complex_gradient m) = nrow m /\ ncol (complex_gradient m) = ncol m /\
  forall i j, in_rng (nrow m) i -> in_rng (ncol m) j ->
    (2 <= j < ncol m - 2 -> fst (px (complex_gradient m) i j) = (px m i (j + 2)%Z - px m i j)%R) /\
    (j < 2 \/ ncol m - 2 <= j -> fst (px (complex_gradient m) i j) = 0%R) /\
    (2 <= i < nrow m - 2 -> snd (px (complex_gradient m) i j) = (px m (i + 2)%Z j - px m i j)%R) /\
    (i < 2 \/ nrow m - 2 <= i -> snd (px (complex_gradient m) i j) = 0%R).
Proof.
  intros m. split; [reflexivity|]. split; [reflexivity|]. unfold in_rng. intros i j Hi Hj. cbn [complex_gradient px fst snd]. unfold edge2.
  repeat split; intros H.
  - destruct (Z.ltb_spec j 2); [lia|]. destruct (Z.leb_spec (ncol m - 2) j); [lia|]. cbn [orb]. rewrite Z.mod_small by lia. reflexivity.
  - destruct (Z.ltb_spec j 2); [reflexivity|]. destruct (Z.leb_spec (ncol m - 2) j); [reflexivity|lia].
  - destruct (Z.ltb_spec i 2); [lia|]. destruct (Z.leb_spec (nrow m - 2) i); [lia|]. cbn [orb]. rewrite Z.mod_small by lia. reflexivity.
  - destruct (Z.ltb_spec i 2); [reflexivity|]. destruct (Z.leb_spec (nrow m - 2) i); [reflexivity|lia].
Qed.
Print Assumptions gradient_of_image.
Example gradient_of_image_example : let m := mkimg 6 6 (fun i j => IZR (i * j)) in
  px (complex_gradient m) 3 2 = (6, 4)%R /\ px (complex_gradient m) 3 4 = (0, 8)%R.
Proof. cbv zeta. cbn [complex_gradient px nrow ncol]. change (edge2 6 2) with false. change (edge2 6 3) with false. change (edge2 6 4) with true. cbv iota.
  change ((2 + 2) mod 6) with 4. change ((3 + 2) mod 6) with 5. rewrite <- !minus_IZR. split; f_equal. Qed.
(** Sub-pixel refinement: around the highest value of the correlation map (cyclic), each coordinate is the top of the parabola through the highest
    value and its two neighbours; more than half the size counts as negative. *)
Theorem phase_correlation_refined : forall (mat1 mat2 : img R) (gradient : bool), 0 < nrow mat1 -> 0 < ncol mat1 -> nrow mat2 = nrow mat1 -> ncol mat2 = ncol mat1 ->
  let c (m : img R) := if gradient then complex_gradient m else imap c_ m in
  let map := phase_map (c mat1) (c mat2) in let h := nrow mat1 in let w := ncol mat1 in
  exists i j sy sx, in_rng h i /\ in_rng w j /\ (forall i' j', in_rng h i' -> in_rng w j' -> (px map i' j' <= px map i j)%R) /\
    parabola_top i (px map ((i - 1) mod h) j) (px map i j) (px map ((i + 1) mod h) j) sy /\
    parabola_top j (px map i ((j - 1) mod w)) (px map i j) (px map i ((j + 1) mod w)) sx /\
    find_shift_based_phase_correlation mat1 mat2 gradient =
      Ok (if Rlt_dec (IZR (h / 2)) sy then sy - IZR h else sy, if Rlt_dec (IZR (w / 2)) sx then sx - IZR w else sx)%R.
Proof.
  intros mat1 mat2 gradient Hh Hw E1 E2 c map h w.
  assert (Sz : nrow map = h /\ ncol map = w) by (unfold map, phase_map, c; destruct gradient; split; reflexivity). destruct Sz as (S1 & S2).
  destruct (argmax2_total map) as (i & j & Ea & F); [rewrite ?S1, ?S2; unfold h, w; lia..|]. destruct F as (Fi & Fj & Fm & _). rewrite S1, S2 in *.
  assert (T : forall x v0 v1 v2, parabola_top x v0 v1 v2 (refine x v0 v1 v2)).
  { intros x v0 v1 v2. set (a := ((v0 - 2 * v1 + v2) / 2)%R). set (b := ((v2 - v0) / 2 - 2 * a * IZR x)%R).
    exists a, b, (v1 - a * IZR x ^ 2 - b * IZR x)%R. split; [cbv zeta; unfold b, a; repeat split; field|].
    unfold refine, polyfit3. fold a. fold b. destruct (Req_EM_T a 0) as [A|A]; [right; auto|].
    assert (V : (2 * a * (- b / (2 * a)) + b = 0)%R) by (field; exact A).
    assert (U : forall z, (2 * a * z + b = 0 -> z = - b / (2 * a))%R) by (intros z Z; apply (Rmult_eq_reg_l (2 * a)); [rewrite <- (Rplus_0_r (2 * a * z)); lra|lra]).
    destruct (Rle_dec (IZR x - 1) (- b / (2 * a))) as [L1|L1]; [destruct (Rle_dec (- b / (2 * a)) (IZR x + 1)) as [L2|L2] |].
    - left. auto.
    - right. split; [|reflexivity]. right. intros z Z. rewrite (U z Z). lra.
    - right. split; [|reflexivity]. right. intros z Z. rewrite (U z Z). lra. }
  eexists i, j, _, _. split; [exact Fi|]. split; [exact Fj|]. split; [exact Fm|]. split; [apply T|]. split; [apply T|].
  unfold find_shift_based_phase_correlation. rewrite E1, E2, !Z.eqb_refl. cbn [andb negb]. cbv zeta. match goal with |- context [argmax2 ?A] => change A with map end. rewrite Ea. cbn [bindr]. fold h w. unfold wrap.
  f_equal. f_equal; (destruct (Rlt_dec _ _); [ring|reflexivity]).
Qed.
Print Assumptions phase_correlation_refined.
Example phase_correlation_refined_example : parabola_top 3 5 9 7 (19 / 6)%R /\ forall m : img R, nrow m = 4 -> ncol m = 6 -> 0 < nrow m /\ 0 < ncol m.
Proof. split; [|intros; lia]. exists (-3)%R, 19%R, (-21)%R. split; [cbv zeta; repeat split; field|left; repeat split; lra]. Qed.

(** one bright pixel, moved one row and two columns; the flipped image has its pixel mirrored *)
Definition dot (h w p q : Z) : img R := mkimg h w (fun i j => if (i =? p) && (j =? q) then 1%R else 0%R).
Lemma dot_rich h w p q : in_rng h p -> in_rng w q -> rich_image (dot h w p q).
Proof.
  intros Hp Hq. unfold in_rng in *. unfold rich_image, rich. cbn [nrow ncol dot px].
  split; exists 0, 0; (split; [unfold in_rng; lia|]; split; [unfold in_rng; lia|]; split; apply dot_frequency; assumption).
Qed.
Lemma root16 : (snd (root 16 2) > 0)%R.
Proof.
  unfold root. cbn [snd]. replace (2 * PI * 2 / 16)%R with (PI / 4)%R by field. apply sin_gt_0; assert (P := PI_RGT_0); lra.
Qed.
Lemma dot_rich_differences p q : in_rng 16 p -> in_rng 16 q -> rich_differences (dot 16 16 p q).
Proof.
  intros Hp Hq. assert (S := root16). assert (Z0 : root 16 0 = c_ 1) by apply root_0.
  assert (K : forall u v, cadd (csub (root 16 (2 * v)) (c_ 1)) (cmul (0%R, 1%R) (csub (root 16 (2 * u)) (c_ 1))) <> (0, 0)%R ->
    frequency 16 16 (fun i j => px (dot 16 16 p q) i ((j + 2) mod 16) - px (dot 16 16 p q) i j)%R (fun i j => px (dot 16 16 p q) ((i + 2) mod 16) j - px (dot 16 16 p q) i j)%R u v <> (0, 0)%R).
  { intros u v N E. assert (D := dot_frequency 16 16 p q u v Hp Hq). assert (F := differences_frequency (dot 16 16 p q) u v eq_refl eq_refl).
    cbn [nrow ncol px dot] in E, F, D. rewrite F in E. clear F. set (g := frequency _ _ _ _ u v) in *. clearbody g. set (f := cadd _ _) in *. clearbody f.
    apply (f_equal cabs) in E. rewrite cabs_mul in E. change (0%R, 0%R) with (c_ 0) in E, D, N. rewrite (cabs_nonneg_real 0) in E by lra. apply Rmult_integral in E.
    destruct E as [E|E]; apply cabs_zero in E; contradiction. }
  set (e := root 16 2) in *. destruct e as [ex ey] eqn:Ee. cbn [snd] in S. 
  unfold rich_differences, rich. cbn [nrow ncol dot].
  split; [exists 0, 1|exists 1, 0]; (split; [unfold in_rng; lia|]; split; [unfold in_rng; lia|]; split; apply K);
    [change (2 * 0) with 0|change (2 * ((0 + 1) mod 16)) with 2|change (2 * 0) with 0|change (2 * ((0 + 1) mod 16)) with 2];
    change (2 * 1) with 2; change (root 16 2) with e; rewrite ?Z0, Ee; intros C;
    apply (f_equal fst) in C as C1; apply (f_equal snd) in C; unfold cadd, csub, copp, cmul, c_ in C, C1; cbn [fst snd] in C, C1; lra.
Qed.
Lemma dot_moved : moved (dot 16 16 8 9) (dot 16 16 7 7) 1 2.
Proof.
  split; [reflexivity|]. split; [reflexivity|]. unfold in_rng. cbn [nrow ncol dot px]. intros i j Hi Hj.
  assert (A : ((i - 1) mod 16 =? 7) = (i =? 8)) by lia. assert (B : ((j - 2) mod 16 =? 7) = (j =? 9)) by lia. rewrite A, B. reflexivity.
Qed.
Lemma dot_flat p q : 4 <= p < 12 -> 4 <= q < 12 -> flat_border (dot 16 16 p q).
Proof.
  intros Hp Hq. exists 0%R. unfold in_rng. cbn [nrow ncol dot px]. intros i j Hi Hj H.
  destruct (Z.eqb_spec i p) as [->|]; [|reflexivity]. destruct (Z.eqb_spec j q) as [->|]; [|reflexivity]. exfalso. lia.
Qed.
Example dot_displacement : forall gradient : bool, find_shift_based_phase_correlation (dot 16 16 8 9) (dot 16 16 7 7) gradient = Ok (1, 2)%R.
Proof.
  assert (K : forall s' t', shortest 16 1 s' -> shortest 16 2 t' -> s' = 1 /\ t' = 2).
  { intros s' t' A B. split; [apply (shortest_displacement 16 1 s')|apply (shortest_displacement 16 2 t')]; try assumption; lia. }
  intros [|].
  - destruct (phase_correlation_of_gradients_finds_the_displacement (dot 16 16 8 9) (dot 16 16 7 7) 1 2) as (s' & t' & -> & A & B);
      [reflexivity|reflexivity|exact dot_moved|apply dot_flat; lia|apply dot_flat; lia|apply dot_rich_differences; unfold in_rng; lia|].
    destruct (K s' t' A B) as (-> & ->). reflexivity.
  - destruct (phase_correlation_finds_the_displacement (dot 16 16 8 9) (dot 16 16 7 7) 1 2) as (s' & t' & -> & A & B);
      [reflexivity|reflexivity|exact dot_moved|apply dot_rich; unfold in_rng; lia|].
    destruct (K s' t' A B) as (-> & ->). reflexivity.
Qed.
(** a pixel in column 6 of one projection and 11 of the opposite one: the rotation axis is at 8.5 *)
Example dot_center : forall gradient : bool, find_center_based_phase_correlation (dot 16 16 7 6) (dot 16 16 7 11) true gradient = Ok (8.5)%R.
Proof.
  assert (M : mirror_image (dot 16 16 7 6) (dot 16 16 7 11) 17).
  { split; [reflexivity|]. split; [reflexivity|]. unfold in_rng. cbn [nrow ncol dot px]. intros i j Hi Hj.
    assert (A : ((17 - j) mod 16 =? 11) = (j =? 6)) by lia. rewrite A. reflexivity. }
  destruct (phase_correlation_finds_the_center (dot 16 16 7 6) (dot 16 16 7 11) 17) as (A & B); [reflexivity|reflexivity|exact M|cbn; lia|].
  intros [|]; [rewrite B|rewrite A]; try (apply dot_flat; lia); try (apply dot_rich_differences; unfold in_rng; lia); try (apply dot_rich; unfold in_rng; lia);
    f_equal; lra.
Qed.
Example dot_shapes : find_shift_based_phase_correlation (dot 16 16 8 9) (dot 16 15 7 7) true = Err ValueError.
Proof. apply phase_correlation_shapes. discriminate. Qed.
