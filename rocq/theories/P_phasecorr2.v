(** Proofs about phase correlation: displaced and mirrored images. *)
From Coq Require Import Reals Lra ZArith Lia Ring Bool.
From Verif Require Import Np P_Np M_phase_R P_phase_R M_simR P_simR M_corr P_corr2 P_calib2 P_calib3 M_fourier P_fourier M_phasecorr S_phasecorr P_phasecorr.
Open Scope Z_scope.

Lemma frequency_fft2 h w re im (m : img cx) u v : nrow m = h -> ncol m = w ->
  (forall a b, in_rng h a -> in_rng w b -> px m a b = (re a b, im a b)) -> frequency h w re im u v = px (fft2 m) u v.
Proof.
  intros E1 E2 H. cbn [px fft2]. rewrite E1, E2. unfold frequency.
  assert (T : forall a b, in_rng h a -> in_rng w b ->
    cmul (px m a b) (cmul (root h (- (u * a))) (root w (- (v * b)))) =
    (re a b * cos (2 * PI * (IZR (u * a) / IZR h + IZR (v * b) / IZR w)) + im a b * sin (2 * PI * (IZR (u * a) / IZR h + IZR (v * b) / IZR w)),
     im a b * cos (2 * PI * (IZR (u * a) / IZR h + IZR (v * b) / IZR w)) - re a b * sin (2 * PI * (IZR (u * a) / IZR h + IZR (v * b) / IZR w)))%R).
  { intros a b Ha Hb. rewrite H by assumption. rewrite !root_opp. unfold root, cconj.
    replace (2 * PI * (IZR (u * a) / IZR h + IZR (v * b) / IZR w))%R with (2 * PI * IZR (u * a) / IZR h + 2 * PI * IZR (v * b) / IZR w)%R by (unfold Rdiv; ring).
    rewrite cos_plus, sin_plus. apply cx_eq; unfold cmul; cbn [fst snd]; ring. }
  apply cx_eq; unfold csum; cbn [fst snd]; apply rsum_ext; intros a Ha; apply rsum_ext; intros b Hb; rewrite T by assumption; reflexivity.
Qed.

Section found.
Variables (mat1 mat2 : img R) (gradient : bool) (s t : Z) (re im : Z -> Z -> R).
Let h := nrow mat1. Let w := ncol mat1.
Let m1 := if gradient then complex_gradient mat1 else imap c_ mat1.
Let m2 := if gradient then complex_gradient mat2 else imap c_ mat2.
Hypothesis (Hh : 0 < h) (Hw : 0 < w) (E3 : nrow mat2 = h) (E4 : ncol mat2 = w).
Hypothesis Hm : forall a b, in_rng h a -> in_rng w b -> px m1 a b = px m2 ((a - s) mod h) ((b - t) mod w).
Hypothesis Hre : forall a b, in_rng h a -> in_rng w b -> px m1 a b = (re a b, im a b).
Hypothesis Hr : rich h w re im.
Lemma shapes : nrow m1 = h /\ ncol m1 = w /\ nrow m2 = h /\ ncol m2 = w.
Proof. unfold m1, m2. destruct gradient; cbn [nrow ncol complex_gradient imap]; repeat split; assumption. Qed.
Lemma seen_second u v : frequency h w re im u v <> (0%R, 0%R) -> px (fft2 m2) u v <> c_ 0.
Proof.
  destruct shapes as (S1 & S2 & S3 & S4). intros F C. apply F. rewrite (frequency_fft2 h w re im m1 u v S1 S2 Hre).
  assert (Q : px (fft2 m1) u v = cmul (px (fft2 m2) u v) (cmul (root (nrow m2) (- (u * s))) (root (ncol m2) (- (v * t))))).
  { apply fft2_shift; try congruence; try lia. rewrite S3, S4. exact Hm. }
  rewrite Q, C. assert (Z : forall x, cmul (c_ 0) x = c_ 0) by (intros; ring). exact (Z _).
Qed.
Lemma shift_found : exists s' t', find_shift_based_phase_correlation mat1 mat2 gradient = Ok (IZR s', IZR t') /\ shortest h s s' /\ shortest w t t'.
Proof.
  destruct shapes as (S1 & S2 & S3 & S4). unfold find_shift_based_phase_correlation. fold h w. rewrite E3, E4, !Z.eqb_refl. cbn [andb negb]. fold m1 m2.
  assert (R1 : exists u v, in_rng h u /\ in_rng w v /\ px (fft2 m2) u v <> c_ 0 /\ px (fft2 m2) ((u + 1) mod h) v <> c_ 0).
  { destruct Hr as ((u & v & A & B & C & D) & _). exists u, v. repeat split; try assumption; apply A || apply B || apply seen_second; assumption. }
  assert (R2 : exists u v, in_rng h u /\ in_rng w v /\ px (fft2 m2) u v <> c_ 0 /\ px (fft2 m2) u ((v + 1) mod w) <> c_ 0).
  { destruct Hr as (_ & u & v & A & B & C & D). exists u, v. repeat split; try assumption; apply A || apply B || apply seen_second; assumption. }
  rewrite (argmax2_is _ _ _ (map_peak m1 m2 h w s t Hh Hw S1 S2 S3 S4 Hm R1 R2)). cbn [bindr].
  destruct (map_symmetric m1 m2 h w s t Hh Hw S1 S2 S3 S4 Hm) as (Q1 & Q2). rewrite Q1, Q2, !refine_symmetric.
  destruct (wrap_shortest h s Hh) as (s' & -> & Hs). destruct (wrap_shortest w t Hw) as (t' & -> & Ht). exists s', t'. repeat split; try apply Hs; apply Ht.
Qed.
End found.

Lemma mod_move n a b : 0 < n -> ((a + 2) mod n - b) mod n = ((a - b) mod n + 2) mod n.
Proof. intros Hn. rewrite Zminus_mod_idemp_l, Z.add_mod_idemp_l by lia. f_equal. ring. Qed.
Lemma border_next n j : 0 <= j < n -> edge2 n j = true -> (j + 2) mod n < 4 /\ (j < 4 \/ n - 4 <= j).
Proof.
  unfold edge2. intros Hj H. apply orb_true_iff in H. split; [|lia]. destruct (Z.ltb_spec j 2) as [L|G].
  - assert (B := Z.mod_le (j + 2) n ltac:(lia) ltac:(lia)). lia.
  - assert (K : n - 2 <= j) by (destruct H as [H|H]; lia). replace (j + 2) with ((j + 2 - n) + 1 * n) by ring. rewrite Z.mod_add by lia.
    assert (B := Z.mod_le (j + 2 - n) n ltac:(lia) ltac:(lia)). lia.
Qed.
Lemma gradient_cyclic m i j : flat_border m -> in_rng (nrow m) i -> in_rng (ncol m) j ->
  px (complex_gradient m) i j = (px m i ((j + 2) mod ncol m) - px m i j, px m ((i + 2) mod nrow m) j - px m i j)%R.
Proof.
  intros (k & F) Hi Hj. unfold in_rng in *. cbn [px complex_gradient]. f_equal.
  - destruct (edge2 (ncol m) j) eqn:E; [|reflexivity]. destruct (border_next _ j Hj E) as (B1 & B2). assert (M := Z.mod_pos_bound (j + 2) (ncol m) ltac:(lia)).
    rewrite (F i ((j + 2) mod ncol m)), (F i j) by lia. ring.
  - destruct (edge2 (nrow m) i) eqn:E; [|reflexivity]. destruct (border_next _ i Hi E) as (B1 & B2). assert (M := Z.mod_pos_bound (i + 2) (nrow m) ltac:(lia)).
    rewrite (F ((i + 2) mod nrow m) j), (F i j) by lia. ring.
Qed.

Lemma plain_found mat1 mat2 s t : 0 < nrow mat1 -> 0 < ncol mat1 -> moved mat1 mat2 s t -> rich_image mat1 ->
  exists s' t', find_shift_based_phase_correlation mat1 mat2 false = Ok (IZR s', IZR t') /\ shortest (nrow mat1) s s' /\ shortest (ncol mat1) t t'.
Proof.
  intros Hh Hw (E1 & E2 & H) Hr. apply (shift_found mat1 mat2 false s t (px mat1) (fun _ _ => 0%R)); try assumption; try congruence.
  - intros a b Ha Hb. cbn [px imap]. rewrite H by assumption. rewrite <- E1, <- E2. reflexivity.
  - intros a b Ha Hb. reflexivity.
Qed.
Lemma gradient_found mat1 mat2 s t : 0 < nrow mat1 -> 0 < ncol mat1 -> moved mat1 mat2 s t -> flat_border mat1 -> flat_border mat2 -> rich_differences mat1 ->
  exists s' t', find_shift_based_phase_correlation mat1 mat2 true = Ok (IZR s', IZR t') /\ shortest (nrow mat1) s s' /\ shortest (ncol mat1) t t'.
Proof.
  intros Hh Hw (E1 & E2 & H) F1 F2 Hr. eapply (shift_found mat1 mat2 true s t); try eassumption; try congruence.
  - intros a b Ha Hb. rewrite (gradient_cyclic mat1) by assumption.
    assert (Ma := Z.mod_pos_bound (a - s) (nrow mat1) Hh). assert (Mb := Z.mod_pos_bound (b - t) (ncol mat1) Hw).
    rewrite (gradient_cyclic mat2) by (assumption || (unfold in_rng; lia)). rewrite <- E1, <- E2.
    rewrite !H by (first [assumption|apply Z.mod_pos_bound; assumption]). rewrite <- E1, <- E2, !mod_move by assumption. reflexivity.
  - intros a b Ha Hb. apply gradient_cyclic; assumption.
Qed.

Lemma flip_mod n x : 0 < n -> n - 1 - x mod n = (n - 1 - x) mod n.
Proof.
  intros Hn. assert (B := Z.mod_pos_bound x n Hn). assert (D := Z.div_mod x n ltac:(lia)). apply (Z.mod_unique _ _ (- (x / n))); [lia|nia].
Qed.
Lemma mirror_moved a b c2 : 0 < nrow a -> 0 < ncol a -> mirror_image a b c2 -> moved a (ifliplr b) 0 (c2 - (ncol a - 1)).
Proof.
  intros Hh Hw (E1 & E2 & H). repeat split; try assumption. intros i j Hi Hj. cbn [px ifliplr nrow ncol]. rewrite <- E2, <- E1. rewrite H by assumption.
  unfold in_rng in Hi. rewrite Z.sub_0_r, (Z.mod_small i) by lia. f_equal. rewrite flip_mod by exact Hw. f_equal. ring.
Qed.
Lemma flat_border_flip m : flat_border m -> flat_border (ifliplr m).
Proof. intros (k & F). exists k. cbn [nrow ncol px ifliplr]. unfold in_rng in *. intros i j Hi Hj H. apply F; lia. Qed.
Lemma center_of_shift w t t' : 0 < w -> shortest w t t' -> - w < 2 * t <= w -> t' = t.
Proof. intros Hw H B. apply (shortest_unique w t); [exact Hw|exact H|]. split; [rewrite Z.sub_diag; apply Z.mod_0_l; lia|exact B]. Qed.

(** the spectrum of the differences *)
Lemma differences_frequency m u v : 0 < nrow m -> 0 < ncol m ->
  frequency (nrow m) (ncol m) (fun i j => px m i ((j + 2) mod ncol m) - px m i j)%R (fun i j => px m ((i + 2) mod nrow m) j - px m i j)%R u v =
  cmul (frequency (nrow m) (ncol m) (px m) (fun _ _ => 0%R) u v) (cadd (csub (root (ncol m) (2 * v)) (c_ 1)) (cmul (0%R, 1%R) (csub (root (nrow m) (2 * u)) (c_ 1)))).
Proof.
  intros Hh Hw. set (h := nrow m). set (w := ncol m).
  set (g := imap c_ m). set (gx := mkimg h w (fun i j => c_ (px m i ((j + 2) mod w)))). set (gy := mkimg h w (fun i j => c_ (px m ((i + 2) mod h) j))).
  rewrite (frequency_fft2 h w _ _ (mkimg h w (fun i j => cadd (csub (px gx i j) (px g i j)) (cmul (0%R, 1%R) (csub (px gy i j) (px g i j))))) u v eq_refl eq_refl).
  2:{ intros a b Ha Hb. cbn [px]. apply cx_eq; unfold gx, gy, g, cadd, csub, cmul, c_; cbn [px imap fst snd]; ring. }
  rewrite (frequency_fft2 h w _ _ g u v eq_refl eq_refl) by (intros; reflexivity).
  assert (X : px (fft2 gx) u v = cmul (px (fft2 g) u v) (root w (2 * v))).
  { assert (Q := fft2_shift g gx 0 (-2) u v Hh Hw eq_refl eq_refl). rewrite Q.
    - change (nrow g) with h. change (ncol g) with w. rewrite Z.mul_0_r. change (- 0) with 0. rewrite root_0. replace (- (v * -2)) with (2 * v) by ring. ring.
    - intros a b Ha Hb. unfold gx, g. cbn [px imap nrow ncol]. cbn [imap nrow] in Ha. rewrite Z.sub_0_r. rewrite (Z.mod_small a) by exact Ha. replace (b - -2) with (b + 2) by ring. reflexivity. }
  assert (Y : px (fft2 gy) u v = cmul (px (fft2 g) u v) (root h (2 * u))).
  { assert (Q := fft2_shift g gy (-2) 0 u v Hh Hw eq_refl eq_refl). rewrite Q.
    - change (nrow g) with h. change (ncol g) with w. rewrite Z.mul_0_r. change (- 0) with 0. rewrite root_0. replace (- (u * -2)) with (2 * u) by ring. ring.
    - intros a b Ha Hb. unfold gy, g. cbn [px imap nrow ncol]. cbn [imap ncol] in Hb. rewrite Z.sub_0_r. rewrite (Z.mod_small b) by exact Hb. replace (a - -2) with (a + 2) by ring. reflexivity. }
  transitivity (cadd (csub (px (fft2 gx) u v) (px (fft2 g) u v)) (cmul (0%R, 1%R) (csub (px (fft2 gy) u v) (px (fft2 g) u v)))).
  - cbn [px fft2 nrow ncol]. fold h w. change (nrow gx) with h. change (ncol gx) with w. change (nrow gy) with h. change (ncol gy) with w.
    set (ph := fun a b => cmul (root h (- (u * a))) (root w (- (v * b)))).
    change (nrow g) with h. change (ncol g) with w.
    transitivity (csum h (fun a => csum w (fun b => cadd (cadd (cmul (px gx a b) (ph a b)) (cmul (copp (c_ 1)) (cmul (px g a b) (ph a b)))) (cmul (0%R, 1%R) (cadd (cmul (px gy a b) (ph a b)) (cmul (copp (c_ 1)) (cmul (px g a b) (ph a b)))))))).
    + apply csum_ext; intros a Ha. apply csum_ext; intros b Hb. unfold ph. ring.
    + transitivity (csum h (fun a => cadd (cadd (csum w (fun b => cmul (px gx a b) (ph a b))) (cmul (copp (c_ 1)) (csum w (fun b => cmul (px g a b) (ph a b))))) (cmul (0%R, 1%R) (cadd (csum w (fun b => cmul (px gy a b) (ph a b))) (cmul (copp (c_ 1)) (csum w (fun b => cmul (px g a b) (ph a b)))))))).
      * apply csum_ext; intros a Ha. rewrite csum_add, csum_add, csum_scal, csum_scal, csum_add, csum_scal. reflexivity.
      * rewrite csum_add, csum_add, csum_scal, csum_scal, csum_add, csum_scal. unfold ph. apply cx_eq; unfold cadd, csub, cmul, copp, c_; cbn [fst snd]; ring.
  - rewrite X, Y. apply cx_eq; unfold cadd, csub, cmul, copp, c_; cbn [fst snd]; ring.
Qed.
(** the spectrum of one bright pixel *)
Lemma dot_frequency h w p q u v : in_rng h p -> in_rng w q ->
  frequency h w (fun i j => if (i =? p) && (j =? q) then 1%R else 0%R) (fun _ _ => 0%R) u v <> (0%R, 0%R).
Proof.
  unfold in_rng. intros Hp Hq C. set (g := mkimg h w (fun i j => c_ (if (i =? p) && (j =? q) then 1%R else 0%R))).
  rewrite (frequency_fft2 h w _ _ g u v eq_refl eq_refl) in C by (intros; reflexivity).
  cbn [px fft2 nrow ncol g] in C. rewrite (csum_single h _ p Hp) in C.
  - rewrite (csum_single w _ q Hq) in C.
    + rewrite !Z.eqb_refl in C. cbn [andb] in C. apply (f_equal cabs) in C. rewrite !cabs_mul, !cabs_root, cabs_nonneg_real in C by lra. change (0%R, 0%R) with (c_ 0) in C. rewrite cabs_nonneg_real in C by lra. lra.
    + intros j Hj N. replace (j =? q) with false by lia. rewrite andb_false_r. ring.
  - intros i Hi N. apply csum_zero. intros j Hj. replace (i =? p) with false by lia. cbn [andb]. ring.
Qed.
