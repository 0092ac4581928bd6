(** Proofs for C117: images of two phase values; the iteration. *)
From Coq Require Import Reals ZArith Lia Lra Bool List.
From Verif Require P_calib3.
From Verif Require Import Np P_Np M_phase_R P_phase_R M_simR P_simR M_calib M_fourier P_fourier P_kernel P_fresnel M_surface S_surface S_fresnel P_surface P_surface4 P_surface5 M_unwrap S_unwrap P_unwrap P_unwrap2 P_unwrap3 P_unwrap4 P_unwrap5.
Open Scope Z_scope.

Definition bit (b : bool) : R := if b then 1%R else 0%R.
Lemma sin_bits x b b' : (sin (x * bit b' - x * bit b) = sin x * (bit b' - bit b))%R.
Proof.
  destruct b, b'; unfold bit.
  - replace (x * 1 - x * 1)%R with 0%R by ring. rewrite sin_0. ring.
  - replace (x * 0 - x * 1)%R with (- x)%R by ring. rewrite sin_neg. ring.
  - replace (x * 1 - x * 0)%R with x by ring. ring.
  - replace (x * 0 - x * 0)%R with 0%R by ring. rewrite sin_0. ring.
Qed.
Lemma unw_bits h w (M : Z -> Z -> bool) x t a b : 0 < h -> 0 < w -> in_rng (2 * h) a -> in_rng (2 * w) b ->
  unw_at h w (fun a b => t + x * bit (M a b))%R a b =
  (sin x * (bit (M a b) - rsum (2 * h) (fun i => rsum (2 * w) (fun j => bit (M i j))) / (IZR (2 * h) * IZR (2 * w))))%R.
Proof.
  intros Hh Hw Ha Hb. rewrite <- (backward_lap h w (fun a b => bit (M a b)) a b) by assumption. rewrite unw_sum by assumption. rewrite <- rsum_scal. apply rsum_ext. intros a' _.
  rewrite <- rsum_scal. apply rsum_ext. intros b' _. rewrite rho_pairs by assumption. rewrite <- Rmult_assoc. f_equal. unfold lap_at. rewrite <- rsum_scal. apply rsum_ext. intros c _.
  rewrite <- rsum_scal. apply rsum_ext. intros d _. replace (t + x * bit (M c d) - (t + x * bit (M a' b')))%R with (x * bit (M c d) - x * bit (M a' b'))%R by ring. rewrite sin_bits. ring.
Qed.
Lemma mean_dbl (m : img R) : 0 < nrow m -> 0 < ncol m -> (rsum (2 * nrow m) (fun i => rsum (2 * ncol m) (fun j => dbl m i j)) / (IZR (2 * nrow m) * IZR (2 * ncol m)))%R = mean_of m.
Proof.
  intros Hh Hw. rewrite (quarter (dbl m) (nrow m) (ncol m) Hh Hw).
  2:{ intros a b Ha Hb. apply dbl_mirror_rows; assumption. }
  2:{ intros a b Ha Hb. apply dbl_mirror_cols; assumption. }
  rewrite (rsum_ext (nrow m) (fun i => rsum (ncol m) (fun j => dbl m (i + nrow m) j)) (fun i => rsum (ncol m) (fun j => px m i j))).
  - unfold mean_of. assert (0 < IZR (nrow m))%R by (apply (IZR_lt 0); assumption). assert (0 < IZR (ncol m))%R by (apply (IZR_lt 0); assumption). rewrite !mult_IZR. field. lra.
  - intros a Ha. apply rsum_ext. intros b Hb. unfold dbl, double_image_R. cbn [px]. destruct (Z.ltb_spec (a + nrow m) (nrow m)), (Z.ltb_spec b (ncol m)); try lia; f_equal; lia.
Qed.
Lemma dbl_low (m : img R) i j : in_rng (nrow m) i -> in_rng (ncol m) j -> dbl m (i + nrow m) j = px m i j.
Proof. unfold in_rng. intros Ha Hb. unfold dbl, double_image_R. cbn [px]. destruct (Z.ltb_spec (i + nrow m) (nrow m)), (Z.ltb_spec j (ncol m)); try lia; f_equal; lia. Qed.
Definition bits (h w : Z) (M : Z -> Z -> bool) : img R := mkimg h w (fun i j => bit (M i j)).
Lemma unw_two (m : img R) M x t : 0 < nrow m -> 0 < ncol m -> (forall i j, in_rng (nrow m) i -> in_rng (ncol m) j -> px m i j = (t + x * bit (M i j))%R) ->
  forall i j, in_rng (nrow m) i -> in_rng (ncol m) j -> px (unw m) i j = (sin x * (bit (M i j) - mean_of (bits (nrow m) (ncol m) M)))%R.
Proof.
  intros Hh Hw V i j Hi Hj. set (b := bits (nrow m) (ncol m) M).
  set (M2 := fun a c => M (if a <? nrow m then nrow m - 1 - a else a - nrow m) (if c <? ncol m then c else 2 * ncol m - 1 - c)).
  assert (B2 : forall a c, dbl b a c = bit (M2 a c)).
  { intros a c. unfold dbl, double_image_R, b, bits, M2. cbn [px nrow ncol]. destruct (a <? nrow m), (c <? ncol m); f_equal; f_equal; lia. }
  cbn [unw px]. rewrite (unw_ext (nrow m) (ncol m) Hh Hw (fun a c => t + x * bit (M2 a c))%R (dbl m)); try (unfold in_rng in *; lia).
  - rewrite unw_bits by (try assumption; unfold in_rng in *; lia).
    rewrite <- B2. change (nrow m) with (nrow b) at 1. rewrite (dbl_low b i j Hi Hj). rewrite <- (mean_dbl b Hh Hw). cbn [b bits nrow ncol]. reflexivity.
  - intros a c a' c' Ha Hc Ha' Hc'. destruct (dbl_in m a c Ha Hc) as (p & q & Hp & Hq & E). destruct (dbl_in m a' c' Ha' Hc') as (p' & q' & Hp' & Hq' & E').
    rewrite (E m), (E' m) by reflexivity. rewrite <- !B2, (E b), (E' b) by reflexivity. rewrite !V by assumption. reflexivity.
Qed.

(** the iteration *)
Definition wfor (m : img R) := make_window (2 * nrow m) (2 * ncol m) true.
Definition wback (m : img R) := make_window (2 * nrow m) (2 * ncol m) false.
Definition residual (mat u : img R) : img R :=
  let d := map2 Rminus mat (imap wrap_to_pi u) in let nmean := mean_of d in imap (fun x => wrap_to_pi (x - nmean)%R) d.
Lemma unw_same (m m' : img R) : 0 < nrow m -> 0 < ncol m -> img_eq m' m -> img_eq (unw m') (unw m).
Proof.
  intros Hh Hw (R & C & V). apply (unw_congruent 0); try assumption. split; [exact R|]. split; [exact C|]. intros i j Hi Hj. exists 0. rewrite V by (rewrite ?R, ?C; assumption). rewrite Rmult_0_r. ring.
Qed.
Lemma step_is (mat weight u : img R) : 0 < nrow mat -> 0 < ncol mat -> exists f,
  refine_step mat weight (wfor mat) (wback mat) u = Ok f /\ nrow f = nrow u /\ ncol f = ncol u /\
  forall i j, in_rng (nrow mat) i -> in_rng (ncol mat) j -> px f i j = (px u i j + px (unw (map2 Rmult (residual mat u) weight)) i j)%R.
Proof.
  intros Hh Hw. unfold refine_step. fold (residual mat u).
  destruct (unw_is (map2 Rmult (residual mat u) weight)) as (f & _ & E & R & C & V); try assumption.
  cbn [map2 residual imap nrow ncol] in E. unfold wfor, wback. rewrite E. cbn [bindr]. eexists. split; [reflexivity|]. cbn [map2 nrow ncol px]. split; [reflexivity|]. split; [reflexivity|].
  cbn [map2 residual imap unw nrow ncol] in R, C. rewrite R, C in V. intros i j Hi Hj. rewrite V by assumption. reflexivity.
Qed.
(** without a weight map the step adds the unwrapped residual *)
Lemma residual_congruent (mat u : img R) : nrow u = nrow mat -> ncol u = ncol mat ->
  exists c, congruent c (map2 Rminus mat u) (map2 Rmult (residual mat u) (imap (fun _ => 1%R) mat)).
Proof.
  intros R C. exists (- mean_of (map2 Rminus mat (imap wrap_to_pi u)))%R. split; [reflexivity|]. split; [reflexivity|]. cbn [map2 residual imap nrow ncol px]. intros i j Hi Hj.
  destruct (wrap_mod (px mat i j - wrap_to_pi (px u i j) - mean_of (map2 Rminus mat (imap wrap_to_pi u)))) as (k & ->).
  destruct (wrap_mod (px u i j)) as (l & ->). exists (k - l). rewrite minus_IZR. ring.
Qed.
Lemma step_plain (mat u : img R) : 0 < nrow mat -> 0 < ncol mat -> nrow u = nrow mat -> ncol u = ncol mat -> exists f,
  refine_step mat (imap (fun _ => 1%R) mat) (wfor mat) (wback mat) u = Ok f /\ nrow f = nrow mat /\ ncol f = ncol mat /\
  forall i j, in_rng (nrow mat) i -> in_rng (ncol mat) j -> px f i j = (px u i j + px (unw (map2 Rminus mat u)) i j)%R.
Proof.
  intros Hh Hw R C. destruct (step_is mat (imap (fun _ => 1%R) mat) u Hh Hw) as (f & E & RF & CF & V). exists f. split; [exact E|]. rewrite RF, CF. split; [exact R|]. split; [exact C|].
  intros i j Hi Hj. rewrite V by assumption. f_equal. destruct (residual_congruent mat u R C) as (c & K). apply (unw_congruent c) in K; try assumption. destruct K as (_ & _ & K). apply K; assumption.
Qed.
(** the iterates as images *)
Fixpoint iterate (n : nat) (mat u : img R) : img R :=
  match n with O => u | S k => iterate k mat (map2 Rplus u (unw (map2 Rminus mat u))) end.
Lemma iterate_size n : forall mat u : img R, nrow (iterate n mat u) = nrow u /\ ncol (iterate n mat u) = ncol u.
Proof. induction n; intros mat u; cbn [iterate]; [split; reflexivity|]. destruct (IHn mat (map2 Rplus u (unw (map2 Rminus mat u)))) as [-> ->]. split; reflexivity. Qed.
Lemma iterate_S n : forall mat u : img R, iterate (S n) mat u = map2 Rplus (iterate n mat u) (unw (map2 Rminus mat (iterate n mat u))).
Proof. induction n; intros mat u; [reflexivity|]. change (iterate (S (S n)) mat u) with (iterate (S n) mat (map2 Rplus u (unw (map2 Rminus mat u)))). rewrite IHn. reflexivity. Qed.
Lemma iterate_ext n : forall mat u u' : img R, 0 < nrow mat -> 0 < ncol mat -> nrow u = nrow mat -> ncol u = ncol mat -> img_eq u' u -> img_eq (iterate n mat u') (iterate n mat u).
Proof.
  induction n; intros mat u u' Hh Hw R C E; [exact E|]. cbn [iterate]. apply IHn; try assumption. destruct E as (ER & EC & V). split; [exact ER|]. split; [exact EC|]. cbn [map2 nrow ncol px].
  intros i j Hi Hj. rewrite V by assumption. f_equal.
  destruct (unw_same (map2 Rminus mat u) (map2 Rminus mat u') Hh Hw) as (_ & _ & K).
  - split; [reflexivity|]. split; [reflexivity|]. cbn [map2 nrow ncol px]. intros a b Ha Hb. rewrite V by (rewrite ?ER, ?EC, ?R, ?C; assumption). reflexivity.
  - apply K; cbn [unw map2 nrow ncol]; rewrite ?ER, ?EC, ?R, ?C in *; assumption.
Qed.
Lemma refine_is n : forall mat u : img R, 0 < nrow mat -> 0 < ncol mat -> nrow u = nrow mat -> ncol u = ncol mat -> exists f,
  refine n mat (imap (fun _ => 1%R) mat) (wfor mat) (wback mat) u = Ok f /\ img_eq f (iterate n mat u).
Proof.
  induction n; intros mat u Hh Hw R C; cbn [refine iterate].
  - exists u. split; [reflexivity|]. split; [reflexivity|]. split; reflexivity.
  - destruct (step_plain mat u Hh Hw R C) as (f & -> & RF & CF & V). cbn [bindr]. destruct (IHn mat f Hh Hw RF CF) as (g & E & RG & CG & G). exists g. split; [exact E|].
    assert (I : img_eq (iterate n mat f) (iterate n mat (map2 Rplus u (unw (map2 Rminus mat u))))).
    { apply iterate_ext; try assumption. split; [cbn [map2 nrow]; congruence|]. split; [cbn [map2 ncol]; congruence|]. rewrite RF, CF. intros i j Hi Hj. rewrite V by assumption. reflexivity. }
    destruct I as (RI & CI & I). split; [congruence|]. split; [congruence|]. intros i j Hi Hj. rewrite G by assumption. apply I; rewrite <- ?RG, <- ?CG; assumption.
Qed.
Lemma iterative_is (m : img R) n : 0 < nrow m -> 0 < ncol m -> exists f, unwrap_iterative m n None None None = Ok f /\ img_eq f (iterate (Z.to_nat n) m (unw m)).
Proof.
  intros Hh Hw. unfold unwrap_iterative. destruct (unw_is (map2 Rmult m (imap (fun _ => 1%R) m)) Hh Hw) as (f & _ & E & S). cbn [map2 nrow ncol] in E. rewrite E. cbn [bindr].
  assert (S' : img_eq f (unw m)).
  { destruct S as (R & C & V). destruct (unw_same m (map2 Rmult m (imap (fun _ => 1%R) m)) Hh Hw) as (R' & C' & V').
    - split; [reflexivity|]. split; [reflexivity|]. cbn [map2 imap px]. intros; ring.
    - split; [congruence|]. split; [congruence|]. intros i j Hi Hj. rewrite V by assumption. apply V'; cbn [unw map2 nrow ncol] in *; congruence. }
  destruct S' as (R & C & V). destruct (refine_is (Z.to_nat n) m f Hh Hw R C) as (g & G & S'). exists g. split; [exact G|].
  destruct (iterate_ext (Z.to_nat n) m (unw m) f Hh Hw eq_refl eq_refl) as (RI & CI & I); [split; [exact R|]; split; [exact C|exact V]|].
  destruct S' as (RG & CG & K). split; [congruence|]. split; [congruence|]. intros i j Hi Hj. rewrite K by assumption. apply I; rewrite <- ?RG, <- ?CG; assumption.
Qed.
