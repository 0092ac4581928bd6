(** Proofs for C117: the unwrapped image. *)
From Coq Require Import Reals ZArith Lia Lra Bool List.
From Verif Require Import Np P_Np M_phase_R P_phase_R M_simR P_simR M_calib M_fourier P_fourier P_kernel P_fresnel M_surface S_surface S_fresnel P_surface P_surface4 P_surface5 M_unwrap S_unwrap P_unwrap P_unwrap2.
Open Scope Z_scope.

Definition dbl (m : img R) (a b : Z) : R := px (double_image_R m) a b.
Definition unw (m : img R) : img R := mkimg (nrow m) (ncol m) (fun i j => unw_at (nrow m) (ncol m) (dbl m) (i + nrow m) j).
Lemma dbl_mirror_rows (m : img R) a b : in_rng (2 * nrow m) a -> in_rng (2 * ncol m) b -> dbl m (2 * nrow m - 1 - a) b = dbl m a b.
Proof. unfold in_rng, dbl, double_image_R; cbn [px]. intros Ha Hb. f_equal. destruct (Z.ltb_spec a (nrow m)), (Z.ltb_spec (2 * nrow m - 1 - a) (nrow m)); lia. Qed.
Lemma dbl_mirror_cols (m : img R) a b : in_rng (2 * nrow m) a -> in_rng (2 * ncol m) b -> dbl m a (2 * ncol m - 1 - b) = dbl m a b.
Proof. unfold in_rng, dbl, double_image_R; cbn [px]. intros Ha Hb. f_equal. destruct (Z.ltb_spec b (ncol m)), (Z.ltb_spec (2 * ncol m - 1 - b) (ncol m)); lia. Qed.
Lemma dbl_in (m : img R) a b : in_rng (2 * nrow m) a -> in_rng (2 * ncol m) b -> exists i j, in_rng (nrow m) i /\ in_rng (ncol m) j /\ forall m' : img R, nrow m' = nrow m -> ncol m' = ncol m -> dbl m' a b = px m' i j.
Proof.
  unfold in_rng. intros Ha Hb. exists (if a <? nrow m then nrow m - 1 - a else a - nrow m), (if b <? ncol m then b else 2 * ncol m - 1 - b).
  split; [destruct (Z.ltb_spec a (nrow m)); lia|]. split; [destruct (Z.ltb_spec b (ncol m)); lia|]. intros m' R C. unfold dbl, double_image_R; cbn [px]. rewrite R, C. reflexivity.
Qed.
Lemma quarter (f : Z -> Z -> R) h w : 0 < h -> 0 < w -> (forall a b, in_rng (2 * h) a -> in_rng (2 * w) b -> f (2 * h - 1 - a) b = f a b) ->
  (forall a b, in_rng (2 * h) a -> in_rng (2 * w) b -> f a (2 * w - 1 - b) = f a b) ->
  rsum (2 * h) (fun a => rsum (2 * w) (fun b => f a b)) = (4 * rsum h (fun i => rsum w (fun j => f (i + h)%Z j)))%R.
Proof.
  intros Hh Hw R C.
  assert (X : forall a, in_rng (2 * h) a -> rsum (2 * w) (fun b => f a b) = (2 * rsum w (fun b => f a b))%R).
  { intros a Ha. replace (2 * w) with (w + w) by ring. rewrite rsum_app by lia. replace (rsum w (fun k => f a (w + k))) with (rsum w (fun b => f a b)); [ring|].
    rewrite <- (rsum_rev w (fun k => f a (w + k))) by lia. apply rsum_ext. intros b Hb. rewrite <- C by (unfold in_rng in *; lia). f_equal. lia. }
  rewrite (rsum_ext _ _ (fun a => 2 * rsum w (fun b => f a b))%R) by (intros a Ha; apply X; exact Ha). rewrite rsum_scal.
  replace (2 * h) with (h + h) by ring. rewrite rsum_app by lia. replace (rsum h (fun i => rsum w (fun b => f i b))) with (rsum h (fun i => rsum w (fun j => f (i + h) j))).
  - rewrite (rsum_ext h (fun k => rsum w (fun b => f (h + k) b)) (fun i => rsum w (fun j => f (i + h) j))) by (intros i _; apply rsum_ext; intros j _; rewrite (Z.add_comm h i); reflexivity). ring.
  - rewrite <- rsum_rev by lia. apply rsum_ext. intros i Hi. apply rsum_ext. intros j Hj. rewrite <- (R i j) by (unfold in_rng in *; lia). f_equal. lia.
Qed.
Lemma unw_mean (m : img R) : 0 < nrow m -> 0 < ncol m -> rsum (nrow m) (fun i => rsum (ncol m) (fun j => px (unw m) i j)) = 0%R.
Proof.
  intros Hh Hw. assert (T := unw_total (nrow m) (ncol m) Hh Hw (dbl m)).
  rewrite (quarter (unw_at (nrow m) (ncol m) (dbl m)) (nrow m) (ncol m) Hh Hw) in T.
  2:{ intros a b Ha Hb. apply mirror_rows; try assumption. intros c d Hc Hd. apply dbl_mirror_rows; assumption. }
  2:{ intros a b Ha Hb. apply mirror_cols; try assumption. intros c d Hc Hd. apply dbl_mirror_cols; assumption. }
  cbn [unw px]. lra.
Qed.
Lemma unw_congruent c (m m' : img R) : 0 < nrow m -> 0 < ncol m -> congruent c m m' -> img_eq (unw m') (unw m).
Proof.
  intros Hh Hw (R & C & V). split; [exact R|]. split; [exact C|]. cbn [unw nrow ncol px]. rewrite R, C. intros i j Hi Hj. apply unw_ext; try assumption; try (unfold in_rng in *; lia).
  intros a b a' b' Ha Hb Ha' Hb'. destruct (dbl_in m a b Ha Hb) as (x & y & Hx & Hy & E). destruct (dbl_in m a' b' Ha' Hb') as (x' & y' & Hx' & Hy' & E').
  rewrite !E, !E' by (reflexivity || assumption). destruct (V x y Hx Hy) as (k & ->). destruct (V x' y' Hx' Hy') as (k' & ->).
  replace (px m x' y' + c + 2 * PI * IZR k' - (px m x y + c + 2 * PI * IZR k))%R with (px m x' y' - px m x y + 2 * PI * IZR (k' - k))%R by (rewrite minus_IZR; ring). apply sin_shift_2pi.
Qed.
Lemma unw_negated (m m' : img R) : 0 < nrow m -> 0 < ncol m -> negated m m' -> negated (unw m) (unw m').
Proof.
  intros Hh Hw (R & C & V). split; [exact R|]. split; [exact C|]. cbn [unw nrow ncol px]. rewrite R, C. intros i j Hi Hj. apply unw_neg; try assumption.
  intros a b Ha Hb. destruct (dbl_in m a b Ha Hb) as (x & y & Hx & Hy & E). rewrite !E by (reflexivity || assumption). apply V; assumption.
Qed.
Lemma unw_binary (m : img R) t : 0 < nrow m -> 0 < ncol m -> (forall i j, in_rng (nrow m) i -> in_rng (ncol m) j -> exists k, px m i j = (t + PI * IZR k)%R) -> all_zero (unw m).
Proof.
  intros Hh Hw V i j Hi Hj. cbn [unw nrow ncol px] in *. apply unw_zero; try assumption. intros a b a' b' Ha Hb Ha' Hb'.
  destruct (dbl_in m a b Ha Hb) as (x & y & Hx & Hy & E). destruct (dbl_in m a' b' Ha' Hb') as (x' & y' & Hx' & Hy' & E'). rewrite !E, !E' by reflexivity.
  destruct (V x y Hx Hy) as (k & ->). destruct (V x' y' Hx' Hy') as (k' & ->). replace (t + PI * IZR k' - (t + PI * IZR k))%R with (PI * IZR (k' - k))%R by (rewrite minus_IZR; ring). apply sin_kpi.
Qed.
Lemma mod_half n b : 0 < n -> 0 <= b < 2 * n -> (b + n) mod (2 * n) = if b <? n then b + n else b - n.
Proof.
  intros Hn Hb. destruct (Z.ltb_spec b n); [apply Z.mod_small; lia|]. replace (b + n) with (b - n + 1 * (2 * n)) by ring. rewrite Z.mod_add by lia. apply Z.mod_small. lia.
Qed.
Lemma unw_mirrored (m m' : img R) : 0 < nrow m -> 0 < ncol m -> mirrored m m' -> mirrored (unw m) (unw m').
Proof.
  intros Hh Hw (R & C & V). split; [exact R|]. split; [exact C|]. cbn [unw nrow ncol px]. rewrite R, C in *. unfold in_rng in *. intros i j Hi Hj.
  rewrite (unw_shift (nrow m) (ncol m) Hh Hw (dbl m) (dbl m') 0 (ncol m)).
  - rewrite Z.add_0_r, Z.mod_small by lia. rewrite mod_half by lia. replace (j <? ncol m) with true by lia.
    rewrite <- (mirror_cols (nrow m) (ncol m) Hh Hw (dbl m) (i + nrow m) (j + ncol m)) by (try (unfold in_rng; lia); intros; apply dbl_mirror_cols; assumption). f_equal. lia.
  - unfold in_rng; lia.
  - unfold in_rng; lia.
  - unfold in_rng. intros a b Ha Hb. rewrite Z.add_0_r, Z.mod_small by lia. rewrite mod_half by lia. unfold dbl, double_image_R. cbn [px]. rewrite R, C.
    destruct (Z.ltb_spec a (nrow m)), (Z.ltb_spec b (ncol m)); rewrite V by lia; f_equal; destruct (Z.ltb_spec (b + ncol m) (ncol m)), (Z.ltb_spec (b - ncol m) (ncol m)); lia.
Qed.
Lemma unw_upside (m m' : img R) : 0 < nrow m -> 0 < ncol m -> upside_down m m' -> upside_down (unw m) (unw m').
Proof.
  intros Hh Hw (R & C & V). split; [exact R|]. split; [exact C|]. cbn [unw nrow ncol px]. rewrite R, C in *. unfold in_rng in *. intros i j Hi Hj.
  rewrite (unw_shift (nrow m) (ncol m) Hh Hw (dbl m) (dbl m') (nrow m) 0).
  - rewrite Z.add_0_r, (Z.mod_small j) by lia. rewrite mod_half by lia. replace (i + nrow m <? nrow m) with false by lia.
    rewrite <- (mirror_rows (nrow m) (ncol m) Hh Hw (dbl m) (i + nrow m - nrow m) j) by (try (unfold in_rng; lia); intros; apply dbl_mirror_rows; assumption). f_equal. lia.
  - unfold in_rng; lia.
  - unfold in_rng; lia.
  - unfold in_rng. intros a b Ha Hb. rewrite Z.add_0_r, (Z.mod_small b) by lia. rewrite mod_half by lia. unfold dbl, double_image_R. cbn [px]. rewrite R, C.
    destruct (Z.ltb_spec a (nrow m)), (Z.ltb_spec b (ncol m)); rewrite V by lia; f_equal; destruct (Z.ltb_spec (a + nrow m) (nrow m)), (Z.ltb_spec (a - nrow m) (nrow m)); lia.
Qed.
Lemma unw_transposed (m m' : img R) : 0 < nrow m -> 0 < ncol m -> transposed m m' -> transposed (unw m) (unw m').
Proof.
  intros Hh Hw (R & C & V). split; [exact R|]. split; [exact C|]. cbn [unw nrow ncol px]. rewrite R, C in *. unfold in_rng in *. intros i j Hi Hj.
  set (D1 := fun a b => dbl m b a).
  rewrite (unw_shift (ncol m) (nrow m) Hw Hh D1 (dbl m') (ncol m) (nrow m)).
  - rewrite !mod_half by lia. replace (i + ncol m <? ncol m) with false by lia. replace (j <? nrow m) with true by lia.
    rewrite (unw_trans (nrow m) (ncol m) (dbl m) D1) by (try assumption; try (unfold in_rng; lia); reflexivity). f_equal. lia.
  - unfold in_rng; lia.
  - unfold in_rng; lia.
  - unfold in_rng. intros a b Ha Hb. rewrite !mod_half by lia. unfold D1, dbl, double_image_R. cbn [px]. rewrite R, C.
    destruct (Z.ltb_spec a (ncol m)), (Z.ltb_spec b (nrow m)); rewrite V by lia; f_equal;
      destruct (Z.ltb_spec (a + ncol m) (ncol m)), (Z.ltb_spec (a - ncol m) (ncol m)), (Z.ltb_spec (b + nrow m) (nrow m)), (Z.ltb_spec (b - nrow m) (nrow m)); lia.
Qed.
Lemma unw_is (m : img R) : 0 < nrow m -> 0 < ncol m -> exists f, unwrap_fft m None None = Ok f /\
  unwrap_fft m (Some (make_window (2 * nrow m) (2 * ncol m) true)) (Some (make_window (2 * nrow m) (2 * ncol m) false)) = Ok f /\ img_eq f (unw m).
Proof.
  intros Hh Hw. destruct (unwrap_default m Hh Hw) as (f & E & E' & R & C & V). exists f. split; [exact E|]. split; [exact E'|]. split; [exact R|]. split; [exact C|].
  rewrite R, C. intros i j Hi Hj. rewrite V by assumption. reflexivity.
Qed.
