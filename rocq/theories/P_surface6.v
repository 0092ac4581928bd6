(** Proofs for C116: the FC method, all images. *)
From Coq Require Import Reals ZArith Lia Lra Bool List.
From Verif Require Import Np P_Np M_phase_R P_phase_R M_simR P_simR M_calib P_calib8 M_fourier P_fourier P_kernel P_fresnel S_fresnel M_surface S_surface P_surface4 P_surface5.
Open Scope Z_scope.

Lemma cosb_mode n k i : 0 < n -> cosb n k i = cos_mode n k i.
Proof. intros Hn. assert (0 < IZR n)%R by (apply (IZR_lt 0); assumption). unfold cosb, cos_mode. f_equal. field. lra. Qed.
Lemma series_exists (m : img R) : 0 < nrow m -> 0 < ncol m -> exists A, cosine_series A m.
Proof.
  intros Hh Hw. exists (fun l k => / (IZR (nrow m) * IZR (ncol m)) * (half l * half k * px (dctn m) l k))%R. intros i j Hi Hj.
  rewrite <- (idctn_dctn m (dctn m)) by (try lia; try reflexivity; assumption). cbn [idctn px nrow ncol dctn].
  assert (IZR (nrow m) <> 0)%R by (apply not_0_IZR; lia). assert (IZR (ncol m) <> 0)%R by (apply not_0_IZR; lia).
  unfold Rdiv. rewrite ?(Rmult_comm (rsum _ _)). rewrite <- rsum_scal. apply rsum_ext. intros l _. rewrite <- rsum_scal. apply rsum_ext. intros k _. rewrite !cosb_mode by assumption. field. split; assumption.
Qed.
Definition fc_value (h w : Z) (A B : Z -> Z -> R) (i j : Z) : R :=
  rsum h (fun l => rsum w (fun k => if (l =? 0) && (k =? 0) then 0%R else
    (IZR w / (PI * (IZR k ^ 2 + IZR l ^ 2)) * (IZR k * A l k * (cos_mode h l i * sin_mode w k j) + IZR l * B l k * (sin_mode h l i * cos_mode w k j)))%R)).
Lemma k2_pos k l : (l =? 0) && (k =? 0) = false -> (0 < IZR k ^ 2 + IZR l ^ 2)%R.
Proof. intros E. rewrite !(pow_IZR _ 2), <- plus_IZR. apply IZR_lt. change (Z.of_nat 2) with 2. rewrite !Z.pow_2_r. destruct (Z.eq_dec l 0); destruct (Z.eq_dec k 0); try lia; nia. Qed.
Lemma fc_series gx gy A B i j : 0 < nrow gx -> 0 < ncol gx -> same_size gx gy -> cosine_series A gx -> cosine_series B gy ->
  fc_at gx gy (i + nrow gx) j = fc_value (nrow gx) (ncol gx) A B i j.
Proof.
  intros Hh Hw [S1 S2] SA SB. unfold fc_at.
  rewrite (spectral_ext _ _ _ (fun a b => c_ (rsum (nrow gx) (fun l => rsum (ncol gx) (fun k => A l k * (cos_mode (nrow gx) l (a - nrow gx) * cos_mode (ncol gx) k b))))%R) (fcx (nrow gx) (ncol gx)) (fcx (nrow gx) (ncol gx)))
    by (try reflexivity; intros a b Ha Hb; rewrite (double_modes A gx) by assumption; reflexivity).
  rewrite (spectral_ext _ _ (fun a b => c_ (px (double_image_R gy) a b)) (fun a b => c_ (rsum (nrow gx) (fun l => rsum (ncol gx) (fun k => B l k * (cos_mode (nrow gx) l (a - nrow gx) * cos_mode (ncol gx) k b))))%R) (fcy (nrow gx) (ncol gx)) (fcy (nrow gx) (ncol gx)))
    by (try reflexivity; intros a b Ha Hb; rewrite (double_modes B gy) by (try assumption; rewrite <- ?S1, <- ?S2; assumption); rewrite <- S1, <- S2; reflexivity).
  set (h := nrow gx) in *. set (w := ncol gx) in *.
  rewrite (spectral_modes h w (2 * h) (2 * w) A (fun l k a b => (cos_mode h l (a - h) * cos_mode w k b)%R)).
  rewrite (spectral_modes h w (2 * h) (2 * w) B (fun l k a b => (cos_mode h l (a - h) * cos_mode w k b)%R)).
  rewrite <- rsum_add, <- rsum_scal. unfold fc_value. apply rsum_ext. intros l Hl. rewrite <- rsum_add, <- rsum_scal. apply rsum_ext. intros k Hk.
  rewrite !mode_result by assumption. rewrite !fcx_mode, !fcy_mode by lia. replace (- l =? 0) with (l =? 0) by lia. replace (- k =? 0) with (k =? 0) by lia.
  destruct ((l =? 0) && (k =? 0)) eqn:E; [lra|]. assert (P := k2_pos k l E). pose proof PI_RGT_0. replace (i + h - h) with i by ring.
  unfold cos_mode, sin_mode. set (be := (PI * IZR l * (IZR i + / 2) / IZR h)%R). set (al := (PI * IZR k * (IZR j + / 2) / IZR w)%R).
  rewrite sin_plus, sin_minus. rewrite !opp_IZR. replace ((- IZR k) ^ 2)%R with (IZR k ^ 2)%R by ring. replace ((- IZR l) ^ 2)%R with (IZR l ^ 2)%R by ring.
  replace 0.5%R with (/ 2)%R by lra. field. lra.
Qed.
Lemma fc_spec gx gy A B : 0 < nrow gx -> 0 < ncol gx -> same_size gx gy -> cosine_series A gx -> cosine_series B gy ->
  exists f, surface_FC gx gy false None = Ok f /\ same_size f gx /\ forall i j, in_rng (nrow gx) i -> in_rng (ncol gx) j -> px f i j = fc_value (nrow gx) (ncol gx) A B i j.
Proof.
  intros Hh Hw S SA SB. destruct (fc_default gx gy Hh Hw S) as (f & E & T & V). exists f. split; [exact E|]. split; [exact T|]. intros i j Hi Hj. rewrite V by assumption. apply fc_series; assumption.
Qed.
Lemma fc_value_single h w A B l k i j : 0 <= l < h -> 0 <= k < w -> (forall l' k', in_rng h l' -> in_rng w k' -> l' <> l \/ k' <> k -> A l' k' = 0%R /\ B l' k' = 0%R) ->
  fc_value h w A B i j = if (l =? 0) && (k =? 0) then 0%R else
    (IZR w / (PI * (IZR k ^ 2 + IZR l ^ 2)) * (IZR k * A l k * (cos_mode h l i * sin_mode w k j) + IZR l * B l k * (sin_mode h l i * cos_mode w k j)))%R.
Proof.
  intros Hl Hk Z0. unfold fc_value.
  assert (Y : forall l' k', 0 <= l' < h -> 0 <= k' < w -> l' <> l \/ k' <> k -> (if (l' =? 0) && (k' =? 0) then 0%R else
    (IZR w / (PI * (IZR k' ^ 2 + IZR l' ^ 2)) * (IZR k' * A l' k' * (cos_mode h l' i * sin_mode w k' j) + IZR l' * B l' k' * (sin_mode h l' i * cos_mode w k' j)))%R) = 0%R).
  { intros l' k' H1 H2 N. destruct (Z0 l' k' H1 H2 N) as [-> ->]. destruct ((l' =? 0) && (k' =? 0)); [reflexivity|]. ring. }
  rewrite (rsum_single h _ l Hl).
  - apply (rsum_single w (fun k => if (l =? 0) && (k =? 0) then 0%R else
    (IZR w / (PI * (IZR k ^ 2 + IZR l ^ 2)) * (IZR k * A l k * (cos_mode h l i * sin_mode w k j) + IZR l * B l k * (sin_mode h l i * cos_mode w k j)))%R) k Hk).
    intros k' Hk' N. apply Y; try assumption. right. exact N.
  - intros l' Hl' N. rewrite (rsum_ext w _ (fun _ => 0%R)); [apply rsum_zero|]. intros k' Hk'. apply Y; try assumption. left. exact N.
Qed.
Definition one_mode (l k : Z) (c : R) (l' k' : Z) : R := if (l' =? l) && (k' =? k) then c else 0%R.
Lemma one_mode_series (m : img R) l k c : in_rng (nrow m) l -> in_rng (ncol m) k ->
  (forall i j, in_rng (nrow m) i -> in_rng (ncol m) j -> px m i j = (c * (cos_mode (nrow m) l i * cos_mode (ncol m) k j))%R) -> cosine_series (one_mode l k c) m.
Proof.
  intros Hl Hk V i j Hi Hj. rewrite V by assumption. rewrite (rsum_single _ _ l Hl).
  - rewrite (rsum_single _ _ k Hk); [unfold one_mode; rewrite !Z.eqb_refl; reflexivity|]. intros k' _ N. unfold one_mode. replace (k' =? k) with false by lia. rewrite andb_false_r. ring.
  - intros l' _ N. rewrite (rsum_ext _ _ (fun _ => 0%R)); [apply rsum_zero|]. intros k' _. unfold one_mode. replace (l' =? l) with false by lia. cbn [andb]. ring.
Qed.
Lemma fc_mode gx gy l k c d : in_rng (nrow gx) l -> in_rng (ncol gx) k -> same_size gx gy ->
  (forall i j, in_rng (nrow gx) i -> in_rng (ncol gx) j -> px gx i j = (c * (cos_mode (nrow gx) l i * cos_mode (ncol gx) k j))%R) ->
  (forall i j, in_rng (nrow gx) i -> in_rng (ncol gx) j -> px gy i j = (d * (cos_mode (nrow gx) l i * cos_mode (ncol gx) k j))%R) ->
  exists f, surface_FC gx gy false None = Ok f /\ same_size f gx /\ forall i j, in_rng (nrow gx) i -> in_rng (ncol gx) j ->
    px f i j = if (l =? 0) && (k =? 0) then 0%R else
    (IZR (ncol gx) / (PI * (IZR k ^ 2 + IZR l ^ 2)) * (IZR k * c * (cos_mode (nrow gx) l i * sin_mode (ncol gx) k j) + IZR l * d * (sin_mode (nrow gx) l i * cos_mode (ncol gx) k j)))%R.
Proof.
  intros Hl Hk S VX VY. assert (0 < nrow gx) by (unfold in_rng in Hl; lia). assert (0 < ncol gx) by (unfold in_rng in Hk; lia). assert (S' := S). destruct S' as [S1 S2].
  destruct (fc_spec gx gy (one_mode l k c) (one_mode l k d)) as (f & E & T & V); try assumption.
  - apply one_mode_series; assumption.
  - apply one_mode_series; rewrite <- ?S1, <- ?S2; assumption.
  - exists f. split; [exact E|]. split; [exact T|]. intros i j Hi Hj. rewrite V by assumption. rewrite (fc_value_single _ _ _ _ l k) by
      (try assumption; intros l' k' _ _ N; unfold one_mode; replace ((l' =? l) && (k' =? k)) with false by (symmetry; apply not_true_is_false; lia); split; reflexivity).
    unfold one_mode. rewrite !Z.eqb_refl. reflexivity.
Qed.
