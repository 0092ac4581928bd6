(** Proofs for C117: symmetries of the FFT-based unwrapping. *)
From Coq Require Import Reals ZArith Lia Lra Bool List.
From Verif Require Import Np P_Np M_phase_R P_phase_R M_simR P_simR M_calib M_fourier P_fourier P_kernel P_fresnel M_surface S_surface P_surface P_surface4 P_surface5 M_unwrap P_unwrap.
Open Scope Z_scope.

Section Sym.
Variables (h w : Z).
Hypothesis Hh : 0 < h. Hypothesis Hw : 0 < w.
Let H := 2 * h. Let W := 2 * w.
Lemma unw_ext D D' a b : in_rng H a -> in_rng W b ->
  (forall a b a' b', in_rng H a -> in_rng W b -> in_rng H a' -> in_rng W b' -> sin (D' a' b' - D' a b) = sin (D a' b' - D a b)) -> unw_at h w D' a b = unw_at h w D a b.
Proof using Hh Hw.
  intros Ha Hb E. rewrite !unw_sum by assumption. apply rsum_ext. intros a' Ha'. apply rsum_ext. intros b' Hb'. f_equal. rewrite !rho_pairs by assumption.
  apply rsum_ext. intros c Hc. apply rsum_ext. intros d Hd. rewrite E by assumption. reflexivity.
Qed.
Lemma unw_neg D D' a b : (forall a b, in_rng H a -> in_rng W b -> D' a b = (- D a b)%R) -> unw_at h w D' a b = (- unw_at h w D a b)%R.
Proof using Hh Hw.
  intros E. rewrite !unw_sum by assumption. transitivity (-1 * rsum (2 * h) (fun a' => rsum (2 * w) (fun b' => rho_at h w D a' b' * KB h w (a - a') (b - b'))))%R; [|ring].
  rewrite <- rsum_scal. apply rsum_ext. intros a' Ha'. rewrite <- rsum_scal. apply rsum_ext. intros b' Hb'.
  replace (rho_at h w D' a' b') with (-1 * rho_at h w D a' b')%R; [ring|]. rewrite !rho_pairs by assumption. rewrite <- rsum_scal. apply rsum_ext. intros c Hc. rewrite <- rsum_scal. apply rsum_ext. intros d Hd.
  rewrite !E by assumption. replace (- D c d - - D a' b')%R with (- (D c d - D a' b'))%R by ring. rewrite sin_neg. ring.
Qed.
Lemma unw_zero D a b : (forall a b a' b', in_rng H a -> in_rng W b -> in_rng H a' -> in_rng W b' -> sin (D a' b' - D a b) = 0%R) -> unw_at h w D a b = 0%R.
Proof using Hh Hw.
  intros E. rewrite !unw_sum by assumption. rewrite (rsum_ext _ _ (fun _ => 0%R)); [apply rsum_zero|]. intros a' Ha'. rewrite (rsum_ext _ _ (fun _ => 0%R)); [apply rsum_zero|]. intros b' Hb'.
  rewrite rho_pairs by assumption. rewrite (rsum_ext _ _ (fun _ => 0%R)); [rewrite rsum_zero; ring|]. intros c Hc. rewrite (rsum_ext _ _ (fun _ => 0%R)); [apply rsum_zero|]. intros d Hd.
  rewrite E by assumption. ring.
Qed.
Lemma rho_total D : rsum H (fun a => rsum W (fun b => rho_at h w D a b)) = 0%R.
Proof using Hh Hw.
  set (q := fun a b a' b' => (KF h w (a - a') (b - b') * sin (D a' b' - D a b))%R).
  assert (E : rsum H (fun a => rsum W (fun b => rho_at h w D a b)) = rsum H (fun a => rsum W (fun b => rsum H (fun a' => rsum W (fun b' => q a b a' b'))))).
  { apply rsum_ext. intros a _. apply rsum_ext. intros b _. apply rho_pairs; assumption. }
  assert (T : rsum H (fun a => rsum W (fun b => rsum H (fun a' => rsum W (fun b' => q a b a' b')))) = rsum H (fun a' => rsum W (fun b' => rsum H (fun a => rsum W (fun b => q a b a' b'))))).
  { transitivity (rsum H (fun a => rsum H (fun a' => rsum W (fun b => rsum W (fun b' => q a b a' b'))))); [apply rsum_ext; intros a _; apply rsum_swap|]. rewrite rsum_swap. apply rsum_ext. intros a' _.
    transitivity (rsum H (fun a => rsum W (fun b' => rsum W (fun b => q a b a' b')))); [apply rsum_ext; intros a _; apply rsum_swap|]. apply rsum_swap. }
  set (s := rsum H (fun a => rsum W (fun b => rsum H (fun a' => rsum W (fun b' => q a b a' b'))))) in *. rewrite E. assert (S : s = (-1 * s)%R); [|lra].
  rewrite T at 1. unfold s. rewrite <- rsum_scal. apply rsum_ext. intros a _. rewrite <- rsum_scal. apply rsum_ext. intros b _. rewrite <- rsum_scal. apply rsum_ext. intros a' _. rewrite <- rsum_scal. apply rsum_ext. intros b' _.
  unfold q, KF. replace (a' - a) with (- (a - a')) by ring. replace (b' - b) with (- (b - b')) by ring. rewrite kernel_even_row, kernel_even_col by (try lia; apply VF_even; assumption).
  replace (D a b - D a' b')%R with (- (D a' b' - D a b))%R by ring. rewrite sin_neg. ring.
Qed.
Lemma unw_total D : rsum H (fun a => rsum W (fun b => unw_at h w D a b)) = 0%R.
Proof using Hh Hw.
  set (k := rsum H (fun a => rsum W (fun b => KB h w a b))).
  assert (K : forall a' b', rsum H (fun a => rsum W (fun b => KB h w (a - a') (b - b'))) = k).
  { intros a' b'. unfold k. rewrite <- (rsum_cyclic H (- a') (fun a => rsum W (fun b => KB h w a b))) by (unfold H; lia). apply rsum_ext. intros a _.
    rewrite <- (rsum_cyclic W (- b') (fun b => KB h w ((a + - a') mod H) b)) by (unfold W; lia). apply rsum_ext. intros b _. unfold KB. fold H W. rewrite kernel_mod by (unfold H, W; lia). f_equal; lia. }
  transitivity (rsum H (fun a' => rsum W (fun b' => rho_at h w D a' b' * rsum H (fun a => rsum W (fun b => KB h w (a - a') (b - b')))))%R).
  - transitivity (rsum H (fun a => rsum W (fun b => rsum H (fun a' => rsum W (fun b' => rho_at h w D a' b' * KB h w (a - a') (b - b')))))%R).
    + apply rsum_ext. intros a _. apply rsum_ext. intros b _. apply unw_sum; assumption.
    + set (q := fun a b a' b' => (rho_at h w D a' b' * KB h w (a - a') (b - b'))%R). change (rsum H (fun a => rsum W (fun b => rsum H (fun a' => rsum W (fun b' => q a b a' b')))) = rsum H (fun a' => rsum W (fun b' => rho_at h w D a' b' * rsum H (fun a => rsum W (fun b => KB h w (a - a') (b - b'))))%R)).
      transitivity (rsum H (fun a => rsum H (fun a' => rsum W (fun b => rsum W (fun b' => q a b a' b'))))); [apply rsum_ext; intros a _; apply rsum_swap|]. rewrite rsum_swap. apply rsum_ext. intros a' _.
      transitivity (rsum H (fun a => rsum W (fun b' => rsum W (fun b => q a b a' b')))); [apply rsum_ext; intros a _; apply rsum_swap|]. rewrite rsum_swap. apply rsum_ext. intros b' _.
      rewrite <- rsum_scal. apply rsum_ext. intros a _. rewrite <- rsum_scal. reflexivity.
  - rewrite (rsum_ext H _ (fun a' => rsum W (fun b' => rho_at h w D a' b') * k)%R); [rewrite rsum_scal_r, rho_total; ring|]. intros a' _. rewrite <- rsum_scal_r. apply rsum_ext. intros b' _. rewrite K. reflexivity.
Qed.
Lemma rho_shift D D' s t a b : in_rng H a -> in_rng W b -> (forall a b, in_rng H a -> in_rng W b -> D' a b = D ((a + s) mod H) ((b + t) mod W)) ->
  rho_at h w D' a b = rho_at h w D ((a + s) mod H) ((b + t) mod W).
Proof using Hh Hw.
  intros Ha Hb E. rewrite !rho_pairs by assumption. fold H W. rewrite E by assumption. set (c := D ((a + s) mod H) ((b + t) mod W)).
  rewrite <- (rsum_cyclic H s (fun x => rsum W (fun y => KF h w ((a + s) mod H - x) ((b + t) mod W - y) * sin (D x y - c))%R)) by (unfold H; lia). apply rsum_ext. intros a' Ha'.
  rewrite <- (rsum_cyclic W t (fun y => KF h w ((a + s) mod H - (a' + s) mod H) ((b + t) mod W - y) * sin (D ((a' + s) mod H) y - c))%R) by (unfold W; lia). apply rsum_ext. intros b' Hb'.
  rewrite E by assumption. f_equal. unfold KF. fold H W. rewrite <- (kernel_mod H W _ ((a + s) mod H - (a' + s) mod H)) by (unfold H, W; lia). rewrite <- !Zminus_mod. rewrite kernel_mod by (unfold H, W; lia). f_equal; lia.
Qed.
Lemma unw_shift D D' s t a b : in_rng H a -> in_rng W b -> (forall a b, in_rng H a -> in_rng W b -> D' a b = D ((a + s) mod H) ((b + t) mod W)) ->
  unw_at h w D' a b = unw_at h w D ((a + s) mod H) ((b + t) mod W).
Proof using Hh Hw.
  intros Ha Hb E. rewrite !unw_sum by assumption. fold H W.
  rewrite <- (rsum_cyclic H s (fun x => rsum W (fun y => rho_at h w D x y * KB h w ((a + s) mod H - x) ((b + t) mod W - y))%R)) by (unfold H; lia). apply rsum_ext. intros a' Ha'.
  rewrite <- (rsum_cyclic W t (fun y => rho_at h w D ((a' + s) mod H) y * KB h w ((a + s) mod H - (a' + s) mod H) ((b + t) mod W - y))%R) by (unfold W; lia). apply rsum_ext. intros b' Hb'.
  rewrite (rho_shift D D' s t) by assumption. f_equal. unfold KB. fold H W. rewrite <- (kernel_mod H W _ ((a + s) mod H - (a' + s) mod H)) by (unfold H, W; lia). rewrite <- !Zminus_mod. rewrite kernel_mod by (unfold H, W; lia). f_equal; lia.
Qed.
Lemma mirror_cols D a b : in_rng H a -> in_rng W b -> (forall a b, in_rng H a -> in_rng W b -> D a (W - 1 - b) = D a b) -> unw_at h w D a (W - 1 - b) = unw_at h w D a b.
Proof using Hh Hw.
  intros Ha Hb E.
  assert (R : forall a b, in_rng H a -> in_rng W b -> rho_at h w D a (W - 1 - b) = rho_at h w D a b).
  { clear a b Ha Hb. intros a b Ha Hb. rewrite !rho_pairs by assumption. fold H W. rewrite E by assumption. apply rsum_ext. intros a' Ha'. rewrite <- rsum_rev by (unfold W; lia). apply rsum_ext. intros b' Hb'.
    rewrite E by assumption. f_equal. replace (W - 1 - b - (W - 1 - b')) with (- (b - b')) by ring. unfold KF. apply kernel_even_col; try lia. apply VF_even; assumption. }
  rewrite !unw_sum by assumption. fold H W. apply rsum_ext. intros a' Ha'. rewrite <- rsum_rev by (unfold W; lia). apply rsum_ext. intros b' Hb'. rewrite R by assumption. f_equal.
  replace (W - 1 - b - (W - 1 - b')) with (- (b - b')) by ring. unfold KB. apply kernel_even_col; try lia. apply VB_even; assumption.
Qed.
Lemma mirror_rows D a b : in_rng H a -> in_rng W b -> (forall a b, in_rng H a -> in_rng W b -> D (H - 1 - a) b = D a b) -> unw_at h w D (H - 1 - a) b = unw_at h w D a b.
Proof using Hh Hw.
  intros Ha Hb E.
  assert (R : forall a b, in_rng H a -> in_rng W b -> rho_at h w D (H - 1 - a) b = rho_at h w D a b).
  { clear a b Ha Hb. intros a b Ha Hb. rewrite !rho_pairs by assumption. fold H W. rewrite E by assumption. rewrite <- rsum_rev by (unfold H; lia). apply rsum_ext. intros a' Ha'. apply rsum_ext. intros b' Hb'.
    rewrite E by assumption. f_equal. replace (H - 1 - a - (H - 1 - a')) with (- (a - a')) by ring. unfold KF. apply kernel_even_row; try lia. apply VF_even; assumption. }
  rewrite !unw_sum by assumption. fold H W. rewrite <- rsum_rev by (unfold H; lia). apply rsum_ext. intros a' Ha'. apply rsum_ext. intros b' Hb'. rewrite R by assumption. f_equal.
  replace (H - 1 - a - (H - 1 - a')) with (- (a - a')) by ring. unfold KB. apply kernel_even_row; try lia. apply VB_even; assumption.
Qed.
End Sym.
Lemma VF_trans h w u v : VF w h v u = VF h w u v. Proof. unfold VF. apply Rplus_comm. Qed.
Lemma VB_trans h w u v : VB w h v u = VB h w u v. Proof. unfold VB. rewrite andb_comm, VF_trans. reflexivity. Qed.
Lemma unw_trans h w D D' a b : 0 < h -> 0 < w -> (forall a b, in_rng (2 * w) a -> in_rng (2 * h) b -> D' a b = D b a) -> in_rng (2 * w) a -> in_rng (2 * h) b -> unw_at w h D' a b = unw_at h w D b a.
Proof.
  intros Hh Hw E Ha Hb. rewrite !unw_sum by assumption. rewrite rsum_swap. apply rsum_ext. intros b' Hb'. apply rsum_ext. intros a' Ha'. f_equal.
  - rewrite !rho_pairs by assumption. rewrite rsum_swap. apply rsum_ext. intros c Hc. apply rsum_ext. intros d Hd. rewrite !E by assumption. f_equal. unfold KF. rewrite kernel_trans. apply kernel_ext. intros u v _ _. apply VF_trans.
  - unfold KB. rewrite kernel_trans. apply kernel_ext. intros u v _ _. apply VB_trans.
Qed.
