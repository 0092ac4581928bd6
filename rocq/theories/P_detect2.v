(** Lemmas for detect_sample (C133): separable spectra, stripes. *)
From Coq Require Import Reals Lra ZArith Lia String.
From Verif Require Import Np P_Np M_phase_R P_phase_R M_fourier P_fourier M_simR P_simR M_corr P_corr2 P_umpa M_detect S_detect P_stripefft2 P_detect.
From Coq Require Import List. Import ListNotations.
Open Scope Z_scope.

Lemma bell_pos s k : (0 < bell s k)%R. Proof. apply exp_pos. Qed.
Lemma bell_sum_pos s : 1 <= s -> (0 < rsum (2 * (4 * s) + 1) (fun a => bell s (a - 4 * s)))%R.
Proof. intros H. apply rsum_pos with (k := 0); [intros k _; apply Rlt_le, bell_pos|lia|apply bell_pos]. Qed.
Lemma weight_pos s k : 1 <= s -> (0 < gauss_weight s k)%R.
Proof. intros H. unfold gauss_weight. apply Rdiv_lt_0_compat; [apply bell_pos|apply bell_sum_pos; exact H]. Qed.
Definition smooth1 (s n : Z) (c : Z -> R) (i : Z) : R := rsum (2 * (4 * s) + 1) (fun a => gauss_weight s (a - 4 * s) * c (border_idx n (i + (a - 4 * s))))%R.
Lemma gaussian_sep p s c d i j : 0 < nrow p -> 0 < ncol p -> (forall i j, in_rng (nrow p) i -> in_rng (ncol p) j -> px p i j = (c i * d j)%R) ->
  px (gaussian_filter p s) i j = (smooth1 s (nrow p) c i * smooth1 s (ncol p) d j)%R.
Proof.
  intros Hh Hw H. unfold gaussian_filter, smooth1. cbv zeta. cbn [px]. rewrite <- rsum_scal. apply rsum_ext. intros b _.
  rewrite (rsum_ext _ _ (fun a => (d (border_idx (ncol p) (j + (b - 4 * s))) * (gauss_weight s (a - 4 * s) * c (border_idx (nrow p) (i + (a - 4 * s)))))%R)).
  - rewrite rsum_scal. ring.
  - intros a _. rewrite H by (apply border_idx_in; assumption). ring.
Qed.
Lemma border_idx_id n k : 0 <= k < n -> border_idx n k = k.
Proof. intros H. unfold border_idx. rewrite Z.mod_small by lia. cbv zeta. replace (k <? n) with true by lia. reflexivity. Qed.
Lemma smooth1_nonneg s n c i : 1 <= s -> 0 < n -> (forall k, in_rng n k -> (0 <= c k)%R) -> (0 <= smooth1 s n c i)%R.
Proof. intros Hs Hn H. apply rsum_nonneg. intros k _. apply Rmult_le_pos; [apply Rlt_le, weight_pos; exact Hs|apply H, border_idx_in, Hn]. Qed.
Lemma smooth1_pos s n c i k : 1 <= s -> 0 < n -> (forall k, in_rng n k -> (0 <= c k)%R) -> in_rng n k -> -1 <= k - i <= 1 -> (0 < c k)%R -> (0 < smooth1 s n c i)%R.
Proof.
  intros Hs Hn H Hk Hi P. apply rsum_pos with (k := k - i + 4 * s).
  - intros a _. apply Rmult_le_pos; [apply Rlt_le, weight_pos; exact Hs|apply H, border_idx_in, Hn].
  - lia.
  - replace (i + (k - i + 4 * s - 4 * s)) with k by ring. unfold in_rng in Hk. rewrite border_idx_id by lia. apply Rmult_lt_0_compat; [apply weight_pos; exact Hs|exact P].
Qed.
Lemma smooth_size_pos a b : 0 < a -> 0 < b -> 1 <= smooth_size a b.
Proof. intros. unfold smooth_size. assert (C := ceil_div_bounds (Z.min a b) 50 ltac:(lia) ltac:(lia)). lia. Qed.
(** few rows: only one row is looked at *)
Lemma one_row a b p : 0 < nrow p <= 5 -> 0 < ncol p -> detect_in_spectrum a b p = Ok false.
Proof.
  intros Hh Hw. apply none_rises; [lia|exact Hw|]. intros pk _ i Hi. assert (D := Z.div_mod (4 * nrow p) 5 ltac:(lia)). assert (M := Z.mod_pos_bound (4 * nrow p) 5 ltac:(lia)).
  replace i with (4 * nrow p / 5) by lia. lia.
Qed.
Lemma zero_spectrum a b p : 0 < nrow p -> 0 < ncol p -> (forall i j, in_rng (nrow p) i -> in_rng (ncol p) j -> px p i j = 0%R) -> detect_in_spectrum a b p = Ok false.
Proof.
  intros Hh Hw H. apply none_rises; [exact Hh|exact Hw|]. intros pk F i _.
  assert (Z0 : forall i j, px (gaussian_filter p (smooth_size a b)) i j = 0%R).
  { intros x y. rewrite (gaussian_sep p _ (fun _ => 0%R) (fun _ => 0%R)); [|exact Hh|exact Hw|intros; rewrite H by assumption; ring]. unfold smooth1 at 1. rewrite (rsum_ext _ _ (fun _ => 0%R)) by (intros; ring). rewrite rsum_zero. ring. }
  assert (P0 : forall i, pk i = 0). { intros x. apply (first_max_unique (ncol p) (px (gaussian_filter p (smooth_size a b)) x)); [apply F|]. split; [lia|]. split; intros y Hy; [rewrite !Z0; lra|lia]. }
  rewrite !P0. lia.
Qed.
(** all rows have the same profile *)
Lemma separable_spectrum a b p c d : 0 < a -> 0 < b -> 6 <= nrow p -> 0 < ncol p -> (forall i j, in_rng (nrow p) i -> in_rng (ncol p) j -> px p i j = (c i * d j)%R) ->
  (forall k, in_rng (nrow p) k -> (0 <= c k)%R) -> (forall k, 0 <= k -> k + 1 < nrow p -> (0 < c k)%R \/ (0 < c (k + 1)%Z)%R) -> detect_in_spectrum a b p = Ok false.
Proof.
  intros Ha Hb Hh Hw H C0 C1. apply none_rises; [lia|exact Hw|]. intros pk F i Hi. assert (SS := smooth_size_pos a b Ha Hb). set (s := smooth_size a b) in *.
  assert (D := Z.div_mod (4 * nrow p) 5 ltac:(lia)). assert (M := Z.mod_pos_bound (4 * nrow p) 5 ltac:(lia)). set (row := 4 * nrow p / 5) in *.
  set (A := smooth1 s (nrow p) c). set (B := smooth1 s (ncol p) d).
  assert (G : forall x y, px (gaussian_filter p s) x y = (A x * B y)%R) by (intros; apply gaussian_sep; try assumption; lia).
  assert (R0 : (0 < A row)%R). { destruct (C1 row ltac:(lia) ltac:(lia)) as [P|P]; [apply smooth1_pos with (k := row)|apply smooth1_pos with (k := row + 1)]; try assumption; unfold in_rng; lia. }
  assert (R1 : (0 <= A i)%R) by (apply smooth1_nonneg; try assumption; lia).
  assert (FB : first_max (ncol p) B (pk row)). { destruct (F row) as (K1 & K2 & K3). split; [exact K1|]. split; intros y Hy; [specialize (K2 y Hy)|specialize (K3 y Hy)]; rewrite !G in *; [apply Rmult_le_reg_l in K2|apply Rmult_lt_reg_l in K3]; assumption. }
  destruct (Rle_lt_or_eq_dec _ _ R1) as [P|P].
  - replace (pk i) with (pk row); [lia|]. apply (first_max_unique (ncol p) (px (gaussian_filter p s) i)); [|apply F]. destruct FB as (K1 & K2 & K3). split; [exact K1|]. split; intros y Hy; rewrite !G; [apply Rmult_le_compat_l; [lra|apply K2; exact Hy]|apply Rmult_lt_compat_l; [lra|apply K3; exact Hy] ].
  - replace (pk i) with 0; [destruct FB as (K1 & _); lia|]. apply (first_max_unique (ncol p) (px (gaussian_filter p s) i)); [|apply F]. split; [lia|]. split; intros y Hy; [rewrite !G, <- P; lra|lia].
Qed.
(** ** the spectrum of stripes in a 180-degree scan *)
Lemma csum_app n m f : 0 <= n -> 0 <= m -> csum (n + m) f = cadd (csum n f) (csum m (fun k => f (n + k))).
Proof. intros Hn Hm. unfold csum, cadd. cbn [fst snd]. rewrite !rsum_app by assumption. reflexivity. Qed.
Definition half_sum (n u : Z) : cx := csum n (fun a => root (n + n) (- (u * a))).
Definition line (w : Z) (g : Z -> R) (v : Z) : cx := csum w (fun b => cmul (c_ (g b)) (root w (- (v * b)))).
Lemma half_sum_turn n u : 0 < n -> in_rng (n + n) u -> u <> 0 -> cmul (half_sum n u) (root (n + n) (- (u * n))) = copp (half_sum n u).
Proof.
  intros Hn Hu N. assert (E : csum (n + n) (fun a => root (n + n) (a * - u)) = cadd (half_sum n u) (cmul (half_sum n u) (root (n + n) (- (u * n))))).
  { rewrite csum_app by lia. f_equal; [apply csum_ext; intros a _; f_equal; ring|]. unfold half_sum. rewrite <- csum_scal_r. apply csum_ext. intros a _. rewrite <- root_add. f_equal. ring. }
  rewrite root_sum in E by lia. replace (- u mod (n + n) =? 0) with false in E.
  - apply (f_equal (fun z => cadd (copp (half_sum n u)) z)) in E. ring_simplify in E. transitivity (cmul (half_sum n u) (root (n + n) (- (u * n)))); [reflexivity|]. rewrite <- E. ring.
  - symmetry. apply Z.eqb_neq. unfold in_rng in Hu. rewrite Z.mod_opp_l_nz by (rewrite ?Z.mod_small by lia; lia). rewrite Z.mod_small by lia. lia.
Qed.
Lemma stripes_opposite n w g u v : 0 < n -> 0 < w -> in_rng (n + n) u -> u <> 0 ->
  px (fft2 (as_cx (with_opposite (mkimg n w (fun _ j => g j))))) u v = cmul (half_sum n u) (csub (line w g v) (line w (fun b => g (w - 1 - b)) v)).
Proof.
  intros Hn Hw Hu N. cbn [fft2 px as_cx with_opposite nrow ncol]. rewrite csum_app by lia.
  rewrite (csum_ext n _ (fun a => cmul (root (n + n) (- (u * a))) (line w g v))).
  2: { intros a Ha. unfold line. rewrite <- csum_scal. apply csum_ext. intros b _. replace (a <? n) with true by lia. ring. }
  rewrite (csum_ext n (fun k => csum w _) (fun a => cmul (cmul (root (n + n) (- (u * a))) (root (n + n) (- (u * n)))) (line w (fun b => g (w - 1 - b)) v))).
  2: { intros a Ha. unfold line. rewrite <- csum_scal. apply csum_ext. intros b _. replace (n + a <? n) with false by lia. replace (- (u * (n + a))) with (- (u * a) + - (u * n)) by ring. rewrite root_add. ring. }
  rewrite csum_scal_r. rewrite csum_scal_r. rewrite csum_scal_r. fold (half_sum n u). rewrite half_sum_turn by assumption. ring.
Qed.
Lemma root_half n k : 0 < n -> root (n + n) (- ((2 * k + 1) * n)) = c_ (-1).
Proof.
  intros Hn. rewrite (root_mod (n + n) _ n).
  - unfold root, c_. rewrite plus_IZR. assert (IZR n <> 0)%R by (intros E; apply eq_IZR in E; lia). replace (2 * PI * IZR n / (IZR n + IZR n))%R with PI by (field; lra). rewrite cos_PI, sin_PI. reflexivity.
  - lia.
  - replace (- ((2 * k + 1) * n)) with (n + (- k - 1) * (n + n)) by ring. apply Z_mod_plus_full.
Qed.
Lemma half_sum_odd n k : 0 < n -> (0 < cabs (half_sum n (2 * k + 1)))%R.
Proof.
  intros Hn. set (u := 2 * k + 1). assert (E : cmul (half_sum n u) (csub (root (n + n) (- u)) (c_ 1)) = csub (root (n + n) (- (u * n))) (c_ 1)).
  { unfold half_sum. rewrite <- csum_scal_r. rewrite (csum_ext n _ (fun a => csub (root (n + n) (- (u * (a + 1)))) (root (n + n) (- (u * a))))).
    - unfold csum, csub at 1. cbn [fst snd]. unfold csub. cbn [fst snd]. rewrite (rsum_tele n (fun a => fst (root (n + n) (- (u * a))))), (rsum_tele n (fun a => snd (root (n + n) (- (u * a))))) by lia. replace (- (u * 0)) with 0 by ring. rewrite root_0. reflexivity.
    - intros a _. replace (- (u * (a + 1))) with (- (u * a) + - u) by ring. rewrite root_add. ring. }
  unfold u in E at 3. rewrite root_half in E by exact Hn. destruct (Rle_lt_or_eq_dec _ _ (cabs_pos (half_sum n u))) as [P|P]; [exact P|exfalso]. symmetry in P. apply cabs_zero in P. rewrite P in E. apply (f_equal fst) in E. cbn in E. lra.
Qed.
