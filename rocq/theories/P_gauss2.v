(** Proofs about the Fourier-based Gaussian filter: waves and symmetries. *)
From Coq Require Import Reals Lra ZArith Lia Bool.
From Verif Require Import Np P_Np M_phase_R P_phase_R M_simR P_simR M_fourier P_fourier P_kernel M_fresnel S_fresnel P_fresnel P_fresnel2 M_gauss S_gauss P_gauss.
Open Scope Z_scope.

Lemma checker_sq a b : (checker a b * checker a b = 1)%R. Proof. unfold checker. destruct (Z.even (a + b)); ring. Qed.
Lemma checker_mul a b c d : (checker a b * checker c d)%R = checker (a - c) (b - d).
Proof.
  unfold checker. replace (a - c + (b - d)) with ((a + b) - (c + d)) by ring. rewrite Z.even_sub. destruct (Z.even (a + b)), (Z.even (c + d)); cbn [eqb]; ring.
Qed.
Lemma checker_opp a b : checker (- a) (- b) = checker a b.
Proof. unfold checker. replace (- a + - b) with (- (a + b)) by ring. rewrite Z.even_opp. reflexivity. Qed.
Lemma checker_comm a b : checker a b = checker b a. Proof. unfold checker. rewrite Z.add_comm. reflexivity. Qed.
(** the response at a frequency *)
Definition response sx sy (u v : Z) : R := ((bell sx sy (IZR v + 1 / 2) (IZR u + 1 / 2) + bell sx sy (- IZR v + 1 / 2) (- IZR u + 1 / 2)) / 2)%R.
Lemma bell_at h w sx sy u v : 0 < h -> 0 < w -> - h <= u < h -> - w <= v < w ->
  px (make_2d_gaussian_window (2 * h) (2 * w) sx sy) ((u + h) mod (2 * h)) ((v + w) mod (2 * w)) = bell sx sy (IZR v + 1 / 2) (IZR u + 1 / 2).
Proof.
  intros Hh Hw Hu Hv. rewrite !Z.mod_small by lia. cbn [px make_2d_gaussian_window]. unfold bell. rewrite !plus_IZR, !mult_IZR.
  replace (IZR v + IZR w - (2 * IZR w - 1) / 2)%R with (IZR v + 1 / 2)%R by field. replace (IZR u + IZR h - (2 * IZR h - 1) / 2)%R with (IZR u + 1 / 2)%R by field. reflexivity.
Qed.
Lemma neg_mod h u : 0 < h -> (- (u + h)) mod (2 * h) = (- u + h) mod (2 * h).
Proof. intros Hh. replace (- u + h) with (- (u + h) + 1 * (2 * h)) by ring. rewrite Z.mod_add by lia. reflexivity. Qed.
Lemma spectral_checked h w sx sy u v amp f (P : Z -> Z -> R) a b : 0 < h -> 0 < w -> - h < u < h -> - w < v < w ->
  (forall i j, in_rng (2 * h) i -> in_rng (2 * w) j -> P i j = (amp * wave (2 * h) (2 * w) u v f i j)%R) ->
  (checker b a * fst (spectral (2 * h) (2 * w) (fun a b => c_ (P a b * checker b a)) (fun u v => px (make_2d_gaussian_window (2 * h) (2 * w) sx sy) u v) a b))%R
  = (response sx sy u v * (amp * wave (2 * h) (2 * w) u v f a b))%R.
Proof.
  intros Hh Hw Hu Hv H. set (V := fun u v => px (make_2d_gaussian_window (2 * h) (2 * w) sx sy) u v).
  assert (E : fst (spectral (2 * h) (2 * w) (fun a b => c_ (P a b * checker b a)) V a b) = (amp * fst (spectral (2 * h) (2 * w) (fun a b => c_ (wave (2 * h) (2 * w) (u + h) (v + w) f a b)) V a b))%R).
  { rewrite !spectral_real, <- rsum_scal. apply rsum_ext. intros i Hi. rewrite <- rsum_scal. apply rsum_ext. intros j Hj. rewrite (H i j Hi Hj), <- checker_wave by assumption. ring. }
  rewrite E, spectral_wave by lia. unfold V. rewrite !neg_mod by lia. rewrite !bell_at by lia. rewrite <- checker_wave by assumption. rewrite !opp_IZR. fold (response sx sy u v).
  transitivity (checker b a * checker b a * (response sx sy u v * (amp * wave (2 * h) (2 * w) u v f a b)))%R; [ring|]. rewrite checker_sq. ring.
Qed.
Lemma pad_line_flat mode n p c f k : 0 < n -> (forall a, 0 <= a < n -> f a = c) -> pad_line mode n p f k = c.
Proof.
  intros Hn H. unfold pad_line. destruct (Z.leb_spec p k); cbn [andb]; [destruct (Z.ltb_spec k (p + n)); [apply H; lia|]|].
  1,2: destruct mode; [apply H; assert (Q := clip_in (k - p) 0 (n - 1)); lia| |apply H, reflect_in, Hn];
    rewrite (rsum_ext n f (fun a => c)) by exact H; rewrite rsum_const by lia; field; apply not_0_IZR; lia.
Qed.
Lemma pad_none_line mode n f k : 0 <= k < n -> pad_line mode n 0 f k = f k.
Proof. intros Hk. unfold pad_line. replace (0 <=? k) with true by lia. replace (k <? 0 + n) with true by lia. cbn [andb]. rewrite Z.sub_0_r. reflexivity. Qed.
Lemma gvalue_flat mat h w sx sy p mode c i j : 0 < h -> 0 < w -> nrow mat = 2 * h -> ncol mat = 2 * w -> 0 <= p ->
  (forall i j, in_rng (nrow mat) i -> in_rng (ncol mat) j -> px mat i j = c) -> gvalue mat sx sy p mode i j = (c * bell sx sy (1 / 2) (1 / 2))%R.
Proof.
  intros Hh Hw E1 E2 Hp H. unfold gvalue. rewrite E1, E2. replace (2 * h + 2 * p) with (2 * (h + p)) by ring. replace (2 * w + 2 * p) with (2 * (w + p)) by ring.
  assert (FL : forall a b, in_rng (2 * (h + p)) a -> in_rng (2 * (w + p)) b -> px (pad_image (fst (modes mode)) (snd (modes mode)) mat p) a b = (c * wave (2 * (h + p)) (2 * (w + p)) 0 0 0 a b)%R).
  { intros a b _ _. rewrite wave_flat, Rmult_1_r. cbn [px pad_image]. apply pad_line_flat; [lia|]. intros k Hk. apply pad_line_flat; [lia|]. intros l Hl. apply H; unfold in_rng; lia. }
  rewrite (spectral_checked (h + p) (w + p) sx sy 0 0 c 0 (fun a b => px (pad_image (fst (modes mode)) (snd (modes mode)) mat p) a b)) by (exact FL || lia).
  rewrite wave_flat. unfold response. rewrite Ropp_0, !Rplus_0_l. field.
Qed.
Lemma gvalue_wave mat h w sx sy mode u v amp f i j : 0 < h -> 0 < w -> nrow mat = 2 * h -> ncol mat = 2 * w -> - h < u < h -> - w < v < w -> is_wave mat u v amp f ->
  in_rng (nrow mat) i -> in_rng (ncol mat) j -> gvalue mat sx sy 0 mode i j = (response sx sy u v * px mat i j)%R.
Proof.
  intros Hh Hw E1 E2 Hu Hv H Hi Hj. unfold gvalue. rewrite E1, E2, !Z.mul_0_r, !Z.add_0_r.
  rewrite (spectral_checked h w sx sy u v amp f (fun a b => px (pad_image (fst (modes mode)) (snd (modes mode)) mat 0) a b)); try assumption.
  - rewrite (H i j Hi Hj). unfold wave. rewrite E1, E2. reflexivity.
  - intros a b Ha Hb. cbn [px pad_image]. rewrite E1, E2. rewrite pad_none_line by exact Ha. rewrite pad_none_line by exact Hb. rewrite H by (rewrite ?E1, ?E2; assumption). unfold wave. rewrite E1, E2. reflexivity.
Qed.
(** as a convolution *)
Definition ckern H W sx sy (d e : Z) : R := (checker e d * kernel H W (fun u v => px (make_2d_gaussian_window H W sx sy) u v) d e)%R.
Lemma gvalue_conv mat sx sy p mode i j : gvalue mat sx sy p mode i j = rsum (nrow mat + 2 * p) (fun a => rsum (ncol mat + 2 * p) (fun b =>
  px (pad_image (fst (modes mode)) (snd (modes mode)) mat p) a b * ckern (nrow mat + 2 * p) (ncol mat + 2 * p) sx sy (i + p - a) (j + p - b)))%R.
Proof.
  unfold gvalue. rewrite spectral_real, <- rsum_scal. apply rsum_ext. intros a _. rewrite <- rsum_scal. apply rsum_ext. intros b _. unfold ckern. rewrite <- checker_mul. ring.
Qed.
Lemma ckern_even H W sx sy d e : ckern H W sx sy (- d) (- e) = ckern H W sx sy d e.
Proof. unfold ckern. rewrite checker_opp, kernel_even. reflexivity. Qed.
Lemma reflect_mirror n x : 0 < n -> reflect_idx n (n - 1 - x) = n - 1 - reflect_idx n x.
Proof.
  intros Hn. unfold reflect_idx. destruct (Z.eqb_spec n 1); [lia|]. set (q := 2 * (n - 1)). cbv zeta. assert (B := Z.mod_pos_bound x q ltac:(unfold q; lia)). assert (D := Z.div_mod x q ltac:(unfold q; lia)).
  set (r := x mod q) in *. destruct (Z.ltb_spec r n).
  - assert (E : (n - 1 - x) mod q = n - 1 - r) by (symmetry; apply (Z.mod_unique _ _ (- (x / q))); unfold q in *; lia). rewrite E. destruct (Z.ltb_spec (n - 1 - r) n); lia.
  - assert (E : (n - 1 - x) mod q = n - 1 - r + q) by (symmetry; apply (Z.mod_unique _ _ (- (x / q) - 1)); unfold q in *; lia). rewrite E. destruct (Z.ltb_spec (n - 1 - r + q) n); unfold q in *; lia.
Qed.
Lemma pad_line_mirror mode n p f g k : 0 < n -> (forall a, 0 <= a < n -> g a = f (n - 1 - a)) -> pad_line mode n p g k = pad_line mode n p f (n + 2 * p - 1 - k).
Proof.
  intros Hn H. unfold pad_line. replace ((p <=? n + 2 * p - 1 - k) && (n + 2 * p - 1 - k <? p + n)) with ((p <=? k) && (k <? p + n)) by lia.
  destruct (Z.leb_spec p k) as [L|L], (Z.ltb_spec k (p + n)) as [L'|L']; cbn [andb]; [rewrite H by lia; f_equal; lia|..].
  1,2,3: destruct mode; [rewrite H by (assert (Q := clip_in (k - p) 0 (n - 1)); lia); f_equal; rewrite <- clip_mirror by exact Hn; f_equal; ring|
    rewrite (rsum_ext n g (fun a => f (n - 1 - a))) by exact H; rewrite rsum_rev by lia; reflexivity|
    rewrite H by (apply reflect_in, Hn); f_equal; rewrite <- reflect_mirror by exact Hn; f_equal; ring].
Qed.
Lemma pad_line_ext mode n p f g k : 0 < n -> (forall a, 0 <= a < n -> f a = g a) -> pad_line mode n p f k = pad_line mode n p g k.
Proof. intros Hn H. rewrite (pad_line_lin mode n p g g f 1 0) by (try exact Hn; intros a Ha; rewrite (H a Ha); ring). ring. Qed.
Lemma gvalue_half_turn m c sx sy p mode i j : 0 < nrow m -> 0 < ncol m -> 0 <= p -> half_turned m c -> gvalue c sx sy p mode i j = gvalue m sx sy p mode (nrow m - 1 - i) (ncol m - 1 - j).
Proof.
  intros Hh Hw Hp (E1 & E2 & H). rewrite !gvalue_conv. rewrite E1, E2. rewrite <- rsum_rev by lia. apply rsum_ext. intros a Ha. rewrite <- rsum_rev by lia. apply rsum_ext. intros b Hb. f_equal.
  - cbn [px pad_image]. rewrite E1, E2. replace (nrow m + 2 * p - 1 - a) with (nrow m + 2 * p - 1 - a) by ring.
    rewrite (pad_line_mirror (snd (modes mode)) (nrow m) p (fun a0 => pad_line (fst (modes mode)) (ncol m) p (px m a0) b)); [f_equal; ring|exact Hh|].
    intros k Hk. rewrite (pad_line_mirror (fst (modes mode)) (ncol m) p (px m (nrow m - 1 - k))); [f_equal; ring|exact Hw|]. intros l Hl. apply H; unfold in_rng; lia.
  - rewrite <- ckern_even. f_equal; ring.
Qed.
Lemma pad_commute m1 m2 n w p (f : Z -> Z -> R) i j : 
  pad_line m2 n p (fun a => pad_line m1 w p (f a) j) i = pad_line m1 w p (fun b => pad_line m2 n p (fun a => f a b) i) j.
Proof.
  unfold pad_line. destruct ((p <=? i) && (i <? p + n)), ((p <=? j) && (j <? p + w)), m1, m2; try reflexivity.
  rewrite (rsum_ext n _ (fun a => / IZR w * rsum w (f a))%R) by (intros; unfold Rdiv; ring). rewrite rsum_scal, rsum_swap.
  rewrite (rsum_ext w (fun b => rsum n (fun a => f a b) / IZR n)%R (fun b => / IZR n * rsum n (fun a => f a b))%R) by (intros; unfold Rdiv; ring). rewrite rsum_scal. unfold Rdiv. ring.
Qed.
Definition swap_modes (mode : option (npad * npad)) : option (npad * npad) := Some (snd (modes mode), fst (modes mode)).
Lemma gvalue_transposed m c sx sy p mode i j : 0 < nrow m -> 0 < ncol m -> 0 <= p -> transposed m c ->
  gvalue c sy sx p (swap_modes mode) i j = gvalue m sx sy p mode j i.
Proof.
  intros Hh Hw Hp (E1 & E2 & H). rewrite !gvalue_conv. rewrite E1, E2. rewrite rsum_swap. apply rsum_ext. intros a Ha. apply rsum_ext. intros b Hb. f_equal.
  - cbn [px pad_image swap_modes modes fst snd]. rewrite E1, E2. rewrite pad_commute. fold (modes mode). apply pad_line_ext; [exact Hh|]. intros k Hk. apply pad_line_ext; [exact Hw|]. intros l Hl. apply H; unfold in_rng; lia.
  - unfold ckern. rewrite checker_comm. f_equal. rewrite kernel_trans. apply kernel_ext. intros u v Hu Hv. cbn [px make_2d_gaussian_window]. f_equal. ring.
Qed.
