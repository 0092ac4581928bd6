(** Proofs about the double-wedge filter. *)
From Coq Require Import Reals Lra ZArith Lia Bool.
From Verif Require Import Np P_Np M_phase_R P_phase_R M_simR P_simR M_fourier P_fourier P_kernel M_fresnel S_fresnel P_fresnel P_fresnel2 M_wedge S_wedge.
Open Scope Z_scope.

Lemma rceil_spec x : ceiling x (rceil x).
Proof. unfold ceiling, rceil. destruct (base_Int_part (- x)) as [A B]. rewrite opp_IZR. lra. Qed.
Lemma ceiling_unique x n m : ceiling x n -> ceiling x m -> n = m.
Proof.
  intros [A B] [C D]. assert (IZR n < IZR m + 1)%R by lra. assert (IZR m < IZR n + 1)%R by lra. rewrite <- plus_IZR in *.
  apply lt_IZR in H. apply lt_IZR in H0. lia.
Qed.
Lemma mask_at height width radius i j n : 0 < height -> 0 < width -> radius <> 0%R -> in_rng height i -> in_rng width j ->
  ceiling (wedge_line height width radius (i - height / 2)) n ->
  px (make_double_wedge_mask height width radius) i j = (if (Z.abs (i - height / 2) <=? 1) then 1%R else if (Z.abs (j - width / 2) <=? Z.abs n) then 0%R else 1%R).
Proof.
  intros Hh Hw Hr Hi Hj Hn. unfold in_rng in *. unfold make_double_wedge_mask. cbn [px].
  assert (PH : (PI <> 0)%R) by (assert (X := PI_RGT_0); lra).
  assert (E : rceil (IZR (i - height / 2) * ((IZR height - 1) / (IZR height * 2 * PI)) / radius / (1 / IZR width)) = n).
  { apply (ceiling_unique (wedge_line height width radius (i - height / 2))); [|exact Hn].
    replace (wedge_line height width radius (i - height / 2)) with (IZR (i - height / 2) * ((IZR height - 1) / (IZR height * 2 * PI)) / radius / (1 / IZR width))%R; [apply rceil_spec|].
    unfold wedge_line. field. repeat split; try assumption; apply not_0_IZR; lia. }
  rewrite E. assert (D1 : 0 <= height / 2 < height) by (assert (X := Z.div_mod height 2 ltac:(lia)); assert (Y := Z.mod_pos_bound height 2 ltac:(lia)); lia).
  assert (D2 : 0 <= width / 2 < width) by (assert (X := Z.div_mod width 2 ltac:(lia)); assert (Y := Z.mod_pos_bound width 2 ltac:(lia)); lia).
  assert (B1 : ((py_adj height (height / 2 - 1) <=? i) && (i <? py_adj height (height / 2 + 1 + 1))) = (Z.abs (i - height / 2) <=? 1)).
  { apply Bool.eq_iff_eq_true. rewrite andb_true_iff, !Z.leb_le, Z.ltb_lt. unfold py_adj. destruct (Z.ltb_spec (height / 2 - 1) 0), (Z.ltb_spec (height / 2 + 1 + 1) 0); lia. }
  rewrite B1. destruct (Z.abs (i - height / 2) <=? 1); [reflexivity|].
  assert (B2 : ((py_adj width (clipZ (Z.min (- n + width / 2) (n + width / 2)) 0 (width - 1)) <=? j) && (j <? py_adj width (clipZ (Z.max (- n + width / 2) (n + width / 2)) 0 (width - 1) + 1))) = (Z.abs (j - width / 2) <=? Z.abs n)).
  { apply Bool.eq_iff_eq_true. rewrite andb_true_iff, !Z.leb_le, Z.ltb_lt. rewrite !py_adj_id by (unfold clipZ; lia). unfold clipZ. lia. }
  rewrite B2. reflexivity.
Qed.

(** one iteration *)
Definition weights (mask : img R) (h w : Z) (u v : Z) : R := px mask (ifftshift_idx h u) (ifftshift_idx w v).
Lemma wstep_at mask pad s i j : 0 <= pad -> 0 <= nrow s -> 0 <= ncol s -> in_rng (nrow s) i -> in_rng (ncol s) j ->
  px (wedge_step mask pad s) i j = fst (spectral (nrow s) (ncol s + 2 * pad) (fun a b => c_ (px (pad_edge s 0 pad) a b)) (weights mask (nrow s) (ncol s + 2 * pad)) i (j + pad)).
Proof.
  intros Hp Hr Hc Hi Hj. unfold in_rng in *. unfold wedge_step. cbn [islice px imap fft2 nrow ncol ishift fshift ifft2 pad_edge]. replace (nrow s + 2 * 0) with (nrow s) by lia.
  rewrite !py_adj_id by lia. rewrite Z.add_0_l, (Z.add_comm pad j). unfold spectral. cbn [px ifft2 fft2 nrow ncol]. f_equal. f_equal.
  apply csum_ext. intros u Hu. apply csum_ext. intros v Hv. rewrite !shift_back by assumption. reflexivity.
Qed.
Lemma wstep_size mask pad s : 0 <= pad -> 0 <= nrow s -> 0 <= ncol s -> nrow (wedge_step mask pad s) = nrow s /\ ncol (wedge_step mask pad s) = ncol s.
Proof.
  intros Hp Hr Hc. unfold wedge_step. cbn [islice px imap fft2 nrow ncol ishift fshift ifft2 pad_edge]. replace (nrow s + 2 * 0) with (nrow s) by lia.
  rewrite !slen_id by lia. split; lia.
Qed.
Lemma iter_size k mask pad s : 0 <= pad -> 0 <= nrow s -> 0 <= ncol s -> nrow (Nat.iter k (wedge_step mask pad) s) = nrow s /\ ncol (Nat.iter k (wedge_step mask pad) s) = ncol s.
Proof.
  intros Hp Hr Hc. induction k as [|k (I1 & I2)]; [split; reflexivity|]. cbn [Nat.iter nat_rect]. fold (Nat.iter k (wedge_step mask pad) s).
  destruct (wstep_size mask pad (Nat.iter k (wedge_step mask pad) s) Hp ltac:(lia) ltac:(lia)) as (A & B). lia.
Qed.
(** an invariant of one iteration is an invariant of all of them *)
Lemma iter_inv (P : img R -> Prop) k f s : P s -> (forall x, P x -> P (f x)) -> P (Nat.iter k f s).
Proof. intros H0 HS. induction k as [|k IH]; [exact H0|]. apply HS. exact IH. Qed.
Lemma iter_rel (P : img R -> img R -> Prop) k f g s t : P s t -> (forall x y, P x y -> P (f x) (g y)) -> P (Nat.iter k f s) (Nat.iter k g t).
Proof. intros H0 HS. induction k as [|k IH]; [exact H0|]. apply HS. exact IH. Qed.

Lemma padded s pad a b : 0 <= pad -> in_rng (nrow s) a -> 0 < ncol s -> px (pad_edge s 0 pad) a b = px s a (clipZ (b - pad) 0 (ncol s - 1)).
Proof. intros Hp Ha Hc. unfold in_rng in *. cbn [px pad_edge]. f_equal. unfold clipZ. lia. Qed.
Lemma wstep_ext mask mask' pad s t : 0 <= pad -> 0 < nrow s -> 0 < ncol s -> img_eq s t ->
  (forall u v, in_rng (nrow s) u -> in_rng (ncol s + 2 * pad) v -> px mask u v = px mask' u v) -> img_eq (wedge_step mask pad s) (wedge_step mask' pad t).
Proof.
  intros Hp Hr Hc (E1 & E2 & E3) EM. destruct (wstep_size mask pad s Hp ltac:(lia) ltac:(lia)) as (A & B). destruct (wstep_size mask' pad t Hp ltac:(lia) ltac:(lia)) as (C & D).
  repeat split; try congruence. intros i j Hi Hj. rewrite A in Hi. rewrite B in Hj. rewrite !wstep_at by (try lia; congruence). rewrite <- E1, <- E2. f_equal. apply spectral_ext.
  - intros a b Ha Hb. rewrite !padded by (try lia; congruence). rewrite <- E2. f_equal. apply E3; [exact Ha|]. unfold in_rng, clipZ. lia.
  - intros u v Hu Hv. unfold weights. apply EM; unfold in_rng, ifftshift_idx; apply Z.mod_pos_bound; unfold in_rng in *; lia.
Qed.
(** linearity *)
Lemma wstep_lin mask pad m n c x y : 0 <= pad -> 0 < nrow m -> 0 < ncol m -> combination x y m n c -> combination x y (wedge_step mask pad m) (wedge_step mask pad n) (wedge_step mask pad c).
Proof.
  intros Hp Hr Hc (R1 & R2 & R3 & R4 & H).
  destruct (wstep_size mask pad m Hp ltac:(lia) ltac:(lia)) as (A1 & B1). destruct (wstep_size mask pad n Hp ltac:(lia) ltac:(lia)) as (A2 & B2). destruct (wstep_size mask pad c Hp ltac:(lia) ltac:(lia)) as (A3 & B3).
  repeat split; try congruence. intros i j Hi Hj. rewrite A3 in Hi. rewrite B3 in Hj. rewrite !wstep_at by (try lia; congruence). rewrite R3, R4, <- R1, <- R2.
  set (h := nrow m) in *. set (w := ncol m + 2 * pad) in *.
  rewrite (spectral_ext h w (fun a b => c_ (px (pad_edge c 0 pad) a b)) (fun a b => cadd (cmul (c_ x) (c_ (px (pad_edge m 0 pad) a b))) (cmul (c_ y) (c_ (px (pad_edge n 0 pad) a b)))) (weights mask h w) (weights mask h w) i (j + pad)).
  - rewrite (spectral_lin h w (fun a b => c_ (px (pad_edge m 0 pad) a b)) (fun a b => c_ (px (pad_edge n 0 pad) a b))). cbn [fst cadd]. rewrite !fst_real. reflexivity.
  - intros a b Ha Hb. rewrite !padded by (unfold h in *; try lia; congruence). rewrite <- R2, R4. rewrite H by (unfold in_rng, clipZ, h in *; rewrite ?R3, ?R4; lia).
    unfold cadd, cmul, c_; cbn [fst snd]. f_equal; ring.
  - reflexivity.
Qed.
(** a mask of ones changes nothing *)
Lemma wstep_ones mask pad s : 0 <= pad -> 0 < nrow s -> 0 < ncol s -> (forall u v, in_rng (nrow s) u -> in_rng (ncol s + 2 * pad) v -> px mask u v = 1%R) -> img_eq (wedge_step mask pad s) s.
Proof.
  intros Hp Hr Hc HM. destruct (wstep_size mask pad s Hp ltac:(lia) ltac:(lia)) as (A & B). split; [exact A|]. split; [exact B|]. intros i j Hi Hj. rewrite A in Hi. rewrite B in Hj.
  rewrite wstep_at by (try lia; assumption). rewrite (spectral_ext _ _ _ (fun a b => c_ (px (pad_edge s 0 pad) a b)) _ (fun _ _ => 1%R)).
  - unfold in_rng in *. rewrite spectral_one by (unfold in_rng in *; try lia; reflexivity). cbn [fst c_]. rewrite padded by (unfold in_rng; lia). f_equal. unfold clipZ. lia.
  - reflexivity.
  - intros u v Hu Hv. unfold weights. apply HM; unfold in_rng, ifftshift_idx; apply Z.mod_pos_bound; unfold in_rng in *; lia.
Qed.
(** a kernel whose weights are 1 in the row of zero frequency, summed over a column *)
Lemma ckernel_column h w V a' e : 0 < h -> 0 < w -> (forall v, in_rng w v -> V 0 v = 1%R) ->
  csum h (fun a => ckernel h w V (a - a') e) = if e mod w =? 0 then c_ 1 else c_ 0.
Proof.
  intros Hh Hw HV. unfold ckernel. rewrite csum_scal.
  transitivity (cmul (c_ (/ (IZR h * IZR w))) (csum h (fun u => csum w (fun v => csum h (fun a => cmul (c_ (V u v)) (cmul (root h (u * (a - a'))) (root w (v * e)))))))).
  { f_equal. rewrite csum_swap. apply csum_ext. intros u _. rewrite csum_swap. reflexivity. }
  assert (F : forall u v, in_rng h u -> csum h (fun a => cmul (c_ (V u v)) (cmul (root h (u * (a - a'))) (root w (v * e)))) = if u =? 0 then cmul (c_ (IZR h)) (cmul (c_ (V 0 v)) (root w (v * e))) else c_ 0).
  { intros u v Hu. transitivity (cmul (cmul (cmul (c_ (V u v)) (root w (v * e))) (root h (- (u * a')))) (csum h (fun a => root h (a * u)))).
    - rewrite <- csum_scal. apply csum_ext. intros a _. replace (u * (a - a')) with (- (u * a') + a * u) by ring. rewrite root_add. ring.
    - rewrite root_sum by exact Hh. unfold in_rng in Hu. rewrite Z.mod_small by lia. destruct (Z.eqb_spec u 0) as [->|N]; [|ring]. rewrite Z.mul_0_l. cbn [Z.opp]. rewrite root_0. ring. }
  rewrite (csum_single h _ 0 ltac:(lia)).
  - transitivity (cmul (c_ (/ (IZR h * IZR w))) (cmul (c_ (IZR h)) (csum w (fun v => root w (v * e))))).
    { f_equal. rewrite <- csum_scal. apply csum_ext. intros v Hv. rewrite F by (unfold in_rng; lia). rewrite Z.eqb_refl, HV by exact Hv. ring. }
    rewrite root_sum by exact Hw. assert (IZR h <> 0)%R by (apply not_0_IZR; lia). assert (IZR w <> 0)%R by (apply not_0_IZR; lia).
    destruct (e mod w =? 0); [|ring]. apply cx_eq; unfold cmul, c_; cbn [fst snd]; field; split; assumption.
  - intros u Hu N. apply csum_zero. intros v _. rewrite F by exact Hu. replace (u =? 0) with false by lia. reflexivity.
Qed.
Lemma kernel_column h w V a' e : 0 < h -> 0 < w -> (forall v, in_rng w v -> V 0 v = 1%R) ->
  rsum h (fun a => kernel h w V (a - a') e) = if e mod w =? 0 then 1%R else 0%R.
Proof.
  intros Hh Hw HV. assert (X := ckernel_column h w V a' e Hh Hw HV). apply (f_equal fst) in X. unfold csum in X. cbn [fst] in X.
  rewrite (rsum_ext h _ (fun a => fst (ckernel h w V (a - a') e))) by (intros; symmetry; apply ckernel_re). rewrite X. destruct (e mod w =? 0); reflexivity.
Qed.
Lemma rsum_pick n f k : 0 <= k < n -> rsum n (fun i => f i * (if (k - i) mod n =? 0 then 1 else 0))%R = f k.
Proof.
  intros Hk. assert (X := csum_single n (fun i => c_ (f i * (if (k - i) mod n =? 0 then 1 else 0))%R) k Hk). apply (f_equal fst) in X.
  - unfold csum, c_ in X. cbn [fst] in X. rewrite X. rewrite Z.sub_diag, Z.mod_0_l by lia. cbn. ring.
  - intros i Hi N. assert (Y := mod_diff_zero n k i ltac:(lia) Hk Hi). rewrite Y. replace (k =? i) with false by lia. unfold c_. f_equal. ring.
Qed.
Lemma spectral_column h w (P : Z -> Z -> R) V b : 0 < h -> 0 < w -> in_rng w b -> (forall v, in_rng w v -> V 0 v = 1%R) ->
  rsum h (fun a => fst (spectral h w (fun a b => c_ (P a b)) V a b)) = rsum h (fun a => P a b).
Proof.
  intros Hh Hw Hb HV. rewrite (rsum_ext h _ (fun a => rsum h (fun a' => rsum w (fun b' => P a' b' * kernel h w V (a - a') (b - b')))%R)) by (intros; apply spectral_real).
  rewrite rsum_swap. apply rsum_ext. intros a' _. rewrite rsum_swap. rewrite (rsum_ext w _ (fun b' => P a' b' * (if (b - b') mod w =? 0 then 1 else 0))%R).
  - apply rsum_pick. exact Hb.
  - intros b' _. rewrite rsum_scal. rewrite kernel_column by assumption. reflexivity.
Qed.
Lemma spectral_equal_rows h w (P : Z -> R) V a b : 0 < h -> 0 < w -> in_rng w b -> (forall v, in_rng w v -> V 0 v = 1%R) ->
  fst (spectral h w (fun _ b => c_ (P b)) V a b) = P b.
Proof.
  intros Hh Hw Hb HV. rewrite spectral_real. rewrite rsum_swap. rewrite (rsum_ext w _ (fun b' => P b' * (if (b - b') mod w =? 0 then 1 else 0))%R).
  - apply rsum_pick. exact Hb.
  - intros b' _. rewrite rsum_scal. f_equal. rewrite (rsum_ext h _ (fun a' => kernel h w V (a' - a) (- (b - b')))).
    + rewrite kernel_column by assumption. assert (X : ((- (b - b')) mod w =? 0) = ((b - b') mod w =? 0)).
      { apply Bool.eq_iff_eq_true. rewrite !Z.eqb_eq. rewrite !Z.mod_divide by lia. rewrite Z.divide_opp_r. reflexivity. } rewrite X. reflexivity.
    + intros a' _. rewrite <- kernel_even. f_equal. lia.
Qed.
Lemma zero_row h : 0 < h -> ifftshift_idx h 0 = h / 2.
Proof. intros Hh. unfold ifftshift_idx. rewrite Z.add_0_l. apply Z.mod_small. assert (X := Z.div_mod h 2 ltac:(lia)). assert (Y := Z.mod_pos_bound h 2 ltac:(lia)). lia. Qed.
Lemma wstep_column mask pad s j : 0 <= pad -> 0 < nrow s -> 0 < ncol s -> in_rng (ncol s) j -> (forall v, in_rng (ncol s + 2 * pad) v -> px mask (nrow s / 2) v = 1%R) ->
  column_sum (wedge_step mask pad s) j = column_sum s j.
Proof.
  intros Hp Hr Hc Hj HM. unfold column_sum. destruct (wstep_size mask pad s Hp ltac:(lia) ltac:(lia)) as (-> & _).
  rewrite (rsum_ext (nrow s) _ (fun a => fst (spectral (nrow s) (ncol s + 2 * pad) (fun a b => c_ (px (pad_edge s 0 pad) a b)) (weights mask (nrow s) (ncol s + 2 * pad)) a (j + pad)))) by (intros i Hi; apply wstep_at; try lia; assumption).
  unfold in_rng in Hj. rewrite spectral_column.
  - apply rsum_ext. intros i Hi. rewrite padded by (unfold in_rng; lia). f_equal. unfold clipZ. lia.
  - lia.
  - lia.
  - unfold in_rng. lia.
  - intros v Hv. unfold weights. rewrite zero_row by lia. apply HM. unfold in_rng, ifftshift_idx. apply Z.mod_pos_bound. lia.
Qed.
Lemma wstep_equal_rows mask pad s : 0 <= pad -> 0 < nrow s -> 0 < ncol s -> equal_rows s -> (forall v, in_rng (ncol s + 2 * pad) v -> px mask (nrow s / 2) v = 1%R) ->
  img_eq (wedge_step mask pad s) s.
Proof.
  intros Hp Hr Hc HE HM. destruct (wstep_size mask pad s Hp ltac:(lia) ltac:(lia)) as (A & B). split; [exact A|]. split; [exact B|]. intros i j Hi Hj. rewrite A in Hi. rewrite B in Hj.
  rewrite wstep_at by (try lia; assumption). rewrite (spectral_ext _ _ _ (fun _ b => c_ (px s i (clipZ (b - pad) 0 (ncol s - 1)))) _ (weights mask (nrow s) (ncol s + 2 * pad))).
  - unfold in_rng in *. rewrite (spectral_equal_rows (nrow s) (ncol s + 2 * pad) (fun b => px s i (clipZ (b - pad) 0 (ncol s - 1)))).
    + f_equal. unfold clipZ. lia.
    + lia.
    + lia.
    + unfold in_rng. lia.
    + intros v Hv. unfold weights. rewrite zero_row by lia. apply HM. unfold in_rng, ifftshift_idx. apply Z.mod_pos_bound. lia.
  - intros a b Ha Hb. rewrite padded by (try lia; assumption). f_equal. apply HE; try assumption. unfold in_rng, clipZ. lia.
  - reflexivity.
Qed.
(** waves, without padding *)
Lemma freq_at h u : 0 < h -> - h < 2 * u < h -> ifftshift_idx h (u mod h) = h / 2 + u.
Proof. intros Hh Hu. destruct (freq_index h u Hh ltac:(lia)) as ([E|(_ & E)] & _); lia. Qed.
Lemma wstep_wave mask s u v amp f i j : 0 < nrow s -> 0 < ncol s -> nrow mask = nrow s -> ncol mask = ncol s -> inside (nrow s) (ncol s) u v -> is_wave s u v amp f -> in_rng (nrow s) i -> in_rng (ncol s) j ->
  px (wedge_step mask 0 s) i j = ((weight mask u v + weight mask (- u) (- v)) / 2 * px s i j)%R.
Proof.
  intros Hr Hc E1 E2 (Hu & Hv) HW Hi Hj. rewrite wstep_at by (try lia; assumption). replace (ncol s + 2 * 0) with (ncol s) by lia. rewrite Z.add_0_r.
  rewrite (spectral_ext _ _ _ (fun a b => cadd (cmul (c_ amp) (c_ (wave (nrow s) (ncol s) u v f a b))) (cmul (c_ 0) (c_ 0))) _ (weights mask (nrow s) (ncol s))).
  - rewrite (spectral_lin (nrow s) (ncol s) (fun a b => c_ (wave (nrow s) (ncol s) u v f a b)) (fun _ _ => c_ 0)). cbn [fst cadd]. rewrite !fst_real. rewrite spectral_wave by assumption.
    unfold weights. rewrite !freq_at by lia. unfold weight. rewrite E1, E2. rewrite HW by assumption. unfold wave. ring.
  - intros a b Ha Hb. rewrite padded by (try lia; assumption). replace (clipZ (b - 0) 0 (ncol s - 1)) with b by (unfold in_rng, clipZ in *; lia). rewrite HW by assumption.
    unfold wave, cadd, cmul, c_; cbn [fst snd]. f_equal; ring.
  - reflexivity.
Qed.
Lemma iter_wave k mask s u v amp f i j : 0 < nrow s -> 0 < ncol s -> nrow mask = nrow s -> ncol mask = ncol s -> inside (nrow s) (ncol s) u v -> is_wave s u v amp f -> in_rng (nrow s) i -> in_rng (ncol s) j ->
  px (Nat.iter k (wedge_step mask 0) s) i j = (((weight mask u v + weight mask (- u) (- v)) / 2) ^ k * px s i j)%R.
Proof.
  intros Hr Hc E1 E2 HI HW. revert i j. set (q := ((weight mask u v + weight mask (- u) (- v)) / 2)%R).
  induction k as [|k IH]; intros i j Hi Hj; [cbn [Nat.iter nat_rect pow]; ring|]. cbn [Nat.iter nat_rect pow]. fold (Nat.iter k (wedge_step mask 0) s).
  destruct (iter_size k mask 0 s ltac:(lia) ltac:(lia) ltac:(lia)) as (A & B). set (t := Nat.iter k (wedge_step mask 0) s) in *.
  rewrite (wstep_wave mask t u v (q ^ k * amp)%R f); rewrite ?A, ?B; try assumption.
  - fold q. rewrite IH by assumption. ring.
  - intros a b Ha Hb. rewrite A, B. rewrite A in Ha. rewrite B in Hb. rewrite IH by assumption. rewrite HW by assumption. ring.
Qed.
