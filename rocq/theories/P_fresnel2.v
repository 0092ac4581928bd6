(** Proofs about the Fresnel filter: symmetries and frequencies. *)
From Coq Require Import Reals Lra ZArith Lia Bool.
From Verif Require Import Np P_Np M_phase_R P_phase_R M_simR P_simR M_fourier P_fourier P_kernel M_fresnel S_fresnel P_fresnel.
Open Scope Z_scope.

Lemma clip_mirror x n : 0 < n -> clipZ (n - 1 - x) 0 (n - 1) = n - 1 - clipZ x 0 (n - 1).
Proof. unfold clipZ. lia. Qed.
Lemma dec_mirror1 m c win pad i j : 0 < nrow m -> 0 < ncol m -> 0 <= pad -> in_rng (nrow m) i -> mirrored m c ->
  dec Dim1 c win pad i j = dec Dim1 m win pad i (ncol m - 1 - j).
Proof.
  intros Hh Hw Hp Hi (E1 & E2 & H). unfold dec. rewrite E2. set (w := ncol m) in *. set (W := w + 2 * pad). unfold in_rng in *.
  rewrite (spectral_ext 1 W _ (fun a b => c_ ((fun _ b => px (pad_edge m 0 pad) i b) (1 - 1 - a) (W - 1 - b))) _ (fun _ v => / px (pad_edge win 0 pad) i (ifftshift_idx W v))%R).
  - rewrite (spectral_half_turn 1 W (fun _ b => px (pad_edge m 0 pad) i b)) by (unfold W; lia). f_equal. f_equal. unfold W. lia.
  - intros a b Ha Hb. unfold in_rng in *. f_equal. cbn [px pad_edge]. rewrite E1, E2. fold w.
    replace (W - 1 - b - pad) with (w - 1 - (b - pad)) by (unfold W; ring). rewrite clip_mirror by exact Hw. apply H; unfold in_rng.
    + rewrite E1. assert (Q := clip_in (i - 0) 0 (nrow m - 1)). lia.
    + rewrite E2. fold w. assert (Q := clip_in (b - pad) 0 (w - 1)). lia.
  - reflexivity.
Qed.
Lemma dec_half_turn m c win pad i j : 0 < nrow m -> 0 < ncol m -> 0 <= pad -> half_turned m c ->
  dec Dim2 c win pad i j = dec Dim2 m win pad (nrow m - 1 - i) (ncol m - 1 - j).
Proof.
  intros Hh Hw Hp (E1 & E2 & H). unfold dec. rewrite E1, E2. set (h := nrow m) in *. set (w := ncol m) in *. set (W := w + 2 * pad). set (Hh' := h + 2 * pad). unfold in_rng in *.
  rewrite (spectral_ext Hh' W _ (fun a b => c_ ((fun a b => px (pad_edge m pad pad) a b) (Hh' - 1 - a) (W - 1 - b))) _ (fun u v => / px (pad_edge win pad pad) (ifftshift_idx Hh' u) (ifftshift_idx W v))%R).
  - rewrite (spectral_half_turn Hh' W (fun a b => px (pad_edge m pad pad) a b)) by (unfold W, Hh'; lia). f_equal. f_equal; unfold W, Hh'; lia.
  - intros a b Ha Hb. unfold in_rng in *. f_equal. cbn [px pad_edge]. rewrite E1, E2. fold w h.
    replace (W - 1 - b - pad) with (w - 1 - (b - pad)) by (unfold W; ring). replace (Hh' - 1 - a - pad) with (h - 1 - (a - pad)) by (unfold Hh'; ring). rewrite !clip_mirror by assumption. apply H; unfold in_rng.
    + rewrite E1. fold h. assert (Q := clip_in (a - pad) 0 (h - 1)). lia.
    + rewrite E2. fold w. assert (Q := clip_in (b - pad) 0 (w - 1)). lia.
  - reflexivity.
Qed.
Lemma dec_transposed m c ratio pad i j : 0 < nrow m -> 0 < ncol m -> 0 <= pad -> transposed m c ->
  dec Dim2 c (make_fresnel_window (nrow c) (ncol c) ratio Dim2) pad i j = dec Dim2 m (make_fresnel_window (nrow m) (ncol m) ratio Dim2) pad j i.
Proof.
  intros Hh Hw Hp (E1 & E2 & H). unfold dec. rewrite E1, E2. set (h := nrow m) in *. set (w := ncol m) in *. unfold in_rng in *. rewrite !spectral_real.
  rewrite rsum_swap. apply rsum_ext. intros a Ha. apply rsum_ext. intros b Hb. f_equal.
  - cbn [px pad_edge]. rewrite E1, E2. fold h w. apply H; unfold in_rng; rewrite ?E1, ?E2; fold h w; [assert (Q := clip_in (b - pad) 0 (w - 1))|assert (Q := clip_in (a - pad) 0 (h - 1))]; lia.
  - rewrite kernel_trans. apply kernel_ext. intros u v Hu Hv. f_equal. cbn [px pad_edge make_fresnel_window nrow ncol]. ring.
Qed.
(** the window at a frequency of the image, without padding *)
Lemma freq_index n k : 0 < n -> - n <= 2 * k <= n ->
  (ifftshift_idx n (k mod n) - n / 2 = k \/ (ifftshift_idx n (k mod n) - n / 2 = - k /\ 2 * k = n)) /\ 0 <= ifftshift_idx n (k mod n) < n.
Proof.
  intros Hn Hk. unfold ifftshift_idx. rewrite Z.add_mod_idemp_l by lia. split; [|apply Z.mod_pos_bound; lia].
  assert (D := Z.div_mod n 2 ltac:(lia)). assert (B := Z.mod_pos_bound n 2 ltac:(lia)).
  destruct (Z.eq_dec (2 * k) n) as [E|N].
  - right. split; [|exact E]. assert (n / 2 = k) by lia. replace (k + n / 2) with (0 + 1 * n) by lia. rewrite Z.mod_add, Z.mod_0_l by lia. lia.
  - left. rewrite Z.mod_small by lia. lia.
Qed.
Lemma freq_square n k : 0 < n -> - n <= 2 * k <= n -> ((IZR (ifftshift_idx n (k mod n) - n / 2) / IZR n) ^ 2 = (IZR k / IZR n) ^ 2)%R /\ 0 <= ifftshift_idx n (k mod n) < n.
Proof.
  intros Hn Hk. destruct (freq_index n k Hn Hk) as (A & B). split; [|exact B]. destruct A as [->|(-> & _)]; [reflexivity|]. rewrite opp_IZR. unfold Rdiv. ring.
Qed.
Lemma pad_none win i j : 0 <= i < nrow win -> 0 <= j < ncol win -> px (pad_edge win 0 0) i j = px win i j.
Proof. intros Hi Hj. cbn [px pad_edge]. unfold clipZ. f_equal; lia. Qed.
Lemma fresnel_at2 h w ratio u v : 0 < h -> 0 < w -> - h <= 2 * u <= h -> - w <= 2 * v <= w ->
  px (pad_edge (make_fresnel_window h w ratio Dim2) 0 0) (ifftshift_idx h (u mod h)) (ifftshift_idx w (v mod w)) = (1 + ratio * ((IZR v / IZR w) ^ 2 + (IZR u / IZR h) ^ 2))%R.
Proof.
  intros Hh Hw Hu Hv. destruct (freq_square h u Hh Hu) as (A & B). destruct (freq_square w v Hw Hv) as (C & D).
  rewrite pad_none by assumption. cbn [px make_fresnel_window]. rewrite A, C. reflexivity.
Qed.
Lemma fresnel_at1 h w ratio i v : 0 < h -> 0 < w -> 0 <= i < h -> - w <= 2 * v <= w ->
  px (pad_edge (make_fresnel_window h w ratio Dim1) 0 0) i (ifftshift_idx w (v mod w)) = (1 + ratio * (IZR v / IZR w) ^ 2)%R.
Proof.
  intros Hh Hw Hi Hv. destruct (freq_square w v Hw Hv) as (C & D). rewrite pad_none by assumption. cbn [px make_fresnel_window]. rewrite C. reflexivity.
Qed.
Lemma dec_wave2 m ratio u v amp f i j : 0 < nrow m -> 0 < ncol m -> is_wave m u v amp f -> in_rng (nrow m) i -> in_rng (ncol m) j ->
  - nrow m <= 2 * u <= nrow m -> - ncol m <= 2 * v <= ncol m ->
  dec Dim2 m (make_fresnel_window (nrow m) (ncol m) ratio Dim2) 0 i j = (px m i j / (1 + ratio * ((IZR v / IZR (ncol m)) ^ 2 + (IZR u / IZR (nrow m)) ^ 2)))%R.
Proof.
  intros Hh Hw H Hi Hj Hu Hv. unfold dec. rewrite !Z.mul_0_r, !Z.add_0_r. set (h := nrow m) in *. set (w := ncol m) in *.
  set (V := fun u v => (/ px (pad_edge (make_fresnel_window h w ratio Dim2) 0 0) (ifftshift_idx h u) (ifftshift_idx w v))%R).
  assert (E : fst (spectral h w (fun a b => c_ (px (pad_edge m 0 0) a b)) V i j) = (amp * fst (spectral h w (fun a b => c_ (wave h w u v f a b)) V i j))%R).
  { rewrite !spectral_real, <- rsum_scal. apply rsum_ext. intros a Ha. rewrite <- rsum_scal. apply rsum_ext. intros b Hb. rewrite pad_none by assumption. rewrite (H a b Ha Hb). unfold wave. fold h w. ring. }
  rewrite E, spectral_wave by assumption. unfold V. rewrite !fresnel_at2 by lia. rewrite (H i j Hi Hj). unfold wave. fold h w. rewrite !opp_IZR.
  replace ((- IZR v / IZR w) ^ 2)%R with ((IZR v / IZR w) ^ 2)%R by (unfold Rdiv; ring). replace ((- IZR u / IZR h) ^ 2)%R with ((IZR u / IZR h) ^ 2)%R by (unfold Rdiv; ring). unfold Rdiv. lra.
Qed.
Lemma dec_wave1 m ratio v amp f i j : 0 < nrow m -> 0 < ncol m -> rows_are_waves m v amp f -> in_rng (nrow m) i -> in_rng (ncol m) j ->
  - ncol m <= 2 * v <= ncol m ->
  dec Dim1 m (make_fresnel_window (nrow m) (ncol m) ratio Dim1) 0 i j = (px m i j / (1 + ratio * (IZR v / IZR (ncol m)) ^ 2))%R.
Proof.
  intros Hh Hw H Hi Hj Hv. unfold dec. rewrite !Z.mul_0_r, !Z.add_0_r. set (h := nrow m) in *. set (w := ncol m) in *.
  set (V := fun (_ : Z) v => (/ px (pad_edge (make_fresnel_window h w ratio Dim1) 0 0) i (ifftshift_idx w v))%R).
  assert (WV : forall a b, wave 1 w 0 v (f i) a b = cos (2 * PI * (IZR (v * b) / IZR w) + f i)).
  { intros a b. unfold wave. rewrite Z.mul_0_l. f_equal. unfold Rdiv. ring. }
  assert (E : fst (spectral 1 w (fun _ b => c_ (px (pad_edge m 0 0) i b)) V 0 j) = (amp i * fst (spectral 1 w (fun a b => c_ (wave 1 w 0 v (f i) a b)) V 0 j))%R).
  { rewrite !spectral_real, <- rsum_scal. apply rsum_ext. intros a Ha. rewrite <- rsum_scal. apply rsum_ext. intros b Hb. rewrite pad_none by assumption. rewrite (H i b Hi Hb). rewrite WV. fold w. ring. }
  rewrite E, spectral_wave by lia. unfold V. rewrite !fresnel_at1 by (assumption || lia). rewrite (H i j Hi Hj), WV. fold w. rewrite !opp_IZR.
  replace ((- IZR v / IZR w) ^ 2)%R with ((IZR v / IZR w) ^ 2)%R by (unfold Rdiv; ring). unfold Rdiv. lra.
Qed.
(** each row for itself *)
Lemma dec_row m one win wone pad i j : in_rng (nrow m) i -> 0 < ncol m -> nrow one = 1 -> ncol one = ncol m -> (forall b, in_rng (ncol m) b -> px one 0 b = px m i b) ->
  nrow win = nrow m -> ncol win = ncol m -> nrow wone = 1 -> ncol wone = ncol m -> (forall b, in_rng (ncol m) b -> px wone 0 b = px win i b) ->
  dec Dim1 one wone pad 0 j = dec Dim1 m win pad i j.
Proof.
  unfold in_rng. intros Hi Hw N1 N2 H W1 W2 W3 W4 H'. unfold dec. rewrite N2. f_equal. apply spectral_ext; intros a b Ha Hb; f_equal; cbn [px pad_edge]; rewrite ?N1, ?N2, ?W1, ?W2, ?W3, ?W4;
    (replace (clipZ (0 - 0) 0 (1 - 1)) with 0 by (unfold clipZ; lia)); (replace (clipZ (i - 0) 0 (nrow m - 1)) with i by (unfold clipZ; lia)).
  - apply H. assert (Q := clip_in (b - pad) 0 (ncol m - 1)). lia.
  - apply H'. assert (Q := clip_in (ifftshift_idx (ncol m + 2 * pad) b - pad) 0 (ncol m - 1)). lia.
Qed.
