(** Proofs about the Fresnel filter. *)
From Coq Require Import Reals Lra ZArith Lia Bool.
From Verif Require Import Np P_Np M_phase_R P_phase_R M_simR P_simR M_fourier P_fourier P_kernel M_fresnel S_fresnel.
Open Scope Z_scope.

Lemma cdivr_r a r : cdivr a r = cmul a (c_ (/ r)).
Proof. apply cx_eq; unfold cdivr, cmul, c_; cbn [fst snd]; unfold Rdiv; ring. Qed.
Lemma dec2_at P Wn a b : nrow Wn = nrow P -> ncol Wn = ncol P ->
  px (deconvolve2 P Wn) a b = fst (spectral (nrow P) (ncol P) (fun a b => c_ (px P a b)) (fun u v => / px Wn (ifftshift_idx (nrow P) u) (ifftshift_idx (ncol P) v))%R a b).
Proof.
  intros E1 E2. unfold deconvolve2, spectral. cbn [px imap ifft2 fft2 nrow ncol ifftshift2]. rewrite E1, E2. f_equal. f_equal.
  apply csum_ext. intros u _. apply csum_ext. intros v _. rewrite cdivr_r. reflexivity.
Qed.
Lemma shift_back n v : 0 <= v < n -> fftshift_idx n (ifftshift_idx n v) = v.
Proof. intros Hv. unfold fftshift_idx, ifftshift_idx. rewrite Zminus_mod_idemp_l. rewrite Z.add_simpl_r. apply Z.mod_small. exact Hv. Qed.
Lemma csum_one f : csum 1 f = f 0.
Proof. apply csum_single; [lia|]. intros i Hi N. lia. Qed.
Lemma root_one k : root 1 k = c_ 1.
Proof. rewrite <- (root_0 1). apply root_mod; [lia|]. rewrite !Z.mod_1_r. reflexivity. Qed.
Lemma dec1_at P Wn i b : px (deconvolve1 P Wn) i b = fst (spectral 1 (ncol P) (fun _ b => c_ (px P i b)) (fun _ v => / px Wn i (ifftshift_idx (ncol P) v))%R 0 b).
Proof.
  unfold deconvolve1, spectral. cbn [px imap ifft2 fft2 ifft1 fft1 nrow ncol]. rewrite csum_one. rewrite Rmult_1_l. f_equal. f_equal.
  apply csum_ext. intros v Hv. rewrite shift_back by exact Hv. rewrite csum_one, cdivr_r, root_one.
  assert (X : forall x y : cx, cmul x (cmul (c_ 1) y) = cmul x y) by (intros; ring). rewrite (root_one (0 * 0)), X. f_equal. f_equal. apply csum_ext. intros k _. rewrite X. reflexivity.
Qed.

Lemma dec1_size1 P W : nrow (deconvolve1 P W) = nrow P. Proof. reflexivity. Qed.
Lemma dec1_size2 P W : ncol (deconvolve1 P W) = ncol P. Proof. reflexivity. Qed.
Lemma dec2_size1 P W : nrow (deconvolve2 P W) = nrow P. Proof. reflexivity. Qed.
Lemma dec2_size2 P W : ncol (deconvolve2 P W) = ncol P. Proof. reflexivity. Qed.
(** the filtered image before the logarithm is undone: position (i, j) *)
Definition dec (dim : fresnel_dim) (m win : img R) (pad i j : Z) : R :=
  match dim with
  | Dim2 => fst (spectral (nrow m + 2 * pad) (ncol m + 2 * pad) (fun a b => c_ (px (pad_edge m pad pad) a b))
       (fun u v => / px (pad_edge win pad pad) (ifftshift_idx (nrow m + 2 * pad) u) (ifftshift_idx (ncol m + 2 * pad) v))%R (i + pad) (j + pad))
  | Dim1 => fst (spectral 1 (ncol m + 2 * pad) (fun _ b => c_ (px (pad_edge m 0 pad) i b))
       (fun _ v => / px (pad_edge win 0 pad) i (ifftshift_idx (ncol m + 2 * pad) v))%R 0 (j + pad))
  end.
Definition win_of (window : option (img R)) (h w : Z) (ratio : R) (dim : fresnel_dim) : img R :=
  match window with Some x => x | None => make_fresnel_window h w ratio dim end.
Definition of_log (b : bool) (m : img R) : img R := if b then imap (fun v => - ln v)%R m else m.
Lemma of_log_size b m : nrow (of_log b m) = nrow m /\ ncol (of_log b m) = ncol m. Proof. destruct b; split; reflexivity. Qed.
Lemma fresnel_value mat ratio dim window pad lg out : 0 <= nrow mat -> 0 <= ncol mat -> fresnel_filter mat ratio dim window pad lg = Ok out ->
  0 <= pad /\ let win := win_of window (nrow mat) (ncol mat) ratio dim in nrow win = nrow mat /\ ncol win = ncol mat /\
  nrow out = nrow mat /\ ncol out = ncol mat /\
  forall i j, in_rng (nrow mat) i -> in_rng (ncol mat) j -> px out i j = (let d := dec dim (of_log lg mat) win pad i j in if lg then exp (- d) else d).
Proof.
  intros Hh Hw. unfold fresnel_filter. fold (of_log lg mat). destruct (of_log_size lg mat) as (S1 & S2). rewrite S1, S2.
  fold (win_of window (nrow mat) (ncol mat) ratio dim). set (win := win_of window (nrow mat) (ncol mat) ratio dim). set (m := of_log lg mat) in *. clearbody m win.
  destruct (Z.ltb_spec pad 0); [discriminate|]. destruct (Z.eqb_spec (nrow win) (nrow mat)) as [E1|]; [|discriminate]. destruct (Z.eqb_spec (ncol win) (ncol mat)) as [E2|]; [|discriminate].
  cbn [andb negb]. intros Q. match type of Q with Ok ?X = Ok ?Y => assert (O : Y = X) by congruence end. rewrite O. clear Q O out.
  set (d := match dim with Dim1 => _ | Dim2 => _ end).
  assert (A : nrow d = nrow mat /\ ncol d = ncol mat /\ forall i j, in_rng (nrow mat) i -> in_rng (ncol mat) j -> px d i j = dec dim m win pad i j).
  { unfold d. destruct dim; cbn [islice nrow ncol px]; rewrite ?dec1_size1, ?dec1_size2, ?dec2_size1, ?dec2_size2; cbn [nrow ncol pad_edge]; rewrite ?S1, ?S2; rewrite !slen_id by lia; (split; [lia|]; split; [lia|]);
      unfold in_rng; intros i j Hi Hj; rewrite !py_adj_id by lia; unfold dec; rewrite ?S1, ?S2.
    - rewrite Z.add_0_l, (Z.add_comm pad j). rewrite dec1_at. cbn [ncol pad_edge]. rewrite S2. reflexivity.
    - rewrite (Z.add_comm pad i), (Z.add_comm pad j). rewrite dec2_at by (cbn [nrow ncol pad_edge]; lia). cbn [nrow ncol pad_edge]. rewrite S1, S2. reflexivity. }
  clearbody d. destruct A as (A1 & A2 & A3). split; [lia|]. cbv zeta. split; [exact E1|]. split; [exact E2|]. destruct lg; cbn [imap nrow ncol px]; (split; [exact A1|]; split; [exact A2|]); intros i j Hi Hj; rewrite A3 by assumption; reflexivity.
Qed.
Lemma fresnel_ok mat ratio dim window pad lg : 0 <= pad -> (forall w, window = Some w -> nrow w = nrow mat /\ ncol w = ncol mat) ->
  exists out, fresnel_filter mat ratio dim window pad lg = Ok out.
Proof.
  intros Hp HW. unfold fresnel_filter. fold (of_log lg mat). destruct (of_log_size lg mat) as (S1 & S2). rewrite S1, S2. replace (pad <? 0) with false by lia.
  assert (E : forall w : img R, nrow w = nrow mat /\ ncol w = ncol mat -> negb ((nrow w =? nrow mat) && (ncol w =? ncol mat)) = false).
  { intros w (-> & ->). rewrite !Z.eqb_refl. reflexivity. }
  rewrite E; [eexists; reflexivity|]. destruct window as [w|]; [exact (HW w eq_refl)|]. split; reflexivity.
Qed.

Lemma clip_in x lo hi : lo <= hi -> lo <= clipZ x lo hi <= hi. Proof. unfold clipZ. lia. Qed.
Lemma dec_lin dim m n c win pad x y i j : 0 < nrow m -> 0 < ncol m -> combination x y m n c -> in_rng (nrow m) i -> in_rng (ncol m) j -> 0 <= pad ->
  dec dim c win pad i j = (x * dec dim m win pad i j + y * dec dim n win pad i j)%R.
Proof.
  intros Hh Hw (R1 & R2 & R3 & R4 & H) Hi Hj Hp. unfold dec. rewrite <- R1, <- R2, R3, R4. destruct dim; rewrite !spectral_real, <- !rsum_scal, <- rsum_add; apply rsum_ext; intros a Ha;
    rewrite <- !rsum_scal, <- rsum_add; apply rsum_ext; intros b Hb; cbn [px pad_edge]; rewrite R3, R4, <- R1, <- R2.
  - unfold in_rng in *. rewrite Z.sub_0_r. rewrite H; [ring|unfold in_rng..]; rewrite ?R3, ?R4; [assert (Q := clip_in i 0 (nrow m - 1))|assert (Q := clip_in (b - pad) 0 (ncol m - 1))]; lia.
  - rewrite H; [ring|unfold in_rng..]; rewrite ?R3, ?R4; [assert (Q := clip_in (a - pad) 0 (nrow m - 1))|assert (Q := clip_in (b - pad) 0 (ncol m - 1))]; lia.
Qed.
Lemma dec_ext dim m n win win' pad i j : 0 < nrow m -> 0 < ncol m -> img_eq m n -> img_eq win win' -> nrow win = nrow m -> ncol win = ncol m -> in_rng (nrow m) i -> 0 <= pad ->
  dec dim m win pad i j = dec dim n win' pad i j.
Proof.
  intros Hh Hw (R1 & R2 & H) (R3 & R4 & H') W1 W2 Hi Hp. unfold dec. rewrite <- R1, <- R2. destruct dim; f_equal; apply spectral_ext; unfold in_rng in *; intros a b Ha Hb; cbn [px pad_edge];
    rewrite <- ?R1, <- ?R2, <- ?R3, <- ?R4, ?W1, ?W2; f_equal.
  - apply H; unfold in_rng; apply Z.lt_le_pred || idtac; [assert (Q := clip_in (i - 0) 0 (nrow m - 1))|assert (Q := clip_in (b - pad) 0 (ncol m - 1))]; lia.
  - apply H'; unfold in_rng; rewrite ?W1, ?W2; [assert (Q := clip_in (i - 0) 0 (nrow m - 1))|assert (Q := clip_in (ifftshift_idx (ncol m + 2 * pad) b - pad) 0 (ncol m - 1))]; lia.
  - apply H; unfold in_rng; [assert (Q := clip_in (a - pad) 0 (nrow m - 1))|assert (Q := clip_in (b - pad) 0 (ncol m - 1))]; lia.
  - apply H'; unfold in_rng; rewrite ?W1, ?W2; [assert (Q := clip_in (ifftshift_idx (nrow m + 2 * pad) a - pad) 0 (nrow m - 1))|assert (Q := clip_in (ifftshift_idx (ncol m + 2 * pad) b - pad) 0 (ncol m - 1))]; lia.
Qed.
(** the middle of the padded window is the zero frequency *)
Lemma half_padded n pad : (n + 2 * pad) / 2 = n / 2 + pad.
Proof. replace (n + 2 * pad) with (n + pad * 2) by ring. apply Z.div_add. lia. Qed.
Lemma zero_index n pad : 0 < n -> 0 <= pad -> clipZ (ifftshift_idx (n + 2 * pad) 0 - pad) 0 (n - 1) = n / 2.
Proof.
  intros Hn Hp. unfold ifftshift_idx. rewrite Z.add_0_l, half_padded. rewrite Z.mod_small by (assert (Q := Z.div_lt n 2); lia). unfold clipZ. assert (Q := Z.div_lt n 2). assert (Q' := Z.div_pos n 2). lia.
Qed.
Lemma window_middle h w ratio dim : px (make_fresnel_window h w ratio dim) (h / 2) (w / 2) = 1%R.
Proof. cbn [px make_fresnel_window]. rewrite !Z.sub_diag. unfold Rdiv. rewrite !Rmult_0_l. destruct dim; ring. Qed.
Lemma window_middle1 h w ratio i : px (make_fresnel_window h w ratio Dim1) i (w / 2) = 1%R.
Proof. cbn [px make_fresnel_window]. rewrite !Z.sub_diag. unfold Rdiv. rewrite !Rmult_0_l. ring. Qed.
Lemma wave_flat h w a b : wave h w 0 0 0 a b = 1%R.
Proof. unfold wave. rewrite !Z.mul_0_l. unfold Rdiv. rewrite !Rmult_0_l. rewrite <- cos_0. f_equal. ring. Qed.
(** flat images (rows) are left alone *)
Lemma spectral_flat h w c V a b : 0 < h -> 0 < w -> V 0 0 = 1%R -> fst (spectral h w (fun _ _ => c_ c) V a b) = c.
Proof.
  intros Hh Hw V1. assert (L := spectral_wave h w 0 0 0 V a b Hh Hw). rewrite !Z.opp_0, !Z.mod_0_l in L by lia. rewrite V1, wave_flat in L.
  assert (E : fst (spectral h w (fun _ _ => c_ c) V a b) = (c * fst (spectral h w (fun a0 b0 => c_ (wave h w 0 0 0 a0 b0)) V a b))%R).
  { rewrite !spectral_real, <- rsum_scal. apply rsum_ext. intros a' _. rewrite <- rsum_scal. apply rsum_ext. intros b' _. rewrite wave_flat. ring. }
  rewrite E, L. lra.
Qed.
Lemma dec_flat dim m ratio pad c i j : 0 < nrow m -> 0 < ncol m -> 0 <= pad -> in_rng (nrow m) i -> in_rng (ncol m) j ->
  (forall a b, in_rng (nrow m) a -> in_rng (ncol m) b -> dim = Dim2 \/ a = i -> px m a b = c) ->
  dec dim m (make_fresnel_window (nrow m) (ncol m) ratio dim) pad i j = c.
Proof.
  intros Hh Hw Hp Hi Hj H. unfold dec. unfold in_rng in *. destruct dim.
  - rewrite (spectral_ext 1 (ncol m + 2 * pad) _ (fun _ _ => c_ c) _ (fun _ v => / px (pad_edge (make_fresnel_window (nrow m) (ncol m) ratio Dim1) 0 pad) i (ifftshift_idx (ncol m + 2 * pad) v))%R).
    + apply spectral_flat; [lia|lia|]. cbn [px pad_edge nrow ncol]. replace (ncol (make_fresnel_window (nrow m) (ncol m) ratio Dim1)) with (ncol m) by reflexivity.
      rewrite zero_index by lia. rewrite window_middle1. apply Rinv_1.
    + intros a b Ha Hb. unfold in_rng in *. cbn [px pad_edge]. f_equal. apply H; [assert (Q := clip_in (i - 0) 0 (nrow m - 1)); lia|assert (Q := clip_in (b - pad) 0 (ncol m - 1)); lia|]. right. unfold clipZ. lia.
    + reflexivity.
  - rewrite (spectral_ext (nrow m + 2 * pad) (ncol m + 2 * pad) _ (fun _ _ => c_ c) _ (fun u v => / px (pad_edge (make_fresnel_window (nrow m) (ncol m) ratio Dim2) pad pad) (ifftshift_idx (nrow m + 2 * pad) u) (ifftshift_idx (ncol m + 2 * pad) v))%R).
    + apply spectral_flat; [lia|lia|]. cbn [px pad_edge]. change (nrow (make_fresnel_window (nrow m) (ncol m) ratio Dim2)) with (nrow m). change (ncol (make_fresnel_window (nrow m) (ncol m) ratio Dim2)) with (ncol m).
      rewrite !zero_index by lia. rewrite window_middle. apply Rinv_1.
    + intros a b Ha Hb. unfold in_rng in *. cbn [px pad_edge]. f_equal. apply H; [assert (Q := clip_in (a - pad) 0 (nrow m - 1)); lia|assert (Q := clip_in (b - pad) 0 (ncol m - 1)); lia|]. left. reflexivity.
    + reflexivity.
Qed.
(** ratio = 0 *)
Lemma spectral_one h w p V a b : in_rng h a -> in_rng w b -> (forall u v, V u v = 1%R) -> spectral h w p V a b = p a b.
Proof.
  intros Ha Hb V1. unfold spectral. transitivity (px (ifft2 (fft2 (mkimg h w p))) a b); [|rewrite ifft2_fft2 by assumption; reflexivity].
  cbn [px ifft2 fft2 nrow ncol]. f_equal. apply csum_ext. intros u _. apply csum_ext. intros v _. rewrite V1. f_equal. ring.
Qed.
Lemma window_zero h w dim i j : px (make_fresnel_window h w 0 dim) i j = 1%R.
Proof. cbn [px make_fresnel_window]. destruct dim; ring. Qed.
Lemma dec_zero dim m pad i j : 0 < nrow m -> 0 < ncol m -> 0 <= pad -> in_rng (nrow m) i -> in_rng (ncol m) j ->
  dec dim m (make_fresnel_window (nrow m) (ncol m) 0 dim) pad i j = px m i j.
Proof.
  intros Hh Hw Hp Hi Hj. unfold in_rng in *. unfold dec. destruct dim; rewrite spectral_one by (try (unfold in_rng; lia); intros; cbn [px pad_edge]; rewrite window_zero; apply Rinv_1); cbn [fst c_ px pad_edge]; unfold clipZ; f_equal; lia.
Qed.
