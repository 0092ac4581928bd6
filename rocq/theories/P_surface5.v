(** Proofs for C116: the FC method, all images. *)
From Coq Require Import Reals ZArith Lia Lra Bool List.
From Verif Require Import Np P_Np M_phase_R P_phase_R M_simR P_simR M_calib P_calib8 M_fourier P_fourier P_kernel P_fresnel M_surface S_surface P_surface4.
Open Scope Z_scope.

Definition freq (n k : Z) : R := IZR ((k + n) mod (2 * n) - n).
Lemma freq_at n k : 0 < n -> - n <= k < n -> freq n (k mod (2 * n)) = IZR k.
Proof.
  intros Hn Hk. unfold freq. f_equal. rewrite Zplus_mod_idemp_l. rewrite Z.mod_small by lia. ring.
Qed.
Definition fcx (h w u v : Z) : R := if (u =? 0) && (v =? 0) then 0%R else (freq w v / IZR (2 * w) * (1 / ((freq w v / IZR (2 * w)) ^ 2 + (freq h u / IZR (2 * w)) ^ 2)))%R.
Definition fcy (h w u v : Z) : R := if (u =? 0) && (v =? 0) then 0%R else (freq h u / IZR (2 * w) * (1 / ((freq w v / IZR (2 * w)) ^ 2 + (freq h u / IZR (2 * w)) ^ 2)))%R.
Lemma half_double n : 2 * n / 2 = n. Proof. rewrite Z.mul_comm. apply Z.div_mul. lia. Qed.
Lemma zero_freq n v : 0 < n -> 0 <= v < 2 * n -> ((v + n) mod (2 * n) =? n) = (v =? 0).
Proof.
  intros Hn Hv. destruct (Z.ltb_spec v n).
  - rewrite Z.mod_small by lia. lia.
  - replace (v + n) with (v - n + 1 * (2 * n)) by ring. rewrite Z.mod_add by lia. rewrite Z.mod_small by lia. lia.
Qed.
Definition fc_at (gx gy : img R) (i j : Z) : R :=
  (0.5 / PI * (snd (spectral (2 * nrow gx) (2 * ncol gx) (fun a b => c_ (px (double_image_R gx) a b)) (fcx (nrow gx) (ncol gx)) i j) +
               snd (spectral (2 * nrow gx) (2 * ncol gx) (fun a b => c_ (px (double_image_R gy) a b)) (fcy (nrow gx) (ncol gx)) i j)))%R.
Lemma fc_default gx gy : 0 < nrow gx -> 0 < ncol gx -> same_size gx gy ->
  exists f, surface_FC gx gy false None = Ok f /\ same_size f gx /\ forall i j, in_rng (nrow gx) i -> in_rng (ncol gx) j -> px f i j = fc_at gx gy (i + nrow gx) j.
Proof.
  intros Hh Hw [A B]. unfold surface_FC. rewrite <- A, <- B, !Z.eqb_refl. cbn [andb negb]. cbn [bindr]. destruct (make_window_FC _ _) as [[u v] wi] eqn:EW. eexists. split; [reflexivity|].
  set (h := nrow gx) in *. set (w := ncol gx) in *.
  assert (I1 : py_adj (2 * h) h = h) by (apply py_adj_id; lia). assert (I2 : py_adj (2 * h) (2 * h) = 2 * h) by (apply py_adj_id; lia).
  assert (I3 : py_adj (2 * w) 0 = 0) by (apply py_adj_id; lia). assert (I4 : py_adj (2 * w) w = w) by (apply py_adj_id; lia).
  cbn [lift_negative].
  assert (EU : u = fst (fst (make_window_FC (2 * h) (2 * w)))) by (cbn [double_image_R nrow ncol] in EW; fold h w in EW; rewrite EW; reflexivity).
  assert (EV : v = snd (fst (make_window_FC (2 * h) (2 * w)))) by (cbn [double_image_R nrow ncol] in EW; fold h w in EW; rewrite EW; reflexivity).
  assert (EQ : wi = snd (make_window_FC (2 * h) (2 * w))) by (cbn [double_image_R nrow ncol] in EW; fold h w in EW; rewrite EW; reflexivity). clear EW. subst u v wi.
  split; [split; cbn [islice nrow ncol imap ifft2 cishift double_image_R]; fold h w; unfold slen; rewrite ?I1, ?I2, ?I3, ?I4; lia|].
  intros i j Hi Hj. cbn [islice nrow ncol imap ifft2 cishift double_image_R px]. fold h w. rewrite I1, I3. unfold fc_at. fold h w.
  replace (0 + j) with j by ring. rewrite (Z.add_comm h i). f_equal.
  unfold spectral. cbn [px ifft2 nrow ncol]. rewrite !cdivr_form. rewrite fst_real, !snd_real. rewrite <- Rmult_plus_distr_l. f_equal.
  transitivity (snd (cadd (csum (2 * h) (fun u => csum (2 * w) (fun v => cmul (cmul (px (fft2 (mkimg (2 * h) (2 * w) (fun a b => c_ (px (double_image_R gx) a b)))) u v) (c_ (fcx h w u v))) (cmul (root (2 * h) (u * (i + h))) (root (2 * w) (v * j))))))
       (csum (2 * h) (fun u => csum (2 * w) (fun v => cmul (cmul (px (fft2 (mkimg (2 * h) (2 * w) (fun a b => c_ (px (double_image_R gy) a b)))) u v) (c_ (fcy h w u v))) (cmul (root (2 * h) (u * (i + h))) (root (2 * w) (v * j)))))))); [|reflexivity].
  assert (T : forall z, fst (cmul (0, -1)%R z) = snd z) by (intros z; unfold cmul; cbn [fst snd]; ring). rewrite <- T. f_equal.
  rewrite <- csum_add, <- csum_scal. apply csum_ext. intros u Hu. rewrite <- csum_add, <- csum_scal. apply csum_ext. intros v Hv.
  unfold cshift. cbn [px nrow ncol fft2 imap double_image_R]. fold h w.
  assert (SY : nrow gy = h /\ ncol gy = w) by (split; congruence). destruct SY as [SY1 SY2]. rewrite ?SY1, ?SY2.
  rewrite !shift_back by assumption.
  cbn [make_window_FC fst snd px]. unfold ifftshift_idx. rewrite !half_double. rewrite !zero_freq by lia. unfold fcx, fcy.
  assert (FW : (1 * IZR ((v + w) mod (2 * w)) - IZR w)%R = freq w v) by (unfold freq; rewrite minus_IZR; ring).
  assert (FH : (1 * IZR ((u + h) mod (2 * h)) - IZR h)%R = freq h u) by (unfold freq; rewrite minus_IZR; ring). rewrite FW, FH.
  set (XX := csum (2 * h) _). set (YY := csum (2 * h) _). set (rr := cmul (root (2 * h) _) _).
  destruct ((u =? 0) && (v =? 0)).
  - ring.
  - set (fu := (freq w v / IZR (2 * w))%R). set (fv := (freq h u / IZR (2 * w))%R). set (q := (1 / (fu ^ 2 + fv ^ 2))%R).
    assert (Y1 : forall x : R, (0, - x)%R = cmul (0, -1)%R (c_ x)) by (intros; apply cx_eq; unfold cmul, c_; cbn [fst snd]; ring). rewrite (Y1 fu), (Y1 fv).
    assert (Y2 : forall x y : R, c_ (x * y) = cmul (c_ x) (c_ y)) by (intros; apply cx_eq; unfold cmul, c_; cbn [fst snd]; ring). rewrite !Y2.
    generalize (c_ fu) (c_ fv) (c_ q) XX YY rr. generalize (0, -1)%R as im. change (R * R)%type with cx. intros im0 a b c d e f. match goal with |- ?x = ?y => change (@eq cx x y) end. ring.
Qed.
Lemma fcx_mode h w l k : 0 < h -> 0 < w -> - h <= l < h -> - w <= k < w ->
  fcx h w (l mod (2 * h)) (k mod (2 * w)) = if (l =? 0) && (k =? 0) then 0%R else (2 * IZR w * IZR k / (IZR k ^ 2 + IZR l ^ 2))%R.
Proof.
  intros Hh Hw Hl Hk. unfold fcx. rewrite !freq_at by assumption.
  assert (forall n x, 0 < n -> - n <= x < n -> (x mod (2 * n) =? 0) = (x =? 0)) as MZ.
  { intros n x Hn Hx. destruct (Z.ltb_spec x 0); [|rewrite Z.mod_small by lia; reflexivity].
    replace x with (x + 2 * n + (-1) * (2 * n)) at 1 by ring. rewrite Z.mod_add by lia. rewrite Z.mod_small by lia. lia. }
  rewrite !MZ by assumption. destruct ((l =? 0) && (k =? 0)) eqn:E; [reflexivity|].
  assert (0 < IZR w)%R by (apply (IZR_lt 0); assumption). rewrite mult_IZR.
  assert (0 < IZR k ^ 2 + IZR l ^ 2)%R. { rewrite !(pow_IZR _ 2), <- plus_IZR. apply IZR_lt. change (Z.of_nat 2) with 2. rewrite !Z.pow_2_r. destruct (Z.eq_dec l 0); destruct (Z.eq_dec k 0); try lia; nia. }
  field. lra.
Qed.
Lemma fcy_mode h w l k : 0 < h -> 0 < w -> - h <= l < h -> - w <= k < w ->
  fcy h w (l mod (2 * h)) (k mod (2 * w)) = if (l =? 0) && (k =? 0) then 0%R else (2 * IZR w * IZR l / (IZR k ^ 2 + IZR l ^ 2))%R.
Proof.
  intros Hh Hw Hl Hk. unfold fcy. rewrite !freq_at by assumption.
  assert (forall n x, 0 < n -> - n <= x < n -> (x mod (2 * n) =? 0) = (x =? 0)) as MZ.
  { intros n x Hn Hx. destruct (Z.ltb_spec x 0); [|rewrite Z.mod_small by lia; reflexivity].
    replace x with (x + 2 * n + (-1) * (2 * n)) at 1 by ring. rewrite Z.mod_add by lia. rewrite Z.mod_small by lia. lia. }
  rewrite !MZ by assumption. destruct ((l =? 0) && (k =? 0)) eqn:E; [reflexivity|].
  assert (0 < IZR w)%R by (apply (IZR_lt 0); assumption). rewrite mult_IZR.
  assert (0 < IZR k ^ 2 + IZR l ^ 2)%R. { rewrite !(pow_IZR _ 2), <- plus_IZR. apply IZR_lt. change (Z.of_nat 2) with 2. rewrite !Z.pow_2_r. destruct (Z.eq_dec l 0); destruct (Z.eq_dec k 0); try lia; nia. }
  field. lra.
Qed.
