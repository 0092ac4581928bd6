(** Proofs about direct Fourier inversion: the whole reconstruction. *)
From Coq Require Import Reals Lra ZArith Lia Bool List. Import ListNotations.
From Verif Require Import Np P_Np M_phase_R P_phase_R M_simR S_simR P_simR P_simR2 P_simR4 P_utility M_dfi S_dfi P_dfi P_dfi2.
Open Scope Z_scope.

(** only the pixels of the sinogram matter *)
Lemma row_re_ext m m' : img_eq m m' -> img_eq (row_fftshift (row_fft_re (row_ifftshift m))) (row_fftshift (row_fft_re (row_ifftshift m'))).
Proof.
  intros (R & C & E). unfold row_fftshift, row_fft_re, row_ifftshift. repeat split; cbn [nrow ncol px]; try assumption.
  intros i j Hi Hj. rewrite <- C. apply rsum_ext. intros b Hb. rewrite E; [reflexivity|exact Hi|]. unfold in_rng, ifftshift_idx in *. apply Z.mod_pos_bound. lia.
Qed.
Lemma row_im_ext m m' : img_eq m m' -> img_eq (row_fftshift (row_fft_im (row_ifftshift m))) (row_fftshift (row_fft_im (row_ifftshift m'))).
Proof.
  intros (R & C & E). unfold row_fftshift, row_fft_im, row_ifftshift. repeat split; cbn [nrow ncol px]; try assumption.
  intros i j Hi Hj. rewrite <- C. f_equal. apply rsum_ext. intros b Hb. rewrite E; [reflexivity|exact Hi|]. unfold in_rng, ifftshift_idx in *. apply Z.mod_pos_bound. lia.
Qed.
Lemma windowed_ext w m m' : img_eq m m' -> img_eq (windowed w m) (windowed w m').
Proof. intros (R & C & E). destruct w; [|repeat split; assumption]. repeat split; cbn [windowed nrow ncol px]; try assumption. intros i j Hi Hj. rewrite E by assumption. reflexivity. Qed.
Lemma inverse_ext re im re' im' : (0 < nrow re -> nrow im = nrow re) -> img_eq re re' -> img_eq im im' -> nrow im = nrow re -> ncol im = ncol re ->
  img_eq (fftshift2 (real_ifft2 (ifftshift2 re) (ifftshift2 im))) (fftshift2 (real_ifft2 (ifftshift2 re') (ifftshift2 im'))).
Proof.
  intros _ (R & C & E) (R' & C' & E') Hr Hc. unfold fftshift2, real_ifft2, ifftshift2. repeat split; cbn [nrow ncol px]; try assumption.
  intros i j Hi Hj. unfold in_rng in *. rewrite <- R', <- C', <- R, <- C, Hr, Hc. f_equal. apply rsum_ext. intros u Hu. apply rsum_ext. intros v Hv.
  assert (U : in_rng (nrow re) (ifftshift_idx (nrow re) u)) by (apply Z.mod_pos_bound; lia).
  assert (V : in_rng (ncol re) (ifftshift_idx (ncol re) v)) by (apply Z.mod_pos_bound; lia).
  rewrite E by assumption. rewrite E' by (rewrite ?Hr, ?Hc; assumption). reflexivity.
Qed.
Lemma single_slice_ext atan2 interp window m m' : reads_pixels interp -> img_eq m m' ->
  img_eq (dfi_single_slice atan2 interp window m) (dfi_single_slice atan2 interp window m').
Proof.
  intros HI E. assert (E0 := E). destruct E0 as (R & C & _). unfold dfi_single_slice. rewrite <- R, <- C.
  assert (A := windowed_ext window _ _ (row_re_ext _ _ E)). assert (B := windowed_ext window _ _ (row_im_ext _ _ E)).
  apply inverse_ext; try reflexivity.
  - repeat split. intros i j Hi Hj. cbn [px]. destruct (generate_mapping_coordinate _ _ _ _ _ i j) as [r t]. f_equal. apply HI. exact A.
  - repeat split. intros i j Hi Hj. cbn [px]. destruct (generate_mapping_coordinate _ _ _ _ _ i j) as [r t]. f_equal. apply HI. exact B.
Qed.
Lemma islice_ext {V} (m m' : img V) a b c d : img_eq m m' -> 0 <= a -> a <= b -> b <= nrow m -> 0 <= c -> c <= d -> d <= ncol m -> img_eq (islice m a b c d) (islice m' a b c d).
Proof.
  intros (R & C & E) Ha Hb Hb' Hc Hd Hd'. repeat split; cbn [nrow ncol islice px]; rewrite ?R, ?C; try reflexivity.
  intros i j Hi Hj. unfold in_rng in *. cbn [islice nrow ncol] in *. rewrite slen_id in Hi, Hj by lia. rewrite !py_adj_id by lia. apply E; unfold in_rng; lia.
Qed.
Lemma pad_columns_ext mode m m' a b : img_eq m m' -> 0 < ncol m -> img_eq (pad_columns mode m a b) (pad_columns mode m' a b).
Proof.
  intros (R & C & E) Hc. repeat split; cbn [pad_columns nrow ncol px]; [exact R|lia|]. intros i j Hi Hj. cbn [pad_columns nrow ncol] in *. rewrite <- C.
  destruct mode.
  - apply E; [exact Hi|]. unfold in_rng, clipZ. lia.
  - destruct (0 <=? j - a) eqn:E1, (j - a <? ncol m) eqn:E2; cbn [andb]; try reflexivity. apply E; [exact Hi|]. unfold in_rng. lia.
Qed.
Lemma dfi_log_ext b m m' : img_eq m m' -> img_eq (dfi_log b m) (dfi_log b m').
Proof. intros (R & C & E). destruct b; [|repeat split; assumption]. repeat split; cbn [dfi_log imap nrow ncol px]; try assumption. intros i j Hi Hj. rewrite E by assumption. reflexivity. Qed.
Lemma dfi_log_size b m : nrow (dfi_log b m) = nrow m /\ ncol (dfi_log b m) = ncol m.
Proof. destruct b; split; reflexivity. Qed.

Lemma odd_width_case w : odd_width w = (if w mod 2 =? 0 then w + 1 else w) /\ w <= odd_width w.
Proof. unfold odd_width. destruct (w mod 2 =? 0); split; lia. Qed.
Lemma centring (m : img R) : 0 < ncol m ->
  let s1 := if ncol m mod 2 =? 0 then pad_columns Edge m 0 1 else m in ncol s1 = odd_width (ncol m) /\ nrow s1 = nrow m /\
  img_eq s1 (mkimg (nrow m) (odd_width (ncol m)) (fun i j => px m i (if j <? ncol m then j else ncol m - 1))).
Proof.
  intros Hm s1. unfold s1, odd_width. destruct (ncol m mod 2 =? 0) eqn:E.
  - repeat split; cbn [pad_columns ncol nrow px]; try lia. intros i j Hi Hj. unfold in_rng in *. cbn [pad_columns ncol nrow px] in *. f_equal. unfold clipZ. destruct (j <? ncol m) eqn:L; lia.
  - repeat split. intros i j Hi Hj. unfold in_rng in *. cbn [px]. f_equal. destruct (j <? ncol m) eqn:L; lia.
Qed.
Lemma angles_width shift_rows sino angles out : keeps_size shift_rows -> 0 <= ncol sino -> dfi_handle_angles shift_rows sino angles = Ok out -> ncol out = ncol sino.
Proof.
  intros HK Hc. unfold dfi_handle_angles. destruct (negb _); [discriminate|].
  set (rs := if Rlt_dec _ 10 then _ else _).
  assert (W : ncol (snd rs) = ncol sino).
  { unfold rs. destruct (Rlt_dec _ 10); cbn [snd ncol islice]; [|reflexivity]. rewrite slen_id by lia. lia. }
  destruct rs as [n1 s1]. cbn [snd] in W. intros E.
  match type of E with Ok ?X = Ok ?Y => assert (O : X = Y) by congruence end. rewrite <- O. clear E O.
  destruct (Rlt_dec _ _); cbn [ncol iflipud ifliplr islice]; destruct (HK (mkimg (nrow (islice s1 0 (n1 - 1) 0 (ncol s1)) + nrow s1) (ncol s1)
        (fun i j => if i <? nrow (islice s1 0 (n1 - 1) 0 (ncol s1)) then px (islice s1 0 (n1 - 1) 0 (ncol s1)) i j else px (ifliplr s1) (i - nrow (islice s1 0 (n1 - 1) 0 (ncol s1))) j))
     ((vat angles 0 - IZR (Int_part (vat angles 0 / (2 * PI))) * (2 * PI)) / (abs_steps angles / IZR (vlen angles - 1)))%R) as (_ & K); cbn [ncol] in K; rewrite K, slen_id by lia; lia.
Qed.

Section core.
Variables (atan2 : R -> R -> R) (interp : img R -> R -> R -> R) (shift_cols shift_rows : img R -> R -> img R) (smooth : option (Z -> Z -> R))
  (angles : option (vec R)) (center rate : R) (mode : pad_mode) (apply_log : bool).
Hypothesis (Kc : keeps_size shift_cols) (Kr : keeps_size shift_rows).
Lemma handled_width sino s : 0 < ncol sino -> dfi_handle_sinogram shift_cols shift_rows sino angles center rate mode = Ok s ->
  0 <= dfi_pad (ncol sino) rate /\ ncol s = odd_width (ncol sino) + 2 * dfi_pad (ncol sino) rate.
Proof.
  intros Hn. unfold dfi_handle_sinogram. destruct (centring sino Hn) as (W & _ & _).
  set (s1 := if ncol sino mod 2 =? 0 then pad_columns Edge sino 0 1 else sino) in *. 
  set (s2 := shift_cols s1 ((IZR (ncol s1) - 1) / 2 - center)%R).
  assert (W2 : ncol s2 = odd_width (ncol sino)) by (unfold s2; destruct (Kc s1 ((IZR (ncol s1) - 1) / 2 - center)%R) as (_ & ->); exact W).
  assert (OW := proj2 (odd_width_case (ncol sino))).
  destruct angles as [a|].
  - destruct (dfi_handle_angles shift_rows s2 a) as [s3|e] eqn:E; [|discriminate]. cbn [bindr]. apply angles_width in E; [|exact Kr|lia].
    destruct (dfi_pad (ncol sino) rate <? 0) eqn:P; [discriminate|]. intros Q. assert (O : s = pad_columns mode s3 (dfi_pad (ncol sino) rate) (dfi_pad (ncol sino) rate)) by congruence. rewrite O. cbn [ncol pad_columns]. lia.
  - cbn [bindr]. destruct (dfi_pad (ncol sino) rate <? 0) eqn:P; [discriminate|]. intros Q. assert (O : s = pad_columns mode s2 (dfi_pad (ncol sino) rate) (dfi_pad (ncol sino) rate)) by congruence. rewrite O. cbn [ncol pad_columns]. lia.
Qed.
Lemma core_shape sino r : 0 < ncol sino -> dfi_core atan2 interp shift_cols shift_rows smooth angles center rate mode apply_log (ncol sino) sino = Ok r ->
  nrow r = ncol sino /\ ncol r = ncol sino.
Proof.
  intros Hn. unfold dfi_core. destruct (dfi_handle_sinogram shift_cols shift_rows sino angles center rate mode) as [s|e] eqn:E; [|discriminate].
  cbn [bindr]. destruct (handled_width sino s Hn E) as (P & W). intros Q.
  match type of Q with Ok ?X = Ok ?Y => assert (O : Y = X) by congruence end. rewrite O. cbn [nrow ncol islice dfi_single_slice fftshift2 real_ifft2 ifftshift2].
  rewrite (proj2 (dfi_log_size apply_log s)), W. assert (OW := proj2 (odd_width_case (ncol sino))). rewrite !slen_id by lia. lia.
Qed.
End core.
Lemma img_eq_sym' {V} (a b : img V) : img_eq a b -> img_eq b a.
Proof. intros (R & C & E). repeat split; [congruence|congruence|]. intros i j Hi Hj. symmetry. apply E; congruence. Qed.
Lemma img_eq_trans' {V} (a b c : img V) : img_eq a b -> img_eq b c -> img_eq a c.
Proof. intros (R & C & E) (R' & C' & E'). repeat split; [congruence|congruence|]. intros i j Hi Hj. rewrite E by assumption. apply E'; congruence. Qed.
Lemma apply_mask_ext m m' k : img_eq m m' -> img_eq (apply_mask m k) (apply_mask m' k).
Proof. intros (R & C & E). repeat split; cbn [apply_mask nrow ncol px]; try assumption. intros i j Hi Hj. rewrite E by assumption. reflexivity. Qed.

Section same.
Variables (atan2 : R -> R -> R) (interp : img R -> R -> R -> R) (shift_cols shift_rows : img R -> R -> img R) (smooth : option (Z -> Z -> R))
  (center rate : R) (mode : pad_mode) (apply_log : bool).
Hypothesis (HI : reads_pixels interp) (Kc : keeps_size shift_cols) (Mc : moves_pixels shift_cols).
Lemma centred_is (m : img R) : 0 < ncol m -> let s1 := if ncol m mod 2 =? 0 then pad_columns Edge m 0 1 else m in
  img_eq (shift_cols s1 ((IZR (ncol s1) - 1) / 2 - center)%R) (centred_rows shift_cols center m) /\
  nrow (centred_rows shift_cols center m) = nrow m /\ ncol (centred_rows shift_cols center m) = odd_width (ncol m).
Proof.
  intros Hm s1. destruct (centring m Hm) as (W & _ & E). fold s1 in W, E. split.
  - unfold centred_rows. rewrite W. apply Mc. exact E.
  - unfold centred_rows. destruct (Kc (mkimg (nrow m) (odd_width (ncol m)) (fun i j => px m i (if j <? ncol m then j else ncol m - 1))) ((IZR (odd_width (ncol m)) - 1) / 2 - center)%R) as (-> & ->). split; reflexivity.
Qed.
(** the call with angles on [m] gives what the call without angles gives on [m0], when the reordered sinogram is the centred [m0] *)
Lemma core_same (m m0 : img R) a r0 : 0 < ncol m -> ncol m0 = ncol m ->
  (forall s, img_eq s (centred_rows shift_cols center m) -> exists s3, dfi_handle_angles shift_rows s a = Ok s3 /\ img_eq s3 (centred_rows shift_cols center m0)) ->
  dfi_core atan2 interp shift_cols shift_rows smooth None center rate mode apply_log (ncol m) m0 = Ok r0 ->
  exists r, dfi_core atan2 interp shift_cols shift_rows smooth (Some a) center rate mode apply_log (ncol m) m = Ok r /\ img_eq r r0.
Proof.
  intros Hm W0 HA. unfold dfi_core, dfi_handle_sinogram. rewrite W0.
  destruct (centred_is m Hm) as (E & _ & _). destruct (centred_is m0 ltac:(lia)) as (E0 & N0 & C0).
  cbv zeta in E, E0. rewrite W0 in E0.
  set (s1 := if ncol m mod 2 =? 0 then pad_columns Edge m 0 1 else m) in *. set (s10 := if ncol m mod 2 =? 0 then pad_columns Edge m0 0 1 else m0) in *.
  destruct (HA _ E) as (s3 & -> & E3). cbn [bindr].
  destruct (dfi_pad (ncol m) rate <? 0) eqn:P; [discriminate|]. cbn [bindr]. set (pad := dfi_pad (ncol m) rate) in *.
  assert (E4 := img_eq_trans' _ _ _ E3 (img_eq_sym' _ _ E0)). destruct E3 as (R3 & C3 & _). assert (OW := proj2 (odd_width_case (ncol m))). rewrite W0 in C0.
  assert (E5 : img_eq (dfi_log apply_log (pad_columns mode s3 pad pad)) (dfi_log apply_log (pad_columns mode (shift_cols s10 ((IZR (ncol s10) - 1) / 2 - center)%R) pad pad))).
  { apply dfi_log_ext, pad_columns_ext; [exact E4|lia]. }
  set (x := dfi_log apply_log (pad_columns mode s3 pad pad)) in *. set (x0 := dfi_log apply_log (pad_columns mode (shift_cols s10 _) pad pad)) in *.
  assert (W5 : ncol x0 = ncol x) by (destruct E5 as (_ & Q & _); symmetry; exact Q). rewrite W5.
  assert (WX : ncol x = ncol s3 + pad + pad) by (unfold x; rewrite (proj2 (dfi_log_size _ _)); reflexivity).
  intros Q. eexists. split; [reflexivity|]. match type of Q with Ok ?X = Ok ?Y => assert (O : Y = X) by congruence end. rewrite O.
  assert (SZ : nrow (dfi_single_slice atan2 interp (match smooth with Some w => Some (w (ncol x)) | None => None end) x) = ncol x /\
               ncol (dfi_single_slice atan2 interp (match smooth with Some w => Some (w (ncol x)) | None => None end) x) = ncol x) by (split; reflexivity).
  apply islice_ext; [apply single_slice_ext; assumption| | | | | |]; try lia.
Qed.
End same.
Lemma abs_in a : (0 <= a)%R -> Rabs a = a. Proof. apply Rabs_pos_eq. Qed.
Lemma dfi_pad_zero w : dfi_pad w 0 = 0.
Proof.
  unfold dfi_pad, rtrunc. rewrite Rmult_0_l. destruct (Rle_dec 0 0) as [_|L]; [|exfalso; lra]. apply Int_part_unique. lra.
Qed.
Lemma pad_columns_none mode m : img_eq (pad_columns mode m 0 0) m.
Proof.
  repeat split; cbn [pad_columns nrow ncol px]; [lia|]. intros i j Hi Hj. unfold in_rng in *. cbn [pad_columns nrow ncol] in *. rewrite Z.sub_0_r.
  destruct mode.
  - f_equal. unfold clipZ. lia.
  - replace (0 <=? j) with true by lia. replace (j <? ncol m) with true by lia. reflexivity.
Qed.
Lemma ncol_odd c : (2 * c + 1) mod 2 =? 0 = false.
Proof. replace (2 * c + 1) with (1 + c * 2) by lia. rewrite Z_mod_plus_full. reflexivity. Qed.
