(** Concrete cases for the theorems about direct Fourier inversion. *)
From Coq Require Import Reals Lra ZArith Lia Bool List. Import ListNotations.
From Verif Require Import Np P_Np M_phase_R P_phase_R M_simR S_simR P_simR P_simR2 P_simR4 M_dfi S_dfi P_dfi P_dfi2 P_dfi3.
Open Scope Z_scope.

(** nearest neighbour *)
Definition nearest (m : img R) (r t : R) : R := px m (clipZ (Int_part (t + / 2)) 0 (nrow m - 1)) (clipZ (Int_part (r + / 2)) 0 (ncol m - 1)).
Lemma nearest_reads : forall m m' r t, img_eq m m' -> 0 < nrow m -> 0 < ncol m -> nearest m r t = nearest m' r t.
Proof. intros m m' r t (R & C & E) Hr Hcm. unfold nearest. rewrite <- R, <- C. apply E; unfold in_rng, clipZ; lia. Qed.

Section constant.
Variable c : Z.
Hypothesis Hc : 1 <= c.
Let n := 2 * c + 1.
Definition flat_image : img R := mkimg (2 * c + 1) (2 * c + 1) (fun _ _ => 1%R).
Definition flat_views : img R := mkimg 2 (2 * c + 1) (fun _ _ => IZR (2 * c + 1)).
Lemma small_mod d : - c <= d <= c -> (d mod n =? 0) = (d =? 0).
Proof.
  intros Hd. unfold n. destruct (Z.eqb_spec d 0) as [->|E]; [rewrite Z.mod_0_l by lia; reflexivity|]. apply Z.eqb_neq. intros C. apply Z.mod_divide in C; [|lia].
  destruct C as (z & C). assert (z = 0) by nia. lia.
Qed.
Lemma flat_spectrum i j : in_rng n i -> in_rng n j -> image_spectrum c flat_image i j = if (i =? c) && (j =? c) then (IZR n * IZR n, 0)%R else (0, 0)%R.
Proof.
  intros Hi Hj. unfold in_rng, n in *. unfold image_spectrum, flat_image. cbn [px].
  assert (N0 : (IZR (2 * c + 1) <> 0)%R) by (apply not_0_IZR; lia).
  assert (K := centred_kernel c ltac:(lia) (i - c) (j - c)). cbv zeta in K. fold n in K. rewrite !small_mod in K by lia.
  assert (A : rsum (2 * c + 1) (fun a => rsum (2 * c + 1) (fun b => 1 * cos (2 * PI * IZR ((i - c) * (a - c) + (j - c) * (b - c)) / IZR (2 * c + 1))))%R =
     (if (i =? c) && (j =? c) then IZR n * IZR n else 0)%R).
  { replace (i =? c) with (i - c =? 0) by (destruct (Z.eqb_spec i c), (Z.eqb_spec (i - c) 0); lia || reflexivity).
    replace (j =? c) with (j - c =? 0) by (destruct (Z.eqb_spec j c), (Z.eqb_spec (j - c) 0); lia || reflexivity).
    rewrite <- K. unfold n. apply rsum_ext. intros a Ha. apply rsum_ext. intros b Hb. rewrite Rmult_1_l. do 3 f_equal. f_equal. ring. }
  assert (B : rsum (2 * c + 1) (fun a => rsum (2 * c + 1) (fun b => 1 * sin (2 * PI * IZR ((i - c) * (a - c) + (j - c) * (b - c)) / IZR (2 * c + 1))))%R = 0%R).
  { assert (S := fun d => centred_sin c ltac:(lia) d). cbv zeta in S.
    rewrite (rsum_ext _ _ (fun a => sin (2 * PI * IZR ((a - c) * (i - c)) / IZR (2 * c + 1)) * rsum (2 * c + 1) (fun b => cos (2 * PI * IZR ((b - c) * (j - c)) / IZR (2 * c + 1))))%R).
    - rewrite rsum_scal_r, S. ring.
    - intros a Ha. 
      transitivity (sin (2 * PI * IZR ((a - c) * (i - c)) / IZR (2 * c + 1)) * rsum (2 * c + 1) (fun b => cos (2 * PI * IZR ((b - c) * (j - c)) / IZR (2 * c + 1))) +
          cos (2 * PI * IZR ((a - c) * (i - c)) / IZR (2 * c + 1)) * rsum (2 * c + 1) (fun b => sin (2 * PI * IZR ((b - c) * (j - c)) / IZR (2 * c + 1))))%R.
      + rewrite <- !rsum_scal, <- rsum_add. apply rsum_ext. intros b Hb. rewrite Rmult_1_l, <- sin_plus. f_equal.
        replace ((i - c) * (a - c) + (j - c) * (b - c)) with ((a - c) * (i - c) + (b - c) * (j - c)) by ring. rewrite plus_IZR. field. exact N0.
      + rewrite S. ring. }
  rewrite A, B. destruct ((i =? c) && (j =? c)); f_equal; ring.
Qed.
Lemma flat_rows t k : in_rng n k -> view_spectrum c flat_views t k = if k =? c then (IZR n * IZR n, 0)%R else (0, 0)%R.
Proof.
  intros Hk. unfold in_rng, n in *. unfold view_spectrum, flat_views. cbn [px].
  assert (K := centred_cos c ltac:(lia) (k - c)). assert (S := centred_sin c ltac:(lia) (k - c)). cbv zeta in K, S. fold n in K. rewrite small_mod in K by lia.
  replace (k - c =? 0) with (k =? c) in K by (destruct (Z.eqb_spec k c), (Z.eqb_spec (k - c) 0); lia || reflexivity). unfold n in K.
  rewrite (rsum_scal (2 * c + 1) (IZR (2 * c + 1)) (fun b => cos (2 * PI * IZR ((k - c) * (b - c)) / IZR (2 * c + 1)))).
  rewrite (rsum_scal (2 * c + 1) (IZR (2 * c + 1)) (fun b => sin (2 * PI * IZR ((k - c) * (b - c)) / IZR (2 * c + 1)))).
  rewrite (rsum_ext _ _ (fun b => cos (2 * PI * IZR ((b - c) * (k - c)) / IZR (2 * c + 1)))) by (intros b Hb; do 3 f_equal; f_equal; ring).
  rewrite (rsum_ext _ (fun b => sin (2 * PI * IZR ((k - c) * (b - c)) / IZR (2 * c + 1))) (fun b => sin (2 * PI * IZR ((b - c) * (k - c)) / IZR (2 * c + 1)))) by (intros b Hb; do 3 f_equal; f_equal; ring).
  rewrite K, S. destruct (k =? c); f_equal; ring.
Qed.
Lemma flat_slices : slices_of_image nearest c flat_views flat_image.
Proof.
  intros re im (R1 & R2 & I1 & I2) HV i j r t Hi Hj Hin Hr Ht (F1 & F2).
  unfold nearest. rewrite R1, R2, I1, I2. cbn [nrow flat_views] in *.
  set (t' := clipZ (Int_part (t + / 2)) 0 (2 - 1)). set (k := clipZ (Int_part (r + / 2)) 0 (2 * c + 1 - 1)).
  rewrite HV by (unfold in_rng, t', k, clipZ; lia). rewrite flat_rows by (unfold in_rng, k, n, clipZ; lia). rewrite flat_spectrum by assumption.
  replace (k =? c) with ((i =? c) && (j =? c)); [reflexivity|].
  set (ang := (t * PI / (2 - 1))%R) in *.
  assert (D : ((r - IZR c) * (r - IZR c) = IZR ((j - c) * (j - c) + (c - i) * (c - i)))%R).
  { rewrite plus_IZR, !mult_IZR, <- F1, <- F2. assert (T := sin2_cos2 ang). unfold Rsqr in T.
    replace ((r - IZR c) * cos ang * ((r - IZR c) * cos ang) + (r - IZR c) * sin ang * ((r - IZR c) * sin ang))%R with ((r - IZR c) * (r - IZR c) * (sin ang * sin ang + cos ang * cos ang))%R by ring.
    rewrite T. ring. }
  assert (IP := base_Int_part (r + / 2)).
  destruct (Z.eqb_spec i c) as [->|Ei], (Z.eqb_spec j c) as [->|Ej]; cbn [andb]; symmetry.
  - apply Z.eqb_eq. replace ((c - c) * (c - c) + (c - c) * (c - c)) with 0 in D by ring. apply Rmult_integral in D. assert (r = IZR c) by lra.
    subst r. unfold k. replace (Int_part (IZR c + / 2)) with c by (symmetry; apply Int_part_unique; lra). unfold clipZ. lia.
  - apply Z.eqb_neq. intros C. assert (B : (1 <= (r - IZR c) * (r - IZR c))%R) by (rewrite D; apply IZR_le; nia).
    assert (B2 : (r - IZR c <= -1 \/ 1 <= r - IZR c)%R). { destruct (Rle_lt_dec (r - IZR c) (-1)); [left; assumption|]. destruct (Rle_lt_dec 1 (r - IZR c)); [right; assumption|]. exfalso. nra. }
    assert (Ik : Int_part (r + / 2) = c) by (unfold k, clipZ in C; lia). rewrite Ik in IP. lra.
  - apply Z.eqb_neq. intros C. assert (B : (1 <= (r - IZR c) * (r - IZR c))%R) by (rewrite D; apply IZR_le; nia).
    assert (B2 : (r - IZR c <= -1 \/ 1 <= r - IZR c)%R). { destruct (Rle_lt_dec (r - IZR c) (-1)); [left; assumption|]. destruct (Rle_lt_dec 1 (r - IZR c)); [right; assumption|]. exfalso. nra. }
    assert (Ik : Int_part (r + / 2) = c) by (unfold k, clipZ in C; lia). rewrite Ik in IP. lra.
  - apply Z.eqb_neq. intros C. assert (B : (1 <= (r - IZR c) * (r - IZR c))%R) by (rewrite D; apply IZR_le; nia).
    assert (B2 : (r - IZR c <= -1 \/ 1 <= r - IZR c)%R). { destruct (Rle_lt_dec (r - IZR c) (-1)); [left; assumption|]. destruct (Rle_lt_dec 1 (r - IZR c)); [right; assumption|]. exfalso. nra. }
    assert (Ik : Int_part (r + / 2) = c) by (unfold k, clipZ in C; lia). rewrite Ik in IP. lra.
Qed.
Lemma flat_band : band_limited c flat_image.
Proof.
  intros i j Hi Hj Hout. rewrite flat_spectrum by assumption. destruct (Z.eqb_spec i c) as [->|]; [|reflexivity]. destruct (Z.eqb_spec j c) as [->|]; [|reflexivity].
  exfalso. apply Hout. unfold in_circle. nia.
Qed.
End constant.
(** an interpolation that reads pixels of every image *)
Definition nearest0 (m : img R) (r t : R) : R := if (0 <? nrow m) && (0 <? ncol m) then nearest m r t else 0%R.
Lemma nearest0_reads : reads_pixels nearest0.
Proof.
  intros m m' r t E. assert (E0 := E). destruct E0 as (R & C & _). unfold nearest0. rewrite <- R, <- C.
  destruct (0 <? nrow m) eqn:A, (0 <? ncol m) eqn:B; cbn [andb]; try reflexivity. apply nearest_reads; [exact E|lia|lia].
Qed.
Lemma flat_slices0 c : 1 <= c -> slices_of_image nearest0 c (flat_views c) (flat_image c).
Proof.
  intros Hc re im S HV i j r t Hi Hj Hin Hr Ht F. destruct S as (R1 & R2 & I1 & I2). unfold nearest0. rewrite R1, R2, I1, I2.
  cbn [nrow flat_views]. replace (0 <? 2 * c + 1) with true by lia. change (0 <? 2) with true. cbn [andb]. apply (flat_slices c Hc); auto.
Qed.
(** shifting whole rows *)
Definition roll_rows (m : img R) (s : R) : img R := mkimg (nrow m) (ncol m) (fun i j => px m (from_row (nrow m) (i - Int_part s)) j).
Lemma roll_rows_shifts : shifts_rows roll_rows /\ keeps_size roll_rows.
Proof.
  split; [|split; reflexivity]. intros m s Hm. repeat split. intros i j Hi Hj. cbn [roll_rows px]. rewrite (Int_part_unique (IZR s) s) by lra. reflexivity.
Qed.
