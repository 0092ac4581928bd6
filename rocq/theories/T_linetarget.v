(** C132: the line target. *)
From Coq Require Import Reals Lra ZArith Lia Bool.
From Verif Require Import Np P_Np M_phase_R M_simR M_linetarget S_linetarget P_face P_linetarget P_linetarget2.
From Coq Require Import List. Import ListNotations.
Open Scope Z_scope.

(** the mask of the bars of a size, before the disc *)
Lemma group_pos w a b (c : bar) : 0 < w -> In c (right_group w a b) -> 0 < snd c.
Proof.
  intros Hw. unfold right_group. destruct (Z.eqb_spec (w mod 2) 1) as [E|E].
  - intros I. apply in_map_iff in I. destruct I as (x & <- & _). exact Hw.
  - intros I. apply in_app_iff in I. assert (w <> 1) by (intros ->; apply E; reflexivity). destruct I as [I|I]; apply in_map_iff in I; destruct I as (x & <- & _); cbn [snd]; lia.
Qed.
Lemma lgroup_pos w a b (c : bar) : 0 < w -> In c (left_group w a b) -> 0 < snd c.
Proof.
  intros Hw. unfold left_group. destruct (Z.eqb_spec (w mod 2) 1) as [E|E].
  - intros I. apply in_map_iff in I. destruct I as (x & <- & _). exact Hw.
  - intros I. apply in_app_iff in I. assert (w <> 1) by (intros ->; apply E; reflexivity). destruct I as [I|I]; apply in_map_iff in I; destruct I as (x & <- & _); cbn [snd]; lia.
Qed.
Lemma left_pos k : forall a (c : bar), In c (left_loop k a) -> 0 < snd c.
Proof.
  induction k as [|k IH]; intros a c I; [destruct I|]. cbn [left_loop] in I. apply in_app_iff in I. destruct I as [I|I]; [eapply lgroup_pos; [|exact I]; lia|eapply IH; exact I].
Qed.
Section one_size.
Context (size : Z) (S1 : 26 <= size) (S2 : size < 3200) (S3 : size <> 2946 /\ size <> 2947) (S4 : size / 16 < 101 \/ Z.Even (size / 16)).
Let h := size / 16. Let c := size / 2.
Lemma size_split : 1 <= h <= 199 /\ 16 * h <= size < 16 * h + 16 /\ 2 * c <= size <= 2 * c + 1.
Proof. clear S3 S4.
  unfold h, c. assert (X := Z.div_mod size 16 ltac:(lia)). assert (Y := Z.mod_pos_bound size 16 ltac:(lia)). assert (X2 := Z.div_mod size 2 ltac:(lia)). assert (Y2 := Z.mod_pos_bound size 2 ltac:(lia)). lia.
Qed.
Lemma bars_of_size : exists n, largest_width size n /\ n <= 20 /\ 2 * n - 1 <= h /\
  right_loop (Z.to_nat size + 1) size 0 (h / 2 + 1) = Some (right_bars h 0 (Z.to_nat n), n + 1).
Proof.
  assert (SS := size_split). assert (H2 := half2 h ltac:(lia)). replace (h / 2 + 1) with (right_middle h (0 + 1)) by (unfold right_middle; ring).
  destruct (right_loop_spec size h (Z.to_nat size + 1) 0) as (k & E & A & B); [lia|lia|fold c; unfold right_middle; lia|]. rewrite Z.add_0_l in *. exists (Z.of_nat k). rewrite E, Nat2Z.id. fold c in A, B.
  assert (K1 : 1 <= Z.of_nat k). { destruct k as [|k]; [|lia]. exfalso. change (Z.of_nat 0) with 0 in B. unfold right_middle in B. lia. }
  assert (L := A (Z.of_nat k) ltac:(lia)). set (n := Z.of_nat k) in *. assert (Q : h / 2 + 1 + 3 * n * (n - 1) + 6 * (n - 1) + 6 * n <= c - 6) by (unfold right_middle in L; lia).
  split; [split; [exact K1|]; fold h c; split; [exact L|exact B]|]. replace (3 * n * (n - 1)) with (3 * (n * n) - 3 * n) in Q by ring. assert (SQ : 0 <= (n - 2) * (n - 2)) by apply Z.square_nonneg. replace ((n - 2) * (n - 2)) with (n * n - 4 * n + 4) in SQ by ring.
  assert (N15 : 21 <= n -> 21 * n <= n * n) by (intros; apply Z.mul_le_mono_nonneg_r; lia). clear A B L E. set (nn := n * n) in *. clearbody nn n. split; [destruct (Z_le_gt_dec n 20) as [X|X]; [exact X|exfalso; specialize (N15 ltac:(lia)); lia]|]. split; [lia|reflexivity].
Qed.
Lemma reach n : largest_width size n -> n <= 20 -> - c <= first_col h n < 0 /\ 0 <= last_col h n < size - c /\
  2 * (- first_col h n) + h - (2 * n - 1) <= extent size n /\ 2 * last_col h n + h - (2 * n - 1) <= extent size n /\ h / 2 + 3 * n * n + 9 * n - 8 <= - first_col h n /\ extent size n = last_col h n - first_col h n + h.
Proof.
  intros (N1 & N2 & _) N3. fold h c in N2. assert (SS := size_split). assert (H1 := half2 h ltac:(lia)). assert (H2 := half2 (h + 1) ltac:(lia)). assert (H3 := half2 n ltac:(lia)). assert (H4 := half2 (n + 1) ltac:(lia)).
  assert (E : first_col h n = - ((h + 1) / 2) - (n + 1) / 2 - (3 * (n * n) + 9 * n - 8)) by (unfold first_col, left_middle; ring).
  assert (L : last_col h n = h / 2 + 1 + (3 * (n * n) + 3 * n - 6) + 4 * n + n / 2) by (unfold last_col, right_middle; ring).
  assert (Q : h / 2 + 1 + (3 * (n * n) + 3 * n - 6) + 6 * n <= c - 6) by (unfold right_middle in N2; lia).
  assert (N0 : 1 * 1 <= n * n) by (apply Z.mul_le_mono_nonneg; lia). assert (X : extent size n = last_col h n - first_col h n + h) by (unfold extent, last_col, first_col; fold h; ring).
  assert (R1 : - c <= first_col h n < 0).
  { assert (HP : h < 101 \/ exists q, h = 2 * q) by (destruct S4 as [X'|(q & X')]; [left; exact X'|right; exists q; exact X']). split; [|lia].
    assert (N18 : n <= 18 \/ n = 19 \/ n = 20) by lia. destruct N18 as [N18|[N18|N18] ].
    - destruct HP as [HP|(q & HP)]; [|lia]. assert (N15 : 17 <= n -> 17 * n <= n * n) by (intros; apply Z.mul_le_mono_nonneg_r; lia). set (nn := n * n) in *. clearbody nn. destruct (Z_le_gt_dec n 16); [lia|]. specialize (N15 ltac:(lia)). lia.
    - rewrite N18 in *. destruct HP as [HP|(q & HP)]; lia.
    - rewrite N18 in *. destruct HP as [HP|(q & HP)]; lia. } assert (R2 : 0 <= last_col h n < size - c) by lia. rewrite X, <- !(Z.mul_assoc 3 n n). set (nn := n * n) in *. clearbody nn. repeat split; lia.
Qed.
Definition bars (n : Z) : list bar := right_bars h 0 (Z.to_nat n) ++ left_loop (Z.to_nat n) ((- h) / 2 - (n + 1) / 2).
Definition count (n x : Z) : Z := right_count h (Z.to_nat n) x + left_count h n (Z.to_nat n) x.
Lemma count_val n x : 1 <= n -> (count n x = 1 /\ on_bar h n x /\ first_col h n <= x <= last_col h n /\ h < 2 * Z.abs x) \/ (count n x = 0 /\ ~ on_bar h n x).
Proof. clear S3 S4. intros Hn. assert (SS := size_split). apply (row_val h n x); lia. Qed.
Lemma bars_hits n x : 1 <= n <= 20 -> hits x (bars n) = count n x.
Proof.
  intros Hn. assert (SS := size_split). unfold bars, count. rewrite hits_app, right_bars_snoc by lia. f_equal. rewrite <- left_loop_hits by lia. f_equal. f_equal. rewrite Z2Nat.id by lia. unfold left_middle.
  assert (H2 := half2 (h + 1) ltac:(lia)). replace ((- h) / 2) with (- ((h + 1) / 2)); [ring|]. apply Z.div_unique_pos with (r := (h + 1) mod 2 + (-1) * ((h + 1) mod 2) + (2 * ((h + 1) / 2) - h)); lia.
Qed.
Lemma bars_pos n : 0 <= n -> forall b, In b (bars n) -> 0 < snd b.
Proof.
  intros Hn b I. unfold bars in I. apply in_app_iff in I. destruct I as [I|I]; [|eapply left_pos; exact I]. unfold right_bars in I. apply in_flat_map in I. destruct I as (v & Hv & I). apply zrange_In in Hv. eapply group_pos; [|exact I]. lia.
Qed.
Definition total_mask (n i j : Z) : Z := count n (j - c) * row_hit size h i + count n (i - c) * row_hit size h j.
Lemma mask_px n i j : 1 <= n <= 20 -> (px (bar_mask size h (bars n)) i j + px (bar_mask size h (bars n)) j i)%R = IZR (total_mask n i j).
Proof.
  intros Hn. assert (SS := size_split). rewrite !bar_mask_px by (try lia; apply bars_pos; lia). fold c. rewrite !bars_hits by exact Hn. unfold total_mask. rewrite plus_IZR. reflexivity.
Qed.
Lemma middle_row n j : 1 <= n <= 20 -> total_mask n c j = count n (j - c).
Proof.
  intros Hn. assert (SS := size_split). unfold total_mask. rewrite Z.sub_diag. destruct (count_val n 0 ltac:(lia)) as [(_ & _ & _ & B)|(-> & _)]; [exfalso; cbn in B; lia|].
  unfold row_hit. fold c. rewrite Z.sub_diag. change (Z.abs 0) with 0. replace (200 * 0 <=? 101 * h) with true by lia. cbn [b2z]. ring.
Qed.
Lemma disc_px d i j : 0 < d -> px (make_elliptic_mask size (Both 0) (Both (IZR d)) 0) i j = IZR (b2z (40000 * ((j - c) * (j - c) + (i - c) * (i - c)) <=? (101 * d) * (101 * d))).
Proof.
  intros Hd. assert (D : (0 < IZR d)%R) by (apply IZR_lt; exact Hd). unfold make_elliptic_mask. cbn [px]. change (mask_coords size (Both 0) (Both (IZR d)) 0 i j) with (mask_coords size (Tuple 0 0) (Tuple (IZR d) (IZR d)) 0 i j). rewrite coords_eq. cbv zeta. replace (0 * PI / 180)%R with 0%R by field. rewrite cos_0, sin_0. unfold xof, yof. fold c.
  replace ((IZR j - IZR c - 0) * 1 + (IZR c - IZR i - 0) * 0)%R with (IZR (j - c)) by (rewrite minus_IZR; ring). replace ((IZR c - IZR i - 0) * 1 - (IZR j - IZR c - 0) * 0)%R with (- IZR (i - c))%R by (rewrite minus_IZR; ring).
  set (x := (j - c)). set (y := (i - c)). assert (P : (0 <= (IZR x / (0.5 * IZR d)) ^ 2 + (- IZR y / (0.5 * IZR d)) ^ 2)%R) by (assert (A := pow2_ge_0 (IZR x / (0.5 * IZR d))); assert (B := pow2_ge_0 (- IZR y / (0.5 * IZR d))); lra).
  assert (T := sqrt_101 _ P). assert (F : (((IZR x / (0.5 * IZR d)) ^ 2 + (- IZR y / (0.5 * IZR d)) ^ 2 <= 1.0201)%R <-> 40000 * (x * x + y * y) <= (101 * d) * (101 * d))).
  { replace ((IZR x / (0.5 * IZR d)) ^ 2 + (- IZR y / (0.5 * IZR d)) ^ 2)%R with (4 * (IZR x * IZR x + IZR y * IZR y) / (IZR d * IZR d))%R by (replace 0.5%R with (/ 2)%R by lra; field; lra).
    assert (DD : (0 < IZR d * IZR d)%R) by (apply Rmult_lt_0_compat; exact D). split; intros H.
    - apply le_IZR. rewrite !mult_IZR, plus_IZR, !mult_IZR. apply (Rmult_le_compat_r (IZR d * IZR d)) in H; [|lra]. unfold Rdiv in H. rewrite Rmult_assoc, Rinv_l, Rmult_1_r in H by lra. lra.
    - apply IZR_le in H. rewrite !mult_IZR, plus_IZR, !mult_IZR in H. apply (Rmult_le_reg_r (IZR d * IZR d)); [lra|]. unfold Rdiv. rewrite Rmult_assoc, Rinv_l, Rmult_1_r by lra. lra. }
  destruct (Rle_dec _ _) as [L|L], (Z.leb_spec (40000 * (x * x + y * y)) ((101 * d) * (101 * d))) as [M|M]; try reflexivity; exfalso; [apply T, F in L; lia|apply L, T, F, M].
Qed.
Lemma extent_pos n : largest_width size n -> n <= 20 -> 0 < extent size n.
Proof. intros LW N. destruct (reach n LW N) as (A & B & _ & _ & _ & E). assert (SS := size_split). lia. Qed.
Lemma target_is : exists n t, largest_width size n /\ n <= 20 /\ 2 * n - 1 <= h /\ make_line_target size = Ok t /\ nrow t = size /\ ncol t = size /\
  forall i j, px t i j = IZR (b2z (40000 * ((j - c) * (j - c) + (i - c) * (i - c)) <=? (101 * extent size n) * (101 * extent size n)) - total_mask n i j).
Proof.
  assert (SS := size_split). destruct bars_of_size as (n & LW & N14 & NH & E). exists n. destruct (LW) as (N1 & _). destruct (reach n LW N14) as (R1 & R2 & _ & _ & _ & EX). assert (XP := extent_pos n LW N14).
  unfold make_line_target. replace (size <? 0) with false by lia. fold h. rewrite E. replace (Z.to_nat (n + 1 - 1)) with (Z.to_nat n) by (f_equal; lia). fold (bars n). fold c.
  set (f := fun j => if Req_EM_T _ 1 then true else false).
  assert (FF : forall j, f j = (count n (j - c) =? 1)).
  { intros j. unfold f. cbn [px]. rewrite (mask_px n c j) by lia. rewrite middle_row by lia. destruct (Req_EM_T (IZR (count n (j - c))) 1) as [Q|Q]; symmetry; [apply Z.eqb_eq; apply eq_IZR; exact Q|apply Z.eqb_neq; intros Q'; apply Q; rewrite Q'; reflexivity]. }
  destruct (filter_zrange f size (c + first_col h n) (c + last_col h n)) as (t & EF & EL).
  - lia.
  - unfold in_rng. lia.
  - unfold in_rng. lia.
  - rewrite FF. replace (c + first_col h n - c) with (first_col h n) by ring. apply Z.eqb_eq. destruct (count_val n (first_col h n) N1) as [(X & _)|(_ & X)]; [exact X|exfalso; apply X, first_on_bar, N1].
  - rewrite FF. replace (c + last_col h n - c) with (last_col h n) by ring. apply Z.eqb_eq. destruct (count_val n (last_col h n) N1) as [(X & _)|(_ & X)]; [exact X|exfalso; apply X, last_on_bar, N1].
  - intros j Hj FJ. rewrite FF in FJ. apply Z.eqb_eq in FJ. destruct (count_val n (j - c) N1) as [(_ & _ & X & _)|(X & _)]; lia.
  - rewrite EF, EL. eexists. split; [exact LW|]. split; [exact N14|]. split; [exact NH|]. split; [reflexivity|]. split; [reflexivity|]. split; [reflexivity|]. intros i j. cbn [px].
    rewrite (mask_px n i j) by lia. replace (c + last_col h n - (c + first_col h n) + h) with (extent size n) by lia. rewrite disc_px by exact XP. rewrite minus_IZR. reflexivity.
Qed.
(** the bars lie in the disc *)
Lemma bars_in_disc n x y : largest_width size n -> n <= 20 -> 2 * n - 1 <= h -> first_col h n <= x <= last_col h n -> 2 * Z.abs y <= h -> 40000 * (x * x + y * y) <= (101 * extent size n) * (101 * extent size n).
Proof.
  intros LW N14 NH HX HY. destruct (LW) as (N1 & _). destruct (reach n LW N14) as (R1 & R2 & D1 & D2 & FB & _). assert (SS := size_split). assert (H1 := half2 h ltac:(lia)).
  set (D := extent size n) in *. set (e := h - (2 * n - 1)) in *. assert (E0 : 0 <= e) by (unfold e; lia). set (F := Z.max (- first_col h n) (last_col h n)). assert (XF : x * x <= F * F) by (assert (XA : Z.abs x * Z.abs x <= F * F) by (apply Z.mul_le_mono_nonneg; lia); rewrite <- Z.abs_mul, Z.abs_eq in XA by apply Z.square_nonneg; exact XA). assert (DF : 2 * F + e <= D) by lia.
  assert (FB' : h / 2 + 3 * n * n + 9 * n - 8 <= F) by lia. assert (NN : 1 * n <= n * n) by (apply Z.mul_le_mono_nonneg_r; lia). rewrite Z.mul_1_l in NN.
  assert (F1 : 4 * (2 * n - 1) <= F). { rewrite <- !(Z.mul_assoc 3 n n) in FB'. destruct (Z.eq_dec n 1) as [N1'|]; [rewrite N1' in *; lia|]. set (nn := n * n) in *. clearbody nn. lia. }
  assert (F2 : e + 2 * (2 * n - 1) <= 4 * F). { rewrite <- !(Z.mul_assoc 3 n n) in FB'. unfold e. set (nn := n * n) in *. clearbody nn. lia. }
  assert (YH : 4 * (y * y) <= h * h) by (assert (YA : (2 * Z.abs y) * (2 * Z.abs y) <= h * h) by (apply Z.mul_le_mono_nonneg; lia); replace ((2 * Z.abs y) * (2 * Z.abs y)) with (4 * (Z.abs y * Z.abs y)) in YA by ring; rewrite <- Z.abs_mul, Z.abs_eq in YA by apply Z.square_nonneg; exact YA).
  assert (EH : h = e + (2 * n - 1)) by (unfold e; ring). set (m := 2 * n - 1) in *. assert (M1 : 1 <= m) by (unfold m; lia).
  assert (G : 40000 * (F * F) + 10000 * (h * h) <= 10201 * ((2 * F + e) * (2 * F + e))).
  { rewrite EH. clearbody e m F D. clear - E0 M1 F1 F2. assert (A : (4 * m) * (4 * m) <= F * F) by (apply Z.mul_le_mono_nonneg; lia). assert (B : (e + 2 * m) * e <= (4 * F) * e) by (apply Z.mul_le_mono_nonneg_r; lia).
    assert (C1 : 0 <= F * e) by (apply Z.mul_nonneg_nonneg; lia). assert (C2 : 0 <= e * e) by (apply Z.mul_nonneg_nonneg; lia). assert (C3 : 0 <= F * F) by (apply Z.mul_nonneg_nonneg; lia).
    replace ((4 * m) * (4 * m)) with (16 * (m * m)) in A by ring. replace ((e + 2 * m) * e) with (e * e + 2 * (m * e)) in B by ring. replace (4 * F * e) with (4 * (F * e)) in B by ring.
    replace ((e + m) * (e + m)) with (e * e + 2 * (m * e) + m * m) by ring. replace ((2 * F + e) * (2 * F + e)) with (4 * (F * F) + 4 * (F * e) + e * e) by ring.
    set (ff := F * F) in *. set (fe := F * e) in *. set (ee := e * e) in *. set (me := m * e) in *. set (mm := m * m) in *. clearbody ff fe ee me mm. lia. }
  assert (DD : (2 * F + e) * (2 * F + e) <= D * D) by (apply Z.mul_le_mono_nonneg; lia).
  replace (101 * D * (101 * D)) with (10201 * (D * D)) by ring. set (dd := D * D) in *. set (q := (2 * F + e) * (2 * F + e)) in *. set (ff := F * F) in *. set (hh := h * h) in *. set (xx := x * x) in *. set (yy := y * y) in *. clearbody dd q ff hh xx yy. lia.
Qed.
End one_size.

(** ** sizes that are too small for any bar *)
Theorem line_target_needs_26_pixels : forall size, (size < 0 -> make_line_target size = Err ValueError) /\ (0 <= size < 26 -> make_line_target size = Err IndexError).
Proof.
  intros size. split; intros H; unfold make_line_target.
  - replace (size <? 0) with true by lia. reflexivity.
  - replace (size <? 0) with false by lia. assert (X := Z.div_mod size 16 ltac:(lia)). assert (Y := Z.mod_pos_bound size 16 ltac:(lia)). assert (X2 := Z.div_mod size 2 ltac:(lia)). assert (Y2 := Z.mod_pos_bound size 2 ltac:(lia)).
    assert (H2 := half2 (size / 16) ltac:(lia)). replace (Z.to_nat size + 1)%nat with (S (Z.to_nat size)) by lia. cbn [right_loop]. replace (size / 2 - 6 <? size / 16 / 2 + 1 + 3 * 2 * (0 + 1)) with true by lia.
    change (Z.to_nat (0 + 1 - 1)) with 0%nat. cbn [app left_loop].
    match goal with |- context [filter ?f ?l] => replace (filter f l) with (@nil Z) end; [reflexivity|]. symmetry. induction (zrange 0 size) as [|a l IH]; [reflexivity|]. cbn [filter]. rewrite IH. cbn [px bar_mask fold_right]. destruct (Req_EM_T (0 + 0) 1); [exfalso; lra|reflexivity].
Qed.
Print Assumptions line_target_needs_26_pixels.

(** ** the picture: bright disc, dark bars, nothing else *)
Theorem line_target_is_the_pattern_partial : forall size, 26 <= size < 3200 -> size <> 2946 /\ size <> 2947 -> size / 16 < 101 \/ Z.Even (size / 16) ->
  exists n t, largest_width size n /\ make_line_target size = Ok t /\ nrow t = size /\ ncol t = size /\
  forall i j, in_rng size i -> in_rng size j -> let x := j - size / 2 in let y := i - size / 2 in
    (dark size n x y -> px t i j = 0%R) /\ (~ dark size n x y -> in_disc size n x y -> px t i j = 1%R) /\ (~ in_disc size n x y -> px t i j = 0%R).
Proof.
  intros size HS HS' HE. destruct (target_is size ltac:(lia) ltac:(lia) HS' HE) as (n & t & LW & N14 & NH & E & T1 & T2 & TP). exists n, t. split; [exact LW|]. split; [exact E|]. split; [exact T1|]. split; [exact T2|].
  intros i j Hi Hj x y. rewrite TP. unfold total_mask. fold x y. destruct (LW) as (N1 & _). assert (SS := size_split size ltac:(lia) ltac:(lia)). set (h := size / 16) in *.
  assert (RH : forall k, row_hit size h k = b2z (2 * Z.abs (k - size / 2) <=? h)).
  { intros k. unfold row_hit. f_equal. apply Bool.eq_iff_eq_true. rewrite !Z.leb_le. destruct HE as [HE|(q & HQ)]; lia. }
  rewrite !RH. fold x y. assert (CX := count_val size ltac:(lia) ltac:(lia) n x N1). assert (CY := count_val size ltac:(lia) ltac:(lia) n y N1). fold h in CX, CY.
  assert (BD := bars_in_disc size ltac:(lia) ltac:(lia) HS' HE n). fold h in BD. unfold dark, in_disc. fold h.
  destruct (Z.leb_spec (2 * Z.abs y) h) as [Y|Y], (Z.leb_spec (2 * Z.abs x) h) as [X|X]; cbn [b2z].
  - destruct CX as [(_ & _ & _ & BX)|(-> & NX)]; [exfalso; lia|]. destruct CY as [(_ & _ & _ & BY)|(-> & NY)]; [exfalso; lia|]. rewrite Z.mul_0_l, Z.add_0_l, Z.sub_0_r.
    split; [intros [(D & _)|(D & _)]; contradiction|]. destruct (Z.leb_spec (40000 * (x * x + y * y)) (101 * extent size n * (101 * extent size n))); (split; [intros; first [reflexivity|exfalso; lia]|intros; first [reflexivity|exfalso; lia] ]).
  - destruct CX as [(-> & OX & RX & _)|(-> & NX)].
    + assert (B := BD x y LW N14 NH RX Y). replace (40000 * (x * x + y * y) <=? 101 * extent size n * (101 * extent size n)) with true by lia. cbn [b2z]. replace (1 - (1 * 1 + _ * 0)) with 0 by ring.
      split; [reflexivity|]. split; [intros ND; exfalso; apply ND; left; split; assumption|reflexivity].
    + replace (0 * 1 + _ * 0) with 0 by ring. rewrite Z.sub_0_r. split; [intros [(D & _)|(_ & D)]; [contradiction|lia]|].
      destruct (Z.leb_spec (40000 * (x * x + y * y)) (101 * extent size n * (101 * extent size n))); (split; [intros; first [reflexivity|exfalso; lia]|intros; first [reflexivity|exfalso; lia] ]).
  - destruct CY as [(-> & OY & RY & _)|(-> & NY)].
    + assert (B := BD y x LW N14 NH RY X). replace (40000 * (x * x + y * y) <=? 101 * extent size n * (101 * extent size n)) with true by lia. cbn [b2z]. replace (1 - (_ * 0 + 1 * 1)) with 0 by ring.
      split; [reflexivity|]. split; [intros ND; exfalso; apply ND; right; split; assumption|reflexivity].
    + replace (_ * 0 + 0 * 1) with 0 by ring. rewrite Z.sub_0_r. split; [intros [(_ & D)|(D & _)]; [lia|contradiction]|].
      destruct (Z.leb_spec (40000 * (x * x + y * y)) (101 * extent size n * (101 * extent size n))); (split; [intros; first [reflexivity|exfalso; lia]|intros; first [reflexivity|exfalso; lia] ]).
  - replace (_ * 0 + _ * 0) with 0 by ring. rewrite Z.sub_0_r. split; [intros [(_ & D)|(_ & D)]; lia|].
    destruct (Z.leb_spec (40000 * (x * x + y * y)) (101 * extent size n * (101 * extent size n))); (split; [intros; first [reflexivity|exfalso; lia]|intros; first [reflexivity|exfalso; lia] ]).
Qed.
Print Assumptions line_target_is_the_pattern_partial.

(** ** for all other sizes but two the bars of the two directions cross next to the centre and the target has negative pixels *)
Lemma prange_step_ge a b s y : 0 < s -> In y (prange_step a b s) -> a <= y.
Proof. intros Hs I. unfold prange_step in I. apply in_map_iff in I. destruct I as (k & <- & _). assert (0 <= Z.of_nat k * s) by (apply Z.mul_nonneg_nonneg; lia). lia. Qed.
Lemma down_le a b s y : 0 < s -> In y (arange_down a b s) -> y <= a.
Proof. intros Hs I. unfold arange_down in I. apply in_map_iff in I. destruct I as (z & <- & I). apply prange_step_ge in I; lia. Qed.
Lemma rgroup_at w a b (c : bar) : 0 < w -> In c (right_group w a b) -> a <= fst c /\ 0 < snd c <= w.
Proof.
  intros Hw. assert (W2 := half2 w ltac:(lia)). unfold right_group. destruct (Z.eqb_spec (w mod 2) 1) as [E|E].
  - intros I. apply in_map_iff in I. destruct I as (x & <- & I). apply prange_step_ge in I; cbn [fst snd]; lia.
  - intros I. apply in_app_iff in I. assert (w <> 1) by (intros ->; apply E; reflexivity). destruct I as [I|I]; apply in_map_iff in I; destruct I as (x & <- & I); apply prange_step_ge in I; cbn [fst snd]; lia.
Qed.
Lemma lgroup_at w a b (c : bar) : 0 < w -> In c (left_group w a b) -> fst c <= a /\ 0 < snd c <= w.
Proof.
  intros Hw. assert (W2 := half2 w ltac:(lia)). unfold left_group. destruct (Z.eqb_spec (w mod 2) 1) as [E|E].
  - intros I. apply in_map_iff in I. destruct I as (x & <- & I). apply down_le in I; cbn [fst snd]; lia.
  - intros I. apply in_app_iff in I. assert (w <> 1) by (intros ->; apply E; reflexivity). destruct I as [I|I]; apply in_map_iff in I; destruct I as (x & <- & I); apply down_le in I; cbn [fst snd]; lia.
Qed.
Lemma lloop_at k : forall a (c : bar), In c (left_loop k a) -> fst c <= a /\ 0 < snd c <= Z.of_nat k.
Proof.
  induction k as [|k IH]; intros a c I; [destruct I|]. cbn [left_loop] in I. apply in_app_iff in I. destruct I as [I|I]; [apply lgroup_at in I; lia|]. apply IH in I. lia.
Qed.
Lemma hits_0 x bars : (forall b, In b bars -> snd b <= Z.abs (x - fst b) /\ 0 < snd b \/ 200 * Z.abs (x - fst b) > 101 * snd b) -> hits x bars = 0.
Proof.
  induction bars as [|b bars IH]; intros H; [reflexivity|]. cbn [hits fold_right]. fold (hits x bars). rewrite IH by (intros c Hc; apply H; right; exact Hc).
  specialize (H b (or_introl eq_refl)). unfold hit. replace (200 * Z.abs (x - fst b) <=? 101 * snd b) with false by lia. reflexivity.
Qed.
(** the columns of the centre and of the first bar, for any size *)
Lemma near_centre h n x : 101 <= h -> 1 <= n < 100 * h -> x = 0 \/ x = h / 2 + 1 ->
  hits x (right_bars h 0 (Z.to_nat n) ++ left_loop (Z.to_nat n) ((- h) / 2 - (n + 1) / 2)) = if x =? 0 then 0 else 1.
Proof.
  intros Hh Hn Hx. assert (H2 := half2 h ltac:(lia)). assert (H3 := half2 (n + 1) ltac:(lia)).
  assert (HN : (- h) / 2 <= - (h / 2)) by (apply Z.div_le_upper_bound; lia). rewrite hits_app, (hits_0 x (left_loop _ _)).
  2:{ intros b I. right. apply lloop_at in I. rewrite Z2Nat.id in I by lia. assert (L : h / 2 + (n + 1) / 2 <= Z.abs (x - fst b)) by lia.
      assert (2 * (h / 2) >= h - 1) by lia. assert (2 * ((n + 1) / 2) >= n) by lia. lia. }
  rewrite Z.add_0_r. replace (Z.to_nat n) with (S (Z.to_nat (n - 1))) by lia. rewrite right_bars_cons, hits_app.
  rewrite (hits_0 x (right_bars _ _ _)).
  2:{ intros b I. left. unfold right_bars in I. apply in_flat_map in I. destruct I as (v & Hv & I). apply zrange_In in Hv. apply rgroup_at in I; [|lia]. unfold right_middle in I.
      assert (P : 0 <= 3 * v * (v - 1)) by (apply Z.mul_nonneg_nonneg; lia). set (q := 3 * v * (v - 1)) in *. clearbody q. lia. }
  unfold right_group. change ((0 + 1) mod 2 =? 1) with true. cbn iota. rewrite prange3 by lia. replace (right_middle h (0 + 1)) with (h / 2 + 1) by (unfold right_middle; ring).
  cbn [map hits fold_right]. unfold hit. cbn [fst snd]. destruct Hx as [->| ->].
  - replace (200 * Z.abs (0 - (h / 2 + 1)) <=? 101 * (0 + 1)) with false by lia. replace (200 * Z.abs (0 - (h / 2 + 1 + 2 * (0 + 1))) <=? 101 * (0 + 1)) with false by lia.
    replace (200 * Z.abs (0 - (h / 2 + 1 + 2 * (2 * (0 + 1)))) <=? 101 * (0 + 1)) with false by lia. reflexivity.
  - replace (200 * Z.abs (h / 2 + 1 - (h / 2 + 1)) <=? 101 * (0 + 1)) with true by lia. replace (200 * Z.abs (h / 2 + 1 - (h / 2 + 1 + 2 * (0 + 1))) <=? 101 * (0 + 1)) with false by lia.
    replace (200 * Z.abs (h / 2 + 1 - (h / 2 + 1 + 2 * (2 * (0 + 1)))) <=? 101 * (0 + 1)) with false by lia. replace (h / 2 + 1 =? 0) with false by lia. reflexivity.
Qed.
Lemma disc_le size d i j : (px (make_elliptic_mask size (Both 0) (Both d) 0) i j <= 1)%R.
Proof. unfold make_elliptic_mask. cbn [px]. destruct (mask_coords _ _ _ _ _ _) as (a & b). destruct (Rle_dec _ _); lra. Qed.
Theorem line_target_has_negative_pixels_refuted : forall size, (Z.Odd (size / 16) /\ 101 <= size / 16) \/ 3200 <= size ->
  let d := size / 2 + size / 16 / 2 + 1 in in_rng size d /\ exists t, make_line_target size = Ok t /\ nrow t = size /\ ncol t = size /\ (px t d d <= -1)%R.
Proof.
  intros size HE d. assert (X := Z.div_mod size 16 ltac:(lia)). assert (Y := Z.mod_pos_bound size 16 ltac:(lia)). assert (X2 := Z.div_mod size 2 ltac:(lia)). assert (Y2 := Z.mod_pos_bound size 2 ltac:(lia)).
  set (h := size / 16) in *. set (c := size / 2) in *. assert (HP : (101 <= h /\ exists q, h = 2 * q + 1) \/ 200 <= h) by (destruct HE as [((q & Q) & B)|B]; [left; split; [exact B|exists q; exact Q]|right; lia]).
  assert (H1 : 101 <= h) by lia. assert (H2 := half2 h ltac:(lia)). assert (R : in_rng size d) by (unfold in_rng, d; lia). split; [exact R|].
  unfold make_line_target. replace (size <? 0) with false by lia. cbv zeta. fold h c.
  replace (right_loop (Z.to_nat size + 1) size 0 (h / 2 + 1)) with (right_loop (Z.to_nat size + 1) size 0 (right_middle h (0 + 1))) by (f_equal; unfold right_middle; ring).
  destruct (right_loop_spec size h (Z.to_nat size + 1) 0) as (k & E & A & B); [lia|lia|fold c; unfold right_middle; lia|]. rewrite E. clear E. rewrite Z.add_0_l in *. fold c in A, B.
  assert (K1 : 1 <= Z.of_nat k). { destruct k as [|k]; [|lia]. exfalso. change (Z.of_nat 0) with 0 in B. unfold right_middle in B. lia. }
  assert (L := A (Z.of_nat k) ltac:(lia)). set (n := Z.of_nat k) in *. replace k with (Z.to_nat n) by (unfold n; lia).
  assert (NB : n < 100 * h). { unfold right_middle in L. assert (P : 0 <= 3 * n * (n - 1)) by (apply Z.mul_nonneg_nonneg; lia). set (q := 3 * n * (n - 1)) in *. clearbody q. lia. }
  cbv zeta. replace (n + 1 - 1) with n by ring. set (bars := right_bars h 0 (Z.to_nat n) ++ left_loop (Z.to_nat n) ((- h) / 2 - (n + 1) / 2)).
  assert (BP : forall b, In b bars -> 0 < snd b).
  { intros b I. unfold bars in I. apply in_app_iff in I. destruct I as [I|I]; [|eapply left_pos; exact I]. unfold right_bars in I. apply in_flat_map in I. destruct I as (v & Hv & I). apply zrange_In in Hv. eapply group_pos; [|exact I]. lia. }
  assert (MP : forall i j, (px (bar_mask size h bars) i j + px (bar_mask size h bars) j i)%R = IZR (hits (j - c) bars * row_hit size h i + hits (i - c) bars * row_hit size h j)).
  { intros i j. rewrite !bar_mask_px by (try lia; exact BP). fold c. rewrite plus_IZR. reflexivity. }
  assert (HX : hits (d - c) bars = 1). { replace (d - c) with (h / 2 + 1) by (unfold d; ring). unfold bars. rewrite near_centre by lia. replace (h / 2 + 1 =? 0) with false by lia. reflexivity. }
  assert (H0 : hits (c - c) bars = 0) by (rewrite Z.sub_diag; unfold bars; rewrite near_centre by lia; reflexivity).
  set (f := fun j => if Req_EM_T _ 1 then true else false).
  assert (RC : row_hit size h c = 1). { unfold row_hit. fold c. replace (200 * Z.abs (c - c) <=? 101 * h) with true; [reflexivity|]. symmetry. apply Z.leb_le. lia. }
  assert (FD : f d = true). { unfold f. cbn [px]. destruct (Req_EM_T _ 1) as [Q|Q]; [reflexivity|]. exfalso. apply Q. rewrite MP, HX, H0, RC. f_equal. }
  assert (IN : In d (filter f (zrange 0 size))) by (apply filter_In; split; [apply zrange_In; unfold in_rng in R; lia|exact FD]).
  destruct (filter f (zrange 0 size)) as [|a l]; [destruct IN|]. eexists. split; [reflexivity|]. split; [reflexivity|]. split; [reflexivity|]. cbn [px]. rewrite MP, HX.
  assert (RX : row_hit size h d = 1). { unfold row_hit. fold c. replace (d - c) with (h / 2 + 1) by (unfold d; ring). replace (200 * Z.abs (h / 2 + 1) <=? 101 * h) with true; [reflexivity|]. symmetry. apply Z.leb_le. destruct HP as [(HP & q & HQ)|HP]; lia. }
  rewrite RX. assert (DL := disc_le size (IZR (last (a :: l) 0 - a + h)) d d). cbn [Z.mul Z.add Pos.mul Pos.add]. lra.
Qed.
Print Assumptions line_target_has_negative_pixels_refuted.
(** ** in the two sizes left the outermost bar on the left lies outside of the image *)
Theorem line_target_bar_outside_refuted : forall size, size = 2946 \/ size = 2947 -> exists n x, largest_width size n /\ on_left_bar (size / 16) n 1 x /\ ~ in_rng size (size / 2 + x).
Proof.
  intros size H. exists 20, (-1474). assert (E : size / 16 = 184 /\ size / 2 = 1473) by (destruct H as [->| ->]; split; reflexivity). destruct E as (E1 & E2). unfold largest_width, on_left_bar. rewrite E1, E2.
  split; [split; [lia|]; split; vm_compute; congruence|]. split; [exists 2; split; [lia|]; vm_compute; split; congruence|]. unfold in_rng. lia.
Qed.
Print Assumptions line_target_bar_outside_refuted.
(** every size is of exactly one kind *)
Example sizes_of_all_kinds : (forall size, size < 26 \/ (26 <= size < 3200 /\ (size <> 2946 /\ size <> 2947) /\ (size / 16 < 101 \/ Z.Even (size / 16))) \/ (size = 2946 \/ size = 2947) \/ (Z.Odd (size / 16) /\ 101 <= size / 16) \/ 3200 <= size) /\ 1616 / 16 = 101 /\ 1632 / 16 = 102.
Proof. split; [|split; reflexivity]. intros size. destruct (Z.Even_or_Odd (size / 16)) as [E|E]; destruct (Z_lt_le_dec (size / 16) 101), (Z_lt_le_dec size 26), (Z_lt_le_dec size 3200), (Z.eq_dec size 2946), (Z.eq_dec size 2947); try (exfalso; lia); tauto. Qed.
Example a_largest_width : largest_width 128 3 /\ dark 128 3 5 4 /\ ~ dark 128 3 2 2 /\ in_disc 128 3 20 20.
Proof.
  split; [split; [lia|]; vm_compute; split; congruence|]. split; [left; split; [exists 1; split; [lia|]; left; exists 0; split; [lia|]; vm_compute; split; congruence|vm_compute; congruence]|].
  split; [|vm_compute; congruence].
  intros H. destruct (count_val 128 ltac:(lia) ltac:(lia) 3 2 ltac:(lia)) as [(_ & _ & _ & B)|(_ & N)]; [vm_compute in B; congruence|]. destruct H as [(H & _)|(H & _)]; exact (N H).
Qed.
