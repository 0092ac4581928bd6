(** Proofs about phase correlation. *)
From Coq Require Import Reals Lra ZArith Lia Ring Bool.
From Verif Require Import Np P_Np M_phase_R P_phase_R M_simR P_simR M_corr P_corr2 P_calib2 P_calib3 M_fourier P_fourier M_phasecorr S_phasecorr.
Open Scope Z_scope.

Lemma rsum_diff n f g : (rsum n f - rsum n g = rsum n (fun k => f k - g k))%R.
Proof. symmetry. apply rsum_sub. Qed.
(** the root of unity that is 1 *)
Lemma root_one n a : 0 < n -> root n a = c_ 1 -> a mod n = 0.
Proof.
  intros Hn H. assert (E : root n (a mod n) = c_ 1) by (rewrite <- H; apply root_mod; [lia|]; rewrite Z.mod_mod by lia; reflexivity).
  assert (B := Z.mod_pos_bound a n Hn). set (d := a mod n) in *. assert (N : (0 < IZR n)%R) by (apply IZR_lt; lia). assert (P := PI_RGT_0).
  assert (D : (0 <= IZR d < IZR n)%R) by (split; [apply IZR_le|apply IZR_lt]; lia).
  assert (C : cos (2 * PI * IZR d / IZR n) = 1%R) by (apply (f_equal fst) in E; exact E).
  assert (Z : (2 * PI * IZR d / IZR n)%R = 0%R).
  { apply cos_one_only; [|exact C]. assert (Q : (0 <= IZR d / IZR n < 1)%R).
    { split; [apply Rmult_le_pos; [lra|left; apply Rinv_0_lt_compat; lra]|]. apply (Rmult_lt_reg_r (IZR n)); [lra|]. unfold Rdiv. rewrite Rmult_assoc, Rinv_l by lra. lra. }
    replace (2 * PI * IZR d / IZR n)%R with (2 * PI * (IZR d / IZR n))%R by (unfold Rdiv; ring). split.
    - assert (0 <= 2 * PI * (IZR d / IZR n))%R by (apply Rmult_le_pos; lra). lra.
    - rewrite <- (Rmult_1_r (2 * PI)) at 2. apply Rmult_lt_compat_l; lra. }
  assert (Z' : IZR d = 0%R). { replace (IZR d) with (2 * PI * IZR d / IZR n * (IZR n / (2 * PI)))%R by (field; split; lra). rewrite Z. ring. }
  apply eq_IZR in Z'. exact Z'.
Qed.

(** a sum of numbers of modulus 1 or 0 is largest when they all agree *)
Section triangle.
Variables (h w : Z) (s : Z -> Z -> R) (z : Z -> Z -> cx).
Hypothesis (Hh : 0 <= h) (Hw : 0 <= w) (Hs : forall u v, (s u v = 0 \/ s u v = 1)%R) (Hz : forall u v, cabs (z u v) = 1%R).
Let D := csum h (fun u => csum w (fun v => cmul (c_ (s u v)) (z u v))).
Let N := rsum h (fun u => rsum w (fun v => s u v)).
Lemma unit_sum (e : cx) : fst (cmul e D) = rsum h (fun u => rsum w (fun v => s u v * fst (cmul e (z u v)))%R).
Proof.
  unfold D. rewrite <- csum_scal. unfold csum at 1. cbn [fst]. apply rsum_ext; intros u Hu. rewrite <- csum_scal. unfold csum. cbn [fst]. apply rsum_ext; intros v Hv.
  unfold cmul, c_; cbn [fst snd]. ring.
Qed.
Lemma unit_square (a : cx) : cabs a = 1%R -> (fst a * fst a + snd a * snd a = 1)%R.
Proof.
  intros H. unfold cabs in H. assert (P1 := pow2_ge_0 (fst a)). assert (P2 := pow2_ge_0 (snd a)).
  assert (E := sqrt_sqrt (fst a ^ 2 + snd a ^ 2) ltac:(lra)). rewrite H in E. lra.
Qed.
Lemma unit_product (e x : cx) : cabs e = 1%R -> cabs x = 1%R -> (fst (cmul e x) <= 1)%R /\ (fst (cmul e x) = 1%R -> x = cconj e).
Proof.
  intros He Hx. apply unit_square in He, Hx. unfold cmul; cbn [fst snd].
  set (a := fst e) in *. set (b := snd e) in *. set (c := fst x) in *. set (d := snd x) in *.
  assert (S1 := pow2_ge_0 (a - c)). assert (S2 := pow2_ge_0 (b + d)). split; [lra|]. intros E.
  assert (Q1 : ((a - c) ^ 2 = 0)%R) by lra. assert (Q2 : ((b + d) ^ 2 = 0)%R) by lra.
  apply cx_eq; unfold cconj; cbn [fst snd]; fold a b c d.
  - destruct (Req_dec (a - c) 0) as [Z|Z]; [lra|]. exfalso. apply (pow_nonzero _ 2 Z). exact Q1.
  - destruct (Req_dec (b + d) 0) as [Z|Z]; [lra|]. exfalso. apply (pow_nonzero _ 2 Z). exact Q2.
Qed.
Lemma all_agree : exists e, cabs e = 1%R /\ fst (cmul e D) = cabs D.
Proof.
  destruct (Req_dec (cabs D) 0) as [Z|Z].
  - exists (c_ 1). split; [apply cabs_nonneg_real; lra|]. rewrite Z. apply cabs_zero in Z. rewrite Z. unfold cmul, c_; cbn [fst snd]. ring.
  - assert (P := cabs_pos D). exists (cdivr (cconj D) (cabs D)). split.
    + rewrite cabs_divr by lra. rewrite cabs_conj. field. exact Z.
    + unfold cmul, cdivr, cconj; cbn [fst snd]. assert (E : (cabs D * cabs D = fst D * fst D + snd D * snd D)%R).
      { unfold cabs. rewrite sqrt_sqrt; [ring|]. assert (P1 := pow2_ge_0 (fst D)). assert (P2 := pow2_ge_0 (snd D)). lra. }
      apply (Rmult_eq_reg_r (cabs D)); [|exact Z]. rewrite E. field. exact Z.
Qed.
Lemma sum_bound : (cabs D <= N)%R /\
  (forall u v u' v', in_rng h u -> in_rng w v -> in_rng h u' -> in_rng w v' -> s u v = 1%R -> s u' v' = 1%R -> z u v <> z u' v' -> (cabs D < N)%R).
Proof.
  destruct all_agree as (e & He & ED). assert (E : (N - cabs D = rsum h (fun u => rsum w (fun v => s u v * (1 - fst (cmul e (z u v))))))%R).
  { rewrite <- ED, unit_sum. unfold N. rewrite rsum_diff. apply rsum_ext; intros u Hu. rewrite rsum_diff. apply rsum_ext; intros v Hv. ring. }
  assert (T : forall u v, (0 <= s u v * (1 - fst (cmul e (z u v))))%R).
  { intros u v. destruct (unit_product e (z u v) He (Hz u v)) as (B & _). destruct (Hs u v) as [-> | ->]; lra. }
  assert (T1 : forall u, (0 <= rsum w (fun v => s u v * (1 - fst (cmul e (z u v)))))%R) by (intros u; apply rsum_nonneg; intros; apply T).
  assert (T2 : (0 <= N - cabs D)%R) by (rewrite E; apply rsum_nonneg; intros; apply T1).
  split; [lra|]. intros u v u' v' Hu Hv Hu' Hv' S S' Dz. destruct (Req_dec (cabs D) N) as [Q|Q]; [|lra]. exfalso. apply Dz.
  assert (Z0 : rsum h (fun u => rsum w (fun v => s u v * (1 - fst (cmul e (z u v))))%R) = 0%R) by (rewrite <- E; lra).
  assert (Z1 : forall k, 0 <= k < h -> rsum w (fun v => s k v * (1 - fst (cmul e (z k v))))%R = 0%R) by (intros k Hk; apply (rsum_zero_each h (fun k => rsum w (fun v => s k v * (1 - fst (cmul e (z k v))))%R) k); [intros; apply T1|lra|exact Hk]).
  assert (A : forall a b, in_rng h a -> in_rng w b -> s a b = 1%R -> z a b = cconj e).
  { intros a b Ha Hb Sa. assert (Z2 := rsum_zero_each w (fun v => s a v * (1 - fst (cmul e (z a v))))%R b (fun k _ => T a k) (Req_le _ _ (Z1 a Ha)) Hb). cbv beta in Z2. rewrite Sa in Z2. apply unit_product; [exact He|apply Hz|lra]. }
  rewrite (A u v), (A u' v') by assumption. reflexivity.
Qed.
End triangle.

(** what the vertex of the parabola through a symmetric peak is *)
Lemma refine_symmetric x p q : refine x p q p = IZR x.
Proof.
  unfold refine, polyfit3. destruct (Req_EM_T _ 0) as [_|N]; [reflexivity|].
  replace (- ((p - p) / 2 - 2 * ((p - 2 * q + p) / 2) * IZR x) / (2 * ((p - 2 * q + p) / 2)))%R with (IZR x) by (field; lra).
  destruct (Rle_dec _ _) as [_|L]; [|reflexivity]. destruct (Rle_dec _ _); reflexivity.
Qed.
Lemma wrap_shortest n s : 0 < n -> exists s', wrap n (IZR (s mod n)) = IZR s' /\ shortest n s s'.
Proof.
  intros Hn. assert (B := Z.mod_pos_bound s n Hn). assert (D := Z.div_mod n 2 ltac:(lia)). assert (M := Z.mod_pos_bound n 2 ltac:(lia)). unfold wrap.
  destruct (Rlt_dec _ _) as [L|L].
  - apply lt_IZR in L. exists (s mod n - n). split; [rewrite minus_IZR; ring|]. split; [|lia].
    replace (s mod n - n - s) with ((s mod n - s) + (-1) * n) by ring. rewrite Z.mod_add by lia. rewrite Zminus_mod_idemp_l, Z.sub_diag. apply Z.mod_0_l. lia.
  - exists (s mod n). split; [reflexivity|]. assert (~ n / 2 < s mod n) by (intros C; apply L, IZR_lt, C). split; [|lia].
    rewrite Zminus_mod_idemp_l, Z.sub_diag. apply Z.mod_0_l. lia.
Qed.
Lemma shortest_unique n s a b : 0 < n -> shortest n s a -> shortest n s b -> a = b.
Proof.
  intros Hn (A & A') (B & B'). apply Z.mod_divide in A, B; try lia. destruct A as [p A], B as [q B]. assert (a - b = (p - q) * n) by lia. assert (p - q = 0) by nia. nia.
Qed.

(** ** the correlation map of a cyclic displacement *)
Section peak.
Variables (m1 m2 : img cx) (h w s t : Z).
Hypothesis (Hh : 0 < h) (Hw : 0 < w) (E1 : nrow m1 = h) (E2 : ncol m1 = w) (E3 : nrow m2 = h) (E4 : ncol m2 = w).
Hypothesis Hm : forall a b, in_rng h a -> in_rng w b -> px m1 a b = px m2 ((a - s) mod h) ((b - t) mod w).
Let present u v := px (fft2 m2) u v <> c_ 0.
Hypothesis rows_seen : exists u v, in_rng h u /\ in_rng w v /\ present u v /\ present ((u + 1) mod h) v.
Hypothesis cols_seen : exists u v, in_rng h u /\ in_rng w v /\ present u v /\ present u ((v + 1) mod w).
Let seen u v : R := if Req_EM_T (cabs (px (fft2 m2) u v)) 0 then 0%R else 1%R.
Let D a b := csum h (fun u => csum w (fun v => cmul (c_ (seen u v)) (cmul (root h (u * a)) (root w (v * b))))).
Let N := rsum h (fun u => rsum w (fun v => seen u v)).
Lemma seen_present u v : present u v -> seen u v = 1%R.
Proof. intros P. unfold seen. destruct (Req_EM_T _ 0) as [Z|_]; [|reflexivity]. exfalso. apply P, cabs_zero, Z. Qed.
Lemma D_bound a b : (cabs (D a b) <= N)%R.
Proof.
  apply (sum_bound h w seen (fun u v => cmul (root h (u * a)) (root w (v * b)))); try lia.
  - intros u v. unfold seen. destruct (Req_EM_T _ 0); [left|right]; reflexivity.
  - intros u v. rewrite cabs_mul, !cabs_root. ring.
Qed.
Lemma D_zero : cabs (D 0 0) = N.
Proof.
  assert (E : D 0 0 = c_ N).
  { unfold D, N. transitivity (csum h (fun u => csum w (fun v => c_ (seen u v)))).
    - apply csum_ext; intros u Hu. apply csum_ext; intros v Hv. rewrite !Z.mul_0_r, !root_0. ring.
    - apply cx_eq; unfold csum, c_; cbn [fst snd]; [reflexivity|]. transitivity (rsum h (fun _ => 0%R)); [apply rsum_ext; intros u Hu; apply rsum_zero|apply rsum_zero]. }
  rewrite E. apply cabs_nonneg_real. unfold N. apply rsum_nonneg. intros u _. apply rsum_nonneg. intros v _. unfold seen. destruct (Req_EM_T _ 0); lra.
Qed.
Lemma D_strict a b : a mod h <> 0 \/ b mod w <> 0 -> (cabs (D a b) < N)%R.
Proof.
  intros Hab.
  assert (H1 : forall u v, (seen u v = 0 \/ seen u v = 1)%R) by (intros u v; unfold seen; destruct (Req_EM_T _ 0); [left|right]; reflexivity).
  assert (H2 : forall u v, cabs ((fun u v => cmul (root h (u * a)) (root w (v * b))) u v) = 1%R) by (intros u v; cbv beta; rewrite cabs_mul, !cabs_root; ring).
  assert (T := sum_bound h w seen (fun u v => cmul (root h (u * a)) (root w (v * b))) H1 H2). cbv beta in T.
  destruct T as (_ & T). fold N in T. fold (D a b) in T.
  assert (Canc : forall x y z : cx, cabs z = 1%R -> cmul x z = cmul y z -> x = y).
  { intros x y z Hz H. assert (H' : cmul (cmul x z) (cconj z) = cmul (cmul y z) (cconj z)) by (rewrite H; reflexivity).
    assert (Z : cmul z (cconj z) = c_ 1). { apply unit_square in Hz. apply cx_eq; unfold cmul, cconj, c_; cbn [fst snd]; [lra|ring]. }
    replace x with (cmul x (cmul z (cconj z))) by (rewrite Z; ring). replace y with (cmul y (cmul z (cconj z))) by (rewrite Z; ring).
    transitivity (cmul (cmul x z) (cconj z)); [ring|]. rewrite H'. ring. }
  assert (Next : forall n k c, 0 < n -> root n ((k + 1) mod n * c) = cmul (root n c) (root n (k * c))).
  { intros n k c Hn. rewrite <- root_add. apply root_mod; [lia|]. rewrite Z.mul_mod_idemp_l by lia. f_equal. ring. }
  destruct Hab as [Ha|Hb].
  - destruct rows_seen as (u & v & Hu & Hv & P1 & P2). apply (T u v ((u + 1) mod h) v); try assumption; try (apply seen_present; assumption); [apply Z.mod_pos_bound, Hh|].
    intros E. apply Ha. apply root_one; [exact Hh|]. symmetry. apply (Canc _ _ (cmul (root h (u * a)) (root w (v * b)))); [rewrite cabs_mul, !cabs_root; ring|].
    transitivity (cmul (root h (u * a)) (root w (v * b))); [ring|]. rewrite E at 1. rewrite Next by exact Hh. ring.
  - destruct cols_seen as (u & v & Hu & Hv & P1 & P2). apply (T u v u ((v + 1) mod w)); try assumption; try (apply seen_present; assumption); [apply Z.mod_pos_bound, Hw|].
    intros E. apply Hb. apply root_one; [exact Hw|]. symmetry. apply (Canc _ _ (cmul (root h (u * a)) (root w (v * b)))); [rewrite cabs_mul, !cabs_root; ring|].
    transitivity (cmul (root h (u * a)) (root w (v * b))); [ring|]. rewrite E at 1. rewrite Next by exact Hw. ring.
Qed.
Lemma D_mirror a b : cabs (D (- a) (- b)) = cabs (D a b).
Proof.
  rewrite <- (cabs_conj (D a b)). f_equal. unfold D. rewrite <- csum_conj. apply csum_ext; intros u Hu. rewrite <- csum_conj. apply csum_ext; intros v Hv.
  replace (u * - a) with (- (u * a)) by ring. replace (v * - b) with (- (v * b)) by ring. rewrite !root_opp.
  apply cx_eq; unfold cmul, cconj, c_; cbn [fst snd]; ring.
Qed.
Lemma D_mod a b a' b' : a mod h = a' mod h -> b mod w = b' mod w -> D a b = D a' b'.
Proof.
  intros Ha Hb. unfold D. apply csum_ext; intros u Hu. apply csum_ext; intros v Hv. f_equal. f_equal; apply root_mod; try lia.
  - rewrite Z.mul_mod, Ha, <- Z.mul_mod by lia. reflexivity.
  - rewrite Z.mul_mod, Hb, <- Z.mul_mod by lia. reflexivity.
Qed.
Lemma map_value a b : px (phase_map m1 m2) a b = (cabs (D (a - s) (b - t)) / (IZR h * IZR w))%R.
Proof.
  unfold phase_map. cbn [px imap ifft2 nrow ncol]. rewrite E1, E2.
  assert (P : (0 < IZR h * IZR w)%R) by (apply Rmult_lt_0_compat; apply IZR_lt; lia). rewrite cabs_divr by exact P. f_equal. f_equal. unfold D.
  apply csum_ext; intros u Hu. apply csum_ext; intros v Hv.
  assert (F : px (fft2 m1) u v = cmul (px (fft2 m2) u v) (cmul (root h (- (u * s))) (root w (- (v * t))))).
  { rewrite <- E3, <- E4. apply fft2_shift; try congruence; try lia. rewrite E3, E4. exact Hm. }
  rewrite F. set (f := px (fft2 m2) u v) in *. set (ph := cmul (root h (- (u * s))) (root w (- (v * t)))).
  assert (Ph : cabs ph = 1%R) by (unfold ph; rewrite cabs_mul, !cabs_root; ring).
  assert (Q : cdivr (cmul (cmul f ph) (cconj f)) (if Req_EM_T (cabs (cmul (cmul f ph) (cconj f))) 0 then 1 else cabs (cmul (cmul f ph) (cconj f)))%R = cmul (c_ (seen u v)) ph).
  { assert (Em : cabs (cmul (cmul f ph) (cconj f)) = (cabs f * cabs f)%R) by (rewrite !cabs_mul, cabs_conj, Ph; ring). rewrite Em.
    unfold seen. fold f. destruct (Req_EM_T (cabs f) 0) as [Z|Z].
    - rewrite Z. replace (0 * 0)%R with 0%R by ring. destruct (Req_EM_T 0 0) as [_|C]; [|exfalso; apply C; reflexivity]. apply cabs_zero in Z. rewrite Z. apply cx_eq; unfold cdivr, cmul, cconj, c_; cbn [fst snd]; field.
    - destruct (Req_EM_T _ 0) as [C|_]; [exfalso; apply Rmult_integral in C; lra|].
      assert (E : (cabs f * cabs f = fst f * fst f + snd f * snd f)%R).
      { unfold cabs. rewrite sqrt_sqrt; [ring|]. assert (P1 := pow2_ge_0 (fst f)). assert (P2 := pow2_ge_0 (snd f)). lra. }
      assert (NZ : (fst f * fst f + snd f * snd f <> 0)%R) by (rewrite <- E; intros C; apply Rmult_integral in C; lra).
      rewrite E. apply cx_eq; unfold cdivr, cmul, cconj, c_; cbn [fst snd]; field; exact NZ. }
  rewrite Q. unfold ph. replace (u * (a - s)) with (- (u * s) + u * a) by ring. replace (v * (b - t)) with (- (v * t) + v * b) by ring. rewrite !root_add. ring.
Qed.
Lemma map_shape : nrow (phase_map m1 m2) = h /\ ncol (phase_map m1 m2) = w.
Proof. unfold phase_map. cbn [nrow ncol imap ifft2]. split; assumption. Qed.
Lemma sub_mod_self n k : 0 < n -> (k mod n - k) mod n = 0 mod n.
Proof. intros Hn. rewrite Zminus_mod_idemp_l, Z.sub_diag. reflexivity. Qed.
Lemma map_peak : first_max2 (phase_map m1 m2) (s mod h) (t mod w).
Proof.
  assert (P : (0 < / (IZR h * IZR w))%R) by (apply Rinv_0_lt_compat, Rmult_lt_0_compat; apply IZR_lt; lia).
  assert (Bh := Z.mod_pos_bound s h Hh). assert (Bw := Z.mod_pos_bound t w Hw). destruct map_shape as (S1 & S2).
  assert (Top : px (phase_map m1 m2) (s mod h) (t mod w) = (N / (IZR h * IZR w))%R).
  { rewrite map_value. f_equal. rewrite (D_mod _ _ 0 0); [exact D_zero|apply sub_mod_self, Hh|apply sub_mod_self, Hw]. }
  unfold first_max2. rewrite S1, S2, Top. split; [exact Bh|]. split; [exact Bw|]. split; intros i j Hi Hj.
  - rewrite map_value. unfold Rdiv. apply Rmult_le_compat_r; [lra|]. apply D_bound.
  - intros Ne. rewrite map_value. unfold Rdiv. apply Rmult_lt_compat_r; [exact P|]. apply D_strict.
    destruct (Z.eq_dec i (s mod h)) as [Ei|Ei]; [destruct (Z.eq_dec j (t mod w)) as [Ej|Ej]; [lia|right]|left].
    + intros C. apply Ej. apply Z.mod_divide in C; [|lia]. destruct C as [k C]. replace j with (t + k * w) in * by lia. rewrite <- (Z.mod_small (t + k * w) w) by lia. apply Z.mod_add. lia.
    + intros C. apply Ei. apply Z.mod_divide in C; [|lia]. destruct C as [k C]. replace i with (s + k * h) in * by lia. rewrite <- (Z.mod_small (s + k * h) h) by lia. apply Z.mod_add. lia.
Qed.
Lemma next_mod n k e : 0 < n -> (((k mod n + e) mod n) - k) mod n = e mod n.
Proof. intros Hn. rewrite Zminus_mod_idemp_l. replace (k mod n + e - k) with (k mod n + (e - k)) by ring. rewrite Z.add_mod_idemp_l by lia. f_equal. ring. Qed.
Lemma map_symmetric :
  px (phase_map m1 m2) (s mod h) ((t mod w - 1) mod w) = px (phase_map m1 m2) (s mod h) ((t mod w + 1) mod w) /\
  px (phase_map m1 m2) ((s mod h - 1) mod h) (t mod w) = px (phase_map m1 m2) ((s mod h + 1) mod h) (t mod w).
Proof.
  rewrite !map_value. split; f_equal.
  - rewrite (D_mod _ ((t mod w - 1) mod w - t) 0 (-1)), (D_mod _ ((t mod w + 1) mod w - t) (- 0) (- -1)); [symmetry; apply D_mirror|apply sub_mod_self, Hh|apply (next_mod w t 1 Hw)|apply sub_mod_self, Hh|apply (next_mod w t (-1) Hw)].
  - rewrite (D_mod ((s mod h - 1) mod h - s) _ (-1) 0), (D_mod ((s mod h + 1) mod h - s) _ (- -1) (- 0)); [symmetry; apply D_mirror|apply (next_mod h s 1 Hh)|apply sub_mod_self, Hw|apply (next_mod h s (-1) Hh)|apply sub_mod_self, Hw].
Qed.
End peak.
