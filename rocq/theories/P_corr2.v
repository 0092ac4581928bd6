(** Proofs about locate_peak. *)
From Coq Require Import Reals Lra ZArith Lia.
From Verif Require Import Np P_Np M_phase_R M_corr S_corr P_corr.
From Coq Require Import List. Import ListNotations.
Open Scope Z_scope.

Lemma Rltb_t a b : Rltb a b = true <-> (a < b)%R.
Proof. unfold Rltb. destruct (Rlt_dec a b); split; intros; try discriminate; try lra; auto. Qed.
Lemma Rltb_f a b : Rltb a b = false <-> (b <= a)%R.
Proof. unfold Rltb. destruct (Rlt_dec a b); split; intros; try discriminate; try lra; auto. Qed.
Lemma Reqb_t a b : Reqb a b = true <-> a = b.
Proof. unfold Reqb. destruct (Req_EM_T a b); split; intros; try discriminate; auto; contradiction. Qed.
Lemma Reqb_f a b : Reqb a b = false <-> a <> b.
Proof. unfold Reqb. destruct (Req_EM_T a b); split; intros; try discriminate; auto; contradiction. Qed.

(** k is the first maximum of f on 0 .. n - 1 *)
Definition first_max (n : Z) (f : Z -> R) (k : Z) : Prop :=
  0 <= k < n /\ (forall i, 0 <= i < n -> (f i <= f k)%R) /\ (forall i, 0 <= i < k -> (f i < f k)%R).
Lemma first_max_unique n f a b : first_max n f a -> first_max n f b -> a = b.
Proof.
  intros (A & A1 & A2) (B & B1 & B2). destruct (Z.lt_trichotomy a b) as [H|[H|H] ]; [|exact H|].
  - pose proof (B2 a ltac:(lia)). pose proof (A1 b ltac:(lia)). lra.
  - pose proof (A2 b ltac:(lia)). pose proof (B1 a ltac:(lia)). lra.
Qed.
Lemma zrange_S a n : 0 < n -> zrange a n = a :: zrange (a + 1) (n - 1).
Proof.
  intros H. unfold zrange. replace (Z.to_nat n) with (S (Z.to_nat (n - 1))) by lia. cbn [seq map]. f_equal; [lia|].
  rewrite <- seq_shift, map_map. apply map_ext. intros. lia.
Qed.
Lemma best_first f : forall (m : nat) i bi, first_max i f bi ->
  first_max (i + Z.of_nat m) f (best_from (fun a b => Rltb b a) i bi (f bi) (map f (zrange i (Z.of_nat m)))).
Proof.
  induction m as [|m IH]; intros i bi (B & B1 & B2).
  - cbn. rewrite Z.add_0_r. split; [exact B|split; [exact B1|exact B2] ].
  - rewrite zrange_S by lia. replace (Z.of_nat (S m) - 1) with (Z.of_nat m) by lia. cbn [map best_from].
    replace (i + Z.of_nat (S m)) with (i + 1 + Z.of_nat m) by lia.
    destruct (Rltb (f bi) (f i)) eqn:E.
    + apply Rltb_t in E. apply IH. split; [lia|]. split; intros k Hk.
      * destruct (Z.eq_dec k i) as [->|N]; [lra|]. pose proof (B1 k ltac:(lia)). lra.
      * pose proof (B1 k ltac:(lia)). lra.
    + apply Rltb_f in E. apply IH. split; [lia|]. split; intros k Hk.
      * destruct (Z.eq_dec k i) as [->|N]; [lra|]. apply B1. lia.
      * apply B2. lia.
Qed.
Lemma argmaxR_total n f : 1 <= n -> exists k, argmaxR (map f (zrange 0 n)) = Ok k /\ first_max n f k.
Proof.
  intros N. rewrite zrange_S by lia. cbn [map]. unfold argmaxR, argbest. eexists. split; [reflexivity|].
  assert (F : first_max 1 f 0).
  { split; [lia|]. split; intros i Hi; [replace i with 0 by lia; lra|lia]. }
  pose proof (best_first f (Z.to_nat (n - 1)) 1 0 F) as B. replace (1 + Z.of_nat (Z.to_nat (n - 1))) with n in B by lia.
  replace (Z.of_nat (Z.to_nat (n - 1))) with (n - 1) in B by lia. exact B.
Qed.
Lemma argmaxR_is n f k : first_max n f k -> argmaxR (map f (zrange 0 n)) = Ok k.
Proof.
  intros F. destruct (argmaxR_total n f) as (j & E & J); [destruct F; lia|]. rewrite E. f_equal. apply (first_max_unique n f); assumption.
Qed.

(** first maximum of an image in row-major order *)
Definition first_max2 (m : img R) (y x : Z) : Prop :=
  0 <= y < nrow m /\ 0 <= x < ncol m /\
  (forall i j, 0 <= i < nrow m -> 0 <= j < ncol m -> (px m i j <= px m y x)%R) /\
  (forall i j, 0 <= i < nrow m -> 0 <= j < ncol m -> i < y \/ (i = y /\ j < x) -> (px m i j < px m y x)%R).
Lemma flat_index w y x : 0 <= x < w -> (y * w + x) / w = y /\ (y * w + x) mod w = x.
Proof.
  intros H. split.
  - symmetry. apply Z.div_unique_pos with x; lia.
  - symmetry. apply Z.mod_unique_pos with y; lia.
Qed.
Lemma first_max2_flat m y x : first_max2 m y x ->
  first_max (nrow m * ncol m) (fun k => px m (k / ncol m) (k mod ncol m)) (y * ncol m + x).
Proof.
  intros (Y & X & M & F). destruct (flat_index (ncol m) y x X) as [E1 E2].
  split; [nia|]. rewrite E1, E2. split; intros k Hk.
  - apply M; [|apply Z.mod_pos_bound; lia]. split; [apply Z.div_pos; lia|apply Z.div_lt_upper_bound; nia].
  - pose proof (Z.div_mod k (ncol m) ltac:(lia)). pose proof (Z.mod_pos_bound k (ncol m) ltac:(lia)).
    assert (0 <= k / ncol m) by (apply Z.div_pos; lia).
    assert (k / ncol m <= y) by (apply Z.lt_succ_r, Z.div_lt_upper_bound; nia).
    apply F; [lia..|]. destruct (Z.eq_dec (k / ncol m) y) as [e|e]; [right; split; [exact e|]; rewrite e in *; nia|left; lia].
Qed.
Lemma flat_first_max2 m k : 1 <= ncol m ->
  first_max (nrow m * ncol m) (fun k => px m (k / ncol m) (k mod ncol m)) k -> first_max2 m (k / ncol m) (k mod ncol m).
Proof.
  intros W (K & M & F). pose proof (Z.mod_pos_bound k (ncol m) ltac:(lia)) as MB. pose proof (Z.div_mod k (ncol m) ltac:(lia)) as DM.
  assert (0 <= k / ncol m) by (apply Z.div_pos; lia). assert (k / ncol m < nrow m) by (apply Z.div_lt_upper_bound; nia).
  split; [lia|]. split; [lia|]. split.
  - intros i j Hi Hj. destruct (flat_index (ncol m) i j Hj) as [E1 E2]. pose proof (M (i * ncol m + j) ltac:(nia)) as Q. cbv beta in Q. rewrite E1, E2 in Q. exact Q.
  - intros i j Hi Hj O. destruct (flat_index (ncol m) i j Hj) as [E1 E2]. pose proof (F (i * ncol m + j) ltac:(nia)) as Q. cbv beta in Q. rewrite E1, E2 in Q. exact Q.
Qed.
Lemma argmax2_total m : 1 <= nrow m -> 1 <= ncol m -> exists y x, argmax2 m = Ok (y, x) /\ first_max2 m y x.
Proof.
  intros H W. destruct (argmaxR_total (nrow m * ncol m) (fun k => px m (k / ncol m) (k mod ncol m)) ltac:(nia)) as (k & E & F).
  exists (k / ncol m), (k mod ncol m). unfold argmax2. rewrite E. split; [reflexivity|]. apply flat_first_max2; assumption.
Qed.
Lemma argmax2_is m y x : first_max2 m y x -> argmax2 m = Ok (y, x).
Proof.
  intros F. unfold argmax2. rewrite (argmaxR_is _ _ _ (first_max2_flat m y x F)). cbn [bindr].
  destruct F as (Y & X & _). destruct (flat_index (ncol m) y x X) as [-> ->]. reflexivity.
Qed.
(** windows around the peak *)
Lemma first_max2_slice m y x r h c w : first_max2 m y x -> 0 <= r -> r + h <= nrow m -> 0 <= c -> c + w <= ncol m -> 0 <= h -> 0 <= w ->
  r <= y < r + h -> c <= x < c + w -> first_max2 (islice m r (r + h) c (c + w)) (y - r) (x - c).
Proof.
  intros (Y & X & M & F) R1 R2 C1 C2 H W Yr Xc.
  unfold first_max2. cbn [nrow ncol islice]. rewrite !slice_len by lia. cbn [islice px]. rewrite !slice_at by lia.
  split; [lia|]. split; [lia|]. replace (r + (y - r)) with y by lia. replace (c + (x - c)) with x by lia. split; intros i j Hi Hj.
  - apply M; lia.
  - intros O. apply F; lia.
Qed.
Lemma first_max_row m y x c w : first_max2 m y x -> 0 <= c -> c + w <= ncol m -> 0 <= w -> c <= x < c + w ->
  first_max w (fun k => px m y (c + k)) (x - c).
Proof.
  intros (Y & X & M & F) C1 C2 W Xc. split; [lia|]. replace (c + (x - c)) with x by lia. split; intros i Hi; [apply M|apply F]; lia.
Qed.
Lemma first_max_col m y x r h : first_max2 m y x -> 0 <= r -> r + h <= nrow m -> 0 <= h -> r <= y < r + h ->
  first_max h (fun k => px m (r + k) x) (y - r).
Proof.
  intros (Y & X & M & F) R1 R2 H Yr. split; [lia|]. replace (r + (y - r)) with y by lia. split; intros i Hi; [apply M|apply F]; lia.
Qed.

Section peak.
Context (polyfit2 : vec R -> R * R) (surface : img R -> R * R * R * R * R).
Local Open Scope R_scope.

Lemma peak_1d n f pos meth : first_max n f pos -> (0 < pos < n - 1)%Z ->
  exists r, locate_1d_peak_subpixel polyfit2 (mkvec n f) meth = Ok r /\ 0 < r < IZR (n - 1) /\ (meth <> PolyFit -> Rabs (r - IZR pos) <= / 2).
Proof.
  intros F Hp. unfold locate_1d_peak_subpixel. change (vlist (mkvec n f)) with (map f (zrange 0 n)).
  rewrite (argmaxR_is n f pos F). cbn [bindr vlen vat].
  assert (P1 : 1 <= IZR pos) by (apply IZR_le; lia). assert (P2 : IZR pos <= IZR (n - 1) - 1) by (rewrite <- minus_IZR; apply IZR_le; lia).
  destruct F as (_ & M & _). pose proof (M (pos + 1)%Z ltac:(lia)) as Mf. pose proof (M (pos - 1)%Z ltac:(lia)) as Mb.
  assert (D : exists r, (if ((pos <? n - 1) && (0 <? pos))%Z
     then Ok (if Reqb (f (pos + 1)%Z + f (pos - 1)%Z - 2 * f pos) 0 then IZR pos
              else IZR pos + - ((f (pos + 1)%Z - f (pos - 1)%Z) / 2) / (f (pos + 1)%Z + f (pos - 1)%Z - 2 * f pos))
     else Ok (IZR pos)) = Ok r /\ 0 < r < IZR (n - 1) /\ Rabs (r - IZR pos) <= / 2).
  { destruct (Z.ltb_spec pos (n - 1)); [|lia]. destruct (Z.ltb_spec 0 pos); [|lia]. cbn [andb]. eexists. split; [reflexivity|].
    set (u := f (pos + 1)%Z) in *. set (v := f (pos - 1)%Z) in *. set (c := f pos) in *.
    destruct (Reqb _ 0) eqn:E.
    - split; [lra|]. rewrite Rminus_diag_eq by reflexivity. rewrite Rabs_R0. lra.
    - apply Reqb_f in E. assert (D : u + v - 2 * c < 0) by lra.
      assert (B : - / 2 <= - ((u - v) / 2) / (u + v - 2 * c) <= / 2).
      { replace (- ((u - v) / 2) / (u + v - 2 * c)) with ((u - v) / (2 * (2 * c - u - v))) by (field; lra).
        assert (Q : 0 < 2 * (2 * c - u - v)) by lra. split.
        - apply Rmult_le_reg_r with (2 * (2 * c - u - v)); [exact Q|]. unfold Rdiv. rewrite Rmult_assoc, Rinv_l by lra. lra.
        - apply Rmult_le_reg_r with (2 * (2 * c - u - v)); [exact Q|]. unfold Rdiv. rewrite Rmult_assoc, Rinv_l by lra. lra. }
      split; [lra|]. apply Rabs_le. lra. }
  destruct meth.
  - destruct D as (r & E & B & A). exists r. auto.
  - destruct (polyfit2 _) as [af bf]. destruct (Reqb af 0); [eexists; split; [reflexivity|]; split; [lra|congruence]|].
    destruct (Rltb _ _) eqn:E1; cbn [andb]; [destruct (Rltb 0 _) eqn:E2|]; (eexists; split; [reflexivity|]; split; [|congruence]); [|lra|lra].
    apply Rltb_t in E1, E2. lra.
  - destruct D as (r & E & B & A). exists r. auto.
Qed.

Lemma abs_lt_bounds x : Rltb (Rabs x) 1 = true -> -1 < x < 1.
Proof. intros H. apply Rltb_t in H. apply Rabs_def2 in H. lra. Qed.
Lemma peak_2d m y0 x0 meth : first_max2 m y0 x0 -> (0 < y0 < nrow m - 1)%Z -> (0 < x0 < ncol m - 1)%Z ->
  exists x y, locate_2d_peak_subpixel surface m meth = Ok (x, y) /\ 0 < x < IZR (ncol m - 1) /\ 0 < y < IZR (nrow m - 1) /\
    (meth <> PolyFit -> Rabs (x - IZR x0) < 1 /\ Rabs (y - IZR y0) < 1).
Proof.
  intros F Hy Hx. unfold locate_2d_peak_subpixel. rewrite (argmax2_is m y0 x0 F). cbn [bindr].
  assert (Y1 : 1 <= IZR y0) by (apply IZR_le; lia). assert (Y2 : IZR y0 <= IZR (nrow m - 1) - 1) by (rewrite <- minus_IZR; apply IZR_le; lia).
  assert (X1 : 1 <= IZR x0) by (apply IZR_le; lia). assert (X2 : IZR x0 <= IZR (ncol m - 1) - 1) by (rewrite <- minus_IZR; apply IZR_le; lia).
  destruct (Z.eqb_spec y0 0); [lia|]. destruct (Z.eqb_spec y0 (nrow m - 1)); [lia|].
  destruct (Z.eqb_spec x0 0); [lia|]. destruct (Z.eqb_spec x0 (ncol m - 1)); [lia|]. cbn [negb orb andb].
  assert (St : forall z n (o : R), 1 <= IZR z -> IZR z <= n - 1 ->
     let v := if Rltb (Rabs o) 1 && Rltb 0 (Rabs o) then IZR z + o else IZR z in 0 < v < n /\ Rabs (v - IZR z) < 1).
  { intros z nn o A B v. unfold v. destruct (Rltb (Rabs o) 1) eqn:E; cbn [andb].
    - apply abs_lt_bounds in E. destruct (Rltb 0 _); (split; [lra|]; apply Rabs_def1; lra).
    - split; [lra|]. apply Rabs_def1; lra. }
  assert (R0 : forall z, Rabs (IZR z - IZR z) < 1) by (intros z; apply Rabs_def1; lra).
  assert (D : forall A B C D E, exists x y, (let num := C * C - B * D in if Reqb num 0 then Ok (IZR x0, IZR y0) else
       let x_off := (D * A - C * E) / num in let y_off := (B * E - C * A) / num in
       Ok (if Rltb (Rabs x_off) 1 && Rltb 0 (Rabs x_off) then IZR x0 + x_off else IZR x0,
           if Rltb (Rabs y_off) 1 && Rltb 0 (Rabs y_off) then IZR y0 + y_off else IZR y0)) = Ok (x, y) /\
       0 < x < IZR (ncol m - 1) /\ 0 < y < IZR (nrow m - 1) /\ (Rabs (x - IZR x0) < 1 /\ Rabs (y - IZR y0) < 1)).
  { intros A B C D E. cbv zeta. destruct (Reqb _ 0); [exists (IZR x0), (IZR y0); split; [reflexivity|]; repeat split; try lra; apply R0|].
    set (xo := (D * A - C * E) / _). set (yo := (B * E - C * A) / _).
    destruct (St x0 (IZR (ncol m - 1)) xo X1 X2) as [S1 S2]. destruct (St y0 (IZR (nrow m - 1)) yo Y1 Y2) as [S3 S4].
    eexists _, _. split; [reflexivity|]. split; [exact S1|]. split; [exact S3|]. split; [exact S2|exact S4]. }
  destruct meth.
  - edestruct D as (x & y & E & B1 & B2 & B3). exists x, y. split; [exact E|]. auto.
  - destruct (surface m) as [ [ [ [a1 a2] a3] a4] a5]. cbv zeta.
    destruct (Reqb _ 0); [exists (IZR x0), (IZR y0); split; [reflexivity|]; split; [lra|]; split; [lra|congruence]|].
    assert (Sel : forall q v n, 0 < v < n -> 0 < (if Rltb q n && Rltb 0 q then q else v) < n).
    { intros q v nn V. destruct (Rltb q nn) eqn:E1; [|exact V]. destruct (Rltb 0 q) eqn:E2; [|exact V]. apply Rltb_t in E1, E2. cbn. lra. }
    eexists _, _. split; [reflexivity|]. split; [apply Sel; lra|]. split; [apply Sel; lra|congruence].
  - edestruct D as (x & y & E & B1 & B2 & B3). exists x, y. split; [exact E|]. auto.
Qed.

Local Open Scope Z_scope.
Definition used_size (meth : method) (size : Z) : Z := clipZ (match meth with Diff => 3 | _ => 2 * (size / 2) + 1 end) 3 9.
Lemma used_size_odd meth size : exists q, used_size meth size = 2 * q + 1 /\ 1 <= q <= 4.
Proof.
  unfold used_size, clipZ. assert (H : exists q, (match meth with Diff => 3 | _ => 2 * (size / 2) + 1 end) = 2 * q + 1).
  { destruct meth; [exists 1|exists (size / 2)|exists (size / 2)]; reflexivity. }
  destruct H as [q ->]. exists (Z.min (Z.max q 1) 4). lia.
Qed.
(** window of odd size s around an interior position p of 0 .. n - 1 *)
Lemma window_interior n s q p : s = 2 * q + 1 -> 1 <= q -> s <= n -> 0 < p < n - 1 ->
  let c := clipZ (p - s / 2) 0 (n - s) in 0 <= c /\ c + s <= n /\ 0 < p - c < s - 1.
Proof. intros -> Q N P c. unfold c, clipZ. replace ((2 * q + 1) / 2) with q by (apply Z.div_unique_pos with 1; lia). lia. Qed.

Definition inverted (m : img R) : img R :=
  mkimg (nrow m) (ncol m) (fun i j => rmaximum (map (fun k => px m (k / ncol m) (k mod ncol m)) (zrange 0 (nrow m * ncol m))) - px m i j)%R.

Lemma vslice_row (m : img R) y c s : 0 <= c -> 0 <= s -> c + s <= ncol m ->
  vslice (irow m y) c (c + s) = mkvec s (fun k => px m y (c + k)).
Proof. intros. unfold vslice, irow. cbn [vlen vat]. rewrite slice_len, slice_at by lia. reflexivity. Qed.
Lemma vslice_col (m : img R) x r s : 0 <= r -> 0 <= s -> r + s <= nrow m ->
  vslice (icol m x) r (r + s) = mkvec s (fun k => px m (r + k) x).
Proof. intros. unfold vslice, icol. cbn [vlen vat]. rewrite slice_len, slice_at by lia. reflexivity. Qed.

Lemma shift_bound (a : R) (c p : Z) (n s : Z) (e : R) : (0 < a < IZR (s - 1))%R -> 0 <= c -> c + s <= n ->
  (0 < IZR c + a < IZR (n - 1))%R /\ (forall e, (Rabs (a - IZR (p - c)) <= e)%R -> (Rabs (IZR c + a - IZR p) <= e)%R) /\
  (0 < p - c < s - 1 -> (Rabs (IZR c + a - IZR p) < IZR (s - 1))%R).
Proof.
  intros A C N. assert (C0 : (0 <= IZR c)%R) by (apply IZR_le; lia).
  assert (C1 : (IZR c + IZR (s - 1) <= IZR (n - 1))%R) by (rewrite <- plus_IZR; apply IZR_le; lia).
  split; [lra|]. split.
  - intros e' H. rewrite minus_IZR in H. replace (IZR c + a - IZR p)%R with (a - (IZR p - IZR c))%R by lra. exact H.
  - intros P. assert (P1 : (0 < IZR (p - c) < IZR (s - 1))%R) by (split; apply IZR_lt; lia).
    rewrite minus_IZR in P1. apply Rabs_def1; lra.
Qed.

(** everything about the result: [m] is the image that is searched, (y0, x0) its first maximum *)
Lemma locate_spec m0 sub meth dim1 size (mp : bool) y0 x0 :
  let m := if mp then m0 else inverted m0 in first_max2 m y0 x0 ->
  exists x y, locate_peak polyfit2 surface m0 sub meth dim1 size mp = Ok (x, y) /\
    (0 <= x <= IZR (ncol m0 - 1))%R /\ (0 <= y <= IZR (nrow m0 - 1))%R /\
    (sub = false -> x = IZR x0 /\ y = IZR y0) /\
    (meth <> PolyFit -> Rabs (x - IZR x0) < 1 /\ Rabs (y - IZR y0) < 1)%R /\
    (meth <> PolyFit -> dim1 = true -> Rabs (x - IZR x0) <= / 2 /\ Rabs (y - IZR y0) <= / 2)%R /\
    (Rabs (x - IZR x0) < IZR (used_size meth size - 1) /\ Rabs (y - IZR y0) < IZR (used_size meth size - 1))%R.
Proof.
  intros m F. unfold locate_peak. fold (inverted m0). fold (used_size meth size). change (if mp then m0 else inverted m0) with m.
  assert (Sh : nrow m = nrow m0 /\ ncol m = ncol m0) by (unfold m; destruct mp; split; reflexivity). destruct Sh as [S1 S2].
  rewrite (argmax2_is m y0 x0 F). cbn [bindr].
  destruct (used_size_odd meth size) as (q & Sq & Q). set (s := used_size meth size) in *. clearbody s.
  assert (Y0 : 0 <= y0 < nrow m0) by (destruct F; lia). assert (X0 : 0 <= x0 < ncol m0) by (destruct F as (_ & X & _); lia).
  assert (Fx : (0 <= IZR x0 <= IZR (ncol m0 - 1))%R) by (split; apply IZR_le; lia).
  assert (Fy : (0 <= IZR y0 <= IZR (nrow m0 - 1))%R) by (split; apply IZR_le; lia).
  assert (s2 : (2 <= IZR (s - 1))%R) by (apply IZR_le; lia).
  assert (R0 : forall z, Rabs (IZR z - IZR z) = 0%R) by (intros; rewrite Rminus_diag_eq by reflexivity; apply Rabs_R0).
  assert (Un : forall p, Ok p = Ok (IZR x0, IZR y0) -> exists x y, Ok p = Ok (x, y) /\
    (0 <= x <= IZR (ncol m0 - 1))%R /\ (0 <= y <= IZR (nrow m0 - 1))%R /\
    (sub = false -> x = IZR x0 /\ y = IZR y0) /\
    (meth <> PolyFit -> Rabs (x - IZR x0) < 1 /\ Rabs (y - IZR y0) < 1)%R /\
    (meth <> PolyFit -> dim1 = true -> Rabs (x - IZR x0) <= / 2 /\ Rabs (y - IZR y0) <= / 2)%R /\
    (Rabs (x - IZR x0) < IZR (s - 1) /\ Rabs (y - IZR y0) < IZR (s - 1))%R).
  { intros p E. exists (IZR x0), (IZR y0). split; [exact E|]. rewrite !R0. repeat split; try lra; intros; auto; lra. }
  destruct sub; cbn [negb]; [|apply Un; reflexivity].
  destruct ((y0 <? nrow m0 - 1) && (0 <? y0) && (x0 <? ncol m0 - 1) && (0 <? x0) && (s <=? ncol m0) && (s <=? nrow m0)) eqn:Int.
  - (* interior peak *)
    rewrite !andb_true_iff, !Z.ltb_lt, !Z.leb_le in Int. destruct Int as [ [ [ [ [I1 I2] I3] I4] I5] I6].
    destruct (window_interior (nrow m0) s q y0 Sq ltac:(lia) I6 ltac:(lia)) as (W1 & W2 & W3).
    destruct (window_interior (ncol m0) s q x0 Sq ltac:(lia) I5 ltac:(lia)) as (V1 & V2 & V3).
    set (row := clipZ (y0 - s / 2) 0 (nrow m0 - s)) in *. set (col := clipZ (x0 - s / 2) 0 (ncol m0 - s)) in *.
    assert (Fin : forall a b, (0 < a < IZR (s - 1))%R -> (0 < b < IZR (s - 1))%R ->
       (meth <> PolyFit -> Rabs (a - IZR (x0 - col)) < 1 /\ Rabs (b - IZR (y0 - row)) < 1)%R ->
       (meth <> PolyFit -> dim1 = true -> Rabs (a - IZR (x0 - col)) <= / 2 /\ Rabs (b - IZR (y0 - row)) <= / 2)%R ->
       (Reqb (IZR row + b) 0 = false /\ Reqb (IZR row + b) (IZR (nrow m0 - 1)) = false /\ Reqb (IZR col + a) 0 = false /\ Reqb (IZR col + a) (IZR (ncol m0 - 1)) = false) /\
       let x := (IZR col + a)%R in let y := (IZR row + b)%R in
         (0 <= x <= IZR (ncol m0 - 1))%R /\ (0 <= y <= IZR (nrow m0 - 1))%R /\
         (true = false -> x = IZR x0 /\ y = IZR y0) /\
         (meth <> PolyFit -> Rabs (x - IZR x0) < 1 /\ Rabs (y - IZR y0) < 1)%R /\
         (meth <> PolyFit -> dim1 = true -> Rabs (x - IZR x0) <= / 2 /\ Rabs (y - IZR y0) <= / 2)%R /\
         (Rabs (x - IZR x0) < IZR (s - 1) /\ Rabs (y - IZR y0) < IZR (s - 1))%R).
    { intros a b A B C D.
      destruct (shift_bound a col x0 (ncol m0) s 0 A V1 V2) as (A1 & A2 & A3). specialize (A3 V3).
      destruct (shift_bound b row y0 (nrow m0) s 0 B W1 W2) as (B1 & B2 & B3). specialize (B3 W3).
      assert (N1 : Reqb (IZR row + b) 0 = false) by (apply Reqb_f; lra).
      assert (N2 : Reqb (IZR row + b) (IZR (nrow m0 - 1)) = false) by (apply Reqb_f; lra).
      assert (N3 : Reqb (IZR col + a) 0 = false) by (apply Reqb_f; lra).
      assert (N4 : Reqb (IZR col + a) (IZR (ncol m0 - 1)) = false) by (apply Reqb_f; lra).
      split; [auto|]. cbv zeta. split; [lra|]. split; [lra|]. split; [discriminate|].
      split; [|split; [|split; assumption] ].
      - intros H. destruct (C H) as [C1 C2]. split; (rewrite minus_IZR in * ).
        + replace (IZR col + a - IZR x0)%R with (a - (IZR x0 - IZR col))%R by lra. exact C1.
        + replace (IZR row + b - IZR y0)%R with (b - (IZR y0 - IZR row))%R by lra. exact C2.
      - intros H H'. destruct (D H H') as [C1 C2]. split; [apply A2|apply B2]; assumption. }
    destruct dim1.
    + assert (Fr : first_max s (fun k => px m y0 (col + k)) (x0 - col)) by (apply first_max_row; [exact F|lia..]).
      assert (Fc : first_max s (fun k => px m (row + k) x0) (y0 - row)) by (apply first_max_col; [exact F|lia..]).
      destruct (peak_1d s _ (x0 - col) meth Fr V3) as (a & E1 & A & A').
      destruct (peak_1d s _ (y0 - row) meth Fc W3) as (b & E2 & B & B').
      rewrite vslice_row by lia. rewrite E1. cbn [bindr]. rewrite vslice_col by lia. rewrite E2. cbn [bindr].
      destruct (Fin a b A B) as ((N1 & N2 & N3 & N4) & X).
      { intros H. specialize (A' H). specialize (B' H). split; lra. }
      { intros H _. split; [exact (A' H)|exact (B' H)]. }
      rewrite N1, N2. cbn [orb andb bindr]. rewrite N3, N4. cbn [orb andb]. eexists _, _. split; [reflexivity|exact X].
    + assert (Fs : first_max2 (islice m row (row + s) col (col + s)) (y0 - row) (x0 - col)) by (apply first_max2_slice; [exact F|lia..]).
      assert (Ns : nrow (islice m row (row + s) col (col + s)) = s) by (cbn [islice nrow]; apply slice_len; lia).
      assert (Nc : ncol (islice m row (row + s) col (col + s)) = s) by (cbn [islice ncol]; apply slice_len; lia).
      destruct (peak_2d _ (y0 - row) (x0 - col) meth Fs) as (a & b & E & A & B & C); [rewrite Ns; exact W3|rewrite Nc; exact V3|].
      rewrite E. cbn [bindr fst snd]. rewrite Ns in B. rewrite Nc in A. destruct (Fin a b A B C) as ((N1 & N2 & N3 & N4) & X); [intros _ Hd; discriminate Hd|].
      rewrite N1, N2. cbn [orb andb bindr]. rewrite N3, N4. cbn [orb andb]. eexists _, _. split; [reflexivity|exact X].
  - (* peak on the border, or the image is smaller than the window *)
    cbn [bindr]. clear Un.
    destruct ((Reqb (IZR y0) 0 || Reqb (IZR y0) (IZR (nrow m0 - 1))) && Rltb (IZR x0) (IZR (ncol m0 - 1)) && Rltb 0 (IZR x0) && (s <=? ncol m0)) eqn:Bx.
    + rewrite !andb_true_iff, !Rltb_t, Z.leb_le in Bx. destruct Bx as [ [ [_ B2] B3] B4]. apply lt_IZR in B2, B3.
      destruct (window_interior (ncol m0) s q x0 Sq ltac:(lia) B4 ltac:(lia)) as (V1 & V2 & V3).
      set (col := clipZ (x0 - s / 2) 0 (ncol m0 - s)) in *.
      assert (Fr : first_max s (fun k => px m y0 (col + k)) (x0 - col)) by (apply first_max_row; [exact F|lia..]).
      destruct (peak_1d s _ (x0 - col) meth Fr V3) as (a & E1 & A & A').
      rewrite vslice_row by lia. rewrite E1. cbn [bindr].
      destruct (shift_bound a col x0 (ncol m0) s 0 A V1 V2) as (A1 & A2 & A3). specialize (A3 V3).
      assert (N3 : Reqb (IZR col + a) 0 = false) by (apply Reqb_f; lra).
      assert (N4 : Reqb (IZR col + a) (IZR (ncol m0 - 1)) = false) by (apply Reqb_f; lra).
      rewrite N3, N4. cbn [orb andb]. eexists _, _. split; [reflexivity|]. split; [lra|]. split; [lra|]. split; [discriminate|].
      rewrite !R0. split; [|split].
      * intros H. pose proof (A2 _ (A' H)). split; lra.
      * intros H _. split; [exact (A2 _ (A' H))|lra].
      * split; [exact A3|lra].
    + cbn [bindr].
      destruct ((Reqb (IZR x0) 0 || Reqb (IZR x0) (IZR (ncol m0 - 1))) && Rltb (IZR y0) (IZR (nrow m0 - 1)) && Rltb 0 (IZR y0) && (s <=? nrow m0)) eqn:Byy.
      * rewrite !andb_true_iff, !Rltb_t, Z.leb_le in Byy. destruct Byy as [ [ [_ B2] B3] B4]. apply lt_IZR in B2, B3.
        destruct (window_interior (nrow m0) s q y0 Sq ltac:(lia) B4 ltac:(lia)) as (W1 & W2 & W3).
        set (row := clipZ (y0 - s / 2) 0 (nrow m0 - s)) in *.
        assert (Fc : first_max s (fun k => px m (row + k) x0) (y0 - row)) by (apply first_max_col; [exact F|lia..]).
        destruct (peak_1d s _ (y0 - row) meth Fc W3) as (b & E2 & B & B').
        rewrite vslice_col by lia. rewrite E2. cbn [bindr].
        destruct (shift_bound b row y0 (nrow m0) s 0 B W1 W2) as (A1 & A2 & A3). specialize (A3 W3).
        eexists _, _. split; [reflexivity|]. split; [lra|]. split; [lra|]. split; [discriminate|].
        rewrite !R0. split; [|split].
        -- intros H. pose proof (A2 _ (B' H)). split; lra.
        -- intros H _. split; [lra|exact (A2 _ (B' H))].
        -- split; [lra|exact A3].
      * exists (IZR x0), (IZR y0). split; [reflexivity|]. rewrite !R0. repeat split; try lra; intros; auto; lra.
Qed.
End peak.
