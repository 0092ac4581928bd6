(** Proofs about maps of local shifts on a GPU: threads, correlation maps, peaks. *)
From Coq Require Import Reals Lra ZArith Lia Permutation FunctionalExtensionality.
From Verif Require Import Np P_Np M_phase_R P_phase_R M_corr S_corr P_corr P_corr2 P_corr3 P_corr4 M_local S_local P_peakext P_local P_local2 P_local3 P_local4 P_local5 P_local6 P_local7.
From Coq Require Import List. Import ListNotations.
Open Scope Z_scope.

(** ** launches *)
Lemma launch_spec {A} (th : Z * Z -> option (Z * Z * A)) h w (val : Z -> Z -> A) block order init :
  (forall x y, 0 <= x -> 0 <= y -> th (x, y) = if (y <? h) && (x <? w) then Some (y, x, val y x) else None) ->
  1 <= fst block -> 1 <= snd block -> Permutation (grid_xy w h block) order ->
  forall i j, 0 <= i < h -> 0 <= j < w -> launch th order init i j = val i j.
Proof.
  intros T B1 B2 P i j Hi Hj.
  assert (Pos : forall p, In p order -> 0 <= fst p /\ 0 <= snd p).
  { intros [x y] Hp. apply (Permutation_in _ (Permutation_sym P)) in Hp. apply in_prod_iff in Hp. destruct Hp as [Hx Hy].
    apply zrange_In in Hx, Hy. cbn. lia. }
  assert (Cov : In (j, i) order).
  { apply (Permutation_in _ P). apply in_prod_iff.
    assert (G : forall n b k, 1 <= b -> 0 <= k < n -> In k (grid_axis n b)).
    { intros n b k Hb Hk. apply zrange_In. split; [lia|]. pose proof (Z.div_mod (- n) b ltac:(lia)). pose proof (Z.mod_pos_bound (- n) b ltac:(lia)). nia. }
    split; apply G; lia. }
  clear P. unfold launch. revert init.
  assert (Gen : forall order, (forall p, In p order -> 0 <= fst p /\ 0 <= snd p) -> forall init : Z -> Z -> A, In (j, i) order \/ init i j = val i j ->
     fold_left (fun m p => match th p with None => m | Some (y, x, v) => fun i j => if (i =? y) && (j =? x) then v else m i j end) order init i j = val i j).
  { clear order Pos Cov. induction order as [|[x y] order IH]; intros Pos init C; [destruct C as [ []|C]; exact C|]. cbn [fold_left].
    apply IH; [intros p Hp; apply Pos; right; exact Hp|]. destruct (Pos (x, y) (or_introl eq_refl)) as [Hx Hy]. cbn [fst snd] in Hx, Hy. rewrite (T x y Hx Hy).
    destruct (Z.eq_dec x j) as [->|Nx]; [destruct (Z.eq_dec y i) as [->|Ny]|].
    - right. destruct (Z.ltb_spec i h); [|lia]. destruct (Z.ltb_spec j w); [|lia]. cbn [andb]. rewrite !Z.eqb_refl. reflexivity.
    - destruct C as [ [C|C]|C]; [injection C as C; congruence|left; exact C|]. right. destruct ((y <? h) && (j <? w)); [|exact C].
      destruct (Z.eqb_spec i y); [congruence|exact C].
    - destruct C as [ [C|C]|C]; [injection C as C; congruence|left; exact C|]. right. destruct ((y <? h) && (x <? w)); [|exact C].
      destruct (Z.eqb_spec j x); [congruence|]. rewrite Bool.andb_false_r. exact C. }
  intros init. apply Gen; [exact Pos|left; exact Cov].
Qed.

(** ** coefficients *)
Lemma gpu_coef_2d ref mat i j : 1 <= nrow mat <= nrow ref -> 1 <= ncol mat <= ncol ref -> 0 <= i -> i + nrow mat <= nrow ref -> 0 <= j -> j + ncol mat <= ncol ref ->
  gpu_coefficient_2d (islice ref i (i + nrow mat) j (j + ncol mat)) mat = correlation_at (One ref) (One mat) i j.
Proof.
  intros H W I1 I2 J1 J2.
  assert (E : gpu_coefficient_2d (islice ref i (i + nrow mat) j (j + ncol mat)) mat =
    pearson_of 1 (nrow mat) (ncol mat) (fun _ a b => px mat (0 + a) (0 + b)) (fun _ a b => px ref (i + a) (j + b))).
  { unfold gpu_coefficient_2d, pearson_of, rmean2i. cbn [islice nrow ncol px]. rewrite !slice_len, !slice_at by lia. rewrite !rsum3_1, !Rmult_1_l. cbn [Z.add].
    set (A := rsum2 _ _ (fun i0 j0 => ((px mat i0 j0 - _) * (px mat i0 j0 - _))%R)). set (B := rsum2 _ _ (fun i0 j0 => ((px ref _ _ - _) * (px ref _ _ - _))%R)).
    rewrite (pearson_sym_order B A).
    match goal with |- (if ?c then _ else (?x / ?s)%R) = (if ?c2 then _ else (?y / ?s2)%R) => replace y with x; [reflexivity|] end.
    apply rsum2_ext. intros. apply Rmult_comm. }
  rewrite E, pearson_of_spec by lia. reflexivity.
Qed.
Lemma gpu_coef_3d ref mat i j : dep ref = dep mat -> 1 <= dep mat -> 1 <= hei mat <= hei ref -> 1 <= wid mat <= wid ref -> 0 <= i -> i + hei mat <= hei ref -> 0 <= j -> j + wid mat <= wid ref ->
  gpu_coefficient_3d (wslice ref i (i + hei mat) j (j + wid mat)) mat = correlation_at (Stack ref) (Stack mat) i j.
Proof.
  intros D D1 H W I1 I2 J1 J2.
  assert (E : gpu_coefficient_3d (wslice ref i (i + hei mat) j (j + wid mat)) mat =
    pearson_of (dep mat) (hei mat) (wid mat) (fun k a b => vx mat k (0 + a) (0 + b)) (fun k a b => vx ref k (i + a) (j + b))).
  { unfold gpu_coefficient_3d, pearson_of, rmean3. unfold wslice. cbn [dep hei wid vx]. rewrite !slice_len, !slice_at by lia. rewrite D. cbn [Z.add].
    set (A := rsum3 _ _ _ (fun k i0 j0 => ((vx mat k i0 j0 - _) * (vx mat k i0 j0 - _))%R)). set (B := rsum3 _ _ _ (fun k i0 j0 => ((vx ref k _ _ - _) * (vx ref k _ _ - _))%R)).
    rewrite (pearson_sym_order B A).
    match goal with |- (if ?c then _ else (?x / ?s)%R) = (if ?c2 then _ else (?y / ?s2)%R) => replace y with x; [reflexivity|] end.
    apply rsum3_ext. intros. apply Rmult_comm. }
  rewrite E, pearson_of_spec by lia. unfold correlation_at, window. cbn [depth height width value]. rewrite D. reflexivity.
Qed.
Lemma gpu_map_spec ref mat : fits ref mat ->
  nrow (gen_2d_corr_map ref mat) = height ref - height mat + 1 /\ ncol (gen_2d_corr_map ref mat) = width ref - width mat + 1 /\
  forall i j, 0 <= i <= height ref - height mat -> 0 <= j <= width ref - width mat -> px (gen_2d_corr_map ref mat) i j = correlation_at ref mat i j.
Proof.
  intros (K & D & H & W). unfold gen_2d_corr_map. rewrite !shape2_spec. cbn [nrow ncol px]. split; [reflexivity|]. split; [reflexivity|].
  intros i j Hi Hj. destruct ref as [r|r], mat as [m|m]; try contradiction; cbn [dslice height width depth] in *.
  - apply gpu_coef_2d; lia.
  - apply gpu_coef_3d; try lia; exact K.
Qed.

(** ** peaks *)
Lemma scan_first n f : 1 <= n -> exists k, scan_max (map f (zrange 0 n)) = (k, f k) /\ first_max n f k.
Proof.
  intros N. rewrite zrange_S by lia. unfold scan_max. cbn [map tl length]. rewrite map_length, zrange_length.
  replace (Z.of_nat (S (Z.to_nat (n - 1))) - 1) with (n - 1) by lia. change (0 + 1) with 1.
  assert (Gen : forall (m : nat) i k, first_max i f k ->
     exists k', fold_left (fun s p => if Rltb (snd s) (snd p) then p else s) (combine (zrange i (Z.of_nat m)) (map f (zrange i (Z.of_nat m)))) (k, f k) = (k', f k') /\ first_max (i + Z.of_nat m) f k').
  { induction m as [|m IH]; intros i k F.
    - exists k. cbn. rewrite Z.add_0_r. split; [reflexivity|exact F].
    - rewrite zrange_S by lia. replace (Z.of_nat (S m) - 1) with (Z.of_nat m) by lia. cbn [map combine fold_left snd].
      replace (i + Z.of_nat (S m)) with (i + 1 + Z.of_nat m) by lia. destruct F as (F0 & F1 & F2). destruct (Rltb (f k) (f i)) eqn:Q.
      + apply Rltb_t in Q. apply IH. split; [lia|]. split; intros a Ha.
        * destruct (Z.eq_dec a i) as [->|Na]; [lra|]. specialize (F1 a ltac:(lia)). lra.
        * specialize (F1 a ltac:(lia)). lra.
      + apply Rltb_f in Q. apply IH. split; [lia|]. split; intros a Ha.
        * destruct (Z.eq_dec a i) as [->|Na]; [exact Q|apply F1; lia].
        * apply F2; lia. }
  destruct (Gen (Z.to_nat (n - 1)) 1 0) as (k & E & F).
  - split; [lia|]. split; intros i Hi; [replace i with 0 by lia; lra|lia].
  - replace (Z.of_nat (Z.to_nat (n - 1))) with (n - 1) in * by lia. exists k. split; [exact E|]. replace (1 + (n - 1)) with n in F by lia. exact F.
Qed.
Lemma grid_list h w : 0 <= h -> 0 < w -> flat_map (fun i => map (fun j => (i, j)) (zrange 0 w)) (zrange 0 h) = map (fun k => (k / w, k mod w)) (zrange 0 (h * w)).
Proof.
  intros H W. rewrite <- (Z2Nat.id h) by exact H. generalize (Z.to_nat h) as n. clear h H. induction n as [|n IH]; [reflexivity|].
  replace (Z.of_nat (S n)) with (Z.of_nat n + 1) by lia. rewrite zrange_app by lia. rewrite flat_map_app, IH.
  replace ((Z.of_nat n + 1) * w) with (Z.of_nat n * w + w) by lia. rewrite zrange_app by lia. rewrite map_app. f_equal.
  change (zrange (0 + Z.of_nat n) 1) with [0 + Z.of_nat n + 0]. cbn [flat_map]. rewrite app_nil_r. rewrite !Z.add_0_r. cbn [Z.add].
  unfold zrange. rewrite !map_map. apply map_ext_in. intros a Ha. apply in_seq in Ha.
  destruct (flat_index w (Z.of_nat n) (0 + Z.of_nat a)) as (E1 & E2); [lia|]. cbn [Z.add] in *. rewrite E1, E2. reflexivity.
Qed.
Lemma max_value_first m : 1 <= nrow m -> 1 <= ncol m -> exists y x, locate_max_value m = (x, y) /\ first_max2 m y x.
Proof.
  intros H W. unfold locate_max_value. rewrite grid_list by lia. set (w := ncol m) in *. set (n := nrow m * w).
  set (f := fun k => px m (k / w) (k mod w)).
  assert (Gen : forall (c : nat) i k, first_max i f k ->
     exists k', fold_left (fun s p => if Rltb (snd s) (px m (fst p) (snd p)) then (p, px m (fst p) (snd p)) else s) (map (fun k => (k / w, k mod w)) (zrange i (Z.of_nat c))) ((k / w, k mod w), f k)
       = ((k' / w, k' mod w), f k') /\ first_max (i + Z.of_nat c) f k').
  { induction c as [|c IH]; intros i k F.
    - exists k. cbn. rewrite Z.add_0_r. split; [reflexivity|exact F].
    - rewrite zrange_S by lia. replace (Z.of_nat (S c) - 1) with (Z.of_nat c) by lia. cbn [map fold_left fst snd]. change (px m (i / w) (i mod w)) with (f i).
      replace (i + Z.of_nat (S c)) with (i + 1 + Z.of_nat c) by lia. destruct F as (F0 & F1 & F2). destruct (Rltb (f k) (f i)) eqn:Q.
      + apply Rltb_t in Q. apply IH. split; [lia|]. split; intros a Ha.
        * destruct (Z.eq_dec a i) as [->|Na]; [lra|]. specialize (F1 a ltac:(lia)). lra.
        * specialize (F1 a ltac:(lia)). lra.
      + apply Rltb_f in Q. apply IH. split; [lia|]. split; intros a Ha.
        * destruct (Z.eq_dec a i) as [->|Na]; [exact Q|apply F1; lia].
        * apply F2; lia. }
  assert (Np : 0 < n) by (unfold n; nia).
  rewrite zrange_S by exact Np. change (0 + 1) with 1. cbn [map fold_left fst snd]. rewrite Z.div_0_l, Z.mod_0_l by lia. destruct (Rltb (px m 0 0) (px m 0 0)) eqn:Q; [apply Rltb_t in Q; lra|].
  destruct (Gen (Z.to_nat (n - 1)) 1 0) as (k & E & F).
  - split; [lia|]. split; intros i Hi; [replace i with 0 by lia; lra|lia].
  - replace (Z.of_nat (Z.to_nat (n - 1))) with (n - 1) in * by lia. rewrite Z.div_0_l, Z.mod_0_l in E by lia. unfold f in E at 1. rewrite Z.div_0_l, Z.mod_0_l in E by lia.
    rewrite E. cbn [fst snd]. exists (k / w), (k mod w). split; [reflexivity|]. replace (1 + (n - 1)) with n in F by lia. apply flat_first_max2; assumption.
Qed.
