(** C54, C56, C88: vertical_reconstruction, vertical_reconstruction_multiple, vertical_reconstruction_different_angles. *)
From Verif Require Import Np P_Np M_utility P_utility M_conversion P_calculation P_post M_par P_par M_backproj S_backproj M_recon S_recon P_recon M_vertrec S_vertrec P_vertrec.
From Coq Require Import QArith Qround Lia Lqa Permutation.
From Coq Require Import List. Import ListNotations.
Open Scope Z_scope.

Lemma img_Qeq_sym a b : img_Qeq a b -> img_Qeq b a.
Proof. intros (R & C & E). split; [congruence|]. split; [congruence|]. intros i j Hi Hj. symmetry. apply E; [rewrite R|rewrite C]; assumption. Qed.
Lemma img_Qeq_trans a b c : img_Qeq a b -> img_Qeq b c -> img_Qeq a c.
Proof.
  intros (R & C & E) (R' & C' & E'). split; [congruence|]. split; [congruence|]. intros i j Hi Hj.
  rewrite (E i j Hi Hj). apply E'; [rewrite <- R|rewrite <- C]; assumption.
Qed.
Lemma valid_compute {window name mode} (o : vargs window name mode) p c d b : valid o p -> 1 <= fst b -> 1 <= snd b ->
  valid (with_compute o c d b) p.
Proof. intros [A1 A2 A3 A4 A5 A6 A7 A8 A9 A10 A11 A12] B1 B2. constructor; try assumption. split; assumption. Qed.

(** the single slice: every projection of the range once, with its own angle, whatever the chunk size, the device, the
    order of the filter tasks and the thread schedules *)
Theorem vertical_reconstruction_sums_every_projection_once :
  forall (cosf sinf neglog : Q -> Q) (pi : Q) (window name mode : Type) (wshape : window -> Z * Z)
    (make_2d_ramp_window : Z -> Z -> name -> window) (wabs : window -> window) (np_pad_cols : img Q -> Z -> mode -> img Q)
    (fft_filter_rows fft_filter_ver : img Q -> window -> img Q)
    (points : Q -> Q -> Z -> res (vec Q * vec Q)) (o : vargs window name mode) (p : vol Q) (slice_index alpha : Q) (xs ys : vec Q)
    (orders : Z -> Z -> list Z) (scheds : Z -> list nat),
  pads_sides np_pad_cols -> keeps_shape fft_filter_rows -> keeps_shape fft_filter_ver -> any_order orders ->
  valid o p -> (0 <= slice_index)%Q -> (slice_index <= inject_Z (slice_width o p - 1))%Q ->
  points slice_index alpha (slice_width o p) = Ok (xs, ys) -> vlen xs = slice_width o p -> vlen ys = slice_width o p ->
  exists out,
    vertical_reconstruction cosf sinf neglog pi wshape make_2d_ramp_window wabs np_pad_cols fft_filter_rows fft_filter_ver
      points o p slice_index alpha orders scheds = Ok out /\
    (vcompleted out ->
     img_Qeq (vrecon out) (slice_through cosf sinf neglog pi wshape make_2d_ramp_window wabs np_pad_cols fft_filter_rows fft_filter_ver o p xs ys)).
Proof.
  intros cosf sinf neglog pi window name mode wshape mk wabs npad fr fv points o p idx alpha xs ys orders scheds P1 P2 P3 AO VA I0 I1 EP L1 L2.
  destruct (single_spec cosf sinf neglog pi wshape mk wabs npad fr fv P1 P2 P3 o p VA points idx alpha xs ys orders scheds AO I0 I1 EP L1 L2)
    as (out & fd & E & _ & _ & V). exists out. split; assumption.
Qed.
Print Assumptions vertical_reconstruction_sums_every_projection_once.

(** the result does not depend on chunk_size, on the device, its block size, or any schedule *)
Theorem vertical_reconstruction_does_not_depend_on_how_it_is_computed :
  forall (cosf sinf neglog : Q -> Q) (pi : Q) (window name mode : Type) (wshape : window -> Z * Z)
    (make_2d_ramp_window : Z -> Z -> name -> window) (wabs : window -> window) (np_pad_cols : img Q -> Z -> mode -> img Q)
    (fft_filter_rows fft_filter_ver : img Q -> window -> img Q)
    (points : Q -> Q -> Z -> res (vec Q * vec Q)) (o : vargs window name mode) (p : vol Q) (slice_index alpha : Q)
    (chunk chunk' : option Z) (device device' : bool) (blk blk' : Z * Z)
    (orders orders' : Z -> Z -> list Z) (scheds scheds' : Z -> list nat) out out',
  pads_sides np_pad_cols -> keeps_shape fft_filter_rows -> keeps_shape fft_filter_ver -> any_order orders -> any_order orders' ->
  gives_points points -> valid o p -> 1 <= fst blk -> 1 <= snd blk -> 1 <= fst blk' -> 1 <= snd blk' ->
  let run := fun o' => vertical_reconstruction cosf sinf neglog pi wshape make_2d_ramp_window wabs np_pad_cols fft_filter_rows fft_filter_ver
               points o' p slice_index alpha in
  run (with_compute o chunk device blk) orders scheds = Ok out ->
  run (with_compute o chunk' device' blk') orders' scheds' = Ok out' ->
  vcompleted out -> vcompleted out' ->
  img_Qeq (vrecon out) (vrecon out') /\ vcaller out = vcaller out'.
Proof.
  intros cosf sinf neglog pi window name mode wshape mk wabs npad fr fv points o p idx alpha c c' d d' b b' orders orders' scheds scheds' out out'
    P1 P2 P3 AO AO' GP VA B1 B2 B1' B2' run E E' D D'.
  assert (R : exists xs ys, points idx alpha (slice_width o p) = Ok (xs, ys) /\ (0 <= idx)%Q /\ (idx <= inject_Z (slice_width o p - 1))%Q).
  { unfold run, vertical_reconstruction in E. rewrite (setup_ok pi _ p (valid_compute o p c d b VA B1 B2)) in E. cbn [bindr] in E.
    change (slice_width (with_compute o c d b) p) with (slice_width o p) in E.
    set (l := crop_left _) in E. replace (l + slice_width o p - l) with (slice_width o p) in E by lia.
    destruct (Qltb idx 0) eqn:X; cbn [orb] in E; [discriminate|].
    destruct (Qltb (inject_Z (slice_width o p - 1)) idx) eqn:Y; [discriminate|].
    destruct (flat_fields _ _ _ _ _ _ _ _) as [fd|]; [|discriminate]. cbn [bindr] in E.
    destruct (points idx alpha (slice_width o p)) as [ [xs ys]|]; [|discriminate]. exists xs, ys. split; [reflexivity|].
    apply Qltb_f in X. apply Qltb_f in Y. split; assumption. }
  destruct R as (xs & ys & EP & I0 & I1). destruct (GP _ _ _ _ _ EP) as [L1 L2].
  destruct (single_spec cosf sinf neglog pi wshape mk wabs npad fr fv P1 P2 P3 _ p (valid_compute o p c d b VA B1 B2) points idx alpha xs ys orders scheds AO I0 I1 EP L1 L2)
    as (o1 & fd & F & C & N & V).
  destruct (single_spec cosf sinf neglog pi wshape mk wabs npad fr fv P1 P2 P3 _ p (valid_compute o p c' d' b' VA B1' B2') points idx alpha xs ys orders' scheds' AO' I0 I1 EP L1 L2)
    as (o1' & fd' & F' & C' & N' & V').
  unfold run in E, E'. rewrite F in E. rewrite F' in E'. apply Ok_inj in E. apply Ok_inj in E'. subst o1 o1'.
  split.
  - apply img_Qeq_trans with (1 := V D). apply img_Qeq_sym. exact (V' D').
  - rewrite C, C'. cbn in N, N'. destruct fd as [q|], fd' as [q'|]; try reflexivity.
    + discriminate (proj2 N (proj1 N' eq_refl)).
    + discriminate (proj2 N' (proj1 N eq_refl)).
Qed.
Print Assumptions vertical_reconstruction_does_not_depend_on_how_it_is_computed.

Lemma points_ok {A} (f : A -> res (vec Q * vec Q)) w l : (forall x, In x l -> exists xs ys, f x = Ok (xs, ys) /\ vlen xs = w /\ vlen ys = w) ->
  exists r, mapr f l = Ok r /\ length r = length l /\
    forall k x, nth_error l k = Some x -> exists xs ys, nth_error r k = Some (xs, ys) /\ f x = Ok (xs, ys).
Proof.
  induction l as [|a l IH]; intros H.
  - exists []. split; [reflexivity|]. split; [reflexivity|]. intros k x E. destruct k; discriminate.
  - destruct (H a (or_introl eq_refl)) as (xs & ys & E & _). destruct IH as (r & Er & L & N); [intros x Hx; apply H; right; exact Hx|].
    exists ((xs, ys) :: r). cbn [mapr]. rewrite E. cbn [bindr]. rewrite Er. split; [reflexivity|]. split; [cbn; congruence|].
    intros k x Ex. destruct k; [cbn in Ex; injection Ex as <-; exists xs, ys; split; [reflexivity|exact E]|]. apply N. exact Ex.
Qed.
Lemma REF_ext {window name mode} cosf sinf neglog pi wshape mk wabs npad fr fv (o : vargs window name mode) p xs ys xs' ys' :
  vat xs = vat xs' -> vat ys = vat ys' ->
  slice_through cosf sinf neglog pi wshape mk wabs npad fr fv o p xs ys = slice_through cosf sinf neglog pi wshape mk wabs npad fr fv o p xs' ys'.
Proof. intros E E'. unfold slice_through. rewrite E, E'. reflexivity. Qed.

(** several slices at different angles: slice k is what vertical_reconstruction gives for the k-th index and angle *)
Theorem vertical_reconstruction_different_angles_is_slice_by_slice :
  forall (cosf sinf neglog : Q -> Q) (pi : Q) (window name mode : Type) (wshape : window -> Z * Z)
    (make_2d_ramp_window : Z -> Z -> name -> window) (wabs : window -> window) (np_pad_cols : img Q -> Z -> mode -> img Q)
    (fft_filter_rows fft_filter_ver : img Q -> window -> img Q)
    (points : Q -> Q -> Z -> res (vec Q * vec Q)) (o : vargs window name mode) (p : vol Q) (slice_indices alphas : list Q)
    (orders : Z -> Z -> list Z) (scheds : Z -> list nat),
  pads_sides np_pad_cols -> keeps_shape fft_filter_rows -> keeps_shape fft_filter_ver -> any_order orders -> gives_points points ->
  valid o p -> slice_indices <> [] -> length slice_indices = length alphas ->
  (forall idx, In idx slice_indices -> (0 <= idx)%Q /\ (idx <= inject_Z (slice_width o p - 1))%Q) ->
  (forall k idx al, nth_error slice_indices k = Some idx -> nth_error alphas k = Some al ->
     exists xs ys, points idx al (slice_width o p) = Ok (xs, ys)) ->
  let single := vertical_reconstruction cosf sinf neglog pi wshape make_2d_ramp_window wabs np_pad_cols fft_filter_rows fft_filter_ver points in
  exists out,
    vertical_reconstruction_different_angles cosf sinf neglog pi wshape make_2d_ramp_window wabs np_pad_cols fft_filter_rows fft_filter_ver
      points o p slice_indices alphas orders scheds = Ok out /\
    dep (vrecon out) = Z.of_nat (length slice_indices) /\
    (vcompleted out ->
     forall k idx al, nth_error slice_indices k = Some idx -> nth_error alphas k = Some al ->
     forall chunk device blk orders' scheds' out', 1 <= fst blk -> 1 <= snd blk -> any_order orders' ->
       single (with_compute o chunk device blk) p idx al orders' scheds' = Ok out' -> vcompleted out' ->
       img_Qeq (slice_of (vrecon out) (Z.of_nat k)) (vrecon out') /\ vcaller out = vcaller out').
Proof.
  intros cosf sinf neglog pi window name mode wshape mk wabs npad fr fv points o p idxs alphas orders scheds P1 P2 P3 AO GP VA NE LL IR PO single.
  set (w := slice_width o p).
  destruct (points_ok (fun ia => points (fst ia) (snd ia) w) w (combine idxs alphas)) as (r & Er & Lr & Nr).
  { intros [i a] Hia. apply In_nth_error in Hia as [k Hk]. cbn [fst snd].
    assert (Hi : nth_error idxs k = Some i /\ nth_error alphas k = Some a).
    { clear -Hk. revert alphas k Hk. induction idxs as [|x l IH]; intros al k Hk; [destruct k; discriminate|]. destruct al as [|y al]; [destruct k; discriminate|].
      destruct k; [cbn in *; injection Hk as <- <-; split; reflexivity|]. cbn in *. apply IH. exact Hk. }
    destruct (PO k i a (proj1 Hi) (proj2 Hi)) as (xs & ys & E). exists xs, ys. split; [exact E|]. exact (GP _ _ _ _ _ E). }
  set (d := (mkvec 0 (fun _ => 0%Q), mkvec 0 (fun _ => 0%Q))).
  set (xm := fst (stack_points r w)). set (ym := snd (stack_points r w)).
  assert (Ln : length r = length idxs) by (rewrite Lr, combine_length; lia).
  assert (N1 : 1 <= nrow xm). { unfold xm. cbn. rewrite Ln. destruct idxs; [congruence|cbn; lia]. }
  destruct (core_spec cosf sinf neglog pi wshape mk wabs npad fr fv P1 P2 P3 o p VA xm ym orders scheds AO N1 eq_refl eq_refl eq_refl)
    as (out & fd & E & C & N & D1 & D2 & D3 & V).
  exists out. split; [|split].
  - unfold vertical_reconstruction_different_angles. rewrite LL, Nat.eqb_refl. cbn [negb].
    rewrite (setup_ok pi o p VA). cbn [bindr]. set (l := crop_left _). replace (l + slice_width o p - l) with w by (unfold w; lia). cbv zeta.
    assert (X : existsb (fun i => Qltb i 0 || Qltb (inject_Z (w - 1)) i) idxs = false).
    { apply not_true_is_false. intros X. apply existsb_exists in X as (i & Hi & X). destruct (IR i Hi) as [I0 I1].
      apply orb_true_iff in X as [X|X]; apply Qltb_lt in X; unfold w in X; lra. }
    rewrite X, Er. cbn [bindr]. exact E.
  - rewrite D1. unfold xm. cbn. rewrite Ln. reflexivity.
  - intros Dn k idx al Hk Ha chunk device blk orders' scheds' out' B1 B2 AO' E' Dn'.
    assert (Hc : nth_error (combine idxs alphas) k = Some (idx, al)).
    { clear -Hk Ha. revert alphas k Hk Ha. induction idxs as [|x l IH]; intros als k Hk Ha; [destruct k; discriminate|].
      destruct als as [|y als]; [destruct k; discriminate|]. destruct k; [cbn in *; congruence|]. cbn in *. apply IH; assumption. }
    destruct (Nr k _ Hc) as (xs & ys & Hn & Ep). cbn [fst snd] in Ep.
    destruct (GP _ _ _ _ _ Ep) as [L1 L2]. destruct (IR idx (nth_error_In _ _ Hk)) as [I0 I1].
    destruct (single_spec cosf sinf neglog pi wshape mk wabs npad fr fv P1 P2 P3 _ p (valid_compute o p chunk device blk VA B1 B2) points idx al xs ys orders' scheds' AO' I0 I1 Ep L1 L2)
      as (o1 & fd' & F & C' & N' & V').
    unfold single in E'. rewrite F in E'. apply Ok_inj in E'. subst o1. split.
    + assert (Hs : 0 <= Z.of_nat k < nrow xm).
      { unfold xm. cbn. rewrite Ln. split; [lia|]. apply inj_lt. apply nth_error_Some. congruence. }
      eapply img_Qeq_trans; [exact (V Dn (Z.of_nat k) Hs)|]. apply img_Qeq_sym.
      rewrite (REF_ext _ _ _ _ _ _ _ _ _ _ _ _ _ _ xs ys).
      * exact (V' Dn').
      * unfold xm. cbn. rewrite Nat2Z.id. rewrite (nth_error_nth _ _ _ Hn). reflexivity.
      * unfold ym. cbn. rewrite Nat2Z.id. rewrite (nth_error_nth _ _ _ Hn). reflexivity.
    + rewrite C, C'. cbn in N'. destruct fd as [q|], fd' as [q'|]; try reflexivity.
      * discriminate (proj2 N (proj1 N' eq_refl)).
      * discriminate (proj2 N' (proj1 N eq_refl)).
Qed.
Print Assumptions vertical_reconstruction_different_angles_is_slice_by_slice.

(** parallel slices: slice k is what vertical_reconstruction gives for index start + k * step *)
Theorem vertical_reconstruction_multiple_is_slice_by_slice :
  forall (cosf sinf neglog : Q -> Q) (pi : Q) (window name mode : Type) (wshape : window -> Z * Z)
    (make_2d_ramp_window : Z -> Z -> name -> window) (wabs : window -> window) (np_pad_cols : img Q -> Z -> mode -> img Q)
    (fft_filter_rows fft_filter_ver : img Q -> window -> img Q)
    (points : Q -> Q -> Z -> res (vec Q * vec Q)) (o : vargs window name mode) (p : vol Q) (start stop step : Z) (alpha : Q)
    (orders : Z -> Z -> list Z) (scheds : Z -> list nat),
  pads_sides np_pad_cols -> keeps_shape fft_filter_rows -> keeps_shape fft_filter_ver -> any_order orders -> gives_points points ->
  valid o p -> let last := if stop =? -1 then slice_width o p - 1 else stop in
  0 <= start <= last -> last <= slice_width o p - 1 -> 1 <= step ->
  (forall i, 0 <= i < slice_width o p -> exists xs ys, points (inject_Z i) alpha (slice_width o p) = Ok (xs, ys)) ->
  let single := vertical_reconstruction cosf sinf neglog pi wshape make_2d_ramp_window wabs np_pad_cols fft_filter_rows fft_filter_ver points in
  exists out,
    vertical_reconstruction_multiple cosf sinf neglog pi wshape make_2d_ramp_window wabs np_pad_cols fft_filter_rows fft_filter_ver
      points o p start stop alpha step orders scheds = Ok out /\
    (forall k, 0 <= k < dep (vrecon out) <-> 0 <= k /\ start + k * step <= last) /\
    (vcompleted out ->
     forall k, 0 <= k < dep (vrecon out) ->
     forall chunk device blk orders' scheds' out', 1 <= fst blk -> 1 <= snd blk -> any_order orders' ->
       single (with_compute o chunk device blk) p (inject_Z (start + k * step)) alpha orders' scheds' = Ok out' -> vcompleted out' ->
       img_Qeq (slice_of (vrecon out) k) (vrecon out') /\ vcaller out = vcaller out').
Proof.
  intros cosf sinf neglog pi window name mode wshape mk wabs npad fr fv points o p start stop step alpha orders scheds P1 P2 P3 AO GP VA last HS HL H1 PO single.
  set (w := slice_width o p) in *. set (ids := prange_step start (last + 1) step).
  assert (LI : Z.of_nat (length ids) = (last + 1 - start + step - 1) / step) by (apply prange_step_len; lia).
  assert (DM : forall k, 0 <= k < Z.of_nat (length ids) <-> 0 <= k /\ start + k * step <= last).
  { intros k. rewrite LI. split; intros [K0 K1]; (split; [exact K0|]).
    - assert (k + 1 <= (last + 1 - start + step - 1) / step) by lia. pose proof (Z.mul_div_le (last + 1 - start + step - 1) step ltac:(lia)). nia.
    - assert (k + 1 <= (last + 1 - start + step - 1) / step); [|lia]. apply Z.div_le_lower_bound; nia. }
  destruct (points_ok (fun i => points (inject_Z i) alpha w) w ids) as (r & Er & Lr & Nr).
  { intros i Hi. apply prange_step_In in Hi as (k & K0 & -> & K1); [|lia]. destruct (PO (start + k * step)) as (xs & ys & E); [nia|].
    exists xs, ys. split; [exact E|]. exact (GP _ _ _ _ _ E). }
  set (xm := fst (stack_points r w)). set (ym := snd (stack_points r w)).
  assert (Nx : nrow xm = Z.of_nat (length ids)) by (unfold xm; cbn; rewrite Lr; reflexivity).
  assert (N1 : 1 <= nrow xm). { rewrite Nx. pose proof (proj2 (DM 0)). lia. }
  destruct (core_spec cosf sinf neglog pi wshape mk wabs npad fr fv P1 P2 P3 o p VA xm ym orders scheds AO N1 eq_refl eq_refl eq_refl)
    as (out & fd & E & C & N & D1 & D2 & D3 & V).
  exists out. split; [|split].
  - unfold vertical_reconstruction_multiple. rewrite (setup_ok pi o p VA). cbn [bindr].
    set (l := crop_left _). replace (l + slice_width o p - l) with w by (unfold w; lia). cbv zeta. fold last.
    destruct (Z.ltb_spec start 0); [lia|]. destruct (Z.ltb_spec (w - 1) start); [lia|]. cbn [orb].
    destruct (Z.ltb_spec last 0); [lia|]. destruct (Z.ltb_spec (w - 1) last); [lia|]. cbn [orb].
    unfold prange_step_r. destruct (Z.eqb_spec step 0); [lia|]. cbn [bindr]. fold ids. rewrite Er. cbn [bindr]. exact E.
  - rewrite D1, Nx. exact DM.
  - intros Dn k Hk chunk device blk orders' scheds' out' B1 B2 AO' E' Dn'.
    rewrite D1 in Hk. rewrite Nx in Hk. pose proof (proj1 (DM k) Hk) as [K0 K1].
    assert (Hn0 : nth_error ids (Z.to_nat k) = Some (start + k * step)) by (apply prange_step_nth; lia).
    destruct (Nr _ _ Hn0) as (xs & ys & Hn & Ep).
    destruct (GP _ _ _ _ _ Ep) as [L1 L2].
    assert (I0 : (0 <= inject_Z (start + k * step))%Q) by (rewrite <- (Zle_Qle 0); nia).
    assert (I1 : (inject_Z (start + k * step) <= inject_Z (slice_width o p - 1))%Q) by (rewrite <- Zle_Qle; fold w; lia).
    destruct (single_spec cosf sinf neglog pi wshape mk wabs npad fr fv P1 P2 P3 _ p (valid_compute o p chunk device blk VA B1 B2) points _ alpha xs ys orders' scheds' AO' I0 I1 Ep L1 L2)
      as (o1 & fd' & F & C' & N' & V').
    unfold single in E'. rewrite F in E'. apply Ok_inj in E'. subst o1. split.
    + eapply img_Qeq_trans; [apply (V Dn k); lia|]. apply img_Qeq_sym.
      rewrite (REF_ext _ _ _ _ _ _ _ _ _ _ _ _ _ _ xs ys).
      * exact (V' Dn').
      * unfold xm. cbn. rewrite (nth_error_nth _ _ _ Hn). reflexivity.
      * unfold ym. cbn. rewrite (nth_error_nth _ _ _ Hn). reflexivity.
    + rewrite C, C'. cbn in N'. destruct fd as [q|], fd' as [q'|]; try reflexivity.
      * discriminate (proj2 N (proj1 N' eq_refl)).
      * discriminate (proj2 N' (proj1 N eq_refl)).
Qed.
Print Assumptions vertical_reconstruction_multiple_is_slice_by_slice.

(** C54 for the vertical reconstruction: the caller's projections are left alone if ... *)
Theorem vertical_reconstruction_leaves_positive_projections_unchanged_partial :
  forall (cosf sinf neglog : Q -> Q) (pi : Q) (window name mode : Type) (wshape : window -> Z * Z)
    (make_2d_ramp_window : Z -> Z -> name -> window) (wabs : window -> window) (np_pad_cols : img Q -> Z -> mode -> img Q)
    (fft_filter_rows fft_filter_ver : img Q -> window -> img Q)
    (points : Q -> Q -> Z -> res (vec Q * vec Q)) (o : vargs window name mode) (p : vol Q) (slice_index alpha : Q)
    (orders : Z -> Z -> list Z) (scheds : Z -> list nat) out,
  vertical_reconstruction cosf sinf neglog pi wshape make_2d_ramp_window wabs np_pad_cols fft_filter_rows fft_filter_ver
      points o p slice_index alpha orders scheds = Ok out ->
  flat_field o <> None \/ dark_field o <> None \/ apply_log o = false \/
    (forall n i j, in_rng (dep p) n -> in_rng (hei p) i -> in_rng (wid p) j -> (0 < vx p n i j)%Q) ->
  same_array (A3 (vcaller out)) (A3 p).
Proof.
  intros cosf sinf neglog pi window name mode wshape mk wabs npad fr fv points o p idx alpha orders scheds out E H.
  unfold vertical_reconstruction in E. destruct (vsetup pi o p) as [ [ [ [ [ [n ang] t] b] l] r]|]; [|discriminate]. cbn [bindr] in E.
  destruct (Qltb idx 0 || Qltb (inject_Z (r - l - 1)) idx); [discriminate|].
  destruct (flat_fields _ _ _ _ _ _ _ _) as [fd|] eqn:F; [|discriminate]. cbn [bindr] in E.
  destruct (points _ _ _) as [xy|]; [|discriminate]. cbn [bindr] in E.
  destruct (vloop _ _ _ _ _ _ _ _ _) as [ [s tss]|]; [|discriminate]. cbn [bindr] in E.
  destruct (vfinish _ _ _ _ _ _ _ _ _ _) as [f|]; [|discriminate]. cbn [bindr] in E. apply Ok_inj in E. subst out. cbn [vcaller].
  unfold vcaller_after. destruct fd as [q|]; [repeat split; reflexivity|].
  destruct (apply_log o) eqn:AL; [|repeat split; reflexivity].
  cbn [same_array dep hei wid vx]. repeat (split; [reflexivity|]). intros i j k Hi Hj Hk.
  destruct (_ && _); [|reflexivity].
  assert (P : (0 < vx p i j k)%Q).
  { unfold flat_fields in F. destruct H as [H|[H|[H|H] ] ].
    - destruct (flat_field o) as [m|]; [|congruence]. destruct ((nrow m =? hei p) && (ncol m =? wid p)); [|discriminate]. cbn [bindr] in F.
      destruct (dark_field o) as [m'|]; [destruct ((nrow m' =? hei p) && (ncol m' =? wid p)); discriminate|discriminate].
    - destruct (flat_field o) as [m|], (dark_field o) as [m'|]; try congruence.
      + destruct ((nrow m =? hei p) && (ncol m =? wid p)); [|discriminate]. cbn [bindr] in F. destruct ((nrow m' =? hei p) && (ncol m' =? wid p)); discriminate.
      + cbn [bindr] in F. destruct ((nrow m' =? hei p) && (ncol m' =? wid p)); discriminate.
    - discriminate.
    - apply H; assumption. }
  unfold fix_log. destruct (Qle_bool (vx p i j k) 0) eqn:Q; [apply Qle_bool_iff in Q; lra|reflexivity].
Qed.
Print Assumptions vertical_reconstruction_leaves_positive_projections_unchanged_partial.

(** ... and otherwise only values <= 0 of the projections and of the region that are used are replaced, by 1 *)
Theorem vertical_reconstruction_overwrites_only_used_nonpositive_values :
  forall (cosf sinf neglog : Q -> Q) (pi : Q) (window name mode : Type) (wshape : window -> Z * Z)
    (make_2d_ramp_window : Z -> Z -> name -> window) (wabs : window -> window) (np_pad_cols : img Q -> Z -> mode -> img Q)
    (fft_filter_rows fft_filter_ver : img Q -> window -> img Q)
    (points : Q -> Q -> Z -> res (vec Q * vec Q)) (o : vargs window name mode) (p : vol Q) (slice_index alpha : Q)
    (orders : Z -> Z -> list Z) (scheds : Z -> list nat) out,
  vertical_reconstruction cosf sinf neglog pi wshape make_2d_ramp_window wabs np_pad_cols fft_filter_rows fft_filter_ver
      points o p slice_index alpha orders scheds = Ok out ->
  flat_field o = None -> dark_field o = None -> apply_log o = true ->
  let '(top, bot, lft, rgt) := crop o in
  forall n i j, in_rng (dep p) n -> in_rng (hei p) i -> in_rng (wid p) j ->
    let used := proj_start o <= n < last_projection o p /\ top <= i < hei p - bot /\ lft <= j < wid p - rgt in
    (used -> (vx p n i j <= 0)%Q -> vx (vcaller out) n i j = 1%Q) /\
    (~ used \/ (0 < vx p n i j)%Q -> vx (vcaller out) n i j = vx p n i j).
Proof.
  intros cosf sinf neglog pi window name mode wshape mk wabs npad fr fv points o p idx alpha orders scheds out E Hf Hd AL.
  destruct (crop o) as [ [ [ct cb] cl] cr] eqn:Ec. intros n i j Hn Hi Hj.
  unfold vertical_reconstruction, vsetup in E. fold (last_projection o p) in E.
  destruct (last_projection o p - proj_start o <? 1); [discriminate|].
  destruct (match angles o with None => _ | Some v => _ end) as [ang|]; [|discriminate]. cbn [bindr] in E. rewrite Ec in E. cbv zeta in E.
  destruct (_ || _); [discriminate|]. destruct (_ || _); [discriminate|]. cbn [bindr] in E. destruct (_ || _); [discriminate|].
  rewrite Hf, Hd in E. unfold flat_fields in E. cbn [bindr] in E.
  destruct (points _ _ _) as [xy|]; [|discriminate]. cbn [bindr] in E.
  destruct (vloop _ _ _ _ _ _ _ _ _) as [ [s tss]|]; [|discriminate]. cbn [bindr] in E.
  destruct (vfinish _ _ _ _ _ _ _ _ _ _) as [f|]; [|discriminate]. cbn [bindr] in E. apply Ok_inj in E. subst out. cbn [vcaller].
  unfold vcaller_after. rewrite AL. cbn [vx]. replace (proj_start o + (last_projection o p - proj_start o)) with (last_projection o p) by lia.
  split.
  - intros (U1 & U2 & U3) L.
    rewrite !(proj2 (Z.leb_le _ _)), !(proj2 (Z.ltb_lt _ _)) by lia. cbn [andb]. unfold fix_log. rewrite (proj2 (Qle_bool_iff _ _) L). reflexivity.
  - intros H. destruct (_ && _) eqn:B; [|reflexivity]. rewrite !Bool.andb_true_iff, !Z.leb_le, !Z.ltb_lt in B.
    destruct H as [H|H]; [exfalso; apply H; lia|].
    unfold fix_log. destruct (Qle_bool (vx p n i j) 0) eqn:Q; [apply Qle_bool_iff in Q; lra|reflexivity].
Qed.
Print Assumptions vertical_reconstruction_overwrites_only_used_nonpositive_values.

(** C88: arguments that do not fit are rejected with a ValueError ... *)
Theorem vertical_reconstruction_rejects_wrong_arguments_partial :
  forall (cosf sinf neglog : Q -> Q) (pi : Q) (window name mode : Type) (wshape : window -> Z * Z)
    (make_2d_ramp_window : Z -> Z -> name -> window) (wabs : window -> window) (np_pad_cols : img Q -> Z -> mode -> img Q)
    (fft_filter_rows fft_filter_ver : img Q -> window -> img Q)
    (points : Q -> Q -> Z -> res (vec Q * vec Q)) (o : vargs window name mode) (p : vol Q) (slice_index alpha : Q)
    (orders : Z -> Z -> list Z) (scheds : Z -> list nat),
  wrong_arguments o p \/ (slice_index < 0)%Q \/ (inject_Z (slice_width o p - 1) < slice_index)%Q ->
  vertical_reconstruction cosf sinf neglog pi wshape make_2d_ramp_window wabs np_pad_cols fft_filter_rows fft_filter_ver
      points o p slice_index alpha orders scheds = Err ValueError.
Proof.
  intros cosf sinf neglog pi window name mode wshape mk wabs npad fr fv points o p idx alpha orders scheds H.
  unfold vertical_reconstruction, vsetup. fold (last_projection o p). change (last_projection o p - proj_start o) with (projections_used o p).
  destruct (Z.ltb_spec (projections_used o p) 1) as [L|L]; [reflexivity|].
  destruct (angles o) as [v|] eqn:EA.
  1: destruct (Z.eqb_spec (vlen v) (projections_used o p)) as [EL|]; [|reflexivity].
  all: cbn [bindr]; destruct (crop o) as [ [ [t b] l] r] eqn:Ec.
  all: assert (Hh : slice_height o p = hei p - t - b) by (unfold slice_height; rewrite Ec; reflexivity).
  all: assert (Hw : slice_width o p = wid p - l - r) by (unfold slice_width; rewrite Ec; reflexivity).
  all: replace (hei p - b - t) with (slice_height o p) by lia; replace (wid p - r - l) with (slice_width o p) by lia; cbv zeta.
  all: destruct (Z.ltb_spec (slice_height o p) 1); [reflexivity|]; destruct (Z.ltb_spec (slice_width o p) 1); [reflexivity|]; cbn [orb].
  all: destruct (Qltb (center o) 0) eqn:X0; [reflexivity|]; destruct (Qltb (inject_Z (slice_width o p - 1)) (center o)) eqn:X1; [reflexivity|]; cbn [orb bindr].
  all: replace (wid p - r - l) with (slice_width o p) by lia.
  all: destruct (Qltb idx 0) eqn:X2; [reflexivity|]; destruct (Qltb (inject_Z (slice_width o p - 1)) idx) eqn:X3; [reflexivity|]; cbn [orb].
  all: apply Qltb_f in X0, X1, X2, X3.
  all: destruct H as [ [H|[H|[H|[H|[H|[H|H] ] ] ] ] ]|[H|H] ]; try lia; try (exfalso; lra).
  all: try (destruct H as (u & Eu & Nu); rewrite ?EA in Eu; first [discriminate Eu|injection Eu as <-; contradiction]).
  all: destruct H as (m & Em & Nm); assert (B : (nrow m =? hei p) && (ncol m =? wid p) = false) by
         (destruct (Z.eqb_spec (nrow m) (hei p)), (Z.eqb_spec (ncol m) (wid p)); cbn; try reflexivity; lia).
  all: unfold flat_fields; destruct Em as [Em|Em]; rewrite Em; rewrite ?B; cbn [bindr]; try reflexivity.
  all: destruct (flat_field o) as [m'|]; cbn [bindr]; rewrite ?B; cbn [bindr]; try reflexivity.
  all: clear B; destruct (_ && _); reflexivity.
Qed.
Print Assumptions vertical_reconstruction_rejects_wrong_arguments_partial.

(** ** A concrete setting: three 2 x 2 projections seen straight on, zero padding, filters that scale *)
Definition v_cols (m : img Q) (s : Z) (_ : unit) : img Q :=
  mkimg (nrow m) (ncol m + 2 * s) (fun i j => if (0 <=? j - s) && (j - s <? ncol m) then px m i (j - s) else 0%Q).
Lemma v_cols_ok : pads_sides v_cols.
Proof.
  split; [intros m s md H; split; reflexivity|]. intros m m' s md H (R & C & E). split; [exact R|]. split; [cbn; lia|].
  intros i j Hi Hj. cbn [v_cols nrow ncol px] in *. rewrite <- C. destruct (Z.leb_spec 0 (j - s)), (Z.ltb_spec (j - s) (ncol m)); cbn [andb]; try reflexivity.
  apply E; unfold in_rng in *; lia.
Qed.
Definition v_filter (m : img Q) (k : Q) : img Q := mkimg (nrow m) (ncol m) (fun i j => (k * px m i j)%Q).
Lemma v_filter_ok : keeps_shape v_filter.
Proof.
  split; [intros; split; reflexivity|]. intros m m' k (R & C & E). split; [exact R|]. split; [exact C|].
  intros i j Hi Hj. cbn [px v_filter nrow ncol] in *. rewrite E by assumption. reflexivity.
Qed.
Definition v_points (idx alpha : Q) (w : Z) : res (vec Q * vec Q) :=
  Ok (mkvec w (fun j => (inject_Z j - (1#2))%Q), mkvec w (fun j => (idx + alpha)%Q)).
Lemma v_points_ok : gives_points v_points.
Proof. intros idx alpha w xs ys E. unfold v_points in E. apply Ok_inj in E. injection E as <- <-. split; reflexivity. Qed.
Definition v_args (stop : Z) (chunk : option Z) (r : ramp_option) (lg : bool) (device : bool) : vargs Q bool unit :=
  mkvargs Q bool unit (1#2) None None None (0, 0, 0, 0) 0 stop chunk r true (Some 1) tt lg device (2, 2) false.
Definition v_proj : vol Q := mkvol 3 2 2 (fun n i j => inject_Z (1 + n + 2 * i + 3 * j)).
Definition v_run (o : vargs Q bool unit) (p : vol Q) : res (voutcome (img Q)) :=
  vertical_reconstruction (fun _ => 1%Q) (fun _ => 0%Q) (fun v => (1 - v)%Q) 3 (fun _ => (0, 0)) (fun _ _ (b : bool) => if b then (1#2)%Q else 3%Q) (fun q => q)
    v_cols v_filter v_filter v_points o p 1 0 (fun _ n => zrange 0 n) (fun _ => concat (repeat [0; 1; 2; 3]%nat 16)).
Definition v_pixel (r : res (voutcome (img Q))) (y x : Z) : option (Q * bool) :=
  match r with
  | Ok o => Some (Qred (px (vrecon o) y x), forallb (forallb (fun t => match todo t with [] => true | _ => false end)) (vlaunches o))
  | Err _ => None end.
Lemma v_pixel_ok r y x q : v_pixel r y x = Some (q, true) -> exists o, r = Ok o /\ vcompleted o /\ (px (vrecon o) y x == q)%Q.
Proof.
  destruct r as [o|]; [|discriminate]. cbn [v_pixel]. intros E.
  assert (D : forallb (forallb (fun t => match todo t with [] => true | _ => false end)) (vlaunches o) = true) by congruence.
  assert (V : Qred (px (vrecon o) y x) = q) by congruence. exists o. split; [reflexivity|]. split.
  - rewrite forallb_forall in D. intros ts Hts t Ht. specialize (D ts Hts). rewrite forallb_forall in D. specialize (D t Ht).
    destruct (todo t); [reflexivity|discriminate].
  - rewrite <- V. symmetry. apply Qred_correct.
Qed.
Example ex_valid : forall chunk r lg device, valid (v_args (-1) chunk r lg device) v_proj.
Proof.
  intros. constructor; cbn; try lia; try discriminate; try (split; [discriminate|discriminate]).
  - intros n E. injection E as <-. lia.
Qed.
Example ex_order : any_order (fun _ n => zrange 0 n).
Proof. intros k n. apply Permutation_refl. Qed.
(** chunks of 2 and 1 projections, one chunk, one projection at a time; both devices; filter before and after *)
Example ex_vertical_chunks :
  map (fun cd => v_pixel (v_run (v_args (-1) (fst cd) After false (snd cd)) v_proj) 1 1) [(Some 2, true); (None, false); (Some 1, true); (Some 0, false)]
    = repeat (Some ((63#4)%Q, true)) 4 /\
  map (fun cd => v_pixel (v_run (v_args (-1) (fst cd) Before false (snd cd)) v_proj) 1 1) [(Some 2, true); (Some 7, false); (Some 1, true)]
    = repeat (Some ((63#4)%Q, true)) 3.
Proof. split; vm_compute; reflexivity. Qed.

(** ... but a proj_stop beyond the last projection is accepted: the slice is computed from fewer projections than
    asked for, with the angles and the normalisation of the larger number *)
Theorem vertical_reconstruction_accepts_a_stop_beyond_the_data_refuted :
  exists (o : vargs Q bool unit) (p : vol Q) out, dep p < last_projection o p /\ v_run o p = Ok out /\ vcompleted out.
Proof.
  exists (v_args 5 (Some 2) NoRamp false true), v_proj.
  assert (E : v_pixel (v_run (v_args 5 (Some 2) NoRamp false true) v_proj) 1 1 = Some ((63#4)%Q, true)) by (vm_compute; reflexivity).
  destruct (v_pixel_ok _ _ _ _ E) as (out & R & D & _). exists out. split; [cbn; lia|]. split; assumption.
Qed.
Print Assumptions vertical_reconstruction_accepts_a_stop_beyond_the_data_refuted.

(** C54: with apply_log and without flat or dark field the caller's projections are overwritten *)
Theorem vertical_reconstruction_overwrites_the_projections_refuted :
  exists (o : vargs Q bool unit) (p : vol Q) out, valid o p /\ v_run o p = Ok out /\ vcompleted out /\
    (vx p 0 0 0 == 0)%Q /\ (vx (vcaller out) 0 0 0 == 1)%Q.
Proof.
  set (p := mkvol 3 2 2 (fun _ _ _ => 0%Q)). set (o := v_args (-1) (Some 2) NoRamp true true). exists o, p.
  assert (VA : valid o p).
  { unfold o, p. constructor; cbn; try lia; try discriminate; try (split; [discriminate|discriminate]). intros n E. injection E as <-. lia. }
  assert (E : v_pixel (v_run o p) 1 1 = Some (0%Q, true)) by (vm_compute; reflexivity).
  destruct (v_pixel_ok _ _ _ _ E) as (out & R & D & _). exists out. split; [exact VA|]. split; [exact R|]. split; [exact D|]. split; [reflexivity|].
  destruct (single_spec (fun _ => 1%Q) (fun _ => 0%Q) (fun v => (1 - v)%Q) 3 (fun _ => (0, 0)) (fun _ _ (b : bool) => if b then (1#2)%Q else 3%Q) (fun q => q)
    v_cols v_filter v_filter v_cols_ok v_filter_ok v_filter_ok o p VA v_points 1 0 _ _ (fun _ n => zrange 0 n) (fun _ => concat (repeat [0; 1; 2; 3]%nat 16))
    ex_order ltac:(discriminate) ltac:(cbn; discriminate) eq_refl eq_refl eq_refl) as (o1 & fd & F & C & N & _).
  unfold v_run in R. rewrite F in R. apply Ok_inj in R. subst o1. rewrite C.
  destruct fd as [q|]; [discriminate (proj2 N (conj eq_refl eq_refl))|]. cbn. reflexivity.
Qed.
Print Assumptions vertical_reconstruction_overwrites_the_projections_refuted.
