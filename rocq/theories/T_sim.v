(** Theorems about add_stripe_artifact (C64). *)
From Verif Require Import Np P_Np M_utility S_utility P_utility M_conversion P_conversion M_correction P_correction P_argsort M_sim S_sim P_sim.
From Coq Require Import QArith Qround Qabs Bool ZArith Lia Lqa.
Open Scope Z_scope.

(** ** C64: only the columns of the stripe change, and they change as the type says; missing: the stripe starts at
    [stripe_start], which is not always the requested position (see the refutation below) *)
Theorem stripe_artifact_in_its_columns_partial : forall asort normal m size position strength ty,
  (forall v, is_argsort v (asort v)) -> 1 <= nrow m -> 1 <= size < ncol m ->
  (ty = Fluctuating -> no_negative_pixel m /\ some_nonzero_pixel m) ->
  exists c start s, add_stripe_artifact asort normal m size position strength ty = Ok c /\
    stripe_start (ncol m) size position start /\ used_strength strength s /\
    caller c = m /\ nrow (returned c) = nrow m /\ ncol (returned c) = ncol m /\
    (forall i j, in_rng (nrow m) i -> in_rng (ncol m) j -> ~ (start <= j < start + size) -> px (returned c) i j = px m i j) /\
    (forall j, start <= j < start + size ->
      match ty with
      | FullOrOther => forall i, in_rng (nrow m) i -> (px (returned c) i j == (1 - s) * px m i j)%Q
      | Dead => forall v i, largest m v -> in_rng (nrow m) i -> (px (returned c) i j == s * v)%Q
      | Fluctuating => exists deviation, (deviation * nonzero_count m == s * pixel_sum m)%Q /\
          forall i, in_rng (nrow m) i -> (px (returned c) i j == px m i j + normal 0 deviation i (j - start)%Z)%Q
      | Partial => exists rank, ranking m j rank /\
          forall k, in_rng (nrow m) k -> exists f, fade s (nrow m) k f /\ (1 - s <= f <= 1)%Q /\ (px (returned c) (rank k) j == f * px m (rank k) j)%Q
      end).
Proof.
  intros asort normal m size pos str ty Hs Hr Hz Hf. destruct (strength_clip str) as (U & S1).
  destruct (stripe_spec asort Hs normal m size pos str ty Hr Hz) as (c & E & K & V1 & V2 & V3 & V4).
  { intros ->. destruct (Hf eq_refl). apply deviation_nonneg; [assumption|apply S1]. }
  exists c, (clipZ pos 0 (ncol m - size - 1)), (clipQ str 0 1).
  split; [exact E|]. split; [apply start_clip, Hz|]. split; [exact U|]. split; [exact K|]. split; [exact V1|]. split; [exact V2|]. split; [exact V3|].
  intros j Hj. specialize (V4 j Hj). destruct ty.
  - destruct V4 as (rank & R & H). exists rank. split; [exact R|]. intros k Hk. exists (partial_ratio (clipQ str 0 1) (nrow m) k).
    destruct (ratio_fade (clipQ str 0 1) (nrow m) k S1 Hk) as (F1 & F2). split; [exact F1|]. split; [exact F2|]. rewrite (H k Hk). ring.
  - intros v i (L1 & a & b & Ha & Hb & Ev) Hi. rewrite (V4 i Hi).
    destruct (img_max_spec m Hr ltac:(lia)) as (M1 & a' & b' & Ha' & Hb' & Ev').
    assert (E2 : (img_max m == v)%Q). { apply Qle_antisym; [rewrite Ev'; apply L1; assumption|rewrite Ev; apply M1; assumption]. }
    rewrite E2. reflexivity.
  - exists (nonzero_mean m * clipQ str 0 1)%Q. destruct (Hf eq_refl) as (_ & NZ). assert (P := count_pos m NZ). split; [|exact V4].
    unfold nonzero_mean, pixel_sum, nonzero_count in *. field. lra.
  - exact V4.
Qed.
Print Assumptions stripe_artifact_in_its_columns_partial.

(** a requested position that leaves room for the whole stripe is not always used: [position + size] = width is moved
    by one column, so that the last column is never part of any stripe *)
Theorem stripe_position_honoured_refuted :
  ~ (forall asort normal m size position strength c, (forall v, is_argsort v (asort v)) -> 1 <= nrow m -> 1 <= size < ncol m ->
       0 <= position -> position + size <= ncol m ->
       add_stripe_artifact asort normal m size position strength FullOrOther = Ok c ->
       forall i j, in_rng (nrow m) i -> in_rng (ncol m) j -> ~ (position <= j < position + size) -> (px (returned c) i j == px m i j)%Q).
Proof.
  intros H.
  assert (A : exists asort : argsort_fn, forall v, is_argsort v (asort v)).
  { exact argsort_exists. }
  destruct A as (asort & Hs).
  set (m := mkimg 1 3 (fun _ _ => 1%Q)).
  destruct (stripe_artifact_in_its_columns_partial asort (fun _ _ _ _ => 0%Q) m 1 2 1 FullOrOther Hs) as (c & start & s & E & St & U & K & V1 & V2 & V3 & V4);
    [cbn; lia|cbn; lia|discriminate|].
  specialize (H asort (fun _ _ _ _ => 0%Q) m 1 2 1%Q c Hs ltac:(cbn; lia) ltac:(cbn; lia) ltac:(lia) ltac:(cbn; lia) E 0 1 ltac:(unfold in_rng; cbn; lia) ltac:(unfold in_rng; cbn; lia) ltac:(lia)).
  change (ncol m) with 3 in St. unfold stripe_start in St. assert (start = 1) by (destruct St; lia). subst start.
  specialize (V4 1 ltac:(lia) 0 ltac:(unfold in_rng; cbn; lia)). cbn iota beta in V4. destruct U as (U & _). rewrite U in V4 by lra.
  rewrite V4 in H. cbn in H. lra.
Qed.
Print Assumptions stripe_position_honoured_refuted.
Theorem stripe_never_reaches_last_column : forall asort normal m size position strength ty c,
  (forall v, is_argsort v (asort v)) -> 1 <= nrow m -> 1 <= size < ncol m ->
  (ty = Fluctuating -> no_negative_pixel m /\ some_nonzero_pixel m) ->
  add_stripe_artifact asort normal m size position strength ty = Ok c ->
  forall i, in_rng (nrow m) i -> px (returned c) i (ncol m - 1) = px m i (ncol m - 1).
Proof.
  intros asort normal m size pos str ty c Hs Hr Hz Hf E i Hi.
  destruct (stripe_artifact_in_its_columns_partial asort normal m size pos str ty Hs Hr Hz Hf) as (c' & start & s & E' & St & _ & _ & _ & _ & V & _).
  rewrite E in E'. injection E' as <-. destruct St as (St & _). apply V; [exact Hi|unfold in_rng; lia|lia].
Qed.
Print Assumptions stripe_never_reaches_last_column.
(** a stripe as wide as the sinogram or wider is rejected, except a dead stripe, which is then not added at all *)
Theorem stripe_too_wide : forall asort normal m size position strength,
  1 <= nrow m -> 1 <= ncol m <= size -> 2 <= size ->
  add_stripe_artifact asort normal m size position strength FullOrOther = Err ValueError /\
  add_stripe_artifact asort normal m size position strength Partial = Err ValueError /\
  (size = ncol m -> exists c, add_stripe_artifact asort normal m size position strength Dead = Ok c /\ caller c = m /\ img_eq (returned c) m).
Proof.
  intros asort normal m size pos str H1 H2 H3.
  split; [apply too_wide; auto; lia|]. split; [apply too_wide; auto; lia|]. intros ->. apply dead_full_width; lia.
Qed.
Print Assumptions stripe_too_wide.
(** no stripe at all: strength 0 of a full stripe; a partial stripe with strength at most 1 / (number of rows) *)
Theorem stripe_without_effect : forall asort normal m size position strength ty,
  (forall v, is_argsort v (asort v)) -> 1 <= nrow m -> 1 <= size < ncol m ->
  (ty = FullOrOther /\ (strength <= 0)%Q \/ ty = Partial /\ (strength * inject_Z (nrow m) <= 1)%Q) ->
  exists c, add_stripe_artifact asort normal m size position strength ty = Ok c /\ img_Qeq (returned c) m.
Proof.
  intros asort normal m size pos str ty Hs Hr Hz Hty. destruct (strength_clip str) as ((U1 & U2 & U3) & S1).
  assert (N1 : (1 <= inject_Z (nrow m))%Q) by (change 1%Q with (inject_Z 1); rewrite <- Zle_Qle; exact Hr).
  destruct (stripe_spec asort Hs normal m size pos str ty Hr Hz) as (c & E & K & V1 & V2 & V3 & V4).
  { intros ->. destruct Hty as [ [? _] | [? _] ]; discriminate. }
  exists c. split; [exact E|]. split; [exact V1|]. split; [exact V2|]. intros i j Hi Hj. rewrite V1 in Hi. rewrite V2 in Hj.
  set (p := clipZ pos 0 (ncol m - size - 1)) in *.
  destruct (Z_le_dec p j) as [A|A]; [destruct (Z_lt_dec j (p + size)) as [B|B]|].
  2:{ rewrite V3 by (assumption || lia). reflexivity. }
  2:{ rewrite V3 by (assumption || lia). reflexivity. }
  specialize (V4 j (conj A B)). destruct Hty as [ [-> L] | [-> L] ].
  - rewrite (V4 i Hi). assert (Z : (clipQ str 0 1 == 0)%Q) by (destruct (Qlt_le_dec str 0); [auto|rewrite U1 by lra; lra]). rewrite Z. ring.
  - destruct V4 as (rank & (R1 & R2 & R3) & H). destruct (inj_surj (nrow m) rank R1 R2 i Hi) as (k & Hk & <-).
    rewrite (H k Hk). rewrite weak_ratio; [ring|exact S1| |exact Hk].
    destruct (Qlt_le_dec str 0) as [G|G]; [rewrite U2 by exact G; lra|].
    destruct (Qlt_le_dec 1 str) as [G2|G2]; [exfalso; nra|]. rewrite U1 by lra. exact L.
Qed.
Print Assumptions stripe_without_effect.

(** a sinogram of 3 rows and 4 columns with a partial stripe of strength 1/2 in columns 1 and 2: in column 1 the
    values 3, 1, 2 become 3/2, 1, 2 *)
Definition ex_m : img Q := mkimg 3 4 (fun i j => if j =? 1 then (if i =? 0 then 3 else if i =? 1 then 1 else 2) else 5)%Q.
Definition ex_values : list (Z * Z * Q) :=
  ((0, 0, 5%Q) :: (0, 1, 3 # 2) :: (1, 1, 1%Q) :: (2, 1, 2%Q) :: (0, 2, 5%Q) :: (2, 2, 5 # 2) :: (2, 3, 5%Q) :: nil).
Example ex_stripe :
  match add_stripe_artifact insertion_argsort (fun _ _ _ _ => 0%Q) ex_m 2 1 (1 # 2) Partial with
  | Ok c => List.forallb (fun ij => Qeq_bool (px (returned c) (fst (fst ij)) (snd (fst ij))) (snd ij)) ex_values
  | Err _ => false
  end = true.
Proof. vm_compute. reflexivity. Qed.
Example ex_hyps : (forall v, is_argsort v (insertion_argsort v)) /\ 1 <= nrow ex_m /\ 1 <= 2 < ncol ex_m /\ no_negative_pixel ex_m /\ some_nonzero_pixel ex_m.
Proof.
  split; [exact insertion_argsort_ok|]. split; [cbn; lia|]. split; [cbn; lia|]. split.
  { intros i j _ _. cbn. destruct (j =? 1), (i =? 0), (i =? 1); lra. }
  exists 0, 0; split; [unfold in_rng; cbn; lia|]; split; [unfold in_rng; cbn; lia|]; cbn; lra.
Qed.
