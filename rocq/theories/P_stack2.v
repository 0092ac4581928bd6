(** Proofs about get_image_stack and get_reference_sample_stacks. *)
From Coq Require Import QArith Qfield Lqa Permutation Lia Bool.
From Verif Require Import Np P_Np M_io_load S_io_load P_io_load M_stack S_stack P_stack.
From Coq Require Import List. Import ListNotations.
Open Scope Z_scope.

Definition used (num_use : option Z) (n : Z) : Z := match num_use with None => n | Some u => Z.max 1 (Z.min u n) end.
Lemma used_clip num_use n : 1 <= n -> match num_use with None => n | Some u => clipZ u 1 n end = used num_use n /\ 1 <= used num_use n <= n.
Proof. intros H. unfold used, clipZ. destruct num_use; lia. Qed.
Lemma lget_nth {A} (l : list A) k a : nth_error l (Z.to_nat k) = Some a -> 0 <= k -> lget l k = Ok a.
Proof.
  intros H Hk. assert (L : (Z.to_nat k < length l)%nat) by (apply nth_error_Some; congruence). unfold lget. rewrite py_idx_in by lia. cbn [bindr]. rewrite H. reflexivity.
Qed.
Lemma fixed_pair (z : bool) u : fixed_stack z u = if z then fixed_stack true u else u.
Proof. destruct z; reflexivity. Qed.
(** the shape read from the first path *)
Lemma asked_shape average idx s h w m : image_asked average idx s h w m ->
  (if is_folder s then match tif_files s with m :: _ => Ok (nrow m, ncol m) | [] => Err ValueError end else hdf_shape s) = Ok (h, w).
Proof.
  destruct s as [files|f|v|]; cbn [image_asked is_folder tif_files hdf_shape]; [| | |contradiction].
  - intros (NE & Sh & _). destruct files as [|f fs]; [congruence|]. destruct (Sh f (or_introl eq_refl)) as (-> & ->). reflexivity.
  - intros (-> & -> & _). reflexivity.
  - intros (-> & -> & _). reflexivity.
Qed.
Lemma image_stack_ok l (m : Z -> Z -> Z -> Q) idx has_key average crop flat dark num_use h w :
  l <> [] -> ((forall s, In s l -> is_folder s = true) \/ has_key = true /\ forall s, In s l -> is_folder s = false) ->
  (forall k s, nth_error l (Z.to_nat k) = Some s -> 0 <= k -> image_asked average idx s h w (m k)) ->
  valid_crop h w crop -> plain_field h w flat -> plain_field h w dark ->
  exists u, (forall z, get_image_stack idx (ListOfPaths l) has_key average crop (as_array flat) (as_array dark) num_use z = Ok (fixed_stack z u)) /\
    corrected_stack flat dark h w crop (used num_use (Z.of_nat (length l))) m u.
Proof.
  intros NE Kind Asked HC HF HD. destruct crop as [ [ [ct cb] cl] cr].
  destruct l as [|s0 l']; [congruence|]. set (l := s0 :: l') in *. assert (N1 : 1 <= Z.of_nat (length l)) by (unfold l; cbn [length]; lia).
  destruct (used_clip num_use _ N1) as (U1 & U2). set (n := used num_use (Z.of_nat (length l))) in *.
  assert (F0 : forall s, In s l -> is_folder s = is_folder s0).
  { intros s Hs. destruct Kind as [K|(_ & K)]; rewrite (K s Hs); symmetry; apply K; left; reflexivity. }
  destruct (mapr_list (fun k c => exists u, c = normalised (prep h w ct cb cl cr flat dark) u /\ forall i j, (px u i j == m (Z.of_nat k) (ct + i)%Z (cl + j)%Z)%Q)
    (fun i => do s <- lget l i; do m <- (if is_folder s0 then one_tif else one_hdf) (prep h w ct cb cl cr flat dark) average idx s; Ok (normalised (prep h w ct cb cl cr flat dark) m)) n) as (ims & E & HL & H); [lia| |].
  { intros k Hk. destruct (nth_error l (Z.to_nat k)) as [s|] eqn:Es; [|apply nth_error_None in Es; lia].
    rewrite (lget_nth l k s Es) by lia. cbn [bindr]. rewrite <- (F0 s (nth_error_In _ _ Es)).
    destruct (one_ok h w ct cb cl cr flat dark HC HF HD average idx s (m k) (Asked k s Es ltac:(lia))) as (c & Ec & Hc). rewrite Ec. cbn [bindr].
    eexists. split; [reflexivity|]. exists c. split; [reflexivity|]. rewrite Z2Nat.id by lia. exact Hc. }
  exists (stack_of (prep h w ct cb cl cr flat dark) ims). split; [|apply stack_ok; try assumption; lia].
  intros z. unfold get_image_stack. fold l. rewrite U1. change (lget l 0) with (@Ok source s0). cbn [bindr].
  assert (K : negb (is_folder s0) && negb has_key = false). { destruct Kind as [K|(K & _)]; [rewrite (K s0 (or_introl eq_refl)); reflexivity|rewrite K, andb_false_r; reflexivity]. }
  rewrite K. rewrite (asked_shape average idx s0 h w (m 0) (Asked 0 s0 eq_refl ltac:(lia))). cbn [bindr fst snd].
  rewrite (prepare_ok h w ct cb cl cr flat dark HC HF HD). cbn [bindr]. rewrite E. reflexivity.
Qed.
Lemma ref_sam_ok refs sams (mr ms : Z -> Z -> Z -> Q) proj_idx crop flat dark num_use h w :
  refs <> [] -> length refs = length sams ->
  (forall k s, nth_error refs (Z.to_nat k) = Some s -> 0 <= k -> is_folder s = false /\ image_asked true None s h w (mr k)) ->
  (forall k s, nth_error sams (Z.to_nat k) = Some s -> 0 <= k -> (exists v, s = Data3 v) /\ image_asked false (Some proj_idx) s h w (ms k)) ->
  valid_crop h w crop -> plain_field h w flat -> plain_field h w dark ->
  exists u v, (forall z, get_reference_sample_stacks proj_idx (Some refs) sams crop (as_array flat) (as_array dark) num_use z = Ok (fixed_stack z u, fixed_stack z v)) /\
    corrected_stack flat dark h w crop (used num_use (Z.of_nat (length refs))) mr u /\ corrected_stack flat dark h w crop (used num_use (Z.of_nat (length refs))) ms v.
Proof.
  intros NE EL AR AS HC HF HD. destruct crop as [ [ [ct cb] cl] cr].
  destruct refs as [|s0 l']; [congruence|]. set (l := s0 :: l') in *. assert (N1 : 1 <= Z.of_nat (length l)) by (unfold l; cbn [length]; lia).
  destruct (used_clip num_use _ N1) as (U1 & U2). set (n := used num_use (Z.of_nat (length l))) in *. set (pr := prep h w ct cb cl cr flat dark).
  destruct (mapr_list (fun k (c : img Q * img Q) => (exists u, fst c = normalised pr u /\ forall i j, (px u i j == mr (Z.of_nat k) (ct + i)%Z (cl + j)%Z)%Q) /\ (exists u, snd c = normalised pr u /\ forall i j, (px u i j == ms (Z.of_nat k) (ct + i)%Z (cl + j)%Z)%Q))
    (fun i => do r <- lget l i; do s <- lget sams i; do rm <- ref_image pr r; do sm <- sam_image pr proj_idx s; Ok (normalised pr rm, normalised pr sm)) n) as (pairs & E & HL & H); [lia| |].
  { intros k Hk. destruct (nth_error l (Z.to_nat k)) as [r|] eqn:Er; [|apply nth_error_None in Er; lia].
    destruct (nth_error sams (Z.to_nat k)) as [s|] eqn:Es; [|apply nth_error_None in Es; lia].
    rewrite (lget_nth l k r Er), (lget_nth sams k s Es) by lia. cbn [bindr]. destruct (AR k r Er ltac:(lia)) as (R1 & R2). destruct (AS k s Es ltac:(lia)) as ((v & ->) & S2).
    destruct (one_ok h w ct cb cl cr flat dark HC HF HD _ _ _ _ R2) as (c & Ec & Hc). destruct (one_ok h w ct cb cl cr flat dark HC HF HD _ _ _ _ S2) as (c' & Ec' & Hc').
    assert (E1 : ref_image pr r = Ok c) by (rewrite R1 in Ec; destruct r; cbn [one_hdf] in Ec; try discriminate; exact Ec).
    assert (E2 : sam_image pr proj_idx (Data3 v) = Ok c') by exact Ec'. rewrite E1. cbn [bindr]. rewrite E2. cbn [bindr].
    eexists. split; [reflexivity|]. cbn [fst snd]. rewrite Z2Nat.id by lia. split; eexists; (split; [reflexivity|assumption]). }
  exists (stack_of pr (map fst pairs)), (stack_of pr (map snd pairs)). split; [|split; (apply stack_ok; try assumption; [lia|rewrite map_length; exact HL|])].
  - intros z. unfold get_reference_sample_stacks. fold l. rewrite EL, Nat.eqb_refl. cbn [negb]. rewrite <- EL, U1. change (lget l 0) with (@Ok source s0). cbn [bindr].
    destruct (AR 0 s0 eq_refl ltac:(lia)) as (R1 & R2). assert (SH := asked_shape _ _ _ _ _ _ R2). rewrite R1 in SH. rewrite SH. cbn [bindr fst snd]. rewrite (prepare_ok h w ct cb cl cr flat dark HC HF HD). cbn [bindr]. fold pr. rewrite E. reflexivity.
  - intros k c Hk. rewrite nth_error_map in Hk. destruct (nth_error pairs k) as [p|] eqn:Ep; [|discriminate]. inversion Hk; subst. apply (H k p Ep).
  - intros k c Hk. rewrite nth_error_map in Hk. destruct (nth_error pairs k) as [p|] eqn:Ep; [|discriminate]. inversion Hk; subst. apply (H k p Ep).
Qed.
