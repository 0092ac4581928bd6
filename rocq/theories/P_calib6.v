(** Proofs about selecting dots, centres of mass and distances. *)
From Coq Require Import Reals Lra ZArith Lia Bool List Permutation. Import ListNotations.
From Verif Require Import Np P_Np M_phase_R P_phase_R M_corr P_corr M_simR S_simR P_simR M_calib S_calib P_calib5.
Open Scope Z_scope.

Lemma int_part_le x n : Int_part x <= n <-> (x < IZR n + 1)%R.
Proof.
  destruct (base_Int_part x) as (A & B). split; intros H.
  - apply IZR_le in H. lra.
  - apply Z.lt_succ_r. apply lt_IZR. rewrite succ_IZR. lra.
Qed.
Lemma int_part_ge x n : n <= Int_part x <-> (IZR n <= x)%R.
Proof.
  destruct (base_Int_part x) as (A & B). split; intros H.
  - apply IZR_le in H. lra.
  - apply Z.lt_succ_r. apply lt_IZR. rewrite succ_IZR. lra.
Qed.
Lemma keep_range d r n : (1 <= d)%R -> (0 <= r <= 1)%R -> 1 <= n ->
  (Z.max (rtrunc (d - r * d)) 1 <=? n) && (n <=? Z.max (rtrunc (d + r * d)) 1) = true <-> (d - r * d - 1 < IZR n <= d + r * d)%R.
Proof.
  intros Hd Hr Hn. assert (P : (0 <= r * d)%R) by (apply Rmult_le_pos; lra). assert (P2 : (r * d <= 1 * d)%R) by (apply Rmult_le_compat_r; lra).
  unfold rtrunc. destruct (Rle_dec 0 (d - r * d)) as [_|X]; [|exfalso; lra]. destruct (Rle_dec 0 (d + r * d)) as [_|X]; [|exfalso; lra].
  assert (I := int_part_ge (d + r * d) 1). assert (I1 : 1 <= Int_part (d + r * d)) by (apply I; lra).
  rewrite andb_true_iff, !Z.leb_le. rewrite (Z.max_l (Int_part (d + r * d)) 1) by exact I1. rewrite int_part_ge.
  assert (J : Z.max (Int_part (d - r * d)) 1 <= n <-> Int_part (d - r * d) <= n) by lia. rewrite J, int_part_le. split; intros (A & B); split; lra.
Qed.
Lemma dot_at_least_one m p n : white m p -> dot_pixels m p n -> 1 <= n.
Proof. intros Hp (l & _ & I & <-). assert (H : In p l) by (apply I, dot_here, Hp). destruct l; [contradiction|cbn [length]; lia]. Qed.

(** ** sums over the white pixels *)
Definition white_list (m : img Z) : list (Z * Z) := filter (fun p => negb (px m (fst p) (snd p) =? 0)) (grid (nrow m) (ncol m)).
Lemma white_list_In m p : In p (white_list m) <-> white m p.
Proof. unfold white_list, white, inside. rewrite filter_In, grid_In, negb_true_iff, Z.eqb_neq. reflexivity. Qed.
Lemma white_sum m f : binary m -> zsum2 (nrow m) (ncol m) (fun i j => f i j * px m i j) = lsum (map (fun p => f (fst p) (snd p)) (white_list m)).
Proof.
  intros HB. rewrite zsum2_grid. rewrite (lsum_filter _ (fun p => negb (px m (fst p) (snd p) =? 0))).
  - fold (white_list m). f_equal. apply map_ext_in. intros p Hp. apply white_list_In in Hp. rewrite (white_one m HB p Hp). lia.
  - intros p _ E. rewrite negb_false_iff, Z.eqb_eq in E. rewrite E. lia.
Qed.
Lemma zsum2_ext h w f g : (forall i j, in_rng h i -> in_rng w j -> f i j = g i j) -> zsum2 h w f = zsum2 h w g.
Proof. intros H. rewrite !zsum2_grid. f_equal. apply map_ext_in. intros p Hp. apply grid_In in Hp. apply H; apply Hp. Qed.
Lemma com_ext m m' : nrow m' = nrow m -> ncol m' = ncol m -> (forall i j, in_rng (nrow m) i -> in_rng (ncol m) j -> px m' i j = px m i j) -> center_of_mass m' = center_of_mass m.
Proof.
  intros E1 E2 H. unfold center_of_mass. rewrite E1, E2.
  rewrite (zsum2_ext _ _ (px m') (px m)) by exact H. rewrite (zsum2_ext _ _ (fun i j => i * px m' i j) (fun i j => i * px m i j)) by (intros; rewrite H by assumption; reflexivity).
  rewrite (zsum2_ext _ _ (fun i j => j * px m' i j) (fun i j => j * px m i j)) by (intros; rewrite H by assumption; reflexivity). reflexivity.
Qed.
Lemma com_white m : binary m -> let n := Z.of_nat (length (white_list m)) in
  center_of_mass m = if n =? 0 then Err ZeroDivisionError else Ok (IZR (lsum (map fst (white_list m))) / IZR n, IZR (lsum (map snd (white_list m))) / IZR n)%R.
Proof.
  intros HB n. unfold center_of_mass. rewrite (white_sum m (fun i j => i) HB), (white_sum m (fun i j => j) HB).
  assert (E : zsum2 (nrow m) (ncol m) (px m) = n).
  { rewrite (zsum2_ext _ _ _ (fun i j => 1 * px m i j)) by (intros; lia). rewrite (white_sum m (fun _ _ => 1) HB). apply lsum_ones. reflexivity. }
  rewrite E. reflexivity.
Qed.
Lemma lsum_shift l d : lsum (map (fun x => x + d) l) = lsum l + d * Z.of_nat (length l).
Proof. induction l as [|a l IH]; cbn [map length]; [unfold lsum; cbn; lia|]. rewrite !lsum_cons, IH. lia. Qed.
Lemma com_moved m1 m2 dy dx c1 : binary m1 -> binary m2 -> moved m1 m2 dy dx -> center_of_mass m1 = Ok c1 ->
  center_of_mass m2 = Ok (fst c1 + IZR dy, snd c1 + IZR dx)%R.
Proof.
  intros B1 B2 (F & G) E. rewrite com_white in E |- * by assumption. cbv zeta in *.
  assert (P : Permutation (white_list m2) (map (fun p => (fst p + dy, snd p + dx)) (white_list m1))).
  { apply same_members; [apply NoDup_filter, grid_NoDup|apply FinFun.Injective_map_NoDup; [|apply NoDup_filter, grid_NoDup]|].
    - intros (a & b) (c & d) X. cbn [fst snd] in X. injection X as X1 X2. f_equal; lia.
    - intros p. rewrite white_list_In, in_map_iff. split.
      + intros W. exists (fst p - dy, snd p - dx). split; [destruct p; cbn [fst snd]; f_equal; lia|]. apply white_list_In, G, W.
      + intros (q & <- & Hq). apply F, white_list_In, Hq. }
  rewrite (lsum_perm _ _ (Permutation_map fst P)), (lsum_perm _ _ (Permutation_map snd P)), (Permutation_length P), map_length, !map_map. cbn [fst snd].
  rewrite <- (map_map fst (fun x => x + dy)), <- (map_map snd (fun x => x + dx)), !lsum_shift, !map_length.
  destruct (Z.eqb_spec (Z.of_nat (length (white_list m1))) 0) as [Z|Z]; [discriminate|].
  assert (E' : c1 = (IZR (lsum (map fst (white_list m1))) / IZR (Z.of_nat (length (white_list m1))), IZR (lsum (map snd (white_list m1))) / IZR (Z.of_nat (length (white_list m1))))%R) by congruence.
  rewrite E'. cbn [fst snd]. set (n := Z.of_nat (length (white_list m1))) in *. assert (NZ : IZR n <> 0%R) by (apply not_0_IZR; exact Z).
  rewrite !plus_IZR, !mult_IZR. f_equal. f_equal; field; exact NZ.
Qed.
(** ** a single dot is selected *)
Section Single.
Variables (m lab : img Z) (num : Z) (label : img Z -> img Z * Z) (find_objects : img Z -> Z -> list box) (median : list Z -> R).
Hypotheses (HB : binary m) (HE : label m = (lab, num)) (HL : labelled m lab num) (HO : objects lab num (find_objects lab num))
  (Hmed : forall n, median [n] = IZR n) (p0 : Z * Z) (Hp0 : white m p0) (Hone : forall p q, white m p -> white m q -> same_dot m p q).
Lemma one_label : num = 1.
Proof using All.
  destruct HL as (_ & _ & Hn & H1 & H2 & H3). assert (A := proj1 (H1 p0 (proj1 Hp0))).
  assert (L : forall k, 1 <= k <= num -> k = px lab (fst p0) (snd p0)).
  { intros k Hk. destruct (H2 k Hk) as (q & Hq & <-). symmetry. apply H3; [assumption..|]. apply Hone; assumption. }
  assert (N : px lab (fst p0) (snd p0) <> 0) by (intros Z; apply (proj2 Hp0), (H1 p0 (proj1 Hp0)), Z).
  assert (A1 := L 1 ltac:(lia)). assert (A2 := L num ltac:(lia)). lia.
Qed.
Lemma one_size opt : exists n, get_dot_size label median m opt = Ok (IZR n) /\ 1 <= n /\ forall p, white m p -> dot_pixels m p n.
Proof using All.
  unfold get_dot_size. rewrite HE, one_label. change (zrange 1 1) with [1]. cbn [map]. set (n := dot_sum m lab 1). exists n.
  assert (S : forall p, white m p -> dot_pixels m p n).
  { intros p Hp. assert (I := proj1 (sums_In m lab num HB HL n)). rewrite one_label in I. change (zrange 1 1) with [1] in I. cbn [map In] in I. destruct (I (or_introl eq_refl)) as (q & Hq & l & L1 & L2 & L3).
    exists l. split; [exact L1|]. split; [|exact L3]. intros r. rewrite L2. split; intros X; apply Hone; try exact Hp; try exact Hq; apply (same_dot_white _ _ _ X). }
  split; [|split; [exact (dot_at_least_one m p0 n Hp0 (S p0 Hp0))|exact S] ].
  f_equal. destruct opt; cbn [fold_left]; [apply Hmed| |reflexivity|reflexivity]. unfold zmean. cbn [fold_left length Z.of_nat Pos.of_succ_nat]. rewrite Z.add_0_l. field.
Qed.
Lemma one_selected opt d : get_dot_size label median m opt = Ok d -> exists c, center_of_mass m = Ok c /\ center_of_mass (select_dot_based_size label find_objects m d (1 / 100)) = Ok c.
Proof using All.
  intros E. destruct (one_size opt) as (n & En & Hn & Hd). rewrite En in E. assert (Ed : d = IZR n) by congruence.
  assert (C : exists c, center_of_mass m = Ok c).
  { rewrite (com_white m HB). assert (I := proj2 (white_list_In m p0) Hp0). destruct (white_list m) as [|a l]; [contradiction|]. cbn [length]. destruct (Z.eqb_spec (Z.of_nat (S (length l))) 0); [lia|]. eexists. reflexivity. }
  destruct C as (c & C). exists c. split; [exact C|]. rewrite <- C. apply com_ext.
  - unfold select_dot_based_size. rewrite HE. reflexivity.
  - unfold select_dot_based_size. rewrite HE. reflexivity.
  - intros i j Hi Hj. destruct (HB (i, j) (conj Hi Hj)) as [Z|Z]; cbn [fst snd] in Z; rewrite Z; [apply selected_black; exact Z|].
    assert (W : white m (i, j)) by (split; [split; assumption|cbn [fst snd]; lia]).
    assert (S := selected_pixel m lab num (find_objects lab num) HB HL HO (fun p q Hp Hq _ => Hone p q Hp Hq) label find_objects d (1 / 100) (i, j) n HE eq_refl W (Hd _ W)). cbv zeta in S. cbn [fst snd] in S.
    rewrite S. assert (Hnr : (1 <= IZR n)%R) by (apply IZR_le; exact Hn). rewrite (proj2 (keep_range d (1 / 100) n ltac:(lra) ltac:(lra) Hn)); [reflexivity|]. lra.
Qed.
End Single.
