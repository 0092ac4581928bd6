(** Proofs about the dots of a binary image. *)
From Coq Require Import Reals Lra ZArith Lia Bool List Permutation. Import ListNotations.
From Verif Require Import Np P_Np M_phase_R P_phase_R M_corr P_corr M_simR S_simR P_simR M_calib S_calib.
Open Scope Z_scope.

Definition grid (h w : Z) : list (Z * Z) := flat_map (fun i => map (pair i) (zrange 0 w)) (zrange 0 h).
Lemma grid_In h w p : In p (grid h w) <-> in_rng h (fst p) /\ in_rng w (snd p).
Proof.
  unfold grid. rewrite in_flat_map. split.
  - intros (i & Hi & Hp). apply in_map_iff in Hp. destruct Hp as (j & <- & Hj). apply zrange_In in Hi. apply zrange_In in Hj. unfold in_rng. cbn [fst snd]. lia.
  - intros (Hi & Hj). exists (fst p). unfold in_rng in *. split; [apply zrange_In; lia|]. apply in_map_iff. exists (snd p). split; [destruct p; reflexivity|apply zrange_In; lia].
Qed.
Lemma NoDup_flat (l : list Z) w : NoDup l -> NoDup (flat_map (fun i => map (pair i) (zrange 0 w)) l).
Proof.
  induction 1 as [|a l Ha Hl IH]; [constructor|]. cbn [flat_map].
  assert (G : forall (l1 l2 : list (Z * Z)), NoDup l1 -> NoDup l2 -> (forall p, In p l1 -> ~ In p l2) -> NoDup (l1 ++ l2)).
  { induction l1 as [|b l1 IH1]; intros l2 H1 H2 H3; [exact H2|]. cbn [app]. inversion H1; subst. constructor.
    - rewrite in_app_iff. intros [X|X]; [contradiction|apply (H3 b); [left; reflexivity|exact X] ].
    - apply IH1; [assumption..|]. intros p Hp. apply H3. right. exact Hp. }
  apply G; [|exact IH|].
  - apply FinFun.Injective_map_NoDup; [intros u v E; congruence|apply zrange_NoDup].
  - intros p Hp Hq. apply in_map_iff in Hp. destruct Hp as (j & <- & _). apply in_flat_map in Hq. destruct Hq as (b & Hb & Hj). apply in_map_iff in Hj. destruct Hj as (k & E & _). inversion E; subst. contradiction.
Qed.
Lemma grid_NoDup h w : NoDup (grid h w).
Proof. apply NoDup_flat, zrange_NoDup. Qed.
Definition lsum (l : list Z) : Z := fold_left Z.add l 0.
Lemma fold_add_acc l : forall a, fold_left Z.add l a = a + fold_left Z.add l 0.
Proof. induction l as [|b l IH]; intros a; cbn [fold_left]; [lia|]. rewrite (IH (a + b)), (IH (0 + b)). lia. Qed.
Lemma lsum_cons a l : lsum (a :: l) = a + lsum l.
Proof. unfold lsum. cbn [fold_left]. rewrite fold_add_acc. lia. Qed.
Lemma lsum_app l1 l2 : lsum (l1 ++ l2) = lsum l1 + lsum l2.
Proof. induction l1 as [|a l IH]; cbn [app]; [unfold lsum; cbn; lia|]. rewrite !lsum_cons, IH. lia. Qed.
Lemma lsum_perm l1 l2 : Permutation l1 l2 -> lsum l1 = lsum l2.
Proof. induction 1; rewrite ?lsum_cons; lia. Qed.
Lemma zsum2_grid h w f : zsum2 h w f = lsum (map (fun p => f (fst p) (snd p)) (grid h w)).
Proof.
  unfold zsum2, lsum. f_equal. unfold grid. induction (zrange 0 h) as [|i l IH]; [reflexivity|]. cbn [flat_map]. rewrite map_app, <- IH, map_map. reflexivity.
Qed.
(** a sum of terms that vanish outside a list of positions *)
Lemma lsum_filter {A} (f : A -> Z) (c : A -> bool) l : (forall a, In a l -> c a = false -> f a = 0) -> lsum (map f l) = lsum (map f (filter c l)).
Proof.
  induction l as [|a l IH]; intros H; [reflexivity|]. cbn [map filter]. rewrite lsum_cons, IH by (intros b Hb; apply H; right; exact Hb).
  destruct (c a) eqn:E; [cbn [map]; rewrite lsum_cons; reflexivity|]. rewrite (H a) by (try (left; reflexivity); exact E). lia.
Qed.
Lemma lsum_ones {A} (f : A -> Z) l : (forall a, In a l -> f a = 1) -> lsum (map f l) = Z.of_nat (length l).
Proof. induction l as [|a l IH]; intros H; [reflexivity|]. cbn [map length]. rewrite lsum_cons, IH, H; [lia|left; reflexivity|intros; apply H; right; assumption]. Qed.
Lemma same_members {A} (l1 l2 : list A) : NoDup l1 -> NoDup l2 -> (forall a, In a l1 <-> In a l2) -> Permutation l1 l2.
Proof. intros. apply NoDup_Permutation; assumption. Qed.
(** a sum over the image of a function that is 1 on a set of pixels and 0 elsewhere *)
Lemma zsum2_count h w f l : NoDup l -> (forall p, In p l <-> (in_rng h (fst p) /\ in_rng w (snd p)) /\ f (fst p) (snd p) = 1) ->
  (forall p, in_rng h (fst p) /\ in_rng w (snd p) -> f (fst p) (snd p) = 0 \/ f (fst p) (snd p) = 1) -> zsum2 h w f = Z.of_nat (length l).
Proof.
  intros HN HI HB. rewrite zsum2_grid, (lsum_filter _ (fun p => f (fst p) (snd p) =? 1)).
  - rewrite lsum_ones by (intros p Hp; apply filter_In in Hp; apply Z.eqb_eq; apply Hp). f_equal. apply Permutation_length, same_members; [apply NoDup_filter, grid_NoDup|exact HN|].
    intros p. rewrite filter_In, grid_In, Z.eqb_eq. symmetry. apply HI.
  - intros p Hp E. apply grid_In in Hp. apply Z.eqb_neq in E. destruct (HB p Hp); [assumption|contradiction].
Qed.
Lemma same_dot_white m p q : same_dot m p q -> white m p /\ white m q.
Proof. induction 1 as [H|q r H IH Hr Ht]; [split; exact H|split; [apply IH|exact Hr] ]. Qed.
Lemma dot_unique m p n1 n2 : dot_pixels m p n1 -> dot_pixels m p n2 -> n1 = n2.
Proof.
  intros (l1 & N1 & I1 & <-) (l2 & N2 & I2 & <-). f_equal. apply Permutation_length, same_members; [assumption..|]. intros a. rewrite I1, I2. reflexivity.
Qed.
Section Dots.
Variables (m lab : img Z) (num : Z).
Hypotheses (HB : binary m) (HL : labelled m lab num).
Lemma label_same p q : white m p -> (same_dot m p q <-> inside m q /\ px lab (fst q) (snd q) = px lab (fst p) (snd p)).
Proof.
  destruct HL as (E1 & E2 & _ & H1 & H2 & H3). intros Hp. split.
  - intros H. destruct (same_dot_white _ _ _ H) as (_ & Hq). split; [apply Hq|]. symmetry. apply (H3 p q Hp Hq). exact H.
  - intros (Hq & E). apply H3; [exact Hp| |symmetry; exact E]. split; [exact Hq|]. destruct (H1 q Hq) as (_ & Z). destruct (H1 p (proj1 Hp)) as (_ & Z'). destruct Hp as (Hp1 & Hp2). intros C. apply Hp2, Z'. rewrite <- E. apply Z. exact C.
Qed.
Lemma white_one p : white m p -> px m (fst p) (snd p) = 1.
Proof. intros (H & N). destruct (HB p H); [contradiction|assumption]. Qed.
Definition dot_list (p : Z * Z) : list (Z * Z) := filter (fun q => px lab (fst q) (snd q) =? px lab (fst p) (snd p)) (grid (nrow m) (ncol m)).
Lemma dot_list_spec p : white m p -> NoDup (dot_list p) /\ forall q, In q (dot_list p) <-> same_dot m p q.
Proof.
  intros Hp. split; [apply NoDup_filter, grid_NoDup|]. intros q. rewrite (label_same p q Hp). unfold dot_list. rewrite filter_In, grid_In, Z.eqb_eq. reflexivity.
Qed.
Lemma dot_exists p : white m p -> dot_pixels m p (Z.of_nat (length (dot_list p))).
Proof. intros Hp. destruct (dot_list_spec p Hp) as (A & B). exists (dot_list p). split; [exact A|]. split; [exact B|reflexivity]. Qed.
Lemma dot_sum_size p n : white m p -> dot_pixels m p n -> dot_sum m lab (px lab (fst p) (snd p)) = n.
Proof.
  intros Hp (l & N & I & <-). unfold dot_sum. apply zsum2_count; [exact N| |].
  - intros q. rewrite I, (label_same p q Hp). split.
    + intros (A & B). split; [exact A|]. rewrite B, Z.eqb_refl. apply white_one. destruct (same_dot_white m p q) as (_ & W); [apply label_same; auto|exact W].
    + intros (A & B). split; [exact A|]. destruct (Z.eqb_spec (px lab (fst q) (snd q)) (px lab (fst p) (snd p))) as [E|E]; [exact E|discriminate].
  - intros q Hq. destruct (Z.eqb_spec (px lab (fst q) (snd q)) (px lab (fst p) (snd p))); [apply HB, Hq|left; reflexivity].
Qed.
Lemma sums_In n : In n (map (dot_sum m lab) (zrange 1 num)) <-> exists p, white m p /\ dot_pixels m p n.
Proof.
  assert (HL' := HL). destruct HL' as (E1 & E2 & _ & H1 & H2 & H3). rewrite in_map_iff. split.
  - intros (k & E & Hk). apply zrange_In in Hk. destruct (H2 k ltac:(lia)) as (p & Hp & <-). exists p. split; [exact Hp|]. rewrite <- E, (dot_sum_size p _ Hp (dot_exists p Hp)). apply dot_exists, Hp.
  - intros (p & Hp & Hn). exists (px lab (fst p) (snd p)). split; [apply dot_sum_size; assumption|]. apply zrange_In.
    destruct (H1 p (proj1 Hp)) as ((A & B) & Z). destruct Hp as (Hp1 & Hp2). destruct (Z.eq_dec (px lab (fst p) (snd p)) 0) as [C|C]; [exfalso; apply Hp2, Z, C|lia].
Qed.
End Dots.
Lemma fold_min_spec l : forall a, let v := fold_left Z.min l a in (v = a \/ In v l) /\ v <= a /\ forall w, In w l -> v <= w.
Proof.
  induction l as [|b l IH]; intros a; cbn [fold_left]; [cbv zeta; split; [left; reflexivity|split; [lia|contradiction] ]|]. destruct (IH (Z.min a b)) as (A & B & C). cbv zeta. split; [|split].
  - destruct A as [A|A]; [|right; right; exact A]. rewrite A. destruct (Z.min_spec a b) as [(_ & ->)|(_ & ->)]; [left; reflexivity|right; left; reflexivity].
  - lia.
  - intros w [<-|Hw]; [lia|apply C, Hw].
Qed.
Lemma fold_zmax_spec l : forall a, let v := fold_left Z.max l a in (v = a \/ In v l) /\ a <= v /\ forall w, In w l -> w <= v.
Proof.
  induction l as [|b l IH]; intros a; cbn [fold_left]; [cbv zeta; split; [left; reflexivity|split; [lia|contradiction] ]|]. destruct (IH (Z.max a b)) as (A & B & C). cbv zeta. split; [|split].
  - destruct A as [A|A]; [|right; right; exact A]. rewrite A. destruct (Z.max_spec a b) as [(_ & ->)|(_ & ->)]; [right; left; reflexivity|left; reflexivity].
  - lia.
  - intros w [<-|Hw]; [lia|apply C, Hw].
Qed.
Lemma dot_size_extreme label median m lab num : binary m -> label m = (lab, num) -> labelled m lab num -> (exists p, white m p) ->
  exists lo hi, get_dot_size label median m Minimum = Ok (IZR lo) /\ get_dot_size label median m Maximum = Ok (IZR hi) /\
    (exists p, white m p /\ dot_pixels m p lo) /\ (exists p, white m p /\ dot_pixels m p hi) /\ forall p n, white m p -> dot_pixels m p n -> lo <= n <= hi.
Proof.
  intros HB E HL (p & Hp). unfold get_dot_size. rewrite E. assert (S := sums_In m lab num HB HL). set (sums := map (dot_sum m lab) (zrange 1 num)) in *.
  assert (Hin : In (Z.of_nat (length (dot_list m lab p))) sums) by (apply S; exists p; split; [exact Hp|apply (dot_exists m lab num); assumption]).
  destruct sums as [|s rest]; [contradiction|]. exists (fold_left Z.min rest s), (fold_left Z.max rest s).
  destruct (fold_min_spec rest s) as (A1 & A2 & A3). destruct (fold_zmax_spec rest s) as (B1 & B2 & B3). split; [reflexivity|]. split; [reflexivity|]. split; [|split].
  - apply S. destruct A1 as [A1|A1]; [left; symmetry; exact A1|right; exact A1].
  - apply S. destruct B1 as [B1|B1]; [left; symmetry; exact B1|right; exact B1].
  - intros r n Hr Hn. assert (I : In n (s :: rest)) by (apply S; exists r; auto). destruct I as [<-|I]; [lia|]. specialize (A3 n I). specialize (B3 n I). lia.
Qed.
Lemma dot_size_none label median m lab num opt : binary m -> label m = (lab, num) -> labelled m lab num -> (forall p, ~ white m p) ->
  get_dot_size label median m opt = Err ValueError.
Proof.
  intros HB E HL HN. unfold get_dot_size. rewrite E. assert (S := sums_In m lab num HB HL). set (sums := map (dot_sum m lab) (zrange 1 num)) in *.
  destruct sums as [|s rest]; [reflexivity|]. destruct (proj1 (S s) (or_introl eq_refl)) as (p & Hp & _). exfalso. exact (HN p Hp).
Qed.

Section Select.
Variables (m lab : img Z) (num : Z) (boxes : list box).
Hypotheses (HB : binary m) (HL : labelled m lab num) (HO : objects lab num boxes).
Hypothesis Hsep : forall p q, white m p -> white m q -> in_rectangle m p q -> same_dot m p q.
Lemma box_inside k r0 r1 c0 c1 : 1 <= k <= num -> nth (Z.to_nat (k - 1)) boxes (0, 0, 0, 0) = (r0, r1, c0, c1) ->
  0 <= r0 /\ r1 <= nrow m /\ 0 <= c0 /\ c1 <= ncol m.
Proof using All.
  intros Hk E. destruct HL as (E1 & E2 & _). destruct HO as (_ & H). destruct (H k r0 r1 c0 c1 Hk E) as (_ & (a & (A1 & A2) & A3 & A4) & (b & (B1 & B2) & B3 & B4) & (c & (C1 & C2) & C3 & C4) & (d & (D1 & D2) & D3 & D4)).
  unfold in_rng in *. lia.
Qed.
Lemma box_of_dot p r0 r1 c0 c1 : white m p -> nth (Z.to_nat (px lab (fst p) (snd p) - 1)) boxes (0, 0, 0, 0) = (r0, r1, c0, c1) ->
  forall q, white m q -> ((r0 <= fst q < r1 /\ c0 <= snd q < c1) <-> same_dot m p q).
Proof using All.
  intros Hp E q Hq. assert (HL' := HL). destruct HL' as (E1 & E2 & _ & H1 & H2 & H3). destruct HO as (_ & H).
  assert (Hk : 1 <= px lab (fst p) (snd p) <= num).
  { destruct (H1 p (proj1 Hp)) as ((A & B) & Z). destruct Hp as (Hp1 & Hp2). destruct (Z.eq_dec (px lab (fst p) (snd p)) 0) as [C|C]; [exfalso; apply Hp2, Z, C|lia]. }
  destruct (H _ r0 r1 c0 c1 Hk E) as (A & (a & A1 & A2 & A3) & (b & B1 & B2 & B3) & (c & C1 & C2 & C3) & (d & D1 & D2 & D3)).
  assert (I : forall z, inside lab z -> inside m z) by (intros z (Z1 & Z2); split; [rewrite <- E1|rewrite <- E2]; assumption).
  split.
  - intros (R & C). apply Hsep; [assumption..|]. exists a, b, c, d.
    repeat split; try (apply (label_same m lab num HL p); [exact Hp|split; [apply I; assumption|assumption] ]); lia.
  - intros S. apply (label_same m lab num HL p) in S; [|exact Hp]. apply A; [|apply S]. destruct S as ((S1 & S2) & _). split; [rewrite E1|rewrite E2]; assumption.
Qed.
Lemma box_sum_size p n : white m p -> dot_pixels m p n -> box_sum m (nth (Z.to_nat (px lab (fst p) (snd p) - 1)) boxes (0, 0, 0, 0)) = n.
Proof using All.
  intros Hp (l & N & I & <-). destruct (nth (Z.to_nat (px lab (fst p) (snd p) - 1)) boxes (0, 0, 0, 0)) as (((r0 & r1) & c0) & c1) eqn:E.
  assert (Hk : 1 <= px lab (fst p) (snd p) <= num).
  { destruct HL as (_ & _ & _ & H1 & _). destruct (H1 p (proj1 Hp)) as ((A & B) & Z). destruct Hp as (Hp1 & Hp2). destruct (Z.eq_dec (px lab (fst p) (snd p)) 0) as [C|C]; [exfalso; apply Hp2, Z, C|lia]. }
  destruct (box_inside _ _ _ _ _ Hk E) as (R0 & R1 & C0 & C1). assert (D := box_of_dot p r0 r1 c0 c1 Hp E).
  unfold box_sum. set (l' := map (fun q : Z * Z => (fst q - r0, snd q - c0)) l). replace (length l) with (length l') by (apply map_length). apply zsum2_count.
  - apply FinFun.Injective_map_NoDup; [|exact N]. intros (u1 & u2) (v1 & v2) X. cbn [fst snd] in X. injection X as X1 X2. f_equal; lia.
  - intros (i & j). unfold l'. rewrite in_map_iff. cbn [fst snd]. split.
    + intros ((u & v) & X & Hu). cbn [fst snd] in X. injection X as <- <-. apply I in Hu. assert (W := proj2 (same_dot_white _ _ _ Hu)). apply (D _ W) in Hu. cbn [fst snd] in Hu.
      split; [unfold in_rng; lia|]. replace (r0 + (u - r0)) with u by lia. replace (c0 + (v - c0)) with v by lia. exact (white_one m HB (u, v) W).
    + intros ((Hi & Hj) & V). exists (r0 + i, c0 + j). cbn [fst snd]. split; [f_equal; lia|]. apply I.
      assert (W : white m (r0 + i, c0 + j)). { split; [split; cbn [fst snd]; unfold in_rng in *; lia|cbn [fst snd]; lia]. }
      apply (D _ W). cbn [fst snd]. unfold in_rng in *. lia.
  - intros (i & j) (Hi & Hj). cbn [fst snd] in *. apply (HB (r0 + i, c0 + j)). split; cbn [fst snd]; unfold in_rng in *; lia.
Qed.
Lemma in_box_spec b i j : in_box b i j = true <-> (fst (fst (fst b)) <= i < snd (fst (fst b))) /\ snd (fst b) <= j < snd b.
Proof. destruct b as (((r0 & r1) & c0) & c1). cbn [in_box fst snd]. rewrite !andb_true_iff, !Z.leb_le, !Z.ltb_lt. lia. Qed.
Lemma selected_pixel label find_objects dot_size ratio p n : label m = (lab, num) -> find_objects lab num = boxes -> white m p -> dot_pixels m p n ->
  let out := select_dot_based_size label find_objects m dot_size ratio in
  px out (fst p) (snd p) = if (Z.max (rtrunc (dot_size - ratio * dot_size)) 1 <=? n) && (n <=? Z.max (rtrunc (dot_size + ratio * dot_size)) 1) then 1 else 0.
Proof using All.
  intros E F Hp Hn out. unfold out, select_dot_based_size. rewrite E, F. cbn [px]. set (lo := Z.max _ 1). set (hi := Z.max (rtrunc (dot_size + _)) 1).
  rewrite (white_one m HB p Hp). set (keep := (lo <=? n) && (n <=? hi)).
  assert (HO' := HO). destruct HO' as (HLn & HO2). assert (HL' := HL). destruct HL' as (E1 & E2 & Hnum & H1 & H2 & H3).
  assert (Hk : 1 <= px lab (fst p) (snd p) <= num).
  { destruct (H1 p (proj1 Hp)) as ((A & B) & Z). destruct Hp as (Hp1 & Hp2). destruct (Z.eq_dec (px lab (fst p) (snd p)) 0) as [C|C]; [exfalso; apply Hp2, Z, C|lia]. }
  set (b := nth (Z.to_nat (px lab (fst p) (snd p) - 1)) boxes (0, 0, 0, 0)).
  set (len := length boxes) in *. change (Z.of_nat len = num) in HLn.
  assert (Hb : In b boxes) by (apply nth_In; change (Z.to_nat (px lab (fst p) (snd p) - 1) < len)%nat; lia).
  assert (Hbs : box_sum m b = n) by (apply box_sum_size; assumption).
  assert (Hpb : in_box b (fst p) (snd p) = true).
  { apply in_box_spec. apply (box_of_dot p); [exact Hp|fold b; destruct b as (((r0 & r1) & c0) & c1); reflexivity|exact Hp|]. apply dot_here, Hp. }
  destruct (existsb _ _) eqn:X.
  - apply existsb_exists in X. destruct X as (b' & Hb' & Hi'). apply filter_In in Hb'. destruct Hb' as (Hb' & Hc).
    destruct (In_nth boxes b' (0, 0, 0, 0) Hb') as (k & Hk1 & Hk2). change (k < len)%nat in Hk1.
    destruct (H2 (Z.of_nat k + 1) ltac:(lia)) as (q & Hq & Hqk).
    assert (Sb : b' = b).
    { assert (Eb : nth (Z.to_nat (px lab (fst q) (snd q) - 1)) boxes (0, 0, 0, 0) = b') by (rewrite Hqk; replace (Z.to_nat (Z.of_nat k + 1 - 1)) with k by lia; exact Hk2).
      apply in_box_spec in Hi'. apply (box_of_dot q (fst (fst (fst b'))) (snd (fst (fst b'))) (snd (fst b')) (snd b') Hq) in Hi'; [|rewrite Eb; destruct b' as (((? & ?) & ?) & ?); reflexivity|exact Hp].
      apply H3 in Hi'; [|assumption..]. unfold b. rewrite <- Hi'. symmetry. exact Eb. }
    rewrite Sb in Hc. unfold check_dot_size in Hc. rewrite Hbs in Hc. fold keep in Hc. rewrite Hc. reflexivity.
  - destruct keep eqn:K; [|reflexivity]. exfalso. enough (true = false) by discriminate. rewrite <- X. symmetry. apply existsb_exists. exists b. split; [|exact Hpb].
    apply filter_In. split; [exact Hb|]. unfold check_dot_size. rewrite Hbs. exact K.
Qed.
End Select.
Lemma selected_black label find_objects m dot_size ratio i j : px m i j = 0 -> px (select_dot_based_size label find_objects m dot_size ratio) i j = 0.
Proof. intros H. unfold select_dot_based_size. destruct (label m). cbn [px]. destruct (existsb _ _); [exact H|reflexivity]. Qed.
