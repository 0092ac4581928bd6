(** Proofs about the distance of several dots, all moved together. *)
From Coq Require Import Reals Lra ZArith Lia Bool List Permutation Sorted. Import ListNotations.
From Verif Require Import Np P_Np M_phase_R P_phase_R M_corr P_corr M_simR S_simR P_simR M_calib S_calib P_calib5 P_calib6 P_calib8.
Open Scope Z_scope.

(** ** medians *)
Lemma zsorted_unique (l : list Z) : forall l', StronglySorted Z.le l -> StronglySorted Z.le l' -> Permutation l l' -> l = l'.
Proof.
  induction l as [|a l IH]; intros l' H H' P; [apply Permutation_nil in P; symmetry; exact P|].
  destruct l' as [|b l']; [symmetry in P; apply Permutation_nil in P; discriminate|].
  inversion H as [|? ? H1 H2]; subst. inversion H' as [|? ? H1' H2']; subst. rewrite Forall_forall in H2, H2'.
  assert (E : a = b).
  { assert (A : In a (b :: l')) by (apply (Permutation_in _ P); left; reflexivity). assert (B : In b (a :: l)) by (apply (Permutation_in _ (Permutation_sym P)); left; reflexivity).
    destruct A as [A|A]; [symmetry; exact A|]. destruct B as [B|B]; [exact B|]. specialize (H2 _ B). specialize (H2' _ A). lia. }
  subst b. f_equal. apply IH; [assumption..|]. exact (Permutation_cons_inv P).
Qed.
Lemma median_perm (median : list Z -> R) l l' : (forall l, l <> [] -> median_of l (median l)) -> l <> [] -> Permutation l l' -> median l = median l'.
Proof.
  intros H N P. assert (N' : l' <> []) by (intros ->; apply Permutation_sym, Permutation_nil in P; contradiction).
  destruct (H l N) as (s & P1 & S1 & ->). destruct (H l' N') as (s' & P2 & S2 & ->).
  rewrite (zsorted_unique s s' S1 S2); [reflexivity|]. rewrite <- P1, <- P2. exact P.
Qed.
Lemma median_odd l v : Nat.odd (length l) = true -> median_of l v -> exists n, In n l /\ v = IZR n.
Proof.
  intros O (s & P & _ & ->). rewrite (Permutation_length P) in O. apply Nat.odd_spec in O. destruct O as (k & E).
  exists (nth k s 0). split; [apply (Permutation_in _ (Permutation_sym P)), nth_In; lia|].
  replace (Nat.div2 (length s)) with k by (rewrite E; replace (2 * k + 1)%nat with (S (2 * k)) by lia; rewrite Nat.div2_succ_double; reflexivity).
  replace (Nat.div2 (length s - 1)) with k by (rewrite E; replace (2 * k + 1 - 1)%nat with (2 * k)%nat by lia; rewrite Nat.div2_double; reflexivity). field.
Qed.
Lemma median_const l v n : l <> [] -> (forall x, In x l -> x = n) -> median_of l v -> v = IZR n.
Proof.
  intros N H (s & P & _ & ->). assert (L : (0 < length s)%nat) by (rewrite <- (Permutation_length P); destruct l; [contradiction|cbn; lia]).
  assert (G : forall i, (i < length s)%nat -> nth i s 0 = n) by (intros i Hi; apply H, (Permutation_in _ (Permutation_sym P)), nth_In; exact Hi).
  assert (D : (Nat.div2 (length s - 1) <= length s - 1)%nat) by (apply Nat.div2_decr; lia). assert (D2 : (Nat.div2 (length s) < length s)%nat) by (apply Nat.lt_div2; exact L).
  rewrite (G (Nat.div2 (length s - 1))), (G (Nat.div2 (length s))) by lia. field.
Qed.

(** ** dots of an image, all moved *)
Section Moved.
Variables (m1 m2 : img Z) (dy dx : Z).
Hypothesis (Hmv : moved m1 m2 dy dx).
Definition push (p : Z * Z) : Z * Z := (fst p + dy, snd p + dx).
Definition pull (p : Z * Z) : Z * Z := (fst p - dy, snd p - dx).
Lemma push_pull p : push (pull p) = p.
Proof. destruct p. unfold push, pull. cbn [fst snd]. f_equal; lia. Qed.
Lemma pull_push p : pull (push p) = p.
Proof. destruct p. unfold push, pull. cbn [fst snd]. f_equal; lia. Qed.
Lemma push_dot p q : same_dot m1 p q -> same_dot m2 (push p) (push q).
Proof.
  destruct Hmv as (F & G). intros H. induction H as [H|v r H IH Hr Ht]; [apply dot_here, F, H|]. apply (dot_step _ _ _ _ IH); [apply F, Hr|].
  unfold touching, push in *. cbn [fst snd]. lia.
Qed.
Lemma pull_dot p q : same_dot m2 p q -> same_dot m1 (pull p) (pull q).
Proof.
  destruct Hmv as (F & G). intros H. induction H as [H|v r H IH Hr Ht]; [apply dot_here, G, H|]. apply (dot_step _ _ _ _ IH); [apply G, Hr|].
  unfold touching, pull in *. cbn [fst snd]. lia.
Qed.
Lemma push_inj p q : push p = push q -> p = q.
Proof. intros E. rewrite <- (pull_push p), <- (pull_push q), E. reflexivity. Qed.
Lemma push_pixels p n : dot_pixels m1 p n -> dot_pixels m2 (push p) n.
Proof.
  intros (l & N & I & L). exists (map push l). split; [apply FinFun.Injective_map_NoDup; [intros a b; apply push_inj|exact N]|]. split; [|rewrite map_length; exact L].
  intros q. rewrite in_map_iff. split.
  - intros (r & <- & Hr). apply push_dot, I, Hr.
  - intros H. exists (pull q). split; [apply push_pull|]. apply I. rewrite <- (pull_push p). apply pull_dot, H.
Qed.
Lemma pull_separate : (forall p q, white m1 p -> white m1 q -> in_rectangle m1 p q -> same_dot m1 p q) ->
  forall p q, white m2 p -> white m2 q -> in_rectangle m2 p q -> same_dot m2 p q.
Proof.
  intros H p q Hp Hq (a & b & c & d & A & B & C & D & E1 & E2). rewrite <- (push_pull p), <- (push_pull q). apply push_dot. destruct Hmv as (F & G).
  apply H; [apply (G p Hp)|apply (G q Hq)|]. exists (pull a), (pull b), (pull c), (pull d). repeat split; try (apply pull_dot; assumption); unfold pull; cbn [fst snd]; lia.
Qed.
End Moved.

Section Several.
Variables (m1 m2 lab1 lab2 : img Z) (num1 num2 dy dx : Z) (label : img Z -> img Z * Z) (find_objects : img Z -> Z -> list box) (median : list Z -> R).
Hypotheses (B1 : binary m1) (B2 : binary m2) (E1 : label m1 = (lab1, num1)) (E2 : label m2 = (lab2, num2))
  (L1 : labelled m1 lab1 num1) (L2 : labelled m2 lab2 num2)
  (O1 : objects lab1 num1 (find_objects lab1 num1)) (O2 : objects lab2 num2 (find_objects lab2 num2))
  (Hmed : forall l, l <> [] -> median_of l (median l))
  (Hsep : forall p q, white m1 p -> white m1 q -> in_rectangle m1 p q -> same_dot m1 p q)
  (Hmv : moved m1 m2 dy dx) (p0 : Z * Z) (Hp0 : white m1 p0).
Notation push := (push dy dx).
Definition lab_at (lab : img Z) (p : Z * Z) : Z := px lab (fst p) (snd p).
Definition rep (k : Z) : Z * Z := hd (0, 0) (filter (fun q => lab_at lab1 q =? k) (white_list m1)).
Lemma rep_ok k : 1 <= k <= num1 -> white m1 (rep k) /\ lab_at lab1 (rep k) = k.
Proof using All.
  intros Hk. destruct L1 as (_ & _ & _ & _ & H & _). destruct (H k Hk) as (p & Hp & E). unfold rep.
  assert (I : In p (filter (fun q => lab_at lab1 q =? k) (white_list m1))) by (apply filter_In; split; [apply white_list_In, Hp|apply Z.eqb_eq, E]).
  destruct (filter _ _) as [|q l] eqn:F; [contradiction|]. cbn [hd]. assert (J : In q (q :: l)) by (left; reflexivity). rewrite <- F in J. apply filter_In in J. destruct J as (J1 & J2).
  split; [apply white_list_In, J1|apply Z.eqb_eq, J2].
Qed.
Lemma lab_range m lab num p : labelled m lab num -> white m p -> 1 <= lab_at lab p <= num.
Proof.
  intros (_ & _ & _ & H1 & _) Hp. destruct (H1 p (proj1 Hp)) as ((A & B) & Z). unfold lab_at. destruct (Z.eq_dec (px lab (fst p) (snd p)) 0) as [C|C]; [exfalso; apply (proj2 Hp), Z, C|lia].
Qed.
Definition carry (k : Z) : Z := lab_at lab2 (push (rep k)).
Lemma push_white p : white m1 p -> white m2 (push p).
Proof using Hmv. intros H. apply (proj1 Hmv), H. Qed.
Lemma carry_perm : Permutation (map carry (zrange 1 num1)) (zrange 1 num2).
Proof using All.
  assert (S1 : forall p q, white m1 p -> white m1 q -> (lab_at lab1 p = lab_at lab1 q <-> same_dot m1 p q)) by apply L1.
  assert (S2 : forall p q, white m2 p -> white m2 q -> (lab_at lab2 p = lab_at lab2 q <-> same_dot m2 p q)) by apply L2.
  apply same_members; [|apply zrange_NoDup|].
  - assert (G : forall l, NoDup l -> (forall k, In k l -> 1 <= k <= num1) -> NoDup (map carry l)).
    { induction l as [|k l IH]; intros N H; [constructor|]. inversion N as [|? ? N1 N2]; subst. cbn [map]. constructor; [|apply IH; [exact N2|intros; apply H; right; assumption]].
      intros I. apply in_map_iff in I. destruct I as (j & E & Hj). assert (Rk := rep_ok k (H k (or_introl eq_refl))). assert (Rj := rep_ok j (H j (or_intror Hj))).
      unfold carry in E. apply S2 in E; [|apply push_white, Rj|apply push_white, Rk].
      apply (pull_dot m1 m2 dy dx Hmv) in E. rewrite !pull_push in E. apply S1 in E; [|apply Rj|apply Rk]. destruct Rk as (_ & Rk). destruct Rj as (_ & Rj). rewrite Rk, Rj in E. subst j. contradiction. }
    apply G; [apply zrange_NoDup|]. intros k Hk. apply zrange_In in Hk. lia.
  - intros n. rewrite in_map_iff. split.
    + intros (k & <- & Hk). apply zrange_In in Hk. assert (H := lab_range m2 lab2 num2 _ L2 (push_white _ (proj1 (rep_ok k ltac:(lia))))). apply zrange_In. unfold carry. lia.
    + intros Hn. apply zrange_In in Hn. assert (L2' := L2). destruct L2' as (_ & _ & _ & _ & H & _). destruct (H n ltac:(lia)) as (q & Hq & Eq).
      assert (W : white m1 (pull dy dx q)) by (apply (proj2 Hmv), Hq). assert (R := lab_range m1 lab1 num1 _ L1 W). exists (lab_at lab1 (pull dy dx q)). split; [|apply zrange_In; lia].
      destruct (rep_ok _ R) as (R1 & R2). apply S1 in R2; [|assumption..]. apply (push_dot m1 m2 dy dx Hmv) in R2. rewrite push_pull in R2. unfold carry. rewrite <- Eq. apply S2; [apply push_white, R1|exact Hq|exact R2].
Qed.
Definition sums1 := map (dot_sum m1 lab1) (zrange 1 num1).
Definition sums2 := map (dot_sum m2 lab2) (zrange 1 num2).
Lemma sums_perm : Permutation sums1 sums2.
Proof using All.
  unfold sums2. rewrite <- carry_perm, map_map. unfold sums1. rewrite (map_ext_in (dot_sum m1 lab1) (fun k => dot_sum m2 lab2 (carry k)) (zrange 1 num1)); [reflexivity|].
  intros k Hk. apply zrange_In in Hk. destruct (rep_ok k ltac:(lia)) as (R1 & R2). assert (D := dot_exists m1 lab1 num1 L1 (rep k) R1).
  rewrite <- R2 at 1. unfold lab_at at 1. rewrite (dot_sum_size m1 lab1 num1 B1 L1 _ _ R1 D). symmetry. unfold carry.
  apply (dot_sum_size m2 lab2 num2 B2 L2); [apply push_white, R1|]. apply (push_pixels m1 m2 dy dx Hmv), D.
Qed.
Lemma sums1_nonempty : sums1 <> [].
Proof using All.
  intros E. assert (I := proj2 (sums_In m1 lab1 num1 B1 L1 _) (ex_intro _ p0 (conj Hp0 (dot_exists m1 lab1 num1 L1 p0 Hp0)))). fold sums1 in I. rewrite E in I. contradiction.
Qed.
Lemma same_size_2 opt : exists s, get_dot_size label median m1 opt = Ok s /\ get_dot_size label median m2 opt = Ok s.
Proof using All.
  unfold get_dot_size. rewrite E1, E2. fold sums1 sums2. assert (P := sums_perm). assert (N := sums1_nonempty).
  assert (M := median_perm median sums1 sums2 Hmed N P).
  assert (L := lsum_perm _ _ P). assert (Ln := Permutation_length P).
  destruct sums1 as [|a l]; [contradiction|]. destruct sums2 as [|b r]; [symmetry in P; apply Permutation_nil in P; discriminate|].
  eexists. split; [reflexivity|]. f_equal. destruct opt.
  - symmetry. exact M.
  - unfold zmean. change (IZR (lsum (b :: r)) / IZR (Z.of_nat (length (b :: r))) = IZR (lsum (a :: l)) / IZR (Z.of_nat (length (a :: l))))%R. rewrite L, Ln. reflexivity.
  - f_equal. destruct (fold_min_spec l a) as (A1 & A2 & A3). destruct (fold_min_spec r b) as (C1 & C2 & C3).
    assert (I1 : In (fold_left Z.min l a) (b :: r)) by (apply (Permutation_in _ P); destruct A1 as [A1|A1]; [left; symmetry; exact A1|right; exact A1]).
    assert (I2 : In (fold_left Z.min r b) (a :: l)) by (apply (Permutation_in _ (Permutation_sym P)); destruct C1 as [C1|C1]; [left; symmetry; exact C1|right; exact C1]).
    destruct I1 as [I1|I1]; [|specialize (C3 _ I1)]; destruct I2 as [I2|I2]; try specialize (A3 _ I2); lia.
  - f_equal. destruct (fold_zmax_spec l a) as (A1 & A2 & A3). destruct (fold_zmax_spec r b) as (C1 & C2 & C3).
    assert (I1 : In (fold_left Z.max l a) (b :: r)) by (apply (Permutation_in _ P); destruct A1 as [A1|A1]; [left; symmetry; exact A1|right; exact A1]).
    assert (I2 : In (fold_left Z.max r b) (a :: l)) by (apply (Permutation_in _ (Permutation_sym P)); destruct C1 as [C1|C1]; [left; symmetry; exact C1|right; exact C1]).
    destruct I1 as [I1|I1]; [|specialize (C3 _ I1)]; destruct I2 as [I2|I2]; try specialize (A3 _ I2); lia.
Qed.
(** some dot has the size that is asked for *)
Lemma typical opt : (opt = Minimum \/ opt = Maximum \/ (opt = Median /\ Z.odd num1 = true) \/ exists n, forall p, white m1 p -> dot_pixels m1 p n) ->
  exists p n, white m1 p /\ dot_pixels m1 p n /\ get_dot_size label median m1 opt = Ok (IZR n).
Proof using All.
  intros H. assert (N := sums1_nonempty). assert (SI := sums_In m1 lab1 num1 B1 L1). fold sums1 in SI.
  assert (F : forall n, In n sums1 -> get_dot_size label median m1 opt = Ok (IZR n) -> exists p n, white m1 p /\ dot_pixels m1 p n /\ get_dot_size label median m1 opt = Ok (IZR n)).
  { intros n I E. apply SI in I. destruct I as (p & A & B). exists p, n. auto. }
  destruct (dot_size_extreme label median m1 lab1 num1 B1 E1 L1 (ex_intro _ p0 Hp0)) as (lo & hi & G1 & G2 & (pl & W1 & D1) & (ph & W2 & D2) & _).
  destruct H as [-> | [-> | [ (-> & Ho) | (n & Hn) ] ] ].
  - exists pl, lo. auto.
  - exists ph, hi. auto.
  - assert (Lr : Nat.odd (length sums1) = true).
    { unfold sums1. rewrite map_length, zrange_length. apply Nat.odd_spec. apply Z.odd_spec in Ho. destruct Ho as (k & Ek). exists (Z.to_nat k).
      assert (0 <= num1) by apply L1. lia. }
    destruct (median_odd sums1 _ Lr (Hmed sums1 N)) as (n & I & E). apply (F n I). unfold get_dot_size. rewrite E1. fold sums1. rewrite <- E. destruct sums1; [contradiction|reflexivity].
  - assert (C : forall x, In x sums1 -> x = n) by (intros x I; apply SI in I; destruct I as (p & A & B); apply (dot_unique m1 p); [exact B|apply Hn, A]).
    assert (I0 : In n sums1). { destruct sums1 as [|a l]; [contradiction|]. left. apply C. left. reflexivity. }
    apply (F n I0). assert (M := median_const sums1 _ n N C (Hmed sums1 N)).
    unfold get_dot_size. rewrite E1. fold sums1. destruct sums1 as [|a l]; [contradiction|]. f_equal.
    assert (Ca : a = n) by (apply C; left; reflexivity). assert (Cl : forall x, In x l -> x = n) by (intros x Hx; apply C; right; exact Hx).
    destruct opt; [exact M| | |].
    + unfold zmean. change (IZR (lsum (a :: l)) / IZR (Z.of_nat (length (a :: l))) = IZR n)%R.
      assert (S : forall r, (forall x, In x r -> x = n) -> lsum r = n * Z.of_nat (length r)). { induction r as [|b r IH]; intros Hr; [cbn; lia|]. rewrite lsum_cons, IH, (Hr b) by (try (left; reflexivity); intros; apply Hr; right; assumption). cbn [length]. lia. }
      rewrite (S (a :: l) C), mult_IZR. field. apply not_0_IZR. cbn [length]. lia.
    + f_equal. destruct (fold_min_spec l a) as ([A1|A1] & _); [rewrite A1; exact Ca|apply Cl, A1].
    + f_equal. destruct (fold_zmax_spec l a) as ([A1|A1] & _); [rewrite A1; exact Ca|apply Cl, A1].
Qed.
Definition chosen (m : img Z) (s : R) := select_dot_based_size label find_objects m s (1 / 100).
Lemma chosen_shape m s : nrow (chosen m s) = nrow m /\ ncol (chosen m s) = ncol m.
Proof. unfold chosen, select_dot_based_size. destruct (label m). split; reflexivity. Qed.
Lemma chosen_pixel m lab num s p n : binary m -> label m = (lab, num) -> labelled m lab num -> objects lab num (find_objects lab num) ->
  (forall p q, white m p -> white m q -> in_rectangle m p q -> same_dot m p q) -> white m p -> dot_pixels m p n ->
  px (chosen m s) (fst p) (snd p) = if (Z.max (rtrunc (s - 1 / 100 * s)) 1 <=? n) && (n <=? Z.max (rtrunc (s + 1 / 100 * s)) 1) then 1 else 0.
Proof. intros HB HE HL HO HS Hp Hn. exact (selected_pixel m lab num (find_objects lab num) HB HL HO HS label find_objects s (1 / 100) p n HE eq_refl Hp Hn). Qed.
Lemma chosen_binary m lab num s : binary m -> label m = (lab, num) -> labelled m lab num -> objects lab num (find_objects lab num) ->
  (forall p q, white m p -> white m q -> in_rectangle m p q -> same_dot m p q) -> binary (chosen m s).
Proof.
  intros HB HE HL HO HS p (Hi & Hj). destruct (chosen_shape m s) as (S1 & S2). rewrite S1 in Hi. rewrite S2 in Hj.
  destruct (Z.eq_dec (px m (fst p) (snd p)) 0) as [C|C]; [left; apply selected_black, C|].
  assert (W : white m p) by (split; [split; assumption|exact C]). rewrite (chosen_pixel m lab num s p _ HB HE HL HO HS W (dot_exists m lab num HL p W)). destruct (_ && _); auto.
Qed.
Lemma chosen_moved s : moved (chosen m1 s) (chosen m2 s) dy dx.
Proof using All.
  assert (Hsep2 := pull_separate m1 m2 dy dx Hmv Hsep).
  assert (Bl : forall m p, white (chosen m s) p -> white m p).
  { intros m p ((Hi & Hj) & C). destruct (chosen_shape m s) as (S1 & S2). rewrite S1 in Hi. rewrite S2 in Hj. split; [split; assumption|]. intros Z. apply C. apply selected_black, Z. }
  assert (In2 : forall m p, inside m p -> inside (chosen m s) p) by (intros m p; unfold inside; destruct (chosen_shape m s) as (-> & ->); auto).
  split; intros p Hp.
  - assert (W := Bl _ _ Hp). assert (D := dot_exists m1 lab1 num1 L1 p W). assert (W2 := push_white p W).
    split; [apply In2, W2|]. fold (push p). rewrite (chosen_pixel m2 lab2 num2 s (push p) _ B2 E2 L2 O2 Hsep2 W2 (push_pixels m1 m2 dy dx Hmv _ _ D)).
    rewrite <- (chosen_pixel m1 lab1 num1 s p _ B1 E1 L1 O1 Hsep W D). apply Hp.
  - assert (W2 := Bl _ _ Hp). assert (W := proj2 Hmv p W2). fold (pull dy dx p) in *. assert (D := dot_exists m1 lab1 num1 L1 _ W).
    split; [apply In2, W|]. rewrite (chosen_pixel m1 lab1 num1 s _ _ B1 E1 L1 O1 Hsep W D). assert (D2 := push_pixels m1 m2 dy dx Hmv _ _ D). rewrite push_pull in D2.
    rewrite <- (chosen_pixel m2 lab2 num2 s p _ B2 E2 L2 O2 Hsep2 W2 D2). apply Hp.
Qed.
Lemma several_distance binarize opt mat1 mat2 : binarize mat1 = Ok m1 -> binarize mat2 = Ok m2 ->
  (opt = Minimum \/ opt = Maximum \/ (opt = Median /\ Z.odd num1 = true) \/ exists n, forall p, white m1 p -> dot_pixels m1 p n) ->
  calculate_distance binarize label find_objects median opt mat1 mat2 = Ok (sqrt (IZR dy ^ 2 + IZR dx ^ 2)).
Proof using All.
  intros F1 F2 Ht. destruct (typical opt Ht) as (p & n & Wp & Dp & Es). destruct (same_size_2 opt) as (s & S1 & S2). rewrite Es in S1. assert (Ey : s = IZR n) by congruence. subst s.
  unfold calculate_distance. rewrite F1. cbn [bindr]. rewrite Es. cbn [bindr]. rewrite F2. cbn [bindr]. rewrite S2. cbn [bindr]. fold (chosen m1 (IZR n)) (chosen m2 (IZR n)).
  assert (Hsep2 := pull_separate m1 m2 dy dx Hmv Hsep).
  assert (C1 := chosen_binary m1 lab1 num1 (IZR n) B1 E1 L1 O1 Hsep). assert (C2 := chosen_binary m2 lab2 num2 (IZR n) B2 E2 L2 O2 Hsep2).
  assert (Wc : white (chosen m1 (IZR n)) p).
  { split; [unfold inside; destruct (chosen_shape m1 (IZR n)) as (-> & ->); apply Wp|]. rewrite (chosen_pixel m1 lab1 num1 _ p n B1 E1 L1 O1 Hsep Wp Dp).
    assert (Hn := dot_at_least_one m1 p n Wp Dp). assert (Hnr : (1 <= IZR n)%R) by (apply IZR_le; exact Hn). rewrite (proj2 (keep_range (IZR n) (1 / 100) n Hnr ltac:(lra) Hn)) by lra. lia. }
  assert (C : exists c, center_of_mass (chosen m1 (IZR n)) = Ok c).
  { rewrite (com_white _ C1). assert (I := proj2 (white_list_In _ p) Wc). destruct (white_list (chosen m1 (IZR n))) as [|a l]; [contradiction|]. cbn [length]. destruct (Z.eqb_spec (Z.of_nat (S (length l))) 0); [lia|]. eexists. reflexivity. }
  destruct C as (c & C). rewrite C. cbn [bindr]. rewrite (com_moved _ _ dy dx c C1 C2 (chosen_moved (IZR n)) C). cbn [bindr fst snd]. f_equal. f_equal. ring.
Qed.
End Several.
(** ** a case: a dot of one pixel and a dot of two, in a row *)
Fixpoint zins (a : Z) (l : list Z) : list Z := match l with [] => [a] | b :: r => if a <=? b then a :: l else b :: zins a r end.
Fixpoint zsort (l : list Z) : list Z := match l with [] => [] | a :: r => zins a (zsort r) end.
Lemma zins_perm a l : Permutation (a :: l) (zins a l).
Proof. induction l as [|b l IH]; [reflexivity|]. cbn [zins]. destruct (a <=? b); [reflexivity|]. rewrite perm_swap. apply perm_skip, IH. Qed.
Lemma zsort_perm l : Permutation l (zsort l).
Proof. induction l as [|a l IH]; [reflexivity|]. cbn [zsort]. rewrite <- zins_perm. apply perm_skip, IH. Qed.
Lemma zins_sorted a l : StronglySorted Z.le l -> StronglySorted Z.le (zins a l).
Proof.
  induction 1 as [|b l H IH F]; [constructor; [constructor|constructor]|]. cbn [zins]. destruct (Z.leb_spec a b) as [L|L].
  - constructor; [constructor; assumption|]. constructor; [exact L|]. rewrite Forall_forall in *. intros x Hx. specialize (F x Hx). lia.
  - constructor; [exact IH|]. rewrite Forall_forall in *. intros x Hx. apply (Permutation_in _ (Permutation_sym (zins_perm a l))) in Hx. destruct Hx as [<-|Hx]; [lia|apply F, Hx].
Qed.
Lemma zsort_sorted l : StronglySorted Z.le (zsort l).
Proof. induction l as [|a l IH]; [constructor|apply zins_sorted, IH]. Qed.
Definition zmedian (l : list Z) : R := let s := zsort l in ((IZR (nth (Nat.div2 (length s - 1)) s 0%Z) + IZR (nth (Nat.div2 (length s)) s 0%Z)) / 2)%R.
Lemma zmedian_ok l : l <> [] -> median_of l (zmedian l).
Proof. intros _. exists (zsort l). split; [apply zsort_perm|]. split; [apply zsort_sorted|reflexivity]. Qed.

Definition row_dots (d : Z) : img Z := mkimg 1 6 (fun _ j => if (j =? d) || (j =? d + 2) || (j =? d + 3) then 1 else 0).
Definition row_labels (d x y : Z) : img Z := mkimg 1 6 (fun _ j => if j =? d then x else if (j =? d + 2) || (j =? d + 3) then y else 0).
Definition row_boxes (d x : Z) : list box := if x =? 1 then [(0, 1, d, d + 1); (0, 1, d + 2, d + 4)] else [(0, 1, d + 2, d + 4); (0, 1, d, d + 1)].
Lemma row_white d p : 0 <= d <= 2 -> (white (row_dots d) p <-> fst p = 0 /\ (snd p = d \/ snd p = d + 2 \/ snd p = d + 3)).
Proof.
  intros Hd. unfold white, inside, in_rng. cbn [nrow ncol px row_dots].
  destruct (Z.eqb_spec (snd p) d), (Z.eqb_spec (snd p) (d + 2)), (Z.eqb_spec (snd p) (d + 3)); cbn [orb]; lia.
Qed.
Lemma row_binary d : binary (row_dots d).
Proof. intros p _. cbn [px row_dots]. destruct (_ || _); auto. Qed.
Lemma row_apart d p q : 0 <= d <= 2 -> same_dot (row_dots d) p q -> (snd p = d <-> snd q = d).
Proof.
  intros Hd H. induction H as [H|q r H IH Hr Ht]; [reflexivity|]. assert (W := proj2 (same_dot_white _ _ _ H)). apply row_white in Hr; [|exact Hd]. apply row_white in W; [|exact Hd].
  rewrite IH. unfold touching in Ht. lia.
Qed.
Lemma row_same d p q : 0 <= d <= 2 -> white (row_dots d) p -> white (row_dots d) q -> (same_dot (row_dots d) p q <-> (snd p = d <-> snd q = d)).
Proof.
  intros Hd Hp Hq. split; [apply row_apart, Hd|]. intros H. assert (Wp := Hp). assert (Wq := Hq). apply row_white in Hp; [|exact Hd]. apply row_white in Hq; [|exact Hd].
  destruct p as (p1 & p2), q as (q1 & q2). cbn [fst snd] in *. destruct (Z.eq_dec p2 q2) as [E|E].
  - replace q1 with p1 by lia. subst q2. apply dot_here, Wp.
  - apply (dot_step _ _ (p1, p2)); [apply dot_here, Wp|exact Wq|]. unfold touching. cbn [fst snd]. lia.
Qed.
Lemma row_labelled d x y : 0 <= d <= 2 -> (x = 1 /\ y = 2) \/ (x = 2 /\ y = 1) -> labelled (row_dots d) (row_labels d x y) 2.
Proof.
  intros Hd Hx. split; [reflexivity|]. split; [reflexivity|]. split; [lia|]. split; [|split].
  - intros p _. cbn [px row_dots row_labels]. destruct (Z.eqb_spec (snd p) d), (Z.eqb_spec (snd p) (d + 2)), (Z.eqb_spec (snd p) (d + 3)); cbn [orb]; lia.
  - intros k Hk. assert (C : k = x \/ k = y) by lia. destruct C as [-> | ->]; [exists (0, d)|exists (0, d + 2)]; (split; [apply row_white; cbn [fst snd]; lia|]); cbn [px row_labels fst snd].
    + rewrite Z.eqb_refl. reflexivity.
    + destruct (Z.eqb_spec (d + 2) d); [lia|]. rewrite Z.eqb_refl. reflexivity.
  - intros p q Hp Hq. rewrite row_same by assumption. apply row_white in Hp; [|exact Hd]. apply row_white in Hq; [|exact Hd]. cbn [px row_labels].
    destruct (Z.eqb_spec (snd p) d), (Z.eqb_spec (snd p) (d + 2)), (Z.eqb_spec (snd p) (d + 3)), (Z.eqb_spec (snd q) d), (Z.eqb_spec (snd q) (d + 2)), (Z.eqb_spec (snd q) (d + 3)); cbn [orb]; lia.
Qed.
Lemma row_separate d p q : 0 <= d <= 2 -> white (row_dots d) p -> white (row_dots d) q -> in_rectangle (row_dots d) p q -> same_dot (row_dots d) p q.
Proof.
  intros Hd Hp Hq (a & b & c & e & A & B & C & D & _ & E). assert (Wc := proj2 (same_dot_white _ _ _ C)). assert (We := proj2 (same_dot_white _ _ _ D)).
  apply row_same; [assumption..|]. apply row_apart in C; [|exact Hd]. apply row_apart in D; [|exact Hd]. apply row_white in Hp; [|exact Hd]. apply row_white in Hq; [|exact Hd]. apply row_white in Wc; [|exact Hd]. apply row_white in We; [|exact Hd]. lia.
Qed.
Lemma row_objects d x y : 0 <= d <= 2 -> (x = 1 /\ y = 2) \/ (x = 2 /\ y = 1) -> objects (row_labels d x y) 2 (row_boxes d x).
Proof.
  intros Hd Hx. split; [unfold row_boxes; destruct (x =? 1); reflexivity|]. intros k r0 r1 c0 c1 Hk E.
  assert (G : r0 = 0 /\ r1 = 1 /\ ((k = x /\ c0 = d /\ c1 = d + 1) \/ (k = y /\ c0 = d + 2 /\ c1 = d + 4))).
  { unfold row_boxes in E. assert (K : k = 1 \/ k = 2) by lia. destruct Hx as [(-> & ->)|(-> & ->)]; destruct K as [-> | ->]; cbn in E; injection E as <- <- <- <-; lia. }
  destruct G as (-> & -> & G). unfold inside, in_rng. cbn [nrow ncol px row_labels].
  split; [|destruct G as [(-> & -> & ->)|(-> & -> & ->)] ].
  - intros p (Hi & Hj). destruct (Z.eqb_spec (snd p) d), (Z.eqb_spec (snd p) (d + 2)), (Z.eqb_spec (snd p) (d + 3)); cbn [orb]; lia.
  - repeat split; exists (0, d); cbn [fst snd]; rewrite Z.eqb_refl; lia.
  - repeat split; [exists (0, d + 2)|exists (0, d + 2)|exists (0, d + 2)|exists (0, d + 3)]; cbn [fst snd];
      repeat match goal with |- context[?a =? ?b] => destruct (Z.eqb_spec a b) end; cbn [orb]; lia.
Qed.
Lemma row_moved : moved (row_dots 0) (row_dots 2) 0 2.
Proof. split; intros p H; apply row_white in H; try lia; apply row_white; cbn [fst snd]; lia. Qed.
