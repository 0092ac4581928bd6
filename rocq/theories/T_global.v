(** C63, C94, C95: the shift between two images from the shifts at several points. *)
From Coq Require Import Reals Lra ZArith Lia Permutation.
From Verif Require Import Np P_Np M_corr S_corr P_corr P_corr2 M_local S_local P_local P_local3 M_global S_global P_global P_global2 P_global3.
From Coq Require Import List. Import ListNotations.
Open Scope Z_scope.

(** ** C63: the points that are used *)
(** points given as two lists: those whose windows fit without touching the first row or column are used, in the given order, the
    others are ignored; it is an error if none is left *)
Theorem global_shift_of_listed_points_partial : forall polyfit2 surface randint m n win margin li lj num how (gpu : bool) block sched sub meth size (norm : bool),
  (meth = PolyFit -> reads_elements polyfit2 surface) -> 0 <= win / 2 -> 1 <= margin ->
  let r := win / 2 in let e := r + margin in comparable m n e norm -> (gpu = true -> any_launch (block, 1) sched) -> length li = length lj ->
  let used := filter (usable (One m) e) (combine li lj) in
  let result := find_global_shift polyfit2 surface randint (One m) (One n) win margin (Points [Indices li; Indices lj]) num how gpu block sched sub meth size norm true in
  (forall p, In p used <-> In p (combine li lj) /\ window_inside (One m) e (fst p) (snd p) /\ fst p <> e /\ snd p <> e) /\
  (used = [] -> result = Err ValueError) /\
  (used <> [] -> exists l, result = Ok (Lists (map fst l) (map snd l)) /\
     Forall2 (shift_at polyfit2 surface (One (if norm then equalised m else m)) (One (if norm then equalised n else n)) r margin gpu sub meth size) used l).
Proof.
  intros polyfit2 surface randint m n win margin li lj num how gpu block sched sub meth size norm RE R0 M r e C L Len used result.
  assert (U : forall p, In p used <-> In p (combine li lj) /\ window_inside (One m) e (fst p) (snd p) /\ fst p <> e /\ snd p <> e).
  { intros p. unfold used. rewrite filter_In, usable_spec. tauto. }
  split; [exact U|]. pose proof (input_lists (One m) e li lj Len) as G. cbv zeta in G. fold used in G. cbn [height width] in G. split.
  - intros E. rewrite E in G. unfold result, find_global_shift, global_shift_gpu, global_shift_cpu, choose_points. destruct C as (C1 & C2 & _).
    rewrite (proj2 (same_shape_spec (One m) (One n))) by (split; [exact I|split; assumption]). cbn [negb shape2].
    replace ((2 * (win / 2) + 1) / 2) with r by (apply Z.div_unique_pos with 1; unfold r; lia). fold e. rewrite G. cbn [bindr].
    destruct gpu; destruct (orb _ _); reflexivity.
  - intros Ne. destruct used as [|p0 u] eqn:Eu; [congruence|]. rewrite <- Eu in *.
    assert (Ch : choose_points randint (Points [Indices li; Indices lj]) num (nrow m) (ncol m) e = Ok (map fst used, map snd used)) by (unfold choose_points; rewrite G, Eu; reflexivity).
    destruct (search_points polyfit2 surface randint m n win margin (Points [Indices li; Indices lj]) num how gpu block sched sub meth size norm true (map fst used) (map snd used)) as (l & El & Fl); try assumption.
    + rewrite !map_length. reflexivity.
    + intros E. apply map_eq_nil in E. congruence.
    + rewrite combine_fst_snd. apply Forall_forall. intros p Hp. apply U in Hp. apply Hp.
    + rewrite combine_fst_snd in Fl. exists l. split; [exact El|exact Fl].
Qed.
Print Assumptions global_shift_of_listed_points_partial.

(** one point *)
Theorem global_shift_of_single_point_partial : forall polyfit2 surface randint m n win margin i j num how (gpu : bool) block sched sub meth size (norm : bool),
  (meth = PolyFit -> reads_elements polyfit2 surface) -> 0 <= win / 2 -> 1 <= margin ->
  let r := win / 2 in let e := r + margin in comparable m n e norm -> (gpu = true -> any_launch (block, 1) sched) ->
  let result := fun return_list => find_global_shift polyfit2 surface randint (One m) (One n) win margin (Points [Index i; Index j]) num how gpu block sched sub meth size norm return_list in
  (window_inside (One m) e i j /\ i <> e /\ j <> e -> exists x y,
     result true = Ok (Lists [x] [y]) /\ result false = Ok (Global x y) /\
     shift_at polyfit2 surface (One (if norm then equalised m else m)) (One (if norm then equalised n else n)) r margin gpu sub meth size (i, j) (x, y)) /\
  (~ (window_inside (One m) e i j /\ i <> e /\ j <> e) -> forall return_list, result return_list = Err ValueError).
Proof.
  intros polyfit2 surface randint m n win margin i j num how gpu block sched sub meth size norm RE R0 M r e C L result.
  pose proof (inside_usable (One m) e i j) as Iu. cbn [height width] in Iu. pose proof (usable_spec (One m) e (i, j)) as Us. cbn [fst snd] in Us. split.
  - intros W. assert (Ch : choose_points randint (Points [Index i; Index j]) num (nrow m) (ncol m) e = Ok ([i], [j])) by (unfold choose_points, get_input_list; rewrite Iu, (proj2 Us W); reflexivity).
    assert (Fi : Forall (fun p => window_inside (One m) e (fst p) (snd p)) (combine [i] [j])) by (constructor; [apply W|constructor]).
    assert (G : forall rl, exists v, result rl = conclude how rl [v] /\ shift_at polyfit2 surface (One (if norm then equalised m else m)) (One (if norm then equalised n else n)) r margin gpu sub meth size (i, j) v).
    { intros rl. destruct (search_points polyfit2 surface randint m n win margin (Points [Index i; Index j]) num how gpu block sched sub meth size norm rl [i] [j]) as (l & El & Fl); try assumption; [reflexivity|discriminate|].
      cbn [combine] in Fl. inversion Fl as [|? v ? t A Ft]; subst. inversion Ft; subst. exists v. split; [exact El|exact A]. }
    destruct (G true) as (v & E1 & A1). destruct (G false) as (v' & E2 & A2). assert (v' = v) by (eapply shift_at_fun; eassumption). subst v'.
    destruct v as (x & y). exists x, y. split; [exact E1|]. split; [|exact A1]. rewrite E2. unfold conclude. cbn [map fst snd]. f_equal.
    assert (S1 : forall z, summarise how [z] = z).
    { intros z. assert (B : (z <= summarise how [z] <= z)%R); [|lra]. apply summarise_within; [discriminate|]. exists [z], []. split; [apply Permutation_refl|]. split; [cbn; lia|]. constructor; [lra|constructor]. }
    rewrite !S1. reflexivity.
  - intros W rl. assert (Q : usable (One m) e (i, j) = false) by (destruct (usable (One m) e (i, j)) eqn:Q; [exfalso; apply W, Us; exact eq_refl|reflexivity]).
    unfold result, find_global_shift, global_shift_gpu, global_shift_cpu, choose_points, get_input_list. destruct C as (C1 & C2 & _).
    rewrite (proj2 (same_shape_spec (One m) (One n))) by (split; [exact I|split; assumption]). cbn [negb shape2].
    replace ((2 * (win / 2) + 1) / 2) with r by (apply Z.div_unique_pos with 1; unfold r; lia). fold e. rewrite Iu, Q. cbn [bindr].
    destruct gpu; destruct (orb _ _); reflexivity.
Qed.
Print Assumptions global_shift_of_single_point_partial.

(** points whose windows touch the first row or column of the image fit, but are rejected *)
Theorem global_shift_accepts_every_fitting_point_refuted : forall polyfit2 surface randint m n win margin num how (gpu : bool) block sched sub meth size (norm return_list : bool),
  0 <= win / 2 -> 1 <= margin -> let e := win / 2 + margin in comparable m n e norm ->
  let result := fun i j => find_global_shift polyfit2 surface randint (One m) (One n) win margin (Points [Index i; Index j]) num how gpu block sched sub meth size norm return_list in
  window_inside (One m) e e e /\
  forall i j, window_inside (One m) e i j -> i = e \/ j = e -> result i j = Err ValueError.
Proof.
  intros polyfit2 surface randint m n win margin num how gpu block sched sub meth size norm rl R0 M e C result. pose proof C as (C1 & C2 & Ch & Cw & _).
  split; [unfold window_inside; cbn; lia|]. intros i j W T.
  pose proof (inside_usable (One m) e i j) as Iu. cbn [height width] in Iu. pose proof (usable_spec (One m) e (i, j)) as Us. cbn [fst snd] in Us.
  assert (Q : usable (One m) e (i, j) = false) by (destruct (usable (One m) e (i, j)); [destruct (proj1 Us eq_refl) as (_ & Q1 & Q2); destruct T; congruence|reflexivity]).
  unfold result, find_global_shift, global_shift_gpu, global_shift_cpu, choose_points, get_input_list.
  rewrite (proj2 (same_shape_spec (One m) (One n))) by (split; [exact I|split; assumption]). cbn [negb shape2].
  replace ((2 * (win / 2) + 1) / 2) with (win / 2) by (apply Z.div_unique_pos with 1; lia). fold e. rewrite Iu, Q. cbn [bindr].
  destruct gpu; destruct (orb _ _); reflexivity.
Qed.
Print Assumptions global_shift_accepts_every_fitting_point_refuted.

(** points chosen at random: always inside, as many as asked for (30 by default) *)
Theorem global_shift_random_points_fit : forall polyfit2 surface randint m n win margin num how (gpu : bool) block sched sub meth size (norm : bool),
  (meth = PolyFit -> reads_elements polyfit2 surface) -> random_integers randint -> 0 <= win / 2 -> 1 <= margin ->
  let r := win / 2 in let e := r + margin in comparable m n e norm -> (gpu = true -> any_launch (block, 1) sched) ->
  let count := match num with Some k => k | None => 30 end in 1 <= count ->
  exists points l,
    find_global_shift polyfit2 surface randint (One m) (One n) win margin NoPoints num how gpu block sched sub meth size norm true = Ok (Lists (map fst l) (map snd l)) /\
    Z.of_nat (length points) = count /\ Forall (fun p => window_inside (One m) e (fst p) (snd p)) points /\
    Forall2 (shift_at polyfit2 surface (One (if norm then equalised m else m)) (One (if norm then equalised n else n)) r margin gpu sub meth size) points l.
Proof.
  intros polyfit2 surface randint m n win margin num how gpu block sched sub meth size norm RE Rn R0 M r e C L count N. pose proof C as (C1 & C2 & Ch & Cw & _).
  destruct (Rn true e (nrow m - e) count) as (L1 & F1); [lia|lia|]. destruct (Rn false e (ncol m - e) count) as (L2 & F2); [lia|lia|].
  set (li := randint true e (nrow m - e) count) in *. set (lj := randint false e (ncol m - e) count) in *.
  assert (Fi : Forall (fun p => window_inside (One m) e (fst p) (snd p)) (combine li lj)).
  { apply Forall_forall. intros [i j] Hp. pose proof (in_combine_l _ _ _ _ Hp) as Hi. pose proof (in_combine_r _ _ _ _ Hp) as Hj. rewrite Forall_forall in F1, F2.
    specialize (F1 i Hi). specialize (F2 j Hj). unfold window_inside. cbn [fst snd height width]. lia. }
  destruct (search_points polyfit2 surface randint m n win margin NoPoints num how gpu block sched sub meth size norm true li lj) as (l & El & Fl); try assumption.
  - unfold choose_points. fold count. destruct (Z.ltb_spec count 0); [lia|]. reflexivity.
  - lia.
  - intros E. rewrite E in L1. cbn in L1. lia.
  - exists (combine li lj), l. split; [exact El|]. split; [rewrite combine_length; lia|]. split; [exact Fi|exact Fl].
Qed.
Print Assumptions global_shift_random_points_fit.

(** what is neither [i, j] nor two lists of the same length is rejected, and so are images of different or too small sizes and stacks *)
Theorem global_shift_malformed_arguments_rejected : forall polyfit2 surface randint ref mat win margin pts num how (gpu : bool) block sched sub meth size (norm return_list : bool),
  0 <= win / 2 ->
  (forall i j, pts <> Points [Index i; Index j]) /\ (forall li lj, length li = length lj -> pts <> Points [Indices li; Indices lj]) /\ pts <> NoPoints \/
  ~ same_size ref mat \/ 1 < depth ref \/ height ref < 2 * (win / 2 + margin) + 1 \/ width ref < 2 * (win / 2 + margin) + 1 ->
  find_global_shift polyfit2 surface randint ref mat win margin pts num how gpu block sched sub meth size norm return_list = Err ValueError.
Proof.
  intros polyfit2 surface randint ref mat win margin pts num how gpu block sched sub meth size norm rl R0 H.
  unfold find_global_shift, global_shift_gpu, global_shift_cpu. destruct (same_shape ref mat) eqn:Ss; cbn [negb]; [|destruct gpu; reflexivity]. apply same_shape_spec in Ss.
  destruct ref as [m|v]; [|destruct gpu; reflexivity]. cbn [shape2 height width depth] in *.
  replace ((2 * (win / 2) + 1) / 2) with (win / 2) by (apply Z.div_unique_pos with 1; lia).
  set (e := win / 2 + margin) in *. replace (2 * (win / 2) + 1 + 2 * margin) with (2 * e + 1) by (unfold e; lia).
  assert (G : forall h w, (forall i j, pts <> Points [Index i; Index j]) /\ (forall li lj, length li = length lj -> pts <> Points [Indices li; Indices lj]) /\ pts <> NoPoints ->
              choose_points randint pts num h w e = Err ValueError).
  { intros h w (A & B & D). destruct pts as [| |l]; [congruence|reflexivity|]. destruct l as [|a l]; [reflexivity|]. destruct l as [|b l]; [destruct a; reflexivity|].
    destruct l as [|c l]; [|destruct a, b; reflexivity]. destruct a as [i|li], b as [j|lj]; [exfalso; eapply A; reflexivity|reflexivity|reflexivity|]. cbn [choose_points get_input_list].
    destruct (Nat.eqb_spec (length li) (length lj)) as [Q|Q]; [exfalso; eapply B; [exact Q|reflexivity]|]. reflexivity. }
  destruct H as [H|[H|[H|H] ] ]; [|congruence|lia|].
  - rewrite G by exact H. destruct gpu; destruct (orb _ _); reflexivity.
  - destruct gpu.
    + destruct (Z.ltb_spec (ncol m - 2 * e) 1), (Z.ltb_spec (nrow m - 2 * e) 1); try reflexivity. lia.
    + destruct (Z.ltb_spec (ncol m) (2 * e + 1)), (Z.ltb_spec (nrow m) (2 * e + 1)); try reflexivity. lia.
Qed.
Print Assumptions global_shift_malformed_arguments_rejected.
(** e.g. 60 x 80 pixels, win_size=11, margin=10: of the points (15, 20), (16, 64), (44, 65), (200, 3) the second is used; the first is
    rejected although its window fits *)
Definition ex_image (a : Z) : img R := mkimg 60 80 (fun i j => IZR ((i * i + a * j) mod 7)).
Example ex_used : filter (usable (One (ex_image 3)) (11 / 2 + 10)) (combine [15; 16; 44; 200] [20; 64; 65; 3]) = [(16, 64)] /\
  window_inside (One (ex_image 3)) (11 / 2 + 10) 15 20 /\ ~ window_inside (One (ex_image 3)) (11 / 2 + 10) 44 65 /\ comparable (ex_image 3) (ex_image 5) (11 / 2 + 10) false.
Proof. split; [vm_compute; reflexivity|]. unfold window_inside, comparable. cbn. repeat split; try lia; discriminate. Qed.
(** a generator *)
Example ex_random : random_integers (fun _ low high n => map (fun k => low + k mod (high - low)) (zrange 0 n)).
Proof.
  intros b low high n L N. split; [rewrite map_length, zrange_length; lia|]. apply Forall_map, Forall_forall. intros k _. pose proof (Z.mod_pos_bound k (high - low) ltac:(lia)). lia.
Qed.

(** ** C94: the value returned for all points *)
(** it is not influenced by a tolerated number of arbitrarily wrong local values: (n - 1) / 2 of n for "median", n / 2 - 3 for
    "mixed", 2 for the mean of more than 7; and it lies between the smallest and the largest of the others *)
Theorem global_value_tolerates_outliers : forall polyfit2 surface randint ref mat win margin pts num how gpu block sched sub meth size norm xs ys,
  let result := find_global_shift polyfit2 surface randint ref mat win margin pts num how gpu block sched sub meth size norm in
  result true = Ok (Lists xs ys) ->
  exists x y, result false = Ok (Global x y) /\
    (forall a c, all_but (tolerated how (length xs)) (fun v => a <= v <= c)%R xs -> (a <= x <= c)%R) /\
    (forall a c, all_but (tolerated how (length ys)) (fun v => a <= v <= c)%R ys -> (a <= y <= c)%R).
Proof.
  intros polyfit2 surface randint ref mat win margin pts num how gpu block sched sub meth size norm xs ys result E.
  destruct (search_either polyfit2 surface randint ref mat win margin pts num how gpu block sched sub meth size norm how) as [(er & Q)|(l & N & Q1 & Q2)].
  - unfold result in E. rewrite Q in E. discriminate.
  - fold result in Q1, Q2. rewrite Q1 in E. injection E as <- <-. exists (summarise how (map fst l)), (summarise how (map snd l)). split; [exact Q2|].
    split; intros a c; apply summarise_within; intros Q; apply map_eq_nil in Q; congruence.
Qed.
Print Assumptions global_value_tolerates_outliers.
Theorem global_value_between_local_values : forall polyfit2 surface randint ref mat win margin pts num how gpu block sched sub meth size norm xs ys,
  let result := find_global_shift polyfit2 surface randint ref mat win margin pts num how gpu block sched sub meth size norm in
  result true = Ok (Lists xs ys) ->
  exists x y, result false = Ok (Global x y) /\
    (exists a c, In a xs /\ In c xs /\ (a <= x <= c)%R) /\ (exists a c, In a ys /\ In c ys /\ (a <= y <= c)%R).
Proof.
  intros polyfit2 surface randint ref mat win margin pts num how gpu block sched sub meth size norm xs ys result E.
  destruct (search_either polyfit2 surface randint ref mat win margin pts num how gpu block sched sub meth size norm how) as [(er & Q)|(l & N & Q1 & Q2)].
  - unfold result in E. rewrite Q in E. discriminate.
  - fold result in Q1, Q2. rewrite Q1 in E. injection E as <- <-. exists (summarise how (map fst l)), (summarise how (map snd l)). split; [exact Q2|].
    assert (G : forall q : list R, q <> [] -> exists a c, In a q /\ In c q /\ (a <= summarise how q <= c)%R).
    { intros q Nq. pose proof (rsort_length q) as Ls. assert (Lq : (0 < length q)%nat) by (destruct q; [congruence|cbn; lia]).
      exists (nth 0 (rsort q) 0%R), (nth (length q - 1) (rsort q) 0%R).
      split; [apply (Permutation_in _ (Permutation_sym (rsort_perm q))), nth_In; lia|]. split; [apply (Permutation_in _ (Permutation_sym (rsort_perm q))), nth_In; lia|].
      apply summarise_within; [exact Nq|]. exists (rsort q), []. rewrite app_nil_r. split; [apply rsort_perm|]. split; [cbn; lia|].
      apply Forall_forall. intros z Hz. apply In_nth with (d := 0%R) in Hz. destruct Hz as (k & Hk & <-). split; apply sorted_nth; try apply rsort_sorted; lia. }
    split; apply G; intros Q; apply map_eq_nil in Q; congruence.
Qed.
Print Assumptions global_value_between_local_values.
(** of 30 values "mixed" tolerates 12 wrong ones, "median" 14 and "mean" 2 *)
Example ex_tolerated : tolerated Mixed 30 = 12%nat /\ tolerated Median 30 = 14%nat /\ tolerated Mean 30 = 2%nat /\
  all_but (tolerated Median 5) (fun v => 1 <= v <= 2)%R [1; 100; 2; -50; 2]%R.
Proof.
  split; [reflexivity|]. split; [reflexivity|]. split; [reflexivity|]. exists [1; 2; 2]%R, [100; -50]%R. split.
  - cbn [app]. apply perm_skip. apply perm_trans with [2; 100; -50; 2]%R; [apply perm_swap|]. apply perm_skip.
    apply Permutation_sym. apply (Permutation_middle [100; -50]%R [] 2%R).
  - split; [cbn; lia|]. repeat constructor; lra.
Qed.
(** the order of the points is irrelevant *)
Theorem global_value_order_of_points_irrelevant : forall polyfit2 surface randint m n win margin li lj li' lj' num how (gpu : bool) block sched sub meth size (norm : bool),
  (meth = PolyFit -> reads_elements polyfit2 surface) -> 0 <= win / 2 -> 1 <= margin ->
  comparable m n (win / 2 + margin) norm -> (gpu = true -> any_launch (block, 1) sched) -> length li = length lj -> length li' = length lj' ->
  Permutation (combine li lj) (combine li' lj') ->
  let result := fun a b => find_global_shift polyfit2 surface randint (One m) (One n) win margin (Points [Indices a; Indices b]) num how gpu block sched sub meth size norm false in
  result li lj = result li' lj'.
Proof.
  intros polyfit2 surface randint m n win margin li lj li' lj' num how gpu block sched sub meth size norm RE R0 M C L Len Len' P result.
  pose proof (global_shift_of_listed_points_partial polyfit2 surface randint m n win margin li lj num how gpu block sched sub meth size norm RE R0 M C L Len) as G.
  pose proof (global_shift_of_listed_points_partial polyfit2 surface randint m n win margin li' lj' num how gpu block sched sub meth size norm RE R0 M C L Len') as G'.
  cbv zeta in G, G'. destruct G as (_ & G1 & G2). destruct G' as (_ & G1' & G2'). set (e := win / 2 + margin) in *.
  set (used := filter (usable (One m) e) (combine li lj)) in *. set (used' := filter (usable (One m) e) (combine li' lj')) in *.
  assert (Pu : Permutation used used').
  { unfold used, used'. clear - P. induction P; cbn [filter]; try constructor; repeat match goal with |- context [usable ?d ?e ?x] => destruct (usable d e x) end; try constructor; try assumption; try apply Permutation_refl.
    eapply perm_trans; eassumption. }
  assert (Ei : forall a b, find_global_shift polyfit2 surface randint (One m) (One n) win margin (Points [Indices a; Indices b]) num how gpu block sched sub meth size norm true = Err ValueError -> result a b = Err ValueError).
  { intros a b E. destruct (search_either polyfit2 surface randint (One m) (One n) win margin (Points [Indices a; Indices b]) num how gpu block sched sub meth size norm how) as [(er & Q)|(l & N & Q1 & Q2)].
    - rewrite Q in E. injection E as ->. apply Q.
    - rewrite Q1 in E. discriminate. }
  assert (Fn : forall a b l, find_global_shift polyfit2 surface randint (One m) (One n) win margin (Points [Indices a; Indices b]) num how gpu block sched sub meth size norm true = Ok (Lists (map fst l) (map snd l)) ->
     result a b = Ok (Global (summarise how (map fst l)) (summarise how (map snd l)))).
  { intros a b l E. destruct (search_either polyfit2 surface randint (One m) (One n) win margin (Points [Indices a; Indices b]) num how gpu block sched sub meth size norm how) as [(er & Q)|(l' & N & Q1 & Q2)].
    - rewrite Q in E. discriminate.
    - rewrite Q1 in E. injection E as E1 E2. unfold result. rewrite Q2. unfold conclude. rewrite E1, E2. reflexivity. }
  destruct used as [|p u] eqn:Eu.
  - apply Permutation_nil in Pu. rewrite (Ei li lj (G1 eq_refl)), (Ei li' lj' (G1' Pu)). reflexivity.
  - rewrite <- Eu in *. assert (N' : used' <> []) by (intros Q; rewrite Q in Pu; apply Permutation_sym, Permutation_nil in Pu; congruence).
    destruct (G2 ltac:(congruence)) as (l & El & Fl). destruct (G2' N') as (l' & El' & Fl'). rewrite (Fn li lj l El), (Fn li' lj' l' El').
    destruct (Forall2_perm _ used used' Pu l Fl) as (l2 & P2 & F2).
    assert (l2 = l') by (eapply Forall2_same; [|exact F2|exact Fl']; intros x y z; apply shift_at_fun). subst l2.
    rewrite (summarise_perm how _ _ (Permutation_map fst P2)), (summarise_perm how _ _ (Permutation_map snd P2)). reflexivity.
Qed.
Print Assumptions global_value_order_of_points_irrelevant.
Example ex_reordered : Permutation (combine [20; 30; 40] [20; 35; 50]) (combine [40; 20; 30] [50; 20; 35]).
Proof. apply Permutation_sym. apply (Permutation_middle [(20, 20); (30, 35)] [] (40, 50)). Qed.
(** local values that are symmetric around c give c, except for "mixed" with an odd number of at least 7 points *)
Theorem global_value_of_symmetric_values_partial : forall polyfit2 surface randint ref mat win margin pts num how gpu block sched sub meth size norm xs ys,
  let result := find_global_shift polyfit2 surface randint ref mat win margin pts num how gpu block sched sub meth size norm in
  result true = Ok (Lists xs ys) -> how <> Mixed \/ Nat.even (length xs) = true \/ (length xs < 7)%nat ->
  exists x y, result false = Ok (Global x y) /\ (forall c, centred c xs -> x = c) /\ (forall c, centred c ys -> y = c).
Proof.
  intros polyfit2 surface randint ref mat win margin pts num how gpu block sched sub meth size norm xs ys result E H.
  destruct (search_either polyfit2 surface randint ref mat win margin pts num how gpu block sched sub meth size norm how) as [(er & Q)|(l & N & Q1 & Q2)].
  - unfold result in E. rewrite Q in E. discriminate.
  - fold result in Q1, Q2. rewrite Q1 in E. injection E as <- <-. exists (summarise how (map fst l)), (summarise how (map snd l)). split; [exact Q2|].
    rewrite map_length in H. split; intros c C; (apply summarise_centred; [intros Q; apply map_eq_nil in Q; congruence|exact C|rewrite map_length; exact H]).
Qed.
Print Assumptions global_value_of_symmetric_values_partial.
Theorem global_value_of_symmetric_values_refuted : forall polyfit2 surface randint ref mat win margin pts num gpu block sched sub meth size norm xs ys,
  let result := find_global_shift polyfit2 surface randint ref mat win margin pts num Mixed gpu block sched sub meth size norm in
  result true = Ok (Lists xs ys) -> Nat.even (length xs) = false -> (7 <= length xs)%nat ->
  exists x y, result false = Ok (Global x y) /\ (forall c, centred c xs -> NoDup xs -> (x < c)%R) /\ (forall c, centred c ys -> NoDup ys -> (y < c)%R).
Proof.
  intros polyfit2 surface randint ref mat win margin pts num gpu block sched sub meth size norm xs ys result E H H7.
  destruct (search_either polyfit2 surface randint ref mat win margin pts num Mixed gpu block sched sub meth size norm Mixed) as [(er & Q)|(l & N & Q1 & Q2)].
  - unfold result in E. rewrite Q in E. discriminate.
  - fold result in Q1, Q2. rewrite Q1 in E. injection E as <- <-. exists (summarise Mixed (map fst l)), (summarise Mixed (map snd l)). split; [exact Q2|].
    rewrite map_length in H, H7. split; intros c C Nd; (apply mixed_odd; try assumption; rewrite map_length; assumption).
Qed.
Print Assumptions global_value_of_symmetric_values_refuted.
Example ex_centred : centred 0 [-3; -2; -1; 0; 1; 2; 3]%R /\ (summarise Mixed [-3; -2; -1; 0; 1; 2; 3] < 0)%R.
Proof.
  assert (C : centred 0 [-3; -2; -1; 0; 1; 2; 3]%R).
  { unfold centred. apply perm_trans with (rev [-3; -2; -1; 0; 1; 2; 3]%R); [apply Permutation_rev|]. cbn [rev app map].
    replace [2 * 0 - -3; 2 * 0 - -2; 2 * 0 - -1; 2 * 0 - 0; 2 * 0 - 1; 2 * 0 - 2; 2 * 0 - 3]%R with [3; 2; 1; 0; -1; -2; -3]%R by (repeat (apply f_equal2; [lra|]); reflexivity).
    apply Permutation_refl. }
  split; [exact C|]. apply mixed_odd; [exact C|reflexivity|cbn; lia|].
  repeat (constructor; [cbn; intros H; repeat destruct H as [H|H]; lra|]). constructor.
Qed.

(** ** C95: the displacement of one image against the other *)
(** if what surrounds the points used is only found at one displacement, for all but the tolerated number of points, this
    displacement is returned: within one pixel and, with sub_pixel=False, exactly *)
Theorem global_shift_recovers_displacement : forall polyfit2 surface randint m n win margin li lj num how (gpu : bool) block sched sub meth size (norm : bool) dy dx,
  (meth = PolyFit -> reads_elements polyfit2 surface) -> 0 <= win / 2 -> 1 <= margin ->
  let r := win / 2 in let e := r + margin in comparable m n e norm -> (gpu = true -> any_launch (block, 1) sched) -> length li = length lj ->
  - margin <= dy <= margin -> - margin <= dx <= margin ->
  let used := filter (usable (One m) e) (combine li lj) in used <> [] ->
  all_but (tolerated how (length used)) (only_match (One (if norm then equalised m else m)) (One (if norm then equalised n else n)) r margin dy dx) used ->
  exists x y, find_global_shift polyfit2 surface randint (One m) (One n) win margin (Points [Indices li; Indices lj]) num how gpu block sched sub meth size norm false = Ok (Global x y) /\
    (gpu = false -> sub = false -> x = IZR dx /\ y = IZR dy) /\
    (gpu = true \/ meth <> PolyFit -> Rabs (x - IZR dx) < 1 /\ Rabs (y - IZR dy) < 1)%R.
Proof.
  intros polyfit2 surface randint m n win margin li lj num how gpu block sched sub meth size norm dy dx RE R0 M r e C L Len Hy Hx used Ne A.
  destruct (global_shift_of_listed_points_partial polyfit2 surface randint m n win margin li lj num how gpu block sched sub meth size norm RE R0 M C L Len) as (_ & _ & G).
  destruct (G Ne) as (l & El & Fl).
  destruct (search_either polyfit2 surface randint (One m) (One n) win margin (Points [Indices li; Indices lj]) num how gpu block sched sub meth size norm how) as [(er & Q)|(l' & N & Q1 & Q2)].
  - rewrite Q in El. discriminate.
  - rewrite Q1 in El. injection El as E1 E2. rewrite Q2. eexists. eexists. split; [reflexivity|]. rewrite E1, E2.
    apply (match_values polyfit2 surface (One (if norm then equalised m else m)) (One (if norm then equalised n else n)) r margin gpu sub meth size dy dx how used l); try assumption; [exact I|cbn; lia].
Qed.
Print Assumptions global_shift_recovers_displacement.
(** points chosen at random: if every place of the image matches there *)
Theorem global_shift_random_points_recover_displacement : forall polyfit2 surface randint m n win margin num how (gpu : bool) block sched sub meth size (norm : bool) dy dx,
  (meth = PolyFit -> reads_elements polyfit2 surface) -> random_integers randint -> 0 <= win / 2 -> 1 <= margin ->
  let r := win / 2 in let e := r + margin in comparable m n e norm -> (gpu = true -> any_launch (block, 1) sched) ->
  - margin <= dy <= margin -> - margin <= dx <= margin -> 1 <= match num with Some k => k | None => 30 end ->
  (forall p, window_inside (One m) e (fst p) (snd p) -> only_match (One (if norm then equalised m else m)) (One (if norm then equalised n else n)) r margin dy dx p) ->
  exists x y, find_global_shift polyfit2 surface randint (One m) (One n) win margin NoPoints num how gpu block sched sub meth size norm false = Ok (Global x y) /\
    (gpu = false -> sub = false -> x = IZR dx /\ y = IZR dy) /\
    (gpu = true \/ meth <> PolyFit -> Rabs (x - IZR dx) < 1 /\ Rabs (y - IZR dy) < 1)%R.
Proof.
  intros polyfit2 surface randint m n win margin num how gpu block sched sub meth size norm dy dx RE Rn R0 M r e C L Hy Hx Nm A.
  destruct (global_shift_random_points_fit polyfit2 surface randint m n win margin num how gpu block sched sub meth size norm RE Rn R0 M C L Nm) as (pts & l & El & Lp & Fp & Fl).
  destruct (search_either polyfit2 surface randint (One m) (One n) win margin NoPoints num how gpu block sched sub meth size norm how) as [(er & Q)|(l' & N & Q1 & Q2)].
  - rewrite Q in El. discriminate.
  - rewrite Q1 in El. injection El as E1 E2. rewrite Q2. eexists. eexists. split; [reflexivity|]. rewrite E1, E2.
    apply (match_values polyfit2 surface (One (if norm then equalised m else m)) (One (if norm then equalised n else n)) r margin gpu sub meth size dy dx how pts l); try assumption; [exact I|cbn; lia|intros ->; cbn in Lp; lia|].
    exists pts, []. rewrite app_nil_r. split; [apply Permutation_refl|]. split; [cbn; lia|]. eapply Forall_impl; [|exact Fp]. intros p Hp. apply A, Hp.
Qed.
Print Assumptions global_shift_random_points_recover_displacement.
(** the pattern 0 1 0 / 0 0 2 / 1 0 0 in 7 x 7 pixels, one row lower in the second image; the only point used is the centre *)
Definition ex_spot (y : Z) : img R :=
  mkimg 7 7 (fun i j => if (i =? y) && (j =? 3) then 1 else if (i =? y + 1) && (j =? 4) then 2 else if (i =? y + 2) && (j =? 2) then 1 else 0)%R.
Example ex_match : let m := ex_spot 1 in let n := ex_spot 2 in
  comparable m n 2 false /\ filter (usable (One m) 2) (combine [3; 1] [3; 3]) = [(3, 3)] /\ only_match (One m) (One n) 1 1 (-1) 0 (3, 3).
Proof.
  intros m n. split; [unfold comparable; cbn; repeat split; try lia; discriminate|]. split; [vm_compute; reflexivity|].
  unfold only_match. cbv zeta. cbn [fst snd]. change (window (One n) (3 - 1) (3 - 1) (2 * 1 + 1) (2 * 1 + 1)) with [0; 1; 0; 0; 0; 2; 1; 0; 0]%R. split.
  - exists 0%R, 1%R. split; [left; reflexivity|]. split; [right; left; reflexivity|lra].
  - intros dy' dx' Hy Hx. split.
    + intros (s & t & S & E).
      assert (dy' = -1 \/ dy' = 0 \/ dy' = 1) as [-> | [-> | ->] ] by lia; assert (dx' = -1 \/ dx' = 0 \/ dx' = 1) as [-> | [-> | ->] ] by lia;
        try (split; reflexivity); exfalso; cbv -[IZR Rmult Rplus Rlt] in E; injection E; intros; lra.
    + intros (-> & ->). exists 1%R, 0%R. split; [lra|]. cbv -[IZR Rmult Rplus]. repeat (apply f_equal2; [lra|]). reflexivity.
Qed.
