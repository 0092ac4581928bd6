(** Proofs about the shift from several points: the points and the local shifts. *)
From Coq Require Import Reals Lra ZArith Lia Permutation.
From Verif Require Import Np P_Np M_phase_R P_phase_R M_corr S_corr P_corr P_corr2 P_corr3 P_corr4 M_local S_local P_peakext P_local P_local2 P_local3 P_local4 P_local8 P_local9 P_local11 P_local12 M_global S_global P_global.
From Coq Require Import List. Import ListNotations.
Open Scope Z_scope.

Lemma inside_usable d g i j : inside (height d) (width d) g i j = usable d g (i, j).
Proof.
  unfold inside, usable. cbn [fst snd]. destruct (Z.ltb_spec g i), (Z.ltb_spec 0 (i - g)); try lia; destruct (Z.ltb_spec i (height d - g)), (Z.ltb_spec (i + g) (height d)); try lia;
    destruct (Z.ltb_spec g j), (Z.ltb_spec 0 (j - g)); try lia; destruct (Z.ltb_spec j (width d - g)), (Z.ltb_spec (j + g) (width d)); try lia; reflexivity.
Qed.
Lemma usable_spec d e p : usable d e p = true <-> (window_inside d e (fst p) (snd p) /\ fst p <> e /\ snd p <> e).
Proof. unfold usable, window_inside. rewrite !Bool.andb_true_iff, !Z.ltb_lt. lia. Qed.
Lemma combine_fst_snd {A B} (l : list (A * B)) : combine (map fst l) (map snd l) = l.
Proof. induction l as [| [x y] t IH]; [reflexivity|]. cbn [map combine fst snd]. rewrite IH. reflexivity. Qed.
Lemma kept_points h w g li lj : length li = length lj ->
  fold_left (fun acc k => let i := nth k li 0 in let j := nth k lj 0 in
     if inside h w g i j then (fst acc ++ [i], snd acc ++ [j]) else acc) (seq 0 (length li)) ([], []) =
  (map fst (filter (fun p => inside h w g (fst p) (snd p)) (combine li lj)), map snd (filter (fun p => inside h w g (fst p) (snd p)) (combine li lj))).
Proof.
  intros L. set (F := fun li lj acc k => let i := nth k li 0 in let j := nth k lj 0 in if inside h w g i j then (fst acc ++ [i], snd acc ++ [j]) else acc).
  assert (G : forall li lj acc, length li = length lj -> fold_left (F li lj) (seq 0 (length li)) acc =
     (fst acc ++ map fst (filter (fun p => inside h w g (fst p) (snd p)) (combine li lj)), snd acc ++ map snd (filter (fun p => inside h w g (fst p) (snd p)) (combine li lj)))).
  { clear. induction li as [|i li IH]; intros lj acc L; [destruct acc; cbn; rewrite !app_nil_r; reflexivity|]. destruct lj as [|j lj]; [discriminate|]. cbn [length] in *.
    cbn [seq fold_left]. rewrite <- seq_shift.
    assert (Sh : forall l acc, fold_left (F (i :: li) (j :: lj)) (map S l) acc = fold_left (F li lj) l acc).
    { clear. induction l as [|k l IHl]; intros acc; [reflexivity|]. cbn [map fold_left]. rewrite IHl. reflexivity. }
    rewrite Sh, IH by lia. unfold F. cbn [nth combine filter fst snd]. destruct (inside h w g i j); cbn [map fst snd]; [|reflexivity]. rewrite <- !app_assoc. reflexivity. }
  transitivity (fold_left (F li lj) (seq 0 (length li)) ([], [])); [reflexivity|]. rewrite G by exact L. reflexivity.
Qed.
Lemma input_lists d g li lj : let kept := filter (usable d g) (combine li lj) in length li = length lj ->
  get_input_list (Points [Indices li; Indices lj]) (height d) (width d) g =
  match kept with [] => Err ValueError | _ => Ok (map fst kept, map snd kept) end.
Proof.
  intros kept L. unfold get_input_list. rewrite (proj2 (Nat.eqb_eq _ _) L). cbn [negb]. rewrite kept_points by exact L. cbn [fst].
  assert (E : filter (fun p => inside (height d) (width d) g (fst p) (snd p)) (combine li lj) = kept).
  { unfold kept. apply filter_ext. intros [i j]. cbn [fst snd]. apply inside_usable. }
  rewrite E. destruct kept; reflexivity.
Qed.
Lemma mapr_exists {A B} (f : A -> res B) l : Forall (fun x => exists v, f x = Ok v) l -> exists l', mapr f l = Ok l' /\ Forall2 (fun x v => f x = Ok v) l l'.
Proof.
  intros F. assert (G : exists l', Forall2 (fun x v => f x = Ok v) l l').
  { induction F as [|x t (v & Hv) F IH]; [exists []; constructor|]. destruct IH as (t' & IH). exists (v :: t'). constructor; assumption. }
  destruct G as (l' & G). exists l'. split; [apply mapr_ok; exact G|exact G].
Qed.
Lemma Forall2_impl_in {A B} (P Q : A -> B -> Prop) l l' : (forall x y, In x l -> P x y -> Q x y) -> Forall2 P l l' -> Forall2 Q l l'.
Proof. intros H F. induction F as [|x y l l' p F IH]; constructor; [apply H; [left; reflexivity|exact p]|]. apply IH. intros a b Ha. apply H. right. exact Ha. Qed.

Section global.
Context (polyfit2 : vec R -> R * R) (surface : img R -> R * R * R * R * R) (randint : bool -> Z -> Z -> Z -> list Z).
Notation find_shift := (find_shift_based_correlation_map polyfit2 surface).
Notation search := (find_global_shift polyfit2 surface randint).

Lemma normal_image m n e (norm : bool) : comparable m n e norm -> 0 <= e ->
  exists s t s' t', (0 < s)%R /\ (0 < s')%R /\ normalize_if norm (One m) = rescaled s t (One (if norm then equalised m else m)) /\
    normalize_if norm (One n) = rescaled s' t' (One (if norm then equalised n else n)).
Proof using polyfit2 surface. clear randint.
  intros (Nh & Nw & Hh & Hw & V) E0. destruct norm; cbn [normalize_if].
  - destruct (normalize_one m) as (s & t & S & E); [lia|lia|apply V; reflexivity|]. destruct (normalize_one n) as (s' & t' & S' & E'); [lia|lia|apply V; reflexivity|].
    exists s, t, s', t'. auto.
  - exists 1%R, 0%R, 1%R, 0%R. rewrite !rescaled_id. split; [lra|]. split; [lra|]. split; reflexivity.
Qed.
Lemma local_total ref mat i j r margin sub meth size : same_kind ref mat -> 1 <= depth mat -> 0 <= r -> 1 <= margin ->
  exists v, find_shift (patch ref i j (r + margin)) (patch mat i j r) margin NoAxis sub meth false size false (1, 1) (fun l => l) = Ok v.
Proof using polyfit2 surface. clear randint.
  intros K D R0 M. pose proof (patch_fits ref mat i j r margin K D R0 ltac:(lia)) as F.
  destruct (patch_shape ref i j (r + margin)) as (Hr & Wr & _). destruct (patch_shape mat i j r) as (Hm & Wm & _).
  destruct (shift_template polyfit2 surface _ _ margin NoAxis sub meth false size false (1, 1) (fun l => l) F) as (m' & xs & ys & xp & yp & Em & E & _); [lia|apply default_launch|lia|].
  exists (xs, ys). exact E.
Qed.
(** once the points are chosen *)
Lemma search_points m n win margin pts num how (gpu : bool) block sched sub meth size (norm : bool) rl li lj :
  let r := win / 2 in let e := r + margin in
  let ref := One (if norm then equalised m else m) in let mat := One (if norm then equalised n else n) in
  (meth = PolyFit -> reads_elements polyfit2 surface) -> 0 <= r -> 1 <= margin -> comparable m n e norm ->
  (gpu = true -> any_launch (block, 1) sched) ->
  choose_points randint pts num (nrow m) (ncol m) e = Ok (li, lj) -> length li = length lj -> li <> [] ->
  Forall (fun p => window_inside (One m) e (fst p) (snd p)) (combine li lj) ->
  exists l, search (One m) (One n) win margin pts num how gpu block sched sub meth size norm rl = conclude how rl l /\
    Forall2 (shift_at polyfit2 surface ref mat r margin gpu sub meth size) (combine li lj) l.
Proof.
  intros r e ref mat RE R0 M C L Ch Len Ne Fi. destruct (normal_image m n e norm C ltac:(unfold e; lia)) as (s & t & s' & t' & S & S' & Er & En).
  fold ref in Er. fold mat in En. pose proof C as (Nh & Nw & Hh & Hw & _).
  assert (K : same_kind ref mat) by exact I. assert (D : 1 <= depth mat) by (cbn; lia).
  assert (Rw : (2 * (win / 2) + 1) / 2 = r) by (symmetry; apply Z.div_unique_pos with 1; unfold r; lia).
  assert (Ss : same_shape (One m) (One n) = true) by (apply same_shape_spec; split; [exact I|split; assumption]).
  assert (E0 : 1 <= e) by (unfold e; lia). assert (Re : r <= e) by (unfold e; lia).
  assert (Hr : height ref = nrow m /\ width ref = ncol m /\ height mat = nrow m /\ width mat = ncol m) by (unfold ref, mat; destruct norm; cbn; auto).
  assert (Sq : forall p, window_inside (One m) e (fst p) (snd p) ->
     square (normalize_if norm (One m)) (fst p) (snd p) e = rescaled s t (patch ref (fst p) (snd p) e) /\
     square (normalize_if norm (One n)) (fst p) (snd p) r = rescaled s' t' (patch mat (fst p) (snd p) r)).
  { intros [i j] (W1 & W2 & W3 & W4). cbn [fst snd height width] in *. destruct Hr as (H1 & H2 & H3 & H4). unfold square. rewrite Er, En, !rescaled_slice.
    fold (square ref i j e) (square mat i j r). rewrite !square_patch; [auto|..]; unfold r in *; clearbody e; lia. }
  assert (Lc : Z.of_nat (length (combine li lj)) = Z.of_nat (length li)) by (rewrite combine_length; lia).
  unfold find_global_shift. destruct gpu.
  - unfold global_shift_gpu. rewrite Ss. cbn [negb shape2]. rewrite Rw. fold e.
    destruct (Z.ltb_spec (ncol m - 2 * e) 1); [lia|]. destruct (Z.ltb_spec (nrow m - 2 * e) 1); [lia|]. cbn [orb]. rewrite Ch. cbn [bindr fst snd].
    set (N := Z.of_nat (length li)). assert (N1 : 1 <= N) by (unfold N; destruct li; [congruence|cbn [length]; lia]).
    destruct (Z.eqb_spec N 0); [lia|]. eexists. split; [reflexivity|]. destruct (L eq_refl) as ((B1 & B2) & P). cbn [fst snd] in B1, B2.
    set (val := fun (_ k : Z) => let p := (nth (Z.to_nat k) li 0, nth (Z.to_nat k) lj 0) in
       gpu_pixel margin (gen_2d_corr_map (square (normalize_if norm (One m)) (fst p) (snd p) e) (square (normalize_if norm (One n)) (fst p) (snd p) r))).
    assert (Ev : forall k, 0 <= k < N -> launch (points_kernel (normalize_if norm (One m)) (normalize_if norm (One n)) li lj r margin N) (sched (grid_xy N 1 (block, 1))) (fun _ _ => (0, 0)%R) 0 k = val 0 k).
    { intros k Hk. apply (launch_spec _ 1 N val (block, 1)); cbn [fst snd]; try lia; [|apply P].
      intros x y Hx Hy. unfold points_kernel. fold e. destruct ((y <? 1) && (x <? N)); [|reflexivity]. unfold val, gpu_pixel. cbn [fst snd].
      destruct (locate_max_value _) as (a & b). destruct (locate_2d_peak_kernel _ _ _) as (u & v). reflexivity. }
    assert (Ec : combine li lj = map (fun k => (nth (Z.to_nat k) li 0, nth (Z.to_nat k) lj 0)) (zrange 0 N)).
    { apply nth_ext with (0, 0) (0, 0); [rewrite map_length, zrange_length; unfold N in *; lia|]. intros k Hk. rewrite combine_length in Hk.
      rewrite combine_nth by exact Len.
      rewrite (nth_indep (map _ _) (0, 0) ((fun k => (nth (Z.to_nat k) li 0, nth (Z.to_nat k) lj 0)) 0)) by (rewrite map_length, zrange_length; unfold N; lia).
      rewrite (map_nth (fun k => (nth (Z.to_nat k) li 0, nth (Z.to_nat k) lj 0))). rewrite zrange_nth by (unfold N; lia). rewrite Z.add_0_l, Nat2Z.id. reflexivity. }
    rewrite Ec in *. clear Ec Lc. assert (G : forall q, Forall (fun k => 0 <= k < N) q -> Forall (fun p => window_inside (One m) e (fst p) (snd p)) (map (fun k => (nth (Z.to_nat k) li 0, nth (Z.to_nat k) lj 0)) q) ->
      Forall2 (shift_at polyfit2 surface ref mat r margin true sub meth size) (map (fun k => (nth (Z.to_nat k) li 0, nth (Z.to_nat k) lj 0)) q)
        (map (fun k => launch (points_kernel (normalize_if norm (One m)) (normalize_if norm (One n)) li lj r margin N) (sched (grid_xy N 1 (block, 1))) (fun _ _ => (0, 0)%R) 0 k) q)).
    { induction q as [|k q IH]; intros F1 F2; cbn [map]; [constructor|]. inversion F1 as [|? ? Hk F1']; subst. inversion F2 as [|? ? Hw' F2']; subst. constructor; [|apply IH; assumption].
      rewrite Ev by exact Hk. unfold val. cbv zeta. set (p := (nth (Z.to_nat k) li 0, nth (Z.to_nat k) lj 0)) in *. destruct (Sq p Hw') as (-> & ->).
      change e with (r + margin). rewrite (gpu_rescaled ref mat (fst p) (snd p) r margin s t s' t') by assumption.
      exact (pixel_gpu polyfit2 surface ref mat (fst p) (snd p) r margin size K D R0 M). }
    apply G; [|exact Fi]. apply Forall_forall. intros k Hk. apply zrange_In in Hk. lia.
  - unfold global_shift_cpu. rewrite Ss. cbn [negb shape2]. rewrite Rw. fold e.
    replace (2 * (win / 2) + 1 + 2 * margin) with (2 * e + 1) by (unfold e, r; lia).
    destruct (Z.ltb_spec (ncol m) (2 * e + 1)); [lia|]. destruct (Z.ltb_spec (nrow m) (2 * e + 1)); [lia|]. cbn [orb]. rewrite Ch. cbn [bindr fst snd].
    destruct (mapr_exists (fun p => find_shift (square (normalize_if norm (One m)) (fst p) (snd p) e) (square (normalize_if norm (One n)) (fst p) (snd p) r) margin NoAxis sub meth
                                        false size false (1, 1) (fun l => l)) (combine li lj)) as (l & El & Fl).
    { eapply Forall_impl; [|exact Fi]. intros p Hp. cbv beta in Hp. destruct (Sq p Hp) as (-> & ->). change e with (r + margin).
      rewrite (pixel_rescaled polyfit2 surface) with (block' := (1, 1)) (sched' := fun l => l) by assumption. apply local_total; assumption. }
    rewrite El. cbn [bindr]. assert (Ln : l <> []). { intros ->. inversion Fl as [Q|]. apply Ne. destruct li, lj; try discriminate; reflexivity. }
    destruct l as [|v l]; [congruence|]. exists (v :: l). split; [reflexivity|].
    eapply Forall2_impl_in; [|exact Fl]. intros p w Hp E. cbv beta in E. rewrite Forall_forall in Fi. destruct (Sq p (Fi p Hp)) as (Q1 & Q2). rewrite Q1, Q2 in E.
    unfold shift_at. cbv zeta. rewrite <- E. symmetry. change e with (r + margin). apply pixel_rescaled; assumption.
Qed.
(** the returned values are computed from the local shifts: errors are the same with and without return_list *)
Lemma search_either ref mat win margin pts num how gpu block sched sub meth size norm how' :
  (exists er, forall rl h, search ref mat win margin pts num h gpu block sched sub meth size norm rl = Err er) \/
  (exists l, l <> [] /\ search ref mat win margin pts num how gpu block sched sub meth size norm true = conclude how true l /\
             search ref mat win margin pts num how' gpu block sched sub meth size norm false = conclude how' false l).
Proof.
  unfold find_global_shift. destruct gpu.
  - unfold global_shift_gpu. destruct (negb (same_shape ref mat)); [left; eauto|]. destruct ref as [m|v]; [|left; eauto]. cbn [shape2].
    destruct (orb _ _); [left; eauto|]. destruct (choose_points _ _ _ _ _ _) as [ij|er]; cbn [bindr]; [|left; exists er; reflexivity].
    destruct (Z.eqb_spec (Z.of_nat (length (fst ij))) 0) as [Q|Q]; [left; eauto|]. right. eexists. split; [|split; reflexivity].
    intros E. apply map_eq_nil in E. assert (L : length (zrange 0 (Z.of_nat (length (fst ij)))) = 0%nat) by (rewrite E; reflexivity). rewrite zrange_length in L. lia.
  - unfold global_shift_cpu. destruct (negb (same_shape ref mat)); [left; eauto|]. destruct ref as [m|v]; [|left; eauto]. cbn [shape2].
    destruct (orb _ _); [left; eauto|]. destruct (choose_points _ _ _ _ _ _) as [ij|er]; cbn [bindr]; [|left; exists er; reflexivity].
    match goal with |- context [mapr ?f ?q] => destruct (mapr f q) as [l|er] end; cbn [bindr]; [|left; exists er; reflexivity].
    destruct l as [|v l]; [left; eauto|]. right. exists (v :: l). split; [discriminate|]. split; reflexivity.
Qed.
(** a local shift at a point with one match *)
Lemma shift_at_match ref mat r margin gpu sub meth size dy dx p v : same_kind ref mat -> 1 <= depth mat -> 0 <= r -> 1 <= margin ->
  - margin <= dy <= margin -> - margin <= dx <= margin -> only_match ref mat r margin dy dx p ->
  shift_at polyfit2 surface ref mat r margin gpu sub meth size p v ->
  (gpu = false -> sub = false -> v = (IZR dx, IZR dy)) /\
  (gpu = true \/ meth <> PolyFit -> Rabs (fst v - IZR dx) < 1 /\ Rabs (snd v - IZR dy) < 1)%R.
Proof using polyfit2 surface. clear randint.
  intros K D R0 M Hy Hx (Va & U) A. pose proof (best_copy ref mat (fst p) (snd p) r margin dy dx K Hy Hx Va U) as B. unfold shift_at in A. destruct gpu; cbv zeta in A.
  - destruct A as (dy' & dx' & B' & N & _). destruct (best_unique _ _ _ _ _ _ _ _ _ _ B B') as (-> & ->). split; [discriminate|]. intros _. exact N.
  - pose proof (patch_fits ref mat (fst p) (snd p) r margin K D R0 ltac:(lia)) as F.
    destruct (patch_shape ref (fst p) (snd p) (r + margin)) as (Hr & Wr & _). destruct (patch_shape mat (fst p) (snd p) r) as (Hm & Wm & _).
    destruct (shift_template polyfit2 surface _ _ margin NoAxis sub meth false size false (1, 1) (fun l => l) F) as (m' & xs & ys & xp & yp & Em & E & _ & Ex & Ey & a & b & Ha & Hb & Mx & S & Near & _); [lia|apply default_launch|lia|].
    rewrite A in E. injection E as ->. cbn [fst snd].
    replace ((width (patch ref (fst p) (snd p) (r + margin)) - width (patch mat (fst p) (snd p) r) + 1) / 2) with margin in Ex by (rewrite Wr, Wm; apply Z.div_unique_pos with 1; lia).
    replace ((height (patch ref (fst p) (snd p) (r + margin)) - height (patch mat (fst p) (snd p) r) + 1) / 2) with margin in Ey by (rewrite Hr, Hm; apply Z.div_unique_pos with 1; lia).
    rewrite Hr, Hm in Ha, Mx. rewrite Wr, Wm in Hb, Mx. replace (2 * (r + margin) + 1 - (2 * r + 1)) with (2 * margin) in * by lia.
    assert (Q : a - margin = dy /\ b - margin = dx).
    { specialize (Mx (dy + margin) (dx + margin) ltac:(lia) ltac:(lia)). rewrite !patch_correlation in Mx.
      replace (dy + margin - margin) with dy in Mx by lia. replace (dx + margin - margin) with dx in Mx by lia.
      destruct B as (_ & _ & B). destruct (B (a - margin) (b - margin) ltac:(lia) ltac:(lia)) as (B1 & B2).
      assert (Eq : local_similarity ref mat (fst p) (snd p) r (a - margin) (b - margin) = local_similarity ref mat (fst p) (snd p) r dy dx) by lra.
      assert (S1 : local_similarity ref mat (fst p) (snd p) r dy dx = 1%R) by (apply pearson_copy; [exact Va|apply U; [assumption..|split; reflexivity] ]).
      apply U; [lia|lia|]. rewrite S1 in Eq. apply pearson_one; [|exact Eq]. rewrite !window_length, (kind_depth _ _ K). reflexivity. }
    destruct Q as (Qa & Qb). subst dy dx. rewrite !minus_IZR. split.
    + intros _ ->. destruct (S eq_refl) as (-> & ->). rewrite Ex, Ey. reflexivity.
    + intros [Q|Q]; [discriminate|]. destruct (Near Q) as (N1 & N2). rewrite Ex, Ey.
      split; [replace (xp - IZR margin - (IZR b - IZR margin))%R with (xp - IZR b)%R by lra|replace (yp - IZR margin - (IZR a - IZR margin))%R with (yp - IZR a)%R by lra]; assumption.
Qed.
End global.
