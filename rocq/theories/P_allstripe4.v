(** Proofs for remove_all_stripe: scaling the sinogram scales the result. *)
From Verif Require Import Np P_Np M_utility S_utility P_utility M_io_load M_conversion P_conversion M_correction M_calculation M_removal S_removal P_removal P_removal2 P_removal3 M_blob P_blob M_allstripe S_allstripe P_allstripe P_allstripe2 P_allstripe3.
From Coq Require Import QArith Qround Qabs String ZArith Lia Lqa Psatz Permutation Sorting.Sorted.
From Coq Require Import List. Import ListNotations.
Open Scope Z_scope.

Section scale.
Context (asort : argsort_fn) (Hs : forall v, is_argsort v (asort v)) (Hcmp : compares_only asort) (c : Q) (Hc : (0 < c)%Q).
Definition times (a b : img Q) : Prop := nrow b = nrow a /\ ncol b = ncol a /\ forall i j, in_rng (nrow a) i -> in_rng (ncol a) j -> (px b i j == c * px a i j)%Q.

Lemma asort_Qeq u v : vec_Qeq u v -> forall k, asort u k = asort v k.
Proof. intros [El Ev] k. apply Hcmp; [exact El|]. intros a b Ha Hb. rewrite (Ev a Ha), (Ev b Hb). reflexivity. Qed.
Lemma asort_times u v : vlen u = vlen v -> (forall k, in_rng (vlen u) k -> (vat v k == c * vat u k)%Q) -> forall k, asort u k = asort v k.
Proof.
  intros El Ev k. apply Hcmp; [exact El|]. intros a b Ha Hb. rewrite (Ev a Ha), (Ev b Hb). symmetry. apply Qmult_le_l. exact Hc.
Qed.
Lemma qput_times a b l m : (b == c * a)%Q -> Forall2 (fun x y => y == c * x)%Q l m -> Forall2 (fun x y => y == c * x)%Q (qput a l) (qput b m).
Proof.
  intros E H. induction H as [|x y l m Exy H IH]; cbn [qput]; [constructor; [exact E|constructor]|].
  replace (Qle_bool b y) with (Qle_bool a x).
  - destruct (Qle_bool a x); constructor; try assumption. constructor; assumption.
  - apply eq_true_iff_eq. rewrite !Qle_bool_iff. rewrite E, Exy. symmetry. apply Qmult_le_l. exact Hc.
Qed.
Lemma qsorted_times l m : Forall2 (fun x y => y == c * x)%Q l m -> Forall2 (fun x y => y == c * x)%Q (qsorted l) (qsorted m).
Proof. induction 1; cbn; [constructor|apply qput_times; assumption]. Qed.
Lemma nth_times l m k : Forall2 (fun x y => y == c * x)%Q l m -> (nth k m 0 == c * nth k l 0)%Q.
Proof. intros H. revert k. induction H as [|x y l m E H IH]; intros [|k]; cbn [nth]; try ring; [exact E|apply IH]. Qed.
Lemma median_times {A} (f g : A -> Q) l : (forall x, In x l -> (g x == c * f x)%Q) -> (median_value (map g l) == c * median_value (map f l))%Q.
Proof.
  intros H. unfold median_value. rewrite !map_length. apply nth_times, qsorted_times. induction l as [|a l IH]; cbn; constructor; [apply H; left; reflexivity|].
  apply IH. intros x Hx. apply H. right. exact Hx.
Qed.
Lemma median_rows_times size a b : times a b -> times (median_along_rows size a) (median_along_rows size b).
Proof.
  intros (E1 & E2 & E3). split; [exact E1|]. split; [exact E2|]. cbn [median_along_rows nrow ncol px]. intros i j Hi Hj.
  rewrite E2. apply median_times. intros d _. apply E3; [exact Hi|]. apply reflect_shows. unfold in_rng in Hj. lia.
Qed.
Lemma forward_times a b : times a b -> times (fst (sort_forward asort a 0)) (fst (sort_forward asort b 0)) /\ img_eq (snd (sort_forward asort a 0)) (snd (sort_forward asort b 0)).
Proof.
  intros (E1 & E2 & E3).
  assert (EA : forall j, in_rng (ncol a) j -> forall k, asort (irow (itrans a) j) k = asort (irow (itrans b) j) k).
  { intros j Hj. apply asort_times; cbn [irow itrans vlen vat ncol nrow px]; [congruence|]. intros k Hk. apply E3; assumption. }
  unfold sort_forward. change (0 =? 0) with true. cbn [sort_forward_rows fst snd itrans nrow ncol px irow vat vlen]. split.
  - split; [exact E1|]. split; [exact E2|]. intros i j Hi Hj. change (px b (asort (irow (itrans b) j) i) j == c * px a (asort (irow (itrans a) j) i) j)%Q. rewrite <- (EA j Hj). apply E3; [|exact Hj].
    apply (proj1 (Hs (irow (itrans a) j))). exact Hi.
  - split; [symmetry; exact E1|]. split; [symmetry; exact E2|]. cbn [itrans nrow ncol px]. intros i j Hi Hj. f_equal. apply EA, Hj.
Qed.
Lemma backward_times a b x y : times a b -> img_eq x y -> nrow x = nrow a -> ncol x = ncol a -> (forall j, in_rng (ncol a) j -> forall i, in_rng (nrow a) i -> in_rng (nrow a) (asort (irow (itrans x) j) i)) ->
  times (sort_backward asort a x 0) (sort_backward asort b y 0).
Proof.
  intros (E1 & E2 & E3) (X1 & X2 & X3) N1 N2 HI. unfold sort_backward. change (0 =? 0) with true. cbn [sort_backward_rows itrans nrow ncol px]. split; [exact E1|]. split; [exact E2|].
  intros i j Hi Hj. change (px b (asort (irow (itrans y) j) i) j == c * px a (asort (irow (itrans x) j) i) j)%Q. rewrite <- (asort_Qeq (irow (itrans x) j) (irow (itrans y) j)).
  - apply E3; [|exact Hj]. apply HI; assumption.
  - split; cbn [irow itrans vlen vat ncol nrow px]; [exact X1|]. intros k Hk. rewrite X3; [reflexivity|exact Hk|rewrite N2; exact Hj].
Qed.
Lemma index_range (a : img Q) j i : in_rng (ncol a) j -> in_rng (nrow a) i -> in_rng (nrow a) (asort (irow (itrans (snd (sort_forward asort a 0))) j) i).
Proof.
  intros Hj Hi. unfold sort_forward. change (0 =? 0) with true. cbn [sort_forward_rows fst snd itrans nrow ncol px].
  match goal with |- context [asort ?v i] => apply (proj1 (Hs v)); exact Hi end.
Qed.
Lemma sorting_times (filt : img Q -> img Q) a b : keeps_shape filt -> (forall a b, times a b -> times (filt a) (filt b)) -> times a b ->
  times (remove_stripe_based_sorting asort filt a) (remove_stripe_based_sorting asort filt b).
Proof.
  intros Hf HF T. destruct (forward_times a b T) as [F1 F2]. unfold remove_stripe_based_sorting.
  pose proof (index_range a) as HI.
  assert (NA : nrow (fst (sort_forward asort a 0)) = nrow a /\ ncol (fst (sort_forward asort a 0)) = ncol a /\ nrow (snd (sort_forward asort a 0)) = nrow a /\ ncol (snd (sort_forward asort a 0)) = ncol a) by (repeat split).
  destruct (sort_forward asort a 0) as [s x]. destruct (sort_forward asort b 0) as [s' x']. cbn [fst snd] in *. destruct NA as (A1 & A2 & A3 & A4).
  destruct (Hf s) as [G1 G2]. apply backward_times; [apply HF, F1|exact F2|congruence|congruence|]. intros j Hj i Hi. rewrite G1, A1 in *. rewrite G2, A2 in *. apply HI; assumption.
Qed.
Definition same_result (a b : res (img Q)) : Prop := match a, b with Ok x, Ok y => times x y | Err e, Err f => e = f | _, _ => False end.
Lemma mean_rows_times (s t : img Q) p q j : times s t -> in_rng (ncol s) j -> 0 <= nrow s -> (mean_rows t p q j == c * mean_rows s p q j)%Q.
Proof.
  intros (E1 & E2 & E3) Hj H0. unfold mean_rows, qmean. rewrite E1.
  rewrite (qsum_ext (slen (nrow s) p q) (fun k => px t (py_adj (nrow s) p + k) j) (fun k => (c * px s (py_adj (nrow s) p + k) j)%Q)).
  - rewrite qsum_scal. unfold Qdiv. ring.
  - intros k Hk. apply E3; [|exact Hj]. unfold in_rng, slen in *. pose proof (py_adj_bounds (nrow s) p H0). pose proof (py_adj_bounds (nrow s) q H0). lia.
Qed.
Lemma Qeq_bool_times x y : (y == c * x)%Q -> Qeq_bool y 0 = Qeq_bool x 0.
Proof.
  intros E. apply eq_true_iff_eq. rewrite !Qeq_bool_iff. rewrite E. split; intros H.
  - destruct (Qmult_integral _ _ H) as [G|G]; [rewrite G in Hc; lra|exact G].
  - rewrite H. ring.
Qed.
Lemma dilate_eq u v : vec_eq u v -> forall j, vat (dilate u) j = vat (dilate v) j.
Proof.
  intros [El Ev] j. unfold dilate. cbn [vat]. rewrite <- El.
  assert (H : forall k, (0 <=? k) && (k <? vlen u) && negb (Qeq_bool (vat u k) 0) = (0 <=? k) && (k <? vlen u) && negb (Qeq_bool (vat v k) 0)).
  { intros k. destruct ((0 <=? k) && (k <? vlen u)) eqn:E; [|reflexivity]. rewrite Ev by (unfold in_rng; lia). reflexivity. }
  rewrite !H. reflexivity.
Qed.
Lemma large_times (filt : img Q -> img Q) a b snr ratio norm : keeps_shape filt -> (forall a b, times a b -> times (filt a) (filt b)) -> times a b -> 0 <= nrow a -> 0 <= ncol a ->
  same_result (remove_large_stripe asort filt (fun v => detect_stripe asort v snr) a ratio norm) (remove_large_stripe asort filt (fun v => detect_stripe asort v snr) b ratio norm).
Proof.
  intros Hf HF T H0 H0'. pose proof T as (E1 & E2 & E3). destruct (forward_times a b T) as [F1 F2]. unfold remove_large_stripe.
  pose proof (index_range a) as HI.
  assert (NA : nrow (fst (sort_forward asort a 0)) = nrow a /\ ncol (fst (sort_forward asort a 0)) = ncol a /\ nrow (snd (sort_forward asort a 0)) = nrow a /\ ncol (snd (sort_forward asort a 0)) = ncol a) by (repeat split).
  destruct (sort_forward asort a 0) as [s x]. destruct (sort_forward asort b 0) as [s' x']. cbn [fst snd] in *. destruct NA as (A1 & A2 & A3 & A4).
  rewrite E1, E2. set (p := Qtrunc _). destruct (Hf s) as [G1 G2].
  set (fa := mkvec (ncol a) _). set (fb := mkvec (ncol a) _).
  assert (EF : vec_Qeq fa fb).
  { split; [reflexivity|]. unfold fa, fb. cbn [vlen vat]. intros j Hj. unfold stripe_factor.
    pose proof (mean_rows_times s s' p (nrow a - p) j F1 ltac:(rewrite A2; exact Hj) ltac:(lia)) as M1.
    pose proof (mean_rows_times (filt s) (filt s') p (nrow a - p) j (HF _ _ F1) ltac:(rewrite G2, A2; exact Hj) ltac:(lia)) as M2.
    rewrite (Qeq_bool_times _ _ M2). destruct (Qeq_bool (mean_rows (filt s) p (nrow a - p) j) 0) eqn:E; [reflexivity|].
    rewrite M1, M2. field. split; [|lra]. intros E0. apply Qeq_bool_iff in E0. congruence. }
  pose proof (detect_ext asort Hs asort_Qeq fa fb snr H0' EF) as D. cbn beta.
  destruct (detect_stripe asort fa snr) as [ma|]; destruct (detect_stripe asort fb snr) as [mb|]; cbn [bindr]; try contradiction; [|exact D].
  cbn [same_result]. split; [reflexivity|]. split; [reflexivity|]. cbn [nrow ncol px]. intros i j Hi Hj. rewrite <- (dilate_eq _ _ D j).
  destruct (Qltb 0 (vat (dilate ma) j)).
  - assert (TB : times (sort_backward asort (filt s) x 0) (sort_backward asort (filt s') x' 0)).
    { apply backward_times; [apply HF, F1|exact F2|congruence|congruence|]. intros k Hk l Hl. rewrite G1, A1 in *. rewrite G2, A2 in *. apply HI; assumption. }
    destruct TB as (_ & _ & TB). apply TB; [change (in_rng (nrow (filt s)) i)|change (in_rng (ncol (filt s)) j)]; rewrite ?G1, ?G2, ?A1, ?A2; assumption.
  - destruct norm; cbn [px]; [|apply E3; assumption]. destruct EF as [_ EF]. rewrite <- (EF j Hj), (E3 i j Hi Hj). unfold Qdiv. ring.
Qed.

(** the first step, for the sinogram multiplied pixel by pixel *)
Definition scaled (a : img Q) : img Q := imap (fun x => (c * x)%Q) a.
Lemma list_diff_times strength a : vec_Qeq (list_diff strength (scaled a)) (vmap (fun x => (c * x)%Q) (list_diff strength a)).
Proof.
  split; [reflexivity|]. cbn [list_diff scaled imap vmap vlen vat nrow ncol px smooth_columns]. intros j Hj.
  rewrite <- qsum_scal. apply qsum_ext. intros i Hi. unfold qmean.
  rewrite (qsum_scal strength c (fun d => px a (reflect_idx (nrow a) (i - strength / 2 + d)) j)).
  set (X := px a i j). set (Y := qsum strength _).
  setoid_replace (c * X - c * Y / inject_Z strength)%Q with (c * (X - Y / inject_Z strength))%Q by (unfold Qdiv; ring).
  rewrite Qabs_Qmult. rewrite (Qabs_pos c) by lra. reflexivity.
Qed.
Lemma median_line_times size u v : vlen u = vlen v -> (forall j, in_rng (vlen u) j -> (vat v j == c * vat u j)%Q) -> forall j, in_rng (vlen u) j -> (vat (median_line size v) j == c * vat (median_line size u) j)%Q.
Proof.
  intros El Ev j Hj. unfold median_line. cbn [vat]. rewrite <- El. apply median_times. intros d _. apply Ev. apply reflect_shows. unfold in_rng in Hj. lia.
Qed.
Lemma diff_times strength a j : in_rng (ncol a) j -> (vat (list_diff strength (scaled a)) j == c * vat (list_diff strength a) j)%Q.
Proof. intros Hj. destruct (list_diff_times strength a) as [_ E]. rewrite (E j Hj). reflexivity. Qed.
Lemma diff_mean_times size strength a : (diff_mean size strength (scaled a) == c * diff_mean size strength a)%Q.
Proof.
  unfold diff_mean. cbn [median_line vlen list_diff]. change (ncol (scaled a)) with (ncol a). unfold qmean.
  rewrite (qsum_ext (ncol a) _ (fun j => (c * Qabs (vat (median_line size (list_diff strength a)) j))%Q)).
  - rewrite qsum_scal. unfold Qdiv. ring.
  - intros j Hj. pose proof (median_line_times size (list_diff strength a) (list_diff strength (scaled a)) eq_refl (fun j H => diff_times strength a j H) j Hj) as E.
    change (Qabs (vat (median_line size (list_diff strength (scaled a))) j) == c * Qabs (vat (median_line size (list_diff strength a)) j))%Q.
    rewrite E, Qabs_Qmult, (Qabs_pos c) by lra. reflexivity.
Qed.
Lemma dead_profile_times size strength a : vec_Qeq (dead_profile size strength a) (dead_profile size strength (scaled a)).
Proof.
  split; [reflexivity|]. intros j Hj. change (vlen (dead_profile size strength a)) with (ncol a) in Hj. unfold dead_profile. cbn [vat].
  pose proof (median_line_times size (list_diff strength a) (list_diff strength (scaled a)) eq_refl (fun j H => diff_times strength a j H) j Hj) as EB.
  rewrite (Qeq_bool_times _ _ EB). rewrite (diff_times strength a j Hj).
  assert (G : forall x b b', (b' == c * b)%Q -> (x / b == c * x / b')%Q).
  { intros x b b' E. rewrite E. destruct (Qeq_dec b 0) as [Z|Z]; [rewrite Z; setoid_replace (c * 0)%Q with 0%Q by ring; unfold Qdiv; change (/ 0)%Q with 0%Q; ring|]. field. split; [exact Z|lra]. }
  destruct (Qeq_bool (vat (median_line size (list_diff strength a)) j) 0); apply G; [apply diff_mean_times|exact EB].
Qed.
Lemma knot_left_ext g h x n : (forall k, g k = h k) -> knot_left g x n = knot_left h x n.
Proof. intros E. revert x. induction n as [|n IH]; intros x; cbn; [reflexivity|]. rewrite E, IH. reflexivity. Qed.
Lemma knot_right_ext g h x n : (forall k, g k = h k) -> knot_right g x n = knot_right h x n.
Proof. intros E. revert x. induction n as [|n IH]; intros x; cbn; [reflexivity|]. rewrite E, IH. reflexivity. Qed.
Lemma clear_ext u v : vlen u = vlen v -> (forall j, vat u j = vat v j) -> forall j, vat (clear_mask_ends u) j = vat (clear_mask_ends v) j.
Proof. intros El Ev j. unfold clear_mask_ends. cbn [vat vlen]. rewrite <- ?El, ?Ev. reflexivity. Qed.
Lemma count_ext n g h : (forall k, g k = h k) -> count_miss n g = count_miss n h.
Proof. intros E. unfold count_miss. f_equal. f_equal. apply filter_ext. exact E. Qed.
Lemma dead_times a snr size strength : 0 <= ncol a ->
  same_result (remove_dead_stripe_full asort a snr size false strength) (remove_dead_stripe_full asort (scaled a) snr size false strength).
Proof.
  intros H0. unfold remove_dead_stripe_full, remove_dead_stripe. change (ncol (scaled a)) with (ncol a). change (nrow (scaled a)) with (nrow a).
  rewrite (Qeq_bool_times _ _ (diff_mean_times size strength a)).
  set (u := dead_profile size strength a). set (v := dead_profile size strength (scaled a)). pose proof (dead_profile_times size strength a) as E. fold u v in E.
  set (z := Qeq_bool (diff_mean size strength a) 0).
  assert (D : match (if z then Ok (mkvec (vlen u) (fun _ => 0%Q)) else detect_stripe asort u snr), (if z then Ok (mkvec (vlen v) (fun _ => 0%Q)) else detect_stripe asort v snr) with
              | Ok x, Ok y => vec_eq x y | Err x, Err y => x = y | _, _ => False end).
  { destruct z; [split; [exact (proj1 E)|reflexivity]|]. apply detect_ext; try assumption. exact asort_Qeq. }
  destruct (if z then Ok (mkvec (vlen u) _) else detect_stripe asort u snr) as [x|]; destruct (if z then Ok (mkvec (vlen v) _) else detect_stripe asort v snr) as [y|]; cbn [bindr]; try contradiction; [|exact D].
  pose proof (clear_ext (dilate x) (dilate y) (proj1 D) (dilate_eq x y D)) as EC. set (mx := clear_mask_ends (dilate x)) in *. set (my := clear_mask_ends (dilate y)) in *.
  rewrite <- (count_ext (ncol a) (fun j => Qltb (vat mx j) 1) (fun j => Qltb (vat my j) 1)) by (intros; rewrite EC; reflexivity).
  rewrite <- (count_ext (ncol a) (fun j => Qltb 0 (vat mx j)) (fun j => Qltb 0 (vat my j))) by (intros; rewrite EC; reflexivity).
  destruct ((nrow a <? 2) || _); cbn [bindr]; [reflexivity|]. destruct ((_ <? _) && _); cbn [bindr same_result].
  - split; [reflexivity|]. split; [reflexivity|]. cbn [nrow ncol px]. intros i j Hi Hj. rewrite <- EC. destruct (Qltb 0 (vat mx j)); [|reflexivity].
    unfold lin_interp. rewrite <- (knot_left_ext (fun j => Qltb (vat mx j) 1) (fun j => Qltb (vat my j) 1)) by (intros; rewrite EC; reflexivity).
    rewrite <- (knot_right_ext (fun j => Qltb (vat mx j) 1) (fun j => Qltb (vat my j) 1)) by (intros; rewrite EC; reflexivity).
    destruct (_ =? _); cbn [scaled imap px]; [reflexivity|]. ring.
  - split; [reflexivity|]. split; [reflexivity|]. intros i j _ _. reflexivity.
Qed.
Lemma all_times a snr la sm ratio : 0 <= nrow a -> 0 <= ncol a ->
  same_result (remove_all_stripe asort a snr la sm ratio 1 None) (remove_all_stripe asort (scaled a) snr la sm ratio 1 None).
Proof.
  intros H0 H0'. unfold remove_all_stripe. change (1 =? 2) with false. cbv iota. pose proof (dead_times a snr la 10 H0') as D.
  destruct (remove_dead_stripe_full asort a snr la false 10) as [s|] eqn:Ea; destruct (remove_dead_stripe_full asort (scaled a) snr la false 10) as [t|]; cbn [bindr]; try contradiction; [|exact D].
  destruct (dead_shape _ _ _ _ _ _ Ea) as [N1 N2].
  pose proof (large_times (median_along_rows la) s t snr ratio true (median_shape la) (median_rows_times la) D ltac:(lia) ltac:(lia)) as E.
  destruct (remove_large_stripe asort (median_along_rows la) _ s ratio true) as [s2|]; destruct (remove_large_stripe asort (median_along_rows la) _ t ratio true) as [t2|]; cbn [bindr]; try contradiction; [|exact E].
  cbn [same_result]. apply sorting_times; [apply median_shape|apply median_rows_times|exact E].
Qed.
End scale.
