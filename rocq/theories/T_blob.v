(** C124: generate_blob_mask.  Theorems about the mask of blobs built from a flat-field image. *)
From Verif Require Import Np M_utility M_removal M_blob S_utility S_removal S_blob P_Np P_metric P_utility P_argsort P_removal2 P_blob.
From Coq Require Import QArith Qabs Lqa Lia ZArith Bool.
From Coq Require Import List. Import ListNotations.
Open Scope Z_scope.

(** which pixels are marked: in every row, the columns next to a column (not one of the two first or last) whose
    value relative to the median-filtered row lies outside the band of the line fitted to the sorted relative values *)
Theorem blob_mask_marks_outliers_and_their_neighbours :
  forall (asort : argsort_fn) (median2 : img Q -> img Q) (medline : vec Q -> vec Q),
  (forall v, is_argsort v (asort v)) -> keeps_shape median2 -> (forall u, vlen (medline u) = vlen u) ->
  forall flat snr mask, 0 <= ncol flat -> generate_blob_mask asort median2 medline flat snr = Ok mask ->
  nrow mask = nrow flat /\ ncol mask = ncol flat /\
  forall i, in_rng (nrow flat) i ->
  let row := irow (median2 flat) i in let n := ncol flat in
  exists rel sorted slope intercept,
    (forall j, in_rng n j -> ~ (background medline row j == 0)%Q /\ rel j = (vat row j / background medline row j)%Q) /\
    (exists p, is_argsort (mkvec n rel) p /\ forall k, sorted k = rel (p k)) /\
    least_squares_line (n / 4) (n - 2 * (n / 4) - 1) sorted slope intercept /\
    (1 # 100000 <= Qabs (slope * inject_Z (n - 1)))%Q /\
    forall j, (px mask i j = 1%Q \/ px mask i j = 0%Q) /\
      (px mask i j = 1%Q <-> exists k, 2 <= k < n - 2 /\ j - 1 <= k <= j + 1 /\ outside_the_band n rel sorted snr slope intercept k).
Proof. exact (fun a m2 m1 Hs H2 H1 => generate_pixels a Hs m2 m1 H2 H1). Qed.
Print Assumptions blob_mask_marks_outliers_and_their_neighbours.

(** the mask can be used: the first and the last column are never marked, and removing the blobs from any image of that
    shape works, also row by row *)
Theorem blob_mask_always_works_with_remove_blob :
  forall (asort : argsort_fn) (median2 : img Q -> img Q) (medline : vec Q -> vec Q),
  (forall v, is_argsort v (asort v)) -> keeps_shape median2 -> (forall u, vlen (medline u) = vlen u) ->
  forall flat snr mask, 0 <= nrow flat -> 2 <= ncol flat -> generate_blob_mask asort median2 medline flat snr = Ok mask ->
  (forall i, in_rng (nrow flat) i -> px mask i 0 = 0%Q /\ px mask i (ncol flat - 1) = 0%Q) /\
  (forall mat, nrow mat = nrow flat -> ncol mat = ncol flat -> is_ok (fst (remove_blob mat mask)) = true) /\
  (forall row i, vlen row = ncol flat -> in_rng (nrow flat) i -> is_ok (fst (remove_blob_1d row (irow mask i))) = true).
Proof.
  intros asort median2 medline Hs H2 H1 flat snr mask Hr Hc E.
  assert (Hc' : 0 <= ncol flat) by lia.
  pose proof (generate_ends asort Hs median2 medline H2 H1 _ _ _ Hc' E) as Ends.
  destruct (generate_spec asort median2 medline H2 _ _ _ E) as (R & C & _).
  split; [exact Ends|]. split.
  - intros mat Rm Cm. destruct (remove_blob_spec mat mask) as (out & m' & -> & _); [lia|lia|lia|lia|reflexivity].
  - intros row i Lr Hi. destruct (Ends i Hi) as [E0 E1].
    destruct (blob_1d_spec row (irow mask i)) as (out & m' & -> & _); cbn [irow vlen vat]; [lia|lia| | |reflexivity].
    + rewrite E0. reflexivity.
    + rewrite Lr, E1. reflexivity.
Qed.
Print Assumptions blob_mask_always_works_with_remove_blob.

(** the mask does not depend on the exposure of the flat field *)
Theorem blob_mask_does_not_depend_on_the_exposure :
  forall (asort : argsort_fn) (median2 : img Q -> img Q) (medline : vec Q -> vec Q),
  (forall v, is_argsort v (asort v)) -> (forall u v, vec_Qeq u v -> forall k, asort u k = asort v k) ->
  keeps_shape median2 -> (forall u, vlen (medline u) = vlen u) -> (forall u v, vec_Qeq u v -> vec_Qeq (medline u) (medline v)) ->
  scales_vec medline -> scales_img median2 ->
  forall c flat snr, (0 < c)%Q -> 0 <= ncol flat ->
  match generate_blob_mask asort median2 medline (imap (fun x => c * x)%Q flat) snr, generate_blob_mask asort median2 medline flat snr with
  | Ok a, Ok b => img_eq a b
  | Err a, Err b => a = b
  | _, _ => False
  end.
Proof.
  intros asort median2 medline Hs Hv K H1 P1 S1 S2 c flat snr Hc Hn.
  exact (generate_scaled asort Hs Hv median2 medline H1 P1 S1 S2 c flat snr Hc K Hn).
Qed.
Print Assumptions blob_mask_does_not_depend_on_the_exposure.

(** a clean flat field gives no mask at all: a row whose (filtered) values are all equal makes the call fail *)
Theorem blob_mask_of_a_clean_flat_field_is_empty_refuted :
  forall (asort : argsort_fn) (median2 : img Q -> img Q) (medline : vec Q -> vec Q) c flat snr i,
  (forall v, is_argsort v (asort v)) -> keeps_shape median2 -> (forall u, vlen (medline u) = vlen u) ->
  ~ (c == 0)%Q -> in_rng (nrow flat) i -> 6 <= ncol flat ->
  (forall j, in_rng (ncol flat) j -> (px (median2 flat) i j == c)%Q) ->
  (forall u, (forall j, in_rng (vlen u) j -> (vat u j == c)%Q) -> forall j, in_rng (vlen u) j -> (vat (medline u) j == c)%Q) ->
  is_ok (generate_blob_mask asort median2 medline flat snr) = false.
Proof. intros asort median2 medline c flat snr i Hs. exact (generate_constant asort Hs median2 medline c flat snr i). Qed.
Print Assumptions blob_mask_of_a_clean_flat_field_is_empty_refuted.

(** the two first and last columns are cleared before the dilation, so column 1 can be marked; the mask then changes
    when it is used *)
Definition flat_ones : vec Q -> vec Q := fun u => mkvec (vlen u) (fun _ => 1%Q).
Definition blob_at (k : Z) : img Q := mkimg 2 12 (fun _ j => if j =? k then 9%Q else (1 + inject_Z j / 100)%Q).
Theorem blob_mask_leaves_two_columns_free_refuted :
  exists mask, generate_blob_mask insertion_argsort (fun m => m) flat_ones (blob_at 2) 3 = Ok mask /\
    px mask 0 1 = 1%Q /\ px (snd (remove_blob (blob_at 2) mask)) 0 1 = 0%Q.
Proof.
  destruct (generate_blob_mask insertion_argsort (fun m => m) flat_ones (blob_at 2) 3) as [mask|e] eqn:E.
  - exists mask. split; [reflexivity|]. 
    assert (F : match generate_blob_mask insertion_argsort (fun m => m) flat_ones (blob_at 2) 3 with
                | Ok m => Some (px m 0 1, px (snd (remove_blob (blob_at 2) m)) 0 1) | Err _ => None end = Some (1%Q, 0%Q)) by (vm_compute; reflexivity).
    rewrite E in F. injection F as -> ->. split; reflexivity.
  - assert (F : is_ok (generate_blob_mask insertion_argsort (fun m => m) flat_ones (blob_at 2) 3) = true) by (vm_compute; reflexivity).
    rewrite E in F. discriminate.
Qed.
Print Assumptions blob_mask_leaves_two_columns_free_refuted.

(** a blob in the middle is marked with its two neighbours; the hypotheses are met by a sorting procedure and simple filters *)
Example ex_blob_mask :
  match generate_blob_mask insertion_argsort (fun m => m) flat_ones (blob_at 5) 3 with
  | Ok m => map (px m 1) (zrange 0 12) = [0;0;0;0;1;1;1;0;0;0;0;0]%Q
  | Err _ => False
  end /\ keeps_shape (fun m => m) /\ (forall u, vlen (flat_ones u) = vlen u) /\ (forall v, is_argsort v (insertion_argsort v)).
Proof. split; [vm_compute; reflexivity|]. split; [split; reflexivity|]. split; [reflexivity|exact insertion_argsort_ok]. Qed.

Lemma put_ext u v a l n : (forall k, in_rng n k -> (vat u k == vat v k)%Q) -> in_rng n a -> (forall k, In k l -> in_rng n k) -> put u a l = put v a l.
Proof.
  intros E Ha. induction l as [|b r IH]; intros Hl; [reflexivity|]. cbn [put].
  rewrite (Qle_bool_ext (vat u a) (vat v a) (vat u b) (vat v b)) by (apply E; auto using in_eq).
  destruct (Qle_bool _ _); [reflexivity|]. rewrite IH; [reflexivity|]. intros k Hk. apply Hl. right. exact Hk.
Qed.
Lemma insertion_argsort_values u v : vec_Qeq u v -> forall k, insertion_argsort u k = insertion_argsort v k.
Proof.
  intros [El Ev] k. unfold insertion_argsort. rewrite <- El. f_equal.
  assert (H : forall l, (forall k, In k l -> in_rng (vlen u) k) -> order_of u l = order_of v l).
  { induction l as [|a l IH]; intros Hl; [reflexivity|]. cbn [order_of]. rewrite IH by (intros; apply Hl; right; assumption).
    apply (put_ext _ _ _ _ (vlen u)); [exact Ev|apply Hl; left; reflexivity|]. intros x Hx.
    apply Hl. right. rewrite <- IH in Hx by (intros; apply Hl; right; assumption).
    apply (Permutation.Permutation_in _ (Permutation.Permutation_sym (order_perm u l))). exact Hx. }
  apply H. intros x Hx. apply zrange_In in Hx. unfold in_rng. lia.
Qed.
(** the hypotheses on the filters and on the sorting are met: a mean-like row filter scales with its input *)
Example ex_blob_exposure :
  let row_mean_filter := fun u : vec Q => mkvec (vlen u) (fun _ => qmean (vlen u) (vat u)) in
  (forall u v, vec_Qeq u v -> forall k, insertion_argsort u k = insertion_argsort v k) /\
  (forall u v, vec_Qeq u v -> vec_Qeq (row_mean_filter u) (row_mean_filter v)) /\ scales_vec row_mean_filter /\ scales_img (fun m => m) /\
  is_ok (generate_blob_mask insertion_argsort (fun m => m) row_mean_filter (blob_at 5) 3) = true.
Proof.
  cbn zeta. split; [exact insertion_argsort_values|]. split.
  { intros u v [El Ev]. split; [exact El|]. cbn [vlen vat]. intros j Hj. rewrite <- El. unfold qmean. rewrite (qsum_ext _ _ (vat v)) by (intros; apply Ev; assumption). reflexivity. }
  split. { intros c u Hc. split; [reflexivity|]. cbn [vmap vlen vat]. intros j Hj. unfold qmean. rewrite qsum_scal. unfold Qdiv. ring. }
  split. { intros c u Hc. split; [reflexivity|]. split; [reflexivity|]. intros i j _ _. reflexivity. }
  vm_compute. reflexivity.
Qed.
(** a flat field of one value is refused *)
Example ex_blob_clean : generate_blob_mask insertion_argsort (fun m => m) (fun u => u) (mkimg 2 8 (fun _ _ => 5%Q)) 3 = Err ValueError.
Proof. vm_compute. reflexivity. Qed.
