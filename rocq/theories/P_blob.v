From Verif Require Import Np M_utility M_removal M_blob S_utility S_removal S_blob P_Np P_metric P_utility P_removal2 P_removal3 P_removal4.
From Coq Require Import QArith Qabs Lqa Lia ZArith Bool.
From Coq Require Import List. Import ListNotations.
Open Scope Z_scope.

Section blob.
Variable asort : argsort_fn.
Hypothesis Hs : forall v, is_argsort v (asort v).
Variable median2 : img Q -> img Q.
Variable medline : vec Q -> vec Q.
Hypothesis H2 : keeps_shape median2.
Hypothesis H1 : forall u, vlen (medline u) = vlen u.

Lemma normalised_spec line r : normalised_row medline line = Ok r ->
  vlen r = vlen line /\ (forall j, in_rng (vlen line) j -> ~ (background medline line j == 0)%Q /\ vat r j = (vat line j / background medline line j)%Q).
Proof using H1.
  clear Hs H2 asort median2. unfold normalised_row. cbn [vlen vat]. destruct (existsb _ _) eqn:E; [discriminate|]. intros H. apply Ok_inj in H. subst r.
  split; [reflexivity|]. intros j Hj. unfold background. rewrite <- (H1 line). cbn [vat]. split; [|reflexivity].
  intros B. assert (E' : existsb (fun j => Qeq_bool (if Qeq_bool (vat (medline line) j) 0 then qmean (vlen (medline line)) (vat (medline line)) else vat (medline line) j) 0) (zrange 0 (vlen line)) = true).
  { apply existsb_exists. exists j. split; [apply zrange_In; unfold in_rng in Hj; lia|]. apply Qeq_bool_iff. exact B. }
  congruence.
Qed.
Lemma near_cleared (m : vec Q) j : 2 <= vlen m ->
  marked_near (clear_mask_ends m) j <-> exists k, 2 <= k < vlen m - 2 /\ j - 1 <= k <= j + 1 /\ ~ (vat m k == 0)%Q.
Proof.
  intros Hn. unfold marked_near. change (vlen (clear_mask_ends m)) with (vlen m). split.
  - intros (k & Hk & Hj & Hv). exists k. rewrite clear_ends in Hv by assumption.
    destruct ((k <? 2) || (vlen m - 2 <=? k)) eqn:E; [exfalso; apply Hv; reflexivity|]. repeat split; try lia. exact Hv.
  - intros (k & Hk & Hj & Hv). exists k. split; [unfold in_rng; lia|]. split; [exact Hj|]. rewrite clear_ends by (unfold in_rng; lia).
    replace ((k <? 2) || (vlen m - 2 <=? k)) with false by lia. exact Hv.
Qed.
Lemma mask_row_spec line snr r : 0 <= vlen line -> blob_mask_row asort medline line snr = Ok r ->
  vlen r = vlen line /\
  exists rel sorted slope intercept,
    (forall j, in_rng (vlen line) j -> ~ (background medline line j == 0)%Q /\ rel j = (vat line j / background medline line j)%Q) /\
    (exists p, is_argsort (mkvec (vlen line) rel) p /\ forall k, sorted k = rel (p k)) /\
    least_squares_line (vlen line / 4) (vlen line - 2 * (vlen line / 4) - 1) sorted slope intercept /\
    (1 # 100000 <= Qabs (slope * inject_Z (vlen line - 1)))%Q /\
    forall j, (vat r j = 1%Q \/ vat r j = 0%Q) /\
      (vat r j = 1%Q <-> exists k, 2 <= k < vlen line - 2 /\ j - 1 <= k <= j + 1 /\ outside_the_band (vlen line) rel sorted snr slope intercept k).
Proof using Hs H1.
  clear H2 median2.
  intros Hn. unfold blob_mask_row. destruct (normalised_row medline line) as [ln|e] eqn:En; [|discriminate]. cbn [bindr].
  destruct (normalised_spec _ _ En) as [Ll Lr].
  destruct (detect_stripe asort ln snr) as [m|e] eqn:Ed; [|discriminate]. cbn [bindr]. intros H. apply Ok_inj in H. subst r.
  assert (Hm2 : 2 <= vlen ln).
  { unfold detect_stripe in Ed. destruct (slen (vlen ln) (vlen ln / 4) (- (vlen ln / 4) - 1) <? 2) eqn:E2; [discriminate|].
    assert (slen (vlen ln) (vlen ln / 4) (- (vlen ln / 4) - 1) <= vlen ln).
    { pose proof (Z.div_mod (vlen ln) 4 ltac:(lia)). pose proof (Z.mod_pos_bound (vlen ln) 4 ltac:(lia)). unfold slen, py_adj in *.
      replace (vlen ln / 4 <? 0) with false in * by lia. replace (- (vlen ln / 4) - 1 <? 0) with true in * by lia. lia. }
    lia. }
  destruct (detect_explicit asort ln snr m ltac:(lia) Ed) as (sl & ic & L & Nz & Lm & M).
  split. { unfold dilate, clear_mask_ends. cbn [vlen]. lia. }
  rewrite <- Ll. exists (vat ln), (fun k => vat ln (asort ln k)), sl, ic. rewrite Ll in *.
  split; [exact Lr|]. split.
  { exists (asort ln). split; [|reflexivity]. assert (E : mkvec (vlen line) (vat ln) = ln) by (rewrite <- Ll; destruct ln; reflexivity).
    rewrite E. apply Hs. }
  split; [exact L|]. split. { rewrite <- (Qabs_wd (ic + sl * inject_Z (vlen line - 1) - ic)%Q) by ring. exact Nz. }
  intros j. destruct (dilate_spec (clear_mask_ends m) j) as [ [E N]|[E N] ].
  - split; [auto|]. split; [|auto]. intros _. apply near_cleared in N; [|lia]. destruct N as (k & Hk & Hj & Hv). exists k.
    split; [lia|]. split; [exact Hj|]. destruct (M k) as [ [V|V] C]; [|exfalso; apply Hv; rewrite V; reflexivity]. apply C, V.
  - split; [auto|]. split; [rewrite E; discriminate|]. intros (k & Hk & Hj & Ho). exfalso. apply N. apply near_cleared; [lia|].
    exists k. split; [lia|]. split; [exact Hj|]. destruct (M k) as [_ C]. apply C in Ho. rewrite Ho. discriminate.
Qed.
Lemma generate_spec flat snr mask : generate_blob_mask asort median2 medline flat snr = Ok mask ->
  nrow mask = nrow flat /\ ncol mask = ncol flat /\
  forall i, in_rng (nrow flat) i -> exists r, blob_mask_row asort medline (irow (median2 flat) i) snr = Ok r /\ forall j, px mask i j = vat r j.
Proof using H2.
  clear Hs H1.
  intros H. unfold generate_blob_mask in H. destruct (mapr _ _) as [rows|e] eqn:E; [|discriminate]. cbn [bindr] in H. apply Ok_inj in H. subst mask.
  cbn [nrow ncol px]. destruct (H2 flat) as [R C]. split; [exact R|]. split; [exact C|]. intros i Hi. unfold in_rng in Hi.
  destruct (mapr_nth _ _ _ (Z.to_nat i) i E) as (r & N & F).
  { rewrite R. rewrite (nth_error_nth' _ 0) by (rewrite zrange_length; lia). rewrite zrange_nth by lia. f_equal. lia. }
  exists r. split; [exact F|]. intros j. rewrite (nth_error_nth _ _ _ N). reflexivity.
Qed.
Lemma generate_pixels flat snr mask : 0 <= ncol flat -> generate_blob_mask asort median2 medline flat snr = Ok mask ->
  nrow mask = nrow flat /\ ncol mask = ncol flat /\
  forall i, in_rng (nrow flat) i ->
  let row := irow (median2 flat) i in let n := ncol flat in
  exists rel sorted slope intercept,
    (forall j, in_rng n j -> ~ (background medline row j == 0)%Q /\ rel j = (vat row j / background medline row j)%Q) /\
    (exists p, is_argsort (mkvec n rel) p /\ forall k, sorted k = rel (p k)) /\
    least_squares_line (n / 4) (n - 2 * (n / 4) - 1) sorted slope intercept /\
    (1 # 100000 <= Qabs (slope * inject_Z (n - 1)))%Q /\
    forall j, (px mask i j = 1%Q \/ px mask i j = 0%Q) /\
      (px mask i j = 1%Q <-> exists k, 2 <= k < n - 2 /\ j - 1 <= k <= j + 1 /\ outside_the_band n rel sorted snr slope intercept k).
Proof.
  intros Hc H. destruct (generate_spec _ _ _ H) as (R & C & G). split; [exact R|]. split; [exact C|].
  intros i Hi. cbn zeta. destruct (G i Hi) as (r & E & P). destruct (H2 flat) as [_ C2].
  assert (L : vlen (irow (median2 flat) i) = ncol flat) by (cbn [irow vlen]; exact C2).
  destruct (mask_row_spec _ _ _ (eq_ind_r (fun z => 0 <= z) Hc L) E) as (Lr & rel & srt & sl & ic & A1 & A2 & A3 & A4 & A5).
  rewrite L in *. exists rel, srt, sl, ic. repeat (split; [assumption|]). intros j. rewrite P. apply A5.
Qed.
Lemma generate_ends flat snr mask : 0 <= ncol flat -> generate_blob_mask asort median2 medline flat snr = Ok mask ->
  forall i, in_rng (nrow flat) i -> px mask i 0 = 0%Q /\ px mask i (ncol flat - 1) = 0%Q.
Proof.
  intros Hc H i Hi. destruct (generate_pixels _ _ _ Hc H) as (_ & _ & G). destruct (G i Hi) as (rel & srt & sl & ic & _ & _ & _ & _ & P).
  split.
  - destruct (P 0) as [ [V|V] B]; [|exact V]. exfalso. apply B in V. destruct V as (k & Hk & Hj & _). lia.
  - destruct (P (ncol flat - 1)) as [ [V|V] B]; [|exact V]. exfalso. apply B in V. destruct V as (k & Hk & Hj & _). lia.
Qed.
End blob.

Lemma line_fit_ext a m y z : (forall k, 0 <= k < m -> (y (a + k)%Z == z (a + k)%Z)%Q) ->
  (fst (line_fit a m y) == fst (line_fit a m z))%Q /\ (snd (line_fit a m y) == snd (line_fit a m z))%Q.
Proof.
  intros H. unfold line_fit. cbn [fst snd].
  assert (E : (qmean m (fun k => y (a + k)%Z) == qmean m (fun k => z (a + k)%Z))%Q).
  { unfold qmean. rewrite (qsum_ext _ _ (fun k => z (a + k)%Z)) by (intros; apply H; assumption). reflexivity. }
  assert (S : (qsum m (fun k => (inject_Z (a + k) - qmean m (fun k => inject_Z (a + k))) * (y (a + k)%Z - qmean m (fun k => y (a + k)%Z))) ==
               qsum m (fun k => (inject_Z (a + k) - qmean m (fun k => inject_Z (a + k))) * (z (a + k)%Z - qmean m (fun k => z (a + k)%Z))))%Q).
  { apply qsum_ext. intros k Hk. rewrite E, H by assumption. reflexivity. }
  split; rewrite ?S, ?E; reflexivity.
Qed.
Lemma Qltb_ext a b c d : (a == b)%Q -> (c == d)%Q -> Qltb a c = Qltb b d.
Proof.
  intros E F. destruct (Qltb a c) eqn:A; destruct (Qltb b d) eqn:B; try reflexivity.
  - apply Qltb_lt in A. apply Qltb_f in B. lra.
  - apply Qltb_lt in B. apply Qltb_f in A. lra.
Qed.
Lemma Qle_bool_ext a b c d : (a == b)%Q -> (c == d)%Q -> Qle_bool a c = Qle_bool b d.
Proof.
  intros E F. apply eq_true_iff_eq. rewrite !Qle_bool_iff. rewrite E, F. reflexivity.
Qed.
(** the detector only looks at the values *)
Lemma detect_ext asort (Hs : forall v, is_argsort v (asort v)) (Hv : forall u v, vec_Qeq u v -> forall k, asort u k = asort v k) u v snr :
  0 <= vlen u -> vec_Qeq u v ->
  match detect_stripe asort u snr, detect_stripe asort v snr with
  | Ok a, Ok b => vec_eq a b
  | Err a, Err b => a = b
  | _, _ => False
  end.
Proof.
  intros Hn E. pose proof (Hv u v E) as Ea. destruct E as [El Ev]. unfold detect_stripe. rewrite <- El.
  set (n := vlen u) in *. set (y := fun k => vat u (asort u k)). set (z := fun k => vat v (asort v k)).
  assert (Y : forall k, in_rng n k -> (y k == z k)%Q).
  { intros k Hk. unfold y, z. rewrite <- Ea. apply Ev. apply (proj1 (Hs u)). exact Hk. }
  destruct (slen n (n / 4) (- (n / 4) - 1) <? 2) eqn:E2; [reflexivity|].
  assert (Hm : slen n (n / 4) (- (n / 4) - 1) = n - 2 * (n / 4) - 1 /\ 0 <= n / 4 /\ n / 4 + (n - 2 * (n / 4) - 1) <= n).
  { pose proof (Z.div_mod n 4 ltac:(lia)). pose proof (Z.mod_pos_bound n 4 ltac:(lia)). unfold slen, py_adj in *.
    replace (n / 4 <? 0) with false in * by lia. replace (- (n / 4) - 1 <? 0) with true in * by lia. lia. }
  destruct Hm as (Em & M0 & M1). rewrite Em in *.
  destruct (line_fit_ext (n / 4) (n - 2 * (n / 4) - 1) y z) as [F1 F2].
  { intros k Hk. apply Y. unfold in_rng. lia. }
  destruct (line_fit (n / 4) (n - 2 * (n / 4) - 1) y) as [s1 i1]. destruct (line_fit (n / 4) (n - 2 * (n / 4) - 1) z) as [s2 i2].
  cbn [fst snd] in F1, F2.
  assert (N : (Qabs (i1 + s1 * inject_Z (n - 1) - i1) == Qabs (i2 + s2 * inject_Z (n - 1) - i2))%Q) by (rewrite F1, F2; reflexivity).
  rewrite (Qltb_ext _ _ _ _ N (Qeq_refl _)).
  destruct (Qltb _ (1 # 100000)); [reflexivity|]. split; [reflexivity|]. cbn [vlen vat]. intros j Hj.
  pose proof (Y 0 ltac:(unfold in_rng in *; lia)) as Y0. pose proof (Y (n - 1) ltac:(unfold in_rng in *; lia)) as Y1.
  assert (A1 : Qle_bool snr (Qabs (i1 - y 0%Z) / Qabs (i1 + s1 * inject_Z (n - 1) - i1)) = Qle_bool snr (Qabs (i2 - z 0%Z) / Qabs (i2 + s2 * inject_Z (n - 1) - i2))).
  { apply Qle_bool_ext; [reflexivity|]. rewrite N, Y0, F2. reflexivity. }
  assert (A2 : Qle_bool snr (Qabs (y (n - 1)%Z - (i1 + s1 * inject_Z (n - 1))) / Qabs (i1 + s1 * inject_Z (n - 1) - i1))
             = Qle_bool snr (Qabs (z (n - 1)%Z - (i2 + s2 * inject_Z (n - 1))) / Qabs (i2 + s2 * inject_Z (n - 1) - i2))).
  { apply Qle_bool_ext; [reflexivity|]. rewrite N, Y1, F1, F2. reflexivity. }
  assert (A3 : Qle_bool (vat u j) (i1 - Qabs (i1 + s1 * inject_Z (n - 1) - i1) * snr * (1 # 2)) =
               Qle_bool (vat v j) (i2 - Qabs (i2 + s2 * inject_Z (n - 1) - i2) * snr * (1 # 2))).
  { apply Qle_bool_ext; [apply Ev; exact Hj|]. rewrite N, F2. reflexivity. }
  assert (A4 : Qltb (i1 + s1 * inject_Z (n - 1) + Qabs (i1 + s1 * inject_Z (n - 1) - i1) * snr * (1 # 2)) (vat u j) =
               Qltb (i2 + s2 * inject_Z (n - 1) + Qabs (i2 + s2 * inject_Z (n - 1) - i2) * snr * (1 # 2)) (vat v j)).
  { apply Qltb_ext; [|apply Ev; exact Hj]. rewrite N, F1, F2. reflexivity. }
  unfold y, z in A1, A2. rewrite A1, A2, A3, A4. reflexivity.
Qed.

Definition agree (a b : res (vec Q)) : Prop :=
  match a, b with Ok x, Ok y => vec_Qeq x y | Err x, Err y => x = y | _, _ => False end.
Section scale.
Variable asort : argsort_fn.
Hypothesis Hs : forall v, is_argsort v (asort v).
Hypothesis Hv : forall u v, vec_Qeq u v -> forall k, asort u k = asort v k.
Variable median2 : img Q -> img Q.
Variable medline : vec Q -> vec Q.
Hypothesis H1 : forall u, vlen (medline u) = vlen u.
Hypothesis P1 : forall u v, vec_Qeq u v -> vec_Qeq (medline u) (medline v).
Hypothesis S1 : scales_vec medline.
Hypothesis S2 : scales_img median2.

Lemma normalised_scaled c u v : (0 < c)%Q -> vec_Qeq v (vmap (fun x => c * x)%Q u) -> agree (normalised_row medline v) (normalised_row medline u).
Proof using H1 P1 S1.
  clear Hs Hv S2. intros Hc E. pose proof (P1 _ _ E) as F. pose proof (S1 c u Hc) as G. destruct E as [El Ev]. destruct F as [Fl Fv]. destruct G as [Gl Gv].
  cbn [vmap vlen vat] in *.
  assert (M : forall j, in_rng (vlen u) j -> (vat (medline v) j == c * vat (medline u) j)%Q).
  { intros j Hj. rewrite Fv by (rewrite H1, El; exact Hj). rewrite Gv by (rewrite H1; exact Hj). reflexivity. }
  assert (B : forall j, in_rng (vlen u) j -> (background medline v j == c * background medline u j)%Q).
  { intros j Hj. unfold background.
    assert (Z : Qeq_bool (vat (medline v) j) 0 = Qeq_bool (vat (medline u) j) 0).
    { apply eq_true_iff_eq. rewrite !Qeq_bool_iff, M by assumption. split; intros H; [|rewrite H; ring].
      destruct (Qmult_integral _ _ H); [lra|assumption]. }
    rewrite Z. clear Z. destruct (Qeq_bool (vat (medline u) j) 0); [|apply M; exact Hj]. unfold qmean. rewrite El.
    rewrite (qsum_ext _ _ (fun j => c * vat (medline u) j)%Q) by (intros; apply M; assumption). rewrite qsum_scal. unfold Qdiv. ring. }
  assert (X : existsb (fun j => Qeq_bool (background medline v j) 0) (zrange 0 (vlen v)) = existsb (fun j => Qeq_bool (background medline u j) 0) (zrange 0 (vlen u))).
  { rewrite El. apply eq_true_iff_eq. rewrite !existsb_exists. split; intros (j & Hj & Hq); exists j; (split; [exact Hj|]); apply zrange_In in Hj; rewrite Qeq_bool_iff in *.
    - rewrite B in Hq by (unfold in_rng; lia). destruct (Qmult_integral _ _ Hq); [lra|assumption].
    - rewrite B by (unfold in_rng; lia). rewrite Hq. ring. }
  unfold normalised_row. cbn [vlen vat]. unfold background in X, B. rewrite !H1. rewrite X.
  destruct (existsb _ (zrange 0 (vlen u))) eqn:Z; cbn [agree]; [reflexivity|]. split; [exact El|]. cbn [vlen vat]. intros j Hj. rewrite El in Hj.
  rewrite B, Ev by (rewrite ?El; assumption). 
  assert (Nz : ~ ((if Qeq_bool (vat (medline u) j) 0 then qmean (vlen u) (vat (medline u)) else vat (medline u) j) == 0)%Q).
  { intros H. assert (existsb (fun j0 => Qeq_bool (if Qeq_bool (vat (medline u) j0) 0 then qmean (vlen u) (vat (medline u)) else vat (medline u) j0) 0) (zrange 0 (vlen u)) = true); [|congruence].
    apply existsb_exists. exists j. split; [apply zrange_In; unfold in_rng in Hj; lia|apply Qeq_bool_iff; exact H]. }
  field. split; [exact Nz|lra].
Qed.
Lemma row_scaled c u v snr : (0 < c)%Q -> 0 <= vlen u -> vec_Qeq v (vmap (fun x => c * x)%Q u) ->
  match blob_mask_row asort medline v snr, blob_mask_row asort medline u snr with
  | Ok a, Ok b => vec_eq a b | Err a, Err b => a = b | _, _ => False end.
Proof using Hs Hv H1 P1 S1.
  clear S2. intros Hc Hn E. unfold blob_mask_row. pose proof (normalised_scaled c u v Hc E) as A. destruct E as [El _]. cbn [vmap vlen] in El.
  destruct (normalised_row medline v) as [a|e] eqn:Ea; destruct (normalised_row medline u) as [b|e'] eqn:Eb; cbn [agree bindr] in *; try contradiction; [|exact A].
  destruct (normalised_spec medline H1 _ _ Ea) as [La _].
  pose proof (detect_ext asort Hs Hv a b snr ltac:(lia) A) as D.
  destruct (detect_stripe asort a snr) as [x|]; destruct (detect_stripe asort b snr) as [y|]; cbn [bindr]; try contradiction; [|exact D].
  destruct D as [Dl Dv]. split; [unfold dilate, clear_mask_ends; cbn [vlen]; exact Dl|].
  unfold dilate, clear_mask_ends. cbn [vlen vat]. rewrite <- Dl. intros j Hj.
  set (g := fun k => if (k <? py_adj (vlen x) 2) || (py_adj (vlen x) (-2) <=? k) then 0%Q else vat x k).
  set (h := fun k => if (k <? py_adj (vlen x) 2) || (py_adj (vlen x) (-2) <=? k) then 0%Q else vat y k).
  assert (On : forall k, (0 <=? k) && (k <? vlen x) && negb (Qeq_bool (g k) 0) = (0 <=? k) && (k <? vlen x) && negb (Qeq_bool (h k) 0)).
  { intros k. destruct (0 <=? k) eqn:K0; [|reflexivity]. destruct (k <? vlen x) eqn:K1; [|reflexivity]. unfold g, h. rewrite Dv by (unfold in_rng; lia). reflexivity. }
  cbn zeta. change ((if (0 <=? j - 1) && (j - 1 <? vlen x) && negb (Qeq_bool (g (j - 1)) 0) || (0 <=? j) && (j <? vlen x) && negb (Qeq_bool (g j) 0)
     || (0 <=? j + 1) && (j + 1 <? vlen x) && negb (Qeq_bool (g (j + 1)) 0) then 1%Q else 0%Q) =
    (if (0 <=? j - 1) && (j - 1 <? vlen x) && negb (Qeq_bool (h (j - 1)) 0) || (0 <=? j) && (j <? vlen x) && negb (Qeq_bool (h j) 0)
     || (0 <=? j + 1) && (j + 1 <? vlen x) && negb (Qeq_bool (h (j + 1)) 0) then 1%Q else 0%Q)).
  rewrite !On. reflexivity.
Qed.
Definition rowrel (a b : res (vec Q)) : Prop := match a, b with Ok x, Ok y => vec_eq x y | Err x, Err y => x = y | _, _ => False end.
Lemma mapr_rel (f g : Z -> res (vec Q)) l : (forall i, In i l -> rowrel (f i) (g i)) ->
  match mapr f l, mapr g l with Ok a, Ok b => Forall2 vec_eq a b | Err a, Err b => a = b | _, _ => False end.
Proof.
  induction l as [|x l IH]; intros H; [constructor|]. cbn [mapr]. specialize (IH (fun i Hi => H i (or_intror Hi))). specialize (H x (or_introl eq_refl)).
  unfold rowrel in H. destruct (f x); destruct (g x); cbn [bindr]; try contradiction; [|exact H].
  destruct (mapr f l); destruct (mapr g l); cbn [bindr]; try contradiction; [|exact IH]. constructor; assumption.
Qed.
Lemma generate_scaled c flat snr : (0 < c)%Q -> keeps_shape median2 -> 0 <= ncol flat ->
  match generate_blob_mask asort median2 medline (imap (fun x => c * x)%Q flat) snr, generate_blob_mask asort median2 medline flat snr with
  | Ok a, Ok b => img_eq a b | Err a, Err b => a = b | _, _ => False end.
Proof.
  intros Hc K Hn. unfold generate_blob_mask. destruct (S2 c flat Hc) as (R & C & V). cbn [imap nrow ncol px] in R, C, V. rewrite R.
  destruct (K flat) as [K1 K2].
  pose proof (mapr_rel (fun i => blob_mask_row asort medline (irow (median2 (imap (fun x => c * x)%Q flat)) i) snr)
                (fun i => blob_mask_row asort medline (irow (median2 flat) i) snr) (zrange 0 (nrow (median2 flat)))) as M.
  assert (Hrow : forall i, In i (zrange 0 (nrow (median2 flat))) -> rowrel (blob_mask_row asort medline (irow (median2 (imap (fun x => c * x)%Q flat)) i) snr) (blob_mask_row asort medline (irow (median2 flat) i) snr)).
  { intros i Hi. apply zrange_In in Hi. apply (row_scaled c); [exact Hc|cbn [irow vlen]; lia|]. split; [exact C|]. cbn [irow vlen vat vmap].
    intros j Hj. apply V; [rewrite ?R; unfold in_rng; lia|exact Hj]. }
  specialize (M Hrow).
  destruct (mapr _ _) as [a|]; destruct (mapr (fun i => blob_mask_row asort medline (irow (median2 flat) i) snr) _) as [b|] eqn:Eb; cbn [bindr]; try contradiction; [|exact M].
  split; [reflexivity|]. split; [exact C|]. cbn [nrow ncol px]. intros i j Hi Hj.
  destruct (mapr_nth _ _ _ (Z.to_nat i) i Eb) as (r & N & Er).
  { unfold in_rng in Hi. rewrite (nth_error_nth' _ 0) by (rewrite zrange_length; lia). rewrite zrange_nth by lia. f_equal. lia. }
  rewrite (nth_error_nth _ _ _ N).
  assert (Z : exists x, nth_error a (Z.to_nat i) = Some x /\ vec_eq x r).
  { clear - M N. revert N. generalize (Z.to_nat i) as k. induction M as [|x y l l' Hxy F IH]; intros k N; [destruct k; discriminate|].
    destruct k; [cbn in N; injection N as <-; exists x; split; [reflexivity|exact Hxy]|]. apply IH, N. }
  destruct Z as (x & Nx & [Lx Vx]). rewrite (nth_error_nth _ _ _ Nx). apply Vx.
  assert (vlen r = ncol (median2 flat)).
  { assert (Hl : 0 <= vlen (irow (median2 flat) i)) by (cbn [irow vlen]; lia).
    exact (proj1 (mask_row_spec asort Hs medline H1 _ _ _ Hl Er)). }
  unfold in_rng in *. lia.
Qed.
End scale.

(** a flat field without any structure *)
Lemma constant_row asort (Hs : forall v, is_argsort v (asort v)) medline c u snr : (forall u, vlen (medline u) = vlen u) ->
  ~ (c == 0)%Q -> 6 <= vlen u ->
  (forall j, in_rng (vlen u) j -> (vat u j == c)%Q) -> (forall j, in_rng (vlen u) j -> (vat (medline u) j == c)%Q) ->
  blob_mask_row asort medline u snr = Err ValueError.
Proof.
  intros H1 Hc Lu Vu Vm. unfold blob_mask_row.
  assert (En : exists ln, normalised_row medline u = Ok ln /\ vlen ln = vlen u /\ forall j, in_rng (vlen u) j -> (vat ln j == 1)%Q).
  { unfold normalised_row. cbn [vlen vat]. rewrite (H1 u).
    assert (B : forall j, in_rng (vlen u) j -> ((if Qeq_bool (vat (medline u) j) 0 then qmean (vlen u) (vat (medline u)) else vat (medline u) j) == c)%Q).
    { intros j Hj. destruct (Qeq_bool (vat (medline u) j) 0) eqn:Z; [|apply Vm; exact Hj]. apply Qeq_bool_iff in Z. rewrite Vm in Z by assumption. contradiction. }
    destruct (existsb _ _) eqn:E.
    { exfalso. apply existsb_exists in E as (j & Hj & Z). apply zrange_In in Hj. apply Qeq_bool_iff in Z. rewrite B in Z by (unfold in_rng; lia). contradiction. }
    eexists. split; [reflexivity|]. cbn [vlen vat]. split; [reflexivity|]. intros j Hj. rewrite B, Vu by assumption. field. exact Hc. }
  destruct En as (ln & -> & Ll & Vl). cbn [bindr].
  enough (detect_stripe asort ln snr = Err ValueError) as -> by reflexivity.
  unfold detect_stripe. set (n := vlen ln) in *. set (y := fun k => vat ln (asort ln k)).
  assert (Hm' : slen n (n / 4) (- (n / 4) - 1) = n - 2 * (n / 4) - 1 /\ 0 <= n / 4 /\ n / 4 + (n - 2 * (n / 4) - 1) <= n /\ 2 <= n - 2 * (n / 4) - 1).
  { pose proof (Z.div_mod n 4 ltac:(lia)). pose proof (Z.mod_pos_bound n 4 ltac:(lia)). unfold slen, py_adj.
    replace (n / 4 <? 0) with false by lia. replace (- (n / 4) - 1 <? 0) with true by lia. lia. }
  destruct Hm' as (-> & M0 & M1 & M2). replace (n - 2 * (n / 4) - 1 <? 2) with false by lia.
  destruct (line_fit_exact (n / 4) (n - 2 * (n / 4) - 1) y 1 0 M2) as [F1 F2].
  { intros k Hk. unfold y. rewrite Vl; [ring|]. rewrite <- Ll. apply (proj1 (Hs ln)). unfold in_rng. fold n. lia. }
  destruct (line_fit (n / 4) (n - 2 * (n / 4) - 1) y) as [s1 i1]. cbn [fst snd] in F1, F2.
  replace (Qltb (Qabs (i1 + s1 * inject_Z (n - 1) - i1)) (1 # 100000)) with true; [reflexivity|]. symmetry. apply Qltb_lt.
  rewrite F1. setoid_replace (i1 + 0 * inject_Z (n - 1) - i1)%Q with 0%Q by ring. reflexivity.
Qed.
Lemma generate_constant asort (Hs : forall v, is_argsort v (asort v)) median2 medline c flat snr i : keeps_shape median2 -> (forall u, vlen (medline u) = vlen u) ->
  ~ (c == 0)%Q -> in_rng (nrow flat) i -> 6 <= ncol flat ->
  (forall j, in_rng (ncol flat) j -> (px (median2 flat) i j == c)%Q) ->
  (forall u, (forall j, in_rng (vlen u) j -> (vat u j == c)%Q) -> forall j, in_rng (vlen u) j -> (vat (medline u) j == c)%Q) ->
  is_ok (generate_blob_mask asort median2 medline flat snr) = false.
Proof.
  intros K H1 Hc Hi Hn Hf Hm. destruct (generate_blob_mask asort median2 medline flat snr) as [m|e] eqn:E; [|reflexivity]. exfalso.
  destruct (generate_spec asort median2 medline K _ _ _ E) as (_ & _ & G). destruct (G i Hi) as (r & Er & _). destruct (K flat) as [K1 K2].
  rewrite (constant_row asort Hs medline c) in Er; [discriminate|exact H1|exact Hc| | |]; cbn [irow vlen vat]; rewrite ?K2; [exact Hn|exact Hf|].
  intros j Hj. apply Hm; cbn [irow vlen vat]; rewrite ?K2; assumption.
Qed.
