(** Proofs about correlation maps. *)
From Coq Require Import Reals Lra ZArith Lia Permutation.
From Verif Require Import Np P_Np M_phase_R P_phase_R M_corr S_corr.
From Coq Require Import List. Import ListNotations.
Open Scope R_scope.

(** ** sums *)
Lemma total_app a b : total (a ++ b) = total a + total b.
Proof. unfold total. induction a as [|x a IH]; cbn; [lra|]. rewrite IH. lra. Qed.
Lemma rsumn_total n f : rsumn n f = total (map f (zrange 0 (Z.of_nat n))).
Proof.
  induction n as [|n IH]; [reflexivity|]. cbn [rsumn].
  replace (Z.of_nat (S n)) with (Z.of_nat n + 1)%Z by lia. rewrite zrange_app by lia.
  rewrite map_app, total_app, <- IH. f_equal. change (zrange (0 + Z.of_nat n) 1) with [(0 + Z.of_nat n + 0)%Z].
  cbn. rewrite !Z.add_0_r. lra.
Qed.
Lemma rsum_total n f : rsum n f = total (map f (zrange 0 n)).
Proof.
  unfold rsum. rewrite rsumn_total. f_equal. f_equal. unfold zrange. f_equal. f_equal. lia.
Qed.
Lemma total_flat_map {A} (g : A -> list R) (l : list A) : total (flat_map g l) = total (map (fun x => total (g x)) l).
Proof. induction l as [|x l IH]; [reflexivity|]. cbn. rewrite total_app. unfold total in *. rewrite IH. reflexivity. Qed.
Lemma total_ext {A} (f g : A -> R) l : (forall x, In x l -> f x = g x) -> total (map f l) = total (map g l).
Proof. intros E. f_equal. apply map_ext_in, E. Qed.
Lemma total_scal c l : total (map (fun x => c * x) l) = c * total l.
Proof. induction l as [|x l IH]; cbn; [lra|]. unfold total in *. rewrite IH. lra. Qed.
Lemma total_affine s t l : total (map (fun x => s * x + t) l) = s * total l + t * INR (length l).
Proof. induction l as [|x l IH]; [cbn; lra|]. cbn [map length]. rewrite S_INR. cbn. unfold total in *. rewrite IH. lra. Qed.
Lemma total_nonneg l : (forall x, In x l -> 0 <= x) -> 0 <= total l.
Proof. induction l as [|x l IH]; intros H; cbn; [lra|]. pose proof (H x (or_introl eq_refl)). assert (0 <= total l) by (apply IH; intros; apply H; right; assumption). unfold total in *. lra. Qed.
Lemma total_zero l : (forall x, In x l -> 0 <= x) -> total l = 0 -> forall x, In x l -> x = 0.
Proof.
  induction l as [|y l IH]; intros H Z x Hx; [destruct Hx|].
  assert (0 <= y) by (apply H; left; reflexivity).
  assert (0 <= total l) by (apply total_nonneg; intros; apply H; right; assumption).
  change (y + total l = 0) in Z. destruct Hx as [<-|Hx]; [lra|]. apply IH; [intros; apply H; right; assumption|lra|exact Hx].
Qed.

(** ** Cauchy-Schwarz *)
Lemma dot_cons x a y b : dot (x :: a) (y :: b) = x * y + dot a b.
Proof. reflexivity. Qed.
Lemma dot_comm : forall a b, dot a b = dot b a.
Proof. induction a as [|x a IH]; intros [|y b]; try reflexivity. rewrite !dot_cons, IH. lra. Qed.
Lemma dot_self_nonneg a : 0 <= dot a a.
Proof. induction a as [|x a IH]; [cbn; lra|]. rewrite dot_cons. nra. Qed.
Lemma dot_self_zero a : dot a a = 0 -> forall x, In x a -> x = 0.
Proof.
  induction a as [|y a IH]; intros Z x Hx; [destruct Hx|]. rewrite dot_cons in Z. pose proof (dot_self_nonneg a).
  assert (0 <= y * y) by nra. destruct Hx as [<-|Hx]; [nra|]. apply IH; [lra|exact Hx].
Qed.
(** sum (u a - v b)^2 *)
Lemma dot_comb u v : forall a b, length a = length b ->
  total (map (fun p => (u * fst p - v * snd p) * (u * fst p - v * snd p)) (combine a b)) =
  u * u * dot a a - 2 * u * v * dot a b + v * v * dot b b.
Proof.
  induction a as [|x a IH]; intros [|y b] L; try discriminate; [cbn; lra|]. cbn [combine map]. rewrite !dot_cons.
  injection L as L. specialize (IH b L). cbn [total fold_right fst snd]. unfold total in IH. rewrite IH. lra.
Qed.
Lemma comb_nonneg u v a b : length a = length b -> 0 <= u * u * dot a a - 2 * u * v * dot a b + v * v * dot b b.
Proof.
  intros L. rewrite <- dot_comb by exact L. apply total_nonneg. intros x Hx. apply in_map_iff in Hx.
  destruct Hx as (p & <- & _). apply Rle_0_sqr.
Qed.
Lemma cauchy_schwarz a b : length a = length b -> dot a b * dot a b <= dot a a * dot b b.
Proof.
  intros L. pose proof (comb_nonneg (dot b b) (dot a b) a b L) as H.
  pose proof (dot_self_nonneg a). pose proof (dot_self_nonneg b) as HB.
  destruct (Req_dec (dot b b) 0) as [Z|Z].
  - assert (dot a b = 0) as ->; [|nra].
    assert (forall x, In x b -> x = 0) by (apply dot_self_zero; exact Z).
    clear - H1 L. revert b H1 L. induction a as [|x a IH]; intros [|y b] H L; try reflexivity. rewrite dot_cons.
    rewrite (H y (or_introl eq_refl)). rewrite IH; [lra|intros; apply H; right; assumption|injection L; auto].
  - assert (0 < dot b b) by lra.
    assert (0 <= dot b b * (dot a a * dot b b - dot a b * dot a b)) by nra.
    assert (0 <= dot a a * dot b b - dot a b * dot a b); [|lra].
    apply Rmult_le_reg_l with (dot b b); [lra|]. lra.
Qed.
(** equality: b is a multiple of a *)
Lemma schwarz_equal a b : length a = length b -> 0 < dot a a -> dot a b * dot a b = dot a a * dot b b ->
  b = map (fun x => dot a b / dot a a * x) a.
Proof.
  intros L A E.
  assert (Z : total (map (fun p => (dot a b * fst p - dot a a * snd p) * (dot a b * fst p - dot a a * snd p)) (combine a b)) = 0).
  { rewrite dot_comb by exact L. nra. }
  assert (X : forall p, In p (combine a b) -> snd p = dot a b / dot a a * fst p).
  { intros p Hp. assert (Y := total_zero _ (fun x Hx => match proj1 (in_map_iff _ _ _) Hx with ex_intro _ q (conj e _) => eq_ind _ (fun t => 0 <= t) (Rle_0_sqr _) _ e end) Z
      ((dot a b * fst p - dot a a * snd p) * (dot a b * fst p - dot a a * snd p))).
    assert (D : dot a b * fst p - dot a a * snd p = 0).
    { assert (Y2 : (dot a b * fst p - dot a a * snd p) * (dot a b * fst p - dot a a * snd p) = 0).
      { apply Y. apply in_map_iff. exists p. split; [reflexivity|exact Hp]. } nra. }
    apply Rmult_eq_reg_l with (dot a a); [|lra]. field_simplify; lra. }
  set (c := dot a b / dot a a) in *. clearbody c. clear - L X. revert b L X.
  induction a as [|x a IH]; intros [|y b] L X; try discriminate; [reflexivity|]. cbn [map]. f_equal.
  - apply (X (x, y)). left. reflexivity.
  - apply IH; [injection L; auto|]. intros p Hp. apply X. right. exact Hp.
Qed.

(** ** Pearson's coefficient *)
Lemma average_affine s t l : l <> [] -> average (map (fun x => s * x + t) l) = s * average l + t.
Proof.
  intros N. unfold average. rewrite total_affine, map_length.
  assert (INR (length l) <> 0) by (apply not_0_INR; destruct l; [congruence|discriminate]). field. exact H.
Qed.
Lemma deviations_affine s t l : deviations (map (fun x => s * x + t) l) = map (fun x => s * x) (deviations l).
Proof.
  destruct l as [|x l]; [reflexivity|]. unfold deviations. rewrite average_affine by discriminate. rewrite !map_map.
  apply map_ext. intros y. lra.
Qed.
Lemma dot_scal_l s : forall a b, dot (map (fun x => s * x) a) b = s * dot a b.
Proof. induction a as [|x a IH]; intros [|y b]; try (cbn; lra). cbn [map]. rewrite !dot_cons, IH. lra. Qed.
Lemma dot_scal_r s a b : dot a (map (fun x => s * x) b) = s * dot a b.
Proof. rewrite dot_comm, dot_scal_l, dot_comm. reflexivity. Qed.
Lemma deviations_length l : length (deviations l) = length l.
Proof. apply map_length. Qed.
Lemma varies_pos l : varies l -> 0 < dot (deviations l) (deviations l).
Proof.
  intros (x & y & Hx & Hy & N). destruct (Rle_lt_or_eq_dec _ _ (dot_self_nonneg (deviations l))) as [H|H]; [exact H|]. exfalso. apply N.
  assert (Z : forall z, In z l -> z = average l).
  { intros z Hz. assert (z - average l = 0); [|lra]. apply (dot_self_zero (deviations l)); [congruence|].
    unfold deviations. apply in_map_iff. exists z. split; [reflexivity|exact Hz]. }
  rewrite (Z x Hx), (Z y Hy). reflexivity.
Qed.
Lemma pearson_bounds l : -1 <= pearson l <= 1.
Proof.
  unfold pearson. set (a := deviations _). set (b := deviations _). destruct (Req_EM_T _ 0) as [E|E]; [lra|].
  assert (L : length a = length b) by (unfold a, b; rewrite !deviations_length, !map_length; reflexivity).
  pose proof (cauchy_schwarz a b L) as CS. pose proof (dot_self_nonneg a). pose proof (dot_self_nonneg b).
  assert (0 < dot a a * dot b b) by (assert (0 <= dot a a * dot b b) by (apply Rmult_le_pos; lra); lra). set (P := dot a a * dot b b) in *.
  assert (S : 0 < sqrt P) by (apply sqrt_lt_R0; assumption).
  assert (SS : sqrt P * sqrt P = P) by (apply sqrt_sqrt; lra).
  assert (- sqrt P <= dot a b <= sqrt P) by (split; nra).
  split; apply Rmult_le_reg_r with (sqrt P); try exact S; unfold Rdiv; rewrite Rmult_assoc, Rinv_l by lra; lra.
Qed.
(** the coefficient is 1 exactly for brighter / darker copies *)
Lemma map_fst_combine {A B} : forall (a : list A) (b : list B), length a = length b -> map fst (combine a b) = a.
Proof. induction a as [|x a IH]; intros [|y b] L; try discriminate; [reflexivity|]. cbn. f_equal. apply IH. injection L; auto. Qed.
Lemma map_snd_combine {A B} : forall (a : list A) (b : list B), length a = length b -> map snd (combine a b) = b.
Proof. induction a as [|x a IH]; intros [|y b] L; try discriminate; [reflexivity|]. cbn. f_equal. apply IH. injection L; auto. Qed.
Lemma pearson_copy a b : varies a -> affine_copy a b -> pearson (combine a b) = 1.
Proof.
  intros V (s & t & S & ->). unfold pearson.
  rewrite map_fst_combine, map_snd_combine by (rewrite map_length; reflexivity).
  rewrite deviations_affine. rewrite !dot_scal_l, !dot_scal_r. pose proof (varies_pos a V) as P. set (A := dot _ _) in *.
  assert (SA : 0 < s * A) by (apply Rmult_lt_0_compat; lra).
  assert (SA2 : 0 < A * (s * (s * A))) by (apply Rmult_lt_0_compat; [lra|apply Rmult_lt_0_compat; lra]).
  destruct (Req_EM_T _ 0) as [E|E]; [exfalso; lra|].
  replace (A * (s * (s * A))) with ((s * A) * (s * A)) by ring. rewrite sqrt_square by nra. field. split; lra.
Qed.
Lemma pearson_one a b : length a = length b -> pearson (combine a b) = 1 -> affine_copy a b.
Proof.
  intros L H. unfold pearson in H. rewrite map_fst_combine, map_snd_combine in H by exact L.
  set (da := deviations a) in *. set (db := deviations b) in *.
  destruct (Req_EM_T _ 0) as [E|E]; [lra|].
  pose proof (dot_self_nonneg da). pose proof (dot_self_nonneg db).
  assert (0 < dot da da * dot db db) by (assert (0 <= dot da da * dot db db) by (apply Rmult_le_pos; lra); lra). set (P := dot da da * dot db db) in *.
  assert (S : 0 < sqrt P) by (apply sqrt_lt_R0; assumption).
  assert (SS : sqrt P * sqrt P = P) by (apply sqrt_sqrt; lra).
  assert (C : dot da db = sqrt P).
  { apply Rmult_eq_reg_r with (/ sqrt P); [|apply Rinv_neq_0_compat; lra]. change (dot da db / sqrt P = sqrt P * / sqrt P).
    rewrite H. field. lra. }
  assert (Ld : length da = length db) by (unfold da, db; rewrite !deviations_length; exact L).
  assert (PA : 0 < dot da da) by (unfold P in *; nra).
  pose proof (schwarz_equal da db Ld PA ltac:(rewrite C; exact SS)) as M.
  set (c := dot da db / dot da da) in *.
  assert (Cp : 0 < c) by (unfold c; apply Rdiv_lt_0_compat; lra).
  exists c, (average b - c * average a). split; [exact Cp|]. clearbody c. unfold da, db, deviations in M. clear da db E H H0 H1 P H2 S SS C Ld PA Cp ||  (clear - M L). rewrite map_map in M. revert M. generalize (average a) (average b). intros ma mb M.
  revert b L M. induction a as [|x a IH]; intros [|y b] L M; try discriminate; [reflexivity|]. cbn [map] in M |- *.
  injection M as M1 M2. f_equal; [lra|]. apply IH; [injection L; auto|exact M2].
Qed.
(** brightness and contrast of both images do not matter *)
Lemma pearson_affine s t s' t' l : 0 < s -> 0 < s' ->
  pearson (map (fun p => (s * fst p + t, s' * snd p + t')) l) = pearson l.
Proof.
  intros S S'. unfold pearson. rewrite !map_map. cbn [fst snd].
  replace (map (fun x => s * fst x + t) l) with (map (fun x => s * x + t) (map fst l)) by (rewrite map_map; reflexivity).
  replace (map (fun x => s' * snd x + t') l) with (map (fun x => s' * x + t') (map snd l)) by (rewrite map_map; reflexivity).
  rewrite !deviations_affine, !dot_scal_l, !dot_scal_r.
  set (A := dot (deviations (map fst l)) (deviations (map fst l))). set (B := dot (deviations (map snd l)) (deviations (map snd l))).
  set (C := dot _ _).
  assert (HA : 0 <= A) by apply dot_self_nonneg. assert (HB : 0 <= B) by apply dot_self_nonneg.
  replace (s * (s * A) * (s' * (s' * B))) with ((s * s') * (s * s') * (A * B)) by ring.
  assert (0 < s * s') by (apply Rmult_lt_0_compat; lra).
  destruct (Req_EM_T (A * B) 0) as [E|E].
  - rewrite E, Rmult_0_r. destruct (Req_EM_T 0 0); [reflexivity|congruence].
  - assert (0 < A * B) by (assert (0 <= A * B) by (apply Rmult_le_pos; lra); lra).
    assert (0 < s * s' * (s * s') * (A * B)) by (apply Rmult_lt_0_compat; [apply Rmult_lt_0_compat|]; lra).
    destruct (Req_EM_T _ 0) as [E'|E']; [exfalso; lra|].
    rewrite sqrt_mult by (try apply Rle_0_sqr; lra). rewrite sqrt_square by lra.
    assert (0 < sqrt (A * B)) by (apply sqrt_lt_R0; assumption). field. repeat split; lra.
Qed.

(** ** the maps compute Pearson's coefficient *)
Definition pixels3 (d h w : Z) (f : Z -> Z -> Z -> R) : list R :=
  flat_map (fun k => flat_map (fun a => map (fun b => f k a b) (zrange 0 w)) (zrange 0 h)) (zrange 0 d).
Lemma rsum3_total d h w f : rsum3 d h w f = total (pixels3 d h w f).
Proof.
  unfold rsum3, pixels3. rewrite rsum_total, total_flat_map. apply total_ext. intros k _.
  unfold rsum2. rewrite rsum_total, total_flat_map. apply total_ext. intros a _. apply rsum_total.
Qed.
Lemma flat_map_const_length {A B} (g : A -> list B) n : forall l, (forall x, In x l -> length (g x) = n) -> length (flat_map g l) = (length l * n)%nat.
Proof. induction l as [|x l IH]; intros H; [reflexivity|]. cbn. rewrite app_length, IH, H; [reflexivity|left; reflexivity|intros; apply H; right; assumption]. Qed.
Lemma pixels3_length d h w f : length (pixels3 d h w f) = (Z.to_nat d * (Z.to_nat h * Z.to_nat w))%nat.
Proof.
  unfold pixels3. rewrite (flat_map_const_length _ (Z.to_nat h * Z.to_nat w)%nat); [rewrite zrange_length; reflexivity|].
  intros k _. rewrite (flat_map_const_length _ (Z.to_nat w)); [rewrite zrange_length; reflexivity|].
  intros a _. rewrite map_length, zrange_length. reflexivity.
Qed.
Lemma map_flat_map' {A B C} (f : B -> C) (g : A -> list B) l : map f (flat_map g l) = flat_map (fun x => map f (g x)) l.
Proof. induction l as [|x l IH]; [reflexivity|]. cbn. rewrite map_app, IH. reflexivity. Qed.
Lemma flat_map_ext_in {A B} (f g : A -> list B) l : (forall x, In x l -> f x = g x) -> flat_map f l = flat_map g l.
Proof. induction l as [|x l IH]; intros E; [reflexivity|]. cbn. rewrite E, IH; [reflexivity|intros; apply E; right; assumption|left; reflexivity]. Qed.
Lemma pixels3_map g d h w f : map g (pixels3 d h w f) = pixels3 d h w (fun k a b => g (f k a b)).
Proof.
  unfold pixels3. rewrite map_flat_map'. apply flat_map_ext_in. intros k _. rewrite map_flat_map'. apply flat_map_ext_in. intros a _.
  rewrite map_map. reflexivity.
Qed.
Lemma pixels3_ext d h w f g : (forall k a b, (0 <= k < d)%Z -> (0 <= a < h)%Z -> (0 <= b < w)%Z -> f k a b = g k a b) -> pixels3 d h w f = pixels3 d h w g.
Proof.
  intros E. unfold pixels3. apply flat_map_ext_in. intros k Hk. apply flat_map_ext_in. intros a Ha. apply map_ext_in. intros b Hb.
  apply zrange_In in Hk, Ha, Hb. apply E; lia.
Qed.
Lemma combine_map2 {A B C} (f : A -> B) (g : A -> C) l : combine (map f l) (map g l) = map (fun x => (f x, g x)) l.
Proof. induction l as [|x l IH]; [reflexivity|]. cbn. f_equal. exact IH. Qed.
Lemma combine_app2 {A B} : forall (a a' : list A) (b b' : list B), length a = length b -> combine (a ++ a') (b ++ b') = combine a b ++ combine a' b'.
Proof. induction a as [|x a IH]; intros a' [|y b] b' L; try discriminate; [reflexivity|]. cbn. f_equal. apply IH. injection L; auto. Qed.
Lemma combine_flat_map {A B C} (f : A -> list B) (g : A -> list C) l : (forall x, In x l -> length (f x) = length (g x)) ->
  combine (flat_map f l) (flat_map g l) = flat_map (fun x => combine (f x) (g x)) l.
Proof.
  induction l as [|x l IH]; intros H; [reflexivity|]. cbn. rewrite combine_app2 by (apply H; left; reflexivity).
  rewrite IH by (intros; apply H; right; assumption). reflexivity.
Qed.
Lemma dot_pixels3 d h w f g : dot (pixels3 d h w f) (pixels3 d h w g) = total (pixels3 d h w (fun k a b => f k a b * g k a b)).
Proof.
  unfold dot, pixels3. f_equal. rewrite combine_flat_map, map_flat_map'.
  - apply flat_map_ext_in. intros k _. rewrite combine_flat_map, map_flat_map'.
    + apply flat_map_ext_in. intros a _. rewrite combine_map2, map_map. reflexivity.
    + intros a _. rewrite !map_length. reflexivity.
  - intros k _. rewrite !(flat_map_const_length _ (Z.to_nat w)); [reflexivity| |]; intros a _; rewrite map_length, zrange_length; reflexivity.
Qed.
Definition pearson_of (d h w : Z) (f g : Z -> Z -> Z -> R) : R :=
  let n := IZR d * IZR h * IZR w in
  let fm := rsum3 d h w f / n in let gm := rsum3 d h w g / n in
  let A := rsum3 d h w (fun k a b => (f k a b - fm) * (f k a b - fm)) in
  let B := rsum3 d h w (fun k a b => (g k a b - gm) * (g k a b - gm)) in
  let C := rsum3 d h w (fun k a b => (f k a b - fm) * (g k a b - gm)) in
  if Reqb (sqrt (A * B)) 0 then 0 else C / sqrt (A * B).
Lemma INR_pixels3 d h w f : (0 <= d)%Z -> (0 <= h)%Z -> (0 <= w)%Z -> INR (length (pixels3 d h w f)) = IZR d * IZR h * IZR w.
Proof.
  intros D H W. rewrite pixels3_length, !mult_INR, !INR_IZR_INZ, !Z2Nat.id by lia. ring.
Qed.
Lemma pearson_of_spec d h w f g : (0 <= d)%Z -> (0 <= h)%Z -> (0 <= w)%Z ->
  pearson_of d h w f g = pearson (combine (pixels3 d h w f) (pixels3 d h w g)).
Proof.
  intros D H W. unfold pearson. rewrite map_fst_combine, map_snd_combine by (rewrite !pixels3_length; reflexivity).
  unfold deviations, average. rewrite !INR_pixels3 by lia. rewrite !pixels3_map, !dot_pixels3.
  unfold pearson_of. rewrite <- !rsum3_total.
  set (A := rsum3 d h w (fun k a b => (f k a b - _) * (f k a b - _))).
  set (B := rsum3 d h w (fun k a b => (g k a b - _) * (g k a b - _))). set (C := rsum3 _ _ _ _).
  assert (0 <= A * B).
  { apply Rmult_le_pos; unfold A, B; rewrite rsum3_total; apply total_nonneg; intros x Hx; unfold pixels3 in Hx;
    apply in_flat_map in Hx; destruct Hx as (k & _ & Hx); apply in_flat_map in Hx; destruct Hx as (a & _ & Hx);
    apply in_map_iff in Hx; destruct Hx as (b & <- & _); apply Rle_0_sqr. }
  unfold Reqb. destruct (Req_EM_T (A * B) 0) as [E|E]; destruct (Req_EM_T (sqrt (A * B)) 0) as [E'|E']; try reflexivity.
  - rewrite E, sqrt_0 in E'. congruence.
  - apply sqrt_eq_0 in E'; [congruence|assumption].
Qed.
Lemma rsum_ext' n f g : (forall i, (0 <= i < n)%Z -> f i = g i) -> rsum n f = rsum n g.
Proof. apply rsum_ext. Qed.
Lemma rsum2_ext h w f g : (forall a b, (0 <= a < h)%Z -> (0 <= b < w)%Z -> f a b = g a b) -> rsum2 h w f = rsum2 h w g.
Proof. intros E. unfold rsum2. apply rsum_ext. intros a Ha. apply rsum_ext. intros b Hb. apply E; assumption. Qed.
Lemma rsum3_ext d h w f g : (forall k a b, (0 <= k < d)%Z -> (0 <= a < h)%Z -> (0 <= b < w)%Z -> f k a b = g k a b) -> rsum3 d h w f = rsum3 d h w g.
Proof. intros E. unfold rsum3. apply rsum_ext. intros k Hk. apply rsum2_ext. intros a b Ha Hb. apply E; assumption. Qed.
Lemma rsum3_1 h w f : rsum3 1 h w f = rsum2 h w (f 0%Z).
Proof. unfold rsum3. change (rsum 1 ?g) with (0 + g 0%Z). unfold rsum. cbn. lra. Qed.

Lemma slice_len n i h : (0 <= i)%Z -> (0 <= h)%Z -> (i + h <= n)%Z -> slen n i (i + h) = h.
Proof. intros. unfold slen, py_adj. destruct (Z.ltb_spec i 0), (Z.ltb_spec (i + h) 0); lia. Qed.
Lemma slice_at n i : (0 <= i <= n)%Z -> py_adj n i = i.
Proof. intros. unfold py_adj. destruct (Z.ltb_spec i 0); lia. Qed.

Section maps.
Local Open Scope Z_scope.
Lemma map2_value ref mat i j : 1 <= nrow mat <= nrow ref -> 1 <= ncol mat <= ncol ref ->
  0 <= i < nrow ref - nrow mat + 1 -> 0 <= j < ncol ref - ncol mat + 1 ->
  px (correlation_map_2d_cpu ref mat) i j =
  pearson_of 1 (nrow mat) (ncol mat) (fun _ a b => px mat (0 + a) (0 + b)) (fun _ a b => px ref (i + a) (j + b)).
Proof.
  intros H W I J. unfold correlation_map_2d_cpu, pearson_of, rmean2i. cbn [px nrow ncol islice].
  rewrite !slice_len by lia. rewrite !slice_at by lia. cbn [islice px nrow ncol]. rewrite !rsum3_1. rewrite !Rmult_1_l. reflexivity.
Qed.
Lemma map3_value ref mat i j : 1 <= hei mat <= hei ref -> 1 <= wid mat <= wid ref -> dep ref = dep mat ->
  0 <= i < hei ref - hei mat + 1 -> 0 <= j < wid ref - wid mat + 1 ->
  px (correlation_map_3d_cpu ref mat) i j =
  pearson_of (dep mat) (hei mat) (wid mat) (fun k a b => vx mat k (0 + a) (0 + b)) (fun k a b => vx ref k (i + a) (j + b)).
Proof.
  intros H W D I J. unfold correlation_map_3d_cpu, pearson_of, rmean3. unfold wslice. cbn [px dep hei wid vx].
  rewrite !slice_len by lia. rewrite !slice_at by lia. rewrite D. reflexivity.
Qed.

(** checked sums *)
Lemma rsumn_r_ok n f g : (forall i, 0 <= i < Z.of_nat n -> f i = Ok (g i)) -> rsumn_r n f = Ok (rsumn n g).
Proof.
  induction n as [|n IH]; intros E; [reflexivity|]. cbn [rsumn_r rsumn]. rewrite IH by (intros; apply E; lia). cbn [bindr].
  rewrite E by lia. reflexivity.
Qed.
Lemma rsum_r_ok n f g : (forall i, 0 <= i < n -> f i = Ok (g i)) -> rsum_r n f = Ok (rsum n g).
Proof. intros E. apply rsumn_r_ok. intros i Hi. apply E. lia. Qed.
Lemma rd2_ok m i j : 0 <= i < nrow m -> 0 <= j < ncol m -> rd2 m i j = Ok (px m i j).
Proof. intros I J. unfold rd2. destruct (Z.leb_spec 0 i), (Z.ltb_spec i (nrow m)), (Z.leb_spec 0 j), (Z.ltb_spec j (ncol m)); try lia. reflexivity. Qed.
Lemma rd3_ok v k i j : 0 <= k < dep v -> 0 <= i < hei v -> 0 <= j < wid v -> rd3 v k i j = Ok (vx v k i j).
Proof.
  intros K I J. unfold rd3.
  destruct (Z.leb_spec 0 k), (Z.ltb_spec k (dep v)), (Z.leb_spec 0 i), (Z.ltb_spec i (hei v)), (Z.leb_spec 0 j), (Z.ltb_spec j (wid v)); try lia. reflexivity.
Qed.

Definition stored (h2 w2 : Z) (val : Z -> Z -> R) (xy : Z * Z) : option (Z * Z * R) :=
  let (x, y) := xy in
  if (y <? h2) && (x <? w2) then (if Reqb (val y x) 0 then None else Some (y, x, val y x)) else None.
(** zero coefficients need not be stored: the array starts with zeros *)
Lemma run_threads_spec th order h2 w2 val n block :
  (forall x y, 0 <= x -> 0 <= y -> exists o, th (x, y) = Ok o /\
      (y < h2 -> x < w2 -> o = Some (y, x, val y x) \/ (o = None /\ val y x = 0%R)) /\ (~ (y < h2 /\ x < w2) -> o = None)) ->
  1 <= fst block -> 1 <= snd block -> h2 <= n -> w2 <= n -> Permutation (grid2 n block) order ->
  exists c, run_threads th order = Ok c /\ forall i j, 0 <= i < h2 -> 0 <= j < w2 -> c i j = val i j.
Proof.
  intros T B1 B2 H W P.
  assert (Pos : forall p, In p order -> 0 <= fst p /\ 0 <= snd p).
  { intros [x y] Hp. apply (Permutation_in _ (Permutation_sym P)) in Hp. apply in_prod_iff in Hp. destruct Hp as [Hx Hy].
    apply zrange_In in Hx, Hy. cbn. lia. }
  assert (Cov : forall i j, 0 <= i < h2 -> 0 <= j < w2 -> In (j, i) order).
  { intros i j Hi Hj. apply (Permutation_in _ P). apply in_prod_iff.
    assert (G : forall b k, 1 <= b -> 0 <= k < n -> In k (grid_axis n b)).
    { intros b k Hb Hk. apply zrange_In. split; [lia|]. pose proof (Z.div_mod (- n) b ltac:(lia)). pose proof (Z.mod_pos_bound (- n) b ltac:(lia)). nia. }
    split; apply G; lia. }
  clear P. revert Pos Cov. unfold run_threads.
  assert (Gen : forall order m, (forall p, In p order -> 0 <= fst p /\ 0 <= snd p) ->
            exists ws, mapr th order = Ok ws /\
             (forall i j, 0 <= i < h2 -> 0 <= j < w2 ->
               fold_left (fun m w => match w with None => m | Some (y, x, v) => cset m y x v end) ws m i j = val i j \/
               ((~ In (j, i) order \/ val i j = 0%R) /\ fold_left (fun m w => match w with None => m | Some (y, x, v) => cset m y x v end) ws m i j = m i j))).
  { clear order. induction order as [|[x y] order IH]; intros m Pos.
    - exists []. split; [reflexivity|]. intros i j _ _. right. split; [left; intros []|reflexivity].
    - destruct (Pos (x, y) (or_introl eq_refl)) as [Hx Hy]. cbn [fst snd] in Hx, Hy.
      destruct (T x y Hx Hy) as (o & E & In1 & Out).
      destruct (IH (match o with None => m | Some (y, x, v) => cset m y x v end) (fun p Hp => Pos p (or_intror Hp))) as (ws & Ew & V).
      exists (o :: ws). split; [cbn [mapr]; rewrite E; cbn [bindr]; rewrite Ew; reflexivity|].
      intros i j Hi Hj. cbn [fold_left]. destruct (V i j Hi Hj) as [V1|(V1 & V2)]; [left; exact V1|]. rewrite V2.
      destruct (Z.eq_dec x j) as [->|Nx]; [destruct (Z.eq_dec y i) as [->|Ny]|].
      + destruct (In1 ltac:(lia) ltac:(lia)) as [-> | [-> Zr] ].
        * left. unfold cset. rewrite !Z.eqb_refl. reflexivity.
        * right. split; [right; exact Zr|reflexivity].
      + right. split.
        * destruct V1 as [V1|V1]; [left; intros [Q|Q]; [injection Q as Q; congruence|exact (V1 Q)]|right; exact V1].
        * destruct o as [ [ [yy xx] v]|]; [|reflexivity]. unfold cset.
          destruct (Z.lt_ge_cases y h2) as [L1|L1]; [destruct (Z.lt_ge_cases j w2) as [L2|L2]|];
            [destruct (In1 L1 L2) as [Q|[Q _] ]; [injection Q as -> -> ->|discriminate Q] | |]; try (discriminate (Out ltac:(lia))).
          destruct (Z.eqb_spec i y); [congruence|reflexivity].
      + right. split.
        * destruct V1 as [V1|V1]; [left; intros [Q|Q]; [injection Q as Q; congruence|exact (V1 Q)]|right; exact V1].
        * destruct o as [ [ [yy xx] v]|]; [|reflexivity]. unfold cset.
          destruct (Z.lt_ge_cases y h2) as [L1|L1]; [destruct (Z.lt_ge_cases x w2) as [L2|L2]|];
            [destruct (In1 L1 L2) as [Q|[Q _] ]; [injection Q as -> -> ->|discriminate Q] | |]; try (discriminate (Out ltac:(lia))).
          destruct (Z.eqb_spec j x); [congruence|]. rewrite andb_false_r. reflexivity. }
  intros Pos Cov. destruct (Gen order (fun _ _ => 0%R) Pos) as (ws & E & V). rewrite E. cbn [bindr]. eexists. split; [reflexivity|].
  intros i j Hi Hj. destruct (V i j Hi Hj) as [V1|([N|Z1] & V2)]; [exact V1| |].
  - exfalso. apply N, Cov; assumption.
  - rewrite V2. symmetry. exact Z1.
Qed.
Lemma pearson_sym_order A B : sqrt (A * B) = sqrt (B * A).
Proof. f_equal. ring. Qed.
Lemma thread2_spec ref mat x y : 1 <= nrow mat <= nrow ref -> 1 <= ncol mat <= ncol ref -> 0 <= x -> 0 <= y ->
  let h2 := nrow ref - nrow mat + 1 in let w2 := ncol ref - ncol mat + 1 in
  let mat1 := mkimg (nrow mat) (ncol mat) (fun i j => px mat i j - rmean2i mat)%R in
  let ss := rsum2 (nrow mat) (ncol mat) (fun i j => px mat1 i j * px mat1 i j)%R in
  let val := fun i j => pearson_of 1 (nrow mat) (ncol mat) (fun _ a b => px mat (0 + a) (0 + b)) (fun _ a b => px ref (i + a) (j + b)) in
  exists o, correlation_thread_2d ref mat1 ss (nrow mat) (ncol mat) h2 w2 (x, y) = Ok o /\
    (y < h2 -> x < w2 -> o = Some (y, x, val y x) \/ (o = None /\ val y x = 0%R)) /\ (~ (y < h2 /\ x < w2) -> o = None).
Proof.
  intros H W X Y h2 w2 mat1 ss val. unfold correlation_thread_2d.
  destruct ((y <? h2) && (x <? w2)) eqn:B.
  2:{ exists None. split; [reflexivity|]. split; [|reflexivity]. intros. apply andb_false_iff in B. destruct B as [B|B]; apply Z.ltb_ge in B; lia. }
  apply andb_true_iff in B. destruct B as [By Bx]. apply Z.ltb_lt in By, Bx. unfold h2, w2 in By, Bx.
  cbn [islice nrow ncol]. rewrite !slice_len by lia.
  rewrite (rsum_r_ok (nrow mat) _ (fun i => rsum (ncol mat) (fun j => px ref (y + i) (x + j)))).
  2:{ intros i Hi. apply rsum_r_ok. intros j Hj. rewrite rd2_ok; cbn [islice nrow ncol px]; rewrite ?slice_len, ?slice_at by lia; [reflexivity|lia..]. }
  cbn [bindr]. set (rm := (_ / _)%R).
  rewrite (rsum_r_ok (nrow mat) _ (fun i => rsum (ncol mat) (fun j => (px ref (y + i) (x + j) - rm) * (px ref (y + i) (x + j) - rm))%R)).
  2:{ intros i Hi. apply rsum_r_ok. intros j Hj. rewrite rd2_ok by lia. reflexivity. }
  cbn [bindr].
  rewrite (rsum_r_ok (nrow mat) _ (fun i => rsum (ncol mat) (fun j => (px mat i j - rmean2i mat) * (px ref (y + i) (x + j) - rm))%R)).
  2:{ intros i Hi. apply rsum_r_ok. intros j Hj. rewrite rd2_ok by lia. cbn [bindr]. rewrite rd2_ok by (cbn [mat1 nrow ncol]; lia). reflexivity. }
  cbn [bindr]. eexists. split; [reflexivity|]. split; [|lia]. intros _ _.
  unfold val, pearson_of. rewrite !rsum3_1, !Rmult_1_l. unfold Rsqr.
  change (rsum2 (nrow mat) (ncol mat) (fun a b => px mat (0 + a) (0 + b))) with (rsum2 (nrow mat) (ncol mat) (px mat)).
  change (rsum2 (nrow mat) (ncol mat) (px mat) / (IZR (nrow mat) * IZR (ncol mat)))%R with (rmean2i mat).
  change (rsum2 (nrow mat) (ncol mat) (fun a b => px ref (y + a) (x + b)) / (IZR (nrow mat) * IZR (ncol mat)))%R with rm.
  change (rsum2 (nrow mat) (ncol mat) (fun a b => ((px mat (0 + a) (0 + b) - rmean2i mat) * (px mat (0 + a) (0 + b) - rmean2i mat))%R)) with ss.
  rewrite (pearson_sym_order ss). unfold rsum2 at 1 3 5 6.
  destruct (Reqb _ 0); [right; split; reflexivity|left; reflexivity].
Qed.
Lemma thread3_spec ref mat x y : 1 <= hei mat <= hei ref -> 1 <= wid mat <= wid ref -> dep ref = dep mat -> 0 <= x -> 0 <= y ->
  let h2 := hei ref - hei mat + 1 in let w2 := wid ref - wid mat + 1 in
  let mat1 := mkvol (dep mat) (hei mat) (wid mat) (fun k i j => vx mat k i j - rmean3 mat)%R in
  let ss := rsum3 (dep mat) (hei mat) (wid mat) (fun k i j => vx mat1 k i j * vx mat1 k i j)%R in
  let val := fun i j => pearson_of (dep mat) (hei mat) (wid mat) (fun k a b => vx mat k (0 + a) (0 + b)) (fun k a b => vx ref k (i + a) (j + b)) in
  exists o, correlation_thread_3d ref mat1 ss (dep ref) (hei mat) (wid mat) h2 w2 (x, y) = Ok o /\
    (y < h2 -> x < w2 -> o = Some (y, x, val y x) \/ (o = None /\ val y x = 0%R)) /\ (~ (y < h2 /\ x < w2) -> o = None).
Proof.
  intros H W D X Y h2 w2 mat1 ss val. unfold correlation_thread_3d.
  destruct ((y <? h2) && (x <? w2)) eqn:B.
  2:{ exists None. split; [reflexivity|]. split; [|reflexivity]. intros. apply andb_false_iff in B. destruct B as [B|B]; apply Z.ltb_ge in B; lia. }
  apply andb_true_iff in B. destruct B as [By Bx]. apply Z.ltb_lt in By, Bx. unfold h2, w2 in By, Bx. rewrite D.
  unfold wslice. cbn [dep hei wid]. rewrite !slice_len by lia. rewrite !slice_at by lia. rewrite D.
  rewrite (rsum_r_ok (dep mat) _ (fun k => rsum (hei mat) (fun i => rsum (wid mat) (fun j => vx ref k (y + i) (x + j))))).
  2:{ intros k Hk. apply rsum_r_ok. intros i Hi. apply rsum_r_ok. intros j Hj. rewrite rd3_ok; cbn [dep hei wid vx]; [reflexivity|lia..]. }
  cbn [bindr]. set (rm := (_ / _)%R).
  rewrite (rsum_r_ok (dep mat) _ (fun k => rsum (hei mat) (fun i => rsum (wid mat) (fun j => (vx ref k (y + i) (x + j) - rm) * (vx ref k (y + i) (x + j) - rm))%R))).
  2:{ intros k Hk. apply rsum_r_ok. intros i Hi. apply rsum_r_ok. intros j Hj. rewrite rd3_ok by lia. reflexivity. }
  cbn [bindr].
  rewrite (rsum_r_ok (dep mat) _ (fun k => rsum (hei mat) (fun i => rsum (wid mat) (fun j => (vx mat k i j - rmean3 mat) * (vx ref k (y + i) (x + j) - rm))%R))).
  2:{ intros k Hk. apply rsum_r_ok. intros i Hi. apply rsum_r_ok. intros j Hj. rewrite rd3_ok by lia. cbn [bindr]. rewrite rd3_ok by (cbn [mat1 dep hei wid]; lia). reflexivity. }
  cbn [bindr]. eexists. split; [reflexivity|]. split; [|lia]. intros _ _.
  unfold val, pearson_of.
  change (rsum3 (dep mat) (hei mat) (wid mat) (fun k a b => vx mat k (0 + a) (0 + b))) with (rsum3 (dep mat) (hei mat) (wid mat) (vx mat)).
  change (rsum3 (dep mat) (hei mat) (wid mat) (vx mat) / (IZR (dep mat) * IZR (hei mat) * IZR (wid mat)))%R with (rmean3 mat).
  change (rsum3 (dep mat) (hei mat) (wid mat) (fun k a b => vx ref k (y + a) (x + b)) / (IZR (dep mat) * IZR (hei mat) * IZR (wid mat)))%R with rm.
  change (rsum3 (dep mat) (hei mat) (wid mat) (fun k a b => ((vx mat k (0 + a) (0 + b) - rmean3 mat) * (vx mat k (0 + a) (0 + b) - rmean3 mat))%R)) with ss.
  rewrite (pearson_sym_order ss). unfold rsum3 at 1 3 5 6. unfold rsum2.
  destruct (Reqb _ 0); [right; split; reflexivity|left; reflexivity].
Qed.

(** every entry of the map is the correlation coefficient, on the CPU and, for every grid and order of the threads, on the GPU *)
Lemma corr_map_spec ref mat gpu block sched : fits ref mat -> 1 <= fst block -> 1 <= snd block ->
  (forall l, Permutation l (sched l)) ->
  exists m, generate_correlation_map ref mat gpu block sched = Ok m /\
    nrow m = height ref - height mat + 1 /\ ncol m = width ref - width mat + 1 /\
    forall i j, 0 <= i < nrow m -> 0 <= j < ncol m -> px m i j = correlation_at ref mat i j.
Proof.
  intros (K & D & H & W) B1 B2 P. unfold generate_correlation_map.
  destruct ref as [r|r], mat as [m|m]; try contradiction; cbn [shape2 height width depth] in *.
  - destruct (Z.ltb_spec (nrow r) (nrow m)); [lia|]. destruct (Z.ltb_spec (ncol r) (ncol m)); [lia|]. cbn [orb].
    assert (V : forall i j, correlation_at (One r) (One m) i j =
              pearson_of 1 (nrow m) (ncol m) (fun _ a b => px m (0 + a) (0 + b)) (fun _ a b => px r (i + a) (j + b)))
      by (intros; rewrite pearson_of_spec by lia; reflexivity).
    destruct gpu.
    + destruct (run_threads_spec _ _ _ _ _ _ block (fun x y => thread2_spec r m x y H W) B1 B2
                  (Z.le_max_l _ _) (Z.le_max_r _ _) (P _)) as (c & E & C).
      rewrite E. cbn [bindr]. eexists. split; [reflexivity|]. split; [reflexivity|]. split; [reflexivity|]. cbn [nrow ncol px].
      intros i j Hi Hj. rewrite C by assumption. symmetry. apply V.
    + eexists. split; [reflexivity|]. split; [reflexivity|]. split; [reflexivity|]. intros i j Hi Hj. cbn in Hi, Hj.
      rewrite map2_value by lia. symmetry. apply V.
  - destruct (Z.ltb_spec (hei r) (hei m)); [lia|]. destruct (Z.ltb_spec (wid r) (wid m)); [lia|]. cbn [orb].
    cbn in K. rewrite (proj2 (Z.eqb_eq _ _) K). cbn [negb].
    assert (V : forall i j, correlation_at (Stack r) (Stack m) i j =
              pearson_of (dep m) (hei m) (wid m) (fun k a b => vx m k (0 + a) (0 + b)) (fun k a b => vx r k (i + a) (j + b))).
    { intros. rewrite pearson_of_spec by lia. unfold correlation_at, window, pixels3. cbn [depth height width value]. rewrite K. reflexivity. }
    destruct gpu.
    + destruct (run_threads_spec _ _ _ _ _ _ block (fun x y => thread3_spec r m x y H W K) B1 B2
                  (Z.le_max_l _ _) (Z.le_max_r _ _) (P _)) as (c & E & C).
      rewrite E. cbn [bindr]. eexists. split; [reflexivity|]. split; [reflexivity|]. split; [reflexivity|]. cbn [nrow ncol px].
      intros i j Hi Hj. rewrite C by assumption. symmetry. apply V.
    + eexists. split; [reflexivity|]. split; [reflexivity|]. split; [reflexivity|]. intros i j Hi Hj. cbn in Hi, Hj.
      rewrite map3_value by lia. symmetry. apply V.
Qed.
End maps.
