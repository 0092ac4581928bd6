(** Proofs about the shifts between stacks of images (C120). *)
From Coq Require Import Reals Lra ZArith Lia Bool.
From Verif Require Import Np P_Np M_phase_R M_corr S_corr P_corr M_local S_local P_local M_global S_global P_global2 T_global M_simR P_calib7 M_umpa M_stackshift S_stackshift.
From Coq Require Import List. Import ListNotations.
Open Scope Z_scope.

Lemma images_pictures d : images d = map (picture d) (zrange 0 (depth d)).
Proof.
  destruct d as [m|v]; cbn [images depth].
  - change (zrange 0 1) with [0]. cbn [map]. f_equal. destruct m; reflexivity.
  - apply map_ext. intros k. reflexivity.
Qed.
Lemma lget_picture d i : 0 <= i < depth d -> lget (images d) i = Ok (picture d i).
Proof.
  intros H. rewrite images_pictures. unfold lget. rewrite nth_error_map.
  rewrite (nth_error_nth' _ 0) by (rewrite zrange_length; lia). rewrite zrange_nth by lia. cbn. f_equal. f_equal. lia.
Qed.
Lemma lget_map {A} (f : Z -> A) n i : 0 <= i < n -> lget (map f (zrange 0 n)) i = Ok (f i).
Proof.
  intros H. unfold lget. rewrite nth_error_map. rewrite (nth_error_nth' _ 0) by (rewrite zrange_length; lia). rewrite zrange_nth by lia. cbn. f_equal. f_equal. lia.
Qed.
Lemma lget_inv {A} (l : list A) i x : 0 <= i -> lget l i = Ok x -> i < Z.of_nat (length l).
Proof. intros H. unfold lget. destruct (nth_error l (Z.to_nat i)) eqn:E; [|discriminate]. intros _. assert (nth_error l (Z.to_nat i) <> None) by congruence. apply nth_error_Some in H0. lia. Qed.
Lemma lget_short {A} (l : list A) i : Z.of_nat (length l) <= i -> lget l i = Err IndexError.
Proof. intros H. unfold lget. rewrite (proj2 (nth_error_None l (Z.to_nat i))) by lia. reflexivity. Qed.
Lemma combine_pictures {A B C} (f : A -> B) (g : A -> C) l : combine l (combine (map f l) (map g l)) = map (fun k => (k, (f k, g k))) l.
Proof. induction l as [|x l IH]; [reflexivity|]. cbn. rewrite IH. reflexivity. Qed.
Lemma mapr_mapped {A B C} (f : B -> res C) (g : A -> B) l : mapr f (map g l) = mapr (fun a => f (g a)) l.
Proof. induction l as [|x l IH]; [reflexivity|]. cbn. destruct (f (g x)); [|reflexivity]. cbn. rewrite IH. reflexivity. Qed.
Lemma images_len d : 0 <= depth d -> Z.of_nat (length (images d)) = depth d.
Proof. intros H. rewrite images_pictures, map_length, zrange_length. lia. Qed.

Section stacks.
Context (polyfit2 : vec R -> R * R) (surface : img R -> R * R * R * R * R) (randint : Z -> bool -> Z -> Z -> Z -> list Z).
Notation stacks := (find_shift_between_image_stacks polyfit2 surface randint).
Notation pair := (pair_shift polyfit2 surface randint).
Lemma stacks_eq ref sam win margin pts how gpu block sched sub meth size norm : same_size ref sam -> 0 <= depth ref ->
  stacks ref sam win margin pts how gpu block sched sub meth size norm =
  mapr (fun k => pair k (picture ref k) (picture sam k) win margin pts how gpu block sched sub meth size norm) (zrange 0 (depth ref)).
Proof.
  intros S D. unfold find_shift_between_image_stacks. rewrite (proj2 (same_shape_spec ref sam) S). cbn [negb].
  rewrite images_len by exact D. rewrite !images_pictures. assert (Ed : depth sam = depth ref) by (destruct S as (K & _); destruct ref, sam; cbn in *; try contradiction; congruence).
  rewrite Ed, combine_pictures, mapr_mapped. reflexivity.
Qed.
Lemma pair_inv call m n win margin pts how gpu block sched sub meth size norm v :
  pair call m n win margin pts how gpu block sched sub meth size norm = Ok v <->
  find_global_shift polyfit2 surface (randint call) (One m) (One n) win margin pts None how gpu block sched sub meth size norm false = Ok (Global (fst v) (snd v)).
Proof.
  unfold pair_shift. destruct (find_global_shift _ _ _ _ _ _ _ _ _ _ _ _ _ _ _ _ _ _) as [s|e]; cbn [bindr]; [|split; discriminate].
  destruct s as [xs ys|x y].
  - split; [discriminate|]. intros E. discriminate.
  - split; [intros E; injection E as <-; reflexivity|]. intros E. assert (Ex : x = fst v) by congruence. assert (Ey : y = snd v) by congruence. rewrite Ex, Ey. destruct v; reflexivity.
Qed.
Lemma pair_fails call m n win margin pts how gpu block sched sub meth size norm e :
  find_global_shift polyfit2 surface (randint call) (One m) (One n) win margin pts None how gpu block sched sub meth size norm false = Err e ->
  pair call m n win margin pts how gpu block sched sub meth size norm = Err e.
Proof. unfold pair_shift. intros ->. reflexivity. Qed.

(** one pair *)
Lemma filter_some {A} (f : A -> bool) l p : In p l -> f p = true -> filter f l <> [].
Proof. intros H E N. assert (In p (filter f l)) by (apply filter_In; split; assumption). rewrite N in H0. destruct H0. Qed.
Lemma pair_recovers call m n win margin pts how gpu block sched sub meth size norm dy dx :
  (meth = PolyFit -> reads_elements polyfit2 surface) -> random_integers (randint call) -> 0 <= win / 2 -> 1 <= margin ->
  let r := win / 2 in let e := r + margin in comparable m n e norm -> (gpu = true -> any_launch (block, 1) sched) ->
  - margin <= dy <= margin -> - margin <= dx <= margin -> some_points pts (nrow m) (ncol m) e ->
  (forall p, window_inside (One m) e (fst p) (snd p) -> only_match (One (if norm then equalised m else m)) (One (if norm then equalised n else n)) r margin dy dx p) ->
  exists v, pair call m n win margin pts how gpu block sched sub meth size norm = Ok v /\ finds gpu sub meth v dy dx.
Proof.
  intros RE Rn R0 M r e C L Hy Hx Sp A.
  assert (G : exists x y, find_global_shift polyfit2 surface (randint call) (One m) (One n) win margin pts None how gpu block sched sub meth size norm false = Ok (Global x y) /\
    (gpu = false -> sub = false -> x = IZR dx /\ y = IZR dy) /\ (gpu = true \/ meth <> PolyFit -> Rabs (x - IZR dx) < 1 /\ Rabs (y - IZR dy) < 1)%R).
  { destruct pts as [| |l]; cbn in Sp; [|contradiction|].
    - apply (global_shift_random_points_recover_displacement polyfit2 surface (randint call) m n win margin None how gpu block sched sub meth size norm dy dx); try assumption. lia.
    - destruct l as [|a l]; [contradiction|]. destruct a as [i|li]; [contradiction|]. destruct l as [|b l]; [contradiction|]. destruct b as [j|lj]; [contradiction|]. destruct l; [|contradiction].
      destruct Sp as (Len & p & Ip & P1 & P2 & P3 & P4).
      apply (global_shift_recovers_displacement polyfit2 surface (randint call) m n win margin li lj None how gpu block sched sub meth size norm dy dx); try assumption.
      + apply (filter_some _ _ p Ip). fold r. fold e. apply (proj2 (usable_spec (One m) e p)). unfold window_inside. cbn [height width]. lia.
      + fold r. fold e. eexists. exists []. rewrite app_nil_r. split; [apply Permutation.Permutation_refl|]. split; [cbn; lia|].
        apply Forall_forall. intros q Hq. apply filter_In in Hq. apply A. apply (proj1 (usable_spec (One m) e q)). apply Hq. }
  destruct G as (x & y & G & E1 & E2). exists (x, y). split; [apply pair_inv; exact G|]. split; cbn [fst snd].
  - intros g s. destruct (E1 g s) as (-> & ->). reflexivity.
  - exact E2.
Qed.
End stacks.

(** ** the scene *)
Lemma window_seen m T a b r i j : (forall u v, in_rng (nrow m) u -> in_rng (ncol m) v -> px m u v = T (u + a) (v + b)) ->
  0 <= r -> 0 <= i - r -> i + r <= nrow m - 1 -> 0 <= j - r -> j + r <= ncol m - 1 ->
  window (One m) (i - r) (j - r) (2 * r + 1) (2 * r + 1) = seen T r (i + a) (j + b).
Proof.
  intros E R0 A1 A2 B1 B2. unfold window. cbn [depth]. change (zrange 0 1) with [0]. cbn [flat_map]. rewrite app_nil_r. unfold seen.
  apply flat_map_ext_in. intros u Hu. apply zrange_In in Hu. apply map_ext_in. intros v Hv. apply zrange_In in Hv. cbn [value]. rewrite E by (unfold in_rng; lia). f_equal; lia.
Qed.
Lemma scene_match m n T a b a' b' r margin p : recognisable T r (2 * margin) -> 0 <= r ->
  (forall u v, in_rng (nrow m) u -> in_rng (ncol m) v -> px m u v = T (u + a) (v + b)) ->
  (forall u v, in_rng (nrow n) u -> in_rng (ncol n) v -> px n u v = T (u + a') (v + b')) ->
  nrow n = nrow m -> ncol n = ncol m -> - margin <= a' - a <= margin -> - margin <= b' - b <= margin ->
  window_inside (One m) (r + margin) (fst p) (snd p) -> only_match (One m) (One n) r margin (a' - a) (b' - b) p.
Proof.
  intros Rc R0 Em En Rr Cc Ha Hb (W1 & W2 & W3 & W4). cbn [height width] in *. unfold only_match. cbv zeta.
  assert (Wn : window (One n) (fst p - r) (snd p - r) (2 * r + 1) (2 * r + 1) = seen T r (fst p + a') (snd p + b')) by (apply window_seen; try assumption; lia).
  rewrite Wn. destruct (Rc (fst p + a') (snd p + b')) as (V & U). split; [exact V|]. intros dy' dx' Hy Hx.
  rewrite (window_seen m T a b r (fst p + dy') (snd p + dx') Em) by lia. split.
  - intros Af. replace (fst p + dy' + a) with (fst p + a' + (dy' - (a' - a))) in Af by lia. replace (snd p + dx' + b) with (snd p + b' + (dx' - (b' - b))) in Af by lia.
    destruct (U (dy' - (a' - a)) (dx' - (b' - b))) as (U1 & U2); [lia|lia|exact Af|]. lia.
  - intros (-> & ->). replace (fst p + (a' - a) + a) with (fst p + a') by lia. replace (snd p + (b' - b) + b) with (snd p + b') by lia.
    exists 1%R, 0%R. split; [lra|]. rewrite <- map_id at 1. apply map_ext. intros x. lra.
Qed.

(** ** the crop *)
Lemma fold_max_ge l : forall x, (x <= fold_left Rmax l x)%R /\ (forall y, In y l -> (y <= fold_left Rmax l x)%R).
Proof.
  induction l as [|z l IH]; intros x; cbn; [split; [lra|tauto]|]. destruct (IH (Rmax x z)) as (A & B). pose proof (Rmax_l x z). pose proof (Rmax_r x z). split; [lra|].
  intros y [<-|Hin]; [lra|apply B, Hin].
Qed.
Lemma fold_max_in l : forall x, fold_left Rmax l x = x \/ In (fold_left Rmax l x) l.
Proof.
  induction l as [|z l IH]; intros x; cbn; [left; reflexivity|]. destruct (IH (Rmax x z)) as [->|H]; [|right; right; exact H].
  unfold Rmax. destruct (Rle_dec x z); [right; left; reflexivity|left; reflexivity].
Qed.
Lemma rmaximum_is l x : In x l -> (forall y, In y l -> (y <= x)%R) -> rmaximum l = x.
Proof.
  intros I H. destruct l as [|a l]; [destruct I|]. cbn [rmaximum]. apply Rle_antisym.
  - destruct (fold_max_in l a) as [->|K]; [apply H; left; reflexivity|apply H; right; exact K].
  - destruct (fold_max_ge l a) as (A & B). destruct I as [<-|I]; [exact A|apply B, I].
Qed.
Lemma largest_ge s l : In s l -> Z.abs (fst s) <= largest l /\ Z.abs (snd s) <= largest l.
Proof. induction l as [|a l IH]; intros H; [destruct H|]. cbn. destruct H as [-> |H]; [lia|]. specialize (IH H). unfold largest in IH. lia. Qed.
Lemma largest_nonneg l : 0 <= largest l.
Proof. induction l as [|a l IH]; cbn; [lia|]. unfold largest in IH. lia. Qed.
Lemma largest_in l : l <> [] -> exists s, In s l /\ (Z.abs (fst s) = largest l \/ Z.abs (snd s) = largest l).
Proof.
  induction l as [|a l IH]; intros N; [congruence|]. destruct l as [|b l].
  - exists a. split; [left; reflexivity|]. cbn. lia.
  - destruct IH as (s & I & E); [discriminate|]. set (l' := b :: l) in *. change (largest (a :: l')) with (Z.max (Z.max (Z.abs (fst a)) (Z.abs (snd a))) (largest l')).
    destruct (Z_le_gt_dec (Z.max (Z.abs (fst a)) (Z.abs (snd a))) (largest l')); [exists s; split; [right; exact I|lia]|exists a; split; [left; reflexivity|lia] ].
Qed.
Lemma crop_is l : l <> [] -> rtrunc (rmaximum (flat_map (fun s => [Rabs (fst s); Rabs (snd s)]) (map as_xy l))) = largest l.
Proof.
  intros N. rewrite (rmaximum_is _ (IZR (largest l))).
  - pose proof (largest_nonneg l). assert (0 <= IZR (largest l))%R by (apply IZR_le in H; exact H). apply rtrunc_is; lra.
  - destruct (largest_in l N) as (s & I & E). apply in_flat_map. exists (as_xy s). split; [apply in_map, I|]. unfold as_xy. cbn [fst snd]. rewrite !Rabs_Zabs. cbn. destruct E as [-> | ->]; auto.
  - intros y Hy. apply in_flat_map in Hy. destruct Hy as (q & Iq & Hy). apply in_map_iff in Iq. destruct Iq as (s & <- & I). unfold as_xy in Hy. cbn [fst snd] in Hy. rewrite !Rabs_Zabs in Hy.
    destruct (largest_ge s l I) as (A & B). apply IZR_le in A, B. cbn in Hy. destruct Hy as [<-|[<-|[] ] ]; assumption.
Qed.
(** a normalised sample shows the scene *)
Lemma normalised_shows shift T ref sam d s M : moves_images shift -> in_front T ref sam d s -> bright ref -> nrow sam = nrow ref -> ncol sam = ncol ref ->
  Z.abs (fst s) <= M -> Z.abs (snd s) <= M -> 2 * (1 + M) < nrow ref -> 2 * (1 + M) < ncol ref ->
  let m := normalised_sample shift ref sam (as_xy s) (1 + M) in
  nrow m = nrow ref - 2 * (1 + M) /\ ncol m = ncol ref - 2 * (1 + M) /\
  forall u v, in_rng (nrow m) u -> in_rng (ncol m) v -> px m u v = T (u + (1 + M + (fst d - fst s))) (v + (1 + M + (snd d - snd s))).
Proof.
  intros Mv F B Rr Cc S1 S2 Hr Hc m. destruct (Mv sam (fst s) (snd s)) as (N1 & N2 & N3).
  assert (Sr : nrow m = nrow ref - 2 * (1 + M)).
  { unfold m, normalised_sample, as_xy. cbn [islice nrow fst snd]. rewrite N1, Rr. unfold slen, py_adj. destruct (Z.ltb_spec (1 + M) 0), (Z.ltb_spec (- (1 + M)) 0); lia. }
  assert (Sc : ncol m = ncol ref - 2 * (1 + M)).
  { unfold m, normalised_sample, as_xy. cbn [islice ncol fst snd]. rewrite N2, Cc. unfold slen, py_adj. destruct (Z.ltb_spec (1 + M) 0), (Z.ltb_spec (- (1 + M)) 0); lia. }
  split; [exact Sr|]. split; [exact Sc|]. intros u v Hu Hv. unfold in_rng in Hu, Hv. rewrite Sr in Hu. rewrite Sc in Hv.
  unfold m, normalised_sample, as_xy. cbn [islice nrow ncol px fst snd]. rewrite N1, N2, Rr, Cc.
  assert (P1 : py_adj (nrow ref) (1 + M) = 1 + M) by (unfold py_adj; destruct (Z.ltb_spec (1 + M) 0); lia). assert (P2 : py_adj (ncol ref) (1 + M) = 1 + M) by (unfold py_adj; destruct (Z.ltb_spec (1 + M) 0); lia). rewrite P1, P2.
  rewrite N3 by (unfold in_rng; lia). unfold in_front in F. rewrite F by (unfold in_rng; lia).
  replace (1 + M + u - fst s + fst s) with (1 + M + u) by lia. replace (1 + M + v - snd s + snd s) with (1 + M + v) by lia.
  assert (K : (0 <= px ref (1 + M + u) (1 + M + v))%R) by (apply B; unfold in_rng; lia).
  replace (1 + M + u - fst s + fst d) with (u + (1 + M + (fst d - fst s))) by lia. replace (1 + M + v - snd s + snd d) with (v + (1 + M + (snd d - snd s))) by lia. unfold eps. field. lra.
Qed.
