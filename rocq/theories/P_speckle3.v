(** Proofs about speckle tracking: images in which every displacement can be seen. *)
From Coq Require Import Reals Lra ZArith Lia Bool.
From Verif Require Import Np P_Np M_phase_R M_corr S_corr P_corr M_local S_local M_speckle S_speckle.
From Coq Require Import List. Import ListNotations.
Open Scope Z_scope.

(** three images: black, white, and one with a different value at every pixel *)
Definition coded (h w dy dx : Z) : vol R := mkvol 3 h w (fun k i j => if k =? 0 then 0%R else if k =? 1 then 1%R else IZR (1000 * (i + dy) + (j + dx))).
Lemma in_window d i j h w k a b : 0 <= k < depth d -> 0 <= a < h -> 0 <= b < w -> In (value d k (i + a) (j + b)) (window d i j h w).
Proof.
  intros K A B. unfold window. apply in_flat_map. exists k. split; [apply zrange_In; lia|]. apply in_flat_map. exists a. split; [apply zrange_In; lia|]. apply in_map_iff. exists b. split; [reflexivity|apply zrange_In; lia].
Qed.
Lemma window_eq_values d d' i j i' j' h w : depth d = depth d' -> window d i j h w = window d' i' j' h w -> forall k a b, 0 <= k < depth d -> 0 <= a < h -> 0 <= b < w ->
  value d k (i + a) (j + b) = value d' k (i' + a) (j' + b).
Proof.
  intros D E k a b K A B. unfold window in E. rewrite <- D in E.
  assert (G : forall (T : Type) (f g : Z -> list T) l n, (forall x, length (f x) = n) -> (forall x, length (g x) = n) -> flat_map f l = flat_map g l -> forall x, In x l -> f x = g x).
  { intros T f g l n F G. induction l as [|y l IH]; [intros _ x []|]. cbn [flat_map]. intros Q x X. assert (Q' : f y = g y /\ flat_map f l = flat_map g l).
    { assert (P1 := f_equal (firstn n) Q). assert (P2 := f_equal (skipn n) Q).
      rewrite !firstn_app in P1. rewrite F, G, Nat.sub_diag in P1. cbn [firstn] in P1. rewrite !app_nil_r in P1. rewrite !firstn_all2 in P1 by (rewrite ?F, ?G; lia).
      rewrite !skipn_app in P2. rewrite F, G, Nat.sub_diag in P2. cbn [skipn] in P2. rewrite !skipn_all2 in P2 by (rewrite ?F, ?G; lia). split; assumption. }
    destruct Q' as [Q1 Q2]. destruct X as [<- | X]; [exact Q1|]. apply IH; assumption. }
  assert (ML : forall (T : Type) (f : Z -> T) n, length (map f (zrange 0 n)) = Z.to_nat n) by (intros; rewrite map_length, zrange_length; reflexivity).
  assert (FL : forall (T : Type) (f : Z -> list T) l n, (forall x, length (f x) = n) -> length (flat_map f l) = (length l * n)%nat).
  { intros T f l n F. induction l; cbn; [reflexivity|]. rewrite app_length, F, IHl. reflexivity. }
  assert (E1 := G R _ _ (zrange 0 (depth d)) (length (zrange 0 h) * Z.to_nat w)%nat
     ltac:(intros x; apply FL; intros; apply ML) ltac:(intros x; apply FL; intros; apply ML) E k ltac:(apply zrange_In; lia)). cbn beta in E1.
  assert (E2 := G R _ _ (zrange 0 h) (Z.to_nat w) ltac:(intros; apply ML) ltac:(intros; apply ML) E1 a ltac:(apply zrange_In; lia)). cbn beta in E2.
  assert (E3 : forall l x, map (fun b => value d k (i + a) (j + b)) l = map (fun b => value d' k (i' + a) (j' + b)) l -> In x l -> value d k (i + a) (j + x) = value d' k (i' + a) (j' + x)).
  { induction l as [|y l IH]; intros x Q X; [destruct X|]. cbn [map] in Q. injection Q as Q1 Q2. destruct X as [<- | X]; [exact Q1|apply IH; assumption]. }
  apply (E3 _ b E2). apply zrange_In. lia.
Qed.
Lemma coded_shows h w r margin i j dy dx : 0 <= r -> 1 <= margin < 500 -> - margin <= dy <= margin -> - margin <= dx <= margin ->
  shows_only (Stack (coded h w 0 0)) (Stack (coded h w dy dx)) r margin i j dy dx.
Proof.
  intros R0 M Y X. unfold shows_only. set (ref := Stack (coded h w 0 0)). set (sam := Stack (coded h w dy dx)). cbv zeta. split.
  - exists 0%R, 1%R. split; [|split; [|lra] ].
    + apply (in_window sam (i - r) (j - r) (2 * r + 1) (2 * r + 1) 0 0 0); unfold sam, coded; cbn [depth dep]; lia.
    + apply (in_window sam (i - r) (j - r) (2 * r + 1) (2 * r + 1) 1 0 0); unfold sam, coded; cbn [depth dep]; lia.
  - intros dy' dx' Y' X'. split.
    + intros (s & t & S & E).
      assert (V : forall k, 0 <= k < 3 -> value ref k (i + dy' - r + 0) (j + dx' - r + 0) = (s * value sam k (i - r + 0) (j - r + 0) + t)%R).
      { intros k K. set (m1 := match sam with Stack v => Stack (mkvol 3 h w (fun k a b => s * vx v k a b + t)%R) | One _ => sam end).
        assert (E' : window ref (i + dy' - r) (j + dx' - r) (2 * r + 1) (2 * r + 1) = window m1 (i - r) (j - r) (2 * r + 1) (2 * r + 1)).
        { rewrite E. unfold window. cbn [depth sam m1 coded dep value vx]. rewrite map_flat_map'. apply flat_map_ext. intros k0. rewrite map_flat_map'. apply flat_map_ext. intros a. rewrite map_map. reflexivity. }
        exact (window_eq_values ref m1 _ _ _ _ _ _ eq_refl E' k 0 0 K ltac:(lia) ltac:(lia)). }
      assert (V0 := V 0 ltac:(lia)). assert (V1 := V 1 ltac:(lia)). assert (V2 := V 2 ltac:(lia)). cbn [value ref sam coded vx Z.eqb Pos.eqb] in V0, V1, V2.
      assert (t = 0%R) by lra. assert (s = 1%R) by lra. subst s t. rewrite Rmult_1_l, Rplus_0_r in V2. apply eq_IZR in V2. lia.
    + intros [-> ->]. exists 1%R, 0%R. split; [lra|]. unfold window. cbn [depth ref sam coded dep value vx]. rewrite map_flat_map'. apply flat_map_ext. intros k. rewrite map_flat_map'. apply flat_map_ext. intros a. rewrite map_map. apply map_ext. intros b.
      cbv beta. destruct (k =? 0); [lra|]. destruct (k =? 1); [lra|]. rewrite Rmult_1_l, Rplus_0_r. f_equal. lia.
Qed.
