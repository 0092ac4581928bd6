(** A scene that can be recognised everywhere, and images of it (C120). *)
From Coq Require Import Reals Lra ZArith Lia Bool.
From Verif Require Import Np P_Np M_corr S_corr P_corr S_local M_global S_global P_speckle3 M_stackshift S_stackshift P_stackshift.
From Coq Require Import List. Import ListNotations.
Open Scope Z_scope.

Definition cubes (i j : Z) : R := IZR (i * i * i + j * j * j).
Lemma seen_window T r i j : seen T r i j = window (One (mkimg 0 0 T)) (i - r) (j - r) (2 * r + 1) (2 * r + 1).
Proof. unfold window. cbn [depth]. change (zrange 0 1) with [0]. cbn [flat_map]. rewrite app_nil_r. reflexivity. Qed.
Lemma cubes_recognisable r reach : 2 <= r -> recognisable cubes r reach.
Proof.
  intros R2 i j. split.
  - exists (cubes (i - r + 0) (j - r + 0)), (cubes (i - r + 1) (j - r + 0)). rewrite seen_window.
    split; [apply (in_window (One (mkimg 0 0 cubes)) _ _ _ _ 0); cbn [depth]; lia|]. split; [apply (in_window (One (mkimg 0 0 cubes)) _ _ _ _ 0); cbn [depth]; lia|].
    intros E. unfold cubes in E. apply eq_IZR in E. nia.
  - intros dy dx _ _ (s & t & Hs & E).
    assert (V : forall a b, 0 <= a <= 4 -> 0 <= b <= 4 -> cubes (i + dy - r + a) (j + dx - r + b) = (s * cubes (i - r + a) (j - r + b) + t)%R).
    { intros a b Ha Hb.
      assert (E' : window (One (mkimg 0 0 cubes)) (i + dy - r) (j + dx - r) (2 * r + 1) (2 * r + 1) = window (One (mkimg 0 0 (fun u v => s * cubes u v + t)%R)) (i - r) (j - r) (2 * r + 1) (2 * r + 1)).
      { rewrite <- !seen_window, E. unfold seen. rewrite map_flat_map'. apply flat_map_ext. intros u. rewrite map_map. reflexivity. }
      exact (window_eq_values (One (mkimg 0 0 cubes)) (One (mkimg 0 0 (fun u v => s * cubes u v + t)%R)) _ _ _ _ _ _ eq_refl E' 0 a b ltac:(cbn; lia) ltac:(lia) ltac:(lia)). }
    assert (V00 := V 0 0 ltac:(lia) ltac:(lia)). assert (V10 := V 1 0 ltac:(lia) ltac:(lia)). assert (V20 := V 2 0 ltac:(lia) ltac:(lia)). assert (V30 := V 3 0 ltac:(lia) ltac:(lia)).
    assert (V01 := V 0 1 ltac:(lia) ltac:(lia)). assert (V02 := V 0 2 ltac:(lia) ltac:(lia)). clear V E.
    unfold cubes in *. set (y := i - r) in *. set (x := j - r) in *. replace (i + dy - r) with (y + dy) in * by (unfold y; lia). replace (j + dx - r) with (x + dx) in * by (unfold x; lia).
    rewrite !plus_IZR, !mult_IZR, !plus_IZR in V00, V10, V20, V30, V01, V02.
    assert (s = 1)%R by lra. subst s. assert (Y : (IZR dy = 0)%R) by lra. assert (X : (IZR dx = 0)%R) by lra. split; apply eq_IZR; assumption.
Qed.

(** a stack of two references; the second one is seen one row lower behind the same scene *)
Definition two_refs : vol R := mkvol 2 13 13 (fun k i j => IZR (k + i * i + 3 * j * j)).
Definition two_sams : vol R := mkvol 2 13 13 (fun k i j => cubes i j * (vx two_refs k (i + k)%Z j + 1 / 1000000000))%R.
Definition no_motion (k : Z) : Z * Z := (0, 0).
Definition speckle_motion (k : Z) : Z * Z := (k, 0).
Lemma two_scene : one_scene cubes (Stack two_refs) (Stack two_sams) no_motion speckle_motion (5 / 2) 1 (Points [Indices [4]; Indices [4]]).
Proof.
  unfold one_scene. cbv zeta. change (largest (map speckle_motion (zrange 0 (depth (Stack two_refs))))) with 1. change (5 / 2) with 2. cbn [depth height width two_refs two_sams dep hei wid].
  split; [unfold same_size; cbn; repeat split|]. split; [lia|]. split; [lia|]. split; [lia|]. split; [apply cubes_recognisable; lia|]. split.
  - intros k Hk. split.
    + intros i j _ _ _ _. unfold no_motion, speckle_motion, picture. cbn [px value fst snd two_sams vx]. rewrite !Z.add_0_r. reflexivity.
    + intros i j Hi Hj. unfold picture, in_rng in *. cbn [px value nrow ncol vx two_refs height width hei wid] in *. apply IZR_le. nia.
  - split; [lia|]. split; [lia|]. cbn [some_points length combine]. split; [reflexivity|]. exists (4, 4). split; [left; reflexivity|]. cbn [fst snd]. lia.
Qed.
