(** Proofs about the visual centre searches, second part: the lists of centres and the images. *)
From Verif Require Import Np P_Np M_fs P_fs S_io M_io_save P_io_save P_io_save2 M_conversion M_calculation M_recon M_metric S_metric P_metric M_visual S_visual P_visual.
From Coq Require Import Ascii String.
From Coq Require Import QArith Qround Qabs ZArith Lia Lqa Bool.
From Coq Require Import List. Import ListNotations.
Open Scope Z_scope.

Lemma covers_of a b s start stop step l : (a == start)%Q -> (b == stop)%Q -> (s == step)%Q -> lists_candidates a b s l -> covers start stop step l.
Proof.
  intros A B S' (n & -> & H). exists n. split.
  - induction (zrange 0 n) as [|k t IH]; cbn [map]; constructor; [unfold candidate; rewrite A, S'; reflexivity|exact IH].
  - intros k. rewrite H. unfold searched, candidate. rewrite A, B, S'. tauto.
Qed.
Lemma center_name_ext c c' nm : (c == c')%Q -> center_name c nm -> center_name c' nm.
Proof. intros E (sp & n & m & ds & es & A & B & D & F & G). exists sp, n, m, ds, es. repeat split; try assumption; try apply B; try apply D. rewrite <- E. exact G. Qed.
Lemma clip_in x lo hi : (lo <= x)%Q -> (x <= hi)%Q -> (clipQ x lo hi == x)%Q.
Proof. intros L H. unfold clipQ, Qmaxb, Qminb. destruct (Qle_bool x lo) eqn:A; [apply Qle_bool_iff in A|clear A]; match goal with |- context [Qle_bool ?u ?v] => destruct (Qle_bool u v) eqn:B end; try (apply Qle_bool_iff in B); try lra; (assert (~ (Qle_bool lo hi = true) \/ ~ (Qle_bool x hi = true)) as [N|N] by (rewrite B; first [left; discriminate|right; discriminate]); rewrite Qle_bool_iff in N; lra). Qed.
Lemma clip_above x lo hi : (lo <= x)%Q -> (clipQ x lo hi == Qminb x hi)%Q.
Proof.
  intros L. unfold clipQ. assert (E : (Qmaxb x lo == x)%Q) by (unfold Qmaxb; destruct (Qle_bool x lo) eqn:A; [apply Qle_bool_iff in A; lra|reflexivity]).
  unfold Qminb. destruct (Qle_bool (Qmaxb x lo) hi) eqn:A; destruct (Qle_bool x hi) eqn:B; try rewrite E; try reflexivity.
  - apply Qle_bool_iff in A. rewrite E in A. apply Qle_bool_iff in A. congruence.
  - apply Qle_bool_iff in B. rewrite <- E in B. apply Qle_bool_iff in B. congruence.
Qed.
(** the files of a search over evenly spaced centres *)
Lemma files_listed {C} (enc : str -> img Q -> C) (name : Q -> str) (pic : Q -> img Q) (real : Q -> Q) l centers :
  Forall2 (fun c z => (real z == c)%Q) centers l -> (forall z, In z l -> center_name (real z) (name z)) ->
  Forall2 (fun c file => center_name c (fst file) /\ exists z, (real z == c)%Q /\ In z l /\ snd file = enc (s_ ".tif") (pic z)) centers (map (fun z => (name z, enc (s_ ".tif") (pic z))) l).
Proof.
  intros F N. assert (G : forall l', incl l' l -> forall cs, Forall2 (fun c z => (real z == c)%Q) cs l' ->
    Forall2 (fun c file => center_name c (fst file) /\ exists z, (real z == c)%Q /\ In z l /\ snd file = enc (s_ ".tif") (pic z)) cs (map (fun z => (name z, enc (s_ ".tif") (pic z))) l')).
  { induction l' as [|z t IH]; intros I cs H; inversion H; subst; cbn [map]; constructor.
    - split; [eapply center_name_ext; [eassumption|apply N, I; left; reflexivity]|]. exists z. split; [assumption|]. split; [apply I; left; reflexivity|reflexivity].
    - apply IH; [intros y Y; apply I; right; exact Y|assumption]. }
  apply G; [apply incl_refl|exact F].
Qed.
Lemma Forall2_self (P : Q -> Q -> Prop) l : (forall x, In x l -> P x x) -> Forall2 P l l.
Proof. induction l; intros H; constructor; [apply H; left; reflexivity|apply IHl; intros; apply H; right; assumption]. Qed.
Lemma candidates_nonneg a s n c : (0 <= a)%Q -> (0 <= s)%Q -> In c (map (candidate a s) (zrange 0 n)) -> (0 <= c)%Q.
Proof.
  intros A S' H. apply in_map_iff in H as (k & <- & H). apply zrange_In in H. unfold candidate. assert (0 <= inject_Z k)%Q by (change 0%Q with (inject_Z 0); rewrite <- Zle_Qle; lia). nra.
Qed.

(** ** the stacked sinogram *)
Lemma stacked_above shiftx zoomf sino c : above_mirror shiftx sino c (stacked_sinogram shiftx zoomf sino 1 c) \/ nrow sino < 0 \/ nrow (shiftx (ifliplr sino) (2 * (c - (inject_Z (ncol sino) - 1) / 2))%Q) <> nrow sino.
Proof.
  destruct (Z_lt_le_dec (nrow sino) 0) as [N|N]; [right; left; exact N|]. 
  destruct (Z.eq_dec (nrow (shiftx (ifliplr sino) (2 * (c - (inject_Z (ncol sino) - 1) / 2))%Q)) (nrow sino)) as [E|]; [left|right; right; assumption].
  unfold stacked_sinogram. cbn [Qeq_bool negb]. change (negb (Qeq_bool 1 1)) with false. cbv iota. unfold vstack, above_mirror. cbn [nrow ncol px]. rewrite E. split; [reflexivity|]. split; [reflexivity|]. split.
  - intros i j Hi Hj. unfold in_rng in Hi. destruct (Z.ltb_spec i (nrow sino)); [reflexivity|lia].
  - exists (2 * (c - (inject_Z (ncol sino) - 1) / 2))%Q. split; [change (ncol sino - 1) with (ncol sino + - 1); rewrite inject_Z_plus; change (inject_Z (-1)) with (-1)%Q; field|].
    intros i j Hi Hj. unfold in_rng in Hi. destruct (Z.ltb_spec (nrow sino + i) (nrow sino)); [lia|]. f_equal. lia.
Qed.
Lemma stacked_zoom shiftx zoomf sino zoom c : ~ (zoom == 1)%Q -> stacked_sinogram shiftx zoomf sino zoom c = zoomf (stacked_sinogram shiftx zoomf sino 1 c) zoom.
Proof. intros N. unfold stacked_sinogram. change (negb (Qeq_bool 1 1)) with false. cbv iota. destruct (Qeq_bool zoom 1) eqn:E; [apply Qeq_bool_iff in E; contradiction|reflexivity]. Qed.
Lemma stacked_one shiftx zoomf sino zoom c : (zoom == 1)%Q -> stacked_sinogram shiftx zoomf sino zoom c = stacked_sinogram shiftx zoomf sino 1 c.
Proof. intros E. unfold stacked_sinogram. change (negb (Qeq_bool 1 1)) with false. cbv iota. apply Qeq_bool_iff in E. rewrite E. reflexivity. Qed.

(** ** zooming a symmetric image *)
Lemma floor_unique x k : (inject_Z k <= x)%Q -> (x < inject_Z (k + 1))%Q -> Qfloor x = k.
Proof.
  intros A B. pose proof (Qfloor_le x). pose proof (Qlt_floor x). assert (H1 : (inject_Z k < inject_Z (Qfloor x + 1))%Q) by lra. assert (H2 : (inject_Z (Qfloor x) < inject_Z (k + 1))%Q) by lra.
  rewrite <- Zlt_Qlt in H1, H2. lia.
Qed.
Lemma interpolated_symmetric m y x : mirror_even m -> (0 <= y)%Q -> (y <= inject_Z (nrow m - 1))%Q -> (0 <= x)%Q -> (x <= inject_Z (ncol m - 1))%Q ->
  (interpolated m y (inject_Z (ncol m - 1) - x) == interpolated m y x)%Q.
Proof.
  intros Sy Y0 Y1 X0 X1. unfold interpolated.
  set (i := Qfloor y). set (u := (y - inject_Z i)%Q).
  pose proof (Qfloor_le y) as Ly. pose proof (Qlt_floor y) as Uy. pose proof (Qfloor_le x) as Lx. pose proof (Qlt_floor x) as Ux. fold i in Ly, Uy. set (j := Qfloor x) in *.
  assert (I0 : 0 <= i) by (apply (Qfloor_resp_le 0 y) in Y0; exact Y0).
  assert (J0 : 0 <= j) by (apply (Qfloor_resp_le 0 x) in X0; exact X0).
  assert (I1 : i <= nrow m - 1) by (assert (inject_Z i <= inject_Z (nrow m - 1))%Q by lra; rewrite <- Zle_Qle in H; exact H).
  assert (J1 : j <= ncol m - 1) by (assert (inject_Z j <= inject_Z (ncol m - 1))%Q by lra; rewrite <- Zle_Qle in H; exact H).
  assert (Row : forall i', in_rng (nrow m) i' -> forall j', in_rng (ncol m) j' -> (px m i' (ncol m - 1 - j') == px m i' j')%Q) by (intros; apply Sy; assumption).
  assert (Wu : i < nrow m - 1 \/ (u == 0)%Q).
  { destruct (Z.eq_dec i (nrow m - 1)) as [E|]; [right|left; lia]. unfold u. rewrite E in Ly |- *. lra. }
  destruct (Qeq_dec x (inject_Z j)) as [Ej|Nj].
  - assert (Fj : Qfloor (inject_Z (ncol m - 1) - x) = ncol m - 1 - j).
    { apply floor_unique; rewrite Ej; unfold Z.sub; rewrite ?inject_Z_plus, ?inject_Z_opp; change (inject_Z 1) with 1%Q; lra. }
    rewrite Fj. assert (V1 : (inject_Z (ncol m - 1) - x - inject_Z (ncol m - 1 - j) == 0)%Q) by (rewrite Ej; unfold Z.sub; rewrite ?inject_Z_plus, ?inject_Z_opp; lra).
    assert (V2 : (x - inject_Z j == 0)%Q) by lra. rewrite V1, V2.
    assert (R0 : (px m i (ncol m - 1 - j) == px m i j)%Q) by (apply Row; unfold in_rng; lia). rewrite R0.
    destruct Wu as [Wu|Wu]; [|rewrite Wu; ring]. assert (R1 : (px m (i + 1) (ncol m - 1 - j) == px m (i + 1) j)%Q) by (apply Row; unfold in_rng; lia). rewrite R1. ring.
  - assert (Lj : (inject_Z j < x)%Q) by (apply Qnot_le_lt; intros K; apply Nj; apply Qle_antisym; assumption).
    assert (J2 : j < ncol m - 1) by (assert (inject_Z j < inject_Z (ncol m - 1))%Q by lra; rewrite <- Zlt_Qlt in H; exact H).
    assert (Fj : Qfloor (inject_Z (ncol m - 1) - x) = ncol m - 1 - (j + 1)).
    { apply floor_unique; rewrite inject_Z_plus in Ux; change (inject_Z 1) with 1%Q in Ux; unfold Z.sub; rewrite ?inject_Z_plus, ?inject_Z_opp, ?inject_Z_plus; change (inject_Z 1) with 1%Q; lra. }
    rewrite Fj. replace (ncol m - 1 - (j + 1) + 1) with (ncol m - 1 - j) by lia.
    assert (V1 : (inject_Z (ncol m - 1) - x - inject_Z (ncol m - 1 - (j + 1)) == 1 - (x - inject_Z j))%Q) by (unfold Z.sub; rewrite ?inject_Z_plus, ?inject_Z_opp, ?inject_Z_plus; change (inject_Z 1) with 1%Q; lra).
    rewrite V1. assert (R0 : (px m i (ncol m - 1 - j) == px m i j)%Q) by (apply Row; unfold in_rng; lia). assert (R0' : (px m i (ncol m - 1 - (j + 1)) == px m i (j + 1))%Q) by (apply Row; unfold in_rng; lia).
    rewrite R0, R0'. destruct Wu as [Wu|Wu]; [|rewrite Wu; ring].
    assert (R1 : (px m (i + 1) (ncol m - 1 - j) == px m (i + 1) j)%Q) by (apply Row; unfold in_rng; lia). assert (R1' : (px m (i + 1) (ncol m - 1 - (j + 1)) == px m (i + 1) (j + 1))%Q) by (apply Row; unfold in_rng; lia).
    rewrite R1, R1'. ring.
Qed.
Lemma interpolated_ext m y y' x x' : (y == y')%Q -> (x == x')%Q -> (interpolated m y x == interpolated m y' x')%Q.
Proof. intros Y X. unfold interpolated. rewrite (Qfloor_comp _ _ Y), (Qfloor_comp _ _ X), Y, X. reflexivity. Qed.
Lemma zoom_symmetric zoom1 m z nr nc : corner_zoom zoom1 -> mirror_even m -> (inject_Z nr == z * inject_Z (nrow m))%Q -> (inject_Z nc == z * inject_Z (ncol m))%Q ->
  2 <= nr -> 2 <= nc -> 1 <= nrow m -> 1 <= ncol m -> mirror_even (zoom1 m z).
Proof.
  intros Z Sy Er Ec Hr Hc H1 H2. destruct (Z m z nr nc Er Ec Hr Hc) as (Sr & Sc & P). intros i j Hi Hj. rewrite Sc in Hj |- *. rewrite Sr in Hi.
  unfold in_rng in Hi, Hj. rewrite P, (P i j) by (unfold in_rng; lia).
  assert (Nz : ~ (inject_Z (nc - 1) == 0)%Q) by (change 0%Q with (inject_Z 0); rewrite <- inject_Z_injective || idtac; intros K; unfold Qeq in K; cbn in K; lia).
  assert (Nc : (0 < inject_Z (nc - 1))%Q) by (change 0%Q with (inject_Z 0); rewrite <- Zlt_Qlt; lia). assert (Nr : (0 < inject_Z (nr - 1))%Q) by (change 0%Q with (inject_Z 0); rewrite <- Zlt_Qlt; lia).
  rewrite (interpolated_ext m _ (inject_Z (i * (nrow m - 1)) / inject_Z (nr - 1)) (inject_Z ((nc - 1 - j) * (ncol m - 1)) / inject_Z (nc - 1)) (inject_Z (ncol m - 1) - inject_Z (j * (ncol m - 1)) / inject_Z (nc - 1))); [|reflexivity|].
  - apply interpolated_symmetric; [exact Sy| | | |].
    + apply Qle_shift_div_l; [exact Nr|]. rewrite Qmult_0_l. change 0%Q with (inject_Z 0). rewrite <- Zle_Qle. nia.
    + apply Qle_shift_div_r; [exact Nr|]. rewrite <- inject_Z_mult, <- Zle_Qle. nia.
    + apply Qle_shift_div_l; [exact Nc|]. rewrite Qmult_0_l. change 0%Q with (inject_Z 0). rewrite <- Zle_Qle. nia.
    + apply Qle_shift_div_r; [exact Nc|]. rewrite <- inject_Z_mult, <- Zle_Qle. nia.
  - rewrite !inject_Z_mult. replace (nc - 1 - j) with (nc - 1 + - j) by lia. rewrite inject_Z_plus, inject_Z_opp. field. exact Nz.
Qed.

(** ** two centres with the same name *)
Section overwrite.
Context {C : Type} (enc : str -> img Q -> C) (scale8 : img Q -> img Q) (cplx : img Q -> bool) (pil_ok : str -> bool).
Hypothesis Hpil : pil_ok (s_ ".tif") = true.
Hypothesis Hcplx : forall m, cplx m = false.
Lemma overwritten (f : fs C) output (name : Q -> str) (image : Q -> res (img Q)) c1 c2 m1 m2 :
  ready f output -> name c1 = name c2 -> image c1 = Ok m1 -> image c2 = Ok m2 -> (forall c, suffix (name c) = s_ ".tif") ->
  exists f' s, visual_search enc scale8 cplx pil_ok f output name image (Ok [c1; c2]) = (f', Ok (s :: output)) /\
    new_folder f f' (s :: output) [(name c2, enc (s_ ".tif") m2)].
Proof using Hpil Hcplx.
  intros (Tr & U & Cl) N I1 I2 Sf. unfold visual_search.
  destruct (make_folder_name_spec f output (s_ "Find_center") 3) as (s & k & E & D & Sn & _). rewrite E.
  assert (Nl : lookup f (s :: output) = None). { cbn [is_dir] in D. destruct (lookup f (s :: output)) as [ [x|]|] eqn:Lk; [exfalso; eapply Cl; [|eassumption]; rewrite Sn; reflexivity|discriminate|reflexivity]. }
  assert (Nb : forall nm, lookup f (nm :: s :: output) = None).
  { intros nm. destruct (lookup f (nm :: s :: output)) as [nd|] eqn:Lk; [|reflexivity]. apply Tr in Lk. congruence. }
  assert (Uf : usable_folder f (s :: output)) by (split; [intros c; rewrite Nl; discriminate|exact U]).
  destruct (save_true_step enc scale8 cplx pil_ok f (name c2 :: s :: output) m1) as (f1 & E1 & L1 & F1); [cbn [pname hd]; rewrite Sf; discriminate|cbn [pname hd]; rewrite Sf; exact Hpil|apply Hcplx|exact Uf|rewrite Nb; discriminate|].
  assert (U1 : usable_folder f1 (s :: output)).
  { apply (fun H => usable_mono enc pil_ok f f1 (s :: output) H Uf). intros q Hq. assert (Hn : q <> name c2 :: s :: output) by (intros ->; cbn in Hq; lia). destruct (F1 q Hn) as (A & _ & B). split; assumption. }
  destruct (save_centers_ok enc scale8 cplx pil_ok Hpil Hcplx (s :: output) name image (fun _ => m2) [c2] f1) as (f' & E2 & L2 & P2 & G2 & D2).
  { cbn [map]. constructor; [intros []|constructor]. }
  { exact U1. }
  { intros c [<-|[] ]. exact I2. }
  { exact Sf. }
  { intros c [<-|[] ]. rewrite L1. discriminate. }
  exists f', s. change [c1; c2] with (c1 :: [c2]). cbn [save_centers] in E2 |- *. rewrite I1, N, E1, E2. split; [reflexivity|].
  assert (Other : forall nm, nm <> name c2 -> lookup f' (nm :: s :: output) = None).
  { intros nm Hn. assert (Q1 : nm :: s :: output <> name c2 :: s :: output) by (intros Y; apply Hn; congruence). rewrite G2; [|intros [Y|[] ]; apply Q1; symmetry; exact Y|cbn; lia].
    destruct (F1 _ Q1) as (_ & B & _). rewrite B by (cbn; lia). apply Nb. }
  split; [exact Nl|]. split; [intros _; apply D2; discriminate|]. split; [constructor; [intros []|constructor]|]. split; [|split].
  - intros nm c. split.
    + intros Lk. destruct (str_eq_dec nm (name c2)) as [->|Hn]; [|rewrite Other in Lk by exact Hn; discriminate]. rewrite L2 in Lk by (left; reflexivity). injection Lk as <-. left; reflexivity.
    + intros [Y|[] ]. injection Y as <- <-. apply L2. left; reflexivity.
  - intros nm. destruct (str_eq_dec nm (name c2)) as [->|Hn]; [rewrite L2 by (left; reflexivity)|rewrite Other by exact Hn]; discriminate.
  - intros q nd Lk. assert (Q1 : q <> name c2 :: s :: output) by (intros ->; rewrite Nb in Lk; discriminate). apply P2; [intros [Y|[] ]; apply Q1; symmetry; exact Y|]. apply (F1 q Q1). exact Lk.
Qed.
End overwrite.
Lemma Forall2_weak {A B} (P Q' : A -> B -> Prop) l l' : (forall a b, P a b -> Q' a b) -> Forall2 P l l' -> Forall2 Q' l l'.
Proof. intros I F. induction F; constructor; [apply I|]; assumption. Qed.
