(** Proofs about maps of local shifts in one dimension: CPU result and its meaning. *)
From Coq Require Import Reals Lra ZArith Lia Permutation FunctionalExtensionality.
From Verif Require Import Np P_Np M_phase_R P_phase_R M_corr S_corr P_corr P_corr2 P_corr3 P_corr4 M_local S_local P_peakext P_local P_local2 P_local3 P_local4 P_local5 P_local6.
From Coq Require Import List. Import ListNotations.
Open Scope Z_scope.

Definition plane_rescaled (s t : R) (A : img R) : img R := mkimg (nrow A) (ncol A) (fun i j => s * px A i j + t)%R.
Lemma line_of_rescaled s t A j r : line_of (plane_rescaled s t A) j r = rescaled s t (line_of A j r).
Proof. reflexivity. Qed.
Lemma norm_plane_rescaled A : 0 <= nrow A -> 0 <= ncol A -> varies (window (One (equalised A)) 0 0 (nrow A) (ncol A)) ->
  exists s t, (0 < s)%R /\ norm_plane true A = plane_rescaled s t (equalised A).
Proof.
  intros N C V. destruct (normalize_one A N C V) as (s & t & S & E). exists s, t. split; [exact S|]. unfold norm_plane, normalize_if. rewrite E. reflexivity.
Qed.
Lemma equalised_x v i j r : line_of (equalised (plane DirX v i)) j r = strip true (equalised_lines true v) i j r.
Proof. reflexivity. Qed.
Lemma equalised_y v i j r : line_of (equalised (plane DirY v j)) i r = strip false (equalised_lines false v) i j r.
Proof. reflexivity. Qed.
Lemma glob_rescaled ng v e : 0 <= dep v -> 0 <= e -> 2 * e + 1 <= hei v -> 0 <= wid v -> (ng = true -> textured (Stack v) e) ->
  exists s t, (0 < s)%R /\ forall dir i, plane dir (glob ng v) i = plane_rescaled s t (plane dir v i).
Proof.
  intros D E H W T. assert (G : exists s t, (0 < s)%R /\ normalize_if ng (Stack v) = rescaled s t (Stack v)).
  { destruct ng; cbn [normalize_if].
    - apply normalize_stack; try lia. apply (window_sub _ _ _ _ _ (e - e) 0 (2 * e + 1) (wid v)); try lia. apply T; [reflexivity|cbn; lia].
    - exists 1%R, 0%R. split; [lra|]. symmetry. apply rescaled_id. }
  destruct G as (s & t & S & G). exists s, t. split; [exact S|]. intros dir i. unfold glob. rewrite G. destruct dir; reflexivity.
Qed.

Section cpu.
Context (polyfit2 : vec R -> R * R) (surface : img R -> R * R * R * R * R).
Notation find_shift := (find_shift_based_correlation_map polyfit2 surface).
Context (meth : method) (RE : meth = PolyFit -> reads_elements polyfit2 surface).
Context (size win margin : Z) (R0 : 0 <= win / 2) (M : 1 <= margin).
Notation shift_of A B j := (line_shift polyfit2 surface meth size win margin A B j).
Notation value_at A B j := (line_value polyfit2 surface meth size win margin A B j).
Let r := win / 2.
Let e := r + margin.
Lemma line_rescaled A B j s t s' t' : nrow A = nrow B -> 1 <= nrow B -> (0 < s)%R -> (0 < s')%R ->
  shift_of (plane_rescaled s t A) (plane_rescaled s' t' B) j = shift_of A B j.
Proof using RE R0 M.
  intros N N1 S S'. unfold line_shift. rewrite !line_of_rescaled. pose proof (line_fits A B j (win / 2) margin N N1 R0 M) as F.
  apply shift_same; try assumption; try (apply default_launch); try reflexivity.
  - unfold line_of. cbn [height width rescaled nrow ncol]. lia.
  - intros a b Ha Hb. apply correlation_rescaled; assumption.
Qed.
Lemma value_shift A B j : nrow A = nrow B -> 1 <= nrow B -> shift_of A B j = Ok (value_at A B j, 0%R).
Proof using R0 M. intros N N1. destruct (line_total polyfit2 surface meth size win margin R0 M A B j N N1) as (x & E). unfold line_value. rewrite E. reflexivity. Qed.

Lemma maps_of_values (v : vol R) dir_lv_x dir_lv_y fx fy xs ys :
  nrow xs = hei v /\ ncol xs = wid v -> nrow ys = hei v /\ ncol ys = wid v ->
  (forall i j, 0 <= i < hei v -> 0 <= j < wid v -> px xs i j = if (e <=? j) && (j <? wid v - e) then dir_lv_x i j else 0%R) ->
  (forall i j, 0 <= i < hei v -> 0 <= j < wid v -> px ys i j = if (e <=? i) && (i <? hei v - e) then dir_lv_y i j else 0%R) ->
  (forall i j, e <= j < wid v - e -> 0 <= i < hei v -> fx i j = Ok (dir_lv_x i j, 0%R)) -> (forall i j, e <= i < hei v - e -> 0 <= j < wid v -> fy i j = Ok (dir_lv_y i j, 0%R)) ->
  line_shift_maps v e fx fy xs ys.
Proof using.
  clear. intros (X1 & X2) (Y1 & Y2) Vx Vy Fx Fy. split; [auto|]. intros i j Hi Hj. rewrite Vx, Vy by assumption. repeat split.
  - intros B. rewrite Fx by assumption. destruct (Z.leb_spec e j); [|lia]. destruct (Z.ltb_spec j (wid v - e)); [|lia]. reflexivity.
  - intros B. destruct (Z.leb_spec e j); [|reflexivity]. destruct (Z.ltb_spec j (wid v - e)); [lia|reflexivity].
  - intros B. rewrite Fy by assumption. destruct (Z.leb_spec e i); [|lia]. destruct (Z.ltb_spec i (hei v - e)); [|lia]. reflexivity.
  - intros B. destruct (Z.leb_spec e i); [|reflexivity]. destruct (Z.ltb_spec i (hei v - e)); [lia|reflexivity].
Qed.

(** the two maps of a function for chunks whose values are those of the CPU *)
Definition one_d (multi : direction -> bool -> vol R -> vol R -> res (img R)) chunk ng v w : res (img R * img R) :=
  do x <- full_image_1d (multi DirX) DirX chunk win margin ng v w;
  do y <- full_image_1d (multi DirY) DirY chunk win margin ng v w; Ok (x, y).
Definition strip_shift (along_x : bool) (v w : vol R) (i j : Z) : res (R * R) :=
  find_shift (strip along_x v i j e) (strip along_x w i j r) margin Axis1 true meth true size false (1, 1) (fun l => l).

Lemma one_d_plain multi chunk ng v w :
  chunk_result e false (line_value polyfit2 surface meth size win margin) multi ->
  dep v = dep w -> hei v = hei w -> wid v = wid w -> 1 <= dep w -> 2 * e + 1 <= hei v -> 2 * e + 1 <= wid v ->
  (ng = true -> textured (Stack v) e /\ textured (Stack w) e) ->
  (pieces (hei v) chunk <= hei v - 2 * e -> exists xs ys, one_d multi chunk ng v w = Ok (xs, ys) /\
     line_shift_maps v e (strip_shift true v w) (strip_shift false v w) xs ys) /\
  (hei v - 2 * e < pieces (hei v) chunk -> one_d multi chunk ng v w = Err IndexError).
Proof using RE R0 M.
  intros MS D Hh Hw D1 H1 W1 T. assert (E0 : 1 <= e) by (unfold e, r; lia). assert (Ee : e = margin + win / 2) by (unfold e, r; lia).
  destruct (full_x e win margin Ee E0 false _ multi MS chunk ng v w D Hh Hw D1 ltac:(lia) ltac:(lia)) as (xs & Ex & X1 & X2 & Vx).
  destruct (full_y e win margin Ee E0 false _ multi MS chunk ng v w D Hh Hw D1 ltac:(lia) ltac:(lia)) as (Y & Z).
  { left. split; [reflexivity|]. intros A A' B B' j j' LA LB. unfold line_value, line_shift. rewrite !LA, !LB. reflexivity. }
  destruct (glob_rescaled ng v e) as (s & t & S & G); try lia; [intros; apply T; assumption|].
  destruct (glob_rescaled ng w e) as (s' & t' & S' & G'); try lia; [intros; apply T; assumption|].
  unfold one_d. rewrite Ex. cbn [bindr]. split.
  - intros P. destruct (Y P) as (ys & Ey & Y1 & Y2 & Vy). rewrite Ey. cbn [bindr]. exists xs, ys. split; [reflexivity|].
    eapply maps_of_values; [split; assumption|split; assumption|exact Vx|exact Vy| |]; intros i j Hj Hi; cbn [norm_plane normalize_if]; unfold strip_shift.
    + rewrite !strip_x. rewrite <- (value_shift (plane DirX (glob ng v) i) (plane DirX (glob ng w) i) j); rewrite ?G, ?G'; cbn [plane plane_rescaled nrow dep]; try lia.
      rewrite line_rescaled by (cbn [plane nrow dep]; assumption || lia). reflexivity.
    + rewrite !strip_y. rewrite <- (value_shift (plane DirY (glob ng v) j) (plane DirY (glob ng w) j) i); rewrite ?G, ?G'; cbn [plane plane_rescaled nrow dep]; try lia.
      rewrite line_rescaled by (cbn [plane nrow dep]; assumption || lia). reflexivity.
  - intros P. rewrite (Z P). reflexivity.
Qed.

(** with norm=True: x shifts of any chunks, y shifts of a single chunk *)
Definition lines_vary (v : vol R) : Prop :=
  (forall i, 0 <= i < hei v -> varies (window (One (equalised (plane DirX v i))) 0 0 (dep v) (wid v))) /\
  (forall j, 0 <= j < wid v -> varies (window (One (equalised (plane DirY v j))) 0 0 (dep v) (hei v))).
Lemma one_d_norm multi v w :
  chunk_result e true (line_value polyfit2 surface meth size win margin) multi ->
  dep v = dep w -> hei v = hei w -> wid v = wid w -> 1 <= dep w -> 2 * e + 1 <= hei v -> 2 * e + 1 <= wid v ->
  lines_vary v -> lines_vary w ->
  exists xs ys, one_d multi None false v w = Ok (xs, ys) /\
     line_shift_maps v e (strip_shift true (equalised_lines true v) (equalised_lines true w))
                         (strip_shift false (equalised_lines false v) (equalised_lines false w)) xs ys.
Proof using RE R0 M.
  intros MS D Hh Hw D1 H1 W1 (Lx & Ly) (Lx' & Ly'). assert (E0 : 1 <= e) by (unfold e, r; lia). assert (Ee : e = margin + win / 2) by (unfold e, r; lia).
  destruct (full_x e win margin Ee E0 true _ multi MS None false v w D Hh Hw D1 ltac:(lia) ltac:(lia)) as (xs & Ex & X1 & X2 & Vx).
  destruct (full_y e win margin Ee E0 true _ multi MS None false v w D Hh Hw D1 ltac:(lia) ltac:(lia)) as (Y & _).
  { right. reflexivity. }
  unfold one_d. rewrite Ex. cbn [bindr]. destruct Y as (ys & Ey & Y1 & Y2 & Vy); [cbn [pieces]; lia|]. rewrite Ey. cbn [bindr]. exists xs, ys. split; [reflexivity|].
  eapply maps_of_values; [split; assumption|split; assumption|exact Vx|exact Vy| |]; intros i j Hj Hi; unfold glob; cbn [normalize_if]; unfold strip_shift.
  - rewrite <- !equalised_x.
    destruct (norm_plane_rescaled (plane DirX v i)) as (s & t & S & G); [cbn; lia..|apply Lx; lia|].
    destruct (norm_plane_rescaled (plane DirX w i)) as (s' & t' & S' & G'); [cbn; lia..|apply Lx'; lia|].
    rewrite <- value_shift; rewrite ?G, ?G'; cbn [plane_rescaled equalised plane nrow]; try lia.
    rewrite line_rescaled by (cbn [equalised plane nrow]; assumption || lia). reflexivity.
  - rewrite <- !equalised_y.
    destruct (norm_plane_rescaled (plane DirY v j)) as (s & t & S & G); [cbn; lia..|apply Ly; lia|].
    destruct (norm_plane_rescaled (plane DirY w j)) as (s' & t' & S' & G'); [cbn; lia..|apply Ly'; lia|].
    rewrite <- value_shift; rewrite ?G, ?G'; cbn [plane_rescaled equalised plane nrow]; try lia.
    rewrite line_rescaled by (cbn [equalised plane nrow]; assumption || lia). reflexivity.
Qed.

(** meaning *)
Lemma strip_correlation along_x v w i j a : dep v = dep w ->
  correlation_at (strip along_x v i j e) (strip along_x w i j r) 0 a = line_similarity along_x v w i j r (a - margin).
Proof using.
  clear. intros D. unfold correlation_at, line_similarity. f_equal. f_equal.
  - unfold window, line_pixels, strip. cbn [depth height width value nrow ncol px]. change (zrange 0 1) with [0]. cbn [flat_map]. rewrite app_nil_r.
    apply flat_map_ext_in. intros k _. apply map_ext. intros b. destruct along_x; reflexivity.
  - unfold window, strip. cbn [depth height width value nrow ncol px]. change (zrange 0 1) with [0]. cbn [flat_map]. rewrite app_nil_r. unfold line_pixels. rewrite <- D.
    unfold e. destruct along_x; apply flat_map_ext_in; intros k _; apply map_ext; intros b; f_equal; lia.
Qed.
Lemma strip_best along_x v w i j x y : dep v = dep w -> 1 <= dep w -> strip_shift along_x v w i j = Ok (x, y) ->
  (Rabs x <= IZR margin)%R /\
  exists d, - margin <= d <= margin /\
    (forall d', - margin <= d' <= margin -> (line_similarity along_x v w i j r d' <= line_similarity along_x v w i j r d)%R) /\
    (meth <> PolyFit -> Rabs (x - IZR d) < 1)%R.
Proof using R0 M.
  intros D D1 E. assert (F : fits (strip along_x v i j e) (strip along_x w i j r)).
  { unfold fits, strip. cbn [same_kind depth height width nrow ncol]. split; [exact I|]. unfold e, r in *. lia. }
  destruct (shift_template polyfit2 surface _ _ margin Axis1 true meth true size false (1, 1) (fun l => l) F) as (m & xs & ys & xp & yp & _ & E' & _ & Ex & Ey & a & b & Ha & Hb & Mx & _ & Near & Bx & By);
    [unfold strip; cbn [height width nrow ncol]; unfold e; lia|apply default_launch|unfold strip; cbn [height width nrow ncol]; unfold e; lia|].
  unfold strip_shift in E. rewrite E in E'. injection E' as -> ->.
  change (height (strip along_x v i j e)) with (dep v) in *. change (height (strip along_x w i j r)) with (dep w) in *.
  change (width (strip along_x v i j e)) with (2 * e + 1) in *. change (width (strip along_x w i j r)) with (2 * r + 1) in *.
  replace ((2 * e + 1 - (2 * r + 1) + 1) / 2) with margin in Ex by (unfold e; apply Z.div_unique_pos with 1; lia). subst xs.
  replace (2 * e + 1 - (2 * r + 1)) with (2 * margin) in * by (unfold e; lia). rewrite mult_IZR in Bx.
  assert (a = 0) as -> by (clear -Ha D; lia).
  split; [apply Rabs_le; lra|]. exists (b - margin). split; [lia|]. split.
  - intros d' Hd. specialize (Mx 0 (d' + margin) ltac:(lia) ltac:(lia)). rewrite !strip_correlation in Mx by exact D.
    replace (d' + margin - margin) with d' in Mx by lia. exact Mx.
  - intros Nm. destruct (Near Nm) as (N1 & _). rewrite minus_IZR. replace (xp - IZR margin - (IZR b - IZR margin))%R with (xp - IZR b)%R by lra. exact N1.
Qed.
End cpu.
