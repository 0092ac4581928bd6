(** C121, C122: visual searches for the centre of rotation. *)
From Verif Require Import Np P_Np M_fs P_fs S_io M_io_save P_io_save M_conversion M_calculation M_recon M_metric S_metric P_metric M_visual S_visual P_visual P_visual2.
From Coq Require Import Ascii String.
From Coq Require Import QArith Qround Qabs ZArith Lia Lqa Bool.
From Coq Require Import List. Import ListNotations.
Open Scope Z_scope.

(** C121: one file per centre, in a new folder, named after the centre; nothing else in the file system changes.  The centres are
    start, start + step, ... below both stop + step and the last column *)
Theorem find_center_visual_sinograms_one_file_per_center :
  forall {C} (enc : str -> img Q -> C) scale8 cplx pil_ok shiftx zoomf (f : fs C) (sino : img Q) (output : path) (start stop step zoom : Q),
  pil_ok (s_ ".tif") = true -> (forall m, cplx m = false) -> ready f output -> 1 <= nrow sino -> 2 <= ncol sino ->
  (forall m s, nrow (shiftx m s) = nrow m) ->
  (0 <= start)%Q -> (start <= stop)%Q -> (start <= inject_Z (ncol sino - 1))%Q -> (1#20 <= step)%Q -> (step <= inject_Z (ncol sino - 1))%Q ->
  exists f' s files centers,
    find_center_visual_sinograms enc scale8 cplx pil_ok shiftx zoomf f sino output start stop step zoom = (f', Ok (s :: output)) /\
    prefixb (s_ "Find_center_") s = true /\ new_folder f f' (s :: output) files /\
    covers start (Qminb (stop + step) (inject_Z (ncol sino - 1))) step centers /\
    Forall2 (fun c file => center_name c (fst file) /\
               exists c' pair, (c' == c)%Q /\ above_mirror shiftx sino c' pair /\ ((zoom == 1)%Q -> snd file = enc (s_ ".tif") pair) /\ (~ (zoom == 1)%Q -> snd file = enc (s_ ".tif") (zoomf pair zoom))) centers files.
Proof.
  intros C enc scale8 cplx pil_ok shiftx zoomf f sino output start stop step zoom Hp Hc R Hr Hn Sh S0 SS S1 T0 T1. unfold find_center_visual_sinograms.
  set (a := center_start (ncol sino) start). set (b := center_stop (ncol sino) start stop step). set (s := center_step (ncol sino) step).
  assert (Ea : (a == start)%Q) by (apply clip_in; assumption). assert (Es : (s == step)%Q) by (apply clip_in; assumption).
  assert (Eb : (b == Qminb (stop + step) (inject_Z (ncol sino - 1)))%Q).
  { unfold b, center_stop. fold a s. rewrite clip_above by (rewrite Ea, Es; lra). unfold Qminb. destruct (Qle_bool (stop + s) _) eqn:X; destruct (Qle_bool (stop + step) _) eqn:Y; try (rewrite Es; reflexivity); try reflexivity.
    - apply Qle_bool_iff in X. rewrite Es in X. apply Qle_bool_iff in X. congruence.
    - apply Qle_bool_iff in Y. rewrite <- Es in Y. apply Qle_bool_iff in Y. congruence. }
  assert (Sp : (1#100 < s)%Q) by lra. assert (A0 : (0 <= a)%Q) by lra.
  destruct (arange_candidates a b s ltac:(lra)) as (l & El & LC). rewrite El. pose proof (covers_of _ _ _ _ _ _ _ Ea Eb Es LC) as Cov. destruct LC as (n & Hl & _).
  destruct (visual_files enc scale8 cplx pil_ok Hp Hc f output name_wide (fun c => Ok (stacked_sinogram shiftx zoomf sino zoom c)) (stacked_sinogram shiftx zoomf sino zoom) l R) as (f' & nm & E & P & N).
  { rewrite Hl. apply candidates_NoDup; [exact name_wide_value|exact A0|exact Sp]. }
  { reflexivity. }
  { exact wide_suffix. }
  exists f', nm, (map (fun c => (name_wide c, enc (s_ ".tif") (stacked_sinogram shiftx zoomf sino zoom c))) l), l. split; [exact E|]. split; [exact P|]. split; [exact N|]. split; [exact Cov|].
  assert (F := files_listed enc name_wide (stacked_sinogram shiftx zoomf sino zoom) (fun z => z) l l). cbv beta in F.
  eapply Forall2_weak; [|apply F].
  - cbv beta. intros c file (Nm & z & Ez & _ & Cz). split; [exact Nm|]. exists z, (stacked_sinogram shiftx zoomf sino 1 z). split; [exact Ez|].
    split; [destruct (stacked_above shiftx zoomf sino z) as [A|[A|A] ]; [exact A|lia|exfalso; apply A; rewrite Sh; reflexivity]|]. rewrite Cz. split; intros Z; [rewrite (stacked_one shiftx zoomf sino zoom z Z)|rewrite (stacked_zoom shiftx zoomf sino zoom z Z)]; reflexivity.
  - apply Forall2_self. reflexivity.
  - intros z Hz. apply wide_named. rewrite Hl in Hz. eapply candidates_nonneg; [exact A0| |exact Hz]. lra.
Qed.
Print Assumptions find_center_visual_sinograms_one_file_per_center.

(** every requested centre start + k step up to stop is tested -- missing: a stop at (or beyond) the last column; and only such centres
    are: missing: the last one can lie beyond stop, by less than a step *)
Theorem find_center_visual_sinograms_tests_all_centers_partial :
  forall start stop step (ncol : Z) centers, (0 < step)%Q -> (stop < inject_Z (ncol - 1))%Q -> covers start (Qminb (stop + step) (inject_Z (ncol - 1))) step centers ->
  (forall k, 0 <= k -> (start + inject_Z k * step <= stop)%Q -> exists c, In c centers /\ (c == start + inject_Z k * step)%Q) /\
  (forall c, In c centers -> exists k, 0 <= k /\ (c == start + inject_Z k * step)%Q /\ (c < stop + step)%Q /\ (c < inject_Z (ncol - 1))%Q).
Proof.
  intros start stop step ncol centers S0 St (n & F & H). split.
  - intros k K L. assert (Hk : 0 <= k < n). { apply H. split; [exact K|]. unfold Qminb. destruct (Qle_bool (stop + step) (inject_Z (ncol - 1))); lra. }
    assert (G : forall t cs, Forall2 Qeq cs (map (fun k => (start + inject_Z k * step)%Q) t) -> In k t -> exists c, In c cs /\ (c == start + inject_Z k * step)%Q).
    { induction t as [|x t IH]; intros cs F' I; [destruct I|]. cbn [map] in F'. inversion F'; subst. destruct I as [->|I]; [eexists; split; [left; reflexivity|assumption]|]. destruct (IH _ H4 I) as (c & I' & E). exists c. split; [right; exact I'|exact E]. }
    apply (G _ _ F). apply zrange_In. lia.
  - intros c I. assert (G : forall t cs, Forall2 Qeq cs (map (fun k => (start + inject_Z k * step)%Q) t) -> In c cs -> exists k, In k t /\ (c == start + inject_Z k * step)%Q).
    { induction t as [|x t IH]; intros cs F' I'; inversion F'; subst; [destruct I'|]. destruct I' as [->|I']; [exists x; split; [left; reflexivity|assumption]|]. destruct (IH _ H4 I') as (k & K & E). exists k. split; [right; exact K|exact E]. }
    destruct (G _ _ F I) as (k & K & E). apply zrange_In in K. exists k. split; [lia|]. split; [exact E|]. destruct (proj1 (H k)) as (_ & L); [lia|]. rewrite <- E in L.
    unfold Qminb in L. destruct (Qle_bool (stop + step) (inject_Z (ncol - 1))) eqn:B; [apply Qle_bool_iff in B; lra|]. split; [|exact L]. assert (inject_Z (ncol - 1) < stop + step)%Q; [|lra]. apply Qnot_le_lt. intros X. apply Qle_bool_iff in X. congruence.
Qed.
Print Assumptions find_center_visual_sinograms_tests_all_centers_partial.

(** asked for all columns 0, 1, ..., ncol - 1, the last column is not tested, whatever the width *)
Theorem find_center_visual_sinograms_last_column_refuted :
  forall (ncol : Z) centers, 2 <= ncol -> covers 0 (Qminb (inject_Z (ncol - 1) + 1) (inject_Z (ncol - 1))) 1 centers ->
  Z.of_nat (length centers) = ncol - 1 /\ forall c, In c centers -> ~ (c == inject_Z (ncol - 1))%Q.
Proof.
  intros ncol centers Hn (n & F & H). assert (E : (Qminb (inject_Z (ncol - 1) + 1) (inject_Z (ncol - 1)) == inject_Z (ncol - 1))%Q) by (unfold Qminb; destruct (Qle_bool (inject_Z (ncol - 1) + 1) (inject_Z (ncol - 1))) eqn:B; [apply Qle_bool_iff in B; lra|reflexivity]).
  assert (H' : forall k, 0 <= k < n <-> (0 <= k /\ k < ncol - 1)).
  { intros k. rewrite H, E. assert (X : (0 + inject_Z k * 1 == inject_Z k)%Q) by ring. rewrite X, <- Zlt_Qlt. tauto. }
  assert (N : n = ncol - 1). { destruct (Z_lt_le_dec n (ncol - 1)) as [L|L]; [|destruct (Z_lt_le_dec (ncol - 1) n) as [L'|]; [|lia] ].
    - pose proof (proj2 (H' (Z.max 0 n)) ltac:(lia)). lia.
    - pose proof (proj1 (H' (ncol - 1)) ltac:(lia)). lia. }
  split; [apply Forall2_length in F; rewrite map_length, zrange_length in F; lia|].
  intros c I Ec. assert (G : forall t cs, Forall2 Qeq cs (map (fun k => (0 + inject_Z k * 1)%Q) t) -> In c cs -> exists k, In k t /\ (c == 0 + inject_Z k * 1)%Q).
  { induction t as [|x t IH]; intros cs F' I'; inversion F'; subst; [destruct I'|]. destruct I' as [->|I']; [exists x; split; [left; reflexivity|assumption]|]. destruct (IH _ H4 I') as (k & K & E'). exists k. split; [right; exact K|exact E']. }
  destruct (G _ _ F I) as (k & K & E'). apply zrange_In in K. rewrite Ec in E'. assert (X : (inject_Z (ncol - 1) == inject_Z k)%Q) by (rewrite E'; ring). unfold Qeq in X. cbn in X. lia.
Qed.
Print Assumptions find_center_visual_sinograms_last_column_refuted.

(** the lower half: each pixel is the weighted mean of 3 x 3 pixels of the sinogram, centred at the mirrored pixel (2 c is a whole number) *)
Theorem find_center_visual_sinograms_lower_half_is_smoothed_mirror :
  forall shiftx sino c c2 pair, spline_shift shiftx -> (2 * c == inject_Z c2)%Q -> above_mirror shiftx sino c pair ->
  forall i j, 1 <= i < nrow sino - 1 -> in_rng (ncol sino) j -> 1 <= c2 - j < ncol sino - 1 ->
  let w a b := (bspline a * bspline b * px sino (i + a)%Z (c2 - j + b)%Z)%Q in
  (px pair (nrow sino + i) j == w (-1)%Z (-1)%Z + w (-1)%Z 0%Z + w (-1)%Z 1%Z + w 0%Z (-1)%Z + w 0%Z 0%Z + w 0%Z 1%Z + w 1%Z (-1)%Z + w 1%Z 0%Z + w 1%Z 1%Z)%Q.
Proof.
  intros shiftx sino c c2 pair Sp E (_ & _ & _ & q & Eq & L) i j Hi Hj Hm w. rewrite L by (unfold in_rng in *; lia).
  assert (Es : (q == inject_Z (c2 - (ncol sino - 1)))%Q) by (rewrite Eq, E; unfold Qminus; rewrite <- inject_Z_opp, <- inject_Z_plus; reflexivity).
  destruct (Sp (ifliplr sino) (c2 - (ncol sino - 1)) q Es) as (_ & _ & P). cbn [ifliplr nrow ncol px] in P. rewrite P by (unfold in_rng in *; lia). clear P. cbn [ifliplr px]. subst w. cbv beta.
  repeat match goal with |- context [px sino ?i (ncol sino - 1 - ?x)] => first [replace (ncol sino - 1 - x) with (c2 - j + 1) by lia | replace (ncol sino - 1 - x) with (c2 - j + 0) by lia | replace (ncol sino - 1 - x) with (c2 - j + -1) by lia] end.
  replace (i + 0) with i by lia. replace (i + -1) with (i - 1) by lia. unfold bspline. cbn [Z.eqb]. ring.
Qed.
Print Assumptions find_center_visual_sinograms_lower_half_is_smoothed_mirror.

(** the lower half is the mirrored sinogram -- missing: sinograms that are not linear around the pixel *)
Theorem find_center_visual_sinograms_lower_half_mirrored_partial :
  forall shiftx sino c c2 pair, spline_shift shiftx -> (2 * c == inject_Z c2)%Q -> above_mirror shiftx sino c pair ->
  forall i j gy gx, 1 <= i < nrow sino - 1 -> in_rng (ncol sino) j -> 1 <= c2 - j < ncol sino - 1 ->
  (forall a b, -1 <= a <= 1 -> -1 <= b <= 1 -> (px sino (i + a)%Z (c2 - j + b)%Z == px sino i (c2 - j)%Z + inject_Z a * gy + inject_Z b * gx)%Q) ->
  (px pair (nrow sino + i) j == px sino i (c2 - j)%Z)%Q.
Proof.
  intros shiftx sino c c2 pair Sp E A i j gy gx Hi Hj Hm Lin.
  rewrite (find_center_visual_sinograms_lower_half_is_smoothed_mirror shiftx sino c c2 pair Sp E A i j Hi Hj Hm).
  rewrite !(Lin _ _) by lia. unfold bspline. cbn [Z.eqb]. change (inject_Z (-1)) with (-1)%Q. change (inject_Z 0) with 0%Q. change (inject_Z 1) with 1%Q. ring.
Qed.
Print Assumptions find_center_visual_sinograms_lower_half_mirrored_partial.

(** a single bright pixel: in the mirrored half it has 4/9 of its brightness, and its neighbours are bright as well; even for a
    sinogram that is its own mirror image about the tested centre the two halves differ *)
Definition spike : img Q := mkimg 5 5 (fun i j => if (i =? 2) && (j =? 2) then 1%Q else 0%Q).
Theorem find_center_visual_sinograms_lower_half_mirrored_refuted :
  forall shiftx pair, spline_shift shiftx -> above_mirror shiftx spike 2 pair -> mirror_even spike /\
  (px pair 2 2 == 1)%Q /\ (px pair (5 + 2) 2 == 4#9)%Q /\ (px pair 2 3 == 0)%Q /\ (px pair (5 + 2) 3 == 1#9)%Q.
Proof.
  intros shiftx pair Sp A. split.
  { intros i j Hi Hj. unfold in_rng, spike in Hi, Hj |- *. cbn [nrow ncol px] in *. destruct (Z.eqb_spec (5 - 1 - j) 2), (Z.eqb_spec j 2); try lia; reflexivity. }
  pose proof A as (_ & _ & U & _). change (nrow spike) with 5 in U. change (ncol spike) with 5 in U.
  split; [rewrite U by (unfold in_rng; lia); reflexivity|]. split.
  { pose proof (find_center_visual_sinograms_lower_half_is_smoothed_mirror shiftx spike 2 4 pair Sp ltac:(reflexivity) A 2 2) as X. change (nrow spike) with 5 in X. change (ncol spike) with 5 in X. rewrite X by (unfold in_rng; lia). reflexivity. }
  split; [rewrite U by (unfold in_rng; lia); reflexivity|].
  pose proof (find_center_visual_sinograms_lower_half_is_smoothed_mirror shiftx spike 2 4 pair Sp ltac:(reflexivity) A 2 3) as X. change (nrow spike) with 5 in X. change (ncol spike) with 5 in X. rewrite X by (unfold in_rng; lia). reflexivity.
Qed.
Print Assumptions find_center_visual_sinograms_lower_half_mirrored_refuted.

(** C122: the slices.  The file of centre c holds the slice reconstructed by the chosen method; with a zoom factor, from the zoomed
    sinogram with the centre zoom * c *)
Theorem find_center_visual_slices_one_file_per_center :
  forall {C} (enc : str -> img Q -> C) scale8 cplx pil_ok fbp bpf gridrec dfi astra zoom1 zoom_angles cuda (f : fs C) (sino : img Q) (output : path)
         (start stop step zoom : Q) meth use_gpu angles (slice : Q -> img Q),
  pil_ok (s_ ".tif") = true -> (forall m, cplx m = false) -> ready f output -> 2 <= ncol sino ->
  (0 <= start)%Q -> (start <= stop)%Q -> (start <= inject_Z (ncol sino - 1))%Q -> (1#20 <= step)%Q -> (step <= inject_Z (ncol sino - 1))%Q -> (0 < zoom)%Q ->
  let method := match meth with Fbp => fbp | Bpf => bpf | Gridrec => gridrec | Astra => astra (use_gpu && cuda) | AnyOther => dfi end in
  let unchanged := Qeq_bool zoom 1 in
  (forall c, method (if unchanged then sino else zoom1 sino zoom) c (if unchanged then angles else option_map (fun a => zoom_angles a zoom) angles) = Ok (slice c)) ->
  exists f' s files centers,
    find_center_visual_slices enc scale8 cplx pil_ok fbp bpf gridrec dfi astra zoom1 zoom_angles cuda f sino output start stop step zoom meth use_gpu angles = (f', Ok (s :: output)) /\
    prefixb (s_ "Find_center_") s = true /\ new_folder f f' (s :: output) files /\
    covers start (Qminb (stop + step) (inject_Z (ncol sino - 1))) step centers /\
    Forall2 (fun c file => center_name c (fst file) /\ exists c', (c' == zoom * c)%Q /\ snd file = enc (s_ ".tif") (slice c')) centers files.
Proof.
  intros C enc scale8 cplx pil_ok fbp bpf gridrec dfi astra zoom1 zoom_angles cuda f sino output start stop step zoom meth use_gpu angles slice Hp Hc R Hn S0 SS S1 T0 T1 Z0 method unchanged Rec.
  unfold find_center_visual_slices. destruct (Qeq_bool zoom 0) eqn:B; [apply Qeq_bool_iff in B; lra|clear B].
  set (a := center_start (ncol sino) start). set (b := center_stop (ncol sino) start stop step). set (s := center_step (ncol sino) step).
  assert (Ea : (a == start)%Q) by (apply clip_in; assumption). assert (Es : (s == step)%Q) by (apply clip_in; assumption).
  assert (Eb : (b == Qminb (stop + step) (inject_Z (ncol sino - 1)))%Q).
  { unfold b, center_stop. fold a s. rewrite clip_above by (rewrite Ea, Es; lra). unfold Qminb. destruct (Qle_bool (stop + s) _) eqn:X; destruct (Qle_bool (stop + step) _) eqn:Y; try (rewrite Es; reflexivity); try reflexivity.
    - apply Qle_bool_iff in X. rewrite Es in X. apply Qle_bool_iff in X. congruence.
    - apply Qle_bool_iff in Y. rewrite <- Es in Y. apply Qle_bool_iff in Y. congruence. }
  assert (Sp : (1#100 < s)%Q) by lra. assert (A0 : (0 <= a)%Q) by lra.
  assert (Im : forall c, reconstruct_slice fbp bpf gridrec dfi astra (if negb (Qeq_bool zoom 1) then zoom1 sino zoom else sino) c meth (if negb (Qeq_bool zoom 1) then match angles with Some a => Some (zoom_angles a zoom) | None => None end else angles) (use_gpu && cuda) = Ok (slice c)).
  { intros c. rewrite <- (Rec c). subst method unchanged. unfold reconstruct_slice, option_map. destruct (Qeq_bool zoom 1), meth; reflexivity. }
  set (name := fun c => name_plain (c / zoom)%Q).
  assert (Main : forall l n a' s', l = map (candidate a' s') (zrange 0 n) -> (a' == a * zoom)%Q -> (s' == s * zoom)%Q -> NoDup (map name l) /\ Forall2 (fun c z => (z / zoom == c)%Q) (map (candidate a s) (zrange 0 n)) l).
  { intros l n a' s' -> Ea' Es'. assert (Ez : forall k, (candidate a' s' k / zoom == candidate a s k)%Q) by (intros k; unfold candidate; rewrite Ea', Es'; field; lra). split.
    - rewrite map_map. rewrite (map_ext (fun x => name (candidate a' s' x)) (fun x => name_plain (candidate a s x))); [rewrite <- (map_map (candidate a s) name_plain); apply candidates_NoDup; [exact name_plain_value|exact A0|exact Sp]|].
      intros k. unfold name, name_plain. rewrite (fixed2_ext _ _ (Ez k)). reflexivity.
    - induction (zrange 0 n) as [|k t IH]; cbn [map]; constructor; [apply Ez|exact IH]. }
  assert (Lists : exists l n a' s', (if negb (Qeq_bool zoom 1) then arangeQ (a * zoom) (b * zoom) (s * zoom) else arangeQ a b s) = Ok l /\ l = map (candidate a' s') (zrange 0 n) /\ (a' == a * zoom)%Q /\ (s' == s * zoom)%Q /\
            lists_candidates a b s (map (candidate a s) (zrange 0 n))).
  { destruct (Qeq_bool zoom 1) eqn:Z1; cbn [negb].
    - apply Qeq_bool_iff in Z1. destruct (arange_candidates a b s ltac:(lra)) as (l & El & LC). pose proof LC as (n & Hl & _). exists l, n, a, s. rewrite Z1. split; [exact El|]. split; [exact Hl|]. split; [ring|]. split; [ring|]. rewrite <- Hl. exact LC.
    - destruct (arange_candidates (a * zoom) (b * zoom) (s * zoom) ltac:(nra)) as (l & El & n & Hl & H). exists l, n, (a * zoom)%Q, (s * zoom)%Q. split; [exact El|]. split; [exact Hl|]. split; [reflexivity|]. split; [reflexivity|].
      exists n. split; [reflexivity|]. intros k. rewrite H. unfold searched, candidate. assert (X : (a * zoom + inject_Z k * (s * zoom) == (a + inject_Z k * s) * zoom)%Q) by ring. rewrite X. rewrite Qmult_lt_r by exact Z0. tauto. }
  destruct Lists as (l & n & a' & s' & El & Hl & Ea' & Es' & LC). rewrite El. destruct (Main l n a' s' Hl Ea' Es') as (ND & F2).
  destruct (visual_files enc scale8 cplx pil_ok Hp Hc f output name _ slice l R ND (fun c _ => Im c)) as (f' & nm & E & P & N); [intros c; apply plain_suffix|].
  exists f', nm, (map (fun c => (name c, enc (s_ ".tif") (slice c))) l), (map (candidate a s) (zrange 0 n)). split; [exact E|]. split; [exact P|]. split; [exact N|].
  split; [exact (covers_of _ _ _ _ _ _ _ Ea Eb Es LC)|].
  assert (F := files_listed enc name slice (fun z => z / zoom)%Q l (map (candidate a s) (zrange 0 n))). cbv beta in F. eapply Forall2_weak; [|apply F; [exact F2|] ].
  - cbv beta. intros c file (Nm & z & Ez & _ & Cz). split; [exact Nm|]. exists z. split; [rewrite <- Ez; field; lra|exact Cz].
  - intros z Hz. apply plain_named. rewrite Hl in Hz. apply Qle_shift_div_l; [exact Z0|]. rewrite Qmult_0_l. eapply candidates_nonneg; [| |exact Hz]; nra.
Qed.
Print Assumptions find_center_visual_slices_one_file_per_center.

(** with a zoom factor the centre given to the reconstruction is not the place where the column of that centre is in the zoomed
    sinogram: the middle of the sinogram stays the middle, (new width - 1) / 2, but is reconstructed with zoom * (width - 1) / 2 *)
Theorem find_center_visual_slices_zoomed_center_refuted :
  forall zoom1 (sino : img Q) (zoom : Q) (nr nc : Z), corner_zoom zoom1 -> 1 <= nrow sino -> 1 <= ncol sino -> mirror_even sino ->
  (inject_Z nr == zoom * inject_Z (nrow sino))%Q -> (inject_Z nc == zoom * inject_Z (ncol sino))%Q -> 2 <= nr -> 2 <= nc -> ~ (zoom == 1)%Q ->
  let middle := (inject_Z (ncol sino - 1) / 2)%Q in
  mirror_even (zoom1 sino zoom) /\ (zoom * middle - inject_Z (ncol (zoom1 sino zoom) - 1) / 2 == (1 - zoom) / 2)%Q /\ ~ (zoom * middle == inject_Z (ncol (zoom1 sino zoom) - 1) / 2)%Q.
Proof.
  intros zoom1 sino zoom nr nc Hz H1 H2 Sy Er Ec Hr Hc Nz middle. split; [eapply zoom_symmetric; eassumption|].
  destruct (Hz sino zoom nr nc Er Ec Hr Hc) as (_ & Sc & _). rewrite Sc. assert (E : (zoom * middle - inject_Z (nc - 1) / 2 == (1 - zoom) / 2)%Q).
  { unfold middle, Z.sub. rewrite !inject_Z_plus, !inject_Z_opp, Ec. change (inject_Z 1) with 1%Q. field. }
  split; [exact E|]. intros X. rewrite X in E. apply Nz. set (q := (inject_Z (nc - 1) / 2)%Q) in E. assert (E2 : (1 - zoom == 2 * (q - q))%Q) by (rewrite E; field). clearbody q. lra.
Qed.
Print Assumptions find_center_visual_slices_zoomed_center_refuted.

(** C122: vertical slices.  The centres are start, start + step, ... below stop + step; the file of centre c holds the vertical slice
    reconstructed with centre c -- missing: steps of 0.01 or less *)
Theorem find_center_visual_vertical_slices_one_file_per_center_partial :
  forall {C} (enc : str -> img Q -> C) scale8 cplx pil_ok neglog vrec (f : fs C) (p : vol Q) (output : path) (start stop step : Q) (apply_log : bool) (slice : Q -> img Q),
  pil_ok (s_ ".tif") = true -> (forall m, cplx m = false) -> ready f output -> (0 <= start)%Q -> (1#100 < step)%Q ->
  (forall c, vrec (if apply_log then mkvol (dep p) (hei p) (wid p) (fun n i j => neglog (if Qle_bool (vx p n i j) 0 then 1%Q else vx p n i j)) else p) c = Ok (slice c)) ->
  exists f' s files centers,
    find_center_visual_vertical_slices enc scale8 cplx pil_ok neglog vrec f p output start stop step apply_log false = (f', Ok (s :: output)) /\
    prefixb (s_ "Find_center_") s = true /\ new_folder f f' (s :: output) files /\
    covers start (stop + step) step centers /\
    Forall2 (fun c file => center_name c (fst file) /\ exists c', (c' == c)%Q /\ snd file = enc (s_ ".tif") (slice c')) centers files.
Proof.
  intros C enc scale8 cplx pil_ok neglog vrec f p output start stop step apply_log slice Hp Hc R S0 T0 Rec. unfold find_center_visual_vertical_slices.
  destruct (arange_candidates start (stop + step) step ltac:(lra)) as (l & El & LC). rewrite El. cbn [andb]. pose proof LC as (n & Hl & _).
  destruct (visual_files enc scale8 cplx pil_ok Hp Hc f output name_plain (fun c => do m <- vrec (logged neglog apply_log p) c; Ok m) slice l R) as (f' & nm & E & P & N).
  { rewrite Hl. apply candidates_NoDup; [exact name_plain_value|exact S0|exact T0]. }
  { intros c _. replace (logged neglog apply_log p) with (if apply_log then mkvol (dep p) (hei p) (wid p) (fun n i j => neglog (if Qle_bool (vx p n i j) 0 then 1%Q else vx p n i j)) else p) by (unfold logged, fix_log; destruct apply_log; reflexivity). rewrite (Rec c). reflexivity. }
  { exact plain_suffix. }
  exists f', nm, (map (fun c => (name_plain c, enc (s_ ".tif") (slice c))) l), l. split; [exact E|]. split; [exact P|]. split; [exact N|].
  split; [apply (covers_of start (stop + step) step start (stop + step) step); [reflexivity..|exact LC]|].
  assert (F := files_listed enc name_plain slice (fun z => z) l l). cbv beta in F. eapply Forall2_weak; [|apply F].
  - cbv beta. intros c file (Nm & z & Ez & _ & Cz). split; [exact Nm|]. exists z. split; [exact Ez|exact Cz].
  - apply Forall2_self. reflexivity.
  - intros z Hz. apply plain_named. rewrite Hl in Hz. eapply candidates_nonneg; [exact S0| |exact Hz]. lra.
Qed.
Print Assumptions find_center_visual_vertical_slices_one_file_per_center_partial.

(** a finer step: two centres, one file; the second slice replaces the first *)
Theorem find_center_visual_vertical_slices_fine_step_refuted :
  forall {C} (enc : str -> img Q -> C) scale8 cplx pil_ok neglog vrec (f : fs C) (p : vol Q) (output : path) (slice : Q -> img Q),
  pil_ok (s_ ".tif") = true -> (forall m, cplx m = false) -> ready f output -> (forall c, vrec p c = Ok (slice c)) ->
  (forall c, In c [50; 50 + (1#1000)]%Q -> exists c', In c' (map (candidate 50 (1#1000)) (zrange 0 2)) /\ (c' == c)%Q) /\
  exists f' s c, find_center_visual_vertical_slices enc scale8 cplx pil_ok neglog vrec f p output 50 (50 + (1#1000)) (1#1000) false false = (f', Ok (s :: output)) /\
    (c == 50 + (1#1000))%Q /\ new_folder f f' (s :: output) [(s_ "center_50.00.tif", enc (s_ ".tif") (slice c))].
Proof.
  intros C enc scale8 cplx pil_ok neglog vrec f p output slice Hp Hc R Rec. split.
  { intros c [<-|[<-|[] ] ]; [exists (candidate 50 (1#1000) 0)|exists (candidate 50 (1#1000) 1)]; (split; [apply in_map, zrange_In; lia|reflexivity]). }
  unfold find_center_visual_vertical_slices. change (arangeQ 50 (50 + (1#1000) + (1#1000)) (1#1000)) with (Ok [candidate 50 (1#1000) 0; candidate 50 (1#1000) 1]). cbn [andb].
  destruct (overwritten enc scale8 cplx pil_ok Hp Hc f output name_plain (fun c => do m <- vrec (logged neglog false p) c; Ok m) (candidate 50 (1#1000) 0) (candidate 50 (1#1000) 1) (slice (candidate 50 (1#1000) 0)) (slice (candidate 50 (1#1000) 1)) R) as (f' & s & E & N).
  { reflexivity. } { cbn [logged]. rewrite Rec. reflexivity. } { cbn [logged]. rewrite Rec. reflexivity. } { exact plain_suffix. }
  exists f', s, (candidate 50 (1#1000) 1). split; [exact E|]. split; [reflexivity|exact N].
Qed.
Print Assumptions find_center_visual_vertical_slices_fine_step_refuted.

(** masking with a first centre outside of the image is an error and no folder is made *)
Theorem find_center_visual_vertical_slices_center_outside_error :
  forall {C} (enc : str -> img Q -> C) scale8 cplx pil_ok neglog vrec (f : fs C) (p : vol Q) (output : path) (start stop step : Q) (apply_log : bool),
  (0 < step)%Q -> (start <= stop)%Q ->
  ((start <= -1)%Q \/ (inject_Z (wid p) + 1 <= start)%Q ->
     fst (find_center_visual_vertical_slices enc scale8 cplx pil_ok neglog vrec f p output start stop step apply_log true) = f /\
     is_ok (snd (find_center_visual_vertical_slices enc scale8 cplx pil_ok neglog vrec f p output start stop step apply_log true)) = false).
Proof.
  intros C enc scale8 cplx pil_ok neglog vrec f p output start stop step apply_log T0 SS Out. unfold find_center_visual_vertical_slices.
  destruct (arange_candidates start (stop + step) step T0) as (l & El & LC). rewrite El.
  assert (Bad : (match l with [] => true | _ => mask_radius (wid p) l <? 0 end) = true).
  { destruct LC as (n & Hl & H). assert (N0 : 0 < n). { assert (0 <= 0 < n); [|lia]. apply H. split; [lia|]. unfold candidate. change (inject_Z 0) with 0%Q. lra. }
    destruct l as [|x t] eqn:Dl; [reflexivity|]. apply Z.ltb_lt. unfold mask_radius. destruct (fold_min_spec t x) as [Mn Mi]. set (mn := fold_left Qminb t x) in *.
    assert (Em : (mn == start)%Q).
    { apply Qle_antisym.
      - assert (I : In (candidate start step 0) (x :: t)) by (rewrite Hl; apply in_map, zrange_In; lia). assert (E0 : (candidate start step 0 == start)%Q) by (unfold candidate; change (inject_Z 0) with 0%Q; ring). rewrite <- E0. apply Mn. exact I.
      - rewrite Hl in Mi. apply in_map_iff in Mi as (k & <- & K). apply zrange_In in K. unfold candidate. assert (0 <= inject_Z k)%Q by (change 0%Q with (inject_Z 0); rewrite <- Zle_Qle; lia). nra. }
    assert (V : (Qminb mn (inject_Z (wid p) - mn) <= -1)%Q).
    { unfold Qminb. destruct (Qle_bool mn (inject_Z (wid p) - mn)) eqn:B; [apply Qle_bool_iff in B|assert (inject_Z (wid p) - mn < mn)%Q by (apply Qnot_le_lt; intros X; apply Qle_bool_iff in X; congruence)]; destruct Out; try lra. }
    unfold Qtrunc. set (v := Qminb mn (inject_Z (wid p) - mn)) in *. clearbody v. 
    destruct (Qle_bool 0 v) eqn:B; [apply Qle_bool_iff in B; lra|]. assert (K : (v <= inject_Z (-1))%Q) by exact V. apply Qceiling_resp_le in K. rewrite Qceiling_Z in K. lia. }
  rewrite Bad. cbn [andb]. unfold visual_search. destruct (make_folder_name f output (s_ "Find_center") 3); split; reflexivity.
Qed.
Print Assumptions find_center_visual_vertical_slices_center_outside_error.

(** masking keeps the values of the middle columns, 2 r of them, where r whole pixels fit on both sides of the first centre, and sets
    the other columns to zero -- missing: steps of 0.01 or less; and the other centres are not considered, see C58 *)
Theorem find_center_visual_vertical_slices_masked_partial :
  forall {C} (enc : str -> img Q -> C) scale8 cplx pil_ok neglog vrec (f : fs C) (p : vol Q) (output : path) (start stop step : Q) (apply_log : bool) (slice : Q -> img Q),
  pil_ok (s_ ".tif") = true -> (forall m, cplx m = false) -> ready f output -> (0 <= start)%Q -> (start <= inject_Z (wid p))%Q -> (start <= stop)%Q -> (1#100 < step)%Q ->
  (forall c, vrec (if apply_log then mkvol (dep p) (hei p) (wid p) (fun n i j => neglog (if Qle_bool (vx p n i j) 0 then 1%Q else vx p n i j)) else p) c = Ok (slice c)) ->
  let r := Qfloor (Qminb start (inject_Z (wid p) - start)) in
  exists f' s files centers,
    find_center_visual_vertical_slices enc scale8 cplx pil_ok neglog vrec f p output start stop step apply_log true = (f', Ok (s :: output)) /\
    new_folder f f' (s :: output) files /\ covers start (stop + step) step centers /\
    Forall2 (fun c file => center_name c (fst file) /\ exists c' m, (c' == c)%Q /\ snd file = enc (s_ ".tif") m /\ nrow m = nrow (slice c') /\ ncol m = ncol (slice c') /\
               forall i j, (px m i j == if ((wid p - 2 * r) / 2 <=? j) && (j <? (wid p - 2 * r) / 2 + 2 * r) then px (slice c') i j else 0)%Q) centers files.
Proof.
  intros C enc scale8 cplx pil_ok neglog vrec f p output start stop step apply_log slice Hp Hc R S0 S1 SS T0 Rec r. unfold find_center_visual_vertical_slices.
  destruct (arange_candidates start (stop + step) step ltac:(lra)) as (l & El & LC). rewrite El. pose proof LC as (n & Hl & H).
  assert (Good : exists x t, l = x :: t /\ (fold_left Qminb t x == start)%Q).
  { assert (N0 : 0 < n). { assert (0 <= 0 < n); [|lia]. apply H. split; [lia|]. unfold candidate. change (inject_Z 0) with 0%Q. lra. }
    destruct l as [|x t]; [exfalso; apply (f_equal (@length Q)) in Hl; rewrite map_length, zrange_length in Hl; cbn in Hl; lia|]. exists x, t. split; [reflexivity|]. destruct (fold_min_spec t x) as [Mn Mi]. set (mn := fold_left Qminb t x) in *.
    apply Qle_antisym.
    - assert (I : In (candidate start step 0) (x :: t)) by (rewrite Hl; apply in_map, zrange_In; lia). assert (E0 : (candidate start step 0 == start)%Q) by (unfold candidate; change (inject_Z 0) with 0%Q; ring). rewrite <- E0. apply Mn. exact I.
    - rewrite Hl in Mi. apply in_map_iff in Mi as (k & <- & K). apply zrange_In in K. unfold candidate. assert (0 <= inject_Z k)%Q by (change 0%Q with (inject_Z 0); rewrite <- Zle_Qle; lia). nra. }
  destruct Good as (x & t & Dl & Em).
  assert (Rad : forall mn, (mn == start)%Q -> Qtrunc (Qminb mn (inject_Z (wid p) - mn)) = r).
  { intros mn E. assert (V : (Qminb mn (inject_Z (wid p) - mn) == Qminb start (inject_Z (wid p) - start))%Q).
    { unfold Qminb. assert (Qle_bool mn (inject_Z (wid p) - mn) = Qle_bool start (inject_Z (wid p) - start)) as -> by (apply eq_true_iff_eq; rewrite !Qle_bool_iff, E; tauto). destruct (Qle_bool start (inject_Z (wid p) - start)); rewrite E; reflexivity. }
    unfold Qtrunc. destruct (Qle_bool 0 (Qminb mn (inject_Z (wid p) - mn))) eqn:B; [apply Qfloor_comp, V|]. exfalso.
    assert (K : Qle_bool 0 (Qminb mn (inject_Z (wid p) - mn)) = true); [|congruence]. apply Qle_bool_iff. rewrite V. unfold Qminb. destruct (Qle_bool start (inject_Z (wid p) - start)); lra. }
  assert (R0 : 0 <= r). { unfold r. change 0 with (Qfloor 0). apply Qfloor_resp_le. unfold Qminb. destruct (Qle_bool start (inject_Z (wid p) - start)); lra. }
  assert (Bad : (match l with [] => true | _ => mask_radius (wid p) l <? 0 end) = false).
  { rewrite Dl. apply Z.ltb_ge. unfold mask_radius. rewrite Rad by exact Em. exact R0. }
  rewrite Bad. cbn [andb].
  set (pic := fun c => mkimg (nrow (slice c)) (ncol (slice c)) (fun i j => (px (slice c) i j * search_mask_col (wid p) l j)%Q)).
  destruct (visual_files enc scale8 cplx pil_ok Hp Hc f output name_plain (fun c => do m <- vrec (logged neglog apply_log p) c; Ok (mkimg (nrow m) (ncol m) (fun i j => (px m i j * search_mask_col (wid p) l j)%Q))) pic l R) as (f' & nm & E & P & N).
  { rewrite Hl. apply candidates_NoDup; [exact name_plain_value|exact S0|exact T0]. }
  { intros c _. replace (logged neglog apply_log p) with (if apply_log then mkvol (dep p) (hei p) (wid p) (fun n i j => neglog (if Qle_bool (vx p n i j) 0 then 1%Q else vx p n i j)) else p) by (unfold logged, fix_log; destruct apply_log; reflexivity). rewrite (Rec c). reflexivity. }
  { exact plain_suffix. }
  exists f', nm, (map (fun c => (name_plain c, enc (s_ ".tif") (pic c))) l), l. split; [exact E|]. split; [exact N|].
  split; [apply (covers_of start (stop + step) step start (stop + step) step); [reflexivity..|exact LC]|].
  assert (F := files_listed enc name_plain pic (fun z => z) l l). cbv beta in F. eapply Forall2_weak; [|apply F].
  - cbv beta. intros c file (Nm & z & Ez & _ & Cz). split; [exact Nm|]. exists z, (pic z). split; [exact Ez|]. split; [exact Cz|]. split; [reflexivity|]. split; [reflexivity|].
    intros i j. unfold pic. cbn [px]. unfold search_mask_col. rewrite Dl. rewrite Rad by exact Em. destruct (_ && _); ring.
  - apply Forall2_self. reflexivity.
  - intros z Hz. apply plain_named. rewrite Hl in Hz. eapply candidates_nonneg; [exact S0| |exact Hz]. lra.
Qed.
Print Assumptions find_center_visual_vertical_slices_masked_partial.

(** the caller's projections are unchanged -- missing: values <= 0, which are overwritten with 1 in the caller's array *)
Theorem find_center_visual_vertical_slices_keeps_projections_partial :
  forall p apply_log, (forall n i j, in_rng (dep p) n -> in_rng (hei p) i -> in_rng (wid p) j -> (0 < vx p n i j)%Q) ->
  forall n i j, in_rng (dep p) n -> in_rng (hei p) i -> in_rng (wid p) j -> vx (visual_vertical_caller p apply_log) n i j = vx p n i j.
Proof.
  intros p [|] Pos n i j Hn Hi Hj; [|reflexivity]. cbn [visual_vertical_caller vx]. unfold fix_log. specialize (Pos n i j Hn Hi Hj).
  destruct (Qle_bool (vx p n i j) 0) eqn:B; [apply Qle_bool_iff in B; lra|reflexivity].
Qed.
Print Assumptions find_center_visual_vertical_slices_keeps_projections_partial.
Theorem find_center_visual_vertical_slices_keeps_projections_refuted :
  forall p n i j, (vx p n i j < 0)%Q -> vx (visual_vertical_caller p true) n i j = 1%Q /\ vx (visual_vertical_caller p true) n i j <> vx p n i j.
Proof.
  intros p n i j H. cbn [visual_vertical_caller vx]. unfold fix_log. destruct (Qle_bool (vx p n i j) 0) eqn:B; [|exfalso; assert (Qle_bool (vx p n i j) 0 = true) by (apply Qle_bool_iff; lra); congruence].
  split; [reflexivity|]. intros E. rewrite <- E in H. discriminate H.
Qed.
Print Assumptions find_center_visual_vertical_slices_keeps_projections_refuted.

(** the hypotheses are met *)
Example ex_ready : ready (@nil (path * node nat)) [s_ "out"].
Proof. split; [intros n d nd H; discriminate|]. split; [cbn; split; [intros c H; discriminate|exact I]|]. intros nm c _ H. discriminate. Qed.
Example ex_names : map (fun c => name_wide c) [0; 17#2; 105; 123456#100]%Q =
  [s_ "center_  0.00.tif"; s_ "center_  8.50.tif"; s_ "center_105.00.tif"; s_ "center_1234.56.tif"]. Proof. reflexivity. Qed.
Example ex_names' : map (fun c => name_plain c) [1#8; 50; 50 + (1#1000)]%Q = [s_ "center_0.12.tif"; s_ "center_50.00.tif"; s_ "center_50.00.tif"]. Proof. reflexivity. Qed.
Example ex_covers : exists centers, covers 2 (Qminb (4 + (1#2)) (inject_Z (10 - 1))) (1#2) centers /\ length centers = 5%nat /\ (4 < inject_Z (10 - 1))%Q.
Proof.
  destruct (arange_candidates 2 (Qminb (4 + (1#2)) (inject_Z (10 - 1))) (1#2) ltac:(reflexivity)) as (l & E & H). exists l. split; [apply (covers_of 2 (Qminb (4 + (1#2)) (inject_Z (10 - 1))) (1#2)); [reflexivity..|exact H]|].
  vm_compute in E. injection E as <-. split; reflexivity.
Qed.
(** a shift satisfying [spline_shift] and a zoom satisfying [corner_zoom] *)
Definition ex_shift (m : img Q) (q : Q) : img Q :=
  let s := Qfloor q in mkimg (nrow m) (ncol m) (fun i j =>
    (bspline (-1) * (bspline (-1) * px m (i - 1)%Z (j - s - 1)%Z + bspline 0 * px m (i - 1)%Z (j - s)%Z + bspline 1 * px m (i - 1)%Z (j - s + 1)%Z)
     + bspline 0 * (bspline (-1) * px m i (j - s - 1)%Z + bspline 0 * px m i (j - s)%Z + bspline 1 * px m i (j - s + 1)%Z)
     + bspline 1 * (bspline (-1) * px m (i + 1)%Z (j - s - 1)%Z + bspline 0 * px m (i + 1)%Z (j - s)%Z + bspline 1 * px m (i + 1)%Z (j - s + 1)%Z))%Q).
Example ex_spline : spline_shift ex_shift /\ forall c, above_mirror ex_shift spike c (stacked_sinogram ex_shift (fun m _ => m) spike 1 c).
Proof.
  split.
  - intros m s q E. split; [reflexivity|]. split; [reflexivity|]. intros i j _ _ _. unfold ex_shift. cbn [px]. rewrite (Qfloor_comp _ _ E), Qfloor_Z. reflexivity.
  - intros c. destruct (stacked_above ex_shift (fun m _ => m) spike c) as [A|[A|A] ]; [exact A|cbn in A; lia|exfalso; apply A; reflexivity].
Qed.
Definition ex_zoom (m : img Q) (z : Q) : img Q :=
  let nr := Qfloor (z * inject_Z (nrow m)) in let nc := Qfloor (z * inject_Z (ncol m)) in
  mkimg nr nc (fun i j => interpolated m (inject_Z (i * (nrow m - 1)) / inject_Z (nr - 1)) (inject_Z (j * (ncol m - 1)) / inject_Z (nc - 1))).
Example ex_corner : corner_zoom ex_zoom /\ mirror_even (mkimg 4 4 (fun _ j => inject_Z (j * (3 - j)))) /\ (inject_Z 2 == (1#2) * inject_Z 4)%Q.
Proof.
  split; [|split; [|reflexivity] ].
  - intros m z nr nc Er Ec Hr Hc. assert (Fr : Qfloor (z * inject_Z (nrow m)) = nr) by (rewrite <- (Qfloor_comp _ _ Er); apply Qfloor_Z). assert (Fc : Qfloor (z * inject_Z (ncol m)) = nc) by (rewrite <- (Qfloor_comp _ _ Ec); apply Qfloor_Z).
    unfold ex_zoom. cbn [nrow ncol px]. rewrite Fr, Fc. split; [reflexivity|]. split; [reflexivity|]. intros; reflexivity.
  - intros i j Hi Hj. cbn [px ncol nrow] in *. assert (E : (4 - 1 - j) * (3 - (4 - 1 - j)) = j * (3 - j)) by ring. rewrite E. reflexivity.
Qed.
