From Verif Require Import Np M_utility M_conversion M_recon P_Np P_metric P_utility P_recon M_extrec S_recon S_extrec.
From Coq Require Import QArith Qround Lqa Lia ZArith Bool String.
From Coq Require Import List. Import ListNotations.
Open Scope Z_scope.

(** ** the padding of gridrec *)
Lemma power2_spec x : 1 <= x -> exists n k, power2_up x = Ok n /\ n = 2 ^ k /\ 0 <= k /\ x <= n /\ (n < 2 * x).
Proof.
  intros H. unfold power2_up. replace (x <=? 0) with false by lia. exists (2 ^ Z.log2_up x), (Z.log2_up x).
  pose proof (Z.log2_up_nonneg x). split; [reflexivity|]. split; [reflexivity|]. split; [assumption|].
  destruct (Z.eq_dec x 1) as [->|N]; [cbn; lia|]. destruct (Z.log2_up_spec x ltac:(lia)) as [A B]. split; [exact B|].
  assert (0 < Z.log2_up x) by (apply Z.log2_up_pos; lia).
  replace (Z.log2_up x) with (Z.pred (Z.log2_up x) + 1) by lia. rewrite Z.pow_add_r by lia. lia.
Qed.
(** how many columns are asked for at least *)
Definition wanted (nc : Z) (pad : gpad) : Z := match pad with PadBool _ => nc | PadInt p => nc + 2 * p end.
Lemma pads_spec nc pad : 1 <= nc -> (forall p, pad = PadInt p -> 0 <= p) -> pad <> PadBool false ->
  exists l r k, gridrec_pads nc pad = Ok (l, r) /\ nc + l + r = 2 ^ k /\ 0 <= k /\ wanted nc pad <= nc + l + r < 2 * wanted nc pad /\
    0 <= l /\ l <= r <= l + 1 /\ (forall p, pad = PadInt p -> p <= l).
Proof.
  intros Hn Hp Hf. destruct pad as [ [|]|p]; [ | congruence | ]; cbn [gridrec_pads wanted].
  - destruct (power2_spec nc Hn) as (n & k & -> & En & Hk & A & B). cbn [bindr]. exists ((n - nc) / 2), (n - nc - (n - nc) / 2), k.
    pose proof (Z.div_mod (n - nc) 2 ltac:(lia)). pose proof (Z.mod_pos_bound (n - nc) 2 ltac:(lia)).
    repeat split; try lia; try congruence.
  - specialize (Hp p eq_refl). destruct (power2_spec (nc + 2 * p) ltac:(lia)) as (n & k & -> & En & Hk & A & B). cbn [bindr].
    exists ((n - nc) / 2), (n - nc - (n - nc) / 2), k.
    pose proof (Z.div_mod (n - nc) 2 ltac:(lia)). pose proof (Z.mod_pos_bound (n - nc) 2 ltac:(lia)).
    repeat split; try lia. intros q Hq. assert (q = p) by congruence. lia.
Qed.
Lemma circle_px nc center ratio y x m :
  (px (mul_mask (match ratio with None => None | Some r => Some (make_circle_mask nc (rec_ratio nc center r)) end) m) y x ==
   if inside_circle nc (used_ratio nc center ratio) y x then px m y x else 0)%Q.
Proof.
  destruct ratio as [r|]; [|reflexivity]. unfold mul_mask, inside_circle, used_ratio, rec_ratio, Qminb, make_circle_mask. cbn [px]. cbv zeta.
  destruct (Qle_bool _ (_ * inject_Z (nc / 2) * _)); ring.
Qed.
Lemma mask_shape k (m : img Q) : nrow (mul_mask k m) = nrow m /\ ncol (mul_mask k m) = ncol m.
Proof. destruct k; split; reflexivity. Qed.

Section gridrec.
Context (neglog : Q -> Q) (pi : Q) (R : vol Q -> vec Q -> Q -> string -> Q -> Z -> vol Q).
Context (HR : forall ang c f p n, square_slices (fun v => R v ang c f p n)).
Notation gridrec := (gridrec_reconstruction neglog pi R).

Lemma angles_ok nr angles : (forall v, angles = Some v -> vlen v = nr) -> the_angles pi nr angles = Ok (used_angles pi nr angles).
Proof.
  intros H. unfold the_angles, used_angles. destruct angles as [v|]; [|reflexivity]. rewrite (H v eq_refl), Z.eqb_refl. reflexivity.
Qed.
Lemma gridrec_spec a center angles ratio fname lg pad fpar cpu ncore l r : 2 <= cols a -> 0 <= count a -> (0 <= center)%Q -> (center < inject_Z (cols a))%Q ->
  (forall v, angles = Some v -> vlen v = rows a) -> gridrec_pads (cols a) pad = Ok (l, r) -> 0 <= l -> 0 <= r ->
  exists out, fst (gridrec a center angles ratio fname lg pad fpar cpu ncore) = Ok out /\
    same_kind out a /\ rows out = cols a /\ cols out = cols a /\ count out = count a /\
    forall y j x, in_rng (cols a) y -> in_rng (count a) j -> in_rng (cols a) x ->
    (entry out y j x == if inside_circle (cols a) (used_ratio (cols a) center ratio) y x
       then vx (R (widened lg neglog a l r) (used_angles pi (rows a) angles) (center + inject_Z l)%Q
                 (match fname with None => "shepp"%string | Some f => f end) fpar
                 (match ncore with None => Z.max (cpu - 1) 1 | Some n => Z.max n 1 end)) j (l + y) (l + x) else 0)%Q.
Proof.
  intros Hc Hn C0 C1 Ha Hp Hl Hr.
  assert (Ec : Qltb center 0 || Qle_bool (inject_Z (cols a)) center = false).
  { apply orb_false_iff. split.
    - destruct (Qltb center 0) eqn:E; [|reflexivity]. apply Qltb_lt in E. lra.
    - destruct (Qle_bool (inject_Z (cols a)) center) eqn:E; [|reflexivity]. apply Qle_bool_iff in E. lra. }
  assert (W : pad_edge3 (as_stack (if lg then amap neglog (amap fix_log a) else a)) l r = Ok (widened lg neglog a l r)).
  { unfold pad_edge3. replace ((l <? 0) || (r <? 0)) with false by lia. destruct lg; destruct a; reflexivity. }
  set (f := match fname with None => "shepp"%string | Some f => f end).
  set (n := match ncore with None => Z.max (cpu - 1) 1 | Some n => Z.max n 1 end).
  destruct (HR (used_angles pi (rows a) angles) (center + inject_Z l)%Q f fpar n (widened lg neglog a l r)) as (S1 & S2 & S3).
  set (rec := R (widened lg neglog a l r) (used_angles pi (rows a) angles) (center + inject_Z l)%Q f fpar n) in *.
  change (hei (widened lg neglog a l r)) with (count a) in S1. change (wid (widened lg neglog a l r)) with (cols a + l + r) in S2, S3.
  set (cut := fun j => islice (mkimg (hei rec) (wid rec) (fun y x => vx rec j y x)) l (l + cols a) l (l + cols a)).
  assert (CS : forall j, nrow (cut j) = cols a /\ ncol (cut j) = cols a).
  { intros j. unfold cut. destruct (slice_shape (mkimg (hei rec) (wid rec) (fun y x => vx rec j y x)) l (l + cols a) l (l + cols a)) as [E1 E2]; cbn [nrow ncol]; lia. }
  assert (CP : forall j y x, px (cut j) y x = vx rec j (l + y) (l + x)).
  { intros j y x. unfold cut, islice. cbn [px nrow ncol]. rewrite !py_adj_id by lia. reflexivity. }
  set (mask := match ratio with None => None | Some q => Some (make_circle_mask (cols a) (rec_ratio (cols a) center q)) end).
  set (vout := mkvol (nrow (cut 0)) (dep rec) (ncol (cut 0)) (fun y j x => px (mul_mask mask (cut j)) y x)).
  assert (E : fst (gridrec a center angles ratio fname lg pad fpar cpu ncore) =
    if is3 a then Ok (A3 vout) else Ok (A2 (mkimg (dep vout) (wid vout) (fun y x => vx vout y 0 x)))).
  { unfold gridrec_reconstruction. assert (Es : shape3 a = (rows a, count a, cols a)) by (destruct a; reflexivity). rewrite Es.
    rewrite (angles_ok _ _ Ha). rewrite Ec. cbn [fst]. rewrite Hp. cbn [bindr]. 
    replace (if lg then amap neglog (if lg then amap fix_log a else a) else if lg then amap fix_log a else a)
      with (if lg then amap neglog (amap fix_log a) else a) by (destruct lg; reflexivity).
    rewrite W. cbn [bindr]. destruct (is3 a); [reflexivity|]. replace (cols a =? 1) with false by lia. reflexivity. }
  assert (V : forall y j x, in_rng (cols a) y -> in_rng (count a) j -> in_rng (cols a) x ->
    (vx vout y j x == if inside_circle (cols a) (used_ratio (cols a) center ratio) y x then vx rec j (l + y) (l + x) else 0)%Q).
  { intros y j x _ _ _. unfold vout. cbn [vx]. unfold mask. rewrite circle_px, CP. reflexivity. }
  destruct (CS 0) as [N0 N1].
  destruct a as [m|v]; cbn [is3] in E.
  - eexists. split; [exact E|]. split; [exact I|]. cbn [rows cols count entry nrow ncol px vout dep wid] in *.
    split; [exact N0|]. split; [exact N1|]. split; [reflexivity|]. intros y j x Hy Hj Hx.
    assert (j = 0) by (unfold in_rng in Hj; lia). subst j. apply (V y 0 x); assumption.
  - eexists. split; [exact E|]. split; [exact I|]. cbn [rows cols count entry dep wid hei vout] in *.
    split; [exact N0|]. split; [exact N1|]. split; [exact S1|]. exact V.
Qed.
Lemma gridrec_slices a b center angles ratio fname lg pad fpar cpu cpu' ncore l r j j' out out' :
  (forall ang c f p n, one_by_one (fun v => R v ang c f p n)) ->
  (forall v ang c f p n n', R v ang c f p n = R v ang c f p n') ->
  2 <= cols a -> 0 <= count a -> 0 <= count b -> (0 <= center)%Q -> (center < inject_Z (cols a))%Q ->
  (forall v, angles = Some v -> vlen v = rows a) -> gridrec_pads (cols a) pad = Ok (l, r) -> 0 <= l -> 0 <= r ->
  rows b = rows a -> cols b = cols a -> in_rng (count a) j -> in_rng (count b) j' ->
  (forall i k, in_rng (rows a) i -> in_rng (cols a) k -> entry a i j k = entry b i j' k) ->
  fst (gridrec a center angles ratio fname lg pad fpar cpu ncore) = Ok out ->
  fst (gridrec b center angles ratio fname lg pad fpar cpu' ncore) = Ok out' ->
  forall y x, in_rng (cols a) y -> in_rng (cols a) x -> (entry out y j x == entry out' y j' x)%Q.
Proof.
  intros OB NC Hc Hn Hn' C0 C1 Ha Hp Hl Hr Rb Cb Hj Hj' Hab E E' y x Hy Hx.
  destruct (gridrec_spec a center angles ratio fname lg pad fpar cpu ncore l r) as (o & Eo & _ & _ & _ & _ & V); try assumption.
  destruct (gridrec_spec b center angles ratio fname lg pad fpar cpu' ncore l r) as (o' & Eo' & _ & _ & _ & _ & V'); rewrite ?Rb, ?Cb; try assumption.
  assert (o = out) by congruence. assert (o' = out') by congruence. subst o o'.
  rewrite V, V' by (rewrite ?Cb; assumption). rewrite Cb, Rb. destruct (inside_circle _ _ y x); [|reflexivity].
  rewrite (NC (widened lg neglog b l r) _ _ _ _ _ (match ncore with None => Z.max (cpu - 1) 1 | Some n => Z.max n 1 end)).
  unfold in_rng in *.
  rewrite (OB _ _ _ _ _ (widened lg neglog a l r) (widened lg neglog b l r) j j'); [reflexivity| | | | | | |];
    unfold in_rng, widened; cbn [hei dep wid vx]; rewrite ?Rb, ?Cb; try lia.
  intros i k Hi Hk. unfold beyond_edge. rewrite (Hab i) by lia. reflexivity.
Qed.
End gridrec.

(** ** astra *)
Lemma default_pad nc : 0 <= nc -> 0 <= pad_of nc None.
Proof.
  intros N. cbn [pad_of]. apply Z.min_glb; [|lia]. unfold Qtrunc.
  assert (H : (0 <= (15#100) * inject_Z nc)%Q).
  { apply Qmult_le_0_compat; [discriminate|]. change 0%Q with (inject_Z 0). rewrite <- Zle_Qle. exact N. }
  rewrite (proj2 (Qle_bool_iff _ _) H). change 0 with (Qfloor 0). apply Qfloor_resp_le, H.
Qed.
Lemma select_in hg m m' g : select_method hg m = Ok (m', g) -> In m' (if g then gpu_methods else cpu_methods).
Proof.
  assert (L : forall x l, listed x l = true -> In x l).
  { intros x l H. unfold listed in H. apply existsb_exists in H as (y & Hy & E). apply String.eqb_eq in E. subst. exact Hy. }
  unfold select_method. destruct (contains "CUDA" m).
  - destruct hg.
    + destruct (listed m gpu_methods) eqn:E; [|discriminate]. intros H. apply Ok_inj in H. inversion H; subst. apply L, E.
    + destruct (contains "EM" _); [discriminate|]. destruct (listed _ cpu_methods) eqn:E; [|discriminate]. intros H. apply Ok_inj in H. inversion H; subst. apply L, E.
  - destruct (listed m cpu_methods) eqn:E; [|discriminate]. intros H. apply Ok_inj in H. inversion H; subst. apply L, E.
Qed.
Section astra.
Context (neglog : Q -> Q) (pi : Q) (shift : img Q -> Q -> img Q) (run : string -> option string -> Z -> vec Q -> img Q -> res (img Q)).
Notation astra := (astra_reconstruction neglog pi).
Context (HS : forall m d, nrow (shift m d) = nrow m /\ ncol (shift m d) = ncol m).

Lemma single_spec sino center ang p m f it : 0 <= p -> 0 <= ncol sino ->
  let given := shift (mkimg (nrow sino) (ncol sino + 2 * p) (fun i k => beyond_edge (ncol sino) (px sino i) (k - p)))
                 ((inject_Z (ncol sino + 2 * p) - 1) / 2 - (center + inject_Z p))%Q in
  forall r, run m (handed_filter m f) it ang given = Ok r -> nrow r = ncol given -> ncol r = ncol given ->
  exists out, astra_recon_single shift run sino center ang p m f it = Ok out /\ nrow out = ncol sino /\ ncol out = ncol sino /\
    forall y x, px out y x = px r (p + y) (p + x).
Proof.
  intros Hp Hc given r E R1 R2.
  assert (G : ncol given = ncol sino + 2 * p) by (unfold given; rewrite (proj2 (HS _ _)); reflexivity).
  exists (islice r p (ncol sino + 2 * p - p) p (ncol sino + 2 * p - p)). split.
  { unfold astra_recon_single. cbn [ncol nrow].
    change (run m (if (String.eqb m "FBP_CUDA" || String.eqb m "FBP")%bool then Some f else None) it ang
      (shift {| nrow := nrow sino; ncol := ncol sino + 2 * p; px := fun i k => px sino i (clipZ (k - p) 0 (ncol sino - 1)) |}
             ((inject_Z (ncol sino + 2 * p) - 1) / 2 - (center + inject_Z p)))) with (run m (handed_filter m f) it ang given).
    rewrite E. reflexivity. }
  destruct (slice_shape r p (ncol sino + 2 * p - p) p (ncol sino + 2 * p - p)) as [E1 E2]; try lia.
  rewrite E1, E2. split; [lia|]. split; [lia|]. intros y x. unfold islice. cbn [px]. rewrite !py_adj_id by lia. reflexivity.
Qed.
Lemma astra_spec hg a center angles ratio method it fname pad lg ncore m g : 1 <= cols a -> 1 <= count a -> (0 <= center)%Q -> (center < inject_Z (cols a))%Q ->
  (forall v, angles = Some v -> vlen v = rows a) -> select_method hg method = Ok (m, g) ->
  let p := match pad with None => pad_of (cols a) None | Some p => Z.max p 0 end in
  let f := match fname with None => "ram-lak"%string | Some f => f end in
  (forall s, exists r, run m (handed_filter m f) it (used_angles pi (rows a) angles) s = Ok r /\ nrow r = ncol s /\ ncol r = ncol s) ->
  exists out, fst (astra hg shift run a center angles ratio method it fname pad lg ncore) = Ok out /\
    same_kind out a /\ rows out = cols a /\ cols out = cols a /\ count out = count a /\
    forall j, in_rng (count a) j -> exists r,
      run m (handed_filter m f) it (used_angles pi (rows a) angles) (presented shift lg neglog a center p j) = Ok r /\
      forall y x, in_rng (cols a) y -> in_rng (cols a) x ->
      (entry out y j x == if inside_circle (cols a) (used_ratio (cols a) center ratio) y x then px r (p + y)%Z (p + x)%Z else 0)%Q.
Proof.
  intros Hc Hn C0 C1 Ha Hm p f Hrun.
  assert (Hp : 0 <= p) by (unfold p; destruct pad; [lia|apply default_pad; lia]).
  assert (Ec : Qltb center 0 || Qle_bool (inject_Z (cols a)) center = false).
  { apply orb_false_iff. split.
    - destruct (Qltb center 0) eqn:E; [|reflexivity]. apply Qltb_lt in E. lra.
    - destruct (Qle_bool (inject_Z (cols a)) center) eqn:E; [|reflexivity]. apply Qle_bool_iff in E. lra. }
  set (ang := used_angles pi (rows a) angles) in *.
  set (mask := match ratio with None => None | Some q => Some (make_circle_mask (cols a) (rec_ratio (cols a) center q)) end).
  set (s := if lg then amap neglog (if lg then amap fix_log a else a) else if lg then amap fix_log a else a).
  set (single := fun sino => astra_recon_single shift run sino center ang p m f it).
  assert (E : fst (astra hg shift run a center angles ratio method it fname pad lg ncore) =
    match s with
    | A2 sino => do r <- single sino; Ok (A2 (mul_mask mask r))
    | A3 v => do rs <- mapr (fun j => single (vslice_axis v 1 j)) (zrange 0 (count a));
              let first := nth 0 rs (mkimg 0 0 (fun _ _ => 0%Q)) in
              Ok (A3 (mul_mask3 mask (mkvol (nrow first) (count a) (ncol first) (fun y j x => px (nth (Z.to_nat j) rs (mkimg 0 0 (fun _ _ => 0%Q))) y x))))
    end).
  { unfold astra_reconstruction. assert (Es : shape3 a = (rows a, count a, cols a)) by (destruct a; reflexivity). rewrite Es.
    rewrite (angles_ok pi _ _ Ha), Hm, Ec. cbn [fst]. reflexivity. }
  assert (D : forall j, in_rng (count a) j -> let sino := match s with A2 q => q | A3 v => vslice_axis v 1 j end in
     exists r o, run m (handed_filter m f) it ang (presented shift lg neglog a center p j) = Ok r /\ single sino = Ok o /\
       nrow o = cols a /\ ncol o = cols a /\ forall y x, px o y x = px r (p + y)%Z (p + x)%Z).
  { intros j Hj. cbn zeta. destruct (Hrun (presented shift lg neglog a center p j)) as (r & Er & R1 & R2).
    set (sino := match s with A2 q => q | A3 v => vslice_axis v 1 j end).
    assert (Sc : ncol sino = cols a) by (unfold sino, s; destruct lg; destruct a; reflexivity).
    assert (Sp : presented shift lg neglog a center p j =
      shift (mkimg (nrow sino) (ncol sino + 2 * p) (fun i k => beyond_edge (ncol sino) (px sino i) (k - p)))
                 ((inject_Z (ncol sino + 2 * p) - 1) / 2 - (center + inject_Z p))%Q) by (unfold sino, s; destruct lg; destruct a; reflexivity).
    rewrite Sp in Er, R1, R2.
    destruct (single_spec sino center ang p m f it Hp ltac:(lia) r Er R1 R2) as (o & Eo & O1 & O2 & O3).
    exists r, o. rewrite Sp. split; [exact Er|]. split; [exact Eo|]. rewrite O1, O2, Sc. split; [reflexivity|]. split; [reflexivity|]. exact O3. }
  destruct a as [ma|v].
  - assert (Es : exists q, s = A2 q) by (unfold s; destruct lg; eexists; reflexivity). destruct Es as (q & Es).
    destruct (D 0 ltac:(unfold in_rng; cbn [count]; lia)) as (r & o & Er & Eo & O1 & O2 & O3). rewrite Es in E, Eo.
    rewrite Eo in E. cbn [bindr] in E. eexists. split; [exact E|]. split; [exact I|]. cbn [rows cols count] in *.
    destruct (mask_shape mask o) as [M1 M2]. rewrite M1, M2. split; [exact O1|]. split; [exact O2|]. split; [reflexivity|].
    intros j Hj. assert (j = 0) by (unfold in_rng in Hj; lia). subst j. exists r. split; [exact Er|]. intros y x Hy Hx. cbn [entry].
    unfold mask. rewrite circle_px, O3. reflexivity.
  - assert (Es : exists w, s = A3 w /\ hei w = hei v) by (unfold s; destruct lg; eexists; split; reflexivity). destruct Es as (w & Es & Ew).
    rewrite Es in E, D. cbn [count rows cols] in *. clear Hrun.
    set (d0 := mkimg 0 0 (fun _ _ => 0%Q)) in *.
    set (g0 := fun j => match single (vslice_axis w 1 j) with Ok o => o | Err _ => d0 end).
    assert (M : mapr (fun j => single (vslice_axis w 1 j)) (zrange 0 (hei v)) = Ok (map g0 (zrange 0 (hei v)))).
    { apply mapr_total. intros j Hj. apply zrange_In in Hj. destruct (D j ltac:(unfold in_rng; lia)) as (r & o & _ & Eo & _).
      unfold g0. rewrite Eo. reflexivity. }
    rewrite M in E. cbn [bindr] in E.
    assert (N : forall j, in_rng (hei v) j -> nth (Z.to_nat j) (map g0 (zrange 0 (hei v))) d0 = g0 j).
    { intros j Hj. unfold in_rng in Hj. rewrite nth_indep with (d' := g0 0) by (rewrite map_length, zrange_length; lia).
      rewrite map_nth. f_equal. rewrite zrange_nth by lia. lia. }
    destruct (D 0 ltac:(unfold in_rng; lia)) as (r0 & o0 & _ & E0 & A1 & A2 & _).
    assert (F0 : nth 0 (map g0 (zrange 0 (hei v))) d0 = o0).
    { change 0%nat with (Z.to_nat 0). rewrite N by (unfold in_rng; lia). unfold g0. rewrite E0. reflexivity. }
    rewrite F0 in E. cbn zeta in E. eexists. split; [exact E|]. split; [exact I|].
    cbn [rows cols count entry].
    assert (MS : forall u, dep (mul_mask3 mask u) = dep u /\ wid (mul_mask3 mask u) = wid u /\ hei (mul_mask3 mask u) = hei u) by (intros u; unfold mul_mask3; destruct mask; repeat split).
    match goal with |- context [mul_mask3 mask ?u] => destruct (MS u) as (-> & -> & ->) end. cbn [dep wid hei].
    split; [exact A1|]. split; [exact A2|]. split; [reflexivity|].
    intros j Hj. destruct (D j Hj) as (r & o & Er & Eo & _ & _ & O3). exists r. split; [exact Er|]. intros y x Hy Hx.
    assert (P : vx (mul_mask3 mask (mkvol (nrow o0) (hei v) (ncol o0) (fun y j x => px (nth (Z.to_nat j) (map g0 (zrange 0 (hei v))) d0) y x))) y j x =
                px (mul_mask mask (nth (Z.to_nat j) (map g0 (zrange 0 (hei v))) d0)) y x) by (destruct mask; reflexivity).
    rewrite P. unfold mask. rewrite circle_px. rewrite N by exact Hj. unfold g0. rewrite Eo, O3. reflexivity.
Qed.
End astra.
Lemma edge_of_edge w p row k : 1 <= w -> 0 <= p -> beyond_edge (w + 2 * p) (fun q => beyond_edge w row (q - p)) k = beyond_edge w row (k - p).
Proof. intros Hw Hp. unfold beyond_edge. f_equal. lia. Qed.
Lemma presented_exact shift lg neglog a center p j d : exact_shift shift -> 1 <= cols a -> 0 <= p ->
  ((inject_Z (cols a) - 1) / 2 == center + inject_Z d)%Q ->
  forall i k, in_rng (rows a) i -> in_rng (cols a + 2 * p) k ->
  px (presented shift lg neglog a center p j) i k = beyond_edge (cols a) (fun q => logged lg neglog (entry a i j q)) (k - d - p).
Proof.
  intros [_ HX] Hc Hp Hd i k Hi Hk. unfold presented. rewrite (HX _ _ d); cbn [nrow ncol px]; [|clear Hk Hi HX|exact Hi|exact Hk].
  - rewrite edge_of_edge by assumption. reflexivity.
  - rewrite inject_Z_plus. rewrite inject_Z_mult. change (inject_Z 2) with 2%Q.
    setoid_replace ((inject_Z (cols a) + 2 * inject_Z p - 1) / 2 - (center + inject_Z p))%Q with ((inject_Z (cols a) - 1) / 2 - center)%Q by field.
    rewrite Hd. ring.
Qed.
Lemma margin_is nc pad : 0 <= nc -> match pad with None => pad_of nc None | Some p => Z.max p 0 end = margin nc pad.
Proof.
  intros N. destruct pad as [p|]; [reflexivity|]. cbn [pad_of margin]. f_equal. unfold Qtrunc.
  assert (H : (0 <= (15#100) * inject_Z nc)%Q).
  { apply Qmult_le_0_compat; [discriminate|]. change 0%Q with (inject_Z 0). rewrite <- Zle_Qle. exact N. }
  rewrite (proj2 (Qle_bool_iff _ _) H). reflexivity.
Qed.
Lemma chosen_selected hg method m : chosen hg method m -> exists g, select_method hg method = Ok (m, g).
Proof.
  intros [ [H ->]|[ (-> & H & ->)|(-> & H & ->)] ]; cbn in H;
    repeat (destruct H as [<-|H]; [try (exists false; destruct hg; reflexivity); try (eexists; reflexivity)|]); contradiction.
Qed.
