(** Proofs about the vertical reconstruction functions. *)
From Verif Require Import Np P_Np M_utility P_utility M_conversion M_par P_par M_backproj S_backproj P_backproj P_backproj2 M_recon S_recon P_recon M_vertrec S_vertrec.
From Coq Require Import QArith Qround Lia Lqa Permutation.
From Coq Require Import List. Import ListNotations.
Open Scope Z_scope.

Lemma chunk_size_bounds n c : 1 <= n -> 1 <= chunk_size_of n c <= n.
Proof.
  intros H. unfold chunk_size_of. set (x := match c with None => _ | Some _ => _ end).
  destruct (Z.ltb_spec n x); cbn [orb]; [lia|]. destruct (Z.ltb_spec x 1); lia.
Qed.
(** the chunks partition the projections *)
Lemma vchunks_cover n c ps : 1 <= c -> 0 <= n ->
  flat_map (fun se => zrange (fst se - ps) (snd se - fst se)) (vchunks n c ps) = zrange 0 n.
Proof.
  intros C N. unfold vchunks. set (q := n / c).
  assert (Q0 : 0 <= q) by (apply Z.div_pos; lia).
  assert (R : 0 <= n - q * c < c). { unfold q. pose proof (Z.mod_pos_bound n c ltac:(lia)). rewrite (Z.mul_comm (n / c)). rewrite <- Z.mod_eq by lia. lia. }
  rewrite flat_map_app.
  assert (G : forall k, 0 <= k -> flat_map (fun se : Z * Z => zrange (fst se - ps) (snd se - fst se)) (map (fun i => (i * c + ps, i * c + ps + c)) (zrange 0 k)) = zrange 0 (k * c)).
  { apply (natlike_ind (fun k => flat_map (fun se : Z * Z => zrange (fst se - ps) (snd se - fst se)) (map (fun i => (i * c + ps, i * c + ps + c)) (zrange 0 k)) = zrange 0 (k * c))).
    - reflexivity.
    - intros k Hk IH. unfold Z.succ. rewrite (zrange_app 0 k 1), map_app, flat_map_app, IH by lia.
      replace ((k + 1) * c) with (k * c + c) by lia. rewrite (zrange_app 0 (k * c) c) by nia. f_equal.
      change (zrange (0 + k) 1) with [0 + k + 0]. cbn [map flat_map fst snd]. rewrite app_nil_r. f_equal; lia. }
  rewrite G by exact Q0.
  destruct (Z.eqb_spec (n - q * c) 0) as [E|E].
  - cbn [flat_map]. rewrite app_nil_r. f_equal. lia.
  - cbn [flat_map fst snd]. rewrite app_nil_r. transitivity (zrange 0 (q * c + (n - q * c))); [|f_equal; lia]. rewrite (zrange_app 0 (q * c)) by nia.
    f_equal. f_equal; lia.
Qed.
Lemma vchunks_In n c ps s e : 1 <= c -> 0 <= n -> In (s, e) (vchunks n c ps) -> ps <= s /\ s < e /\ e <= ps + n.
Proof.
  intros C N I. unfold vchunks in I. set (q := n / c) in *.
  assert (Q0 : 0 <= q) by (apply Z.div_pos; lia).
  assert (R : 0 <= n - q * c < c). { unfold q. pose proof (Z.mod_pos_bound n c ltac:(lia)). rewrite (Z.mul_comm (n / c)). rewrite <- Z.mod_eq by lia. lia. }
  apply in_app_or in I as [I|I].
  - apply in_map_iff in I as (i & E & Hi). apply zrange_In in Hi. injection E as <- <-. nia.
  - destruct (Z.eqb_spec (n - q * c) 0); [destruct I|]. destruct I as [E|[] ]. injection E as <- <-. nia.
Qed.
Lemma sum_over_app f a b : (sum_over f (a ++ b) == sum_over f a + sum_over f b)%Q.
Proof. unfold sum_over. induction a as [|x a IH]; cbn [app fold_right]; [ring|]. rewrite IH. ring. Qed.

(** the accumulation loop *)
Section loop.
Context {A I : Type} (add : A -> A -> A) (get : A -> I -> Q) (shape : A -> A -> Prop) (dom : I -> Prop).
Context (add_get : forall a b x, (get (add a b) x == get a x + get b x)%Q) (shape_refl : forall a, shape a a)
        (shape_add : forall a b c, shape (add a b) c -> shape a c).
Context (kernel : vol Q -> vec Q -> Z -> res (A * list thread)) (chunk : Z -> Z -> Z -> res (vol Q)) (ang : vec Q) (ps : Z).
Context (V : I -> Z -> Q).
Lemma vloop_spec : forall l k s tss,
  (forall k st e, In (st, e) l -> exists c out ts, chunk k st e = Ok c /\ kernel c (vslice ang (st - ps) (e - ps)) k = Ok (out, ts) /\
     (all_done ts -> forall x, dom x -> (get out x == sum_over (V x) (zrange (st - ps) (e - st)))%Q)) ->
  exists r tss', vloop add kernel chunk ang ps k l s tss = Ok (r, tss ++ tss') /\ shape s r /\
    ((forall ts, In ts tss' -> all_done ts) -> forall x, dom x ->
      (get r x == get s x + sum_over (V x) (flat_map (fun se => zrange (fst se - ps) (snd se - fst se)) l))%Q).
Proof using add_get shape_refl shape_add. clear -add_get shape_refl shape_add.
  induction l as [|[st e] l IH]; intros k s tss H; cbn [vloop].
  - exists s, []. rewrite app_nil_r. split; [reflexivity|]. split; [apply shape_refl|]. intros _ x _. unfold sum_over. cbn. ring.
  - destruct (H k st e (or_introl eq_refl)) as (c & out & ts & -> & E & D). cbn [bindr]. rewrite E. cbn [bindr fst snd].
    destruct (IH (k + 1) (add s out) (tss ++ [ts])) as (r & tss' & -> & Sh & X).
    { intros k' st' e' Hi. apply H. right. exact Hi. }
    exists r, (ts :: tss'). rewrite <- app_assoc. split; [reflexivity|]. split; [eapply shape_add, Sh|].
    intros Dn x Hx. rewrite (X (fun t Ht => Dn t (or_intror Ht)) x Hx). cbn [flat_map fst snd]. rewrite sum_over_app, add_get.
    rewrite (D (Dn ts (or_introl eq_refl)) x Hx). ring.
Qed.
End loop.

Lemma sum_over_shift f a n : (sum_over f (zrange a n) == qsum n (fun k => f (a + k)%Z))%Q.
Proof.
  rewrite <- sum_over_qsum. unfold zrange. generalize (seq 0 (Z.to_nat n)) as l. induction l as [|x l IH]; [reflexivity|].
  cbn [map sum_over fold_right]. unfold sum_over in *. cbn [fold_right map]. rewrite IH. rewrite Z.add_0_l. reflexivity.
Qed.
Lemma vslice_in {V} (v : vec V) a b : 0 <= a <= b -> b <= vlen v ->
  vlen (vslice v a b) = b - a /\ forall k, vat (vslice v a b) k = vat v (a + k).
Proof. intros H1 H2. unfold vslice. cbn [vlen vat]. rewrite slen_id, py_adj_id by lia. split; reflexivity. Qed.

Lemma Qtrunc_floor q : (0 <= q)%Q -> Qtrunc q = Qfloor q.
Proof. intros H. unfold Qtrunc. rewrite (proj2 (Qle_bool_iff 0 q) H). reflexivity. Qed.

Section V.
Context (cosf sinf neglog : Q -> Q) (pi : Q) {window name mode : Type}.
Context (wshape : window -> Z * Z) (make_2d : Z -> Z -> name -> window) (wabs : window -> window).
Context (np_pad_cols : img Q -> Z -> mode -> img Q) (fft_rows fft_ver : img Q -> window -> img Q).
Context (PS : pads_sides np_pad_cols) (KR : keeps_shape fft_rows) (KV : keeps_shape fft_ver).
Context (o : vargs window name mode) (p : vol Q) (VA : valid o p).
Notation n := (projections_used o p). Notation h := (slice_height o p). Notation w := (slice_width o p).
Notation t := (crop_top (crop o)). Notation l := (crop_left (crop o)).
Notation ang := (used_angles pi n (angles o)).

Lemma crop_facts : exists b r, crop o = (t, b, l, r) /\ 0 <= t /\ 0 <= b /\ 0 <= l /\ 0 <= r /\ h = hei p - t - b /\ w = wid p - l - r /\ 1 <= h /\ 1 <= w.
Proof using VA. clear -VA.
  destruct VA as [A1 A2 A3 A4 A5 A6 A7 A8 A9 A10 A11 A12]. unfold slice_height, slice_width in *. destruct (crop o) as [ [ [a b] c] d]. cbn in *. exists b, d. intuition lia.
Qed.
Lemma side_ok : pad_of w (pad o) = side_pixels o p /\ 0 <= side_pixels o p.
Proof using VA. clear -VA.
  destruct VA as [A1 A2 A3 A4 A5 A6 A7 A8 A9 A10 A11 A12]. unfold side_pixels, pad_of. destruct (pad o) as [k|]; [split; [reflexivity|auto]|].
  assert (0 <= (15 # 100) * inject_Z w)%Q. { assert (0 <= inject_Z w)%Q by (rewrite <- (Zle_Qle 0); lia). lra. }
  rewrite Qtrunc_floor by assumption. split; [reflexivity|]. pose proof (Qfloor_resp_le 0 _ H) as G. change (Qfloor 0) with 0 in G. lia.
Qed.
Lemma setup_ok : vsetup pi o p = Ok (n, ang, t, t + h, l, l + w).
Proof using VA. clear -VA.
  destruct crop_facts as (b & r & Ec & C1 & C2 & C3 & C4 & Eh & Ew & Hh & Hw).
  destruct VA as [A1 A2 A3 A4 A5 A6 A7 A8 A9 A10 A11 A12]. unfold vsetup. fold (last_projection o p). fold n.
  destruct (Z.ltb_spec n 1); [lia|].
  assert (Ea : match angles o with
    | Some v => if vlen v =? n then Ok v else Err ValueError
    | None => Ok (mkvec n (fun i => (inject_Z i * pi / inject_Z (n - 1))%Q)) end = Ok ang).
  { unfold used_angles. destruct (angles o) as [v|]; [|reflexivity]. rewrite (A8 v eq_refl), Z.eqb_refl. reflexivity. }
  rewrite Ea. cbn [bindr]. rewrite Ec.
  replace (hei p - b) with (t + h) by lia. replace (wid p - r) with (l + w) by lia.
  replace (t + h - t) with h by lia. replace (l + w - l) with w by lia. cbv zeta.
  destruct (Z.ltb_spec h 1); [lia|]. destruct (Z.ltb_spec w 1); [lia|]. cbn [orb].
  destruct (Qltb (center o) 0) eqn:X; [apply Qltb_lt in X; lra|]. cbn [orb].
  destruct (Qltb (inject_Z (w - 1)) (center o)) eqn:Y; [apply Qltb_lt in Y; lra|]. reflexivity.
Qed.
Lemma ang_len : vlen ang = n.
Proof using VA. clear -VA. destruct VA as [A1 A2 A3 A4 A5 A6 A7 A8 A9 A10 A11 A12]. unfold used_angles. destruct (angles o) as [v|]; [auto|reflexivity]. Qed.

(** flat and dark *)
Definition corrects (fd : option (img Q * img Q)) : Prop := forall i j v, 0 <= i < h -> 0 <= j < w ->
  match fd with
  | None => normalised (flat_field o) (dark_field o) (t + i) (l + j) v = v
  | Some (d, f) => normalised (flat_field o) (dark_field o) (t + i) (l + j) v = ((v - px d i j) / px f i j)%Q
  end.
Lemma flat_ok : exists fd, flat_fields (flat_field o) (dark_field o) (hei p) (wid p) t (t + h) l (l + w) = Ok fd /\ corrects fd /\
  (fd = None <-> flat_field o = None /\ dark_field o = None).
Proof using VA. clear -VA.
  destruct crop_facts as (b & r & Ec & C1 & C2 & C3 & C4 & Eh & Ew & Hh & Hw).
  destruct VA as [A1 A2 A3 A4 A5 A6 A7 A8 A9 A10 A11 A12]. unfold flat_fields, corrects, normalised.
  destruct (flat_field o) as [f|], (dark_field o) as [d|];
    repeat match goal with
    | H : forall m, Some ?x = Some m -> _ |- _ => destruct (H x eq_refl); clear H
    end;
    repeat match goal with H : nrow _ = _ |- _ => rewrite H | H : ncol _ = _ |- _ => rewrite H end;
    rewrite ?Z.eqb_refl; cbn [andb bindr];
    (eexists; split; [reflexivity|]; split; [|split; [intros X; try discriminate X; auto|intros [X Y]; try discriminate X; try discriminate Y; reflexivity] ]);
    intros i j v Hi Hj; cbn [px islice nrow ncol];
    repeat match goal with H : nrow _ = _ |- _ => rewrite H | H : ncol _ = _ |- _ => rewrite H end;
    rewrite ?(py_adj_id (hei p) t), ?(py_adj_id (wid p) l) by lia; reflexivity.
Qed.

Lemma filt_ext (m m' : img Q) w0 f s md : 0 <= nrow m -> 0 <= ncol m -> 0 <= s -> img_Qeq m m' ->
  img_Qeq (apply_ramp_filter wshape make_2d np_pad_cols fft_rows m w0 f (Some s) md)
          (apply_ramp_filter wshape make_2d np_pad_cols fft_rows m' w0 f (Some s) md).
Proof using PS KR. clear -PS KR.
  destruct PS as [PC PE]. destruct KR as [KS KE]. intros R C S E. destruct E as (E1 & E2 & E3).
  unfold apply_ramp_filter. cbn [pad_of]. rewrite <- E1, <- E2.
  destruct (PC m s md S) as [P1 P2]. destruct (PC m' s md S) as [P3 P4].
  rewrite P1, P2, P3, P4, <- E1, <- E2. set (w' := match w0 with Some _ => _ | None => _ end).
  destruct (KE _ _ w' (PE m m' s md S (conj E1 (conj E2 E3)))) as (K1 & K2 & K3).
  destruct (KS (np_pad_cols m s md) w') as [K4 K5].
  repeat split; cbn [islice nrow ncol px].
  - rewrite <- K1. reflexivity.
  - rewrite <- K2. reflexivity.
  - cbn [islice nrow ncol] in *. intros i j Hi Hj. rewrite <- K1, <- K2. rewrite K4, K5, P1, P2 in *.
    unfold in_rng in *. rewrite slen_id in Hi, Hj by lia. rewrite !py_adj_id by lia. apply K3; lia.
Qed.
Lemma vchunk_ok fd s e order : corrects fd -> (proj_start o <= s)%Z -> s < e -> e <= proj_start o + n -> Permutation (zrange 0 (e - s)) order ->
  exists c, vchunk neglog wshape make_2d np_pad_cols fft_rows o p fd t (t + h) l (l + w) s e order = Ok c /\
    dep c = e - s /\ hei c = h /\ wid c = w /\
    forall k i j, 0 <= k < e - s -> 0 <= i < h -> 0 <= j < w ->
      (vx c k i j == px (projected neglog wshape make_2d np_pad_cols fft_rows o p (s - proj_start o + k)) i j)%Q.
Proof using VA PS KR. clear -VA PS KR.
  intros FD S1 S2 S3 O.
  destruct crop_facts as (b & r & Ec & C1 & C2 & C3 & C4 & Eh & Ew & Hh & Hw).
  pose proof side_ok as [SE S0]. pose proof VA as [A1 A2 A3 A4 A5 A6 A7 A8 A9 A10 A11 A12].
  unfold projections_used in S3.
  assert (Hd : e <= dep p) by lia.
  unfold vchunk. set (c2 := if apply_log o then _ else _).
  assert (D : dep c2 = e - s /\ hei c2 = h /\ wid c2 = w).
  { unfold c2. destruct (apply_log o), fd as [ [d f]|]; cbn [dep hei wid vcut]; rewrite !slen_id by lia; lia. }
  destruct D as (D1 & D2 & D3).
  assert (X : forall k i j, 0 <= k < e - s -> 0 <= i < h -> 0 <= j < w ->
     vx c2 k i j = px (prepared neglog o p (s - proj_start o + k)) i j).
  { intros k i j Hk Hi Hj. unfold prepared. cbn [px].
    replace (proj_start o + (s - proj_start o + k)) with (s + k) by lia.
    pose proof (FD i j (vx p (s + k) (t + i) (l + j)) Hi Hj) as F.
    unfold c2, logged, fix_log. destruct fd as [ [d f]|]; rewrite F; destruct (apply_log o); cbn [vx vcut]; rewrite !py_adj_id by lia; reflexivity. }
  clearbody c2.
  destruct (ramp_filter o) eqn:RF.
  2,3: exists c2; (split; [reflexivity|]); (split; [exact D1|]); (split; [exact D2|]); (split; [exact D3|]); intros k i j Hk Hi Hj;
       rewrite X by assumption; unfold projected; rewrite RF; reflexivity.
  replace (l + w - l) with w by lia. replace (t + h - t) with h by lia. cbv zeta. rewrite SE.
  destruct (Z.ltb_spec (side_pixels o p) 0); [lia|].
  set (win := make_2d h (w + 2 * side_pixels o p) (filter_name o)).
  set (F := fun m : img Q => _).
  pose proof PS as [PC _]. pose proof KR as [KS _].
  assert (Sh : forall m, nrow m = h -> ncol m = w -> nrow (F m) = h /\ ncol (F m) = w).
  { intros m R C. unfold F. destruct (filt_shape wshape make_2d np_pad_cols fft_rows PC KS m (Some win) (filter_name o) (side_pixels o p) (pad_mode o)); lia. }
  destruct (pps_correct F c2 0 order h w) as (out & E & N & Y).
  - auto.
  - cbn. rewrite D1. exact O.
  - cbn. lia.
  - intros i Hi. apply Sh; cbn; assumption.
  - cbn [slices_count Z.eqb] in N, Y. unfold slices_count in N, Y. cbn in N, Y. rewrite D1 in N, Y.
    exists out. split; [exact E|]. split; [exact N|].
    assert (Y0 : forall k, 0 <= k < e - s -> hei out = h /\ wid out = w /\ forall i j, 0 <= i < h -> 0 <= j < w ->
       (vx out k i j = px (F (vslice_axis c2 0 k)) i j)).
    { intros k Hk. destruct (Y k Hk) as (Y1 & Y2 & Y3). destruct (Sh (vslice_axis c2 0 k)) as [Z1 Z2]; [exact D2|exact D3|].
      change (nrow (vslice_axis out 0 k)) with (hei out) in *. change (ncol (vslice_axis out 0 k)) with (wid out) in *.
      assert (Ho : hei out = h) by (rewrite <- Z1; exact Y1). assert (Wo : wid out = w) by (rewrite <- Z2; exact Y2).
      split; [exact Ho|]. split; [exact Wo|]. intros i j Hi Hj. refine (Y3 i j _ _); unfold in_rng; [change (0 <= i < hei out)|change (0 <= j < wid out)]; lia. }
    destruct (Y0 0 ltac:(lia)) as (Z1 & Z2 & _). split; [exact Z1|]. split; [exact Z2|].
    intros k i j Hk Hi Hj. destruct (Y0 k Hk) as (_ & _ & Z3). rewrite (Z3 i j Hi Hj).
    unfold projected. rewrite RF. fold win.
    assert (Q : img_Qeq (vslice_axis c2 0 k) (prepared neglog o p (s - proj_start o + k))).
    { split; [exact D2|]. split; [exact D3|]. intros a b' Ha Hb.
      assert (Ha' : 0 <= a < h) by (rewrite <- D2; exact Ha). assert (Hb' : 0 <= b' < w) by (rewrite <- D3; exact Hb).
      change (vx c2 k a b' == px (prepared neglog o p (s - proj_start o + k)) a b')%Q. rewrite X by assumption. reflexivity. }
    assert (R0 : 0 <= nrow (vslice_axis c2 0 k)) by (change (0 <= hei c2); lia).
    assert (R1 : 0 <= ncol (vslice_axis c2 0 k)) by (change (0 <= wid c2); lia).
    destruct (filt_ext _ _ (Some win) (filter_name o) _ (pad_mode o) R0 R1 S0 Q) as (_ & _ & Q3).
    destruct (Sh (vslice_axis c2 0 k) D2 D3) as [Z4 Z5]. fold (F (vslice_axis c2 0 k)) in Q3.
    apply Q3; unfold in_rng; [rewrite Z4|rewrite Z5]; assumption.
Qed.
(** one chunk through the kernel *)
Lemma kernel_value c s e i x y : (proj_start o <= s)%Z -> s < e -> e <= proj_start o + n ->
  dep c = e - s -> hei c = h -> wid c = w -> 0 <= i < h ->
  (forall k i j, 0 <= k < e - s -> 0 <= i < h -> 0 <= j < w ->
      (vx c k i j == px (projected neglog wshape make_2d np_pad_cols fft_rows o p (s - proj_start o + k)) i j)%Q) ->
  (qsum (dep c) (fun k => vcontribution cosf sinf c (vslice ang (s - proj_start o) (e - proj_start o)) (center o) (vedge o) k i x y) ==
   sum_over (fun m => detector_value (extends_edge o) w (px (projected neglog wshape make_2d np_pad_cols fft_rows o p m) i)
                       (seen_at (cosf (angle_of pi o p m)) (sinf (angle_of pi o p m)) (center o) x y)) (zrange (s - proj_start o) (e - s)))%Q.
Proof using VA. clear -VA.
  intros S1 S2 S3 D1 D2 D3 Hi X. pose proof ang_len as AL. pose proof VA as [A1 A2 A3 A4 A5 A6 A7 A8 A9 A10 A11 A12].
  rewrite sum_over_shift, D1. apply qsum_ext. intros k Hk. unfold vcontribution.
  destruct (vslice_in ang (s - proj_start o) (e - proj_start o)) as [_ V]; [lia|lia|]. rewrite V, D3.
  unfold angle_of. change (vedge o) with (extends_edge o). apply detector_ext; [lia|]. intros j Hj. apply X; [lia|lia|exact Hj].
Qed.
Lemma mask_ok j : mask_col w (center o) j = if kept_column w (center o) j then 1%Q else 0%Q.
Proof using VA. clear -VA.
  destruct VA as [A1 A2 A3 A4 A5 A6 [A7 A7'] A8 A9 A10 A11 A12]. unfold mask_col, kept_column, Qminb.
  rewrite Qtrunc_floor; [reflexivity|]. assert (inject_Z (w - 1) <= inject_Z w)%Q by (rewrite <- Zle_Qle; lia).
  destruct (Qle_bool _ _); [exact A7|]. lra.
Qed.
Lemma finish_ok m M0 : nrow m = h -> ncol m = w -> img_Qeq m M0 ->
  exists out, vfinish pi make_2d wabs np_pad_cols fft_ver o n h w m = Ok out /\ nrow out = h /\ ncol out = w /\
    forall i j, 0 <= i < h -> 0 <= j < w ->
      (px out i j == px (filtered_after make_2d wabs np_pad_cols fft_ver o p M0) i j *
         (if masking o then (if kept_column w (center o) j then 1 else 0) else 1) * pi / inject_Z (n - 1))%Q.
Proof using VA PS KV. clear -VA PS KV.
  intros R C E. pose proof side_ok as [SE S0]. pose proof mask_ok as MK.
  destruct crop_facts as (b & r & Ec & C1 & C2 & C3 & C4 & Eh & Ew & Hh & Hw).
  assert (G : exists f, match ramp_filter o with After => ver_ramp make_2d wabs np_pad_cols fft_ver o h w m | _ => Ok m end = Ok f /\
     nrow f = h /\ ncol f = w /\ forall i j, 0 <= i < h -> 0 <= j < w -> (px f i j == px (filtered_after make_2d wabs np_pad_cols fft_ver o p M0) i j)%Q).
  { unfold filtered_after. destruct (ramp_filter o).
    1,3: exists m; repeat (split; [first [reflexivity|assumption]|]); intros i j Hi Hj; destruct E as (_ & _ & E3); apply E3; unfold in_rng; lia.
    unfold ver_ramp. rewrite SE. destruct (Z.ltb_spec (side_pixels o p) 0); [lia|].
    set (s := side_pixels o p) in *. set (win := wabs _).
    destruct PS as [PC PE]. destruct KV as [KS KE].
    destruct (PC m s (pad_mode o) S0) as [P1 P2]. destruct (KS (np_pad_cols m s (pad_mode o)) win) as [K1 K2].
    destruct (KE _ _ win (PE m M0 s (pad_mode o) S0 E)) as (_ & _ & K3).
    eexists. split; [reflexivity|]. cbn [islice nrow ncol px]. rewrite K1, K2, P1, P2, !slen_id by lia.
    split; [lia|]. split; [lia|]. intros i j Hi Hj. rewrite !py_adj_id by lia. rewrite Z.add_0_l. apply K3; unfold in_rng; rewrite ?K1, ?K2, ?P1, ?P2; lia. }
  destruct G as (f & Ef & F1 & F2 & F3). unfold vfinish. rewrite Ef. cbn [bindr].
  eexists. split; [reflexivity|]. cbn [nrow ncol px]. split; [exact F1|]. split; [exact F2|]. intros i j Hi Hj.
  rewrite (MK j). destruct (masking o); rewrite (F3 i j Hi Hj); [reflexivity|]. rewrite Qmult_1_r. reflexivity.
Qed.
Notation SUM := (all_projections cosf sinf neglog pi wshape make_2d np_pad_cols fft_rows o p).
Notation REF := (slice_through cosf sinf neglog pi wshape make_2d wabs np_pad_cols fft_rows fft_ver o p).
Notation VREC := (vertical_reconstruction cosf sinf neglog pi wshape make_2d wabs np_pad_cols fft_rows fft_ver).

Lemma single_spec points idx alpha xs ys orders scheds :
  any_order orders -> (0 <= idx)%Q -> (idx <= inject_Z (w - 1))%Q ->
  points idx alpha w = Ok (xs, ys) -> vlen xs = w -> vlen ys = w ->
  exists out fd, VREC points o p idx alpha orders scheds = Ok out /\
    vcaller out = vcaller_after o p fd n t (t + h) l (l + w) /\ (fd = None <-> flat_field o = None /\ dark_field o = None) /\
    (vcompleted out -> img_Qeq (vrecon out) (REF xs ys)).
Proof using VA PS KR KV. clear -VA PS KR KV.
  intros AO I0 I1 EP Lx Ly. unfold vertical_reconstruction. rewrite setup_ok. cbn [bindr].
  destruct crop_facts as (b & r & Ec & C1 & C2 & C3 & C4 & Eh & Ew & Hh & Hw).
  pose proof VA as [A1 A2 A3 A4 A5 A6 A7 A8 A9 A10 A11 [A12 A13] ].
  replace (t + h - t) with h by lia. replace (l + w - l) with w by lia. cbv zeta.
  destruct (Qltb idx 0) eqn:X; [apply Qltb_lt in X; lra|]. cbn [orb].
  destruct (Qltb (inject_Z (w - 1)) idx) eqn:Y; [apply Qltb_lt in Y; lra|].
  destruct flat_ok as (fd & -> & FD & FN). cbn [bindr]. rewrite EP. cbn [bindr fst snd].
  set (c := chunk_size_of n (chunk_size o)). assert (Cb : 1 <= c <= n) by (apply chunk_size_bounds; lia).
  set (kernel := fun (c : vol Q) (a : vec Q) (k : Z) => _). set (chunk := fun k s e : Z => _).
  destruct (vloop_spec iadd (fun (m : img Q) (x : Z * Z) => px m (fst x) (snd x)) (fun a b => nrow b = nrow a /\ ncol b = ncol a)
     (fun x => 0 <= fst x < h /\ 0 <= snd x < w)
     ltac:(intros; reflexivity) ltac:(intros; split; reflexivity) ltac:(intros a b0 c0 [? ?]; split; assumption)
     kernel chunk ang (proj_start o)
     (fun x m => detector_value (extends_edge o) w (px (projected neglog wshape make_2d np_pad_cols fft_rows o p m) (fst x))
                       (seen_at (cosf (angle_of pi o p m)) (sinf (angle_of pi o p m)) (center o) (vat xs (snd x)) (vat ys (snd x))))
     (vchunks n c (proj_start o)) 0 (mkimg h w (fun _ _ => 0%Q)) []) as (res & tss & -> & [Sh1 Sh2] & Val).
  { intros k s e Hse. apply vchunks_In in Hse as (S1 & S2 & S3); [|lia|lia].
    destruct (vchunk_ok fd s e (orders k (e - s)) FD S1 S2 S3 (AO k (e - s))) as (ck & Ek & D1 & D2 & D3 & Vk).
    exists ck. unfold chunk. rewrite Ek.
    pose proof (ang_len) as AL. destruct (vslice_in ang (s - proj_start o) (e - proj_start o)) as [VL _]; [lia|lia|].
    assert (KS : exists out ts, kernel ck (vslice ang (s - proj_start o) (e - proj_start o)) k = Ok (out, ts) /\
      (all_done ts -> nrow out = hei ck /\ ncol out = wid ck /\ forall i j, 0 <= i < hei ck -> 0 <= j < wid ck ->
       (px out i j == qsum (dep ck) (fun m => vcontribution cosf sinf ck (vslice ang (s - proj_start o) (e - proj_start o)) (center o) (vedge o) m i (vat xs j) (vat ys j)))%Q)).
    { unfold kernel. destruct (gpu o).
      - apply vert_gpu_spec; lia.
      - apply vert_cpu_spec; lia. }
    destruct KS as (out & ts & Eo & Vo). exists out, ts. split; [reflexivity|]. split; [exact Eo|].
    intros Dn [i j] [Hi Hj]. cbn [fst snd] in *. destruct (Vo Dn) as (_ & _ & Px). rewrite Px by lia.
    apply kernel_value; assumption. }
  cbn [bindr fst snd app nrow ncol] in *.
  destruct (finish_ok res res Sh1 Sh2) as (o1 & E1 & _).
  { split; [reflexivity|]. split; [reflexivity|]. intros; reflexivity. }
  rewrite E1. cbn [bindr]. eexists _, fd. split; [reflexivity|]. cbn [vcaller vrecon]. split; [reflexivity|]. split; [exact FN|].
  intros Dn. unfold vcompleted in Dn. cbn [vlaunches] in Dn.
  assert (EQ : img_Qeq res (mkimg h w (fun i j => SUM i (vat xs j) (vat ys j)))).
  { split; [exact Sh1|]. split; [exact Sh2|]. intros i j Hi Hj. rewrite Sh1 in Hi. rewrite Sh2 in Hj.
    pose proof (Val Dn (i, j) (conj Hi Hj)) as Q. cbn [fst snd px] in Q. rewrite Qplus_0_l, vchunks_cover in Q by lia. exact Q. }
  destruct (finish_ok res _ Sh1 Sh2 EQ) as (o2 & E2 & R2 & C2' & V2). rewrite E1 in E2. apply Ok_inj in E2. subst o2.
  split; [exact R2|]. split; [exact C2'|]. intros i j Hi Hj. rewrite R2 in Hi. rewrite C2' in Hj. rewrite (V2 i j Hi Hj). reflexivity.
Qed.
Notation CORE := (vertical_core cosf sinf neglog pi wshape make_2d wabs np_pad_cols fft_rows fft_ver).
Lemma core_spec x_mat y_mat orders scheds :
  any_order orders -> 1 <= nrow x_mat -> nrow y_mat = nrow x_mat -> ncol x_mat = w -> ncol y_mat = w ->
  exists out fd, CORE o p (n, ang, t, t + h, l, l + w) x_mat y_mat orders scheds = Ok out /\
    vcaller out = vcaller_after o p fd n t (t + h) l (l + w) /\ (fd = None <-> flat_field o = None /\ dark_field o = None) /\
    dep (vrecon out) = nrow x_mat /\ hei (vrecon out) = h /\ wid (vrecon out) = w /\
    (vcompleted out -> forall s, 0 <= s < nrow x_mat -> img_Qeq (slice_of (vrecon out) s) (REF (irow x_mat s) (irow y_mat s))).
Proof using VA PS KR KV. clear -VA PS KR KV.
  intros AO N0 Ny Lx Ly. unfold vertical_core.
  destruct crop_facts as (b & r & Ec & C1 & C2 & C3 & C4 & Eh & Ew & Hh & Hw).
  pose proof VA as [A1 A2 A3 A4 A5 A6 A7 A8 A9 A10 A11 [A12 A13] ].
  replace (t + h - t) with h by lia. replace (l + w - l) with w by lia. cbv zeta.
  destruct flat_ok as (fd & -> & FD & FN). cbn [bindr fst snd]. destruct (Z.eqb_spec (nrow x_mat) 0) as [Z0|Z0]; [lia|]. clear Z0.
  set (c := chunk_size_of n (chunk_size o)). assert (Cb : 1 <= c <= n) by (apply chunk_size_bounds; lia).
  set (kernel := fun (c : vol Q) (a : vec Q) (k : Z) => _). set (chunk := fun k s e : Z => _).
  destruct (vloop_spec vadd (fun (m : vol Q) (x : Z * Z * Z) => let '(s, i, j) := x in vx m s i j) (fun a b => dep b = dep a /\ hei b = hei a /\ wid b = wid a)
     (fun x => let '(s, i, j) := x in 0 <= s < nrow x_mat /\ 0 <= i < h /\ 0 <= j < w)
     ltac:(intros ? ? [ [? ?] ?]; reflexivity) ltac:(intros; repeat split; reflexivity) ltac:(intros a b0 c0 (? & ? & ?); repeat split; assumption)
     kernel chunk ang (proj_start o)
     (fun x m => let '(s, i, j) := x in detector_value (extends_edge o) w (px (projected neglog wshape make_2d np_pad_cols fft_rows o p m) i)
                       (seen_at (cosf (angle_of pi o p m)) (sinf (angle_of pi o p m)) (center o) (px x_mat s j) (px y_mat s j)))
     (vchunks n c (proj_start o)) 0 (mkvol (nrow x_mat) h w (fun _ _ _ => 0%Q)) []) as (res & tss & -> & (Sh0 & Sh1 & Sh2) & Val).
  { intros k s e Hse. apply vchunks_In in Hse as (S1 & S2 & S3); [|lia|lia].
    destruct (vchunk_ok fd s e (orders k (e - s)) FD S1 S2 S3 (AO k (e - s))) as (ck & Ek & D1 & D2 & D3 & Vk).
    exists ck. unfold chunk. rewrite Ek.
    pose proof (ang_len) as AL. destruct (vslice_in ang (s - proj_start o) (e - proj_start o)) as [VL _]; [lia|lia|].
    assert (KS : exists out ts, kernel ck (vslice ang (s - proj_start o) (e - proj_start o)) k = Ok (out, ts) /\
      (all_done ts -> dep out = nrow x_mat /\ hei out = hei ck /\ wid out = wid ck /\ forall s0 i j, 0 <= s0 < nrow x_mat -> 0 <= i < hei ck -> 0 <= j < wid ck ->
       (vx out s0 i j == qsum (dep ck) (fun m => vcontribution cosf sinf ck (vslice ang (s - proj_start o) (e - proj_start o)) (center o) (vedge o) m i (px x_mat s0 j) (px y_mat s0 j)))%Q)).
    { unfold kernel. destruct (gpu o).
      - apply vert_gpu_chunk_spec; lia.
      - apply vert_cpu_chunk_spec; lia. }
    destruct KS as (out & ts & Eo & Vo). exists out, ts. split; [reflexivity|]. split; [exact Eo|].
    intros Dn [ [q i] j] (Hq & Hi & Hj). destruct (Vo Dn) as (_ & _ & _ & Px). rewrite Px by lia.
    apply kernel_value; assumption. }
  cbn [bindr fst snd app dep hei wid] in *.
  set (sl := fun s : Z => mkimg h w (fun i j => vx res s i j)).
  set (fin := fun s : Z => _).
  assert (FT : forall s, exists o1, fin s = Ok o1).
  { intros s. destruct (finish_ok (sl s) (sl s)) as (o1 & E1 & _); try reflexivity; [|exists o1; exact E1].
    split; [reflexivity|]. split; [reflexivity|]. intros; reflexivity. }
  set (g := fun s => match fin s with Ok v => v | Err _ => mkimg 0 0 (fun _ _ => 0%Q) end).
  rewrite (mapr_total fin g) by (intros s _; unfold g; destruct (FT s) as [o1 ->]; reflexivity).
  cbn [bindr]. eexists _, fd. split; [reflexivity|]. cbn [vcaller vrecon dep hei wid]. split; [reflexivity|]. split; [exact FN|].
  split; [reflexivity|]. split; [reflexivity|]. split; [reflexivity|].
  intros Dn s Hs. unfold vcompleted in Dn. cbn [vlaunches] in Dn.
  assert (EQ : img_Qeq (sl s) (mkimg h w (fun i j => SUM i (px x_mat s j) (px y_mat s j)))).
  { split; [reflexivity|]. split; [reflexivity|]. intros i j Hi Hj. unfold sl in *. cbn [nrow ncol px] in *.
    pose proof (Val Dn (s, i, j) (conj Hs (conj Hi Hj))) as Q. cbv beta iota in Q. cbn [vx] in Q. rewrite Qplus_0_l, vchunks_cover in Q by lia. exact Q. }
  destruct (finish_ok (sl s) _ eq_refl eq_refl EQ) as (o2 & E2 & R2 & C2' & V2).
  split; [reflexivity|]. split; [reflexivity|]. unfold slice_of. cbn [nrow ncol px hei wid vx]. intros i j Hi Hj.
  rewrite nth_map_zrange by lia. unfold g. change (fin s) with (vfinish pi make_2d wabs np_pad_cols fft_ver o n h w (sl s)). rewrite E2.
  rewrite (V2 i j Hi Hj). reflexivity.
Qed.
End V.
