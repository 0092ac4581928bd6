(** Proofs about fbp_reconstruction and bpf_reconstruction. *)
From Verif Require Import Np P_Np M_utility P_utility M_par P_par M_backproj S_backproj P_backproj P_backproj2 M_recon S_recon.
From Coq Require Import QArith Qround Lia Lqa Permutation.
From Coq Require Import List. Import ListNotations.
Open Scope Z_scope.

Lemma Ok_inj {A} (a b : A) : Ok a = Ok b -> a = b.
Proof. congruence. Qed.
Lemma contribution_slice cosf sinf sino angles center edge i y x : trig_parity cosf sinf ->
  (contribution cosf sinf sino angles center edge i y x == slice_pixel cosf sinf edge sino angles center y x i)%Q.
Proof.
  intros P. unfold contribution, slice_pixel. apply detector_comp. unfold seen_at. destruct (P (vat angles i)) as [-> ->]. ring.
Qed.
Lemma lsum_sum_over f l : (lsum (map f l) == sum_over f l)%Q.
Proof. induction l as [|a l IH]; [reflexivity|]. change (f a + lsum (map f l) == f a + sum_over f l)%Q. rewrite IH. reflexivity. Qed.
Lemma sum_over_ext_in f g l : (forall i, In i l -> (f i == g i)%Q) -> (sum_over f l == sum_over g l)%Q.
Proof.
  induction l as [|a l IH]; intros E; [reflexivity|]. change (f a + sum_over f l == g a + sum_over g l)%Q.
  rewrite IH, (E a); [reflexivity|left; reflexivity|intros i Hi; apply E; right; exact Hi].
Qed.
Lemma sum_over_qsum f n : (sum_over f (zrange 0 n) == qsum n f)%Q.
Proof. rewrite <- lsum_sum_over. apply lsum_zrange. Qed.

Lemma detector_ext edge w row row' f : 1 <= w -> (forall k, in_rng w k -> (row k == row' k)%Q) ->
  (detector_value edge w row f == detector_value edge w row' f)%Q.
Proof.
  intros W E. unfold detector_value, in_rng in *.
  destruct (Qltb f 0) eqn:F0; [destruct edge; [apply E; lia|reflexivity]|].
  destruct (Qltb (inject_Z (w - 1)) f) eqn:F1; [destruct edge; [apply E; lia|reflexivity]|].
  apply Qltb_f in F0. apply Qltb_f in F1.
  assert (D0 : 0 <= Qfloor f) by (change 0 with (Qfloor 0); apply Qfloor_resp_le, F0).
  assert (D1 : Qfloor f <= w - 1) by (rewrite <- (Qfloor_Z (w - 1)); apply Qfloor_resp_le, F1).
  cbv zeta. destruct (Qeq_bool f (inject_Z (Qfloor f))) eqn:I; [apply E; lia|].
  assert (D2 : Qfloor f < w - 1).
  { destruct (Z.eq_dec (Qfloor f) (w - 1)) as [X|]; [|lia]. exfalso. rewrite X in I.
    pose proof (Qfloor_le f) as L. rewrite X in L.
    assert (f == inject_Z (w - 1))%Q by (apply Qle_antisym; assumption). apply Qeq_bool_iff in H. congruence. }
  rewrite (E (Qfloor f)), (E (Qfloor f + 1)) by lia. reflexivity.
Qed.
Lemma slice_pixel_ext cosf sinf edge m m' ang center y x i : 1 <= ncol m -> ncol m = ncol m' ->
  (forall k, in_rng (ncol m) k -> (px m i k == px m' i k)%Q) ->
  (slice_pixel cosf sinf edge m ang center y x i == slice_pixel cosf sinf edge m' ang center y x i)%Q.
Proof. intros W N E. unfold slice_pixel. rewrite <- N. apply detector_ext; assumption. Qed.

(** sum of all projections *)
Definition bp_sum cosf sinf edge m ang center (y x : Z) : Q :=
  sum_over (slice_pixel cosf sinf edge m ang center y x) (zrange 0 (nrow m)).
Lemma bp_sum_ext cosf sinf edge m m' ang center y x : 1 <= ncol m -> nrow m = nrow m' -> ncol m = ncol m' ->
  (forall i k, in_rng (nrow m) i -> in_rng (ncol m) k -> (px m i k == px m' i k)%Q) ->
  (bp_sum cosf sinf edge m ang center y x == bp_sum cosf sinf edge m' ang center y x)%Q.
Proof.
  intros W R C E. unfold bp_sum. rewrite <- R. apply sum_over_ext_in. intros i Hi. apply zrange_In in Hi.
  apply slice_pixel_ext; [exact W|exact C|]. intros k Hk. apply E; [unfold in_rng; lia|exact Hk].
Qed.

Section P.
Context (cosf sinf : Q -> Q) (TP : trig_parity cosf sinf).
Lemma bp2_spec gpu m ang center block edge sched : 1 <= ncol m -> vlen ang = nrow m -> 1 <= fst block -> 1 <= snd block ->
  proper_schedule gpu (nrow m) (ncol m) sched ->
  exists out ts, back_project2 cosf sinf gpu m ang center block edge sched = Ok (out, ts) /\
    (all_done ts -> nrow out = ncol m /\ ncol out = ncol m /\
      forall y x, 0 <= y < ncol m -> 0 <= x < ncol m -> (px out y x == bp_sum cosf sinf edge m ang center y x)%Q).
Proof.
  intros W L B1 B2 PS. unfold back_project2. destruct gpu.
  - destruct (gpu_spec cosf sinf m ang center edge W L block sched B1 B2) as (out & ts & E & V).
    exists out, ts. split; [exact E|]. intros D. destruct (V D) as (R & C & X). split; [exact R|]. split; [exact C|].
    intros y x Hy Hx. rewrite (X y x Hy Hx). unfold bp_sum. rewrite <- lsum_zrange, lsum_sum_over. apply sum_over_ext_in.
    intros i _. apply contribution_slice, TP.
  - destruct PS as [F|(order & K & O & HK & ->)]; [discriminate|].
    destruct (cpu_serial cosf sinf m ang center edge W L K order O HK) as (out & ts & E & D & R & C & X).
    exists out, ts. split; [exact E|]. intros _. split; [exact R|]. split; [exact C|].
    intros y x Hy Hx. rewrite (X y x Hy Hx). unfold bp_sum. rewrite <- lsum_zrange, lsum_sum_over. apply sum_over_ext_in.
    intros i _. apply contribution_slice, TP.
Qed.
Lemma bp3_spec gpu v ang center block edge scheds : 1 <= wid v -> 0 <= hei v -> vlen ang = dep v -> 1 <= fst block -> 1 <= snd block ->
  (forall i, 0 <= i < hei v -> proper_schedule gpu (dep v) (wid v) (scheds i)) ->
  exists out tss, back_project3 cosf sinf gpu v ang center block edge scheds = Ok (out, tss) /\
    dep out = wid v /\ hei out = hei v /\ wid out = wid v /\
    ((forall ts, In ts tss -> all_done ts) ->
      forall y j x, 0 <= y < wid v -> 0 <= j < hei v -> 0 <= x < wid v ->
        (vx out y j x == bp_sum cosf sinf edge (sinogram_of v j) ang center y x)%Q).
Proof.
  intros W H L B1 B2 PS. unfold back_project3. destruct gpu.
  - destruct (gpu_chunk_spec cosf sinf v ang center edge W L block (scheds 0) B1 B2) as (out & ts & E & V).
    rewrite E. cbn [bindr fst snd]. exists out, [ts]. split; [reflexivity|].
    assert (Sh : dep out = wid v /\ hei out = hei v /\ wid out = wid v).
    { unfold back_projection_gpu_chunk in E. destruct (mapr _ _) as [pr|]; [|discriminate]. cbn [bindr] in E.
      destruct (prun _ _ _) as [m' ts']. apply Ok_inj in E. injection E as <- _. cbn. auto. }
    destruct Sh as (S1 & S2 & S3). repeat (split; [assumption|]).
    intros D. destruct (V (D ts (or_introl eq_refl))) as (_ & _ & _ & X). intros y j x Hy Hj Hx. rewrite (X y j x Hy Hj Hx).
    unfold bp_sum. rewrite <- lsum_zrange, lsum_sum_over. apply sum_over_ext_in. intros i _.
    exact (contribution_slice cosf sinf (sinogram_of v j) ang center edge i y x TP).
  - set (g := fun i => back_projection_cpu cosf sinf (vslice_axis v 1 i) ang center edge (scheds i)).
    assert (T : exists rs, mapr g (zrange 0 (hei v)) = Ok rs /\ forall i, 0 <= i < hei v ->
        exists r, nth_error rs (Z.to_nat i) = Some r /\ g i = Ok r).
    { assert (A : forall i, In i (zrange 0 (hei v)) -> exists r, g i = Ok r).
      { intros i _. destruct (cpu_total cosf sinf (vslice_axis v 1 i) ang center edge W L (scheds i)) as (o & t & E). exists (o, t). exact E. }
      assert (A' : forall l, (forall i, In i l -> exists r, g i = Ok r) -> exists rs, mapr g l = Ok rs).
      { induction l as [|a l IH]; intros Al; [exists []; reflexivity|]. destruct (Al a (or_introl eq_refl)) as [r Er].
        destruct IH as [rs Ers]; [intros i Hi; apply Al; right; exact Hi|]. exists (r :: rs). cbn [mapr]. rewrite Er. cbn [bindr]. rewrite Ers. reflexivity. }
      destruct (A' _ A) as [rs Ers]. exists rs. split; [exact Ers|]. intros i Hi.
      apply mapr_ok in Ers. clear -Ers Hi.
      assert (N : nth_error (zrange 0 (hei v)) (Z.to_nat i) = Some i).
      { unfold zrange. rewrite nth_error_map. rewrite (nth_error_nth' _ 0%nat) by (rewrite seq_length; lia). rewrite seq_nth by lia. cbn. f_equal. lia. }
      revert N. generalize (Z.to_nat i). induction Ers as [|a r l rs E F IH]; intros n N; [destruct n; discriminate|].
      destruct n; [cbn in N; injection N as ->; exists r; split; [reflexivity|exact E]|]. apply IH. exact N. }
    destruct T as (rs & Ers & Nth). rewrite Ers. cbn [bindr].
    eexists _, _. split; [reflexivity|]. cbn [dep hei wid vx]. repeat (split; [reflexivity|]).
    intros _ y j x Hy Hj Hx. destruct (Nth j Hj) as (r & Nr & Gr).
    rewrite (nth_error_nth _ _ _ Nr). destruct (PS j Hj) as [F|(order & K & O & HK & Es)]; [discriminate|].
    unfold g in Gr. rewrite Es in Gr.
    destruct (cpu_serial cosf sinf (vslice_axis v 1 j) ang center edge W L K order O HK) as (out & ts & E & _ & _ & _ & X).
    unfold serial in E. rewrite E in Gr. apply Ok_inj in Gr. subst r. cbn [fst].
    rewrite (X y x Hy Hx). unfold bp_sum. rewrite <- lsum_zrange, lsum_sum_over. apply sum_over_ext_in. intros i _.
    exact (contribution_slice cosf sinf (sinogram_of v j) ang center edge i y x TP).
Qed.
End P.

Lemma slice_shape {V} (m : img V) a b c d : 0 <= a -> a <= b -> b <= nrow m -> 0 <= c -> c <= d -> d <= ncol m ->
  nrow (islice m a b c d) = b - a /\ ncol (islice m a b c d) = d - c.
Proof. intros. unfold islice. cbn [nrow ncol]. rewrite !slen_id by lia. lia. Qed.

Section F.
Context (cosf sinf : Q -> Q) (TP : trig_parity cosf sinf) (neglog : Q -> Q) (pi : Q).
Context {window name mode : Type}.
Context (wshape : window -> Z * Z).
Context (make_2d : Z -> Z -> name -> window) (make_circ : Z -> name -> window).
Context (np_pad_cols np_pad_all : img Q -> Z -> mode -> img Q).
Context (fft_rows fft_2d : img Q -> window -> img Q).
Context (PadC : forall m p md, 0 <= p -> nrow (np_pad_cols m p md) = nrow m /\ ncol (np_pad_cols m p md) = ncol m + 2 * p).
Context (PadA : forall m p md, 0 <= p -> nrow (np_pad_all m p md) = nrow m + 2 * p /\ ncol (np_pad_all m p md) = ncol m + 2 * p).
Context (FR : forall m w, nrow (fft_rows m w) = nrow m /\ ncol (fft_rows m w) = ncol m).
Context (F2 : forall m w, nrow (fft_2d m w) = nrow m /\ ncol (fft_2d m w) = ncol m).

Notation filt := (apply_ramp_filter wshape make_2d np_pad_cols fft_rows).
Notation cfilt := (apply_circular_ramp_filter wshape make_circ np_pad_all fft_2d).
Lemma filt_shape m w f p md : 0 <= nrow m -> 0 <= ncol m -> 0 <= p ->
  nrow (filt m w f (Some p) md) = nrow m /\ ncol (filt m w f (Some p) md) = ncol m.
Proof using PadC FR. clear -PadC FR.
  intros R C P. unfold apply_ramp_filter. cbn [pad_of]. set (w' := match w with Some _ => _ | None => _ end).
  destruct (PadC m p md P) as [P1 P2]. destruct (FR (np_pad_cols m p md) w') as [F1 F3].
  destruct (slice_shape (fft_rows (np_pad_cols m p md) w') 0 (nrow (fft_rows (np_pad_cols m p md) w')) p (ncol m + p)) as [-> ->]; lia.
Qed.
Lemma cfilt_shape m w f p md n : nrow m = n -> ncol m = n -> 0 <= n -> 0 <= p ->
  nrow (cfilt m w f (Some p) md) = n /\ ncol (cfilt m w f (Some p) md) = n.
Proof using PadA F2. clear -PadA F2.
  intros R C N P. unfold apply_circular_ramp_filter. cbn [pad_of]. set (w' := match w with Some _ => _ | None => _ end).
  destruct (PadA m p md P) as [P1 P2]. destruct (F2 (np_pad_all m p md) w') as [F1 F3].
  destruct (slice_shape (fft_2d (np_pad_all m p md) w') p (nrow m + p) p (nrow m + p)) as [-> ->]; lia.
Qed.

Section args.
Context (center : Q) (angles : option (vec Q)) (ratio : option Q) (ramp_win : option window) (fname : name) (pad : option Z) (pmode : mode)
        (apply_log gpu : bool) (block : Z * Z) (nr nc : Z).
Context (Hr : 2 <= nr) (Hc : 2 <= nc) (Cen : (0 <= center)%Q) (Cen' : (center < inject_Z nc)%Q)
        (Ang : forall v, angles = Some v -> vlen v = nr) (HP : 0 <= pad_of nc pad) (B1 : 1 <= fst block) (B2 : 1 <= snd block).
Definition ang : vec Q := match angles with Some v => v | None => default_angles pi nr end.
Lemma ang_len : vlen ang = nr.
Proof using Ang. clear -Ang. unfold ang. destruct angles as [v|]; [apply Ang; reflexivity|reflexivity]. Qed.
Lemma check_ok a : (let '(r, _, c) := shape3 a in r = nr /\ c = nc) -> check_args pi a center angles = Ok ang.
Proof using Cen Cen' Ang. clear -Cen Cen' Ang.
  intros S. unfold check_args. destruct (shape3 a) as [[r s] c]. destruct S as [-> ->].
  destruct (Qltb center 0) eqn:X; [apply Qltb_lt in X; lra|]. destruct (Qle_bool (inject_Z nc) center) eqn:Y; [apply Qle_bool_iff in Y; lra|].
  cbn [orb]. unfold ang. destruct angles as [v|]; [|reflexivity]. rewrite (Ang v eq_refl), Z.eqb_refl. reflexivity.
Qed.
Definition mask_at (y x : Z) : Q := match ratio with None => 1%Q | Some r => px (make_circle_mask nc (rec_ratio nc center r)) y x end.
Definition logged (m : img Q) : img Q :=
  if apply_log then mkimg (nrow m) (ncol m) (fun i j => neglog (fix_log (px m i j))) else m.
Lemma logged_shape m : nrow (logged m) = nrow m /\ ncol (logged m) = ncol m.
Proof using Type. unfold logged. destruct apply_log; split; reflexivity. Qed.
Definition fbp_win : option window := Some (match ramp_win with Some w => w | None => make_2d nr (nc + 2 * pad_of nc pad) fname end).
Definition fbp_filtered (m : img Q) : img Q := filt (logged m) fbp_win fname (Some (pad_of nc pad)) pmode.
Definition fbp_val (m : img Q) (y x : Z) : Q :=
  (bp_sum cosf sinf false (fbp_filtered m) ang center y x * mask_at y x * pi / inject_Z (nr - 1))%Q.
Notation fbp := (fbp_reconstruction cosf sinf neglog pi wshape make_2d np_pad_cols fft_rows).

Lemma fbp2_spec m cpu ncore cast order scheds : nrow m = nr -> ncol m = nc -> proper_schedule gpu nr nc (scheds 0) ->
  exists o, fbp (A2 m) center angles ratio ramp_win fname pad pmode apply_log gpu block cpu ncore cast order scheds = Ok o /\
    caller o = (if apply_log then amap fix_log (A2 m) else A2 m) /\
    exists out, recon o = A2 out /\
    (completed o -> nrow out = nc /\ ncol out = nc /\
      forall y x, 0 <= y < nc -> 0 <= x < nc -> (px out y x == fbp_val m y x)%Q).
Proof using TP PadC FR Hr Hc Cen Cen' Ang HP B1 B2. clear -TP PadC FR Hr Hc Cen Cen' Ang HP B1 B2.
  intros R C PS. unfold fbp_reconstruction. cbn [shape3]. rewrite R, C. rewrite check_ok by (cbn; auto). cbn [bindr].
  destruct (Z.ltb_spec (pad_of nc pad) 0); [lia|]. change (1 =? 1) with true. cbv iota.
  assert (Sq : squeeze2 (if apply_log then amap neglog (if apply_log then amap fix_log (A2 m) else A2 m)
                         else if apply_log then amap fix_log (A2 m) else A2 m) = Ok (logged m)).
  { unfold squeeze2, logged. destruct apply_log; cbn [amap nrow ncol px]; rewrite R, C;
    (destruct (Z.eqb_spec nr 1); [lia|]); (destruct (Z.eqb_spec nc 1); [lia|]); reflexivity. }
  rewrite Sq. cbn [bindr]. fold fbp_win. change (apply_ramp_filter wshape make_2d np_pad_cols fft_rows (logged m) _ _ _ _) with (fbp_filtered m).
  destruct (logged_shape m) as [L1 L2].
  destruct (filt_shape (logged m) fbp_win fname (pad_of nc pad) pmode) as [S1 S2]; [lia..|]. fold (fbp_filtered m) in S1, S2.
  destruct (bp2_spec cosf sinf TP gpu (fbp_filtered m) ang center block false (scheds 0)) as (out & ts & E & V); try assumption; try lia.
  { rewrite ang_len. lia. } { rewrite S1, S2, L1, L2, R, C. exact PS. }
  rewrite E. cbn [bindr fst snd]. eexists. split; [reflexivity|]. cbn [caller recon]. split; [reflexivity|].
  cbn [is3 finish amap]. eexists. split; [reflexivity|]. intros Cm. destruct (V (Cm ts (or_introl eq_refl))) as (R' & C' & X).
  assert (Sh : nrow (mul_mask (match ratio with None => None | Some r => Some (make_circle_mask nc (rec_ratio nc center r)) end) out) = nc /\
               ncol (mul_mask (match ratio with None => None | Some r => Some (make_circle_mask nc (rec_ratio nc center r)) end) out) = nc).
  { destruct ratio; cbn [mul_mask nrow ncol]; lia. }
  cbn [nrow ncol px]. split; [apply Sh|]. split; [apply Sh|]. intros y x Hy Hx. unfold scale_pi, fbp_val, mask_at.
  rewrite S2, L2, C in X. specialize (X y x Hy Hx). unfold Qdiv. destruct ratio; cbn [mul_mask px]; rewrite X; [reflexivity|ring].
Qed.

Lemma fbp3_spec v cpu ncore cast order scheds : dep v = nr -> wid v = nc -> 1 <= hei v ->
  (forall i, 0 <= i < hei v -> proper_schedule gpu nr nc (scheds i)) -> Permutation (zrange 0 (hei v)) order ->
  (apply_log = true \/ ncore_of cpu ncore <> 1 \/ forall q, (cast q == q)%Q) ->
  exists o, fbp (A3 v) center angles ratio ramp_win fname pad pmode apply_log gpu block cpu ncore cast order scheds = Ok o /\
    caller o = (if apply_log then amap fix_log (A3 v) else A3 v) /\
    exists out, recon o = A3 out /\
    (completed o -> dep out = nc /\ hei out = hei v /\ wid out = nc /\
      forall y j x, 0 <= y < nc -> 0 <= j < hei v -> 0 <= x < nc -> (vx out y j x == fbp_val (sinogram_of v j) y x)%Q).
Proof using TP PadC FR Hr Hc Cen Cen' Ang HP B1 B2. clear -TP PadC FR Hr Hc Cen Cen' Ang HP B1 B2.
  intros R C Hn PS Or Ca. unfold fbp_reconstruction. cbn [shape3]. rewrite R, C. rewrite check_ok by (cbn; auto). cbn [bindr].
  destruct (Z.ltb_spec (pad_of nc pad) 0); [lia|]. fold fbp_win.
  destruct (Z.eqb_spec (hei v) 1) as [H1|H1].
  - assert (Sq : squeeze2 (if apply_log then amap neglog (if apply_log then amap fix_log (A3 v) else A3 v)
                         else if apply_log then amap fix_log (A3 v) else A3 v) = Ok (logged (sinogram_of v 0))).
    { unfold squeeze2, logged. destruct apply_log; cbn [amap dep wid nrow ncol vx]; rewrite R, C;
      (destruct (Z.eqb_spec nr 1); [lia|]); (destruct (Z.eqb_spec nc 1); [lia|]); unfold sinogram_of; cbn [nrow ncol px]; rewrite ?R, ?C; reflexivity. }
    rewrite Sq. cbn [bindr]. set (m := sinogram_of v 0).
    change (apply_ramp_filter wshape make_2d np_pad_cols fft_rows (logged m) _ _ _ _) with (fbp_filtered m).
    destruct (logged_shape m) as [L1 L2]. assert (Rm : nrow m = nr) by exact R. assert (Cm : ncol m = nc) by exact C.
    destruct (filt_shape (logged m) fbp_win fname (pad_of nc pad) pmode) as [S1 S2]; [lia..|]. fold (fbp_filtered m) in S1, S2.
    destruct (bp2_spec cosf sinf TP gpu (fbp_filtered m) ang center block false (scheds 0)) as (out & ts & E & V); try assumption; try lia.
    { rewrite ang_len. lia. } { rewrite S1, S2, L1, L2, Rm, Cm. apply PS. lia. }
    rewrite E. cbn [bindr fst snd]. eexists. split; [reflexivity|]. cbn [caller recon]. split; [reflexivity|].
    cbn [is3 finish amap]. eexists. split; [reflexivity|]. intros Co. destruct (V (Co ts (or_introl eq_refl))) as (R' & C' & X).
    cbn [dep hei wid vx].
    split; [destruct ratio; cbn [mul_mask nrow]; lia|]. split; [lia|]. split; [destruct ratio; cbn [mul_mask ncol]; lia|].
    intros y j x Hy Hj Hx. assert (j = 0) by lia. subst j. unfold scale_pi, fbp_val, mask_at. fold m.
    rewrite S2, L2, Cm in X. specialize (X y x Hy Hx). unfold Qdiv. destruct ratio; cbn [mul_mask px]; rewrite X; [reflexivity|ring].
  - set (a1 := if apply_log then amap fix_log (A3 v) else A3 v).
    assert (Sv : exists v', (if apply_log then amap neglog a1 else a1) = A3 v' /\ dep v' = nr /\ hei v' = hei v /\ wid v' = nc /\
        forall j, vslice_axis v' 1 j = logged (sinogram_of v j)).
    { unfold a1, logged. destruct apply_log; cbn [amap]; eexists; (split; [reflexivity|]); cbn [dep hei wid]; (split; [exact R|]);
        (split; [reflexivity|]); (split; [exact C|]); intros j; reflexivity. }
    destruct Sv as (v' & -> & D1 & D2 & D3 & Sl).
    set (f := if ncore_of cpu ncore =? 1 then _ else _).
    assert (Ef : exists u, f = Ok u /\ dep u = nr /\ hei u = hei v /\ wid u = nc /\
        forall i j k, in_rng nr i -> in_rng (hei v) j -> in_rng nc k -> (vx u i j k == px (fbp_filtered (sinogram_of v j)) i k)%Q).
    { unfold f. destruct (Z.eqb_spec (ncore_of cpu ncore) 1) as [N1|N1].
      - eexists. split; [reflexivity|]. cbn [dep hei wid vx]. repeat (split; [reflexivity|]). intros i j k _ _ _.
        rewrite Sl. fold (fbp_filtered (sinogram_of v j)). destruct Ca as [->|[Ca|Ca] ]; [reflexivity|contradiction|].
        destruct apply_log; [reflexivity|apply Ca].
      - destruct (pps_correct (fun m => filt m fbp_win fname (Some (pad_of nc pad)) pmode) v' 1 order nr nc) as (u & Eu & Cn & Su).
        + right. left. reflexivity.
        + change (slices_count v' 1) with (hei v'). rewrite D2. exact Or.
        + change (slices_count v' 1) with (hei v'). lia.
        + intros j _. rewrite Sl. destruct (logged_shape (sinogram_of v j)) as [L1 L2]. cbn [sinogram_of nrow ncol] in L1, L2.
          destruct (filt_shape (logged (sinogram_of v j)) fbp_win fname (pad_of nc pad) pmode) as [-> ->]; lia.
        + change (slices_count v' 1) with (hei v') in *. change (slices_count u 1) with (hei u) in *. rewrite D2 in *. clear D2.
          exists u. split; [exact Eu|].
          assert (Sh : dep u = nr /\ wid u = nc).
          { destruct (Su 0) as (S1 & S2 & _); [unfold in_rng; lia|]. rewrite Sl in S1, S2.
            change (nrow (vslice_axis u 1 0)) with (dep u) in S1. change (ncol (vslice_axis u 1 0)) with (wid u) in S2.
            destruct (logged_shape (sinogram_of v 0)) as [L1 L2]. cbn [sinogram_of nrow ncol] in L1, L2.
            destruct (filt_shape (logged (sinogram_of v 0)) fbp_win fname (pad_of nc pad) pmode) as [Q1 Q2]; lia. }
          destruct Sh as [Sh1 Sh2]. split; [exact Sh1|]. split; [exact Cn|]. split; [exact Sh2|].
          intros i j k Hi Hj Hk. destruct (Su j Hj) as (_ & _ & Su'). rewrite Sl in Su'. fold (fbp_filtered (sinogram_of v j)) in Su'.
          specialize (Su' i k). change (px (vslice_axis u 1 j) i k) with (vx u i j k) in Su'.
          change (nrow (vslice_axis u 1 j)) with (dep u) in Su'. change (ncol (vslice_axis u 1 j)) with (wid u) in Su'.
          rewrite Su'; [reflexivity|rewrite Sh1; exact Hi|rewrite Sh2; exact Hk]. }
    clearbody f. destruct Ef as (u & -> & U1 & U2 & U3 & Uv). cbn [bindr].
    destruct (bp3_spec cosf sinf TP gpu u ang center block false scheds) as (out & tss & E & O1 & O2 & O3 & X); try assumption; try lia.
    { rewrite ang_len. lia. } { rewrite U1, U2, U3. exact PS. }
    rewrite E. cbn [bindr fst snd]. eexists. split; [reflexivity|]. cbn [caller recon amap]. split; [reflexivity|].
    eexists. split; [reflexivity|]. intros Co. specialize (X Co). cbn [dep hei wid vx].
    split; [destruct ratio; cbn [mul_mask3 dep]; lia|]. split; [destruct ratio; cbn [mul_mask3 hei]; lia|]. split; [destruct ratio; cbn [mul_mask3 wid]; lia|].
    intros y j x Hy Hj Hx. unfold scale_pi, fbp_val, mask_at. rewrite U2, U3 in X. specialize (X y j x Hy Hj Hx).
    assert (Y : (bp_sum cosf sinf false (sinogram_of u j) ang center y x == bp_sum cosf sinf false (fbp_filtered (sinogram_of v j)) ang center y x)%Q).
    { destruct (logged_shape (sinogram_of v j)) as [L1 L2]. cbn [sinogram_of nrow ncol] in L1, L2.
      destruct (filt_shape (logged (sinogram_of v j)) fbp_win fname (pad_of nc pad) pmode) as [Q1 Q2]; [lia..|]. fold (fbp_filtered (sinogram_of v j)) in Q1, Q2.
      apply bp_sum_ext; cbn [sinogram_of nrow ncol px]; [lia| lia| lia|]. intros i k Hi Hk. rewrite U1 in Hi. rewrite U3 in Hk. apply Uv; assumption. }
    rewrite Y in X. unfold Qdiv. destruct ratio; cbn [mul_mask3 vx]; rewrite X; [reflexivity|ring].
Qed.

(** ** bpf_reconstruction *)
Context (PadE : forall m m' p md, img_Qeq m m' -> img_Qeq (np_pad_all m p md) (np_pad_all m' p md)).
Context (FE : forall m m' w, img_Qeq m m' -> img_Qeq (fft_2d m w) (fft_2d m' w)).
Context (no_name : name).
Definition bpf_w : window := match ramp_win with Some w => w | None => make_circ (nc + 2 * pad_of nc pad) fname end.
Context (WS : wshape bpf_w = (nc + 2 * pad_of nc pad, nc + 2 * pad_of nc pad)).
Definition bp_image (m : img Q) : img Q := mkimg nc nc (bp_sum cosf sinf true (logged m) ang center).
Definition bpf_val (m : img Q) (y x : Z) : Q :=
  (px (cfilt (bp_image m) (Some bpf_w) fname (Some (pad_of nc pad)) pmode) y x * mask_at y x * pi / inject_Z (nr - 1))%Q.
Lemma cfilt_eq m m' f f' : img_Qeq m m' -> nrow m = nc -> ncol m = nc ->
  img_Qeq (cfilt m (Some bpf_w) f (Some (pad_of nc pad)) pmode) (cfilt m' (Some bpf_w) f' (Some (pad_of nc pad)) pmode).
Proof using PadA F2 Hc HP PadE FE WS. clear -PadA F2 Hc HP PadE FE WS.
  intros E R C. pose proof E as (R' & C' & _). unfold apply_circular_ramp_filter. cbn [pad_of].
  destruct (PadA m (pad_of nc pad) pmode HP) as [P1 P2]. destruct (PadA m' (pad_of nc pad) pmode HP) as [P3 P4].
  rewrite P1, P2, P3, P4, WS, <- R', <- C', R, C. unfold shape_eqb. cbn [fst snd]. rewrite Z.eqb_refl. cbn [andb].
  pose proof (PadE m m' (pad_of nc pad) pmode E) as E1. pose proof (FE _ _ bpf_w E1) as (S1 & S2 & S3).
  destruct (F2 (np_pad_all m (pad_of nc pad) pmode) bpf_w) as [F21 F22].
  unfold img_Qeq, islice. cbn [nrow ncol px]. rewrite <- S1, <- S2. split; [reflexivity|]. split; [reflexivity|].
  assert (T1 : nrow (fft_2d (np_pad_all m (pad_of nc pad) pmode) bpf_w) = nc + 2 * pad_of nc pad) by lia.
  assert (T2 : ncol (fft_2d (np_pad_all m (pad_of nc pad) pmode) bpf_w) = nc + 2 * pad_of nc pad) by lia.
  intros y x Hy Hx. unfold in_rng in Hy, Hx. rewrite T1 in *. rewrite T2 in *. rewrite slen_id in Hy, Hx by lia. rewrite !py_adj_id by lia.
  cbn [nrow ncol] in Hy, Hx. unfold in_rng in S3. apply S3; lia.
Qed.
Notation bpf := (bpf_reconstruction cosf sinf neglog pi wshape make_circ np_pad_all fft_2d no_name).

Lemma bpf2_spec m order scheds : nrow m = nr -> ncol m = nc -> proper_schedule gpu nr nc (scheds 0) ->
  exists o, bpf (A2 m) center angles ratio ramp_win fname pad pmode apply_log gpu block order scheds = Ok o /\
    caller o = (if apply_log then amap fix_log (A2 m) else A2 m) /\
    exists out, recon o = A2 out /\
    (completed o -> nrow out = nc /\ ncol out = nc /\
      forall y x, 0 <= y < nc -> 0 <= x < nc -> (px out y x == bpf_val m y x)%Q).
Proof using TP PadA F2 Hr Hc Cen Cen' Ang HP B1 B2 PadE FE WS. clear -TP PadA F2 Hr Hc Cen Cen' Ang HP B1 B2 PadE FE WS.
  intros R C PS. unfold bpf_reconstruction. cbn [shape3]. rewrite R, C. rewrite check_ok by (cbn; auto). cbn [bindr].
  destruct (Z.ltb_spec (pad_of nc pad) 0); [lia|]. change (1 =? 1) with true. cbv iota.
  assert (Sq : squeeze2 (if apply_log then amap neglog (if apply_log then amap fix_log (A2 m) else A2 m)
                         else if apply_log then amap fix_log (A2 m) else A2 m) = Ok (logged m)).
  { unfold squeeze2, logged. destruct apply_log; cbn [amap nrow ncol px]; rewrite R, C;
    (destruct (Z.eqb_spec nr 1); [lia|]); (destruct (Z.eqb_spec nc 1); [lia|]); reflexivity. }
  rewrite Sq. cbn [bindr]. fold bpf_w.
  destruct (logged_shape m) as [L1 L2].
  destruct (bp2_spec cosf sinf TP gpu (logged m) ang center block true (scheds 0)) as (out & ts & E & V); try assumption; try lia.
  { rewrite ang_len. lia. } { rewrite L1, L2, R, C. exact PS. }
  rewrite E. cbn [bindr fst snd]. eexists. split; [reflexivity|]. cbn [caller recon]. split; [reflexivity|].
  cbn [is3 finish amap]. eexists. split; [reflexivity|]. intros Cm. destruct (V (Cm ts (or_introl eq_refl))) as (R' & C' & X).
  assert (I : img_Qeq out (bp_image m)).
  { split; [cbn; lia|]. split; [cbn; lia|]. intros y x Hy Hx. unfold in_rng in *. apply X; lia. }
  destruct (cfilt_eq out (bp_image m) no_name fname I) as (_ & _ & G); [lia..|].
  destruct (cfilt_shape out (Some bpf_w) no_name (pad_of nc pad) pmode nc) as [S1 S2]; [lia..|].
  cbn [nrow ncol px].
  split; [destruct ratio; cbn [mul_mask nrow]; lia|]. split; [destruct ratio; cbn [mul_mask ncol]; lia|].
  intros y x Hy Hx. unfold scale_pi, bpf_val, mask_at.
  assert (G' := G y x ltac:(unfold in_rng; lia) ltac:(unfold in_rng; lia)).
  unfold Qdiv. destruct ratio; cbn [mul_mask px]; rewrite G'; [reflexivity|ring].
Qed.

Lemma bpf3_spec v order scheds : dep v = nr -> wid v = nc -> 1 <= hei v ->
  (forall i, 0 <= i < hei v -> proper_schedule gpu nr nc (scheds i)) -> Permutation (zrange 0 (hei v)) order ->
  exists o, bpf (A3 v) center angles ratio ramp_win fname pad pmode apply_log gpu block order scheds = Ok o /\
    caller o = (if apply_log then amap fix_log (A3 v) else A3 v) /\
    exists out, recon o = A3 out /\
    (completed o -> dep out = nc /\ hei out = hei v /\ wid out = nc /\
      forall y j x, 0 <= y < nc -> 0 <= j < hei v -> 0 <= x < nc -> (vx out y j x == bpf_val (sinogram_of v j) y x)%Q).
Proof using TP PadA F2 Hr Hc Cen Cen' Ang HP B1 B2 PadE FE WS. clear -TP PadA F2 Hr Hc Cen Cen' Ang HP B1 B2 PadE FE WS.
  intros R C Hn PS Or. unfold bpf_reconstruction. cbn [shape3]. rewrite R, C. rewrite check_ok by (cbn; auto). cbn [bindr].
  destruct (Z.ltb_spec (pad_of nc pad) 0); [lia|]. fold bpf_w.
  destruct (Z.eqb_spec (hei v) 1) as [H1|H1].
  - assert (Sq : squeeze2 (if apply_log then amap neglog (if apply_log then amap fix_log (A3 v) else A3 v)
                         else if apply_log then amap fix_log (A3 v) else A3 v) = Ok (logged (sinogram_of v 0))).
    { unfold squeeze2, logged. destruct apply_log; cbn [amap dep wid nrow ncol vx]; rewrite R, C;
      (destruct (Z.eqb_spec nr 1); [lia|]); (destruct (Z.eqb_spec nc 1); [lia|]); unfold sinogram_of; cbn [nrow ncol px]; rewrite ?R, ?C; reflexivity. }
    rewrite Sq. cbn [bindr]. set (m := sinogram_of v 0).
    destruct (logged_shape m) as [L1 L2]. assert (Rm : nrow m = nr) by exact R. assert (Cm : ncol m = nc) by exact C.
    destruct (bp2_spec cosf sinf TP gpu (logged m) ang center block true (scheds 0)) as (out & ts & E & V); try assumption; try lia.
    { rewrite ang_len. lia. } { rewrite L1, L2, Rm, Cm. apply PS. lia. }
    rewrite E. cbn [bindr fst snd]. eexists. split; [reflexivity|]. cbn [caller recon]. split; [reflexivity|].
    cbn [is3 finish amap]. eexists. split; [reflexivity|]. intros Co. destruct (V (Co ts (or_introl eq_refl))) as (R' & C' & X).
    assert (I : img_Qeq out (bp_image m)).
    { split; [cbn; lia|]. split; [cbn; lia|]. intros y x Hy Hx. unfold in_rng in *. apply X; lia. }
    destruct (cfilt_eq out (bp_image m) no_name fname I) as (_ & _ & G); [lia..|].
    destruct (cfilt_shape out (Some bpf_w) no_name (pad_of nc pad) pmode nc) as [S1 S2]; [lia..|].
    cbn [dep hei wid vx].
    split; [destruct ratio; cbn [mul_mask nrow]; lia|]. split; [lia|]. split; [destruct ratio; cbn [mul_mask ncol]; lia|].
    intros y j x Hy Hj Hx. assert (j = 0) by lia. subst j. unfold scale_pi, bpf_val, mask_at. fold m.
    assert (G' := G y x ltac:(unfold in_rng; lia) ltac:(unfold in_rng; lia)).
    unfold Qdiv. destruct ratio; cbn [mul_mask px]; rewrite G'; [reflexivity|ring].
  - set (a1 := if apply_log then amap fix_log (A3 v) else A3 v).
    assert (Sv : exists v', (if apply_log then amap neglog a1 else a1) = A3 v' /\ dep v' = nr /\ hei v' = hei v /\ wid v' = nc /\
        forall j, sinogram_of v' j = logged (sinogram_of v j)).
    { unfold a1, logged. destruct apply_log; cbn [amap]; eexists; (split; [reflexivity|]); cbn [dep hei wid]; (split; [exact R|]);
        (split; [reflexivity|]); (split; [exact C|]); intros j; reflexivity. }
    destruct Sv as (v' & -> & D1 & D2 & D3 & Sl).
    destruct (bp3_spec cosf sinf TP gpu v' ang center block true scheds) as (out & tss & E & O1 & O2 & O3 & X); try assumption; try lia.
    { rewrite ang_len. lia. } { rewrite D1, D2, D3. exact PS. }
    rewrite E. cbn [bindr fst snd].
    destruct (pps_correct (fun m => cfilt m (Some bpf_w) fname (Some (pad_of nc pad)) pmode) out 1 order nc nc) as (u & Eu & Cn & Su).
    { right. left. reflexivity. }
    { change (slices_count out 1) with (hei out). rewrite O2, D2. exact Or. }
    { change (slices_count out 1) with (hei out). lia. }
    { intros j _. destruct (cfilt_shape (vslice_axis out 1 j) (Some bpf_w) fname (pad_of nc pad) pmode nc) as [-> ->];
        change (nrow (vslice_axis out 1 j)) with (dep out); change (ncol (vslice_axis out 1 j)) with (wid out); lia. }
    rewrite Eu. cbn [bindr]. change (slices_count out 1) with (hei out) in *. change (slices_count u 1) with (hei u) in *.
    assert (Sh : dep u = nc /\ wid u = nc).
    { destruct (Su 0) as (S1 & S2 & _); [unfold in_rng; lia|].
      change (nrow (vslice_axis u 1 0)) with (dep u) in S1. change (ncol (vslice_axis u 1 0)) with (wid u) in S2.
      destruct (cfilt_shape (vslice_axis out 1 0) (Some bpf_w) fname (pad_of nc pad) pmode nc) as [Q1 Q2];
        try (change (nrow (vslice_axis out 1 0)) with (dep out)); try (change (ncol (vslice_axis out 1 0)) with (wid out)); lia. }
    destruct Sh as [Sh1 Sh2].
    eexists. split; [reflexivity|]. cbn [caller recon amap]. split; [reflexivity|].
    eexists. split; [reflexivity|]. intros Co. specialize (X Co). cbn [dep hei wid vx].
    split; [destruct ratio; cbn [mul_mask3 dep]; lia|]. split; [destruct ratio; cbn [mul_mask3 hei]; lia|]. split; [destruct ratio; cbn [mul_mask3 wid]; lia|].
    intros y j x Hy Hj Hx. unfold scale_pi, bpf_val, mask_at. rewrite D2, D3 in X.
    destruct (Su j) as (_ & _ & Su'); [unfold in_rng; lia|]. specialize (Su' y x).
    change (px (vslice_axis u 1 j) y x) with (vx u y j x) in Su'.
    change (nrow (vslice_axis u 1 j)) with (dep u) in Su'. change (ncol (vslice_axis u 1 j)) with (wid u) in Su'.
    specialize (Su' ltac:(unfold in_rng; lia) ltac:(unfold in_rng; lia)).
    assert (I : img_Qeq (vslice_axis out 1 j) (bp_image (sinogram_of v j))).
    { split; [change (dep out = nc); lia|]. split; [change (wid out = nc); lia|]. intros y' x' Hy' Hx'. unfold in_rng in *.
      change (nrow (vslice_axis out 1 j)) with (dep out) in Hy'. change (ncol (vslice_axis out 1 j)) with (wid out) in Hx'.
      change (px (vslice_axis out 1 j) y' x') with (vx out y' j x'). rewrite X by lia. rewrite Sl. reflexivity. }
    destruct (cfilt_eq (vslice_axis out 1 j) (bp_image (sinogram_of v j)) fname fname I) as (_ & _ & G); [change (dep out = nc); lia|change (wid out = nc); lia|].
    destruct (cfilt_shape (vslice_axis out 1 j) (Some bpf_w) fname (pad_of nc pad) pmode nc) as [Q1 Q2];
        [change (dep out = nc); lia|change (wid out = nc); lia|lia|lia|].
    assert (G' := G y x ltac:(unfold in_rng; lia) ltac:(unfold in_rng; lia)).
    assert (Y : (vx u y j x == px (cfilt (bp_image (sinogram_of v j)) (Some bpf_w) fname (Some (pad_of nc pad)) pmode) y x)%Q) by (rewrite Su'; exact G').
    unfold Qdiv. destruct ratio; cbn [mul_mask3 vx]; rewrite Y; [reflexivity|ring].
Qed.
End args.
End F.
