(** C125, C126: gridrec_reconstruction and astra_reconstruction. *)
From Verif Require Import Np M_utility M_conversion M_recon P_Np P_metric P_utility P_recon M_extrec S_recon S_extrec P_extrec.
From Coq Require Import QArith Qround Lqa Lia ZArith Bool String.
From Coq Require Import List. Import ListNotations.
Open Scope Z_scope.

(** C125: what tomopy is given and what is returned: the sinogram (after the logarithm) is widened to a power of two (not twice the
    width asked for) by continuing its border columns, about equally on both sides and by at least [pad] columns on each; the axis
    is moved along; the middle of the slices is returned, masked outside the circle; 2D for a sinogram, 3D for a stack *)
Theorem gridrec_reconstructs_the_widened_sinogram :
  forall (neglog : Q -> Q) (pi : Q) (tomopy : vol Q -> vec Q -> Q -> string -> Q -> Z -> vol Q) a center angles ratio fname lg pad fpar cpu ncore,
  (forall ang c f p n, square_slices (fun v => tomopy v ang c f p n)) ->
  2 <= cols a -> 0 <= count a -> (0 <= center)%Q -> (center < inject_Z (cols a))%Q ->
  (forall v, angles = Some v -> vlen v = rows a) -> (forall p, pad = PadInt p -> 0 <= p) ->
  exists l r out, fst (gridrec_reconstruction neglog pi tomopy a center angles ratio fname lg pad fpar cpu ncore) = Ok out /\
    match pad with
    | PadBool false => l = 0 /\ r = 0
    | _ => let least := match pad with PadInt p => cols a + 2 * p | PadBool _ => cols a end in
           (exists k, 0 <= k /\ cols a + l + r = 2 ^ k) /\ least <= cols a + l + r < 2 * least /\ 0 <= l /\ l <= r <= l + 1 /\
           (forall p, pad = PadInt p -> p <= l)
    end /\
    same_kind out a /\ rows out = cols a /\ cols out = cols a /\ count out = count a /\
    forall y j x, in_rng (cols a) y -> in_rng (count a) j -> in_rng (cols a) x ->
    (entry out y j x == if inside_circle (cols a) (used_ratio (cols a) center ratio) y x
       then vx (tomopy (widened lg neglog a l r) (used_angles pi (rows a) angles) (center + inject_Z l)%Q
                 (match fname with None => "shepp"%string | Some f => f end) fpar
                 (match ncore with None => Z.max (cpu - 1) 1 | Some n => Z.max n 1 end)) j (l + y) (l + x) else 0)%Q.
Proof.
  intros neglog pi R a center angles ratio fname lg pad fpar cpu ncore HR Hc Hn C0 C1 Ha Hp.
  assert (X : exists l r, gridrec_pads (cols a) pad = Ok (l, r) /\ 0 <= l /\ 0 <= r /\
    match pad with
    | PadBool false => l = 0 /\ r = 0
    | _ => let least := match pad with PadInt p => cols a + 2 * p | PadBool _ => cols a end in
           (exists k, 0 <= k /\ cols a + l + r = 2 ^ k) /\ least <= cols a + l + r < 2 * least /\ 0 <= l /\ l <= r <= l + 1 /\
           (forall p, pad = PadInt p -> p <= l)
    end).
  { destruct pad as [ [|]|p].
    - destruct (pads_spec (cols a) (PadBool true)) as (l & r & k & E & W & K & B & L & D & P); [lia|exact Hp|discriminate|].
      exists l, r. cbn [wanted] in B. repeat (split; [assumption||lia|]). split; [exists k; auto|]. repeat (split; [assumption|]). exact P.
    - exists 0, 0. repeat split; lia.
    - destruct (pads_spec (cols a) (PadInt p)) as (l & r & k & E & W & K & B & L & D & P); [lia|exact Hp|discriminate|].
      exists l, r. cbn [wanted] in B. repeat (split; [assumption||lia|]). split; [exists k; auto|]. repeat (split; [assumption|]). exact P. }
  destruct X as (l & r & E & L & Rr & X).
  destruct (gridrec_spec neglog pi R HR a center angles ratio fname lg pad fpar cpu ncore l r Hc Hn C0 C1 Ha E L Rr) as (out & Eo & S1 & S2 & S3 & S4 & V).
  exists l, r, out. split; [exact Eo|]. split; [exact X|]. repeat (split; [assumption|]). exact V.
Qed.
Print Assumptions gridrec_reconstructs_the_widened_sinogram.
(** a stack is reconstructed slice by slice (if tomopy does), for every number of cores *)
Theorem gridrec_of_a_stack_is_slice_by_slice :
  forall (neglog : Q -> Q) (pi : Q) (tomopy : vol Q -> vec Q -> Q -> string -> Q -> Z -> vol Q) (v : vol Q) j center angles ratio fname lg pad fpar cpu cpu' ncore,
  (forall ang c f p n, square_slices (fun v => tomopy v ang c f p n)) -> (forall ang c f p n, one_by_one (fun v => tomopy v ang c f p n)) ->
  (forall v ang c f p n n', tomopy v ang c f p n = tomopy v ang c f p n') ->
  2 <= wid v -> in_rng (hei v) j -> (0 <= center)%Q -> (center < inject_Z (wid v))%Q ->
  (forall w, angles = Some w -> vlen w = dep v) -> (forall p, pad = PadInt p -> 0 <= p) ->
  exists out out', fst (gridrec_reconstruction neglog pi tomopy (A3 v) center angles ratio fname lg pad fpar cpu ncore) = Ok (A3 out) /\
    fst (gridrec_reconstruction neglog pi tomopy (A2 (sinogram_of v j)) center angles ratio fname lg pad fpar cpu' ncore) = Ok (A2 out') /\
    hei out = hei v /\ nrow out' = wid v /\ ncol out' = wid v /\
    forall y x, in_rng (wid v) y -> in_rng (wid v) x -> (vx out y j x == px out' y x)%Q.
Proof.
  intros neglog pi R v j center angles ratio fname lg pad fpar cpu cpu' ncore HR OB NC Hc Hj C0 C1 Ha Hp.
  assert (X : exists l r, gridrec_pads (wid v) pad = Ok (l, r) /\ 0 <= l /\ 0 <= r).
  { destruct pad as [ [|]|p].
    - destruct (pads_spec (wid v) (PadBool true)) as (l & r & k & E & W & K & B & L & D & P); [lia|exact Hp|discriminate|]. exists l, r. repeat split; lia || exact E.
    - exists 0, 0. repeat split; lia.
    - destruct (pads_spec (wid v) (PadInt p)) as (l & r & k & E & W & K & B & L & D & P); [lia|exact Hp|discriminate|]. exists l, r. repeat split; lia || exact E. }
  destruct X as (l & r & E & L & Rr).
  assert (H3 : 0 <= count (A3 v)) by (cbn [count]; unfold in_rng in Hj; lia).
  assert (H2 : 0 <= count (A2 (sinogram_of v j))) by (cbn; lia).
  destruct (gridrec_spec neglog pi R HR (A3 v) center angles ratio fname lg pad fpar cpu ncore l r Hc H3 C0 C1 Ha E L Rr) as (out & Eo & S1 & S2 & S3 & S4 & V).
  destruct (gridrec_spec neglog pi R HR (A2 (sinogram_of v j)) center angles ratio fname lg pad fpar cpu' ncore l r Hc H2 C0 C1 Ha E L Rr) as (out' & Eo' & S1' & S2' & S3' & S4' & V').
  destruct out as [|o]; [contradiction S1|]. destruct out' as [o'|]; [|contradiction S1'].
  exists o, o'. split; [exact Eo|]. split; [exact Eo'|]. split; [exact S4|]. split; [exact S2'|]. split; [exact S3'|].
  intros y x Hy Hx.
  exact (gridrec_slices neglog pi R HR (A3 v) (A2 (sinogram_of v j)) center angles ratio fname lg pad fpar cpu cpu' ncore l r j 0 _ _
    OB NC Hc H3 H2 C0 C1 Ha E L Rr eq_refl eq_refl Hj (conj (Z.le_refl 0) Z.lt_0_1) (fun i k _ _ => eq_refl) Eo Eo' y x Hy Hx).
Qed.
Print Assumptions gridrec_of_a_stack_is_slice_by_slice.
(** a wrong number of angles, a centre outside the image or a negative pad are refused *)
Theorem gridrec_rejects_arguments_that_do_not_fit :
  forall (neglog : Q -> Q) (pi : Q) (tomopy : vol Q -> vec Q -> Q -> string -> Q -> Z -> vol Q) a center angles ratio fname lg pad fpar cpu ncore,
  2 <= cols a ->
  (exists v, angles = Some v /\ vlen v <> rows a) \/ (center < 0)%Q \/ (inject_Z (cols a) <= center)%Q \/ (exists p, pad = PadInt p /\ p <= - cols a / 2) ->
  fst (gridrec_reconstruction neglog pi tomopy a center angles ratio fname lg pad fpar cpu ncore) = Err ValueError.
Proof.
  intros neglog pi R a center angles ratio fname lg pad fpar cpu ncore Hc H. unfold gridrec_reconstruction.
  assert (Es : shape3 a = (rows a, count a, cols a)) by (destruct a; reflexivity). rewrite Es.
  destruct (the_angles pi (rows a) angles) as [ang|e] eqn:Ea; cbn [fst].
  2:{ unfold the_angles in Ea. destruct angles as [v|]; [|discriminate]. destruct (vlen v =? rows a); congruence. }
  destruct H as [ (v & -> & Hv) | [H | [H | (p & -> & Hp)] ] ].
  - unfold the_angles in Ea. replace (vlen v =? rows a) with false in Ea by lia. discriminate.
  - replace (Qltb center 0) with true by (symmetry; apply Qltb_lt; exact H). reflexivity.
  - replace (Qle_bool (inject_Z (cols a)) center) with true by (symmetry; apply Qle_bool_iff; exact H). rewrite orb_true_r. reflexivity.
  - destruct (Qltb center 0 || _); [reflexivity|]. cbn [gridrec_pads]. unfold power2_up.
    assert (cols a + 2 * p <= 0). { pose proof (Z.div_mod (- cols a) 2 ltac:(lia)). pose proof (Z.mod_pos_bound (- cols a) 2 ltac:(lia)). lia. }
    replace (cols a + 2 * p <=? 0) with true by lia. reflexivity.
Qed.
Print Assumptions gridrec_rejects_arguments_that_do_not_fit.
(** a call that is refused has already overwritten the caller's sinogram *)
Theorem gridrec_refused_call_leaves_the_sinogram_alone_refuted :
  forall (neglog : Q -> Q) (pi : Q) (tomopy : vol Q -> vec Q -> Q -> string -> Q -> Z -> vol Q) ratio fname pad fpar cpu ncore,
  exists a center, let call := gridrec_reconstruction neglog pi tomopy a center None ratio fname true pad fpar cpu ncore in
    fst call = Err ValueError /\ (entry a 0 0 0 == 0)%Q /\ (entry (snd call) 0 0 0 == 1)%Q.
Proof.
  intros. exists (A2 (mkimg 2 4 (fun _ j => inject_Z j))), 9%Q. cbn zeta. unfold gridrec_reconstruction. cbn [shape3 the_angles nrow ncol].
  replace (Qltb 9 0 || Qle_bool (inject_Z 4) 9) with true by reflexivity. split; [reflexivity|]. split; reflexivity.
Qed.
Print Assumptions gridrec_refused_call_leaves_the_sinogram_alone_refuted.
(** without values <= 0, or without the logarithm, no call changes the sinogram *)
Theorem gridrec_keeps_the_sinogram_partial :
  forall (neglog : Q -> Q) (pi : Q) (tomopy : vol Q -> vec Q -> Q -> string -> Q -> Z -> vol Q) a center angles ratio fname lg pad fpar cpu ncore,
  lg = false \/ all_positive a ->
  same_array (snd (gridrec_reconstruction neglog pi tomopy a center angles ratio fname lg pad fpar cpu ncore)) a.
Proof.
  intros neglog pi R a center angles ratio fname lg pad fpar cpu ncore H. unfold gridrec_reconstruction.
  assert (Es : shape3 a = (rows a, count a, cols a)) by (destruct a; reflexivity). rewrite Es.
  assert (Sa : same_array a a) by (destruct a; cbn; repeat split; intros; reflexivity).
  destruct (the_angles pi (rows a) angles); [|exact Sa]. cbn [snd].
  destruct lg; [|exact Sa]. destruct H as [H|H]; [discriminate|].
  assert (F : forall q, (0 < q)%Q -> fix_log q = q).
  { intros q Hq. unfold fix_log. destruct (Qle_bool q 0) eqn:E; [|reflexivity]. apply Qle_bool_iff in E. lra. }
  destruct a; cbn [same_array amap all_positive] in *; repeat split; intros; cbn [px vx]; rewrite F; try reflexivity; apply H; assumption.
Qed.
Print Assumptions gridrec_keeps_the_sinogram_partial.
(** the hypotheses on tomopy are met, and a concrete call *)
Definition sum_slices : vol Q -> vec Q -> Q -> string -> Q -> Z -> vol Q :=
  fun v _ _ _ _ _ => mkvol (hei v) (wid v) (wid v) (fun j y x => (qsum (dep v) (fun i => vx v i j x) + inject_Z y)%Q).
Lemma qsumn_eq k f g : (forall i, 0 <= i < Z.of_nat k -> f i = g i) -> qsumn k f = qsumn k g.
Proof. induction k; intros H; cbn; [reflexivity|]. rewrite IHk by (intros; apply H; lia). rewrite H by lia. reflexivity. Qed.
Example ex_gridrec :
  (forall ang c f p n, square_slices (fun v => sum_slices v ang c f p n)) /\ (forall ang c f p n, one_by_one (fun v => sum_slices v ang c f p n)) /\
  match gridrec_reconstruction (fun q => q) 3 sum_slices (A2 (mkimg 2 3 (fun _ j => inject_Z (j + 1)))) 1 None None None true (PadInt 2) (9#10) 4 None with
  | (Ok (A2 out), _) => (nrow out, ncol out, map (px out 0) (zrange 0 3)) = (3, 3, [4; 6; 8]%Q)
  | _ => False
  end.
Proof.
  split; [repeat split|]. split; [|vm_compute; reflexivity].
  intros ang c f p n u v a b Ha Hb D W E y x Hy Hx. cbn [sum_slices vx]. f_equal. rewrite <- D. unfold qsum. apply qsumn_eq.
  intros i Hi. apply E; [unfold in_rng; lia|exact Hx].
Qed.

(** C126: what astra is given and what is returned.  [presented]: the sinogram widened by [p] columns on both sides and moved by scipy *)
Theorem astra_reconstructs_the_centred_sinogram :
  forall (neglog : Q -> Q) (pi : Q) (shift : img Q -> Q -> img Q) (run : string -> option string -> Z -> vec Q -> img Q -> res (img Q))
    has_gpu a center angles ratio method iter fname pad lg ncore m,
  (forall m d, nrow (shift m d) = nrow m /\ ncol (shift m d) = ncol m) ->
  1 <= cols a -> 1 <= count a -> (0 <= center)%Q -> (center < inject_Z (cols a))%Q ->
  (forall v, angles = Some v -> vlen v = rows a) -> chosen has_gpu method m ->
  let p := margin (cols a) pad in
  let f := match fname with None => "ram-lak"%string | Some f => f end in
  (forall s, exists r, run m (handed_filter m f) iter (used_angles pi (rows a) angles) s = Ok r /\ nrow r = ncol s /\ ncol r = ncol s) ->
  exists out, fst (astra_reconstruction neglog pi has_gpu shift run a center angles ratio method iter fname pad lg ncore) = Ok out /\
    same_kind out a /\ rows out = cols a /\ cols out = cols a /\ count out = count a /\
    forall j, in_rng (count a) j -> exists r,
      run m (handed_filter m f) iter (used_angles pi (rows a) angles) (presented shift lg neglog a center p j) = Ok r /\
      forall y x, in_rng (cols a) y -> in_rng (cols a) x ->
      (entry out y j x == if inside_circle (cols a) (used_ratio (cols a) center ratio) y x then px r (p + y)%Z (p + x)%Z else 0)%Q.
Proof.
  intros neglog pi shift run hg a center angles ratio method it fname pad lg ncore m HS Hc Hn C0 C1 Ha Hm. destruct (chosen_selected _ _ _ Hm) as [g Hg].
  rewrite <- (margin_is (cols a) pad) by lia. exact (astra_spec neglog pi shift run HS hg a center angles ratio method it fname pad lg ncore m g Hc Hn C0 C1 Ha Hg).
Qed.
Print Assumptions astra_reconstructs_the_centred_sinogram.
(** the axis comes to the middle column of what astra is given: with an exact shift by whole pixels, the column at distance u from
    the middle is the column at distance u from the axis (beyond the borders, the border column) *)
Theorem astra_sees_the_axis_in_the_middle :
  forall shift lg neglog a center p j d, exact_shift shift -> 1 <= cols a -> 0 <= p ->
  ((inject_Z (cols a) - 1) / 2 == center + inject_Z d)%Q ->
  forall i k, in_rng (rows a) i -> in_rng (cols a + 2 * p) k ->
  px (presented shift lg neglog a center p j) i k = beyond_edge (cols a) (fun q => logged lg neglog (entry a i j q)) (k - d - p) /\
  (inject_Z (k - d - p) - center == inject_Z k - (inject_Z (cols a + 2 * p) - 1) / 2)%Q.
Proof.
  intros shift lg neglog a center p j d HX Hc Hp Hd i k Hi Hk. split; [apply presented_exact; assumption|].
  unfold Z.sub. rewrite !inject_Z_plus, !inject_Z_opp, inject_Z_mult. change (inject_Z 2) with 2%Q.
  assert (E : (center == (inject_Z (cols a) - 1) / 2 - inject_Z d)%Q) by (rewrite Hd; ring). rewrite E. field.
Qed.
Print Assumptions astra_sees_the_axis_in_the_middle.
(** a stack is reconstructed slice by slice, for every number of cores *)
Theorem astra_of_a_stack_is_slice_by_slice :
  forall (neglog : Q -> Q) (pi : Q) (shift : img Q -> Q -> img Q) (run : string -> option string -> Z -> vec Q -> img Q -> res (img Q))
    has_gpu (v : vol Q) j center angles ratio method iter fname pad lg ncore ncore' m,
  (forall m d, nrow (shift m d) = nrow m /\ ncol (shift m d) = ncol m) ->
  1 <= wid v -> in_rng (hei v) j -> (0 <= center)%Q -> (center < inject_Z (wid v))%Q ->
  (forall w, angles = Some w -> vlen w = dep v) -> chosen has_gpu method m ->
  (forall filt ang s, exists r, run m filt iter ang s = Ok r /\ nrow r = ncol s /\ ncol r = ncol s) ->
  exists out out', fst (astra_reconstruction neglog pi has_gpu shift run (A3 v) center angles ratio method iter fname pad lg ncore) = Ok (A3 out) /\
    fst (astra_reconstruction neglog pi has_gpu shift run (A2 (sinogram_of v j)) center angles ratio method iter fname pad lg ncore') = Ok (A2 out') /\
    hei out = hei v /\ nrow out' = wid v /\ ncol out' = wid v /\
    forall y x, in_rng (wid v) y -> in_rng (wid v) x -> (vx out y j x == px out' y x)%Q.
Proof.
  intros neglog pi shift run hg v j center angles ratio method it fname pad lg ncore ncore' m HS Hc Hj C0 C1 Ha Hm0 Hrun. destruct (chosen_selected _ _ _ Hm0) as [g Hm].
  assert (H3 : 1 <= count (A3 v)) by (cbn [count]; unfold in_rng in Hj; lia).
  assert (H2 : 1 <= count (A2 (sinogram_of v j))) by (cbn; lia).
  destruct (astra_spec neglog pi shift run HS hg (A3 v) center angles ratio method it fname pad lg ncore m g Hc H3 C0 C1 Ha Hm (Hrun _ _)) as (out & Eo & S1 & S2 & S3 & S4 & V).
  destruct (astra_spec neglog pi shift run HS hg (A2 (sinogram_of v j)) center angles ratio method it fname pad lg ncore' m g Hc H2 C0 C1 Ha Hm (Hrun _ _)) as (out' & Eo' & S1' & S2' & S3' & S4' & V').
  destruct out as [|o]; [contradiction S1|]. destruct out' as [o'|]; [|contradiction S1'].
  exists o, o'. split; [exact Eo|]. split; [exact Eo'|]. split; [exact S4|]. split; [exact S2'|]. split; [exact S3'|].
  intros y x Hy Hx. destruct (V j Hj) as (r & Er & P). destruct (V' 0 (conj (Z.le_refl 0) Z.lt_0_1)) as (r' & Er' & P').
  assert (r = r').
  { assert (K : Ok r = Ok r'); [|congruence]. rewrite <- Er, <- Er'. reflexivity. }
  subst r'. specialize (P y x Hy Hx). specialize (P' y x Hy Hx). cbn [entry] in P, P'. rewrite P, P'. reflexivity.
Qed.
Print Assumptions astra_of_a_stack_is_slice_by_slice.
(** which methods are run: on a machine with a GPU exactly the documented ones *)
Theorem astra_accepts_exactly_the_documented_methods_with_a_gpu :
  forall method, (known_cpu method -> select_method true method = Ok (method, false)) /\ (known_gpu method -> select_method true method = Ok (method, true)) /\
  (~ known_cpu method -> ~ known_gpu method -> select_method true method = Err ValueError).
Proof.
  intros method. split; [|split].
  - intros H. cbn in H. repeat (destruct H as [<-|H]; [reflexivity|]). contradiction.
  - intros H. cbn in H. repeat (destruct H as [<-|H]; [reflexivity|]). contradiction.
  - intros N1 N2. destruct (select_method true method) as [ [m g]|e] eqn:E.
    + exfalso. assert (m = method) as ->.
      { unfold select_method in E. destruct (contains "CUDA" method); destruct (listed method _) in E; congruence. }
      apply select_in in E. destruct g; [apply N2|apply N1]; exact E.
    + unfold select_method in E. destruct (contains "CUDA" method); destruct (listed method _) in E; congruence.
Qed.
Print Assumptions astra_accepts_exactly_the_documented_methods_with_a_gpu.
(** without a GPU the CPU version of a method is run, with the same result as asking for it *)
Theorem astra_without_a_gpu_runs_the_cpu_method :
  forall (neglog : Q -> Q) (pi : Q) (shift : img Q -> Q -> img Q) (run : string -> option string -> Z -> vec Q -> img Q -> res (img Q))
    a center angles ratio method iter fname pad lg ncore, In method ["BP"; "FBP"; "SIRT"; "SART"; "CGLS"]%string ->
  astra_reconstruction neglog pi false shift run a center angles ratio (method ++ "_CUDA") iter fname pad lg ncore =
  astra_reconstruction neglog pi false shift run a center angles ratio method iter fname pad lg ncore.
Proof.
  intros. unfold astra_reconstruction. destruct (shape3 a) as [ [nr ns] nc]. destruct (the_angles pi nr angles); [|reflexivity].
  assert (E : select_method false (method ++ "_CUDA") = select_method false method).
  { cbn in H. repeat (destruct H as [<-|H]; [reflexivity|]). contradiction. }
  rewrite E. reflexivity.
Qed.
Print Assumptions astra_without_a_gpu_runs_the_cpu_method.
(** ... and names that do not exist are accepted: ART_CUDA is refused on a machine with a GPU and runs as ART on a machine without *)
Theorem astra_accepts_the_same_methods_without_a_gpu_refuted :
  select_method true "ART_CUDA" = Err ValueError /\ select_method false "ART_CUDA" = Ok ("ART"%string, false) /\
  select_method true "FB_CUDAP" = Err ValueError /\ select_method false "FB_CUDAP" = Ok ("FBP"%string, false) /\
  select_method true "EM_CUDA" = Ok ("EM_CUDA"%string, true) /\ select_method false "EM_CUDA" = Err ValueError.
Proof. repeat split; vm_compute; reflexivity. Qed.
Print Assumptions astra_accepts_the_same_methods_without_a_gpu_refuted.
(** wrong arguments are refused before the sinogram is touched *)
Theorem astra_refused_call_leaves_the_sinogram_alone :
  forall (neglog : Q -> Q) (pi : Q) (shift : img Q -> Q -> img Q) (run : string -> option string -> Z -> vec Q -> img Q -> res (img Q))
    has_gpu a center angles ratio method iter fname pad lg ncore,
  (exists v, angles = Some v /\ vlen v <> rows a) \/ (center < 0)%Q \/ (inject_Z (cols a) <= center)%Q \/ is_ok (select_method has_gpu method) = false ->
  astra_reconstruction neglog pi has_gpu shift run a center angles ratio method iter fname pad lg ncore = (Err ValueError, a).
Proof.
  intros neglog pi shift run hg a center angles ratio method it fname pad lg ncore H. unfold astra_reconstruction.
  assert (Es : shape3 a = (rows a, count a, cols a)) by (destruct a; reflexivity). rewrite Es.
  destruct (the_angles pi (rows a) angles) as [ang|e] eqn:Ea.
  2:{ unfold the_angles in Ea. destruct angles as [v|]; [|discriminate]. destruct (vlen v =? rows a); congruence. }
  destruct (select_method hg method) as [ [m g]|e] eqn:Em.
  2:{ unfold select_method in Em. destruct (contains "CUDA" method); [destruct hg|]; repeat match type of Em with context [if ?b then _ else _] => destruct b end; congruence. }
  destruct H as [ (v & -> & Hv) | [H | [H | H] ] ]; [| | |discriminate].
  - unfold the_angles in Ea. replace (vlen v =? rows a) with false in Ea by lia. discriminate.
  - replace (Qltb center 0) with true by (symmetry; apply Qltb_lt; exact H). reflexivity.
  - replace (Qle_bool (inject_Z (cols a)) center) with true by (symmetry; apply Qle_bool_iff; exact H). rewrite orb_true_r. reflexivity.
Qed.
Print Assumptions astra_refused_call_leaves_the_sinogram_alone.
(** a successful call with the logarithm overwrites values <= 0 in the caller's array *)
Theorem astra_leaves_the_sinogram_alone_refuted :
  forall (neglog : Q -> Q) (pi : Q) (shift : img Q -> Q -> img Q) (run : string -> option string -> Z -> vec Q -> img Q -> res (img Q)) ratio fname pad ncore iter,
  exists a, (entry a 0 0 0 == 0)%Q /\ (entry (snd (astra_reconstruction neglog pi true shift run a 1 None ratio "FBP_CUDA" iter fname pad true ncore)) 0 0 0 == 1)%Q.
Proof. intros. exists (A2 (mkimg 2 4 (fun _ j => inject_Z j))). split; reflexivity. Qed.
Print Assumptions astra_leaves_the_sinogram_alone_refuted.
(** a concrete shift and algorithm meet the hypotheses *)
Definition whole_shift (m : img Q) (d : Q) : img Q := mkimg (nrow m) (ncol m) (fun i k => beyond_edge (ncol m) (px m i) (k - Qfloor d)).
Definition top_row (m : string) (f : option string) (n : Z) (ang : vec Q) (s : img Q) : res (img Q) :=
  Ok (mkimg (ncol s) (ncol s) (fun y x => (px s 0 x + inject_Z y)%Q)).
Example ex_astra : exact_shift whole_shift /\
  (forall m f n ang s, exists r, top_row m f n ang s = Ok r /\ nrow r = ncol s /\ ncol r = ncol s) /\
  match astra_reconstruction (fun q => q) 3 true whole_shift top_row (A2 (mkimg 2 5 (fun _ j => inject_Z (j + 1)))) 1 None None "FBP_CUDA" 1 None (Some 2) true None with
  | (Ok (A2 out), _) => (nrow out, ncol out, map (px out 0) (zrange 0 5)) = (5, 5, [3; 3; 4; 5; 6]%Q)
  | _ => False
  end.
Proof.
  split.
  { split; [split; reflexivity|]. intros m d n E i k Hi Hk. cbn [whole_shift px]. rewrite E, Qfloor_Z. reflexivity. }
  split; [intros; eexists; repeat split|vm_compute; reflexivity].
Qed.
