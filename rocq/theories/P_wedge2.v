(** More proofs about the double-wedge filter: symmetries, the function itself. *)
From Coq Require Import Reals Lra ZArith Lia Bool.
From Verif Require Import Np P_Np M_phase_R P_phase_R M_simR P_simR M_fourier P_fourier P_kernel M_fresnel S_fresnel P_fresnel P_fresnel2 M_wedge S_wedge P_wedge.
Open Scope Z_scope.

Lemma rsum_neg n F : 0 < n -> rsum n (fun v => F ((- v) mod n)) = rsum n F.
Proof.
  intros Hn. assert (X := csum_cyclic n 1 (fun k => c_ (F k)) Hn). apply (f_equal fst) in X. unfold csum, c_ in X. cbn [fst] in X. change (rsum n F) with (rsum n (fun k => F k)). rewrite <- X.
  rewrite <- (rsum_rev n) by lia. apply rsum_ext. intros v _. f_equal. rewrite <- (Z_mod_plus_full (- (n - 1 - v)) 1 n). f_equal. lia.
Qed.
Lemma kernel_flip h w V d e : 0 < w -> (forall u v, in_rng h u -> in_rng w v -> V u ((- v) mod w) = V u v) -> kernel h w V d (- e) = kernel h w V d e.
Proof.
  intros Hw HV. unfold kernel. f_equal. apply rsum_ext. intros u Hu. rewrite <- (rsum_neg w) by exact Hw. apply rsum_ext. intros v Hv. rewrite HV by assumption. f_equal.
  rewrite (root_mod w ((- v) mod w * - e) (v * e)); [reflexivity|lia|]. rewrite Z.mul_mod_idemp_l by lia. f_equal. ring.
Qed.
Lemma default_flip height width radius u v : 0 < height -> 0 < width -> radius <> 0%R -> in_rng height u -> in_rng width v ->
  weights (make_double_wedge_mask height width radius) height width u ((- v) mod width) = weights (make_double_wedge_mask height width radius) height width u v.
Proof.
  intros Hh Hw Hr Hu Hv. unfold weights. assert (I : forall n k, 0 < n -> in_rng n (ifftshift_idx n k)) by (intros n k Hn; apply Z.mod_pos_bound; exact Hn).
  set (i := ifftshift_idx height u). assert (Hi : in_rng height i) by (apply I; exact Hh).
  rewrite !(mask_at height width radius i _ _ Hh Hw Hr Hi (I width _ Hw) (rceil_spec _)).
  assert (E : Z.abs (ifftshift_idx width ((- v) mod width) - width / 2) = Z.abs (ifftshift_idx width v - width / 2)); [|rewrite E; reflexivity].
  unfold in_rng in Hv. assert (X := Z.div_mod width 2 ltac:(lia)). assert (Y := Z.mod_pos_bound width 2 ltac:(lia)). unfold ifftshift_idx. rewrite Z.add_mod_idemp_l by lia. set (c := width / 2) in *.
  assert (J1 : (v + c) mod width = if v + c <? width then v + c else v + c - width).
  { destruct (Z.ltb_spec (v + c) width); [apply Z.mod_small; lia|]. rewrite <- (Z_mod_plus_full (v + c) (-1) width). rewrite Z.mod_small by lia. lia. }
  assert (J2 : (- v + c) mod width = if v <=? c then c - v else c - v + width).
  { destruct (Z.leb_spec v c); [rewrite Z.mod_small by lia; lia|]. rewrite <- (Z_mod_plus_full (- v + c) 1 width). rewrite Z.mod_small by lia. lia. }
  rewrite J1, J2. destruct (Z.ltb_spec (v + c) width), (Z.leb_spec v c); lia.
Qed.
Lemma wstep_mirror mask pad s t : 0 <= pad -> 0 < nrow s -> 0 < ncol s -> mirrored s t ->
  (forall u v, in_rng (nrow s) u -> in_rng (ncol s + 2 * pad) v -> weights mask (nrow s) (ncol s + 2 * pad) u ((- v) mod (ncol s + 2 * pad)) = weights mask (nrow s) (ncol s + 2 * pad) u v) ->
  mirrored (wedge_step mask pad s) (wedge_step mask pad t).
Proof.
  intros Hp Hr Hc (R1 & R2 & H) HV. destruct (wstep_size mask pad s Hp ltac:(lia) ltac:(lia)) as (A & B). destruct (wstep_size mask pad t Hp ltac:(lia) ltac:(lia)) as (C & D).
  split; [congruence|]. split; [congruence|]. intros i j Hi Hj. rewrite C in Hi. rewrite D in Hj. rewrite R1 in Hi. rewrite R2 in Hj. unfold in_rng in Hi, Hj. rewrite B.
  rewrite !wstep_at by (unfold in_rng; rewrite ?R1, ?R2; lia). rewrite R1, R2. set (h := nrow s) in *. set (w := ncol s + 2 * pad) in *. rewrite !spectral_real.
  apply rsum_ext. intros a Ha. rewrite <- (rsum_rev w) by (unfold w; lia). apply rsum_ext. intros b Hb. f_equal.
  - rewrite !padded by (unfold in_rng; rewrite ?R1, ?R2; lia). rewrite H by (unfold in_rng, clipZ; rewrite ?R1, ?R2; lia). rewrite R2. f_equal. unfold clipZ, w. lia.
  - rewrite <- (kernel_flip h w _ (i - a) (ncol s - 1 - j + pad - b)) by (unfold w in *; try lia; exact HV). f_equal. unfold w. lia.
Qed.
Lemma wstep_half_turn mask pad s t : 0 <= pad -> 0 < nrow s -> 0 < ncol s -> half_turned s t -> half_turned (wedge_step mask pad s) (wedge_step mask pad t).
Proof.
  intros Hp Hr Hc (R1 & R2 & H). destruct (wstep_size mask pad s Hp ltac:(lia) ltac:(lia)) as (A & B). destruct (wstep_size mask pad t Hp ltac:(lia) ltac:(lia)) as (C & D).
  split; [congruence|]. split; [congruence|]. intros i j Hi Hj. rewrite C in Hi. rewrite D in Hj. rewrite R1 in Hi. rewrite R2 in Hj. unfold in_rng in Hi, Hj. rewrite A, B.
  rewrite !wstep_at by (unfold in_rng; rewrite ?R1, ?R2; lia). rewrite R1, R2. set (h := nrow s) in *. set (w := ncol s + 2 * pad) in *.
  assert (X := spectral_half_turn h w (fun a b => px (pad_edge s 0 pad) a b) (weights mask h w) i (j + pad) ltac:(lia) ltac:(unfold w; lia)).
  replace (w - 1 - (j + pad)) with (ncol s - 1 - j + pad) in X by (unfold w; lia). rewrite <- X. f_equal. apply spectral_ext; [|reflexivity].
  intros a b Ha Hb. unfold in_rng in Ha, Hb. f_equal. cbn beta. rewrite !padded by (unfold in_rng; fold h; rewrite ?R1, ?R2; lia).
  rewrite H by (unfold in_rng, clipZ; rewrite ?R1, ?R2; fold h; lia). rewrite R2. f_equal. unfold clipZ, w. lia.
Qed.

(** the function for 360-degree sinograms *)
Definition mask_of (mask : option (img R)) (h w pad : Z) (ratio : R) : img R :=
  match mask with Some m => m | None => make_double_wedge_mask h (w + 2 * pad) (ratio * IZR w / 2)%R end.
Lemma wedge_cases shift s center iteration mask ratio pad out : double_wedge_filter shift s center Type360 iteration mask ratio pad = Ok out ->
  let m := mask_of mask (nrow s) (ncol s) pad ratio in nrow m = nrow s /\ ncol m = ncol s + 2 * pad /\
  ((iteration <= 0 /\ out = s) \/ (0 < iteration /\ 0 <= pad /\ out = Nat.iter (Z.to_nat iteration) (wedge_step m pad) s)).
Proof.
  unfold double_wedge_filter. cbn [bindr]. cbv zeta. intros O.
  assert (M : nrow (mask_of mask (nrow s) (ncol s) pad ratio) = nrow s /\ ncol (mask_of mask (nrow s) (ncol s) pad ratio) = ncol s + 2 * pad /\
     (if (0 <? iteration) && (pad <? 0) then Err ValueError else Ok (Nat.iter (Z.to_nat iteration) (wedge_step (mask_of mask (nrow s) (ncol s) pad ratio) pad) s)) = Ok out).
  { destruct mask as [m|]; cbn [mask_of]; [|split; [reflexivity|]; split; [reflexivity|exact O] ].
    destruct (Z.eqb_spec (nrow m) (nrow s)) as [E1|]; [|discriminate]. destruct (Z.eqb_spec (ncol m) (ncol s + 2 * pad)) as [E2|]; [|discriminate]. split; [exact E1|]. split; [exact E2|exact O]. }
  clear O. destruct M as (A & B & O). split; [exact A|]. split; [exact B|]. destruct (Z.ltb_spec 0 iteration), (Z.ltb_spec pad 0); cbn [andb] in O; try discriminate; [right|left|left].
  - split; [assumption|]. split; [assumption|]. congruence.
  - split; [assumption|]. replace (Z.to_nat iteration) with 0%nat in O by lia. cbn [Nat.iter nat_rect] in O. congruence.
  - split; [assumption|]. replace (Z.to_nat iteration) with 0%nat in O by lia. cbn [Nat.iter nat_rect] in O. congruence.
Qed.
(** invariants of the iterations *)
Lemma wedge_inv shift s center iteration mask ratio pad out (P : img R -> Prop) : 0 < nrow s -> 0 < ncol s ->
  double_wedge_filter shift s center Type360 iteration mask ratio pad = Ok out -> P s ->
  (forall x, 0 <= pad -> nrow x = nrow s -> ncol x = ncol s -> P x -> P (wedge_step (mask_of mask (nrow s) (ncol s) pad ratio) pad x)) -> nrow out = nrow s /\ ncol out = ncol s /\ P out.
Proof.
  intros Hr Hc O H0 HS. destruct (wedge_cases _ _ _ _ _ _ _ _ O) as (A & B & [(_ & ->)|(_ & Hp & ->)]); [split; [reflexivity|]; split; [reflexivity|exact H0]|].
  apply (iter_inv (fun x => nrow x = nrow s /\ ncol x = ncol s /\ P x)); [split; [reflexivity|]; split; [reflexivity|exact H0]|].
  intros x (X1 & X2 & X3). destruct (wstep_size (mask_of mask (nrow s) (ncol s) pad ratio) pad x Hp ltac:(lia) ltac:(lia)) as (Y1 & Y2). split; [congruence|]. split; [congruence|]. apply HS; assumption.
Qed.
Lemma wedge_rel shift shift' s t center center' iteration mask ratio pad out out' (P : img R -> img R -> Prop) : 0 < nrow s -> 0 < ncol s -> nrow t = nrow s -> ncol t = ncol s ->
  double_wedge_filter shift s center Type360 iteration mask ratio pad = Ok out -> double_wedge_filter shift' t center' Type360 iteration mask ratio pad = Ok out' -> P s t ->
  (forall x y, 0 <= pad -> nrow x = nrow s -> ncol x = ncol s -> nrow y = nrow s -> ncol y = ncol s -> P x y -> P (wedge_step (mask_of mask (nrow s) (ncol s) pad ratio) pad x) (wedge_step (mask_of mask (nrow s) (ncol s) pad ratio) pad y)) -> P out out'.
Proof.
  intros Hr Hc E1 E2 O O' H0 HS. destruct (wedge_cases _ _ _ _ _ _ _ _ O) as (A & B & C). destruct (wedge_cases _ _ _ _ _ _ _ _ O') as (A' & B' & C'). rewrite E1, E2 in *.
  destruct C as [(L & ->)|(L & Hp & ->)], C' as [(L' & ->)|(L' & Hp' & ->)]; try lia; [exact H0|].
  apply (iter_rel (fun x y => nrow x = nrow s /\ ncol x = ncol s /\ nrow y = nrow s /\ ncol y = ncol s /\ P x y)).
  - repeat split; assumption.
  - intros x y (X1 & X2 & X3 & X4 & X5). destruct (wstep_size (mask_of mask (nrow s) (ncol s) pad ratio) pad x Hp ltac:(lia) ltac:(lia)) as (Y1 & Y2).
    destruct (wstep_size (mask_of mask (nrow s) (ncol s) pad ratio) pad y Hp ltac:(lia) ltac:(lia)) as (Y3 & Y4). repeat split; try congruence. apply HS; assumption.
Qed.
(** the row of zero frequency is kept by the default mask *)
Lemma default_middle h w pad ratio v : 0 < h -> 0 < w -> 0 <= pad -> ratio <> 0%R -> in_rng (w + 2 * pad) v -> px (mask_of None h w pad ratio) (h / 2) v = 1%R.
Proof.
  intros Hh Hw Hp Hr Hv. cbn [mask_of]. assert (D : 0 <= h / 2 < h) by (assert (X := Z.div_mod h 2 ltac:(lia)); assert (Y := Z.mod_pos_bound h 2 ltac:(lia)); lia).
  assert (Hq : (ratio * IZR w / 2 <> 0)%R) by (assert (IZR w <> 0)%R by (apply not_0_IZR; lia); intros E; assert (ratio * IZR w = 0)%R by lra; destruct (Rmult_integral _ _ H0); contradiction).
  rewrite (mask_at h (w + 2 * pad) _ (h / 2) v _ Hh ltac:(lia) Hq D Hv (rceil_spec _)). rewrite Z.sub_diag. reflexivity.
Qed.
