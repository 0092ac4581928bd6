(** Proofs about loading images and stacks of images. *)
From Coq Require Import QArith Qfield Lqa Permutation Lia Bool.
From Verif Require Import Np P_Np M_io_load S_io_load P_io_load M_stack S_stack.
From Coq Require Import List. Import ListNotations.
Open Scope Z_scope.

(** ** means *)
Lemma total_app a b : (total (a ++ b) == total a + total b)%Q.
Proof. unfold total. induction a as [|x a IH]; cbn [app fold_right]; [ring|]. rewrite IH. ring. Qed.
Lemma total_range n f : 0 <= n -> (total (map f (zrange 0 n)) == qsum n f)%Q.
Proof.
  intros Hn. rewrite <- (Z2Nat.id n Hn). unfold qsum. rewrite Nat2Z.id. induction (Z.to_nat n) as [|k IH]; [reflexivity|].
  rewrite Nat2Z.inj_succ, <- Z.add_1_r, zrange_app by lia. rewrite map_app, total_app, IH. cbn [qsumn]. rewrite zrange_cons by lia. cbn [map total fold_right]. change (zrange (0 + Z.of_nat k + 1) (1 - 1)) with (@nil Z). cbn [map fold_right].
  rewrite Z.add_0_l. ring.
Qed.
Lemma average_range n f : 0 < n -> (average_of (map f (zrange 0 n)) == qmean n f)%Q.
Proof. intros Hn. unfold average_of, qmean. rewrite total_range by lia. rewrite map_length, zrange_length, Z2Nat.id by lia. reflexivity. Qed.
Lemma list_as_range {A} (l : list A) d : l = map (fun k => nth (Z.to_nat k) l d) (zrange 0 (Z.of_nat (length l))).
Proof.
  apply (nth_ext _ _ d (nth (Z.to_nat 0) l d)).
  - rewrite map_length, zrange_length, Nat2Z.id. reflexivity.
  - intros k Hk. rewrite (map_nth (fun z => nth (Z.to_nat z) l d)), zrange_nth by lia. rewrite Z.add_0_l, Nat2Z.id. reflexivity.
Qed.
(** ** load_image *)
Lemma argmin3 a b c : argminZ [a; b; c] = Ok (if (a <=? b) && (a <=? c) then 0 else if b <=? c then 1 else 2).
Proof.
  unfold argminZ, argbest. cbn [best_from]. destruct (Z.leb_spec a b), (Z.leb_spec a c), (Z.leb_spec b c); cbn [andb];
    repeat match goal with |- context [Z.ltb ?x ?y] => destruct (Z.ltb_spec x y) end; try lia; reflexivity.
Qed.
(** ** load_image_multiple *)
Lemma set_at_length {A} (l : list A) : forall k a, length (set_at l k a) = length l.
Proof. induction l as [|x l IH]; intros [|k] a; cbn [set_at length]; congruence. Qed.
Lemma set_at_nth {A} (l : list A) : forall k a i, nth_error (set_at l k a) i = if Nat.eqb i k then match nth_error l i with Some _ => Some a | None => None end else nth_error l i.
Proof.
  induction l as [|x l IH]; intros k a i; [cbn [set_at]; destruct i, (Nat.eqb _ _); reflexivity|]. destruct k as [|k]; cbn [set_at]; destruct i as [|i]; cbn [nth_error Nat.eqb]; try reflexivity. apply IH.
Qed.
Lemma parallel_from files order : forall slots, length slots = length files ->
  let out := fold_left (fun slots i => match nth_error files i with Some f => set_at slots i (Some (load_image f)) | None => slots end) order slots in
  length out = length files /\ forall i f, nth_error files i = Some f -> nth_error out i = if existsb (Nat.eqb i) order then Some (Some (load_image f)) else nth_error slots i.
Proof.
  induction order as [|k order IH]; intros slots HL; cbn [fold_left existsb]; [split; [exact HL|reflexivity]|].
  destruct (nth_error files k) as [g|] eqn:Ek.
  - destruct (IH (set_at slots k (Some (load_image g))) ltac:(rewrite set_at_length; exact HL)) as (A & B). split; [exact A|]. intros i f Hi. rewrite (B i f Hi), set_at_nth.
    destruct (existsb (Nat.eqb i) order); [rewrite orb_true_r; reflexivity|]. rewrite orb_false_r. destruct (Nat.eqb_spec i k) as [-> |N]; [|reflexivity].
    rewrite Ek in Hi. inversion Hi; subst. destruct (nth_error slots k) eqn:E; [reflexivity|]. apply nth_error_None in E. assert (nth_error files k <> None) by congruence. apply nth_error_Some in H. lia.
  - destruct (IH slots HL) as (A & B). split; [exact A|]. intros i f Hi. rewrite (B i f Hi). destruct (Nat.eqb_spec i k) as [-> |N]; [congruence|]. reflexivity.
Qed.
Lemma parallel_all files order : Permutation (seq 0 (length files)) order -> parallel files order = map (fun f => Some (load_image f)) files.
Proof.
  intros HP. unfold parallel. destruct (parallel_from files order (repeat None (length files)) (repeat_length _ _)) as (A & B).
  set (out := fold_left _ _ _) in *. clearbody out. apply (nth_ext _ _ None None); [rewrite map_length; exact A|].
  intros i Hi. rewrite A in Hi. destruct (nth_error files i) as [f|] eqn:E; [|apply nth_error_None in E; lia].
  assert (X := B i f E). replace (existsb (Nat.eqb i) order) with true in X.
  - rewrite (nth_error_nth _ _ None X). rewrite (nth_error_nth _ _ None (map_nth_error (fun f => Some (load_image f)) _ _ E)). reflexivity.
  - symmetry. apply existsb_exists. exists i. split; [|apply Nat.eqb_refl]. apply (Permutation_in _ HP), in_seq. lia.
Qed.
Lemma mapr_map {A B C} (g : A -> B) (f : B -> res C) l : mapr f (map g l) = mapr (fun a => f (g a)) l.
Proof. induction l as [|a l IH]; [reflexivity|]. cbn [map mapr]. rewrite IH. reflexivity. Qed.
Lemma load_multiple_seq files ncore cpu order : Permutation (seq 0 (length files)) order ->
  load_image_multiple (Some files) ncore cpu order = (do imgs <- mapr load_image files; if same_shape imgs then Ok imgs else Err ValueError).
Proof. intros HP. unfold load_image_multiple. rewrite (parallel_all files order HP), mapr_map. destruct (1 <? _); reflexivity. Qed.
(** ** preparation *)
Lemma corrected_ext flat dark den x y i j : (x == y)%Q -> (corrected flat dark den x i j == corrected flat dark den y i j)%Q.
Proof. intros E. unfold corrected, field_value. destruct flat, dark; rewrite E; reflexivity. Qed.
Section Prep.
Variables (h w ct cb cl cr : Z) (flat dark : option (img Q)).
Hypotheses (HC : valid_crop h w (ct, cb, cl, cr)) (HF : plain_field h w flat) (HD : plain_field h w dark).
Let dk : img Q := match dark with Some D => D | None => mkimg h w (fun _ _ => 0%Q) end.
Let den : option (img Q) := match flat with Some F => Some (fix_zero (img_sub (crop_img F ct (h - cb) cl (w - cr)) (crop_img dk ct (h - cb) cl (w - cr)))) | None => None end.
Definition prep : prepared := mkprep ct (h - cb) cl (w - cr) (crop_img dk ct (h - cb) cl (w - cr)) den.
Lemma field_ok f d : plain_field h w f -> check_field_opt (as_array f) d h w = Ok (match f with Some m => m | None => mkimg h w (fun _ _ => d) end).
Proof. destruct f as [m|]; [|reflexivity]. intros (A & B & C). cbn [as_array check_field_opt]. apply check_field_2d; assumption. Qed.
Lemma prepare_ok : prepare h w (ct, cb, cl, cr) (as_array flat) (as_array dark) = Ok prep.
Proof using All.
  unfold prepare. destruct HC as (C1 & C2 & C3 & C4 & C5 & C6). destruct (Z.ltb_spec (h - cb - ct) 1), (Z.ltb_spec (w - cr - cl) 1); try lia. cbn [orb].
  rewrite (field_ok flat 1 HF), (field_ok dark 0 HD). cbn [bindr]. unfold prep, den, dk. destruct flat; reflexivity.
Qed.
Lemma dk_shape : nrow dk = h /\ ncol dk = w.
Proof using All. unfold dk. destruct dark as [D|]; [destruct HD as (A & B & _); auto|auto]. Qed.
Lemma crop_ok (m : img Q) : nrow m = h -> ncol m = w -> let c := crop_img m ct (h - cb) cl (w - cr) in
  nrow c = h - ct - cb /\ ncol c = w - cl - cr /\ forall i j, px c i j = px m (ct + i) (cl + j).
Proof using All.
  intros E1 E2 c. destruct HC as (C1 & C2 & C3 & C4 & C5 & C6). unfold c, crop_img, islice. cbn [nrow ncol px]. rewrite E1, E2. rewrite !slen_id, !py_adj_id by lia. split; [lia|]. split; [lia|]. reflexivity.
Qed.
Definition den_of (F : img Q) (i j : Z) : Q := match den with Some d => px d (i - ct) (j - cl) | None => 0%Q end.
Lemma den_ok F : flat = Some F -> divisor_of F dark ct cl (h - ct - cb) (w - cl - cr) (den_of F).
Proof using All.
  intros EF i j Hi Hj. assert (HF' := HF). rewrite EF in HF'. destruct HF' as (F1 & F2 & _). destruct dk_shape as (K1 & K2). destruct (crop_ok F F1 F2) as (A1 & A2 & A3). destruct (crop_ok dk K1 K2) as (B1 & B2 & B3).
  unfold den_of, den. rewrite EF. set (a := crop_img F ct (h - cb) cl (w - cr)) in *. set (b := crop_img dk ct (h - cb) cl (w - cr)) in *. clearbody a b.
  assert (V : forall y x, px (img_sub a b) y x = field_value (px F (ct + y) (cl + x)) dark (ct + y) (cl + x)).
  { intros y x. cbn [img_sub px]. rewrite A3, B3. unfold field_value, dk. destruct dark; reflexivity. }
  assert (V1 := V (i - ct) (j - cl)). replace (ct + (i - ct)) with i in V1 by lia. replace (cl + (j - cl)) with j in V1 by lia.
  split; intros Hz.
  - rewrite fix_zero_keeps; rewrite V1; [reflexivity|exact Hz].
  - unfold fix_zero. cbn [px imap]. rewrite V1. assert (Qz := proj2 (Qzerob_iff _) Hz). rewrite Qz. cbn [img_sub nrow ncol]. rewrite A1, A2. unfold qmean2, qsum2. apply Qmult_comp; [|reflexivity].
    apply qsum_ext. intros y _. apply qsum_ext. intros x _. change (px a y x - px b y x)%Q with (px (img_sub a b) y x). rewrite V. reflexivity.
Qed.
Lemma normal_ok (c : img Q) (F : img Q) i j : (flat = Some F \/ flat = None) ->
  px (normalised prep c) i j = corrected flat dark (den_of F) (px c i j) (ct + i) (cl + j).
Proof using All.
  intros HFl. destruct dk_shape as (K1 & K2). destruct (crop_ok dk K1 K2) as (B1 & B2 & B3).
  assert (V : forall x, (x - px (p_dark prep) i j)%Q = field_value x dark (ct + i) (cl + j)).
  { intros x. cbn [prep p_dark]. rewrite B3. unfold field_value, dk. destruct dark; reflexivity. }
  unfold normalised, corrected. destruct HFl as [EF|EF].
  - rewrite EF. unfold den_of. cbn [prep p_den]. unfold den. rewrite EF. cbn [img_div px]. replace (ct + i - ct) with i by lia. replace (cl + j - cl) with j by lia. rewrite <- V. reflexivity.
  - rewrite EF. cbn [prep p_den]. unfold den. rewrite EF. cbn [img_sub px]. apply V.
Qed.
(** ** one image *)
Lemma counted_idx n k q : counted n k = Some q -> py_idx n k = Ok q /\ 0 <= q < n.
Proof.
  unfold counted, py_idx. destruct (Z.leb_spec 0 k), (Z.ltb_spec k n), (Z.leb_spec (- n) k), (Z.ltb_spec k 0); cbn [andb]; intros E; try discriminate; try lia; inversion E; subst; (split; [f_equal; lia|lia]).
Qed.
Lemma mean_ok v (m : Z -> Z -> Q) : hei v = h -> wid v = w -> 0 < dep v -> (forall i j, m i j == average_of (map (fun k => vx v k i j) (zrange 0 (dep v))))%Q ->
  forall i j, (px (mean_cropped prep v) i j == m (ct + i)%Z (cl + j)%Z)%Q.
Proof using All.
  intros A B C D i j. unfold mean_cropped, cropped. cbn [prep p_top p_bot p_left p_right]. unfold mean_axis. change (0 =? 0) with true. cbv iota.
  destruct (crop_ok (mkimg (hei v) (wid v) (fun i j => qmean (dep v) (fun k => vx v k i j))) A B) as (_ & _ & E). rewrite E. cbn [px]. rewrite D, average_range by exact C. reflexivity.
Qed.
Lemma one_ok average idx s m : image_asked average idx s h w m ->
  exists c, (if is_folder s then one_tif else one_hdf) prep average idx s = Ok c /\ forall i j, (px c i j == m (ct + i)%Z (cl + j)%Z)%Q.
Proof using All.
  destruct s as [files|f|v|]; cbn [is_folder image_asked]; [| | |contradiction].
  - intros (NE & Sh & H). unfold one_tif. cbn [tif_files]. destruct average.
    + destruct files as [|f0 fs]; [congruence|]. eexists. split; [reflexivity|]. destruct (Sh f0 (or_introl eq_refl)) as (E1 & E2). apply mean_ok; cbn [stacked_files dep hei wid vx]; try assumption; [cbn [length]; lia|].
      intros i j. rewrite H. rewrite (list_as_range (f0 :: fs) f0) at 1. rewrite map_map. reflexivity.
    + destruct H as (k & q & f & -> & Hq & Hf & Hm). destruct (counted_idx _ _ _ Hq) as (P1 & P2). unfold lget. rewrite P1. cbn [bindr]. rewrite Hf. cbn [bindr].
      eexists. split; [reflexivity|]. intros i j. destruct (Sh f (nth_error_In _ _ Hf)) as (E1 & E2). destruct (crop_ok f E1 E2) as (_ & _ & E). unfold cropped. cbn [prep p_top p_bot p_left p_right]. rewrite E, Hm. reflexivity.
  - intros (E1 & E2 & Hm). eexists. split; [reflexivity|]. intros i j. destruct (crop_ok f E1 E2) as (_ & _ & E). unfold cropped. cbn [prep p_top p_bot p_left p_right]. rewrite E, Hm. reflexivity.
  - intros (E1 & E2 & Hd & H). cbn [one_hdf]. destruct average.
    + eexists. split; [reflexivity|]. apply mean_ok; assumption.
    + destruct H as (k & q & -> & Hq & Hm). destruct (counted_idx _ _ _ Hq) as (P1 & P2). rewrite P1. cbn [bindr]. eexists. split; [reflexivity|]. intros i j.
      destruct (crop_ok (frame v q) E1 E2) as (_ & _ & E). unfold cropped. cbn [prep p_top p_bot p_left p_right]. rewrite E, Hm. reflexivity.
Qed.
(** ** the stack *)
Lemma stack_ok n (m : Z -> Z -> Z -> Q) ims : 0 <= n -> length ims = Z.to_nat n ->
  (forall k c, nth_error ims k = Some c -> exists u, c = normalised prep u /\ forall i j, (px u i j == m (Z.of_nat k) (ct + i)%Z (cl + j)%Z)%Q) ->
  corrected_stack flat dark h w (ct, cb, cl, cr) n m (stack_of prep ims).
Proof using All.
  intros Hn HL H. destruct dk_shape as (K1 & K2). destruct (crop_ok dk K1 K2) as (B1 & B2 & _). assert (HC' := HC). destruct HC' as (C1 & C2 & C3 & C4 & C5 & C6).
  assert (G : forall F, (flat = Some F \/ flat = None) -> forall k i j, 0 <= k < n -> (vx (stack_of prep ims) k i j == corrected flat dark (den_of F) (m k (ct + i)%Z (cl + j)%Z) (ct + i) (cl + j))%Q).
  { intros F HFl k i j Hk. cbn [stack_of vx]. destruct (nth_error ims (Z.to_nat k)) as [c|] eqn:E; [|apply nth_error_None in E; lia].
    rewrite (nth_error_nth _ _ _ E). destruct (H _ _ E) as (u & -> & Hu). rewrite (normal_ok u F i j HFl). assert (Hu' := Hu i j). rewrite Z2Nat.id in Hu' by lia.
    apply corrected_ext, Hu'. }
  unfold corrected_stack. assert (X : (exists F, flat = Some F) \/ flat = None) by (clear - flat; destruct flat; eauto). destruct X as [(F & EF)|EF].
  - exists (den_of F). split; [rewrite EF; apply den_ok; exact EF|]. cbn [stack_of dep hei wid]. rewrite HL, Z2Nat.id by lia. split; [reflexivity|]. split; [exact B1|]. split; [exact B2|].
    intros k i j Hk _ _. apply (G F); [left; exact EF|exact Hk].
  - exists (den_of (mkimg 0 0 (fun _ _ => 0%Q))). split; [rewrite EF; exact I|]. cbn [stack_of dep hei wid]. rewrite HL, Z2Nat.id by lia. split; [reflexivity|]. split; [exact B1|]. split; [exact B2|].
    intros k i j Hk _ _. apply (G (mkimg 0 0 (fun _ _ => 0%Q))); [right; exact EF|exact Hk].
Qed.
End Prep.
Lemma zeros_ok u : zeros_replaced u (fixed_stack true u).
Proof.
  unfold fixed_stack, fix_zero_vol. split; [reflexivity|]. split; [reflexivity|]. split; [reflexivity|]. intros mean k i j _ _ _. cbn [vx]. split; intros Hz.
  - destruct (Qzerob (vx u k i j)) eqn:E; [apply Qzerob_iff in E; contradiction|reflexivity].
  - assert (E := proj2 (Qzerob_iff _) Hz). rewrite E. unfold mean. rewrite !inject_Z_mult. reflexivity.
Qed.
Lemma mapr_list {A} (R : nat -> A -> Prop) (f : Z -> res A) n : 0 <= n -> (forall k, 0 <= k < n -> exists a, f k = Ok a /\ R (Z.to_nat k) a) ->
  exists l, mapr f (zrange 0 n) = Ok l /\ length l = Z.to_nat n /\ forall k a, nth_error l k = Some a -> R k a.
Proof.
  intros Hn H. assert (G : forall s, (forall k, In k s -> 0 <= k < n) -> exists l, mapr f s = Ok l /\ Forall2 (fun k a => R (Z.to_nat k) a) s l).
  { induction s as [|k s IH]; intros Hs; [exists []; split; [reflexivity|constructor]|]. destruct (H k (Hs k (or_introl eq_refl))) as (a & E1 & E2). destruct IH as (l & E3 & E4); [intros x Hx; apply Hs; right; exact Hx|].
    exists (a :: l). cbn [mapr]. rewrite E1, E3. split; [reflexivity|constructor; assumption]. }
  destruct (G (zrange 0 n)) as (l & E & F); [intros k Hk; apply zrange_In in Hk; lia|]. exists l. split; [exact E|]. assert (L := Forall2_length F). rewrite zrange_length in L. split; [congruence|].
  intros k a Hk. assert (Lk : (k < length l)%nat) by (apply nth_error_Some; congruence).
  assert (X : nth_error (zrange 0 n) k = Some (Z.of_nat k)).
  { rewrite (nth_error_nth' _ 0) by (rewrite zrange_length; lia). rewrite zrange_nth by lia. reflexivity. }
  assert (Q : forall s l, Forall2 (fun k a => R (Z.to_nat k) a) s l -> forall k a z, nth_error l k = Some a -> nth_error s k = Some z -> R (Z.to_nat z) a).
  { induction 1 as [|x y s1 l1 HR HF IH]; intros [|k'] b z H1 H2; cbn in *; try discriminate; [inversion H1; inversion H2; subst; exact HR|eapply IH; eassumption]. }
  assert (Y := Q _ _ F k a _ Hk X). rewrite Nat2Z.id in Y. exact Y.
Qed.
