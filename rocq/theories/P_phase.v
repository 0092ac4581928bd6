(** Proofs for phase.py (exact-number part). *)
From Verif Require Import Np P_Np M_utility P_utility M_conversion M_correction M_calculation P_calculation M_phase.
From Coq Require Import QArith Qround Qabs ZArith Lia Lqa Psatz Permutation.
From Coq Require Import List. Import ListNotations.
Open Scope Z_scope.

(** ** mirroring *)
Lemma double_shape m : nrow (double_image m) = 2 * nrow m /\ ncol (double_image m) = 2 * ncol m.
Proof. unfold double_image, vstack, hstack, iflipud, ifliplr. cbn [nrow ncol]. lia. Qed.
Lemma double_px m i j : in_rng (2 * nrow m) i -> in_rng (2 * ncol m) j ->
  px (double_image m) i j =
  px m (if i <? nrow m then nrow m - 1 - i else i - nrow m) (if j <? ncol m then j else 2 * ncol m - 1 - j).
Proof.
  unfold in_rng. intros Hi Hj. unfold double_image, vstack, hstack, iflipud, ifliplr. cbn [nrow ncol px].
  destruct (i <? nrow m) eqn:Ei; destruct (j <? ncol m) eqn:Ej; try reflexivity; f_equal; lia.
Qed.
Lemma undouble_double m : 0 <= nrow m -> 0 <= ncol m -> img_eq (undouble (double_image m) (nrow m) (ncol m)) m.
Proof.
  intros Hr Hc. destruct (double_shape m) as [D1 D2]. unfold undouble, islice. rewrite D1, D2.
  split; [|split]; cbn [nrow ncol px]; rewrite ?slen_id by lia; try lia.
  intros i j Hi Hj. unfold in_rng in *. cbn [nrow ncol px] in *. rewrite ?slen_id in * by lia.
  rewrite !py_adj_id by lia. rewrite double_px by (unfold in_rng; lia).
  replace (nrow m + i <? nrow m) with false by lia. replace (0 + j <? ncol m) with true by lia. f_equal; lia.
Qed.
Lemma correct_negative_nonneg nmin m : (forall i j, in_rng (nrow m) i -> in_rng (ncol m) j -> (nmin m <= px m i j)%Q) ->
  forall i j, in_rng (nrow m) i -> in_rng (ncol m) j ->
  (0 <= px (correct_negative nmin m) i j)%Q /\
  forall i' j', in_rng (nrow m) i' -> in_rng (ncol m) j' ->
    (px (correct_negative nmin m) i j - px (correct_negative nmin m) i' j' == px m i j - px m i' j')%Q.
Proof.
  intros H i j Hi Hj. specialize (H i j Hi Hj). unfold correct_negative.
  destruct (Qltb (nmin m) 0) eqn:E; cbn [imap px].
  - apply Qltb_lt in E. split; [lra|]. intros. ring.
  - apply Qltb_f in E. split; [lra|]. intros. reflexivity.
Qed.

(** ** assembling row chunks *)
Lemma assemble_rows (G : Z * Z -> img Q) : forall sizes start (out : img Q),
  Forall (fun s => 0 <= s) sizes -> 0 <= start -> start + fold_right Z.add 0 sizes <= nrow out ->
  let r := fold_left (fun o c => set_rows o (fst c) (fst c + snd c) (G c)) (split_from start sizes) out in
  nrow r = nrow out /\ ncol r = ncol out /\
  (forall i j, i < start \/ start + fold_right Z.add 0 sizes <= i -> px r i j = px out i j) /\
  (forall c i j, In c (split_from start sizes) -> fst c <= i < fst c + snd c -> px r i j = px (G c) (i - fst c) j).
Proof.
  induction sizes as [|s sizes IH]; intros start out Hp H0 Hle; cbn [split_from fold_left fold_right] in *.
  - repeat split; auto. intros c i j [].
  - inversion Hp as [|? ? Hs Hrest]; subst.
    assert (Hsum : 0 <= fold_right Z.add 0 sizes) by (clear -Hrest; induction Hrest; cbn; lia).
    set (o1 := set_rows out start (start + s) (G (start, s))). cbn [fst snd].
    destruct (IH (start + s) o1 Hrest) as (R & C & Hout & Hin); [lia|cbn [o1 set_rows nrow]; lia|].
    cbn zeta in *. split; [exact R|]. split; [exact C|]. split.
    + intros i j Hi. rewrite Hout by lia. unfold o1, set_rows. cbn [px]. rewrite !py_adj_id by lia.
      replace ((start <=? i) && (i <? start + s)) with false by lia. reflexivity.
    + intros c i j [<-|Hc] Hi; cbn [fst snd] in *.
      * rewrite Hout by lia. unfold o1, set_rows. cbn [px]. rewrite !py_adj_id by lia.
        replace ((start <=? i) && (i <? start + s)) with true by lia. reflexivity.
      * apply Hin; assumption.
Qed.
Lemma chunk_of i : forall sizes start, Forall (fun s => 0 <= s) sizes -> start <= i < start + fold_right Z.add 0 sizes ->
  exists c, In c (split_from start sizes) /\ fst c <= i < fst c + snd c.
Proof.
  induction sizes as [|s sizes IH]; intros start Hp Hi; cbn [split_from fold_right] in *; [lia|].
  inversion Hp as [|? ? Hs Hrest]; subst. destruct (Z_lt_ge_dec i (start + s)) as [L|G].
  - exists (start, s). split; [left; reflexivity|]. cbn. lia.
  - destruct (IH (start + s) Hrest) as (c & Hc & Hi2); [lia|]. exists c. split; [right; exact Hc|exact Hi2].
Qed.
Lemma combine_map_self {A B} (g : A -> B) l : combine l (map g l) = map (fun x => (x, g x)) l.
Proof. induction l as [|a l IH]; cbn; [reflexivity|]. rewrite IH. reflexivity. Qed.
Lemma fold_left_map {A B C} (f : C -> B -> C) (g : A -> B) l c : fold_left f (map g l) c = fold_left (fun x a => f x (g a)) l c.
Proof. revert c. induction l as [|a l IH]; intros c; cbn; [reflexivity|]. apply IH. Qed.
Lemma map_nth_zrange {A B} (F : A -> B) l d : map (fun n => F (nth (Z.to_nat n) l d)) (zrange 0 (Z.of_nat (length l))) = map F l.
Proof.
  unfold zrange. rewrite map_map, Nat2Z.id. transitivity (map (fun k => F (nth k l d)) (seq 0 (length l))).
  - apply map_ext. intros k. do 2 f_equal. lia.
  - rewrite <- (map_map (fun k => nth k l d) F). f_equal.
    clear. induction l as [|a t IH]; [reflexivity|]. cbn [length seq map nth].
    f_equal. rewrite <- seq_shift, map_map. exact IH.
Qed.

(** ** C45 *)
Section dark.
Context (rnd : Q -> Z) (f : img Q -> img Q -> Q * Q)
  (Hf : forall a a' b b', img_eq a a' -> img_eq b b' -> f a b = f a' b').

Lemma window_in (s : vol Q) k i j radi : 0 <= radi -> 0 <= i - radi -> i + radi + 1 <= hei s -> 0 <= j - radi -> j + radi + 1 <= wid s ->
  nrow (window s k i j radi) = 2 * radi + 1 /\ ncol (window s k i j radi) = 2 * radi + 1 /\
  forall a b, px (window s k i j radi) a b = vx s k (i - radi + a) (j - radi + b).
Proof.
  intros. unfold window, islice, vol_img. cbn [nrow ncol px]. rewrite !slen_id by lia. rewrite !py_adj_id by lia.
  repeat split; try lia.
Qed.
Lemma window_eq (s s' : vol Q) k i i' j radi : 0 <= radi ->
  0 <= i - radi -> i + radi + 1 <= hei s -> 0 <= j - radi -> j + radi + 1 <= wid s ->
  0 <= i' - radi -> i' + radi + 1 <= hei s' -> wid s' = wid s ->
  (forall a b, 0 <= a < 2 * radi + 1 -> vx s k (i - radi + a) b = vx s' k (i' - radi + a) b) ->
  img_eq (window s k i j radi) (window s' k i' j radi).
Proof.
  intros Hr A1 A2 A3 A4 B1 B2 Hw E. destruct (window_in s k i j radi) as (W1 & W2 & W3); try lia.
  destruct (window_in s' k i' j radi) as (V1 & V2 & V3); try lia.
  split; [congruence|]. split; [congruence|]. intros a b Ha Hb. unfold in_rng in *. rewrite W3, V3. apply E. lia.
Qed.

Context (ref sam : vol Q) (xs ys : img Q) (radi margin : Z)
  (Hrad : 0 <= radi) (Hmar : 0 <= margin) (Hd : dep sam = dep ref) (Hh : hei sam = hei ref) (Hw : wid sam = wid ref)
  (Hxr : nrow xs = hei ref) (Hxc : ncol xs = wid ref) (Hyr : nrow ys = hei ref) (Hyc : ncol ys = wid ref)
  (Hsx : forall i j, in_rng (hei ref) i -> in_rng (wid ref) j -> Z.abs (rnd (px xs i j)) <= margin)
  (Hsy : forall i j, in_rng (hei ref) i -> in_rng (wid ref) j -> Z.abs (rnd (px ys i j)) <= margin).
Let pad := radi + margin.
Let win := 2 * radi + 1.

Lemma win_radi : win / 2 = radi.
Proof. unfold win. Z.to_euclidean_division_equations. lia. Qed.
(** the sub-stack of a chunk gives the same pixels *)
Lemma sub_pixel b len i2 j2 k : 0 <= b -> 0 <= len -> b + len <= hei ref - 2 * pad ->
  0 <= i2 < len -> 0 <= j2 < wid ref - 2 * pad ->
  tdf_pixel rnd f (vol_rows_of ref b (b + len + 2 * pad)) (vol_rows_of sam b (b + len + 2 * pad))
     (img_rows_of xs b (b + len + 2 * pad)) (img_rows_of ys b (b + len + 2 * pad)) radi (i2 + pad) (j2 + pad) k =
  tdf_pixel rnd f ref sam xs ys radi (b + i2 + pad) (j2 + pad) k.
Proof.
  intros Hb Hl Hbl Hi Hj. unfold tdf_pixel.
  assert (Pp : 0 <= pad) by (unfold pad; lia).
  assert (Ey : px (img_rows_of ys b (b + len + 2 * pad)) (i2 + pad) (j2 + pad) = px ys (b + i2 + pad) (j2 + pad)).
  { unfold img_rows_of, islice. cbn [px]. rewrite !py_adj_id by lia. f_equal; lia. }
  assert (Ex : px (img_rows_of xs b (b + len + 2 * pad)) (i2 + pad) (j2 + pad) = px xs (b + i2 + pad) (j2 + pad)).
  { unfold img_rows_of, islice. cbn [px]. rewrite !py_adj_id by lia. f_equal; lia. }
  rewrite Ey, Ex.
  pose proof (Hsy (b + i2 + pad) (j2 + pad) ltac:(unfold in_rng; lia) ltac:(unfold in_rng; lia)) as By.
  pose proof (Hsx (b + i2 + pad) (j2 + pad) ltac:(unfold in_rng; lia) ltac:(unfold in_rng; lia)) as Bx.
  set (ry := rnd (px ys (b + i2 + pad) (j2 + pad))) in *. set (rx := rnd (px xs (b + i2 + pad) (j2 + pad))) in *. clearbody ry rx.
  unfold pad in *. apply Hf; apply window_eq; unfold vol_rows_of; cbn [hei wid vx]; rewrite ?slen_id, ?py_adj_id by lia; try lia.
  - intros a c Ha. f_equal. lia.
  - intros a c Ha. f_equal. lia.
Qed.
Lemma sub_seq b len : 0 <= b -> 0 <= len -> b + len <= hei ref - 2 * pad ->
  let sub := tdf_seq rnd f (vol_rows_of ref b (b + len + 2 * pad)) (vol_rows_of sam b (b + len + 2 * pad))
     (img_rows_of xs b (b + len + 2 * pad)) (img_rows_of ys b (b + len + 2 * pad)) win margin in
  let all := tdf_seq rnd f ref sam xs ys win margin in
  forall i j, 0 <= i < len -> 0 <= j < wid ref - 2 * pad ->
  px (fst sub) i j = px (fst all) (b + i) j /\ px (snd sub) i j = px (snd all) (b + i) j.
Proof.
  intros Hb Hl Hbl sub all i j Hi Hj. unfold sub, all, tdf_seq. cbn [fst snd px]. rewrite win_radi. fold pad.
  cbn [vol_rows_of dep].
  assert (E : forall p : Q * Q -> Q, qmean (dep ref) (fun k => p (tdf_pixel rnd f (vol_rows_of ref b (b + len + 2 * pad)) (vol_rows_of sam b (b + len + 2 * pad))
     (img_rows_of xs b (b + len + 2 * pad)) (img_rows_of ys b (b + len + 2 * pad)) radi (i + pad) (j + pad) k)) =
    qmean (dep ref) (fun k => p (tdf_pixel rnd f ref sam xs ys radi (b + i + pad) (j + pad) k))).
  { intros p. unfold qmean. f_equal. unfold qsum.
    generalize (Z.to_nat (dep ref)) as n. induction n as [|n IH]; cbn [qsumn]; [reflexivity|].
    rewrite IH. rewrite sub_pixel by lia. reflexivity. }
  split; apply E.
Qed.

Lemma fold_pair {C} (g h : img Q -> C -> img Q) (l : list C) a b :
  fold_left (fun td c => (g (fst td) c, h (snd td) c)) l (a, b) = (fold_left g l a, fold_left h l b).
Proof. revert a b. induction l as [|c l IH]; intros a b; cbn [fold_left]; [reflexivity|]. apply IH. Qed.

Lemma pad_edge_eq (a b : img Q) p : 1 <= nrow a -> 1 <= ncol a -> img_eq a b -> img_eq (pad_edge a p) (pad_edge b p).
Proof.
  intros H1 H2 (A & B & C). unfold pad_edge. split; [cbn; congruence|]. split; [cbn; congruence|].
  intros i j _ _. cbn [px nrow ncol]. rewrite <- A, <- B. apply C; unfold in_rng, clipZ; lia.
Qed.
Lemma dark_chunks win0 ncore order : win0 / 2 = radi -> 1 <= ncore -> Permutation (zrange 0 ncore) order ->
  2 * pad < hei ref -> 2 * pad < wid ref ->
  exists t d, dark_field_margin rnd f ref sam xs ys win0 margin ncore order = Ok (t, d) /\
    img_eq t (pad_edge (fst (tdf_seq rnd f ref sam xs ys win margin)) pad) /\
    img_eq d (pad_edge (snd (tdf_seq rnd f ref sam xs ys win margin)) pad).
Proof.
  intros Hwin Hn Hperm Hph Hpw. unfold dark_field_margin. rewrite Hwin. fold win. rewrite win_radi. fold pad.
  replace ((wid ref <=? 2 * pad) || (hei ref <=? 2 * pad)) with false by lia.
  replace (ncore =? 0) with false by lia.
  set (all := tdf_seq rnd f ref sam xs ys win margin).
  assert (Sall : nrow (fst all) = hei ref - 2 * pad /\ ncol (fst all) = wid ref - 2 * pad /\
                 nrow (snd all) = hei ref - 2 * pad /\ ncol (snd all) = wid ref - 2 * pad).
  { unfold all, tdf_seq. cbn [fst snd nrow ncol]. rewrite win_radi. fold pad. auto. }
  destruct ((ncore =? 1) || ((hei ref - 2 * pad) / ncore <? 20)) eqn:E.
  - cbn [bindr]. eexists. eexists. split; [reflexivity|]. split; (split; [reflexivity|split; [reflexivity|intros; reflexivity] ]).
  - unfold array_split. replace (ncore <=? 0) with false by lia. cbn [bindr].
    set (sizes := split_sizes (hei ref - 2 * pad) ncore). set (chunks := split_from 0 sizes).
    assert (Hac : array_split (hei ref - 2 * pad) ncore = Ok chunks).
    { unfold array_split. replace (ncore <=? 0) with false by lia. reflexivity. }
    assert (Hlen := array_split_length _ _ _ Hac ltac:(lia)).
    set (be := map (fun c => (fst c + pad, fst c + snd c + pad)) chunks).
    assert (Lbe : Z.of_nat (length be) = ncore) by (unfold be; rewrite map_length; exact Hlen).
    rewrite Lbe. rewrite run_list_ok by exact Hperm. cbn [bindr].
    set (F := fun c : Z * Z => let '(b, e) := c in
      tdf_seq rnd f (vol_rows_of ref (b - pad) (e + pad)) (vol_rows_of sam (b - pad) (e + pad))
        (img_rows_of xs (b - pad) (e + pad)) (img_rows_of ys (b - pad) (e + pad)) win margin).
    assert (Emap : map (fun n => let '(b, e) := nth (Z.to_nat n) be (0, 0) in
       tdf_seq rnd f (vol_rows_of ref (b - pad) (e + pad)) (vol_rows_of sam (b - pad) (e + pad))
        (img_rows_of xs (b - pad) (e + pad)) (img_rows_of ys (b - pad) (e + pad)) win margin) (zrange 0 ncore) = map F be).
    { rewrite <- Lbe. apply (map_nth_zrange F be (0, 0)). }
    rewrite Emap. rewrite combine_map_self. unfold be at 1 2. rewrite map_map.
    rewrite !fold_left_map.
    set (ones := mkimg (hei ref - 2 * pad) (wid ref - 2 * pad) (fun _ _ => 1%Q)).
    set (G := fun c : Z * Z => F (fst c + pad, fst c + snd c + pad)).
    assert (Efold : fold_left (fun (x : img Q * img Q) (a : Z * Z) =>
        let '(b, e, (t, d)) := ((fst a + pad, fst a + snd a + pad), F (fst a + pad, fst a + snd a + pad)) in
        (set_rows (fst x) (b - pad) (e - pad) t, set_rows (snd x) (b - pad) (e - pad) d)) chunks (ones, ones) =
      (fold_left (fun o c => set_rows o (fst c) (fst c + snd c) (fst (G c))) chunks ones,
       fold_left (fun o c => set_rows o (fst c) (fst c + snd c) (snd (G c))) chunks ones)).
    { rewrite <- fold_pair. generalize (ones, ones) as x. generalize chunks as l.
      induction l as [|c l IH]; intros x; cbn [fold_left]; [reflexivity|]. rewrite <- IH. f_equal.
      change (F (fst c + pad, fst c + snd c + pad)) with (G c). destruct (G c) as [t d]. cbn [fst snd].
      replace (fst c + pad - pad) with (fst c) by lia. replace (fst c + snd c + pad - pad) with (fst c + snd c) by lia. reflexivity. }
    match goal with |- exists _ _, Ok (pad_edge (fst ?xx) _, _) = _ /\ _ =>
      let EE := fresh in assert (EE := Efold : xx = _); rewrite EE end. cbn [fst snd].
    assert (Hnn : Forall (fun s => 0 <= s) sizes) by (apply split_sizes_nonneg; lia).
    assert (Hsum : fold_right Z.add 0 sizes = hei ref - 2 * pad) by (apply split_sizes_sum; lia).
    destruct (assemble_rows (fun c => fst (G c)) sizes 0 ones Hnn) as (R1 & C1 & _ & I1); [lia|cbn [nrow ones]; lia|].
    destruct (assemble_rows (fun c => snd (G c)) sizes 0 ones Hnn) as (R2 & C2 & _ & I2); [lia|cbn [nrow ones]; lia|].
    cbn zeta in *. fold chunks in R1, C1, I1, R2, C2, I2.
    cbn [nrow ncol ones] in R1, C1, R2, C2.
    assert (Hkey : forall i j, 0 <= i < hei ref - 2 * pad -> 0 <= j < wid ref - 2 * pad ->
       px (fold_left (fun o c => set_rows o (fst c) (fst c + snd c) (fst (G c))) chunks ones) i j = px (fst all) i j /\
       px (fold_left (fun o c => set_rows o (fst c) (fst c + snd c) (snd (G c))) chunks ones) i j = px (snd all) i j).
    { intros i j Hi Hj. destruct (chunk_of i sizes 0 Hnn) as (c & Hc & Hic); [lia|]. fold chunks in Hc.
      rewrite (I1 c i j Hc Hic), (I2 c i j Hc Hic).
      destruct (split_from_In sizes 0 c Hnn Hc) as (P1 & P2 & P3). rewrite Hsum in P3.
      assert (Ps : 0 <= snd c) by (rewrite Forall_forall in Hnn; apply Hnn; exact P2).
      unfold G, F. replace (fst c + pad - pad) with (fst c) by lia.
      replace (fst c + snd c + pad + pad) with (fst c + snd c + 2 * pad) by lia.
      destruct (sub_seq (fst c) (snd c) P1 Ps ltac:(lia) (i - fst c) j ltac:(lia) Hj) as [S1 S2].
      fold all in S1, S2. rewrite S1, S2. replace (fst c + (i - fst c)) with i by lia. auto. }
    eexists. eexists. split; [reflexivity|]. destruct Sall as (A1 & A2 & A3 & A4).
    split; apply pad_edge_eq; rewrite ?R1, ?C1, ?R2, ?C2; try lia.
    + split; [congruence|]. split; [congruence|]. intros i j Hi Hj. rewrite R1 in Hi. rewrite C1 in Hj. apply Hkey; assumption.
    + split; [congruence|]. split; [congruence|]. intros i j Hi Hj. rewrite R2 in Hi. rewrite C2 in Hj. apply Hkey; assumption.
Qed.
(** every window read is complete *)
Lemma dark_windows i j k : pad <= i < hei ref - pad -> pad <= j < wid ref - pad ->
  let i1 := i + rnd (px ys i j) in let j1 := j + rnd (px xs i j) in
  nrow (window ref k i j radi) = 2 * radi + 1 /\ ncol (window ref k i j radi) = 2 * radi + 1 /\
  nrow (window sam k i1 j1 radi) = 2 * radi + 1 /\ ncol (window sam k i1 j1 radi) = 2 * radi + 1.
Proof.
  intros Hi Hj i1 j1. unfold pad in *.
  pose proof (Hsy i j ltac:(unfold in_rng; lia) ltac:(unfold in_rng; lia)).
  pose proof (Hsx i j ltac:(unfold in_rng; lia) ltac:(unfold in_rng; lia)).
  destruct (window_in ref k i j radi) as (A & B & _); try lia.
  destruct (window_in sam k i1 j1 radi) as (C & D & _); unfold i1, j1; try lia. auto.
Qed.
End dark.

(** ** C80: values *)
Lemma qmean2_ext n m f g : (forall i j, 0 <= i < n -> 0 <= j < m -> (f i j == g i j)%Q) -> (qmean2 n m f == qmean2 n m g)%Q.
Proof.
  intros H. unfold qmean2, qsum2. apply Qmult_comp; [|reflexivity]. apply qsum_ext. intros i Hi. apply qsum_ext. intros j Hj. apply H; assumption.
Qed.
Lemma qmean2_scal n m c f : (qmean2 n m (fun i j => c * f i j) == c * qmean2 n m f)%Q.
Proof.
  unfold qmean2, qsum2. rewrite (qsum_ext _ _ (fun i => c * qsum m (f i))%Q) by (intros; apply qsum_scal).
  rewrite qsum_scal. unfold Qdiv. ring.
Qed.
Lemma tdf_scaled std ref sam c : (0 < c)%Q ->
  nrow sam = nrow ref -> ncol sam = ncol ref ->
  (forall i j, in_rng (nrow ref) i -> in_rng (ncol ref) j -> (px sam i j == c * px ref i j)%Q) ->
  (std sam == c * std ref)%Q ->
  ~ (qmean2 (nrow ref) (ncol ref) (px ref) == 0)%Q -> ~ (std ref == 0)%Q ->
  (fst (tdf_values std ref sam) == c)%Q /\ (snd (tdf_values std ref sam) == 1)%Q.
Proof.
  intros Hc Hr Hcl H Hs Hm Hz. unfold tdf_values.
  assert (E : (qmean2 (nrow sam) (ncol sam) (px sam) == c * qmean2 (nrow ref) (ncol ref) (px ref))%Q).
  { rewrite Hr, Hcl. rewrite <- qmean2_scal. apply qmean2_ext. exact H. }
  assert (N2 : ~ (qmean2 (nrow sam) (ncol sam) (px sam) == 0)%Q).
  { rewrite E. intros G. apply Qmult_integral in G as [G|G]; [lra|contradiction]. }
  destruct (Qeq_bool (qmean2 (nrow ref) _ _) 0) eqn:Q1; [apply Qeq_bool_iff in Q1; contradiction|].
  destruct (Qeq_bool (qmean2 (nrow sam) _ _) 0) eqn:Q2; [apply Qeq_bool_iff in Q2; contradiction|].
  cbn [negb andb fst snd].
  destruct (Qeq_bool (std ref) 0) eqn:Q3; [apply Qeq_bool_iff in Q3; contradiction|]. cbn [negb].
  rewrite E, Hs. split; field; auto. repeat split; auto; lra.
Qed.

(** ** C81: alignment *)
Lemma align_pair shift ref sam x y ss :
  (forall m dy dx, nrow (shift m dy dx) = nrow m /\ ncol (shift m dy dx) = ncol m) ->
  (forall m dy dx i j, in_rng (nrow m) i -> in_rng (ncol m) j -> in_rng (nrow m) (i - dy) -> in_rng (ncol m) (j - dx) ->
     px (shift m (inject_Z dy) (inject_Z dx)) i j = px m (i - dy) (j - dx)) ->
  nrow sam = nrow ref -> ncol sam = ncol ref ->
  (forall i j, in_rng (nrow ref) i -> in_rng (ncol ref) j -> in_rng (nrow ref) (i + y) -> in_rng (ncol ref) (j + x) ->
     px sam i j = px ref (i + y) (j + x)) ->
  let p := align_one shift ref sam (inject_Z x, inject_Z y) (match ss with Some (a, b) => Some (inject_Z a, inject_Z b) | None => None end) in
  let a := match ss with Some (a, _) => a | None => 0 end in
  let b := match ss with Some (_, b) => b | None => 0 end in
  nrow (fst p) = nrow ref /\ ncol (fst p) = ncol ref /\ nrow (snd p) = nrow ref /\ ncol (snd p) = ncol ref /\
  forall i j, in_rng (nrow ref) i -> in_rng (ncol ref) j ->
    in_rng (nrow ref) (i - b) -> in_rng (ncol ref) (j - a) ->
    in_rng (nrow ref) (i - b + y) -> in_rng (ncol ref) (j - a + x) ->
    px (fst p) i j = px (snd p) i j /\ px (snd p) i j = px sam (i - b) (j - a).
Proof.
  intros Hsh Hpx Hr Hc Hrel p a b.
  change (- inject_Z x)%Q with (inject_Z (- x)) in *. change (- inject_Z y)%Q with (inject_Z (- y)) in *.
  set (ref1 := shift ref (inject_Z (- y)) (inject_Z (- x))).
  destruct (Hsh ref (inject_Z (- y)) (inject_Z (- x))) as [S1 S2]. fold ref1 in S1, S2.
  assert (Hbase : forall i j, in_rng (nrow ref) i -> in_rng (ncol ref) j -> in_rng (nrow ref) (i + y) -> in_rng (ncol ref) (j + x) ->
     px ref1 i j = px sam i j).
  { intros i j Hi Hj Hiy Hjx. unfold ref1. rewrite Hpx; rewrite ?Z.sub_opp_r; auto. symmetry. apply Hrel; auto. }
  destruct ss as [ [a0 b0] |]; subst a b.
  - assert (Ep : p = (shift ref1 (inject_Z b0) (inject_Z a0), shift sam (inject_Z b0) (inject_Z a0))) by reflexivity.
    rewrite Ep. cbn [fst snd].
    destruct (Hsh ref1 (inject_Z b0) (inject_Z a0)) as [U1 U2]. destruct (Hsh sam (inject_Z b0) (inject_Z a0)) as [V1 V2].
    split; [congruence|]. split; [congruence|]. split; [congruence|]. split; [congruence|].
    intros i j Hi Hj Hib Hja Hiy Hjx.
    rewrite (Hpx ref1 b0 a0 i j) by congruence. rewrite (Hpx sam b0 a0 i j) by congruence. split; [|reflexivity].
    apply Hbase; assumption.
  - assert (Ep : p = (ref1, sam)) by reflexivity. rewrite Ep. cbn [fst snd].
    split; [congruence|]. split; [congruence|]. split; [congruence|]. split; [congruence|].
    intros i j Hi Hj Hib Hja Hiy Hjx. rewrite !Z.sub_0_r in *. split; [|reflexivity]. apply Hbase; assumption.
Qed.
Lemma align_lengths shift ref sam sr ss :
  length ref <> length sam \/ length ref <> length sr \/ (exists l, ss = Some l /\ length ref <> length l) ->
  align_image_stacks shift ref sam sr ss = Err ValueError.
Proof.
  unfold align_image_stacks. intros H.
  destruct (Nat.eqb_spec (length ref) (length sam)) as [E1|N1]; cbn [negb]; [|reflexivity].
  destruct (Nat.eqb_spec (length ref) (length sr)) as [E2|N2]; cbn [negb]; [|reflexivity].
  destruct H as [H|[H|(l & -> & H)] ]; try contradiction.
  destruct (Nat.eqb_spec (length ref) (length l)); [contradiction|reflexivity].
Qed.
Lemma align_each shift : forall ref sam sr ss,
  length ref = length sam -> length ref = length sr -> match ss with Some l => length ref = length l | None => True end ->
  exists out, align_image_stacks shift ref sam sr ss = Ok out /\ length out = length ref /\
  forall k r s p, nth_error ref k = Some r -> nth_error sam k = Some s -> nth_error sr k = Some p ->
    match ss with
    | None => nth_error out k = Some (align_one shift r s p None)
    | Some l => forall q, nth_error l k = Some q -> nth_error out k = Some (align_one shift r s p (Some q))
    end.
Proof.
  intros ref sam sr ss H1 H2 H3. unfold align_image_stacks.
  rewrite (proj2 (Nat.eqb_eq _ _) H1), (proj2 (Nat.eqb_eq _ _) H2). cbn [negb].
  assert (NC : forall (A B : Type) (l : list A) (m : list B) k a b, nth_error l k = Some a -> nth_error m k = Some b -> nth_error (combine l m) k = Some (a, b)).
  { clear. intros A B. induction l as [|x l IH]; intros m k a b Ha Hb; [destruct k; discriminate|].
    destruct m as [|y m]; [destruct k; discriminate|]. destruct k; cbn in *; [congruence|]. apply IH; assumption. }
  destruct ss as [l|].
  - rewrite (proj2 (Nat.eqb_eq _ _) H3). cbn [negb]. eexists. split; [reflexivity|]. split.
    + rewrite map_length, !combine_length. lia.
    + intros k r s p Hr Hs Hp q Hq. rewrite nth_error_map.
      rewrite (NC _ _ _ _ k ((r, s), p) q); [reflexivity| |exact Hq]. apply NC; [|exact Hp]. apply NC; assumption.
  - eexists. split; [reflexivity|]. split.
    + rewrite map_length, !combine_length. lia.
    + intros k r s p Hr Hs Hp. rewrite nth_error_map. rewrite (NC _ _ _ _ k (r, s) p); [reflexivity| |exact Hp]. apply NC; assumption.
Qed.

(** ** theorems in terms of the shifts *)
Lemma rnd_bound (rnd : Q -> Z) q m : (forall q, (Qabs (inject_Z (rnd q) - q) <= 1 # 2)%Q) -> (Qabs q <= inject_Z m)%Q -> Z.abs (rnd q) <= m.
Proof.
  intros H Hq. specialize (H q). apply Qabs_Qle_condition in H. apply Qabs_Qle_condition in Hq.
  assert (A : (inject_Z (rnd q) < inject_Z (m + 1))%Q) by (rewrite inject_Z_plus; change (inject_Z 1) with 1%Q; lra).
  assert (B : (inject_Z (- (m + 1)) < inject_Z (rnd q))%Q) by (rewrite inject_Z_opp, inject_Z_plus; change (inject_Z 1) with 1%Q; lra).
  rewrite <- Zlt_Qlt in A, B. lia.
Qed.
Lemma qmean2_eq_img (a b : img Q) : img_eq a b -> qmean2 (nrow a) (ncol a) (px a) = qmean2 (nrow b) (ncol b) (px b).
Proof.
  intros (A & B & C). rewrite <- A, <- B. unfold qmean2, qsum2. f_equal. unfold in_rng in C.
  unfold qsum at 1 3. assert (H : forall n : nat, Z.of_nat n <= nrow a \/ n = O -> qsumn n (fun i => qsum (ncol a) (px a i)) = qsumn n (fun i => qsum (ncol a) (px b i))).
  { induction n as [|n IH]; intros Hn; cbn [qsumn]; [reflexivity|]. rewrite IH by lia. f_equal.
    unfold qsum. assert (G : forall m : nat, Z.of_nat m <= ncol a \/ m = O -> qsumn m (px a (Z.of_nat n)) = qsumn m (px b (Z.of_nat n))).
    { induction m as [|m IHm]; intros Hm; cbn [qsumn]; [reflexivity|]. rewrite IHm by lia. f_equal. apply C; lia. }
    apply G. lia. }
  apply H. lia.
Qed.
Lemma tdf_ext std : (forall a b, img_eq a b -> std a = std b) -> forall a a' b b', img_eq a a' -> img_eq b b' -> tdf_values std a b = tdf_values std a' b'.
Proof.
  intros Hs a a' b b' Ha Hb. unfold tdf_values. rewrite (qmean2_eq_img a a' Ha), (qmean2_eq_img b b' Hb), (Hs a a' Ha), (Hs b b' Hb). reflexivity.
Qed.
Lemma img_eq_sym_trans {A} (a b c : img A) : img_eq a c -> img_eq b c -> img_eq a b.
Proof.
  intros (A1 & A2 & A3) (B1 & B2 & B3). split; [congruence|]. split; [congruence|]. intros i j Hi Hj.
  rewrite A3 by assumption. symmetry. apply B3; congruence.
Qed.
Lemma dark_ncore :
  forall (rnd : Q -> Z), (forall q, (Qabs (inject_Z (rnd q) - q) <= 1 # 2)%Q) ->
  forall std, (forall a b, img_eq a b -> std a = std b) ->
  forall amaxabs ref sam xs ys win_size margin ncore order ncore' order',
  0 <= win_size -> 0 <= margin ->
  dep sam = dep ref -> hei sam = hei ref -> wid sam = wid ref ->
  nrow xs = hei ref -> ncol xs = wid ref -> nrow ys = hei ref -> ncol ys = wid ref ->
  (forall i j, in_rng (hei ref) i -> in_rng (wid ref) j -> (Qabs (px xs i j) <= inject_Z margin)%Q) ->
  (forall i j, in_rng (hei ref) i -> in_rng (wid ref) j -> (Qabs (px ys i j) <= inject_Z margin)%Q) ->
  2 * (win_size / 2 + margin) < hei ref -> 2 * (win_size / 2 + margin) < wid ref ->
  1 <= ncore -> Permutation (zrange 0 ncore) order ->
  1 <= ncore' -> Permutation (zrange 0 ncore') order' ->
  exists t d t' d',
    get_transmission_dark_field_signal rnd (tdf_values std) amaxabs ref sam xs ys win_size (Some margin) ncore order = Ok (t, d) /\
    get_transmission_dark_field_signal rnd (tdf_values std) amaxabs ref sam xs ys win_size (Some margin) ncore' order' = Ok (t', d') /\
    nrow t = hei ref /\ ncol t = wid ref /\ nrow d = hei ref /\ ncol d = wid ref /\
    img_eq t t' /\ img_eq d d'.
Proof.
  intros rnd Hr std Hs amaxabs ref sam xs ys ws margin ncore order ncore' order' Hws Hm D1 D2 D3 X1 X2 Y1 Y2 BX BY P1 P2 N1 O1 N2 O2.
  assert (R0 : 0 <= ws / 2) by (apply Z.div_pos; lia).
  assert (HX : forall i j, in_rng (hei ref) i -> in_rng (wid ref) j -> Z.abs (rnd (px xs i j)) <= margin) by (intros; apply rnd_bound; auto).
  assert (HY : forall i j, in_rng (hei ref) i -> in_rng (wid ref) j -> Z.abs (rnd (px ys i j)) <= margin) by (intros; apply rnd_bound; auto).
  assert (E : (2 * (ws / 2) + 1) / 2 = ws / 2) by (Z.to_euclidean_division_equations; lia).
  destruct (dark_chunks rnd (tdf_values std) (tdf_ext std Hs) ref sam xs ys (ws / 2) margin R0 Hm D2 D3 X1 X2 Y1 Y2 HX HY ws ncore order eq_refl N1 O1 P1 P2)
    as (t & d & E1 & T1 & S1).
  destruct (dark_chunks rnd (tdf_values std) (tdf_ext std Hs) ref sam xs ys (ws / 2) margin R0 Hm D2 D3 X1 X2 Y1 Y2 HX HY ws ncore' order' eq_refl N2 O2 P1 P2)
    as (t' & d' & E2 & T2 & S2).
  exists t, d, t', d'. split; [exact E1|]. split; [exact E2|].
  destruct T1 as (T1a & T1b & T1c). destruct S1 as (S1a & S1b & S1c).
  assert (SH : forall p : img Q * img Q -> img Q, p = fst \/ p = snd -> nrow (pad_edge (p (tdf_seq rnd (tdf_values std) ref sam xs ys (2 * (ws / 2) + 1) margin)) (ws / 2 + margin)) = hei ref
     /\ ncol (pad_edge (p (tdf_seq rnd (tdf_values std) ref sam xs ys (2 * (ws / 2) + 1) margin)) (ws / 2 + margin)) = wid ref).
  { intros p [-> | ->]; unfold pad_edge, tdf_seq; cbn [fst snd nrow ncol]; rewrite E; lia. }
  destruct (SH fst) as [F1 F2]; [auto|]. destruct (SH snd) as [G1 G2]; [auto|].
  split; [congruence|]. split; [congruence|]. split; [congruence|]. split; [congruence|].
  split; eapply img_eq_sym_trans; [split; [exact T1a|split; [exact T1b|exact T1c] ]|exact T2|split; [exact S1a|split; [exact S1b|exact S1c] ]|exact S2].
Qed.
Lemma pos_sum_pos n g : 1 <= n -> (forall i, 0 <= i < n -> (0 < g i)%Q) -> (0 < qsum n g)%Q.
Proof.
  intros Hn H. unfold qsum. replace n with (Z.of_nat (Z.to_nat n)) in Hn, H by lia.
  induction (Z.to_nat n) as [|k IH]; [lia|]. cbn [qsumn].
  destruct k as [|k]; [cbn [qsumn]; specialize (H 0 ltac:(lia)); change (Z.of_nat 0) with 0; lra|].
  assert (A : (0 < qsumn (S k) g)%Q) by (apply IH; [lia|intros; apply H; lia]).
  specialize (H (Z.of_nat (S k)) ltac:(lia)). lra.
Qed.
Lemma qsum_ext_leib n f g : (forall i, 0 <= i < n -> f i = g i) -> qsum n f = qsum n g.
Proof.
  intros H. unfold qsum. assert (G : forall m : nat, Z.of_nat m <= n \/ m = O -> qsumn m f = qsumn m g).
  { induction m as [|m IH]; intros Hm; cbn [qsumn]; [reflexivity|]. rewrite IH by lia. f_equal. apply H. lia. }
  apply G. lia.
Qed.
Lemma dark_value :
  forall (rnd : Q -> Z), (forall q, (Qabs (inject_Z (rnd q) - q) <= 1 # 2)%Q) ->
  forall std, (forall a b, img_eq a b -> std a = std b) ->
  forall amaxabs ref sam xs ys win_size margin ncore order,
  0 <= win_size -> 0 <= margin ->
  dep sam = dep ref -> hei sam = hei ref -> wid sam = wid ref ->
  nrow xs = hei ref -> ncol xs = wid ref -> nrow ys = hei ref -> ncol ys = wid ref ->
  (forall i j, in_rng (hei ref) i -> in_rng (wid ref) j -> (Qabs (px xs i j) <= inject_Z margin)%Q) ->
  (forall i j, in_rng (hei ref) i -> in_rng (wid ref) j -> (Qabs (px ys i j) <= inject_Z margin)%Q) ->
  let r := win_size / 2 in let b := r + margin in
  2 * b < hei ref -> 2 * b < wid ref ->
  1 <= ncore -> Permutation (zrange 0 ncore) order ->
  (forall k i j, in_rng (dep ref) k -> in_rng (hei ref) i -> in_rng (wid ref) j -> (0 < vx ref k i j)%Q /\ (0 < vx sam k i j)%Q) ->
  exists t d,
    get_transmission_dark_field_signal rnd (tdf_values std) amaxabs ref sam xs ys win_size (Some margin) ncore order = Ok (t, d) /\
    forall i j, b <= i < hei ref - b -> b <= j < wid ref - b ->
      (px t i j == qmean (dep ref) (fun k =>
         qsum2 (2 * r + 1) (2 * r + 1) (fun u v => vx sam k (i + rnd (px ys i j) - r + u) (j + rnd (px xs i j) - r + v)) /
         qsum2 (2 * r + 1) (2 * r + 1) (fun u v => vx ref k (i - r + u) (j - r + v))))%Q.
Proof.
  intros rnd Hr std Hs amaxabs ref sam xs ys ws margin ncore order Hws Hm D1 D2 D3 X1 X2 Y1 Y2 BX BY r b P1 P2 N1 O1 Hpos.
  assert (R0 : 0 <= r) by (apply Z.div_pos; lia).
  assert (HX : forall i j, in_rng (hei ref) i -> in_rng (wid ref) j -> Z.abs (rnd (px xs i j)) <= margin) by (intros; apply rnd_bound; auto).
  assert (HY : forall i j, in_rng (hei ref) i -> in_rng (wid ref) j -> Z.abs (rnd (px ys i j)) <= margin) by (intros; apply rnd_bound; auto).
  assert (E : (2 * r + 1) / 2 = r) by (Z.to_euclidean_division_equations; lia).
  destruct (dark_chunks rnd (tdf_values std) (tdf_ext std Hs) ref sam xs ys r margin R0 Hm D2 D3 X1 X2 Y1 Y2 HX HY ws ncore order eq_refl N1 O1 P1 P2)
    as (t & d & E1 & (T1 & T2 & T3) & _).
  exists t, d. split; [exact E1|]. intros i j Hi Hj.
  assert (B0 : 0 <= b) by (unfold b; lia).
  fold b in T1, T2, T3. unfold pad_edge in T1, T2, T3. unfold tdf_seq in T1, T2, T3. cbn [fst nrow ncol px] in T1, T2, T3. rewrite E in T1, T2, T3. fold b in T1, T2, T3.
  rewrite T3 by (unfold in_rng; lia).
  unfold clipZ. replace (Z.min (Z.max (i - b) 0) (hei ref - 2 * b - 1)) with (i - b) by lia.
  replace (Z.min (Z.max (j - b) 0) (wid ref - 2 * b - 1)) with (j - b) by lia.
  replace (i - b + b) with i by lia. replace (j - b + b) with j by lia.
  unfold qmean. apply Qmult_comp; [|reflexivity]. apply qsum_ext. intros k Hk. unfold tdf_pixel. cbv zeta.
  set (i1 := i + rnd (px ys i j)). set (j1 := j + rnd (px xs i j)).
  pose proof (HX i j ltac:(unfold in_rng; lia) ltac:(unfold in_rng; lia)). pose proof (HY i j ltac:(unfold in_rng; lia) ltac:(unfold in_rng; lia)).
  destruct (window_in ref k i j r) as (W1 & W2 & W3); unfold b in *; try lia.
  destruct (window_in sam k i1 j1 r) as (V1 & V2 & V3); try (unfold i1, j1; lia).
  unfold tdf_values. rewrite W1, W2, V1, V2.
  set (A := qmean2 (2 * r + 1) (2 * r + 1) (px (window ref k i j r))). set (B := qmean2 (2 * r + 1) (2 * r + 1) (px (window sam k i1 j1 r))).
  assert (EA : A = (qsum2 (2 * r + 1) (2 * r + 1) (fun u v => vx ref k (i - r + u) (j - r + v)) / inject_Z ((2 * r + 1) * (2 * r + 1)))%Q).
  { unfold A, qmean2, qsum2. f_equal. apply qsum_ext_leib. intros u _. apply qsum_ext_leib. intros v _. apply W3. }
  assert (EB : B = (qsum2 (2 * r + 1) (2 * r + 1) (fun u v => vx sam k (i1 - r + u) (j1 - r + v)) / inject_Z ((2 * r + 1) * (2 * r + 1)))%Q).
  { unfold B, qmean2, qsum2. f_equal. apply qsum_ext_leib. intros u _. apply qsum_ext_leib. intros v _. apply V3. }
  set (SA := qsum2 (2 * r + 1) (2 * r + 1) (fun u v => vx ref k (i - r + u) (j - r + v))) in *.
  set (SB := qsum2 (2 * r + 1) (2 * r + 1) (fun u v => vx sam k (i1 - r + u) (j1 - r + v))) in *.
  assert (PA : (0 < SA)%Q).
  { unfold SA, qsum2. apply pos_sum_pos; [lia|]. intros u Hu. apply pos_sum_pos; [lia|]. intros v Hv. apply Hpos; unfold in_rng; lia. }
  assert (PB : (0 < SB)%Q).
  { unfold SB, qsum2. apply pos_sum_pos; [lia|]. intros u Hu. apply pos_sum_pos; [lia|]. intros v Hv. apply Hpos; unfold in_rng, i1, j1; lia. }
  assert (NZ : (0 < inject_Z ((2 * r + 1) * (2 * r + 1)))%Q) by (change 0%Q with (inject_Z 0); rewrite <- Zlt_Qlt; nia).
  destruct (Qeq_bool A 0) eqn:Q1.
  { apply Qeq_bool_iff in Q1. rewrite EA in Q1. exfalso. assert (0 < SA / inject_Z ((2 * r + 1) * (2 * r + 1)))%Q by (apply Qlt_shift_div_l; lra). lra. }
  destruct (Qeq_bool B 0) eqn:Q2.
  { apply Qeq_bool_iff in Q2. rewrite EB in Q2. exfalso. assert (0 < SB / inject_Z ((2 * r + 1) * (2 * r + 1)))%Q by (apply Qlt_shift_div_l; lra). lra. }
  cbn [negb andb fst]. rewrite EA, EB. fold i1 j1. fold SB. fold SA. field. split; lra.
Qed.
Lemma double_mirror m : 0 <= nrow m -> 0 <= ncol m ->
  nrow (double_image m) = 2 * nrow m /\ ncol (double_image m) = 2 * ncol m /\
  (forall i j, in_rng (2 * nrow m) i -> in_rng (2 * ncol m) j ->
     px (double_image m) (2 * nrow m - 1 - i) j = px (double_image m) i j /\
     px (double_image m) i (2 * ncol m - 1 - j) = px (double_image m) i j) /\
  img_eq (undouble (double_image m) (nrow m) (ncol m)) m.
Proof.
  intros Hr Hc. destruct (double_shape m) as [A B]. split; [exact A|]. split; [exact B|]. split; [|apply undouble_double; assumption].
  unfold in_rng. intros i j Hi Hj. rewrite !double_px by (unfold in_rng; lia).
  split; f_equal.
  - destruct (i <? nrow m) eqn:E; destruct (2 * nrow m - 1 - i <? nrow m) eqn:F; lia.
  - destruct (j <? ncol m) eqn:E; destruct (2 * ncol m - 1 - j <? ncol m) eqn:F; lia.
Qed.
Lemma window_FC_square n i j : 1 <= n -> in_rng n i -> in_rng n j ->
  (px (snd (window_FC n n)) i j == px (snd (window_FC n n)) j i)%Q /\
  (px (fst (fst (window_FC n n))) i j == px (snd (fst (window_FC n n))) j i)%Q.
Proof.
  intros Hn Hi Hj. unfold window_FC. cbn [fst snd px]. split; [|reflexivity].
  rewrite (andb_comm (j =? n / 2)). destruct ((i =? n / 2) && (j =? n / 2)); [reflexivity|].
  unfold Qdiv. apply Qmult_comp; [reflexivity|]. apply Qinv_comp. ring.
Qed.
Lemma dark_attenuated :
  forall (rnd : Q -> Z), (forall q, (Qabs (inject_Z (rnd q) - q) <= 1 # 2)%Q) ->
  forall std, (forall a b, img_eq a b -> std a = std b) ->
  forall amaxabs ref sam xs ys c win_size margin ncore order,
  0 <= win_size -> 0 <= margin -> (0 < c)%Q -> 1 <= dep ref ->
  dep sam = dep ref -> hei sam = hei ref -> wid sam = wid ref ->
  nrow xs = hei ref -> ncol xs = wid ref -> nrow ys = hei ref -> ncol ys = wid ref ->
  (forall i j, in_rng (hei ref) i -> in_rng (wid ref) j -> (px xs i j == 0)%Q /\ (px ys i j == 0)%Q) ->
  (forall q, (q == 0)%Q -> rnd q = 0) ->
  2 * (win_size / 2 + margin) < hei ref -> 2 * (win_size / 2 + margin) < wid ref ->
  1 <= ncore -> Permutation (zrange 0 ncore) order ->
  (forall k i j, in_rng (dep ref) k -> in_rng (hei ref) i -> in_rng (wid ref) j ->
     (0 < vx ref k i j)%Q /\ (vx sam k i j == c * vx ref k i j)%Q) ->
  exists t d,
    get_transmission_dark_field_signal rnd (tdf_values std) amaxabs ref sam xs ys win_size (Some margin) ncore order = Ok (t, d) /\
    nrow t = hei ref /\ ncol t = wid ref /\
    forall i j, in_rng (hei ref) i -> in_rng (wid ref) j -> (px t i j == c)%Q.
Proof.
  intros rnd Hr std Hs amaxabs ref sam xs ys c ws margin ncore order Hws Hm Hc Hd D1 D2 D3 X1 X2 Y1 Y2 Hz Hr0 P1 P2 N1 O1 Hv.
  assert (Z0 : forall q, (q == 0)%Q -> (Qabs q <= inject_Z margin)%Q).
  { intros q Hq. rewrite Hq. change (Qabs 0) with (inject_Z 0). rewrite <- Zle_Qle. exact Hm. }
  destruct (dark_value rnd Hr std Hs amaxabs ref sam xs ys ws margin ncore order Hws Hm D1 D2 D3 X1 X2 Y1 Y2) as (t & d & E1 & V); auto.
  { intros i j Hi Hj. apply Z0. apply (Hz i j Hi Hj). }
  { intros i j Hi Hj. apply Z0. apply (Hz i j Hi Hj). }
  { intros k i j Hk Hi Hj. destruct (Hv k i j Hk Hi Hj) as [A B]. split; [exact A|]. rewrite B. apply Qmult_lt_0_compat; assumption. }
  destruct (dark_ncore rnd Hr std Hs amaxabs ref sam xs ys ws margin ncore order ncore order Hws Hm D1 D2 D3 X1 X2 Y1 Y2) as (t' & d' & _ & _ & E2 & _ & S1 & S2 & _); auto.
  { intros i j Hi Hj. apply Z0. apply (Hz i j Hi Hj). }
  { intros i j Hi Hj. apply Z0. apply (Hz i j Hi Hj). }
  rewrite E1 in E2. assert (t = t') by congruence. subst t'.
  exists t, d. split; [exact E1|]. split; [exact S1|]. split; [exact S2|].
  set (r := ws / 2) in *. set (b := r + margin) in *. assert (R0 : 0 <= r) by (apply Z.div_pos; lia).
  assert (In : forall i j, b <= i < hei ref - b -> b <= j < wid ref - b -> (px t i j == c)%Q).
  { intros i j Hi Hj. rewrite V by assumption. destruct (Hz i j) as [Zx Zy]; try (unfold in_rng; lia).
    rewrite (Hr0 _ Zx), (Hr0 _ Zy). rewrite !Z.add_0_r. rewrite <- (qmean_const (dep ref) c) by lia.
    unfold qmean. apply Qmult_comp; [|reflexivity]. apply qsum_ext. intros k Hk.
    assert (PS : (0 < qsum2 (2 * r + 1) (2 * r + 1) (fun u v => vx ref k (i - r + u) (j - r + v)))%Q).
    { unfold qsum2. apply pos_sum_pos; [lia|]. intros u Hu. apply pos_sum_pos; [lia|]. intros v Hv'. apply Hv; unfold in_rng; lia. }
    assert (ES : (qsum2 (2 * r + 1) (2 * r + 1) (fun u v => vx sam k (i - r + u) (j - r + v)) ==
                  c * qsum2 (2 * r + 1) (2 * r + 1) (fun u v => vx ref k (i - r + u) (j - r + v)))%Q).
    { unfold qsum2. rewrite <- qsum_scal. apply qsum_ext. intros u Hu. rewrite <- qsum_scal. apply qsum_ext. intros v Hv'.
      apply Hv; unfold in_rng; lia. }
    rewrite ES. field. lra. }
  (* the border copies the nearest inner pixel *)
  assert (HX : forall i j, in_rng (hei ref) i -> in_rng (wid ref) j -> Z.abs (rnd (px xs i j)) <= margin).
  { intros i j Hi Hj. rewrite (Hr0 _ (proj1 (Hz i j Hi Hj))). cbn. lia. }
  assert (HY : forall i j, in_rng (hei ref) i -> in_rng (wid ref) j -> Z.abs (rnd (px ys i j)) <= margin).
  { intros i j Hi Hj. rewrite (Hr0 _ (proj2 (Hz i j Hi Hj))). cbn. lia. }
  destruct (dark_chunks rnd (tdf_values std) (tdf_ext std Hs) ref sam xs ys r margin R0 Hm D2 D3 X1 X2 Y1 Y2 HX HY ws ncore order eq_refl N1 O1 P1 P2)
    as (t2 & d2 & E3 & (T1 & T2 & T3) & _).
  assert (t2 = t).
  { change (get_transmission_dark_field_signal rnd (tdf_values std) amaxabs ref sam xs ys ws (Some margin) ncore order = Ok (t2, d2)) in E3. congruence. }
  subst t2.
  assert (E : (2 * r + 1) / 2 = r) by (Z.to_euclidean_division_equations; lia).
  unfold pad_edge in T1, T2, T3. unfold tdf_seq in T1, T2, T3. cbn [fst nrow ncol px] in T1, T2, T3. rewrite E in T1, T2, T3. fold b in T1, T2, T3.
  unfold in_rng in *. intros i j Hi Hj.
  set (i0 := clipZ i b (hei ref - b - 1)). set (j0 := clipZ j b (wid ref - b - 1)).
  assert (B0 : 0 <= b) by (unfold b; lia).
  assert (Hi0 : b <= i0 < hei ref - b) by (unfold i0, clipZ; lia). assert (Hj0 : b <= j0 < wid ref - b) by (unfold j0, clipZ; lia).
  rewrite <- (In i0 j0 Hi0 Hj0). rewrite (T3 i j) by (rewrite ?S1, ?S2; lia). rewrite (T3 i0 j0) by (rewrite ?S1, ?S2; lia).
  replace (clipZ (i0 - b) 0 (hei ref - 2 * b - 1)) with (clipZ (i - b) 0 (hei ref - 2 * b - 1)) by (unfold i0, clipZ; lia).
  replace (clipZ (j0 - b) 0 (wid ref - 2 * b - 1)) with (clipZ (j - b) 0 (wid ref - 2 * b - 1)) by (unfold j0, clipZ; lia).
  reflexivity.
Qed.
