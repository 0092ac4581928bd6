(** Proofs about speckle tracking: the blank border of the shift maps. *)
From Coq Require Import Reals Lra ZArith Lia Bool.
From Verif Require Import Np P_Np M_phase_R M_corr S_corr P_corr M_local S_local P_local P_local2 M_umpa M_speckle S_speckle.
From Coq Require Import List. Import ListNotations.
Open Scope Z_scope.

Lemma over_chunks_keeps {A} (step : A -> Z -> Z -> res A) base (Inv : A -> Prop) chunks : forall s s',
  over_chunks step base chunks s = Ok s' -> Inv s ->
  (forall c s s', In c chunks -> snd c <> 0 -> step s (base + fst c) (base + fst c + snd c) = Ok s' -> Inv s -> Inv s') -> Inv s'.
Proof.
  induction chunks as [|(b, len) t IH]; intros s s' E I St; cbn [over_chunks] in E; [injection E as <-; exact I|].
  destruct (Z.eqb_spec len 0); [discriminate|]. destruct (step s (base + b) (base + b + len)) as [s1|] eqn:E1; [|discriminate]. cbn [bindr] in E.
  apply (IH s1 s' E); [apply (St (b, len) s); [left; reflexivity|exact n|exact E1|exact I]|]. intros c u u' C. apply St. right. exact C.
Qed.
Lemma store_block_inv m b e l r c m' : store_block m b e l r c = Ok m' ->
  nrow m' = nrow m /\ ncol m' = ncol m /\ nrow c = slen (nrow m) b e /\ ncol c = slen (ncol m) l r /\
  forall i j, px m' i j = px m i j \/ (py_adj (nrow m) b <= i < py_adj (nrow m) b + nrow c /\ py_adj (ncol m) l <= j < py_adj (ncol m) l + ncol c /\
     px m' i j = px c (i - py_adj (nrow m) b) (j - py_adj (ncol m) l)).
Proof.
  unfold store_block. destruct (Z.eqb_spec (slen (nrow m) b e) (nrow c)); [|discriminate]. destruct (Z.eqb_spec (slen (ncol m) l r) (ncol c)); [|discriminate]. cbn [andb].
  intros Q. assert (O : m' = mkimg (nrow m) (ncol m) (fun i j => if (py_adj (nrow m) b <=? i) && (i <? py_adj (nrow m) b + nrow c) && (py_adj (ncol m) l <=? j) && (j <? py_adj (ncol m) l + ncol c) then px c (i - py_adj (nrow m) b) (j - py_adj (ncol m) l) else px m i j)) by congruence.
  rewrite O. cbn [nrow ncol px]. split; [reflexivity|]. split; [reflexivity|]. split; [congruence|]. split; [congruence|]. intros i j.
  destruct (Z.leb_spec (py_adj (nrow m) b) i), (Z.ltb_spec i (py_adj (nrow m) b + nrow c)), (Z.leb_spec (py_adj (ncol m) l) j), (Z.ltb_spec j (py_adj (ncol m) l + ncol c)); cbn [andb]; tauto || (right; repeat split; lia || reflexivity).
Qed.

Section border.
Context (h w : Z).
(** blank except for rows ey .. h - ey and columns ex .. w - ex *)
Definition framed (ey ex : Z) (m : img R) : Prop :=
  nrow m = h /\ ncol m = w /\ forall i j, in_rng h i -> in_rng w j -> ~ (ey <= i < h - ey /\ ex <= j < w - ex) -> px m i j = 0%R.
Lemma framed_zero ey ex : framed ey ex (mkimg h w (fun _ _ => 0%R)).
Proof. split; [reflexivity|]. split; reflexivity. Qed.
(** a block of rows b .. e and columns e .. -e *)
Lemma framed_store (ed b e : Z) m c m' : 1 <= ed -> ed <= b -> b <= e -> e <= h - ed -> framed ed ed m -> store_block m b e ed (- ed) c = Ok m' -> framed ed ed m'.
Proof.
  intros E0 B1 B2 B3 (R & C & V) S. destruct (store_block_inv m b e ed (- ed) c m' S) as (R' & C' & Rc & Cc & P).
  split; [congruence|]. split; [congruence|]. intros i j Hi Hj N. destruct (P i j) as [-> | (Pi & Pj & _)]; [apply V; assumption|].
  exfalso. apply N. rewrite R in Rc, Pi. rewrite C in Cc, Pj. unfold slen, py_adj in *. unfold in_rng in *.
  destruct (Z.ltb_spec b 0), (Z.ltb_spec e 0), (Z.ltb_spec ed 0), (Z.ltb_spec (- ed) 0); lia.
Qed.
(** rows b .. e over the whole width, of a chunk that is blank at its sides *)
Lemma framed_store_rows (ey ex b e : Z) m c m' : 0 <= b -> ey <= b -> b <= e -> e <= h - ey -> e <= h -> framed ey ex m -> (forall i j, ~ (ex <= j < w - ex) -> px c i j = 0%R) ->
  store_block m b e 0 w c = Ok m' -> framed ey ex m'.
Proof.
  intros B0 B1 B2 B3 B4 (R & C & V) Z S. destruct (store_block_inv m b e 0 w c m' S) as (R' & C' & Rc & Cc & P).
  split; [congruence|]. split; [congruence|]. intros i j Hi Hj N. destruct (P i j) as [-> | (Pi & Pj & ->)]; [apply V; assumption|].
  apply Z. intros Q. apply N. rewrite R in Rc, Pi. rewrite C in Cc, Pj, Q. unfold slen, py_adj in *. unfold in_rng in *.
  destruct (Z.ltb_spec b 0); [lia|]. destruct (Z.ltb_spec e 0); [lia|]. destruct (Z.ltb_spec 0 0); [lia|]. destruct (Z.ltb_spec w 0); [lia|]. split; lia.
Qed.
End border.

Lemma full_2d_framed multi only chunk win margin norm ng ref mat xs ys : 0 <= win / 2 -> 1 <= margin ->
  full_image_2d multi only chunk win margin norm ng ref mat = Ok (xs, ys) ->
  let e := win / 2 + margin in framed (height ref) (width ref) e e xs /\ framed (height ref) (width ref) e e ys.
Proof.
  intros W M. cbv zeta. unfold full_image_2d. destruct (negb (same_shape ref mat)); [discriminate|].
  assert (Sh : shape2 ref = (height ref, width ref)) by (destruct ref; reflexivity). rewrite Sh.
  destruct (Z.ltb_spec (height ref) (2 * (margin + win / 2) + 1)) as [|He]; [discriminate|].
  destruct (array_split (height ref - (margin + win / 2) - (margin + win / 2)) (num_chunk_of (height ref) chunk)) as [chunks|] eqn:Ch; [|discriminate]. cbn [bindr].
  intros E. rewrite (Z.add_comm (win / 2) margin).
  refine (over_chunks_keeps _ _ (fun s => framed (height ref) (width ref) (margin + win / 2) (margin + win / 2) (fst s) /\ framed (height ref) (width ref) (margin + win / 2) (margin + win / 2) (snd s)) _ _ _ E _ _).
  - split; apply framed_zero.
  - intros (b, len) s s' In0 L Q (I1 & I2). assert (NN : 0 <= height ref - (margin + win / 2) - (margin + win / 2)) by lia. destruct (array_split_In _ _ _ _ NN Ch In0) as (B0 & B1 & B2). cbn [fst snd] in *.
    match type of Q with context [multi ?a ?b ?c] => destruct (multi a b c) as [c0|] end; [|discriminate]. cbn [bindr] in Q.
    match type of Q with context [store_block (fst s) ?a ?b ?c ?d ?e] => destruct (store_block (fst s) a b c d e) as [x|] eqn:X end; [|discriminate]. cbn [bindr] in Q.
    match type of Q with context [store_block (snd s) ?a ?b ?c ?d ?e] => destruct (store_block (snd s) a b c d e) as [y|] eqn:Y end; [|discriminate]. cbn [bindr] in Q.
    assert (O : s' = (x, y)) by congruence. rewrite O. cbn [fst snd]. assert (0 <= len). { destruct B2 as [-> | ->]; assert (0 <= (height ref - (margin + win / 2) - (margin + win / 2)) / num_chunk_of (height ref) chunk); try lia; apply Z.div_pos; try lia; unfold array_split in Ch; destruct (Z.leb_spec (num_chunk_of (height ref) chunk) 0); [discriminate|lia|discriminate|lia]. }
    split; [eapply framed_store; [| | | | exact I1 | exact X]|eapply framed_store; [| | | | exact I2 | exact Y] ]; lia.
Qed.
Lemma pad_zero_framed m p h w : 0 <= p -> nrow m = h - 2 * p -> ncol m = w - 2 * p -> framed h w p p (pad_zero m p).
Proof.
  intros P R C. split; [cbn [pad_zero nrow]; lia|]. split; [cbn [pad_zero ncol]; lia|]. intros i j Hi Hj N. cbn [pad_zero px]. rewrite R, C.
  destruct (Z.leb_spec p i), (Z.ltb_spec i (p + (h - 2 * p))), (Z.leb_spec p j), (Z.ltb_spec j (p + (w - 2 * p))); cbn [andb]; try reflexivity. exfalso. apply N. lia.
Qed.

Section dev.
Context (polyfit2 : vec R -> R * R) (surface : img R -> R * R * R * R * R).
Lemma multi_2d_framed win margin sub meth size gpu block sched norm ref mat xs ys : 0 <= win / 2 -> 1 <= margin ->
  multi_rows_2d_cpu polyfit2 surface win margin sub meth size gpu block sched true norm ref mat = Ok (xs, ys) ->
  let e := win / 2 + margin in framed (height ref) (width ref) e e xs /\ framed (height ref) (width ref) e e ys.
Proof.
  intros W M. cbv zeta. unfold multi_rows_2d_cpu. destruct (negb (same_shape ref mat)); [discriminate|].
  assert (Sh : shape2 ref = (height ref, width ref)) by (destruct ref; reflexivity). rewrite Sh, radius_of.
  destruct (_ || _); [discriminate|]. match goal with |- bindr ?m _ = _ -> _ => destruct m as [l|] end; [|discriminate]. cbn [bindr].
  unfold two_images. intros Q. assert (O : (xs, ys) = (xs, ys)) by reflexivity. injection Q as <- <-.
  split; apply pad_zero_framed; cbn [nrow ncol]; lia.
Qed.
Lemma single_row_blank win margin sub meth size gpu block sched norm a b v j : single_row polyfit2 surface win margin sub meth size gpu block sched true norm a b = Ok v ->
  ~ (win / 2 + margin <= j < ncol a - (win / 2 + margin)) -> vat v j = 0%R.
Proof.
  unfold single_row. rewrite radius_of. destruct (negb _); [discriminate|]. destruct (_ <? _); [discriminate|]. match goal with |- bindr ?m _ = _ -> _ => destruct m as [l|] end; [|discriminate]. cbn [bindr vat].
  intros Q N. assert (O : vat v j = (if (win / 2 + margin <=? j) && (j <? win / 2 + margin + (ncol a - (win / 2 + margin) - (win / 2 + margin))) then fst (nth (Z.to_nat (j - (win / 2 + margin))) l (0, 0)%R) else 0%R)) by (assert (Q' := f_equal (fun r => match r with Ok u => vat u j | Err _ => 0%R end) Q); cbn beta iota in Q'; cbn [vat] in Q'; congruence). rewrite O.
  destruct (Z.leb_spec (win / 2 + margin) j), (Z.ltb_spec j (win / 2 + margin + (ncol a - (win / 2 + margin) - (win / 2 + margin)))); cbn [andb]; try reflexivity. lia.
Qed.
Lemma cpu_1d_blank win margin sub meth size norm block sched a b c i j : multi_rows_1d_cpu polyfit2 surface DirX win margin sub meth size true norm block sched a b = Ok c ->
  ~ (win / 2 + margin <= j < wid a - (win / 2 + margin)) -> px c i j = 0%R.
Proof.
  unfold multi_rows_1d_cpu. destruct (mapr _ _) as [l|] eqn:E; [|discriminate]. cbn [bindr]. intros Q N.
  assert (Q' := f_equal (fun r => match r with Ok u => px u i j | Err _ => 0%R end) Q). cbn beta iota in Q'. cbn [px] in Q'. rewrite <- Q'.
  apply mapr_ok in E. destruct (Nat.lt_ge_cases (Z.to_nat i) (length l)) as [L|L]; [|rewrite nth_overflow by exact L; reflexivity].
  assert (Z' : Forall (fun v => vat v j = 0%R) l).
  { clear -E N. induction E as [|x v l1 l2 H E IH]; constructor; [|exact IH]. refine (single_row_blank _ _ _ _ _ _ _ _ _ _ _ v j H _). cbn [plane ncol]. exact N. }
  rewrite Forall_forall in Z'. apply Z', nth_In, L.
Qed.
Lemma gpu_1d_blank win margin block sched norm a b c i j : multi_rows_1d_gpu DirX win margin block sched true norm a b = Ok c ->
  ~ (win / 2 + margin <= j < wid a - (win / 2 + margin)) -> px c i j = 0%R.
Proof.
  unfold multi_rows_1d_gpu. destruct (negb _); [discriminate|]. rewrite radius_of. destruct (_ <? _); [discriminate|]. intros Q N.
  assert (Q' := f_equal (fun r => match r with Ok u => px u i j | Err _ => 0%R end) Q). cbn beta iota in Q'. cbn [px] in Q'. rewrite <- Q'.
  destruct (Z.leb_spec (win / 2 + margin) j), (Z.ltb_spec j (win / 2 + margin + (wid a - 2 * (win / 2 + margin)))); cbn [andb]; try reflexivity. lia.
Qed.
Lemma full_1d_x multi chunk win margin ng ref mat xs : 0 <= hei ref -> 0 <= wid ref ->
  (forall a b c i j, multi true a b = Ok c -> ~ (win / 2 + margin <= j < wid a - (win / 2 + margin)) -> px c i j = 0%R) ->
  full_image_1d multi DirX chunk win margin ng ref mat = Ok xs -> framed (hei ref) (wid ref) 0 (win / 2 + margin) xs.
Proof.
  intros H0 W0 Bl. unfold full_image_1d. destruct (negb _); [discriminate|].
  destruct (array_split (hei ref) (num_chunk_of (hei ref) chunk)) as [chunks|] eqn:Ch; [|discriminate]. cbn [bindr]. intros E.
  refine (over_chunks_keeps _ _ (framed (hei ref) (wid ref) 0 (win / 2 + margin)) _ _ _ E (framed_zero _ _ _ _) _).
  intros (b, len) s s' In0 L Q I. destruct (array_split_In _ _ _ _ H0 Ch In0) as (B0 & B1 & B2). cbn [fst snd] in *. rewrite !Z.add_0_l in Q.
  match type of Q with context [multi ?a ?b ?c] => destruct (multi a b c) as [c0|] eqn:Mu end; [|discriminate]. cbn [bindr] in Q.
  assert (0 <= len). { destruct B2 as [-> | ->]; assert (0 <= hei ref / num_chunk_of (hei ref) chunk); try lia; apply Z.div_pos; try lia; unfold array_split in Ch; destruct (Z.leb_spec (num_chunk_of (hei ref) chunk) 0); [discriminate|lia|discriminate|lia]. }
  refine (framed_store_rows _ _ _ _ b (b + len) s c0 s' _ _ _ _ _ I _ Q); try lia.
  intros i j N. apply (Bl _ _ _ _ _ Mu). destruct ng; cbn [normalize_if normalize_image wslice wid]; rewrite full_len by exact W0; exact N.
Qed.
Lemma full_1d_y multi chunk win margin ng ref mat ys : 0 <= hei ref -> 0 <= wid ref -> 0 <= win / 2 -> 1 <= margin ->
  full_image_1d multi DirY chunk win margin ng ref mat = Ok ys -> framed (hei ref) (wid ref) (win / 2 + margin) 0 ys.
Proof.
  intros H0 W0 W M. unfold full_image_1d. destruct (negb _); [discriminate|].
  destruct (array_split (Z.max (hei ref - (margin + win / 2) - (margin + win / 2)) 0) (num_chunk_of (hei ref) chunk)) as [chunks|] eqn:Ch; [|discriminate]. cbn [bindr]. intros E. rewrite (Z.add_comm (win / 2)).
  refine (over_chunks_keeps _ _ (framed (hei ref) (wid ref) (margin + win / 2) 0) _ _ _ E (framed_zero _ _ _ _) _).
  intros (b, len) s s' In0 L Q I. assert (NN : 0 <= Z.max (hei ref - (margin + win / 2) - (margin + win / 2)) 0) by lia. destruct (array_split_In _ _ _ _ NN Ch In0) as (B0 & B1 & B2). cbn [fst snd] in *.
  match type of Q with context [multi ?a ?b ?c] => destruct (multi a b c) as [c0|] eqn:Mu end; [|discriminate]. cbn [bindr] in Q.
  assert (0 <= len). { destruct B2 as [-> | ->]; assert (0 <= Z.max (hei ref - (margin + win / 2) - (margin + win / 2)) 0 / num_chunk_of (hei ref) chunk); try lia; apply Z.div_pos; try lia; unfold array_split in Ch; destruct (Z.leb_spec (num_chunk_of (hei ref) chunk) 0); [discriminate|lia|discriminate|lia]. }
  destruct (store_block_inv _ _ _ _ _ _ _ Q) as (R' & C' & Rc & Cc & P). destruct I as (R & C & V).
  split; [congruence|]. split; [congruence|]. intros i j Hi Hj N. destruct (P i j) as [-> | (Pi & Pj & _)]; [apply V; assumption|].
  exfalso. apply N. split; [|unfold in_rng in Hj; lia]. rewrite R in Rc, Pi. unfold slen, py_adj in *. unfold in_rng in *. clear P V Q E Mu.
  destruct (Z.ltb_spec (margin + win / 2 + b) 0), (Z.ltb_spec (margin + win / 2 + b + len) 0); lia.
Qed.

(** the zero border of the maps of find_local_shifts: rows for y-shifts, columns for x-shifts, both if dim=2 *)
Definition lines_only (d : data) (dim1 : bool) (dev : device) : bool := match d, dev with Stack _, Hybrid => false | Stack _, _ => dim1 | One _, _ => false end.
Lemma local_framed ref mat dim1 win margin meth size dev block sched norm ng chunk xs ys : 0 <= height ref -> 0 <= width ref -> 0 <= win / 2 -> 1 <= margin ->
  find_local_shifts polyfit2 surface ref mat dim1 win margin meth size dev block sched norm ng chunk = Ok (xs, ys) ->
  let e := win / 2 + margin in let o := if lines_only ref dim1 dev then 0 else e in
  framed (height ref) (width ref) o e xs /\ framed (height ref) (width ref) e o ys.
Proof.
  intros H0 W0 W M E. destruct ref as [m|v]; cbn [find_local_shifts height width lines_only] in *.
  - destruct dev; [exact (multi_2d_framed win margin true meth size false block sched norm (One m) mat xs ys W M E)|exact (full_2d_framed _ _ _ _ _ _ _ (One m) mat xs ys W M E)..].
  - destruct mat as [n|w]; [discriminate|]. destruct dev.
    + destruct dim1; [|exact (full_2d_framed _ _ _ _ _ _ _ (Stack v) (Stack w) xs ys W M E)].
      match type of E with bindr ?m _ = _ => destruct m as [x|] eqn:X end; [|discriminate]. cbn [bindr] in E.
      match type of E with bindr ?m _ = _ => destruct m as [y|] eqn:Y end; [|discriminate]. cbn [bindr] in E. assert (x = xs /\ y = ys) as [-> ->] by (split; congruence).
      split; [refine (full_1d_x _ _ _ _ _ _ _ _ H0 W0 _ X); intros; eapply cpu_1d_blank; eassumption|exact (full_1d_y _ _ _ _ _ _ _ _ H0 W0 W M Y)].
    + destruct dim1; [|exact (full_2d_framed _ _ _ _ _ _ _ (Stack v) (Stack w) xs ys W M E)].
      match type of E with bindr ?m _ = _ => destruct m as [x|] eqn:X end; [|discriminate]. cbn [bindr] in E.
      match type of E with bindr ?m _ = _ => destruct m as [y|] eqn:Y end; [|discriminate]. cbn [bindr] in E. assert (x = xs /\ y = ys) as [-> ->] by (split; congruence).
      split; [refine (full_1d_x _ _ _ _ _ _ _ _ H0 W0 _ X); intros; eapply gpu_1d_blank; eassumption|exact (full_1d_y _ _ _ _ _ _ _ _ H0 W0 W M Y)].
    + exact (full_2d_framed _ _ _ _ _ _ _ (Stack v) (Stack w) xs ys W M E).
Qed.
Lemma umpa_framed smooth ref mat win margin meth size gpu block sched chunk dark xs ys sig : 0 <= win / 2 -> 1 <= margin ->
  find_local_shifts_umpa polyfit2 surface smooth ref mat win margin meth size gpu block sched chunk dark = Ok (xs, ys, sig) ->
  let e := win / 2 + margin in framed (hei ref) (wid ref) e e xs /\ framed (hei ref) (wid ref) e e ys.
Proof.
  intros W M. cbv zeta. unfold find_local_shifts_umpa. destruct (negb _); [discriminate|]. rewrite !radius_of.
  destruct (Z.ltb_spec (wid ref) (2 * (win / 2) + 1 + 2 * margin)); [discriminate|]. destruct (Z.ltb_spec (hei ref) (2 * (win / 2) + 1 + 2 * margin)); [discriminate|]. cbn [orb].
  destruct (array_split (hei ref - (margin + win / 2) - (margin + win / 2)) (num_chunk_of (hei ref) chunk)) as [chunks|] eqn:Ch; [|discriminate]. cbn [bindr].
  match goal with |- bindr ?m _ = _ -> _ => destruct m as [s0|] eqn:E end; [|discriminate]. cbn [bindr]. rewrite (Z.add_comm (win / 2) margin). intros Q.
  assert (O : fst (fst s0) = xs /\ snd (fst s0) = ys). { destruct s0 as ((x & y) & (t & u)). cbn [fst snd]. split; congruence. } destruct O as [<- <-].
  refine (over_chunks_keeps _ _ (fun s => framed (hei ref) (wid ref) (margin + win / 2) (margin + win / 2) (fst (fst s)) /\ framed (hei ref) (wid ref) (margin + win / 2) (margin + win / 2) (snd (fst s))) _ _ _ E _ _).
  - split; apply framed_zero.
  - clear E Q. intros (b, len) s s' In0 L Q (I1 & I2). assert (NN : 0 <= hei ref - (margin + win / 2) - (margin + win / 2)) by lia. destruct (array_split_In _ _ _ _ NN Ch In0) as (B0 & B1 & B2). cbn [fst snd] in *.
    match type of Q with bindr ?m _ = _ => destruct m as [c0|] end; [|discriminate]. cbn [bindr] in Q.
    match type of Q with bindr ?m _ = _ => destruct m as [x|] eqn:X end; [|discriminate]. cbn [bindr] in Q.
    match type of Q with bindr ?m _ = _ => destruct m as [y|] eqn:Y end; [|discriminate]. cbn [bindr] in Q.
    assert (O : fst s' = (x, y)). { destruct dark; [|injection Q as <-; reflexivity]. match type of Q with bindr ?m _ = _ => destruct m as [t|] end; [|discriminate]. cbn [bindr] in Q. match type of Q with bindr ?m _ = _ => destruct m as [u|] end; [|discriminate]. cbn [bindr] in Q. injection Q as <-; reflexivity. }
    rewrite O. cbn [fst snd]. assert (0 <= len). { destruct B2 as [-> | ->]; assert (0 <= (hei ref - (margin + win / 2) - (margin + win / 2)) / num_chunk_of (hei ref) chunk); try lia; apply Z.div_pos; try lia; unfold array_split in Ch; destruct (Z.leb_spec (num_chunk_of (hei ref) chunk) 0); [discriminate|lia|discriminate|lia]. }
    split; [eapply framed_store; [| | | | exact I1 | exact X]|eapply framed_store; [| | | | exact I2 | exact Y] ]; lia.
Qed.
End dev.
