(** Proofs about maps of local shifts in one dimension: chunks. *)
From Coq Require Import Reals Lra ZArith Lia Permutation FunctionalExtensionality.
From Verif Require Import Np P_Np M_phase_R P_phase_R M_corr S_corr P_corr P_corr2 P_corr3 P_corr4 M_local S_local P_peakext P_local P_local2 P_local3 P_local4 P_local5.
From Coq Require Import List. Import ListNotations.
Open Scope Z_scope.

Definition glob (ng : bool) (v : vol R) : vol R := match normalize_if ng (Stack v) with Stack w => w | _ => v end.
Lemma glob_shape ng v : dep (glob ng v) = dep v /\ hei (glob ng v) = hei v /\ wid (glob ng v) = wid v.
Proof. unfold glob. destruct ng; repeat split. Qed.
Lemma rows_slice v b b' : 0 <= b -> b <= b' -> b' <= hei v -> 0 <= wid v ->
  wslice v b b' 0 (wid v) = mkvol (dep v) (b' - b) (wid v) (fun k i j => vx v k (b + i) j).
Proof.
  intros. unfold wslice. rewrite full_len by lia. replace (slen (hei v) b b') with (b' - b) by (replace b' with (b + (b' - b)) at 2 by lia; rewrite slice_len by lia; reflexivity).
  rewrite !slice_at by lia. reflexivity.
Qed.

Section full.
Context (e win margin : Z) (Ee : e = margin + win / 2) (E0 : 1 <= e) (norm : bool).
(** value at position j of two planes *)
Context (lv : img R -> img R -> Z -> R).
Context (multi : direction -> bool -> vol R -> vol R -> res (img R)).
Definition chunk_result : Prop := forall dir pad v w,
  dep v = dep w -> hei v = hei w -> wid v = wid w -> 1 <= dep w -> 1 <= count dir v -> 2 * e + 1 <= extent dir v ->
  exists c, multi dir pad v w = Ok c /\
    (let n := if pad then extent dir v else extent dir v - 2 * e in
     let val := fun i j => let A := norm_plane norm (plane dir v i) in let B := norm_plane norm (plane dir w i) in
        if (pad : bool) then (if (e <=? j) && (j <? extent dir v - e) then lv A B j else 0%R) else lv A B (e + j) in
     match dir with
     | DirX => nrow c = hei v /\ ncol c = n /\ forall i j, 0 <= i < hei v -> 0 <= j < n -> px c i j = val i j
     | DirY => nrow c = n /\ ncol c = wid v /\ forall i j, 0 <= i < n -> 0 <= j < wid v -> px c i j = val j i end).
Context (MS : chunk_result).
Lemma full_x chunk ng v w : dep v = dep w -> hei v = hei w -> wid v = wid w -> 1 <= dep w -> 1 <= hei v -> 2 * e + 1 <= wid v ->
  exists xs, full_image_1d (multi DirX) DirX chunk win margin ng v w = Ok xs /\ nrow xs = hei v /\ ncol xs = wid v /\
    forall i j, 0 <= i < hei v -> 0 <= j < wid v -> px xs i j =
      if (e <=? j) && (j <? wid v - e) then lv (norm_plane norm (plane DirX (glob ng v) i)) (norm_plane norm (plane DirX (glob ng w) i)) j else 0%R.
Proof using MS E0 Ee.
  intros D Hh Hw D1 H1 W1. unfold full_image_1d. rewrite (proj2 (same_shape_spec (Stack v) (Stack w))) by (split; [exact D|split; assumption]). cbn [negb].
  fold (glob ng v). fold (glob ng w). destruct (glob_shape ng v) as (Gd & Gh & Gw). destruct (glob_shape ng w) as (Gd' & Gh' & Gw').
  set (v' := glob ng v) in *. set (w' := glob ng w) in *.
  destruct (num_chunk_pieces (hei v) chunk) as (Nc & Np); [lia|]. rewrite Nc.
  assert (Pl : pieces (hei v) chunk <= hei v).
  { unfold pieces. destruct chunk; [lia|]. lia. }
  unfold array_split. destruct (Z.leb_spec (pieces (hei v) chunk) 0); [lia|]. cbn [bindr].
  set (val := fun i j => if (e <=? j) && (j <? wid v - e) then lv (norm_plane norm (plane DirX v' i)) (norm_plane norm (plane DirX w' i)) j else 0%R).
  set (Inv := fun (p : Z) (s : img R) => nrow s = hei v /\ ncol s = wid v /\ forall i j, 0 <= i < hei v -> 0 <= j < wid v -> px s i j = if i <? p then val i j else 0%R).
  match goal with |- context [over_chunks ?st 0 _ ?z] => set (step := st); set (zero := z) end.
  destruct (over_chunks_ok step 0 Inv (split_sizes (hei v) (pieces (hei v) chunk)) 0 zero) as (xs & Eo & (S1 & S2 & V)).
  - apply split_sizes_pos; lia.
  - split; [reflexivity|]. split; [reflexivity|]. intros i j Hi Hj. destruct (Z.ltb_spec i 0); [lia|reflexivity].
  - intros p len s P0 L0 L1 (S1 & S2 & V). rewrite split_sizes_sum in L1 by lia. cbn [Z.add] in *.
    assert (Sv : wslice v' p (p + len) 0 (wid v) = mkvol (dep v) len (wid v) (fun k i j => vx v' k (p + i) j)).
    { rewrite <- Gw, rows_slice by lia. rewrite Gd. f_equal. lia. }
    assert (Sw : wslice w' p (p + len) 0 (wid v) = mkvol (dep v) len (wid v) (fun k i j => vx w' k (p + i) j)).
    { rewrite Hw, <- Gw', rows_slice by lia. rewrite Gd', D. f_equal. lia. }
    destruct (MS DirX true (mkvol (dep v) len (wid v) (fun k i j => vx v' k (p + i) j)) (mkvol (dep v) len (wid v) (fun k i j => vx w' k (p + i) j))) as (c & Ec & Nc1 & Nc2 & Vc);
      cbn [dep hei wid count extent] in *; try reflexivity; try lia.
    destruct (store_block_ok s p (p + len) 0 (wid v) c) as (s' & Es & S1' & S2' & Vs); try lia; [rewrite S2, full_len by lia; lia|].
    exists s'. unfold step. rewrite Sv, Sw, Ec. cbn [bindr]. split; [exact Es|]. split; [lia|]. split; [lia|].
    intros i j Hi Hj. rewrite Vs. destruct (Z.leb_spec 0 j); [|lia]. destruct (Z.ltb_spec j (0 + ncol c)); [|lia].
    destruct (Z.leb_spec p i), (Z.ltb_spec i (p + len)); cbn [andb].
    + rewrite Vc by lia. unfold val. replace (j - 0) with j by lia.
      assert (Pv : forall u, plane DirX (mkvol (dep v) len (wid v) (fun k i j => vx u k (p + i) j)) (i - p) = mkimg (dep v) (wid v) (fun k j => vx u k i j)).
      { intros u. unfold plane. cbn [dep wid vx]. replace (p + (i - p)) with i by lia. reflexivity. }
      rewrite !Pv. unfold plane. rewrite Gd, Gw, Gd', Gw', <- D, <- Hw. reflexivity.
    + rewrite V by lia. destruct (Z.ltb_spec i p); [lia|reflexivity].
    + rewrite V by lia. destruct (Z.ltb_spec i p); [reflexivity|lia].
    + lia.
  - rewrite split_sizes_sum in V by lia. exists xs. split; [exact Eo|]. split; [exact S1|]. split; [exact S2|]. intros i j Hi Hj. rewrite V by lia.
    destruct (Z.ltb_spec i (0 + hei v)); [reflexivity|lia].
Qed.

Lemma full_y chunk ng v w : dep v = dep w -> hei v = hei w -> wid v = wid w -> 1 <= dep w -> 2 * e + 1 <= hei v -> 1 <= wid v ->
  (norm = false /\ (forall A A' B B' j j', (forall r, line_of A j r = line_of A' j' r) -> (forall r, line_of B j r = line_of B' j' r) -> lv A B j = lv A' B' j')) \/
  pieces (hei v) chunk = 1 ->
  (pieces (hei v) chunk <= hei v - 2 * e ->
   exists ys, full_image_1d (multi DirY) DirY chunk win margin ng v w = Ok ys /\ nrow ys = hei v /\ ncol ys = wid v /\
    forall i j, 0 <= i < hei v -> 0 <= j < wid v -> px ys i j =
      if (e <=? i) && (i <? hei v - e) then lv (norm_plane norm (plane DirY (glob ng v) j)) (norm_plane norm (plane DirY (glob ng w) j)) i else 0%R) /\
  (hei v - 2 * e < pieces (hei v) chunk -> full_image_1d (multi DirY) DirY chunk win margin ng v w = Err IndexError).
Proof using MS E0 Ee.
  intros D Hh Hw D1 H1 W1 Cs. unfold full_image_1d. rewrite (proj2 (same_shape_spec (Stack v) (Stack w))) by (split; [exact D|split; assumption]). cbn [negb].
  fold (glob ng v). fold (glob ng w). destruct (glob_shape ng v) as (Gd & Gh & Gw). destruct (glob_shape ng w) as (Gd' & Gh' & Gw').
  set (v' := glob ng v) in *. set (w' := glob ng w) in *. rewrite <- Ee.
  destruct (num_chunk_pieces (hei v) chunk) as (Nc & Np); [lia|]. rewrite Nc.
  unfold array_split. destruct (Z.leb_spec (pieces (hei v) chunk) 0); [lia|]. cbn [bindr].
  replace (Z.max (hei v - e - e) 0) with (hei v - 2 * e) by lia.
  set (val := fun i j => lv (norm_plane norm (plane DirY v' j)) (norm_plane norm (plane DirY w' j)) i).
  set (Inv := fun (p : Z) (s : img R) => nrow s = hei v /\ ncol s = wid v /\ forall i j, 0 <= i < hei v -> 0 <= j < wid v -> px s i j = if (e <=? i) && (i <? e + p) then val i j else 0%R).
  match goal with |- context [over_chunks ?st e _ ?z] => set (step := st); set (zero := z) end.
  assert (I0 : Inv 0 zero).
  { split; [reflexivity|]. split; [reflexivity|]. intros i j Hi Hj. destruct (Z.leb_spec e i), (Z.ltb_spec i (e + 0)); try lia; reflexivity. }
  assert (St : forall p len s, 0 <= p -> 0 < len -> p + len <= hei v - 2 * e -> (pieces (hei v) chunk = 1 -> p = 0 /\ len = hei v - 2 * e) -> Inv p s ->
     exists s', step s (e + p) (e + p + len) = Ok s' /\ Inv (p + len) s').
  { intros p len s P0 L0 L1 One1 (S1 & S2 & V).
    assert (Sv : wslice v' (e + p - e) (e + p + len + e) 0 (wid v) = mkvol (dep v) (len + 2 * e) (wid v) (fun k i j => vx v' k (p + i) j)).
    { rewrite <- Gw, rows_slice by lia. rewrite Gd. replace (e + p - e) with p by lia. f_equal. lia. }
    assert (Sw : wslice w' (e + p - e) (e + p + len + e) 0 (wid v) = mkvol (dep v) (len + 2 * e) (wid v) (fun k i j => vx w' k (p + i) j)).
    { rewrite Hw, <- Gw', rows_slice by lia. rewrite Gd', D. replace (e + p - e) with p by lia. f_equal. lia. }
    destruct (MS DirY false (mkvol (dep v) (len + 2 * e) (wid v) (fun k i j => vx v' k (p + i) j)) (mkvol (dep v) (len + 2 * e) (wid v) (fun k i j => vx w' k (p + i) j))) as (c & Ec & Nc1 & Nc2 & Vc);
      cbn [dep hei wid count extent] in *; try reflexivity; try lia.
    destruct (store_block_ok s (e + p) (e + p + len) 0 (wid v) c) as (s' & Es & S1' & S2' & Vs); try lia; [rewrite S2, full_len by lia; lia|].
    exists s'. unfold step. rewrite Sv, Sw, Ec. cbn [bindr]. split; [exact Es|]. split; [lia|]. split; [lia|].
    intros i j Hi Hj. rewrite Vs. destruct (Z.leb_spec 0 j); [|lia]. destruct (Z.ltb_spec j (0 + ncol c)); [|lia].
    destruct (Z.leb_spec (e + p) i), (Z.ltb_spec i (e + p + len)); cbn [andb].
    - rewrite Vc by lia. destruct (Z.leb_spec e i); [|lia]. destruct (Z.ltb_spec i (e + (p + len))); [|lia]. cbn [andb]. unfold val. replace (j - 0) with j by lia.
      destruct Cs as [ (Nf & Ln)|P1].
      + rewrite Nf. cbn [norm_plane normalize_if]. apply Ln; intros q; unfold line_of, plane; cbn [nrow ncol px dep hei vx]; (rewrite Gd || rewrite Gd', <- D);
          f_equal; f_equal; apply functional_extensionality; intros k; apply functional_extensionality; intros a; f_equal; lia.
      + destruct (One1 P1) as (-> & ->). replace (e + (i - (e + 0))) with i by lia. f_equal; f_equal; unfold plane; cbn [dep hei vx];
          rewrite ?Gd, ?Gh, ?Gd', ?Gh', <- ?D, <- ?Hh; f_equal; lia.
    - rewrite V by lia. destruct (Z.leb_spec e i); [|reflexivity]. destruct (Z.ltb_spec i (e + p)); [lia|]. destruct (Z.ltb_spec i (e + (p + len))); [lia|reflexivity].
    - rewrite V by lia. destruct (Z.leb_spec e i); [|reflexivity]. destruct (Z.ltb_spec i (e + p)); [|lia]. destruct (Z.ltb_spec i (e + (p + len))); [reflexivity|lia].
    - lia. }
  split.
  - intros Pl. destruct (Z.eq_dec (pieces (hei v) chunk) 1) as [P1|P1].
    + rewrite P1. unfold split_sizes. rewrite Z.mod_1_r, Z.div_1_r. change (Z.to_nat 0) with 0%nat. change (Z.to_nat (1 - 0)) with 1%nat. cbn [repeat app split_from over_chunks].
      destruct (Z.eqb_spec (hei v - 2 * e) 0); [lia|]. destruct (St 0 (hei v - 2 * e) zero) as (ys & Es & (S1 & S2 & V)); [lia..|intros; lia|exact I0|].
      rewrite Es. cbn [bindr]. exists ys. split; [reflexivity|]. split; [exact S1|]. split; [exact S2|]. intros i j Hi Hj. rewrite V by lia.
      replace (e + (0 + (hei v - 2 * e))) with (hei v - e) by lia. reflexivity.
    + destruct (over_chunks_ok step e Inv (split_sizes (hei v - 2 * e) (pieces (hei v) chunk)) 0 zero) as (ys & Eo & (S1 & S2 & V)).
      * apply split_sizes_pos; lia.
      * exact I0.
      * intros p len s Q0 L0 L1. rewrite split_sizes_sum in L1 by lia. apply St; try lia.
      * rewrite split_sizes_sum in V by lia. exists ys. split; [exact Eo|]. split; [exact S1|]. split; [exact S2|]. intros i j Hi Hj. rewrite V by lia.
        replace (e + (0 + (hei v - 2 * e))) with (hei v - e) by lia. reflexivity.
  - intros Pl. destruct (split_sizes_empty (hei v - 2 * e) (pieces (hei v) chunk)) as (l1 & l2 & -> & Q1 & Sm); [lia|].
    apply (over_chunks_empty step e Inv); [exact Q1|exact I0|]. intros p len s Q0 L0 L1. apply St; lia.
Qed.
End full.
