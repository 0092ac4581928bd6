(** Proofs about maps of local shifts in one dimension (CPU). *)
From Coq Require Import Reals Lra ZArith Lia Permutation FunctionalExtensionality.
From Verif Require Import Np P_Np M_phase_R P_phase_R M_corr S_corr P_corr P_corr2 P_corr3 P_corr4 M_local S_local P_peakext P_local P_local2 P_local3 P_local4.
From Coq Require Import List. Import ListNotations.
Open Scope Z_scope.

Definition line_of (m : img R) (j r : Z) : data := One (mkimg (nrow m) (2 * r + 1) (fun k a => px m k (j - r + a))).
Lemma interval_line m j r : 0 <= nrow m -> 0 <= r -> 0 <= j - r -> j + r < ncol m -> interval m j r = line_of m j r.
Proof.
  intros N R0 J0 J1. unfold interval, line_of, islice. rewrite full_len by lia.
  replace (j + (r + 1)) with (j - r + (2 * r + 1)) by lia. rewrite slice_len by lia. rewrite !slice_at by lia. reflexivity.
Qed.
Lemma strip_x v i j r : strip true v i j r = line_of (plane DirX v i) j r. Proof. reflexivity. Qed.
Lemma strip_y v i j r : strip false v i j r = line_of (plane DirY v j) i r. Proof. reflexivity. Qed.
Lemma line_fits A B j r margin : nrow A = nrow B -> 1 <= nrow B -> 0 <= r -> 1 <= margin -> fits (line_of A j (r + margin)) (line_of B j r).
Proof. intros. unfold fits, line_of. cbn [same_kind depth height width nrow ncol]. split; [exact I|lia]. Qed.

Section cpu.
Context (polyfit2 : vec R -> R * R) (surface : img R -> R * R * R * R * R).
Notation find_shift := (find_shift_based_correlation_map polyfit2 surface).
Context (meth : method) (size win margin : Z) (R0 : 0 <= win / 2) (M : 1 <= margin).
Let r := win / 2.
Let e := r + margin.
(** the shift along the line around j of two planes *)
Definition line_shift (A B : img R) (j : Z) : res (R * R) :=
  find_shift (line_of A j e) (line_of B j r) margin Axis1 true meth true size false (1, 1) (fun l => l).
Lemma line_total A B j : nrow A = nrow B -> 1 <= nrow B -> exists x, line_shift A B j = Ok (x, 0%R).
Proof using R0 M.
  intros N N1. pose proof (line_fits A B j r margin N N1 R0 M) as F.
  destruct (shift_template polyfit2 surface _ _ margin Axis1 true meth true size false (1, 1) (fun l => l) F) as (m & xs & ys & xp & yp & _ & E & _ & Ex & Ey & _);
    [unfold line_of; cbn [height width nrow ncol]; unfold e; lia|apply default_launch|unfold line_of; cbn [height width nrow ncol]; unfold e; lia|].
  exists xs. unfold line_shift. fold e in E. rewrite E, Ey. reflexivity.
Qed.
Definition line_value (A B : img R) (j : Z) : R := fst (value_of (line_shift A B j)).

Lemma single_row_spec block sched pad norm A B : nrow A = nrow B -> ncol A = ncol B -> 1 <= nrow B -> 2 * e + 1 <= ncol A ->
  exists v, single_row polyfit2 surface win margin true meth size false block sched pad norm A B = Ok v /\
    vlen v = (if pad then ncol A else ncol A - 2 * e) /\
    forall j, 0 <= j < vlen v -> vat v j =
      if (pad : bool) then (if (e <=? j) && (j <? ncol A - e) then line_value (norm_plane norm A) (norm_plane norm B) j else 0%R)
      else line_value (norm_plane norm A) (norm_plane norm B) (e + j).
Proof using R0 M.
  intros N C N1 W. unfold single_row. rewrite N, <- C, !Z.eqb_refl. cbn [andb negb]. rewrite radius_of. fold r. fold e.
  destruct (Z.ltb_spec (ncol A) (2 * r + 1 + 2 * margin)); [unfold e in W; lia|].
  set (A' := norm_plane norm A). set (B' := norm_plane norm B).
  assert (Sa : nrow A' = nrow A /\ ncol A' = ncol A) by (unfold A', norm_plane; destruct norm; split; reflexivity).
  assert (Sb : nrow B' = nrow B /\ ncol B' = ncol B) by (unfold B', norm_plane; destruct norm; split; reflexivity).
  destruct Sa as (Sa1 & Sa2). destruct Sb as (Sb1 & Sb2).
  assert (E0 : 1 <= e) by (unfold e; fold r in R0; lia). assert (Re : 0 <= r <= e) by (unfold e; fold r in R0; lia).
  set (f := fun j => find_shift (interval A' j e) (interval B' j r) margin Axis1 true meth true size false block sched).
  assert (F : forall j, e <= j < e + (ncol A - 2 * e) -> f j = line_shift A' B' j).
  { intros j Hj. unfold f. rewrite !interval_line by (clearbody e r; lia). reflexivity. }
  assert (F2 : forall j, e <= j < e + (ncol A - 2 * e) -> f j = Ok (line_value A' B' j, 0%R)).
  { intros j Hj. rewrite F by lia. unfold line_value. destruct (line_total A' B' j) as (x & ->); [lia..|]. reflexivity. }
  replace (ncol A - e) with (e + (ncol A - 2 * e)) by lia.
  assert (Em : mapr f (prange e (e + (ncol A - 2 * e))) = Ok (map (fun j => (line_value A' B' j, 0%R)) (prange e (e + (ncol A - 2 * e))))).
  { apply mapr_total. intros j Hj. apply prange_In in Hj. apply F2. lia. }
  rewrite Em. cbn [bindr]. replace (e + (ncol A - 2 * e) - e) with (ncol A - 2 * e) by lia.
  assert (Vn : forall j, 0 <= j < ncol A - 2 * e -> fst (nth (Z.to_nat j) (map (fun j => (line_value A' B' j, 0%R)) (prange e (e + (ncol A - 2 * e)))) (0%R, 0%R)) = line_value A' B' (e + j)).
  { intros j Hj. rewrite (prange_nth (fun j => (line_value A' B' j, 0%R))) by lia. reflexivity. }
  destruct pad.
  - eexists. split; [reflexivity|]. cbn [vlen vat]. split; [lia|]. intros j Hj.
    destruct (Z.leb_spec e j); [|reflexivity]. destruct (Z.ltb_spec j (e + (ncol A - 2 * e))); [|reflexivity]. cbn [andb]. rewrite Vn by lia. f_equal. lia.
  - eexists. split; [reflexivity|]. cbn [vlen vat]. split; [lia|]. intros j Hj. apply Vn. lia.
Qed.

(** one chunk *)
Definition count (dir : direction) (v : vol R) : Z := match dir with DirX => hei v | DirY => wid v end.
Definition extent (dir : direction) (v : vol R) : Z := match dir with DirX => wid v | DirY => hei v end.
Lemma multi_1d_spec dir pad norm block sched v w : dep v = dep w -> hei v = hei w -> wid v = wid w -> 1 <= dep w -> 1 <= count dir v -> 2 * e + 1 <= extent dir v ->
  exists c, multi_rows_1d_cpu polyfit2 surface dir win margin true meth size pad norm block sched v w = Ok c /\
    (let n := if pad then extent dir v else extent dir v - 2 * e in
     let val := fun i j => let A := norm_plane norm (plane dir v i) in let B := norm_plane norm (plane dir w i) in
        if (pad : bool) then (if (e <=? j) && (j <? extent dir v - e) then line_value A B j else 0%R) else line_value A B (e + j) in
     match dir with
     | DirX => nrow c = hei v /\ ncol c = n /\ forall i j, 0 <= i < hei v -> 0 <= j < n -> px c i j = val i j
     | DirY => nrow c = n /\ ncol c = wid v /\ forall i j, 0 <= i < n -> 0 <= j < wid v -> px c i j = val j i end).
Proof using R0 M.
  intros D H W D1 N X. unfold multi_rows_1d_cpu.
  set (f := fun i => single_row polyfit2 surface win margin true meth size false block sched pad norm (plane dir v i) (plane dir w i)).
  set (val := fun i j => let A := norm_plane norm (plane dir v i) in let B := norm_plane norm (plane dir w i) in
        if (pad : bool) then (if (e <=? j) && (j <? extent dir v - e) then line_value A B j else 0%R) else line_value A B (e + j)).
  set (n := if pad then extent dir v else extent dir v - 2 * e).
  assert (S : forall i, exists u, f i = Ok u /\ vlen u = n /\ forall j, 0 <= j < n -> vat u j = val i j).
  { intros i. destruct (single_row_spec block sched pad norm (plane dir v i) (plane dir w i)) as (u & Eu & Lu & Vu); try (destruct dir; cbn in *; lia).
    assert (Xc : ncol (plane dir v i) = extent dir v) by (destruct dir; reflexivity).
    exists u. rewrite Xc in Lu, Vu. split; [exact Eu|]. split; [exact Lu|]. intros j Hj. unfold n in Hj. rewrite <- Lu in Hj. rewrite Vu by exact Hj. reflexivity. }
  set (g := fun i => match f i with Ok u => u | Err _ => mkvec 0 (fun _ => 0%R) end).
  assert (Em : mapr f (zrange 0 (count dir v)) = Ok (map g (zrange 0 (count dir v)))).
  { apply mapr_total. intros i _. destruct (S i) as (u & Eu & _). unfold g. rewrite Eu. reflexivity. }
  change (match dir with DirX => hei v | DirY => wid v end) with (count dir v). rewrite Em. cbn [bindr].
  assert (Gv : forall i, 0 <= i < count dir v -> vlen (nth (Z.to_nat i) (map g (zrange 0 (count dir v))) (mkvec 0 (fun _ => 0%R))) = n /\
     forall j, 0 <= j < n -> vat (nth (Z.to_nat i) (map g (zrange 0 (count dir v))) (mkvec 0 (fun _ => 0%R))) j = val i j).
  { intros i Hi. pose proof (prange_nth g 0 (count dir v) i (mkvec 0 (fun _ => 0%R)) Hi) as P. unfold prange in P. replace (0 + count dir v - 0) with (count dir v) in P by lia. rewrite P.
    replace (0 + i) with i by lia. destruct (S i) as (u & Eu & Lu & Vu). unfold g. rewrite Eu. auto. }
  assert (Hd : match map g (zrange 0 (count dir v)) with [] => 0 | u :: _ => vlen u end = n).
  { rewrite zrange_S by lia. cbn [map]. unfold g. destruct (S 0) as (u & -> & Lu & _). exact Lu. }
  rewrite Hd. clear Em. destruct dir; (eexists; split; [reflexivity|]); cbn [nrow ncol px]; cbv zeta; (split; [reflexivity|]; split; [reflexivity|]); intros i j Hi Hj;
    apply Gv; assumption.
Qed.
End cpu.
