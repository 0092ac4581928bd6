(** Proofs about UMPA: the statements about the whole maps. *)
From Coq Require Import Reals Lra ZArith Lia Permutation.
From Verif Require Import Np P_Np M_phase_R P_phase_R M_corr S_corr P_corr P_corr2 P_corr3 M_local S_local P_local P_local2 M_umpa S_umpa P_umpa P_umpa2 P_umpa3.
From Coq Require Import List. Import ListNotations.
Open Scope Z_scope.

Lemma choose_quad (f : Z -> Z -> res quad) (P : Z -> Z -> quad -> Prop) (D : Z -> Z -> Prop) :
  (forall i j, D i j -> exists q, f i j = Ok q /\ P i j q) ->
  let q i j := match f i j with Ok q => q | Err _ => (0, 0, (0, 0))%R end in forall i j, D i j -> f i j = Ok (q i j) /\ P i j (q i j).
Proof. intros F q i j Dij. destruct (F i j Dij) as (v & E & Pv). unfold q. rewrite E. auto. Qed.

Section maps.
Context (polyfit2 : vec R -> R * R) (surface : img R -> R * R * R * R * R) (smooth : Z -> Z -> R).
Context (ref mat : vol R) (win m : Z) (dark : bool).
Let r := win / 2.
Let taper := smooth (2 * r + 1).
Let e := r + m.
Hypothesis (Tp : forall k, 0 <= k < 2 * r + 1 -> (0 < taper k)%R) (Sp : speckled dark ref r).
Hypothesis (Ss : same_size (Stack ref) (Stack mat)) (D1 : 1 <= dep ref) (R0 : 0 <= r) (M1 : 1 <= m).
Hypothesis (He : 2 * e + 1 <= hei ref) (We : 2 * e + 1 <= wid ref).
Notation umpa := (find_local_shifts_umpa polyfit2 surface smooth ref mat win m).
Definition qcpu meth size i j : quad := match cpu_px polyfit2 surface taper ref mat r m dark i j meth size with Ok q => q | Err _ => (0, 0, (0, 0))%R end.
Lemma shape_facts : dep mat = dep ref /\ hei mat = hei ref /\ wid mat = wid ref.
Proof using All. destruct Ss as (K & Hh & Ww). cbn in K, Hh, Ww. auto. Qed.
Lemma qcpu_ok meth size i j : inner_pixel ref e i j -> cpu_px polyfit2 surface taper ref mat r m dark i j meth size = Ok (qcpu meth size i j) /\
  tracked dark taper ref mat r m i j (meth <> PolyFit) (fst (fst (qcpu meth size i j))) (snd (fst (qcpu meth size i j))) (fst (snd (qcpu meth size i j))) (snd (snd (qcpu meth size i j))).
Proof using All.
  intros (Hi & Hj). destruct shape_facts as (F1 & F2 & F3).
  destruct (cpu_px_spec polyfit2 surface taper ref mat r m dark Tp Sp F1 F2 F3 D1 R0 M1 He We i j Hi Hj meth size) as (x & y & t & v & E & T).
  unfold qcpu. rewrite E. cbn [fst snd]. auto.
Qed.
Lemma qgpu_ok i j : inner_pixel ref e i j -> let q := gpu_px taper ref mat r m dark i j in
  tracked dark taper ref mat r m i j True (fst (fst q)) (snd (fst q)) (fst (snd q)) (snd (snd q)).
Proof using All.
  intros (Hi & Hj) q. destruct shape_facts as (F1 & F2 & F3).
  destruct (gpu_px_spec polyfit2 surface taper ref mat r m dark Tp Sp F1 F2 F3 D1 R0 M1 He We i j Hi Hj) as (x & y & t & v & E & T).
  unfold q. rewrite E. cbn [fst snd]. auto.
Qed.
Definition qdev (gpu : bool) meth size i j : quad := if gpu then gpu_px taper ref mat r m dark i j else qcpu meth size i j.
Lemma qdev_ok (gpu : bool) meth size i j : inner_pixel ref e i j -> let q := qdev gpu meth size i j in
  tracked dark taper ref mat r m i j (gpu = true \/ meth <> PolyFit) (fst (fst q)) (snd (fst q)) (fst (snd q)) (snd (snd q)).
Proof using All.
  intros I q. unfold q, qdev. destruct gpu.
  - destruct (qgpu_ok i j I) as (A & (dy & dx & k & b & B & N) & C). split; [exact A|]. split; [|exact C]. exists dy, dx, k, b. split; [exact B|]. intros _. exact (N Logic.I).
  - destruct (proj2 (qcpu_ok meth size i j I)) as (A & (dy & dx & k & b & B & N) & C). split; [exact A|]. split; [|exact C]. exists dy, dx, k, b. split; [exact B|].
    intros [Q|Q]; [discriminate|exact (N Q)].
Qed.
Lemma dev_spec meth size (gpu : bool) block sched chunk : gpu = false \/ any_launch block sched ->
  (pieces (hei ref) chunk <= hei ref - 2 * e -> exists o, umpa meth size gpu block sched chunk dark = Ok o /\ whole ref r m dark (qdev gpu meth size) o) /\
  (hei ref - 2 * e < pieces (hei ref) chunk -> umpa meth size gpu block sched chunk dark = Err IndexError).
Proof using All.
  intros L. destruct shape_facts as (F1 & F2 & F3).
  apply (umpa_spec polyfit2 surface taper ref mat r m dark F1 F2 F3 R0 M1 He We smooth win meth size gpu block sched chunk (qdev gpu meth size)); [reflexivity..|].
  unfold qdev. destruct gpu.
  - destruct L as [L|L]; [discriminate|]. split; [exact L|]. intros; reflexivity.
  - intros i j Hi Hj. apply qcpu_ok. split; assumption.
Qed.
Lemma whole_tracked (gpu : bool) meth size o : whole ref r m dark (qdev gpu meth size) o -> tracked_maps dark taper ref mat r m (gpu = true \/ meth <> PolyFit) o.
Proof using All.
  intros (S1 & S2 & In & Out & Df & Dt). split; [exact S1|]. split; [exact S2|]. split; [exact Out|].
  destruct (snd o) as [(t & v)|] eqn:Eo.
  - assert (Dk : dark = true) by (destruct (Bool.bool_dec dark true) as [Q|Q]; [exact Q|apply Bool.not_true_is_false in Q; specialize (Df Q); discriminate]).
    split; [exact Dk|]. destruct (Dt Dk) as (t' & v' & E & T1 & T2 & T3 & T4 & Tv). injection E as <- <-. split; [auto|]. split; [auto|]. split.
    + intros i j I. destruct (In i j (proj1 I) (proj2 I)) as (-> & ->).
      destruct (Tv i j i j) as (-> & ->); [destruct I; unfold clipZ, e in *; lia..|]. apply qdev_ok. exact I.
    + intros i j Hi Hj i' j'. set (a := clipZ i e (hei ref - e - 1)). set (c := clipZ j e (wid ref - e - 1)).
      destruct (Tv i j a c eq_refl eq_refl) as (-> & ->). destruct (Tv i' j' a c) as (-> & ->); [unfold a, c, i', j', clipZ, e in *; lia..|]. auto.
  - assert (Dk : dark = false) by (destruct (Bool.bool_dec dark true) as [Q|Q]; [destruct (Dt Q) as (t & v & E & _); discriminate|apply Bool.not_true_is_false in Q; exact Q]).
    split; [exact Dk|]. intros i j I. destruct (In i j (proj1 I) (proj2 I)) as (-> & ->).
    destruct (qdev_ok gpu meth size i j I) as (A & B & C). split; [exact A|]. split; [exact B|]. intros F. rewrite F in Dk. discriminate.
Qed.
Lemma whole_same (q q' : Z -> Z -> quad) o o' : (forall i j, inner_pixel ref e i j -> q i j = q' i j) -> whole ref r m dark q o -> whole ref r m dark q' o' -> same_maps o o'.
Proof using All.
  intros Eq (S1 & S2 & In & Out & Df & Dt) (S1' & S2' & In' & Out' & Df' & Dt').
  assert (G : forall i j, 0 <= i < hei ref -> 0 <= j < wid ref -> px (fst (fst o)) i j = px (fst (fst o')) i j /\ px (snd (fst o)) i j = px (snd (fst o')) i j).
  { intros i j Hi Hj. assert (Q : inner_pixel ref e i j \/ ~ inner_pixel ref e i j) by (unfold inner_pixel; lia). destruct Q as [Q|Q].
    - destruct (In i j (proj1 Q) (proj2 Q)) as (-> & ->). destruct (In' i j (proj1 Q) (proj2 Q)) as (-> & ->). rewrite (Eq i j Q). auto.
    - destruct (Out i j Hi Hj Q) as (-> & ->). destruct (Out' i j Hi Hj Q) as (-> & ->). auto. }
  destruct S1 as (A1 & A2). destruct S2 as (A3 & A4). destruct S1' as (B1 & B2). destruct S2' as (B3 & B4).
  split; [|split].
  - split; [congruence|]. split; [congruence|]. unfold in_rng. rewrite A1, A2. intros i j Hi Hj. apply G; assumption.
  - split; [congruence|]. split; [congruence|]. unfold in_rng. rewrite A3, A4. intros i j Hi Hj. apply G; assumption.
  - destruct (Bool.bool_dec dark true) as [Q|Q].
    + destruct (Dt Q) as (t & v & -> & T1 & T2 & T3 & T4 & Tv). destruct (Dt' Q) as (t' & v' & -> & T1' & T2' & T3' & T4' & Tv').
      assert (K : forall i j, px t i j = px t' i j /\ px v i j = px v' i j).
      { intros i j. set (a := clipZ i e (hei ref - e - 1)). set (c := clipZ j e (wid ref - e - 1)).
        destruct (Tv i j a c eq_refl eq_refl) as (-> & ->). destruct (Tv' i j a c eq_refl eq_refl) as (-> & ->).
        rewrite Eq; [auto|]. unfold inner_pixel, a, c, clipZ. lia. }
      split; (split; [congruence|]; split; [congruence|]); intros i j _ _; apply K.
    + apply Bool.not_true_is_false in Q. rewrite (Df Q), (Df' Q). exact Logic.I.
Qed.

(** ** what the sample shows *)
Lemma misfit_zero i j dy dx k b : misfit taper ref mat r i j dy dx k b = 0%R <-> explains ref mat r i j dy dx k b.
Proof using All.
  assert (P : forall y x, 0 <= y < 2 * r + 1 -> 0 <= x < 2 * r + 1 -> (0 < taper y * taper x)%R) by (intros; apply Rmult_lt_0_compat; apply Tp; assumption).
  split.
  - intros Z q y x Hq Hy Hx.
    set (g := fun q y x => (taper y * taper x * (vx mat q (i - r + y)%Z (j - r + x)%Z - (k * vx ref q (i + dy - r + y)%Z (j + dx - r + x)%Z + b * overall_mean ref)) ^ 2)%R).
    assert (G0 : forall q y x, 0 <= y < 2 * r + 1 -> 0 <= x < 2 * r + 1 -> (0 <= g q y x)%R).
    { intros q' y' x' Hy' Hx'. unfold g. apply Rmult_le_pos; [left; apply P; assumption|apply pow2_ge_0]. }
    destruct (Rtotal_order (g q y x) 0) as [L|[L|L] ]; [pose proof (G0 q y x Hy Hx); lra| |].
    + apply Rmult_integral in L. destruct L as [L|L]; [pose proof (P y x Hy Hx); lra|].
      assert (L' : (vx mat q (i - r + y)%Z (j - r + x)%Z - (k * vx ref q (i + dy - r + y)%Z (j + dx - r + x)%Z + b * overall_mean ref))%R = 0%R).
      { cbn [pow] in L. rewrite Rmult_1_r in L. apply Rmult_integral in L. tauto. } lra.
    + exfalso. assert (0 < misfit taper ref mat r i j dy dx k b)%R; [|lra].
      unfold misfit. fold g. unfold rsum3, rsum2. apply rsum_pos with q; [|exact Hq|].
      * intros q' Hq'. apply rsum_nonneg. intros y' Hy'. apply rsum_nonneg. intros x' Hx'. apply G0; assumption.
      * apply rsum_pos with y; [|exact Hy|]. { intros y' Hy'. apply rsum_nonneg. intros x' Hx'. apply G0; assumption. }
        apply rsum_pos with x; [|exact Hx|exact L]. intros x' Hx'. apply G0; assumption.
  - intros X. unfold misfit. rewrite (rsum3_ext _ _ _ _ (fun _ _ _ => 0%R)).
    + unfold rsum3, rsum2. rewrite (rsum_ext _ _ (fun _ => 0%R)) by (intros; rewrite (rsum_ext _ _ (fun _ => 0%R)) by (intros; apply rsum_zero); apply rsum_zero). apply rsum_zero.
    + intros q y x Hq Hy Hx. rewrite (X q y x Hq Hy Hx). ring.
Qed.
Lemma misfit_nonneg i j dy dx k b : (0 <= misfit taper ref mat r i j dy dx k b)%R.
Proof using All.
  unfold misfit, rsum3, rsum2. apply rsum_nonneg. intros q Hq. apply rsum_nonneg. intros y Hy. apply rsum_nonneg. intros x Hx.
  apply Rmult_le_pos; [|apply pow2_ge_0]. left. apply Rmult_lt_0_compat; apply Tp; assumption.
Qed.
Lemma recovered i j dy dx T V (near : Prop) x y t v : inner_pixel ref e i j -> near -> tracked dark taper ref mat r m i j near x y t v ->
  - m <= dy <= m -> - m <= dx <= m -> shows ref mat r i j dy dx T V -> (dark = false -> V = 1%R) -> only_there dark ref mat r m i j dy dx ->
  (Rabs (x - IZR dx) < 1 /\ Rabs (y - IZR dy) < 1)%R /\
  (dark = true -> Rabs (x - IZR dx) < 1 / 2 -> Rabs (y - IZR dy) < 1 / 2 -> t = Rabs T /\ (T <> 0 -> v = Rabs V))%R.
Proof using All.
  intros Ip Nr (_ & (dy0 & dx0 & k0 & b0 & (Y0 & X0 & B0 & Best) & Near) & Tr) Hy Hx Sh V1 On.
  assert (Ex : explains ref mat r i j dy dx (T * V) (T * (1 - V))) by (intros q a c Hq Ha Hc; rewrite (Sh q a c Hq Ha Hc); ring).
  apply misfit_zero in Ex.
  assert (Z0 : misfit taper ref mat r i j dy0 dx0 k0 b0 = 0%R).
  { apply Rle_antisym; [|apply misfit_nonneg]. rewrite <- Ex. apply Best; try assumption. intros F. rewrite (V1 F). ring. }
  apply misfit_zero in Z0. destruct (On dy0 dx0 k0 b0 Y0 X0 B0 Z0) as (-> & ->). split; [exact (Near Nr)|].
  intros Dk Nx Ny. destruct (Tr Dk) as (dy1 & dx1 & k1 & b1 & Y1 & X1 & Rx & Ry & Bst & Et & Ev).
  assert (dx1 = dx). { apply Rabs_le_inv in Rx. apply Rabs_def2 in Nx. assert (dx1 - dx < 1) by (apply lt_IZR; rewrite minus_IZR; lra). assert (-1 < dx1 - dx) by (apply lt_IZR; rewrite minus_IZR; lra). lia. }
  assert (dy1 = dy). { apply Rabs_le_inv in Ry. apply Rabs_def2 in Ny. assert (dy1 - dy < 1) by (apply lt_IZR; rewrite minus_IZR; lra). assert (-1 < dy1 - dy) by (apply lt_IZR; rewrite minus_IZR; lra). lia. }
  subst dx1 dy1.
  assert (Z1 : misfit taper ref mat r i j dy dx k1 b1 = 0%R) by (apply Rle_antisym; [|apply misfit_nonneg]; rewrite <- Ex; apply Bst).
  apply misfit_zero in Z1. apply misfit_zero in Ex. destruct Sp as (Mn & Un). specialize (Mn Dk).
  specialize (Un (i + dy) (j + dx)). destruct Ip as (I1 & I2). specialize (Un ltac:(unfold e in *; lia) ltac:(unfold e in *; lia)). cbv zeta in Un.
  assert (Un' : forall c, ~ (forall q y x, 0 <= q < dep ref -> 0 <= y < 2 * r + 1 -> 0 <= x < 2 * r + 1 -> vx ref q (i + dy - r + y) (j + dx - r + x) = c)).
  { intros c C. rewrite Dk in Un. exact (Un c C). }
  assert (K : k1 = (T * V)%R).
  { destruct (Req_dec k1 (T * V)) as [Q|Q]; [exact Q|]. exfalso. apply (Un' ((T * (1 - V) - b1) * overall_mean ref / (k1 - T * V))%R).
    intros q a c Hq Ha Hc. pose proof (Z1 q a c Hq Ha Hc) as A. pose proof (Ex q a c Hq Ha Hc) as B. rewrite B in A.
    apply (Rmult_eq_reg_r (k1 - T * V)); [|lra]. field_simplify; [|lra]. lra. }
  assert (Bq : b1 = (T * (1 - V))%R).
  { pose proof (Z1 0 0 0 ltac:(lia) ltac:(lia) ltac:(lia)) as A. pose proof (Ex 0 0 0 ltac:(lia) ltac:(lia) ltac:(lia)) as B. rewrite B, K in A.
    apply (Rmult_eq_reg_r (overall_mean ref)); [lra|exact Mn]. }
  rewrite K, Bq in Et, Ev. replace (T * V + T * (1 - V))%R with T in Et, Ev by ring. split; [exact Et|]. intros N. rewrite (Ev N). f_equal. field. exact N.
Qed.
End maps.

(** ** a stack of three images with a sample displaced by one row, transmission 2, contrast 1/2 *)
Definition eref : vol R := mkvol 3 5 5 (fun q i j => let a := IZR (1 + 5 * i + j) in if q =? 0 then 1 else if q =? 1 then 1 + a else 1 + a * a)%R.
Definition emat : vol R := mkvol 3 5 5 (fun q i j => 2 * (overall_mean eref + 1 / 2 * (vx eref q (i + 1)%Z j - overall_mean eref)))%R.
Lemma eref_pos q i j : (1 <= IZR (1 + 5 * i + j))%R -> (0 < vx eref q i j)%R.
Proof. intros A. unfold eref. cbn [vx]. cbv zeta. destruct (q =? 0); [lra|]. destruct (q =? 1); [lra|]. pose proof (Rmult_le_pos (IZR (1 + 5 * i + j)) (IZR (1 + 5 * i + j))). lra. Qed.
Lemma eref_mean : (0 < overall_mean eref)%R.
Proof.
  assert (A : forall i j, 0 <= i < 5 -> 0 <= j < 5 -> (1 <= IZR (1 + 5 * i + j))%R) by (intros; apply IZR_le; lia).
  unfold overall_mean. cbn [eref dep hei wid]. fold eref. apply Rdiv_lt_0_compat; [|lra].
  unfold rsum3, rsum2. apply rsum_pos with 0; [|lia|].
  - intros q Hq. apply rsum_nonneg. intros i Hi. apply rsum_nonneg. intros j Hj. left. apply eref_pos. auto.
  - apply rsum_pos with 0; [|lia|]; [intros i Hi; apply rsum_nonneg; intros j Hj; left; apply eref_pos; auto|].
    apply rsum_pos with 0; [|lia|apply eref_pos; apply A; lia]. intros j Hj. left. apply eref_pos. apply A; lia.
Qed.
Lemma eref_speckled : speckled true eref 0.
Proof.
  split; [intros _; pose proof eref_mean; lra|]. cbn [eref hei wid]. fold eref. intros i j Hi Hj. cbv zeta. intros c U.
  pose proof (U 0 0 0 ltac:(cbn; lia) ltac:(lia) ltac:(lia)) as A. pose proof (U 1 0 0 ltac:(cbn; lia) ltac:(lia) ltac:(lia)) as B. cbn [eref vx] in A, B.
  change (0 =? 0) with true in A. change (1 =? 0) with false in B. change (1 =? 1) with true in B. cbv iota zeta in A, B.
  assert (1 <= IZR (1 + 5 * (i - 0 + 0) + (j - 0 + 0)))%R by (apply IZR_le; lia). lra.
Qed.
Lemma emat_shows i j : shows eref emat 0 i j 1 0 2 (1 / 2).
Proof. intros q y x Hq Hy Hx. unfold emat. cbn [vx]. do 2 f_equal. do 2 f_equal. f_equal; lia. Qed.
Lemma emat_only m i j : m <= 2 -> m <= i <= 4 - m -> m <= j <= 4 - m -> only_there true eref emat 0 m i j 1 0.
Proof.
  intros Hm Hi Hj dy dx k b Hy Hx _ X.
  pose proof (X 0 0 0 ltac:(cbn; lia) ltac:(lia) ltac:(lia)) as E0. pose proof (X 1 0 0 ltac:(cbn; lia) ltac:(lia) ltac:(lia)) as E1. pose proof (X 2 0 0 ltac:(cbn; lia) ltac:(lia) ltac:(lia)) as E2.
  unfold emat in E0, E1, E2. cbn [vx] in E0, E1, E2. set (M := overall_mean eref) in *. unfold eref in E0, E1, E2. cbn [vx] in E0, E1, E2.
  change (0 =? 0) with true in E0. change (1 =? 0) with false in E1. change (1 =? 1) with true in E1. change (2 =? 0) with false in E2. change (2 =? 1) with false in E2. cbv iota zeta in E0, E1, E2.
  set (a := 1 + 5 * (i - 0 + 0 + 1) + (j - 0 + 0)) in *. set (a' := 1 + 5 * (i + dy - 0 + 0) + (j + dx - 0 + 0)) in *.
  assert (P : (1 <= IZR a)%R) by (apply IZR_le; unfold a; lia). assert (P' : (1 <= IZR a')%R) by (apply IZR_le; unfold a'; lia).
  assert (F1 : IZR a = (k * IZR a')%R) by lra. assert (F2 : (IZR a * IZR a = k * (IZR a' * IZR a'))%R) by lra.
  assert (F3 : (IZR a * IZR a = IZR a * IZR a')%R) by (rewrite F2, F1; ring).
  apply Rmult_eq_reg_l in F3; [|lra]. apply eq_IZR in F3. unfold a, a' in F3. lia.
Qed.
