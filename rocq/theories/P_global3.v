(** Proofs about the shift from several points: the value returned. *)
From Coq Require Import Reals Lra ZArith Lia Permutation Sorted.
From Verif Require Import Np P_Np M_corr S_corr M_local S_local P_local12 M_global S_global P_global P_global2.
From Coq Require Import List. Import ListNotations.
Open Scope Z_scope.

Lemma Forall2_perm {A B} (Q : A -> B -> Prop) l1 l1' : Permutation l1 l1' -> forall l2, Forall2 Q l1 l2 -> exists l2', Permutation l2 l2' /\ Forall2 Q l1' l2'.
Proof.
  induction 1 as [|x l l' P IH|x y l|l l' l'' P1 IH1 P2 IH2]; intros l2 F.
  - inversion F; subst. exists []. split; constructor.
  - inversion F as [|? v ? t q Ft]; subst. destruct (IH t Ft) as (t' & Pt & Ft'). exists (v :: t'). split; constructor; assumption.
  - inversion F as [|? v ? t q Ft]; subst. inversion Ft as [|? v' ? t' q' Ft']; subst. exists (v' :: v :: t'). split; [constructor|]. repeat constructor; assumption.
  - destruct (IH1 l2 F) as (t & Pt & Ft). destruct (IH2 t Ft) as (t' & Pt' & Ft'). exists t'. split; [apply perm_trans with t; assumption|exact Ft'].
Qed.
Lemma all_but_transfer {A B} (Q : A -> B -> Prop) (P : A -> Prop) (P' : B -> Prop) k l1 l2 : Forall2 Q l1 l2 -> (forall x y, Q x y -> P x -> P' y) -> all_but k P l1 -> all_but k P' l2.
Proof.
  intros F H (good & bad & Pm & L & Fg). destruct (Forall2_perm Q l1 _ Pm l2 F) as (l2' & P2 & F2). apply Forall2_app_inv_l in F2.
  destruct F2 as (g & b & Fgg & Fbb & ->). exists g, b. split; [exact P2|]. split; [rewrite <- (Forall2_length Fbb); exact L|].
  clear - Fgg Fg H. induction Fgg as [|x y l l' q F IH]; constructor; [eapply H; [exact q|]; inversion Fg; assumption|]. apply IH. inversion Fg; assumption.
Qed.
Lemma all_but_map {A B} (f : A -> B) (P : B -> Prop) k l : all_but k (fun x => P (f x)) l -> all_but k P (map f l).
Proof. intros (g & b & Pm & L & F). exists (map f g), (map f b). rewrite <- map_app. split; [apply Permutation_map, Pm|]. split; [rewrite map_length; exact L|]. apply Forall_map, F. Qed.
Lemma Forall2_same {A B} (Q : A -> B -> Prop) l l1 l2 : (forall x y z, Q x y -> Q x z -> y = z) -> Forall2 Q l l1 -> Forall2 Q l l2 -> l1 = l2.
Proof.
  intros H F. revert l2. induction F as [|x y l l' q F IH]; intros l2 F2; inversion F2; subst; [reflexivity|]. f_equal; [eapply H; eassumption|]. apply IH. assumption.
Qed.
Section value.
Context (polyfit2 : vec R -> R * R) (surface : img R -> R * R * R * R * R).
Lemma shift_at_fun ref mat r margin gpu sub meth size p v v' :
  shift_at polyfit2 surface ref mat r margin gpu sub meth size p v -> shift_at polyfit2 surface ref mat r margin gpu sub meth size p v' -> v = v'.
Proof.
  unfold shift_at. cbv zeta. destruct gpu; [|congruence]. intros (dy & dx & B & _ & S & N) (dy' & dx' & B' & _ & S' & N').
  destruct (best_unique _ _ _ _ _ _ _ _ _ _ B B') as (<- & <-).
  assert (Dec : on_a_side margin dy dx \/ ~ on_a_side margin dy dx) by (unfold on_a_side; lia). destruct Dec as [Q|Q].
  - rewrite (S Q), (S' Q). reflexivity.
  - pose proof (N Q) as E. rewrite (N' Q) in E. congruence.
Qed.
Lemma match_values ref mat r margin gpu sub meth size dy dx how pts l : same_kind ref mat -> 1 <= depth mat -> 0 <= r -> 1 <= margin ->
  - margin <= dy <= margin -> - margin <= dx <= margin -> pts <> [] ->
  all_but (tolerated how (length pts)) (only_match ref mat r margin dy dx) pts -> Forall2 (shift_at polyfit2 surface ref mat r margin gpu sub meth size) pts l ->
  let x := summarise how (map fst l) in let y := summarise how (map snd l) in
  (gpu = false -> sub = false -> x = IZR dx /\ y = IZR dy) /\ (gpu = true \/ meth <> PolyFit -> Rabs (x - IZR dx) < 1 /\ Rabs (y - IZR dy) < 1)%R.
Proof.
  intros K D R0 M Hy Hx Ne A F x y. pose proof (Forall2_length F) as L. assert (Nl : l <> []) by (intros ->; destruct pts; [congruence|discriminate]).
  assert (Nf : map fst l <> []) by (intros E; apply map_eq_nil in E; congruence). assert (Ns : map snd l <> []) by (intros E; apply map_eq_nil in E; congruence).
  assert (T : forall P' : R * R -> Prop, (forall p v, only_match ref mat r margin dy dx p -> shift_at polyfit2 surface ref mat r margin gpu sub meth size p v -> P' v) -> all_but (tolerated how (length l)) P' l).
  { intros P' H. rewrite <- L. eapply all_but_transfer; [exact F| |exact A]. intros p v Q O. eapply H; eassumption. }
  split.
  - intros G S. assert (Q : all_but (tolerated how (length l)) (fun v => v = (IZR dx, IZR dy)) l).
    { apply T. intros p v O A'. exact (proj1 (shift_at_match polyfit2 surface ref mat r margin gpu sub meth size dy dx p v K D R0 M Hy Hx O A') G S). }
    assert (Qx : all_but (tolerated how (length (map fst l))) (fun z => IZR dx <= z <= IZR dx)%R (map fst l)).
    { rewrite map_length. apply all_but_map. destruct Q as (g & b & P & Lb & Fg). exists g, b. split; [exact P|]. split; [exact Lb|]. eapply Forall_impl; [|exact Fg]. intros v ->. cbn. lra. }
    assert (Qy : all_but (tolerated how (length (map snd l))) (fun z => IZR dy <= z <= IZR dy)%R (map snd l)).
    { rewrite map_length. apply all_but_map. destruct Q as (g & b & P & Lb & Fg). exists g, b. split; [exact P|]. split; [exact Lb|]. eapply Forall_impl; [|exact Fg]. intros v ->. cbn. lra. }
    apply summarise_within in Qx; [|exact Nf]. apply summarise_within in Qy; [|exact Ns]. fold x in Qx. fold y in Qy. split; lra.
  - intros G. assert (Q : all_but (tolerated how (length l)) (fun v => Rabs (fst v - IZR dx) < 1 /\ Rabs (snd v - IZR dy) < 1)%R l).
    { apply T. intros p v O A'. exact (proj2 (shift_at_match polyfit2 surface ref mat r margin gpu sub meth size dy dx p v K D R0 M Hy Hx O A') G). }
    assert (Ab : forall a b : R, (Rabs (a - b) < 1)%R -> (b - 1 < a < b + 1)%R) by (intros a b H; apply Rabs_def2 in H; lra).
    assert (Qx : all_but (tolerated how (length (map fst l))) (fun z => IZR dx - 1 < z < IZR dx + 1)%R (map fst l)).
    { rewrite map_length. apply all_but_map. destruct Q as (g & b & P & Lb & Fg). exists g, b. split; [exact P|]. split; [exact Lb|]. eapply Forall_impl; [|exact Fg]. intros v (V & _). apply Ab, V. }
    assert (Qy : all_but (tolerated how (length (map snd l))) (fun z => IZR dy - 1 < z < IZR dy + 1)%R (map snd l)).
    { rewrite map_length. apply all_but_map. destruct Q as (g & b & P & Lb & Fg). exists g, b. split; [exact P|]. split; [exact Lb|]. eapply Forall_impl; [|exact Fg]. intros v (_ & V). apply Ab, V. }
    apply summarise_between in Qx; [|exact Nf]. apply summarise_between in Qy; [|exact Ns]. fold x in Qx. fold y in Qy. split; apply Rabs_def1; lra.
Qed.
End value.
Lemma summarise_centred how c l : l <> [] -> centred c l -> how <> Mixed \/ Nat.even (length l) = true \/ (length l < 7)%nat -> summarise how l = c.
Proof.
  intros N C H. assert (L : (0 < length l)%nat) by (destruct l; [congruence|cbn; lia]). rewrite summarise_middle by exact N.
  assert (D : (length l = 2 * (length l / 2) + length l mod 2)%nat) by (apply Nat.div_mod; lia). assert (M : (length l mod 2 < 2)%nat) by (apply Nat.mod_upper_bound; lia).
  assert (G : let (b, e) := bounds how (length l) in (b < e)%nat /\ (b + e = length l)%nat).
  { unfold bounds. destruct how.
    - destruct (Nat.even (length l)) eqn:Ev; [pose proof (even_half _ Ev); lia|]. assert (Od : Nat.odd (length l) = true) by (unfold Nat.odd; rewrite Ev; reflexivity). apply Nat.odd_spec in Od. destruct Od as (q & Od). lia.
    - destruct H as [H|[H|H] ]; [congruence|pose proof (even_half _ H); lia|]. lia.
    - destruct (Nat.ltb_spec 7 (length l)); lia. }
  destruct (bounds how (length l)) as [b e]. cbn [fst snd]. apply middle_centred; [exact C|apply G..].
Qed.
(** a list of six *)
Lemma middle_six b (s : list R) : (b + 6 <= length s)%nat -> middle b (b + 6) s = map (fun k => nth (b + k) s 0%R) [0; 1; 2; 3; 4; 5]%nat.
Proof.
  intros H. apply nth_ext with 0%R 0%R; [rewrite middle_length by lia; cbn [map length]; lia|]. intros j Hj. rewrite middle_length in Hj by lia. rewrite middle_nth by lia.
  assert (j = 0 \/ j = 1 \/ j = 2 \/ j = 3 \/ j = 4 \/ j = 5)%nat as J by lia. destruct J as [-> |[-> |[-> |[-> |[-> | ->] ] ] ] ]; reflexivity.
Qed.
Lemma mixed_odd c l : centred c l -> Nat.even (length l) = false -> (7 <= length l)%nat -> NoDup l -> (summarise Mixed l < c)%R.
Proof.
  intros C Ev L Nd. assert (N : l <> []) by (intros ->; cbn in L; lia). rewrite summarise_middle by exact N. unfold bounds. cbn [fst snd].
  assert (Od : Nat.odd (length l) = true) by (unfold Nat.odd; rewrite Ev; reflexivity). apply Nat.odd_spec in Od. destruct Od as (q & Od).
  assert (Hq : (length l / 2 = q)%nat) by (symmetry; apply Nat.div_unique with 1%nat; lia). rewrite Hq. rewrite Nat.min_l by lia.
  replace (q + 3)%nat with (q - 3 + 6)%nat by lia. pose proof (rsort_length l) as Ls. rewrite middle_six by lia. set (s := rsort l) in *. cbn [map].
  assert (Cn : forall j, (j < length l)%nat -> (nth j s 0 + nth (length l - 1 - j) s 0 = 2 * c)%R) by (intros j Hj; apply centred_nth; assumption).
  pose proof (Cn q ltac:(lia)) as C0. replace (length l - 1 - q)%nat with q in C0 by lia.
  pose proof (Cn (q - 1)%nat ltac:(lia)) as C1. replace (length l - 1 - (q - 1))%nat with (q + 1)%nat in C1 by lia.
  pose proof (Cn (q - 2)%nat ltac:(lia)) as C2. replace (length l - 1 - (q - 2))%nat with (q + 2)%nat in C2 by lia.
  assert (Lt : (nth (q - 3) s 0 < nth q s 0)%R).
  { assert (Le : (nth (q - 3) s 0 <= nth q s 0)%R) by (apply sorted_nth; [apply rsort_sorted|lia]). destruct Le as [Le|Le]; [exact Le|]. exfalso.
    assert (Nd' : NoDup s) by (apply (Permutation_NoDup (rsort_perm l)); exact Nd). rewrite NoDup_nth with (d := 0%R) in Nd'. specialize (Nd' (q - 3)%nat q ltac:(lia) ltac:(lia) Le). lia. }
  replace (q - 3 + 0)%nat with (q - 3)%nat by lia. replace (q - 3 + 1)%nat with (q - 2)%nat by lia. replace (q - 3 + 2)%nat with (q - 1)%nat by lia.
  replace (q - 3 + 3)%nat with q by lia. replace (q - 3 + 4)%nat with (q + 1)%nat by lia. replace (q - 3 + 5)%nat with (q + 2)%nat by lia.
  unfold average, total. cbn [fold_right length]. replace (INR 6) with 6%R by (cbn; lra). lra.
Qed.
