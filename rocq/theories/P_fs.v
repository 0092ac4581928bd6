From Verif Require Import Np P_Np M_fs S_io M_io_save.
From Coq Require Import NArith Nnat Ascii String Permutation.
From Coq Require Import List. Import ListNotations.
Open Scope Z_scope.
Ltac Zify.zify_post_hook ::= Z.div_mod_to_equations.

(** ** decimal strings *)
Lemma digit_val d : (d < 10)%N -> (N_of_ascii (digit d) - 48 = d)%N /\ is_digit (digit d) = true.
Proof.
  intros H. unfold is_digit, digit. rewrite N_ascii_embedding by lia. lia.
Qed.
Lemma fold_val_shift s a :
  (fold_left (fun a c => 10 * a + (N_of_ascii c - 48)) s a
   = a * 10 ^ N.of_nat (length s) + decimal_value s)%N.
Proof.
  unfold decimal_value. revert a. induction s as [|c s IH]; intros a; cbn [fold_left length].
  - rewrite N.pow_0_r. lia.
  - rewrite IH, (IH (10 * 0 + _)%N). rewrite Nat2N.inj_succ, N.pow_succ_r'. lia.
Qed.
Lemma val_app a b :
  (decimal_value (a ++ b) = decimal_value a * 10 ^ N.of_nat (length b) + decimal_value b)%N.
Proof. unfold decimal_value at 1. rewrite fold_left_app. apply fold_val_shift. Qed.
Lemma val_single c : decimal_value [c] = (N_of_ascii c - 48)%N.
Proof. reflexivity. Qed.
Lemma dec_fuel_val k n : (n < 10 ^ N.of_nat k)%N -> (0 < k)%nat -> decimal_value (dec_fuel k n) = n.
Proof.
  revert n. induction k as [|k IH]; intros n H K; [lia|]. cbn [dec_fuel].
  destruct (N.ltb_spec n 10) as [L|L].
  - rewrite val_single. apply digit_val, L.
  - rewrite Nat2N.inj_succ, N.pow_succ_r' in H.
    assert (k <> 0%nat) by (intros ->; cbn in H; lia).
    rewrite val_app, IH, val_single by (try lia; apply N.div_lt_upper_bound; lia).
    rewrite (proj1 (digit_val (n mod 10) (N.mod_lt n 10 ltac:(lia)))).
    cbn [length]. change (10 ^ N.of_nat 1)%N with 10%N.
    rewrite N.mul_comm. symmetry. apply N.div_mod. lia.
Qed.
Lemma size_bound n : (n < 10 ^ N.of_nat (S (N.size_nat n)))%N.
Proof.
  assert (A : (n < 2 ^ N.of_nat (N.size_nat n))%N).
  { destruct n as [|p]; [reflexivity|]. cbn [N.size_nat].
    induction p as [p IH|p IH|]; cbn [Pos.size_nat]; rewrite ?Nat2N.inj_succ, ?N.pow_succ_r'; lia. }
  eapply N.lt_le_trans; [exact A|].
  transitivity (10 ^ N.of_nat (N.size_nat n))%N; [apply N.pow_le_mono_l; lia|].
  apply N.pow_le_mono_r; lia.
Qed.
Lemma dec_val n : decimal_value (dec n) = n.
Proof. unfold dec. apply dec_fuel_val; [apply size_bound|lia]. Qed.
Lemma dec_fuel_digits k n : forallb is_digit (dec_fuel k n) = true.
Proof.
  revert n. induction k as [|k IH]; intros n; [reflexivity|]. cbn [dec_fuel].
  destruct (N.ltb_spec n 10) as [L|L].
  - cbn. rewrite (proj2 (digit_val n L)). reflexivity.
  - rewrite forallb_app, IH. cbn. rewrite (proj2 (digit_val (n mod 10) (N.mod_lt n 10 ltac:(lia)))). reflexivity.
Qed.
Lemma dec_digits n : forallb is_digit (dec n) = true.
Proof. apply dec_fuel_digits. Qed.
Lemma dec_fuel_nonnil k n : (0 < k)%nat -> dec_fuel k n <> [].
Proof.
  destruct k; [lia|]. intros _. cbn [dec_fuel]. destruct (n <? 10)%N; [discriminate|].
  intros E. apply app_eq_nil in E. destruct E; discriminate.
Qed.
Lemma dec_fuel_hd k n : (n < 10 ^ N.of_nat k)%N -> (0 < n)%N -> hd "0"%char (dec_fuel k n) <> "0"%char.
Proof.
  revert n. induction k as [|k IH]; intros n H P; [cbn in H; lia|]. cbn [dec_fuel].
  destruct (N.ltb_spec n 10) as [L|L].
  - cbn. intros E. pose proof (proj1 (digit_val n L)) as V. rewrite E in V. cbn in V. lia.
  - rewrite Nat2N.inj_succ, N.pow_succ_r' in H.
    assert (K : k <> 0%nat) by (intros ->; cbn in H; lia).
    specialize (IH (n / 10)%N ltac:(apply N.div_lt_upper_bound; lia)
                   ltac:(apply N.div_str_pos; lia)).
    destruct (dec_fuel k (n / 10)) as [|c s] eqn:E.
    + exfalso. apply (dec_fuel_nonnil k (n / 10)%N); [lia|exact E].
    + exact IH.
Qed.
Lemma val_zeros k : decimal_value (repeat "0"%char k) = 0%N.
Proof.
  induction k as [|k IH]; [reflexivity|].
  replace (repeat "0"%char (S k)) with (["0"%char] ++ repeat "0"%char k) by reflexivity.
  rewrite val_app, IH. reflexivity.
Qed.
Lemma digits_zeros k : forallb is_digit (repeat "0"%char k) = true.
Proof. induction k as [|k IH]; [reflexivity|]. cbn. exact IH. Qed.
Lemma dec_0 : dec 0 = ["0"%char].
Proof. reflexivity. Qed.
Lemma zpad_written w n : (0 < w)%nat -> written w n (zpad w (dec n)).
Proof.
  intros Hw. unfold written, zpad. rewrite forallb_app, dec_digits, digits_zeros.
  split; [reflexivity|]. split; [rewrite val_app, val_zeros, dec_val; lia|].
  rewrite app_length, repeat_length.
  destruct (Nat.leb_spec (length (dec n)) w) as [L|L]; [left; lia|].
  right. split; [lia|]. replace (w - length (dec n))%nat with 0%nat by lia. cbn [repeat app].
  destruct (N.eq_dec n 0) as [->|P]; [rewrite dec_0 in L; cbn in L; lia|].
  apply dec_fuel_hd; [apply size_bound|lia].
Qed.
Lemma zpad_val w n : decimal_value (zpad w (dec n)) = n.
Proof. unfold zpad. rewrite val_app, val_zeros, dec_val. lia. Qed.
Lemma zpad_inj w a b : zpad w (dec a) = zpad w (dec b) -> a = b.
Proof. intros E. rewrite <- (zpad_val w a), <- (zpad_val w b), E. reflexivity. Qed.

Lemma val_bound s : forallb is_digit s = true -> (decimal_value s < 10 ^ N.of_nat (length s))%N.
Proof.
  induction s as [|c s IH]; intros H; [cbn; lia|].
  cbn [forallb] in H. apply andb_prop in H as [Hc Hs].
  replace (c :: s) with ([c] ++ s) by reflexivity. rewrite val_app, val_single. cbn [length app].
  rewrite Nat2N.inj_succ, N.pow_succ_r'. specialize (IH Hs). unfold is_digit in Hc.
  assert (N_of_ascii c - 48 <= 9)%N by lia.
  apply N.lt_le_trans with ((N_of_ascii c - 48 + 1) * 10 ^ N.of_nat (length s))%N; [lia|].
  apply N.mul_le_mono_r. lia.
Qed.
(** five-digit image numbers *)
Lemma last5_written n : (n < 100000)%N -> written 5 n (lastn 5 (s_ "00000" ++ dec n)).
Proof.
  intros H. unfold written, lastn.
  set (s := s_ "00000" ++ dec n).
  assert (Dg : forallb is_digit s = true) by (unfold s; rewrite forallb_app, dec_digits; reflexivity).
  assert (Ls : length s = (5 + length (dec n))%nat) by (unfold s; rewrite app_length; reflexivity).
  assert (Vs : decimal_value s = n).
  { unfold s. rewrite val_app, dec_val. change (decimal_value (s_ "00000")) with 0%N. lia. }
  assert (Lk : length (skipn (length s - 5) s) = 5%nat) by (rewrite skipn_length; lia).
  pose proof (firstn_skipn (length s - 5) s) as FS.
  assert (D2 : forallb is_digit (skipn (length s - 5) s) = true).
  { rewrite <- FS, forallb_app in Dg. apply andb_prop in Dg. apply Dg. }
  split; [exact D2|]. split; [|left; exact Lk].
  assert (E : decimal_value s = (decimal_value (firstn (length s - 5) s) * 10 ^ 5
                                 + decimal_value (skipn (length s - 5) s))%N).
  { rewrite <- FS at 1. rewrite val_app, Lk. reflexivity. }
  rewrite Vs in E. pose proof (val_bound _ D2) as B. rewrite Lk in B.
  change (10 ^ N.of_nat 5)%N with 100000%N in B. change (10 ^ 5)%N with 100000%N in E.
  destruct (decimal_value (firstn (length s - 5) s)); lia.
Qed.
Lemma img_name_inj i j : 0 <= i < 100000 -> 0 <= j < 100000 -> img_name i = img_name j -> i = j.
Proof.
  unfold img_name, str_Z. intros Hi Hj.
  destruct (Z.ltb_spec i 0), (Z.ltb_spec j 0); try lia.
  intros E. apply app_inv_head in E. apply app_inv_tail in E.
  pose proof (last5_written (Z.to_N i) ltac:(lia)) as (_ & Vi & _).
  pose proof (last5_written (Z.to_N j) ltac:(lia)) as (_ & Vj & _).
  rewrite E in Vi. lia.
Qed.

(** ** suffix / stem *)
Lemma stem_suffix nm : stem nm ++ suffix nm = nm.
Proof. unfold stem, suffix. destruct (suffix_pos nm); [apply firstn_skipn|apply app_nil_r]. Qed.
Lemma rfind_dot_nodot a : ~ In "."%char a -> rfind_dot a = None.
Proof.
  induction a as [|c a IH]; intros H; [reflexivity|]. cbn.
  rewrite IH by (intros X; apply H; right; exact X).
  destruct (ascii_dec c "."%char) as [->|]; [|reflexivity]. exfalso. apply H. left; reflexivity.
Qed.
Lemma rfind_dot_app a b : ~ In "."%char b -> rfind_dot (a ++ "."%char :: b) = Some (length a).
Proof.
  intros H. induction a as [|c a IH]; cbn [app rfind_dot].
  - rewrite rfind_dot_nodot by exact H. destruct (ascii_dec "." "."); [reflexivity|congruence].
  - rewrite IH. reflexivity.
Qed.
Lemma suffix_app a b : a <> [] -> b <> [] -> ~ In "."%char b ->
  suffix (a ++ "."%char :: b) = "."%char :: b /\ stem (a ++ "."%char :: b) = a.
Proof.
  intros Ha Hb H. unfold suffix, stem, suffix_pos. rewrite rfind_dot_app by exact H.
  rewrite app_length. cbn [length].
  destruct a as [|x a]; [congruence|]. destruct b as [|y b]; [congruence|]. cbn [length].
  replace ((0 <? S (length a))%nat && (S (length a) <? S (length a) + S (S (length b)) - 1)%nat)%bool
    with true by (symmetry; apply andb_true_intro; split; apply Nat.ltb_lt; lia).
  split.
  - change (S (length a)) with (length (x :: a)). rewrite skipn_app, skipn_all, Nat.sub_diag. reflexivity.
  - change (S (length a)) with (length (x :: a)). rewrite firstn_app, firstn_all, Nat.sub_diag.
    cbn [firstn]. apply app_nil_r.
Qed.

(** ** file system *)
Section FSP.
  Context {C : Type}.
  Implicit Types f : fs C.
  Lemma lookup_cons f p n q :
    lookup ((p, n) :: f) q = if path_eq_dec p q then Some n else lookup f q.
  Proof. reflexivity. Qed.
  Lemma lookup_In f p n : lookup f p = Some n -> In p (map fst f).
  Proof.
    induction f as [|[q m] f IH]; cbn [lookup map fst]; [discriminate|].
    destruct (path_eq_dec q p) as [->|]; [intros _; left; reflexivity|intros H; right; apply IH, H].
  Qed.
  Lemma exists_false f p : existsb_ f p = false -> lookup f p = None /\ p <> [].
  Proof.
    destruct p as [|a p]; cbn [existsb_]; [discriminate|].
    destruct (lookup f (a :: p)); [discriminate|]. split; [reflexivity|discriminate].
  Qed.
  Lemma exists_true f n p : existsb_ f (n :: p) = true -> exists nd, lookup f (n :: p) = Some nd.
  Proof. cbn [existsb_]. destruct (lookup f (n :: p)) as [nd|]; [intros _; eauto|discriminate]. Qed.

  Lemma pigeon f (g : N -> path) (k : nat) :
    (forall a b, g a = g b -> a = b) ->
    (forall j, (j < N.of_nat k)%N -> In (g j) (map fst f)) -> (k <= length f)%nat.
  Proof.
    intros Inj H.
    pose proof (NoDup_incl_length (l := map g (map N.of_nat (seq 0 k))) (l' := map fst f)) as P.
    rewrite !map_length, seq_length in P. apply P.
    - apply FinFun.Injective_map_NoDup; [exact Inj|].
      apply FinFun.Injective_map_NoDup; [intros a b; lia|apply seq_NoDup].
    - intros x Hx. apply in_map_iff in Hx as (n & <- & Hn). apply in_map_iff in Hn as (m & <- & Hm).
      apply in_seq in Hm. apply H. lia.
  Qed.

  (** make_file_name *)
  Lemma cand_inj p a b : cand_path p a = cand_path p b -> a = b.
  Proof.
    unfold cand_path, cand_name. intros E. injection E as E.
    apply app_inv_head in E. injection E as E. apply app_inv_tail in E.
    apply (zpad_inj 4), E.
  Qed.
  Lemma mfn_loop_ok f p fuel : forall n q, mfn_loop fuel f p n = Ok q ->
    exists k, (n <= k)%N /\ q = cand_path p k /\ existsb_ f q = false /\
      forall j, (n <= j < k)%N -> existsb_ f (cand_path p j) = true.
  Proof.
    induction fuel as [|fuel IH]; intros n q; cbn [mfn_loop]; [discriminate|].
    destruct (existsb_ f (cand_path p n)) eqn:E.
    - intros H. apply IH in H as (k & L & -> & F & A). exists k. repeat split; try assumption; [lia|].
      intros j Hj. destruct (N.eq_dec j n) as [->|]; [exact E|]. apply A. lia.
    - intros H; injection H as <-. exists n. repeat split; [lia|exact E|]. intros; lia.
  Qed.
  Lemma mfn_loop_err f p fuel : forall n e, mfn_loop fuel f p n = Err e ->
    forall j, (n <= j < n + N.of_nat fuel)%N -> existsb_ f (cand_path p j) = true.
  Proof.
    induction fuel as [|fuel IH]; intros n e; cbn [mfn_loop]; [intros; lia|].
    destruct (existsb_ f (cand_path p n)) eqn:E; [|discriminate].
    intros H j Hj. destruct (N.eq_dec j n) as [->|]; [exact E|]. eapply IH; [exact H|lia].
  Qed.
  Lemma mfn_loop_total f p : exists q, mfn_loop (S (length f)) f p 0 = Ok q.
  Proof.
    destruct (mfn_loop (S (length f)) f p 0) as [q|e] eqn:E; [eauto|exfalso].
    pose proof (mfn_loop_err f p _ _ _ E) as H.
    assert (S (length f) <= length f)%nat; [|lia].
    apply (pigeon f (cand_path p)); [apply cand_inj|].
    intros j Hj. specialize (H j ltac:(lia)). unfold cand_path in *.
    apply exists_true in H as (nd & H). eapply lookup_In, H.
  Qed.
  Lemma make_file_name_spec f p :
    exists q, make_file_name f p = Ok q /\ existsb_ f q = false /\
      (existsb_ f p = false -> q = p) /\
      (existsb_ f p = true -> exists k, q = cand_path p k /\
         forall j, (j < k)%N -> existsb_ f (cand_path p j) = true).
  Proof.
    unfold make_file_name. destruct (existsb_ f p) eqn:E.
    - destruct (mfn_loop_total f p) as (q & Hq). exists q. split; [exact Hq|].
      apply mfn_loop_ok in Hq as (k & _ & -> & F & A). split; [exact F|].
      split; [discriminate|]. intros _. exists k. split; [reflexivity|]. intros; apply A; lia.
    - exists p. repeat split; [exact E|discriminate].
  Qed.
  Lemma cand_numbered p k : numbered p k (cand_path p k).
  Proof. exists (zpad 4 (dec k)). split; [apply zpad_written; lia|]. reflexivity. Qed.
  Lemma make_file_name_fresh f p :
    exists q, make_file_name f p = Ok q /\ existsb_ f q = false /\
      (existsb_ f p = false -> q = p) /\
      (existsb_ f p = true -> exists n, numbered p n q /\
         forall m, (m < n)%N -> exists q', numbered p m q' /\ existsb_ f q' = true).
  Proof.
    destruct (make_file_name_spec f p) as (q & A & B & D & E). exists q.
    repeat split; try assumption. intros X. destruct (E X) as (k & -> & H). exists k.
    split; [apply cand_numbered|]. intros m Hm. exists (cand_path p m).
    split; [apply cand_numbered|apply H, Hm].
  Qed.

  (** make_folder_name *)
  Lemma folder_cand_inj pre z a b : folder_cand pre z a = folder_cand pre z b -> a = b.
  Proof.
    unfold folder_cand. intros E. apply app_inv_head in E. injection E as E. apply (zpad_inj z), E.
  Qed.
  Lemma mfold_ok f d pre z fuel : forall n s, mfold_loop fuel f d pre z n = Ok s ->
    exists k, (n <= k)%N /\ s = folder_cand pre z k /\ is_dir f (s :: d) = false /\
      forall j, (n <= j < k)%N -> is_dir f (folder_cand pre z j :: d) = true.
  Proof.
    induction fuel as [|fuel IH]; intros n q; cbn [mfold_loop]; [discriminate|].
    destruct (is_dir f (folder_cand pre z n :: d)) eqn:E.
    - intros H. apply IH in H as (k & L & -> & F & A). exists k. repeat split; try assumption; [lia|].
      intros j Hj. destruct (N.eq_dec j n) as [->|]; [exact E|]. apply A. lia.
    - intros H; injection H as <-. exists n. repeat split; [lia|exact E|]. intros; lia.
  Qed.
  Lemma mfold_err f d pre z fuel : forall n e, mfold_loop fuel f d pre z n = Err e ->
    forall j, (n <= j < n + N.of_nat fuel)%N -> is_dir f (folder_cand pre z j :: d) = true.
  Proof.
    induction fuel as [|fuel IH]; intros n e; cbn [mfold_loop]; [intros; lia|].
    destruct (is_dir f (folder_cand pre z n :: d)) eqn:E; [|discriminate].
    intros H j Hj. destruct (N.eq_dec j n) as [->|]; [exact E|]. eapply IH; [exact H|lia].
  Qed.
  Lemma is_dir_lookup f n d : is_dir f (n :: d) = true -> lookup f (n :: d) = Some Dir.
  Proof. cbn [is_dir]. destruct (lookup f (n :: d)) as [[]|]; congruence. Qed.
  Lemma mfold_total f d pre z n : exists s, mfold_loop (S (length f)) f d pre z n = Ok s.
  Proof.
    destruct (mfold_loop (S (length f)) f d pre z n) as [q|e] eqn:E; [eauto|exfalso].
    pose proof (mfold_err f d pre z _ _ _ E) as H.
    assert (S (length f) <= length f)%nat; [|lia].
    apply (pigeon f (fun k => folder_cand pre z (n + k) :: d)).
    - intros a b X. injection X as X. apply folder_cand_inj in X. lia.
    - intros j Hj. specialize (H (n + j)%N ltac:(lia)). apply is_dir_lookup in H.
      eapply lookup_In, H.
  Qed.
  Lemma make_folder_name_spec f d pre z :
    exists s k, make_folder_name f d pre z = Ok s /\ is_dir f (s :: d) = false /\
      s = folder_cand pre z k /\ (N.of_nat (length (filter (prefixb (pre ++ s_ "_")) (entries f d))) < k)%N.
  Proof.
    unfold make_folder_name. destruct (mfold_total f d pre z
      (N.of_nat (length (filter (prefixb (pre ++ s_ "_")) (entries f d))) + 1)) as (s & Hs).
    pose proof (mfold_ok _ _ _ _ _ _ _ Hs) as (k & L & E & F & _).
    exists s, k. repeat split; try assumption. lia.
  Qed.

  (** frame lemmas *)
  Lemma preserved_refl f : preserved f f.
  Proof. intros q nd H; exact H. Qed.
  Lemma preserved_trans f g h : preserved f g -> preserved g h -> preserved f h.
  Proof. intros A B q nd H. apply B, A, H. Qed.
  Lemma preserved_cons_new f p nd : lookup f p = None -> preserved f ((p, nd) :: f).
  Proof.
    intros H q n Hq. rewrite lookup_cons. destruct (path_eq_dec p q) as [->|]; [congruence|exact Hq].
  Qed.
  Lemma mkdir_preserved p : forall f f', mkdir_p f p = Ok f' -> preserved f f'.
  Proof.
    induction p as [|n p IH]; intros f f'; cbn [mkdir_p].
    - intros H; injection H as <-. apply preserved_refl.
    - destruct (lookup f (n :: p)) as [[c|]|] eqn:E; [discriminate| |].
      + intros H; injection H as <-. apply preserved_refl.
      + destruct (mkdir_p f p) as [f1|] eqn:M; cbn; [|discriminate].
        intros H; injection H as <-. eapply preserved_trans; [apply IH, M|].
        assert (X : forall g, mkdir_p f p = Ok g -> lookup g (n :: p) = lookup f (n :: p)).
        { clear -p. assert (G : forall l g, mkdir_p f l = Ok g -> forall q, (length l < length q)%nat ->
            lookup g q = lookup f q).
          { induction l as [|a l IHl]; intros g; cbn [mkdir_p]; [intros H; injection H as <-; reflexivity|].
            destruct (lookup f (a :: l)) as [[c|]|]; [discriminate| |].
            - intros H; injection H as <-. reflexivity.
            - destruct (mkdir_p f l) as [g1|] eqn:M; cbn; [|discriminate].
              intros H; injection H as <-. intros q Hq. rewrite lookup_cons.
              destruct (path_eq_dec (a :: l) q) as [<-|]; [cbn in Hq; lia|].
              apply IHl; [reflexivity|cbn in Hq; lia]. }
          intros g Hg. apply (G p g Hg). cbn; lia. }
        apply preserved_cons_new. rewrite (X _ M). exact E.
  Qed.
  Lemma mkdir_lookup_longer p : forall f f', mkdir_p f p = Ok f' ->
    forall q, (length p < length q)%nat -> lookup f' q = lookup f q.
  Proof.
    induction p as [|a l IHl]; intros f g; cbn [mkdir_p]; [intros H; injection H as <-; reflexivity|].
    destruct (lookup f (a :: l)) as [[c|]|]; [discriminate| |].
    - intros H; injection H as <-. reflexivity.
    - destruct (mkdir_p f l) as [g1|] eqn:M; cbn; [|discriminate].
      intros H; injection H as <-. intros q Hq. rewrite lookup_cons.
      destruct (path_eq_dec (a :: l) q) as [<-|]; [cbn in Hq; lia|].
      apply (IHl f g1 M). cbn in Hq; lia.
  Qed.
  Lemma mkdir_is_dir f p f' : mkdir_p f p = Ok f' -> is_dir f' p = true.
  Proof.
    destruct p as [|n p]; [reflexivity|]. cbn [mkdir_p].
    destruct (lookup f (n :: p)) as [[c|]|] eqn:E; [discriminate| |].
    - intros H; injection H as <-. cbn [is_dir]. rewrite E. reflexivity.
    - destruct (mkdir_p f p) as [f1|]; cbn [bindr]; [|discriminate].
      intros H; injection H as <-. cbn [is_dir]. rewrite lookup_cons.
      destruct (path_eq_dec (n :: p) (n :: p)); [reflexivity|congruence].
  Qed.
  (** mkdir only adds directories at or above p *)
  Lemma mkdir_new p : forall f f', mkdir_p f p = Ok f' -> forall q, lookup f q = None ->
    lookup f' q = None \/ lookup f' q = Some Dir.
  Proof.
    induction p as [|a l IHl]; intros f g; cbn [mkdir_p]; [intros H; injection H as <-; auto|].
    destruct (lookup f (a :: l)) as [[c|]|]; [discriminate| |].
    - intros H; injection H as <-. auto.
    - destruct (mkdir_p f l) as [g1|] eqn:M; cbn; [|discriminate].
      intros H; injection H as <-. intros q Hq. rewrite lookup_cons.
      destruct (path_eq_dec (a :: l) q) as [<-|]; [right; reflexivity|]. apply (IHl f g1 M q Hq).
  Qed.
  Lemma usable_mkdir p : forall f, usable_folder f p -> exists f', mkdir_p f p = Ok f'.
  Proof.
    induction p as [|n p IH]; intros f H; [exists f; reflexivity|]. destruct H as [H1 H2]. cbn [mkdir_p].
    destruct (lookup f (n :: p)) as [[c|]|] eqn:E; [exfalso; eapply H1, eq_refl|eauto|].
    destruct (IH f H2) as (g & ->). cbn. eauto.
  Qed.

  Lemma write_file_ok f p c f' : write_file f p c = Ok f' ->
    f' = (p, File c) :: f /\ is_dir f (parent p) = true /\ p <> [] /\ lookup f p <> Some Dir.
  Proof.
    unfold write_file. destruct p as [|n q]; [discriminate|].
    destruct (is_dir f q) eqn:E; [|discriminate].
    destruct (lookup f (n :: q)) as [[c'|]|] eqn:L; [|discriminate|];
      intros H; injection H as <-; repeat split; try assumption; discriminate.
  Qed.
  Lemma write_file_can f n q c : is_dir f q = true -> lookup f (n :: q) <> Some Dir ->
    write_file f (n :: q) c = Ok ((n :: q, File c) :: f).
  Proof.
    intros H1 H2. unfold write_file. rewrite H1. destruct (lookup f (n :: q)) as [[c0|]|] eqn:L; [reflexivity|congruence|reflexivity].
  Qed.

  Lemma make_folder_preserved f p f' r : make_folder f p = (f', r) -> preserved f f'.
  Proof.
    unfold make_folder. destruct (existsb_ f _); [intros H; injection H as <- _; apply preserved_refl|].
    destruct (mkdir_p f _) as [g|] eqn:M; intros H; injection H as <- _.
    - eapply mkdir_preserved, M.
    - apply preserved_refl.
  Qed.
End FSP.
