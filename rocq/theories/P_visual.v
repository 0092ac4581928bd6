(** Proofs about the visual centre searches. *)
From Verif Require Import Np P_Np M_fs P_fs S_io M_io_save P_io_save P_io_save2 M_conversion M_calculation M_recon M_metric S_metric P_metric M_visual S_visual.
From Coq Require Import Ascii String.
From Coq Require Import QArith Qround Qabs ZArith Lia Lqa Bool.
From Coq Require Import List. Import ListNotations.
Open Scope Z_scope.

(** ** numbers *)
Lemma half_even_near x : (inject_Z (half_even x) - (1#2) <= x)%Q /\ (x <= inject_Z (half_even x) + (1#2))%Q.
Proof.
  unfold half_even. pose proof (Qfloor_le x) as L. pose proof (Qlt_floor x) as U. set (f := Qfloor x) in *. rewrite inject_Z_plus in U.
  change (inject_Z 1) with 1%Q in U.
  destruct (Qltb (x - inject_Z f) (1#2)) eqn:A; [apply Qltb_lt in A; split; lra|]. apply Qltb_f in A.
  destruct (Qltb (1#2) (x - inject_Z f)) eqn:B; [apply Qltb_lt in B; rewrite inject_Z_plus; change (inject_Z 1) with 1%Q; split; lra|]. apply Qltb_f in B.
  destruct (Z.even f); [split; lra|]. rewrite inject_Z_plus. change (inject_Z 1) with 1%Q. split; lra.
Qed.
Lemma half_even_ext x y : (x == y)%Q -> half_even x = half_even y.
Proof.
  intros E. unfold half_even. rewrite (Qfloor_comp _ _ E). set (f := Qfloor y).
  assert (L : forall a b c d, (a == c)%Q -> (b == d)%Q -> Qltb a b = Qltb c d).
  { intros a b c d Ha Hb. unfold Qltb. f_equal. apply eq_true_iff_eq. rewrite !Qle_bool_iff, Ha, Hb. tauto. }
  rewrite (L (x - inject_Z f)%Q (1#2) (y - inject_Z f)%Q (1#2)) by (rewrite ?E; reflexivity). rewrite (L (1#2) (x - inject_Z f)%Q (1#2) (y - inject_Z f)%Q) by (rewrite ?E; reflexivity). reflexivity.
Qed.
Lemma half_even_nonneg x : (0 <= x)%Q -> 0 <= half_even x.
Proof.
  intros H. destruct (half_even_near x) as (_ & U). assert (- (1#2) <= inject_Z (half_even x))%Q by lra.
  destruct (Z_lt_le_dec (half_even x) 0) as [N|]; [|assumption]. assert (half_even x <= -1) by lia. rewrite Zle_Qle in H1. change (inject_Z (-1)) with (-1)%Q in H1. lra.
Qed.
Lemma fixed2_ext c c' : (c == c')%Q -> fixed2 c = fixed2 c'.
Proof.
  intros E. unfold fixed2. rewrite (half_even_ext (100 * Qabs c) (100 * Qabs c')) by (rewrite E; reflexivity).
  assert (L : Qltb c 0 = Qltb c' 0) by (unfold Qltb; f_equal; apply eq_true_iff_eq; rewrite !Qle_bool_iff, E; tauto). rewrite L. reflexivity.
Qed.

(** ** names *)
Definition hundredths (c : Q) : Z := half_even (100 * Qabs c).
Lemma hundredths_nonneg c : 0 <= hundredths c.
Proof. apply half_even_nonneg. pose proof (Qabs_nonneg c). lra. Qed.
Lemma digits_filter s : forallb is_digit s = true -> filter is_digit s = s.
Proof. induction s as [|a s IH]; [reflexivity|]. cbn. intros H. apply andb_true_iff in H as [-> H]. rewrite IH by exact H. reflexivity. Qed.
Lemma zpad2_length m : (m < 100)%N -> length (zpad 2 (dec m)) = 2%nat.
Proof.
  intros H. destruct (zpad_written 2 m ltac:(lia)) as (D & V & [L|(L & Hd)]); [exact L|]. exfalso.
  destruct (zpad 2 (dec m)) as [|a s] eqn:E; [cbn in L; lia|]. cbn [hd] in Hd. cbn [forallb] in D. apply andb_true_iff in D as [Da Ds].
  change (a :: s) with ([a] ++ s) in V. rewrite val_app, val_single in V. cbn [length] in L.
  assert (1 <= N_of_ascii a - 48)%N. { unfold is_digit in Da. apply andb_true_iff in Da as [A B]. apply N.leb_le in A, B. destruct (N.eq_dec (N_of_ascii a) 48) as [Q|]; [|lia].
    exfalso. apply Hd. rewrite <- (ascii_N_embedding a), Q. reflexivity. }
  assert (100 <= 10 ^ N.of_nat (length s))%N. { change 100%N with (10 ^ 2)%N. apply N.pow_le_mono_r; lia. } nia.
Qed.
Lemma fixed2_value c : decimal_value (filter is_digit (fixed2 c)) = Z.to_N (hundredths c).
Proof.
  pose proof (hundredths_nonneg c) as N0. unfold fixed2. fold (hundredths c). set (r := hundredths c) in *. pose proof (Z.mod_pos_bound r 100 ltac:(lia)) as B.
  assert (F : filter is_digit (if Qltb c 0 then s_ "-" else []) = []) by (destruct (Qltb c 0); reflexivity).
  rewrite !filter_app, F. cbn [app]. rewrite (digits_filter (dec _)) by apply dec_digits. change (filter is_digit (s_ ".")) with (@nil ascii). cbn [app].
  rewrite digits_filter by (apply (zpad_written 2 (Z.to_N (r mod 100))); lia). rewrite val_app, zpad2_length, zpad_val, dec_val by lia. cbn [N.of_nat]. change (10 ^ N.of_nat 2)%N with 100%N.
  rewrite (Z.div_mod r 100) at 3 by lia. assert (0 <= r / 100) by (apply Z.div_pos; lia). lia.
Qed.
Lemma name_plain_value c : decimal_value (filter is_digit (name_plain c)) = Z.to_N (hundredths c).
Proof. unfold name_plain. rewrite !filter_app. change (filter is_digit (s_ "center_")) with (@nil ascii). change (filter is_digit (s_ ".tif")) with (@nil ascii). rewrite app_nil_r. apply fixed2_value. Qed.
Lemma name_wide_value c : decimal_value (filter is_digit (name_wide c)) = Z.to_N (hundredths c).
Proof.
  unfold name_wide, spaced. rewrite !filter_app. change (filter is_digit (s_ "center_")) with (@nil ascii). change (filter is_digit (s_ ".tif")) with (@nil ascii). rewrite app_nil_r.
  assert (R : forall n, filter is_digit (repeat " "%char n) = []) by (induction n; [reflexivity|exact IHn]). rewrite R. apply fixed2_value.
Qed.
(** numbers that differ by more than 0.01 have different names *)
Lemma names_differ (name : Q -> str) c c' : (forall c, decimal_value (filter is_digit (name c)) = Z.to_N (hundredths c)) ->
  (0 <= c)%Q -> (c + (1#100) < c')%Q -> name c <> name c'.
Proof.
  intros V C0 L E. assert (H : hundredths c = hundredths c').
  { pose proof (V c) as A. rewrite E, V in A. pose proof (hundredths_nonneg c). pose proof (hundredths_nonneg c'). lia. }
  unfold hundredths in H. rewrite (half_even_ext (100 * Qabs c) (100 * c)), (half_even_ext (100 * Qabs c') (100 * c')) in H by (rewrite Qabs_pos by lra; reflexivity).
  destruct (half_even_near (100 * c)) as (_ & A). destruct (half_even_near (100 * c')) as (B & _). rewrite <- H in B.
  destruct (half_even_near (100 * c)) as (A' & _).  destruct (half_even_near (100 * c')) as (_ & B'). rewrite <- H in B'. lra.
Qed.
Lemma plain_named c : (0 <= c)%Q -> center_name c (name_plain c).
Proof.
  intros C0. pose proof (hundredths_nonneg c) as N0. exists O, (Z.to_N (hundredths c / 100)), (Z.to_N (hundredths c mod 100)), (dec (Z.to_N (hundredths c / 100))), (zpad 2 (dec (Z.to_N (hundredths c mod 100)))).
  pose proof (Z.mod_pos_bound (hundredths c) 100 ltac:(lia)) as B. assert (Hd : 0 <= hundredths c / 100) by (apply Z.div_pos; lia).
  split; [|split; [apply dec_written|split; [apply zpad_written; lia|split; [lia|] ] ] ].
  - unfold name_plain, fixed2. fold (hundredths c). destruct (Qltb c 0) eqn:E; [apply Qltb_lt in E; lra|]. cbn [app repeat]. rewrite <- !app_assoc. reflexivity.
  - rewrite !Z2N.id by lia. rewrite <- Z.div_mod by lia. unfold hundredths. rewrite (half_even_ext (100 * Qabs c) (100 * c)) by (rewrite Qabs_pos by lra; reflexivity).
    destruct (half_even_near (100 * c)) as (A & A'). apply Qabs_Qle_condition. split; lra.
Qed.
Lemma wide_named c : (0 <= c)%Q -> center_name c (name_wide c).
Proof.
  intros C0. destruct (plain_named c C0) as (sp & n & m & ds & es & E & W1 & W2 & M & A). unfold name_plain in E.
  exists (6 - length (fixed2 c))%nat, (Z.to_N (hundredths c / 100)), (Z.to_N (hundredths c mod 100)), (dec (Z.to_N (hundredths c / 100))), (zpad 2 (dec (Z.to_N (hundredths c mod 100)))).
  clear E W1 W2 M A. pose proof (hundredths_nonneg c) as N0. pose proof (Z.mod_pos_bound (hundredths c) 100 ltac:(lia)) as B. assert (Hd : 0 <= hundredths c / 100) by (apply Z.div_pos; lia).
  split; [|split; [apply dec_written|split; [apply zpad_written; lia|split; [lia|] ] ] ].
  - unfold name_wide, spaced. rewrite <- !app_assoc. do 2 f_equal. unfold fixed2. fold (hundredths c). destruct (Qltb c 0) eqn:E; [apply Qltb_lt in E; lra|]. cbn [app]. rewrite <- !app_assoc. reflexivity.
  - rewrite !Z2N.id by lia. rewrite <- Z.div_mod by lia. unfold hundredths. rewrite (half_even_ext (100 * Qabs c) (100 * c)) by (rewrite Qabs_pos by lra; reflexivity).
    destruct (half_even_near (100 * c)) as (A & A'). apply Qabs_Qle_condition. split; lra.
Qed.
Lemma plain_suffix c : suffix (name_plain c) = s_ ".tif".
Proof. unfold name_plain. change (s_ ".tif") with ("."%char :: s_ "tif"). rewrite app_assoc. apply suffix_app; [discriminate|discriminate|]. intros [H|[H|[H|[] ] ] ]; discriminate. Qed.
Lemma wide_suffix c : suffix (name_wide c) = s_ ".tif".
Proof. unfold name_wide. change (s_ ".tif") with ("."%char :: s_ "tif"). rewrite app_assoc. apply suffix_app; [discriminate|discriminate|]. intros [H|[H|[H|[] ] ] ]; discriminate. Qed.

(** ** the files *)
Section files.
Context {C : Type} (enc : str -> img Q -> C) (scale8 : img Q -> img Q) (cplx : img Q -> bool) (pil_ok : str -> bool).
Hypothesis Hpil : pil_ok (s_ ".tif") = true.
Hypothesis Hcplx : forall m, cplx m = false.
Notation save_all := (save_centers enc scale8 cplx pil_ok).
Lemma save_centers_ok (folder : path) (name : Q -> str) (image : Q -> res (img Q)) (pic : Q -> img Q) l : forall f,
  NoDup (map name l) -> usable_folder f folder -> (forall c, In c l -> image c = Ok (pic c)) -> (forall c, suffix (name c) = s_ ".tif") ->
  (forall c, In c l -> lookup f (name c :: folder) <> Some Dir) ->
  exists f', save_all f folder name image l = (f', Ok tt) /\
    (forall c, In c l -> lookup f' (name c :: folder) = Some (File (enc (s_ ".tif") (pic c)))) /\
    preserved_except (map (fun c => name c :: folder) l) f f' /\
    (forall q, ~ In q (map (fun c => name c :: folder) l) -> (length folder < length q)%nat -> lookup f' q = lookup f q) /\
    (l <> [] -> is_dir f' folder = true).
Proof.
  induction l as [|c l IH]; intros f ND U Im Sf Nd.
  - exists f. cbn [save_centers]. split; [reflexivity|]. split; [intros ? []|]. split; [intros q nd _ H; exact H|]. split; [reflexivity|congruence].
  - cbn [map] in ND. inversion ND as [|? ? Np ND']; subst.
    destruct (save_true_step enc scale8 cplx pil_ok f (name c :: folder) (pic c)) as (f1 & E1 & L1 & F1).
    { cbn [pname hd]. rewrite Sf. discriminate. }
    { cbn [pname hd]. rewrite Sf. exact Hpil. }
    { apply Hcplx. }
    { exact U. }
    { apply Nd. left; reflexivity. }
    cbn [pname hd parent tl] in *. rewrite Sf in L1. change (file_content enc scale8 (s_ ".tif") (pic c)) with (enc (s_ ".tif") (pic c)) in L1.
    assert (U1 : usable_folder f1 folder).
    { apply (fun H => usable_mono enc pil_ok f f1 folder H U). intros q Hq. assert (Hn : q <> name c :: folder) by (intros ->; cbn in Hq; lia). destruct (F1 q Hn) as (A & _ & B). split; assumption. }
    destruct (IH f1 ND' U1) as (f' & E2 & L2 & P2 & G2 & D2).
    { intros c0 H0. apply Im. right; exact H0. }
    { exact Sf. }
    { intros c0 H0. assert (Hn : name c0 :: folder <> name c :: folder).
      { intros Y. apply Np. injection Y as Y. rewrite <- Y. apply in_map, H0. }
      destruct (F1 _ Hn) as (_ & B & _). rewrite B by (cbn; lia). apply Nd. right; exact H0. }
    assert (Nin : ~ In (name c :: folder) (map (fun c => name c :: folder) l)).
    { intros Y. apply in_map_iff in Y as (c0 & Y & H0). apply Np. injection Y as Y. rewrite <- Y. apply in_map, H0. }
    assert (D1 : is_dir f1 folder = true).
    { unfold M_io_save.save_image in E1. rewrite Hcplx, andb_false_r in E1. cbn [pname hd] in E1. rewrite Sf, Hpil in E1. destruct (make_folder f (name c :: folder)) as [f2 [u|e] ]; [|discriminate E1].
      match type of E1 with (match ?w with _ => _ end) = _ => destruct w as [f3|e] eqn:W; [|discriminate E1] end. assert (f3 = f1) by congruence. subst f3.
      unfold write_file in W. destruct (is_dir f2 folder) eqn:Dd; [|discriminate]. destruct folder as [|a b]; [reflexivity|]. cbn [is_dir] in *.
      destruct (lookup f2 (name c :: a :: b)) as [ [x|]|]; try discriminate; injection W as <-; cbn [lookup]; (destruct (path_eq_dec (name c :: a :: b) (a :: b)) as [Y|]; [exfalso; apply (f_equal (@length str)) in Y; cbn in Y; lia|exact Dd]). }
    exists f'. cbn [save_centers]. rewrite (Im c (or_introl eq_refl)), E1, E2. split; [reflexivity|]. split; [|split; [|split] ].
    + intros c0 [<-|H0]; [|apply L2, H0]. rewrite G2; [exact L1|exact Nin|cbn; lia].
    + intros q nd Hq Hl. cbn [map] in Hq. apply P2; [intros Y; apply Hq; right; exact Y|]. apply (F1 q); [intros ->; apply Hq; left; reflexivity|exact Hl].
    + intros q Hq Hlen. cbn [map] in Hq. rewrite G2; [|intros Y; apply Hq; right; exact Y|exact Hlen]. apply (F1 q); [intros ->; apply Hq; left; reflexivity|exact Hlen].
    + intros _. destruct folder as [|a b]; [reflexivity|]. cbn [is_dir] in *. destruct (lookup f1 (a :: b)) as [ [x|]|] eqn:Lk; try discriminate.
      rewrite (P2 (a :: b) Dir); [reflexivity| |exact Lk]. intros Y. apply in_map_iff in Y as (c0 & Y & _). apply (f_equal (@length str)) in Y. cbn in Y. lia.
Qed.
(** the whole search: one file per centre in a new folder *)
Lemma visual_files f output (name : Q -> str) (image : Q -> res (img Q)) (pic : Q -> img Q) l :
  ready f output -> NoDup (map name l) -> (forall c, In c l -> image c = Ok (pic c)) -> (forall c, suffix (name c) = s_ ".tif") ->
  exists f' s, visual_search enc scale8 cplx pil_ok f output name image (Ok l) = (f', Ok (s :: output)) /\
    prefixb (s_ "Find_center_") s = true /\ new_folder f f' (s :: output) (map (fun c => (name c, enc (s_ ".tif") (pic c))) l).
Proof.
  intros (Tr & U & Cl) ND Im Sf. unfold visual_search.
  destruct (make_folder_name_spec f output (s_ "Find_center") 3) as (s & k & E & D & Sn & _). rewrite E.
  assert (Pf : prefixb (s_ "Find_center_") s = true) by (rewrite Sn; reflexivity).
  assert (Nl : lookup f (s :: output) = None). { cbn [is_dir] in D. destruct (lookup f (s :: output)) as [ [x|]|] eqn:Lk; [exfalso; eapply Cl; eassumption|discriminate|reflexivity]. }
  assert (Nb : forall nm, lookup f (nm :: s :: output) = None).
  { intros nm. destruct (lookup f (nm :: s :: output)) as [nd|] eqn:Lk; [|reflexivity]. apply Tr in Lk. congruence. }
  destruct (save_centers_ok (s :: output) name image pic l f) as (f' & E' & L & P & G & Dr); try assumption.
  { split; [intros c; rewrite Nl; discriminate|exact U]. }
  { intros c _. rewrite Nb. discriminate. }
  exists f', s. rewrite E'. split; [reflexivity|]. split; [exact Pf|]. split; [exact Nl|].
  assert (Ml : map fst (map (fun c => (name c, enc (s_ ".tif") (pic c))) l) = map name l) by (rewrite map_map; reflexivity).
  split; [intros H; apply Dr; intros ->; apply H; reflexivity|]. split; [rewrite Ml; exact ND|].
  assert (Other : forall nm, ~ In nm (map name l) -> lookup f' (nm :: s :: output) = None).
  { intros nm H. rewrite G; [apply Nb| |cbn; lia]. intros Y. apply in_map_iff in Y as (c0 & Y & H0). apply H. injection Y as Y. rewrite <- Y. apply in_map, H0. }
  split; [|split].
  - intros nm c. split.
    + intros Lk. destruct (in_dec str_eq_dec nm (map name l)) as [I|I]; [|rewrite Other in Lk by exact I; discriminate].
      apply in_map_iff in I as (c0 & <- & I). rewrite L in Lk by exact I. injection Lk as <-. apply in_map_iff. exists c0. split; [reflexivity|exact I].
    + intros I. apply in_map_iff in I as (c0 & Y & I). injection Y as <- <-. apply L, I.
  - intros nm. destruct (in_dec str_eq_dec nm (map name l)) as [I|I]; [|rewrite Other by exact I; discriminate]. apply in_map_iff in I as (c0 & <- & I). rewrite L by exact I. discriminate.
  - intros q nd Lk. apply P; [|exact Lk]. intros Y. apply in_map_iff in Y as (c0 & <- & _). rewrite Nb in Lk. discriminate.
Qed.
End files.
(** evenly spaced centres *)
Lemma candidates_NoDup (name : Q -> str) start step n : (forall c, decimal_value (filter is_digit (name c)) = Z.to_N (hundredths c)) -> (0 <= start)%Q -> (1#100 < step)%Q ->
  NoDup (map name (map (candidate start step) (zrange 0 n))).
Proof.
  intros V S0 St. rewrite map_map.
  assert (Lt : forall a b, 0 <= a -> a < b -> name (candidate start step a) <> name (candidate start step b)).
  { intros a b A B. assert (Ia : (0 <= inject_Z a)%Q) by (change 0%Q with (inject_Z 0); rewrite <- Zle_Qle; lia). assert (Ib : (inject_Z a + 1 <= inject_Z b)%Q) by (change 1%Q with (inject_Z 1); rewrite <- inject_Z_plus, <- Zle_Qle; lia).
    apply names_differ; [exact V| |]; unfold candidate; nra. }
  assert (G : forall l, NoDup l -> (forall k, In k l -> 0 <= k) -> NoDup (map (fun x => name (candidate start step x)) l)).
  { induction l as [|a l IH]; intros ND B; cbn [map]; constructor.
    - inversion ND as [|? ? Na ND']; subst. intros Y. apply in_map_iff in Y as (b & Y & Hb). pose proof (B a (or_introl eq_refl)). pose proof (B b (or_intror Hb)).
      destruct (Z.lt_trichotomy a b) as [L|[L|L] ]; [apply (Lt a b); try assumption; congruence|congruence|apply (Lt b a); assumption].
    - inversion ND; subst. apply IH; [assumption|]. intros; apply B; right; assumption. }
  apply G; [apply zrange_NoDup|]. intros k Hk. apply zrange_In in Hk. lia.
Qed.
