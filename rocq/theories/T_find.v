(** Property theorems for find_file (C137). *)
From Coq Require Import Sorted.
From Verif Require Import Np P_Np M_fs S_io M_io_save M_find S_find P_fs P_io_save P_io_save2 P_find.
From Coq Require Import Ascii String.
From Coq Require Import List. Import ListNotations.
Open Scope Z_scope.

Theorem find_file_lists_exactly_the_matches_in_order :
  forall C (f : fs C) d pattern,
  ((forall p, ~ found_in f d pattern p) -> find_file f d pattern = Err FileNotFoundError) /\
  ((exists p, found_in f d pattern p) -> exists l, find_file f d pattern = Ok l /\
     (forall p, In p l <-> found_in f d pattern p) /\ StronglySorted (fun p q => before (pname p) (pname q)) l).
Proof.
  intros C f d pat. destruct (find_spec f d pat) as [(N & E)|(l & E & NE & I & S)]; rewrite E.
  - split; [reflexivity|]. intros (p & H). destruct (N p H).
  - split; [|intros _; exists l; auto]. intros N. destruct l as [|p l]; [congruence|]. destruct (N p). apply I. left. reflexivity.
Qed.
Print Assumptions find_file_lists_exactly_the_matches_in_order.

(** the order of the names leaves no choice: no two results have the same name, and the order is total *)
Theorem found_files_are_distinct :
  forall C (f : fs C) d pattern l, find_file f d pattern = Ok l -> l <> [] /\ NoDup l.
Proof.
  intros C f d pat l H. destruct (find_spec f d pat) as [(N & E)|(l' & E & NE & I & S)]; rewrite E in H; [discriminate|].
  injection H as <-. split; [exact NE|]. clear -S. induction S as [|a l S IH F]; constructor; [|exact IH].
  intros H. rewrite Forall_forall in F. apply F in H. eapply before_irrefl; exact H.
Qed.
Print Assumptions found_files_are_distinct.

(** pattern "img_*.tif" and folder holding three tif files and one text file *)
Definition ex_fs : fs Z :=
  [([s_ "img_00010.tif"; s_ "d"], File 1); ([s_ "note.txt"; s_ "d"], File 2); ([s_ "img_00002.tif"; s_ "d"], File 3);
   ([s_ "img_1.tif"; s_ "d"], File 4); ([s_ "img_00000.tif"; s_ "e"], File 5); ([s_ "d"], Dir)].
Example ex_find :
  find_file ex_fs [s_ "d"] (s_ "img_*.tif")
  = Ok [[s_ "img_00002.tif"; s_ "d"]; [s_ "img_00010.tif"; s_ "d"]; [s_ "img_1.tif"; s_ "d"]] /\
  find_file ex_fs [s_ "d"] (s_ "img_?.tif") = Ok [[s_ "img_1.tif"; s_ "d"]] /\
  find_file ex_fs [s_ "d"] (s_ "*.hdf") = Err FileNotFoundError.
Proof. vm_compute. auto. Qed.

(** sets: digits or x, all but digits, a closing bracket in the first place, a bracket that is never closed *)
Example ex_sets :
  let f := [([s_ "a1.tif"; s_ "d"], File 1); ([s_ "ax.tif"; s_ "d"], File 2); ([s_ "a-.tif"; s_ "d"], File 3); ([s_ "a].tif"; s_ "d"], File 4);
            ([s_ "a[b"; s_ "d"], File 5)] in
  find_file f [s_ "d"] (s_ "a[0-9x].tif") = Ok [[s_ "a1.tif"; s_ "d"]; [s_ "ax.tif"; s_ "d"]] /\
  find_file f [s_ "d"] (s_ "a[!0-9].*") = Ok [[s_ "a-.tif"; s_ "d"]; [s_ "a].tif"; s_ "d"]; [s_ "ax.tif"; s_ "d"]] /\
  find_file f [s_ "d"] (s_ "a[]-].tif") = Ok [[s_ "a-.tif"; s_ "d"]; [s_ "a].tif"; s_ "d"]] /\
  find_file f [s_ "d"] (s_ "a[b") = Ok [[s_ "a[b"; s_ "d"]].
Proof. vm_compute. auto. Qed.
(** a stack saved by save_image_multiple (any order of the threads) and searched again gives its slices in their order.
    Missing: indices from 100000 on, see the refutation *)
Theorem saved_stack_is_found_in_slice_order_partial :
  forall C V (enc : str -> img V -> C) scale8 cplx pil_ok (f : fs C) folder (stack : vol V) axis start order pattern,
  0 <= start -> start + axis_len stack axis <= 100000 -> 1 <= axis_len stack axis ->
  usable_folder f folder -> pil_ok (s_ ".tif") = true ->
  (forall i, cplx (axis_slice stack axis i) = false) ->
  schedule (save_tasks folder stack axis start) order ->
  (** the pattern covers all names img_ddddd.tif, and nothing in the folder fitted it before *)
  (forall ds, forallb is_digit ds = true -> List.length ds = 5%nat -> fits_pattern pattern (s_ "img_" ++ ds ++ s_ ".tif")) ->
  (forall p, ~ found_in f folder pattern p) ->
  exists f' rs l, save_image_multiple enc scale8 cplx pil_ok f folder stack axis true order = (f', rs) /\
    (forall r, In r rs -> is_ok r = true) /\
    find_file f' folder pattern = Ok l /\ Z.of_nat (List.length l) = axis_len stack axis /\
    forall k, 0 <= k < axis_len stack axis ->
      exists ds m, written 5 (Z.to_N (start + k)) ds /\ is_slice stack axis k m /\
        nth_error l (Z.to_nat k) = Some ((s_ "img_" ++ ds ++ s_ ".tif") :: folder) /\
        lookup f' ((s_ "img_" ++ ds ++ s_ ".tif") :: folder) = Some (File (enc (s_ ".tif") m)).
Proof.
  intros C V enc scale8 cplx pil_ok f folder stack axis start order pat H0 H1 Hn U K X Sch Fit No.
  assert (NoImg : forall i nd, 0 <= i < axis_len stack axis -> lookup f (img_name (start + i) :: folder) = Some nd -> False).
  { intros i nd Hi L. apply (No (img_name (start + i) :: folder)). eexists _, nd. split; [reflexivity|]. split; [exact L|].
    destruct (img_name_written (start + i)) as (ds & (W & _) & -> & Ln); [lia|]. apply Fit; assumption. }
  destruct (save_then_find enc scale8 cplx pil_ok f folder stack axis start order pat) as (f' & rs & E & R & F & L); try assumption.
  - intros i Hi L. exact (NoImg i Dir Hi L).
  - intros nm nd L Fp. destruct (No (nm :: folder)). exists nm, nd. auto.
  - exists f', rs, (map (fun i => img_name (start + i) :: folder) (zrange 0 (axis_len stack axis))).
    split; [exact E|]. split; [exact R|]. split; [exact F|]. split; [rewrite map_length, zrange_length; lia|].
    intros k Hk. destruct (img_name_written (start + k)) as (ds & W & En & Ln); [lia|].
    exists ds, (axis_slice stack axis k). split; [exact W|]. split; [apply axis_slice_is|]. rewrite <- En. split; [|apply L, Hk].
    apply map_nth_error with (f := fun i => img_name (start + i) :: folder).
    rewrite (nth_error_nth' _ 0) by (rewrite zrange_length; lia). rewrite zrange_nth by lia. f_equal; lia.
Qed.
Print Assumptions saved_stack_is_found_in_slice_order_partial.
(** [first_value]: the stored content of an image is its pixel (0, 0) *)
Definition first_value (e : str) (m : img Z) : Z := px m 0 0.
Definition ex_save (f : fs Z) (v : vol Z) (start : Z) : fs Z :=
  fst (save_image_multiple first_value (fun m => m) (fun _ => false) (fun _ => true) f [s_ "o"] v 0 true (rev (save_tasks [s_ "o"] v 0 start))).
Example ex_saved_found :
  let v := mkvol 3 1 2 (fun a _ c => 7 + a + 10 * c) in
  let f := [([s_ "x.txt"; s_ "o"], File 0); ([s_ "o"], Dir)] in
  find_file (ex_save f v 9) [s_ "o"] (s_ "*.tif")
  = Ok [[s_ "img_00009.tif"; s_ "o"]; [s_ "img_00010.tif"; s_ "o"]; [s_ "img_00011.tif"; s_ "o"]] /\
  lookup (ex_save f v 9) [s_ "img_00010.tif"; s_ "o"] = Some (File 8).
Proof. vm_compute. auto. Qed.
(** the patterns used in practice cover the names of the slices and not those of other files *)
Lemma fits_star s : fits_pattern (s_ "*.tif") (s ++ s_ ".tif").
Proof. apply fits_any. repeat (apply fits_same; [intros H; discriminate H|intros H; discriminate H|]). constructor. Qed.
Example ex_patterns : forall ds,
  fits_pattern (s_ "*.tif") (s_ "img_" ++ ds ++ s_ ".tif") /\ fits_pattern (s_ "img*.tif") (s_ "img_" ++ ds ++ s_ ".tif") /\
  ~ fits_pattern (s_ "*.tif") (s_ "x.txt").
Proof.
  intros ds. split; [rewrite app_assoc; apply fits_star|]. split.
  - change (s_ "img_" ++ ds ++ s_ ".tif") with ("i" :: "m" :: "g" :: (("_" :: ds) ++ s_ ".tif"))%char.
    do 3 (apply fits_same; [intros H; discriminate H|intros H; discriminate H|]). apply fits_star.
  - intros H. apply fnmatch_iff in H. vm_compute in H. discriminate H.
Qed.

(** the slices 0 and 1 of a stack, saved with the index of the first slice 99999: the search gives slice 1 first *)
Theorem saved_stack_found_order_refuted :
  exists (stack : vol Z) start f' l p q,
    0 <= start /\ dep stack = 2 /\ vx stack 0 0 0 = 10 /\ vx stack 1 0 0 = 20 /\
    f' = ex_save [([s_ "o"], Dir)] stack start /\
    find_file f' [s_ "o"] (s_ "img*.tif") = Ok l /\ l = [p; q] /\
    lookup f' p = Some (File 20) /\ lookup f' q = Some (File 10).
Proof.
  exists (mkvol 2 1 1 (fun a _ _ => 10 + 10 * a)), 99999. eexists _, _, _, _.
  split; [lia|]. split; [reflexivity|]. split; [reflexivity|]. split; [reflexivity|]. split; [reflexivity|].
  split; [vm_compute; reflexivity|]. split; [reflexivity|]. split; vm_compute; reflexivity.
Qed.
Print Assumptions saved_stack_found_order_refuted.
