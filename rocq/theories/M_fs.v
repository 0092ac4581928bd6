(** Strings, pathlib paths and a file system, as used by algotom/io/loadersaver.py.
    Simplifications: ASCII strings; paths are absolute and resolved (no symbolic links, no "..");
    a file is an abstract content; permissions and disk-full errors do not occur. *)
From Verif Require Import Np.
From Coq Require Import Ascii String.
From Coq Require Import List. Import ListNotations.
Open Scope Z_scope.

(** ** Strings are lists of characters *)
Definition str := list ascii.
Definition s_ (s : string) : str := list_ascii_of_string s.
Definition str_eq_dec : forall a b : str, {a = b} + {a <> b} := list_eq_dec ascii_dec.
Definition str_eqb (a b : str) : bool := if str_eq_dec a b then true else false.

(** str(n) for an int n >= 0: decimal digits without leading zeros *)
Definition digit (d : N) : ascii := ascii_of_N (48 + d).
Fixpoint dec_fuel (fuel : nat) (n : N) : str :=
  match fuel with
  | O => []
  | S f => if (n <? 10)%N then [digit n] else dec_fuel f (n / 10) ++ [digit (n mod 10)]
  end.
Definition dec (n : N) : str := dec_fuel (S (N.size_nat n)) n.
(** str(i) for an int i *)
Definition str_Z (i : Z) : str :=
  if i <? 0 then s_ "-" ++ dec (Z.to_N (- i)) else dec (Z.to_N i).
(** f"{n:0{w}d}": zero padded to width at least w *)
Definition zpad (w : nat) (s : str) : str := repeat "0"%char (w - length s) ++ s.
(** s[-k:] *)
Definition lastn {A} (k : nat) (s : list A) : list A := skipn (length s - k) s.
(** str.lower() on ASCII *)
Definition lower1 (c : ascii) : ascii :=
  let n := N_of_ascii c in
  if ((65 <=? n) && (n <=? 90))%N then ascii_of_N (n + 32) else c.
Definition lower (s : str) : str := map lower1 s.
(** prefix test, substring test ("a in b") *)
Fixpoint prefixb (a b : str) : bool :=
  match a, b with
  | [], _ => true
  | x :: a', y :: b' => if ascii_dec x y then prefixb a' b' else false
  | _ :: _, [] => false
  end.
Fixpoint substrb (a b : str) : bool :=
  prefixb a b || match b with [] => false | _ :: b' => substrb a b' end.

(** ** pathlib: PurePath.suffix / stem / with_suffix.
    i = name.rfind('.'); the suffix is name[i:] when 0 < i < len(name) - 1, else ''. *)
Fixpoint rfind_dot (s : str) : option nat :=
  match s with
  | [] => None
  | c :: t => match rfind_dot t with
              | Some i => Some (S i)
              | None => if ascii_dec c "."%char then Some O else None
              end
  end.
Definition suffix_pos (nm : str) : option nat :=
  match rfind_dot nm with
  | Some i => if (Nat.ltb 0 i && Nat.ltb i (length nm - 1))%bool then Some i else None
  | None => None
  end.
Definition stem (nm : str) : str :=
  match suffix_pos nm with Some i => firstn i nm | None => nm end.
Definition suffix (nm : str) : str :=
  match suffix_pos nm with Some i => skipn i nm | None => [] end.

(** A path is the list of its components, last component first: [name :: parents]. *)
Definition path := list str.
Definition path_eq_dec : forall a b : path, {a = b} + {a <> b} := list_eq_dec str_eq_dec.
Definition pname (p : path) : str := hd [] p.
Definition parent (p : path) : path := tl p.
Definition with_suffix (p : path) (ext : str) : path := (stem (pname p) ++ ext) :: parent p.

(** ** File system *)
Section FS.
  Context {C : Type}.
  Inductive node := File (c : C) | Dir.
  Definition fs := list (path * node).
  Fixpoint lookup (f : fs) (p : path) : option node :=
    match f with
    | [] => None
    | (q, n) :: t => if path_eq_dec q p then Some n else lookup t p
    end.
  (** Path.exists(), Path.is_dir(): the root always is a directory *)
  Definition existsb_ (f : fs) (p : path) : bool :=
    match p with [] => true | _ => match lookup f p with Some _ => true | None => false end end.
  Definition is_dir (f : fs) (p : path) : bool :=
    match p with [] => true | _ => match lookup f p with Some Dir => true | _ => false end end.
  (** Path.mkdir(parents=True, exist_ok=True): an ancestor that is a plain file is an OSError and
      nothing is created then *)
  Fixpoint mkdir_p (f : fs) (p : path) : res fs :=
    match p with
    | [] => Ok f
    | n :: q => match lookup f p with
                | Some Dir => Ok f
                | Some (File _) => Err OSError
                | None => do f' <- mkdir_p f q; Ok ((p, Dir) :: f')
                end
    end.
  (** open(path, "w") + write + close: creates or truncates *)
  Definition write_file (f : fs) (p : path) (c : C) : res fs :=
    match p with
    | [] => Err OSError
    | n :: q => if is_dir f q
                then match lookup f p with
                     | Some Dir => Err OSError
                     | _ => Ok ((p, File c) :: f)
                     end
                else Err OSError
    end.
  (** names of the entries of directory d *)
  Definition entries (f : fs) (d : path) : list str :=
    nodup str_eq_dec
      (flat_map (fun e => match fst e with
                          | n :: q => if path_eq_dec q d then [n] else []
                          | [] => []
                          end) f).
  (** is [d] a proper or improper ancestor of [p]? *)
  Fixpoint underb (d p : path) : bool :=
    if path_eq_dec d p then true else match p with [] => false | _ :: q => underb d q end.
  (** shutil.rmtree(d) *)
  Definition rmtree (f : fs) (d : path) : fs := filter (fun e => negb (underb d (fst e))) f.
End FS.
Arguments node C : clear implicits.
Arguments fs C : clear implicits.
