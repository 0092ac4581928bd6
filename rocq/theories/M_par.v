(** Shared-memory execution of parallel loops: numba prange workers and CUDA threads.
    Every kernel modelled on it (reconstruction.py:156-359, vertrec.py:53-335, correlation.py:346-445)
    only reads arrays that nobody writes, so the program of a thread is known in advance: a list of
    "arr[c] += v" and "arr[c] = v" statements.  "arr[c] += v" is not atomic: it is a load followed by
    a store.  A schedule is any sequence of thread numbers; each entry runs one atomic step of that
    thread.  Simplification: sequentially consistent memory. *)
From Verif Require Import Np.
From Coq Require Import QArith.
From Coq Require Import List. Import ListNotations.
Open Scope Z_scope.

Definition cell := (Z * Z * Z)%type.
Definition cell_eqb (a b : cell) : bool :=
  let '(x, y, z) := a in let '(u, v, w) := b in (x =? u) && (y =? v) && (z =? w).
Definition memory := cell -> Q.
Inductive op := OAdd (c : cell) (v : Q) | OSet (c : cell) (v : Q).
Definition op_cell (o : op) : cell := match o with OAdd c _ | OSet c _ => c end.
Definition upd (m : memory) (c : cell) (v : Q) : memory := fun d => if cell_eqb d c then v else m d.

(** the statements still to run, and the value loaded by a half-done "+=" *)
Record thread := mkthread { todo : list op; reg : option Q }.
Definition start (prog : list op) : thread := mkthread prog None.
(** one atomic step of a thread *)
Definition tstep (m : memory) (t : thread) : memory * thread :=
  match todo t with
  | [] => (m, t)
  | OSet c v :: rest => (upd m c v, mkthread rest None)
  | OAdd c v :: rest =>
      match reg t with
      | None => (m, mkthread (todo t) (Some (m c)))
      | Some r => (upd m c (r + v)%Q, mkthread rest None)
      end
  end.
Fixpoint set_nth {A} (n : nat) (a : A) (l : list A) : list A :=
  match n, l with
  | _, [] => []
  | O, _ :: t => a :: t
  | S k, x :: t => x :: set_nth k a t
  end.
Definition pstep (s : memory * list thread) (n : nat) : memory * list thread :=
  match nth_error (snd s) n with
  | None => s
  | Some t => let (m, t') := tstep (fst s) t in (m, set_nth n t' (snd s))
  end.
Definition prun (m : memory) (progs : list (list op)) (sched : list nat) : memory * list thread :=
  fold_left pstep sched (m, map start progs).
(** all threads have finished *)
Definition all_done (ts : list thread) : Prop := forall t, In t ts -> todo t = [].
(** one thread alone *)
Fixpoint seq_exec (m : memory) (prog : list op) : memory :=
  match prog with
  | [] => m
  | OAdd c v :: t => seq_exec (upd m c (m c + v)%Q) t
  | OSet c v :: t => seq_exec (upd m c v) t
  end.
