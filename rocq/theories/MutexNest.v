(** [MutexMatrix] calls made while another one is going on.

    Update (mutexMatrix.go:37-43) holds the write lock while the wrapped matrix runs the
    caller's function (csrMatrix.go:85, 93, cscMatrix.go:91, denseMatrix.go:99,
    denseVector.go:128, sparseVector.go:112), which may call methods of the same or of another
    MutexMatrix.  A MutexMatrix itself is no Matrix (its Copy, mutexMatrix.go:86, has another
    result type and it has no CopyLogical), so it cannot be an argument of Multiply, Add,
    Subtract, Equal and NotEqual (mutexMatrix.go:101-155), which hold the read lock; but the
    argument can be a matrix type of the caller's whose methods call a MutexMatrix, as in
    [m.ColumnsAt(c)], operators.go:40.
    Here only the locks matter: a call is the list of its lock operations.  Locks are
    numbered; different matrices have different locks. *)
From Verif Require Import GoBase Mutex.
Local Open Scope nat_scope.

(** the operations of sync.RWMutex, called in mutexMatrix.go:37-191 *)
Inductive act : Type := ARLock (l : nat) | ARUnlock (l : nat) | ALock (l : nat) | AUnlock (l : nat).

(** a call on the matrix with lock [l], for writing (Set, Update: mutexMatrix.go:37-59) or for
    reading (the other locking methods), and the locking calls made in the meantime, one
    after the other *)
Inductive ncall : Type := NCall (write : bool) (l : nat) (inner : list ncall).
(** the lock of the receiver *)
Definition lock_on (k : ncall) : nat := match k with NCall _ l _ => l end.

(** mutexMatrix.go:37-191: Lock or RLock first, Unlock or RUnlock deferred *)
Fixpoint acts_of (k : ncall) : list act :=
  match k with
  | NCall w l inner => (if w then ALock l else ARLock l) :: flat_map acts_of inner ++ [if w then AUnlock l else ARUnlock l]
  end.

(** where a goroutine stands *)
Record ngor : Type := MkNG {
  n_wait : bool;                 (* the Lock of the next action has been announced *)
  n_acts : list act;             (* lock operations still to do *)
  n_held : list (bool * nat);    (* locks held, last first; [true]: for writing *)
}.
(** the locks and the goroutines *)
Record nstate : Type := MkNS { n_locks : nat -> rw; n_gs : list ngor }.
Definition set_lock (f : nat -> rw) (l : nat) (x : rw) : nat -> rw := fun k => if Nat.eqb k l then x else f k.
Definition put (x : nstate) (i : nat) (g : ngor) (f : nat -> rw) : nstate := MkNS f (list_set (n_gs x) i g).

(** one step of one goroutine; the RWMutex as in Mutex.v *)
Inductive nstep (x : nstate) : nstate -> Prop :=
| n_rlock : forall i l a held s, nth_error (n_gs x) i = Some (MkNG false (ARLock l :: a) held) -> rlock (n_locks x l) = Some s ->
    nstep x (put x i (MkNG false a ((false, l) :: held)) (set_lock (n_locks x) l s))
| n_announce : forall i l a held s, nth_error (n_gs x) i = Some (MkNG false (ALock l :: a) held) -> announce (n_locks x l) = Some s ->
    nstep x (put x i (MkNG true (ALock l :: a) held) (set_lock (n_locks x) l s))
| n_lock : forall i l a held, nth_error (n_gs x) i = Some (MkNG true (ALock l :: a) held) -> no_readers (n_locks x l) = true ->
    nstep x (put x i (MkNG false a ((true, l) :: held)) (n_locks x))
| n_runlock : forall i l a held, nth_error (n_gs x) i = Some (MkNG false (ARUnlock l :: a) ((false, l) :: held)) ->
    nstep x (put x i (MkNG false a held) (set_lock (n_locks x) l (runlock (n_locks x l))))
| n_unlock : forall i l a held, nth_error (n_gs x) i = Some (MkNG false (AUnlock l :: a) ((true, l) :: held)) ->
    nstep x (put x i (MkNG false a held) (set_lock (n_locks x) l (unlock (n_locks x l)))).

(** executions *)
Inductive nrun (x : nstate) : nstate -> Prop :=
| nrun_nil : nrun x x
| nrun_step : forall y z, nrun x y -> nstep y z -> nrun x z.

(** goroutines about to start; all locks free *)
Definition nbegin (progs : list (list ncall)) : nstate :=
  MkNS (fun _ => MkRW 0 false) (map (fun p => MkNG false (flat_map acts_of p) []) progs).
