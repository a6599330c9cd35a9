(** [MutexMatrix] (mutexMatrix.go) used by any number of goroutines.

    Modelled: the [sync.RWMutex] and, for every method, which lock it takes, when
    the wrapped matrix is read and when it is changed.  The body of a method is two
    steps, reading the wrapped object and then changing it, so that bodies that
    overlap can interfere.  A goroutine runs a list of calls; a call that panics
    releases its lock (the deferred unlock) and the goroutine goes on (it recovers).
    The wrapped matrix is reachable only through the wrapper. *)
From Verif Require Import GoBase Num SparseVec Csr Csc DenseVec DenseMat Mat.

(** ** [sync.RWMutex] (Go's standard library, sync/rwmutex.go), by its documented
    behaviour: any number of readers or one writer; once a writer has called Lock,
    new readers wait. *)
Record rw : Type := MkRW {
  rw_readers : nat;   (* goroutines holding the read lock *)
  rw_writer : bool;   (* a writer waits for the readers to leave, or holds the lock *)
}.
(** [RLock] *)
Definition rlock (l : rw) : option rw :=
  if rw_writer l then None else Some (MkRW (S (rw_readers l)) false).
(** [RUnlock] *)
Definition runlock (l : rw) : rw := MkRW (Nat.pred (rw_readers l)) (rw_writer l).
(** [Lock], first half: keep new readers and other writers out *)
Definition announce (l : rw) : option rw :=
  if rw_writer l then None else Some (MkRW (rw_readers l) true).
(** [Lock], second half: wait for the readers *)
Definition no_readers (l : rw) : bool := Nat.eqb (rw_readers l) 0.
(** [Unlock] *)
Definition unlock (l : rw) : rw := MkRW (rw_readers l) false.

Section Mutex.
Context {N : num}.
Notation V := (T N).
Notation mat := (mat N).

(** what a method returns (mutexMatrix.go:27-191) *)
Inductive ret : Type :=
| VUnit | VVal (v : V) | VBool (b : bool) | VInt (z : Z) | VMat (m : mat) | VArr (l : list V) | VEnt (e : Z * Z * V) (it : iter).

(** [Update] with a callback that may panic ([None]); it is called before anything is
    written (csrMatrix.go:73-96, cscMatrix.go:79-104, denseMatrix.go:90-102,
    denseVector.go:118-129, sparseVector.go:102-113) *)
Definition mat_UpdateP (m : mat) (r c : Z) (f : V -> option V) : res mat :=
  let g := fun v => match f v with Some v' => (true, v') | None => (false, v) end in
  let k := fun (p : bool * mat) => if fst p then Ok (snd p) else Panic in
  match m with
  | MCSR s => p <- csr_Update s r c g ;; k (fst p, MCSR (snd p))
  | MCSC s => p <- csc_Update s r c g ;; k (fst p, MCSC (snd p))
  | MDM s => p <- dm_Update s r c g ;; k (fst p, MDM (snd p))
  | MDV s => p <- dv_Update s r c g ;; k (fst p, MDV (snd p))
  | MSV s => p <- sv_Update s r c g ;; k (fst p, MSV (snd p))
  end.

(** the methods of [MutexMatrix].  [MRead] stands for those that only read the
    wrapped matrix and return something computed from it: Scalar, Multiply, Add,
    Subtract, Negative, Transpose, Equal, NotEqual (mutexMatrix.go:93-155), with
    arguments nobody else changes.  [MNext] and [MMapNext] are [Next] and [Map] of an iterator
    obtained from Enumerate or Map (mutexMatrix.go:175-183). *)
Inductive mcall : Type :=
| MAt (r c : Z) | MElement (r c : Z) | MColumnsAt (c : Z) | MRowsAt (r : Z) | MRowsAtToArray (r : Z) | MCopy
| MRead (g : mat -> res ret)
| MSet (r c : Z) (v : V) | MUpdate (r c : Z) (f : V -> option V)
| MRows | MColumns | MSize
| MClear | MValues | MNext (it : iter) | MMapNext (it : iter) (f : V -> V).

(** which of the locks of sync.RWMutex *)
Inductive lock : Type := LNone | LRead | LWrite.

(** mutexMatrix.go:27-191: the lock each method takes.  Clear takes the read lock
    (167-173); Columns, Rows, Size, Values, Enumerate and Map take none (27-35,
    157-165, 175-183). *)
Definition lock_of (k : mcall) : lock :=
  match k with
  | MAt _ _ | MElement _ _ | MColumnsAt _ | MRowsAt _ | MRowsAtToArray _ | MCopy | MRead _ => LRead
  | MSet _ _ _ | MUpdate _ _ _ => LWrite
  | MClear => LRead
  | MRows | MColumns | MSize | MValues | MNext _ | MMapNext _ _ => LNone
  end.

(** what the wrapped method does (the wrapped method called in mutexMatrix.go:27-191) *)
Definition body (k : mcall) (m : mat) : res (ret * mat) :=
  match k with
  | MAt r c => p <- mat_At m r c ;; Ok (VVal (fst p), snd p)
  | MElement r c => p <- mat_Element m r c ;; Ok (VBool (fst p), snd p)
  | MColumnsAt c => v <- mat_ColumnsAt m c ;; Ok (VMat v, m)
  | MRowsAt r => v <- mat_RowsAt m r ;; Ok (VMat v, m)
  | MRowsAtToArray r => l <- mat_RowsAtToArray m r ;; Ok (VArr l, m)
  | MCopy => t <- mat_Copy m ;; Ok (VMat t, m)
  | MRead g => x <- g m ;; Ok (x, m)
  | MSet r c v => m' <- mat_Set m r c v ;; Ok (VUnit, m')
  | MUpdate r c f => m' <- mat_UpdateP m r c f ;; Ok (VUnit, m')
  | MRows => Ok (VInt (mat_Rows m), m)
  | MColumns => Ok (VInt (mat_Columns m), m)
  | MSize => Ok (VInt (mat_Size m), m)
  | MClear => m' <- mat_Clear m ;; Ok (VUnit, m')
  | MValues => Ok (VInt (mat_Values m), m)
  | MNext it => '(e, it') <- mat_Next m it ;; Ok (VEnt e it', m)
  | MMapNext it f =>
      it' <- mat_next m it ;;
      '(r, c, v) <- mat_cur m it' ;;
      m' <- mat_map_put m it' (f v) ;;
      Ok (VEnt (r, c, v) it', m')
  end.

(** the methods whose code assigns to fields or elements of the wrapped matrix.  At
    and Element of the sparse formats go through Update and store the element they
    found back (csrMatrix.go:84-90, 97-104, 404-411; cscMatrix.go:107-114, 414-421;
    sparseVector.go:116-123). *)
Definition stores (k : mcall) : bool :=
  match k with
  | MSet _ _ _ | MUpdate _ _ _ | MClear | MMapNext _ _ | MAt _ _ | MElement _ _ => true
  | _ => false
  end.

(** where a goroutine stands *)
Inductive pc : Type :=
| Out                              (* between calls *)
| Ann (k : mcall)                  (* in Lock, waiting for the readers to leave *)
| In (k : mcall)                   (* lock held, body not yet begun *)
| Got (k : mcall) (m : mat)        (* the body has read the object *)
| Fin (k : mcall) (o : option ret) (* the body has ended with a result or a panic; deferred unlock next *).

(** a goroutine: where it stands, its calls to make and the results it has got *)
Record gor : Type := MkGor {
  g_pc : pc;
  g_todo : list mcall;                  (* calls not yet begun *)
  g_out : list (mcall * option ret);    (* results of the calls that have ended; [None]: panicked *)
}.

(** the RWMutex and the wrapped matrix of mutexMatrix.go:15-18, and the goroutines *)
Record state : Type := MkSt {
  s_mat : mat;          (* the wrapped matrix *)
  s_rw : rw;
  s_gs : list gor;      (* the goroutines *)
}.

(** labels: goroutine [i] gets the lock it needs and enters call [k] ([Acq]), or
    does something else *)
Inductive label : Type := Acq (i : nat) (k : mcall) | Tau.

(** goroutine [i] moves on *)
Definition at_pc (x : state) (i : nat) (p : pc) (todo : list mcall) (out : list (mcall * option ret)) (m : mat) (l : rw) : state :=
  MkSt m l (list_set (s_gs x) i (MkGor p todo out)).

(** one step of one goroutine *)
Inductive step (x : state) : label -> state -> Prop :=
| st_none : forall i g k rest, nth_error (s_gs x) i = Some g -> g_pc g = Out -> g_todo g = k :: rest -> lock_of k = LNone ->
    step x (Acq i k) (at_pc x i (In k) rest (g_out g) (s_mat x) (s_rw x))
| st_rlock : forall i g k rest l, nth_error (s_gs x) i = Some g -> g_pc g = Out -> g_todo g = k :: rest -> lock_of k = LRead ->
    rlock (s_rw x) = Some l ->
    step x (Acq i k) (at_pc x i (In k) rest (g_out g) (s_mat x) l)
| st_announce : forall i g k rest l, nth_error (s_gs x) i = Some g -> g_pc g = Out -> g_todo g = k :: rest -> lock_of k = LWrite ->
    announce (s_rw x) = Some l ->
    step x Tau (at_pc x i (Ann k) rest (g_out g) (s_mat x) l)
| st_lock : forall i g k, nth_error (s_gs x) i = Some g -> g_pc g = Ann k -> no_readers (s_rw x) = true ->
    step x (Acq i k) (at_pc x i (In k) (g_todo g) (g_out g) (s_mat x) (s_rw x))
| st_read : forall i g k, nth_error (s_gs x) i = Some g -> g_pc g = In k ->
    step x Tau (at_pc x i (Got k (s_mat x)) (g_todo g) (g_out g) (s_mat x) (s_rw x))
| st_write : forall i g k m v m', nth_error (s_gs x) i = Some g -> g_pc g = Got k m -> body k m = Ok (v, m') ->
    step x Tau (at_pc x i (Fin k (Some v)) (g_todo g) (g_out g) (if stores k then m' else s_mat x) (s_rw x))
| st_panic : forall i g k m, nth_error (s_gs x) i = Some g -> g_pc g = Got k m -> body k m = Panic ->
    step x Tau (at_pc x i (Fin k None) (g_todo g) (g_out g) (s_mat x) (s_rw x))
| st_leave : forall i g k o, nth_error (s_gs x) i = Some g -> g_pc g = Fin k o ->
    step x Tau (at_pc x i Out (g_todo g) (g_out g ++ [(k, o)]) (s_mat x)
      (match lock_of k with LNone => s_rw x | LRead => runlock (s_rw x) | LWrite => unlock (s_rw x) end)).

(** an execution, with the calls in the order in which they got their locks *)
Inductive run (x : state) : list (nat * mcall) -> state -> Prop :=
| run_nil : run x [] x
| run_acq : forall h y i k z, run x h y -> step y (Acq i k) z -> run x (h ++ [(i, k)]) z
| run_tau : forall h y z, run x h y -> step y Tau z -> run x h z.

(** goroutines with programs [progs] about to start on the wrapped matrix [m] *)
Definition begin (m : mat) (progs : list (list mcall)) : state :=
  MkSt m (MkRW 0 false) (map (fun p => MkGor Out p []) progs).

End Mutex.
Arguments ret : clear implicits.
Arguments mcall : clear implicits.
Arguments pc : clear implicits.
Arguments gor : clear implicits.
Arguments state : clear implicits.
