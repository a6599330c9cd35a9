(** Goroutines using a [MutexMatrix], one memory access at a time, and data races.

    The mutex is that of Mutex.v.  Every read and write of the wrapped struct and
    its slices is a step of its own, so the bodies of calls that overlap interleave access
    by access.  Reads see the last write: this is the behaviour of executions without data
    races; the race is what the model reports, not what a compiler may do with it.
    A call that panics releases its lock (the deferred unlock) and the goroutine goes on. *)
From Verif Require Import GoBase Num SparseVec Csr Csc DenseVec DenseMat Mat Mutex Access.

Section AccessConc.
Context {N : num}.
Notation mat := (mat N).
Notation ret := (ret N).
Notation wcall := (wcall (N := N)).
Notation prog := (prog (N := N)).

(** where a goroutine stands *)
Inductive apc : Type :=
| AOut                                (* between calls *)
| AAnn (k : wcall)                    (* in Lock, waiting for the readers to leave *)
| AIn (k : wcall) (p : prog ret)      (* lock held; what is left of the body *)
| AFin (k : wcall) (o : option ret).  (* body ended with a result or a panic; deferred unlock next *)

(** a goroutine: where it stands, its calls to make and the results it has got *)
Record agor : Type := MkAG { ag_pc : apc; ag_todo : list wcall; ag_out : list (wcall * option ret) }.

(** the wrapped struct and the RWMutex of mutexMatrix.go:15-18, and the goroutines *)
Record astate : Type := MkAS { a_mem : mem (N := N); a_rw : rw; a_gs : list agor }.

(** what is seen of a step: goroutine [i] enters call [k] with its lock, leaves it releasing the
    lock, or reads ([false]) or writes ([true]) a location *)
Inductive ev : Type :=
| EAcq (i : nat) (k : wcall)
| ERel (i : nat) (k : wcall)
| EAcc (i : nat) (k : wcall) (w : bool) (l : loc).

(** goroutine [i] moves on *)
Definition a_at (x : astate) (i : nat) (p : apc) (todo : list wcall) (out : list (wcall * option ret)) (y : mem) (l : rw) : astate :=
  MkAS y l (list_set (a_gs x) i (MkAG p todo out)).

(** one step of one goroutine (mutexMatrix.go:27-191: lock, defer unlock, call the wrapped
    method); [room]: whether the appends of the call find room *)
Inductive astep (x : astate) : option ev -> astate -> Prop :=
| as_none : forall i g k rest room, nth_error (a_gs x) i = Some g -> ag_pc g = AOut -> ag_todo g = k :: rest -> wlock k = LNone ->
    astep x (Some (EAcq i k)) (a_at x i (AIn k (method (m_kind (a_mem x)) room k)) rest (ag_out g) (a_mem x) (a_rw x))
| as_rlock : forall i g k rest room l, nth_error (a_gs x) i = Some g -> ag_pc g = AOut -> ag_todo g = k :: rest -> wlock k = LRead ->
    rlock (a_rw x) = Some l ->
    astep x (Some (EAcq i k)) (a_at x i (AIn k (method (m_kind (a_mem x)) room k)) rest (ag_out g) (a_mem x) l)
| as_announce : forall i g k rest l, nth_error (a_gs x) i = Some g -> ag_pc g = AOut -> ag_todo g = k :: rest -> wlock k = LWrite ->
    announce (a_rw x) = Some l ->
    astep x None (a_at x i (AAnn k) rest (ag_out g) (a_mem x) l)
| as_lock : forall i g k room, nth_error (a_gs x) i = Some g -> ag_pc g = AAnn k -> no_readers (a_rw x) = true ->
    astep x (Some (EAcq i k)) (a_at x i (AIn k (method (m_kind (a_mem x)) room k)) (ag_todo g) (ag_out g) (a_mem x) (a_rw x))
| as_readz : forall i g k l f z, nth_error (a_gs x) i = Some g -> ag_pc g = AIn k (PRdZ l f) -> rd_z (a_mem x) l = Ok z ->
    astep x (Some (EAcc i k false (loc_z l))) (a_at x i (AIn k (f z)) (ag_todo g) (ag_out g) (a_mem x) (a_rw x))
| as_readv : forall i g k l f v, nth_error (a_gs x) i = Some g -> ag_pc g = AIn k (PRdV l f) -> rd_v (a_mem x) l = Ok v ->
    astep x (Some (EAcc i k false (loc_v l))) (a_at x i (AIn k (f v)) (ag_todo g) (ag_out g) (a_mem x) (a_rw x))
| as_write : forall i g k u q y, nth_error (a_gs x) i = Some g -> ag_pc g = AIn k (PWr u q) -> wr (a_mem x) u = Ok y ->
    astep x (Some (EAcc i k true (loc_u u))) (a_at x i (AIn k q) (ag_todo g) (ag_out g) y (a_rw x))
| as_fault : forall i g k p, nth_error (a_gs x) i = Some g -> ag_pc g = AIn k p ->
    match p with PRdZ l _ => rd_z (a_mem x) l = Panic | PRdV l _ => rd_v (a_mem x) l = Panic | PWr u _ => wr (a_mem x) u = Panic | PStop => True | _ => False end ->
    astep x None (a_at x i (AFin k None) (ag_todo g) (ag_out g) (a_mem x) (a_rw x))
| as_ret : forall i g k v, nth_error (a_gs x) i = Some g -> ag_pc g = AIn k (PRet v) ->
    astep x None (a_at x i (AFin k (Some v)) (ag_todo g) (ag_out g) (a_mem x) (a_rw x))
| as_leave : forall i g k o, nth_error (a_gs x) i = Some g -> ag_pc g = AFin k o ->
    astep x (Some (ERel i k)) (a_at x i AOut (ag_todo g) (ag_out g ++ [(k, o)]) (a_mem x)
      (match wlock k with LNone => a_rw x | LRead => runlock (a_rw x) | LWrite => unlock (a_rw x) end)).

Definition seen_of (e : option ev) : list ev := match e with Some e => [e] | None => [] end.

(** an execution and what is seen of it *)
Inductive arun (x : astate) : list ev -> astate -> Prop :=
| ar_nil : arun x [] x
| ar_step : forall tr y e z, arun x tr y -> astep y e z -> arun x (tr ++ seen_of e) z.

(** goroutines with programs [progs] about to start on the wrapped matrix [m] *)
Definition abegin (m : mat) (progs : list (list wcall)) : astate :=
  MkAS (flat m) (MkRW 0 false) (map (fun p => MkAG AOut p []) progs).

(** the calls in the order in which they got their locks *)
Definition order (tr : list ev) : list (nat * wcall) :=
  concat (map (fun e => match e with EAcq i k => [(i, k)] | _ => [] end) tr).

(** ** Data races, after the Go memory model (go.dev/ref/mem) *)

Definition who (e : ev) : nat := match e with EAcq i _ | ERel i _ | EAcc i _ _ _ => i end.

(** sync.RWMutex: an Unlock happens before every later RLock and Lock returns, an RUnlock
    before every later Lock returns *)
Definition syncs (a b : lock) : Prop :=
  match a, b with LWrite, LRead | LWrite, LWrite | LRead, LWrite => True | _, _ => False end.

(** happens before, between positions of [tr] *)
Inductive hb (tr : list ev) : nat -> nat -> Prop :=
| hb_program : forall a b e e', (a < b)%nat -> nth_error tr a = Some e -> nth_error tr b = Some e' -> who e = who e' -> hb tr a b
| hb_sync : forall a b i k j k', (a < b)%nat -> nth_error tr a = Some (ERel i k) -> nth_error tr b = Some (EAcq j k') ->
    syncs (wlock k) (wlock k') -> hb tr a b
| hb_trans : forall a b c, hb tr a b -> hb tr b c -> hb tr a c.

(** positions [a] and [b] hold accesses of two goroutines to one location, one of them a write, and
    neither happens before the other *)
Definition race (tr : list ev) (a b : nat) : Prop :=
  exists i k w j k' w' l, nth_error tr a = Some (EAcc i k w l) /\ nth_error tr b = Some (EAcc j k' w' l) /\
    i <> j /\ w || w' = true /\ ~ hb tr a b /\ ~ hb tr b a.
End AccessConc.
Arguments apc : clear implicits.
Arguments agor : clear implicits.
Arguments astate : clear implicits.
Arguments ev : clear implicits.
