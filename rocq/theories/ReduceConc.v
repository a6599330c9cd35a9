(** The goroutines of [ReduceMatrixToScalarWithMonoID] (operators.go:609-646) and
    of [monoID.Reduce] (binaryop/monoID.go:34-50), step by step.

    Three goroutines (the caller, the reducer started by [monoID.Reduce], the
    producer started at operators.go:629) communicate over three unbuffered
    channels [slice], [done] and [out].  A state holds where each goroutine stands,
    which channels are closed, and whether the context is done; [step] is one atomic
    action of one goroutine, or of two when they meet on an unbuffered channel
    (The Go specification: "the communication succeeds only when both a sender and
    receiver are ready"), or the cancellation of the context by somebody else.
    Receiving from a closed channel succeeds at once with the zero value; sending on
    a closed channel and any panic in a goroutine other than the caller's ends the
    process ([Crashed]).  An execution is any sequence of steps, so all
    interleavings are covered.

    Simplifications: the heap is not changed by anyone else during the call (no
    other goroutine writes to the matrix or the mask meanwhile); memory-model
    effects beyond that do not arise, the goroutines share no other variable.  *)
From Verif Require Import GoBase Num SparseVec Csr Csc DenseVec DenseMat Mat World Ops.

Section Conc.
Context {N : num}.
Notation V := (T N).
Notation world := (world N).

(** where the caller stands (operators.go:609-645) *)
Inductive caller : Type :=
| CReduce                 (* operators.go:615: about to call monoID.Reduce *)
| CMask                   (* 617-627: about to check the mask *)
| CSpawn (k : mask)       (* 629: about to start the producer *)
| CRecv                   (* 644: waiting on <-out *)
| CCloseDone (v : V)      (* returning v; deferred close(done), 613 *)
| CCloseSlice (v : V)     (* deferred close(slice), 612 *)
| CReturned (v : V)
| CPanicDone              (* panicking at 622 or 626; deferred close(done) *)
| CPanicSlice             (* panicking; deferred close(slice) *)
| CPanicked.

(** where the producer stands (operators.go:629-642); [k] is the mask it uses *)
Inductive producer : Type :=
| PNone                                            (* not started *)
| PHead (k : mask) (it : iter)                     (* 630: about to test HasNext *)
| PSelect (k : mask) (it : iter)                   (* 631: at the select on ctx.Done() *)
| PNext (k : mask) (it : iter)                     (* 635 *)
| PElement (k : mask) (r c : Z) (v : V) (it : iter)(* 636 *)
| PSend (k : mask) (v : V) (it : iter)             (* 637: sending on slice *)
| PDone                                            (* 641: sending on done *)
| PEnd.

(** where the reducer stands (monoID.go:36-48) *)
Inductive reducer : Type :=
| RNone                   (* not started *)
| RSelect (acc : V)       (* 39: at the select *)
| RApply (acc v : V)      (* 41 *)
| ROut (acc : V)          (* 43: sending on out *)
| RClose                  (* 44: about to close(out) *)
| REnd.

(** the channels and goroutines of operators.go:618-645 and binaryop/monoID.go:34-50 *)
Record state : Type := MkState {
  st_world : world;
  st_caller : caller;
  st_producer : producer;
  st_reducer : reducer;
  st_slice : bool;          (* closed? *)
  st_done : bool;
  st_out : bool;
  st_ctx : bool;            (* context done? *)
  st_crashed : bool;        (* the process died of an unrecovered panic *)
}.

(** the state in which the call starts (operators.go:609) *)
Definition start (w : world) : state :=
  {| st_world := w; st_caller := CReduce; st_producer := PNone; st_reducer := RNone;
     st_slice := false; st_done := false; st_out := false; st_ctx := false; st_crashed := false |}.

(** functional updates *)
Definition with_caller (x : state) (c : caller) : state :=
  {| st_world := st_world x; st_caller := c; st_producer := st_producer x; st_reducer := st_reducer x;
     st_slice := st_slice x; st_done := st_done x; st_out := st_out x; st_ctx := st_ctx x; st_crashed := st_crashed x |}.
Definition with_producer (x : state) (p : producer) : state :=
  {| st_world := st_world x; st_caller := st_caller x; st_producer := p; st_reducer := st_reducer x;
     st_slice := st_slice x; st_done := st_done x; st_out := st_out x; st_ctx := st_ctx x; st_crashed := st_crashed x |}.
Definition with_reducer (x : state) (r : reducer) : state :=
  {| st_world := st_world x; st_caller := st_caller x; st_producer := st_producer x; st_reducer := r;
     st_slice := st_slice x; st_done := st_done x; st_out := st_out x; st_ctx := st_ctx x; st_crashed := st_crashed x |}.
Definition with_world (x : state) (w : world) : state :=
  {| st_world := w; st_caller := st_caller x; st_producer := st_producer x; st_reducer := st_reducer x;
     st_slice := st_slice x; st_done := st_done x; st_out := st_out x; st_ctx := st_ctx x; st_crashed := st_crashed x |}.
Definition close_done (x : state) : state :=
  {| st_world := st_world x; st_caller := st_caller x; st_producer := st_producer x; st_reducer := st_reducer x;
     st_slice := st_slice x; st_done := true; st_out := st_out x; st_ctx := st_ctx x; st_crashed := st_crashed x |}.
Definition close_slice (x : state) : state :=
  {| st_world := st_world x; st_caller := st_caller x; st_producer := st_producer x; st_reducer := st_reducer x;
     st_slice := true; st_done := st_done x; st_out := st_out x; st_ctx := st_ctx x; st_crashed := st_crashed x |}.
Definition close_out (x : state) : state :=
  {| st_world := st_world x; st_caller := st_caller x; st_producer := st_producer x; st_reducer := st_reducer x;
     st_slice := st_slice x; st_done := st_done x; st_out := true; st_ctx := st_ctx x; st_crashed := st_crashed x |}.
Definition cancel (x : state) : state :=
  {| st_world := st_world x; st_caller := st_caller x; st_producer := st_producer x; st_reducer := st_reducer x;
     st_slice := st_slice x; st_done := st_done x; st_out := st_out x; st_ctx := true; st_crashed := st_crashed x |}.
Definition crash (x : state) : state :=
  {| st_world := st_world x; st_caller := st_caller x; st_producer := st_producer x; st_reducer := st_reducer x;
     st_slice := st_slice x; st_done := st_done x; st_out := st_out x; st_ctx := st_ctx x; st_crashed := true |}.

(** [step s mo k0 can x y]: the call reduces object [s] with monoid [mo] under the mask
    argument [k0]; [can] says whether the context may be cancelled (operators.go:609-646,
    binaryop/monoID.go:34-50) *)
Inductive step (s : ptr) (mo : @monoid N) (k0 : mask) (can : bool) (x : state) : state -> Prop :=
(* --- the caller --- *)
| s_reduce : st_crashed x = false -> st_caller x = CReduce ->
    step s mo k0 can x (with_reducer (with_caller x CMask) (RSelect (mo_unit mo)))
| s_mask_ok : forall k w', st_crashed x = false -> st_caller x = CMask ->
    check_mask k0 s (st_world x) = (w', Ok k) ->
    step s mo k0 can x (with_caller (with_world x w') (CSpawn k))
| s_mask_panic : forall w', st_crashed x = false -> st_caller x = CMask ->
    check_mask k0 s (st_world x) = (w', Panic) ->
    step s mo k0 can x (with_caller (with_world x w') CPanicDone)
| s_spawn : forall k m, st_crashed x = false -> st_caller x = CSpawn k ->
    nth_error (w_heap (st_world x)) s = Some m ->
    step s mo k0 can x (with_producer (with_caller x CRecv) (PHead k (mat_iterator m)))
| s_close_done : forall v, st_crashed x = false -> st_caller x = CCloseDone v ->
    step s mo k0 can x (close_done (with_caller x (CCloseSlice v)))
| s_close_slice : forall v, st_crashed x = false -> st_caller x = CCloseSlice v ->
    step s mo k0 can x (close_slice (with_caller x (CReturned v)))
| s_panic_done : st_crashed x = false -> st_caller x = CPanicDone ->
    step s mo k0 can x (close_done (with_caller x CPanicSlice))
| s_panic_slice : st_crashed x = false -> st_caller x = CPanicSlice ->
    step s mo k0 can x (close_slice (with_caller x CPanicked))
(* --- the producer --- *)
| s_more : forall k it, st_crashed x = false -> st_producer x = PHead k it -> mat_HasNext it = true ->
    step s mo k0 can x (with_producer x (PSelect k it))
| s_no_more : forall k it, st_crashed x = false -> st_producer x = PHead k it -> mat_HasNext it = false ->
    step s mo k0 can x (with_producer x PDone)
| s_ctx_done : forall k it, st_crashed x = false -> st_producer x = PSelect k it -> st_ctx x = true ->
    step s mo k0 can x (with_producer x PEnd)
| s_ctx_default : forall k it, st_crashed x = false -> st_producer x = PSelect k it -> st_ctx x = false ->
    step s mo k0 can x (with_producer x (PNext k it))
| s_next : forall k it m r c v it', st_crashed x = false -> st_producer x = PNext k it ->
    nth_error (w_heap (st_world x)) s = Some m -> mat_Next m it = Ok (r, c, v, it') ->
    step s mo k0 can x (with_producer x (PElement k r c v it'))
| s_next_panic : forall k it m, st_crashed x = false -> st_producer x = PNext k it ->
    nth_error (w_heap (st_world x)) s = Some m -> mat_Next m it = Panic ->
    step s mo k0 can x (crash x)
| s_element : forall k r c v it w' (e : bool), st_crashed x = false -> st_producer x = PElement k r c v it ->
    mask_Element k r c (st_world x) = (w', Ok e) ->
    step s mo k0 can x (with_producer (with_world x w') (if e then PHead k it else PSend k v it))
| s_element_panic : forall k r c v it w', st_crashed x = false -> st_producer x = PElement k r c v it ->
    mask_Element k r c (st_world x) = (w', Panic) ->
    step s mo k0 can x (crash x)
| s_send_closed : forall k v it, st_crashed x = false -> st_producer x = PSend k v it -> st_slice x = true ->
    step s mo k0 can x (crash x)
| s_done_closed : st_crashed x = false -> st_producer x = PDone -> st_done x = true ->
    step s mo k0 can x (crash x)
(* --- producer and reducer meet --- *)
| s_slice : forall k v it acc, st_crashed x = false -> st_producer x = PSend k v it -> st_reducer x = RSelect acc ->
    st_slice x = false ->
    step s mo k0 can x (with_producer (with_reducer x (RApply acc v)) (PHead k it))
| s_done : forall acc, st_crashed x = false -> st_producer x = PDone -> st_reducer x = RSelect acc ->
    st_done x = false ->
    step s mo k0 can x (with_producer (with_reducer x (ROut acc)) PEnd)
(* --- the reducer --- *)
| s_slice_closed : forall acc, st_crashed x = false -> st_reducer x = RSelect acc -> st_slice x = true ->
    step s mo k0 can x (with_reducer x (RApply acc n0))
| s_recv_done_closed : forall acc, st_crashed x = false -> st_reducer x = RSelect acc -> st_done x = true ->
    step s mo k0 can x (with_reducer x (ROut acc))
| s_apply : forall acc v acc', st_crashed x = false -> st_reducer x = RApply acc v -> mo_op mo acc v = Ok acc' ->
    step s mo k0 can x (with_reducer x (RSelect acc'))
| s_apply_panic : forall acc v, st_crashed x = false -> st_reducer x = RApply acc v -> mo_op mo acc v = Panic ->
    step s mo k0 can x (crash x)
| s_close_out : st_crashed x = false -> st_reducer x = RClose ->
    step s mo k0 can x (close_out (with_reducer x REnd))
(* --- reducer and caller meet --- *)
| s_out : forall acc, st_crashed x = false -> st_reducer x = ROut acc -> st_caller x = CRecv ->
    step s mo k0 can x (with_reducer (with_caller x (CCloseDone acc)) RClose)
(* --- the context is cancelled --- *)
| s_cancel : st_crashed x = false -> can = true -> st_ctx x = false ->
    step s mo k0 can x (cancel x).

(** [steps s mo k can n x y]: an execution of [n] steps from [x] to [y] *)
Inductive steps (s : ptr) (mo : @monoid N) (k0 : mask) (can : bool) : nat -> state -> state -> Prop :=
| steps_0 : forall x, steps s mo k0 can 0 x x
| steps_S : forall n x y z, steps s mo k0 can n x y -> step s mo k0 can y z -> steps s mo k0 can (S n) x z.

(** all goroutines of the call have ended and it has returned [v] *)
Definition finished (y : state) (v : V) : Prop :=
  st_caller y = CReturned v /\ st_producer y = PEnd /\ st_reducer y = REnd /\ st_crashed y = false.
(** nobody can move: the producer gave up, the others wait for ever *)
Definition blocked (y : state) : Prop :=
  st_ctx y = true /\ st_caller y = CRecv /\ st_producer y = PEnd /\ (exists acc, st_reducer y = RSelect acc) /\
  st_slice y = false /\ st_done y = false /\ st_crashed y = false.


End Conc.
Arguments state : clear implicits.
Arguments caller : clear implicits.
Arguments producer : clear implicits.
Arguments reducer : clear implicits.
