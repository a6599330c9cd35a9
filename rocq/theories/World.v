(** The program state the operators work on: a heap of matrices, contexts, and
    a state monad that keeps the state when the code panics. *)
From Coq Require Import String.
From Verif Require Import GoBase Num SparseVec Csr Csc DenseVec DenseMat Mat.

(** A pointer to a matrix object. (what an interface value of matrix.go:57-91 holds) *)
Definition ptr := nat.
#[global] Bind Scope nat_scope with ptr.

(** What an operator call is given besides its operands (the parameters of
    operators.go:19-646; the registry of matrixRegistry.go:15).
    - [e_ctx]: the context; [None] is never cancelled ([context.Background()]),
      [Some k] is found cancelled by every [<-ctx.Done()] test from the k-th on.
      (Once done, a Go context stays done.)
    - [e_reg]: the sparse-type registry.
    - [e_fuel]: how many rounds an iterator loop may run before the model calls
      it divergent; theorems hold for all sufficiently large fuel. *)
Record env : Type := MkEnv {
  e_ctx : option nat;
  e_reg : list string;
  e_fuel : nat;
}.

(** [context.Background()] (as passed by the methods, e.g. csrMatrix.go:255) *)
Definition bg (E : env) : env := {| e_ctx := None; e_reg := e_reg E; e_fuel := e_fuel E |}.

Section World.
Context {N : num}.
Notation V := (T N).

(** all matrices and vectors there are, and how often a context has been tested; no counterpart in the code *)
Record world : Type := MkWorld {
  w_heap : list (mat N);
  w_polls : nat;   (* how often a cancellable context has been tested *)
}.

(** a piece of Go code: from the state before to the state after and the outcome *)
Definition M (A : Type) : Type := world -> world * res A.

(** [return a] *)
Definition mret {A} (a : A) : M A := fun w => (w, Ok a).
(** [log.Panicf], which panics after logging *)
Definition mpanic {A} : M A := fun w => (w, Panic).
(** a loop or a channel operation that never ends *)
Definition mdiverge {A} : M A := fun w => (w, Diverge).
(** [m; k] *)
Definition mbind {A B} (m : M A) (k : A -> M B) : M B := fun w =>
  match m w with
  | (w', Ok a) => k a w'
  | (w', Panic) => (w', Panic)
  | (w', Diverge) => (w', Diverge)
  end.
(** a computation that does not touch the state *)
Definition mlift {A} (x : res A) : M A := fun w => (w, x).

End World.
Arguments world : clear implicits.
Arguments M : clear implicits.

Notation "'let!' x ':=' m 'in' k" := (mbind m (fun x => k))
  (at level 200, x name, m at level 100, k at level 200).
Notation "'let!' ' p ':=' m 'in' k" := (mbind m (fun p => k))
  (at level 200, p pattern, m at level 100, k at level 200).
Notation "m1 ;!; m2" := (mbind m1 (fun _ => m2)) (at level 61, right associativity).

Section World2.
Context {N : num}.
Notation V := (T N).
Notation M := (M N).
Notation mat := (mat N).

(** [select { case <-ctx.Done(): ... default: ... }]: is the context done? (e.g.
    operators.go:306-309) *)
Definition poll (E : env) : M bool := fun w =>
  match e_ctx E with
  | None => (w, Ok false)
  | Some k => ({| w_heap := w_heap w; w_polls := S (w_polls w) |},
               Ok (Nat.leb k (w_polls w)))
  end.

(** a dangling pointer (nil) panics (what a method reads through its receiver) *)
Definition load (p : ptr) : M mat := fun w =>
  match nth_error (w_heap w) p with
  | Some m => (w, Ok m)
  | None => (w, Panic)
  end.

(** what a method writes through its receiver *)
Definition store (p : ptr) (m : mat) : M unit := fun w =>
  ({| w_heap := list_set (w_heap w) p m; w_polls := w_polls w |}, Ok tt).

(** [&T{...}] *)
Definition alloc (m : mat) : M ptr := fun w =>
  ({| w_heap := w_heap w ++ [m]; w_polls := w_polls w |}, Ok (length (w_heap w))).

(** Method calls through a pointer. A method that panics leaves the object as it was (each
    storage method checks before it writes). (the methods of matrix.go:10-91) *)
Definition p_Rows (p : ptr) : M Z := let! m := load p in mret (mat_Rows m).
(** see mat_Columns, Mat.v *)
Definition p_Columns (p : ptr) : M Z := let! m := load p in mret (mat_Columns m).
(** see mat_Values, Mat.v *)
Definition p_Values (p : ptr) : M Z := let! m := load p in mret (mat_Values m).
(** see mat_Size, Mat.v *)
Definition p_Size (p : ptr) : M Z := let! m := load p in mret (mat_Size m).
(** see mat_At, Mat.v *)
Definition p_At (p : ptr) (r c : Z) : M V :=
  let! m := load p in
  let! '(v, m') := mlift (mat_At m r c) in
  store p m' ;!; mret v.
(** see mat_Set, Mat.v *)
Definition p_Set (p : ptr) (r c : Z) (v : V) : M unit :=
  let! m := load p in
  let! m' := mlift (mat_Set m r c v) in
  store p m'.
(** see mat_Update, Mat.v *)
Definition p_Update (p : ptr) (r c : Z) (f : V -> V) : M unit :=
  let! m := load p in
  let! m' := mlift (mat_Update m r c f) in
  store p m'.
(** see mat_SetVec, Mat.v *)
Definition p_SetVec (p : ptr) (i : Z) (v : V) : M unit :=
  let! m := load p in
  let! m' := mlift (mat_SetVec m i v) in
  store p m'.
(** see mat_Copy, Mat.v *)
Definition p_Copy (p : ptr) : M ptr :=
  let! m := load p in
  let! m' := mlift (mat_Copy m) in
  alloc m'.
(** see mat_Clear, Mat.v *)
Definition p_Clear (p : ptr) : M unit :=
  let! m := load p in
  let! m' := mlift (mat_Clear m) in
  store p m'.
(** see mat_RowsAt, Mat.v *)
Definition p_RowsAt (p : ptr) (r : Z) : M ptr :=
  let! m := load p in let! v := mlift (mat_RowsAt m r) in alloc v.
(** see mat_ColumnsAt, Mat.v *)
Definition p_ColumnsAt (p : ptr) (c : Z) : M ptr :=
  let! m := load p in let! v := mlift (mat_ColumnsAt m c) in alloc v.
(** see mat_RowsAtToArray, Mat.v *)
Definition p_RowsAtToArray (p : ptr) (r : Z) : M (list V) :=
  let! m := load p in mlift (mat_RowsAtToArray m r).
(** matrixRegistry.go:27-31 *)
Definition p_IsSparse (E : env) (p : ptr) : M bool :=
  let! m := load p in mret (IsSparseMatrix (e_reg E) m).

(** ** Masks (mask.go) *)

(** [MNil]: no mask.  [MEmpty]: [EmptyMask] (mask.go:28-51).  [MObj]: a matrix
    or vector used as mask.  [MUser]: a mask written by the user, with a pure
    [Element]. *)
Inductive mask : Type :=
| MNil
| MEmpty (r c : Z)
| MObj (p : ptr)
| MUser (r c : Z) (f : Z -> Z -> bool).

(** mask.go:14, 44-46 *)
Definition mask_Rows (k : mask) : M Z :=
  match k with
  | MNil => mpanic
  | MEmpty r _ => mret r
  | MObj p => p_Rows p
  | MUser r _ _ => mret r
  end.

(** mask.go:11, 39-41 *)
Definition mask_Columns (k : mask) : M Z :=
  match k with
  | MNil => mpanic
  | MEmpty _ c => mret c
  | MObj p => p_Columns p
  | MUser _ c _ => mret c
  end.

(** mask.go:24, 49-51; a matrix as mask: see mat_Element, Mat.v *)
Definition mask_Element (k : mask) (r c : Z) : M bool :=
  match k with
  | MNil => mpanic
  | MEmpty _ _ => mret false
  | MObj p =>
      let! m := load p in
      let! '(b, m') := mlift (mat_Element m r c) in
      store p m' ;!; mret b
  | MUser _ _ f => mret (f r c)
  end.

(** The prologue shared by the operators, e.g. operators.go:24-34: a nil mask
    becomes an [EmptyMask] of the output's size; a size mismatch panics. *)
Definition check_mask (k : mask) (out : ptr) : M mask :=
  let! r := p_Rows out in
  let! c := p_Columns out in
  let k := match k with MNil => MEmpty r c | _ => k end in
  let! kr := mask_Rows k in
  if negb (kr =? r) then mpanic
  else
    let! kc := mask_Columns k in
    if negb (kc =? c) then mpanic
    else mret k.

(** ** Loops *)

(** [for i := a; i < b; i++ { body }] with early return ([Some]) (e.g. operators.go:36-58)
    *)
Fixpoint for_list {R I} (is_ : list I) (body : I -> M (option R)) : M (option R) :=
  match is_ with
  | [] => mret None
  | i :: rest =>
      let! o := body i in
      match o with
      | Some r => mret (Some r)
      | None => for_list rest body
      end
  end.

(** [for it := p.Enumerate(); it.HasNext(); { select { case <-ctx.Done(): return onCancel;
    default: r, c, v := it.Next(); body } }]; [Some] is an early return (e.g.
    operators.go:305-317) *)
Fixpoint enum_loop {R} (E : env) (fuel : nat) (p : ptr) (it : iter) (onCancel : R)
    (body : Z -> Z -> V -> M (option R)) : M (option R) :=
  if mat_HasNext it then
    match fuel with
    | O => mdiverge
    | S fuel' =>
        let! d := poll E in
        if d then mret (Some onCancel)
        else
          let! m := load p in
          let! '(r, c, v, it') := mlift (mat_Next m it) in
          let! o := body r c v in
          match o with
          | Some x => mret (Some x)
          | None => enum_loop E fuel' p it' onCancel body
          end
    end
  else mret None.

(** the whole loop, with a new iterator *)
Definition enumerate {R} (E : env) (p : ptr) (onCancel : R)
    (body : Z -> Z -> V -> M (option R)) : M (option R) :=
  let! m := load p in
  enum_loop E (e_fuel E) p (mat_iterator m) onCancel body.

(** one call of [iterator.Map(f)], e.g. csrMatrix.go:392-401: move, apply [f] to
    the current element, write the result back *)
Definition map_step (p : ptr) (it : iter) (f : Z -> Z -> V -> M V) : M iter :=
  let! m := load p in
  let! it' := mlift (mat_next m it) in
  let! '(r, c, v) := mlift (mat_cur m it') in
  let! v' := f r c v in
  let! m := load p in
  let! m' := mlift (mat_map_put m it' v') in
  store p m' ;!; mret it'.

(** [for it := p.Map(); it.HasNext(); { select { case <-ctx.Done(): X; default: it.Map(f) }
    }] where X is [return] ([stop = true]) or a [break] that only leaves the select ([stop =
    false]) (e.g. operators.go:559-568) *)
Fixpoint map_loop (E : env) (stop : bool) (fuel : nat) (p : ptr) (it : iter)
    (f : Z -> Z -> V -> M V) : M unit :=
  if mat_HasNext it then
    match fuel with
    | O => mdiverge
    | S fuel' =>
        let! d := poll E in
        if d then (if stop then mret tt else map_loop E stop fuel' p it f)
        else
          let! it' := map_step p it f in
          map_loop E stop fuel' p it' f
    end
  else mret tt.

(** the whole loop, with a new iterator *)
Definition map_over (E : env) (stop : bool) (p : ptr) (f : Z -> Z -> V -> M V) : M unit :=
  let! m := load p in
  map_loop E stop (e_fuel E) p (mat_iterator m) f.

End World2.
