(** Contexts and the blocking mode (context.go). *)
From Verif Require Import GoBase.

(** context.go:8-15: [Mode] is [int]; Blocking is 0, NonBlocking is 1 *)
Definition Blocking : Z := 0.
(** context.go:10-15 *)
Definition NonBlocking : Z := 1.

(** [context.Context] values: the standard library's, [*graphContect] (context.go:23-27),
    and any other implementation that embeds a context *)
Inductive ctx : Type :=
| CNil                              (* a nil interface *)
| CBackground                       (* context.Background(), context.TODO() *)
| CCancel (id : nat) (parent : ctx) (* WithCancel, WithDeadline, WithTimeout; [id] identifies the cancel signal *)
| CValue (parent : ctx)             (* WithValue *)
| CGraph (parent : ctx) (mode : Z)  (* *graphContect *)
| COther (parent : ctx).            (* a foreign type that embeds a context *)

(** context.go:30-32 [NewContext] *)
Definition NewContext (c : ctx) (mode : Z) : ctx := CGraph c mode.
(** context.go:34-36 [Mode] *)
Definition graph_Mode (c : ctx) : res Z := match c with CGraph _ m => Ok m | _ => Panic end.
(** context.go:39-45 [BlockingMode]: a type assertion on the outermost value *)
Definition BlockingMode (c : ctx) : Z * bool :=
  match c with
  | CGraph _ m => (m, true)
  | _ => (Blocking, false)
  end.

(** is the channel returned by [Done] closed once the signals [fired] have been given?  A
    method call on a nil interface panics; [*graphContect] and other embedding types hand
    the call on to the embedded context.  The standard library's [WithCancel] and
    [WithValue] reject a nil parent. *)
Fixpoint done (fired : nat -> bool) (c : ctx) : res bool :=
  match c with
  | CNil => Panic
  | CBackground => Ok false
  | CCancel id p => d <- done fired p ;; Ok (fired id || d)
  | CValue p | CGraph p _ | COther p => done fired p
  end.
