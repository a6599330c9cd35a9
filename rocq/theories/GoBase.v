(** Base layer: outcomes of Go code and checked slice operations.

    A Go call either returns a value ([Ok]), panics ([Panic]: [log.Panicf], an
    out-of-range slice index, [make] with a negative length, a division by
    zero), or never returns ([Diverge]: an infinite loop or an eternal block). *)
From Coq Require Export List ZArith Lia Bool.
Export ListNotations.
#[global] Open Scope Z_scope.

Inductive res (A : Type) : Type :=
| Ok (a : A)
| Panic
| Diverge.
Arguments Ok {A} a.
Arguments Panic {A}.
Arguments Diverge {A}.

Definition rbind {A B : Type} (m : res A) (k : A -> res B) : res B :=
  match m with
  | Ok a => k a
  | Panic => Panic
  | Diverge => Diverge
  end.

Notation "x <- m ;; k" := (rbind m (fun x => k))
  (at level 61, m at next level, right associativity).
Notation "' p <- m ;; k" := (rbind m (fun p => k))
  (at level 61, p pattern, m at next level, right associativity).

Definition rmap {A B : Type} (f : A -> B) (m : res A) : res B :=
  x <- m ;; Ok (f x).

(** [len(s)] *)
Definition zlen {A : Type} (l : list A) : Z := Z.of_nat (length l).

(** [s[i]] as an expression: panics when the index is out of range. *)
Definition zget {A : Type} (l : list A) (i : Z) : res A :=
  if i <? 0 then Panic
  else match nth_error l (Z.to_nat i) with
       | Some x => Ok x
       | None => Panic
       end.

Fixpoint list_set {A : Type} (l : list A) (n : nat) (x : A) : list A :=
  match l, n with
  | [], _ => []
  | _ :: t, O => x :: t
  | y :: t, S m => y :: list_set t m x
  end.

(** [s[i] = x] *)
Definition zset {A : Type} (l : list A) (i : Z) (x : A) : res (list A) :=
  if (i <? 0) || (zlen l <=? i) then Panic
  else Ok (list_set l (Z.to_nat i) x).

(** [s[:p]]: Go allows [p] up to the capacity of [s]; the model panics as soon
    as [p] exceeds the length (the code never relies on the slack). *)
Definition slice_to {A : Type} (l : list A) (p : Z) : res (list A) :=
  if (p <? 0) || (zlen l <? p) then Panic
  else Ok (firstn (Z.to_nat p) l).

(** [s[p:]] *)
Definition slice_from {A : Type} (l : list A) (p : Z) : res (list A) :=
  if (p <? 0) || (zlen l <? p) then Panic
  else Ok (skipn (Z.to_nat p) l).

(** [make([]A, n)] with zero value [x] *)
Definition make_slice {A : Type} (x : A) (n : Z) : res (list A) :=
  if n <? 0 then Panic else Ok (repeat x (Z.to_nat n)).

(** Iterate a state-passing body over a list of loop indices. *)
Fixpoint rfold {S I : Type} (body : S -> I -> res S) (s : S) (is_ : list I) : res S :=
  match is_ with
  | [] => Ok s
  | i :: rest => s' <- body s i ;; rfold body s' rest
  end.

(** [for i := a; i < b; i++]: the list of loop indices. *)
Definition zrange (a b : Z) : list Z :=
  map (fun k => a + Z.of_nat k) (seq 0 (Z.to_nat (b - a))).
