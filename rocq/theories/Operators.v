(** The built-in operators (binaryop/operators.go, operators/*.go) and the monoids made
    from them (binaryop/monoID.go, default.go). *)
From Verif Require Import GoBase Num SparseVec Csr Csc DenseVec DenseMat Mat World Ops.

Section Operators.
Context {N : num}.
Notation V := (T N).

(** binaryop/operators.go:13-17, operators/other.go:14-18 [FirstArgument] *)
Definition FirstArgument (in1 in2 : V) : V := in1.
(** binaryop/operators.go:20-24, operators/other.go:21-25 [SecondArgument] *)
Definition SecondArgument (in1 in2 : V) : V := in2.
(** binaryop/operators.go:27-34, operators/other.go:28-36 [Minimum] *)
Definition Minimum (in1 in2 : V) : V := if nltb in1 in2 then in1 else in2.
(** binaryop/operators.go:37-45, operators/other.go:39-47 [Maximum] *)
Definition Maximum (in1 in2 : V) : V := if ngtb in1 in2 then in1 else in2.
(** binaryop/operators.go:48-52, operators/arithmetic.go:14-18 [Addition] *)
Definition Addition (in1 in2 : V) : V := nadd in1 in2.
(** binaryop/operators.go:55-59, operators/arithmetic.go:21-25 [Subtraction] *)
Definition Subtraction (in1 in2 : V) : V := nsub in1 in2.
(** binaryop/operators.go:62-66, operators/arithmetic.go:28-32 [Multiplication] *)
Definition Multiplication (in1 in2 : V) : V := nmul in1 in2.
(** binaryop/operators.go:69-73, operators/arithmetic.go:35-39 [Division] *)
Definition Division (in1 in2 : V) : res V := ndiv in1 in2.

(** operators/comparison.go:14-53: [Equal], [NotEqual], [GreaterThan], [LessThan] *)
Definition OpEqual (in1 in2 : V) : bool := neqb in1 in2.
(** operators/comparison.go:21-25 *)
Definition OpNotEqual (in1 in2 : V) : bool := negb (neqb in1 in2).
(** operators/comparison.go:28-32 *)
Definition OpGreaterThan (in1 in2 : V) : bool := ngtb in1 in2.
(** operators/comparison.go:35-39 *)
Definition OpLessThan (in1 in2 : V) : bool := nltb in1 in2.
(** operators/comparison.go:42-53 [GreaterThanOrEqual], [LessThanOrEqual]: for a type with NaN these are not the negations of [<] and [>] *)
Definition OpGreaterThanOrEqual (in1 in2 : V) : bool := ngtb in1 in2 || neqb in1 in2.
(** operators/comparison.go:49-53 *)
Definition OpLessThanOrEqual (in1 in2 : V) : bool := nltb in1 in2 || neqb in1 in2.
End Operators.

(** operators/boolean.go:14-16 [LOR], 19-21 [LAND], 24-26 [LXOR], 29-31 [LogicalInverse] *)
Definition LOR (in1 in2 : bool) : bool := in1 || in2.
(** operators/boolean.go:19-21 *)
Definition LAND (in1 in2 : bool) : bool := in1 && in2.
(** operators/boolean.go:24-26 *)
Definition LXOR (in1 in2 : bool) : bool := negb (Bool.eqb in1 in2).
(** operators/boolean.go:29-31 *)
Definition LogicalInverse (in1 : bool) : bool := negb in1.

(** binaryop/monoID.go:34-50 [Reduce], the value it delivers for the sequence received
    before done: a left fold from the unit (ReduceConc.v models the goroutine) *)
Definition Reduce {A} (op : A -> A -> A) (unit : A) (l : list A) : A := fold_left op l unit.

(** default.go:20-30 [DefaultMonoIDAddition], [DefaultMonoIDMaximum] are in Ops.v; these
    are the operators given to them (binaryop/monoID.go:29-31 [NewMonoID]) *)
Definition NewMonoID {N : num} (unit : T N) (op : T N -> T N -> T N) : @monoid N := MkMonoid unit (fun x y => Ok (op x y)).
