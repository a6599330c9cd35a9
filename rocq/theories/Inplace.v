(** [Negative] and [Apply] in place with a matrix of the caller's own type, whose Map iterator does as it likes with the function it is given.

    Simplifications: the number of rounds of the iterator (of times HasNext says true) does not depend on what the rounds do;
    HasNext does not panic.  A round may call the function any number of times, with any places and values, or not return. *)
From Verif Require Import GoBase Num SparseVec Csr Csc DenseVec DenseMat Mat World Ops Spec Api ApplyMem MaskMem Foreign Sink Shared.
Import ListNotations.

Section Inplace.
Context {N : num} {St : Type}.
Notation V := (T N).
Notation MS := (@MS N St).
Notation smask := (smask St).
Notation unary := (@unary N St).
Notation thing := (thing St).

(** the functions given to [iterator.Map] (map.go:11-17) *)
Definition callback : Type := Z -> Z -> V -> St -> St * res V.
(** a matrix of the caller's as seen through Rows, Columns and Map (matrix.go:11-91, map.go:11-17): what each [iterator.Map(f)] does with [f] *)
Record walker : Type := MkWalker { wk_Rows : Z; wk_Columns : Z; wk_rounds : list (callback -> thing) }.

(** one [iterator.Map(f)] (map.go:11-17) *)
Definition wk_Map (rd : callback -> thing) (f : callback) : MS unit := fun st w => let '(st', x) := rd f st in (st', w, x).
(** the prologue (operators.go:324-334 and 370-380); see [b_check] (Shared.v) *)
Definition wk_check (q : smask) (out : walker) : MS unit :=
  if negb (sm_Rows q =? wk_Rows out) then slift mpanic
  else if negb (sm_Columns q =? wk_Columns out) then slift mpanic else sret tt.
(** the loops operators.go:337-350 and 382-395 *)
Fixpoint wk_loop (E : env) (l : list (callback -> thing)) (f : callback) : MS (option unit) :=
  match l with
  | [] => sret None
  | rd :: rest =>
      let$ d := slift (poll E) in
      if d : bool then sret (Some tt)
      else let$ _ := wk_Map rd f in wk_loop E rest f
  end.

(** operators.go:387-393 *)
Definition neg_function (q : smask) : callback := fun r c value st =>
  match sm_Element q st r c with
  | (st', Ok e) => (st', Ok (if negb e then nneg value else value))
  | (st', Panic) => (st', Panic)
  | (st', Diverge) => (st', Diverge)
  end.
(** operators.go:342-348 *)
Definition apply_function (q : smask) (u : unary) : callback := fun r c value st =>
  match sm_Element q st r c with
  | (st', Ok e) => if e : bool then u st' value else (st', Ok value)
  | (st', Panic) => (st', Panic)
  | (st', Diverge) => (st', Diverge)
  end.
(** operators.go:369-396 [Negative]: the operand is not used *)
Definition NegativeW (E : env) (q : smask) (out : walker) : MS unit :=
  let$ _ := wk_check q out in
  let$ _ := wk_loop E (wk_rounds out) (neg_function q) in
  sret tt.
(** operators.go:323-353 [Apply], with the output as its input *)
Definition ApplyW (E : env) (q : smask) (u : unary) (out : walker) : MS unit :=
  let$ _ := wk_check q out in
  let$ _ := wk_loop E (wk_rounds out) (apply_function q u) in
  sret tt.

(** ** Specification *)

(** the function that asks the mask about the place, and then gives the image under [yes] for a covered place, under [no] for another *)
Definition as_told (q : smask) (yes no : unary) : callback := fun r c v st =>
  let '(st', b) := sm_Element q st r c in
  match b with Ok true => yes st' v | Ok false => no st' v | Panic => (st', Panic) | Diverge => (st', Diverge) end.
Definition keep : unary := fun st v => (st, Ok v).
Definition negate : unary := fun st v => (st, Ok (nneg v)).
Definition wk_fits (q : smask) (out : walker) : Prop := sm_Rows q = wk_Rows out /\ sm_Columns q = wk_Columns out.
End Inplace.
Arguments walker : clear implicits.
Arguments callback : clear implicits.

(** a matrix of the caller's that keeps one value for each place, and whose iterator visits the places [ps]: each round gives the
    value at the place to the function and stores the result there *)
Definition table (N : num) : Type := Z -> Z -> T N.
Definition visit {N : num} (p : Z * Z) : callback N (table N) -> thing (table N) := fun f st =>
  let '(r, c) := p in
  match f r c (st r c) st with
  | (st', Ok x) => ((fun i j => if (i =? r) && (j =? c) then x else st' i j), Ok tt)
  | (st', Panic) => (st', Panic)
  | (st', Diverge) => (st', Diverge)
  end.
Definition tabled {N : num} (R C : Z) (ps : list (Z * Z)) : walker N (table N) := MkWalker R C (map visit ps).
(** a mask that covers the places [cov], and a function without memory *)
Definition covering {N : num} (R C : Z) (cov : Z -> Z -> bool) : smask (table N) := MkSMask R C (fun st r c => (st, Ok (cov r c))).
Definition plainly {N : num} (u : T N -> T N) : @unary N (table N) := fun st v => (st, Ok (u v)).
