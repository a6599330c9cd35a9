(** [Apply] with a function that is not pure: it may keep memory from one call to the next (a counter, a random number
    generator, a log) and it may panic or not return.  In Ops.v the function is pure. *)
From Coq Require Import String.
From Verif Require Import GoBase Num SparseVec Csr Csc DenseVec DenseMat Mat World Ops Spec Api.

Section ApplyMem.
Context {N : num} {St : Type}.
Notation V := (T N).
Notation mat := (mat N).
Notation ent := (Z * Z * V)%type.
Notation world := (world N).
Notation M := (M N).
Implicit Types w : world.
Implicit Types m : mat.

(** ** The program *)

(** a computation that may also change the memory of the function, a [St] *)
Definition MS (A : Type) : Type := St -> world -> St * world * res A.
Definition sret {A} (a : A) : MS A := fun st w => (st, w, Ok a).
Definition sbind {A B} (x : MS A) (f : A -> MS B) : MS B := fun st w =>
  match x st w with
  | (st', w', Ok a) => f a st' w'
  | (st', w', Panic) => (st', w', Panic)
  | (st', w', Diverge) => (st', w', Diverge)
  end.
(** the library's own code does not touch the memory *)
Definition slift {A} (x : M A) : MS A := fun st w => let '(w', a) := x w in (st, w', a).

Notation "'let$' x ':=' a 'in' b" := (sbind a (fun x => b)) (at level 200, x name, a at level 100, b at level 200).
Notation "'let$' ' x ':=' a 'in' b" := (sbind a (fun x => b)) (at level 200, x pattern, a at level 100, b at level 200).

(** unaryop/unaryOp.go:10-30 [UnaryOp], [Apply]: the function of the program; it does not call the library *)
Definition unary : Type := St -> V -> St * res V.
Definition u_Apply (u : unary) (v : V) : MS V := fun st w => let '(st', x) := u st v in (st', w, x).

(** operators.go:355-365, the loop over another matrix; see [enum_loop] (World.v) *)
Fixpoint apply_out_loop (E : env) (fuel : nat) (in_ : ptr) (it : iter) (k : mask) (u : unary) (matrix : ptr) : MS unit :=
  if mat_HasNext it then
    match fuel with
    | O => slift mdiverge
    | S fuel' =>
        let$ d := slift (poll E) in
        if d then sret tt
        else
          let$ m := slift (load in_) in
          let$ '(r, c, value, it') := slift (mlift (mat_Next m it)) in
          let$ e := slift (mask_Element k r c) in
          let$ _ := (if negb e then let$ x := u_Apply u value in slift (p_Set matrix c r x) else sret tt) in
          apply_out_loop E fuel' in_ it' k u matrix
    end
  else sret tt.

(** operators.go:342-348, one call of [iterator.Map]; see [map_step] (World.v) *)
Definition apply_in_step (p : ptr) (it : iter) (k : mask) (u : unary) : MS iter :=
  let$ m := slift (load p) in
  let$ it' := slift (mlift (mat_next m it)) in
  let$ '(r, c, v) := slift (mlift (mat_cur m it')) in
  let$ e := slift (mask_Element k r c) in
  let$ x := (if e : bool then u_Apply u v else sret v) in
  let$ m1 := slift (load p) in
  let$ m' := slift (mlift (mat_map_put m1 it' x)) in
  let$ _ := slift (store p m') in sret it'.

(** operators.go:337-350, the loop in place; see [map_loop] (World.v) *)
Fixpoint apply_in_loop (E : env) (fuel : nat) (p : ptr) (it : iter) (k : mask) (u : unary) : MS unit :=
  if mat_HasNext it then
    match fuel with
    | O => slift mdiverge
    | S fuel' =>
        let$ d := slift (poll E) in
        if d then sret tt
        else let$ it' := apply_in_step p it k u in apply_in_loop E fuel' p it' k u
    end
  else sret tt.

(** operators.go:323-366 [Apply] *)
Definition ApplyS (E : env) (in_ : ptr) (k : mask) (u : unary) (matrix : ptr) : MS unit :=
  let$ k := slift (check_mask k matrix) in
  let$ m := slift (load in_) in
  if Nat.eqb in_ matrix then apply_in_loop E (e_fuel E) in_ (mat_iterator m) k u
  else apply_out_loop E (e_fuel E) in_ (mat_iterator m) k u matrix.

(** ** Specification *)

(** the elements a loop over [l] gets to, if it asks the context once before each *)
Definition reached (E : env) w (l : list ent) : list ent :=
  match e_ctx E with None => l | Some n => firstn (n - w_polls w) l end.

(** the elements at places where [cov] says [b] *)
Definition chosen (cov : Z -> Z -> bool) (b : bool) (l : list ent) : list ent :=
  filter (fun e => Bool.eqb (cov (fst (fst e)) (snd (fst e))) b) l.

(** calling [u] for one element after the other until a call does not return: the memory afterwards, the results with
    their places, and how the last call ended *)
Fixpoint calls (u : unary) (st : St) (l : list ent) : St * list ent * res unit :=
  match l with
  | [] => (st, [], Ok tt)
  | e :: rest =>
      match u st (snd e) with
      | (st', Ok x) => let '(st2, xs, o) := calls u st' rest in (st2, (fst e, x) :: xs, o)
      | (st', Panic) => (st', [], Panic)
      | (st', Diverge) => (st', [], Diverge)
      end
  end.

(** the last result for a place *)
Fixpoint answer (xs : list ent) (r c : Z) : option V :=
  match xs with
  | [] => None
  | e :: rest =>
      match answer rest r c with
      | Some x => Some x
      | None => if (fst (fst e) =? r) && (snd (fst e) =? c) then Some (snd e) else None
      end
  end.

(** [u] never makes zero of something else *)
Definition makes_no_zero (u : unary) : Prop :=
  forall st v st' x, u st v = (st', Ok x) -> neqb v n0 = false -> neqb x n0 = false.

End ApplyMem.
Arguments unary N St : clear implicits.
