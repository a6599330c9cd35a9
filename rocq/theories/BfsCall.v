(** Breadth-first search with a callback that does more than look: it may have captured
    variables, call the API, change the vector it is shown and the graph, keep the vector,
    and panic (breadthfirst/breadthFirst.go). *)
From Verif Require Import GoBase Num SparseVec Csr Csc DenseVec DenseMat Mat World Ops Spec Api Bfs BfsProofs.

Section BfsCall.
Context {N : num}.
Notation V := (T N).
Notation mat := (mat N).
Notation world := (world N).
Notation M := (M N).
Context {St : Type}.

(** ** The program *)

(** what is recorded of a round (not part of the Go code): the graph, the vector shown, the
    vector as the callback left it, and its answer *)
Record round : Type := MkRound { r_graph : mat; r_shown : mat; r_left : mat; r_answer : bool }.

(** breadthfirst/breadthFirst.go:30-43, the loop with [k] rounds left.  [c st q]: the
    callback with captured variables [st] is given the vector [q]. *)
Fixpoint search_loopM (E : env) (a : ptr) (c : St -> ptr -> M (bool * St)) (visited result : ptr) (k : nat) (st : St) (frontier : ptr)
    : M (St * list round) :=
  match k with
  | O => mret (st, [])
  | S k' =>
      let! g := load a in
      MatrixVectorMultiply E a frontier (MObj visited) result ;!;
      let! x := load result in
      let! '(b, st1) := c st result in
      let! y := load result in
      if (b : bool) then mret (st1, [MkRound g x y true])
      else
        ElementWiseVectorAdd E visited result MNil visited ;!;
        let! frontier' := p_Copy result in
        p_Clear result ;!;
        let! '(st2, rest) := search_loopM E a c visited result k' st1 frontier' in
        mret (st2, MkRound g x y false :: rest)
  end.

(** breadthfirst/breadthFirst.go:16-46 [Search] *)
Definition SearchM (E : env) (a : ptr) (s : Z) (c : St -> ptr -> M (bool * St)) (st : St) : M (ptr * St * list round) :=
  let! n := p_Rows a in
  let! f := mlift (newDenseVector n) in
  let! frontier := alloc (MDV f) in
  p_SetVec frontier s n1 ;!;
  let! visited := p_Copy frontier in
  let! r := mlift (newDenseVector n) in
  let! result := alloc (MDV r) in
  let! '(st1, tr) := search_loopM E a c visited result (Z.to_nat n) st frontier in
  mret (result, st1, tr).

(** ** Specification *)

(** a dense vector of length [n]; a matrix of size [n] x [n] *)
Definition vector_of (n : Z) (m : mat) : Prop := exists d, m = MDV d /\ dv_l d = n.
Definition graph_of (n : Z) (m : mat) : Prop := exists f, denotes m n n f.

(** [knows st p]: the callback can get at object [p].  When called with the vector [q] in
    world [w] it changes only objects it knows and [q], and makes new ones; afterwards it
    knows no others than these.  The vector keeps its length and the graph [a] its size.
    [inv q st w]: anything that holds whenever it is called with [q] and is preserved by
    it; it concerns only objects the callback knows, other than [q]. *)
Record confined (a : ptr) (n : Z) (knows : St -> ptr -> Prop) (inv : ptr -> St -> world -> Prop)
    (c : St -> ptr -> M (bool * St)) : Prop := {
  cf_call : forall st q x G (w w' : world) b st', reachable w -> a <> q -> obj w q x -> vector_of n x -> obj w a G -> graph_of n G ->
    inv q st w -> (forall p, knows st p -> exists y, obj w p y) -> c st q w = (w', Ok (b, st')) ->
    reachable w' /\ (exists x', obj w' q x' /\ vector_of n x') /\ (exists G', obj w' a G' /\ graph_of n G') /\
    (forall p y, obj w p y -> exists z, obj w' p z /\ (knows st p \/ p = q \/ z = y)) /\
    (forall p, knows st' p -> (exists y, obj w' p y) /\ (knows st p \/ p = q \/ forall y, ~ obj w p y)) /\
    inv q st' w';
  cf_stable : forall q st (w w' : world), inv q st w ->
    (forall p y, knows st p -> p <> q -> obj w p y -> obj w' p y) -> inv q st w' }.

(** the next level, from the graph [g], the marks [vis] and the level before, [lev] *)
Definition next_level (g : Z -> Z -> V) (n : Z) (vis lev : Z -> V) (i : Z) : V :=
  if ngtb (vis i) n0 then n0 else sum_from n0 (fun l => nmul (g i l) (lev l)) 0 n.
Definition marks (vis lev : Z -> V) (i : Z) : V := if neqb (lev i) n0 then vis i else lev i.

(** every vector shown is computed from what the callback left in the vector before, from
    the marks of all that was left before, and from the graph as it is then *)
Fixpoint goes_on (n : Z) (vis lev : Z -> V) (tr : list round) : Prop :=
  match tr with
  | [] => True
  | r :: rest => exists g y, denotes (r_graph r) n n g /\
      vdenotes (r_shown r) n (next_level (seen_graph (r_graph r) n g) n vis lev) /\
      vdenotes (r_left r) n y /\ goes_on n (marks vis y) y rest
  end.

(** the rounds are calls of [c] with the same vector [q], each with the captured variables
    as the one before left them; from [st] to [st'] *)
Fixpoint called (a : ptr) (n : Z) (q : ptr) (inv : ptr -> St -> world -> Prop) (c : St -> ptr -> M (bool * St)) (st : St) (tr : list round) (st' : St) : Prop :=
  match tr with
  | [] => st' = st
  | r :: rest => exists w w' st1, reachable w /\ inv q st w /\ obj w a (r_graph r) /\ obj w q (r_shown r) /\ vector_of n (r_shown r) /\
      c st q w = (w', Ok (r_answer r, st1)) /\ obj w' q (r_left r) /\ called a n q inv c st1 rest st'
  end.

Definition source (s : Z) : Z -> V := fun i => if i =? s then n1 else n0.

(** only the last answer can be yes; then the result is what the callback left; otherwise
    there were [n] rounds and the result is zero *)
Definition answered (n : Z) (tr : list round) (res : mat) : Prop :=
  (exists tr0 r, tr = tr0 ++ [r] /\ (length tr <= Z.to_nat n)%nat /\ Forall (fun r => r_answer r = false) tr0 /\ r_answer r = true /\ res = r_left r) \/
  (length tr = Z.to_nat n /\ Forall (fun r => r_answer r = false) tr /\ vdenotes res n (fun _ => n0)).

End BfsCall.
Arguments round : clear implicits.
