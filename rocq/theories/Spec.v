(** The specification vocabulary the property theorems are stated in.  It only
    mentions calls of the modelled API and plain mathematical objects. *)
From Coq Require Import Sorting.Sorted.
From Verif Require Import GoBase Num SparseVec Csr Csc DenseVec DenseMat Mat World.

(** what the caller of an operation observes *)
Inductive out {A : Type} : Type :=
| Done
| Value (v : A)
| Flag (b : bool)
| Panics
| Hangs.
Arguments out : clear implicits.

Section Spec.
Context {N : num}.
Notation V := (T N).
Notation mat := (mat N).
Notation out := (out V).

(** [m] is an [R] x [C] matrix whose cell (i,j) is [f i j]: that is what the
    calls [Rows], [Columns] and [At] return, and [At] leaves [m] as it was. *)
Definition denotes (m : mat) (R C : Z) (f : Z -> Z -> V) : Prop :=
  mat_Rows m = R /\ mat_Columns m = C /\
  forall i j, 0 <= i < R -> 0 <= j < C -> mat_At m i j = Ok (f i j, m).

(** storage classes *)
Definition is_sparse_matrix (m : mat) : Prop := match m with MCSR _ | MCSC _ => True | _ => False end.
Definition is_vector (m : mat) : Prop := match m with MDV _ | MSV _ => True | _ => False end.
Definition is_dense (m : mat) : Prop := match m with MDM _ | MDV _ => True | _ => False end.
Definition not_sparse_vector (m : mat) : Prop := match m with MSV _ => False | _ => True end.
(** two objects of the same storage format *)
Definition same_storage (a b : mat) : Prop :=
  match a, b with
  | MCSR _, MCSR _ | MCSC _, MCSC _ | MDM _, MDM _ | MDV _, MDV _ | MSV _, MSV _ => True
  | _, _ => False
  end.
(** the [values] array of a sparse matrix *)
Definition stored_values (m : mat) : list V :=
  match m with MCSR s => csr_values s | MCSC s => csc_values s | _ => [] end.

(** pointer [p] refers to the object [m] *)
Definition obj (w : world N) (p : ptr) (m : mat) : Prop := nth_error (w_heap w) p = Some m.

(** every object of [w] is still there, unchanged, in [w'] *)
Definition extends (w w' : world N) : Prop := forall p m, obj w p m -> obj w' p m.

(** every object of [w] except [t] is still there, unchanged, in [w'] *)
Definition extends_but (t : ptr) (w w' : world N) : Prop :=
  forall p m, p <> t -> obj w p m -> obj w' p m.

(** ** Histories of cell operations on one object *)

Inductive op : Type :=
| OSet (r c : Z) (v : V)
| OUpdate (r c : Z) (f : V -> V)
| OAt (r c : Z)
| OElement (r c : Z)
| OClear.

Definition done_or {A} (m : mat) (x : res A) (k : A -> mat * out) : mat * out :=
  match x with Ok a => k a | Panic => (m, Panics) | Diverge => (m, Hangs) end.

(** perform one operation with the model *)
Definition do_op (m : mat) (o : op) : mat * out :=
  match o with
  | OSet r c v => done_or m (mat_Set m r c v) (fun m' => (m', Done))
  | OUpdate r c f => done_or m (mat_Update m r c f) (fun m' => (m', Done))
  | OAt r c => done_or m (mat_At m r c) (fun p => (snd p, Value (fst p)))
  | OElement r c => done_or m (mat_Element m r c) (fun p => (snd p, Flag (fst p)))
  | OClear => done_or m (mat_Clear m) (fun m' => (m', Done))
  end.

Fixpoint do_ops (m : mat) (os : list op) : mat * list out :=
  match os with
  | [] => (m, [])
  | o :: rest =>
      let '(m1, x) := do_op m o in
      let '(m2, xs) := do_ops m1 rest in
      (m2, x :: xs)
  end.

(** The abstract map.  [keep] says what is remembered of a written value. *)
Definition wrote (keep : V -> V) (g : Z -> Z -> V) (r c : Z) (v : V) : Z -> Z -> V :=
  fun i j => if (i =? r) && (j =? c) then keep v else g i j.

Definition inside (R C r c : Z) : bool := (0 <=? r) && (r <? R) && (0 <=? c) && (c <? C).

Definition map_op (keep : V -> V) (R C : Z) (g : Z -> Z -> V) (o : op) : (Z -> Z -> V) * out :=
  match o with
  | OSet r c v => if inside R C r c then (wrote keep g r c v, Done) else (g, Panics)
  | OUpdate r c f => if inside R C r c then (wrote keep g r c (f (g r c)), Done) else (g, Panics)
  | OAt r c => if inside R C r c then (g, Value (g r c)) else (g, Panics)
  | OElement r c => if inside R C r c then (g, Flag (ngtb (g r c) n0)) else (g, Panics)
  | OClear => ((fun _ _ => n0), Done)
  end.

Fixpoint map_ops (keep : V -> V) (R C : Z) (g : Z -> Z -> V) (os : list op)
    : (Z -> Z -> V) * list out :=
  match os with
  | [] => (g, [])
  | o :: rest =>
      let '(g1, x) := map_op keep R C g o in
      let '(g2, xs) := map_ops keep R C g1 rest in
      (g2, x :: xs)
  end.

(** dense storage remembers the value itself; sparse storage remembers zero for
    every value that compares equal to zero *)
Definition exactly (v : V) : V := v.
Definition zeroed (v : V) : V := if neqb v n0 then n0 else v.

(** what object [m] remembers of a written value *)
Definition kept (m : mat) : V -> V := match m with MDM _ | MDV _ => exactly | _ => zeroed end.

(** [m0] is observationally a map: whatever the history, its operations give the
    outcomes of a map with initial content [g0], and the cells are the map's *)
Definition behaves_as_map (m0 : mat) (keep : V -> V) (R C : Z) (g0 : Z -> Z -> V) : Prop :=
  forall os, let '(m, outs) := do_ops m0 os in
             let '(g, outs') := map_ops keep R C g0 os in
             outs = outs' /\ denotes m R C g.

(** ** Histories of operations on a vector *)

Inductive vop : Type :=
| VSetVec (i : Z) (v : V)
| VAtVec (i : Z)
| VSet (r c : Z) (v : V)
| VUpdate (r c : Z) (f : V -> V)
| VAt (r c : Z)
| VElement (r c : Z)
| VClear.

Definition do_vop (m : mat) (o : vop) : mat * out :=
  match o with
  | VSetVec i v => done_or m (mat_SetVec m i v) (fun m' => (m', Done))
  | VAtVec i => done_or m (mat_AtVec m i) (fun v => (m, Value v))
  | VSet r c v => do_op m (OSet r c v)
  | VUpdate r c f => do_op m (OUpdate r c f)
  | VAt r c => do_op m (OAt r c)
  | VElement r c => do_op m (OElement r c)
  | VClear => do_op m OClear
  end.

Fixpoint do_vops (m : mat) (os : list vop) : mat * list out :=
  match os with
  | [] => (m, [])
  | o :: rest =>
      let '(m1, x) := do_vop m o in
      let '(m2, xs) := do_vops m1 rest in
      (m2, x :: xs)
  end.

Definition vwrote (keep : V -> V) (g : Z -> V) (i : Z) (v : V) : Z -> V :=
  fun j => if j =? i then keep v else g j.

(** the abstract vector of length [L]; [At] looks at its column argument only if
    [chk] is set (it is not for dense vectors), [Element] never does *)
Definition map_vop (keep : V -> V) (chk : bool) (L : Z) (g : Z -> V) (o : vop) : (Z -> V) * out :=
  let ok i := (0 <=? i) && (i <? L) in
  match o with
  | VSetVec i v => if ok i then (vwrote keep g i v, Done) else (g, Panics)
  | VAtVec i => if ok i then (g, Value (g i)) else (g, Panics)
  | VSet r c v => if ok r && (c =? 0) then (vwrote keep g r v, Done) else (g, Panics)
  | VUpdate r c f => if ok r && (c =? 0) then (vwrote keep g r (f (g r)), Done) else (g, Panics)
  | VAt r c => if ok r && (negb chk || (c =? 0)) then (g, Value (g r)) else (g, Panics)
  | VElement r c => if ok r then (g, Flag (ngtb (g r) n0)) else (g, Panics)
  | VClear => ((fun _ => n0), Done)
  end.

Fixpoint map_vops (keep : V -> V) (chk : bool) (L : Z) (g : Z -> V) (os : list vop)
    : (Z -> V) * list out :=
  match os with
  | [] => (g, [])
  | o :: rest =>
      let '(g1, x) := map_vop keep chk L g o in
      let '(g2, xs) := map_vops keep chk L g1 rest in
      (g2, x :: xs)
  end.

(** the vector [v] has length [L] and entries [g], as seen by [AtVec] *)
Definition vdenotes (v : mat) (L : Z) (g : Z -> V) : Prop :=
  mat_Rows v = L /\ mat_Columns v = 1 /\ forall i, 0 <= i < L -> mat_AtVec v i = Ok (g i).

Definition vbehaves_as_map (m0 : mat) (keep : V -> V) (chk : bool) (L : Z) (g0 : Z -> V)
    (guard : list vop -> Prop) : Prop :=
  forall os, guard os ->
    let '(m, outs) := do_vops m0 os in
    let '(g, outs') := map_vops keep chk L g0 os in
    outs = outs' /\ vdenotes m L g.

(** the position an operation accesses *)
Definition vop_index (o : vop) : Z :=
  match o with
  | VSetVec i _ | VAtVec i => i
  | VSet r _ _ | VUpdate r _ _ | VAt r _ | VElement r _ => r
  | VClear => 0
  end.

(** every operation of the history accesses a position not larger than the number
    of non-zero entries at that time *)
Fixpoint near (keep : V -> V) (chk : bool) (L : Z) (g : Z -> V) (os : list vop) : Prop :=
  match os with
  | [] => True
  | o :: rest =>
      vop_index o <= zlen (filter (fun i => negb (neqb (g i) n0)) (zrange 0 L)) /\
      near keep chk L (fst (map_vop keep chk L g o)) rest
  end.

(** ** Enumeration *)

(** the elements a [for it := m.Enumerate(); it.HasNext(); { it.Next() }] loop
    yields, with at most [fuel] rounds *)
Fixpoint loop_Next (fuel : nat) (m : mat) (it : iter) : res (list (Z * Z * V)) :=
  if mat_HasNext it then
    match fuel with
    | O => Diverge
    | S fuel' => '(e, it') <- mat_Next m it ;; l <- loop_Next fuel' m it' ;; Ok (e :: l)
    end
  else Ok [].

(** [l] is what enumerating [m] yields, however long one is prepared to wait *)
Definition enumerates (m : mat) (l : list (Z * Z * V)) : Prop :=
  forall fuel, mat_Values m <= Z.of_nat fuel -> loop_Next fuel m (mat_iterator m) = Ok l.

(** row-major and column-major order of positions *)
Definition before_row (p q : Z * Z) : Prop := fst p < fst q \/ (fst p = fst q /\ snd p < snd q).
Definition before_col (p q : Z * Z) : Prop := snd p < snd q \/ (snd p = snd q /\ fst p < fst q).

(** does enumerating [m] visit a cell with content [v]? *)
Definition stored (m : mat) (v : V) : bool :=
  match m with MDM _ | MDV _ => true | _ => negb (neqb v n0) end.

(** the position is in the list *)
Definition visited (L : list (Z * Z)) (i j : Z) : bool :=
  existsb (fun p => (fst p =? i) && (snd p =? j)) L.

(** A loop over the elements [d ++ rest] that asks its context [n] times for each
    element before it handles it and returns as soon as the answer is that the
    context is done, started in [w] and ended in [w'], has handled [d] and not
    [rest].  In [w] the context has been asked [w_polls w] times; it is cancelled
    between the [k]th and the next question.  Without a cancellation everything is
    handled; otherwise everything that was reached before the cancellation and
    nothing else, and the loop asks no question after the first one answered so. *)
Definition until_done {A} (n : nat) (E : env) (w w' : world N) (d rest : list A) : Prop :=
  match e_ctx E with
  | None => rest = [] /\ w_polls w' = w_polls w
  | Some k =>
      (rest = [] /\ (w_polls w' = w_polls w + n * length d)%nat /\ (n * length d = 0 \/ w_polls w' <= k)%nat) \/
      (rest <> [] /\ (n * length d <= k - w_polls w < n * S (length d))%nat /\ w_polls w' = S (Nat.max k (w_polls w)))
  end.

(** a loop of [n] rounds that asks the context once in each round, started in [w],
    gets through without being told that the context is done *)
Definition in_time (E : env) (w : world N) (n : nat) : bool :=
  match e_ctx E with
  | None => true
  | Some k => Nat.eqb n 0 || Nat.leb (w_polls w + n) k
  end.

(** all positions of an [R] x [C] matrix in row-major order *)
Definition positions (R C : Z) : list (Z * Z) :=
  flat_map (fun i => map (fun j => (i, j)) (zrange 0 C)) (zrange 0 R).

(** how many cells (i,j) with 0 <= i < R, 0 <= j < C satisfy [P] *)
Definition count_row (P : Z -> bool) (C : Z) : Z := zlen (filter P (zrange 0 C)).
Definition count_cells (P : Z -> Z -> bool) (R C : Z) : Z :=
  fold_right Z.add 0 (map (fun i => count_row (P i) C) (zrange 0 R)).

(** the non-zero entries of the sequence [f 0], ..., [f (L-1)], in ascending order,
    as enumerated from a vector *)
Definition nonzeros (L : Z) (f : Z -> V) : list (Z * Z * V) :=
  map (fun i => (i, 0, f i)) (filter (fun i => negb (neqb (f i) n0)) (zrange 0 L)).

(** what a sparse vector filled in ascending order shows of the sequence [f]:
    all non-zero entries when enumerated, but only part of them through [AtVec] *)
Definition ascending_vector (v : mat) (L : Z) (f : Z -> V) : Prop :=
  mat_Rows v = L /\ mat_Columns v = 1 /\
  mat_Values v = zlen (nonzeros L f) /\
  (forall fuel, zlen (nonzeros L f) <= Z.of_nat fuel ->
     loop_Next fuel v (mat_iterator v) = Ok (nonzeros L f)) /\
  (forall i, 0 <= i < L ->
     mat_AtVec v i = Ok (if i <=? zlen (nonzeros L f) then zeroed (f i) else n0)).

(** what [AtVec] shows of a row or column of [m] that has length [L] and content [f] *)
Definition shown (m : mat) (L : Z) (f : Z -> V) (l : Z) : V :=
  match m with
  | MCSR _ | MCSC _ => if l <=? zlen (nonzeros L f) then zeroed (f l) else n0
  | _ => f l
  end.

(** [data[i][j]] *)
Definition cell_of (d : list (list V)) (i j : Z) : V := nth (Z.to_nat j) (nth (Z.to_nat i) d []) n0.

(** ** Masks *)

(** the mask's flag at a cell, as seen in world [w]; a nil mask covers nothing *)
Definition covers (w : world N) (k : mask) (r c : Z) : bool :=
  match k with
  | MNil | MEmpty _ _ => false
  | MObj p => match nth_error (w_heap w) p with
              | Some m => match mat_At m r c with Ok (v, _) => ngtb v n0 | _ => false end
              | None => false
              end
  | MUser _ _ f => f r c
  end.

(** the mask has the given dimensions (a nil mask fits everything) *)
Definition mask_dims (w : world N) (k : mask) (R C : Z) : Prop :=
  match k with
  | MNil => True
  | MEmpty r c => r = R /\ c = C
  | MObj p => exists m, obj w p m /\ mat_Rows m = R /\ mat_Columns m = C
  | MUser r c _ => r = R /\ c = C
  end.

(** the mask is not the object [t] *)
Definition mask_not (k : mask) (t : ptr) : Prop := k <> MObj t.

(** sum of [f a], ..., [f (b-1)] added to [acc] from the left *)
Definition sum_from (acc : V) (f : Z -> V) (a b : Z) : V :=
  fold_left (fun s l => nadd s (f l)) (zrange a b) acc.

(** ** Reduction *)

(** the left fold of an operator that may panic *)
Fixpoint fold_res (op : V -> V -> res V) (acc : V) (l : list V) : res V :=
  match l with
  | [] => Ok acc
  | v :: rest => a <- op acc v ;; fold_res op a rest
  end.

(** the values of the enumerated elements [l] whose positions [cov] does not cover *)
Definition uncovered (cov : Z -> Z -> bool) (l : list (Z * Z * V)) : list V :=
  map snd (filter (fun e => negb (cov (fst (fst e)) (snd (fst e)))) l).

(** the elements a matrix in the format of [m] enumerates in a column with
    content [g], as elements of a vector *)
Definition column_elements (m : mat) (R : Z) (g : Z -> V) : list (Z * Z * V) :=
  map (fun i => (i, 0, g i)) (filter (fun i => stored m (g i)) (zrange 0 R)).

(** the negative of a zero compares like zero *)
Definition neg_zero : Prop := forall x y : V, neqb x n0 = true -> neqb (nneg x) y = neqb n0 y.

(** [<] is a strict total order *)
Definition order_ok : Prop :=
  (forall x y : V, nltb x y = true -> nltb y x = false) /\
  (forall x y z : V, nltb x y = false -> nltb y z = false -> nltb x z = false) /\
  (forall x y : V, nltb x y = false -> nltb y x = false -> x = y).

End Spec.
Arguments order_ok : clear implicits.
Arguments neg_zero : clear implicits.
