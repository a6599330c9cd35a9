(** Programs that hold iterators open while they go on using the objects, and a
    description of what such an iterator shows. *)
From Coq Require Import String.
From Verif Require Import GoBase Num SparseVec Csr Csc DenseVec DenseMat Mat World Ops Spec Api.

Section Iters.
Context {N : num}.
Notation V := (T N).
Notation mat := (mat N).
Notation ent := (Z * Z * V)%type.
Notation world := (world N).
Implicit Types w : world.
Implicit Types m : mat.

(** ** The program *)

(** an open iterator: the [matrix] field of the iterator structs (csrMatrix.go:320,
    cscMatrix.go:339, denseMatrix.go:302, denseVector.go:296, sparseVector.go:314) is
    the pointer, the other fields are [iter].  [Enumerate] and [Map] make the same
    struct (csrMatrix.go:315-317, 377-381 and the same places of the other files). *)
Definition handle : Type := (ptr * iter)%type.

(** [it.Map(f)] (csrMatrix.go:393-401, cscMatrix.go:403-411, denseMatrix.go:353-357,
    denseVector.go:346-350, sparseVector.go:357-366): the element found, the object
    afterwards and the iterator afterwards *)
Definition mat_MapNext (m : mat) (it : iter) (f : Z -> Z -> V -> V) : res (ent * mat * iter) :=
  it' <- mat_next m it ;; e <- mat_cur m it' ;;
  m' <- mat_map_put m it' (f (fst (fst e)) (snd (fst e)) (snd e)) ;; Ok (e, m', it').

(** ** What an iterator shows *)

(** CSR matrices are stored by rows, CSC matrices by columns *)
Definition lined m : bool := match m with MCSR _ | MCSC _ => true | _ => false end.
Definition line_of m (p : Z * Z) : Z := match m with MCSC _ => snd p | _ => fst p end.
Definition pos_of m (p : Z * Z) : Z := match m with MCSC _ => fst p | _ => snd p end.

(** where an iterator is:
    - on a CSR or CSC matrix it has either finished line [ln] ([Between ln]), or it is
      at position [ps] of line [ln] and expects the next [more] elements of the line to
      be the elements number [before], [before + 1], ... of the whole matrix
      ([Within ln ps before more]);
    - on the other types it will look at element number [k] ([Index k]). *)
Inductive place : Type :=
| Between (ln : Z)
| Within (ln ps before more : Z)
| Index (k : Z).

Record cursor : Type := MkCursor {
  cu_seen : list ent;   (** what it has shown *)
  cu_total : Z;         (** how many elements there were at the start *)
  cu_place : place;
  cu_spot : nat }.      (** the number of the element it showed last, when it did *)

Definition start m : cursor := MkCursor [] (mat_Values m) (if lined m then Between (-1) else Index 0) 0.

(** is the element later in line [ln] than [ps]? *)
Definition in_line m (ln ps : Z) (e : ent) : bool := (line_of m (fst e) =? ln) && (ps <? pos_of m (fst e)).
(** is it in a later line? *)
Definition in_later m (ln : Z) (e : ent) : bool := ln <? line_of m (fst e).

(** the element of line [ln] at position [ps] *)
Definition placed m (ln ps : Z) (v : V) : ent := match m with MCSC _ => (ps, ln, v) | _ => (ln, ps, v) end.

Definition first (l : list ent) : res ent := match l with [] => Panic | e :: _ => Ok e end.

(** What the iterator shows when enumerating the matrix from the start gives [l] now:
    - between lines, the first element of the lines after [ln] as they are now;
    - within a line, the value and the position in its line of element number [before]
      of the matrix, whatever line that element is in, as an element of line [ln].  If
      its position is not after [ps] the iterator searches for it for ever;
    - element number [k].  A dense vector starts again when it ends exactly there. *)
Definition shown m (pl : place) (l : list ent) : res ent :=
  match pl with
  | Between ln => first (filter (in_later m ln) l)
  | Within ln ps before _ =>
      match nth_error l (Z.to_nat before) with
      | None => Panic
      | Some x => if ps <? pos_of m (fst x) then Ok (placed m ln (pos_of m (fst x)) (snd x)) else Diverge
      end
  | Index k => match m with
               | MDV _ => if k =? zlen l then first l else first (skipn (Z.to_nat k) l)
               | _ => first (skipn (Z.to_nat k) l)
               end
  end.

(** where it is after showing [e].  On arriving at a new line it counts the elements up
    to [e] and the elements after [e] in the line. *)
Definition moved m (pl : place) (l : list ent) (e : ent) : place :=
  match pl with
  | Between _ =>
      let ln := line_of m (fst e) in
      let ps := pos_of m (fst e) in
      let more := zlen (filter (in_line m ln ps) l) in
      if more =? 0 then Between ln
      else Within ln ps (zlen (filter (fun e => negb (in_line m ln ps e || in_later m ln e)) l)) more
  | Within ln _ before more => if more =? 1 then Between ln else Within ln (pos_of m (fst e)) (before + 1) (more - 1)
  | Index k => match m with MDV _ => Index (fst (fst e) + 1) | _ => Index (k + 1) end
  end.

(** is the element before position [q] in storage order? *)
Definition precedes m (q : Z * Z) (e : ent) : bool :=
  (line_of m (fst e) <? line_of m q) || (line_of m (fst e) =? line_of m q) && (pos_of m (fst e) <? pos_of m q).

(** the number of the element shown as [e] *)
Definition number m (pl : place) (l : list ent) (e : ent) : nat :=
  match pl with
  | Between _ => length (filter (precedes m (fst e)) l)
  | Within _ _ before _ => Z.to_nat before
  | Index k => match m with MDV _ => Z.to_nat (fst (fst e)) | _ => Z.to_nat k end
  end.

Definition advance m (cu : cursor) (l : list ent) (e : ent) : cursor :=
  MkCursor (cu_seen cu ++ [e]) (cu_total cu) (moved m (cu_place cu) l e) (number m (cu_place cu) l e).

(** an iterator within a line finds its way if there are as many elements before it,
    and after it in the line, as it expects *)
Definition settled m (pl : place) (l : list ent) : Prop :=
  match pl with
  | Within ln ps before more =>
      zlen (filter (fun e => negb (in_line m ln ps e || in_later m ln e)) l) = before /\
      zlen (filter (in_line m ln ps) l) = more
  | _ => True
  end.

(** the elements then ahead of it *)
Definition upcoming m (pl : place) (l : list ent) : list ent :=
  match pl with
  | Between ln => filter (in_later m ln) l
  | Within ln ps _ _ => filter (fun e => in_line m ln ps e || in_later m ln e) l
  | Index k => match m with
               | MDV _ => if k =? zlen l then l else skipn (Z.to_nat k) l
               | _ => skipn (Z.to_nat k) l
               end
  end.

(** the elements after one, number [n], has been given the value [v]; sparse objects do
    not keep zeros *)
Definition put_at m (l : list ent) (n : nat) (y : ent) (v : V) : list ent :=
  firstn n l ++ (if sparse_obj m && neqb v n0 then [] else [(fst y, v)]) ++ skipn (S n) l.

(** the elements [l'] after [Map] has shown [e] and produced [v].  The element changed is
    the one shown; within a line it is number [before], the same if the iterator is
    settled. *)
Definition mapped_to m (pl : place) (l : list ent) (e : ent) (v : V) (l' : list ent) : Prop :=
  exists n y, nth_error l n = Some y /\ snd y = snd e /\ (settled m pl l -> y = e) /\
    match pl with Within _ _ before _ => n = Z.to_nat before | _ => y = e end /\ l' = put_at m l n y v.

(** replace item number [k] *)
Fixpoint set_nth {A} (k : nat) (x : A) (l : list A) : list A :=
  match k, l with
  | _, [] => []
  | O, _ :: rest => x :: rest
  | S k', y :: rest => y :: set_nth k' x rest
  end.

(** an object that is not a CSR or CSC matrix; or the element that has now the number of
    the one shown last is in the same line as that was *)
Definition in_place m (cu : cursor) (l : list ent) : Prop :=
  lined m = false \/
  exists z seen e, nth_error l (cu_spot cu) = Some z /\ cu_seen cu = seen ++ [e] /\ line_of m (fst z) = line_of m (fst e).

(** Histories of a program with open iterators: the world, the iterators, and, kept
    beside each, the description above.  Iterators are opened at any time; [Next] and
    [Map] are called on any of them whether or not [HasNext] was asked; any other calls
    come in between, on the same objects or others.  [P] holds at every moment.
    [Map] is two events: [fol_next], and when its function has returned [x], [fol_put].
    What the function does comes in between: calls, and moving other iterators.
    [fol_put] is not there for zeros when elements were shifted between lines.  The
    story of an iterator ends when its [next] panics. *)
Inductive follows (P : world -> Prop) : world -> list handle -> list (ptr * cursor) -> Prop :=
| fol_start w : reachable w -> P w -> follows P w [] []
| fol_open w hs cs p m : follows P w hs cs -> obj w p m ->
    follows P w (hs ++ [(p, mat_iterator m)]) (cs ++ [(p, start m)])
| fol_next w hs cs k p it cu m l e it' : follows P w hs cs ->
    nth_error hs k = Some (p, it) -> nth_error cs k = Some (p, cu) -> obj w p m -> enumerates m l ->
    mat_Next m it = Ok (e, it') ->
    follows P w (set_nth k (p, it') hs) (set_nth k (p, advance m cu l e) cs)
| fol_put w hs cs k p it cu m l x m' : follows P w hs cs ->
    nth_error hs k = Some (p, it) -> nth_error cs k = Some (p, cu) -> cu_seen cu <> [] -> obj w p m -> enumerates m l ->
    mat_map_put m it x = Ok m' ->
    neqb x n0 = false \/ in_place m cu l ->
    P (fst (store p m' w)) ->
    follows P (fst (store p m' w)) hs cs
| fol_call w hs cs c : follows P w hs cs -> allowed w c -> P (after c w) ->
    follows P (after c w) hs cs.

(** the elements of [p] have the positions [ps] *)
Definition keeps (p : ptr) (ps : list (Z * Z)) w : Prop := exists m l, obj w p m /\ enumerates m l /\ map fst l = ps.

End Iters.
Arguments cursor : clear implicits.
