(** Operands of the caller's whose At, RowsAt, ColumnsAt or AtVec panic or do not return, or that show places outside of
    themselves: the specification.  The program is that of Shared.v (and, for the library's outputs, MaskMem.v). *)
From Coq Require Import String.
From Verif Require Import GoBase Num SparseVec Csr Csc DenseVec DenseMat Mat World Ops Spec Api ApplyMem MaskMem Foreign Sink Shared.
Import ListNotations.

Section Refuse.
Context {N : num} {St : Type}.
Notation V := (T N).
Notation arg := (arg N).
Notation thing := (thing St).

(** the operand says that its size is R x C *)
Definition sized (w : world N) (a : arg) (R C : Z) : Prop := a_Rows a w = (w, Ok R) /\ a_Columns a w = (w, Ok C).
(** the operand's iterator shows [L]; the places may be anywhere *)
Definition walks (E : env) (w : world N) (a : arg) (L : list (Z * Z * V)) : Prop :=
  match a with
  | Lib p => exists m, obj w p m /\ enumerates m L /\ mat_Values m <= Z.of_nat (e_fuel E)
  | Own o => own_shows o = L
  end.
(** what comes of At, RowsAt and ColumnsAt: a value, a panic, no return *)
Definition at_gives (w : world N) (a : arg) (g : Z -> Z -> res V) : Prop := forall r c, a_At a r c w = (w, g r c).
Definition rows_give (w : world N) (a : arg) (g : Z -> res (vec N)) : Prop := forall r, a_RowsAt a r w = (w, g r).
Definition columns_give (w : world N) (a : arg) (g : Z -> res (vec N)) : Prop := forall c, a_ColumnsAt a c w = (w, g c).

(** going on with the answer of a call, or ending as the call does *)
Definition with_answer {A} (x : res A) (f : A -> thing) : thing := fun st => andthen (st, x) f.
Definition nothing : thing := fun st => (st, Ok tt).

(** things of which each asks the context a number of times first; those that are done before the context is *)
Fixpoint afford (k : nat) (l : list (nat * thing)) : list thing :=
  match l with [] => [] | (n, x) :: rest => if Nat.leb n k then x :: afford (k - n) rest else [] end.
Definition in_time (E : env) (w : world N) (l : list (nat * thing)) : list thing :=
  match e_ctx E with None => map snd l | Some k => afford (k - w_polls w) l end.

(** the sum of products of a row and a column, given by the answers of AtVec for the column and for the row; how many
    products are begun, and what comes of it *)
Fixpoint products (sum : V) (l : list (res V * res V)) : nat * res V :=
  match l with
  | [] => (0%nat, Ok sum)
  | (Ok y, Ok x) :: rest => let '(n, o) := products (nadd sum (nmul x y)) rest in (S n, o)
  | (Panic, _) :: _ | (Ok _, Panic) :: _ => (1%nat, Panic)
  | (Diverge, _) :: _ | (Ok _, Diverge) :: _ => (1%nat, Diverge)
  end.
Definition answers (rv cv : vec N) : list (res V * res V) := map (fun l => (vec_AtVec cv l, vec_AtVec rv l)) (zrange 0 (vec_Length rv)).

(** a cell of the product; all of them, row by row, each row beginning with RowsAt and each cell with ColumnsAt *)
Definition cell (q : smask St) (out : sink N St) (r c : Z) (row column : res (vec N)) : nat * thing :=
  match row, column with
  | Ok rv, Ok cv => let '(n, o) := products n0 (answers rv cv) in (n, with_answer o (fun sum => unless q r c (set_at out r c sum)))
  | _, x => (0%nat, with_answer x (fun _ => nothing))
  end.
Definition all_cells (q : smask St) (out : sink N St) (R C : Z) (rows columns : Z -> res (vec N)) : list (nat * thing) :=
  flat_map (fun r => (0%nat, with_answer (rows r) (fun _ => nothing)) :: map (fun c => cell q out r c (rows r) (columns c)) (zrange 0 C)) (zrange 0 R).
End Refuse.

(** what a mask answers when asked about (r, c) *)
Definition mask_says {N : num} (w : world N) (k : mask) (r c : Z) : res bool :=
  match k with MNil => Ok false | _ => snd (mask_Element k r c w) end.
(** a mask as in C81, with the size of the output, as a mask of MaskMem.v *)
Definition as_mask {N : num} {St : Type} (w : world N) (k : mask) (out : sink N St) : smask St :=
  MkSMask (so_Rows out) (so_Columns out) (fun st r c => (st, mask_says w k r c)).
(** the operator ends as [l] on [O] ends, and has changed nothing but the object [t], which is as [l] leaves it *)
Definition settles {N : num} (t : ptr) (O : mat N) (op : M N unit) (w : world N) (l : list (thing (mat N))) : Prop :=
  exists w', op w = (w', snd (all_of l O)) /\ w_heap w' = list_set (w_heap w) t (fst (all_of l O)).
