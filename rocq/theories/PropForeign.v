(** Property C80: the operators with operands of the caller's own matrix types (Foreign.v).

    [Lib p]: an object of the library.  [Own o]: a matrix whose methods give the answers in [o].  [presents E w a R C f L]:
    [a] has size R x C, At gives [f], and Enumerate shows the elements [L].  [operand E w t a R C f L]: also, [a] is not
    the output [t].  [registered E w a b]: whether the type of [a] is registered as sparse.  [says w a n]: what Values answers.  [rows_show],
    [columns_show]: what the vectors of RowsAt and ColumnsAt give.  [shown_at L i j]: the values [L] has for a place, in
    order.  [after O op vs x]: a cell of [O] holding [x] after one write [op v x] for each [v] of [vs] ([None]: no write).
    [honest f L]: no place is shown twice, and the values are those of [f].  [reached E w L]: the part of [L] before the
    context is done (ApplyMem.v). *)
From Coq Require Import String.
From Verif Require Import GoBase Num SparseVec Csr Csc DenseVec DenseMat Mat World Ops Spec Api ApplyMem Foreign.
From Verif Require Import OpsProps ForeignThms ForeignOps Witness StoreWitness OpsWitness ApplyMemWitness ForeignWitness.
Import ListNotations.

Theorem C80_add : forall N E (w : world N) (s m : arg N) k t O R C f g h Ls Lm b,
  sane N -> reachable w -> operand E w t s R C f Ls -> operand E w t m R C g Lm -> registered E w s b ->
  obj w t O -> not_sparse_vector O -> denotes O R C h -> mask_dims w k R C -> mask_not k t ->
  let L := if b : bool then Ls else Lm in let other := if b then g else f in
  exists w' O', AddF E s m k t w = (w', Ok tt) /\ extends_but t w w' /\ obj w' t O' /\ same_storage O O' /\
    denotes O' R C (fun i j => if covers w k i j then h i j else after O (fun v _ => Some (nadd (other i j) v)) (shown_at (reached E w L) i j) (h i j)).
Proof. exact @addF. Qed.
Print Assumptions C80_add.

Theorem C80_subtract : forall N E (w : world N) (s m : arg N) k t O R C f g h Ls Lm,
  sane N -> reachable w -> operand E w t s R C f Ls -> presents E w m R C g Lm ->
  obj w t O -> not_sparse_vector O -> denotes O R C h -> mask_dims w k R C -> mask_not k t ->
  exists w' O', SubtractF E s m k t w = (w', Ok tt) /\ extends_but t w w' /\ obj w' t O' /\ same_storage O O' /\
    denotes O' R C (fun i j => if covers w k i j then h i j else after O (fun v x => Some (nsub v x)) (shown_at (reached E w Ls) i j) (h i j)).
Proof. exact @subtractF. Qed.
Print Assumptions C80_subtract.

Theorem C80_element_wise_multiply : forall N E (w : world N) (s m : arg N) k t O R C f g h Ls Lm b,
  sane N -> reachable w -> operand E w t s R C f Ls -> operand E w t m R C g Lm -> registered E w s b ->
  obj w t O -> not_sparse_vector O -> denotes O R C h -> mask_dims w k R C -> mask_not k t ->
  let L := if b : bool then Ls else Lm in let other := if b then g else f in
  exists w' O', elementWiseMultiplyF E s m k t w = (w', Ok tt) /\ extends_but t w w' /\ obj w' t O' /\ same_storage O O' /\
    denotes O' R C (fun i j => if covers w k i j then h i j else after O (fun v _ => if neqb v (other i j) then Some v else None) (shown_at (reached E w L) i j) (h i j)).
Proof. exact @ewmF. Qed.
Print Assumptions C80_element_wise_multiply.

Theorem C80_element_wise_multiply_in_place : forall N E (w : world N) a first k t O R C f h L b,
  sane N -> reachable w -> operand E w t a R C f L -> registered E w (if first : bool then Lib t else a) b ->
  obj w t O -> not_sparse_vector O -> denotes O R C h -> mask_dims w k R C -> mask_not k t ->
  exists w' O', (if first then elementWiseMultiplyF E (Lib t) a k t else elementWiseMultiplyF E a (Lib t) k t) w = (w', Ok tt) /\
    extends_but t w w' /\ obj w' t O' /\ same_storage O O' /\
    denotes O' R C (fun i j => if covers w k i j then h i j else after O (fun v x => Some (if neqb v x then x else n0)) (shown_at (reached E w L) i j) (h i j)).
Proof. exact @ewm_in_placeF. Qed.
Print Assumptions C80_element_wise_multiply_in_place.

Theorem C80_element_wise_add : forall N E (w : world N) (s m : arg N) k t O R C f g h Ls Lm,
  sane N -> reachable w ->
  (s = Lib t /\ Ls = [] \/ operand E w t s R C f Ls) -> (m = Lib t /\ Lm = [] \/ operand E w t m R C g Lm) ->
  obj w t O -> not_sparse_vector O -> denotes O R C h -> mask_dims w k R C -> mask_not k t ->
  exists w' O', elementWiseAddF E s m k t w = (w', Ok tt) /\ extends_but t w w' /\ obj w' t O' /\ same_storage O O' /\
    denotes O' R C (fun i j => if covers w k i j then h i j else after O (fun v _ => if neqb v n0 then None else Some v) (shown_at (reached E w (Ls ++ Lm)) i j) (h i j)).
Proof. exact @ewaF. Qed.
Print Assumptions C80_element_wise_add.

Theorem C80_transpose : forall N E (w : world N) a k t O R C f h L,
  sane N -> reachable w -> operand E w t a R C f L -> obj w t O -> not_sparse_vector O -> denotes O C R h ->
  mask_dims w k C R -> mask_not k t -> (R = C \/ forall p, k <> MObj p) ->
  exists w' O', TransposeF E a k t w = (w', Ok tt) /\ extends_but t w w' /\ obj w' t O' /\ same_storage O O' /\
    denotes O' C R (fun i j => if covers w k j i then h i j else after O (fun v _ => Some v) (shown_at (reached E w L) j i) (h i j)).
Proof. exact @transposeF. Qed.
Print Assumptions C80_transpose.

Theorem C80_apply : forall N E (w : world N) x k u t O R C f h L,
  sane N -> reachable w -> presents E w (Own x) R C f L -> obj w t O -> not_sparse_vector O -> denotes O C R h ->
  mask_dims w k C R -> mask_not k t -> (R = C \/ forall p, k <> MObj p) ->
  exists w' O', ApplyF E x k u t w = (w', Ok tt) /\ extends_but t w w' /\ obj w' t O' /\ same_storage O O' /\
    denotes O' C R (fun i j => if covers w k j i then h i j else after O (fun v _ => Some (u v)) (shown_at (reached E w L) j i) (h i j)).
Proof. exact @applyF. Qed.
Print Assumptions C80_apply.

Theorem C80_multiply : forall N E (w : world N) (s m : arg N) k t O R K C n h (fr gc : Z -> Z -> T N),
  sane N -> reachable w -> rows_show w t s R K n fr -> columns_show w t m K C n gc ->
  obj w t O -> not_sparse_vector O -> denotes O R C h -> mask_dims w k R C ->
  exists w' O' L rest, multiplyF E s m k t w = (w', Ok tt) /\ extends_but t w w' /\ obj w' t O' /\ same_storage O O' /\
    positions R C = L ++ rest /\ until_done (Z.to_nat n) E w w' L rest /\
    denotes O' R C (fun i j => if visited L i j && negb (covers w k i j)
       then kept O (sum_from n0 (fun l => nmul (fr i l) (gc j l)) 0 n) else h i j).
Proof. exact @multiplyF_ok. Qed.
Print Assumptions C80_multiply.

Theorem C80_equal : forall N E (w : world N) (s m : arg N) R C R' C' f g Ls Lm b b' n n',
  sane N -> reachable w -> presents E w s R C f Ls -> presents E w m R' C' g Lm ->
  registered E w s b -> registered E w m b' -> says w s n -> says w m n' ->
  let L := if b : bool then Ls else Lm in let other := if b then g else f in
  exists w', EqualF E s m w = (w', Ok ((C =? C') && (R =? R') && (negb (Bool.eqb b b') || (n =? n')) &&
      forallb (fun e => neqb (snd e) (other (fst (fst e)) (snd (fst e)))) (reached E w L) && Nat.eqb (length (reached E w L)) (length L))) /\ w_heap w' = w_heap w.
Proof. exact @equalF. Qed.
Print Assumptions C80_equal.

Theorem C80_operands_of_the_library : forall N E (s m t : ptr) k (w : world N),
  AddF E (Lib s) (Lib m) k t w = Add E s m k t w /\ SubtractF E (Lib s) (Lib m) k t w = Subtract E s m k t w /\
  elementWiseMultiplyF E (Lib s) (Lib m) k t w = elementWiseMultiply E s m k t w /\ elementWiseAddF E (Lib s) (Lib m) k t w = elementWiseAdd E s m k t w /\
  TransposeF E (Lib s) k t w = Transpose E s k t w /\ multiplyF E (Lib s) (Lib m) k t w = multiply E s m k t w /\
  EqualF E (Lib s) (Lib m) w = Equal E (Some s) (Some m) w.
Proof. exact @lib_same. Qed.
Print Assumptions C80_operands_of_the_library.

Theorem C80_honest_cells : forall N (O : mat N) op f (L : list (Z * Z * T N)) i j x,
  honest f L ->
  after O op (shown_at L i j) x = if visited (map fst L) i j then match op (f i j) x with Some y => kept O y | None => x end else x.
Proof. exact @after_honest. Qed.
Print Assumptions C80_honest_cells.

Theorem C80_add_honest : forall N E (w : world N) (s m : arg N) k t O R C f g h Ls Lm b,
  sane N -> reachable w -> operand E w t s R C f Ls -> operand E w t m R C g Lm -> registered E w s b ->
  honest f Ls -> honest g Lm -> obj w t O -> not_sparse_vector O -> denotes O R C h -> mask_dims w k R C -> mask_not k t -> e_ctx E = None ->
  exists w' O', AddF E s m k t w = (w', Ok tt) /\ extends_but t w w' /\ obj w' t O' /\ same_storage O O' /\
    denotes O' R C (fun i j => if visited (map fst (if b : bool then Ls else Lm)) i j && negb (covers w k i j)
      then kept O (if b then nadd (g i j) (f i j) else nadd (f i j) (g i j)) else h i j).
Proof. exact @add_honest. Qed.
Print Assumptions C80_add_honest.

Theorem C80_subtract_honest : forall N E (w : world N) (s m : arg N) k t O R C f g h Ls Lm,
  sane N -> reachable w -> operand E w t s R C f Ls -> presents E w m R C g Lm -> honest f Ls ->
  obj w t O -> not_sparse_vector O -> denotes O R C h -> mask_dims w k R C -> mask_not k t -> e_ctx E = None ->
  exists w' O', SubtractF E s m k t w = (w', Ok tt) /\ extends_but t w w' /\ obj w' t O' /\ same_storage O O' /\
    denotes O' R C (fun i j => if visited (map fst Ls) i j && negb (covers w k i j) then kept O (nsub (f i j) (h i j)) else h i j).
Proof. exact @subtract_honest. Qed.
Print Assumptions C80_subtract_honest.

Theorem C80_equal_honest : forall N E (w : world N) (s m : arg N) R C f g Ls Lm b b' n,
  sane N -> reachable w -> presents E w s R C f Ls -> presents E w m R C g Lm ->
  registered E w s b -> registered E w m b' -> says w s n -> says w m n -> honest f Ls -> honest g Lm ->
  (forall i j, 0 <= i < R -> 0 <= j < C -> In (i, j) (map fst Ls) /\ In (i, j) (map fst Lm)) -> e_ctx E = None ->
  exists w' x, EqualF E s m w = (w', Ok x) /\ w_heap w' = w_heap w /\
    (x = true <-> forall i j, 0 <= i < R -> 0 <= j < C -> neqb (if b : bool then f i j else g i j) (if b then g i j else f i j) = true).
Proof. exact @equal_honest. Qed.
Print Assumptions C80_equal_honest.

Theorem C80_order_of_comparison_matters :
  ~ (forall N E (w : world N) s m R C f g Ls Lm n, sane N -> reachable w -> presents E w s R C f Ls -> presents E w m R C g Lm -> honest f Ls -> honest g Lm ->
      registered E w s false -> registered E w m false -> says w s n -> says w m n -> e_ctx E = None ->
      snd (EqualF E s m w) = snd (EqualF E m s w)).
Proof. exact order_matters. Qed.
Print Assumptions C80_order_of_comparison_matters.

Example C80_case : reachable ops /\ obj ops 12 oQ /\ obj ops 10 o10 /\ operand E0 ops 10 (Own eye) 2 2 eye_at [(0, 0, gi 1); (1, 1, gi 1)] /\
  honest eye_at [(0, 0, gi 1); (1, 1, gi 1)] /\ registered E0 ops (Own eye) false /\ rows_show ops 10 (Own eye) 2 2 2 eye_at /\
  (let '(w', o) := AddF E0 (Lib 12) (Own eye) MNil 10 ops in o = Ok tt /\ cells w' 10 2 2 = map (fun z => Ok (gi z)) [2; 0; 0; 5]) /\
  (let '(w', o) := multiplyF E0 (Own eye) (Lib 12) MNil 10 ops in o = Ok tt /\ cells w' 10 2 2 = map (fun z => Ok (gi z)) [1; 2; 3; 4]) /\
  (let '(w', o) := SubtractF E0 (Own echo) (Lib 12) MNil 12 ops in o = Ok tt /\ cells w' 12 2 2 = map (fun z => Ok (gi z)) [5; 2; 3; 4]) /\
  (let '(w', o) := elementWiseAddF E0 (Own echo) (Own eye) MNil 10 ops in o = Ok tt /\ cells w' 10 2 2 = map (fun z => Ok (gi z)) [1; 0; 0; 1]) /\
  (let '(w', o) := TransposeF E0 (Own echo) MNil 10 ops in o = Ok tt /\ cells w' 10 2 2 = map (fun z => Ok (gi z)) [9; 0; 0; 0]).
Proof.
  split; [exact ops_reachable|]. split; [exact h12|]. split; [exact h10|]. split; [exact (eye_operand E0 ops 10)|]. split; [exact eye_honest|]. split; [exact (eye_unregistered ops)|].
  split; [exact (eye_rows ops 10)|]. exact foreign_case.
Qed.
