(** Concrete cases for [Negative] and [Apply] in place with a matrix of the caller's. *)
From Verif Require Import GoBase Num SparseVec Csr Csc DenseVec DenseMat Mat World Ops Spec Api.
From Verif Require Import Witness StoreWitness OpsWitness ApplyMem MaskMem Foreign ForeignWitness Sink Shared Inplace.
Import ListNotations.

Definition squares : list (Z * Z) := [(0, 0); (0, 1); (1, 0); (1, 1)].
Definition corner (r c : Z) : bool := (r =? 0) && (c =? 0).
Definition tens : table G := fun i j => gi (10 * i + j + 1).
Definition cells_of (x : table G * world G * res unit) : list (T G) * res unit := let '(st, _, o) := x in (map (fun p => st (fst p) (snd p)) squares, o).
(** writes down what the function answers: the first round asks twice, the second does not ask, the third does not return *)
Definition jotter : walker G (list (T G)) := MkWalker 2 2 [
  (fun f st => match f 0 1 (gi 5) st with (st1, Ok x) => match f 7 7 x (st1 ++ [x]) with (st2, Ok y) => (st2 ++ [y], Ok tt) | (st2, _) => (st2, Panic) end | (st1, _) => (st1, Panic) end);
  (fun f st => (st ++ [gi 0], Ok tt));
  (fun f st => (st, Diverge))].
Definition open : smask (list (T G)) := MkSMask 2 2 (fun st r c => (st, if r =? 7 then Ok true else Ok false)).

Lemma squares_apart : NoDup squares.
Proof. repeat (constructor; [cbn; intuition congruence|]). constructor. Qed.
Lemma inplace_case :
  cells_of (NegativeW E0 (covering 2 2 corner) (tabled 2 2 squares) tens ops) = (map gi [1; -2; -11; -12], Ok tt) /\
  cells_of (NegativeW (Ecancel 2) (covering 2 2 corner) (tabled 2 2 squares) tens ops) = (map gi [1; -2; 11; 12], Ok tt) /\
  cells_of (ApplyW E0 (covering 2 2 corner) (plainly (fun v => nadd v (gi 100))) (tabled 2 2 squares) tens ops) = (map gi [101; 2; 11; 12], Ok tt) /\
  cells_of (NegativeW E0 (covering 3 2 corner) (tabled 2 2 squares) tens ops) = (map gi [1; 2; 11; 12], Panic) /\
  (let '(st, w', o) := NegativeW E0 open jotter [] ops in st = map gi [-5; -5; 0] /\ o = Diverge) /\
  (let '(st, w', o) := NegativeW (Ecancel 2) open jotter [] ops in st = map gi [-5; -5; 0] /\ o = Ok tt) /\
  (let '(st, w', o) := NegativeW (Ecancel 1) open jotter [] ops in st = map gi [-5; -5] /\ o = Ok tt).
Proof. vm_compute. repeat split. Qed.
