(** Concrete cases for masks and outputs that share memory. *)
From Coq Require Import String.
From Verif Require Import GoBase Num SparseVec Csr Csc DenseVec DenseMat Mat World Ops Spec Api.
From Verif Require Import Witness StoreWitness OpsWitness ApplyMem ApplyMemWitness MaskMem Foreign ForeignWitness Sink SinkWitness Shared.
Import ListNotations.

(** covers the places the output has an entry for *)
Definition once : smask (list (Z * Z * T G)) := MkSMask 2 2 (fun st r c => (st, Ok (existsb (fun e => (row_of e =? r) && (col_of e =? c)) st))).
(** adds the number of entries the output has *)
Definition ticket : list (Z * Z * T G) -> T G -> list (Z * Z * T G) * res (T G) := fun st v => (st, Ok (nadd v (gi (Z.of_nat (length st))))).
(** covers every other question and panics at the fourth *)
Definition turns : smask Z := MkSMask 2 2 (fun st r c => (st + 1, if st =? 3 then Panic else Ok (Z.odd st))).

Lemma once_fits : fits once ledger.
Proof. split; reflexivity. Qed.
Lemma shared_case :
  (let '(st, w', o) := TransposeB E0 (Lib 12) once ledger [] ops in st = [(0, 0, gi 1); (1, 0, gi 2); (1, 1, gi 4)] /\ o = Ok tt) /\
  (let '(st, w', o) := TransposeB (Ecancel 1) (Lib 12) once ledger [] ops in st = [(0, 0, gi 1)] /\ o = Ok tt) /\
  (let '(st, w', o) := elementWiseAddB E0 (Own echo) (Own eye) once ledger [] ops in st = [(0, 0, gi 5); (1, 1, gi 1)] /\ o = Ok tt) /\
  (let '(st, w', o) := ApplyB E0 (Lib 12) once ticket ledger [] ops in st = [(0, 0, gi 1); (1, 0, gi 3); (1, 1, gi 6)] /\ o = Ok tt) /\
  (let '(st, w', o) := multiplyB E0 (Own eye) (Lib 12) once ledger [(1, 0, gi 9)] ops in st = [(1, 0, gi 9); (0, 0, gi 1); (0, 1, gi 2)] /\ o = Panic) /\
  (let '(st, w', o) := TransposeS E0 12 turns 10 0 ops in st = 4 /\ OpsWitness.cells w' 10 2 2 = map (fun z => Ok (gi z)) [1; 3; 0; 0] /\ o = Panic) /\
  (let '(st, w', o) := TransposeS (Ecancel 2) 12 turns 10 0 ops in st = 2 /\ OpsWitness.cells w' 10 2 2 = map (fun z => Ok (gi z)) [1; 0; 0; 0] /\ o = Ok tt).
Proof. vm_compute. repeat split. Qed.
