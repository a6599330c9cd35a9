(** Concrete cases for outputs of the caller's. *)
From Coq Require Import String.
From Verif Require Import GoBase Num SparseVec Csr Csc DenseVec DenseMat Mat World Ops Spec Api.
From Verif Require Import Witness StoreWitness OpsWitness ApplyMem ApplyMemWitness MaskMem Foreign ForeignWitness Sink.
Import ListNotations.

(** keeps a list of what is set and has room for three entries *)
Definition ledger : sink G (list (Z * Z * T G)) := MkSink 2 2
  (fun st r c v => if (Z.of_nat (length st) <? 3) then ((st ++ [(r, c, v)])%list, Ok tt) else (st, Panic))
  (fun st r c f => if (Z.of_nat (length st) <? 3) then ((st ++ [(r, c, f (gi 0))])%list, Ok tt) else (st, Panic)).

Lemma ledger_fits (w : world G) : mask_fits w MNil ledger 2 2.
Proof. split; [exact Logic.I|]. left. intros p. discriminate. Qed.
Lemma sink_case :
  (let '(st, w', o) := TransposeO E0 (Lib 12) MNil ledger [] ops in st = [(0, 0, gi 1); (1, 0, gi 2); (0, 1, gi 3)] /\ o = Panic) /\
  (let '(st, w', o) := AddO E0 (Lib 12) (Own eye) MNil ledger [] ops in st = [(0, 0, gi 2); (1, 1, gi 5)] /\ o = Ok tt) /\
  (let '(st, w', o) := elementWiseAddO E0 (Own echo) (Own eye) MNil ledger [] ops in st = [(0, 0, gi 5); (0, 0, gi 9); (0, 0, gi 1)] /\ o = Panic) /\
  (let '(st, w', o) := SubtractO E0 (Own eye) (Own echo) MNil ledger [] ops in st = [(0, 0, gi 1); (1, 1, gi 1)] /\ o = Ok tt) /\
  (let '(st, w', o) := multiplyO E0 (Own eye) (Lib 12) MNil ledger [] ops in st = [(0, 0, gi 1); (0, 1, gi 2); (1, 0, gi 3)] /\ o = Panic).
Proof. vm_compute. repeat split. Qed.
