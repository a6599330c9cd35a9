(** Concrete cases for operands that refuse. *)
From Coq Require Import String.
From Verif Require Import GoBase Num SparseVec Csr Csc DenseVec DenseMat Mat World Ops Spec Api.
From Verif Require Import Witness StoreWitness OpsWitness ApplyMem ApplyMemWitness MaskMem Foreign ForeignWitness Sink SinkWitness Shared SharedWitness Refuse.
Import ListNotations.

(** has no answer for the place (1, 0), nor for the row 1; the last element of its row 0 does not come back; shows a place outside *)
Definition cracked_at (r c : Z) : res (T G) := if (r =? 1) && (c =? 0) then Panic else Ok (gi 7).
Definition cracked_row (r : Z) : res (vec G) := if r =? 1 then Panic else Ok (MkVec 2 (fun l => if l =? 0 then Ok (gi 2) else Ok (gi 3))).
Definition cracked_column (c : Z) : res (vec G) := Ok (MkVec 2 (fun l => if (c =? 1) && (l =? 1) then Diverge else Ok (gi 1))).
Definition cracked : own G := MkOwn "Cracked" 2 2 3 cracked_at cracked_row cracked_column [(0, 1, gi 5); (5, 5, gi 1); (1, 1, gi 1)].
Definition never : smask (list (Z * Z * T G)) := MkSMask 2 2 (fun st r c => (st, Ok false)).

Lemma cracked_meets (w : world G) : sized w (Own cracked) 2 2 /\ walks E0 w (Own cracked) [(0, 1, gi 5); (5, 5, gi 1); (1, 1, gi 1)] /\ at_gives w (Own cracked) cracked_at /\
  rows_give w (Own cracked) cracked_row /\ columns_give w (Own cracked) cracked_column /\ registered E0 w (Own cracked) false /\ fits never ledger.
Proof.
  split; [split; reflexivity|]. split; [reflexivity|]. split; [intros r c; reflexivity|]. split; [intros r; reflexivity|]. split; [intros r; reflexivity|].
  split; [cbn; intros H; repeat (destruct H as [H|H]; [discriminate|]); exact H|split; reflexivity].
Qed.
Lemma refuse_case :
  (let '(st, w', o) := AddB E0 (Own cracked) (Lib 12) never ledger [] ops in st = [(0, 0, gi 8); (0, 1, gi 9)] /\ o = Panic) /\
  (let '(st, w', o) := AddB (Ecancel 2) (Own cracked) (Lib 12) never ledger [] ops in st = [(0, 0, gi 8); (0, 1, gi 9)] /\ o = Ok tt) /\
  (let '(st, w', o) := multiplyB E0 (Own cracked) (Lib 12) never ledger [] ops in st = [(0, 0, gi 11); (0, 1, gi 16)] /\ o = Panic) /\
  (let '(st, w', o) := multiplyB E0 (Lib 12) (Own cracked) never ledger [] ops in st = [(0, 0, gi 3)] /\ o = Diverge) /\
  (let '(st, w', o) := multiplyB (Ecancel 3) (Lib 12) (Own cracked) never ledger [] ops in st = [(0, 0, gi 3)] /\ o = Ok tt) /\
  (let '(w', o) := TransposeF E0 (Own cracked) MNil 10 ops in o = Panic /\ OpsWitness.cells w' 10 2 2 = map (fun z => Ok (gi z)) [0; 0; 5; 0]) /\
  (let '(w', o) := AddF E0 (Own cracked) (Lib 12) MNil 10 ops in o = Panic /\ OpsWitness.cells w' 10 2 2 = map (fun z => Ok (gi z)) [8; 9; 0; 0]).
Proof. vm_compute. repeat split. Qed.
