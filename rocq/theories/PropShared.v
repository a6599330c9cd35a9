(** Property C82: the operators with a mask and an output of the caller's that share memory (Shared.v).

    [thing St]: something done with the memory [St], which may not return.  [all_of l]: one after the other until one does not
    return.  [unless q r c x]: the mask [q] is asked about (r, c), and unless it covers the place, [x] is done.  [set_at],
    [update_at]: a call of Set or Update of the output.  [set_image out u r c v]: the function [u] is called with [v], then Set
    with what it returns.  [amounts_to op st w l]: from the memory [st], [op] does exactly [l], ends as [l] ends, and leaves the
    library's objects alone.  [fits]: mask and output have one size.  [reached], [reached_n]: the part of a list before the
    context is done.  [presents], [operand], [registered], [rows_show], [columns_show]: see PropForeign.v.
    [on_first q], [on_second O]: a mask [q] and an output [O] of the library, with the pair of their memories.
    [comes_to t O op st w l]: with [O] in the heap as object [t], [op] does to it and to the mask's memory exactly what [l]
    does, ends as [l] ends, and does nothing else. *)
From Coq Require Import String.
From Verif Require Import GoBase Num SparseVec Csr Csc DenseVec DenseMat Mat World Ops Spec Api ApplyMem MaskMem Foreign Sink Shared.
From Verif Require Import OpsProps SinkThms SharedThms SharedLib Witness StoreWitness OpsWitness ApplyMemWitness ForeignWitness SinkWitness SharedWitness.
Import ListNotations.

Theorem C82_add : forall N (St : Type) E (w : world N) (s m : arg N) (q : smask St) (out : sink N St) R C f g Ls Lm b (st : St),
  sane N -> reachable w -> presents E w s R C f Ls -> presents E w m R C g Lm -> registered E w s b ->
  fits q out ->
  amounts_to (AddB E s m q out) st w
    (map (fun e : Z * Z * T N => unless q (row_of e) (col_of e) (set_at out (row_of e) (col_of e) (nadd ((if b then g else f) (row_of e) (col_of e)) (snd e)))) (reached E w (if b then Ls else Lm))).
Proof. exact @addB. Qed.
Print Assumptions C82_add.

Theorem C82_subtract : forall N (St : Type) E (w : world N) (s m : arg N) (q : smask St) (out : sink N St) R C f g Ls Lm (st : St),
  sane N -> reachable w -> presents E w s R C f Ls -> presents E w m R C g Lm ->
  fits q out ->
  amounts_to (SubtractB E s m q out) st w
    (map (fun e : Z * Z * T N => unless q (row_of e) (col_of e) (update_at out (row_of e) (col_of e) (fun x => nsub (snd e) x))) (reached E w Ls)).
Proof. exact @subtractB. Qed.
Print Assumptions C82_subtract.

Theorem C82_element_wise_multiply : forall N (St : Type) E (w : world N) (s m : arg N) (q : smask St) (out : sink N St) R C f g Ls Lm b (st : St),
  sane N -> reachable w -> presents E w s R C f Ls -> presents E w m R C g Lm -> registered E w s b ->
  fits q out ->
  amounts_to (elementWiseMultiplyB E s m q out) st w
    (map (fun e : Z * Z * T N => unless q (row_of e) (col_of e) (set_at out (row_of e) (col_of e) (snd e)))
      (filter (fun e : Z * Z * T N => neqb (snd e) ((if b then g else f) (row_of e) (col_of e))) (reached E w (if b then Ls else Lm)))).
Proof. exact @ewmB. Qed.
Print Assumptions C82_element_wise_multiply.

Theorem C82_element_wise_add : forall N (St : Type) E (w : world N) (s m : arg N) (q : smask St) (out : sink N St) R C f g Ls Lm (st : St),
  sane N -> reachable w -> presents E w s R C f Ls -> presents E w m R C g Lm ->
  fits q out ->
  amounts_to (elementWiseAddB E s m q out) st w
    (map (fun e : Z * Z * T N => unless q (row_of e) (col_of e) (set_at out (row_of e) (col_of e) (snd e))) (filter (fun e : Z * Z * T N => negb (neqb (snd e) n0)) (reached E w (Ls ++ Lm)))).
Proof. exact @ewaB. Qed.
Print Assumptions C82_element_wise_add.

Theorem C82_apply : forall N (St : Type) E (w : world N) a (q : smask St) (u : @unary N St) (out : sink N St) R C f L (st : St),
  sane N -> reachable w -> presents E w a R C f L -> fits q out ->
  amounts_to (ApplyB E a q u out) st w (map (fun e : Z * Z * T N => unless q (row_of e) (col_of e) (set_image out u (col_of e) (row_of e) (snd e))) (reached E w L)).
Proof. exact @applyB. Qed.
Print Assumptions C82_apply.

Theorem C82_transpose : forall N (St : Type) E (w : world N) a (q : smask St) (out : sink N St) R C f L (st : St),
  sane N -> reachable w -> presents E w a R C f L -> fits q out ->
  amounts_to (TransposeB E a q out) st w (map (fun e : Z * Z * T N => unless q (row_of e) (col_of e) (set_at out (col_of e) (row_of e) (snd e))) (reached E w L)).
Proof. exact @transposeB. Qed.
Print Assumptions C82_transpose.

Theorem C82_multiply : forall N (St : Type) E (w : world N) (s m : arg N) (q : smask St) (out : sink N St) R K C n (fr gc : Z -> Z -> T N) (st : St),
  sane N -> reachable w ->
  rows_show w (length (w_heap w)) s R K n fr -> columns_show w (length (w_heap w)) m K C n gc -> fits q out ->
  amounts_to (multiplyB E s m q out) st w
    (map (fun p : Z * Z => unless q (fst p) (snd p) (set_at out (fst p) (snd p) (sum_from n0 (fun l => nmul (fr (fst p) l) (gc (snd p) l)) 0 n)))
      (reached_n (Z.to_nat n) E w (positions R C))).
Proof. exact @multiplyB_ok. Qed.
Print Assumptions C82_multiply.

Theorem C82_wrong_mask : forall N (St : Type) E (w : world N) (s m : arg N) (q : smask St) (out : sink N St) u R C R' C' f g Ls Lm (st : St),
  presents E w s R C f Ls -> presents E w m R' C' g Lm ->
  (sm_Rows q <> so_Rows out \/ sm_Columns q <> so_Columns out) ->
  multiplyB E s m q out st w = (st, w, Panic) /\ AddB E s m q out st w = (st, w, Panic) /\ SubtractB E s m q out st w = (st, w, Panic) /\
  elementWiseMultiplyB E s m q out st w = (st, w, Panic) /\ elementWiseAddB E s m q out st w = (st, w, Panic) /\
  ApplyB E s q u out st w = (st, w, Panic) /\ TransposeB E s q out st w = (st, w, Panic).
Proof. exact @shared_mask. Qed.
Print Assumptions C82_wrong_mask.

Theorem C82_wrong_sizes : forall N (St : Type) E (w : world N) (s m : arg N) (q : smask St) (out : sink N St) R C R' C' f g Ls Lm (st : St),
  presents E w s R C f Ls -> presents E w m R' C' g Lm ->
  ((R <> R' \/ C <> C') -> AddB E s m q out st w = (st, w, Panic) /\ SubtractB E s m q out st w = (st, w, Panic)) /\
  (C <> R' -> multiplyB E s m q out st w = (st, w, Panic)).
Proof. exact @shared_sizes. Qed.
Print Assumptions C82_wrong_sizes.

Theorem C82_outputs_of_the_library : forall N (St : Type) E (w : world N) t O (s m : ptr) (q : smask St) (u : T N -> T N) R C f g Ls Lm b (st : St),
  sane N -> reachable w -> obj w t O ->
  operand E w t (Lib s) R C f Ls -> operand E w t (Lib m) R C g Lm -> registered E w (Lib s) b -> sm_Rows q = mat_Rows O -> sm_Columns q = mat_Columns O ->
  let Q := on_first (A := mat N) q in
  let Out := on_second (St := St) O in
  comes_to t O (AddS E s m q t) st w
    (map (fun e => unless Q (row_of e) (col_of e) (set_at Out (row_of e) (col_of e) (nadd ((if b then g else f) (row_of e) (col_of e)) (snd e)))) (reached E w (if b then Ls else Lm))) /\
  comes_to t O (SubtractS E s m q t) st w
    (map (fun e => unless Q (row_of e) (col_of e) (update_at Out (row_of e) (col_of e) (fun x => nsub (snd e) x))) (reached E w Ls)) /\
  comes_to t O (elementWiseMultiplyS E s m q t) st w
    (map (fun e => unless Q (row_of e) (col_of e) (set_at Out (row_of e) (col_of e) (snd e)))
      (filter (fun e => neqb (snd e) ((if b then g else f) (row_of e) (col_of e))) (reached E w (if b then Ls else Lm)))) /\
  comes_to t O (elementWiseAddS E s m q t) st w
    (map (fun e => unless Q (row_of e) (col_of e) (set_at Out (row_of e) (col_of e) (snd e))) (filter (fun e => negb (neqb (snd e) n0)) (reached E w (Ls ++ Lm)))) /\
  comes_to t O (ApplyQ E s q u t) st w
    (map (fun e => unless Q (row_of e) (col_of e) (set_at Out (col_of e) (row_of e) (u (snd e)))) (reached E w Ls)) /\
  comes_to t O (TransposeS E s q t) st w
    (map (fun e => unless Q (row_of e) (col_of e) (set_at Out (col_of e) (row_of e) (snd e))) (reached E w Ls)).
Proof. exact @library_shared. Qed.
Print Assumptions C82_outputs_of_the_library.

Theorem C82_product_in_the_library : forall N (St : Type) E (w : world N) t O (s m : ptr) (q : smask St) R K C n (fr gc : Z -> Z -> T N) (st : St),
  sane N -> reachable w -> obj w t O ->
  rows_show w t (Lib s) R K n fr -> columns_show w t (Lib m) K C n gc -> sm_Rows q = mat_Rows O -> sm_Columns q = mat_Columns O ->
  comes_to t O (multiplyS E s m q t) st w
    (map (fun p : Z * Z => unless (on_first q) (fst p) (snd p) (set_at (on_second O) (fst p) (snd p) (sum_from n0 (fun l => nmul (fr (fst p) l) (gc (snd p) l)) 0 n)))
      (reached_n (Z.to_nat n) E w (positions R C))).
Proof. exact @library_shared_product. Qed.
Print Assumptions C82_product_in_the_library.

Example C82_case : reachable ops /\ obj ops 12 oQ /\ obj ops 10 o10 /\ presents E0 ops (Own eye) 2 2 eye_at [(0, 0, gi 1); (1, 1, gi 1)] /\ registered E0 ops (Own eye) false /\ fits once ledger /\
  sm_Rows turns = mat_Rows o10 /\ sm_Columns turns = mat_Columns o10 /\
  (let '(st, w', o) := TransposeB E0 (Lib 12) once ledger [] ops in st = [(0, 0, gi 1); (1, 0, gi 2); (1, 1, gi 4)] /\ o = Ok tt) /\
  (let '(st, w', o) := TransposeB (Ecancel 1) (Lib 12) once ledger [] ops in st = [(0, 0, gi 1)] /\ o = Ok tt) /\
  (let '(st, w', o) := elementWiseAddB E0 (Own echo) (Own eye) once ledger [] ops in st = [(0, 0, gi 5); (1, 1, gi 1)] /\ o = Ok tt) /\
  (let '(st, w', o) := ApplyB E0 (Lib 12) once ticket ledger [] ops in st = [(0, 0, gi 1); (1, 0, gi 3); (1, 1, gi 6)] /\ o = Ok tt) /\
  (let '(st, w', o) := multiplyB E0 (Own eye) (Lib 12) once ledger [(1, 0, gi 9)] ops in st = [(1, 0, gi 9); (0, 0, gi 1); (0, 1, gi 2)] /\ o = Panic) /\
  (let '(st, w', o) := TransposeS E0 12 turns 10 0 ops in st = 4 /\ OpsWitness.cells w' 10 2 2 = map (fun z => Ok (gi z)) [1; 3; 0; 0] /\ o = Panic) /\
  (let '(st, w', o) := TransposeS (Ecancel 2) 12 turns 10 0 ops in st = 2 /\ OpsWitness.cells w' 10 2 2 = map (fun z => Ok (gi z)) [1; 0; 0; 0] /\ o = Ok tt).
Proof.
  split; [exact ops_reachable|]. split; [exact h12|]. split; [exact h10|]. split; [exact (eye_presents E0 ops)|]. split; [exact (eye_unregistered ops)|]. split; [exact once_fits|].
  split; [reflexivity|]. split; [reflexivity|]. exact shared_case.
Qed.
