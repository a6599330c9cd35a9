(** Property C83: the operators with operands of the caller's that refuse (Refuse.v).

    [sized w a R C]: the operand says its size is R x C.  [walks E w a L]: its iterator shows [L], places outside included.
    [at_gives w a g], [rows_give], [columns_give]: what comes of At, RowsAt and ColumnsAt; [Panic] and [Diverge] are answers
    like any other.  [with_answer x f]: go on with the answer, or end as the call does.  [nothing]: nothing is done.
    [products]: how many products of a sum are begun, and what comes of the sum.  [cell], [all_cells]: the cells of the product,
    each with the number of times the context is asked before it is written; [in_time]: those done before the context is.
    [thing], [all_of], [unless], [set_at], [update_at], [set_image], [amounts_to], [fits]: see PropShared.v.
    [as_mask w k out]: the mask [k] with the size of the output, asked in [w].  [lib_out O]: an object of the library as output.
    [settles t O op w l]: [op] ends as [l] on [O] ends, and changes nothing but the object [t], which is as [l] leaves it. *)
From Coq Require Import String.
From Verif Require Import GoBase Num SparseVec Csr Csc DenseVec DenseMat Mat World Ops Spec Api ApplyMem MaskMem Foreign Sink Shared Refuse.
From Verif Require Import OpsProps SinkThms SharedThms RefuseThms RefuseLib Witness StoreWitness OpsWitness ApplyMemWitness ForeignWitness SinkWitness SharedWitness RefuseWitness.
Import ListNotations.

Theorem C83_add : forall N (St : Type) E (w : world N) (s m : arg N) (q : smask St) (out : sink N St) R C g L b (st : St),
  sane N -> reachable w -> sized w s R C -> sized w m R C -> registered E w s b ->
  walks E w (if b then s else m) L -> at_gives w (if b then m else s) g -> fits q out ->
  amounts_to (AddB E s m q out) st w
    (map (fun e : Z * Z * T N => with_answer (g (row_of e) (col_of e)) (fun x => unless q (row_of e) (col_of e) (set_at out (row_of e) (col_of e) (nadd x (snd e))))) (reached E w L)).
Proof. exact @refuse_add. Qed.
Print Assumptions C83_add.

Theorem C83_element_wise_multiply : forall N (St : Type) E (w : world N) (s m : arg N) (q : smask St) (out : sink N St) g L b (st : St),
  sane N -> reachable w -> registered E w s b ->
  walks E w (if b then s else m) L -> at_gives w (if b then m else s) g -> fits q out ->
  amounts_to (elementWiseMultiplyB E s m q out) st w
    (map (fun e : Z * Z * T N => with_answer (g (row_of e) (col_of e)) (fun x => if neqb (snd e) x then unless q (row_of e) (col_of e) (set_at out (row_of e) (col_of e) (snd e)) else nothing)) (reached E w L)).
Proof. exact @refuse_ewm. Qed.
Print Assumptions C83_element_wise_multiply.

Theorem C83_subtract : forall N (St : Type) E (w : world N) (s m : arg N) (q : smask St) (out : sink N St) R C L (st : St),
  sane N -> reachable w -> sized w s R C -> sized w m R C ->
  walks E w s L -> fits q out ->
  amounts_to (SubtractB E s m q out) st w
    (map (fun e : Z * Z * T N => unless q (row_of e) (col_of e) (update_at out (row_of e) (col_of e) (fun x => nsub (snd e) x))) (reached E w L)).
Proof. exact @refuse_subtract. Qed.
Print Assumptions C83_subtract.

Theorem C83_element_wise_add : forall N (St : Type) E (w : world N) (s m : arg N) (q : smask St) (out : sink N St) Ls Lm (st : St),
  sane N -> reachable w -> walks E w s Ls -> walks E w m Lm -> fits q out ->
  amounts_to (elementWiseAddB E s m q out) st w
    (map (fun e : Z * Z * T N => unless q (row_of e) (col_of e) (set_at out (row_of e) (col_of e) (snd e))) (filter (fun e : Z * Z * T N => negb (neqb (snd e) n0)) (reached E w (Ls ++ Lm)))).
Proof. exact @refuse_ewa. Qed.
Print Assumptions C83_element_wise_add.

Theorem C83_apply : forall N (St : Type) E (w : world N) a (q : smask St) (u : @unary N St) (out : sink N St) L (st : St),
  sane N -> reachable w -> walks E w a L -> fits q out ->
  amounts_to (ApplyB E a q u out) st w (map (fun e : Z * Z * T N => unless q (row_of e) (col_of e) (set_image out u (col_of e) (row_of e) (snd e))) (reached E w L)).
Proof. exact @refuse_apply. Qed.
Print Assumptions C83_apply.

Theorem C83_transpose : forall N (St : Type) E (w : world N) a (q : smask St) (out : sink N St) L (st : St),
  sane N -> reachable w -> walks E w a L -> fits q out ->
  amounts_to (TransposeB E a q out) st w (map (fun e : Z * Z * T N => unless q (row_of e) (col_of e) (set_at out (col_of e) (row_of e) (snd e))) (reached E w L)).
Proof. exact @refuse_transpose. Qed.
Print Assumptions C83_transpose.

Theorem C83_multiply : forall N (St : Type) E (w : world N) (s m : arg N) (q : smask St) (out : sink N St) R K C rows columns (st : St),
  sane N -> reachable w -> sized w s R K -> sized w m K C ->
  rows_give w s rows -> columns_give w m columns -> fits q out ->
  amounts_to (multiplyB E s m q out) st w (in_time E w (all_cells q out R C rows columns)).
Proof. exact @refuse_multiply. Qed.
Print Assumptions C83_multiply.

Theorem C83_every_operand_answers : forall N (w : world N) a,
  sane N -> reachable w -> (exists g, at_gives w a g) /\ (exists g, rows_give w a g) /\ (exists g, columns_give w a g).
Proof. exact @operands_answer. Qed.
Print Assumptions C83_every_operand_answers.

Theorem C83_outputs_of_the_library : forall N E (w : world N) t O (s m : arg N) k R C g L Ls Lm b,
  sane N -> reachable w -> obj w t O -> s <> Lib t -> m <> Lib t -> mask_not k t -> mask_dims w k (mat_Rows O) (mat_Columns O) ->
  registered E w s b -> walks E w s Ls -> walks E w m Lm -> L = (if b then Ls else Lm) -> at_gives w (if b then m else s) g ->
  let Q := as_mask w k (lib_out O) in
  let Out := lib_out O in
  (sized w s R C -> sized w m R C ->
    settles t O (AddF E s m k t) w
      (map (fun e : Z * Z * T N => with_answer (g (row_of e) (col_of e)) (fun x => unless Q (row_of e) (col_of e) (set_at Out (row_of e) (col_of e) (nadd x (snd e))))) (reached E w L)) /\
    settles t O (SubtractF E s m k t) w
      (map (fun e : Z * Z * T N => unless Q (row_of e) (col_of e) (update_at Out (row_of e) (col_of e) (fun x => nsub (snd e) x))) (reached E w Ls))) /\
  settles t O (elementWiseMultiplyF E s m k t) w
    (map (fun e : Z * Z * T N => with_answer (g (row_of e) (col_of e)) (fun x => if neqb (snd e) x then unless Q (row_of e) (col_of e) (set_at Out (row_of e) (col_of e) (snd e)) else nothing)) (reached E w L)) /\
  settles t O (elementWiseAddF E s m k t) w
    (map (fun e : Z * Z * T N => unless Q (row_of e) (col_of e) (set_at Out (row_of e) (col_of e) (snd e))) (filter (fun e : Z * Z * T N => negb (neqb (snd e) n0)) (reached E w (Ls ++ Lm)))) /\
  settles t O (TransposeF E s k t) w
    (map (fun e : Z * Z * T N => unless Q (row_of e) (col_of e) (set_at Out (col_of e) (row_of e) (snd e))) (reached E w Ls)).
Proof. exact @refuse_library. Qed.
Print Assumptions C83_outputs_of_the_library.

Theorem C83_apply_to_the_library : forall N E (w : world N) t O x k (u : T N -> T N),
  sane N -> reachable w -> obj w t O -> mask_not k t -> mask_dims w k (mat_Rows O) (mat_Columns O) ->
  settles t O (ApplyF E x k u t) w
    (map (fun e : Z * Z * T N => unless (as_mask w k (lib_out O)) (row_of e) (col_of e) (set_at (lib_out O) (col_of e) (row_of e) (u (snd e)))) (reached E w (own_shows x))).
Proof. exact @refuse_library_apply. Qed.
Print Assumptions C83_apply_to_the_library.

Theorem C83_product_in_the_library : forall N E (w : world N) t O (s m : arg N) k R K C rows columns,
  sane N -> reachable w -> obj w t O -> s <> Lib t -> m <> Lib t -> mask_not k t -> mask_dims w k (mat_Rows O) (mat_Columns O) ->
  sized w s R K -> sized w m K C -> rows_give w s rows -> columns_give w m columns ->
  settles t O (multiplyF E s m k t) w (in_time E w (all_cells (as_mask w k (lib_out O)) (lib_out O) R C rows columns)).
Proof. exact @refuse_library_multiply. Qed.
Print Assumptions C83_product_in_the_library.

Example C83_case : reachable ops /\ obj ops 12 oQ /\ obj ops 10 o10 /\ sized ops (Own cracked) 2 2 /\ walks E0 ops (Own cracked) [(0, 1, gi 5); (5, 5, gi 1); (1, 1, gi 1)] /\
  at_gives ops (Own cracked) cracked_at /\ rows_give ops (Own cracked) cracked_row /\ columns_give ops (Own cracked) cracked_column /\ registered E0 ops (Own cracked) false /\ fits never ledger /\
  (let '(st, w', o) := AddB E0 (Own cracked) (Lib 12) never ledger [] ops in st = [(0, 0, gi 8); (0, 1, gi 9)] /\ o = Panic) /\
  (let '(st, w', o) := AddB (Ecancel 2) (Own cracked) (Lib 12) never ledger [] ops in st = [(0, 0, gi 8); (0, 1, gi 9)] /\ o = Ok tt) /\
  (let '(st, w', o) := multiplyB E0 (Own cracked) (Lib 12) never ledger [] ops in st = [(0, 0, gi 11); (0, 1, gi 16)] /\ o = Panic) /\
  (let '(st, w', o) := multiplyB E0 (Lib 12) (Own cracked) never ledger [] ops in st = [(0, 0, gi 3)] /\ o = Diverge) /\
  (let '(st, w', o) := multiplyB (Ecancel 3) (Lib 12) (Own cracked) never ledger [] ops in st = [(0, 0, gi 3)] /\ o = Ok tt) /\
  (let '(w', o) := TransposeF E0 (Own cracked) MNil 10 ops in o = Panic /\ OpsWitness.cells w' 10 2 2 = map (fun z => Ok (gi z)) [0; 0; 5; 0]) /\
  (let '(w', o) := AddF E0 (Own cracked) (Lib 12) MNil 10 ops in o = Panic /\ OpsWitness.cells w' 10 2 2 = map (fun z => Ok (gi z)) [8; 9; 0; 0]).
Proof.
  split; [exact ops_reachable|]. split; [exact h12|]. split; [exact h10|]. destruct (cracked_meets ops) as (H1 & H2 & H3 & H4 & H5 & H6 & H7).
  do 7 (split; [assumption|]). exact refuse_case.
Qed.
