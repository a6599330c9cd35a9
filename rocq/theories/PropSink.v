(** Property C81: the operators with an output of the caller's own matrix type (Sink.v).

    [sink N St]: an output with memory [St], whose Set and Update do as they like.  [perform out st ws]: the calls [ws], made
    one after the other until one does not return; the memory and the outcome.  [makes out op st w ws]: [op] makes exactly the
    calls [ws], in this order, ends as the last of them ends, and leaves the library's objects alone.  [left_by w k l]: the
    elements of [l] at places the mask does not cover.  [reached], [reached_n]: the part of a list before the context is done.
    [mask_fits]: the mask has the output's size.  [presents], [registered], [rows_show], [columns_show]: see PropForeign.v;
    [length (w_heap w)] is no object, so any object may be an operand.  [lib_out O]: an object of the library seen as such an
    output; [same_run]: two runs that end the same way with the same objects;
    [written t O op w ws]: [op] does to the object [t] what the calls [ws] do to [O], and nothing else. *)
From Coq Require Import String.
From Verif Require Import GoBase Num SparseVec Csr Csc DenseVec DenseMat Mat World Ops Spec Api ApplyMem MaskMem Foreign Sink.
From Verif Require Import OpsProps SinkThms SinkLib Witness StoreWitness OpsWitness ApplyMemWitness ForeignWitness SinkWitness.
Import ListNotations.

Theorem C81_add : forall N (St : Type) E (w : world N) (s m : arg N) k (out : sink N St) R C f g Ls Lm b (st : St),
  sane N -> reachable w -> presents E w s R C f Ls -> presents E w m R C g Lm -> registered E w s b ->
  mask_fits w k out R C ->
  makes out (AddO E s m k out) st w
    (map (fun e : Z * Z * T N => WSet (row_of e) (col_of e) (nadd ((if b then g else f) (row_of e) (col_of e)) (snd e))) (left_by w k (reached E w (if b then Ls else Lm)))).
Proof. exact @addO. Qed.
Print Assumptions C81_add.

Theorem C81_subtract : forall N (St : Type) E (w : world N) (s m : arg N) k (out : sink N St) R C f g Ls Lm (st : St),
  sane N -> reachable w -> presents E w s R C f Ls -> presents E w m R C g Lm ->
  mask_fits w k out R C ->
  makes out (SubtractO E s m k out) st w
    (map (fun e : Z * Z * T N => WUpdate (row_of e) (col_of e) (fun x => nsub (snd e) x)) (left_by w k (reached E w Ls))).
Proof. exact @subtractO. Qed.
Print Assumptions C81_subtract.

Theorem C81_element_wise_multiply : forall N (St : Type) E (w : world N) (s m : arg N) k (out : sink N St) R C f g Ls Lm b (st : St),
  sane N -> reachable w -> presents E w s R C f Ls -> presents E w m R C g Lm -> registered E w s b ->
  mask_fits w k out R C ->
  makes out (elementWiseMultiplyO E s m k out) st w
    (map (fun e : Z * Z * T N => WSet (row_of e) (col_of e) (snd e))
      (left_by w k (filter (fun e : Z * Z * T N => neqb (snd e) ((if b then g else f) (row_of e) (col_of e))) (reached E w (if b then Ls else Lm))))).
Proof. exact @ewmO. Qed.
Print Assumptions C81_element_wise_multiply.

Theorem C81_element_wise_add : forall N (St : Type) E (w : world N) (s m : arg N) k (out : sink N St) R C f g Ls Lm (st : St),
  sane N -> reachable w -> presents E w s R C f Ls -> presents E w m R C g Lm ->
  mask_fits w k out R C ->
  makes out (elementWiseAddO E s m k out) st w
    (map (fun e : Z * Z * T N => WSet (row_of e) (col_of e) (snd e)) (left_by w k (filter (fun e : Z * Z * T N => negb (neqb (snd e) n0)) (reached E w (Ls ++ Lm))))).
Proof. exact @ewaO. Qed.
Print Assumptions C81_element_wise_add.

Theorem C81_apply : forall N (St : Type) E (w : world N) a k u (out : sink N St) R C f L (st : St),
  sane N -> reachable w -> presents E w a R C f L -> mask_fits w k out R C ->
  makes out (ApplyO E a k u out) st w (map (fun e : Z * Z * T N => WSet (col_of e) (row_of e) (u (snd e))) (left_by w k (reached E w L))).
Proof. exact @applyO. Qed.
Print Assumptions C81_apply.

Theorem C81_transpose : forall N (St : Type) E (w : world N) a k (out : sink N St) R C f L (st : St),
  sane N -> reachable w -> presents E w a R C f L -> mask_fits w k out R C ->
  makes out (TransposeO E a k out) st w (map (fun e : Z * Z * T N => WSet (col_of e) (row_of e) (snd e)) (left_by w k (reached E w L))).
Proof. exact @transposeO. Qed.
Print Assumptions C81_transpose.

Theorem C81_multiply : forall N (St : Type) E (w : world N) (s m : arg N) k (out : sink N St) R K C n (fr gc : Z -> Z -> T N) (st : St),
  sane N -> reachable w ->
  rows_show w (length (w_heap w)) s R K n fr -> columns_show w (length (w_heap w)) m K C n gc -> mask_fits w k out R C ->
  makes out (multiplyO E s m k out) st w
    (map (fun p : Z * Z => WSet (fst p) (snd p) (sum_from n0 (fun l => nmul (fr (fst p) l) (gc (snd p) l)) 0 n))
      (filter (fun p : Z * Z => negb (covers w k (fst p) (snd p))) (reached_n (Z.to_nat n) E w (positions R C)))).
Proof. exact @multiplyO_ok. Qed.
Print Assumptions C81_multiply.

Theorem C81_wrong_mask : forall N (St : Type) E (w : world N) (s m : arg N) k (out : sink N St) u R C R' C' r c f g Ls Lm (st : St),
  presents E w s R C f Ls -> presents E w m R' C' g Lm ->
  k <> MNil -> mask_dims w k r c -> (r <> so_Rows out \/ c <> so_Columns out) ->
  multiplyO E s m k out st w = (st, w, Panic) /\ AddO E s m k out st w = (st, w, Panic) /\ SubtractO E s m k out st w = (st, w, Panic) /\
  elementWiseMultiplyO E s m k out st w = (st, w, Panic) /\ elementWiseAddO E s m k out st w = (st, w, Panic) /\
  ApplyO E s k u out st w = (st, w, Panic) /\ TransposeO E s k out st w = (st, w, Panic).
Proof. exact @wrong_mask. Qed.
Print Assumptions C81_wrong_mask.

Theorem C81_wrong_sizes : forall N (St : Type) E (w : world N) (s m : arg N) k (out : sink N St) R C R' C' f g Ls Lm (st : St),
  presents E w s R C f Ls -> presents E w m R' C' g Lm ->
  ((R <> R' \/ C <> C') -> AddO E s m k out st w = (st, w, Panic) /\ SubtractO E s m k out st w = (st, w, Panic)) /\
  (C <> R' -> multiplyO E s m k out st w = (st, w, Panic)).
Proof. exact @wrong_sizes. Qed.
Print Assumptions C81_wrong_sizes.

Theorem C81_outputs_of_the_library : forall N E (w : world N) t O (s m : arg N) k u p o,
  obj w t O -> s <> Lib t -> m <> Lib t -> p <> t -> mask_not k t ->
  same_run t O (multiplyO E s m k (lib_out O)) (multiplyF E s m k t) w /\
  same_run t O (elementWiseMultiplyO E s m k (lib_out O)) (elementWiseMultiplyF E s m k t) w /\
  same_run t O (AddO E s m k (lib_out O)) (AddF E s m k t) w /\
  same_run t O (elementWiseAddO E s m k (lib_out O)) (elementWiseAddF E s m k t) w /\
  same_run t O (SubtractO E s m k (lib_out O)) (SubtractF E s m k t) w /\
  same_run t O (ApplyO E (Own o) k u (lib_out O)) (ApplyF E o k u t) w /\
  same_run t O (ApplyO E (Lib p) k u (lib_out O)) (Apply E p k u t) w /\
  same_run t O (TransposeO E s k (lib_out O)) (TransposeF E s k t) w.
Proof. exact @library_outputs. Qed.
Print Assumptions C81_outputs_of_the_library.

Theorem C81_writes_to_the_library : forall N E (w : world N) t O (s m : arg N) k R C f g Ls Lm b,
  sane N -> reachable w -> obj w t O -> operand E w t s R C f Ls -> operand E w t m R C g Lm -> registered E w s b ->
  mask_not k t -> mask_fits w k (lib_out O) R C ->
  written t O (AddF E s m k t) w (map (fun e => WSet (row_of e) (col_of e) (nadd ((if b then g else f) (row_of e) (col_of e)) (snd e))) (left_by w k (reached E w (if b then Ls else Lm)))) /\
  written t O (SubtractF E s m k t) w (map (fun e => WUpdate (row_of e) (col_of e) (fun x => nsub (snd e) x)) (left_by w k (reached E w Ls))) /\
  written t O (elementWiseMultiplyF E s m k t) w (map (fun e => WSet (row_of e) (col_of e) (snd e))
      (left_by w k (filter (fun e => neqb (snd e) ((if b then g else f) (row_of e) (col_of e))) (reached E w (if b then Ls else Lm))))) /\
  written t O (elementWiseAddF E s m k t) w (map (fun e => WSet (row_of e) (col_of e) (snd e)) (left_by w k (filter (fun e => negb (neqb (snd e) n0)) (reached E w (Ls ++ Lm))))) /\
  written t O (TransposeF E s k t) w (map (fun e => WSet (col_of e) (row_of e) (snd e)) (left_by w k (reached E w Ls))).
Proof. exact @library_writes. Qed.
Print Assumptions C81_writes_to_the_library.

Theorem C81_product_in_the_library : forall N E (w : world N) t O (s m : arg N) k R K C n (fr gc : Z -> Z -> T N),
  sane N -> reachable w -> obj w t O -> rows_show w t s R K n fr -> columns_show w t m K C n gc ->
  mask_not k t -> mask_fits w k (lib_out O) R C ->
  written t O (multiplyF E s m k t) w
    (map (fun p : Z * Z => WSet (fst p) (snd p) (sum_from n0 (fun l => nmul (fr (fst p) l) (gc (snd p) l)) 0 n))
      (filter (fun p : Z * Z => negb (covers w k (fst p) (snd p))) (reached_n (Z.to_nat n) E w (positions R C)))).
Proof. exact @library_product. Qed.
Print Assumptions C81_product_in_the_library.

Example C81_case : reachable ops /\ obj ops 12 oQ /\ presents E0 ops (Own eye) 2 2 eye_at [(0, 0, gi 1); (1, 1, gi 1)] /\ registered E0 ops (Own eye) false /\ mask_fits ops MNil ledger 2 2 /\
  (let '(st, w', o) := TransposeO E0 (Lib 12) MNil ledger [] ops in st = [(0, 0, gi 1); (1, 0, gi 2); (0, 1, gi 3)] /\ o = Panic) /\
  (let '(st, w', o) := AddO E0 (Lib 12) (Own eye) MNil ledger [] ops in st = [(0, 0, gi 2); (1, 1, gi 5)] /\ o = Ok tt) /\
  (let '(st, w', o) := elementWiseAddO E0 (Own echo) (Own eye) MNil ledger [] ops in st = [(0, 0, gi 5); (0, 0, gi 9); (0, 0, gi 1)] /\ o = Panic) /\
  (let '(st, w', o) := SubtractO E0 (Own eye) (Own echo) MNil ledger [] ops in st = [(0, 0, gi 1); (1, 1, gi 1)] /\ o = Ok tt) /\
  (let '(st, w', o) := multiplyO E0 (Own eye) (Lib 12) MNil ledger [] ops in st = [(0, 0, gi 1); (0, 1, gi 2); (1, 0, gi 3)] /\ o = Panic).
Proof.
  split; [exact ops_reachable|]. split; [exact h12|]. split; [exact (eye_presents E0 ops)|]. split; [exact (eye_unregistered ops)|]. split; [exact (ledger_fits ops)|]. exact sink_case.
Qed.
