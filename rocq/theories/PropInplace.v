(** Property C85: Negative and Apply in place with a matrix of the caller's own type (Inplace.v).

    [walker]: such a matrix: its size, and what each round of its Map iterator does with the function it is given.
    [as_told q yes no]: the function that asks the mask about the place and gives the image under [yes] for covered places,
    under [no] for the others; [keep], [negate].  [amounts_to]: see PropShared.v.  [reached_n 1 E w l]: the part of [l] reached
    before the context is done.  [table], [tabled R C ps]: a matrix that keeps one value for each place, with an iterator that
    visits the places [ps]; [covering R C cov]: a mask without memory; [plainly u]: a function without memory. *)
From Verif Require Import GoBase Num SparseVec Csr Csc DenseVec DenseMat Mat World Ops Spec Api ApplyMem MaskMem Foreign Sink Shared Inplace.
From Verif Require Import InplaceThms Witness StoreWitness OpsWitness InplaceWitness.
Import ListNotations.

Theorem C85_negative : forall N (St : Type) E (w : world N) (q : smask St) (out : walker N St) (st : St),
  wk_fits q out ->
  exists f, (forall r c v st, f r c v st = as_told q keep negate r c v st) /\ amounts_to (NegativeW E q out) st w (map (fun rd => rd f) (reached_n 1 E w (wk_rounds out))).
Proof. exact @negative_own. Qed.
Print Assumptions C85_negative.

Theorem C85_apply_in_place : forall N (St : Type) E (w : world N) (q : smask St) (u : @unary N St) (out : walker N St) (st : St),
  wk_fits q out ->
  exists f, (forall r c v st, f r c v st = as_told q u keep r c v st) /\ amounts_to (ApplyW E q u out) st w (map (fun rd => rd f) (reached_n 1 E w (wk_rounds out))).
Proof. exact @apply_own. Qed.
Print Assumptions C85_apply_in_place.

Theorem C85_sizes : forall N (St : Type) E (w : world N) (q : smask St) (u : @unary N St) (out : walker N St) (st : St),
  sm_Rows q <> wk_Rows out \/ sm_Columns q <> wk_Columns out ->
  NegativeW E q out st w = (st, w, Panic) /\ ApplyW E q u out st w = (st, w, Panic).
Proof. exact @inplace_sizes. Qed.
Print Assumptions C85_sizes.

Theorem C85_tables : forall N E (w : world N) R C ps cov (u : T N -> T N) (st : table N),
  NoDup ps ->
  let met i j := existsb (fun p => (i =? fst p) && (j =? snd p)) (reached_n 1 E w ps) in
  (exists st' w', NegativeW E (covering R C cov) (tabled R C ps) st w = (st', w', Ok tt) /\ w_heap w' = w_heap w /\
    forall i j, st' i j = if met i j && negb (cov i j) then nneg (st i j) else st i j) /\
  (exists st' w', ApplyW E (covering R C cov) (plainly u) (tabled R C ps) st w = (st', w', Ok tt) /\ w_heap w' = w_heap w /\
    forall i j, st' i j = if met i j && cov i j then u (st i j) else st i j).
Proof. exact @tables. Qed.
Print Assumptions C85_tables.

Example C85_case : NoDup squares /\ wk_fits open jotter /\
  cells_of (NegativeW E0 (covering 2 2 corner) (tabled 2 2 squares) tens ops) = (map gi [1; -2; -11; -12], Ok tt) /\
  cells_of (NegativeW (Ecancel 2) (covering 2 2 corner) (tabled 2 2 squares) tens ops) = (map gi [1; -2; 11; 12], Ok tt) /\
  cells_of (ApplyW E0 (covering 2 2 corner) (plainly (fun v => nadd v (gi 100))) (tabled 2 2 squares) tens ops) = (map gi [101; 2; 11; 12], Ok tt) /\
  cells_of (NegativeW E0 (covering 3 2 corner) (tabled 2 2 squares) tens ops) = (map gi [1; 2; 11; 12], Panic) /\
  (let '(st, w', o) := NegativeW E0 open jotter [] ops in st = map gi [-5; -5; 0] /\ o = Diverge) /\
  (let '(st, w', o) := NegativeW (Ecancel 2) open jotter [] ops in st = map gi [-5; -5; 0] /\ o = Ok tt) /\
  (let '(st, w', o) := NegativeW (Ecancel 1) open jotter [] ops in st = map gi [-5; -5] /\ o = Ok tt).
Proof. split; [exact squares_apart|]. split; [split; reflexivity|]. exact inplace_case. Qed.
