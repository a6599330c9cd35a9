(** Operators whose output is one of their operands: C67 (dense storage).

    [covers w k i j]: the mask [k] covers cell (i,j).  Multiply into its left operand and Add into
    either are right; Subtract is right only into its right operand.  The theorems named
    [_exact] say what is left in the output when the answer is not the mathematical one, and the
    refutations that it is not. *)
From Coq Require Import String.
From Verif Require Import GoBase Num SparseVec Csr Csc DenseVec DenseMat Mat World Ops Spec Api MathOps.
From Verif Require Import OpsProps Witness StoreWitness OpsWitness NumProofs Steps MathThms InPlace InPlaceWitness.
Import ListNotations.

Theorem C67_multiply_into_left : forall N E (w : world N) (s m : ptr) k S Mo R K f g,
  sane N -> reachable w -> obj w s S -> obj w m Mo -> is_dense S -> is_dense Mo ->
  denotes S R K f -> denotes Mo K K g -> mask_dims w k R K -> s <> m -> e_ctx E = None ->
  exists w' S', MatrixMatrixMultiply E s m k s w = (w', Ok tt) /\ MatrixVectorMultiply E s m k s w = (w', Ok tt) /\
    extends_but s w w' /\ obj w' s S' /\ same_storage S S' /\
    denotes S' R K (fun i j => if covers w k i j then f i j else sum_from n0 (fun l => nmul (f i l) (g l j)) 0 K).
Proof. exact @mul_into_left. Qed.
Print Assumptions C67_multiply_into_left.

Theorem C67_multiply_into_right_exact_partial : forall N E (w : world N) (s m : ptr) k S Mo K C f g,
  sane N -> reachable w -> obj w s S -> obj w m Mo -> is_dense S -> is_dense Mo ->
  denotes S K K f -> denotes Mo K C g -> mask_dims w k K C -> e_ctx E = None ->
  exists w' M' h, MatrixMatrixMultiply E s m k m w = (w', Ok tt) /\ MatrixVectorMultiply E s m k m w = (w', Ok tt) /\
    extends_but m w w' /\ obj w' m M' /\ same_storage Mo M' /\ denotes M' K C h /\
    forall i j, 0 <= i < K -> 0 <= j < C ->
      h i j = if covers w k i j then g i j else sum_from n0 (fun l => nmul (f i l) (if l <? i then h l j else g l j)) 0 K.
Proof. exact @mul_into_right. Qed.
Print Assumptions C67_multiply_into_right_exact_partial.

Theorem C67_add : forall N E (w : world N) (s m : ptr) k t S Mo O R C f g h,
  sane N -> reachable w -> obj w s S -> obj w m Mo -> obj w t O -> is_dense S -> is_dense Mo -> is_dense O ->
  denotes S R C f -> denotes Mo R C g -> denotes O R C h -> mask_dims w k R C -> IsSparseMatrix (e_reg E) S = false -> e_ctx E = None ->
  R * C <= Z.of_nat (e_fuel E) ->
  exists w' O', Add E s m k t w = (w', Ok tt) /\ extends_but t w w' /\ obj w' t O' /\ same_storage O O' /\
    denotes O' R C (fun i j => if covers w k i j then h i j else nadd (f i j) (g i j)).
Proof. exact @add_operator. Qed.
Print Assumptions C67_add.

Theorem C67_subtract_exact_partial : forall N E (w : world N) (s m : ptr) k t S Mo O R C f g h,
  sane N -> reachable w -> obj w s S -> obj w m Mo -> obj w t O -> is_dense S -> is_dense Mo -> is_dense O ->
  denotes S R C f -> denotes Mo R C g -> denotes O R C h -> mask_dims w k R C -> e_ctx E = None ->
  R * C <= Z.of_nat (e_fuel E) ->
  exists w' O', Subtract E s m k t w = (w', Ok tt) /\ extends_but t w w' /\ obj w' t O' /\ same_storage O O' /\
    denotes O' R C (fun i j => if covers w k i j then h i j else nsub (f i j) (h i j)).
Proof. exact @sub_operator. Qed.
Print Assumptions C67_subtract_exact_partial.

Theorem C67_transpose_exact_partial : forall N E (w : world N) (s : ptr) k S R f,
  sane N -> reachable w -> obj w s S -> is_dense S -> denotes S R R f -> mask_dims w k R R -> mask_not k s -> e_ctx E = None ->
  R * R <= Z.of_nat (e_fuel E) ->
  exists w' S', Transpose E s k s w = (w', Ok tt) /\ extends_but s w w' /\ obj w' s S' /\ same_storage S S' /\
    denotes S' R R (mirrored w k f).
Proof. exact @transpose_into_itself. Qed.
Print Assumptions C67_transpose_exact_partial.

Theorem C67_multiply_into_right_refuted :
  ~ (forall N E (w : world N) (s m : ptr) S Mo K C f g,
      sane N -> reachable w -> obj w s S -> obj w m Mo -> is_dense S -> is_dense Mo -> s <> m ->
      denotes S K K f -> denotes Mo K C g -> e_ctx E = None ->
      exists w' M', MatrixMatrixMultiply E s m MNil m w = (w', Ok tt) /\ obj w' m M' /\
        denotes M' K C (fun i j => sum_from n0 (fun l => nmul (f i l) (g l j)) 0 K)).
Proof. exact mul_into_right_no. Qed.
Print Assumptions C67_multiply_into_right_refuted.

Theorem C67_subtract_into_left_refuted :
  ~ (forall N E (w : world N) (s m : ptr) S Mo R C f g,
      sane N -> reachable w -> obj w s S -> obj w m Mo -> is_dense S -> is_dense Mo -> s <> m ->
      denotes S R C f -> denotes Mo R C g -> e_ctx E = None -> R * C <= Z.of_nat (e_fuel E) ->
      exists w' S', Subtract E s m MNil s w = (w', Ok tt) /\ obj w' s S' /\ denotes S' R C (fun i j => nsub (f i j) (g i j))).
Proof. exact sub_into_left_no. Qed.
Print Assumptions C67_subtract_into_left_refuted.

Theorem C67_transpose_refuted :
  ~ (forall N E (w : world N) (s : ptr) S R f,
      sane N -> reachable w -> obj w s S -> is_dense S -> denotes S R R f -> e_ctx E = None ->
      R * R <= Z.of_nat (e_fuel E) ->
      exists w' S', Transpose E s MNil s w = (w', Ok tt) /\ obj w' s S' /\ denotes S' R R (fun i j => f j i)).
Proof. exact transpose_into_itself_no. Qed.
Print Assumptions C67_transpose_refuted.

(** a 4 x 4 matrix multiplied into itself from the right, added to itself, and mirrored *)
Example C67_case : reachable mathw /\ obj mathw 2 o4 /\ obj mathw 3 o4' /\ denotes o4 4 4 (cell_of d4) /\ denotes o4' 4 4 (cell_of d4') /\
  map (rmap wval) (cells (fst (MatrixMatrixMultiply E0 2 3 MNil 2 mathw)) 2 4 4) =
    map (fun p => Ok (wval (sum_from n0 (fun l => nmul (cell_of d4 (fst p) l) (cell_of d4' l (snd p))) 0 4))) (positions 4 4) /\
  map (rmap wval) (cells (fst (Add E0 2 2 MNil 2 mathw)) 2 4 4) = map (fun p => Ok (2 * wval (cell_of d4 (fst p) (snd p)))) (positions 4 4) /\
  map (rmap wval) (cells (fst (Transpose E0 2 MNil 2 mathw)) 2 4 4) =
    map Ok [1; 2; 3; 4;  2; 6; 7; 8;  3; 7; 1; 0;  4; 8; 0; 4].
Proof.
  split; [exact mathw_reachable|]. split; [exact k2|]. split; [exact k3|]. split; [exact z2|]. split; [exact z3|]. repeat split; vm_compute; reflexivity.
Qed.
