(** Why the output may not be any operand: the operators of matrix.go:94-352 run on the 4 x 4 matrices
    of [MathThms.mathw], and what they leave in the output. *)
From Coq Require Import String.
From Verif Require Import GoBase Num SparseVec Csr Csc DenseVec DenseMat Mat World Ops Spec Api MathOps.
From Verif Require Import NumProofs ReduceWitness Witness StoreWitness OpsWitness OpsProps Steps MathThms InPlace.
Import ListNotations.

Lemma mul_into_right_no :
  ~ (forall N E (w : world N) (s m : ptr) S Mo K C f g,
      sane N -> reachable w -> obj w s S -> obj w m Mo -> is_dense S -> is_dense Mo -> s <> m ->
      denotes S K K f -> denotes Mo K C g -> e_ctx E = None ->
      exists w' M', MatrixMatrixMultiply E s m MNil m w = (w', Ok tt) /\ obj w' m M' /\
        denotes M' K C (fun i j => sum_from n0 (fun l => nmul (f i l) (g l j)) 0 K)).
Proof.
  intros H. destruct (H _ E0 mathw 2%nat 3%nat o4 o4' 4 4 _ _ goint_sane mathw_reachable k2 k3 Logic.I Logic.I ltac:(discriminate) z2 z3 eq_refl) as (w' & M' & Hr & Ho & Hd).
  assert (G : sum_from n0 (fun l => nmul (cell_of d4 1 l) (cell_of d4' l 0)) 0 4 = gi 116).
  { apply (read_back (MatrixMatrixMultiply E0 2 3 MNil 3) mathw w' _ 3%nat M' 4 4 _ 1 0 _ Hr Ho Hd); [lia|lia|]. vm_compute. reflexivity. }
  apply (f_equal wval) in G. vm_compute in G. discriminate G.
Qed.

Lemma transpose_into_itself_no :
  ~ (forall N E (w : world N) (s : ptr) S R f,
      sane N -> reachable w -> obj w s S -> is_dense S -> denotes S R R f -> e_ctx E = None ->
      R * R <= Z.of_nat (e_fuel E) ->
      exists w' S', Transpose E s MNil s w = (w', Ok tt) /\ obj w' s S' /\ denotes S' R R (fun i j => f j i)).
Proof.
  intros H. destruct (H _ E0 mathw 2%nat o4 4 _ goint_sane mathw_reachable k2 Logic.I z2 eq_refl ltac:(vm_compute; discriminate)) as (w' & M' & Hr & Ho & Hd).
  assert (G : cell_of d4 1 0 = gi 2).
  { apply (read_back (Transpose E0 2 MNil 2) mathw w' _ 2%nat M' 4 4 _ 0 1 _ Hr Ho Hd); [lia|lia|]. vm_compute. reflexivity. }
  apply (f_equal wval) in G. vm_compute in G. discriminate G.
Qed.

(** [Subtract] forgets the right operand: into the left one it always leaves zero ... *)
Lemma sub_into_left_no :
  ~ (forall N E (w : world N) (s m : ptr) S Mo R C f g,
      sane N -> reachable w -> obj w s S -> obj w m Mo -> is_dense S -> is_dense Mo -> s <> m ->
      denotes S R C f -> denotes Mo R C g -> e_ctx E = None -> R * C <= Z.of_nat (e_fuel E) ->
      exists w' S', Subtract E s m MNil s w = (w', Ok tt) /\ obj w' s S' /\ denotes S' R C (fun i j => nsub (f i j) (g i j))).
Proof.
  intros H. destruct (H _ E0 mathw 2%nat 3%nat o4 o4' 4 4 _ _ goint_sane mathw_reachable k2 k3 Logic.I Logic.I ltac:(discriminate) z2 z3 eq_refl ltac:(vm_compute; discriminate)) as (w' & M' & Hr & Ho & Hd).
  assert (G : nsub (cell_of d4 0 0) (cell_of d4' 0 0) = gi 0).
  { apply (read_back (Subtract E0 2 3 MNil 2) mathw w' _ 2%nat M' 4 4 _ 0 0 _ Hr Ho Hd); [lia|lia|]. vm_compute. reflexivity. }
  apply (f_equal wval) in G. vm_compute in G. discriminate G.
Qed.
