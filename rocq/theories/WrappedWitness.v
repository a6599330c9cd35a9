(** Concrete cases of operators given a wrapped matrix. *)
From Coq Require Import String.
From Verif Require Import GoBase Num SparseVec Csr Csc DenseVec DenseMat Mat World Ops Api Spec Wrapped.
From Verif Require Import NumProofs HeapProofs ReachProofs StoreProofs Steps OpsProps Witness StoreWitness OpsWitness WrappedThms.
Import ListNotations.
Local Open Scope string_scope.
Local Open Scope Z_scope.

Lemma float64_cmp : cmp_ok num_float64.
Proof. apply go_types_cmp. simpl. tauto. Qed.

(** float64 matrices: two in CSR storage, the second with one element less, the first one
    again in dense storage, and an empty one *)
Definition xA := [[fl 1; fl 2]; [fl 0; fl 3]].
Definition xB := [[fl 1; fl 0]; [fl 0; fl 3]].
Definition xw : world num_float64 := after_all [KCSRFrom xA; KCSRFrom xB; KDenseFrom xA; KNewDense 2 2] empty_world.
Lemma xw_reachable : reachable xw.
Proof. unfold xw, xA, xB. reach_ops. Qed.
Definition xo0 : mat num_float64 := MCSR (MkCSR 2 2 [fl 1; fl 2; fl 3] [0; 1; 1] [0; 2; 3]).
Definition xo1 : mat num_float64 := MCSR (MkCSR 2 2 [fl 1; fl 3] [0; 1] [0; 1; 2]).
Definition xo2 : mat num_float64 := MDM (MkDense 2 2 xA).
Lemma x0 : obj xw 0 xo0. Proof. at_obj. Qed.
Lemma x1 : obj xw 1 xo1. Proof. at_obj. Qed.
Lemma x2 : obj xw 2 xo2. Proof. at_obj. Qed.
Definition xo3 : mat num_float64 := MDM (MkDense 2 2 [[fl 0; fl 0]; [fl 0; fl 0]]).
Lemma x3 : obj xw 3 xo3. Proof. at_obj. Qed.
Ltac xtab H := apply (denotes_tab xw _ _ _ _ _ float64_sane xw_reachable H eq_refl eq_refl); vm_compute; reflexivity.
Lemma xd0 : denotes xo0 2 2 (cell_of xA). Proof. xtab x0. Qed.
Lemma xd1 : denotes xo1 2 2 (cell_of xB). Proof. xtab x1. Qed.
Lemma xd2 : denotes xo2 2 2 (cell_of xA). Proof. xtab x2. Qed.
Lemma xd3 : denotes xo3 2 2 (fun _ _ => fl 0). Proof. xtab x3. Qed.
Lemma E0_named : unregistered E0 "Named".
Proof. intros H. vm_compute in H. intuition discriminate. Qed.

(** int matrices in dense storage *)
Definition yA := [[gi 1; gi 2]; [gi 3; gi 4]].
Definition yB := [[gi 1; gi 5]; [gi 3; gi 0]].
Definition yw : world num_goint := after_all [KDenseFrom yA; KDenseFrom yB] empty_world.
Lemma yw_reachable : reachable yw.
Proof. unfold yw, yA, yB. reach_ops. Qed.
Definition yo0 : mat num_goint := MDM (MkDense 2 2 yA).
Definition yo1 : mat num_goint := MDM (MkDense 2 2 yB).
Lemma y0 : obj yw 0 yo0. Proof. at_obj. Qed.
Lemma y1 : obj yw 1 yo1. Proof. at_obj. Qed.
Ltac ytab H := apply (denotes_tab yw _ _ _ _ _ goint_sane yw_reachable H eq_refl eq_refl); vm_compute; reflexivity.
Lemma yd0 : denotes yo0 2 2 (cell_of yA). Proof. ytab y0. Qed.
Lemma yd1 : denotes yo1 2 2 (cell_of yB). Proof. ytab y1. Qed.

(** what a program reads in cell (r, c) of [p] after a call *)
Definition reads {N A} (a : M N A) (p : ptr) (r c : Z) (w : world N) : res (T N) := snd ((let! _ := a in p_At p r c) w).
(** the cells of a 2 x 2 matrix after a call *)
Definition cells2 {N A} (a : M N A) (p : ptr) (w : world N) : list (res (T N)) :=
  map (fun q => reads a p (fst q) (snd q) w) [(0, 0); (0, 1); (1, 0); (1, 1)].

Lemma hequal_no :
  ~ (forall N E (w : world N) (s m : handle) S Mo R C f g,
      sane N -> cmp_ok N -> reachable w -> by_pointer s -> by_pointer m -> obj w (h_ptr s) S -> obj w (h_ptr m) Mo ->
      is_sparse_matrix S -> is_sparse_matrix Mo -> denotes S R C f -> denotes Mo R C g ->
      mat_Values S <= Z.of_nat (e_fuel E) -> mat_Values Mo <= Z.of_nat (e_fuel E) -> e_ctx E = None ->
      exists w' b, hEqual E (Some s) (Some m) w = (w', Ok b) /\
        (b = true <-> forall i j, 0 <= i < R -> 0 <= j < C -> neqb (f i j) (g i j) = true)).
Proof.
  intros H. destruct (H _ E0 xw (Wrapped 0 "Named" (Plain 0)) (Plain 1) _ _ _ _ _ _ float64_sane float64_cmp xw_reachable I I x0 x1 I I xd0 xd1
    ltac:(vm_compute; discriminate) ltac:(vm_compute; discriminate) eq_refl) as (w' & b & Hr & Hb).
  assert (Hs : snd (hEqual E0 (Some (Wrapped 0 "Named" (Plain 0))) (Some (Plain 1)) xw) = Ok true) by (vm_compute; reflexivity).
  rewrite Hr in Hs. cbn [snd] in Hs. injection Hs as ->. destruct Hb as [Hb _]. specialize (Hb eq_refl 0 1 ltac:(lia) ltac:(lia)).
  vm_compute in Hb. discriminate Hb.
Qed.
Lemma hadd_no :
  ~ (forall N E (w : world N) (s m t : handle) r c, reachable w -> reads (hAdd E s m MNil t) (h_ptr t) r c w =
      reads (Add E (h_ptr s) (h_ptr m) MNil (h_ptr t)) (h_ptr t) r c w).
Proof.
  intros H. pose proof (H _ E0 xw (Wrapped 0 "Named" (Plain 1)) (Plain 2) (Plain 3) 0 1 xw_reachable) as X. vm_compute in X. discriminate X.
Qed.
Lemma happly_no :
  ~ (forall N E (w : world N) (s t : handle) u r c, reachable w -> reads (hApply E s MNil u t) (h_ptr t) r c w =
      reads (Apply E (h_ptr s) MNil u (h_ptr t)) (h_ptr t) r c w).
Proof.
  intros H. pose proof (H _ E0 yw (Plain 0) (Wrapped 0 "Named" (Plain 0)) (fun x => nadd x (gi 10)) 0 1 yw_reachable) as X. vm_compute in X. discriminate X.
Qed.
Lemma hewm_no :
  ~ (forall N E (w : world N) (s m t : handle) r c, reachable w -> reads (hElementWiseMatrixMultiply E s m MNil t) (h_ptr t) r c w =
      reads (ElementWiseMatrixMultiply E (h_ptr s) (h_ptr m) MNil (h_ptr t)) (h_ptr t) r c w).
Proof.
  intros H. pose proof (H _ E0 yw (Plain 0) (Plain 1) (Wrapped 0 "Named" (Plain 0)) 0 1 yw_reachable) as X. vm_compute in X. discriminate X.
Qed.

Lemma equal_case :
  reachable xw /\ unregistered E0 "Named" /\ obj xw 0 xo0 /\ obj xw 1 xo1 /\ obj xw 2 xo2 /\
  denotes xo0 2 2 (cell_of xA) /\ denotes xo1 2 2 (cell_of xB) /\ denotes xo2 2 2 (cell_of xA) /\
  map (fun q => snd (hEqual E0 (Some (fst q)) (Some (snd q)) xw))
    [(Plain 0, Plain 1); (Wrapped 0 "Named" (Plain 0), Plain 1); (Plain 1, Wrapped 0 "Named" (Plain 0)); (Wrapped 0 "Named" (Plain 0), Wrapped 1 "Named" (Plain 1));
     (Plain 1, Plain 0); (Wrapped 1 "Named" (Plain 1), Plain 0); (Plain 0, Plain 2); (Wrapped 0 "Named" (Plain 0), Plain 2)] =
    map Ok [false; true; true; false; false; false; true; false] /\
  snd (hm_Equal E0 (Wrapped 0 "Named" (Plain 0)) (Some (Plain 1)) xw) = Ok false /\
  snd (hEqual E0 (Some (ByValue "Named" (Plain 0))) (Some (Plain 1)) xw) = Panic.
Proof.
  split; [exact xw_reachable|]. split; [exact E0_named|]. split; [exact x0|]. split; [exact x1|]. split; [exact x2|].
  split; [exact xd0|]. split; [exact xd1|]. split; [exact xd2|]. repeat split; vm_compute; reflexivity.
Qed.
Lemma add_case :
  reachable xw /\ obj xw 1 xo1 /\ obj xw 2 xo2 /\ obj xw 3 xo3 /\
  denotes xo1 2 2 (cell_of xB) /\ denotes xo2 2 2 (cell_of xA) /\ denotes xo3 2 2 (fun _ _ => fl 0) /\
  cells2 (hAdd E0 (Plain 1) (Plain 2) MNil (Plain 3)) 3 xw = map Ok [fl 2; fl 0; fl 0; fl 6] /\
  cells2 (hAdd E0 (Wrapped 0 "Named" (Plain 1)) (Plain 2) MNil (Plain 3)) 3 xw = map Ok [fl 2; fl 2; fl 0; fl 6].
Proof.
  split; [exact xw_reachable|]. split; [exact x1|]. split; [exact x2|]. split; [exact x3|].
  split; [exact xd1|]. split; [exact xd2|]. split; [exact xd3|]. split; vm_compute; reflexivity.
Qed.
Lemma output_case :
  reachable yw /\ obj yw 0 yo0 /\ obj yw 1 yo1 /\ denotes yo0 2 2 (cell_of yA) /\ denotes yo1 2 2 (cell_of yB) /\
  h_same (Plain 0) (Wrapped 0 "Named" (Plain 0)) = false /\ h_same (Wrapped 1 "Named" (Plain 0)) (Wrapped 0 "Named" (Plain 0)) = false /\
  cells2 (hElementWiseMatrixMultiply E0 (Plain 0) (Plain 1) MNil (Plain 0)) 0 yw = map (fun x => Ok (gi x)) [1; 0; 3; 0] /\
  cells2 (hElementWiseMatrixMultiply E0 (Plain 0) (Plain 1) MNil (Wrapped 0 "Named" (Plain 0))) 0 yw = map (fun x => Ok (gi x)) [1; 2; 3; 4] /\
  cells2 (hElementWiseMatrixAdd E0 (Plain 0) (Plain 1) MNil (Plain 0)) 0 yw = map (fun x => Ok (gi x)) [1; 5; 3; 4] /\
  cells2 (hElementWiseMatrixAdd E0 (Plain 0) (Plain 1) MNil (Wrapped 0 "Named" (Plain 0))) 0 yw = map (fun x => Ok (gi x)) [1; 5; 3; 4] /\
  cells2 (hApply E0 (Plain 0) MNil (fun x => nadd x (gi 10)) (Plain 0)) 0 yw = map (fun x => Ok (gi x)) [1; 2; 3; 4] /\
  cells2 (hApply E0 (Plain 0) MNil (fun x => nadd x (gi 10)) (Wrapped 0 "Named" (Plain 0))) 0 yw = map (fun x => Ok (gi x)) [11; 22; 12; 14].
Proof.
  split; [exact yw_reachable|]. split; [exact y0|]. split; [exact y1|]. split; [exact yd0|]. split; [exact yd1|].
  repeat split; vm_compute; reflexivity.
Qed.
(** operands in a wrapper each, the output in that of one of them: nothing can tell *)
Lemma transparent_case :
  reachable yw /\ obj yw 0 yo0 /\ obj yw 1 yo1 /\
  classed (N := num_goint) E0 (Wrapped 0 "Named" (Plain 0)) /\ told (Wrapped 0 "Named" (Plain 0)) (Plain 1) /\ told (Wrapped 1 "Named" (Wrapped 2 "Named" (Plain 1))) (Wrapped 1 "Named" (Wrapped 2 "Named" (Plain 1))) /\
  ~ told (Plain 0) (Wrapped 0 "Named" (Plain 0)) /\ told (ByValue "Named" (Plain 0)) (ByValue "Named" (Plain 0)) /\
  cells2 (hElementWiseMatrixMultiply E0 (Wrapped 0 "Named" (Plain 0)) (Wrapped 1 "Named" (Plain 1)) MNil (Wrapped 1 "Named" (Plain 1))) 1 yw = map (fun x => Ok (gi x)) [1; 0; 3; 0].
Proof.
  split; [exact yw_reachable|]. split; [exact y0|]. split; [exact y1|].
  split; [split; [exact I|intros [x|x|x|x|x]; vm_compute; reflexivity]|]. split; [reflexivity|]. split; [reflexivity|]. split; [discriminate|]. split; [reflexivity|vm_compute; reflexivity].
Qed.
