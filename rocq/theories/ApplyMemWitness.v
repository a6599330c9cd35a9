(** Concrete cases for [Apply] with a function that keeps memory. *)
From Coq Require Import String.
From Verif Require Import GoBase Num SparseVec Csr Csc DenseVec DenseMat Mat World Ops Spec Api.
From Verif Require Import BaseProofs MatProofs HeapProofs ReachProofs NumProofs StoreProofs StoreThms OpsThms OpsProps MaskThms Witness StoreWitness OpsWitness.
From Verif Require Import ReduceFormat MapZeroThms MapZeroWitness ApplyMem ApplyMemThms.
Import ListNotations.

(** counts its calls, and panics in the third *)
Definition third : unary num_goint Z := fun n v => (n + 1, if n =? 2 then Panic else Ok (nadd (nmul v (gi 10)) (gi n))).
Definition counts : unary num_goint Z := fun n v => (n + 1, Ok v).

Lemma enum_oQ : enumerates oQ [(0, 0, gi 1); (0, 1, gi 2); (1, 0, gi 3); (1, 1, gi 4)].
Proof.
  assert (Hw : wf oQ) by exact (sane_wfw _ goint_sane ops_reachable _ _ h12).
  replace [(0, 0, gi 1); (0, 1, gi 2); (1, 0, gi 3); (1, 1, gi 4)] with (entries oQ) by (vm_compute; reflexivity).
  apply enumerates_entries. exact Hw.
Qed.

Lemma third_case :
  let '(n, w', o) := ApplyS E0 12 MNil third 10 0 ops in
  n = 3 /\ o = Panic /\ cells w' 10 2 2 = map (fun z => Ok (gi z)) [10; 0; 21; 0] /\
  calls third 0 (chosen (covers ops MNil) false (reached E0 ops [(0, 0, gi 1); (0, 1, gi 2); (1, 0, gi 3); (1, 1, gi 4)]))
    = (3, [(0, 0, gi 10); (0, 1, gi 21)], Panic).
Proof. vm_compute. repeat split. Qed.
Lemma third_in_place_case :
  let '(n, w', o) := ApplyS E0 12 (MUser 2 2 (fun r c => 0 <? r + c)) third 12 0 ops in
  n = 3 /\ o = Panic /\ cells w' 12 2 2 = map (fun z => Ok (gi z)) [1; 20; 31; 4].
Proof. vm_compute. repeat split. Qed.

(** the same cells, stored differently: another number of calls *)
Definition memw : world num_goint := after_all [KCSRFrom dsum; KDenseFrom dsum; KNewDense 2 2] empty_world.
Lemma memw_reachable : reachable memw. Proof. unfold memw, dsum. reach_ops. Qed.
Lemma hmem0 : obj memw 0 sum0. Proof. at_obj. Qed.
Lemma hmem1 : obj memw 1 sum1. Proof. at_obj. Qed.
Lemma hmem2 : obj memw 2 o10. Proof. at_obj. Qed.

Lemma format_calls_no :
  ~ (forall N A E (w : world N) (s s' t : ptr) S S' O R C f h (u : unary N A) st,
      sane N -> reachable w -> obj w s S -> obj w s' S' -> obj w t O -> not_sparse_vector S -> not_sparse_vector S' -> not_sparse_vector O ->
      denotes S R C f -> denotes S' R C f -> denotes O C R h -> s <> t -> s' <> t ->
      mat_Values S <= Z.of_nat (e_fuel E) -> mat_Values S' <= Z.of_nat (e_fuel E) -> e_ctx E = None ->
      fst (fst (ApplyS E s MNil u t st w)) = fst (fst (ApplyS E s' MNil u t st w))).
Proof.
  intros H. specialize (H num_goint Z E0 memw 0%nat 1%nat 2%nat sum0 sum1 o10 2 2 (cell_of dsum) zeroes counts 0
    goint_sane memw_reachable hmem0 hmem1 hmem2 I I I tsum0 tsum1 t10 ltac:(discriminate) ltac:(discriminate)
    ltac:(vm_compute; discriminate) ltac:(vm_compute; discriminate) eq_refl).
  vm_compute in H. discriminate H.
Qed.

(** in place, with zeros at the ends of rows: 5 and -1 become 0, 7 becomes 14 *)
Definition all34 := MUser 3 4 (fun _ _ => true).
Definition zeroing : T num_goint -> T num_goint := fun v => if neqb v (gi 7) then nadd v v else gi 0.
Lemma zel_apply : zeros_end_lines (MCSR demo0) (fun i j v => if covers demo all34 i j then zeroing v else v) [(0, 0, gi 5); (2, 1, gi 7); (2, 3, gi (-1))] [].
Proof.
  intros l1 i j v l2 E Hx e He. rewrite app_nil_r in He. destruct l1 as [|a l1]; [injection E as <- <- <- <-; destruct He as [<-|[<-|[]]]; cbn; lia|].
  injection E as <- E. destruct l1 as [|a l1]; [injection E as <- <- <- <-; vm_compute in Hx; discriminate|].
  injection E as <- E. destruct l1 as [|a l1]; [injection E as <- <- <- <-; destruct He|]. injection E as <- E. destruct l1; discriminate.
Qed.
Lemma apply_zeros_case : reachable demo /\ obj demo 0 (MCSR demo0) /\ enumerates (MCSR demo0) [(0, 0, gi 5); (2, 1, gi 7); (2, 3, gi (-1))] /\
  mask_dims demo all34 3 4 /\
  zeros_end_lines (MCSR demo0) (fun i j v => if covers demo all34 i j then zeroing v else v) [(0, 0, gi 5); (2, 1, gi 7); (2, 3, gi (-1))] [] /\
  obj (fst (Apply E0 0 all34 zeroing 0 demo)) 0 (MCSR (MkCSR 3 4 [gi 14] [1] [0; 0; 0; 1])).
Proof.
  split; [apply demo_reachable|]. split; [exact demo_obj0|]. split; [exact enum_demo0|]. split; [split; reflexivity|]. split; [exact zel_apply|at_obj].
Qed.
