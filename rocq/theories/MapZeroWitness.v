(** Concrete cases for [Map] loops whose function produces zeros (csrMatrix.go:392-401, cscMatrix.go:402-411,
    sparseVector.go:357-366). *)
From Coq Require Import String.
From Verif Require Import GoBase Num SparseVec Csr Csc DenseVec DenseMat Mat World Ops Spec Api.
From Verif Require Import StoreProofs StoreThms Witness StoreWitness OpsWitness MapZeroThms.

(** 0 at (0,0) and (2,3), the last stored elements of their rows *)
Definition end_zeros (i j : Z) (v : T num_goint) : T num_goint := if (i =? 0) || (j =? 3) then gi 0 else nadd v v.

Lemma zel_demo : zeros_end_lines (MCSR demo0) end_zeros [(0, 0, gi 5); (2, 1, gi 7); (2, 3, gi (-1))] [].
Proof.
  intros l1 i j v l2 E Hx e He. rewrite app_nil_r in He. destruct l1 as [|a l1]; [injection E as <- <- <- <-; destruct He as [<-|[<-|[]]]; cbn; lia|].
  injection E as <- E. destruct l1 as [|a l1]; [injection E as <- <- <- <-; vm_compute in Hx; discriminate|].
  injection E as <- E. destruct l1 as [|a l1]; [injection E as <- <- <- <-; destruct He|]. injection E as <- E. destruct l1; discriminate.
Qed.
Lemma enum_demo0 : enumerates (MCSR demo0) [(0, 0, gi 5); (2, 1, gi 7); (2, 3, gi (-1))].
Proof. intros fuel Hf. change (mat_Values (MCSR demo0)) with 3 in Hf. destruct fuel as [|[|[|fuel]]]; try lia. destruct fuel; reflexivity. Qed.
Lemma map_zeros_case : reachable demo /\ obj demo 0 (MCSR demo0) /\ enumerates (MCSR demo0) [(0, 0, gi 5); (2, 1, gi 7); (2, 3, gi (-1))] /\
  zeros_end_lines (MCSR demo0) end_zeros [(0, 0, gi 5); (2, 1, gi 7); (2, 3, gi (-1))] [] /\
  mapped (MCSR demo0) end_zeros [(0, 0, gi 5); (2, 1, gi 7); (2, 3, gi (-1))] = [(2, 1, gi 14)] /\
  obj (fst (user_Map E0 0 end_zeros demo)) 0 (MCSR (MkCSR 3 4 [gi 14] [1] [0; 0; 0; 1])).
Proof.
  split; [apply demo_reachable|]. split; [exact demo_obj0|]. split; [exact enum_demo0|]. split; [exact zel_demo|]. split; [vm_compute; reflexivity|at_obj].
Qed.

(** 0 at (0,0), the end of its row, and at (2,1), which (2,3) follows *)
Definition mid_zero (i j : Z) (v : T num_goint) : T num_goint := if j <? 3 then gi 0 else v.
Lemma zel_mid : zeros_end_lines (MCSR demo0) mid_zero [(0, 0, gi 5)] [(2, 1, gi 7); (2, 3, gi (-1))].
Proof.
  intros l1 i j v l2 E Hx e He. destruct l1 as [|a l1]; [injection E as <- <- <- <-; destruct He as [<-|[<-|[]]]; cbn; lia|]. destruct l1; discriminate.
Qed.
Lemma map_panics_case : reachable demo /\ obj demo 0 (MCSR demo0) /\ enumerates (MCSR demo0) ([(0, 0, gi 5)] ++ (2, 1, gi 7) :: [(2, 3, gi (-1))]) /\
  zeros_end_lines (MCSR demo0) mid_zero [(0, 0, gi 5)] [(2, 1, gi 7); (2, 3, gi (-1))] /\ neqb (mid_zero 2 1 (gi 7)) n0 = true /\
  (forall e : Z * Z * T num_goint, In e [(2, 3, gi (-1))] -> same_line (MCSR demo0) (2, 1) (fst e)).
Proof.
  split; [apply demo_reachable|]. split; [exact demo_obj0|]. split; [exact enum_demo0|]. split; [exact zel_mid|]. split; [vm_compute; reflexivity|].
  intros e [<-|[]]. reflexivity.
Qed.
Lemma enum_demo4 : enumerates (MSV demo4) ([] ++ (0, 0, gi 4) :: [(1, 0, gi 6)]).
Proof. intros fuel Hf. change (mat_Values (MSV demo4)) with 2 in Hf. destruct fuel as [|[|fuel]]; try lia. destruct fuel; reflexivity. Qed.
Lemma map_vector_case : reachable demo /\ obj demo 4 (MSV demo4) /\ enumerates (MSV demo4) ([] ++ (0, 0, gi 4) :: [(1, 0, gi 6)]).
Proof. split; [apply demo_reachable|]. split; [exact demo_obj4|exact enum_demo4]. Qed.

(** a loop that comes to its end but has passed over one element and has handled another twice *)
Definition skipping : world num_goint := after_all [KNewCSR 2 2; KSet 0 0 0 (gi 1); KSet 0 0 1 (gi 2); KSet 0 1 1 (gi 3)] empty_world.
Definition skip_f (i j : Z) (v : T num_goint) : T num_goint := if (i =? 0) && (j =? 0) then gi 0 else nadd (nmul (gi 10) v) (gi i).
Definition skip_m : mat num_goint := MCSR (MkCSR 2 2 [gi 1; gi 2; gi 3] [0; 1; 1] [0; 2; 3]).
Definition skip_m' : mat num_goint := MCSR (MkCSR 2 2 [gi 2; gi 301] [1; 1] [0; 1; 2]).
Lemma map_skips : exists w' : world num_goint, reachable skipping /\ obj skipping 0 skip_m /\
  user_Map E0 0 skip_f skipping = (w', Ok tt) /\ obj w' 0 skip_m'.
Proof.
  exists (fst (user_Map E0 0 skip_f skipping)). split; [unfold skipping; reach_calls|]. split; [at_obj|]. split; [apply run_ok; vm_compute; reflexivity|at_obj].
Qed.
Lemma map_returns_no :
  ~ (forall N E (w : world N) p m f R C h w' m', sane N -> reachable w -> obj w p m -> is_sparse_matrix m -> denotes m R C h ->
      mat_Values m <= Z.of_nat (e_fuel E) -> user_Map E p f w = (w', Ok tt) -> obj w' p m' ->
      denotes m' R C (fun i j => if neqb (h i j) n0 || neqb (f i j (h i j)) n0 then n0 else f i j (h i j))).
Proof.
  intros H. destruct map_skips as (w' & Hr & Ho & Hm & Ho').
  destruct (reach_denotes _ _ _ goint_sane Hr Ho) as [h Hh]. change (mat_Rows skip_m) with 2 in Hh. change (mat_Columns skip_m) with 2 in Hh.
  assert (Hf : mat_Values skip_m <= Z.of_nat (e_fuel E0)) by (vm_compute; discriminate).
  pose proof (H num_goint E0 skipping 0%nat skip_m skip_f 2 2 h w' skip_m' goint_sane Hr Ho I Hh Hf Hm Ho') as D.
  assert (E1 : h 0 1 = gi 2) by (apply (denotes_at _ _ _ _ _ _ _ Hh); [lia|lia|vm_compute; reflexivity]).
  assert (E2 : (if neqb (h 0 1) n0 || neqb (skip_f 0 1 (h 0 1)) n0 then n0 else skip_f 0 1 (h 0 1)) = gi 2)
    by (apply (denotes_at _ _ _ _ 0 1 _ D); [lia|lia|vm_compute; reflexivity]).
  rewrite E1 in E2. vm_compute in E2. discriminate.
Qed.

(** Scalar: 0 times a diagonal matrix, and 0 times a row of two *)
Definition diag3 : world num_goint := after_all [KNewCSC 3 3; KSet 0 0 0 (gi 1); KSet 0 1 1 (gi 2); KSet 0 2 2 (gi 3)] empty_world.
Definition diag3m : mat num_goint := MCSC (MkCSC 3 3 [gi 1; gi 2; gi 3] [0; 1; 2] [0; 1; 2; 3]).
Lemma scalar_zeros_case : reachable diag3 /\ obj diag3 0 diag3m /\ enumerates diag3m [(0, 0, gi 1); (1, 1, gi 2); (2, 2, gi 3)] /\
  zeros_end_lines diag3m (fun _ _ => nmul (gi 0)) [(0, 0, gi 1); (1, 1, gi 2); (2, 2, gi 3)] [] /\
  cells (fst (m_Scalar E0 0 (gi 0) diag3)) 1 3 3 = map (fun z => Ok (gi z)) [0; 0; 0; 0; 0; 0; 0; 0; 0].
Proof.
  split; [unfold diag3; reach_calls|]. split; [at_obj|]. split.
  { intros fuel Hf. change (mat_Values diag3m) with 3 in Hf. destruct fuel as [|[|[|fuel]]]; try lia. destruct fuel; reflexivity. }
  split; [|vm_compute; reflexivity].
  intros l1 i j v l2 E Hx e He. rewrite app_nil_r in He. destruct l1 as [|a l1]; [injection E as <- <- <- <-; destruct He as [<-|[<-|[]]]; cbn; lia|].
  injection E as <- E. destruct l1 as [|a l1]; [injection E as <- <- <- <-; destruct He as [<-|[]]; cbn; lia|].
  injection E as <- E. destruct l1 as [|a l1]; [injection E as <- <- <- <-; destruct He|]. injection E as <- E. destruct l1; discriminate.
Qed.
Lemma scalar_panics_case : reachable row12 /\ exists s, obj row12 0 (MCSR s) /\ enumerates (MCSR s) ([] ++ (0, 0, gi 1) :: [(0, 1, gi 1)]) /\
  neqb (nmul (gi 0) (gi 1)) n0 = true.
Proof.
  split; [unfold row12; reach_calls|]. exists (MkCSR 1 2 [gi 1; gi 1] [0; 1] [0; 2]). split; [at_obj|]. split; [|vm_compute; reflexivity].
  intros fuel Hf. match type of Hf with ?a <= _ => change a with 2 in Hf end. destruct fuel as [|[|fuel]]; try lia. destruct fuel; reflexivity.
Qed.

(** histories with zeros: one loop that comes to its end and one that panics *)
Lemma zero_histories : reachable (after (KMap E0 0 end_zeros) demo) /\ reachable (after (KMap E0 0 mid_zero) demo) /\
  snd (user_Map E0 0 mid_zero demo) = Panic /\ obj (after (KMap E0 0 mid_zero) demo) 0 (MCSR (MkCSR 3 4 [gi (-1)] [3] [0; 0; 0; 1])).
Proof.
  assert (U : forall l1 i j (v : T num_goint) l2, enumerates (MCSR demo0) (l1 ++ (i, j, v) :: l2) ->
    l1 = [] /\ i = 0 /\ l2 = [(2, 1, gi 7); (2, 3, gi (-1))] \/ l1 = [(0, 0, gi 5)] /\ (i, j, v) = (2, 1, gi 7) /\ l2 = [(2, 3, gi (-1))] \/ l2 = []).
  { intros l1 i j v l2 H. specialize (H 3%nat ltac:(vm_compute; discriminate)). change (Ok [(0, 0, gi 5); (2, 1, gi 7); (2, 3, gi (-1))] = Ok (l1 ++ (i, j, v) :: l2)) in H.
    injection H as H. destruct l1 as [|a l1]; [injection H as <- <- <- <-; auto|]. injection H as <- H.
    destruct l1 as [|a l1]; [injection H as <- <- <- <-; auto|]. injection H as <- H. destruct l1 as [|a l1]; [injection H as _ _ _ <-; auto|]. injection H as <- H. destruct l1; discriminate. }
  split; [|split; [|split; [vm_compute; reflexivity|at_obj]]]; (apply reach_call; [apply demo_reachable|]); cbn [allowed]; intros m Ho;
    (assert (m = MCSR demo0) as -> by (pose proof demo_obj0 as Q; unfold obj in *; congruence)); intros l1 i j v l2 He Hv Hz; destruct (U _ _ _ _ _ He) as [(-> & -> & ->)|[(-> & Q & ->)| ->]].
  - left. intros e [<-|[<-|[]]]; cbn; lia.
  - injection Q as -> -> ->. vm_compute in Hz. discriminate.
  - left. intros e [].
  - left. intros e [<-|[<-|[]]]; cbn; lia.
  - injection Q as -> -> ->. right. intros e [<-|[]]. reflexivity.
  - left. intros e [].
Qed.
