(** Concrete cases for the storage properties. *)
From Coq Require Import String.
From Verif Require Import GoBase Num SparseVec Csr Csc DenseVec DenseMat Mat World Ops Spec Api.
From Verif Require Import StoreProofs StoreThms Witness NumProofs.

Definition csr_of {N} (x : res (csr N)) : csr N := match x with Ok s => s | _ => MkCSR 0 0 [] [] [] end.
Definition dm_of {N} (x : res (dense N)) : dense N := match x with Ok s => s | _ => MkDense 0 0 [] end.

Lemma goint_sane : sane num_goint.
Proof. apply go_types_sane. simpl. tauto. Qed.

Lemma run_ok {N A} (x : M N A) w a : snd (x w) = Ok a -> x w = (fst (x w), Ok a).
Proof. destruct (x w). cbn. intros ->. reflexivity. Qed.

Lemma denotes_at {N} (m : mat N) R C f i j v : denotes m R C f -> 0 <= i < R -> 0 <= j < C ->
  rmap fst (mat_At m i j) = Ok v -> f i j = v.
Proof. intros (_ & _ & H) Hi Hj E. rewrite H in E by auto. cbn in E. congruence. Qed.

Definition demo0 : csr num_goint := MkCSR 3 4 [gi 5; gi 7; gi (-1)] [0; 1; 3] [0; 1; 1; 3].
Definition demo1 : csc num_goint := MkCSC 3 4 [gi 5; gi 7; gi 2; gi (-1)] [0; 2; 0; 2] [0; 1; 2; 2; 4].
Definition demo2m : dense num_goint :=
  MkDense 4 3 [[gi 5; gi 0; gi 0; gi 2]; [gi 0; gi 0; gi 0; gi 0]; [gi 0; gi 7; gi 0; gi 0]].
Definition demo3 : dvec num_goint := MkDV 3 [gi 0; gi 9; gi 0].
Definition demo4 : svec num_goint := MkSV 5 [gi 4; gi 6] [0; 1].

Lemma demo_obj0 : obj demo 0 (MCSR demo0). Proof. at_obj. Qed.
Lemma demo_obj1 : obj demo 1 (MCSC demo1). Proof. at_obj. Qed.
Lemma demo_obj2 : obj demo 2 (MDM demo2m). Proof. at_obj. Qed.
Lemma demo_obj3 : obj demo 3 (MDV demo3). Proof. at_obj. Qed.
Lemma demo_obj4 : obj demo 4 (MSV demo4). Proof. at_obj. Qed.

Ltac demo_cells s Ho :=
  destruct (reach_denotes _ _ _ goint_sane demo_reachable Ho) as [f Hf];
  exists s, f; split; [exact Ho|]; split; [exact Hf|];
  apply (denotes_at _ _ _ _ _ _ _ Hf); [cbn; lia|cbn; lia|vm_compute; reflexivity].

Lemma demo_csr : reachable demo /\ exists s f, obj demo 0 (MCSR s) /\ denotes (MCSR s) 3 4 f /\ f 2 1 = gi 7.
Proof. split; [apply demo_reachable|]. demo_cells demo0 demo_obj0. Qed.
Lemma demo_csc : reachable demo /\ exists s f, obj demo 1 (MCSC s) /\ denotes (MCSC s) 3 4 f /\ f 2 1 = gi 7.
Proof. split; [apply demo_reachable|]. demo_cells demo1 demo_obj1. Qed.
Lemma demo_dense : reachable demo /\ exists s f, obj demo 2 (MDM s) /\ denotes (MDM s) 3 4 f /\ f 2 1 = gi 7.
Proof. split; [apply demo_reachable|]. demo_cells demo2m demo_obj2. Qed.
Lemma demo_dvec : reachable demo /\ exists s g, obj demo 3 (MDV s) /\ vdenotes (MDV s) 3 g /\ g 1 = gi 9.
Proof.
  split; [apply demo_reachable|].
  exists demo3, (fun i => if i =? 1 then gi 9 else gi 0). split; [exact demo_obj3|]. split; [|reflexivity].
  do 2 (split; [reflexivity|]). intros i Hi. assert (H : i = 0 \/ i = 1 \/ i = 2) by lia.
  destruct H as [-> | [-> | ->]]; reflexivity.
Qed.
Lemma demo_values : reachable demo /\ exists m, obj demo 0 m /\ is_sparse_matrix m /\ mat_Values m = 3.
Proof. split; [apply demo_reachable|]. exists (MCSR demo0). split; [exact demo_obj0|]. split; [exact I|vm_compute; reflexivity]. Qed.
Lemma demo_access : reachable demo /\ exists m, obj demo 0 m /\ mat_Rows m = 3 /\ mat_Columns m = 4 /\
  snd (p_At 0 2 1 demo) = Ok (gi 7) /\ snd (p_At 0 3 1 demo) = Panic.
Proof. split; [apply demo_reachable|]. exists (MCSR demo0). split; [exact demo_obj0|]. do 3 (split; [vm_compute; reflexivity|]). vm_compute; reflexivity. Qed.
Lemma demo_reads : reachable demo /\ writes (N:=num_goint) (KEqual E0 (Some 0%nat) (Some 1%nat)) = [] /\
  obj demo 0 (MCSR (MkCSR 3 4 [gi 5; gi 7; gi (-1)] [0; 1; 3] [0; 1; 1; 3])).
Proof. split; [apply demo_reachable|]. split; [reflexivity|exact demo_obj0]. Qed.
Lemma demo_map : reachable demo /\
  exists w' s, user_Map E0 0 (fun i j v => nadd v (gi i)) demo = (w', Ok tt) /\ obj w' 0 (MCSR s) /\
  loop_Next 5 (MCSR s) (mat_iterator (MCSR s)) = Ok [(0, 0, gi 5); (2, 1, gi 9); (2, 3, gi 1)].
Proof.
  split; [apply demo_reachable|]. 
  exists (fst (user_Map E0 0 (fun i j v => nadd v (gi i)) demo)), (MkCSR 3 4 [gi 5; gi 9; gi 1] [0; 1; 3] [0; 1; 1; 3]).
  split; [apply run_ok; vm_compute; reflexivity|]. split; [at_obj|vm_compute; reflexivity].
Qed.
Lemma demo_enum_csr : exists s, obj demo 0 (MCSR s) /\
  loop_Next 5 (MCSR s) (mat_iterator (MCSR s)) = Ok [(0, 0, gi 5); (2, 1, gi 7); (2, 3, gi (-1))].
Proof. exists demo0. split; [exact demo_obj0|]. vm_compute. reflexivity. Qed.
Lemma demo_enum_csc : exists s, obj demo 1 (MCSC s) /\
  loop_Next 5 (MCSC s) (mat_iterator (MCSC s)) = Ok [(0, 0, gi 5); (2, 1, gi 7); (0, 3, gi 2); (2, 3, gi (-1))].
Proof. exists demo1. split; [exact demo_obj1|]. vm_compute. reflexivity. Qed.
Lemma demo_enum_dense : exists m, obj demo 3 m /\ is_dense m /\
  loop_Next 5 m (mat_iterator m) = Ok [(0, 0, gi 0); (1, 0, gi 9); (2, 0, gi 0)].
Proof. exists (MDV demo3). split; [exact demo_obj3|]. split; [exact I|vm_compute; reflexivity]. Qed.

Lemma dv_At_column :
  ~ (forall N (w : world N) p m r c, sane N -> reachable w -> obj w p m ->
       ~ (0 <= r < mat_Rows m /\ 0 <= c < mat_Columns m) -> p_At p r c w = (w, Panic)).
Proof.
  intros H. specialize (H _ demo 3%nat _ 1 5 goint_sane demo_reachable demo_obj3 ltac:(intros [_ [_ X]]; vm_compute in X; discriminate)).
  apply (f_equal snd) in H. vm_compute in H. discriminate.
Qed.

Lemma csr_array {N} (d : list (list (T N))) row0 rest : zero_ok N -> d = row0 :: rest -> rectangular d ->
  exists s : csr N, NewCSRMatrixFromArray d = Ok s /\
    denotes (MCSR s) (zlen d) (zlen row0) (fun i j => zeroed (cell_of d i j)).
Proof. intros Hz E Hr. destruct (csr_from_array d row0 rest Hz E Hr) as (s & H1 & _ & H2). eauto. Qed.
Lemma csc_array {N} (d : list (list (T N))) row0 rest : zero_ok N -> d = row0 :: rest -> rectangular d ->
  exists s : csc N, NewCSCMatrixFromArray d = Ok s /\
    denotes (MCSC s) (zlen d) (zlen row0) (fun i j => zeroed (cell_of d i j)).
Proof. intros Hz E Hr. destruct (csc_from_array d row0 rest Hz E Hr) as (s & H1 & _ & H2). eauto. Qed.
Lemma dense_array {N} (d : list (list (T N))) row0 rest : d = row0 :: rest -> rectangular d ->
  exists s : dense N, NewDenseMatrixFromArray d = Ok s /\
    denotes (MDM s) (zlen d) (zlen row0) (cell_of d).
Proof. intros E Hr. destruct (dense_from_array_map d row0 rest E Hr) as (s & H1 & H2 & _). eauto. Qed.
Lemma empty_array N : NewCSRMatrixFromArray (N:=N) [] = Panic /\ NewCSCMatrixFromArray (N:=N) [] = Panic /\
  NewDenseMatrixFromArray (N:=N) [] = Panic.
Proof. repeat split. Qed.
Lemma array_case : rectangular [[gi 1; gi 0]; [gi 0; gi 4]; [gi 5; gi 6]] /\
  exists s, NewCSCMatrixFromArray [[gi 1; gi 0]; [gi 0; gi 4]; [gi 5; gi 6]] = Ok s /\
    mat_Rows (MCSC s) = 3 /\ mat_Columns (MCSC s) = 2 /\ rmap fst (mat_At (MCSC s) 2 1) = Ok (gi 6).
Proof.
  split.
  - intros a b Ha Hb; cbn [In] in Ha, Hb; intuition (subst; reflexivity).
  - exists (MkCSC 3 2 [gi 1; gi 5; gi 4; gi 6] [0; 2; 1; 2] [0; 2; 4]).
    split; [reflexivity|]. do 2 (split; [reflexivity|]). vm_compute. reflexivity.
Qed.

(** mapping to zero *)
Definition row12 : world num_goint := after_all [KNewCSR 1 2; KSet 0 0 0 (gi 1); KSet 0 0 1 (gi 1)] empty_world.
Definition full22 : world num_goint :=
  after_all [KNewCSR 2 2; KSet 0 0 0 (gi 1); KSet 0 0 1 (gi 1); KSet 0 1 0 (gi 1); KSet 0 1 1 (gi 1)] empty_world.

Lemma map_zero_panics n : exists w : world num_goint, reachable w /\
  exists m, obj w 0 m /\ is_sparse_matrix m /\
  snd (user_Map (MkEnv None reg0 (S (S n))) 0 (fun _ _ _ => n0) w) = Panic.
Proof.
  exists row12. split; [unfold row12; reach_calls|].
  exists (MCSR (MkCSR 1 2 [gi 1; gi 1] [0; 1] [0; 2])). split; [at_obj|]. split; [exact I|].
  vm_compute. reflexivity.
Qed.
Lemma map_zero_hangs n : exists w : world num_goint, reachable w /\
  exists m, obj w 0 m /\ is_sparse_matrix m /\
  snd (user_Map (MkEnv None reg0 n) 0 (fun _ _ _ => n0) w) = Diverge.
Proof.
  exists full22. split; [unfold full22; reach_calls|].
  exists (MCSR (MkCSR 2 2 [gi 1; gi 1; gi 1; gi 1] [0; 1; 0; 1] [0; 2; 4])). split; [at_obj|]. split; [exact I|].
  destruct n as [|[|n]]; vm_compute; reflexivity.
Qed.

(** in-place Apply, cancelled after two elements *)
Definition four : world num_goint :=
  after_all [KNewCSR 2 3; KSet 0 0 0 (gi 1); KSet 0 0 2 (gi 2); KSet 0 1 1 (gi 3); KSet 0 1 2 (gi 4)] empty_world.
Definition odd_to_zero (v : T num_goint) : T num_goint :=
  if neqb v (gi 1) || neqb v (gi 3) then gi 0 else v.

Lemma apply_breaks_csr : exists (w : world num_goint) u, reachable w /\
  snd (Apply (Ecancel 2) 0 (MUser 2 3 (fun _ _ => true)) u 0 w) = Ok tt /\
  exists m f, obj (fst (Apply (Ecancel 2) 0 (MUser 2 3 (fun _ _ => true)) u 0 w)) 0 m /\
    is_sparse_matrix m /\ denotes m 2 3 f /\
    mat_Values m = 2 /\ count_cells (fun i j => negb (neqb (f i j) n0)) 2 3 = 1.
Proof.
  exists four, odd_to_zero. split; [unfold four; reach_calls|]. split; [vm_compute; reflexivity|].
  exists (MCSR (MkCSR 2 3 [gi 2; gi 4] [2; 2] [0; 0; 2])), (fun i j => if (i =? 1) && (j =? 2) then gi 4 else gi 0).
  split; [at_obj|]. split; [exact I|]. split.
  - do 2 (split; [reflexivity|]). intros i j Hi Hj.
    assert (H : i = 0 \/ i = 1) by lia. assert (H' : j = 0 \/ j = 1 \/ j = 2) by lia.
    destruct H as [-> | ->], H' as [-> | [-> | ->]]; reflexivity.
  - split; vm_compute; reflexivity.
Qed.

(** a longer history: aliasing, a panic, a cancellation, products *)
Definition demo2 : world num_goint :=
  after_all [KMTranspose E0 0; KMMultiply E0 0 5; KAdd (Ecancel 1) 0 1 MNil 2; KSubtract E0 2 2 MNil 2;
             KEWMatMul E0 0 1 MNil 0; KMultiply E0 0 5 (MObj 6) 6; KNegative E0 0 MNil 1] demo.
Lemma demo2_case : reachable demo2 /\ demo2 <> demo.
Proof.
  split.
  - unfold demo2. cbn [after_all].
    do 7 (apply reach_call; [|first [exact I | cbn [allowed]; intros;
      repeat match goal with H : obj _ _ ?m |- _ => apply obj_tag in H; destruct m; vm_compute in H; try discriminate H; clear H end; exact I]]).
    apply demo_reachable.
  - intros H. apply (f_equal (fun w => length (w_heap w))) in H. vm_compute in H. discriminate.
Qed.
