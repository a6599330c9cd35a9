(** Concrete cases for operators with a mask that keeps memory. *)
From Coq Require Import String.
From Verif Require Import GoBase Num SparseVec Csr Csc DenseVec DenseMat Mat World Ops Spec Api.
From Verif Require Import Witness StoreWitness OpsWitness ReachProofs NumProofs StoreProofs ApplyMem ApplyMemWitness MaskMem MaskMemSim MaskMemOps.
Import ListNotations.

(** counts the questions, covers every second place, and panics at the fourth question *)
Definition alternating : smask Z := MkSMask 2 2 (fun n r c => (n + 1, if n =? 3 then Panic else Ok (Z.odd n))).
Lemma transpose_asks_case :
  let '(n, w', o) := TransposeS E0 12 alternating 10 0 ops in
  n = 4 /\ o = Panic /\ cells w' 10 2 2 = map (fun z => Ok (gi z)) [1; 3; 0; 0] /\
  ask alternating 0 [(0, 0); (0, 1); (1, 0); (1, 1)] = (4, [(0, 0, Ok false); (0, 1, Ok true); (1, 0, Ok false); (1, 1, Panic)]).
Proof. vm_compute. repeat split. Qed.

(** lets the first question through and covers the place at the second *)
Definition second : smask bool := MkSMask 1 1 (fun b r c => (true, Ok b)).
Definition twice : world num_goint := after_all [KDenseFrom [[gi 1]]; KDenseFrom [[gi 2]]; KNewDense 1 1] empty_world.
Lemma twice_reachable : reachable twice. Proof. unfold twice. reach_ops. Qed.

Definition always (b : bool) : smask unit := MkSMask 1 1 (fun x r c => (x, Ok b)).
Lemma always_log b : snd (fst (fst (ElementWiseMatrixAddS E0 0 1 (noting (always b)) 2 (tt, []) twice))) = [(0, 0, Ok b); (0, 0, Ok b)].
Proof. destruct b; vm_compute; reflexivity. Qed.
Lemma always_cells b : cells (snd (fst (ElementWiseMatrixAddS E0 0 1 (noting (always b)) 2 (tt, []) twice))) 2 1 1 = [Ok (gi (if b then 0 else 2))].
Proof. destruct b; vm_compute; reflexivity. Qed.
Lemma second_cells : cells (snd (fst (ElementWiseMatrixAddS E0 0 1 second 2 false twice))) 2 1 1 = [Ok (gi 1)].
Proof. vm_compute. reflexivity. Qed.
Lemma predicate_cells f : cells (fst (ElementWiseMatrixAdd E0 0 1 (MUser 1 1 f) 2 twice)) 2 1 1 = [Ok (gi (if f 0 0 then 0 else 2))].
Proof.
  destruct (same_answers (always (f 0 0)) E0 0%nat 1%nat (fun x : T num_goint => x) 2%nat) as (_ & _ & _ & _ & H & _).
  destruct (H tt twice) as (l & st' & w' & o & E1 & _ & E3). pose proof (always_log (f 0 0)) as Hl. pose proof (always_cells (f 0 0)) as Hc.
  rewrite E1 in Hl, Hc. cbn [fst snd] in Hl, Hc. subst l.
  change (sm_Rows (always (f 0 0))) with 1 in E3. change (sm_Columns (always (f 0 0))) with 1 in E3. rewrite E3; [exact Hc|].
  intros r c b [E|[E|[]]]; injection E as <- <- <-; reflexivity.
Qed.
Lemma no_predicate :
  ~ (forall N St (q : smask St) E (w : world N) s m t st, sane N -> reachable w -> e_ctx E = None -> s <> t -> m <> t ->
      exists f, snd (fst (ElementWiseMatrixAddS E s m q t st w)) = fst (ElementWiseMatrixAdd E s m (MUser (sm_Rows q) (sm_Columns q) f) t w)).
Proof.
  intros H. destruct (H num_goint bool second E0 twice 0%nat 1%nat 2%nat false goint_sane twice_reachable eq_refl ltac:(discriminate) ltac:(discriminate)) as (f & Hf).
  apply (f_equal (fun w => cells w 2 1 1)) in Hf. rewrite second_cells in Hf. change (sm_Rows second) with 1 in Hf. change (sm_Columns second) with 1 in Hf.
  rewrite predicate_cells in Hf. clear - Hf. destruct (f 0 0); vm_compute in Hf; discriminate Hf.
Qed.

Lemma twice_case :
  let '(b, w', o) := elementWiseAddS E0 0 1 second 2 false twice in
  b = true /\ o = Ok tt /\ cells w' 2 1 1 = [Ok (gi 1)] /\
  ask second false [(0, 0); (0, 0)] = (true, [(0, 0, Ok false); (0, 0, Ok true)]).
Proof. vm_compute. repeat split. Qed.
Lemma in_place_case :
  (let '(n, w', o) := NegativeS E0 10 alternating 12 0 ops in
   n = 4 /\ o = Panic /\ cells w' 12 2 2 = map (fun z => Ok (gi z)) [-1; 2; -3; 4]) /\
  (let '(n, w', o) := ApplyQ E0 12 alternating (fun v => nmul v (gi 10)) 12 0 ops in
   n = 4 /\ o = Panic /\ cells w' 12 2 2 = map (fun z => Ok (gi z)) [1; 20; 3; 4]).
Proof. vm_compute. repeat split. Qed.
