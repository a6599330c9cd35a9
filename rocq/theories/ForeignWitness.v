(** Concrete cases for matrix types of the caller's. *)
From Coq Require Import String.
From Verif Require Import GoBase Num SparseVec Csr Csc DenseVec DenseMat Mat World Ops Spec Api.
From Verif Require Import Witness StoreWitness OpsWitness ReachProofs NumProofs StoreProofs BaseProofs ApplyMem ApplyMemWitness Foreign.
Import ListNotations.

Notation G := num_goint.

(** the identity, which stores nothing and shows its diagonal *)
Definition eye_at (r c : Z) : T G := if r =? c then gi 1 else gi 0.
Definition eye_line (r : Z) : vec G := MkVec 2 (fun l => if (0 <=? l) && (l <? 2) then Ok (eye_at r l) else Panic).
Definition eye : own G := MkOwn "Identity" 2 2 2
  (fun r c => if (0 <=? r) && (r <? 2) && (0 <=? c) && (c <? 2) then Ok (eye_at r c) else Panic)
  (fun r => Ok (eye_line r)) (fun c => Ok (eye_line c)) [(0, 0, gi 1); (1, 1, gi 1)].

Lemma eye_presents E (w : world G) : presents E w (Own eye) 2 2 eye_at [(0, 0, gi 1); (1, 1, gi 1)].
Proof.
  repeat split; cbn [In] in *; repeat match goal with H : _ \/ _ |- _ => destruct H | H : (_, _, _) = (_, _, _) |- _ => injection H as <- <- <- end; try lia; try contradiction.
  intros r c Hr Hc. cbn [own_At eye]. replace ((0 <=? r) && (r <? 2) && (0 <=? c) && (c <? 2)) with true by lia. reflexivity.
Qed.
Lemma eye_operand E (w : world G) t : operand E w t (Own eye) 2 2 eye_at [(0, 0, gi 1); (1, 1, gi 1)].
Proof. split; [discriminate|apply eye_presents]. Qed.
Lemma eye_honest : honest eye_at [(0, 0, gi 1); (1, 1, gi 1)].
Proof.
  split; [repeat constructor; cbn; intuition congruence|]. intros r c v [H|[H|[]]]; injection H as <- <- <-; reflexivity.
Qed.
Lemma eye_unregistered (w : world G) : registered E0 w (Own eye) false.
Proof. cbn. intuition discriminate. Qed.
Lemma eye_rows (w : world G) t : rows_show w t (Own eye) 2 2 2 eye_at.
Proof.
  split; [reflexivity|]. split; [reflexivity|]. intros r Hr. exists (eye_line r). split; [reflexivity|]. split; [reflexivity|]. intros l Hl. cbn [vec_AtVec eye_line]. replace ((0 <=? l) && (l <? 2)) with true by lia. reflexivity.
Qed.

(** shows the place (0, 0) twice, with values At does not give *)
Definition echo : own G := MkOwn "Echo" 2 2 1 (fun _ _ => Ok (gi 7)) (fun _ => Panic) (fun _ => Panic) [(0, 0, gi 5); (0, 0, gi 9)].

(** shows one of its four elements *)
Definition shy_at (r c : Z) : T G := if (r =? 0) && (c =? 0) then gi 1 else gi 0.
Definition shy : own G := MkOwn "Shy" 2 2 4 (fun r c => Ok (shy_at r c)) (fun _ => Panic) (fun _ => Panic) [(0, 0, gi 1)].

Lemma foreign_case :
  (let '(w', o) := AddF E0 (Lib 12) (Own eye) MNil 10 ops in o = Ok tt /\ OpsWitness.cells w' 10 2 2 = map (fun z => Ok (gi z)) [2; 0; 0; 5]) /\
  (let '(w', o) := multiplyF E0 (Own eye) (Lib 12) MNil 10 ops in o = Ok tt /\ OpsWitness.cells w' 10 2 2 = map (fun z => Ok (gi z)) [1; 2; 3; 4]) /\
  (let '(w', o) := SubtractF E0 (Own echo) (Lib 12) MNil 12 ops in o = Ok tt /\ OpsWitness.cells w' 12 2 2 = map (fun z => Ok (gi z)) [5; 2; 3; 4]) /\
  (let '(w', o) := elementWiseAddF E0 (Own echo) (Own eye) MNil 10 ops in o = Ok tt /\ OpsWitness.cells w' 10 2 2 = map (fun z => Ok (gi z)) [1; 0; 0; 1]) /\
  (let '(w', o) := TransposeF E0 (Own echo) MNil 10 ops in o = Ok tt /\ OpsWitness.cells w' 10 2 2 = map (fun z => Ok (gi z)) [9; 0; 0; 0]).
Proof. vm_compute. repeat split. Qed.

Lemma shy_presents E (w : world G) : presents E w (Own shy) 2 2 shy_at [(0, 0, gi 1)].
Proof.
  split; [reflexivity|]. split; [reflexivity|]. split; [reflexivity|]. split; [reflexivity|]. intros r c v [H|[]]; injection H as <- <- <-; lia.
Qed.
Lemma shy_honest : honest shy_at [(0, 0, gi 1)].
Proof. split; [repeat constructor; intros []|]. intros r c v [H|[]]; injection H as <- <- <-; reflexivity. Qed.
Lemma shy_equal : snd (EqualF E0 (Lib 12) (Own shy) ops) = Ok true /\ snd (EqualF E0 (Own shy) (Lib 12) ops) = Ok false.
Proof. vm_compute. split; reflexivity. Qed.
Lemma order_matters :
  ~ (forall N E (w : world N) s m R C f g Ls Lm n, sane N -> reachable w -> presents E w s R C f Ls -> presents E w m R C g Lm -> honest f Ls -> honest g Lm ->
      registered E w s false -> registered E w m false -> says w s n -> says w m n -> e_ctx E = None ->
      snd (EqualF E s m w) = snd (EqualF E m s w)).
Proof.
  intros H. specialize (H G E0 ops (Lib 12) (Own shy) 2 2 (cell_of dQ) shy_at [(0, 0, gi 1); (0, 1, gi 2); (1, 0, gi 3); (1, 1, gi 4)] [(0, 0, gi 1)] 4 goint_sane ops_reachable).
  destruct shy_equal as [H1 H2]. rewrite H1, H2 in H. discriminate H.
  - exists oQ. split; [exact h12|]. split; [exact t12|]. split; [exact enum_oQ|]. vm_compute. discriminate.
  - apply shy_presents.
  - split; [repeat constructor; cbn; intuition congruence|]. intros r c v Hin. cbn [In] in Hin. repeat destruct Hin as [Hin|Hin]; try contradiction; injection Hin as <- <- <-; reflexivity.
  - exact shy_honest.
  - exists oQ. split; [exact h12|reflexivity].
  - cbn. intuition discriminate.
  - exists oQ. split; [exact h12|reflexivity].
  - reflexivity.
  - reflexivity.
Qed.
