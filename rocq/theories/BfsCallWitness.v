(** Breadth-first search with a callback that acts: cases and a refutation. *)
From Verif Require Import GoBase Num SparseVec Csr Csc DenseVec DenseMat Mat World Ops Spec Api Bfs.
From Verif Require Import HeapProofs ReachProofs MatProofs StoreProofs VecProofs StoreThms OpsProps Steps Witness StoreWitness OpsWitness MathThms NumProofs.
From Verif Require Import BfsProofs BfsThms BfsCall BfsCallProofs BfsCallThms.
Import ListNotations.

(** sets cell (i,j) of the graph to zero when it is called for the [k]-th time *)
Definition cut {N} (a : ptr) (i j : Z) (k : nat) (st : nat) (q : ptr) : M N (bool * nat) :=
  (if Nat.eqb st k then p_Set a i j n0 else mret tt) ;!; mret (false, S st).
Definition cut_knows (a : ptr) (st : nat) (p : ptr) : Prop := p = a.
Definition cut_inv {N} (a : ptr) (n : Z) (q : ptr) (st : nat) (w : world N) : Prop :=
  a <> q /\ exists G, obj w a G /\ is_dense G /\ graph_of n G.

Lemma cut_confined {N} a n i j k : sane N -> 0 <= i < n -> 0 <= j < n ->
  confined a n (cut_knows a) (cut_inv a n) (cut (N:=N) a i j k).
Proof.
  intros Hs Hi Hj. split.
  - intros st q x G0 w w' b st' Hr Naq Ho Hv Ha HG0 (_ & G & HaG & Hden & (f & Hd)) Hk E. unfold cut in E.
    destruct (Nat.eqb st k).
    + assert (Hnsv : not_sparse_vector G) by (destruct G; cbn in *; tauto).
      destruct (step_Set w a G n n f i j n0 Hs Hr HaG Hnsv Hd Hi Hj) as (w1 & G1 & E1 & Hr1 & Hx & Ho1 & Hst & Hd1).
      rewrite (mbind_ok _ _ _ _ _ E1) in E. injection E as <- _ _.
      assert (Hden1 : is_dense G1) by (destruct G, G1; cbn in *; tauto).
      split; [exact Hr1|]. split; [exists x; split; [apply Hx; auto|exact Hv]|]. split; [exists G1; split; [exact Ho1|eexists; exact Hd1]|].
      split; [|split].
      * intros p y Hy. destruct (Nat.eq_dec p a) as [->|Hne]; [exists G1; split; [exact Ho1|left; reflexivity]|exists y; split; [apply Hx; auto|auto]].
      * intros p ->. split; [exists G1; exact Ho1|left; reflexivity].
      * split; [exact Naq|]. exists G1. split; [exact Ho1|]. split; [exact Hden1|eexists; exact Hd1].
    + injection E as <- _ _. split; [exact Hr|]. split; [exists x; auto|]. split; [exists G0; auto|]. split; [intros p y Hy; exists y; auto|].
      split; [intros p ->; split; [exists G; exact HaG|left; reflexivity]|]. split; [exact Naq|]. exists G. split; [exact HaG|]. split; [exact Hden|exists f; exact Hd].
  - intros q st w w' (H1 & G & H2 & H3) Hst. split; [exact H1|]. exists G. split; [apply Hst; [reflexivity|auto|auto]|exact H3].
Qed.

(** what the rounds of a search showed *)
Definition shown_in {N St} (x : res (ptr * St * list (round N))) : res (list (list (T N))) :=
  rmap (fun p => map (fun r => match r_shown r with MDV v => dv_values v | _ => [] end) (snd p)) x.
Definition left_in {N St} (x : res (ptr * St * list (round N))) : res (list (list (T N))) :=
  rmap (fun p => map (fun r => match r_left r with MDV v => dv_values v | _ => [] end) (snd p)) x.
(** what the objects kept hold after a search *)
Definition kept_in {N} (x : world N * res (ptr * list (ptr * mat N) * list (round N))) : res (list (list (T N))) :=
  rmap (fun p => map (fun k => match nth_error (w_heap (fst x)) (fst k) with Some (MDV v) => dv_values v | _ => [] end) (snd (fst p))) (snd x).

Definition on {N} (d : nat) (v : mat N) : bool := false.

(** The graph of C43 (0 in [zw]) from vertex 3; the edge from 0 to 1 is cut in the first
    call, so that 1 is never reached *)
Lemma cut_case : reachable zw /\ obj zw 0 zoG /\ graph_of 7 zoG /\ confined 0 7 (cut_knows 0) (cut_inv 0 7) (cut (N:=num_Z) 0 1 0 0) /\
  (forall q w1, (forall x, ~ obj zw q x) -> extends zw w1 -> cut_inv 0 7 q 0 w1) /\
  shown_in (snd (SearchM E0 0 3 (cut 0 1 0 0) 0%nat zw)) =
    Ok [[1; 0; 1; 0; 0; 0; 0]; [0; 0; 0; 0; 0; 1; 0]; [0; 0; 0; 0; 0; 0; 0]; [0; 0; 0; 0; 0; 0; 0];
        [0; 0; 0; 0; 0; 0; 0]; [0; 0; 0; 0; 0; 0; 0]; [0; 0; 0; 0; 0; 0; 0]].
Proof.
  assert (HG : graph_of 7 zoG) by (exists (cell_of zdG); exact zg).
  split; [exact zw_reachable|]. split; [exact zb|]. split; [exact HG|]. split; [apply cut_confined; [exact num_Z_sane|lia|lia]|].
  split; [|vm_compute; reflexivity]. intros q w1 Fq Hx. split; [intros <-; exact (Fq _ zb)|]. exists zoG. split; [apply Hx, zb|]. split; [exact Logic.I|exact HG].
Qed.

(** a callback that panics in its second call *)
Lemma panic_case : snd (SearchM E0 0 3 (fun (st : nat) q => if Nat.eqb st 1 then mlift Panic else mret (false, S st)) 0%nat zw) = Panic.
Proof. vm_compute. reflexivity. Qed.

Lemma copies_case : kept_in (SearchM E0 0 3 (keep_copies on) [] zw) =
    Ok [[1; 0; 1; 0; 0; 0; 0]; [0; 1; 0; 0; 0; 1; 0]; [0; 0; 0; 0; 1; 0; 1];
        [0; 0; 0; 0; 0; 0; 0]; [0; 0; 0; 0; 0; 0; 0]; [0; 0; 0; 0; 0; 0; 0]; [0; 0; 0; 0; 0; 0; 0]] /\
  kept_in (SearchM E0 0 3 (keep_copies (fun d _ => Nat.eqb d 1)) [] zw) = Ok [[1; 0; 1; 0; 0; 0; 0]; [0; 1; 0; 0; 0; 1; 0]].
Proof. split; vm_compute; reflexivity. Qed.

Lemma vectors_case :
  kept_in (SearchM E0 0 3 (keep_vectors (fun d _ => Nat.eqb d 1)) [] zw) = Ok [[0; 1; 0; 0; 0; 1; 0]; [0; 1; 0; 0; 0; 1; 0]] /\
  kept_in (SearchM E0 0 3 (keep_vectors on) [] zw) = Ok (repeat [0; 0; 0; 0; 0; 0; 0] 7).
Proof. split; vm_compute; reflexivity. Qed.

(** around vertex 2: 5 is reached later, over 4; 2 is shown in rounds 1 and 4 *)
Lemma prune_case : (forall i, In i [2] -> 0 <= i < 7) /\
  shown_in (snd (SearchM E0 0 3 (prune [2] on) 0%nat zw)) =
    Ok [[1; 0; 1; 0; 0; 0; 0]; [0; 1; 0; 0; 0; 0; 0]; [0; 0; 0; 0; 1; 0; 1]; [0; 0; 1; 0; 0; 1; 0];
        [0; 0; 1; 0; 0; 0; 0]; [0; 0; 0; 0; 0; 0; 0]; [0; 0; 0; 0; 0; 0; 0]] /\
  left_in (snd (SearchM E0 0 3 (prune [2] on) 0%nat zw)) =
    Ok [[1; 0; 0; 0; 0; 0; 0]; [0; 1; 0; 0; 0; 0; 0]; [0; 0; 0; 0; 1; 0; 1]; [0; 0; 0; 0; 0; 1; 0];
        [0; 0; 0; 0; 0; 0; 0]; [0; 0; 0; 0; 0; 0; 0]; [0; 0; 0; 0; 0; 0; 0]].
Proof. split; [intros i [<-|[]]; lia|]. split; vm_compute; reflexivity. Qed.

(** ** Refutation: a vector kept by the callback does not stay as it was shown *)
Definition kept_stay : Prop := forall N E (w : world N) a G n f s stop w' q st' tr,
  sane N -> counting N -> e_ctx E = None -> n <= Z.of_nat (e_fuel E) -> reachable w -> obj w a G -> is_dense G -> denotes G n n f -> 0 <= s < n ->
  (forall i j, 0 <= i < n -> 0 <= j < n -> weight (f i j)) ->
  SearchM E a s (keep_vectors stop) [] w = (w', Ok (q, st', tr)) -> forall p x, In (p, x) st' -> obj w' p x.

Lemma kept_stay_no : ~ kept_stay.
Proof.
  intros H.
  destruct (vectors_search E0 zw 0%nat zoG 7 (cell_of zdG) 3 on num_Z_sane eq_refl ltac:(vm_compute; discriminate) zw_reachable zb zg ltac:(lia))
    as (w' & q & res & st' & tr & Er & _ & _ & Hm & _ & Hk).
  pose proof (H num_Z E0 zw 0%nat zoG 7 (cell_of zdG) 3 on w' q st' tr num_Z_sane counting_Z eq_refl ltac:(vm_compute; discriminate) zw_reachable zb Logic.I zg ltac:(lia) zg_weight Er) as Ho.
  assert (Hs : shown_in (snd (SearchM E0 0 3 (keep_vectors (N:=num_Z) on) [] zw)) =
    Ok [[1; 0; 1; 0; 0; 0; 0]; [0; 1; 0; 0; 0; 1; 0]; [0; 0; 0; 0; 1; 0; 1];
        [0; 0; 0; 0; 0; 0; 0]; [0; 0; 0; 0; 0; 0; 0]; [0; 0; 0; 0; 0; 0; 0]; [0; 0; 0; 0; 0; 0; 0]]) by (vm_compute; reflexivity).
  rewrite Er in Hs. unfold shown_in, rmap in Hs. cbn [snd] in Hs.
  destruct tr as [|r1 [|r2 tr]]; [discriminate Hs|discriminate Hs|]. destruct st' as [|[p1 x1] [|[p2 x2] st']]; [discriminate Hm|discriminate Hm|].
  cbn [map snd] in Hm, Hs. injection Hm as E1 E2 _. injection Hs as S1 S2 _.
  assert (K1 : In (p1, x1) ((p1, x1) :: (p2, x2) :: st')) by (left; reflexivity).
  assert (K2 : In (p2, x2) ((p1, x1) :: (p2, x2) :: st')) by (right; left; reflexivity).
  pose proof (obj_inj _ _ _ _ (Ho _ _ K1) (proj2 (Hk _ _ K1))) as X1.
  pose proof (obj_inj _ _ _ _ (Ho _ _ K2) (proj2 (Hk _ _ K2))) as X2.
  rewrite <- E1, X1 in S1. rewrite <- E2, X2 in S2. rewrite S1 in S2. discriminate S2.
Qed.
