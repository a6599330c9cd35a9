(** Concrete cases for the reduction properties. *)
From Coq Require Import String.
From Verif Require Import GoBase Num SparseVec Csr Csc DenseVec DenseMat Mat World Ops Spec Api.
From Verif Require Import BaseProofs MatProofs HeapProofs ReachProofs NumProofs StoreProofs StoreThms OpsProps MaskThms Witness StoreWitness OpsWitness.
From Verif Require Import ReduceConc ReduceProofs ReduceVec.

Lemma num_int_order name sg bits : order_ok (num_int name sg bits).
Proof.
  split; [|split]; cbn [nltb num_int]; intros x y; [lia|intros z; lia|].
  intros H1 H2. apply wint_ext. lia.
Qed.
Lemma go_ints_order N : In N go_ints -> order_ok N.
Proof. cbn. intros H. repeat (destruct H as [<-|H]; [apply num_int_order|]). contradiction. Qed.
Lemma go_ints_sane N : In N go_ints -> sane N.
Proof. intros H. apply go_types_sane. do 2 right. exact H. Qed.

Lemma reduce_maximum_ints N E w (s : ptr) (m : mat N) R C f : In N go_ints -> reachable w -> obj w s m -> not_sparse_vector m ->
  denotes m R C f -> e_ctx E = None -> R <= Z.of_nat (e_fuel E) ->
  exists w' q v g, ReduceMatrixToVector E s w = (w', Ok q) /\ extends w w' /\ ~ (exists x, obj w q x) /\ obj w' q v /\ vdenotes v C g /\
    forall c, 0 <= c < C ->
      (forall r, 0 <= r < R -> nltb (g c) (f r c) = false) /\ nltb (g c) n0 = false /\
      (g c = n0 \/ exists r, 0 <= r < R /\ g c = f r c) /\
      ((exists r, 0 <= r < R /\ nltb (f r c) n0 = false) -> exists r, 0 <= r < R /\ g c = f r c).
Proof.
  intros HN. apply reduce_maximum; [apply go_ints_sane|apply go_ints_eq|apply go_ints_order]; exact HN.
Qed.

Definition dNeg := [[gi (-3); gi 2]; [gi (-1); gi (-5)]].
Definition neg_calls : list (call num_goint) := [KDenseFrom dNeg; KCSRFrom dNeg].
Definition negw : world num_goint := after_all neg_calls empty_world.
Lemma negw_reachable : reachable negw.
Proof. unfold negw, neg_calls, dNeg. reach_ops. Qed.
Definition oNeg : mat num_goint := MDM (MkDense 2 2 dNeg).
Lemma hNeg : obj negw 0 oNeg. Proof. at_obj. Qed.
Lemma tNeg : denotes oNeg 2 2 (cell_of dNeg).
Proof. apply (denotes_tab negw _ _ _ _ _ goint_sane negw_reachable hNeg eq_refl eq_refl); vm_compute; reflexivity. Qed.

Lemma maximum_no :
  ~ (forall N E (w : world N) (s : ptr) m R C f,
      sane N -> eq_ok N -> order_ok N -> reachable w -> obj w s m -> is_dense m -> denotes m R C f ->
      e_ctx E = None -> R <= Z.of_nat (e_fuel E) -> 0 < R ->
      exists w' q v g, ReduceMatrixToVector E s w = (w', Ok q) /\ obj w' q v /\ vdenotes v C g /\
        forall c, 0 <= c < C -> exists r, 0 <= r < R /\ g c = f r c).
Proof.
  intros H. destruct (H _ E0 negw 0%nat oNeg 2 2 _ goint_sane (go_ints_eq num_goint ltac:(simpl; tauto)) (go_ints_order num_goint ltac:(simpl; tauto))
    negw_reachable hNeg I tNeg eq_refl ltac:(vm_compute; discriminate) ltac:(lia)) as (w' & q & v & g & Hr & Ho & (_ & _ & Hd) & Hm).
  assert (Et : Ok q = Ok 2%nat) by (apply (f_equal snd) in Hr; cbn [snd] in Hr; rewrite <- Hr; vm_compute; reflexivity).
  injection Et as ->.
  destruct (Hm 0 ltac:(lia)) as (r & Hr' & Hg). specialize (Hd 0 ltac:(lia)). rewrite Hg in Hd.
  assert (Ev : obj w' 2 (MDV (MkDV 2 [gi 0; gi 2]))).
  { replace w' with (fst (ReduceMatrixToVector E0 0 negw)) by (rewrite Hr; reflexivity). at_obj. }
  rewrite (obj_inj _ _ _ _ Ho Ev) in Hd.
  assert (r = 0 \/ r = 1) as [-> | ->] by lia; revert Hd; differs.
Qed.

(** a reduction that returns and one that is lost *)
Lemma neg_entries : enumerates oNeg [(0, 0, gi (-3)); (0, 1, gi 2); (1, 0, gi (-1)); (1, 1, gi (-5))].
Proof.
  intros fuel Hf. assert (Hv : mat_Values oNeg = 4) by (vm_compute; reflexivity).
  assert (Hw : wf oNeg) by exact (sane_wfw _ goint_sane negw_reachable _ _ hNeg).
  rewrite loop_Next_ok by auto. reflexivity.
Qed.
