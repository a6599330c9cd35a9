(** Cases and counterexamples for histories of sparse vectors. *)
From Verif Require Import GoBase Num SparseVec Csr Csc DenseVec DenseMat Mat Spec VecHist Witness.

(** writing in order with gaps: what is read depends on the window *)
Definition in_order_ops : list (@vop num_goint) :=
  [VSetVec 1 (gi 5); VSetVec 4 (gi 7); VAtVec 4; VSetVec 4 (gi 0); VSetVec 0 (gi 3); VAtVec 1; VUpdate 3 0 (fun v => v);
   VSetVec 2 (gi 8); VAtVec 4; VSetVec 4 (gi 9); VAt 4 0; VSetVec 1 (gi 0); VElement 4 0; VElement 3 0].

Lemma in_order_case : orderly 6 (fun _ => n0) in_order_ops /\
  snd (win_vops 6 (fun _ => n0) in_order_ops) =
    [Done; Done; Value (gi 0); Done; Done; Value (gi 5); Done; Done; Value (gi 7); Done; Value (gi 9); Done; Flag false; Flag false].
Proof.
  split; [|vm_compute; reflexivity].
  unfold in_order_ops. cbn [orderly]. repeat split; unfold in_order; cbn [writes_at];
    try (intros H; exfalso; vm_compute in H; discriminate H); try (intros _ H; exfalso; vm_compute in H; discriminate H).
  all: intros _ _ j Hj; assert (j = 0 \/ j = 1 \/ j = 2 \/ j = 3 \/ j = 4 \/ j = 5) as K by lia;
    repeat (destruct K as [-> |K]; [try (exfalso; lia); vm_compute; reflexivity|]); subst j; vm_compute; reflexivity.
Qed.

(** a value written over with zero comes back *)
Lemma sv_stale : exists (s : svec num_goint), NewSparseVector 5 = Ok s /\
  snd (do_vops (MSV s) [VSetVec 3 (gi 7); VSetVec 3 (gi 0); VAtVec 3; VSetVec 0 (gi 1); VSetVec 1 (gi 1); VAtVec 3])
  = [Done; Done; Value (gi 0); Done; Done; Value (gi 7)].
Proof. eexists. split; [reflexivity|]. vm_compute. reflexivity. Qed.

(** a position shows twice in the enumeration, with its old and its new value; [AtVec] then
    finds one of them *)
Lemma sv_twice : exists (s : svec num_goint), NewSparseVector 5 = Ok s /\
  let m := fst (do_vops (MSV s) [VSetVec 3 (gi 7); VSetVec 3 (gi 8); VSetVec 0 (gi 1)]) in
  loop_Next 5 m (mat_iterator m) = Ok [(0, 0, gi 1); (3, 0, gi 7); (3, 0, gi 8)] /\ mat_AtVec m 3 = Ok (gi 7).
Proof. eexists. split; [reflexivity|]. vm_compute. split; reflexivity. Qed.

(** also a position within the number of entries can be missed *)
Lemma sv_missed : exists (s : svec num_goint), NewSparseVector 6 = Ok s /\
  snd (do_vops (MSV s) [VSetVec 5 (gi 1); VSetVec 3 (gi 7); VSetVec 4 (gi 1); VSetVec 2 (gi 1); VSetVec 0 (gi 1); VAtVec 3])
  = [Done; Done; Done; Done; Done; Value (gi 0)].
Proof. eexists. split; [reflexivity|]. vm_compute. reflexivity. Qed.
