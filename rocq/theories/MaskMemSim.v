(** Whatever a caller's mask does, an operator does with it what it does with the predicate that gives the same answers. *)
From Coq Require Import String.
From Verif Require Import GoBase Num SparseVec Csr Csc DenseVec DenseMat Mat World Ops Spec Api ApplyMem MaskMem.
Import ListNotations.

Section MaskMemSim.
Context {N : num} {St : Type}.
Variable q : smask St.
Notation V := (T N).
Notation MX := (@MS N (St * list qa)).
Notation MY := (@MS N St).
Notation MZ A := ((Z -> Z -> bool) -> M N A).

Definition sim {A} (x : MX A) (y : MY A) (z : MZ A) : Prop := forall st l w, exists log st' w' o,
  x (st, l) w = ((st', l ++ log), w', o) /\ y st w = (st', w', o) /\ forall f, gives f log -> z f w = (w', o).

Lemma sim_lift {A} (x : M N A) : sim (slift x) (slift x) (fun _ => x).
Proof.
  intros st l w. destruct (x w) as [w' o] eqn:E. exists [], st, w', o. unfold slift. rewrite E, app_nil_r. split; [reflexivity|]. split; [reflexivity|]. intros; reflexivity.
Qed.
Lemma sim_ret {A} (a : A) : sim (sret a) (sret a) (fun _ => mret a).
Proof. intros st l w. exists [], st, w, (Ok a). unfold sret. rewrite app_nil_r. split; [reflexivity|]. split; [reflexivity|]. intros; reflexivity. Qed.
Lemma sim_bind {A B} (x : MX A) y (z : MZ A) (x' : A -> MX B) y' (z' : A -> MZ B) :
  sim x y z -> (forall a, sim (x' a) (y' a) (z' a)) -> sim (sbind x x') (sbind y y') (fun f => mbind (z f) (fun a => z' a f)).
Proof.
  intros H H' st l w. destruct (H st l w) as (log & st1 & w1 & o & E1 & E2 & E3). unfold sbind. rewrite E1, E2. destruct o as [a| |].
  - destruct (H' a st1 (l ++ log) w1) as (log2 & st2 & w2 & o2 & F1 & F2 & F3). exists (log ++ log2), st2, w2, o2. rewrite F1, F2, <- app_assoc.
    split; [reflexivity|]. split; [reflexivity|]. intros f Hf. unfold mbind. rewrite E3, F3; [reflexivity| |]; intros r c b Hin; apply Hf; apply in_or_app; auto.
  - exists log, st1, w1, Panic. split; [reflexivity|]. split; [reflexivity|]. intros f Hf. unfold mbind. rewrite E3 by exact Hf. reflexivity.
  - exists log, st1, w1, Diverge. split; [reflexivity|]. split; [reflexivity|]. intros f Hf. unfold mbind. rewrite E3 by exact Hf. reflexivity.
Qed.
Lemma sim_if {A} (b : bool) (x x' : MX A) y y' (z z' : MZ A) : sim x y z -> sim x' y' z' ->
  sim (if b then x else x') (if b then y else y') (fun f => if b then z f else z' f).
Proof. destruct b; auto. Qed.
Lemma sim_elem R C r c : sim (s_Element (noting q) r c) (s_Element q r c) (fun f => mask_Element (MUser R C f) r c).
Proof.
  intros st l w. unfold s_Element, noting. cbn [sm_Element]. destruct (sm_Element q st r c) as [st' b]. exists [(r, c, b)], st', w, b.
  split; [reflexivity|]. split; [reflexivity|]. intros f Hf. rewrite (Hf r c b (or_introl eq_refl)). reflexivity.
Qed.
(** the prologue *)
Lemma check_user R C f g out w : check_mask (N := N) (MUser R C f) out w = 
  mbind (check_mask (MUser R C g) out) (fun _ => mret (MUser R C f)) w.
Proof.
  unfold check_mask. unfold mbind. destruct (p_Rows out w) as [w1 [r| |]]; try reflexivity. destruct (p_Columns out w1) as [w2 [c| |]]; try reflexivity.
  cbn [mask_Rows mask_Columns]. unfold mret. destruct (negb (R =? r)); [reflexivity|]. destruct (negb (C =? c)); reflexivity.
Qed.
Lemma sim_check {A} out (x : MX A) y (z : (Z -> Z -> bool) -> mask -> M N A) :
  sim x y (fun f => z f (MUser (sm_Rows q) (sm_Columns q) f)) ->
  sim (sbind (s_check (noting q) out) (fun _ => x)) (sbind (s_check q out) (fun _ => y))
      (fun f => mbind (check_mask (MUser (sm_Rows q) (sm_Columns q) f) out) (z f)).
Proof.
  intros H st l w. unfold s_check, sbind, slift. cbn [noting sm_Rows sm_Columns].
  set (g := fun _ _ => false). pose proof (fun f => check_user (sm_Rows q) (sm_Columns q) f g out w) as Hc. unfold mbind in Hc.
  destruct (check_mask (MUser (sm_Rows q) (sm_Columns q) g) out w) as [w1 [k| |]].
  - unfold sret. destruct (H st l w1) as (log & st' & w' & o & E1 & E2 & E3). exists log, st', w', o. split; [exact E1|]. split; [exact E2|].
    intros f Hf. unfold mbind. rewrite Hc. unfold mret. apply E3. exact Hf.
  - exists [], st, w1, Panic. rewrite app_nil_r. split; [reflexivity|]. split; [reflexivity|]. intros f _. unfold mbind. rewrite Hc. reflexivity.
  - exists [], st, w1, Diverge. rewrite app_nil_r. split; [reflexivity|]. split; [reflexivity|]. intros f _. unfold mbind. rewrite Hc. reflexivity.
Qed.
Lemma sim_ext {A} (x : MX A) y (z z' : MZ A) : (forall f w, z f w = z' f w) -> sim x y z -> sim x y z'.
Proof. intros He H st l w. destruct (H st l w) as (log & st' & w' & o & E1 & E2 & E3). exists log, st', w', o. split; [auto|]. split; [auto|]. intros f Hf. rewrite <- He. auto. Qed.

Ltac sim :=
  lazymatch goal with
  | |- sim (slift _) _ _ => apply sim_lift
  | |- sim (sret _) _ _ => apply sim_ret
  | |- sim (s_Element _ _ _) _ _ => apply sim_elem
  | |- sim (sbind (s_check _ _) _) _ _ => apply (sim_check _ _ _ (fun _ k => _)); sim
  | |- sim (sbind _ _) _ _ => apply sim_bind; [sim|intro; sim]
  | |- sim (match ?a with _ => _ end) _ _ => first [apply sim_if|destruct a]; sim
  | |- _ => idtac
  end.

Lemma sim_for {R I} (body : I -> MX (option R)) body' (z : I -> MZ (option R)) : (forall i, sim (body i) (body' i) (z i)) ->
  forall l, sim (s_for_list l body) (s_for_list l body') (fun f => for_list l (fun i => z i f)).
Proof.
  intros H. induction l as [|i l IH]; cbn [s_for_list for_list]; [sim|].
  apply (sim_bind _ _ _ _ _ (fun o f => match o with Some r => mret (Some r) | None => for_list l (fun i => z i f) end)); [apply H|].
  intros [r|]; [sim|exact IH].
Qed.
Lemma sim_enum_loop {R} E p (x : R) (body : Z -> Z -> V -> MX (option R)) body' (z : Z -> Z -> V -> MZ (option R)) :
  (forall r c v, sim (body r c v) (body' r c v) (z r c v)) ->
  forall fuel it, sim (s_enum_loop E fuel p it x body) (s_enum_loop E fuel p it x body') (fun f => enum_loop E fuel p it x (fun r c v => z r c v f)).
Proof.
  intros H. induction fuel as [|fuel IH]; intros it; cbn [s_enum_loop enum_loop]; destruct (mat_HasNext it); [sim|sim| |sim].
  sim; [apply H|apply IH].
Qed.
Lemma sim_enumerate {R} E p (x : R) (body : Z -> Z -> V -> MX (option R)) body' (z : Z -> Z -> V -> MZ (option R)) :
  (forall r c v, sim (body r c v) (body' r c v) (z r c v)) ->
  sim (s_enumerate E p x body) (s_enumerate E p x body') (fun f => enumerate E p x (fun r c v => z r c v f)).
Proof. intros H. unfold s_enumerate, enumerate. sim. apply sim_enum_loop. exact H. Qed.
Lemma sim_map_step p it (body : Z -> Z -> V -> MX V) body' (z : Z -> Z -> V -> MZ V) :
  (forall r c v, sim (body r c v) (body' r c v) (z r c v)) ->
  sim (s_map_step p it body) (s_map_step p it body') (fun f => map_step p it (fun r c v => z r c v f)).
Proof. intros H. unfold s_map_step, map_step. sim. apply H. Qed.
Lemma sim_map_loop E p (body : Z -> Z -> V -> MX V) body' (z : Z -> Z -> V -> MZ V) :
  (forall r c v, sim (body r c v) (body' r c v) (z r c v)) ->
  forall fuel it, sim (s_map_loop E fuel p it body) (s_map_loop E fuel p it body') (fun f => map_loop E true fuel p it (fun r c v => z r c v f)).
Proof.
  intros H. induction fuel as [|fuel IH]; intros it; cbn [s_map_loop map_loop]; destruct (mat_HasNext it); [sim|sim| |sim].
  sim; [apply sim_map_step; apply H|apply IH].
Qed.
Lemma sim_map_over E p (body : Z -> Z -> V -> MX V) body' (z : Z -> Z -> V -> MZ V) :
  (forall r c v, sim (body r c v) (body' r c v) (z r c v)) ->
  sim (s_map_over E p body) (s_map_over E p body') (fun f => map_over E true p (fun r c v => z r c v f)).
Proof. intros H. unfold s_map_over, map_over. sim. apply sim_map_loop. exact H. Qed.

Notation the f := (MUser (sm_Rows q) (sm_Columns q) f).
Lemma multiply_sim E s m t : sim (multiplyS E s m (noting q) t) (multiplyS E s m q t) (fun f => multiply E s m (the f) t).
Proof.
  unfold multiplyS, multiply. sim. apply sim_for. intros r. sim. apply sim_for. intros c. sim.
Qed.
Lemma ewm_sim E s m t : sim (elementWiseMultiplyS E s m (noting q) t) (elementWiseMultiplyS E s m q t) (fun f => elementWiseMultiply E s m (the f) t).
Proof. unfold elementWiseMultiplyS, elementWiseMultiply. sim; apply sim_enumerate; intros r c v; sim. Qed.
Lemma add_sim E s m t : sim (AddS E s m (noting q) t) (AddS E s m q t) (fun f => Add E s m (the f) t).
Proof. unfold AddS, Add. sim. apply sim_enumerate; intros r c v; sim. Qed.
Lemma ewa_loop_sim E s t : sim (ewa_loopS E s (noting q) t) (ewa_loopS E s q t) (fun f => ewa_loop E s (the f) t).
Proof. unfold ewa_loopS, ewa_loop. apply sim_enumerate; intros r c v; sim. Qed.
Lemma ewa_sim E s m t : sim (elementWiseAddS E s m (noting q) t) (elementWiseAddS E s m q t) (fun f => elementWiseAdd E s m (the f) t).
Proof. unfold elementWiseAddS, elementWiseAdd. sim; apply ewa_loop_sim. Qed.
Lemma sub_sim E s m t : sim (SubtractS E s m (noting q) t) (SubtractS E s m q t) (fun f => Subtract E s m (the f) t).
Proof. unfold SubtractS, Subtract. sim. apply sim_enumerate; intros r c v; sim. Qed.
Lemma apply_sim E s u t : sim (ApplyQ E s (noting q) u t) (ApplyQ E s q u t) (fun f => Apply E s (the f) u t).
Proof.
  unfold ApplyQ, Apply. sim.
  - apply sim_map_over; intros r c v; sim.
  - apply sim_enumerate; intros r c v; sim.
Qed.
Lemma negative_sim E s t : sim (NegativeS E s (noting q) t) (NegativeS E s q t) (fun f => Negative E s (the f) t).
Proof. unfold NegativeS, Negative. sim. apply sim_map_over; intros r c v; sim. Qed.
Lemma transpose_sim E s t : sim (TransposeS E s (noting q) t) (TransposeS E s q t) (fun f => Transpose E s (the f) t).
Proof. unfold TransposeS, Transpose. sim. apply sim_enumerate; intros r c v; sim. Qed.

Lemma sim_follows {A} (x : MX A) y z : sim x y z -> follows x y z.
Proof. intros H st w. destruct (H st [] w) as (l & st' & w' & o & H'). exists l, st', w', o. exact H'. Qed.
Lemma same_answers E s m (u : T N -> T N) t :
  follows (N := N) (multiplyS E s m (noting q) t) (multiplyS E s m q t) (fun f => multiply E s m (the f) t) /\
  follows (N := N) (ElementWiseMatrixMultiplyS E s m (noting q) t) (ElementWiseMatrixMultiplyS E s m q t) (fun f => ElementWiseMatrixMultiply E s m (the f) t) /\
  follows (N := N) (ElementWiseVectorMultiplyS E s m (noting q) t) (ElementWiseVectorMultiplyS E s m q t) (fun f => ElementWiseVectorMultiply E s m (the f) t) /\
  follows (N := N) (AddS E s m (noting q) t) (AddS E s m q t) (fun f => Add E s m (the f) t) /\
  follows (N := N) (ElementWiseMatrixAddS E s m (noting q) t) (ElementWiseMatrixAddS E s m q t) (fun f => ElementWiseMatrixAdd E s m (the f) t) /\
  follows (N := N) (ElementWiseVectorAddS E s m (noting q) t) (ElementWiseVectorAddS E s m q t) (fun f => ElementWiseVectorAdd E s m (the f) t) /\
  follows (N := N) (SubtractS E s m (noting q) t) (SubtractS E s m q t) (fun f => Subtract E s m (the f) t) /\
  follows (N := N) (ApplyQ E s (noting q) u t) (ApplyQ E s q u t) (fun f => Apply E s (the f) u t) /\
  follows (N := N) (NegativeS E s (noting q) t) (NegativeS E s q t) (fun f => Negative E s (the f) t) /\
  follows (N := N) (TransposeS E s (noting q) t) (TransposeS E s q t) (fun f => Transpose E s (the f) t).
Proof.
  split; [apply sim_follows, multiply_sim|].
  split; [apply sim_follows; unfold ElementWiseMatrixMultiplyS, ElementWiseMatrixMultiply; sim; apply ewm_sim|].
  split; [apply sim_follows; unfold ElementWiseVectorMultiplyS, ElementWiseVectorMultiply; sim; apply ewm_sim|].
  split; [apply sim_follows, add_sim|].
  split; [apply sim_follows; unfold ElementWiseMatrixAddS, ElementWiseMatrixAdd; sim; apply ewa_sim|].
  split; [apply sim_follows; unfold ElementWiseVectorAddS, ElementWiseVectorAdd; sim; apply ewa_sim|].
  split; [apply sim_follows, sub_sim|]. split; [apply sim_follows, apply_sim|]. split; [apply sim_follows, negative_sim|apply sim_follows, transpose_sim].
Qed.
End MaskMemSim.
