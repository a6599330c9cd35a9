(** Concrete executions of Strassen's multiplication whose context becomes done on the way (C73). *)
From Coq Require Import String.
From Verif Require Import GoBase Num SparseVec Csr Csc DenseVec DenseMat Mat World Ops MathOps Bfs Spec Api.
From Verif Require Import BaseProofs StoreThms Witness NumProofs StoreWitness OpsWitness MathThms Fine FineRel FineConc FineThms FineWitness FineStrassen FineStrassenThms FineStrassenWitness FineCancel.
Open Scope Z_scope.

Section Replay.
Context {N : num}.
Notation config := (bool * (list (mat N) * task (N := N)))%type.
Variable E : env.
Variable x : Z.

(** [k] steps, the goroutines picked by numbers that jump about *)
Fixpoint drives (k : nat) (n : nat) (c : config) : config :=
  match k with
  | O => c
  | S k => match poke (@dstep N (fst c)) E x (fst (snd c)) (snd (snd c)) n with Some c' => drives k (Nat.modulo (n * 17 + 5) 1009) (fst c, c') | None => c end
  end.
Lemma csteps_trans (a b c : config) : csteps E x a b -> csteps E x b c -> csteps E x a c.
Proof. intros H1 H2. induction H2 as [|b b1 c H IH S]; [exact H1|]. eapply css_more; [apply IH; exact H1|exact S]. Qed.
Lemma drives_steps k : forall n c, csteps E x c (drives k n c).
Proof.
  induction k as [|k IH]; intros n [d [h t]]; cbn [drives fst snd]; [constructor|]. destruct (poke (@dstep N d) E x h t n) as [c'|] eqn:P; [|constructor].
  eapply csteps_trans; [|apply IH]. eapply css_more; [constructor|]. apply cs_run. eapply poke_step. exact P.
Qed.
Lemma drives_flag k : forall n c, fst (drives k n c) = fst c.
Proof. induction k as [|k IH]; intros n c; cbn [drives]; [reflexivity|]. destruct (poke _ E x _ _ n); [rewrite IH|]; reflexivity. Qed.
Lemma done_after k n c : fst c = false -> csteps E x c (true, snd (drives k n c)).
Proof.
  intro H. eapply css_more; [apply (drives_steps k n)|]. rewrite (surjective_pairing (drives k n c)) at 1. rewrite drives_flag, H. apply cs_done.
Qed.
(** done after [k] of [k + k'] steps *)
Definition replay (k k' : nat) (c : list (mat N) * task (N := N)) : list (mat N) * task (N := N) := snd (drives k' 1 (true, snd (drives k 1 (false, c)))).
Lemma replay_steps k k' c : csteps E x (false, c) (true, replay k k' c).
Proof.
  eapply csteps_trans; [apply (done_after k 1); reflexivity|]. unfold replay.
  replace true with (fst (drives k' 1 (true, snd (drives k 1 (false, c))))) at 2 by (rewrite drives_flag; reflexivity). rewrite <- surjective_pairing. apply drives_steps.
Qed.
End Replay.

(** an environment whose context can become done *)
Definition E73 : env := {| e_ctx := Some 0%nat; e_reg := e_reg E0; e_fuel := e_fuel E0 |}.
(** The product of C72's example with the context done after 3825 of 3850 steps, while the call puts its
    result together: two rows of it are those of the product, two are zero. *)
Lemma run73 : exists h t p, csteps E73 1 (false, (w_heap mathw, begin E73 1 2 3)) (true, (h, t)) /\ finished t = Some p /\
  viewed h p = Some (2%nat, (4, 4), [[gi 17; gi 27; gi 32; gi 41]; [gi 0; gi 0; gi 0; gi 0]; [gi 3; gi 1; gi 2; gi 1]; [gi 0; gi 0; gi 0; gi 0]], ([], [])).
Proof.
  set (z := replay E73 1 (3800 + 25) 100 (w_heap mathw, begin E73 1 2 3)). exists (fst z), (snd z), 272%nat.
  split; [rewrite <- (surjective_pairing z); apply replay_steps|]. split; subst z; vm_compute; reflexivity.
Qed.
(** done after 1000 steps: all cells are zero *)
Lemma zero73 : exists h t p, csteps E73 1 (false, (w_heap mathw, begin E73 1 2 3)) (true, (h, t)) /\ finished t = Some p /\
  viewed h p = Some (2%nat, (4, 4), [[gi 0; gi 0; gi 0; gi 0]; [gi 0; gi 0; gi 0; gi 0]; [gi 0; gi 0; gi 0; gi 0]; [gi 0; gi 0; gi 0; gi 0]], ([], [])).
Proof.
  set (z := replay E73 1 (10 * 100) (40 * 100) (w_heap mathw, begin E73 1 2 3)). exists (fst z), (snd z), 272%nat.
  split; [rewrite <- (surjective_pairing z); apply replay_steps|]. split; subst z; vm_compute; reflexivity.
Qed.
