(** Concrete executions for C49, C50 and C60. *)
From Verif Require Import GoBase Num SparseVec Csr Csc DenseVec DenseMat Mat World Ops Spec Api Mutex.
From Verif Require Import BaseProofs StoreThms Witness NumProofs StoreWitness OpsProps OpsWitness MutexProofs MutexThms.
Open Scope Z_scope.

(** ** Running a schedule *)
Section Replay.
Context {N : num}.
Notation state := (state N).
Implicit Types x y : state.
(** goroutine [i] takes its next step, if it can *)
Definition fire x (i : nat) : option (label (N := N) * state) :=
  match nth_error (s_gs x) i with
  | None => None
  | Some g =>
      match g_pc g with
      | Out =>
          match g_todo g with
          | [] => None
          | k :: rest =>
              match lock_of k with
              | LNone => Some (Acq i k, at_pc x i (In k) rest (g_out g) (s_mat x) (s_rw x))
              | LRead => match rlock (s_rw x) with Some l => Some (Acq i k, at_pc x i (In k) rest (g_out g) (s_mat x) l) | None => None end
              | LWrite => match announce (s_rw x) with Some l => Some (Tau, at_pc x i (Ann k) rest (g_out g) (s_mat x) l) | None => None end
              end
          end
      | Ann k => if no_readers (s_rw x) then Some (Acq i k, at_pc x i (In k) (g_todo g) (g_out g) (s_mat x) (s_rw x)) else None
      | In k => Some (Tau, at_pc x i (Got k (s_mat x)) (g_todo g) (g_out g) (s_mat x) (s_rw x))
      | Got k m =>
          match body k m with
          | Ok (v, m') => Some (Tau, at_pc x i (Fin k (Some v)) (g_todo g) (g_out g) (if stores k then m' else s_mat x) (s_rw x))
          | Panic => Some (Tau, at_pc x i (Fin k None) (g_todo g) (g_out g) (s_mat x) (s_rw x))
          | Diverge => None
          end
      | Fin k o => Some (Tau, at_pc x i Out (g_todo g) (g_out g ++ [(k, o)]) (s_mat x)
          (match lock_of k with LNone => s_rw x | LRead => runlock (s_rw x) | LWrite => unlock (s_rw x) end))
      end
  end.
Lemma fire_step x i lb y : fire x i = Some (lb, y) -> step x lb y.
Proof.
  unfold fire. destruct (nth_error (s_gs x) i) as [g|] eqn:H; [|discriminate].
  destruct (g_pc g) eqn:P.
  - destruct (g_todo g) as [|k rest] eqn:T; [discriminate|]. destruct (lock_of k) eqn:L.
    + intros E; inversion E; subst. eapply st_none; eauto.
    + destruct (rlock (s_rw x)) eqn:R; [|discriminate]. intros E; inversion E; subst. eapply st_rlock; eauto.
    + destruct (announce (s_rw x)) eqn:R; [|discriminate]. intros E; inversion E; subst. eapply st_announce; eauto.
  - destruct (no_readers (s_rw x)) eqn:R; [|discriminate]. intros E; inversion E; subst. eapply st_lock; eauto.
  - intros E; inversion E; subst. eapply st_read; eauto.
  - destruct (body k m) as [[v m']| |] eqn:B; [| |discriminate]; intros E; inversion E; subst; [eapply st_write; eauto|eapply st_panic; eauto].
  - intros E; inversion E; subst. eapply st_leave; eauto.
Qed.
Fixpoint replay x (sched : list nat) (h : list (nat * mcall N)) : option (list (nat * mcall N) * state) :=
  match sched with
  | [] => Some (h, x)
  | i :: rest => match fire x i with Some (Acq j k, y) => replay y rest (h ++ [(j, k)]) | Some (Tau, y) => replay y rest h | None => None end
  end.
Lemma replay_run x0 x sched h0 h y : run x0 h0 x -> replay x sched h0 = Some (h, y) -> run x0 h y.
Proof.
  revert x h0. induction sched as [|i sched IH]; intros x h0 R E; cbn in E; [inversion E; subst; exact R|].
  destruct (fire x i) as [[[j k|] z]|] eqn:F; [| |discriminate]; apply fire_step in F; (eapply IH; [|exact E]); [eapply run_acq; eauto|eapply run_tau; eauto].
Qed.
(** a plain view of the end of a schedule: are all programs over, the cells, and the
    values returned ([inr true]: nothing; [inr false]: panic) *)
Definition plain_ret (o : option (ret N)) : (T N) + bool := match o with Some (VVal v) => inl v | Some _ => inr true | None => inr false end.
Definition over x : bool := forallb (fun g => match g_pc g, g_todo g with Out, [] => true | _, _ => false end) (s_gs x).
Definition summary (x : state) (cells : list (Z * Z)) : bool * list (res (T N)) * list (list (T N + bool)) :=
  (over x, map (fun q => rmap fst (mat_At (s_mat x) (fst q) (snd q))) cells, map (fun g => map (fun p => plain_ret (snd p)) (g_out g)) (s_gs x)).
Lemma over_done x : over x = true -> all_done x.
Proof.
  unfold over. intros H i g Hn. rewrite forallb_forall in H. specialize (H g (nth_error_In _ _ Hn)).
  split; destruct (g_pc g), (g_todo g); try discriminate; reflexivity.
Qed.
Lemma replayed m progs sched cells b o r : option_map (fun p => summary (snd p) cells) (replay (begin m progs) sched []) = Some (b, o, r) ->
  exists h x, run (begin m progs) h x /\ summary x cells = (b, o, r).
Proof.
  destruct (replay (begin m progs) sched []) as [[h x]|] eqn:E; [|discriminate]. intros H. cbn in H. inversion H. exists h, x. split; [|reflexivity].
  eapply replay_run; [apply run_nil|exact E].
Qed.
End Replay.

(** ** C49: three goroutines on a CSR matrix; the Set outside the matrix and the second
    callback panic *)
Definition progs49 : list (list (mcall num_goint)) :=
  [[MUpdate 2 1 (fun v => Some (nadd v (gi 1))); MAt 2 1]; [MAt 2 1; MSet 5 0 (gi 1)]; [MUpdate 2 1 (fun _ => None); MSet 2 1 (gi 40)]].
Lemma progs49_ok : all_calls guarded progs49 /\ all_calls ends progs49.
Proof. split; repeat constructor. Qed.
Lemma run49 : exists h x, run (begin (MCSR demo0) progs49) h x /\
  summary x [(2, 1); (2, 3)] = (true, [Ok (gi 41); Ok (gi (-1))], [[inr true; inl (gi 41)]; [inl (gi 7); inr false]; [inr false; inr true]]).
Proof.
  apply (replayed _ _ [1; 1; 2; 1; 1; 2; 2; 2; 2; 2; 2; 2; 2; 2; 0; 0; 0; 0; 0; 1; 1; 1; 1; 1; 0; 0; 0; 0]%nat). vm_compute. reflexivity.
Qed.

(** ** C50: a Map that overlaps a Set *)
Definition mapw : world num_goint := after_all [KDenseFrom [[gi 1]]] empty_world.
Definition mapm : mat num_goint := MDM (MkDense 1 1 [[gi 1]]).
Lemma mapw_reachable : reachable mapw. Proof. unfold mapw. reach_calls. Qed.
Lemma mapw_obj : obj mapw 0 mapm. Proof. at_obj. Qed.
Definition progs50 : list (list (mcall num_goint)) := [[MMapNext (mat_iterator mapm) (fun v => nadd v (gi 1))]; [MSet 0 0 (gi 10)]].
Lemma run50 : exists h x, run (begin mapm progs50) h x /\ summary x [(0, 0)] = (true, [Ok (gi 2)], [[inr true]; [inr true]]).
Proof. apply (replayed _ _ [0; 0; 1; 1; 1; 1; 1; 0; 0]%nat). vm_compute. reflexivity. Qed.
Lemma two_orders {A} (h : list (nat * A)) a b : interleaves h [[a]; [b]] -> h = [(0%nat, a); (1%nat, b)] \/ h = [(1%nat, b); (0%nat, a)].
Proof.
  intros H. assert (L : length h = 2%nat).
  { pose proof (interleaves_permutation _ _ H) as P. apply Permutation.Permutation_length in P. rewrite map_length in P. exact P. }
  assert (I : forall i k, List.In (i, k) h -> (i < 2)%nat).
  { intros i k Hin. destruct (Nat.lt_ge_cases i 2) as [|G]; [assumption|]. pose proof (H i) as E. rewrite nth_overflow in E by exact G.
    assert (X : List.In k (of_goroutine i h)) by (unfold of_goroutine; apply in_map_iff; exists (i, k); split; [reflexivity|]; apply filter_In; split; [exact Hin|apply Nat.eqb_refl]).
    rewrite E in X. destruct X. }
  destruct h as [|[i1 k1] [|[i2 k2] [|]]]; try discriminate.
  pose proof (I i1 k1 ltac:(left; reflexivity)). pose proof (I i2 k2 ltac:(right; left; reflexivity)).
  pose proof (H 0%nat) as H0'. pose proof (H 1%nat) as H1'. unfold of_goroutine in H0', H1'.
  destruct i1 as [|[|]], i2 as [|[|]]; try lia; cbn in H0', H1'; try discriminate; inversion H0'; inversion H1'; subst; auto.
Qed.
(** not every execution with Map has the outcome of a sequential one *)
Lemma map_not_sequential :
  ~ (forall N (w : world N) p m progs h x, sane N -> reachable w -> obj w p m -> run (begin m progs) h x -> all_done x ->
       exists h', interleaves h' progs /\ fst (sequential h' m) = s_mat x).
Proof.
  intros H. destruct run50 as (h & x & R & S). unfold summary in S. injection S as S1 S2 S3. apply over_done in S1.
  destruct (H _ mapw 0%nat mapm progs50 h x goint_sane mapw_reachable mapw_obj R S1) as (h' & I & E).
  assert (F : rmap fst (mat_At (fst (sequential h' mapm)) 0 0) = Ok (gi 2)) by (rewrite E; exact S2).
  destruct (two_orders h' _ _ I) as [-> | ->]; vm_compute in F; discriminate F.
Qed.
(** Clear does not exclude readers, other Clears, or iteration *)
Lemma clear_not_exclusive :
  ~ (forall N (m : mat N) (k : mcall N), ~ may_overlap m MClear k).
Proof. intros H. apply (H _ mapm (MAt 0 0)). apply overlap_exact. unfold kept_apart; cbn; tauto. Qed.
(** nothing excludes Values, the iterators of Enumerate and Map *)
Lemma iteration_never_exclusive N (m : mat N) (k k' : mcall N) : unlocked k -> may_overlap m k k'.
Proof. intros U. apply overlap_exact. intros [[W _]|[_ W]]; [destruct k; cbn in *; tauto|exact (W U)]. Qed.
(** Clear does exclude Set and Update *)
Lemma clear_excludes_writers N (m : mat N) (k : mcall N) : may_overlap m MClear k <-> ~ is_write k.
Proof. rewrite overlap_exact. unfold kept_apart; cbn. tauto. Qed.
