(** Concrete executions of goroutines that call the library at the same time (C70, C71). *)
From Coq Require Import String.
From Verif Require Import GoBase Num SparseVec Csr Csc DenseVec DenseMat Mat World Ops MathOps Bfs Spec Api.
From Verif Require Import BaseProofs StoreThms Witness NumProofs StoreWitness Fine FineRel FineConc FineThms.
Open Scope Z_scope.

(** ** Running a schedule *)
Section Replay.
Context {N : num}.
Notation gor := (gor (N := N)).
(** goroutine [i] takes its next step, if it has one *)
Definition turn {A} (x : list (mat N) * list (gor A)) (i : nat) : list (mat N) * list (gor A) :=
  match nth_error (snd x) i with
  | None => x
  | Some g => match gstep (fst x) g with None => x | Some (h, g') => (h, list_set (snd x) i g') end
  end.
Fixpoint replay {A} (x : list (mat N) * list (gor A)) (sched : list nat) : list (mat N) * list (gor A) :=
  match sched with [] => x | i :: rest => replay (turn x i) rest end.
Lemma moves_trans {A} (x y z : list (mat N) * list (gor A)) : moves x y -> moves y z -> moves x z.
Proof. intros H1 H2. induction H2 as [|y y1 z H IH L]; [exact H1|]. eapply moves_more; [apply IH; exact H1|exact L]. Qed.
Lemma turn_moves {A} (x : list (mat N) * list (gor A)) i : moves x (turn x i).
Proof.
  unfold turn. destruct x as [h gs]. cbn [fst snd]. destruct (nth_error gs i) as [g|] eqn:E; [|constructor].
  destruct (gstep h g) as [[h' g']|] eqn:S; [|constructor]. eapply moves_more; [constructor|]. econstructor; eauto.
Qed.
Lemma replay_moves {A} (sched : list nat) (x : list (mat N) * list (gor A)) : moves x (replay x sched).
Proof. revert x. induction sched as [|i rest IH]; intros x; [constructor|]. cbn [replay]. eapply moves_trans; [apply turn_moves|apply IH]. Qed.
(** [k] rounds of everybody in turn *)
Fixpoint rounds (k n : nat) : list nat := match k with O => [] | Datatypes.S k => List.seq 0 n ++ rounds k n end.
(** have they all returned? *)
Definition returned {A} (gs : list (gor A)) : bool :=
  forallb (fun g => match outcome g with Some (Ok _) => true | _ => false end) gs.
Definition viewed (h : list (mat N)) (p : ptr) : option (Witness.view N) := option_map view_of (nth_error h p).
End Replay.

(** ** C70: three goroutines with two shared operands and an output each *)
Definition w70 : world num_goint :=
  after_all [KDenseFrom [[gi 1; gi 2]; [gi 3; gi 4]]; KCSRFrom [[gi 0; gi 5]; [gi 6; gi 0]]; KNewDense 2 2; KNewCSR 2 2; KNewCSC 2 2] empty_world.
Lemma w70_reachable : reachable w70. Proof. unfold w70. reach_calls. Qed.
Definition progs70 : list (list (call num_goint)) :=
  [[KMultiply E0 0 1 MNil 2; KAdd E0 2 2 MNil 2];
   [KAdd E0 0 1 MNil 3; KUpdate 3 0 0 (fun v => nadd v v)];
   [KTranspose E0 1 MNil 4; KEqual E0 (Some 0%nat) (Some 1%nat); KClear 4; KMultiply E0 1 0 MNil 4]].
Lemma progs70_used ks p : List.In ks progs70 -> List.In p (flat_map uses ks) -> exists m, obj w70 p m.
Proof.
  intros H1 H2. assert (L : (p < 5)%nat).
  { cbn [progs70 List.In] in H1. repeat (destruct H1 as [<- |H1]; [cbn in H2; lia|]). destruct H1. }
  assert (L' : length (w_heap w70) = 5%nat) by (vm_compute; reflexivity). unfold obj.
  destruct (nth_error (w_heap w70) p) as [m|] eqn:E; [eauto|]. apply nth_error_None in E. lia.
Qed.
Lemma progs70_separate : separate progs70.
Proof.
  intros i j ks ks' D Hi Hj p Hp Hu.
  destruct i as [|[|[|i]]]; try (cbn in Hi; destruct i; discriminate); injection Hi as <-;
  destruct j as [|[|[|j]]]; try (cbn in Hj; destruct j; discriminate); injection Hj as <-; cbn in Hp, Hu; lia.
Qed.
Lemma run70 : exists h gs, moves (w_heap w70, start (w_polls w70) (map performs progs70)) (h, gs) /\ returned gs = true /\
  viewed h 2 = Some (2%nat, (2, 2), [[gi 24; gi 10]; [gi 48; gi 30]], ([], [])) /\
  viewed h 3 = Some (0%nat, (2, 2), [[gi 7; gi 9]], ([1; 0], [0; 1; 2])) /\
  viewed h 4 = Some (1%nat, (2, 2), [[gi 15; gi 6; gi 20; gi 12]], ([0; 1; 0; 1], [0; 2; 4])).
Proof.
  set (z := replay (w_heap w70, start (w_polls w70) (map performs progs70)) (rounds 200 3)). exists (fst z), (snd z).
  split; [rewrite <- (surjective_pairing z); apply replay_moves|].
  split; [subst z; vm_compute; reflexivity|]. split; [subst z; vm_compute; reflexivity|]. split; subst z; vm_compute; reflexivity.
Qed.
(** five functions at once on the same operands *)
Definition jobs70 : list (job (N := num_goint)) := [JMultiply E0 0 1; JTranspose E0 1; JTransposeToCSC E0 1; JRowsAt 1 0; JMultiply E0 1 1].
Lemma run70_jobs : exists h gs, moves (w_heap w70, start (w_polls w70) (map job_steps jobs70)) (h, gs) /\ returned gs = true /\
  viewed h 5 = Some (0%nat, (2, 2), [[gi 6; gi 5]], ([1; 0], [0; 1; 2])).
Proof.
  set (z := replay (w_heap w70, start (w_polls w70) (map job_steps jobs70)) (rounds 200 5)). exists (fst z), (snd z).
  split; [rewrite <- (surjective_pairing z); apply replay_moves|].
  split; subst z; vm_compute; reflexivity.
Qed.

(** Two goroutines that both add one to one cell of a dense matrix: one addition is lost, and no order of
    the two calls explains what is left. *)
Definition bump : call num_goint := KUpdate 0 0 0 (fun v => nadd v (gi 1)).
Lemma lost_update :
  ~ (forall N (w : world N) (progs : list (list (call N))) h gs, sane N -> reachable w ->
       (forall ks p, List.In ks progs -> List.In p (flat_map uses ks) -> exists m, obj w p m) ->
       moves (w_heap w, start (w_polls w) (map performs progs)) (h, gs) -> returned gs = true ->
       exists ks, Permutation.Permutation ks (concat progs) /\ forall p m, obj w p m -> nth_error h p = nth_error (w_heap (fst (calls ks w))) p).
Proof.
  intros H. set (progs := [[bump]; [bump]]).
  set (z := replay (w_heap w70, start (w_polls w70) (map performs progs)) [0; 1; 0; 1; 0; 1; 0; 1]%nat).
  destruct (H _ w70 progs (fst z) (snd z) goint_sane w70_reachable) as (ks & P & Q).
  - intros ks p H1 H2. assert (p = 0%nat) as -> by (cbn [progs List.In] in H1; repeat (destruct H1 as [<- |H1]; [cbn in H2; lia|]); destruct H1).
    unfold obj. destruct (nth_error (w_heap w70) 0) as [m|] eqn:E; [eauto|]. apply nth_error_None in E. assert (L' : length (w_heap w70) = 5%nat) by (vm_compute; reflexivity). lia.
  - rewrite <- (surjective_pairing z). apply replay_moves.
  - subst z; vm_compute; reflexivity.
  - assert (E : ks = [bump; bump]).
    { cbn in P. destruct (Permutation.Permutation_length_2_inv (Permutation.Permutation_sym P)) as [-> | ->]; reflexivity. }
    subst ks. assert (X : viewed (fst z) 0 = viewed (w_heap (fst (calls [bump; bump] w70))) 0).
    { unfold viewed. f_equal. destruct (nth_error (w_heap w70) 0) as [m|] eqn:E; [apply (Q 0%nat m E)|]. apply nth_error_None in E.
      assert (L' : length (w_heap w70) = 5%nat) by (vm_compute; reflexivity). lia. }
    apply (f_equal (option_map (fun v => snd (fst v)))) in X. subst z. vm_compute in X. discriminate X.
Qed.

(** ** C71: two operators with different outputs and the same CSR matrix as mask *)
Definition progs71 : list (list (call num_goint)) := [[KApply E0 0 (MObj 1) (fun v => nadd v v) 2]; [KApply E0 0 (MObj 1) (fun v => nadd v v) 4]].
Lemma sparse_operand_race :
  ~ (forall N (w : world N) (progs : list (list (call N))) h gs, sane N -> reachable w ->
       (forall ks p, List.In ks progs -> List.In p (flat_map uses ks) -> exists m, obj w p m) -> separate progs ->
       moves (w_heap w, start (w_polls w) (map performs progs)) (h, gs) -> ~ racing gs).
Proof.
  intros H. set (z := replay (w_heap w70, start (w_polls w70) (map performs progs71)) [0; 0; 0; 0; 0; 0; 0; 0; 1; 1; 1; 1; 1; 1; 1]%nat).
  apply (H _ w70 progs71 (fst z) (snd z) goint_sane w70_reachable).
  - intros ks p H1 H2. assert (L : (p < 5)%nat).
    { cbn [progs71 List.In] in H1. repeat (destruct H1 as [<- |H1]; [cbn in H2; lia|]). destruct H1. }
    assert (L' : length (w_heap w70) = 5%nat) by (vm_compute; reflexivity). unfold obj.
    destruct (nth_error (w_heap w70) p) as [m|] eqn:E; [eauto|]. apply nth_error_None in E. lia.
  - intros i j ks ks' D Hi Hj p Hp Hu. destruct i as [|[|i]]; try (cbn in Hi; destruct i; discriminate); injection Hi as <-;
    destruct j as [|[|j]]; try (cbn in Hj; destruct j; discriminate); injection Hj as <-; cbn in Hp, Hu; lia.
  - rewrite <- (surjective_pairing z). apply replay_moves.
  - assert (L : length (snd z) = 2%nat) by (subst z; vm_compute; reflexivity).
    destruct (nth_error (snd z) 0) as [g|] eqn:E0; [|apply nth_error_None in E0; lia]. destruct (nth_error (snd z) 1) as [g'|] eqn:E1; [|apply nth_error_None in E1; lia].
    exists 0%nat, 1%nat, g, g', 1%nat, true, false. split; [discriminate|]. split; [exact E0|]. split; [exact E1|].
    assert (X : option_map next_touch (nth_error (snd z) 0) = Some (Some (1%nat, true))) by (subst z; vm_compute; reflexivity).
    assert (Y : option_map next_touch (nth_error (snd z) 1) = Some (Some (1%nat, false))) by (subst z; vm_compute; reflexivity).
    rewrite E0 in X. rewrite E1 in Y. cbn in X, Y. injection X as ->. injection Y as ->. auto.
Qed.
(** dense operands: two products and a transpose share an operand *)
Definition w71 : world num_goint :=
  after_all [KDenseFrom [[gi 1; gi 2]; [gi 3; gi 4]]; KNewDense 2 2; KNewCSR 2 2; KNewCSC 2 2] empty_world.
Lemma w71_reachable : reachable w71. Proof. unfold w71. reach_calls. Qed.
Definition progs71d : list (list (call num_goint)) := [[KMultiply E0 0 0 MNil 1]; [KTranspose E0 0 MNil 2; KAdd E0 2 0 MNil 2]; [KMultiply E0 0 0 (MObj 0) 3]].
Lemma progs71d_used ks p : List.In ks progs71d -> List.In p (flat_map uses ks) -> exists m, obj w71 p m.
Proof.
  intros H1 H2. assert (L : (p < 4)%nat).
  { cbn [progs71d List.In] in H1. repeat (destruct H1 as [<- |H1]; [cbn in H2; lia|]). destruct H1. }
  assert (L' : length (w_heap w71) = 4%nat) by (vm_compute; reflexivity). unfold obj.
  destruct (nth_error (w_heap w71) p) as [m|] eqn:E; [eauto|]. apply nth_error_None in E. lia.
Qed.
Lemma progs71d_separate : separate progs71d.
Proof.
  intros i j ks ks' D Hi Hj p Hp Hu.
  destruct i as [|[|[|i]]]; try (cbn in Hi; destruct i; discriminate); injection Hi as <-;
  destruct j as [|[|[|j]]]; try (cbn in Hj; destruct j; discriminate); injection Hj as <-; cbn in Hp, Hu; lia.
Qed.
Lemma progs71d_dense ks p m : List.In ks progs71d -> List.In p (flat_map uses ks) -> obj w71 p m -> ~ List.In p (flat_map writes ks) -> sparse_obj m = false.
Proof.
  intros H1 H2 Ho Hn. assert (p = 0%nat) as ->.
  { cbn [progs71d List.In] in H1. repeat (destruct H1 as [<- |H1]; [cbn in H2, Hn; lia|]). destruct H1. }
  apply obj_tag in Ho. assert (X : option_map tag (nth_error (w_heap w71) 0) = Some 2%nat) by (vm_compute; reflexivity). rewrite X in Ho.
  destruct m; try discriminate; reflexivity.
Qed.
Lemma run71d : exists h gs, moves (w_heap w71, start (w_polls w71) (map performs progs71d)) (h, gs) /\ returned gs = true /\
  viewed h 1 = Some (2%nat, (2, 2), [[gi 7; gi 10]; [gi 15; gi 22]], ([], [])).
Proof.
  set (z := replay (w_heap w71, start (w_polls w71) (map performs progs71d)) (rounds 200 3)). exists (fst z), (snd z).
  split; [rewrite <- (surjective_pairing z); apply replay_moves|]. split; subst z; vm_compute; reflexivity.
Qed.
