(** MutexMatrix: the theorems behind C49, C50 and C60. *)
From Coq Require Import Permutation.
From Verif Require Import GoBase Num SparseVec Csr Csc DenseVec DenseMat Mat World Ops Api Mutex.
From Verif Require Import BaseProofs AssocProofs CsrProofs SvProofs MatProofs Spec HeapProofs ReachProofs StoreProofs StoreThms MutexProofs.
Open Scope Z_scope.

(** ** What may overlap *)
(** Set and Update *)
Definition is_write {N} (k : mcall N) : Prop := match k with MSet _ _ _ | MUpdate _ _ _ => True | _ => False end.
(** the methods that take no lock *)
Definition unlocked {N} (k : mcall N) : Prop :=
  match k with MRows | MColumns | MSize | MValues | MNext _ | MMapNext _ _ => True | _ => False end.
(** calls of two goroutines that never overlap *)
Definition kept_apart {N} (k k' : mcall N) : Prop := (is_write k /\ ~ unlocked k') \/ (is_write k' /\ ~ unlocked k).
(** two goroutines are inside [k] and [k'] at the same time in some execution on [m] *)
Definition may_overlap {N} (m : mat N) (k k' : mcall N) : Prop :=
  exists progs h x i j, i <> j /\ run (begin m progs) h x /\ inside x i k /\ inside x j k'.

Section Locks.
Context {N : num}.
Notation V := (T N).
Notation mat := (mat N).
Notation mcall := (mcall N).
Notation state := (state N).
Implicit Types m : mat.
Implicit Types k : mcall.
Implicit Types x y : state.

(** the lock's counters agree with where the goroutines are, whatever they call *)
Record locks (x : state) : Prop := MkLocks {
  l_readers : rw_readers (s_rw x) = total_of rd (s_gs x);
  l_writer : (if rw_writer (s_rw x) then 1 else 0)%nat = total_of wr (s_gs x);
  l_excl : (total_of win (s_gs x) > 0)%nat -> total_of rd (s_gs x) = 0%nat;
  l_ann : ann_ok x;
}.
Lemma win_wr (l : list (gor N)) : (total_of win l <= total_of wr l)%nat.
Proof.
  induction l as [|a l IH]; [cbn; lia|]. cbn. assert (win a <= wr a)%nat by (unfold win, wr, wrp, winp; destruct (g_pc a); cbn; lia). lia.
Qed.
Lemma locks_step x lb y : locks x -> step x lb y -> locks y.
Proof.
  intros [R1 R2 R3 R4] S. pose proof (ann_step x lb y R4 S) as A.
  assert (B : rw_readers (s_rw y) = total_of rd (s_gs y) /\ (if rw_writer (s_rw y) then 1 else 0)%nat = total_of wr (s_gs y) /\
     ((total_of win (s_gs y) > 0)%nat -> total_of rd (s_gs y) = 0%nat)).
  2: { destruct B as (B1 & B2 & B3). constructor; assumption. }
  pose proof (win_wr (s_gs x)) as W.
  destruct S; cbn [at_pc s_rw s_gs].
  - match goal with |- context [list_set _ _ ?g'] => tots H g' H0 H2 end. repeat split; lia.
  - match goal with |- context [list_set _ _ ?g'] => tots H g' H0 H2 end. unfold rlock in H3. destruct (rw_writer (s_rw x)); [discriminate|]. inversion H3; subst l. cbn. repeat split; lia.
  - match goal with |- context [list_set _ _ ?g'] => tots H g' H0 H2 end. unfold announce in H3. destruct (rw_writer (s_rw x)); [discriminate|]. inversion H3; subst l. cbn. repeat split; lia.
  - pose proof (R4 i g k H H0) as L. match goal with |- context [list_set _ _ ?g'] => tots H g' H0 L end. apply Nat.eqb_eq in H1. repeat split; lia.
  - match goal with |- context [list_set _ _ ?g'] => tots H g' H0 H0 end. repeat split; lia.
  - match goal with |- context [list_set _ _ ?g'] => tots H g' H0 H0 end. repeat split; lia.
  - match goal with |- context [list_set _ _ ?g'] => tots H g' H0 H0 end. repeat split; lia.
  - match goal with |- context [list_set _ _ ?g'] => tots H g' H0 H0 end. destruct (lock_of k); cbn; repeat split; try lia; destruct (rw_writer (s_rw x)); lia.
Qed.
Lemma locks_begin m progs : locks (begin m progs).
Proof.
  assert (T : forall f : gor N -> nat, (forall p, f (MkGor Out p []) = 0%nat) -> total_of f (s_gs (begin m progs)) = 0%nat).
  { intros f Hf. cbn. clear -Hf. induction progs as [|a l IH]; [reflexivity|]. cbn. rewrite Hf, IH. reflexivity. }
  constructor.
  - rewrite T; reflexivity.
  - rewrite T; reflexivity.
  - intros _. apply T. reflexivity.
  - intros i g k H P. cbn in H. rewrite nth_error_map in H. destruct (nth_error progs i); inversion H; subst; discriminate.
Qed.
Lemma run_locks m progs h x : run (begin m progs) h x -> locks x.
Proof. induction 1; [apply locks_begin|eapply locks_step; eauto..]. Qed.

Lemma write_lock k : is_write k <-> lock_of k = LWrite.
Proof. destruct k; cbn; split; try tauto; congruence. Qed.
Lemma unlocked_lock k : unlocked k <-> lock_of k = LNone.
Proof. destruct k; cbn; split; try tauto; congruence. Qed.

Lemma apart x i j k k' : locks x -> inside x i k -> inside x j k' -> i <> j -> is_write k -> unlocked k'.
Proof.
  intros [R1 R2 R3 R4] P Q D L. apply write_lock in L. apply unlocked_lock.
  apply inside_call in P as (g & H & P). apply inside_call in Q as (g' & H' & Q).
  assert (W : win g = 1%nat) by (rewrite win_at; unfold winp; rewrite P, L; reflexivity).
  assert (W2 : wr g = 1%nat) by (rewrite wr_at; unfold wrp; destruct (g_pc g); try discriminate; unfold winp; rewrite P, L; reflexivity).
  destruct (lock_of k') eqn:L'; [reflexivity| |]; exfalso.
  - assert (W' : rd g' = 1%nat) by (rewrite rd_at; unfold rdp; rewrite Q, L'; reflexivity).
    pose proof (total_of_ge win _ _ _ H). pose proof (total_of_ge rd _ _ _ H'). lia.
  - assert (W' : wr g' = 1%nat) by (rewrite wr_at; unfold wrp; destruct (g_pc g'); try discriminate; unfold winp; rewrite Q, L'; reflexivity).
    pose proof (total_of_two wr _ _ _ _ _ H H' D). destruct (rw_writer (s_rw x)); lia.
Qed.

Lemma step_eq x lb y y' : step x lb y' -> y' = y -> step x lb y.
Proof. intros H <-. exact H. Qed.
Lemma overlap_exact m k k' : may_overlap m k k' <-> ~ kept_apart k k'.
Proof.
  split.
  - intros (progs & h & x & i & j & D & R & P & Q) [[W U]|[W U]]; apply U.
    + eapply (apart x i j); eauto. eapply run_locks; eauto.
    + eapply (apart x j i); eauto. eapply run_locks; eauto.
  - intros NA. exists [[k]; [k']].
    assert (X : forall (pc0 pc1 : pc N), call_of pc0 = Some k -> call_of pc1 = Some k' -> forall m l o0 o1, 
      inside (MkSt m l [MkGor pc0 [] o0; MkGor pc1 [] o1]) 0 k /\ inside (MkSt m l [MkGor pc0 [] o0; MkGor pc1 [] o1]) 1 k').
    { intros pc0 pc1 E0 E1 m1 l o0 o1. split; eexists; split; try reflexivity; cbn.
      - destruct pc0; inversion E0; subst; eauto.
      - destruct pc1; inversion E1; subst; eauto. }
    destruct (lock_of k) eqn:L, (lock_of k') eqn:L'.
    + exists ([(0%nat, k)] ++ [(1%nat, k')]), (MkSt m (MkRW 0 false) [MkGor (In k) [] []; MkGor (In k') [] []]), 0%nat, 1%nat.
      split; [discriminate|]. split; [|apply X; reflexivity].
      eapply run_acq; [eapply (run_acq _ []); [apply run_nil|]|].
      * eapply step_eq; [eapply (st_none _ 0%nat); try reflexivity; try eassumption; reflexivity|reflexivity].
      * eapply step_eq; [eapply (st_none _ 1%nat); try reflexivity; try eassumption; reflexivity|reflexivity].
    + exists ([(0%nat, k)] ++ [(1%nat, k')]), (MkSt m (MkRW 1 false) [MkGor (In k) [] []; MkGor (In k') [] []]), 0%nat, 1%nat.
      split; [discriminate|]. split; [|apply X; reflexivity].
      eapply run_acq; [eapply (run_acq _ []); [apply run_nil|]|].
      * eapply step_eq; [eapply (st_none _ 0%nat); try reflexivity; try eassumption; reflexivity|reflexivity].
      * eapply step_eq; [eapply (st_rlock _ 1%nat); try reflexivity; try eassumption; reflexivity|reflexivity].
    + exists ([(0%nat, k)] ++ [(1%nat, k')]), (MkSt m (MkRW 0 true) [MkGor (In k) [] []; MkGor (In k') [] []]), 0%nat, 1%nat.
      split; [discriminate|]. split; [|apply X; reflexivity].
      eapply run_acq; [eapply run_tau; [eapply (run_acq _ []); [apply run_nil|]|]|].
      * eapply step_eq; [eapply (st_none _ 0%nat); try reflexivity; try eassumption; reflexivity|reflexivity].
      * eapply step_eq; [eapply (st_announce _ 1%nat); try reflexivity; try eassumption; reflexivity|reflexivity].
      * eapply step_eq; [eapply (st_lock _ 1%nat); try reflexivity; try eassumption; reflexivity|reflexivity].
    + exists ([(0%nat, k)] ++ [(1%nat, k')]), (MkSt m (MkRW 1 false) [MkGor (In k) [] []; MkGor (In k') [] []]), 0%nat, 1%nat.
      split; [discriminate|]. split; [|apply X; reflexivity].
      eapply run_acq; [eapply (run_acq _ []); [apply run_nil|]|].
      * eapply step_eq; [eapply (st_rlock _ 0%nat); try reflexivity; try eassumption; reflexivity|reflexivity].
      * eapply step_eq; [eapply (st_none _ 1%nat); try reflexivity; try eassumption; reflexivity|reflexivity].
    + exists ([(0%nat, k)] ++ [(1%nat, k')]), (MkSt m (MkRW 2 false) [MkGor (In k) [] []; MkGor (In k') [] []]), 0%nat, 1%nat.
      split; [discriminate|]. split; [|apply X; reflexivity].
      eapply run_acq; [eapply (run_acq _ []); [apply run_nil|]|].
      * eapply step_eq; [eapply (st_rlock _ 0%nat); try reflexivity; try eassumption; reflexivity|reflexivity].
      * eapply step_eq; [eapply (st_rlock _ 1%nat); try reflexivity; try eassumption; reflexivity|reflexivity].
    + exfalso. apply NA. right. rewrite write_lock, unlocked_lock. split; congruence.
    + exists ([(0%nat, k)] ++ [(1%nat, k')]), (MkSt m (MkRW 0 true) [MkGor (In k) [] []; MkGor (In k') [] []]), 0%nat, 1%nat.
      split; [discriminate|]. split; [|apply X; reflexivity].
      eapply run_acq; [eapply (run_acq _ []); [eapply run_tau; [apply run_nil|]|]|].
      * eapply step_eq; [eapply (st_announce _ 0%nat); try reflexivity; try eassumption; reflexivity|reflexivity].
      * eapply step_eq; [eapply (st_lock _ 0%nat); try reflexivity; try eassumption; reflexivity|reflexivity].
      * eapply step_eq; [eapply (st_none _ 1%nat); try reflexivity; try eassumption; reflexivity|reflexivity].
    + exfalso. apply NA. left. rewrite write_lock, unlocked_lock. split; congruence.
    + exfalso. apply NA. left. rewrite write_lock, unlocked_lock. split; congruence.
Qed.
End Locks.

(** ** Executions and their sequential counterparts *)
(** [h] interleaves the programs: goroutine [i]'s calls appear in its program's order *)
Definition interleaves {A} (h : list (nat * A)) (progs : list (list A)) : Prop :=
  forall i, of_goroutine i h = nth i progs [].
(** every program is over *)
Definition all_done {N} (x : state N) : Prop := forall i g, nth_error (s_gs x) i = Some g -> finished g.
(** nobody is inside a call *)
Definition idle {N} (x : state N) : Prop := forall i g, nth_error (s_gs x) i = Some g -> g_pc g = Out.
(** what goroutine [i] has been given back *)
Definition outcomes {N} (x : state N) (i : nat) : list (mcall N * option (ret N)) :=
  match nth_error (s_gs x) i with Some g => g_out g | None => [] end.

Lemma interleaves_permutation {A} (h : list (nat * A)) progs : interleaves h progs -> Permutation (map snd h) (concat progs).
Proof.
  revert progs. induction h as [|[i k] h IH]; intros progs H.
  - assert (E : forall i, nth i progs [] = []) by (intros i; symmetry; apply (H i)).
    clear H. induction progs as [|a l IH]; [constructor|]. pose proof (E 0%nat) as E0. cbn in E0. subst. cbn. apply IH. intros i. apply (E (S i)).
  - pose proof (H i) as Hi. unfold of_goroutine in Hi. cbn in Hi. rewrite Nat.eqb_refl in Hi. cbn in Hi.
    assert (Li : (i < length progs)%nat). { destruct (Nat.lt_ge_cases i (length progs)) as [L|L]; [exact L|]. rewrite nth_overflow in Hi by exact L. discriminate. }
    destruct (nth_split progs [] Li) as (l1 & l2 & E & EL). rewrite <- Hi in E.
    set (rest := map snd (filter (fun p => Nat.eqb (fst p) i) h)) in *.
    rewrite E, concat_app. cbn. apply Permutation_cons_app. change (rest ++ concat l2) with (concat (rest :: l2)). rewrite <- concat_app.
    apply IH. intros j. pose proof (H j) as Hj. unfold of_goroutine in Hj |- *. cbn in Hj.
    destruct (Nat.eq_dec j i) as [-> |D].
    + rewrite app_nth2 by lia. replace (i - length l1)%nat with 0%nat by lia. reflexivity.
    + replace (Nat.eqb i j) with false in Hj by (symmetry; apply Nat.eqb_neq; congruence). rewrite Hj, E.
      destruct (Nat.lt_ge_cases j (length l1)); [rewrite !app_nth1 by lia; reflexivity|].
      rewrite !app_nth2 by lia. destruct (j - length l1)%nat eqn:Z; [lia|reflexivity].
Qed.

Lemma nth_default_eq_local {A} (l : list A) i d : nth i l d = match nth_error l i with Some a => a | None => d end.
Proof. revert i. induction l as [|a l IH]; intros [|i]; try reflexivity. apply IH. Qed.

Section Sequential.
Context {N : num}.
Notation V := (T N).
Notation mat := (mat N).
Notation mcall := (mcall N).
Implicit Types m : mat.
Implicit Types k : mcall.
Implicit Types x y : state N.
Implicit Types w : world N.

Definition all_calls (P : mcall -> Prop) (progs : list (list mcall)) : Prop := Forall (Forall P) progs.
Lemma all_calls_in P progs : all_calls P progs -> forall p k, List.In p progs -> List.In k p -> P k.
Proof. intros H p k Hp Hk. eapply Forall_forall in H; [|exact Hp]. eapply Forall_forall in H; [|exact Hk]. exact H. Qed.

Lemma gs_length m progs h x : run (begin m progs) h x -> length (s_gs x) = length progs.
Proof.
  induction 1 as [|h y i k z R IH S|h y z R IH S]; [cbn; apply map_length|..]; destruct S; cbn; rewrite length_list_set; exact IH.
Qed.
Lemma of_range {A} (h : list (nat * A)) n i : (forall j a, List.In (j, a) h -> (j < n)%nat) -> (n <= i)%nat -> of_goroutine i h = [].
Proof.
  intros H L. unfold of_goroutine. induction h as [|[j a] h IH]; [reflexivity|]. cbn.
  replace (Nat.eqb j i) with false. - apply IH. intros j' a' Hin. eapply H. right. exact Hin.
  - symmetry. apply Nat.eqb_neq. pose proof (H j a (or_introl eq_refl)). lia.
Qed.
Lemma hist_range m progs h x : run (begin m progs) h x -> forall j k, List.In (j, k) h -> (j < length progs)%nat.
Proof.
  induction 1 as [|h y i k z R IH S|h y z R IH S]; intros j k' Hin; [destruct Hin| |eapply IH; eauto].
  apply in_app_iff in Hin as [Hin|[E|[]]]; [eapply IH; eauto|]. inversion E; subst. rewrite <- (gs_length _ _ _ _ R).
  inversion S; subst; apply nth_error_Some; congruence.
Qed.

(** every execution of a set of programs that makes no use of Clear, Values and
    iteration has the outcome of running the calls one at a time in the order in
    which they got their locks *)
Lemma linearizable w p m progs h x : sane N -> reachable w -> obj w p m -> all_calls guarded progs ->
  run (begin m progs) h x -> idle x ->
  fst (sequential h m) = s_mat x /\
  (forall i, outcomes x i = of_goroutine i (snd (sequential h m))) /\
  (forall i g, nth_error (s_gs x) i = Some g -> nth i progs [] = of_goroutine i h ++ g_todo g).
Proof.
  intros Hs Hr Ho Hg R Q. pose proof (reach_good w p m Hs Hr Ho) as Hw.
  destruct (quiescent m progs (proj1 Hs) (all_calls_in _ _ Hg) Hw h x R Q) as (E & F). split; [exact E|]. split.
  - intros i. unfold outcomes. destruct (nth_error (s_gs x) i) as [g|] eqn:H; [apply (F i g H)|].
    symmetry. apply nth_error_None in H. rewrite (gs_length _ _ _ _ R) in H. eapply of_range; [|exact H].
    intros j a Hin. apply (hist_range _ _ _ _ R j (fst a)). rewrite <- (fst_sequential h m). apply in_map_iff. exists (j, a). auto.
  - intros i g H. destruct (F i g H) as [_ F2]. apply nth_error_nth. exact F2.
Qed.
(** also before the end: the results handed out so far are the sequential ones *)
Lemma linearizable_prefix w p m progs h x : sane N -> reachable w -> obj w p m -> all_calls guarded progs ->
  run (begin m progs) h x -> forall i, exists rest, of_goroutine i (snd (sequential h m)) = outcomes x i ++ rest /\ (length rest <= 1)%nat.
Proof.
  intros Hs Hr Ho Hg R i. pose proof (reach_good w p m Hs Hr Ho) as Hw. unfold outcomes.
  destruct (nth_error (s_gs x) i) as [g|] eqn:H.
  - destruct (results_so_far m progs (proj1 Hs) (all_calls_in _ _ Hg) Hw h x i g R H) as (rest & E & L & _). eauto.
  - exists []. split; [|cbn; lia]. cbn. apply nth_error_None in H. rewrite (gs_length _ _ _ _ R) in H. eapply of_range; [|exact H].
    intros j a Hin. apply (hist_range _ _ _ _ R j (fst a)). rewrite <- (fst_sequential h m). apply in_map_iff. exists (j, a). auto.
Qed.
(** when everything is over, the order is an interleaving of the whole programs *)
Lemma complete w p m progs h x : sane N -> reachable w -> obj w p m -> all_calls guarded progs ->
  run (begin m progs) h x -> all_done x -> interleaves h progs.
Proof.
  intros Hs Hr Ho Hg R D i.
  destruct (linearizable w p m progs h x Hs Hr Ho Hg R) as (_ & _ & F). { intros j g H. apply (D j g H). }
  destruct (nth_error (s_gs x) i) as [g|] eqn:H.
  - rewrite (F i g H), (proj2 (D i g H)), app_nil_r. reflexivity.
  - apply nth_error_None in H. rewrite (gs_length _ _ _ _ R) in H. rewrite nth_overflow by exact H. eapply of_range; [|exact H]. apply (hist_range _ _ _ _ R).
Qed.
(** nothing gets stuck: some goroutine can move until all programs are over, also
    after panics *)
Lemma no_deadlock w p m progs h x : sane N -> reachable w -> obj w p m -> all_calls guarded progs -> all_calls ends progs ->
  run (begin m progs) h x -> all_done x \/ exists lb y, step x lb y.
Proof.
  intros Hs Hr Ho Hg He R. pose proof (reach_good w p m Hs Hr Ho) as Hw.
  destruct (progress m progs (proj1 Hs) (all_calls_in _ _ Hg) Hw (all_calls_in _ _ He) h x R); auto.
Qed.
(** every execution is finite: no more than five steps for a call *)
Inductive steps : nat -> state N -> state N -> Prop :=
| steps_0 : forall x, steps 0 x x
| steps_S : forall n x lb y z, step x lb y -> steps n y z -> steps (S n) x z.
Lemma finite_execution m progs n x : steps n (begin m progs) x -> (n <= 5 * length (concat progs))%nat.
Proof.
  assert (A : forall y z (k : nat), steps k y z -> (k + total_of work (s_gs z) <= total_of work (s_gs y))%nat).
  { induction 1 as [|k y lb y' z S R IH]; [lia|]. pose proof (work_step _ _ _ S). lia. }
  intros S. apply A in S. replace (total_of work (s_gs (begin m progs))) with (5 * length (concat progs))%nat in S; [lia|].
  clear. cbn. induction progs as [|a l IH]; [reflexivity|]. cbn [map total_of concat]. rewrite <- IH, app_length. unfold work. cbn [g_todo g_pc]. lia.
Qed.

(** *** No update is lost *)
Definition add_to (r c : Z) (d : V) : mcall := MUpdate r c (fun v => Some (nadd v d)).
Definition sum_all (a : V) (l : list V) : V := fold_left nadd l a.
Lemma UpdateP_some m r c (f : V -> V) : mat_UpdateP m r c (fun v => Some (f v)) = mat_Update m r c f.
Proof.
  unfold mat_UpdateP, mat_Update. destruct m as [s|s|s|s|s].
  - unfold csr_Update, csr_UpdateReturnPointer. destruct (_ || _); [reflexivity|]. destruct (_ || _); [reflexivity|].
    destruct (csr_columnIndex s r c) as [[ps pe]| |]; cbn [rbind]; try reflexivity. destruct (csr_hit s ps pe c) as [[|]| |]; cbn [rbind]; try reflexivity.
    + destruct (zget (csr_values s) ps) as [v| |]; cbn [rbind]; try reflexivity. cbn. destruct (isz (f v)); [destruct (csr_remove s ps r)|destruct (zset (csr_values s) ps (f v))]; reflexivity.
    + cbn. destruct (csr_insert s ps r c (f n0)) as [[? ?]| |]; reflexivity.
  - unfold csc_Update, csc_UpdateReturnPointer. destruct (_ || _); [reflexivity|]. destruct (_ || _); [reflexivity|].
    destruct (csc_rowIndex s r c) as [[ps pe]| |]; cbn [rbind]; try reflexivity. destruct (csc_hit s ps pe r) as [[|]| |]; cbn [rbind]; try reflexivity.
    + destruct (zget (csc_values s) ps) as [v| |]; cbn [rbind]; try reflexivity. cbn. destruct (isz (f v)); [destruct (csc_remove s ps c)|destruct (zset (csc_values s) ps (f v))]; reflexivity.
    + cbn. destruct (csc_insert s ps r c (f n0)) as [[? ?]| |]; reflexivity.
  - unfold dm_Update. destruct (_ || _); [reflexivity|]. destruct (_ || _); [reflexivity|]. destruct (dm_read s r c) as [v| |]; cbn [rbind]; try reflexivity. cbn. destruct (dm_write s r c (f v)); reflexivity.
  - unfold dv_Update. destruct (_ || _); [reflexivity|]. destruct (_ || _); [reflexivity|]. destruct (dv_AtVec s r) as [v| |]; cbn [rbind]; try reflexivity. cbn. destruct (dv_SetVec s r (f v)); reflexivity.
  - unfold sv_Update. destruct (_ || _); [reflexivity|]. destruct (_ || _); [reflexivity|]. destruct (sv_AtVec s r) as [v| |]; cbn [rbind]; try reflexivity. cbn. destruct (sv_SetVec s r (f v)); reflexivity.
Qed.
Lemma clean_id m v : eq_ok N -> clean m v = v.
Proof. intros He. unfold clean. destruct (is_sp m); [|reflexivity]. unfold norm, isz. destruct (neqb v n0) eqn:E; [|reflexivity]. apply He in E. congruence. Qed.
Lemma sum_all_perm a l l' : ring_ok N -> Permutation l l' -> sum_all a l = sum_all a l'.
Proof.
  intros Hr P. unfold sum_all. revert a. induction P as [|d l l' P IH|d e l|l1 l2 l3 P1 IH1 P2 IH2]; intros a; cbn.
  - reflexivity.
  - apply IH.
  - f_equal. rewrite <- !(Radd_assoc Hr). f_equal. apply (Radd_comm Hr).
  - rewrite IH1. apply IH2.
Qed.
Lemma sequential_adds r c (h : list (nat * V)) m : zero_ok N -> eq_ok N -> good m -> inb m r c ->
  exists m', fst (sequential (map (fun q => (fst q, add_to r c (snd q))) h) m) = m' /\ good m' /\ same_shape m m' /\
    forall i j, inb m i j -> peek m' i j = if (i =? r) && (j =? c) then sum_all (peek m r c) (map snd h) else peek m i j.
Proof.
  intros Hz He. revert m. induction h as [|[t d] h IH]; intros m Hm Hb.
  - exists m. split; [reflexivity|]. split; [exact Hm|]. split; [apply same_shape_refl|]. intros i j _. cbn.
    destruct (i =? r) eqn:E1, (j =? c) eqn:E2; cbn; try reflexivity. apply Z.eqb_eq in E1, E2. subst. reflexivity.
  - cbn [map fst snd sequential].
    destruct (Update_ok m r c (fun v => nadd v d) Hz Hm Hb) as (m1 & E & G1 & S1 & P1).
    assert (En : next (add_to r c d) m = m1).
    { unfold next, add_to, body. rewrite (UpdateP_some m r c (fun v => nadd v d)), E. reflexivity. }
    rewrite En.
    assert (Hb1 : inb m1 r c) by (destruct S1 as (_ & A & B); unfold inb in *; rewrite A, B; exact Hb).
    destruct (IH m1 G1 Hb1) as (m' & E' & G' & S' & P').
    exists m'. destruct (sequential (map (fun q => (fst q, add_to r c (snd q))) h) m1) as [mf o] eqn:Es. cbn in E' |- *.
    split; [exact E'|]. split; [exact G'|]. split; [eapply same_shape_trans; eauto|].
    intros i j Hij. assert (Hij1 : inb m1 i j) by (destruct S1 as (_ & A & B); unfold inb in *; rewrite A, B; exact Hij).
    rewrite (P' i j Hij1). rewrite (P1 r c Hb), (P1 i j Hij), !Z.eqb_refl, clean_id by exact He. cbn. destruct ((i =? r) && (j =? c)); reflexivity.
Qed.
Lemma no_lost_update w p m R C f r c ds h x : sane N -> eq_ok N -> ring_ok N -> reachable w -> obj w p m -> not_sparse_vector m ->
  denotes m R C f -> 0 <= r < R -> 0 <= c < C ->
  run (begin m (map (map (add_to r c)) ds)) h x -> all_done x ->
  denotes (s_mat x) R C (fun i j => if (i =? r) && (j =? c) then sum_all (f r c) (concat ds) else f i j).
Proof.
  intros Hs He Hri Hr Ho Hn Hd Hrr Hcc HR D.
  pose proof (reach_good w p m Hs Hr Ho) as Hw.
  assert (Hg : all_calls guarded (map (map (add_to r c)) ds)).
  { apply Forall_forall. intros q Hq. apply in_map_iff in Hq as (a & <- & _). apply Forall_forall. intros k Hk. apply in_map_iff in Hk as (b & <- & _). exact Logic.I. }
  destruct (linearizable w p m _ h x Hs Hr Ho Hg HR) as (E & _ & _). { intros j g H. apply (D j g H). }
  pose proof (complete w p m _ h x Hs Hr Ho Hg HR D) as Hi.
  assert (Hh : exists hv, h = map (fun q => (fst q, add_to r c (snd q))) hv /\ interleaves hv ds).
  { clear -Hi. revert ds Hi. induction h as [|[i k] h IH]; intros ds Hi.
    - exists []. split; [reflexivity|]. intros i. pose proof (Hi i) as H. cbn in H. change (@nil mcall) with (map (add_to r c) []) in H. rewrite map_nth in H. destruct (nth i ds []); [reflexivity|discriminate].
    - pose proof (Hi i) as H. unfold of_goroutine in H. cbn in H. rewrite Nat.eqb_refl in H. cbn in H.
      change (@nil mcall) with (map (add_to r c) []) in H. rewrite map_nth in H.
      destruct (nth i ds []) as [|d rest] eqn:En; [discriminate|]. cbn in H. injection H as Hk Hrest.
      assert (Li : (i < length ds)%nat). { destruct (Nat.lt_ge_cases i (length ds)) as [L|L]; [exact L|]. rewrite nth_overflow in En by exact L. discriminate. }
      destruct (IH (list_set ds i rest)) as (hv & Ehv & Ihv).
      + intros j. pose proof (Hi j) as Hj. unfold of_goroutine in Hj |- *. cbn in Hj. change (@nil mcall) with (map (add_to r c) []) in *. rewrite map_nth in *.
        destruct (Nat.eq_dec j i) as [-> |Dj].
        * rewrite (nth_error_nth _ _ [] (nth_error_list_set_eq ds i rest Li)). exact Hrest.
        * replace (Nat.eqb i j) with false in Hj by (symmetry; apply Nat.eqb_neq; congruence). rewrite Hj. f_equal.
          rewrite !nth_default_eq_local. rewrite nth_error_list_set_neq by congruence. reflexivity.
      + exists ((i, d) :: hv). split; [cbn; rewrite Ehv, Hk; reflexivity|].
        intros j. pose proof (Ihv j) as Hj. unfold of_goroutine in Hj |- *. cbn. destruct (Nat.eq_dec j i) as [-> |Dj].
        * rewrite Nat.eqb_refl. cbn. rewrite Hj, En. f_equal. rewrite (nth_error_nth _ _ [] (nth_error_list_set_eq ds i rest Li)). reflexivity.
        * replace (Nat.eqb i j) with false by (symmetry; apply Nat.eqb_neq; congruence). rewrite Hj.
          rewrite !nth_default_eq_local. rewrite nth_error_list_set_neq by congruence. reflexivity. }
  destruct Hh as (hv & -> & Ihv).
  destruct Hd as (HRm & HCm & Hat).
  assert (Hm : good m) by (split; [exact Hw|destruct m; try contradiction; discriminate]).
  destruct (sequential_adds r c hv m (proj1 Hs) He Hm) as (m' & Em & G & S & P). { split; lia. }
  rewrite <- E, Em. destruct S as (_ & S2 & S3).
  split; [lia|]. split; [lia|]. intros i j Hi' Hj'. rewrite At_ok; [|apply Hs|apply G|unfold inb; lia]. f_equal. f_equal.
  rewrite (P i j) by (split; lia).
  assert (Pk : forall a b, 0 <= a < R -> 0 <= b < C -> peek m a b = f a b) by (intros a b Ha Hb; unfold peek; rewrite Hat by auto; reflexivity).
  rewrite !Pk by auto. rewrite (sum_all_perm _ _ _ Hri (interleaves_permutation hv ds Ihv)). reflexivity.
Qed.
End Sequential.

(** ** The lock is free whenever nobody is inside a call, whatever has panicked before *)
Lemma idle_lock_free {N} (m : mat N) progs h x : run (begin m progs) h x -> idle x -> s_rw x = MkRW 0 false.
Proof.
  intros R Q. destruct (run_locks m progs h x R) as [L1 L2 _ _].
  assert (Z : forall f, (forall g : gor N, g_pc g = Out -> f g = 0%nat) -> total_of f (s_gs x) = 0%nat).
  { intros f Hf. unfold idle in Q. clear -Q Hf. induction (s_gs x) as [|g l IH]; [reflexivity|]. cbn. rewrite (Hf g (Q 0%nat g eq_refl)), IH; [reflexivity|].
    intros i g' H. apply (Q (S i) g' H). }
  rewrite Z in L1 by (intros g E; unfold rd; rewrite E; reflexivity). rewrite Z in L2 by (intros g E; unfold wr; rewrite E; reflexivity).
  destruct (s_rw x) as [r wv]. cbn in *. subst. destruct wv; [discriminate|reflexivity].
Qed.
