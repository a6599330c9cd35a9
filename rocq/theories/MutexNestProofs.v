(** Deadlock with nested read locks, and its absence when locks are taken in order. *)
From Verif Require Import GoBase Mutex MutexNest BaseProofs.
Local Open Scope nat_scope.

(** everything has been done *)
Definition n_done (x : nstate) : Prop := forall i g, nth_error (n_gs x) i = Some g -> n_acts g = [].
(** no goroutine can move although some have work left *)
Definition deadlocked (x : nstate) : Prop := ~ n_done x /\ forall y, ~ nstep x y.
(** calls in the meantime are made only on matrices whose lock comes later in some fixed
    order (here: has a greater number) than those already held *)
Fixpoint ordered_call (k : ncall) : Prop :=
  match k with
  | NCall _ l inner => (fix all ks := match ks with [] => True | k :: r => l < lock_on k /\ ordered_call k /\ all r end) inner
  end.
(** no calls in the meantime *)
Definition flat_call (k : ncall) : Prop := match k with NCall _ _ inner => inner = [] end.

Lemma ncall_ind' (P : ncall -> Prop) : (forall w l inner, Forall P inner -> P (NCall w l inner)) -> forall k, P k.
Proof.
  intros H. fix IH 1. intros [w l inner]. apply H. induction inner as [|k r IHr]; constructor; [apply IH|exact IHr].
Qed.
Lemma ordered_inner w l inner : ordered_call (NCall w l inner) -> Forall (fun k => l < lock_on k /\ ordered_call k) inner.
Proof. cbn. induction inner as [|k r IH]; [constructor|]. intros (H1 & H2 & H3). constructor; auto. Qed.

(** ** Refutations *)
(** a call made in the meantime on the matrix itself, for reading in a reading call, and a writer *)
Lemma self_deadlock :
  exists x, nrun (nbegin [[NCall false 0 [NCall false 0 []]]; [NCall true 0 []]]) x /\ deadlocked x.
Proof.
  eexists. split.
  - eapply nrun_step; [eapply nrun_step; [apply nrun_nil|]|].
    + eapply (n_rlock _ 0); [reflexivity|reflexivity].
    + eapply (n_announce _ 1); [reflexivity|reflexivity].
  - split.
    + intros D. specialize (D 1 _ eq_refl). discriminate D.
    + intros y S. inversion S as [i l a held s Hn Hl|i l a held s Hn Hl|i l a held Hn Hl|i l a held Hn|i l a held Hn];
        destruct i as [|[|i]]; cbn in Hn; try (destruct i; discriminate); try discriminate; inversion Hn; subst; cbn in Hl; discriminate.
Qed.
(** two matrices, each updated by a function that reads the other *)
Lemma cross_deadlock :
  exists x, nrun (nbegin [[NCall true 0 [NCall false 1 []]]; [NCall true 1 [NCall false 0 []]]]) x /\ deadlocked x.
Proof.
  eexists. split.
  - eapply nrun_step; [eapply nrun_step; [eapply nrun_step; [eapply nrun_step; [apply nrun_nil|]|]|]|].
    + eapply (n_announce _ 0); [reflexivity|reflexivity].
    + eapply (n_lock _ 0); [reflexivity|reflexivity].
    + eapply (n_announce _ 1); [reflexivity|reflexivity].
    + eapply (n_lock _ 1); [reflexivity|reflexivity].
  - split.
    + intros D. specialize (D 1 _ eq_refl). discriminate D.
    + intros y S. inversion S as [i l a held s Hn Hl|i l a held s Hn Hl|i l a held Hn Hl|i l a held Hn|i l a held Hn];
        destruct i as [|[|i]]; cbn in Hn; try (destruct i; discriminate); try discriminate; inversion Hn; subst; cbn in Hl; discriminate.
Qed.

(** ** Well-bracketed and ordered locking *)
(** the rest of a goroutine's work, given the locks it holds *)
Inductive wf : list (bool * nat) -> list act -> Prop :=
| wf_nil : wf [] []
| wf_rlock : forall st l a, wf ((false, l) :: st) a -> wf st (ARLock l :: a)
| wf_lock : forall st l a, wf ((true, l) :: st) a -> wf st (ALock l :: a)
| wf_runlock : forall st l a, wf st a -> wf ((false, l) :: st) (ARUnlock l :: a)
| wf_unlock : forall st l a, wf st a -> wf ((true, l) :: st) (AUnlock l :: a).
Inductive valid : list (bool * nat) -> list act -> Prop :=
| va_nil : valid [] []
| va_rlock : forall st l a, (forall b k, List.In (b, k) st -> k < l) -> valid ((false, l) :: st) a -> valid st (ARLock l :: a)
| va_lock : forall st l a, (forall b k, List.In (b, k) st -> k < l) -> valid ((true, l) :: st) a -> valid st (ALock l :: a)
| va_runlock : forall st l a, valid st a -> valid ((false, l) :: st) (ARUnlock l :: a)
| va_unlock : forall st l a, valid st a -> valid ((true, l) :: st) (AUnlock l :: a).

Lemma wf_call k : forall st a, wf st a -> wf st (acts_of k ++ a).
Proof.
  induction k as [w l inner IH] using ncall_ind'. intros st a H. cbn [acts_of]. cbn [app]. rewrite <- app_assoc.
  assert (Hi : forall w', wf ((w', l) :: st) ((if w' then AUnlock l else ARUnlock l) :: a) ->
    wf ((w', l) :: st) (flat_map acts_of inner ++ (if w' then AUnlock l else ARUnlock l) :: a)).
  { intros w'. generalize ((if w' then AUnlock l else ARUnlock l) :: a). induction IH as [|k r Hk Hr IHr]; intros b Hb; [exact Hb|].
    cbn. rewrite <- app_assoc. apply Hk, IHr, Hb. }
  destruct w; [apply wf_lock, (Hi true), wf_unlock, H|apply wf_rlock, (Hi false), wf_runlock, H].
Qed.
Lemma wf_prog p : wf [] (flat_map acts_of p).
Proof. induction p as [|k p IH]; [constructor|]. cbn. apply wf_call, IH. Qed.

Lemma valid_call k : forall st a, ordered_call k -> (forall b l, List.In (b, l) st -> l < lock_on k) -> valid st a -> valid st (acts_of k ++ a).
Proof.
  induction k as [w l inner IH] using ncall_ind'. intros st a Ho Hs H. apply ordered_inner in Ho. cbn [acts_of lock_on] in *. cbn [app]. rewrite <- app_assoc.
  assert (Hi : forall w', valid ((w', l) :: st) ((if w' then AUnlock l else ARUnlock l) :: a) ->
    valid ((w', l) :: st) (flat_map acts_of inner ++ (if w' then AUnlock l else ARUnlock l) :: a)).
  { intros w'. generalize ((if w' then AUnlock l else ARUnlock l) :: a). induction IH as [|k r Hk Hr IHr]; intros b Hb; [exact Hb|].
    inversion Ho as [|? ? [L O] Ho']; subst. cbn. rewrite <- app_assoc. apply Hk; [exact O| |apply IHr; assumption].
    intros b' l' [E|E]; [inversion E; subst; exact L|]. specialize (Hs _ _ E). lia. }
  destruct w; [apply va_lock, (Hi true), va_unlock, H; exact Hs|apply va_rlock, (Hi false), va_runlock, H; exact Hs].
Qed.
Lemma valid_prog p : Forall ordered_call p -> valid [] (flat_map acts_of p).
Proof. induction 1 as [|k p Hk H IH]; [constructor|]. cbn. apply valid_call; [exact Hk|intros b l []|exact IH]. Qed.

Definition count (b : bool) (l : nat) (st : list (bool * nat)) : nat :=
  length (filter (fun q => Bool.eqb (fst q) b && Nat.eqb (snd q) l) st).
Definition rdn l g : nat := count false l (n_held g).
Definition wrn l g : nat := count true l (n_held g).
Definition ann l g : nat := if n_wait g then match n_acts g with ALock k :: _ => if Nat.eqb k l then 1 else 0 | _ => 0 end else 0.
Fixpoint tot (f : ngor -> nat) (gs : list ngor) : nat := match gs with [] => 0 | g :: r => f g + tot f r end.
Lemma tot_set f l i g g' : nth_error l i = Some g -> tot f (list_set l i g') + f g = tot f l + f g'.
Proof. revert i. induction l as [|a l IH]; intros [|i] H; cbn in *; try discriminate; [inversion H; subst; lia|specialize (IH i H); lia]. Qed.
Lemma tot_pos f l : 0 < tot f l -> exists i g, nth_error l i = Some g /\ 0 < f g.
Proof.
  induction l as [|a l IH]; cbn; [lia|]. intros H. destruct (f a) eqn:E; [|exists 0, a; split; [reflexivity|lia]].
  destruct IH as (i & g & Hn & Hf); [lia|]. exists (S i), g. auto.
Qed.

Lemma rdn_at l g : rdn l g = count false l (n_held g). Proof. reflexivity. Qed.
Lemma wrn_at l g : wrn l g = count true l (n_held g). Proof. reflexivity. Qed.
Lemma ann_at l g : ann l g = if n_wait g then match n_acts g with ALock k :: _ => if Nat.eqb k l then 1 else 0 | _ => 0 end else 0. Proof. reflexivity. Qed.
Lemma count_cons b l b' l' st : count b l ((b', l') :: st) = (if Bool.eqb b' b && Nat.eqb l' l then 1 else 0) + count b l st.
Proof. unfold count. cbn. destruct (Bool.eqb b' b && Nat.eqb l' l); reflexivity. Qed.

Record ninv (x : nstate) : Prop := MkNInv {
  ni_wf : forall i g, nth_error (n_gs x) i = Some g -> wf (n_held g) (n_acts g);
  ni_wait : forall i g, nth_error (n_gs x) i = Some g -> n_wait g = true -> exists l a, n_acts g = ALock l :: a;
  ni_readers : forall l, rw_readers (n_locks x l) = tot (rdn l) (n_gs x);
  ni_writer : forall l, (if rw_writer (n_locks x l) then 1 else 0) = tot (wrn l) (n_gs x) + tot (ann l) (n_gs x);
}.
Lemma nth_put {A} (l : list A) i a b : nth_error l i = Some a -> forall j c, nth_error (list_set l i b) j = Some c ->
  (j = i /\ c = b) \/ (j <> i /\ nth_error l j = Some c).
Proof.
  intros H j c. assert (i < length l) by (apply nth_error_Some; congruence).
  destruct (Nat.eq_dec j i) as [-> |D]; [rewrite nth_error_list_set_eq by assumption|rewrite nth_error_list_set_neq by congruence]; intros E; [left; split; congruence|right; auto].
Qed.
Ltac ntots Hn g' k :=
  let T1 := fresh "T" in let T2 := fresh "T" in let T3 := fresh "T" in
  pose proof (tot_set (rdn k) _ _ _ g' Hn) as T1; pose proof (tot_set (wrn k) _ _ _ g' Hn) as T2; pose proof (tot_set (ann k) _ _ _ g' Hn) as T3;
  rewrite !rdn_at in T1; rewrite !wrn_at in T2; rewrite !ann_at in T3; cbn [n_held n_acts n_wait] in T1, T2, T3;
  rewrite ?count_cons in T1, T2; cbn [Bool.eqb andb] in T1, T2.
Lemma ninv_step x y : ninv x -> nstep x y -> ninv y.
Proof.
  intros [I1 I2 I3 I4] S. destruct S as [i l a held s Hn Hl|i l a held s Hn Hl|i l a held Hn Hl|i l a held Hn|i l a held Hn];
    pose proof (I1 _ _ Hn) as Hv; cbn in Hv; inversion Hv; subst.
  1: unfold rlock in Hl; destruct (rw_writer (n_locks x l)) eqn:W; [discriminate|]; inversion Hl; subst s.
  2: unfold announce in Hl; destruct (rw_writer (n_locks x l)) eqn:W; [discriminate|]; inversion Hl; subst s.
  all: constructor; cbn [put n_gs n_locks];
    [intros j g E; destruct (nth_put _ _ _ _ Hn j g E) as [[-> ->]|[D E']]; [assumption|eauto]
    |intros j g E; destruct (nth_put _ _ _ _ Hn j g E) as [[-> ->]|[D E']]; [cbn; first [discriminate|eauto]|eauto]
    |intros k; match goal with |- context [list_set _ _ ?g'] => ntots Hn g' k end; specialize (I3 k); specialize (I4 k); unfold set_lock;
     rewrite ?(Nat.eqb_sym k l); destruct (Nat.eqb l k) eqn:E; cbn; [apply Nat.eqb_eq in E; subst k|]; try lia
    |intros k; match goal with |- context [list_set _ _ ?g'] => ntots Hn g' k end; specialize (I3 k); specialize (I4 k); unfold set_lock;
     rewrite ?(Nat.eqb_sym k l); destruct (Nat.eqb l k) eqn:E; cbn; [apply Nat.eqb_eq in E; subst k; try rewrite W in I4|]; try lia].
  destruct (rw_writer (n_locks x l)); lia.
Qed.
Lemma ninv_begin progs : ninv (nbegin progs).
Proof.
  assert (A : forall i g, nth_error (n_gs (nbegin progs)) i = Some g -> exists p, g = MkNG false (flat_map acts_of p) []).
  { intros i g E. cbn in E. rewrite nth_error_map in E. destruct (nth_error progs i) as [p|] eqn:Ep; inversion E; subst. exists p. reflexivity. }
  assert (T : forall f, (forall a, f (MkNG false a []) = 0) -> tot f (n_gs (nbegin progs)) = 0).
  { intros f Hf. cbn. clear -Hf. induction progs as [|p l IH]; [reflexivity|]. cbn. rewrite Hf, IH. reflexivity. }
  constructor.
  - intros i g E. destruct (A i g E) as (p & ->). apply wf_prog.
  - intros i g E W. destruct (A i g E) as (p & ->). discriminate.
  - intros l. rewrite T; reflexivity.
  - intros l. rewrite !T; reflexivity.
Qed.
Lemma nrun_inv progs x : nrun (nbegin progs) x -> ninv x.
Proof. induction 1; [apply ninv_begin|eapply ninv_step; eauto]. Qed.
Definition vinv (x : nstate) : Prop := forall i g, nth_error (n_gs x) i = Some g -> valid (n_held g) (n_acts g).
Lemma vinv_step x y : vinv x -> nstep x y -> vinv y.
Proof.
  intros V S. destruct S as [i l a held s Hn Hl|i l a held s Hn Hl|i l a held Hn Hl|i l a held Hn|i l a held Hn];
    pose proof (V _ _ Hn) as Hv; cbn in Hv; inversion Hv; subst; intros j g E; cbn [put n_gs] in E;
    (destruct (nth_put _ _ _ _ Hn j g E) as [[-> ->]|[D E']]; [assumption|eauto]).
Qed.
Lemma vinv_run progs x : Forall (Forall ordered_call) progs -> nrun (nbegin progs) x -> vinv x.
Proof.
  intros H. induction 1 as [|y z R IH S]; [|eapply vinv_step; eauto].
  intros i g E. cbn in E. rewrite nth_error_map in E. destruct (nth_error progs i) as [p|] eqn:Ep; inversion E; subst.
  apply valid_prog. eapply Forall_forall in H; [exact H|eapply nth_error_In; eauto].
Qed.

(** the lock a goroutine is about to take *)
Definition wants g : option nat := match n_acts g with (ARLock l | ALock l) :: _ => Some l | _ => None end.
Lemma count_in b l st : 0 < count b l st -> List.In (b, l) st.
Proof.
  induction st as [|[b' l'] st IH]; [unfold count; cbn; lia|]. rewrite count_cons. destruct (Bool.eqb b' b && Nat.eqb l' l) eqn:E; [|right; apply IH; lia].
  apply andb_true_iff in E as [E1 E2]. apply Bool.eqb_prop in E1. apply Nat.eqb_eq in E2. subst. left. reflexivity.
Qed.
(** a goroutine that holds a lock can release one or is about to take a later one *)
Lemma holder_wants x i g b l : ninv x -> vinv x -> nth_error (n_gs x) i = Some g -> List.In (b, l) (n_held g) ->
  (exists y, nstep x y) \/ exists l', wants g = Some l' /\ l < l'.
Proof.
  intros I Vx Hn Hin. pose proof (Vx i g Hn) as V. destruct g as [wt acts held]; cbn in *.
  inversion V; subst; [destruct Hin| | | |].
  - right. exists l0. unfold wants; cbn. split; [reflexivity|eauto].
  - right. exists l0. unfold wants; cbn. split; [reflexivity|eauto].
  - destruct wt; [destruct (ni_wait x I i _ Hn eq_refl) as (l' & a' & E); discriminate E|]. left. eexists. eapply n_runlock; eauto.
  - destruct wt; [destruct (ni_wait x I i _ Hn eq_refl) as (l' & a' & E); discriminate E|]. left. eexists. eapply n_unlock; eauto.
Qed.
Lemma max_wanted (gs : list ngor) : (forall i g, nth_error gs i = Some g -> wants g = None) \/
  exists i g l, nth_error gs i = Some g /\ wants g = Some l /\ forall j g' l', nth_error gs j = Some g' -> wants g' = Some l' -> l' <= l.
Proof.
  induction gs as [|a gs [IH|(i & g & l & H1 & H2 & H3)]].
  - left. intros [|i] g H; discriminate.
  - destruct (wants a) as [l|] eqn:E.
    + right. exists 0, a, l. split; [reflexivity|]. split; [exact E|]. intros [|j] g' l' H W; [inversion H; subst; rewrite E in W; inversion W; lia|]. rewrite (IH j g' H) in W. discriminate.
    + left. intros [|i] g H; [inversion H; subst; exact E|eauto].
  - right. destruct (wants a) as [la|] eqn:E; [destruct (le_lt_dec la l) as [L|L]|].
    + exists (S i), g, l. split; [exact H1|]. split; [exact H2|]. intros [|j] g' l' H W; [inversion H; subst; rewrite E in W; inversion W; subst; exact L|eauto].
    + exists 0, a, la. split; [reflexivity|]. split; [exact E|]. intros [|j] g' l' H W; [inversion H; subst; rewrite E in W; inversion W; lia|]. specialize (H3 j g' l' H W). lia.
    + exists (S i), g, l. split; [exact H1|]. split; [exact H2|]. intros [|j] g' l' H W; [inversion H; subst; congruence|eauto].
Qed.
Lemma ordered_progress progs x : Forall (Forall ordered_call) progs -> nrun (nbegin progs) x -> n_done x \/ exists y, nstep x y.
Proof.
  intros Ho R. pose proof (nrun_inv progs x R) as I. pose proof (vinv_run progs x Ho R) as Vx.
  destruct (max_wanted (n_gs x)) as [Q|(i & g & l & Hn & W & Mx)].
  - destruct (n_gs x) as [|g0 gs] eqn:Eg; [left; intros j g H; rewrite Eg in H; destruct j; discriminate|]. rewrite <- Eg in *. clear Eg.
    assert (C : (exists i g a act, nth_error (n_gs x) i = Some g /\ n_acts g = act :: a) \/ forall i g, nth_error (n_gs x) i = Some g -> n_acts g = []).
    { clear. induction (n_gs x) as [|a l [(i & g & b & c & H & E)|IH]]; [right; intros [|i] g H; discriminate|left; exists (S i), g, b, c; auto|].
      destruct (n_acts a) as [|c b] eqn:E; [|left; exists 0, a, b, c; auto]. right. intros [|i] g H; [inversion H; subst; exact E|eauto]. }
    destruct C as [(i & g & a & c & H & E)|C]; [right|left; exact C].
    pose proof (Vx i g H) as V. pose proof (Q i g H) as Wn. destruct g as [wt acts held]; cbn in *. subst acts. unfold wants in Wn. cbn in Wn.
    inversion V; subst; try discriminate.
    + destruct wt; [destruct (ni_wait x I i _ H eq_refl) as (l' & a' & E'); discriminate E'|]. eexists. eapply n_runlock; eauto.
    + destruct wt; [destruct (ni_wait x I i _ H eq_refl) as (l' & a' & E'); discriminate E'|]. eexists. eapply n_unlock; eauto.
  - right.
    assert (HB : forall b, 0 < tot (fun g => count b l (n_held g)) (n_gs x) -> exists y, nstep x y).
    { intros b Hp. apply tot_pos in Hp as (j & g' & Hj & Hc). apply count_in in Hc.
      destruct (holder_wants x j g' b l I Vx Hj Hc) as [S|(l' & W' & L)]; [exact S|]. specialize (Mx j g' l' Hj W'). lia. }
    assert (HR : rw_readers (n_locks x l) <> 0 -> exists y, nstep x y).
    { intros Hp. apply (HB false). change (0 < tot (rdn l) (n_gs x)). rewrite <- (ni_readers x I l). lia. }
    assert (HW : rw_writer (n_locks x l) = true -> exists y, nstep x y).
    { intros Hp. pose proof (ni_writer x I l) as T. rewrite Hp in T. destruct (tot (wrn l) (n_gs x)) eqn:E1.
      - assert (P : 0 < tot (ann l) (n_gs x)) by lia. apply tot_pos in P as (j & g' & Hj & Hc). unfold ann in Hc.
        destruct g' as [wt acts held]; cbn in Hc. destruct wt; [|lia]. destruct acts as [|[]]; try lia. destruct (Nat.eqb l0 l) eqn:E; [|lia]. apply Nat.eqb_eq in E. subst l0.
        destruct (rw_readers (n_locks x l)) eqn:E2; [|apply HR; lia]. eexists. eapply n_lock; eauto. unfold no_readers. rewrite E2. reflexivity.
      - apply (HB true). change (0 < tot (wrn l) (n_gs x)). lia. }
    destruct (rw_writer (n_locks x l)) eqn:Wr; [apply HW; reflexivity|].
    destruct g as [wt acts held]. unfold wants in W. cbn in W. destruct acts as [|[l'|l'|l'|l'] a]; try discriminate; inversion W; subst l'.
    + destruct wt; [destruct (ni_wait x I i _ Hn eq_refl) as (l' & a' & E'); discriminate E'|]. eexists. eapply n_rlock; eauto. unfold rlock. rewrite Wr. reflexivity.
    + destruct wt.
      * pose proof (ni_writer x I l) as T. rewrite Wr in T.
        pose proof (tot_set (ann l) _ _ _ (MkNG false [] []) Hn) as T'. rewrite !ann_at in T'. cbn in T'. rewrite Nat.eqb_refl in T'. lia.
      * eexists. eapply n_announce; eauto. unfold announce. rewrite Wr. reflexivity.
Qed.
Lemma ordered_no_deadlock progs x : Forall (Forall ordered_call) progs -> nrun (nbegin progs) x -> ~ deadlocked x.
Proof. intros H R [D S]. destruct (ordered_progress progs x H R) as [N|[y N]]; [exact (D N)|exact (S y N)]. Qed.
Lemma flat_ordered k : flat_call k -> ordered_call k.
Proof. destruct k as [w l inner]; cbn. intros ->. exact I. Qed.
Lemma flat_no_deadlock progs x : Forall (Forall flat_call) progs -> nrun (nbegin progs) x -> ~ deadlocked x.
Proof.
  intros H. apply ordered_no_deadlock. eapply Forall_impl; [|exact H]. intros p Hp. eapply Forall_impl; [|exact Hp]. apply flat_ordered.
Qed.

(** ** Ordered programs end *)
Definition work (g : ngor) : nat := 2 * length (n_acts g) - (if n_wait g then 1 else 0).
Lemma work_step x y : ninv x -> nstep x y -> tot work (n_gs y) < tot work (n_gs x).
Proof.
  intros _ S. destruct S as [i l a held s Hn Hl|i l a held s Hn Hl|i l a held Hn Hl|i l a held Hn|i l a held Hn]; cbn [put n_gs];
    match goal with |- context [list_set _ _ ?g'] => pose proof (tot_set work _ _ _ g' Hn) as T end; unfold work in T at 2 4; cbn [n_acts n_wait length] in T; lia.
Qed.
Lemma nrun_trans x y z : nrun x y -> nrun y z -> nrun x z.
Proof. intros A B. induction B; [exact A|eapply nrun_step; eauto]. Qed.
(** every execution can be continued to the end, and none goes on for ever *)
Lemma ordered_ends progs x : Forall (Forall ordered_call) progs -> nrun (nbegin progs) x -> exists y, nrun x y /\ n_done y.
Proof.
  intros H. remember (tot work (n_gs x)) as n eqn:E. revert x E. induction n as [n IH] using lt_wf_ind. intros x E R.
  destruct (ordered_progress progs x H R) as [D|[y S]]; [exists x; split; [constructor|exact D]|].
  assert (L : tot work (n_gs y) < n) by (rewrite E; apply work_step; [eapply nrun_inv; eauto|exact S]).
  destruct (IH _ L y eq_refl) as (z & R' & D); [eapply nrun_step; eauto|]. exists z. split; [|exact D].
  apply (nrun_trans x y z); [eapply nrun_step; [constructor|exact S]|exact R'].
Qed.
(** the number of steps of an execution *)
Inductive nrun_in (x : nstate) : nat -> nstate -> Prop :=
| nrun_in_nil : nrun_in x 0 x
| nrun_in_step : forall n y z, nrun_in x n y -> nstep y z -> nrun_in x (S n) z.
Lemma steps_bounded progs n x : nrun_in (nbegin progs) n x -> (n <= 2 * tot (fun g => length (n_acts g)) (n_gs (nbegin progs)))%nat.
Proof.
  intros R. assert (B : n + tot work (n_gs x) <= tot work (n_gs (nbegin progs))).
  { induction R as [|n y z R IH S]; [lia|]. pose proof (work_step y z) as W. assert (ninv y).
    { apply (nrun_inv progs). clear -R. induction R; econstructor; eauto. }
    specialize (W H S). lia. }
  assert (W : forall gs, tot work gs <= 2 * tot (fun g => length (n_acts g)) gs).
  { induction gs as [|g gs IH]; [auto|]. cbn [tot]. unfold work at 1. lia. }
  specialize (W (n_gs (nbegin progs))). lia.
Qed.

(** ** A call made by the function given to Update on the matrix being updated *)
Lemma update_uses_itself progs i p l w inner more x :
  nth_error progs i = Some (NCall true l (NCall w l inner :: more) :: p) -> nrun (nbegin progs) x ->
  exists g, nth_error (n_gs x) i = Some g /\ n_acts g <> [].
Proof.
  intros Hp R.
  assert (Q : exists tl, (exists b, nth_error (n_gs x) i = Some (MkNG b (ALock l :: (if w then ALock l else ARLock l) :: tl) [])) \/
                         nth_error (n_gs x) i = Some (MkNG false ((if w then ALock l else ARLock l) :: tl) [(true, l)])).
  { induction R as [|y z R IH S].
    - cbn. rewrite nth_error_map, Hp. cbn. eexists. left. exists false. reflexivity.
    - pose proof (nrun_inv _ _ R) as I. destruct IH as (tl & H). exists tl.
      assert (K : forall j g', j <> i -> nth_error (list_set (n_gs y) j g') i = nth_error (n_gs y) i) by (intros; apply nth_error_list_set_neq; auto).
      assert (K' : forall g g', nth_error (n_gs y) i = Some g -> nth_error (list_set (n_gs y) i g') i = Some g')
        by (intros g g' E; apply nth_error_list_set_eq, nth_error_Some; congruence).
      assert (Lk : nth_error (n_gs y) i = Some (MkNG false ((if w then ALock l else ARLock l) :: tl) [(true, l)]) -> rw_writer (n_locks y l) = true).
      { intros E. pose proof (ni_writer y I l) as T. destruct (rw_writer (n_locks y l)); [reflexivity|].
        pose proof (tot_set (wrn l) _ _ _ (MkNG false [] []) E) as T'. rewrite !wrn_at in T'. cbn [n_held] in T'. rewrite count_cons, Nat.eqb_refl in T'. cbn in T'. lia. }
      destruct S as [j k a held s Hn Hl|j k a held s Hn Hl|j k a held Hn Hl|j k a held Hn|j k a held Hn]; cbn [put n_gs];
        (destruct (Nat.eq_dec j i) as [->|D]; [|rewrite K by exact D; exact H]); rewrite (K' _ _ Hn); destruct H as [[b E]|E]; rewrite Hn in E.
      + discriminate E.
      + inversion E as [[E1 E2 E3]]. destruct w; [discriminate E1|]. injection E1 as <-. rewrite Hn in Lk. rewrite E in Lk. specialize (Lk eq_refl).
        unfold rlock in Hl. rewrite Lk in Hl. discriminate Hl.
      + left. exists true. inversion E; subst. reflexivity.
      + inversion E as [[E1 E2 E3]]. destruct w; [|discriminate E1]. injection E1 as <-. rewrite Hn in Lk. rewrite E in Lk. specialize (Lk eq_refl).
        unfold announce in Hl. rewrite Lk in Hl. discriminate Hl.
      + right. inversion E; subst. reflexivity.
      + inversion E.
      + destruct w; inversion E.
      + destruct w; inversion E.
      + inversion E.
      + destruct w; inversion E. }
  destruct Q as (tl & [[b E]|E]); eexists; (split; [exact E|]); cbn; discriminate.
Qed.
