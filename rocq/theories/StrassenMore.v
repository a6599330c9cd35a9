(** Strassen multiplication (math/strassen): when it panics and when it never returns. *)
From Coq Require Import String Permutation.
From Verif Require Import GoBase Num SparseVec Csr Csc DenseVec DenseMat Mat World Ops Api MathOps.
From Verif Require Import BaseProofs CsrProofs SvProofs DenseProofs MatProofs Spec HeapProofs ReachProofs StoreProofs VecProofs StoreThms OpsProofs OpsThms EwThms EqThms MethThms OpsProps Steps RrefProofs StrassenProofs.

Section Dies.
Context {N : num}.
Notation V := (T N).
Notation mat := (mat N).
Notation world := (world N).
Implicit Types w : world.
Implicit Types p q : ptr.

(** ** Computations that can only panic *)
Section Fails.
Context (Inv : world -> Prop).
Definition survives {A} (x : M N A) (a : A) : Prop := forall w, Inv w -> (exists w', x w = (w', Ok a) /\ Inv w') \/ exists w', x w = (w', Panic).
Definition dies {A} (x : M N A) : Prop := forall w, Inv w -> exists w', x w = (w', Panic).

Lemma survives_bind {A B} (x : M N A) a (k : A -> M N B) b : survives x a -> survives (k a) b -> survives (mbind x k) b.
Proof.
  intros Hx Hk w Hw. destruct (Hx w Hw) as [(w1 & E1 & H1)|(w1 & E1)].
  - rewrite (mbind_ok _ _ _ _ _ E1). apply Hk. exact H1.
  - right. exists w1. apply mbind_panic. exact E1.
Qed.
Lemma dies_bind {A B} (x : M N A) (k : A -> M N B) : dies x -> dies (mbind x k).
Proof. intros Hx w Hw. destruct (Hx w Hw) as (w1 & E1). exists w1. apply mbind_panic. exact E1. Qed.
Lemma dies_after {A B} (x : M N A) a (k : A -> M N B) : survives x a -> dies (k a) -> dies (mbind x k).
Proof.
  intros Hx Hk w Hw. destruct (Hx w Hw) as [(w1 & E1 & H1)|(w1 & E1)].
  - rewrite (mbind_ok _ _ _ _ _ E1). apply Hk. exact H1.
  - exists w1. apply mbind_panic. exact E1.
Qed.
Lemma survives_for {R I} (l : list I) (body : I -> M N (option R)) : (forall i, In i l -> survives (body i) None) -> survives (for_list l body) None.
Proof.
  induction l as [|i l IH]; intros H; [intros w Hw; left; exists w; auto|]. cbn [for_list]. apply (survives_bind _ None); [apply H; left; reflexivity|].
  apply IH. intros j Hj. apply H. right. exact Hj.
Qed.
Lemma dies_for {R I} (l : list I) (body : I -> M N (option R)) k : (forall i, In i l -> survives (body i) None) -> In k l -> dies (body k) -> dies (for_list l body).
Proof.
  induction l as [|i l IH]; intros H [] Hd; cbn [for_list].
  - subst k. apply dies_bind. exact Hd.
  - apply (dies_after _ None); [apply H; left; reflexivity|]. apply IH; auto. intros j Hj. apply H. right. exact Hj.
Qed.
End Fails.

Section Level.
Context (E : env) (Hctx : e_ctx E = None) (Hreg : forall d : mat, is_dense d -> IsSparseMatrix (e_reg E) d = false).
Context (Hs : sane N) (sched : list Z -> list Z) (crossover : Z).

Lemma grid_dies Inv size (body : Z -> Z -> M N unit) : 1 <= size ->
  (forall r c, 0 <= r < size -> 0 <= c < size -> survives Inv (body r c) tt) -> dies Inv (body (size - 1) (size - 1)) -> dies Inv (grid E size size body).
Proof.
  intros Hsz Hall Hlast. unfold grid. apply dies_bind.
  assert (Hp : forall r c, survives Inv (body r c) tt -> survives Inv (mbind (poll E) (fun d : bool => mbind (if d then mret tt else body r c) (fun _ => mret None))) (None (A := unit))).
  { intros r c Hb. apply (survives_bind _ _ false).
    - intros w Hw. destruct (poll_heap E w) as (w1 & b & Ep & _ & Hb'). destruct (Hb' Hctx) as [-> ->]. left. exists w. auto.
    - cbn iota. apply (survives_bind _ _ tt); [exact Hb|]. intros w Hw. left. exists w. auto. }
  apply dies_for with (k := size - 1).
  - intros r Hr. apply survives_for. intros c Hc. apply Hp. apply in_zrange in Hr, Hc. apply Hall; lia.
  - apply in_zrange. lia.
  - apply dies_for with (k := size - 1).
    + intros c Hc. apply Hp. apply in_zrange in Hc. apply Hall; lia.
    + apply in_zrange. lia.
    + intros w Hw. destruct (poll_heap E w) as (w1 & b & Ep & _ & Hb'). destruct (Hb' Hctx) as [-> ->]. rewrite (mbind_ok _ _ _ _ _ Ep). cbn iota.
      destruct (Hlast w Hw) as (w' & E'). exists w'. apply mbind_panic. exact E'.
Qed.

Section Copy.
Context (w0 : world) (a b : ptr) (A B : mat) (R n n' C : Z) (f g : Z -> Z -> V) (size : Z) (D : list ptr).
Context (Da : denotes A R n f) (Db : denotes B n' C g) (HDa : ~ In a D) (HDb : ~ In b D).
Definition intact w : Prop := reachable w /\ obj w a A /\ obj w b B /\ forall d, In d D -> exists h, dm w d size size h.

Lemma set_survives d r c v : In d D -> 0 <= r < size -> 0 <= c < size -> survives intact (p_Set d r c v) tt.
Proof.
  intros Hd Hr Hc w (Hw & Oa & Ob & HD). destruct (HD d Hd) as (h & Dh).
  destruct (dm_Set w d size size h r c v Hs Hw Dh Hr Hc) as (w1 & E1 & R1 & X1 & D1). left. exists w1. split; [exact E1|]. split; [exact R1|].
  split; [apply X1; [congruence|exact Oa]|]. split; [apply X1; [congruence|exact Ob]|].
  intros d' Hd'. destruct (Nat.eq_dec d' d) as [->|Hne]; [eauto|]. destruct (HD d' Hd') as (h' & (dd & Od & Dd)). exists h', dd. split; [apply X1; auto|exact Dd].
Qed.

(** a cell of either operand is read *)
Definition source (src : ptr) : Prop := src = a \/ src = b.
Lemma copy_survives d src r c r' c' : source src -> In d D -> 0 <= r' < size -> 0 <= c' < size -> survives intact (copy_cell d src r c r' c') tt.
Proof.
  intros Hsrc Hd Hr Hc w Hw. assert (HE : (exists v, p_At src r c w = (w, Ok v)) \/ p_At src r c w = (w, Panic)).
  { destruct Hw as (Rw & Oa & Ob & _). assert (HG : exists M R' C' h, obj w src M /\ denotes M R' C' h) by (destruct Hsrc as [->| ->]; eauto 10).
    destruct HG as (M & R' & C' & h & Om & Dm). pose proof Dm as (ER & EC & _).
    pose proof (sane_wfw w Hs Rw _ _ Om) as Wm.
    destruct M as [s|s|s|s|s].
    4: { unfold p_At. destruct ((0 <=? r) && (r <? mat_Rows (MDV s))) eqn:Eb.
         - left. rewrite (mbind_ok _ _ _ _ _ (load_ok _ _ _ Om)), dv_At_any, Eb by auto. rewrite mbind_lift, (mbind_ok _ _ _ _ _ (store_ok _ _ _)). rewrite upd_same by auto. eexists. reflexivity.
         - right. rewrite (mbind_ok _ _ _ _ _ (load_ok _ _ _ Om)), dv_At_any, Eb by auto. reflexivity. }
    all: destruct (Z_lt_le_dec r 0), (Z_lt_le_dec c 0), (Z_lt_le_dec r R'), (Z_lt_le_dec c C');
      try (left; eexists; eapply step_At; eauto; lia);
      right; destruct (out_of_range w src _ r c Hs Rw Om) as [H _]; apply H; try (intros ? ?; discriminate); rewrite ER, EC; lia. }
  unfold copy_cell. destruct HE as [(v & Ev)|Ev].
  - rewrite (mbind_ok _ _ _ _ _ Ev). apply set_survives; auto.
  - right. exists w. apply mbind_panic. exact Ev.
Qed.
Lemma copy_dies_a d r c r' c' : ~ is_vector A -> ~ (0 <= r < R /\ 0 <= c < n) -> dies intact (copy_cell d a r c r' c').
Proof.
  intros Hv Hb w (Rw & Oa & Ob & _). exists w. apply mbind_panic. pose proof Da as (ER & EC & _). destruct (out_of_range w a A r c Hs Rw Oa) as [H _]. apply H; [rewrite ER, EC; lia|].
  intros s ->. apply Hv. exact Logic.I.
Qed.
Lemma copy_dies_b d r c r' c' : ~ is_vector B -> ~ (0 <= r < n' /\ 0 <= c < C) -> dies intact (copy_cell d b r c r' c').
Proof.
  intros Hv Hb w (Rw & Oa & Ob & _). exists w. apply mbind_panic. pose proof Db as (ER & EC & _). destruct (out_of_range w b B r c Hs Rw Ob) as [H _]. apply H; [rewrite ER, EC; lia|].
  intros s ->. apply Hv. exact Logic.I.
Qed.
End Copy.

(** an operand too small for the blocks *)
Lemma operands_panic size w a b A B R n n' C f g : 1 <= size -> size * size < 2 ^ 63 ->
  reachable w -> obj w a A -> obj w b B -> denotes A R n f -> denotes B n' C g -> ~ is_vector A -> ~ is_vector B ->
  R < 2 * size \/ C < 2 * size -> exists w', operands E size a b w = (w', Panic).
Proof.
  intros Hsz HSS Hr Oa Ob Da Db Va Vb Hsmall. unfold operands. assert (H0 : 0 <= size) by lia.
  destruct (new_dense_ok w size size Hr H0 H0 HSS) as (w1 & E1 & R1 & X1 & L1 & M1).
  destruct (new_dense_ok w1 size size R1 H0 H0 HSS) as (w2 & E2 & R2 & X2 & L2 & M2).
  destruct (new_dense_ok w2 size size R2 H0 H0 HSS) as (w3 & E3 & R3 & X3 & L3 & M3).
  destruct (new_dense_ok w3 size size R3 H0 H0 HSS) as (w4 & E4 & R4 & X4 & L4 & M4).
  destruct (new_dense_ok w4 size size R4 H0 H0 HSS) as (w5 & E5 & R5 & X5 & L5 & M5).
  destruct (new_dense_ok w5 size size R5 H0 H0 HSS) as (w6 & E6 & R6 & X6 & L6 & M6).
  destruct (new_dense_ok w6 size size R6 H0 H0 HSS) as (w7 & E7 & R7 & X7 & L7 & M7).
  destruct (new_dense_ok w7 size size R7 H0 H0 HSS) as (w8 & E8 & R8 & X8 & L8 & M8).
  rewrite (mbind_ok _ _ _ _ _ E1), (mbind_ok _ _ _ _ _ E2), (mbind_ok _ _ _ _ _ E3), (mbind_ok _ _ _ _ _ E4),
    (mbind_ok _ _ _ _ _ E5), (mbind_ok _ _ _ _ _ E6), (mbind_ok _ _ _ _ _ E7), (mbind_ok _ _ _ _ _ E8).
  set (D := [length (w_heap w); length (w_heap w1); length (w_heap w2); length (w_heap w3); length (w_heap w4); length (w_heap w5); length (w_heap w6); length (w_heap w7)]).
  assert (HDa : ~ In a D) by (apply obj_lt in Oa; unfold D; cbn [In]; lia).
  assert (HDb : ~ In b D) by (apply obj_lt in Ob; unfold D; cbn [In]; lia).
  assert (HI : intact a b A B size D w8).
  { split; [exact R8|]. split; [auto 10|]. split; [auto 10|]. intros d Hd. unfold D in Hd. cbn [In] in Hd.
    exists (fun _ _ => n0). repeat (destruct Hd as [<-|Hd]); [..|contradiction]; eauto 10 using dm_mono. }
  match goal with |- context [mbind (grid E size size ?body)] => destruct (grid_dies (intact a b A B size D) size body) with (w := w8) as (w' & EG); [exact Hsz|..] end.
  - intros r c Hrr Hcc.
    repeat (apply (survives_bind _ _ tt); [eapply copy_survives; eauto; [unfold source; tauto|unfold D; cbn [In]; tauto]|]).
    eapply copy_survives; eauto; [unfold source; tauto|unfold D; cbn [In]; tauto].
  - assert (Hok : forall d src r c, source a b src -> In d D -> survives (intact a b A B size D) (copy_cell d src r c (size - 1) (size - 1)) tt)
      by (intros d src r c S1 S2; eapply copy_survives; eauto; lia).
    destruct (Z_lt_le_dec R (2 * size)) as [HR|HR].
    + do 2 (apply (dies_after _ _ tt); [apply Hok; [unfold source; tauto|unfold D; cbn [In]; tauto]|]).
      apply dies_bind. eapply copy_dies_a; eauto. lia.
    + do 5 (apply (dies_after _ _ tt); [apply Hok; [unfold source; tauto|unfold D; cbn [In]; tauto]|]).
      apply dies_bind. eapply copy_dies_b; eauto. lia.
  - exact HI.
  - rewrite (mbind_panic _ _ _ _ EG). eexists. reflexivity.
Qed.

(** ** The whole call *)
Lemma strassen_mismatch w a b A B R n n' C f g : obj w a A -> obj w b B -> denotes A R n f -> denotes B n' C g -> n <> n' ->
  MultiplyCrossoverPoint E sched a b crossover w = (w, Panic).
Proof.
  intros Oa Ob (_ & EA & _) (EB & _) Hne. unfold MultiplyCrossoverPoint.
  destruct (e_fuel E); cbn [strassen]; rewrite (mbind_ok _ _ _ _ _ (p_Columns_ok _ _ _ Oa)), (mbind_ok _ _ _ _ _ (p_Rows_ok _ _ _ Ob)), EA, EB; replace (n =? n') with false by lia; reflexivity.
Qed.

Lemma strassen_panic w a b A B R n C f g : 2 <= n -> crossover < n -> n * n < 2 ^ 63 -> n * n <= Z.of_nat (e_fuel E) ->
  reachable w -> obj w a A -> obj w b B -> denotes A R n f -> denotes B n C g -> ~ is_vector A -> ~ is_vector B ->
  R < 2 * (n / 2) \/ C < 2 * (n / 2) -> exists w', MultiplyCrossoverPoint E sched a b crossover w = (w', Panic).
Proof.
  intros Hn Hc HB HF Hr Oa Ob Da Db Va Vb Hsmall. pose proof Da as (_ & EA & _). pose proof Db as (EB & _).
  unfold MultiplyCrossoverPoint. destruct (e_fuel E) as [|fuel] eqn:Ef; [nia|]. cbn [strassen].
  rewrite (mbind_ok _ _ _ _ _ (p_Columns_ok _ _ _ Oa)), (mbind_ok _ _ _ _ _ (p_Rows_ok _ _ _ Ob)), EA, EB, Z.eqb_refl. cbn [negb].
  rewrite (mbind_ok _ _ _ _ _ (p_Rows_ok _ _ _ Ob)), EB. replace (n <=? crossover) with false by lia.
  rewrite (Z.quot_div_nonneg n 2) by lia.
  assert (1 <= n / 2) by (apply Z.div_le_lower_bound; lia). pose proof (Z.mul_div_le n 2 ltac:(lia)).
  destruct (operands_panic (n / 2) w a b A B R n n C f g) as (w' & EP); auto; [nia|].
  exists w'. apply mbind_panic. exact EP.
Qed.

Context (Hsched : forall path, Permutation (sched path) [1; 2; 3; 4; 5; 6; 7]).

Lemma diverges_square : crossover < 0 -> forall fuel path n w a b f g,
  0 <= n -> n * n < 2 ^ 63 -> n * n <= Z.of_nat (e_fuel E) -> reachable w -> dm w a n n f -> dm w b n n g ->
  exists w', strassen fuel E sched path a b crossover w = (w', Diverge).
Proof.
  intros Hc. induction fuel as [|fuel IH]; intros path n w a b f g Hn HB HF Hr (da & Oa & Da) (db & Ob & Db); pose proof Da as (_ & EA & _); pose proof Db as (EB & _); cbn [strassen];
    rewrite (mbind_ok _ _ _ _ _ (p_Columns_ok _ _ _ Oa)), (mbind_ok _ _ _ _ _ (p_Rows_ok _ _ _ Ob)), EA, EB, Z.eqb_refl; cbn [negb];
    rewrite (mbind_ok _ _ _ _ _ (p_Rows_ok _ _ _ Ob)), EB; replace (n <=? crossover) with false by lia.
  - eexists. reflexivity.
  - rewrite (Z.quot_div_nonneg n 2) by lia. assert (0 <= n / 2) by (apply Z.div_pos; lia). pose proof (Z.mul_div_le n 2 ltac:(lia)).
    destruct (operands_ok E Hctx Hreg Hs crossover (n / 2) w a b (MDM da) (MDM db) n n n n f g) as (w1 & ops & E1 & R1 & X1 & D1); auto; [nia|nia|].
    rewrite (mbind_ok _ _ _ _ _ E1). pose proof (Hsched path) as HP. destruct (sched path) as [|i rest]; [apply Permutation_nil in HP; discriminate|].
    cbn [gather]. destruct (D1 i) as [Dx Dy]. destruct (IH (i :: path) (n / 2) w1 _ _ _ _ ltac:(lia) ltac:(nia) ltac:(nia) R1 Dx Dy) as (w' & E').
    exists w'. apply mbind_div. apply mbind_div. exact E'.
Qed.

(** with a negative crossover the call never returns *)
Lemma strassen_diverges w a b A B R n C f g : crossover < 0 -> n * n < 2 ^ 63 -> n * n <= Z.of_nat (e_fuel E) ->
  reachable w -> obj w a A -> obj w b B -> denotes A R n f -> denotes B n C g -> 2 * (n / 2) <= R -> 2 * (n / 2) <= C ->
  exists w', MultiplyCrossoverPoint E sched a b crossover w = (w', Diverge).
Proof.
  intros Hc HB HF Hr Oa Ob Da Db HRR HCC. pose proof Da as (_ & EA & _). pose proof Db as (EB & _).
  pose proof (wf_dims B (sane_wfw w Hs Hr _ _ Ob)) as DB. assert (Hn : 0 <= n) by lia.
  unfold MultiplyCrossoverPoint. destruct (e_fuel E) as [|fuel] eqn:Ef; cbn [strassen];
    rewrite (mbind_ok _ _ _ _ _ (p_Columns_ok _ _ _ Oa)), (mbind_ok _ _ _ _ _ (p_Rows_ok _ _ _ Ob)), EA, EB, Z.eqb_refl; cbn [negb];
    rewrite (mbind_ok _ _ _ _ _ (p_Rows_ok _ _ _ Ob)), EB; replace (n <=? crossover) with false by lia.
  - eexists. reflexivity.
  - rewrite (Z.quot_div_nonneg n 2) by lia. assert (0 <= n / 2) by (apply Z.div_pos; lia). pose proof (Z.mul_div_le n 2 ltac:(lia)).
    destruct (operands_ok E Hctx Hreg Hs crossover (n / 2) w a b A B R n n C f g) as (w1 & ops & E1 & R1 & X1 & D1); auto; [nia|rewrite Ef; nia|].
    rewrite (mbind_ok _ _ _ _ _ E1). pose proof (Hsched []) as HP. destruct (sched []) as [|i rest]; [apply Permutation_nil in HP; discriminate|].
    cbn [gather]. destruct (D1 i) as [Dx Dy].
    destruct (diverges_square Hc fuel [i] (n / 2) w1 _ _ _ _ ltac:(lia) ltac:(nia) ltac:(rewrite Ef; nia) R1 Dx Dy) as (w' & E').
    exists w'. apply mbind_div. apply mbind_div. exact E'.
Qed.
End Level.
End Dies.
