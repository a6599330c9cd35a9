(** Every interleaving of the reduction's goroutines. *)
From Verif Require Import GoBase Num SparseVec Csr Csc DenseVec DenseMat Mat World Ops ReduceConc.
From Verif Require Import BaseProofs MatProofs Spec HeapProofs Api ReachProofs StoreProofs StoreThms OpsProofs OpsThms EwThms EqThms OpsProps.

Section ReduceProofs.
Context {N : num}.
Notation V := (T N).
Notation mat := (mat N).
Notation world := (world N).

Definition yields (m : mat) (it : iter) (l : list (Z * Z * V)) : Prop := exists fuel, loop_Next fuel m it = Ok l.

Lemma yields_more m it l : yields m it l -> mat_HasNext it = true ->
  exists r c v it' l', mat_Next m it = Ok (r, c, v, it') /\ l = (r, c, v) :: l' /\ yields m it' l'.
Proof.
  intros [[|fuel] H] Hn; cbn [loop_Next] in H; rewrite Hn in H; [discriminate|].
  destruct (mat_Next m it) as [[[[r c] v] it']| |]; cbn in H; try discriminate.
  destruct (loop_Next fuel m it') as [l'| |] eqn:E; cbn in H; try discriminate. injection H as <-.
  exists r, c, v, it', l'. split; [reflexivity|]. split; [reflexivity|]. exists fuel. exact E.
Qed.
Lemma yields_end m it l : yields m it l -> mat_HasNext it = false -> l = [].
Proof. intros [[|fuel] H] Hn; cbn [loop_Next] in H; rewrite Hn in H; congruence. Qed.

Section Fixed.
Variables (w : world) (s : ptr) (m : mat) (mo : @monoid N) (k0 K : mask) (can : bool) (cov : Z -> Z -> bool).
Variable L : list (Z * Z * V).
Hypothesis Hs : obj w s m.
Hypothesis HK : check_mask k0 s w = (w, Ok K).
Hypothesis HE : forall r c v, In (r, c, v) L -> mask_Element K r c w = (w, Ok (cov r c)).
Hypothesis HL : yields m (mat_iterator m) L.
Hypothesis Hop : forall a b, mo_op mo a b <> Diverge.

Notation G := (fold_res (mo_op mo) (mo_unit mo) (uncovered cov L)).
Notation step := (step s mo k0 can).

(** [produces p pend n]: the producer at [p] has still to send the values [pend],
    in at most [n] more steps of its own *)
Inductive produces (ctx : bool) : producer N -> list V -> nat -> Prop :=
| pr_head : forall it rest, yields m it rest -> incl rest L ->
    produces ctx (PHead K it) (uncovered cov rest) (6 * length rest + 2)
| pr_select : forall it rest, yields m it rest -> incl rest L -> mat_HasNext it = true ->
    produces ctx (PSelect K it) (uncovered cov rest) (6 * length rest + 1)
| pr_next : forall it rest, yields m it rest -> incl rest L -> mat_HasNext it = true ->
    produces ctx (PNext K it) (uncovered cov rest) (6 * length rest)
| pr_element : forall it r c v rest, yields m it rest -> incl ((r, c, v) :: rest) L ->
    produces ctx (PElement K r c v it) (uncovered cov ((r, c, v) :: rest)) (6 * length rest + 5)
| pr_send : forall it v rest, yields m it rest -> incl rest L ->
    produces ctx (PSend K v it) (v :: uncovered cov rest) (6 * length rest + 4)
| pr_done : produces ctx PDone [] 1
| pr_cancelled : forall pend, ctx = true -> produces ctx PEnd pend 0.

Definition budget (ctx : bool) : nat := if can && negb ctx then 1 else 0.
(** the reducer's last step after it has delivered its result *)
Definition last_step (r : reducer N) (out : bool) : option nat :=
  match r, out with RClose, false => Some 1%nat | REnd, true => Some 0%nat | _, _ => None end.

(** [inv x n]: a reachable state from which at most [n] more steps are possible *)
Inductive inv : state N -> nat -> Prop :=
| i_start : forall ctx, inv (MkState w CReduce PNone RNone false false false ctx false) (6 * length L + 15 + budget ctx)
| i_mask : forall ctx, inv (MkState w CMask PNone (RSelect (mo_unit mo)) false false false ctx false) (6 * length L + 14 + budget ctx)
| i_spawn : forall ctx, inv (MkState w (CSpawn K) PNone (RSelect (mo_unit mo)) false false false ctx false) (6 * length L + 13 + budget ctx)
| i_run : forall ctx p pend n acc, produces ctx p pend n -> fold_res (mo_op mo) acc pend = G ->
    inv (MkState w CRecv p (RSelect acc) false false false ctx false) (n + 10 + budget ctx)
| i_apply : forall ctx p pend n acc v, produces ctx p pend n -> (a <- mo_op mo acc v ;; fold_res (mo_op mo) a pend) = G ->
    inv (MkState w CRecv p (RApply acc v) false false false ctx false) (n + 11 + budget ctx)
| i_out : forall ctx acc, G = Ok acc ->
    inv (MkState w CRecv PEnd (ROut acc) false false false ctx false) (9 + budget ctx)
| i_close_done : forall ctx r out n v, last_step r out = Some n -> G = Ok v ->
    inv (MkState w (CCloseDone v) PEnd r false false out ctx false) (n + 4 + budget ctx)
| i_close_slice : forall ctx r out n v, last_step r out = Some n -> G = Ok v ->
    inv (MkState w (CCloseSlice v) PEnd r false true out ctx false) (n + 2 + budget ctx)
| i_returned : forall ctx r out n v, last_step r out = Some n -> G = Ok v ->
    inv (MkState w (CReturned v) PEnd r true true out ctx false) (n + budget ctx)
| i_crashed : forall p r ctx, G = Panic -> inv (MkState w CRecv p r false false false ctx true) 0.

Lemma uncovered_cons r c (v : V) rest : uncovered cov ((r, c, v) :: rest) =
  if cov r c then uncovered cov rest else v :: uncovered cov rest.
Proof. unfold uncovered. cbn. destruct (cov r c); reflexivity. Qed.

Lemma last_closed r out n : last_step r out = Some n -> r = RClose /\ out = false /\ n = 1%nat \/ r = REnd /\ out = true /\ n = 0%nat.
Proof. destruct r, out; cbn; intros H; try discriminate; injection H as <-; auto. Qed.

Ltac peel H := inversion H; clear H; subst.
Ltac proj := cbn [st_world st_caller st_producer st_reducer st_slice st_done st_out st_ctx st_crashed] in *.
Ltac dead := proj; discriminate || congruence.
Ltac upd := cbv [with_caller with_producer with_reducer with_world close_done close_slice close_out cancel crash start];
  cbn [st_world st_caller st_producer st_reducer st_slice st_done st_out st_ctx st_crashed].
Ltac kill := try (exfalso; congruence).

Lemma budget_le ctx : (budget ctx <= 1)%nat.
Proof. unfold budget. destruct (can && negb ctx); lia. Qed.

(** the producer's own steps *)
Inductive pstep (ctx : bool) : producer N -> producer N -> Prop :=
| p_more : forall k it, mat_HasNext it = true -> pstep ctx (PHead k it) (PSelect k it)
| p_no_more : forall k it, mat_HasNext it = false -> pstep ctx (PHead k it) PDone
| p_ctx : forall k it, ctx = true -> pstep ctx (PSelect k it) PEnd
| p_default : forall k it, pstep ctx (PSelect k it) (PNext k it)
| p_next : forall k it r c v it', mat_Next m it = Ok (r, c, v, it') -> pstep ctx (PNext k it) (PElement k r c v it')
| p_element : forall k r c v it w' (e : bool), mask_Element k r c w = (w', Ok e) ->
    pstep ctx (PElement k r c v it) (if e then PHead k it else PSend k v it).

Lemma produces_step ctx p pend n p' : produces ctx p pend n -> pstep ctx p p' ->
  exists n', (n' < n)%nat /\ produces ctx p' pend n'.
Proof.
  intros Hp Hst. destruct Hst as [k it Hn|k it Hn|k it Hc|k it|k it r c v it' Hn|k r c v it w' e He]; peel Hp.
  - eexists. split; [|apply pr_select; auto]. lia.
  - match goal with H : yields _ _ _ |- _ => rewrite (yields_end _ _ _ H Hn) end.
    exists 1%nat. split; [cbn; lia|apply pr_done].
  - eexists. split; [|apply pr_cancelled; auto]. lia.
  - eexists. split; [|apply pr_next; auto]. lia.
  - match goal with H1 : yields _ _ _, H2 : mat_HasNext _ = true |- _ =>
      destruct (yields_more _ _ _ H1 H2) as (r' & c' & v' & it2 & l' & E1 & -> & Hy) end.
    rewrite E1 in Hn. injection Hn as <- <- <- <-. eexists. split; [|apply pr_element; eauto]. cbn [length]. lia.
  - assert (Hin : In (r, c, v) L) by (match goal with H : incl _ L |- _ => apply H; left; reflexivity end).
    rewrite (HE r c v Hin) in He. injection He as <- <-. rewrite uncovered_cons.
    assert (Hi : incl rest L) by (match goal with H : incl _ L |- _ => intros z Hz; apply H; right; exact Hz end).
    destruct (cov r c); (eexists; split; [|first [apply pr_head; eauto|apply pr_send; eauto]]); lia.
Qed.
Lemma produces_cancel p pend n : produces false p pend n -> produces true p pend n.
Proof. intros H; peel H; try discriminate; constructor; auto. Qed.

Lemma inv_cancel x n : inv x n -> can = true -> st_ctx x = false -> st_crashed x = false ->
  exists n', (n' < n)%nat /\ inv (cancel x) n'.
Proof.
  intros Hi Hc Hx Hcr. destruct Hi; proj; subst; try discriminate; upd; unfold budget; rewrite Hc; cbn [andb negb].
  all: eexists; split; [|econstructor; eauto using produces_cancel]; unfold budget; rewrite ?Hc; cbn [andb negb]; lia.
Qed.

(** the producer cannot panic *)
Lemma produces_next_ok ctx k it pend n : produces ctx (PNext k it) pend n -> mat_Next m it <> Panic.
Proof.
  intros Hp. peel Hp. match goal with H1 : yields _ _ _, H2 : mat_HasNext _ = true |- _ =>
      destruct (yields_more _ _ _ H1 H2) as (r' & c' & v' & it2 & l' & E1 & -> & Hy) end. congruence.
Qed.
Lemma produces_element_ok ctx k r c v it pend n : produces ctx (PElement k r c v it) pend n ->
  mask_Element k r c w = (w, Ok (cov r c)).
Proof. intros Hp. peel Hp. apply (HE r c v). match goal with H : incl _ L |- _ => apply H; left; reflexivity end. Qed.

Lemma inv_step x n y : inv x n -> step x y -> exists n', (n' < n)%nat /\ inv y n'.
Proof.
  intros Hi Hst. destruct (st_crashed x) eqn:Hcr; [inversion Hst; congruence|].
  assert (Hcan : can = true -> st_ctx x = false -> exists n', (n' < n)%nat /\ inv (cancel x) n')
    by (intros; eapply inv_cancel; eauto).
  unfold obj in Hs.
  destruct Hi; inversion Hst; subst; proj; try discriminate; try (apply Hcan; auto; fail); clear Hcan; upd.
  all: try congruence.
  { eexists; split; [|apply i_mask]; lia. }
  { rewrite HK in *. match goal with H : (w, _) = _ |- _ => injection H as <- <- end. eexists; split; [|apply i_spawn]; lia. }
  { match goal with H : CSpawn _ = CSpawn _ |- _ => injection H as <- end.
    rewrite Hs in *. match goal with H : Some _ = Some _ |- _ => injection H as <- end.
    eexists; split; [|eapply i_run; [apply pr_head; [exact HL|apply incl_refl]|reflexivity]]. lia. }
  1-8, 11-18: subst p.
  1-5, 9-13: rewrite ?Hs in *; repeat match goal with H : Some _ = Some _ |- _ => injection H as <- end;
    match goal with Hp : produces _ _ _ _ |- exists _, _ /\ inv (MkState _ _ ?p' _ _ _ _ _ _) _ =>
      destruct (produces_step _ _ _ _ p' Hp ltac:(constructor; auto)) as (n' & Hlt & Hp') end;
    eexists; split; [|first [eapply i_run; eauto; fail|eapply i_apply; eauto]]; lia.
  1, 4: exfalso; rewrite Hs in *; match goal with H : Some _ = Some _ |- _ => injection H as <- end;
    match goal with Hp : produces _ _ _ _ |- _ => eapply (produces_next_ok _ _ _ _ _ Hp); eauto end.
  2, 4: exfalso; match goal with Hp : produces _ _ _ _ |- _ => rewrite (produces_element_ok _ _ _ _ _ _ _ _ Hp) in * end; discriminate.
  1-2: match goal with Hp : produces _ _ _ _ |- _ => pose proof (produces_element_ok _ _ _ _ _ _ _ _ Hp) as He end;
    match goal with H : mask_Element _ _ _ _ = (?w', Ok ?e), Hp : produces _ (PElement ?k ?r ?c ?v ?it) _ _ |- _ =>
      destruct (produces_step _ _ _ _ _ Hp (p_element _ k r c v it w' e H)) as (n' & Hlt & Hp'); rewrite He in H; injection H as <- <- end;
    eexists; split; [|first [eapply i_run; eauto; fail|eapply i_apply; eauto]]; lia.
  (* slice, done *)
  { match goal with H : RSelect _ = RSelect _ |- _ => injection H as <- end.
    subst p. match goal with Hp : produces _ _ _ _ |- _ => peel Hp end.
    eexists; split; [|eapply i_apply; [apply pr_head; eauto|]]; [lia|]. assumption. }
  { match goal with H : RSelect _ = RSelect _ |- _ => injection H as <- end.
    subst p. match goal with Hp : produces _ _ _ _ |- _ => peel Hp end.
    eexists; split; [|eapply i_out]; [lia|]. match goal with H : fold_res _ _ _ = G |- _ => rewrite <- H; reflexivity end. }
  (* apply *)
  { match goal with H : RApply _ _ = RApply _ _ |- _ => injection H as <- <- end.
    eexists; split; [|eapply i_run; eauto]; [lia|].
    match goal with H : rbind _ _ = G, H2 : mo_op _ _ _ = _ |- _ => rewrite <- H, H2; reflexivity end. }
  { match goal with H : RApply _ _ = RApply _ _ |- _ => injection H as <- <- end.
    exists 0%nat; split; [lia|apply i_crashed].
    match goal with H : rbind _ _ = G, H2 : mo_op _ _ _ = _ |- _ => rewrite <- H, H2; reflexivity end. }
  { match goal with H : ROut _ = ROut _ |- _ => injection H as <- end.
    eexists; split; [|apply (i_close_done ctx RClose false 1)]; auto; lia. }
  all: match goal with H : last_step _ _ = Some _ |- _ => destruct (last_closed _ _ _ H) as [(-> & -> & ->)|(-> & -> & ->)] end; try discriminate.
  all: repeat match goal with H : CCloseDone _ = CCloseDone _ |- _ => injection H as <- | H : CCloseSlice _ = CCloseSlice _ |- _ => injection H as <- end.
  all: eexists; split; [|econstructor; eauto; reflexivity]; lia.
Qed.

Lemma inv_steps n x y b : inv x b -> steps s mo k0 can n x y -> exists b', inv y b' /\ (n + b' <= b)%nat.
Proof.
  intros Hi Hst. induction Hst as [|n x y z Hst IH Hs1]; [exists b; auto|].
  destruct (IH Hi) as (b1 & Hb1 & Hle). destruct (inv_step _ _ _ Hb1 Hs1) as (b2 & Hlt & Hb2). exists b2. split; [auto|lia].
Qed.

Lemma progress y b : inv y b ->
  (exists z, step y z) \/ (exists v, G = Ok v /\ finished y v) \/ (G = Panic /\ st_crashed y = true) \/ blocked y.
Proof.
  intros Hi. unfold obj in Hs. destruct Hi.
  - left. eexists. apply s_reduce; reflexivity.
  - left. eexists. eapply s_mask_ok; [reflexivity|reflexivity|exact HK].
  - left. eexists. eapply s_spawn; [reflexivity|reflexivity|exact Hs].
  - match goal with H : produces _ _ _ _ |- _ => peel H end.
    + left. destruct (mat_HasNext it) eqn:E; eexists; [eapply s_more|eapply s_no_more]; eauto; reflexivity.
    + left. destruct ctx; eexists; [eapply s_ctx_done|eapply s_ctx_default]; reflexivity.
    + left. match goal with H1 : yields _ _ _, H2 : mat_HasNext _ = true |- _ =>
        destruct (yields_more _ _ _ H1 H2) as (r' & c' & v' & it2 & l' & E1 & -> & Hy) end.
      eexists. eapply s_next; eauto; reflexivity.
    + left. eexists. eapply s_element; [reflexivity|reflexivity|].
      apply (HE r c v). match goal with H : incl _ L |- _ => apply H; left; reflexivity end.
    + left. eexists. eapply s_slice; reflexivity.
    + left. eexists. eapply s_done; reflexivity.
    + do 3 right. unfold blocked. proj. repeat (split; [solve [auto | eexists; reflexivity]|]). reflexivity.
  - left. destruct (mo_op mo acc v) eqn:E; [| |destruct (Hop _ _ E)].
    + eexists. eapply s_apply; eauto; reflexivity.
    + eexists. eapply s_apply_panic; eauto; reflexivity.
  - left. eexists. eapply s_out; reflexivity.
  - left. eexists. eapply s_close_done; reflexivity.
  - left. eexists. eapply s_close_slice; reflexivity.
  - match goal with H : last_step _ _ = Some _ |- _ => destruct (last_closed _ _ _ H) as [(-> & -> & ->)|(-> & -> & ->)] end.
    + left. eexists. eapply s_close_out; reflexivity.
    + right; left. eexists. split; [eassumption|]. repeat split.
  - right; right; left. auto.
Qed.

Lemma start_inv : inv (start w) (6 * length L + 15 + budget false).
Proof. apply i_start. Qed.

Lemma inv_safe y b : inv y b -> st_world y = w /\ (forall v, st_caller y = CReturned v -> G = Ok v) /\
  (st_crashed y = true -> G = Panic).
Proof.
  intros Hi. destruct Hi; proj; repeat split; intros; try discriminate; auto; congruence.
Qed.
Lemma never_cancelled n x y : can = false -> st_ctx x = false -> steps s mo k0 can n x y -> st_ctx y = false.
Proof.
  intros Hc Hx Hst. induction Hst as [|n x y z Hst IH Hs1]; [auto|].
  specialize (IH Hx). inversion Hs1; subst; cbn; auto; congruence.
Qed.

(** once the producer has given up, the call never returns *)
Definition given_up (y : state N) : Prop :=
  st_caller y = CRecv /\ st_producer y = PEnd /\ st_slice y = false /\ st_done y = false /\
  (exists a, st_reducer y = RSelect a \/ exists v, st_reducer y = RApply a v).
Lemma given_up_step y z : given_up y -> step y z -> given_up z.
Proof.
  intros (H1 & H2 & H3 & H4 & a & Ha) Hst. inversion Hst; subst; proj; try congruence;
    cbv [with_caller with_producer with_reducer with_world close_done close_slice close_out cancel crash given_up]; proj;
    repeat split; auto; try (destruct Ha as [Ha|[v' Ha]]; try congruence; eauto).
Qed.
Lemma given_up_steps n y z : given_up y -> steps s mo k0 can n y z -> given_up z.
Proof. intros Hg Hst. induction Hst; eauto using given_up_step. Qed.
(** ** The sequential model of the call *)
Lemma reduce_seq E fuel it acc l : e_ctx E = None -> loop_Next fuel m it = Ok l -> incl l L ->
  reduce_loop E fuel s it K (mo_op mo) acc w = (w, fold_res (mo_op mo) acc (uncovered cov l)).
Proof.
  intros Hc. revert it acc l. induction fuel as [|fuel IH]; intros it acc l Hl Hi; cbn [reduce_loop loop_Next] in *.
  - destruct (mat_HasNext it); [discriminate|]. injection Hl as <-. reflexivity.
  - destruct (mat_HasNext it); [|injection Hl as <-; reflexivity].
    unfold mbind at 1, poll. rewrite Hc. rewrite (mbind_ok _ _ _ _ _ (load_ok _ _ _ Hs)).
    destruct (mat_Next m it) as [[[[r c] v] it']| |]; cbn [rbind] in Hl; try discriminate.
    destruct (loop_Next fuel m it') as [l'| |] eqn:El; cbn [rbind] in Hl; try discriminate. injection Hl as <-.
    rewrite mbind_lift. rewrite (mbind_ok _ _ _ _ _ (HE r c v (Hi _ (or_introl eq_refl)))). rewrite uncovered_cons.
    assert (Hi' : incl l' L) by (intros z Hz; apply Hi; right; exact Hz).
    destruct (cov r c); cbn [negb].
    + rewrite mbind_ret. apply IH; auto.
    + cbn [fold_res]. unfold mbind, mlift. destruct (mo_op mo acc v) as [a| |]; cbn [rbind]; [apply IH; auto|reflexivity|reflexivity].
Qed.
End Fixed.

(** ** On reachable heaps *)
Implicit Types w : world.
Implicit Types m : mat.

Lemma reduce_setup w (s : ptr) m k L : zero_ok N -> wfw w -> obj w s m ->
  mask_dims w k (mat_Rows m) (mat_Columns m) -> enumerates m L ->
  check_mask k s w = (w, Ok (mask_norm k (mat_Rows m) (mat_Columns m))) /\
  (forall r c v, In (r, c, v) L -> mask_Element (mask_norm k (mat_Rows m) (mat_Columns m)) r c w = (w, Ok (covers w k r c))) /\
  yields m (mat_iterator m) L.
Proof.
  intros Hz Hw Ho Hk He.
  split; [apply check_mask_ok; auto|]. split.
  - intros r c v Hin. assert (Hb : inb m r c).
    { apply (entries_inb m r c v Hz (Hw _ _ Ho)). rewrite <- (enumerates_unique m L (Hw _ _ Ho) He). exact Hin. }
    destruct Hb. apply mask_Element_ok; auto. eapply mask_dims_wf; eauto.
  - eexists. apply (He (Z.to_nat (mat_Values m))). lia.
Qed.

Lemma reduce_all_schedules w (s : ptr) m mo k L : sane N -> reachable w -> obj w s m ->
  mask_dims w k (mat_Rows m) (mat_Columns m) -> enumerates m L -> (forall a b, mo_op mo a b <> Diverge) ->
  forall n y, steps s mo k false n (start w) y ->
    (n <= 6 * length L + 15)%nat /\ st_world y = w /\
    (forall v, st_caller y = CReturned v -> fold_res (mo_op mo) (mo_unit mo) (uncovered (covers w k) L) = Ok v) /\
    ((exists z, step s mo k false y z) \/
     (exists v, fold_res (mo_op mo) (mo_unit mo) (uncovered (covers w k) L) = Ok v /\ finished y v) \/
     (fold_res (mo_op mo) (mo_unit mo) (uncovered (covers w k) L) = Panic /\ st_crashed y = true)).
Proof.
  intros Hsn Hr Ho Hk He Hop n y Hst. destruct (reduce_setup w s m k L (proj1 Hsn) (sane_wfw w Hsn Hr) Ho Hk He) as (HK & HE & HY).
  destruct (inv_steps w s m mo k _ false (covers w k) L Ho HK HE HY _ _ _ _ (start_inv w m mo _ false (covers w k) L) Hst) as (b & Hb & Hle).
  destruct (inv_safe w m mo _ false (covers w k) L y b Hb) as (S1 & S2 & S3).
  split; [cbn in Hle; lia|]. split; [exact S1|]. split; [exact S2|].
  destruct (progress w s m mo k _ false (covers w k) L Ho HK HE Hop y b Hb) as [P|[P|[P|P]]]; auto.
  exfalso. destruct P as (P & _). pose proof (never_cancelled s mo k false n (start w) y eq_refl eq_refl Hst). congruence.
Qed.

Lemma reduce_cancellable w (s : ptr) m mo k L : sane N -> reachable w -> obj w s m ->
  mask_dims w k (mat_Rows m) (mat_Columns m) -> enumerates m L -> (forall a b, mo_op mo a b <> Diverge) ->
  forall n y, steps s mo k true n (start w) y ->
    (n <= 6 * length L + 16)%nat /\ st_world y = w /\
    (forall v, st_caller y = CReturned v -> fold_res (mo_op mo) (mo_unit mo) (uncovered (covers w k) L) = Ok v) /\
    ((exists z, step s mo k true y z) \/
     (exists v, fold_res (mo_op mo) (mo_unit mo) (uncovered (covers w k) L) = Ok v /\ finished y v) \/
     (fold_res (mo_op mo) (mo_unit mo) (uncovered (covers w k) L) = Panic /\ st_crashed y = true) \/
     blocked y).
Proof.
  intros Hsn Hr Ho Hk He Hop n y Hst. destruct (reduce_setup w s m k L (proj1 Hsn) (sane_wfw w Hsn Hr) Ho Hk He) as (HK & HE & HY).
  destruct (inv_steps w s m mo k _ true (covers w k) L Ho HK HE HY _ _ _ _ (start_inv w m mo _ true (covers w k) L) Hst) as (b & Hb & Hle).
  destruct (inv_safe w m mo _ true (covers w k) L y b Hb) as (S1 & S2 & S3).
  split; [cbn in Hle; lia|]. split; [exact S1|]. split; [exact S2|].
  destruct (progress w s m mo k _ true (covers w k) L Ho HK HE Hop y b Hb) as [P|[P|[P|P]]]; auto.
Qed.

(** cancelling before the producer's last round loses the call: nobody ever
    returns from it *)
Lemma reduce_lost w (s : ptr) m mo k L : sane N -> reachable w -> obj w s m ->
  mask_dims w k (mat_Rows m) (mat_Columns m) -> enumerates m L -> L <> [] ->
  exists n y, steps s mo k true n (start w) y /\ blocked y /\
    forall n' z, steps s mo k true n' y z -> st_caller z = CRecv.
Proof.
  intros Hsn Hr Ho Hk He HL. destruct (reduce_setup w s m k L (proj1 Hsn) (sane_wfw w Hsn Hr) Ho Hk He) as (HK & HE & HY).
  assert (Hn : mat_HasNext (mat_iterator m) = true).
  { destruct (mat_HasNext (mat_iterator m)) eqn:E; [reflexivity|]. elim HL. eapply yields_end; eauto. }
  set (K := mask_norm k (mat_Rows m) (mat_Columns m)) in *.
  set (y := MkState w CRecv PEnd (RSelect (mo_unit mo)) false false false true false).
  exists 6%nat, y. split; [|split].
  - eapply steps_S; [eapply steps_S; [eapply steps_S; [eapply steps_S; [eapply steps_S; [eapply steps_S; [apply steps_0|]|]|]|]|]|].
    + apply s_cancel; reflexivity.
    + apply s_reduce; reflexivity.
    + eapply s_mask_ok; [reflexivity|reflexivity|exact HK].
    + eapply s_spawn; [reflexivity|reflexivity|exact Ho].
    + eapply s_more; [reflexivity|reflexivity|exact Hn].
    + eapply (s_ctx_done _ _ _ _ (MkState w CRecv (PSelect K (mat_iterator m)) (RSelect (mo_unit mo)) false false false true false)); reflexivity.
  - repeat split. eexists; reflexivity.
  - intros n' z Hst. assert (Hg : given_up y) by (repeat split; exists (mo_unit mo); left; reflexivity).
    apply (given_up_steps s mo k true n' y z Hg Hst).
Qed.

Lemma reduce_value_wf E w (s : ptr) m mo k L : zero_ok N -> wfw w -> obj w s m ->
  mask_dims w k (mat_Rows m) (mat_Columns m) -> enumerates m L -> e_ctx E = None -> mat_Values m <= Z.of_nat (e_fuel E) ->
  ReduceMatrixToScalarWithMonoID E s mo k w = (w, fold_res (mo_op mo) (mo_unit mo) (uncovered (covers w k) L)).
Proof.
  intros Hz Hw Ho Hk He Hc Hf. destruct (reduce_setup w s m k L Hz Hw Ho Hk He) as (HK & HE & HY).
  unfold ReduceMatrixToScalarWithMonoID. rewrite (mbind_ok _ _ _ _ _ HK), (mbind_ok _ _ _ _ _ (load_ok _ _ _ Ho)).
  apply (reduce_seq w s m mo _ (covers w k) L Ho HE); [exact Hc|apply He; exact Hf|apply incl_refl].
Qed.
Lemma reduce_value E w (s : ptr) m mo k L : sane N -> reachable w -> obj w s m ->
  mask_dims w k (mat_Rows m) (mat_Columns m) -> enumerates m L -> e_ctx E = None -> mat_Values m <= Z.of_nat (e_fuel E) ->
  ReduceMatrixToScalarWithMonoID E s mo k w = (w, fold_res (mo_op mo) (mo_unit mo) (uncovered (covers w k) L)).
Proof. intros Hsn Hr. apply reduce_value_wf; [apply Hsn|apply sane_wfw; auto]. Qed.

(** a mask of other dimensions: the caller panics, and whatever happens afterwards
    the reducer goroutine never ends *)
Lemma reduce_mask_leak w (s : ptr) m mo k : sane N -> reachable w -> obj w s m ->
  ~ mask_dims w k (mat_Rows m) (mat_Columns m) -> (forall a b, exists c, mo_op mo a b = Ok c) ->
  (exists n y, steps s mo k false n (start w) y /\ st_caller y = CPanicked) /\
  forall can n y, steps s mo k can n (start w) y -> (forall v, st_caller y <> CReturned v) /\ st_crashed y = false /\
    (st_caller y = CPanicked -> (exists a, st_reducer y = RSelect a) \/ (exists a v, st_reducer y = RApply a v) \/ (exists a, st_reducer y = ROut a)).
Proof.
  intros Hsn Hr Ho Hd Hop. pose proof (check_mask_panic k s w m Ho Hd) as HK. split.
  - eexists 4%nat, _. split.
    + eapply steps_S; [eapply steps_S; [eapply steps_S; [eapply steps_S; [apply steps_0|]|]|]|].
      * apply s_reduce; reflexivity.
      * eapply s_mask_panic; [reflexivity|reflexivity|exact HK].
      * eapply s_panic_done; reflexivity.
      * eapply s_panic_slice; reflexivity.
    + reflexivity.
  - intros can n y Hst.
    assert (Hi : st_world y = w /\ st_crashed y = false /\ st_producer y = PNone /\
      ((st_caller y = CReduce /\ st_reducer y = RNone /\ st_slice y = false /\ st_done y = false) \/
       ((st_caller y = CMask \/ st_caller y = CPanicDone \/ st_caller y = CPanicSlice \/ st_caller y = CPanicked) /\
        ((exists a, st_reducer y = RSelect a) \/ (exists a v, st_reducer y = RApply a v) \/ (exists a, st_reducer y = ROut a))))).
    { remember (start w) as x eqn:Ex. revert Ex. induction Hst as [|n x y z H IH Hst]; intros ->.
      - repeat split. left. repeat split.
      - destruct (IH eq_refl) as (I1 & I2 & I3 & I4). clear IH.
        inversion Hst; cbn; try congruence;
          try (match goal with H : mo_op mo ?a ?b = Panic |- _ => destruct (Hop a b) as [? Hc]; congruence end);
          (destruct I4 as [(J1 & J2 & J3 & J4)|([J1|[J1|[J1|J1]]] & J2)]; try congruence);
          repeat (split; [congruence|]); eauto 9;
          try (left; repeat split; congruence);
          right; (split; [tauto|first [exact J2|solve [eauto 6]|destruct J2 as [[? ?]|[[? [? ?]]|[? ?]]]; congruence]]). }
    destruct Hi as (I1 & I2 & I3 & [(J1 & J2 & _)|(J1 & J2)]).
    + split; [congruence|]. split; [auto|]. congruence.
    + split; [intuition congruence|]. split; auto.
Qed.

Lemma returned_stays s mo k can n (y z : state N) v : steps s mo k can n y z -> st_caller y = CReturned v -> st_caller z = CReturned v.
Proof.
  intros H. induction H as [|n x y z H IH Hst]; intros Hc; [exact Hc|]. specialize (IH Hc).
  inversion Hst; cbn; congruence.
Qed.

Lemma steps_trans s mo k can a b (x y z : state N) : steps s mo k can a x y -> steps s mo k can b y z -> steps s mo k can (a + b) x z.
Proof.
  intros H1 H2. revert x a H1. induction H2 as [|n x y z H IH Hst]; intros x0 a H1.
  - replace (a + 0)%nat with a by lia. exact H1.
  - replace (a + S n)%nat with (S (a + n)) by lia. eapply steps_S; [apply IH; exact H1|exact Hst].
Qed.

(** with a fitting mask: once the call has returned, the other two goroutines end
    after a bounded number of further steps, cancelled or not *)
Lemma reduce_after_return w (s : ptr) m mo k L : sane N -> reachable w -> obj w s m ->
  mask_dims w k (mat_Rows m) (mat_Columns m) -> enumerates m L -> (forall a b, mo_op mo a b <> Diverge) ->
  forall can n y v, steps s mo k can n (start w) y -> st_caller y = CReturned v ->
  forall n' z, steps s mo k can n' y z ->
    (n + n' <= 6 * length L + 16)%nat /\ st_caller z = CReturned v /\ st_crashed z = false /\
    ((exists z', step s mo k can z z') \/ finished z v).
Proof.
  intros Hsn Hr Ho Hk He Hop can n y v H1 Hc n' z H2.
  pose proof (returned_stays _ _ _ _ _ _ _ _ H2 Hc) as Hz. pose proof (steps_trans _ _ _ _ _ _ _ _ _ H1 H2) as H3.
  destruct (reduce_setup w s m k L (proj1 Hsn) (sane_wfw w Hsn Hr) Ho Hk He) as (HK & HE & HY).
  destruct (inv_steps w s m mo k _ can (covers w k) L Ho HK HE HY _ _ _ _ (start_inv w m mo _ can (covers w k) L) H3) as (b & Hb & Hle).
  destruct (inv_safe w m mo _ can (covers w k) L z b Hb) as (S1 & S2 & S3).
  pose proof (S2 v Hz) as Hv. pose proof (budget_le can false) as Hbl.
  split; [lia|]. split; [exact Hz|].
  destruct (progress w s m mo k _ can (covers w k) L Ho HK HE Hop z b Hb) as [P|[P|[P|P]]].
  - split; [destruct P as [z' P]; inversion P; auto|left; exact P].
  - destruct P as (v' & Hv' & P). split; [apply P|right]. replace v with v' by congruence. exact P.
  - destruct P as [P _]. congruence.
  - destruct P as (_ & P & _). congruence.
Qed.

(** some execution gets there: a fold that does not panic is returned *)
Lemma reduce_returns w (s : ptr) m mo k L v : sane N -> reachable w -> obj w s m ->
  mask_dims w k (mat_Rows m) (mat_Columns m) -> enumerates m L -> (forall a b, mo_op mo a b <> Diverge) ->
  fold_res (mo_op mo) (mo_unit mo) (uncovered (covers w k) L) = Ok v ->
  exists n y, steps s mo k false n (start w) y /\ finished y v.
Proof.
  intros Hsn Hr Ho Hk He Hop Hv.
  assert (H : forall d n y, (n + d = 6 * length L + 16)%nat -> steps s mo k false n (start w) y -> exists n' y', steps s mo k false n' (start w) y' /\ finished y' v).
  { induction d as [|d IH]; intros n y Hd Hst; destruct (reduce_all_schedules w s m mo k L Hsn Hr Ho Hk He Hop n y Hst) as (H1 & _ & _ & [[z Hz]|[(v' & Hv' & F)|[F _]]]);
      try lia; try congruence.
    - apply (IH (S n) z); [lia|]. eapply steps_S; eauto.
    - exists n, y. split; [exact Hst|]. replace v with v' by congruence. exact F. }
  apply (H (6 * length L + 16)%nat 0%nat (start w)); [lia|apply steps_0].
Qed.
End ReduceProofs.
