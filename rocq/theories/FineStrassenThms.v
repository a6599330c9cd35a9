(** Strassen's multiplication with its goroutines running at the same time (FineStrassen.v): it returns
    the product that it returns when they run one after the other, it ends, nothing races. *)
From Coq Require Import String Permutation.
From Verif Require Import GoBase Num SparseVec Csr Csc DenseVec DenseMat Mat World Ops MathOps Bfs Spec Api BaseProofs MatProofs HeapProofs ReachProofs StoreThms AccessThms.
From Verif Require Import NumProofs Steps StrassenProofs MathThms Fine FineRel FineConc FineProofs FineThms FineStrassen FineCalm FineStrassenRel FineStrassenInv FineStrassenStep.

Section FineStrassenThms.
Context {N : num}.
Notation V := (T N).
Notation mat := (mat N).
Notation prog := (prog N).
Notation world := (world N).
Notation names := (ptr -> Prop).
Notation gor := (gor (N := N)).
Notation task := (task (N := N)).

(** what the goroutines of a call are about to read or write ([true]), goroutine by goroutine *)
Definition touch {A} (g : gor A) : list (ptr * bool) := match next_touch g with Some c => [c] | None => [] end.
Fixpoint touches (t : task) : list (ptr * bool) :=
  let all := fix all (l : list (Z * task)) : list (ptr * bool) := match l with [] => [] | (_, t) :: l => touches t ++ all l end in
  match t with
  | THead _ g => touch g
  | TSpawn _ _ _ _ g ks => touch g ++ all ks
  | TRecv _ ks _ => all ks
  | TComb g => touch g
  end.
(** a data race: two goroutines are about to touch the same object, at least one of them writing *)
Definition clash (t : task) : Prop :=
  exists i j p b b', i <> j /\ nth_error (touches t) i = Some (p, b) /\ nth_error (touches t) j = Some (p, b') /\ b || b' = true.

(** ** Executions end *)
Section Ends.
Variable I : Type.
Variable st : I -> forall A, list mat -> gor A -> option (list mat * gor A).
Hypothesis ends : forall A (g : gor A), Acc (fun g' g => exists i h h', st i A h g = Some (h', g')) g.
Variable E : env.
Variable x : Z.
Definition later (t' t : task) : Prop := exists i h h', turn (st i) E x (h, t) (h', t').

Lemma some_steps_acc {A} (R : A -> A -> Prop) l : Forall (Acc R) l -> Acc (one_steps R) l.
Proof.
  induction 1 as [|a l Ha Hl IH]; [constructor; intros l' H; inversion H|].
  revert l IH Hl. induction Ha as [a Ha IHa]. intros l Al Hl.
  assert (B : Forall (Acc R) l) by exact Hl. clear Hl. induction Al as [l Al IHl]. constructor. intros l' H. inversion H as [a' b l1 Hr|b l1 l2 Hr]; subst.
  - apply IHa; [exact Hr|constructor; exact Al|exact B].
  - apply IHl; [exact Hr|]. clear - B Hr. revert B. induction Hr as [a b l Hr|a l l' _ IH]; intro B; inversion B; subst; constructor; auto. eapply Acc_inv; eauto.
Qed.

Lemma one_steps_mid (R : task -> task -> Prop) (c1 c2 : list (Z * task)) j t t' : R t' t -> one_steps R (map snd (c1 ++ (j, t') :: c2)) (map snd (c1 ++ (j, t) :: c2)).
Proof. intro H. induction c1 as [|c c1 IH]; cbn [app map snd]; [constructor; exact H|constructor; exact IH]. Qed.

Lemma comb_acc g : Acc later (TComb g).
Proof.
  induction (ends _ g) as [g _ IH]. constructor. intros t' (i0 & h & h' & S). inversion S; subst. apply IH. exists i0, h, h'. assumption.
Qed.
Lemma recv_acc f cs got : Forall (Acc later) (map snd cs) -> Acc later (TRecv f cs got).
Proof.
  remember (length cs) as n eqn:L. revert cs got L. induction n as [n IHn] using (well_founded_induction Wf_nat.lt_wf). intros cs got L Fa.
  pose proof (some_steps_acc _ _ Fa) as A. remember (map snd cs) as l eqn:El. revert cs got L El. induction A as [l _ IHl]. intros cs got L ->.
  constructor. intros t' (i0 & h & h' & S). inversion S as [| | | | |f0 got0 h0 h0' c1 j t t1 c2 S'|f0 got0 h0 c1 j t c2 p Fi| |]; subst.
  - assert (Lt : later t1 t) by (exists i0, h, h'; exact S'). apply (IHl (map snd (c1 ++ (j, t1) :: c2))).
    + apply one_steps_mid. exact Lt.
    + rewrite map_app in Fa |- *. apply Forall_app in Fa. destruct Fa as [F1 F2]. apply Forall_app. split; [exact F1|]. cbn [map snd] in *. inversion F2; subst. constructor; [eapply Acc_inv; eauto|assumption].
    + rewrite !app_length. reflexivity.
    + reflexivity.
  - refine (IHn (length (c1 ++ c2)) _ (c1 ++ c2) _ eq_refl _); [rewrite !app_length; cbn [length]; lia|].
    rewrite map_app in Fa |- *. apply Forall_app in Fa. destruct Fa as [F1 F2]. apply Forall_app. split; [exact F1|]. cbn [map] in F2. inversion F2; assumption.
  - apply comb_acc.
Qed.
Lemma spawn_acc f (H : forall g, Acc later (THead f g)) rest : forall bl i g cs, Forall (Acc later) (map snd cs) -> Acc later (TSpawn f bl i rest g cs).
Proof.
  induction rest as [|i' rest IHr]; intros bl i g cs Fa.
  all: revert cs Fa; induction (ends _ g) as [g _ IHg]; intros cs Fa.
  all: pose proof (some_steps_acc _ _ Fa) as A; remember (map snd cs) as l eqn:El; revert cs El; induction A as [l _ IHl]; intros cs ->.
  all: constructor; intros t' (ii & h & h' & S); inversion S as [| |f0 bl0 i0 rest0 cs0 h0 g0 h0' g0' G|f0 bl0 i0 rest0 cs0 h0 g0 a b Og|f0 bl0 i0 rest0 g0 h0 h0' c1 j t t1 c2 S'| | | |]; subst.
  all: try (apply IHg; [exists ii, h, h'; exact G|exact Fa]).
  all: try (assert (Lt : later t1 t) by (exists ii, h, h'; exact S'); apply (IHl (map snd (c1 ++ (j, t1) :: c2))); [apply one_steps_mid; exact Lt| |reflexivity];
    rewrite map_app in Fa |- *; apply Forall_app in Fa; destruct Fa as [F1 F2]; apply Forall_app; split; [exact F1|]; cbn [map snd] in *; inversion F2; subst; constructor; [eapply Acc_inv; eauto|assumption]).
  all: cbn [spawned].
  - apply recv_acc. rewrite map_app. apply Forall_app. split; [exact Fa|]. constructor; [apply H|constructor].
  - apply IHr. rewrite map_app. apply Forall_app. split; [exact Fa|]. constructor; [apply H|constructor].
Qed.
Lemma head_acc f g : Acc later (THead f g).
Proof.
  revert g. induction f as [|f IHf]; intro g; induction (ends _ g) as [g _ IHg]; constructor; intros t' (i0 & h & h' & S); inversion S; subst.
  - apply IHg. exists i0, h, h'. assumption.
  - apply IHg. exists i0, h, h'. assumption.
  - apply spawn_acc; [exact IHf|constructor].
Qed.
Lemma task_acc t : Acc later t.
Proof.
  induction t as [f g|f bl i rest g cs IH|f cs got IH|g] using task_ind2.
  - apply head_acc.
  - apply spawn_acc; [apply head_acc|]. clear - IH. induction IH; constructor; auto.
  - apply recv_acc. clear - IH. induction IH; constructor; auto.
  - apply comb_acc.
Qed.

End Ends.

(** no call runs for ever *)
Lemma strassen_finite E x (f : nat -> list mat * task) : ~ (forall n, tstep E x (f n) (f (Datatypes.S n))).
Proof.
  intro H. assert (Q : forall t, Acc (later unit (fun _ => @gstep N) E x) t -> forall n, t = snd (f n) -> False).
  { induction 1 as [t _ IH]. intros n ->. apply (IH (snd (f (Datatypes.S n)))) with (n := Datatypes.S n); [|reflexivity].
    exists tt, (fst (f n)), (fst (f (Datatypes.S n))). rewrite <- !surjective_pairing. apply H. }
  refine (Q _ (task_acc _ _ _ E x _) 0%nat eq_refl). intros A g.
  induction (after_step_acc g) as [g0 _ IH]. constructor. intros g' (_ & h & h' & S). apply IH. exists h, h'. exact S.
Qed.

Section Call.
Variable E : env.
Variable x : Z.
Hypothesis K : constant E.
Notation good := (good (N := N) E x).
Notation product := (product E x).

(** ** Nobody panics *)
Lemma at_bad {A} (R : view -> A -> A -> Prop) (z : prog A) (w0 : world) h g s y (w : world) : tracks R z w0 h g s y w -> outcome g = Some Panic \/ outcome g = Some Diverge ->
  snd (interp z w0) = Panic \/ snd (interp z w0) = Diverge.
Proof.
  intros [T1 T2 T3 T4 T5 T6 T7] H. unfold outcome in H. destruct (g_back g) as [[b0 m0]|] eqn:Eb; [destruct H; discriminate|].
  destruct (g_prog g) as [a'| | |E' k|p k|p m q|p r c k|p r c k|m k]; try (destruct H; discriminate);
  destruct y as [b| | |E' k|p k|p m q|p r c k|p r c k|m k]; cbn [FineRel.rel] in T1; try contradiction; rewrite <- T2; cbn [interp snd]; auto.
Qed.
Lemma value_bad {A} (z : prog A) k (w : world) m : snd (interp z w) = Panic \/ snd (interp z w) = Diverge -> value (mbind z k) w = Ok m -> False.
Proof. intros H V. unfold value in V. rewrite interp_bind in V. unfold World.mbind in V. destruct (interp z w) as [w1 [a| |]]; cbn [snd] in H; destruct H; discriminate. Qed.

Lemma gathered f os (w : world) m : Forall (fun o => both (dense_at w) (snd o)) os -> value (let! ms := gatherT (tree E x f) os in combine E ms) w = Ok m ->
  Forall (fun o => exists m, product f (snd o) w = Ok m) os.
Proof.
  intros D V. destruct (interp (gatherT (tree E x f) os) w) as [w1 o] eqn:G. destruct (gather_run E x f os K w w1 o D G) as (_ & _ & B3 & _).
  destruct o as [ms| |].
  - destruct (B3 ms eq_refl) as [_ C]. clear - C. induction C as [|a b l l' (_ & _ & M & H & _) _ IH]; constructor; [exists M; exact H|exact IH].
  - exfalso. eapply value_bad; [|exact V]. rewrite G. auto.
  - exfalso. eapply value_bad; [|exact V]. rewrite G. auto.
Qed.
Lemma cont_products f bl todo : forall os (w : world) m, quarters (dense_at w) bl -> Forall (fun o => both (dense_at w) (snd o)) os -> value (cont E (tree E x f) bl os todo) w = Ok m ->
  Forall (fun o => exists m, product f (snd o) w = Ok m) os.
Proof.
  induction todo as [|i rest IH]; intros os w m Q D V.
  - rewrite cont_end in V. eapply gathered; eauto.
  - rewrite cont_step in V. destruct (interp (opnd E i bl) w) as [w1 o] eqn:Ho. destruct (opnd_run E i bl w w1 o Q Ho) as (B1 & B2 & B3).
    destruct o as [xy| |]; [|exfalso; eapply value_bad; [|exact V]; rewrite Ho; auto|exfalso; eapply value_bad; [|exact V]; rewrite Ho; auto].
    rewrite (value_bind _ _ _ _ _ Ho) in V.
    assert (H : Forall (fun o => exists m, product f (snd o) w1 = Ok m) (os ++ [(i, xy)])).
    { eapply IH; [| |exact V].
      - eapply quarters_sub; [|exact Q]. intros p X. eapply dense_at_frame; eauto.
      - apply Forall_app. split; [|constructor; [exact (B3 _ eq_refl)|constructor]]. eapply Forall_impl; [|exact D]. intros o [X1 X2]. split; eapply dense_at_frame; eauto. }
    apply Forall_app in H. destruct H as [H _]. clear - H D B2 K. induction H as [|o os [m H] _ IH]; constructor; inversion D as [|? ? D1 D2]; subst; auto.
    exists m. rewrite <- H. apply product_frame; assumption.
Qed.

Lemma not_broken t : forall r h O U m, good r h t O U (Ok m) -> broken t -> False.
Proof.
  induction t as [f g|f bl i rest g cs IH|f cs got IH|g] using task_ind2; intros r h O U m G B.
  - cbn [FineStrassenInv.good broken] in *. destruct G as (s & a & b & w0 & y & w & T & R & Ev & Ow & Kn). symmetry in Ev.
    destruct f; cbn [tree] in Ev; (eapply value_bad; [|exact Ev]; eapply at_bad; eauto).
  - cbn [FineStrassenInv.good broken] in *. destruct G as (s & bl' & w0 & y & w & os & ks & T & R & Ev & Ow & Kn & Bl & Q & Dn & Sv & Nm & Vs & Kd & Fm & S1 & S2). symmetry in Ev.
    destruct B as [B|B]; [eapply value_bad; [|exact Ev]; eapply at_bad; eauto|].
    rewrite <- cont_step in Ev. pose proof (cont_products _ _ _ _ _ _ Q Dn Ev) as Pr.
    apply kin_forall2 in Kd. clear - Kd Vs Pr IH B. revert os Vs Pr. induction Kd as [|c k cs ks Hk _ IHk]; intros os Vs Pr; [exact B|].
    inversion Vs as [|? o ? os' V1 V2]; subst. inversion Pr as [|? ? [m P1] P2]; subst. inversion IH as [|? ? I1 I2]; subst. destruct c as [j t]. destruct B as [B|B].
    + rewrite V1, P1 in Hk. eapply I1; eauto.
    + eapply IHk; eauto.
  - cbn [FineStrassenInv.good broken] in *. destruct G as (w0 & os & ks & Ev & Dn & Sv & Vs & Gt & Pm & Nd & Kd & Fm & Ap). symmetry in Ev.
    pose proof (gathered _ _ _ _ Dn Ev) as Pr.
    apply kin_forall2 in Kd. clear - Kd Vs Pr IH B. induction Kd as [|c k cs ks Hk _ IHk]; [exact B|].
    inversion Vs as [|? ? ? ? (o & V1 & V3) V2]; subst. inversion IH as [|? ? I1 I2]; subst. destruct c as [j t]. destruct B as [B|B].
    + destruct (proj1 (Forall_forall _ _) Pr _ V1) as [m P1]. cbn [snd] in *. rewrite V3, P1 in Hk. eapply I1; eauto.
    + eapply IHk; eauto.
  - cbn [FineStrassenInv.good broken] in *. destruct G as (s & ms & w0 & y & w & T & R & Ev & Ow & Kn). symmetry in Ev.
    destruct (at_bad _ _ _ _ _ _ _ _ T B) as [X|X]; unfold value in Ev; destruct (interp (combine E ms) w0) as [w1 o]; cbn [snd] in X; rewrite X in Ev; discriminate.
Qed.

(** ** Somebody can go on *)
Lemma head_no_fuel a b (w w' : world) bl : interp (head E x 0 a b) w = (w', Ok (Div bl)) -> False.
Proof.
  unfold head. repeat (rewrite interp_bind; unfold World.mbind at 1).
  destruct (interp (p_Columns a) w) as [w1 [ac| |]]; try discriminate. rewrite interp_bind; unfold World.mbind at 1.
  destruct (interp (p_Rows b) w1) as [w2 [br| |]]; try discriminate. destruct (negb (ac =? br)); [discriminate|]. rewrite interp_bind; unfold World.mbind at 1.
  destruct (interp (p_Rows b) w2) as [w3 [n| |]]; try discriminate. destruct (n <=? x); [|discriminate]. rewrite interp_bind; unfold World.mbind at 1.
  destruct (interp (p_Rows a) w3) as [w4 [ar| |]]; try discriminate. rewrite interp_bind; unfold World.mbind at 1.
  destruct (interp (p_Columns b) w4) as [w5 [bc| |]]; try discriminate. rewrite interp_bind; unfold World.mbind at 1.
  destruct (interp (new_dense ar bc) w5) as [w6 [p| |]]; try discriminate. rewrite interp_bind; unfold World.mbind at 1.
  destruct (interp (MatrixMatrixMultiply E a b MNil p) w6) as [w7 [u| |]]; try discriminate.
Qed.

Lemma one_goes_on {A} h (g : gor A) : (exists y, gstep h g = Some y) \/ outcome g <> None.
Proof.
  destruct g as [pr [[p m]|] pl]; unfold gstep, outcome; cbn [g_back g_prog g_polls]; [left; eexists; reflexivity|].
  destruct pr as [a| | |E' k|p k|p m q|p r c k|p r c k|m k]; try (right; discriminate); left.
  - destruct (e_ctx E'); eexists; reflexivity.
  - destruct (nth_error h p); eexists; reflexivity.
  - eexists; reflexivity.
  - destruct (nth_error h p) as [m|]; [destruct (mat_At m r c) as [[v m']| |]|]; eexists; reflexivity.
  - destruct (nth_error h p) as [m|]; [destruct (mat_Element m r c) as [[v m']| |]|]; eexists; reflexivity.
  - eexists; reflexivity.
Qed.

Lemma progress t : forall r h O U e, good r h t O U e -> (exists p, finished t = Some p) \/ (exists c, tstep E x (h, t) c) \/ broken t.
Proof.
  induction t as [f g|f bl i rest g cs IH|f cs got IH|g] using task_ind2; intros r h O U e G.
  - destruct (one_goes_on h g) as [[[h' g'] S]|S]; [right; left; eexists; eapply st_head; exact S|].
    cbn [finished broken]. destruct (outcome g) as [[[p|bl]| |]|] eqn:Og; [left; eauto| |right; right; auto|right; right; auto|congruence].
    destruct f as [|f]; [exfalso|right; left; eexists; eapply st_divided; exact Og].
    cbn [FineStrassenInv.good] in G. destruct G as (s & a & b & w0 & y & w & T & _).
    destruct (at_end _ _ _ _ _ _ _ _ _ T Og) as ([q|bl'] & A1 & A2 & _); cbn [Rnext] in A1; [contradiction|]. eapply head_no_fuel; eauto.
  - right. destruct (one_goes_on h g) as [[[h' g'] S]|S]; [left; eexists; eapply st_operands; exact S|].
    cbn [broken]. destruct (outcome g) as [[[a b]| |]|] eqn:Og; [left; eexists; eapply st_go; exact Og|right; left; auto|right; left; auto|congruence].
  - right. cbn [FineStrassenInv.good] in G. destruct G as (w0 & os & ks & Ev & Dn & Sv & Vs & Gt & Pm & Nd & Kd & Fm & Ap).
    destruct cs as [|[j t] cs]; [left; eexists; apply st_received|]. inversion IH as [|? ? I1 I2]; subst. destruct ks as [|k ks]; [contradiction|]. destruct Kd as [Kd _].
    destruct (I1 _ _ _ _ _ Kd) as [[p Fi]|[[[h' t'] S]|B]].
    + left. eexists. exact (st_receive _ E x f got h [] j t cs p Fi).
    + left. eexists. exact (st_kid_recv _ E x f got h h' [] j t t' cs S).
    + right. cbn [broken]. left. exact B.
  - destruct (one_goes_on h g) as [[[h' g'] S]|S]; [right; left; eexists; eapply st_combine; exact S|].
    cbn [finished broken]. destruct (outcome g) as [[p| |]|] eqn:Og; [left; eauto|right; right; auto|right; right; auto|congruence].
Qed.

(** ** Nothing races *)
Definition peaceful (c c' : ptr * bool) : Prop := fst c = fst c' -> snd c || snd c' = false.

Lemma fop_app {A} (R : A -> A -> Prop) l l' : ForallOrdPairs R l -> ForallOrdPairs R l' -> (forall a b, List.In a l -> List.In b l' -> R a b) -> ForallOrdPairs R (l ++ l').
Proof.
  intros H H' C. induction H as [|a l Ha _ IH]; [exact H'|]. cbn [app]. constructor.
  - apply Forall_app. split; [exact Ha|]. apply Forall_forall. intros b Hb. apply C; [left; reflexivity|exact Hb].
  - apply IH. intros. apply C; [right|]; assumption.
Qed.
Lemma fop_one {A} (R : A -> A -> Prop) (l : list A) : (length l <= 1)%nat -> ForallOrdPairs R l.
Proof. destruct l as [|a [|b l]]; cbn [length]; intro H; [constructor|constructor; constructor|lia]. Qed.
Lemma touch_one {A} (g : gor A) : (length (touch g) <= 1)%nat.
Proof. unfold touch. destruct (next_touch g); cbn [length]; lia. Qed.

Lemma touch_tracks {A} (R : view -> A -> A -> Prop) (z : prog A) (w0 : world) h g s y (w : world) : tracks R z w0 h g s y w -> tidy h s g ->
  forall c, List.In c (touch g) -> (exists q, nm s (fst c) q) /\ (snd c = true -> ow s (fst c) = true).
Proof.
  intros [T1 T2 T3 T4 T5 T6 T7] [_ D] [p b] H. unfold touch in H. destruct (next_touch g) as [c|] eqn:Ht; [|contradiction]. destruct H as [->|[]]. cbn [fst snd].
  unfold next_touch in Ht. destruct (g_back g) as [[p0 mb]|] eqn:Eb.
  - injection Ht as <- <-. destruct (T5 p0 mb eq_refl) as [Q _]. split; [exact Q|]. intros _. exact (D _ _ eq_refl).
  - destruct (g_prog g); try discriminate; injection Ht as <- <-; destruct y; cbn [FineRel.rel] in T1; try contradiction; try (destruct T1 as (T1 & _); split; [eauto|discriminate]).
    destruct T1 as (O & Hn & _). split; eauto.
Qed.

Lemma in_all (cs : list (Z * task)) c :
  List.In c ((fix all (l : list (Z * task)) : list (ptr * bool) := match l with [] => [] | (_, t) :: l => touches t ++ all l end) cs) -> exists j t, List.In (j, t) cs /\ List.In c (touches t).
Proof.
  induction cs as [|[j t] cs IH]; [contradiction|]. intro H. apply in_app_or in H. destruct H as [H|H]; [exists j, t; split; [left; reflexivity|exact H]|].
  destruct (IH H) as (j' & t' & A1 & A2). exists j', t'. split; [right; exact A1|exact A2].
Qed.

(** what a sub-product's goroutines touch is theirs *)
Lemma kids_touch h O U cs ks : kin (fun t k => good false h t (k_O k) (k_U k) (k_e k)) cs ks -> family h O U ks ->
  Forall (fun c => forall r h O U e, (r = true -> exists f bl i rest g ks, snd c = TSpawn f bl i rest g ks \/ exists got, snd c = TRecv f ks got) -> good r h (snd c) O U e -> fits h O U ->
     ForallOrdPairs peaceful (touches (snd c)) /\ forall d, List.In d (touches (snd c)) -> U (fst d) /\ (snd d = true -> O (fst d))) cs ->
  ForallOrdPairs peaceful ((fix all (l : list (Z * task)) : list (ptr * bool) := match l with [] => [] | (_, t) :: l => touches t ++ all l end) cs) /\
  forall d, List.In d ((fix all (l : list (Z * task)) : list (ptr * bool) := match l with [] => [] | (_, t) :: l => touches t ++ all l end) cs) ->
    exists k, List.In k ks /\ k_U k (fst d) /\ (snd d = true -> k_O k (fst d)).
Proof.
  intros Kd [Fm Ap] IH. apply kin_forall2 in Kd. induction Kd as [|[j t] k cs ks Hk _ IHk]; [split; [constructor|intros d []]|].
  inversion Fm as [|? ? (Ft & _) Fm']; subst. inversion IH as [|? ? I1 I2]; subst. destruct Ap as [Dj Ap]. cbn [snd] in *.
  destruct (I1 false h (k_O k) (k_U k) (k_e k) ltac:(discriminate) Hk Ft) as [P1 T1]. destruct (IHk Fm' Ap I2) as [P2 T2].
  split.
  - apply fop_app; [exact P1|exact P2|]. intros a b Ha Hb Eq. destruct (T1 a Ha) as [A1 A2]. destruct (T2 b Hb) as (k' & B0 & B1 & B2).
    pose proof (proj1 (Forall_forall _ _) Dj _ B0) as D. destruct (snd a) eqn:Sa; [exfalso; apply (proj1 (D (fst a)) (A2 eq_refl)); rewrite Eq; exact B1|].
    destruct (snd b) eqn:Sb; [exfalso|reflexivity]. apply (proj2 (D (fst b)) (B2 eq_refl)). rewrite <- Eq. exact A1.
  - intros d Hd. apply in_app_or in Hd. destruct Hd as [Hd|Hd].
    + exists k. split; [left; reflexivity|exact (T1 d Hd)].
    + destruct (T2 d Hd) as (k' & B0 & B). exists k'. split; [right; exact B0|exact B].
Qed.

Lemma good_peaceful t : forall r h O U e, (r = true -> exists f bl i rest g ks, t = TSpawn f bl i rest g ks \/ exists got, t = TRecv f ks got) -> good r h t O U e -> fits h O U ->
  ForallOrdPairs peaceful (touches t) /\ forall d, List.In d (touches t) -> U (fst d) /\ (snd d = true -> O (fst d)).
Proof.
  induction t as [f g|f bl i rest g cs IH|f cs got IH|g] using task_ind2; intros r h O U e Rt G Ft.
  - cbn [FineStrassenInv.good touches] in *. destruct G as (s & a & b & w0 & y & w & T & R & Ev & Ow & Kn). split; [apply fop_one, touch_one|].
    destruct R as [R|R]; [exfalso; destruct (Rt R) as (? & ? & ? & ? & ? & ? & [X|[? X]]); discriminate|].
    intros d Hd. destruct (touch_tracks _ _ _ _ _ _ _ _ T R d Hd) as [[q A1] A2]. split; [exact (Kn _ _ A1)|]. intro X. apply Ow, A2, X.
  - cbn [FineStrassenInv.good touches] in *. destruct G as (s & bl' & w0 & y & w & os & ks & T & R & Ev & Ow & Kn & Bl & Q & Dn & Sv & Nm & Vs & Kd & Fm & S1 & S2).
    destruct (kids_touch h O U cs ks Kd Fm IH) as [P T']. pose proof (touch_tracks _ _ _ _ _ _ _ _ T R) as T0. split.
    + apply fop_app; [apply fop_one, touch_one|exact P|]. intros a b Ha Hb Eq. destruct (T0 a Ha) as [[q A1] A2]. destruct (T' b Hb) as (k & B0 & B1 & B2).
      destruct (snd a) eqn:Sa; [exfalso; apply (S2 k (fst a) B0 (A2 eq_refl)); rewrite Eq; exact B1|].
      destruct (snd b) eqn:Sb; [exfalso|reflexivity]. apply (S1 k (fst b) B0 (B2 eq_refl) q). rewrite <- Eq. exact A1.
    + intros d Hd. apply in_app_or in Hd. destruct Hd as [Hd|Hd].
      * destruct (T0 d Hd) as [[q A1] A2]. split; [exact (Kn _ _ A1)|]. intro X. apply Ow, A2, X.
      * destruct (T' d Hd) as (k & B0 & B1 & B2). destruct Fm as [Fm _]. pose proof (proj1 (Forall_forall _ _) Fm _ B0) as (_ & X1 & X2). split; [apply X2, B1|]. intro X. apply X1, B2, X.
  - cbn [FineStrassenInv.good touches] in *. destruct G as (w0 & os & ks & Ev & Dn & Sv & Vs & Gt & Pm & Nd & Kd & Fm & Ap).
    destruct (kids_touch h O U cs ks Kd Fm IH) as [P T']. split; [exact P|]. intros d Hd.
    destruct (T' d Hd) as (k & B0 & B1 & B2). destruct Fm as [Fm _]. pose proof (proj1 (Forall_forall _ _) Fm _ B0) as (_ & X1 & X2). split; [apply X2, B1|]. intro X. apply X1, B2, X.
  - cbn [FineStrassenInv.good touches] in *. destruct G as (s & ms & w0 & y & w & T & R & Ev & Ow & Kn). split; [apply fop_one, touch_one|].
    intros d Hd. destruct (touch_tracks _ _ _ _ _ _ _ _ T R d Hd) as [[q A1] A2]. split; [exact (Kn _ _ A1)|]. intro X. apply Ow, A2, X.
Qed.

Lemma fop_nth {A} (R : A -> A -> Prop) l i j a b : (forall a b, R a b -> R b a) -> ForallOrdPairs R l -> i <> j -> nth_error l i = Some a -> nth_error l j = Some b -> R a b.
Proof.
  intros Sy H. revert i j. induction H as [|c l Hc _ IH]; intros i j D Hi Hj; [destruct i; discriminate|].
  destruct i as [|i], j as [|j]; cbn in Hi, Hj; [congruence| | |].
  - injection Hi as <-. exact (proj1 (Forall_forall _ _) Hc _ (nth_error_In _ _ Hj)).
  - injection Hj as <-. apply Sy. exact (proj1 (Forall_forall _ _) Hc _ (nth_error_In _ _ Hi)).
  - apply (IH i j); auto.
Qed.

Lemma no_clash t r h O U e : good r h t O U e -> fits h O U -> ~ clash t.
Proof.
  intros G F (i & j & p & b & b' & D & Hi & Hj & Hb). assert (P : ForallOrdPairs peaceful (touches t)).
  { destruct t as [f g|f bl i0 rest g cs|f cs got|g]; [apply fop_one, touch_one| | |apply fop_one, touch_one].
    - eapply (good_peaceful _ r); [|exact G|exact F]. intros _. do 6 eexists. left. reflexivity.
    - eapply (good_peaceful _ r); [|exact G|exact F]. intros _. exists f, (MkBlocks 0 0 0 0 0 0 0 0), 0, [], (go mpanic), cs. right. eexists. reflexivity. }
  assert (X : peaceful (p, b) (p, b')).
  { eapply fop_nth; [|exact P|exact D|exact Hi|exact Hj]. unfold peaceful. intros c c' H Eq. rewrite orb_comm. apply H. congruence. }
  specialize (X eq_refl). cbn [snd] in X. congruence.
Qed.

(** ** The beginning *)
Section Begin.
Context (Hs : sane N) (w : world) (Hr : reachable w) (a b : ptr) (A B : mat) (Ha : obj w a A) (Hb : obj w b B).
Let D : names := fun p => p = a \/ p = b.
Let e := value (tree E x (e_fuel E) a b) w.

Lemma given p : D p -> exists m, nth_error (w_heap w) p = Some m /\ steady m.
Proof.
  intros [->| ->]; [exists A|exists B]; (split; [assumption|]); apply wf_steady; [apply Hs|exact (reach_good w _ _ Hs Hr Ha)|apply Hs|exact (reach_good w _ _ Hs Hr Hb)].
Qed.
Lemma e_anew : e = value (tree E x (e_fuel E) a b) (anew w).
Proof.
  unfold e. apply (value_rel (self D) (fun _ => False)).
  - apply tree_rel; cbn; unfold D; auto.
  - eapply calm_any, tree_calm. exact K.
  - constructor; cbn [self nm ow anew w_heap]; [|contradiction|].
    + intros p q [<- Dp]. destruct (given p Dp) as (m & H & _). eauto.
    + intros p q m [<- Dp] _ Hm. destruct (given p Dp) as (m' & H & X). congruence.
Qed.
Lemma good_begin : good true (w_heap w) (begin E x a b) (fun _ => False) D e.
Proof.
  unfold begin. cbn [FineStrassenInv.good]. exists (self D), a, b, (anew w), (head E x (e_fuel E) a b), (anew w). split.
  { constructor; cbn [go g_prog g_back g_polls flush anew w_heap w_polls self nm ow]; try discriminate; auto.
    - apply head_rel; cbn; unfold D; auto.
    - intros p q [<- Dp]. destruct (given p Dp) as (m & H & _). eauto.
    - intros p q m [<- Dp] _ Hm. destruct (given p Dp) as (m' & H & X). congruence. }
  split; [left; reflexivity|]. split; [apply e_anew|]. split; [intros p X; discriminate|]. intros p q [_ X]. exact X.
Qed.
Lemma fits_begin : fits (w_heap w) (fun _ => False) D.
Proof. split; [contradiction|]. intros p Dp. destruct (given p Dp) as (m & H & _). apply nth_error_Some. congruence. Qed.

Lemma alone_value : e = match MultiplyCrossoverPoint E (fun _ => seven) a b x w with
  | (w', Ok q) => match nth_error (w_heap w') q with Some m => Ok m | None => Panic end
  | (_, Panic) => Panic
  | (_, Diverge) => Diverge
  end.
Proof. unfold e, value. rewrite (tree_eqv E x (e_fuel E) [] a b w). reflexivity. Qed.

(** the run of one goroutine after the other returns an object *)
Lemma alone_object w' q : MultiplyCrossoverPoint E (fun _ => seven) a b x w = (w', Ok q) -> exists m, nth_error (w_heap w') q = Some m.
Proof.
  intro H. assert (X : interp (tree E x (e_fuel E) a b) w = (w', Ok q)) by (rewrite (tree_eqv E x (e_fuel E) [] a b w); exact H).
  destruct (calm_run (fun D p => D p) (tree E x (e_fuel E) a b) (fun _ => False) w (tree_calm _ _ _ _ _ _ K)) as (D1 & _ & B2 & B3); [contradiction|].
  rewrite X in B2, B3. cbn [fst snd] in *. destruct (B2 _ (B3 _ eq_refl)) as (m & Hm & _). eauto.
Qed.

Lemma runs h t : tsteps E x (w_heap w, begin E x a b) (h, t) ->
  good true h t (new_in (w_heap w) h (fun _ => False)) (new_in (w_heap w) h D) e /\ fits h (new_in (w_heap w) h (fun _ => False)) (new_in (w_heap w) h D) /\
  (forall p, (p < length (w_heap w))%nat -> nth_error h p = nth_error (w_heap w) p).
Proof.
  intro S. destruct (good_steps E x K _ _ S _ _ _ _ good_begin fits_begin) as (A1 & A2 & A3 & A4). cbn [fst snd] in *. split; [exact A1|]. split; [exact A2|].
  intros p Hp. apply A4; [exact Hp|]. intros [].
Qed.
End Begin.
End Call.

(** ** The results *)

(** A call on objects of a reachable world, with a context that is never done or done from the start: what
    it returns is what it returns when its goroutines run one after the other, and is a new object. *)
Lemma strassen_as_alone E x (w : world) a b (A B : mat) h t p : sane N -> reachable w -> obj w a A -> obj w b B -> e_ctx E = None \/ e_ctx E = Some 0%nat ->
  tsteps E x (w_heap w, begin E x a b) (h, t) -> finished t = Some p ->
  exists w' q m, MultiplyCrossoverPoint E (fun _ => seven) a b x w = (w', Ok q) /\ obj w' q m /\ nth_error h p = Some m /\ (forall y, ~ obj w p y).
Proof.
  intros Hs Hr Ha Hb K S Fi. destruct (runs E x K Hs w Hr a b A B Ha Hb h t S) as (G & F & _). destruct (good_end E x _ _ _ _ _ _ _ G Fi) as (m & Ee & Hm & [[]|Op]).
  rewrite alone_value in Ee. destruct (MultiplyCrossoverPoint E (fun _ => seven) a b x w) as [w' [q| |]] eqn:Em; try discriminate.
  destruct (nth_error (w_heap w') q) as [m'|] eqn:Eq; [|discriminate]. injection Ee as ->. exists w', q, m. repeat (split; [assumption||reflexivity|]).
  intros y Hy. apply obj_lt in Hy. lia.
Qed.

(** No goroutine panics if none does when they run one after the other; there is always one that can go on
    until the call has returned. *)
Lemma strassen_goes_on E x (w : world) a b (A B : mat) h t w' q : sane N -> reachable w -> obj w a A -> obj w b B -> e_ctx E = None \/ e_ctx E = Some 0%nat ->
  tsteps E x (w_heap w, begin E x a b) (h, t) -> MultiplyCrossoverPoint E (fun _ => seven) a b x w = (w', Ok q) ->
  ~ broken t /\ ((exists p, finished t = Some p) \/ (exists c, tstep E x (h, t) c)).
Proof.
  intros Hs Hr Ha Hb K S Al. destruct (runs E x K Hs w Hr a b A B Ha Hb h t S) as (G & F & _).
  destruct (alone_object E x K w a b w' q Al) as [m Hm]. rewrite alone_value, Al, Hm in G.
  assert (Nb : ~ broken t) by (intro Bt; exact (not_broken E x K _ _ _ _ _ _ G Bt)). split; [exact Nb|].
  destruct (progress E x _ _ _ _ _ _ G) as [P|[P|P]]; [left; exact P|right; exact P|contradiction].
Qed.

(** If it panics when they run one after the other, or does not end, then the call never returns: every
    execution comes to a goroutine that panics or does not end. *)
Lemma strassen_fails E x (w : world) a b (A B : mat) h t w' : sane N -> reachable w -> obj w a A -> obj w b B -> e_ctx E = None \/ e_ctx E = Some 0%nat ->
  tsteps E x (w_heap w, begin E x a b) (h, t) -> MultiplyCrossoverPoint E (fun _ => seven) a b x w = (w', Panic) \/ MultiplyCrossoverPoint E (fun _ => seven) a b x w = (w', Diverge) ->
  finished t = None /\ (broken t \/ exists c, tstep E x (h, t) c).
Proof.
  intros Hs Hr Ha Hb K S Al. destruct (runs E x K Hs w Hr a b A B Ha Hb h t S) as (G & F & _).
  assert (Nf : forall p, finished t <> Some p).
  { intros p Fi. destruct (good_end E x _ _ _ _ _ _ _ G Fi) as (m & Ee & _). rewrite alone_value in Ee. destruct Al as [Al|Al]; rewrite Al in Ee; discriminate. }
  split; [destruct (finished t) as [p|]; [destruct (Nf p eq_refl)|reflexivity]|].
  destruct (progress E x _ _ _ _ _ _ G) as [[p P]|[P|P]]; [destruct (Nf p P)|right; exact P|left; exact P].
Qed.

(** nothing races, and the objects that were there stay as they are *)
Lemma strassen_no_race E x (w : world) a b (A B : mat) h t : sane N -> reachable w -> obj w a A -> obj w b B -> e_ctx E = None \/ e_ctx E = Some 0%nat ->
  tsteps E x (w_heap w, begin E x a b) (h, t) -> ~ clash t /\ (forall p m, obj w p m -> nth_error h p = Some m).
Proof.
  intros Hs Hr Ha Hb K S. destruct (runs E x K Hs w Hr a b A B Ha Hb h t S) as (G & F & Fr). split; [exact (no_clash E x _ _ _ _ _ _ G F)|].
  intros p m Hp. rewrite Fr; [exact Hp|]. apply obj_lt in Hp. exact Hp.
Qed.
End FineStrassenThms.

(** the product, however the goroutines of the call and of its sub-products take turns *)
Lemma strassen_any_order N E (w : world N) crossover (a b : ptr) A B m k f g h t : let n := m * 2 ^ Z.of_nat k in
  ring_ok N -> sane N -> e_ctx E = None -> dense_unregistered N E ->
  0 <= m <= crossover -> n * n < 2 ^ 63 -> n * n <= Z.of_nat (e_fuel E) ->
  reachable w -> obj w a A -> obj w b B -> denotes A n n f -> denotes B n n g -> (is_dense A /\ is_dense B \/ crossover < n) ->
  tsteps E crossover (w_heap w, begin E crossover a b) (h, t) ->
  ~ broken t /\ ~ clash t /\ ((exists p, finished t = Some p) \/ (exists c, tstep E crossover (h, t) c)) /\
  forall p, finished t = Some p -> exists O, nth_error h p = Some O /\ is_dense O /\ denotes O n n (fun i j => sum_from n0 (fun l => nmul (f i l) (g l j)) 0 n).
Proof.
  intros n HR Hs Hc Hreg Hm HB HF Hr Oa Ob Da Db Hcase S.
  destruct (strassen_ring N E w (fun _ => seven) crossover a b A B m k f g HR Hs) as (w' & q & O & A1 & _ & _ & A2 & A3 & A4); auto.
  { intro path. apply Permutation_refl. }
  destruct (strassen_goes_on E crossover w a b A B h t w' q Hs Hr Oa Ob (or_introl Hc) S A1) as [B1 B2].
  split; [exact B1|]. split; [exact (proj1 (strassen_no_race E crossover w a b A B h t Hs Hr Oa Ob (or_introl Hc) S))|]. split; [exact B2|].
  intros p Fi. destruct (strassen_as_alone E crossover w a b A B h t p Hs Hr Oa Ob (or_introl Hc) S Fi) as (w2 & q2 & O2 & C1 & C2 & C3 & _).
  assert (X : (w2, Ok q2) = (w', Ok q)) by congruence. injection X as -> ->. assert (O2 = O) by (unfold obj in *; congruence). subst. exists O. auto.
Qed.
