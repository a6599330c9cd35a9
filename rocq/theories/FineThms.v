(** Goroutines that work on separate outputs do what they would do alone. *)
From Coq Require Import String.
From Verif Require Import GoBase Num SparseVec Csr Csc DenseVec DenseMat Mat World Ops MathOps Bfs Spec Api BaseProofs MatProofs HeapProofs ReachProofs StoreThms.
From Verif Require Import AccessThms Fine FineProofs FineRel FineConc.

(** a goroutine that knows the objects [K] by their names and may change those in [W] *)
Definition start_view (K : ptr -> Prop) (W : ptr -> bool) : view.
Proof.
  refine {| nm := fun p q => p = q /\ K p; ow := W |}.
  - intros p q q' [-> _] [-> _]. reflexivity.
  - intros p p' q [-> _] [-> _]. reflexivity.
Defined.

Section FineThms.
Context {N : num}.
Notation V := (T N).
Notation mat := (mat N).
Notation prog := (prog N).
Notation world := (world N).
Notation gor := (gor (N := N)).

Section Pool.
Context {A : Type} (R : view -> A -> A -> Prop) (w0 : world) (xs : list (prog A)) (K : nat -> ptr -> Prop) (W : nat -> ptr -> bool).
(** every goroutine touches only what it knows, and changes only what it may change *)
Context (Hstay : forall i x, nth_error xs i = Some x -> rel R (start_view (K i) (W i)) x x).
(** nobody knows what another one may change *)
Context (Hsep : forall i j p, i <> j -> W i p = true -> ~ K j p).
Context (Hknow : forall i p, W i p = true -> K i p).
(** what they know is there, and looking at what they may not change does not change it *)
Context (Hobj : forall i p, K i p -> exists m, nth_error (w_heap w0) p = Some m /\ (W i p = false -> steady m)).
Notation n0 := (length (w_heap w0)).

Record pool (h : list mat) (gs : list (gor A)) (ss : nat -> view) (ys : nat -> prog A) (ws : nat -> world) : Prop := MkPool {
  po_len : length gs = length xs;
  po_track : forall i x g, nth_error xs i = Some x -> nth_error gs i = Some g -> tracks R x w0 h g (ss i) (ys i) (ws i);
  po_le : forall i, le (start_view (K i) (W i)) (ss i);
  po_new : forall i p q, nm (ss i) p q -> (K i p /\ p = q) \/ ((n0 <= p)%nat /\ ow (ss i) p = true);
  po_own : forall i p, ow (ss i) p = true -> W i p = true \/ (n0 <= p)%nat;
  po_lt : forall i p q, nm (ss i) p q -> (p < length h)%nat;
  po_olt : forall i p, ow (ss i) p = true -> (p < length h)%nat;
  po_sep : forall i j p q, i <> j -> ow (ss i) p = true -> nm (ss j) p q -> False;
  po_grow : (n0 <= length h)%nat;
  po_rest : forall p, (p < n0)%nat -> (forall i, W i p = false) -> nth_error h p = nth_error (w_heap w0) p;
}.

Lemma pool_start : pool (w_heap w0) (start (w_polls w0) xs) (fun i => start_view (K i) (W i)) (fun i => nth i xs Stop) (fun _ => w0).
Proof.
  constructor.
  - apply map_length.
  - intros i x g Hx Hg. unfold start in Hg. rewrite nth_error_map, Hx in Hg. injection Hg as <-.
    rewrite (nth_error_nth _ _ _ Hx). constructor; cbn [g_prog g_back g_polls flush start_view nm ow]; auto; try discriminate.
    + intros p q [<- H]. destruct (Hobj _ _ H) as (m & H1 & _). eauto.
    + intros p H. exists p. auto.
    + intros p q m [<- H] Ho Hm. destruct (Hobj _ _ H) as (m' & H1 & H2). rewrite H1 in Hm. injection Hm as <-. auto.
  - intros i. apply le_refl.
  - intros i p q [<- H]. auto.
  - intros i p H. auto.
  - intros i p q [<- H]. destruct (Hobj _ _ H) as (m & H1 & _). apply nth_error_Some. rewrite H1. discriminate.
  - intros i p H. destruct (Hobj _ _ (Hknow _ _ H)) as (m & H1 & _). apply nth_error_Some. rewrite H1. discriminate.
  - intros i j p q D Ho [<- H]. exact (Hsep i j p D Ho H).
  - lia.
  - reflexivity.
Qed.

Lemma pool_move h gs ss ys ws h' gs' : pool h gs ss ys ws -> move (h, gs) (h', gs') -> exists ss' ys' ws', pool h' gs' ss' ys' ws'.
Proof.
  intros P Mv. inversion Mv as [h1 gs1 i g h2 g' Hg Hst E1 E2]. subst. destruct P as [P1 P2 P3 P4 P5 P6 P6o P7 P8 P9].
  assert (Hi : (i < length xs)%nat) by (rewrite <- P1; apply nth_error_Some; rewrite Hg; discriminate).
  destruct (nth_error xs i) as [x|] eqn:Hx; [|apply nth_error_None in Hx; lia].
  destruct (gstep_tracks _ _ _ _ _ _ _ _ _ _ (P2 i x g Hx Hg) Hst) as (s' & y' & w' & Hle & T' & L & Fr & Nn & No).
  set (upd := fun {B} (f : nat -> B) (b : B) (j : nat) => if Nat.eqb j i then b else f j).
  exists (upd _ ss s'), (upd _ ys y'), (upd _ ws w').
  assert (Hlt' : forall j p q, nm (upd _ ss s' j) p q -> (p < length h')%nat).
  { intros j p q. unfold upd. destruct (Nat.eqb j i); intro H; [destruct (Nn _ _ H) as [H'|H']; [apply P6 in H'; lia|lia]|apply P6 in H; lia]. }
  constructor.
  - rewrite length_list_set. exact P1.
  - intros j xj gj Hxj Hgj. unfold upd. destruct (Nat.eqb_spec j i) as [->|D].
    + rewrite Hx in Hxj. injection Hxj as <-. rewrite nth_error_list_set_eq in Hgj by (rewrite P1; exact Hi). injection Hgj as <-. exact T'.
    + rewrite nth_error_list_set_neq in Hgj by auto. apply (tracks_frame _ _ _ h); [exact (P2 _ _ _ Hxj Hgj)|].
      intros p q H. apply Fr; [exact (P6 _ _ _ H)|]. destruct (ow (ss i) p) eqn:O; [|reflexivity]. exfalso. apply (P7 i j p q); auto.
  - intros j. unfold upd. destruct (Nat.eqb_spec j i) as [->|D]; [exact (le_trans _ _ _ (P3 i) Hle)|apply P3].
  - intros j p q. unfold upd. destruct (Nat.eqb_spec j i) as [->|D]; [|apply P4]. intro H. destruct (Nn _ _ H) as [H'|H']; [destruct (P4 _ _ _ H') as [X|[X Y]]; [left; exact X|right; split; [exact X|exact (le_ow _ _ Hle _ Y)]]|right; split; [lia|apply H']].
  - intros j p. unfold upd. destruct (Nat.eqb_spec j i) as [->|D]; [|apply P5]. intro H. destruct (No _ H) as [H'|H']; [exact (P5 _ _ H')|right; lia].
  - exact Hlt'.
  - intros j p. unfold upd. destruct (Nat.eqb_spec j i) as [->|D]; [|intro H; apply P6o in H; lia]. intro H. destruct (No _ H) as [H'|H']; [apply P6o in H'; lia|lia].
  - intros j k p q D. unfold upd. destruct (Nat.eqb_spec j i) as [->|D1]; destruct (Nat.eqb_spec k i) as [->|D2]; try congruence.
    + intros Ho Hq. destruct (No _ Ho) as [Ho'|Ho']; [exact (P7 _ _ _ _ D Ho' Hq)|apply P6 in Hq; lia].
    + intros Ho Hq. destruct (Nn _ _ Hq) as [Hq'|Hq']; [exact (P7 _ _ _ _ D Ho Hq')|].
      apply P6o in Ho. lia.
    + apply P7. exact D.
  - lia.
  - intros p Hp Hw. rewrite <- (P9 p Hp Hw). apply Fr; [lia|]. destruct (ow (ss i) p) eqn:O; [|reflexivity]. destruct (P5 _ _ O) as [O'|O']; [rewrite Hw in O'; discriminate|lia].
Qed.

Lemma pool_moves x y : moves x y -> x = (w_heap w0, start (w_polls w0) xs) -> exists ss ys ws, pool (fst y) (snd y) ss ys ws.
Proof.
  induction 1 as [x|x y z _ IH Mv]; intro E.
  - subst. do 3 eexists. apply pool_start.
  - destruct (IH E) as (ss & ys & ws & P). destruct y as [h gs], z as [h' gs']. exact (pool_move _ _ _ _ _ _ _ P Mv).
Qed.

(** every goroutine that has ended ended as it does alone, and the objects it knows look as they do
    when it has run alone *)
Lemma as_alone h gs : moves (w_heap w0, start (w_polls w0) xs) (h, gs) ->
  (forall i x g o, nth_error xs i = Some x -> nth_error gs i = Some g -> outcome g = Some o ->
     exists s w o', interp x w0 = (w, o') /\ le (start_view (K i) (W i)) s /\
       match o, o' with Ok a, Ok b => R s a b | Panic, Panic => True | Diverge, Diverge => True | _, _ => False end /\
       (forall p q, nm s p q -> exists m, nth_error h p = Some m /\ nth_error (w_heap w) q = Some m)) /\
  (forall p, (p < n0)%nat -> (forall i, W i p = false) -> nth_error h p = nth_error (w_heap w0) p) /\ length gs = length xs.
Proof.
  intros Mv. destruct (pool_moves _ _ Mv eq_refl) as (ss & ys & ws & P). cbn [fst snd] in P. split; [|split; [exact (po_rest _ _ _ _ _ P)|exact (po_len _ _ _ _ _ P)]].
  intros i x g o Hx Hg Ho. pose proof (po_track _ _ _ _ _ P i x g Hx Hg) as T. destruct T as [T1 T2 T3 T4 T5 T6 T7].
  unfold outcome in Ho. destruct g as [pr [b|] pl]; cbn [g_prog g_back g_polls flush] in *; [discriminate|].
  exists (ss i), (fst (interp x w0)), (snd (interp x w0)). split; [apply surjective_pairing|]. split; [apply (po_le _ _ _ _ _ P)|].
  destruct pr; try discriminate; injection Ho as <-; destruct (ys i); cbn [rel] in T1; try contradiction; rewrite <- T2; cbn [interp fst snd]; auto.
Qed.

(** no data race, when nobody looks at a shared sparse object through [At] or [Element] *)
Lemma touch_ow h gs ss ys ws i x g p : pool h gs ss ys ws -> nth_error xs i = Some x -> nth_error gs i = Some g -> next_touch g = Some (p, true) ->
  (exists q, nm (ss i) p q) /\ (ow (ss i) p = true \/ exists m, g_back g = Some (p, m) /\ nth_error h p = Some m).
Proof.
  intros P Hx Hg Ht. destruct (po_track _ _ _ _ _ P i x g Hx Hg) as [T1 T2 T3 T4 T5 T6 T7].
  unfold next_touch in Ht. destruct (g_back g) as [[b mb]|] eqn:Eb.
  - injection Ht as <-. destruct (T5 b mb eq_refl) as [Q [O|O]]; split; eauto.
  - destruct (g_prog g); try discriminate; injection Ht as <-. destruct (ys i); cbn [rel] in T1; try contradiction.
    destruct T1 as (O & Hn & _). split; eauto.
Qed.
Lemma touch_nm h gs ss ys ws i x g p b : pool h gs ss ys ws -> nth_error xs i = Some x -> nth_error gs i = Some g -> next_touch g = Some (p, b) -> exists q, nm (ss i) p q.
Proof.
  intros P Hx Hg Ht. destruct b; [apply (touch_ow _ _ _ _ _ _ _ _ _ P Hx Hg Ht)|].
  destruct (po_track _ _ _ _ _ P i x g Hx Hg) as [T1 T2 T3 T4 T5 T6 T7].
  unfold next_touch in Ht. destruct (g_back g) as [[b mb]|] eqn:Eb; [discriminate|].
  destruct (g_prog g); try discriminate; injection Ht as <-; destruct (ys i); cbn [rel] in T1; try contradiction; destruct T1 as (T1 & _); eauto.
Qed.
End Pool.

(** ** Executions end *)

(** the goroutine [g'] is what a step of [g] leads to *)
Definition after_step {A} (g' g : gor A) : Prop := exists h h', gstep h g = Some (h', g').
Lemma after_step_acc {A} (g : gor A) : Acc after_step g.
Proof.
  destruct g as [pr bk pl].
  assert (H : forall pr pl, Acc after_step (MkGor (A := A) (N := N) pr None pl)).
  { clear. assert (B : forall pr : prog A, (forall pl, Acc after_step (MkGor pr None pl)) -> forall b pl, Acc after_step (MkGor pr (Some b) pl)).
    { intros pr H [p m] pl. constructor. intros g' (h & h' & E). unfold gstep in E. cbn [g_back g_prog g_polls] in E. injection E as _ <-. apply H. }
    assert (Ends : forall pl, Acc after_step (MkGor (A := A) (N := N) Stop None pl)) by (intros; constructor; intros g' (h & h' & E); discriminate).
    assert (Ends' : forall pl, Acc after_step (MkGor (A := A) (N := N) Hang None pl)) by (intros; constructor; intros g' (h & h' & E); discriminate).
    induction pr as [a| | |E k IH|p k IH|p m q IH|p r c k IH|p r c k IH|m k IH]; intros pl; auto; constructor; intros g' (h & h' & S); unfold gstep in S; cbn [g_back g_prog g_polls] in S; try discriminate.
    - destruct (e_ctx E); injection S as _ <-; apply IH.
    - destruct (nth_error h p); injection S as _ <-; auto.
    - injection S as _ <-. apply IH.
    - destruct (nth_error h p) as [m|]; [destruct (mat_At m r c) as [[v m']| |]|]; injection S as _ <-; auto. destruct (At_writes m); auto.
    - destruct (nth_error h p) as [m|]; [destruct (mat_Element m r c) as [[v m']| |]|]; injection S as _ <-; auto. destruct (Element_writes m); auto.
    - injection S as _ <-. apply IH. }
  destruct bk as [[p m]|]; [|apply H]. constructor. intros g' (h & h' & E). unfold gstep in E. cbn [g_back g_prog g_polls] in E. injection E as _ <-. apply H.
Qed.

Lemma moves_finite {A} (f : nat -> list mat * list (FineConc.gor (N := N) A)) : ~ (forall n, move (f n) (f (Datatypes.S n))).
Proof.
  intros H. assert (Q : forall l, Acc (one_steps after_step) l -> forall n, l = snd (f n) -> False).
  { induction 1 as [l _ IH]. intros n ->. specialize (H n). inversion H as [h gs i g h' g' Hg Hs E1 E2].
    apply (IH (snd (f (Datatypes.S n)))) with (n := Datatypes.S n); [|reflexivity]. rewrite <- E1, <- E2. cbn [snd].
    apply (one_steps_set _ _ _ g); [exact Hg|]. exists h, h'. exact Hs. }
  apply (Q _ (one_steps_acc after_step after_step_acc (snd (f 0%nat))) 0%nat eq_refl).
Qed.

Lemma goes_on {A} h (gs : list (FineConc.gor (N := N) A)) : (exists y, move (h, gs) y) \/ (forall i g, nth_error gs i = Some g -> outcome g <> None).
Proof.
  assert (D : forall g : gor A, (exists y, gstep h g = Some y) \/ outcome g <> None).
  { intros [pr [[p m]|] pl]; unfold gstep, outcome; cbn [g_back g_prog g_polls]; [left; eexists; reflexivity|].
    destruct pr as [a| | |E k|p k|p m q|p r c k|p r c k|m k]; try (right; discriminate); left.
    - destruct (e_ctx E); eexists; reflexivity.
    - destruct (nth_error h p); eexists; reflexivity.
    - eexists; reflexivity.
    - destruct (nth_error h p) as [m|]; [destruct (mat_At m r c) as [[v m']| |]|]; eexists; reflexivity.
    - destruct (nth_error h p) as [m|]; [destruct (mat_Element m r c) as [[v m']| |]|]; eexists; reflexivity.
    - eexists; reflexivity. }
  assert (Q : forall l : list (gor A), (exists i g, nth_error l i = Some g /\ exists y, gstep h g = Some y) \/ (forall i g, nth_error l i = Some g -> outcome g <> None)).
  { induction l as [|g l IH]; [right; intros [|i] g; discriminate|].
    destruct (D g) as [Y|Y]; [left; exists 0%nat, g; split; [reflexivity|exact Y]|].
    destruct IH as [(i & g' & H1 & H2)|H]; [left; exists (Datatypes.S i), g'; split; assumption|right].
    intros [|i] g' Hg; cbn in Hg; [injection Hg as <-; exact Y|exact (H i g' Hg)]. }
  destruct (Q gs) as [(i & g & Hg & [h' g'] & Hs)|H]; [left|right; exact H]. eexists. econstructor; eassumption.
Qed.

(** ** Calls of the library *)

(** the existing objects a call is given *)
Definition mask_uses (k : mask) : list ptr := match k with MObj p => [p] | _ => [] end.
Definition opt_uses (o : option ptr) : list ptr := match o with Some p => [p] | None => [] end.
Definition uses (k : call N) : list ptr :=
  match k with
  | KNewCSR _ _ | KNewCSC _ _ | KNewDense _ _ | KNewDV _ | KNewSV _
  | KCSRFrom _ | KCSCFrom _ | KDenseFrom _ | KDVFrom _ | KSVFrom _ => []
  | KSet p _ _ _ | KUpdate p _ _ _ | KSetVec p _ _ | KAt p _ _ | KElement p _ _ | KClear p | KCopy p | KReSize p _
  | KRowsAt p _ | KColumnsAt p _ | KMap _ p _ => [p]
  | KMultiply _ s m k t | KVecMatMul _ s m k t | KAdd _ s m k t | KSubtract _ s m k t
  | KEWMatMul _ s m k t | KEWVecMul _ s m k t | KEWMatAdd _ s m k t | KEWVecAdd _ s m k t => s :: m :: t :: mask_uses k
  | KApply _ s k _ t | KNegative _ s k t | KTranspose _ s k t => s :: t :: mask_uses k
  | KTransposeToCSR _ s | KTransposeToCSC _ s | KScalar _ s _ | KMNegative _ s | KMTranspose _ s => [s]
  | KEqual _ s m | KNotEqual _ s m => opt_uses s ++ opt_uses m
  | KReduce _ s _ k | KReduceVec _ s _ k => s :: mask_uses k
  | KMMultiply _ s m | KMAdd _ s m | KMSubtract _ s m => [s; m]
  end.

Lemma drop_rel {A} (R : view -> A -> A -> Prop) s (x y : prog A) : rel R s x y -> rel Req s (drop x) (drop y).
Proof. intro H. unfold drop. eapply rel_bind; [exact H|]. intros. apply ret_rel. Qed.
Lemma new_rel s (x : res mat) : rel Req s (new x) (new x).
Proof.
  unfold new. eapply rel_bind; [apply lift_rel|]. intros s1 a b L E. unfold Req in E. subst.
  eapply rel_bind; [apply alloc_rel|]. intros. apply ret_rel.
Qed.

Lemma mask_uses_rel s k : (forall p, List.In p (mask_uses k) -> nm s p p) -> Rmask s k k.
Proof. destruct k; cbn; auto. Qed.
Lemma opt_uses_rel s k : (forall p, List.In p (opt_uses k) -> nm s p p) -> Ropt s k k.
Proof. destruct k; cbn; auto. Qed.

Ltac head_of t := lazymatch t with ?f _ => head_of f | _ => t end.
(** the lemma for the function at hand *)
Ltac rel_lemma :=
  lazymatch goal with |- rel _ _ ?x _ =>
  let h := head_of x in
  lazymatch h with
  | @p_Set => apply p_Set_rel | @p_Update => apply p_Update_rel | @p_SetVec => apply p_SetVec_rel | @p_At => apply At_rel | @mask_Element => apply Element_rel
  | @p_Clear => apply p_Clear_rel | @p_Copy => apply p_Copy_rel | @p_ReSize => apply p_ReSize_rel | @p_RowsAt => apply p_RowsAt_rel | @p_ColumnsAt => apply p_ColumnsAt_rel
  | @user_Map => apply user_Map_rel | @MatrixMatrixMultiply => apply MatrixMatrixMultiply_rel | @VectorMatrixMultiply => apply VectorMatrixMultiply_rel
  | @Add => apply Add_rel | @Subtract => apply Subtract_rel | @ElementWiseMatrixMultiply => apply ElementWiseMatrixMultiply_rel
  | @ElementWiseVectorMultiply => apply ElementWiseVectorMultiply_rel | @ElementWiseMatrixAdd => apply ElementWiseMatrixAdd_rel
  | @ElementWiseVectorAdd => apply ElementWiseVectorAdd_rel | @Apply => apply Apply_rel | @Negative => apply Negative_rel | @Transpose => apply Transpose_rel
  | @TransposeToCSR => apply TransposeToCSR_rel | @TransposeToCSC => apply TransposeToCSC_rel | @Equal => apply Equal_rel | @NotEqual => apply NotEqual_rel
  | @Scalar => apply Scalar_rel | @ReduceMatrixToScalarWithMonoID => apply ReduceMatrixToScalarWithMonoID_rel
  | @ReduceMatrixToVectorWithMonoID => apply ReduceMatrixToVectorWithMonoID_rel | @m_Multiply => apply m_Multiply_rel | @m_Add => apply m_Add_rel
  | @m_Subtract => apply m_Subtract_rel | @m_Negative => apply m_Negative_rel | @m_Transpose => apply m_Transpose_rel | @Reduced => apply Reduced_rel
  end end.

Lemma perform_rel s k : (forall p, List.In p (uses k) -> nm s p p) -> (forall p, List.In p (writes k) -> ow s p = true) -> rel Req s (perform k) (perform k).
Proof.
  intros U W. destruct k; cbn [uses writes] in U, W; cbn [perform];
    try (assert (MR : Rmask s k k) by (apply mask_uses_rel; intros p Hp; apply U; cbn; auto));
    lazymatch goal with |- rel _ _ (new _) _ => apply new_rel | |- rel _ _ (drop _) _ => eapply drop_rel | _ => idtac end;
    try rel_lemma;
    try exact MR; try (apply U; cbn; tauto); try (apply W; cbn; tauto); try (apply opt_uses_rel; intros p Hp; apply U, List.in_or_app; auto).
Qed.

Lemma performs_rel s ks : (forall k p, List.In k ks -> List.In p (uses k) -> nm s p p) -> (forall k p, List.In k ks -> List.In p (writes k) -> ow s p = true) ->
  rel Req s (performs ks) (performs ks).
Proof.
  revert s. induction ks as [|k ks IH]; intros s U W; cbn [performs]; [apply ret_rel|].
  eapply rel_bind; [apply perform_rel; intros; [eapply U|eapply W]; cbn; eauto|]. intros s' a b L _. apply IH.
  - intros k' p H1 H2. apply (le_nm _ _ L). apply (U k'); cbn; auto.
  - intros k' p H1 H2. apply (le_ow _ _ L). apply (W k'); cbn; auto.
Qed.

(** the calls [ks], one after the other, with nobody else around *)
Fixpoint calls (ks : list (call N)) : World.M N unit :=
  match ks with
  | [] => World.mret tt
  | k :: rest => World.mbind (Api.perform k) (fun _ => calls rest)
  end.
Lemma performs_eqv ks : eqv (performs ks) (calls ks).
Proof. induction ks as [|k ks IH]; cbn [performs calls]; [apply eqv_ret|]. apply eqv_bind; [apply perform_eqv|]. intros []. exact IH. Qed.

(** what one goroutine modifies, no other goroutine is given *)
Definition separate (progs : list (list (call N))) : Prop :=
  forall i j ks ks', i <> j -> nth_error progs i = Some ks -> nth_error progs j = Some ks' ->
  forall p, List.In p (flat_map writes ks) -> ~ List.In p (flat_map uses ks').

Lemma writes_uses k p : List.In p (writes (N := N) k) -> List.In p (uses k).
Proof. destruct k; cbn; tauto. Qed.

Lemma wf_steady (m : mat) : zero_ok N -> wf m -> steady m.
Proof. intros Hz Hw. split; intros; [eapply At_same; eauto|eapply Element_same; eauto]. Qed.

Section Calls.
Context (Hs : sane N) (w : world) (Hr : reachable w) (progs : list (list (call N))).
Context (Hobj : forall ks p, List.In ks progs -> List.In p (flat_map uses ks) -> exists m, obj w p m).
Context (Hsep : separate progs).
Let K i p := match nth_error progs i with Some ks => List.In p (flat_map uses ks) | None => False end.
Let W i p := match nth_error progs i with Some ks => existsb (Nat.eqb p) (flat_map writes ks) | None => false end.

Lemma W_in i ks p : nth_error progs i = Some ks -> (W i p = true <-> List.In p (flat_map writes ks)).
Proof.
  intro H. unfold W. rewrite H. rewrite existsb_exists. split.
  - intros (q & H1 & H2). apply Nat.eqb_eq in H2. subst. exact H1.
  - intro H1. exists p. rewrite Nat.eqb_refl. auto.
Qed.
Lemma in_writes_uses ks p : List.In p (flat_map writes ks) -> List.In p (flat_map uses ks).
Proof. rewrite !in_flat_map. intros (k & H1 & H2). exists k. split; [exact H1|apply writes_uses; exact H2]. Qed.

Lemma c_stay i x : nth_error (map performs progs) i = Some x -> rel Req (start_view (K i) (W i)) x x.
Proof.
  intro H. rewrite nth_error_map in H. destruct (nth_error progs i) as [ks|] eqn:E; [|discriminate]. injection H as <-.
  apply performs_rel; intros k p H1 H2; cbn [start_view nm ow].
  - split; [reflexivity|]. unfold K. rewrite E. apply in_flat_map. eauto.
  - apply (W_in i ks p E). apply in_flat_map. eauto.
Qed.
Lemma c_sep i j p : i <> j -> W i p = true -> ~ K j p.
Proof.
  intros D H1 H2. unfold K in H2. destruct (nth_error progs j) as [ks'|] eqn:Ej; [|exact H2]. destruct (nth_error progs i) as [ks|] eqn:Ei; [|unfold W in H1; rewrite Ei in H1; discriminate].
  apply (Hsep i j ks ks' D Ei Ej p); [apply (W_in i ks p Ei); exact H1|exact H2].
Qed.
Lemma c_know i p : W i p = true -> K i p.
Proof.
  intro H. unfold K. destruct (nth_error progs i) as [ks|] eqn:Ei; [|unfold W in H; rewrite Ei in H; discriminate].
  apply in_writes_uses, (W_in i ks p Ei). exact H.
Qed.
Lemma c_obj i p : K i p -> exists m, nth_error (w_heap w) p = Some m /\ (W i p = false -> steady m).
Proof.
  unfold K. destruct (nth_error progs i) as [ks|] eqn:Ei; [|contradiction]. intro H.
  destruct (Hobj ks p (nth_error_In _ _ Ei) H) as [m Hm]. exists m. split; [exact Hm|]. intros _. apply wf_steady; [apply Hs|exact (reach_good w p m Hs Hr Hm)].
Qed.

Lemma concurrent_calls h gs : moves (w_heap w, start (w_polls w) (map performs progs)) (h, gs) ->
  (forall i ks g o, nth_error progs i = Some ks -> nth_error gs i = Some g -> outcome g = Some o ->
     exists w', calls ks w = (w', o) /\ forall p, List.In p (flat_map uses ks) -> nth_error h p = nth_error (w_heap w') p) /\
  (forall p m, obj w p m -> (forall ks, List.In ks progs -> ~ List.In p (flat_map writes ks)) -> nth_error h p = Some m).
Proof.
  intros Mv. destruct (as_alone Req w (map performs progs) K W c_stay c_sep c_know c_obj h gs Mv) as (A1 & A2 & _). split.
  - intros i ks g o Hi Hg Ho. destruct (A1 i (performs ks) g o) as (s & w' & o' & B1 & B2 & B3 & B4); [rewrite nth_error_map, Hi; reflexivity|exact Hg|exact Ho|].
    exists w'. rewrite <- performs_eqv, B1. split.
    + f_equal. destruct o as [[]| |], o' as [[]| |]; try contradiction; reflexivity.
    + intros p Hp. destruct (B4 p p) as (m & C1 & C2); [apply (le_nm _ _ B2); cbn [start_view nm]; split; [reflexivity|unfold K; rewrite Hi; exact Hp]|congruence].
  - intros p m Hm Hn. rewrite A2; [exact Hm|apply obj_lt in Hm; exact Hm|]. intro i. destruct (W i p) eqn:E; [|reflexivity]. exfalso.
    destruct (nth_error progs i) as [ks|] eqn:Ei; [|unfold W in E; rewrite Ei in E; discriminate].
    apply (Hn ks (nth_error_In _ _ Ei)). apply (W_in i ks p Ei). exact E.
Qed.

(** with dense operands there is no data race *)
Lemma calls_no_race h gs : (forall ks p m, List.In ks progs -> List.In p (flat_map uses ks) -> obj w p m -> ~ List.In p (flat_map writes ks) -> sparse_obj m = false) ->
  moves (w_heap w, start (w_polls w) (map performs progs)) (h, gs) -> ~ racing gs.
Proof.
  intros Hd Mv (i & j & g & g' & p & b & b' & D & Hg & Hg' & Ht & Ht' & Hb).
  assert (Hbk : forall x y, moves x y -> (forall g p m, List.In g (snd x) -> g_back g = Some (p, m) -> sparse_obj m = true) ->
    forall g p m, List.In g (snd y) -> g_back (N := N) (A := unit) g = Some (p, m) -> sparse_obj m = true).
  { clear. intros x y M. induction M as [x|x y z _ IH Mv]; intros H0 g p m Hg Hb; [eauto|]. specialize (IH H0).
    inversion Mv as [h gs i g1 h' g' Hi Hst E1 E2]. subst. cbn [snd] in *.
    apply In_nth_error in Hg. destruct Hg as [j Hj]. destruct (Nat.eq_dec i j) as [->|D].
    - rewrite nth_error_list_set, Nat.eqb_refl in Hj. destruct (nth_error gs j) as [g2|] eqn:E; [|discriminate]. injection Hj as <-. injection Hi as ->.
      apply (back_sparse h g1 h' g'  (fun p m => IH g1 p m (nth_error_In _ _ E)) Hst p m Hb).
    - rewrite nth_error_list_set_neq in Hj by exact D. apply (IH g p m (nth_error_In _ _ Hj) Hb). }
  assert (Hsp : forall g p m, List.In g gs -> g_back g = Some (p, m) -> sparse_obj m = true).
  { apply (Hbk _ _ Mv). cbn [snd]. intros g0 p0 m0 H. unfold start in H. apply in_map_iff in H. destruct H as (x & <- & _). discriminate. }
  destruct (pool_moves Req w (map performs progs) K W c_stay c_sep c_know c_obj _ _ Mv eq_refl) as (ss & ys & ws & P). cbn [fst snd] in P.
  assert (Hx : forall i g, nth_error gs i = Some g -> exists x, nth_error (map performs progs) i = Some x).
  { intros i0 g0 H. destruct (nth_error (map performs progs) i0) as [x|] eqn:E; [eauto|]. apply nth_error_None in E. rewrite <- (po_len _ _ _ _ _ _ _ _ _ _ P) in E.
    assert (i0 < length gs)%nat by (apply nth_error_Some; rewrite H; discriminate). lia. }
  assert (One : forall i j g g' b', i <> j -> nth_error gs i = Some g -> nth_error gs j = Some g' -> next_touch g = Some (p, true) -> next_touch g' = Some (p, b') -> False).
  { clear i j g g' b b' D Hg Hg' Ht Ht' Hb. intros i j g g' b' D Hg Hg' Ht Ht'. destruct (Hx _ _ Hg) as [x Ex]. destruct (Hx _ _ Hg') as [x' Ex'].
    destruct (touch_nm _ _ _ _ _ _ _ _ _ _ _ _ _ _ _ P Ex' Hg' Ht') as [q' Hq'].
    destruct (touch_ow _ _ _ _ _ _ _ _ _ _ _ _ _ _ P Ex Hg Ht) as [[q Hq] O].
    destruct (ow (ss i) p) eqn:Eo; [exact (po_sep _ _ _ _ _ _ _ _ _ _ P i j p q' D Eo Hq')|].
    destruct O as [O|(m & Bm & Hm)]; [discriminate|].
    destruct (po_new _ _ _ _ _ _ _ _ _ _ P i p q Hq) as [[Kp _]|[_ Y]]; [|congruence].
    assert (Wp : forall k, W k p = false).
    { intro k. destruct (W k p) eqn:E; [|reflexivity]. exfalso. destruct (Nat.eq_dec k i) as [->|D2]; [|exact (c_sep k i p D2 E Kp)].
      assert (X : ow (ss i) p = true) by (apply (le_ow _ _ (po_le _ _ _ _ _ _ _ _ _ _ P i)); exact E). congruence. }
    destruct (c_obj i p Kp) as (m' & Hm' & _).
    rewrite (po_rest _ _ _ _ _ _ _ _ _ _ P p ltac:(apply nth_error_Some; rewrite Hm'; discriminate) Wp), Hm' in Hm. injection Hm as ->.
    specialize (Hsp g p m (nth_error_In _ _ Hg) Bm).
    unfold K in Kp. destruct (nth_error progs i) as [ks|] eqn:Ei; [|exact Kp].
    rewrite (Hd ks p m (nth_error_In _ _ Ei) Kp Hm') in Hsp; [discriminate|]. intro Hw. apply (W_in i ks p Ei) in Hw. rewrite Wp in Hw. discriminate. }
  destruct b; [exact (One i j g g' b' D Hg Hg' Ht Ht')|]. destruct b'; [|discriminate]. exact (One j i g' g false (fun E => D (eq_sym E)) Hg' Hg Ht' Ht).
Qed.
End Calls.

(** Goroutines that make calls on the objects of a reachable world, each object modified by one of
    them being used by that one only: every goroutine ends as it does alone, and what it used looks
    as when it has run alone; what nobody modifies stays as it is. *)
Lemma separate_calls w (progs : list (list (call N))) h gs : sane N -> reachable w ->
  (forall ks p, List.In ks progs -> List.In p (flat_map uses ks) -> exists m, obj w p m) -> separate progs ->
  moves (w_heap w, start (w_polls w) (map performs progs)) (h, gs) ->
  (forall i ks g o, nth_error progs i = Some ks -> nth_error gs i = Some g -> outcome g = Some o ->
     exists w', calls ks w = (w', o) /\ forall p, List.In p (flat_map uses ks) -> nth_error h p = nth_error (w_heap w') p) /\
  (forall p m, obj w p m -> (forall ks, List.In ks progs -> ~ List.In p (flat_map writes ks)) -> nth_error h p = Some m).
Proof. intros Hs Hr Ho Hp. exact (concurrent_calls Hs w Hr progs Ho Hp h gs). Qed.

Lemma dense_calls_no_race w (progs : list (list (call N))) h gs : sane N -> reachable w ->
  (forall ks p, List.In ks progs -> List.In p (flat_map uses ks) -> exists m, obj w p m) -> separate progs ->
  (forall ks p m, List.In ks progs -> List.In p (flat_map uses ks) -> obj w p m -> ~ List.In p (flat_map writes ks) -> sparse_obj m = false) ->
  moves (w_heap w, start (w_polls w) (map performs progs)) (h, gs) -> ~ racing gs.
Proof. intros Hs Hr Ho Hp. exact (calls_no_race Hs w Hr progs Ho Hp h gs). Qed.

(** ** Functions that return a new object *)

Inductive job : Type :=
| JMultiply (E : env) (s m : ptr) | JAdd (E : env) (s m : ptr) | JSubtract (E : env) (s m : ptr)
| JNegative (E : env) (s : ptr) | JTranspose (E : env) (s : ptr) | JScalar (E : env) (s : ptr) (alpha : V)
| JCopy (s : ptr) | JRowsAt (s : ptr) (r : Z) | JColumnsAt (s : ptr) (c : Z)
| JTransposeToCSR (E : env) (s : ptr) | JTransposeToCSC (E : env) (s : ptr)
| JReduceVec (E : env) (s : ptr) (mo : @monoid N) (k : mask)
| JReduced (E : env) (s : ptr) | JSearch (E : env) (a : ptr) (i : Z) (c : nat -> mat -> bool).

(** what the call does with nobody else around *)
Definition job_alone (j : job) : World.M N ptr :=
  match j with
  | JMultiply E s m => Ops.m_Multiply E s m
  | JAdd E s m => Ops.m_Add E s m
  | JSubtract E s m => Ops.m_Subtract E s m
  | JNegative E s => Ops.m_Negative E s
  | JTranspose E s => Ops.m_Transpose E s
  | JScalar E s a => Ops.Scalar E s a
  | JCopy s => World.p_Copy s
  | JRowsAt s r => World.p_RowsAt s r
  | JColumnsAt s c => World.p_ColumnsAt s c
  | JTransposeToCSR E s => Ops.TransposeToCSR E s
  | JTransposeToCSC E s => Ops.TransposeToCSC E s
  | JReduceVec E s mo k => Ops.ReduceMatrixToVectorWithMonoID E s mo k
  | JReduced E s => MathOps.Reduced E s
  | JSearch E a i c => World.mbind (Bfs.Search E a i c) (fun x => World.mret (fst x))
  end.
(** its steps *)
Definition job_steps (j : job) : prog ptr :=
  match j with
  | JMultiply E s m => m_Multiply E s m
  | JAdd E s m => m_Add E s m
  | JSubtract E s m => m_Subtract E s m
  | JNegative E s => m_Negative E s
  | JTranspose E s => m_Transpose E s
  | JScalar E s a => Scalar E s a
  | JCopy s => p_Copy s
  | JRowsAt s r => p_RowsAt s r
  | JColumnsAt s c => p_ColumnsAt s c
  | JTransposeToCSR E s => TransposeToCSR E s
  | JTransposeToCSC E s => TransposeToCSC E s
  | JReduceVec E s mo k => ReduceMatrixToVectorWithMonoID E s mo k
  | JReduced E s => Reduced E s
  | JSearch E a i c => mbind (Search E a i c) (fun x => mret (fst x))
  end.
Definition job_uses (j : job) : list ptr :=
  match j with
  | JMultiply _ s m | JAdd _ s m | JSubtract _ s m => [s; m]
  | JNegative _ s | JTranspose _ s | JScalar _ s _ | JCopy s | JRowsAt s _ | JColumnsAt s _
  | JTransposeToCSR _ s | JTransposeToCSC _ s | JReduced _ s | JSearch _ s _ _ => [s]
  | JReduceVec _ s _ k => s :: mask_uses k
  end.

Lemma job_eqv j : eqv (job_steps j) (job_alone j).
Proof.
  destruct j; cbn [job_steps job_alone];
  [ apply m_Multiply_eqv | apply m_Add_eqv | apply m_Subtract_eqv | apply m_Negative_eqv | apply m_Transpose_eqv | apply Scalar_eqv | apply p_Copy_eqv | apply p_RowsAt_eqv
  | apply p_ColumnsAt_eqv | apply TransposeToCSR_eqv | apply TransposeToCSC_eqv | apply ReduceMatrixToVectorWithMonoID_eqv | apply Reduced_eqv | ].
  apply eqv_bind; [apply Search_eqv|]. intros a0. apply eqv_ret.
Qed.
Lemma job_rel s j : (forall p, List.In p (job_uses j) -> nm s p p) -> rel Rnew s (job_steps j) (job_steps j).
Proof.
  intros U. destruct j; cbn [job_uses] in U; cbn [job_steps]; try (rel_lemma; try (apply U; cbn; tauto));
  [apply mask_uses_rel; intros p Hp; apply U; cbn; auto|].
  eapply rel_bind; [apply Search_rel; apply U; cbn; auto|]. intros s' x y L [H _]. exact H.
Qed.

(** Such functions can be called at the same time on the same operands, by any number of goroutines. *)
Lemma jobs_alone w (jobs : list job) h gs : sane N -> reachable w -> (forall j p, List.In j jobs -> List.In p (job_uses j) -> exists m, obj w p m) ->
  moves (w_heap w, start (w_polls w) (map job_steps jobs)) (h, gs) ->
  (forall i j g o, nth_error jobs i = Some j -> nth_error gs i = Some g -> outcome g = Some o ->
     match o with
     | Ok p => exists w' q m, job_alone j w = (w', Ok q) /\ obj w' q m /\ nth_error h p = Some m
     | Panic => exists w', job_alone j w = (w', Panic)
     | Diverge => exists w', job_alone j w = (w', Diverge)
     end) /\
  (forall p m, obj w p m -> nth_error h p = Some m) /\
  (forall i i' g g' p, i <> i' -> nth_error gs i = Some g -> nth_error gs i' = Some g' -> outcome g = Some (Ok p) -> outcome g' = Some (Ok p) -> False).
Proof.
  intros Hs Hr Ho Mv. set (K := fun (_ : nat) (p : ptr) => exists m, obj w p m). set (W := fun (_ : nat) (_ : ptr) => false).
  assert (H1 : forall i x, nth_error (map job_steps jobs) i = Some x -> rel Rnew (start_view (K i) (W i)) x x).
  { intros i x H. rewrite nth_error_map in H. destruct (nth_error jobs i) as [j|] eqn:E; [|discriminate]. injection H as <-. apply job_rel.
    intros p Hp. cbn [start_view nm]. split; [reflexivity|]. exact (Ho j p (nth_error_In _ _ E) Hp). }
  assert (H2 : forall i j p, i <> j -> W i p = true -> ~ K j p) by discriminate.
  assert (H3 : forall i p, W i p = true -> K i p) by discriminate.
  assert (H4 : forall i p, K i p -> exists m, nth_error (w_heap w) p = Some m /\ (W i p = false -> steady m)).
  { intros i p [m Hm]. exists m. split; [exact Hm|]. intros _. apply wf_steady; [apply Hs|exact (reach_good w p m Hs Hr Hm)]. }
  destruct (as_alone Rnew w _ K W H1 H2 H3 H4 h gs Mv) as (A1 & A2 & A3). split; [|split].
  - intros i j g o Hj Hg Hout. destruct (A1 i (job_steps j) g o) as (s & w' & o' & B1 & B2 & B3 & B4); [rewrite nth_error_map, Hj; reflexivity|exact Hg|exact Hout|].
    rewrite job_eqv in B1. destruct o as [p| |], o' as [q| |]; try contradiction; [|eauto|eauto].
    destruct B3 as [B3 _]. destruct (B4 p q B3) as (m & C1 & C2). exists w', q, m. auto.
  - intros p m Hm. rewrite A2; [exact Hm|apply obj_lt in Hm; exact Hm|reflexivity].
  - intros i i' g g' p D Hg Hg' O1 O2. destruct (pool_moves Rnew w _ K W H1 H2 H3 H4 _ _ Mv eq_refl) as (ss & ys & ws & P). cbn [fst snd] in P.
    assert (Q : forall i g, nth_error gs i = Some g -> outcome g = Some (Ok p) -> exists q, nm (ss i) p q /\ ow (ss i) p = true).
    { clear i i' g g' D Hg Hg' O1 O2. intros i g Hg O1. destruct (nth_error (map job_steps jobs) i) as [x|] eqn:E.
      - destruct (po_track _ _ _ _ _ _ _ _ _ _ P i x g E Hg) as [T1 _ _ _ _ _ _]. unfold outcome in O1. destruct (g_back g); [discriminate|].
        destruct (g_prog g); try discriminate. injection O1 as ->. destruct (ys i) as [b| | | | | | | |]; cbn [rel] in T1; try contradiction. destruct T1 as [T1 T1']. eauto.
      - apply nth_error_None in E. rewrite <- A3 in E. assert (i < length gs)%nat by (apply nth_error_Some; rewrite Hg; discriminate). lia. }
    destruct (Q i g Hg O1) as (q & _ & Ow). destruct (Q i' g' Hg' O2) as (q' & Nq & _). exact (po_sep _ _ _ _ _ _ _ _ _ _ P i i' p q' D Ow Nq).
Qed.

(** ** Functions that return a value *)

Inductive ask : Type :=
| QAt (s : ptr) (r c : Z) | QElement (s : ptr) (r c : Z) | QReduce (E : env) (s : ptr) (mo : @monoid N) (k : mask)
| QEqual (E : env) (s m : option ptr) | QNotEqual (E : env) (s m : option ptr).
(** the answer of the call with nobody else around *)
Definition ask_alone (q : ask) : World.M N (V + bool) :=
  match q with
  | QAt s r c => World.mbind (World.p_At s r c) (fun v => World.mret (inl v))
  | QElement s r c => World.mbind (World.mask_Element (MObj s) r c) (fun b => World.mret (inr b))
  | QReduce E s mo k => World.mbind (Ops.ReduceMatrixToScalarWithMonoID E s mo k) (fun v => World.mret (inl v))
  | QEqual E s m => World.mbind (Ops.Equal E s m) (fun b => World.mret (inr b))
  | QNotEqual E s m => World.mbind (Ops.NotEqual E s m) (fun b => World.mret (inr b))
  end.
(** its steps *)
Definition ask_steps (q : ask) : prog (V + bool) :=
  match q with
  | QAt s r c => mbind (p_At s r c) (fun v => mret (inl v))
  | QElement s r c => mbind (mask_Element (MObj s) r c) (fun b => mret (inr b))
  | QReduce E s mo k => mbind (ReduceMatrixToScalarWithMonoID E s mo k) (fun v => mret (inl v))
  | QEqual E s m => mbind (Equal E s m) (fun b => mret (inr b))
  | QNotEqual E s m => mbind (NotEqual E s m) (fun b => mret (inr b))
  end.
Definition ask_uses (q : ask) : list ptr :=
  match q with
  | QAt s _ _ | QElement s _ _ => [s]
  | QReduce _ s _ k => s :: mask_uses k
  | QEqual _ s m | QNotEqual _ s m => opt_uses s ++ opt_uses m
  end.
Lemma ask_eqv q : eqv (ask_steps q) (ask_alone q).
Proof.
  destruct q; cbn [ask_steps ask_alone]; apply eqv_bind; try (intros; apply eqv_ret);
  first [ apply ReduceMatrixToScalarWithMonoID_eqv | apply Equal_eqv | apply NotEqual_eqv | apply eqv_At | apply eqv_Element ].
Qed.
Lemma ask_rel s q : (forall p, List.In p (ask_uses q) -> nm s p p) -> rel Req s (ask_steps q) (ask_steps q).
Proof.
  intros U. destruct q; cbn [ask_uses] in U; cbn [ask_steps]; (eapply (rel_bind Req); [|intros s' x y L X; unfold Req in X; subst y; apply ret_rel]);
  rel_lemma; try (apply U; cbn; tauto);
  try (apply opt_uses_rel; intros p Hp; apply U, List.in_or_app; auto).
  apply mask_uses_rel; intros p Hp; apply U; cbn; auto.
Qed.

(** ... and so can functions that return a value. *)
Lemma asks_alone w (asks : list ask) h gs : sane N -> reachable w -> (forall q p, List.In q asks -> List.In p (ask_uses q) -> exists m, obj w p m) ->
  moves (w_heap w, start (w_polls w) (map ask_steps asks)) (h, gs) ->
  (forall i q g o, nth_error asks i = Some q -> nth_error gs i = Some g -> outcome g = Some o -> snd (ask_alone q w) = o) /\
  (forall p m, obj w p m -> nth_error h p = Some m).
Proof.
  intros Hs Hr Ho Mv. set (K := fun (_ : nat) (p : ptr) => exists m, obj w p m). set (W := fun (_ : nat) (_ : ptr) => false).
  assert (H1 : forall i x, nth_error (map ask_steps asks) i = Some x -> rel Req (start_view (K i) (W i)) x x).
  { intros i x H. rewrite nth_error_map in H. destruct (nth_error asks i) as [j|] eqn:E; [|discriminate]. injection H as <-. apply ask_rel.
    intros p Hp. cbn [start_view nm]. split; [reflexivity|]. exact (Ho j p (nth_error_In _ _ E) Hp). }
  assert (H2 : forall i j p, i <> j -> W i p = true -> ~ K j p) by discriminate.
  assert (H3 : forall i p, W i p = true -> K i p) by discriminate.
  assert (H4 : forall i p, K i p -> exists m, nth_error (w_heap w) p = Some m /\ (W i p = false -> steady m)).
  { intros i p [m Hm]. exists m. split; [exact Hm|]. intros _. apply wf_steady; [apply Hs|exact (reach_good w p m Hs Hr Hm)]. }
  destruct (as_alone Req w _ K W H1 H2 H3 H4 h gs Mv) as (A1 & A2 & A3). split.
  - intros i q g o Hj Hg Hout. destruct (A1 i (ask_steps q) g o) as (s & w' & o' & B1 & B2 & B3 & B4); [rewrite nth_error_map, Hj; reflexivity|exact Hg|exact Hout|].
    rewrite ask_eqv in B1. rewrite B1. cbn [snd]. destruct o, o'; try contradiction; [|reflexivity|reflexivity]. unfold Req in B3. congruence.
  - intros p m Hm. rewrite A2; [exact Hm|apply obj_lt in Hm; exact Hm|reflexivity].
Qed.

(** the steps of a call, all run with nobody else around, are the call of the sequential model *)
Lemma perform_steps (k : call N) (w : World.world N) : interp (perform k) w = Api.perform k w.
Proof. apply perform_eqv. Qed.
End FineThms.
