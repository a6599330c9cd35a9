(** Trees of steps that always see the same answer when they test their context and that keep
    dense matrices dense matrices; what a run of such a tree depends on. *)
From Coq Require Import String.
From Verif Require Import GoBase Num SparseVec Csr Csc DenseVec DenseMat Mat World Ops MathOps Bfs Spec Api BaseProofs Fine FineRel FineConc FineProofs FineStrassen.

(** a context that is never done, or was done from the start *)
Definition constant (E : env) : Prop := e_ctx E = None \/ e_ctx E = Some 0%nat.

Section FineCalm.
Context {N : num}.
Notation V := (T N).
Notation mat := (mat N).
Notation prog := (prog N).
Notation world := (world N).
Notation names := (ptr -> Prop).

(** a dense matrix *)
Definition dense (m : mat) : Prop := match m with MDM _ => True | _ => False end.

(** the objects [D] are dense matrices and stay so; [Q] of the dense matrices and the result at the end *)
Fixpoint calm {A} (D : names) (Q : names -> A -> Prop) (x : prog A) : Prop :=
  match x with
  | Ret a => Q D a
  | Stop => True
  | Hang => True
  | Poll E k => constant E /\ forall b, calm D Q (k b)
  | Load p k => forall m, (D p -> dense m) -> calm D Q (k m)
  | Store p m q => (D p -> dense m) /\ calm D Q q
  | AtOp p r c k => forall v, calm D Q (k v)
  | ElemOp p r c k => forall b, calm D Q (k b)
  | Alloc m k => forall p, ~ D p -> calm (fun q => D q \/ q = p /\ dense m) Q (k p)
  end.

Definition sub (D D' : names) : Prop := forall p, D p -> D' p.
Definition any {A} : names -> A -> Prop := fun _ _ => True.

Lemma calm_bind {A B} (Q : names -> A -> Prop) (R : names -> B -> Prop) D x f :
  calm D Q x -> (forall D' a, sub D D' -> Q D' a -> calm D' R (f a)) -> calm D R (mbind x f).
Proof.
  revert D. induction x as [a| | |E k IH|p k IH|p m q IH|p r c k IH|p r c k IH|m k IH]; intros D H K; cbn [mbind calm] in *; auto.
  - apply K; [intros p Hp; exact Hp|exact H].
  - destruct H as [H1 H2]. split; [exact H1|]. intro b. apply IH; auto.
  - destruct H as [H1 H2]. split; [exact H1|]. apply IH; auto.
  - intros p Hp. apply IH; [apply H; exact Hp|]. intros D' a S. apply K. intros q Hq. apply S. left. exact Hq.
Qed.
Lemma calm_weaken {A} (Q R : names -> A -> Prop) D x : calm D Q x -> (forall D' a, sub D D' -> Q D' a -> R D' a) -> calm D R x.
Proof.
  revert D. induction x as [a| | |E k IH|p k IH|p m q IH|p r c k IH|p r c k IH|m k IH]; intros D H K; cbn [calm] in *; auto.
  - apply K; [intros p Hp; exact Hp|exact H].
  - destruct H as [H1 H2]. split; [exact H1|]. intro b. apply IH; auto.
  - destruct H as [H1 H2]. split; [exact H1|]. apply IH; auto.
  - intros p Hp. apply IH; [apply H; exact Hp|]. intros D' a S. apply K. intros q Hq. apply S. left. exact Hq.
Qed.
Lemma calm_any {A} (Q : names -> A -> Prop) D x : calm D Q x -> calm D any x.
Proof. intro H. apply (calm_weaken Q); [exact H|]. intros. exact Logic.I. Qed.

Lemma At_dense m r c v m' : mat_At m r c = Ok (v, m') -> dense m -> dense m'.
Proof. destruct m; cbn [mat_At dense]; try contradiction. destruct (dm_At s r c); cbn; try discriminate. intros H _. injection H as _ <-. exact Logic.I. Qed.
Lemma Element_dense m r c v m' : mat_Element m r c = Ok (v, m') -> dense m -> dense m'.
Proof. destruct m; cbn [mat_Element dense]; try contradiction. destruct (dm_Element s r c); cbn; try discriminate. intros H _. injection H as _ <-. exact Logic.I. Qed.
Lemma dense_steady m : dense m -> steady m.
Proof.
  destruct m; try contradiction. intros _. split; intros r c v m' H; cbn in H.
  - destruct (dm_At s r c); cbn in H; congruence.
  - destruct (dm_Element s r c); cbn in H; congruence.
Qed.

(** the answer of a constant context *)
Definition answer (E : env) : bool := match e_ctx E with None => false | Some _ => true end.
Lemma poll_constant E w : constant E -> exists n, World.poll (N := N) E w = ({| w_heap := w_heap w; w_polls := n |}, Ok (answer E)).
Proof.
  intros [H|H]; unfold World.poll, answer; rewrite H.
  - exists (w_polls w). destruct w; reflexivity.
  - eexists. reflexivity.
Qed.

(** ** Runs of related trees *)

Definition same_outcome {A} (P : A -> A -> Prop) (x y : res A) : Prop :=
  match x, y with Ok a, Ok b => P a b | Panic, Panic => True | Diverge, Diverge => True | _, _ => False end.

Record together (s : view) (D : names) (w w' : world) : Prop := MkTogether {
  tg_obj : forall p q, nm s p q -> exists m, nth_error (w_heap w) p = Some m /\ nth_error (w_heap w') q = Some m;
  tg_dense : forall p, D p -> exists m, nth_error (w_heap w) p = Some m /\ dense m;
  tg_still : forall p q m, nm s p q -> ow s p = false -> nth_error (w_heap w) p = Some m -> steady m;
}.

Record parted (s s1 : view) (w w1 w' w1' : world) : Prop := MkParted {
  pa_le : le s s1;
  pa_len : (length (w_heap w) <= length (w_heap w1))%nat;
  pa_len' : (length (w_heap w') <= length (w_heap w1'))%nat;
  pa_new : forall p q, nm s1 p q -> nm s p q \/ ((length (w_heap w) <= p)%nat /\ (length (w_heap w') <= q)%nat /\ ow s1 p = true);
  pa_own : forall p, ow s1 p = true -> ow s p = true \/ (length (w_heap w) <= p)%nat;
  pa_left : forall p, (p < length (w_heap w))%nat -> ow s p = false -> nth_error (w_heap w1) p = nth_error (w_heap w) p;
  pa_right : forall q, (q < length (w_heap w'))%nat -> (forall p, nm s p q -> ow s p = false) -> nth_error (w_heap w1') q = nth_error (w_heap w') q;
}.
Lemma parted_refl s w w' : parted s s w w w' w'.
Proof. constructor; auto; apply le_refl. Qed.
Lemma parted_trans s s1 s2 w w1 w2 w' w1' w2' : (forall p q, nm s p q -> (p < length (w_heap w))%nat) ->
  parted s s1 w w1 w' w1' -> parted s1 s2 w1 w2 w1' w2' -> parted s s2 w w2 w' w2'.
Proof.
  intros Hlt [A1 A2 A3 A4 A5 A6 A7] [B1 B2 B3 B4 B5 B6 B7]. constructor.
  - exact (le_trans _ _ _ A1 B1).
  - lia.
  - lia.
  - intros p q H. destruct (B4 p q H) as [H1|(H1 & H2 & H3)]; [|right; repeat split; auto; lia].
    destruct (A4 p q H1) as [H2|(H2 & H3 & H4)]; [left; exact H2|right]. repeat split; auto. apply (le_ow _ _ B1). exact H4.
  - intros p H. destruct (B5 p H) as [H1|H1]; [|right; lia]. destruct (A5 p H1); auto.
  - intros p Hp O. rewrite B6; [apply A6; auto|lia|]. destruct (ow s1 p) eqn:O1; [|reflexivity]. destruct (A5 p O1) as [X|X]; [congruence|lia].
  - intros q Hq H. rewrite B7; [apply A7; auto|lia|]. intros p Hp. destruct (A4 p q Hp) as [H1|(H1 & H2 & H3)]; [|lia].
    specialize (H p H1). specialize (Hlt _ _ H1). destruct (ow s1 p) eqn:O1; [|reflexivity]. destruct (A5 p O1) as [X|X]; [congruence|lia].
Qed.

Lemma together_lt s D w w' : together s D w w' -> forall p q, nm s p q -> (p < length (w_heap w))%nat /\ (q < length (w_heap w'))%nat.
Proof.
  intros T p q H. destruct (tg_obj _ _ _ _ T p q H) as (m & H1 & H2). split; apply nth_error_Some; congruence.
Qed.

Lemma rel_run {A} (R : view -> A -> A -> Prop) (Q : names -> A -> Prop) x : forall s D y w w',
  rel R s x y -> calm D Q x -> together s D w w' ->
  exists s1 D1, parted s s1 w (fst (interp x w)) w' (fst (interp y w')) /\ together s1 D1 (fst (interp x w)) (fst (interp y w')) /\ sub D D1 /\
    same_outcome (fun a b => R s1 a b /\ Q D1 a) (snd (interp x w)) (snd (interp y w')).
Proof.
  induction x as [a| | |E k IH|p k IH|p m q IH|p r c k IH|p r c k IH|m k IH]; intros s D y w w' H C T; pose proof (together_lt _ _ _ _ T) as Hlt;
    destruct y as [a'| | |E' k'|p' k'|p' m' q'|p' r' c' k'|p' r' c' k'|m' k']; cbn [rel] in H; try contradiction; cbn [calm] in C.
  - exists s, D. cbn [interp fst snd same_outcome]. split; [apply parted_refl|split; [exact T|split; [intros ? X; exact X|]]]; try exact Logic.I; auto.
  - exists s, D. cbn [interp fst snd same_outcome]. split; [apply parted_refl|split; [exact T|split; [intros ? X; exact X|]]]; try exact Logic.I; auto.
  - exists s, D. cbn [interp fst snd same_outcome]. split; [apply parted_refl|split; [exact T|split; [intros ? X; exact X|]]]; try exact Logic.I; auto.
  - (* Poll *)
    destruct H as [<- H]. destruct C as [K C]. cbn [interp]. destruct (poll_constant E w K) as [n1 ->]. destruct (poll_constant E w' K) as [n2 ->].
    set (v := {| w_heap := w_heap w; w_polls := n1 |}). set (v' := {| w_heap := w_heap w'; w_polls := n2 |}).
    destruct (IH (answer E) s D (k' (answer E)) v v' (H _) (C _)) as (s1 & D1 & P & X); [destruct T; constructor; assumption|].
    exists s1, D1. split; [|exact X]. apply (parted_trans s s s1 w v _ w' v'); [intros ? ? X1; apply (Hlt _ _ X1)| |exact P].
    constructor; auto; apply le_refl.
  - (* Load *)
    destruct H as [Hp H]. cbn [interp]. destruct (tg_obj _ _ _ _ T _ _ Hp) as (m & A1 & A2). rewrite A1, A2. apply IH; auto. apply C. intro Dp.
    destruct (tg_dense _ _ _ _ T p Dp) as (m2 & A3 & A4). congruence.
  - (* Store *)
    destruct H as (O & Hp & <- & H). destruct C as [Dm C]. cbn [interp].
    set (v := {| w_heap := list_set (w_heap w) p m; w_polls := w_polls w |}). set (v' := {| w_heap := list_set (w_heap w') p' m; w_polls := w_polls w' |}).
    destruct (IH s D q' v v' H C) as (s1 & D1 & P & X).
    { constructor; cbn [v v' w_heap].
      - intros p2 q2 H2. destruct (tg_obj _ _ _ _ T p2 q2 H2) as (m2 & A1 & A2). rewrite !nth_error_list_set, A1, A2.
        rewrite (nm_eqb s _ _ _ _ Hp H2). destruct (Nat.eqb p' q2); eauto.
      - intros p2 D2. destruct (tg_dense _ _ _ _ T p2 D2) as (m2 & A1 & A2). rewrite nth_error_list_set, A1. destruct (Nat.eqb_spec p p2) as [->|]; eauto.
      - intros p2 q2 m2 H2 O2 A1. rewrite nth_error_list_set_neq in A1 by (intros ->; congruence). exact (tg_still _ _ _ _ T _ _ _ H2 O2 A1). }
    exists s1, D1. split; [|exact X]. apply (parted_trans s s s1 w v _ w' v'); [intros ? ? X1; apply (Hlt _ _ X1)| |exact P].
    constructor; cbn [v v' w_heap]; rewrite ?length_list_set; auto; try apply le_refl.
    + intros p2 _ O2. apply nth_error_list_set_neq. intros ->. congruence.
    + intros q2 _ O2. apply nth_error_list_set_neq. intros ->. specialize (O2 _ Hp). congruence.
  - (* At *)
    destruct H as (Hp & <- & <- & H). cbn [interp]. destruct (tg_obj _ _ _ _ T _ _ Hp) as (m & A1 & A2). rewrite A1, A2.
    destruct (mat_At m r c) as [[v0 m']| |] eqn:Em.
    2, 3: exists s, D; cbn [fst snd same_outcome]; split; [apply parted_refl|split; [exact T|split; [intros ? X; exact X|]]]; try exact Logic.I; auto.
    set (v := {| w_heap := list_set (w_heap w) p m'; w_polls := w_polls w |}). set (v' := {| w_heap := list_set (w_heap w') p' m'; w_polls := w_polls w' |}).
    assert (St : ow s p = false -> m' = m) by (intro O; exact (proj1 (tg_still _ _ _ _ T _ _ _ Hp O A1) _ _ _ _ Em)).
    destruct (IH v0 s D (k' v0) v v' (H _) (C _)) as (s1 & D1 & P & X).
    { constructor; cbn [v v' w_heap].
      - intros p2 q2 H2. destruct (tg_obj _ _ _ _ T p2 q2 H2) as (m2 & B1 & B2). rewrite !nth_error_list_set, B1, B2.
        rewrite (nm_eqb s _ _ _ _ Hp H2). destruct (Nat.eqb p' q2); eauto.
      - intros p2 D2. destruct (tg_dense _ _ _ _ T p2 D2) as (m2 & B1 & B2). rewrite nth_error_list_set, B1. destruct (Nat.eqb_spec p p2) as [->|]; [|eauto].
        exists m'. split; [reflexivity|]. apply (At_dense _ _ _ _ _ Em). congruence.
      - intros p2 q2 m2 H2 O2 B1. rewrite nth_error_list_set in B1. destruct (Nat.eqb_spec p p2) as [->|]; [|exact (tg_still _ _ _ _ T _ _ _ H2 O2 B1)].
        rewrite A1 in B1. injection B1 as <-. rewrite (St O2). exact (tg_still _ _ _ _ T _ _ _ H2 O2 A1). }
    exists s1, D1. split; [|exact X]. apply (parted_trans s s s1 w v _ w' v'); [intros ? ? X1; apply (Hlt _ _ X1)| |exact P].
    constructor; cbn [v v' w_heap]; rewrite ?length_list_set; auto; try apply le_refl.
    + intros p2 _ O2. rewrite nth_error_list_set. destruct (Nat.eqb_spec p p2) as [->|]; [|reflexivity]. rewrite A1, (St O2). reflexivity.
    + intros q2 _ O2. rewrite nth_error_list_set. destruct (Nat.eqb_spec p' q2) as [->|]; [|reflexivity]. rewrite A2, (St (O2 _ Hp)). reflexivity.
  - (* Element *)
    destruct H as (Hp & <- & <- & H). cbn [interp]. destruct (tg_obj _ _ _ _ T _ _ Hp) as (m & A1 & A2). rewrite A1, A2.
    destruct (mat_Element m r c) as [[v0 m']| |] eqn:Em.
    2, 3: exists s, D; cbn [fst snd same_outcome]; split; [apply parted_refl|split; [exact T|split; [intros ? X; exact X|]]]; try exact Logic.I; auto.
    set (v := {| w_heap := list_set (w_heap w) p m'; w_polls := w_polls w |}). set (v' := {| w_heap := list_set (w_heap w') p' m'; w_polls := w_polls w' |}).
    assert (St : ow s p = false -> m' = m) by (intro O; exact (proj2 (tg_still _ _ _ _ T _ _ _ Hp O A1) _ _ _ _ Em)).
    destruct (IH v0 s D (k' v0) v v' (H _) (C _)) as (s1 & D1 & P & X).
    { constructor; cbn [v v' w_heap].
      - intros p2 q2 H2. destruct (tg_obj _ _ _ _ T p2 q2 H2) as (m2 & B1 & B2). rewrite !nth_error_list_set, B1, B2.
        rewrite (nm_eqb s _ _ _ _ Hp H2). destruct (Nat.eqb p' q2); eauto.
      - intros p2 D2. destruct (tg_dense _ _ _ _ T p2 D2) as (m2 & B1 & B2). rewrite nth_error_list_set, B1. destruct (Nat.eqb_spec p p2) as [->|]; [|eauto].
        exists m'. split; [reflexivity|]. apply (Element_dense _ _ _ _ _ Em). congruence.
      - intros p2 q2 m2 H2 O2 B1. rewrite nth_error_list_set in B1. destruct (Nat.eqb_spec p p2) as [->|]; [|exact (tg_still _ _ _ _ T _ _ _ H2 O2 B1)].
        rewrite A1 in B1. injection B1 as <-. rewrite (St O2). exact (tg_still _ _ _ _ T _ _ _ H2 O2 A1). }
    exists s1, D1. split; [|exact X]. apply (parted_trans s s s1 w v _ w' v'); [intros ? ? X1; apply (Hlt _ _ X1)| |exact P].
    constructor; cbn [v v' w_heap]; rewrite ?length_list_set; auto; try apply le_refl.
    + intros p2 _ O2. rewrite nth_error_list_set. destruct (Nat.eqb_spec p p2) as [->|]; [|reflexivity]. rewrite A1, (St O2). reflexivity.
    + intros q2 _ O2. rewrite nth_error_list_set. destruct (Nat.eqb_spec p' q2) as [->|]; [|reflexivity]. rewrite A2, (St (O2 _ Hp)). reflexivity.
  - (* Alloc *)
    destruct H as [<- H]. cbn [interp].
    assert (F : fresh s (length (w_heap w)) (length (w_heap w'))) by (split; intros q X; destruct (Hlt _ _ X); lia).
    assert (ND : ~ D (length (w_heap w))).
    { intro X. destruct (tg_dense _ _ _ _ T _ X) as (m2 & A1 & _). assert (length (w_heap w) < length (w_heap w))%nat by (apply nth_error_Some; congruence). lia. }
    set (v := {| w_heap := w_heap w ++ [m]; w_polls := w_polls w |}). set (v' := {| w_heap := w_heap w' ++ [m]; w_polls := w_polls w' |}).
    destruct (IH (length (w_heap w)) (grow s _ _ F) _ (k' (length (w_heap w'))) v v' (H _ _ F) (C _ ND)) as (s1 & D1 & P & X1 & X2 & X3).
    { constructor; cbn [v v' w_heap grow nm ow].
      - intros p q [[-> ->]|X].
        + exists m. rewrite !nth_error_app2, !Nat.sub_diag by lia. split; reflexivity.
        + destruct (tg_obj _ _ _ _ T _ _ X) as (m2 & A1 & A2). destruct (Hlt _ _ X). exists m2. rewrite !nth_error_app1 by lia. auto.
      - intros p [X|[-> X]].
        + destruct (tg_dense _ _ _ _ T p X) as (m2 & A1 & A2). exists m2. split; [|exact A2]. rewrite nth_error_app1; [exact A1|]. apply nth_error_Some. congruence.
        + exists m. rewrite nth_error_app2, Nat.sub_diag by lia. split; [reflexivity|exact X].
      - intros p q m2 X O A1. apply Bool.orb_false_iff in O. destruct O as [O1 O2]. apply Nat.eqb_neq in O1. destruct X as [[-> _]|X]; [congruence|].
        destruct (Hlt _ _ X). rewrite nth_error_app1 in A1 by lia. exact (tg_still _ _ _ _ T _ _ _ X O2 A1). }
    exists s1, D1. split; [|split; [exact X1|split; [intros p Hp; apply X2; left; exact Hp|exact X3]]].
    apply (parted_trans s (grow s _ _ F) s1 w v _ w' v'); [intros ? ? Y; apply (Hlt _ _ Y)| |exact P].
    constructor; cbn [v v' w_heap grow nm ow]; rewrite ?app_length; cbn [length]; try lia.
    + apply le_grow.
    + intros p q [[-> ->]|Y]; [right; rewrite Nat.eqb_refl; repeat split; lia|left; exact Y].
    + intros p Y. apply Bool.orb_true_iff in Y. destruct Y as [Y|Y]; [apply Nat.eqb_eq in Y; right; lia|left; exact Y].
    + intros p Hp _. apply nth_error_app1. exact Hp.
    + intros q Hq _. apply nth_error_app1. exact Hq.
Qed.

(** the objects known to be dense are dense at the end *)
Lemma calm_run {A} (Q : names -> A -> Prop) x : forall D w, calm D Q x -> (forall p, D p -> exists m, nth_error (w_heap w) p = Some m /\ dense m) ->
  exists D1, sub D D1 /\ (forall p, D1 p -> exists m, nth_error (w_heap (fst (interp x w))) p = Some m /\ dense m) /\
    (forall a, snd (interp x w) = Ok a -> Q D1 a).
Proof.
  induction x as [a| | |E k IH|p k IH|p m q IH|p r c k IH|p r c k IH|m k IH]; intros D w C T; cbn [calm] in C.
  - exists D. cbn [interp fst snd]. split; [intros p Hp; exact Hp|split; [exact T|]]. intros b X. injection X as <-. exact C.
  - exists D. cbn [interp fst snd]. split; [intros p Hp; exact Hp|split; [exact T|discriminate]].
  - exists D. cbn [interp fst snd]. split; [intros p Hp; exact Hp|split; [exact T|discriminate]].
  - destruct C as [K C]. cbn [interp]. destruct (poll_constant E w K) as [n1 ->]. apply IH; [apply C|exact T].
  - cbn [interp]. destruct (nth_error (w_heap w) p) as [m|] eqn:A1.
    + apply IH; [|exact T]. apply C. intro Dp. destruct (T p Dp) as (m2 & B1 & B2). congruence.
    + exists D. cbn [fst snd]. split; [intros ? Hp; exact Hp|split; [exact T|discriminate]].
  - destruct C as [Dm C]. cbn [interp]. apply IH; [exact C|]. cbn [w_heap]. intros p2 D2. destruct (T p2 D2) as (m2 & A1 & A2). rewrite nth_error_list_set, A1.
    destruct (Nat.eqb_spec p p2) as [->|]; eauto.
  - cbn [interp]. destruct (nth_error (w_heap w) p) as [m|] eqn:A1; [destruct (mat_At m r c) as [[v0 m']| |] eqn:Em|].
    2, 3, 4: exists D; cbn [fst snd]; split; [intros ? Hp; exact Hp|split; [exact T|discriminate]].
    apply IH; [apply C|]. cbn [w_heap]. intros p2 D2. destruct (T p2 D2) as (m2 & B1 & B2). rewrite nth_error_list_set, B1. destruct (Nat.eqb_spec p p2) as [->|]; [|eauto].
    exists m'. split; [reflexivity|]. apply (At_dense _ _ _ _ _ Em). congruence.
  - cbn [interp]. destruct (nth_error (w_heap w) p) as [m|] eqn:A1; [destruct (mat_Element m r c) as [[v0 m']| |] eqn:Em|].
    2, 3, 4: exists D; cbn [fst snd]; split; [intros ? Hp; exact Hp|split; [exact T|discriminate]].
    apply IH; [apply C|]. cbn [w_heap]. intros p2 D2. destruct (T p2 D2) as (m2 & B1 & B2). rewrite nth_error_list_set, B1. destruct (Nat.eqb_spec p p2) as [->|]; [|eauto].
    exists m'. split; [reflexivity|]. apply (Element_dense _ _ _ _ _ Em). congruence.
  - cbn [interp]. assert (ND : ~ D (length (w_heap w))).
    { intro X. destruct (T _ X) as (m2 & A1 & _). assert (length (w_heap w) < length (w_heap w))%nat by (apply nth_error_Some; congruence). lia. }
    destruct (IH (length (w_heap w)) _ {| w_heap := w_heap w ++ [m]; w_polls := w_polls w |} (C _ ND)) as (D1 & X1 & X2 & X3).
    { cbn [w_heap]. intros p [X|[-> X]].
      + destruct (T p X) as (m2 & A1 & A2). exists m2. split; [|exact A2]. rewrite nth_error_app1; [exact A1|]. apply nth_error_Some. congruence.
      + exists m. rewrite nth_error_app2, Nat.sub_diag by lia. split; [reflexivity|exact X]. }
    exists D1. split; [intros p Hp; apply X1; left; exact Hp|split; [exact X2|exact X3]].
Qed.

(** ** The functions that strassen.go uses *)

Lemma Set_dense m r c v m' : mat_Set m r c v = Ok m' -> dense m -> dense m'.
Proof. destruct m; cbn [mat_Set dense]; try contradiction. destruct (dm_Set s r c v); cbn; try discriminate. intros H _. injection H as <-. exact Logic.I. Qed.
Lemma Update_dense m r c f m' : mat_Update m r c f = Ok m' -> dense m -> dense m'.
Proof. destruct m; cbn [mat_Update dense]; try contradiction. destruct (dm_Update s r c _) as [[]| |]; cbn; try discriminate. intros H _. injection H as <-. exact Logic.I. Qed.
Lemma Copy_dense m m' : mat_Copy m = Ok m' -> dense m -> dense m'.
Proof. destruct m; cbn [mat_Copy dense]; try contradiction. destruct (dm_Copy s); cbn; try discriminate. intros H _. injection H as <-. exact Logic.I. Qed.

Lemma ret_calm {A} D (a : A) : calm D any (mret a).
Proof. exact Logic.I. Qed.
Lemma panic_calm {A} (Q : names -> A -> Prop) D : calm D Q mpanic.
Proof. exact Logic.I. Qed.
Lemma diverge_calm {A} (Q : names -> A -> Prop) D : calm D Q mdiverge.
Proof. exact Logic.I. Qed.
Lemma lift_calm {A} D (x : res A) : calm D (fun _ a => x = Ok a) (mlift x).
Proof. destruct x; cbn; auto. Qed.
Lemma poll_calm D E : constant E -> calm D any (poll E).
Proof. intro H. split; [exact H|]. intro. exact Logic.I. Qed.
Lemma load_calm D p : calm D (fun _ m => D p -> dense m) (load p).
Proof. intros m H. exact H. Qed.
Lemma At_calm D p r c : calm D any (p_At p r c).
Proof. intro. exact Logic.I. Qed.
Lemma Element_calm D k r c : calm D any (mask_Element k r c).
Proof. destruct k; try exact Logic.I. intro. exact Logic.I. Qed.

Lemma p_Rows_calm D p : calm D any (p_Rows p).
Proof. intros m H. exact Logic.I. Qed.
Lemma p_Columns_calm D p : calm D any (p_Columns p).
Proof. intros m H. exact Logic.I. Qed.
Lemma p_IsSparse_calm D E p : calm D any (p_IsSparse E p).
Proof. intros m H. exact Logic.I. Qed.
Lemma p_Set_calm D p r c v : calm D any (p_Set p r c v).
Proof.
  intros m H. cbn [mret mbind]. destruct (mat_Set m r c v) as [m'| |] eqn:Em; try exact Logic.I.
  split; [|exact Logic.I]. intro X. exact (Set_dense _ _ _ _ _ Em (H X)).
Qed.
Lemma p_Update_calm D p r c f : calm D any (p_Update p r c f).
Proof.
  intros m H. cbn [mret mbind]. destruct (mat_Update m r c f) as [m'| |] eqn:Em; try exact Logic.I.
  split; [|exact Logic.I]. intro X. exact (Update_dense _ _ _ _ _ Em (H X)).
Qed.
Lemma p_Copy_calm D p : calm D (fun D' q => D p -> D' q) (p_Copy p).
Proof.
  intros m H. cbn [mret mbind]. destruct (mat_Copy m) as [m'| |] eqn:Em; try exact Logic.I.
  intros q _. cbn [mbind calm]. intro X. right. split; [reflexivity|]. exact (Copy_dense _ _ Em (H X)).
Qed.
Lemma new_dense_calm D r c : calm D (fun D' q => D' q) (new_dense r c).
Proof.
  unfold new_dense. destruct (newMatrix r c) as [d| |]; try exact Logic.I. intros q _. cbn [mbind calm]. right. split; [reflexivity|exact Logic.I].
Qed.

Ltac calmgo := intros; cbv beta zeta;
  repeat match goal with
    | |- calm _ any (mret _) => exact Logic.I
    | |- calm _ _ mpanic => exact Logic.I
    | |- calm _ _ mdiverge => exact Logic.I
    | |- calm _ _ (mbind (poll _) _) => eapply calm_bind; [apply poll_calm; assumption|intros; cbv beta]
    | |- calm _ _ (mbind (load _) _) => eapply calm_bind; [apply load_calm|intros; cbv beta]
    | |- calm _ _ (mbind (mlift _) _) => eapply calm_bind; [apply lift_calm|intros; cbv beta]
    | |- calm _ _ (mbind (p_At _ _ _) _) => eapply calm_bind; [apply At_calm|intros; cbv beta]
    | |- calm _ _ (mbind (mask_Element _ _ _) _) => eapply calm_bind; [apply Element_calm|intros; cbv beta]
    | |- calm _ _ (mbind (p_Rows _) _) => eapply calm_bind; [apply p_Rows_calm|intros; cbv beta]
    | |- calm _ _ (mbind (p_Columns _) _) => eapply calm_bind; [apply p_Columns_calm|intros; cbv beta]
    | |- calm _ _ (mbind (p_IsSparse _ _) _) => eapply calm_bind; [apply p_IsSparse_calm|intros; cbv beta]
    | |- calm _ _ (mbind (p_Set _ _ _ _) _) => eapply calm_bind; [apply p_Set_calm|intros; cbv beta]
    | |- calm _ _ (p_Set _ _ _ _) => apply p_Set_calm
    | |- calm _ _ (mbind (p_Update _ _ _ _) _) => eapply calm_bind; [apply p_Update_calm|intros; cbv beta]
    | |- calm _ _ (match ?x with _ => _ end) => destruct x
    | |- calm _ _ (mbind (match ?x with _ => _ end) _) => destruct x
    | |- calm _ _ (mbind (mret _) _) => cbn [mret mbind]
    | |- calm _ any (Ret _) => exact Logic.I
    end.

Lemma mask_Rows_calm D k : calm D any (mask_Rows k).
Proof. destruct k; try exact Logic.I. apply p_Rows_calm. Qed.
Lemma mask_Columns_calm D k : calm D any (mask_Columns k).
Proof. destruct k; try exact Logic.I. apply p_Columns_calm. Qed.
Lemma check_mask_calm D k p : calm D any (check_mask k p).
Proof.
  unfold check_mask. calmgo.
  all: eapply calm_bind; [apply mask_Rows_calm|intros; cbv beta]; destruct (negb _); [exact Logic.I|].
  all: eapply calm_bind; [apply mask_Columns_calm|intros; cbv beta]; destruct (negb _); exact Logic.I.
Qed.
Lemma for_list_calm {R I} D (l : list I) (f : I -> prog (option R)) :
  (forall D' i, sub D D' -> calm D' any (f i)) -> calm D any (for_list l f).
Proof.
  revert D. induction l as [|i l IH]; intros D H; cbn [for_list]; [exact Logic.I|].
  eapply calm_bind; [apply H; intros ? X; exact X|]. intros D' o S _. destruct o; [exact Logic.I|]. apply IH. intros D2 j S2. apply H. intros q X. apply S2, S, X.
Qed.
Lemma enum_loop_calm {R} D E fuel p it (x : R) f : constant E ->
  (forall D' r c v, sub D D' -> calm D' any (f r c v)) -> calm D any (enum_loop E fuel p it x f).
Proof.
  intro K. revert D it. induction fuel as [|fuel IH]; intros D it H; cbn [enum_loop]; destruct (mat_HasNext it); try exact Logic.I.
  eapply calm_bind; [apply poll_calm; exact K|]. intros D1 b S1 _. destruct b; [exact Logic.I|].
  eapply calm_bind; [apply load_calm|]. intros D2 m S2 _.
  eapply calm_bind; [apply lift_calm|]. intros D3 [[[r c] v] it'] S3 _. cbv beta iota.
  eapply calm_bind; [apply H; intros q X; apply S3, S2, S1, X|]. intros D4 o S4 _. destruct o; [exact Logic.I|].
  apply IH. intros D5 r' c' v' S5. apply H. intros q X. apply S5, S4, S3, S2, S1, X.
Qed.
Lemma enumerate_calm {R} D E p (x : R) f : constant E ->
  (forall D' r c v, sub D D' -> calm D' any (f r c v)) -> calm D any (enumerate E p x f).
Proof.
  intros K H. unfold enumerate. eapply calm_bind; [apply load_calm|]. intros D1 m S1 _. apply enum_loop_calm; [exact K|].
  intros D2 r c v S2. apply H. intros q X. apply S2, S1, X.
Qed.
Lemma dot_loop_calm D E a b l x : constant E -> calm D any (dot_loop E a b l x).
Proof. intro K. revert D x. induction l as [|y l IH]; intros D x; cbn [dot_loop]; calmgo. apply IH. Qed.
Lemma multiply_calm D E s m k p : constant E -> calm D any (multiply E s m k p).
Proof.
  intro K. unfold multiply. calmgo. eapply calm_bind; [apply check_mask_calm|]. calmgo.
  eapply calm_bind; [|calmgo]. apply for_list_calm. calmgo. apply for_list_calm. calmgo.
  eapply calm_bind; [apply dot_loop_calm; exact K|]. calmgo.
Qed.
Lemma check_sizes_calm D s m : calm D any (check_sizes s m).
Proof. unfold check_sizes. calmgo. Qed.
Lemma Add_calm D E s m k p : constant E -> calm D any (Add E s m k p).
Proof.
  intro K. unfold Add. eapply calm_bind; [apply check_sizes_calm|]. calmgo. eapply calm_bind; [apply check_mask_calm|]. calmgo.
  all: eapply calm_bind; [|calmgo]; apply enumerate_calm; [exact K|]; calmgo.
Qed.
Lemma Subtract_calm D E s m k p : constant E -> calm D any (Subtract E s m k p).
Proof.
  intro K. unfold Subtract. eapply calm_bind; [apply check_sizes_calm|]. calmgo. eapply calm_bind; [apply check_mask_calm|]. calmgo.
  all: eapply calm_bind; [|calmgo]; apply enumerate_calm; [exact K|]; calmgo.
Qed.
Lemma bg_constant E : constant (bg E).
Proof. left. reflexivity. Qed.
Lemma m_Add_calm D E s m : calm D (fun D' q => D s -> D' q) (m_Add E s m).
Proof.
  unfold m_Add. eapply calm_bind; [apply p_Copy_calm|]. intros D1 q S1 H. eapply calm_bind; [apply Add_calm, bg_constant|].
  intros D2 [] S2 _. intro X. apply S2, H, X.
Qed.
Lemma m_Subtract_calm D E s m : calm D (fun D' q => D s -> D m -> D' q) (m_Subtract E s m).
Proof.
  unfold m_Subtract. eapply calm_bind; [apply load_calm|]. intros D1 so S1 _.
  apply (calm_bind (fun D' q => D s -> D m -> D' q)).
  - destruct so; (eapply calm_weaken; [apply p_Copy_calm|]; intros D2 q S2 H Hs Hm; apply H, S1; assumption).
  - intros D2 q S2 H. eapply calm_bind; [apply Subtract_calm, bg_constant|]. intros D3 [] S3 _. intros Hs Hm. apply S3, H; assumption.
Qed.
Lemma copy_cell_calm D dst src r c r' c' : calm D any (copy_cell dst src r c r' c').
Proof. unfold copy_cell. calmgo. Qed.
Lemma grid_calm D E r c f : constant E -> (forall D' i j, sub D D' -> calm D' any (f i j)) -> calm D any (grid E r c f).
Proof.
  intros K H. unfold grid. eapply calm_bind; [|calmgo]. apply for_list_calm. intros D1 i S1. apply for_list_calm. intros D2 j S2.
  eapply calm_bind; [apply poll_calm; exact K|]. intros D3 b S3 _. eapply calm_bind; [|calmgo].
  instantiate (1 := any). destruct b; [exact Logic.I|]. apply H. intros q X. apply S3, S2, S1, X.
Qed.
Lemma received_calm D i l : calm D (fun _ p => List.In (i, p) l) (received i l).
Proof.
  induction l as [|[j p] l IH]; [exact Logic.I|]. cbn [received]. destruct (Z.eqb_spec j i) as [->|].
  - left. reflexivity.
  - eapply calm_weaken; [exact IH|]. intros D' a _ H. right. exact H.
Qed.

(** ** The parts of a call *)

Definition quarters (P : ptr -> Prop) (bl : blocks) : Prop :=
  P (b_a11 bl) /\ P (b_a12 bl) /\ P (b_a21 bl) /\ P (b_a22 bl) /\ P (b_b11 bl) /\ P (b_b12 bl) /\ P (b_b21 bl) /\ P (b_b22 bl).
Definition result (D : names) (n : next) : Prop := match n with Fin p => D p | Div bl => quarters D bl end.
Definition both (D : names) (xy : ptr * ptr) : Prop := D (fst xy) /\ D (snd xy).

Lemma divide_calm D E size a b : constant E -> calm D quarters (divide E size a b).
Proof.
  intro K. unfold divide.
  do 8 (eapply calm_bind; [apply new_dense_calm|]; intros ? ? ? ?).
  eapply calm_bind; [apply grid_calm; [exact K|]; intros; repeat (eapply calm_bind; [apply copy_cell_calm|intros]); apply copy_cell_calm|].
  intros D9 [] S9 _. unfold sub in *. cbn. repeat split; auto 12.
Qed.
Lemma head_calm D E x f a b : constant E -> calm D result (head E x f a b).
Proof.
  intro K. unfold head. calmgo.
  - eapply calm_bind; [apply new_dense_calm|]. intros D1 q S1 Hq. eapply calm_bind; [apply multiply_calm; exact K|]. intros D2 [] S2 _. apply S2, Hq.
  - eapply calm_bind; [apply divide_calm; exact K|]. intros D1 q S1 Hq. exact Hq.
Qed.
Lemma opnd_calm D E i bl : quarters D bl -> calm D both (opnd E i bl).
Proof.
  intros (H1 & H2 & H3 & H4 & H5 & H6 & H7 & H8). unfold opnd.
  repeat match goal with |- calm _ _ (if ?x then _ else _) => destruct x end;
    repeat (eapply calm_bind; [solve [apply m_Add_calm|apply m_Subtract_calm]|]; intros ? ? ? ?);
    unfold sub in *; cbn; split; cbn [fst snd]; auto 10.
Qed.
Lemma combine_calm D E ms : constant E -> calm D (fun D' p => D' p) (combine E ms).
Proof.
  intro K. unfold combine. do 7 (eapply calm_bind; [apply received_calm|]; intros ? ? ? _).
  do 8 (eapply calm_bind; [solve [apply m_Add_calm|apply m_Subtract_calm]|]; intros ? ? ? _).
  calmgo. eapply calm_bind; [apply new_dense_calm|]. intros ? ? ? Hm. calmgo.
  eapply calm_bind; [apply grid_calm; [exact K|]; intros; repeat (eapply calm_bind; [apply copy_cell_calm|intros]); apply copy_cell_calm|].
  intros D9 [] S9 _. cbn. auto.
Qed.
Lemma opsT_calm D E todo bl : quarters D bl -> calm D (fun D' l => Forall (fun o => both D' (snd o)) l /\ map fst l = todo) (opsT E todo bl).
Proof.
  revert D. induction todo as [|i todo IH]; intros D H; cbn [opsT]; [split; [constructor|reflexivity]|].
  eapply calm_bind; [apply opnd_calm; exact H|]. intros D1 xy S1 H1.
  assert (H' : quarters D1 bl) by (unfold quarters, sub in *; intuition auto).
  eapply calm_bind; [apply IH; exact H'|]. intros D2 l S2 [H2 H3]. split; [constructor; [|exact H2]|cbn; rewrite H3; reflexivity].
  cbn [snd]. destruct H1. split; auto.
Qed.
Lemma gatherT_calm D run os : (forall D' a b, sub D D' -> both D' (a, b) -> calm D' (fun D2 p => D2 p) (run a b)) -> Forall (fun o => both D (snd o)) os ->
  calm D (fun D' l => Forall (fun o => D' (snd o)) l /\ map fst l = map fst os) (gatherT run os).
Proof.
  revert D. induction os as [|[i [a b]] os IH]; intros D Hr H; cbn [gatherT]; [split; [constructor|reflexivity]|].
  inversion H as [|? ? H1 H2]; subst. eapply calm_bind; [apply Hr; [intros ? X; exact X|exact H1]|]. intros D1 p S1 Hp.
  eapply calm_bind; [apply IH|].
  - intros D' a' b' S'. apply Hr. intros q X. apply S', S1, X.
  - eapply Forall_impl; [|exact H2]. intros o [A1 A2]. split; apply S1; assumption.
  - intros D2 l S2 [H3 H4]. split; [constructor; [apply S2; exact Hp|exact H3]|cbn; rewrite H4; reflexivity].
Qed.
Lemma cont_calm D E run bl os todo : constant E -> (forall D' a b, sub D D' -> both D' (a, b) -> calm D' (fun D2 p => D2 p) (run a b)) ->
  Forall (fun o => both D (snd o)) os -> quarters D bl -> calm D (fun D' p => D' p) (cont E run bl os todo).
Proof.
  intros K Hr H Q. unfold cont. eapply calm_bind; [apply opsT_calm; exact Q|]. intros D1 l S1 [H1 _].
  eapply calm_bind; [apply gatherT_calm|].
  - intros D' a b S'. apply Hr. intros q X. apply S', S1, X.
  - apply Forall_app. split; [|exact H1]. eapply Forall_impl; [|exact H]. intros o [A1 A2]. split; apply S1; assumption.
  - intros. apply combine_calm. exact K.
Qed.
Lemma tree_calm D E x f a b : constant E -> calm D (fun D' p => D' p) (tree E x f a b).
Proof.
  intro K. revert D a b. induction f as [|f IH]; intros D a b; cbn [tree].
  - eapply calm_bind; [apply head_calm; exact K|]. intros D1 [p|bl] S1 H; [exact H|exact Logic.I].
  - eapply calm_bind; [apply head_calm; exact K|]. intros D1 [p|bl] S1 H; [exact H|].
    apply cont_calm; [exact K|intros; apply IH|constructor|exact H].
Qed.
End FineCalm.
