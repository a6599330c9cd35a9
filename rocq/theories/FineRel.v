(** What a tree of steps (Fine.v) depends on and touches.

    [rel R s x y]: the trees [x] and [y] take the same steps, on objects that go by different names
    in the two (names of objects are compared but nothing else is done with them), and change only
    objects that [x] owns; the objects they touch are those they were given and those they make. *)
From Coq Require Import String.
From Verif Require Import GoBase Num SparseVec Csr Csc DenseVec DenseMat Mat World Ops MathOps Bfs Spec Api Fine.

(** which object goes by which name on the two sides, and which ones the left side may change *)
Record view : Type := MkView {
  nm : ptr -> ptr -> Prop;
  ow : ptr -> bool;
  nm_fun : forall p q q', nm p q -> nm p q' -> q = q';
  nm_inj : forall p p' q, nm p q -> nm p' q -> p = p';
}.

(** names not in use *)
Definition fresh (s : view) (p p' : ptr) : Prop := (forall q, ~ nm s p q) /\ (forall q, ~ nm s q p').

(** a new object that the left side owns *)
Definition grow (s : view) (p p' : ptr) (F : fresh s p p') : view.
Proof.
  refine {| nm := fun a b => (a = p /\ b = p') \/ nm s a b; ow := fun a => Nat.eqb a p || ow s a |}.
  - intros a b b' [[-> ->]|H] [[Ha ->]|H']; try reflexivity.
    + destruct F as [F _]. destruct (F _ H').
    + subst. destruct F as [F _]. destruct (F _ H).
    + exact (nm_fun s _ _ _ H H').
  - intros a a' b [[-> ->]|H] [[-> Hb]|H']; try reflexivity.
    + destruct F as [_ F]. destruct (F _ H').
    + subst. destruct F as [_ F]. destruct (F _ H).
    + exact (nm_inj s _ _ _ H H').
Defined.

(** [s'] knows what [s] knows *)
Record le (s s' : view) : Prop := MkLe {
  le_nm : forall p q, nm s p q -> nm s' p q;
  le_ow : forall p, ow s p = true -> ow s' p = true;
}.
Lemma le_refl s : le s s.
Proof. split; trivial. Qed.
Lemma le_trans a b c : le a b -> le b c -> le a c.
Proof. intros [H1 H2] [H3 H4]. split; intros; auto. Qed.
Lemma le_grow s p p' F : le s (grow s p p' F).
Proof. split; cbn [grow nm ow]; intros; [right; assumption|]. rewrite H. apply Bool.orb_true_r. Qed.

Section FineRel.
Context {N : num}.
Notation V := (T N).
Notation prog := (prog N).

Fixpoint rel {A} (R : view -> A -> A -> Prop) (s : view) (x y : prog A) {struct x} : Prop :=
  match x, y with
  | Ret a, Ret b => R s a b
  | Stop, Stop => True
  | Hang, Hang => True
  | Poll E k, Poll E' k' => E = E' /\ forall b, rel R s (k b) (k' b)
  | Load p k, Load p' k' => nm s p p' /\ forall m, rel R s (k m) (k' m)
  | Store p m q, Store p' m' q' => ow s p = true /\ nm s p p' /\ m = m' /\ rel R s q q'
  | AtOp p r c k, AtOp p' r' c' k' => nm s p p' /\ r = r' /\ c = c' /\ forall v, rel R s (k v) (k' v)
  | ElemOp p r c k, ElemOp p' r' c' k' => nm s p p' /\ r = r' /\ c = c' /\ forall b, rel R s (k b) (k' b)
  | Alloc m k, Alloc m' k' => m = m' /\ forall p p' (F : fresh s p p'), rel R (grow s p p' F) (k p) (k' p')
  | _, _ => False
  end.

(** results: the same value; the same object; masks *)
Definition Req {A} (s : view) (a b : A) : Prop := a = b.
Definition Rp (s : view) (p q : ptr) : Prop := nm s p q.
Definition Rmask (s : view) (k k' : mask) : Prop :=
  match k, k' with
  | MObj p, MObj p' => nm s p p'
  | MNil, MNil => True
  | MEmpty r c, MEmpty r' c' => r = r' /\ c = c'
  | MUser r c f, MUser r' c' f' => r = r' /\ c = c' /\ f = f'
  | _, _ => False
  end.
Definition Ropt (s : view) (o o' : option ptr) : Prop :=
  match o, o' with Some p, Some p' => nm s p p' | None, None => True | _, _ => False end.

Lemma rel_bind {A B} (R : view -> A -> A -> Prop) (Q : view -> B -> B -> Prop) s x y f g :
  rel R s x y -> (forall s' a b, le s s' -> R s' a b -> rel Q s' (f a) (g b)) -> rel Q s (mbind x f) (mbind y g).
Proof.
  revert s y. induction x as [a| | |E k IH|p k IH|p m q IH|p r c k IH|p r c k IH|m k IH]; intros s y H K;
    destruct y as [a'| | |E' k'|p' k'|p' m' q'|p' r' c' k'|p' r' c' k'|m' k']; cbn [rel] in H; try contradiction;
    cbn [mbind rel].
  - apply K; [apply le_refl|exact H].
  - exact I.
  - exact I.
  - destruct H as [H1 H2]. split; [exact H1|]. intro b. apply IH; auto.
  - destruct H as [H1 H2]. split; [exact H1|]. intro b. apply IH; auto.
  - destruct H as (H1 & H2 & H3 & H4). repeat split; auto.
  - destruct H as (H1 & H2 & H3 & H4). repeat split; auto.
  - destruct H as (H1 & H2 & H3 & H4). repeat split; auto.
  - destruct H as [H1 H2]. split; [exact H1|]. intros p p' F. apply IH; [apply H2|].
    intros s' a b Hle. apply K. exact (le_trans _ _ _ (le_grow s p p' F) Hle).
Qed.

Lemma rel_le {A} (R : view -> A -> A -> Prop) (Q : view -> A -> A -> Prop) s x y :
  (forall s' a b, le s s' -> R s' a b -> Q s' a b) -> rel R s x y -> rel Q s x y.
Proof.
  revert s y. induction x as [a| | |E k IH|p k IH|p m q IH|p r c k IH|p r c k IH|m k IH]; intros s y K H;
    destruct y as [a'| | |E' k'|p' k'|p' m' q'|p' r' c' k'|p' r' c' k'|m' k']; cbn [rel] in H |- *; try contradiction.
  - apply K; [apply le_refl|exact H].
  - exact I.
  - exact I.
  - destruct H as [H1 H2]. split; [exact H1|]. intro b. apply IH; auto.
  - destruct H as [H1 H2]. split; [exact H1|]. intro b. apply IH; auto.
  - destruct H as (H1 & H2 & H3 & H4). repeat split; auto.
  - destruct H as (H1 & H2 & H3 & H4). repeat split; auto.
  - destruct H as (H1 & H2 & H3 & H4). repeat split; auto.
  - destruct H as [H1 H2]. split; [exact H1|]. intros p p' F. apply IH; [|apply H2].
    intros s' a b Hle. apply K. exact (le_trans _ _ _ (le_grow s p p' F) Hle).
Qed.

Lemma nm_eqb s p p' q q' : nm s p p' -> nm s q q' -> Nat.eqb p q = Nat.eqb p' q'.
Proof.
  intros H1 H2. destruct (Nat.eqb_spec p q) as [->|D].
  - rewrite (nm_fun s _ _ _ H1 H2). symmetry. apply Nat.eqb_refl.
  - symmetry. apply Nat.eqb_neq. intro E. subst. apply D. exact (nm_inj s _ _ _ H1 H2).
Qed.

Lemma Rmask_le s s' k k' : le s s' -> Rmask s k k' -> Rmask s' k k'.
Proof. intros L. destruct k, k'; cbn [Rmask]; auto. apply (le_nm _ _ L). Qed.
Lemma Ropt_le s s' k k' : le s s' -> Ropt s k k' -> Ropt s' k k'.
Proof. intros L. destruct k, k'; cbn [Ropt]; auto. apply (le_nm _ _ L). Qed.

Lemma ret_rel {A} s (a : A) : rel Req s (mret a) (mret a).
Proof. reflexivity. Qed.
Lemma retp_rel s p q : nm s p q -> rel Rp s (mret p) (mret q).
Proof. trivial. Qed.
Lemma retm_rel s k k' : Rmask s k k' -> rel Rmask s (mret k) (mret k').
Proof. trivial. Qed.
Lemma panic_rel {A} (R : view -> A -> A -> Prop) s : rel R s mpanic mpanic.
Proof. exact I. Qed.
Lemma diverge_rel {A} (R : view -> A -> A -> Prop) s : rel R s mdiverge mdiverge.
Proof. exact I. Qed.
Lemma lift_rel {A} s (x : res A) : rel Req s (mlift x) (mlift x).
Proof. destruct x; [reflexivity|exact I|exact I]. Qed.
Lemma poll_rel s E : rel Req s (poll E) (poll E).
Proof. split; [reflexivity|]. intro. reflexivity. Qed.
Lemma load_rel s p q : nm s p q -> rel Req s (load p) (load q).
Proof. intro H. split; [exact H|]. intro. reflexivity. Qed.
Lemma store_rel s p q m : ow s p = true -> nm s p q -> rel Req s (store p m) (store q m).
Proof. intros H1 H2. repeat split; trivial. Qed.
Lemma alloc_rel s m : rel (fun s p q => nm s p q /\ ow s p = true) s (alloc m) (alloc m).
Proof. split; [reflexivity|]. intros p p' F. cbn [rel]. cbn [grow nm ow]. split; [left; auto|]. rewrite Nat.eqb_refl. reflexivity. Qed.
Lemma At_rel s p q r c : nm s p q -> rel Req s (p_At p r c) (p_At q r c).
Proof. intro H. repeat split; trivial. Qed.
Lemma Element_rel s k k' r c : Rmask s k k' -> rel Req s (mask_Element k r c) (mask_Element k' r c).
Proof.
  destruct k, k'; cbn [Rmask mask_Element]; try contradiction; intros H; try exact I; try reflexivity.
  - repeat split; trivial.
  - destruct H as (_ & _ & ->). reflexivity.
Qed.

(** a new object of one's own *)
Definition Rnew (s : view) (p q : ptr) : Prop := nm s p q /\ ow s p = true.

Create HintDb rel.
Hint Resolve ret_rel retp_rel retm_rel panic_rel diverge_rel lift_rel poll_rel load_rel store_rel At_rel Element_rel : rel.
Lemma alloc_rel' s m : rel Rnew s (alloc m) (alloc m).
Proof. exact (alloc_rel s m). Qed.
Hint Resolve alloc_rel' : rel.

(** what was known stays known *)
Ltac up L :=
  repeat match goal with
    | H : nm ?s _ _ |- _ => match type of L with le s _ => apply (le_nm _ _ L) in H end
    | H : ow ?s _ = true |- _ => match type of L with le s _ => apply (le_ow _ _ L) in H end
    | H : Rmask ?s _ _ |- _ => match type of L with le s _ => apply (Rmask_le _ _ _ _ L) in H end
    | H : Ropt ?s _ _ |- _ => match type of L with le s _ => apply (Ropt_le _ _ _ _ L) in H end
    end;
  repeat match goal with
    | H : forall s, le ?s0 s -> _ |- _ =>
        match type of L with le s0 ?s1 =>
          let H' := fresh in
          assert (H' := fun s2 (L2 : le s1 s2) => H s2 (le_trans s0 s1 s2 L L2)); clear H
        end
    end;
  clear L.
Ltac res :=
  repeat match goal with
    | H : Req _ _ _ |- _ => unfold Req in H; subst
    | H : Rp _ _ _ |- _ => unfold Rp in H
    | H : Rnew _ _ _ |- _ => destruct H
    end.
Ltac relgo := intros; cbv beta zeta;
  repeat (first
    [ solve [auto with rel nocore]
    | match goal with
      | H1 : nm ?s ?p ?p', H2 : nm ?s ?q ?q' |- context [Nat.eqb ?p ?q] => rewrite (nm_eqb s p p' q q' H1 H2)
      | |- rel _ _ (mbind _ _) _ =>
          eapply rel_bind; [solve [eauto with rel nocore]|let L := fresh in intros ? ? ? L ?; up L; res; cbv beta]
      | |- context [match (match ?x with _ => _ end) with _ => _ end] => destruct x; cbv iota beta
      | |- context [match ?x with _ => _ end] => destruct x
      end ]).

Lemma retn_rel s p q : nm s p q -> ow s p = true -> rel Rnew s (mret p) (mret q).
Proof. intros. split; assumption. Qed.
Hint Resolve retn_rel : rel.
Lemma MNil_rel s : Rmask s MNil MNil.
Proof. exact I. Qed.
Hint Resolve MNil_rel : rel.
Lemma MObj_rel s p q : nm s p q -> Rmask s (MObj p) (MObj q).
Proof. trivial. Qed.
Hint Resolve MObj_rel : rel.

(** ** World.v *)

Lemma p_Rows_rel vw p p' : nm vw p p' -> rel Req vw (p_Rows p) (p_Rows p').
Proof. unfold p_Rows. relgo. Qed.
Hint Resolve p_Rows_rel : rel.

Lemma p_Columns_rel vw p p' : nm vw p p' -> rel Req vw (p_Columns p) (p_Columns p').
Proof. unfold p_Columns. relgo. Qed.
Hint Resolve p_Columns_rel : rel.

Lemma p_Values_rel vw p p' : nm vw p p' -> rel Req vw (p_Values p) (p_Values p').
Proof. unfold p_Values. relgo. Qed.
Hint Resolve p_Values_rel : rel.

Lemma p_Size_rel vw p p' : nm vw p p' -> rel Req vw (p_Size p) (p_Size p').
Proof. unfold p_Size. relgo. Qed.
Hint Resolve p_Size_rel : rel.

Lemma p_Set_rel vw p p' r c v : nm vw p p' -> ow vw p = true -> rel Req vw (p_Set p r c v) (p_Set p' r c v).
Proof. unfold p_Set. relgo. Qed.
Hint Resolve p_Set_rel : rel.

Lemma p_Update_rel vw p p' r c f : nm vw p p' -> ow vw p = true -> rel Req vw (p_Update p r c f) (p_Update p' r c f).
Proof. unfold p_Update. relgo. Qed.
Hint Resolve p_Update_rel : rel.

Lemma p_SetVec_rel vw p p' i v : nm vw p p' -> ow vw p = true -> rel Req vw (p_SetVec p i v) (p_SetVec p' i v).
Proof. unfold p_SetVec. relgo. Qed.
Hint Resolve p_SetVec_rel : rel.

Lemma p_Copy_rel vw p p' : nm vw p p' -> rel Rnew vw (p_Copy p) (p_Copy p').
Proof. unfold p_Copy. relgo. Qed.
Hint Resolve p_Copy_rel : rel.

Lemma p_Clear_rel vw p p' : nm vw p p' -> ow vw p = true -> rel Req vw (p_Clear p) (p_Clear p').
Proof. unfold p_Clear. relgo. Qed.
Hint Resolve p_Clear_rel : rel.

Lemma p_RowsAt_rel vw p p' r : nm vw p p' -> rel Rnew vw (p_RowsAt p r) (p_RowsAt p' r).
Proof. unfold p_RowsAt. relgo. Qed.
Hint Resolve p_RowsAt_rel : rel.

Lemma p_ColumnsAt_rel vw p p' c : nm vw p p' -> rel Rnew vw (p_ColumnsAt p c) (p_ColumnsAt p' c).
Proof. unfold p_ColumnsAt. relgo. Qed.
Hint Resolve p_ColumnsAt_rel : rel.

Lemma p_RowsAtToArray_rel vw p p' r : nm vw p p' -> rel Req vw (p_RowsAtToArray p r) (p_RowsAtToArray p' r).
Proof. unfold p_RowsAtToArray. relgo. Qed.
Hint Resolve p_RowsAtToArray_rel : rel.

Lemma p_IsSparse_rel vw E p p' : nm vw p p' -> rel Req vw (p_IsSparse E p) (p_IsSparse E p').
Proof. unfold p_IsSparse. relgo. Qed.
Hint Resolve p_IsSparse_rel : rel.

Lemma mask_Rows_rel s k k' : Rmask s k k' -> rel Req s (mask_Rows k) (mask_Rows k').
Proof.
  destruct k, k'; cbn [Rmask mask_Rows]; try contradiction; intro H; try exact I; try (destruct H as [? ?]; subst; reflexivity); auto with rel nocore.
  all: destruct H as (? & ? & ?); subst; reflexivity.
Qed.
Hint Resolve mask_Rows_rel : rel.

Lemma mask_Columns_rel s k k' : Rmask s k k' -> rel Req s (mask_Columns k) (mask_Columns k').
Proof.
  destruct k, k'; cbn [Rmask mask_Columns]; try contradiction; intro H; try exact I; try (destruct H as [? ?]; subst; reflexivity); auto with rel nocore.
  all: destruct H as (? & ? & ?); subst; reflexivity.
Qed.
Hint Resolve mask_Columns_rel : rel.

Lemma check_mask_rel s k k' p p' : Rmask s k k' -> nm s p p' -> rel Rmask s (check_mask k p) (check_mask k' p').
Proof.
  intros K P. unfold check_mask.
  eapply rel_bind; [apply p_Rows_rel; exact P|]. intros s1 r r' L E. up L. res.
  eapply rel_bind; [apply p_Columns_rel; exact P|]. intros s2 c c' L E. up L. res. cbv zeta.
  assert (K' : Rmask s2 (match k with MNil => MEmpty r' c' | _ => k end) (match k' with MNil => MEmpty r' c' | _ => k' end)).
  { destruct k, k'; cbn [Rmask] in K |- *; auto; contradiction. }
  revert K'. generalize (match k with MNil => MEmpty r' c' | _ => k end) (match k' with MNil => MEmpty r' c' | _ => k' end).
  clear K k k'. intros k k' K. relgo.
Qed.
Hint Resolve check_mask_rel : rel.

Lemma for_list_rel {R I} s (l : list I) f (g : I -> prog (option R)) :
  (forall s', le s s' -> forall i, rel Req s' (f i) (g i)) -> rel Req s (for_list l f) (for_list l g).
Proof.
  revert s. induction l as [|i l IH]; intros s H; cbn [for_list]; [apply ret_rel|].
  eapply rel_bind; [apply H, le_refl|]. intros s' a b L E. unfold Req in E. subst. destruct b; [apply ret_rel|].
  apply IH. intros s2 L2. apply H. exact (le_trans _ _ _ L L2).
Qed.

Lemma enum_loop_rel {R} s E fuel p p' it (x : R) f (g : Z -> Z -> V -> prog (option R)) :
  nm s p p' -> (forall s', le s s' -> forall r c v, rel Req s' (f r c v) (g r c v)) ->
  rel Req s (enum_loop E fuel p it x f) (enum_loop E fuel p' it x g).
Proof.
  revert s it. induction fuel as [|fuel IH]; intros s it P H; cbn [enum_loop]; destruct (mat_HasNext it); try apply ret_rel; [exact I|].
  eapply rel_bind; [apply poll_rel|]. intros s1 a b L E1. unfold Req in E1. subst. up L. destruct b; [apply ret_rel|].
  eapply rel_bind; [apply load_rel; exact P|]. intros s2 a b L E1. unfold Req in E1. subst. up L.
  eapply rel_bind; [apply lift_rel|]. intros s3 a2 b2 L E1. unfold Req in E1. subst. up L. destruct b2 as [[[r c] v] it'].
  eapply rel_bind; [apply H0, le_refl|]. intros s4 a3 b3 L E1. unfold Req in E1. subst. up L. destruct b3; [apply ret_rel|].
  apply IH; assumption.
Qed.

Lemma enumerate_rel {R} s E p p' (x : R) f (g : Z -> Z -> V -> prog (option R)) :
  nm s p p' -> (forall s', le s s' -> forall r c v, rel Req s' (f r c v) (g r c v)) ->
  rel Req s (enumerate E p x f) (enumerate E p' x g).
Proof.
  intros P H. unfold enumerate. eapply rel_bind; [apply load_rel; exact P|]. intros s1 a b L E1. unfold Req in E1. subst. up L.
  apply enum_loop_rel; assumption.
Qed.

Lemma map_step_rel s p p' it f (g : Z -> Z -> V -> prog V) :
  nm s p p' -> ow s p = true -> (forall s', le s s' -> forall r c v, rel Req s' (f r c v) (g r c v)) ->
  rel Req s (map_step p it f) (map_step p' it g).
Proof.
  intros P O H. unfold map_step. eapply rel_bind; [apply load_rel; exact P|]. intros s1 a b L E1. unfold Req in E1. subst. up L.
  eapply rel_bind; [apply lift_rel|]. intros s3 a2 b2 L E1. unfold Req in E1. subst. up L.
  eapply rel_bind; [apply lift_rel|]. intros s4 a3 b3 L E1. unfold Req in E1. subst. up L. destruct b3 as [[r c] v].
  eapply rel_bind; [apply H0, le_refl|]. intros s5 a4 b4 L E1. unfold Req in E1. subst. up L. relgo.
Qed.

Lemma map_loop_rel s E stop fuel p p' it f (g : Z -> Z -> V -> prog V) :
  nm s p p' -> ow s p = true -> (forall s', le s s' -> forall r c v, rel Req s' (f r c v) (g r c v)) ->
  rel Req s (map_loop E stop fuel p it f) (map_loop E stop fuel p' it g).
Proof.
  revert s it. induction fuel as [|fuel IH]; intros s it P O H; cbn [map_loop]; destruct (mat_HasNext it); try apply ret_rel; [exact I|].
  eapply rel_bind; [apply poll_rel|]. intros s1 a b L E1. unfold Req in E1. subst. up L.
  destruct b; [destruct stop; [apply ret_rel|apply IH; assumption]|].
  eapply rel_bind; [apply map_step_rel; assumption|]. intros s2 a b L E1. unfold Req in E1. subst. up L.
  apply IH; assumption.
Qed.

Lemma map_over_rel s E stop p p' f (g : Z -> Z -> V -> prog V) :
  nm s p p' -> ow s p = true -> (forall s', le s s' -> forall r c v, rel Req s' (f r c v) (g r c v)) ->
  rel Req s (map_over E stop p f) (map_over E stop p' g).
Proof.
  intros P O H. unfold map_over. eapply rel_bind; [apply load_rel; exact P|]. intros s1 a b L E1. unfold Req in E1. subst. up L.
  apply map_loop_rel; assumption.
Qed.

(** loops are entered with the bodies related *)
Ltac enter lem := first
  [ apply lem; [let L := fresh in intros ? L ?; up L]
  | apply lem; [solve [auto with rel nocore]|let L := fresh in intros ? L ? ? ?; up L]
  | apply lem; [solve [auto with rel nocore]|solve [auto with rel nocore]|let L := fresh in intros ? L ? ? ?; up L] ].
Ltac relloop := relgo; repeat (match goal with
    | |- rel _ _ (mbind _ _) _ =>
        eapply rel_bind; [first [enter (@for_list_rel) | enter (@enumerate_rel) | enter (@map_over_rel)] |let L := fresh in intros ? ? ? L ?; up L; res; cbv beta]
    | |- rel _ _ (mbind (match ?x with _ => _ end) _) _ => destruct x
    | |- rel _ _ (for_list _ _) _ => enter (@for_list_rel)
    | |- rel _ _ (enumerate _ _ _ _) _ => enter (@enumerate_rel)
    | |- rel _ _ (map_over _ _ _ _) _ => enter (@map_over_rel)
    end; relgo).

(** ** Ops.v *)

Lemma dot_loop_rel s E a b l x : rel Req s (dot_loop E a b l x) (dot_loop E a b l x).
Proof. revert s x. induction l as [|y l IH]; intros s x; cbn [dot_loop]; relgo. Qed.
Hint Resolve dot_loop_rel : rel.

Lemma multiply_rel vw E s s' m m' k k' matrix matrix' : nm vw s s' -> nm vw m m' -> Rmask vw k k' -> nm vw matrix matrix' -> ow vw matrix = true -> rel Req vw (multiply E s m k matrix) (multiply E s' m' k' matrix').
Proof. unfold multiply. relloop. Qed.
Hint Resolve multiply_rel : rel.

Lemma MatrixMatrixMultiply_rel s E a a' b b' k k' t t' :
  nm s a a' -> nm s b b' -> Rmask s k k' -> nm s t t' -> ow s t = true ->
  rel Req s (MatrixMatrixMultiply E a b k t) (MatrixMatrixMultiply E a' b' k' t').
Proof. apply multiply_rel. Qed.
Hint Resolve MatrixMatrixMultiply_rel : rel.

Lemma VectorMatrixMultiply_rel vw E s s' m m' k k' vector vector' : nm vw s s' -> nm vw m m' -> Rmask vw k k' -> nm vw vector vector' -> ow vw vector = true -> rel Req vw (VectorMatrixMultiply E s m k vector) (VectorMatrixMultiply E s' m' k' vector').
Proof. unfold VectorMatrixMultiply. relloop. Qed.
Hint Resolve VectorMatrixMultiply_rel : rel.

Lemma MatrixVectorMultiply_rel vw E s s' m m' k k' vector vector' : nm vw s s' -> nm vw m m' -> Rmask vw k k' -> nm vw vector vector' -> ow vw vector = true -> rel Req vw (MatrixVectorMultiply E s m k vector) (MatrixVectorMultiply E s' m' k' vector').
Proof. unfold MatrixVectorMultiply. relloop. Qed.
Hint Resolve MatrixVectorMultiply_rel : rel.

Lemma elementWiseMultiply_rel vw E s s' m m' k k' matrix matrix' :
  nm vw s s' -> nm vw m m' -> Rmask vw k k' -> nm vw matrix matrix' -> ow vw matrix = true ->
  rel Req vw (elementWiseMultiply E s m k matrix) (elementWiseMultiply E s' m' k' matrix').
Proof.
  intros Hs Hm Hk Ht Ho. unfold elementWiseMultiply.
  eapply rel_bind; [apply check_mask_rel; eassumption|]. clear k k' Hk. intros v1 k k' L Hk. up L. cbv zeta.
  eapply rel_bind; [apply p_IsSparse_rel; eassumption|]. intros v2 b b' L Hb. up L. res.
  eapply rel_bind with (R := Req); [|relgo].
  rewrite <- (nm_eqb v2 m m' matrix matrix' Hm Ht), <- (nm_eqb v2 s s' matrix matrix' Hs Ht).
  assert (O : forall x x', nm v2 x x' -> Nat.eqb x matrix = true -> ow v2 x = true).
  { intros x x' _ H. apply Nat.eqb_eq in H. subst. exact Ho. }
  assert (Om := O _ _ Hm). assert (Os := O _ _ Hs). clear O.
  destruct (Nat.eqb m matrix); [specialize (Om eq_refl); clear Os; relloop|].
  destruct (Nat.eqb s matrix); [specialize (Os eq_refl); clear Om; relloop|].
  clear Om Os. destruct b'; relloop.
Qed.
Hint Resolve elementWiseMultiply_rel : rel.

Lemma ElementWiseMatrixMultiply_rel vw E s s' m m' k k' matrix matrix' : nm vw s s' -> nm vw m m' -> Rmask vw k k' -> nm vw matrix matrix' -> ow vw matrix = true -> rel Req vw (ElementWiseMatrixMultiply E s m k matrix) (ElementWiseMatrixMultiply E s' m' k' matrix').
Proof. unfold ElementWiseMatrixMultiply. relloop. Qed.
Hint Resolve ElementWiseMatrixMultiply_rel : rel.

Lemma ElementWiseVectorMultiply_rel vw E s s' m m' k k' vector vector' : nm vw s s' -> nm vw m m' -> Rmask vw k k' -> nm vw vector vector' -> ow vw vector = true -> rel Req vw (ElementWiseVectorMultiply E s m k vector) (ElementWiseVectorMultiply E s' m' k' vector').
Proof. unfold ElementWiseVectorMultiply. relloop. Qed.
Hint Resolve ElementWiseVectorMultiply_rel : rel.

Lemma check_sizes_rel vw s s' m m' : nm vw s s' -> nm vw m m' -> rel Req vw (check_sizes s m) (check_sizes s' m').
Proof. unfold check_sizes. relloop. Qed.
Hint Resolve check_sizes_rel : rel.

Lemma Add_rel vw E s s' m m' k k' matrix matrix' : nm vw s s' -> nm vw m m' -> Rmask vw k k' -> nm vw matrix matrix' -> ow vw matrix = true -> rel Req vw (Add E s m k matrix) (Add E s' m' k' matrix').
Proof. unfold Add. relloop. Qed.
Hint Resolve Add_rel : rel.

Lemma ewa_loop_rel vw E src src' k k' matrix matrix' : nm vw src src' -> Rmask vw k k' -> nm vw matrix matrix' -> ow vw matrix = true -> rel Req vw (ewa_loop E src k matrix) (ewa_loop E src' k' matrix').
Proof. unfold ewa_loop. relloop. Qed.
Hint Resolve ewa_loop_rel : rel.

Lemma elementWiseAdd_rel vw E s s' m m' k k' matrix matrix' : nm vw s s' -> nm vw m m' -> Rmask vw k k' -> nm vw matrix matrix' -> ow vw matrix = true -> rel Req vw (elementWiseAdd E s m k matrix) (elementWiseAdd E s' m' k' matrix').
Proof. unfold elementWiseAdd. relloop. Qed.
Hint Resolve elementWiseAdd_rel : rel.

Lemma ElementWiseMatrixAdd_rel vw E s s' m m' k k' matrix matrix' : nm vw s s' -> nm vw m m' -> Rmask vw k k' -> nm vw matrix matrix' -> ow vw matrix = true -> rel Req vw (ElementWiseMatrixAdd E s m k matrix) (ElementWiseMatrixAdd E s' m' k' matrix').
Proof. unfold ElementWiseMatrixAdd. relloop. Qed.
Hint Resolve ElementWiseMatrixAdd_rel : rel.

Lemma ElementWiseVectorAdd_rel vw E s s' m m' k k' vector vector' : nm vw s s' -> nm vw m m' -> Rmask vw k k' -> nm vw vector vector' -> ow vw vector = true -> rel Req vw (ElementWiseVectorAdd E s m k vector) (ElementWiseVectorAdd E s' m' k' vector').
Proof. unfold ElementWiseVectorAdd. relloop. Qed.
Hint Resolve ElementWiseVectorAdd_rel : rel.

Lemma Subtract_rel vw E s s' m m' k k' matrix matrix' : nm vw s s' -> nm vw m m' -> Rmask vw k k' -> nm vw matrix matrix' -> ow vw matrix = true -> rel Req vw (Subtract E s m k matrix) (Subtract E s' m' k' matrix').
Proof. unfold Subtract. relloop. Qed.
Hint Resolve Subtract_rel : rel.

Lemma Apply_rel vw E s s' k k' u matrix matrix' :
  nm vw s s' -> Rmask vw k k' -> nm vw matrix matrix' -> ow vw matrix = true ->
  rel Req vw (Apply E s k u matrix) (Apply E s' k' u matrix').
Proof.
  intros Hs Hk Ht Ho. unfold Apply.
  eapply rel_bind; [apply check_mask_rel; eassumption|]. clear k k' Hk. intros v1 k k' L Hk. up L.
  rewrite <- (nm_eqb v1 s s' matrix matrix' Hs Ht). destruct (Nat.eqb_spec s matrix) as [->|D]; relloop.
Qed.
Hint Resolve Apply_rel : rel.

Lemma Negative_rel vw E s s' k k' matrix matrix' : Rmask vw k k' -> nm vw matrix matrix' -> ow vw matrix = true -> rel Req vw (Negative E s k matrix) (Negative E s' k' matrix').
Proof. unfold Negative. relloop. Qed.
Hint Resolve Negative_rel : rel.

Lemma Transpose_rel vw E s s' k k' matrix matrix' : nm vw s s' -> Rmask vw k k' -> nm vw matrix matrix' -> ow vw matrix = true -> rel Req vw (Transpose E s k matrix) (Transpose E s' k' matrix').
Proof. unfold Transpose. relloop. Qed.
Hint Resolve Transpose_rel : rel.

Lemma TransposeToCSR_rel vw E s s' : nm vw s s' -> rel Rnew vw (TransposeToCSR E s) (TransposeToCSR E s').
Proof. unfold TransposeToCSR. relloop. Qed.
Hint Resolve TransposeToCSR_rel : rel.

Lemma TransposeToCSC_rel vw E s s' : nm vw s s' -> rel Rnew vw (TransposeToCSC E s) (TransposeToCSC E s').
Proof. unfold TransposeToCSC. relloop. Qed.
Hint Resolve TransposeToCSC_rel : rel.

Lemma Equal_rel s E o1 o1' o2 o2' : Ropt s o1 o1' -> Ropt s o2 o2' -> rel Req s (Equal E o1 o2) (Equal E o1' o2').
Proof.
  intros H1 H2. destruct o1, o1', o2, o2'; cbn [Ropt] in H1, H2; try contradiction; unfold Equal; try apply ret_rel.
  relloop.
Qed.
Hint Resolve Equal_rel : rel.
Lemma Some_rel s p p' : nm s p p' -> Ropt s (Some p) (Some p').
Proof. trivial. Qed.
Hint Resolve Some_rel : rel.
Lemma None_rel s : Ropt s None None.
Proof. exact I. Qed.
Hint Resolve None_rel : rel.

Lemma NotEqual_rel vw E os os' om om' : Ropt vw os os' -> Ropt vw om om' -> rel Req vw (NotEqual E os om) (NotEqual E os' om').
Proof. unfold NotEqual. relloop. Qed.
Hint Resolve NotEqual_rel : rel.

Lemma Scalar_rel vw E s s' alpha : nm vw s s' -> rel Rnew vw (Scalar E s alpha) (Scalar E s' alpha).
Proof. unfold Scalar. relloop. Qed.
Hint Resolve Scalar_rel : rel.

Lemma reduce_loop_rel s E fuel p p' it k k' op acc :
  nm s p p' -> Rmask s k k' -> rel Req s (reduce_loop E fuel p it k op acc) (reduce_loop E fuel p' it k' op acc).
Proof.
  revert s it acc. induction fuel as [|fuel IH]; intros s it acc P K; cbn [reduce_loop]; destruct (mat_HasNext it); try apply ret_rel; [exact I|].
  relgo.
Qed.
Hint Resolve reduce_loop_rel : rel.

Lemma ReduceMatrixToScalarWithMonoID_rel vw E s s' mo k k' : nm vw s s' -> Rmask vw k k' -> rel Req vw (ReduceMatrixToScalarWithMonoID E s mo k) (ReduceMatrixToScalarWithMonoID E s' mo k').
Proof. unfold ReduceMatrixToScalarWithMonoID. relloop. Qed.
Hint Resolve ReduceMatrixToScalarWithMonoID_rel : rel.

Lemma ReduceMatrixToScalar_rel vw E s s' k k' : nm vw s s' -> Rmask vw k k' -> rel Req vw (ReduceMatrixToScalar E s k) (ReduceMatrixToScalar E s' k').
Proof. unfold ReduceMatrixToScalar. relloop. Qed.
Hint Resolve ReduceMatrixToScalar_rel : rel.

Lemma ReduceMatrixToVectorWithMonoID_rel vw E s s' mo k k' : nm vw s s' -> Rmask vw k k' -> rel Rnew vw (ReduceMatrixToVectorWithMonoID E s mo k) (ReduceMatrixToVectorWithMonoID E s' mo k').
Proof. unfold ReduceMatrixToVectorWithMonoID. relloop. Qed.
Hint Resolve ReduceMatrixToVectorWithMonoID_rel : rel.

Lemma ReduceMatrixToVector_rel vw E s s' : nm vw s s' -> rel Rnew vw (ReduceMatrixToVector E s) (ReduceMatrixToVector E s').
Proof. unfold ReduceMatrixToVector. relloop. Qed.
Hint Resolve ReduceMatrixToVector_rel : rel.

Lemma m_Scalar_rel vw E s s' alpha : nm vw s s' -> rel Rnew vw (m_Scalar E s alpha) (m_Scalar E s' alpha).
Proof. unfold m_Scalar. relloop. Qed.
Hint Resolve m_Scalar_rel : rel.

Lemma m_Multiply_rel vw E s s' m m' : nm vw s s' -> nm vw m m' -> rel Rnew vw (m_Multiply E s m) (m_Multiply E s' m').
Proof. unfold m_Multiply. relloop. Qed.
Hint Resolve m_Multiply_rel : rel.

Lemma m_Add_rel vw E s s' m m' : nm vw s s' -> nm vw m m' -> rel Rnew vw (m_Add E s m) (m_Add E s' m').
Proof. unfold m_Add. relloop. Qed.
Hint Resolve m_Add_rel : rel.

Lemma m_Subtract_rel s E a a' b b' : nm s a a' -> nm s b b' -> rel Rnew s (m_Subtract E a b) (m_Subtract E a' b').
Proof.
  intros Ha Hb. unfold m_Subtract. eapply rel_bind; [apply load_rel; exact Ha|]. intros s1 so ? L E1. up L. res.
  eapply rel_bind with (R := Rnew); [destruct b0; auto with rel nocore|]. intros s2 t t' L E1. up L. res. relgo.
Qed.
Hint Resolve m_Subtract_rel : rel.

Lemma m_Negative_rel vw E s s' : nm vw s s' -> rel Rnew vw (m_Negative E s) (m_Negative E s').
Proof. unfold m_Negative. relloop. Qed.
Hint Resolve m_Negative_rel : rel.

Lemma m_Transpose_rel vw E s s' : nm vw s s' -> rel Rnew vw (m_Transpose E s) (m_Transpose E s').
Proof. unfold m_Transpose. relloop. Qed.
Hint Resolve m_Transpose_rel : rel.

Lemma m_Equal_rel vw E s s' om om' : nm vw s s' -> Ropt vw om om' -> rel Req vw (m_Equal E s om) (m_Equal E s' om').
Proof. unfold m_Equal. relloop. Qed.
Hint Resolve m_Equal_rel : rel.

Lemma m_NotEqual_rel vw E s s' om om' : nm vw s s' -> Ropt vw om om' -> rel Req vw (m_NotEqual E s om) (m_NotEqual E s' om').
Proof. unfold m_NotEqual. relloop. Qed.
Hint Resolve m_NotEqual_rel : rel.

(** ** MathOps.v *)

Lemma Symmetric_rel vw E s s' : nm vw s s' -> rel Req vw (Symmetric E s) (Symmetric E s').
Proof. unfold Symmetric. relloop. Qed.
Hint Resolve Symmetric_rel : rel.

Lemma SkewSymmetric_rel vw E s s' : nm vw s s' -> rel Req vw (SkewSymmetric E s) (SkewSymmetric E s').
Proof. unfold SkewSymmetric. relloop. Qed.
Hint Resolve SkewSymmetric_rel : rel.

Lemma pivot_search_rel s fuel m m' a b r i l : nm s m m' -> rel Req s (pivot_search fuel m a b r i l) (pivot_search fuel m' a b r i l).
Proof. revert s i l. induction fuel as [|fuel IH]; intros s i l P; cbn [pivot_search]; relgo. Qed.
Hint Resolve pivot_search_rel : rel.

Lemma for_values_rel s l f (g : Z -> V -> prog unit) :
  (forall s', le s s' -> forall c v, rel Req s' (f c v) (g c v)) -> rel Req s (for_values l f) (for_values l g).
Proof.
  intro H. unfold for_values. eapply rel_bind with (R := Req); [|relgo]. apply for_list_rel. intros s1 L i. up L.
  eapply rel_bind; [apply lift_rel|]. intros s2 ? ? L E. up L. res.
  eapply rel_bind; [apply H, le_refl|]. intros. apply ret_rel.
Qed.
Ltac relval := relloop; repeat (match goal with
    | |- rel _ _ (mbind (for_values _ _) _) _ =>
        eapply rel_bind; [apply for_values_rel; let L := fresh in intros ? L ? ?; up L|let L := fresh in intros ? ? ? L ?; up L; res; cbv beta]
    | |- rel _ _ (for_values _ _) _ => apply for_values_rel; let L := fresh in intros ? L ? ?; up L
    end; relloop).

Lemma swap_rows_rel vw m m' i r : nm vw m m' -> ow vw m = true -> rel Req vw (swap_rows m i r) (swap_rows m' i r).
Proof. unfold swap_rows. relval. Qed.
Hint Resolve swap_rows_rel : rel.

Lemma scale_row_rel vw m m' r lead : nm vw m m' -> ow vw m = true -> rel Req vw (scale_row m r lead) (scale_row m' r lead).
Proof. unfold scale_row. relval. Qed.
Hint Resolve scale_row_rel : rel.

Lemma clear_column_rel vw m m' rowCount r lead : nm vw m m' -> ow vw m = true -> rel Req vw (clear_column m rowCount r lead) (clear_column m' rowCount r lead).
Proof. unfold clear_column. relval. Qed.
Hint Resolve clear_column_rel : rel.

Lemma reduce_rows_rel s fuel m m' a b n r l :
  nm s m m' -> ow s m = true -> rel Req s (reduce_rows fuel m a b n r l) (reduce_rows fuel m' a b n r l).
Proof. revert s r l. induction n as [|n IH]; intros s r l P O; cbn [reduce_rows]; relgo. Qed.
Hint Resolve reduce_rows_rel : rel.

Lemma Reduced_rel vw E s s' : nm vw s s' -> rel Rnew vw (Reduced E s) (Reduced E s').
Proof. unfold Reduced. relval. Qed.
Hint Resolve Reduced_rel : rel.

Lemma copy_cell_rel vw dst dst' src src' r c r' c' : nm vw dst dst' -> ow vw dst = true -> nm vw src src' -> rel Req vw (copy_cell dst src r c r' c') (copy_cell dst' src' r c r' c').
Proof. unfold copy_cell. relval. Qed.
Hint Resolve copy_cell_rel : rel.

Lemma grid_rel s E r c f (g : Z -> Z -> prog unit) :
  (forall s', le s s' -> forall r c, rel Req s' (f r c) (g r c)) -> rel Req s (grid E r c f) (grid E r c g).
Proof.
  intro H. unfold grid. eapply rel_bind with (R := Req); [|relgo]. apply for_list_rel. intros s1 L i. up L.
  apply for_list_rel. intros s2 L j. up L.
  eapply rel_bind; [apply poll_rel|]. intros s3 ? ? L E1. up L. res.
  eapply rel_bind with (R := Req); [|relgo]. destruct b; [apply ret_rel|apply H0, le_refl].
Qed.
Ltac relgrid := relloop; repeat (match goal with
    | |- rel _ _ (mbind (grid _ _ _ _) _) _ =>
        eapply rel_bind; [apply grid_rel; let L := fresh in intros ? L ? ?; up L|let L := fresh in intros ? ? ? L ?; up L; res; cbv beta]
    end; relloop).

Lemma new_dense_rel vw r c : rel Rnew vw (new_dense r c) (new_dense r c).
Proof. unfold new_dense. relval. Qed.
Hint Resolve new_dense_rel : rel.

(** numbered results *)
Definition Rrecv (s : view) (l l' : list (Z * ptr)) : Prop := Forall2 (fun x y => fst x = fst y /\ nm s (snd x) (snd y)) l l'.
Lemma received_rel s i l l' : Rrecv s l l' -> rel Rp s (received i l) (received i l').
Proof.
  intro H. induction H as [|[j p] [j' p'] l l' [H1 H2] _ IH]; cbn [received fst snd] in *; [exact I|].
  subst. destruct (j' =? i); [exact H2|exact IH].
Qed.
Hint Resolve received_rel : rel.
Lemma Rrecv_le s s' l l' : le s s' -> Rrecv s l l' -> Rrecv s' l l'.
Proof. intros L H. induction H as [|x y l l' [H1 H2] _ IH]; constructor; [|exact IH]. split; [exact H1|exact (le_nm _ _ L _ _ H2)]. Qed.

(** the operands of the seven products *)
Definition Rops (s : view) (f g : Z -> ptr * ptr) : Prop := forall i, nm s (fst (f i)) (fst (g i)) /\ nm s (snd (f i)) (snd (g i)).
Lemma operands_rel s E n a a' b b' : nm s a a' -> nm s b b' -> rel Rops s (operands E n a b) (operands E n a' b').
Proof.
  intros Ha Hb. unfold operands. relgrid.
  cbn [mret rel]. intro i. destruct (i =? 1); [|destruct (i =? 2); [|destruct (i =? 3); [|destruct (i =? 4); [|destruct (i =? 5); [|destruct (i =? 6)]]]]];
    cbn [fst snd]; split; assumption.
Qed.
Hint Resolve operands_rel : rel.

Lemma combine_rel s E l l' : Rrecv s l l' -> rel Rnew s (combine E l) (combine E l').
Proof.
  intros H. unfold combine.
  do 7 (eapply rel_bind; [apply received_rel; exact H|]; let L := fresh in intros ? ? ? L ?; apply (Rrecv_le _ _ _ _ L) in H; up L; res).
  relgrid. 
Qed.
Hint Resolve combine_rel : rel.

(** ** Bfs.v *)

Lemma search_loop_rel s E a a' c v v' r r' k d f f' :
  nm s a a' -> nm s v v' -> ow s v = true -> nm s r r' -> ow s r = true -> nm s f f' ->
  rel Req s (search_loop E a c v r k d f) (search_loop E a' c v' r' k d f').
Proof.
  revert s d f f'. induction k as [|k IH]; intros s d f f' H1 H2 H3 H4 H5 H6; cbn [search_loop]; [apply ret_rel|].
  eapply rel_bind; [apply MatrixVectorMultiply_rel; try eassumption|]. intros; res. up H. relgo.
Qed.
Hint Resolve search_loop_rel : rel.

(** the vector and what the callback was shown *)
Definition Rsearch {A} (s : view) (x y : ptr * A) : Prop := Rnew s (fst x) (fst y) /\ snd x = snd y.
Lemma Search_rel s E a a' x c : nm s a a' -> rel Rsearch s (Search E a x c) (Search E a' x c).
Proof. intro H. unfold Search. relgo. cbn [mret rel]. split; [split|reflexivity]; assumption. Qed.

(** ** Api.v *)

Lemma p_ReSize_rel vw p p' size : nm vw p p' -> ow vw p = true -> rel Req vw (p_ReSize p size) (p_ReSize p' size).
Proof. unfold p_ReSize. relloop. Qed.
Hint Resolve p_ReSize_rel : rel.

Lemma user_Map_rel vw E p p' f : nm vw p p' -> ow vw p = true -> rel Req vw (user_Map E p f) (user_Map E p' f).
Proof. unfold user_Map. relloop. Qed.
Hint Resolve user_Map_rel : rel.

End FineRel.
