(** What the parts of a call of Strassen's multiplication (FineStrassen.v) depend on and touch, and
    what a run of them one after the other gives. *)
From Coq Require Import String Permutation.
From Verif Require Import GoBase Num SparseVec Csr Csc DenseVec DenseMat Mat World Ops MathOps Bfs Spec Api BaseProofs Fine FineRel FineConc FineProofs FineStrassen FineCalm.

Section FineStrassenRel.
Context {N : num}.
Notation V := (T N).
Notation mat := (mat N).
Notation prog := (prog N).
Notation world := (world N).
Notation names := (ptr -> Prop).
Notation rel := (rel (N := N)).

Definition Rblocks (s : view) (b b' : blocks) : Prop :=
  nm s (b_a11 b) (b_a11 b') /\ nm s (b_a12 b) (b_a12 b') /\ nm s (b_a21 b) (b_a21 b') /\ nm s (b_a22 b) (b_a22 b') /\
  nm s (b_b11 b) (b_b11 b') /\ nm s (b_b12 b) (b_b12 b') /\ nm s (b_b21 b) (b_b21 b') /\ nm s (b_b22 b) (b_b22 b').
Definition Rnext (s : view) (n n' : next) : Prop :=
  match n, n' with Fin p, Fin q => Rnew s p q | Div b, Div b' => Rblocks s b b' | _, _ => False end.
Definition Rpair (s : view) (x y : ptr * ptr) : Prop := nm s (fst x) (fst y) /\ nm s (snd x) (snd y).
Definition Rlist (s : view) (l l' : list (Z * (ptr * ptr))) : Prop := Forall2 (fun x y => fst x = fst y /\ Rpair s (snd x) (snd y)) l l'.

Ltac up L :=
  repeat match goal with
    | H : nm ?s _ _ |- _ => match type of L with le s _ => apply (le_nm _ _ L) in H end
    | H : ow ?s _ = true |- _ => match type of L with le s _ => apply (le_ow _ _ L) in H end
    end;
  clear L.
Ltac res :=
  repeat match goal with
    | H : Req _ _ _ |- _ => unfold Req in H; subst
    | H : Rp _ _ _ |- _ => unfold Rp in H
    | H : Rnew _ _ _ |- _ => destruct H
    end.
(** one more command *)
Ltac then_ lem := eapply rel_bind; [apply lem; try eassumption|let L := fresh in intros ? ? ? L ?; up L; res; cbv beta].

Lemma Rblocks_le s s' b b' : le s s' -> Rblocks s b b' -> Rblocks s' b b'.
Proof. intros L H. unfold Rblocks in *. destruct H as (H1 & H2 & H3 & H4 & H5 & H6 & H7 & H8). up L. tauto. Qed.
Lemma Rlist_le s s' l l' : le s s' -> Rlist s l l' -> Rlist s' l l'.
Proof.
  intros L H. induction H as [|x y l l' [H1 [H2 H3]] _ IH]; constructor; [|exact IH]. split; [exact H1|].
  split; [exact (le_nm _ _ L _ _ H2)|exact (le_nm _ _ L _ _ H3)].
Qed.

Lemma divide_rel s E n a a' b b' : nm s a a' -> nm s b b' -> rel Rblocks s (divide E n a b) (divide E n a' b').
Proof.
  intros Ha Hb. unfold divide. do 8 then_ (@new_dense_rel N).
  eapply rel_bind.
  - apply grid_rel. let L := fresh in intros ? L ? ?; up L. do 7 then_ (@copy_cell_rel N). apply copy_cell_rel; assumption.
  - let L := fresh in intros ? ? ? L _; up L. cbn. repeat split; assumption.
Qed.

Lemma head_rel s E x f a a' b b' : nm s a a' -> nm s b b' -> rel Rnext s (head E x f a b) (head E x f a' b').
Proof.
  intros Ha Hb. unfold head. then_ (@p_Columns_rel N). then_ (@p_Rows_rel N). destruct (negb _); [exact Logic.I|].
  then_ (@p_Rows_rel N). destruct (_ <=? x).
  - then_ (@p_Rows_rel N). then_ (@p_Columns_rel N). then_ (@new_dense_rel N). then_ (@MatrixMatrixMultiply_rel N); [apply MNil_rel|]. split; assumption.
  - destruct f; [exact Logic.I|]. eapply rel_bind; [apply divide_rel; assumption|]. let H := fresh in intros ? ? ? ? H; exact H.
Qed.

Lemma opnd_rel s E i b b' : Rblocks s b b' -> rel Rpair s (opnd E i b) (opnd E i b').
Proof.
  intros (H1 & H2 & H3 & H4 & H5 & H6 & H7 & H8). unfold opnd.
  destruct (i =? 1); [|destruct (i =? 2); [|destruct (i =? 3); [|destruct (i =? 4); [|destruct (i =? 5); [|destruct (i =? 6)]]]]].
  - then_ (@m_Add_rel N). then_ (@m_Add_rel N). split; assumption.
  - then_ (@m_Add_rel N). split; assumption.
  - then_ (@m_Subtract_rel N). split; assumption.
  - then_ (@m_Subtract_rel N). split; assumption.
  - then_ (@m_Add_rel N). split; assumption.
  - then_ (@m_Subtract_rel N). then_ (@m_Add_rel N). split; assumption.
  - then_ (@m_Subtract_rel N). then_ (@m_Add_rel N). split; assumption.
Qed.

Lemma opsT_rel s E todo b b' : Rblocks s b b' -> rel Rlist s (opsT E todo b) (opsT E todo b').
Proof.
  revert s. induction todo as [|i todo IH]; intros s H; cbn [opsT]; [constructor|].
  eapply rel_bind; [apply opnd_rel; exact H|]. intros s1 xy xy' L1 H1. apply (Rblocks_le _ _ _ _ L1) in H.
  eapply rel_bind; [apply IH; exact H|]. intros s2 l l' L2 H2. constructor; [|exact H2]. split; [reflexivity|].
  destruct H1 as [A1 A2]. up L2. split; assumption.
Qed.

Lemma gatherT_rel s run os os' : (forall s' a a' b b', le s s' -> nm s' a a' -> nm s' b b' -> rel Rnew s' (run a b) (run a' b')) -> Rlist s os os' ->
  rel (fun s l l' => Forall2 (fun x y => fst x = fst y /\ Rnew s (snd x) (snd y)) l l') s (gatherT run os) (gatherT run os').
Proof.
  revert s os'. induction os as [|[i [a b]] os IH]; intros s os' Hr H; inversion H as [|? [i' [a' b']] ? l' [A1 [A2 A3]] A4]; subst; cbn [gatherT]; [constructor|].
  cbn [fst snd] in *. subst. eapply rel_bind; [apply Hr; [apply le_refl|exact A2|exact A3]|]. intros s1 p p' L1 Hp.
  eapply rel_bind; [apply IH|].
  - intros s' x x' y y' L2. apply Hr. exact (le_trans _ _ _ L1 L2).
  - apply (Rlist_le _ _ _ _ L1). exact A4.
  - intros s2 l l2 L2 H2. constructor; [|exact H2]. split; [reflexivity|]. cbn [snd]. destruct Hp as [B1 B2]. up L2. split; assumption.
Qed.

Lemma Rnew_recv s l l' : Forall2 (fun x y : Z * ptr => fst x = fst y /\ Rnew s (snd x) (snd y)) l l' -> Rrecv s l l'.
Proof. intro H. induction H as [|x y l l' [H1 [H2 H3]] _ IH]; constructor; auto. Qed.

Lemma cont_rel s E run b b' os os' todo : (forall s' a a' b b', le s s' -> nm s' a a' -> nm s' b b' -> rel Rnew s' (run a b) (run a' b')) ->
  Rblocks s b b' -> Rlist s os os' -> rel Rnew s (cont E run b os todo) (cont E run b' os' todo).
Proof.
  intros Hr Hb Ho. unfold cont. eapply rel_bind; [apply opsT_rel; exact Hb|]. intros s1 l l' L1 H1. apply (Rlist_le _ _ _ _ L1) in Ho.
  eapply rel_bind; [apply gatherT_rel|].
  - intros s' x x' y y' L2. apply Hr. exact (le_trans _ _ _ L1 L2).
  - apply Forall2_app; [exact Ho|exact H1].
  - intros s2 ms ms' L2 H2. apply combine_rel, Rnew_recv. exact H2.
Qed.

Lemma tree_rel s E x f a a' b b' : nm s a a' -> nm s b b' -> rel Rnew s (tree E x f a b) (tree E x f a' b').
Proof.
  revert s a a' b b'. induction f as [|f IH]; intros s a a' b b' Ha Hb; cbn [tree].
  - eapply rel_bind; [apply head_rel; assumption|]. intros s1 n n' L H. destruct n, n'; cbn [Rnext] in H; try contradiction; [exact H|exact Logic.I].
  - eapply rel_bind; [apply head_rel; assumption|]. intros s1 n n' L H. destruct n, n'; cbn [Rnext] in H; try contradiction; [exact H|].
    apply cont_rel; [intros; apply IH; assumption|exact H|constructor].
Qed.

(** ** What a run gives *)

(** the product that a run returns *)
Definition value (x : prog ptr) (w : world) : res mat :=
  match interp x w with
  | (w', Ok p) => match nth_error (w_heap w') p with Some m => Ok m | None => Panic end
  | (_, Panic) => Panic
  | (_, Diverge) => Diverge
  end.

(** related trees give the same product *)
Lemma value_rel s D x y w w' : rel Rnew s x y -> calm D any x -> together s D w w' -> value x w = value y w'.
Proof.
  intros H C T. destruct (rel_run _ _ _ _ _ _ _ _ H C T) as (s1 & D1 & P & T1 & _ & O). unfold value.
  destruct (interp x w) as [w1 o], (interp y w') as [w1' o']. cbn [fst snd] in *.
  destruct o as [p| |], o' as [q| |]; cbn [same_outcome] in O; try contradiction; try reflexivity.
  destruct O as [[O _] _]. destruct (tg_obj _ _ _ _ T1 _ _ O) as (m & -> & ->). reflexivity.
Qed.

Lemma value_bind {A} (x : prog A) k w w' a : interp x w = (w', Ok a) -> value (mbind x k) w = value (k a) w'.
Proof. intro H. unfold value. rewrite interp_bind. unfold World.mbind. rewrite H. reflexivity. Qed.

(** names that go by themselves, none owned *)
Definition self (D : names) : view.
Proof. refine {| nm := fun p q => p = q /\ D p; ow := fun _ => false |}; intros; intuition congruence. Defined.

Definition all_dense (D : names) (h : list mat) : Prop := forall p, D p -> exists m, nth_error h p = Some m /\ dense m.

Lemma self_together D w w' : all_dense D (w_heap w) -> (forall p, D p -> nth_error (w_heap w') p = nth_error (w_heap w) p) -> together (self D) D w w'.
Proof.
  intros H K. constructor; cbn [self nm ow].
  - intros p q [<- Dp]. destruct (H p Dp) as (m & Hm & _). exists m. rewrite (K p Dp). auto.
  - exact H.
  - intros p q m [<- Dp] _ Hm. destruct (H p Dp) as (m' & Hm' & X). apply dense_steady. congruence.
Qed.

(** the product of dense operands depends on nothing but them *)
Lemma tree_local E x f a b w w' : constant E -> (forall p, p = a \/ p = b -> exists m, nth_error (w_heap w) p = Some m /\ dense m /\ nth_error (w_heap w') p = Some m) ->
  value (tree E x f a b) w = value (tree E x f a b) w'.
Proof.
  intros K H. apply (value_rel (self (fun p => p = a \/ p = b)) (fun p => p = a \/ p = b)).
  - apply tree_rel; cbn; auto.
  - eapply calm_any, tree_calm. exact K.
  - apply self_together.
    + intros p Hp. destruct (H p Hp) as (m & A1 & A2 & A3). eauto.
    + intros p Hp. destruct (H p Hp) as (m & A1 & A2 & A3). congruence.
Qed.

(** a run on dense objects changes none of them, and returns new ones *)
Lemma dense_run {A} (R : view -> A -> A -> Prop) (Q : names -> A -> Prop) x D w : rel R (self D) x x -> calm D Q x -> all_dense D (w_heap w) ->
  exists D1 s1, (length (w_heap w) <= length (w_heap (fst (interp x w))))%nat /\
    (forall p, (p < length (w_heap w))%nat -> nth_error (w_heap (fst (interp x w))) p = nth_error (w_heap w) p) /\
    sub D D1 /\ all_dense D1 (w_heap (fst (interp x w))) /\
    (forall p q, nm s1 p q -> D p \/ (length (w_heap w) <= p)%nat) /\ (forall p, ow s1 p = true -> (length (w_heap w) <= p)%nat) /\
    (forall a, snd (interp x w) = Ok a -> R s1 a a /\ Q D1 a).
Proof.
  intros H C T. destruct (rel_run R Q x (self D) D x w w H C (self_together D w w T (fun _ _ => eq_refl))) as (s1 & D1 & P & T1 & S & O).
  exists D1, s1. destruct P as [P1 P2 P3 P4 P5 P6 P7]. repeat split; auto.
  - intros p Dp. exact (tg_dense _ _ _ _ T1 p Dp).
  - intros p q X. destruct (P4 _ _ X) as [[_ X']|(X1 & _)]; auto.
  - intros p X. destruct (P5 _ X) as [X'|X']; [discriminate|exact X'].
  - rewrite H0 in O. apply O.
  - rewrite H0 in O. apply O.
Qed.

(** a dense matrix in this world *)
Definition dense_at (w : world) (p : ptr) : Prop := exists m, nth_error (w_heap w) p = Some m /\ dense m.
Lemma dense_at_lt w p : dense_at w p -> (p < length (w_heap w))%nat.
Proof. intros (m & H & _). apply nth_error_Some. congruence. Qed.
Lemma dense_at_frame w w' p : dense_at w p -> (forall p, (p < length (w_heap w))%nat -> nth_error (w_heap w') p = nth_error (w_heap w) p) -> dense_at w' p.
Proof. intros H K. pose proof (dense_at_lt _ _ H) as L. destruct H as (m & H1 & H2). exists m. rewrite (K p L). auto. Qed.

(** the operands of a sub-product *)
Lemma opnd_run E i bl w w' o : quarters (dense_at w) bl -> interp (opnd E i bl) w = (w', o) ->
  (length (w_heap w) <= length (w_heap w'))%nat /\ (forall p, (p < length (w_heap w))%nat -> nth_error (w_heap w') p = nth_error (w_heap w) p) /\
  (forall xy, o = Ok xy -> both (dense_at w') xy).
Proof.
  intros Q H. destruct (dense_run Rpair both (opnd E i bl) (dense_at w) w) as (D1 & s1 & A1 & A2 & A3 & A4 & _ & _ & A5).
  - apply opnd_rel. unfold Rblocks, quarters, self in *. cbn [nm]. tauto.
  - apply opnd_calm. exact Q.
  - intros p Hp. exact Hp.
  - rewrite H in *. cbn [fst snd] in *. repeat split; auto; destruct (A5 _ H0) as [_ [B1 B2]]; apply A4; assumption.
Qed.

Lemma Forall2_in {A B} (P Q : A -> B -> Prop) l l' : (forall a b, List.In a l -> P a b -> Q a b) -> Forall2 P l l' -> Forall2 Q l l'.
Proof. intros H F. induction F as [|a b l l' H1 _ IH]; constructor; [apply H; [left; reflexivity|exact H1]|]. apply IH. intros. apply H; [right|]; assumption. Qed.

(** one product after the other *)
Lemma gather_run E x f os : constant E -> forall w w' o, Forall (fun o => both (dense_at w) (snd o)) os -> interp (gatherT (tree E x f) os) w = (w', o) ->
  (length (w_heap w) <= length (w_heap w'))%nat /\ (forall p, (p < length (w_heap w))%nat -> nth_error (w_heap w') p = nth_error (w_heap w) p) /\
  (forall ms, o = Ok ms -> NoDup (map snd ms) /\ Forall2 (fun o m => fst o = fst m /\ (length (w_heap w) <= snd m)%nat /\
     exists M, value (tree E x f (fst (snd o)) (snd (snd o))) w = Ok M /\ nth_error (w_heap w') (snd m) = Some M /\ dense M) os ms) /\
  ((forall o, List.In o os -> exists M, value (tree E x f (fst (snd o)) (snd (snd o))) w = Ok M) -> exists ms, o = Ok ms).
Proof.
  intro K. induction os as [|[i [a b]] os IH]; intros w w' o H R; cbn [gatherT] in R.
  { injection R as <- <-. repeat split; auto.
    - injection H0 as <-. constructor.
    - injection H0 as <-. constructor.
    - intros _. eauto. }
  inversion H as [|? ? [H1 H2] H3]; subst. cbn [fst snd] in *.
  destruct (dense_run Rnew (fun D p => D p) (tree E x f a b) (dense_at w) w) as (D1 & s1 & A1 & A2 & A3 & A4 & _ & A6 & A5).
  { apply tree_rel; cbn; auto. }
  { apply tree_calm. exact K. }
  { intros p Hp. exact Hp. }
  rewrite interp_bind in R. unfold World.mbind in R. destruct (interp (tree E x f a b) w) as [w1 [p| |]] eqn:Et; cbn [fst snd] in *.
  2, 3: injection R as <- <-; repeat split; auto; try discriminate; intro X; destruct (X _ (or_introl eq_refl)) as [M HM]; cbn [fst snd] in HM; unfold value in HM; rewrite Et in HM; discriminate.
  assert (H3' : Forall (fun o => both (dense_at w1) (snd o)) os).
  { eapply Forall_impl; [|exact H3]. intros o' [B1 B2]. split; eapply dense_at_frame; eauto. }
  rewrite interp_bind in R. unfold World.mbind in R. destruct (interp (gatherT (tree E x f) os) w1) as [w2 o2] eqn:Eg.
  destruct (IH w1 w2 o2 H3' Eg) as (B1 & B2 & B3 & B4).
  assert (Val : forall o, List.In o os -> value (tree E x f (fst (snd o)) (snd (snd o))) w = value (tree E x f (fst (snd o)) (snd (snd o))) w1).
  { intros o' Ho'. pose proof (proj1 (Forall_forall _ _) H3 _ Ho') as [C1 C2]. apply tree_local; [exact K|].
    intros q [-> | ->]; [destruct C1 as (m & X1 & X2)|destruct C2 as (m & X1 & X2)]; exists m; repeat split; auto; rewrite A2; auto; apply nth_error_Some; congruence. }
  assert (W : w' = w2) by (destruct o2; injection R as <- _; reflexivity). subst w'.
  split; [lia|]. split; [intros q Hq; rewrite B2 by lia; apply A2; exact Hq|]. split.
  - intros ms E1. destruct o2 as [l| |]; cbn in R; injection R as R; try congruence. subst o. injection E1 as <-.
    destruct (B3 l eq_refl) as [C1 C2]. destruct (A5 p eq_refl) as [[_ Op] Dp]. specialize (A6 _ Op). destruct (A4 _ Dp) as (M & M1 & M2).
    assert (Pl : (p < length (w_heap w1))%nat) by (apply nth_error_Some; congruence).
    split.
    + cbn [map snd]. constructor; [|exact C1]. intro X. apply in_map_iff in X. destruct X as ([j q] & E2 & X). cbn [snd] in E2. subst q.
      clear - C2 X Pl. induction C2 as [|o' m' os l (Y1 & Y2 & Y3) _ IHc]; [contradiction|]. destruct X as [->|X]; [cbn [snd] in Y2; lia|auto].
    + constructor.
      * cbn [fst snd]. repeat split; auto. exists M. split; [unfold value; rewrite Et, M1; reflexivity|]. rewrite B2 by exact Pl. auto.
      * eapply Forall2_in; [|exact C2]. intros o' m' Ho' (Y1 & Y2 & M' & Y3 & Y4 & Y5). split; [exact Y1|]. split; [lia|]. exists M'. rewrite (Val o' Ho'). auto.
  - intro X. destruct (B4 (fun o' Ho' => eq_rect _ (fun r => exists M, r = Ok M) (X o' (or_intror Ho')) _ (Val o' Ho'))) as [ms ->]. cbn in R. injection R as <-. eauto.
Qed.
End FineStrassenRel.
