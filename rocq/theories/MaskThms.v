(** Masked operators write no covered cell, whatever the operands, the aliasing,
    the context and the outcome. *)
From Coq Require Import String.
From Verif Require Import GoBase Num SparseVec Csr Csc DenseVec DenseMat Mat World Ops.
From Verif Require Import BaseProofs AssocProofs CsrProofs SvProofs CsrIterProofs CscProofs DenseProofs MatProofs.
From Verif Require Import Spec HeapProofs Api ReachProofs StoreProofs FrameProofs OpsThms.

Section Mask.
Context {N : num}.
Notation V := (T N).
Notation mat := (mat N).
Notation world := (world N).
Notation M := (M N).
Implicit Types w : world.
Implicit Types m O : mat.

Variable (w0 : world) (t : ptr) (k : mask) (O0 : mat).
Hypothesis Hz : zero_ok N.
Hypothesis Hw0 : wfw w0.
Hypothesis Ho0 : obj w0 t O0.
Hypothesis Po0 : not_sparse_vector O0.
Hypothesis Hk : mask_dims w0 k (mat_Rows O0) (mat_Columns O0).
Hypothesis Hkt : mask_not k t.

(** the covered cells of the output are as at the start *)
Definition guarded w : Prop :=
  (forall p m, p <> t -> obj w0 p m -> obj w p m) /\
  exists O, obj w t O /\ good O /\ same_shape O0 O /\
    forall i j, inb O0 i j -> covers w0 k i j = true -> peek O i j = peek O0 i j.

Definition safe {A} (x : M A) : Prop := forall w, guarded w -> guarded (fst (x w)).

Lemma sf_frame {A} (x : M A) : (forall q, frame q x) -> safe x.
Proof.
  intros H w (H1 & O & Ho & Hg & Hsh & Hc). split.
  - intros p m Hp Hm. apply H; [eapply Hw0; eauto|auto].
  - exists O. split; [apply H; [apply Hg|auto]|auto].
Qed.
Lemma sf_bind {A B} (x : M A) (f : A -> M B) : safe x -> (forall a, safe (f a)) -> safe (mbind x f).
Proof.
  intros Hx Hf w H. unfold mbind. specialize (Hx w H). destruct (x w) as [w' [a| |]]; cbn [fst] in *; auto.
  apply Hf; auto.
Qed.

Lemma guarded_covers w i j : guarded w -> covers w k i j = covers w0 k i j.
Proof.
  intros (H1 & _). destruct k as [|r c|p|r c f]; try reflexivity. cbn [covers].
  destruct Hk as (m & Hm & _). assert (Hp : p <> t) by (intros ->; apply Hkt; reflexivity).
  pose proof (H1 p m Hp Hm) as Hm'. unfold obj in *. rewrite Hm, Hm'. reflexivity.
Qed.
Lemma guarded_dims w : guarded w -> mask_dims w k (mat_Rows O0) (mat_Columns O0) /\ mask_wf w k.
Proof.
  intros (H1 & _). destruct k as [|r c|p|r c f]; try (split; [exact Hk|exact I]). cbn [mask_dims mask_wf].
  destruct Hk as (m & Hm & Hd). assert (Hp : p <> t) by (intros ->; apply Hkt; reflexivity).
  split; exists m; split; auto. eapply Hw0; eauto.
Qed.

Notation kn := (mask_norm k (mat_Rows O0) (mat_Columns O0)).

Lemma frame_to w w' : (forall q m, wf m -> obj w q m -> obj w' q m) -> guarded w -> guarded w'.
Proof.
  intros H (H1 & O & Ho & Hg & Hsh & Hc). split.
  - intros p m Hp Hm. apply H; [eapply Hw0; eauto|auto].
  - exists O. split; [apply H; [apply Hg|auto]|auto].
Qed.

(** a write of one cell, guarded by the mask's flag for that cell *)
Lemma sf_guard {A} r c (x : M unit) (a : A) :
  (forall w O, obj w t O -> good O ->
     (inb O r c -> exists O' , x w = (upd w t O', Ok tt) /\ good O' /\ same_shape O O' /\
        forall i j, inb O i j -> ~ (i = r /\ j = c) -> peek O' i j = peek O i j) /\
     (~ inb O r c -> fst (x w) = w)) ->
  safe (let! e := mask_Element kn r c in (if negb e then x else mret tt) ;!; mret a).
Proof.
  intros Hx w Hg. pose proof Hg as (H1 & O & Ho & HgO & Hsh & Hc).
  destruct (Hx w O Ho HgO) as [Hin Hout].
  assert (Hib : inb O r c <-> inb O0 r c) by (unfold inb; destruct Hsh as (_ & -> & ->); tauto).
  destruct (guarded_dims w Hg) as [Hd Hwf].
  assert (Dec : inb O0 r c \/ ~ inb O0 r c) by (unfold inb; lia).
  destruct Dec as [Hb|Hb].
  - rewrite (mbind_ok _ _ _ _ _ (mask_Element_ok k w _ _ r c Hz Hwf Hd (proj1 Hb) (proj2 Hb))).
    rewrite (guarded_covers w r c Hg). destruct (covers w0 k r c) eqn:Ec; cbn [negb].
    + exact Hg.
    + destruct (Hin (proj2 Hib Hb)) as (O' & E & Hg' & Hsh' & Hp). rewrite (mbind_ok _ _ _ _ _ E). cbn [mret fst]. split.
      * intros p m Hne Hm. apply obj_upd_neq; auto.
      * exists O'. split; [eapply obj_upd_eq; eauto|]. split; [exact Hg'|].
        split; [eapply same_shape_trans; eauto|]. intros i j Hij Hcov.
        rewrite <- (Hc i j Hij Hcov). apply Hp; [unfold inb in *; destruct Hsh as (_ & -> & ->); auto|].
        intros [-> ->]. congruence.
  - pose proof (sf_frame (mask_Element kn r c) (fun q => fr_Element q _ r c Hz) w Hg) as Hg1.
    unfold mbind at 1. destruct (mask_Element kn r c w) as [w1 [[]| |]] eqn:Ee; cbn [fst negb] in *; auto.
    pose proof Hg1 as (_ & O1 & Ho1 & Hg2 & Hsh1 & _).
    destruct (Hx w1 O1 Ho1 Hg2) as [_ Hout1]. specialize (Hout1 ltac:(unfold inb in *; destruct Hsh1 as (_ & -> & ->); auto)).
    unfold mbind. destruct (x w1) as [w2 [[]| |]]; cbn [fst] in *; subst w2; exact Hg1.
Qed.

Lemma sf_guard_set {A} r c v (a : A) :
  safe (let! e := mask_Element kn r c in (if negb e then p_Set t r c v else mret tt) ;!; mret a).
Proof.
  apply sf_guard. intros w O Ho Hg. split.
  - intros Hb. destruct (p_Set_ok t w O r c v Hz Ho Hg Hb) as (O' & E & Hg' & Hsh & Hp).
    exists O'. do 3 (split; [auto|]). intros i j Hij Hne. rewrite Hp by auto.
    destruct ((i =? r) && (j =? c)) eqn:Eb; [exfalso; apply Hne; lia|reflexivity].
  - intros Hb. unfold p_Set. rewrite (mbind_ok _ _ _ _ _ (load_ok _ _ _ Ho)), (Set_panic O r c v (proj1 Hg) Hb). reflexivity.
Qed.
Lemma sf_guard_update {A} r c g (a : A) :
  safe (let! e := mask_Element kn r c in (if negb e then p_Update t r c g else mret tt) ;!; mret a).
Proof.
  apply sf_guard. intros w O Ho Hg. split.
  - intros Hb. destruct (p_Update_ok t w O r c g Hz Ho Hg Hb) as (O' & E & Hg' & Hsh & Hp).
    exists O'. do 3 (split; [auto|]). intros i j Hij Hne. rewrite Hp by auto.
    destruct ((i =? r) && (j =? c)) eqn:Eb; [exfalso; apply Hne; lia|reflexivity].
  - intros Hb. unfold p_Update. rewrite (mbind_ok _ _ _ _ _ (load_ok _ _ _ Ho)), (Update_panic O r c g (proj1 Hg) Hb). reflexivity.
Qed.

Lemma sf_for_list {R I} (l : list I) (body : I -> M (option R)) : (forall i, safe (body i)) -> safe (for_list l body).
Proof.
  intros H. induction l as [|i l IH]; cbn [for_list]; [apply sf_frame; intros; apply fr_ret|].
  apply sf_bind; [auto|]. intros [x|]; [apply sf_frame; intros; apply fr_ret|auto].
Qed.
Lemma sf_enumerate {R} E p (x : R) body : (forall r c v, safe (body r c v)) -> safe (enumerate E p x body).
Proof.
  intros H. unfold enumerate. apply sf_bind; [apply sf_frame; intros; apply fr_load|]. intros m0.
  generalize (mat_iterator m0). induction (e_fuel E) as [|fuel IH]; intros it; cbn [enum_loop]; destruct (mat_HasNext it);
    try (apply sf_frame; intros; (apply fr_ret || apply fr_diverge)).
  apply sf_bind; [apply sf_frame; intros; apply fr_poll|]. intros [].
  - apply sf_frame; intros; apply fr_ret.
  - apply sf_bind; [apply sf_frame; intros; apply fr_load|]. intros m.
    apply sf_bind; [apply sf_frame; intros; apply fr_lift|]. intros [[[r c] v] it'].
    apply sf_bind; [apply H|]. intros [y|]; [apply sf_frame; intros; apply fr_ret|apply IH].
Qed.

(** after the dimension check the mask is the normalised one *)
Lemma sf_check {B} (f : mask -> M B) : safe (f kn) -> safe (let! k' := check_mask k t in f k').
Proof.
  intros Hf w Hg. pose proof Hg as (_ & O & Ho & _ & (_ & ER & EC) & _). pose proof (proj1 (guarded_dims w Hg)) as Hd.
  rewrite <- ER, <- EC in Hd. rewrite (mbind_ok _ _ _ _ _ (check_mask_ok _ _ _ _ Ho Hd)), ER, EC. apply Hf; auto.
Qed.
Lemma sf_ret {A} (a : A) : safe (mret a). Proof. apply sf_frame; intros; apply fr_ret. Qed.
Lemma sf_rows p : safe (p_Rows (N:=N) p). Proof. apply sf_frame; intros; apply fr_Rows. Qed.
Lemma sf_cols p : safe (p_Columns (N:=N) p). Proof. apply sf_frame; intros; apply fr_Columns. Qed.
Lemma sf_panic {A} : safe (mpanic (A:=A)). Proof. apply sf_frame; intros; apply fr_panic. Qed.
Lemma sf_sp E p : safe (p_IsSparse (N:=N) E p). Proof. apply sf_frame; intros; apply fr_IsSparse. Qed.
Lemma sf_sizes (s m : ptr) : safe (check_sizes (N:=N) s m). Proof. apply sf_frame; intros; apply fr_check_sizes. Qed.
Lemma sf_At p r c : safe (p_At (N:=N) p r c). Proof. apply sf_frame; intros; apply fr_At; auto. Qed.
Lemma sf_load p : safe (load (N:=N) p). Proof. apply sf_frame; intros; apply fr_load. Qed.
Lemma sf_lift {A} (x : res A) : safe (mlift x). Proof. apply sf_frame; intros; apply fr_lift. Qed.

Lemma sf_multiply E (s m : ptr) : safe (multiply E s m k t).
Proof.
  unfold multiply. apply sf_bind; [apply sf_rows|intros mr]. apply sf_bind; [apply sf_cols|intros sc].
  destruct (negb (mr =? sc)); [apply sf_panic|]. apply sf_check.
  apply sf_bind; [apply sf_rows|intros sr]. apply sf_bind; [apply sf_cols|intros mc].
  apply sf_bind; [|intros; apply sf_ret]. apply sf_for_list. intros r.
  apply sf_bind; [apply sf_load|intros so]. apply sf_bind; [apply sf_lift|intros rows].
  apply sf_for_list. intros c. apply sf_bind; [apply sf_load|intros mo]. apply sf_bind; [apply sf_lift|intros column].
  apply sf_bind; [apply sf_frame; intros; apply fr_dot|intros [sum|]]; [apply sf_guard_set|apply sf_ret].
Qed.
Lemma sf_Add E (s m : ptr) : safe (Add E s m k t).
Proof.
  unfold Add. apply sf_bind; [apply sf_sizes|intros _]. apply sf_check. apply sf_bind; [apply sf_sp|intros []].
  all: apply sf_bind; [|intros; apply sf_ret]; apply sf_enumerate; intros r c v.
  all: apply sf_bind; [apply sf_At|intros value]; apply sf_guard_set.
Qed.
Lemma sf_Subtract E (s m : ptr) : safe (Subtract E s m k t).
Proof.
  unfold Subtract. apply sf_bind; [apply sf_sizes|intros _]. apply sf_check.
  apply sf_bind; [|intros; apply sf_ret]. apply sf_enumerate. intros r c v. apply sf_guard_update.
Qed.
Lemma sf_ewm E (s m : ptr) : safe (elementWiseMultiply E s m k t).
Proof.
  unfold elementWiseMultiply. apply sf_check. cbv zeta. apply sf_bind; [apply sf_sp|intros sp].
  apply sf_bind; [|intros; apply sf_ret].
  destruct (Nat.eqb_spec m t) as [->|Hm]; [apply sf_enumerate; intros; apply sf_guard_update|].
  destruct (Nat.eqb_spec s t) as [->|Hs]; [apply sf_enumerate; intros; apply sf_guard_update|].
  destruct sp; apply sf_enumerate; intros r c v.
  all: apply sf_bind; [apply sf_At|intros x]; destruct (neqb v x); [apply sf_guard_set|apply sf_ret].
Qed.
Lemma sf_ewa_loop E src : safe (ewa_loop E src kn t).
Proof.
  unfold ewa_loop. apply sf_enumerate. intros r c v. destruct (negb (neqb v n0)); [apply sf_guard_set|apply sf_ret].
Qed.
Lemma sf_ewa E (s m : ptr) : safe (elementWiseAdd E s m k t).
Proof.
  unfold elementWiseAdd. apply sf_check. apply sf_bind.
  - destruct (negb (Nat.eqb s t)); [apply sf_ewa_loop|apply sf_ret].
  - intros [x|]; [apply sf_ret|]. apply sf_bind; [|intros; apply sf_ret].
    destruct (negb (Nat.eqb m t)); [apply sf_ewa_loop|apply sf_ret].
Qed.

Lemma guarded_start : guarded w0.
Proof.
  split; [auto|]. exists O0. split; [auto|]. split; [eapply plain_is_good; eauto|]. split; [apply same_shape_refl|auto].
Qed.

End Mask.

Section Done.
Context {N : num}.

(** the five operators that write through a mask *)
Definition masked_operators : list (env -> ptr -> ptr -> mask -> ptr -> M N unit) :=
  [multiply; Add; Subtract; elementWiseMultiply; elementWiseAdd].

Lemma masked_frame op E (w : world N) (s m : ptr) k t (O : mat N) R C h : zero_ok N -> wfw w ->
  In op masked_operators -> obj w t O -> not_sparse_vector O -> denotes O R C h -> mask_dims w k R C -> mask_not k t ->
  exists O', obj (fst (op E s m k t w)) t O' /\ mat_Rows O' = R /\ mat_Columns O' = C /\
    forall i j, 0 <= i < R -> 0 <= j < C -> covers w k i j = true -> mat_At O' i j = Ok (h i j, O').
Proof.
  intros Hz Hw Hop Ho Po Do Hk Hkt. pose proof Do as (ER & EC & HA).
  assert (Hk' : mask_dims w k (mat_Rows O) (mat_Columns O)) by (rewrite ER, EC; exact Hk).
  assert (Hs : guarded w t k O (fst (op E s m k t w))).
  { pose proof (guarded_start w t k O Hw Ho Po) as Hst.
    unfold masked_operators in Hop. cbn [In] in Hop. destruct Hop as [<-|[<-|[<-|[<-|[<-|[]]]]]].
    - apply sf_multiply; auto.
    - apply sf_Add; auto.
    - apply sf_Subtract; auto.
    - apply sf_ewm; auto.
    - apply sf_ewa; auto. }
  destruct Hs as (_ & O' & Ho' & Hg & (_ & SR & SC) & Hc).
  exists O'. split; [exact Ho'|]. split; [congruence|]. split; [congruence|].
  intros i j Hi Hj Hcv. assert (Hb : inb O i j) by (unfold inb; lia).
  rewrite (At_ok O' i j Hz (proj1 Hg)) by (unfold inb in *; lia).
  rewrite (Hc i j Hb Hcv), (denotes_peek _ _ _ _ _ _ Do Hb). reflexivity.
Qed.

Lemma masked_panic op E (w : world N) (s m : ptr) k t (O S Mo : mat N) :
  In op masked_operators -> obj w t O -> obj w s S -> obj w m Mo ->
  ~ mask_dims w k (mat_Rows O) (mat_Columns O) -> op E s m k t w = (w, Panic).
Proof.
  intros Hop Ho Hs Hm Hk. pose proof (check_mask_panic k t w O Ho Hk) as Hp.
  unfold masked_operators in Hop. cbn [In] in Hop. destruct Hop as [<-|[<-|[<-|[<-|[<-|[]]]]]].
  - unfold multiply. rewrite (mbind_ok _ _ _ _ _ (p_Rows_ok _ _ _ Hm)), (mbind_ok _ _ _ _ _ (p_Columns_ok _ _ _ Hs)).
    destruct (negb _); [reflexivity|]. apply mbind_panic; auto.
  - unfold Add. destruct (Z.eq_dec (mat_Rows S) (mat_Rows Mo)) as [E1|E1], (Z.eq_dec (mat_Columns S) (mat_Columns Mo)) as [E2|E2].
    { rewrite (mbind_ok _ _ _ _ _ (check_sizes_ok _ _ _ _ _ _ _ Hs Hm eq_refl eq_refl (eq_sym E1) (eq_sym E2))). apply mbind_panic; auto. }
    all: apply mbind_panic; apply (check_sizes_panic _ _ _ _ _ Hs Hm); tauto.
  - unfold Subtract. destruct (Z.eq_dec (mat_Rows S) (mat_Rows Mo)) as [E1|E1], (Z.eq_dec (mat_Columns S) (mat_Columns Mo)) as [E2|E2].
    { rewrite (mbind_ok _ _ _ _ _ (check_sizes_ok _ _ _ _ _ _ _ Hs Hm eq_refl eq_refl (eq_sym E1) (eq_sym E2))). apply mbind_panic; auto. }
    all: apply mbind_panic; apply (check_sizes_panic _ _ _ _ _ Hs Hm); tauto.
  - unfold elementWiseMultiply. apply mbind_panic; auto.
  - unfold elementWiseAdd. apply mbind_panic; auto.
Qed.
End Done.
