(** No call changes the type of an object or the size of a matrix. *)
From Coq Require Import String.
From Verif Require Import GoBase Num SparseVec Csr Csc DenseVec DenseMat Mat World Ops.
From Verif Require Import BaseProofs AssocProofs CsrProofs SvProofs CsrIterProofs CscProofs DenseProofs MatProofs.
From Verif Require Import Spec HeapProofs Api ReachProofs.

Section Kin.
Context {N : num}.
Notation V := (T N).
Notation mat := (mat N).
Notation world := (world N).
Notation M := (M N).
Implicit Types w : world.
Implicit Types m : mat.

Definition kin (m m' : mat) : Prop :=
  match m, m' with
  | MCSR s, MCSR s' => csr_r s' = csr_r s /\ csr_c s' = csr_c s
  | MCSC s, MCSC s' => csc_r s' = csc_r s /\ csc_c s' = csc_c s
  | MDM s, MDM s' => dm_r s' = dm_r s /\ dm_c s' = dm_c s
  | MDV _, MDV _ => True
  | MSV s, MSV s' => sv_l s' = sv_l s
  | _, _ => False
  end.
Lemma kin_refl m : kin m m. Proof. destruct m; cbn; auto. Qed.
Lemma kin_trans m m' m'' : kin m m' -> kin m' m'' -> kin m m''.
Proof. destruct m, m', m''; cbn; try tauto; intros; intuition congruence. Qed.

(** take a successful computation apart *)
Ltac chase H := repeat first
  [ discriminate
  | match type of H with
    | Ok _ = Ok _ => injection H as H; try subst
    | rmap _ ?x = Ok _ => let E := fresh "Q" in destruct x eqn:E; cbn [rmap rbind] in H
    | rbind ?x _ = Ok _ => let E := fresh "Q" in destruct x eqn:E; cbn [rbind] in H
    | (if ?b then _ else _) = Ok _ => let E := fresh "Q" in destruct b eqn:E
    | (match ?x with _ => _ end) = Ok _ => let E := fresh "Q" in destruct x eqn:E
    | (let '_ := ?x in _) = Ok _ => destruct x
    end ].

Lemma csr_insert_kin (s s' : csr N) p r c v z : csr_insert s p r c v = Ok (z, s') -> csr_r s' = csr_r s /\ csr_c s' = csr_c s.
Proof. unfold csr_insert. intros H. chase H; cbn; auto. Qed.
Lemma csr_remove_kin (s s' : csr N) p r : csr_remove s p r = Ok s' -> csr_r s' = csr_r s /\ csr_c s' = csr_c s.
Proof. unfold csr_remove. intros H. chase H; cbn; auto. Qed.
Lemma csr_Update_kin {W} (s s' : csr N) r c (f : V -> W * V) x : csr_Update s r c f = Ok (x, s') -> csr_r s' = csr_r s /\ csr_c s' = csr_c s.
Proof.
  unfold csr_Update. intros H. destruct (csr_UpdateReturnPointer s r c f) as [[[y z] s1]| |] eqn:E; cbn [rbind] in H; try discriminate.
  injection H as -> ->. unfold csr_UpdateReturnPointer in E. chase E; cbn; auto.
  all: eauto using csr_insert_kin, csr_remove_kin.
Qed.
Lemma csc_insert_kin (s s' : csc N) p r c v z : csc_insert s p r c v = Ok (z, s') -> csc_r s' = csc_r s /\ csc_c s' = csc_c s.
Proof. unfold csc_insert. intros H. chase H; cbn; auto. Qed.
Lemma csc_remove_kin (s s' : csc N) p r : csc_remove s p r = Ok s' -> csc_r s' = csc_r s /\ csc_c s' = csc_c s.
Proof. unfold csc_remove. intros H. chase H; cbn; auto. Qed.
Lemma csc_Update_kin {W} (s s' : csc N) r c (f : V -> W * V) x : csc_Update s r c f = Ok (x, s') -> csc_r s' = csc_r s /\ csc_c s' = csc_c s.
Proof.
  unfold csc_Update. intros H. destruct (csc_UpdateReturnPointer s r c f) as [[[y z] s1]| |] eqn:E; cbn [rbind] in H; try discriminate.
  injection H as -> ->. unfold csc_UpdateReturnPointer in E. chase E; cbn; auto.
  all: eauto using csc_insert_kin, csc_remove_kin.
Qed.

Lemma sv_remove_kin (s s' : svec N) p : sv_remove s p = Ok s' -> sv_l s' = sv_l s.
Proof. unfold sv_remove. intros H. chase H; cbn; auto. Qed.
Lemma sv_SetVec_kin (s s' : svec N) i v : sv_SetVec s i v = Ok s' -> sv_l s' = sv_l s.
Proof. unfold sv_SetVec, sv_insert. intros H. chase H; cbn; eauto using sv_remove_kin. Qed.
Lemma dm_write_kin (s s' : dense N) r c v : dm_write s r c v = Ok s' -> dm_r s' = dm_r s /\ dm_c s' = dm_c s.
Proof. unfold dm_write. intros H. chase H; cbn; auto. Qed.

Lemma At_kin m r c v m' : mat_At m r c = Ok (v, m') -> kin m m'.
Proof.
  destruct m as [s|s|s|s|s]; cbn [mat_At]; intros H.
  - destruct (csr_At s r c) as [[x s1]| |] eqn:E; cbn [rmap rbind fst snd] in H; try discriminate. injection H as <- <-. cbn. eapply csr_Update_kin; exact E.
  - destruct (csc_At s r c) as [[x s1]| |] eqn:E; cbn [rmap rbind fst snd] in H; try discriminate. injection H as <- <-. cbn. eapply csc_Update_kin; exact E.
  - chase H. apply kin_refl.
  - chase H. apply kin_refl.
  - destruct (sv_At s r c) as [[x s1]| |] eqn:E; cbn [rmap rbind fst snd] in H; try discriminate. injection H as <- <-.
    unfold sv_At, sv_Update in E. chase E. cbn. eapply sv_SetVec_kin; eauto.
Qed.
Lemma Element_kin m r c b m' : mat_Element m r c = Ok (b, m') -> kin m m'.
Proof.
  destruct m as [s|s|s|s|s]; cbn [mat_Element]; intros H.
  - destruct (csr_Element s r c) as [[x s1]| |] eqn:E; cbn [rmap rbind fst snd] in H; try discriminate. injection H as <- <-. cbn. eapply csr_Update_kin; exact E.
  - destruct (csc_Element s r c) as [[x s1]| |] eqn:E; cbn [rmap rbind fst snd] in H; try discriminate. injection H as <- <-. cbn. eapply csc_Update_kin; exact E.
  - chase H. apply kin_refl.
  - chase H. apply kin_refl.
  - chase H. apply kin_refl.
Qed.
Lemma Set_kin m r c v m' : mat_Set m r c v = Ok m' -> kin m m'.
Proof.
  destruct m as [s|s|s|s|s]; cbn [mat_Set]; intros H.
  - destruct (csr_Set s r c v) as [s1| |] eqn:E; cbn [rmap rbind] in H; try discriminate. injection H as <-.
    unfold csr_Set in E. chase E. cbn. eapply csr_Update_kin; eauto.
  - destruct (csc_Set s r c v) as [s1| |] eqn:E; cbn [rmap rbind] in H; try discriminate. injection H as <-.
    unfold csc_Set in E. chase E. cbn. eapply csc_Update_kin; eauto.
  - destruct (dm_Set s r c v) as [s1| |] eqn:E; cbn [rmap rbind] in H; try discriminate. injection H as <-.
    unfold dm_Set in E. chase E. cbn. eapply dm_write_kin; eauto.
  - chase H. exact I.
  - destruct (sv_Set s r c v) as [s1| |] eqn:E; cbn [rmap rbind] in H; try discriminate. injection H as <-.
    unfold sv_Set in E. chase E. cbn. eapply sv_SetVec_kin; eauto.
Qed.
Lemma Update_kin m r c g m' : mat_Update m r c g = Ok m' -> kin m m'.
Proof.
  destruct m as [s|s|s|s|s]; cbn [mat_Update]; cbv zeta; intros H.
  - destruct (csr_Update s r c _) as [[x s1]| |] eqn:E; cbn [rmap rbind] in H; try discriminate. injection H as <-. cbn. eapply csr_Update_kin; eauto.
  - destruct (csc_Update s r c _) as [[x s1]| |] eqn:E; cbn [rmap rbind] in H; try discriminate. injection H as <-. cbn. eapply csc_Update_kin; eauto.
  - destruct (dm_Update s r c _) as [[x s1]| |] eqn:E; cbn [rmap rbind] in H; try discriminate. injection H as <-.
    unfold dm_Update in E. chase E. cbn. eapply dm_write_kin; eauto.
  - chase H. exact I.
  - destruct (sv_Update s r c _) as [[x s1]| |] eqn:E; cbn [rmap rbind] in H; try discriminate. injection H as <-.
    unfold sv_Update in E. chase E. cbn. eapply sv_SetVec_kin; eauto.
Qed.
Lemma SetVec_kin m i v m' : mat_SetVec m i v = Ok m' -> kin m m'.
Proof. destruct m as [s|s|s|s|s]; cbn [mat_SetVec]; intros H; try discriminate; chase H; cbn; eauto using sv_SetVec_kin. Qed.
Lemma Clear_kin m m' : mat_Clear m = Ok m' -> kin m m'.
Proof.
  destruct m as [s|s|s|s|s]; cbn [mat_Clear]; intros H.
  - destruct (csr_Clear s) as [s1| |] eqn:E; cbn [rmap rbind] in H; try discriminate. injection H as <-. unfold csr_Clear in E. chase E. cbn. auto.
  - destruct (csc_Clear s) as [s1| |] eqn:E; cbn [rmap rbind] in H; try discriminate. injection H as <-. unfold csc_Clear in E. chase E. cbn. auto.
  - destruct (dm_Clear s) as [s1| |] eqn:E; cbn [rmap rbind] in H; try discriminate. injection H as <-. unfold dm_Clear in E. chase E. cbn. auto.
  - chase H. exact I.
  - chase H. cbn. reflexivity.
Qed.
Lemma put_kin m it x m' : mat_map_put m it x = Ok m' -> kin m m'.
Proof.
  destruct m as [s|s|s|s|s], it as [i|i|i|i|i]; cbn [mat_map_put]; intros H; try discriminate.
  - destruct (csr_map_put s i x) as [s1| |] eqn:E; cbn [rmap rbind] in H; try discriminate. injection H as <-. unfold csr_map_put in E. chase E; cbn; eauto using csr_remove_kin.
  - destruct (csc_map_put s i x) as [s1| |] eqn:E; cbn [rmap rbind] in H; try discriminate. injection H as <-. unfold csc_map_put in E. chase E; cbn; eauto using csc_remove_kin.
  - destruct (dm_map_put s i x) as [s1| |] eqn:E; cbn [rmap rbind] in H; try discriminate. injection H as <-. unfold dm_map_put, dm_Set in E. chase E; cbn; eauto using dm_write_kin.
  - chase H. exact I.
  - destruct (sv_map_put s i x) as [s1| |] eqn:E; cbn [rmap rbind] in H; try discriminate. injection H as <-. unfold sv_map_put in E. chase E; cbn; eauto using sv_remove_kin.
Qed.

(** ** Every call leaves such an object where it was *)

Definition kp {A} (q : ptr) (x : M A) : Prop :=
  forall w m, obj w q m -> exists m', obj (fst (x w)) q m' /\ kin m m'.

Lemma kp_id {A} q (x : M A) : (forall w, fst (x w) = w) -> kp q x.
Proof. intros H w m Ho. exists m. rewrite H. split; [exact Ho|apply kin_refl]. Qed.
Lemma kp_ret {A} q (a : A) : kp q (mret a). Proof. apply kp_id. reflexivity. Qed.
Lemma kp_panic {A} q : kp q (mpanic (A:=A)). Proof. apply kp_id. reflexivity. Qed.
Lemma kp_diverge {A} q : kp q (mdiverge (A:=A)). Proof. apply kp_id. reflexivity. Qed.
Lemma kp_lift {A} q (x : res A) : kp q (mlift x). Proof. apply kp_id. reflexivity. Qed.
Lemma kp_bind {A B} q (x : M A) (k : A -> M B) : kp q x -> (forall a, kp q (k a)) -> kp q (mbind x k).
Proof.
  intros Hx Hk w m H. unfold mbind. specialize (Hx w m H). destruct (x w) as [w' [a| |]]; cbn [fst] in *; auto.
  destruct Hx as (m1 & H1 & K1). destruct (Hk a w' m1 H1) as (m2 & H2 & K2). exists m2. split; [exact H2|eapply kin_trans; eauto].
Qed.
Lemma kp_if {A} q (b : bool) (x y : M A) : kp q x -> kp q y -> kp q (if b then x else y).
Proof. destruct b; auto. Qed.
Lemma kp_load q p : kp q (load (N:=N) p).
Proof. apply kp_id. intros w. unfold load. destruct (nth_error _ p); reflexivity. Qed.
Lemma kp_poll q E : kp q (poll (N:=N) E).
Proof. intros w m H. exists m. split; [|apply kin_refl]. unfold poll. destruct (e_ctx E); exact H. Qed.
Lemma kp_alloc q m : kp q (alloc m).
Proof. intros w m' H. exists m'. split; [apply (obj_ext_old w m q m' H)|apply kin_refl]. Qed.

Create HintDb kp.
Hint Resolve kp_ret kp_panic kp_diverge kp_lift kp_load kp_poll kp_alloc kp_if : kp.
Ltac kpa := repeat first
  [ progress auto with kp
  | match goal with
    | |- kp _ (mbind _ _) => apply kp_bind; [|intros]
    | |- kp _ (if _ then _ else _) => apply kp_if
    | |- kp _ (match ?x with _ => _ end) => destruct x
    | |- kp _ (let '_ := ?x in _) => destruct x
    end ].

Lemma kp_load_then {B} q p (k : mat -> M B) : (forall w m mq, obj w p m -> obj w q mq -> exists mq', obj (fst (k m w)) q mq' /\ kin mq mq') -> kp q (mbind (load p) k).
Proof.
  intros H w mq Hq. destruct (load_cases p w) as [(m & Ho & El)|El].
  - rewrite (mbind_ok _ _ _ _ _ El). apply (H w m mq); auto.
  - unfold mbind. rewrite El. exists mq. split; [exact Hq|apply kin_refl].
Qed.
(** writing back an object like the one that was there *)
Lemma kp_write w p q m mq (m' : mat) : obj w p m -> obj w q mq -> kin m m' -> exists mq', obj (fst (store p m' w)) q mq' /\ kin mq mq'.
Proof.
  intros Ho Hq Hk. cbn [store fst]. destruct (Nat.eq_dec p q) as [->|Hn].
  - exists m'. split; [eapply obj_upd_eq; eauto|]. rewrite (obj_inj _ _ _ _ Hq Ho). exact Hk.
  - exists mq. split; [apply (obj_upd_neq w p q m' mq); auto|apply kin_refl].
Qed.
Lemma kp_write_ret {B} w p q m mq (m' : mat) (b : B) : obj w p m -> obj w q mq -> kin m m' ->
  exists mq', obj (fst ((store p m' ;!; mret b) w)) q mq' /\ kin mq mq'.
Proof. intros Ho Hq Hk. rewrite (mbind_ok _ _ _ _ _ (store_ok _ _ _)). apply (kp_write w p q m mq m'); auto. Qed.
Lemma kp_same w q mq : obj w q mq -> exists mq', obj w q mq' /\ kin mq mq'.
Proof. intros H. exists mq. split; [exact H|apply kin_refl]. Qed.

Lemma kp_At q p r c : kp q (p_At (N:=N) p r c).
Proof.
  apply kp_load_then. intros w m mq Ho Hq. destruct (mat_At m r c) as [[v m']| |] eqn:E; [|apply kp_same; exact Hq|apply kp_same; exact Hq].
  rewrite mbind_lift. eapply kp_write_ret; eauto using At_kin.
Qed.
Lemma kp_Element q k r c : kp q (mask_Element (N:=N) k r c).
Proof.
  destruct k as [|a b|p|a b f]; cbn [mask_Element]; auto with kp.
  apply kp_load_then. intros w m mq Ho Hq. destruct (mat_Element m r c) as [[v m']| |] eqn:E; [|apply kp_same; exact Hq|apply kp_same; exact Hq].
  rewrite mbind_lift. eapply kp_write_ret; eauto using Element_kin.
Qed.
Lemma kp_rmw q p (g : mat -> res mat) : (forall m m', g m = Ok m' -> kin m m') -> kp q (let! m := load p in let! m' := mlift (g m) in store p m').
Proof.
  intros Hg. apply kp_load_then. intros w m mq Ho Hq. destruct (g m) as [m'| |] eqn:E; [|apply kp_same; exact Hq|apply kp_same; exact Hq].
  rewrite mbind_lift. eapply kp_write; eauto.
Qed.
Lemma kp_Set q p r c v : kp q (p_Set (N:=N) p r c v).
Proof. apply (kp_rmw q p (fun m => mat_Set m r c v)). intros. eapply Set_kin; eauto. Qed.
Lemma kp_Update q p r c f : kp q (p_Update (N:=N) p r c f).
Proof. apply (kp_rmw q p (fun m => mat_Update m r c f)). intros. eapply Update_kin; eauto. Qed.
Lemma kp_SetVec q p i v : kp q (p_SetVec (N:=N) p i v).
Proof. apply (kp_rmw q p (fun m => mat_SetVec m i v)). intros. eapply SetVec_kin; eauto. Qed.
Lemma kp_Clear q p : kp q (p_Clear (N:=N) p).
Proof. apply (kp_rmw q p (fun m => mat_Clear m)). intros. eapply Clear_kin; eauto. Qed.
Lemma kp_ReSize q p n : kp q (p_ReSize (N:=N) p n).
Proof.
  apply kp_load_then. intros w m mq Ho Hq. destruct m as [s|s|s|s|s]; try (apply kp_same; exact Hq).
  destruct (dv_ReSize s n) as [[z s']| |] eqn:E; [|apply kp_same; exact Hq|apply kp_same; exact Hq].
  rewrite mbind_lift. eapply kp_write_ret; eauto. exact I.
Qed.
Hint Resolve kp_At kp_Element : kp.
Lemma kp_Copy q p : kp q (p_Copy (N:=N) p). Proof. unfold p_Copy. kpa. Qed.
Lemma kp_RowsAt q p r : kp q (p_RowsAt (N:=N) p r). Proof. unfold p_RowsAt. kpa. Qed.
Lemma kp_ColumnsAt q p r : kp q (p_ColumnsAt (N:=N) p r). Proof. unfold p_ColumnsAt. kpa. Qed.
Lemma kp_Rows q p : kp q (p_Rows (N:=N) p). Proof. unfold p_Rows. kpa. Qed.
Lemma kp_Columns q p : kp q (p_Columns (N:=N) p). Proof. unfold p_Columns. kpa. Qed.
Lemma kp_Values q p : kp q (p_Values (N:=N) p). Proof. unfold p_Values. kpa. Qed.
Lemma kp_IsSparse q E p : kp q (p_IsSparse (N:=N) E p). Proof. unfold p_IsSparse. kpa. Qed.
Hint Resolve kp_Set kp_Update kp_SetVec kp_Clear kp_Copy kp_RowsAt kp_ColumnsAt kp_Rows kp_Columns kp_Values kp_IsSparse kp_ReSize : kp.
Lemma kp_mask_Rows q k : kp q (mask_Rows (N:=N) k). Proof. destruct k; cbn [mask_Rows]; kpa. Qed.
Lemma kp_mask_Columns q k : kp q (mask_Columns (N:=N) k). Proof. destruct k; cbn [mask_Columns]; kpa. Qed.
Hint Resolve kp_mask_Rows kp_mask_Columns : kp.
Lemma kp_check_mask q k t : kp q (check_mask (N:=N) k t).
Proof. unfold check_mask. apply kp_bind; [kpa|intros r]. apply kp_bind; [kpa|intros c]. cbv zeta. kpa. Qed.
Hint Resolve kp_check_mask : kp.

Lemma kp_for_list {R I} q (l : list I) (body : I -> M (option R)) : (forall i, kp q (body i)) -> kp q (for_list l body).
Proof. intros H. induction l as [|i l IH]; cbn [for_list]; kpa. Qed.
Lemma kp_enum_loop {R} q E p (x : R) body : (forall r c v, kp q (body r c v)) ->
  forall fuel it, kp q (enum_loop E fuel p it x body).
Proof.
  intros H. induction fuel as [|fuel IH]; intros it; cbn [enum_loop]; destruct (mat_HasNext it); kpa.
Qed.
Lemma kp_enumerate {R} q E p (x : R) body : (forall r c v, kp q (body r c v)) -> kp q (enumerate E p x body).
Proof. intros H. unfold enumerate. kpa; (apply kp_enum_loop; auto). Qed.
Lemma kp_map_step q p it f : (forall r c v, kp q (f r c v)) -> kp q (map_step (N:=N) p it f).
Proof.
  intros H. unfold map_step. apply kp_bind; [kpa|intros m0]. apply kp_bind; [kpa|intros it']. apply kp_bind; [kpa|intros [[r c] v]].
  apply kp_bind; [apply H|intros v']. apply kp_load_then. intros w m mq Ho Hq.
  destruct (mat_map_put m it' v') as [m'| |] eqn:E; [|apply kp_same; exact Hq|apply kp_same; exact Hq].
  rewrite mbind_lift. eapply kp_write_ret; eauto using put_kin.
Qed.
Lemma kp_map_loop q E stop p f : (forall r c v, kp q (f r c v)) ->
  forall fuel it, kp q (map_loop (N:=N) E stop fuel p it f).
Proof.
  intros H. induction fuel as [|fuel IH]; intros it; cbn [map_loop]; destruct (mat_HasNext it); kpa.
  all: apply kp_map_step; auto.
Qed.
Lemma kp_map_over q E stop p f : (forall r c v, kp q (f r c v)) -> kp q (map_over (N:=N) E stop p f).
Proof. intros H. unfold map_over. kpa; (apply kp_map_loop; auto). Qed.
Hint Resolve kp_for_list kp_enumerate kp_map_over : kp.

Lemma kp_dot q E a b ls : forall s, kp q (dot_loop (N:=N) E a b ls s).
Proof. induction ls as [|l ls IH]; intros s; cbn [dot_loop]; kpa. Qed.
Hint Resolve kp_dot : kp.

Lemma kp_multiply q E (s m : ptr) k (t : ptr) : kp q (multiply (N:=N) E s m k t).
Proof.
  intros. unfold multiply. kpa; (apply kp_for_list; intros r; kpa). apply kp_for_list. intros c. kpa.
Qed.
Lemma kp_ewm q E (s m : ptr) k (t : ptr) : kp q (elementWiseMultiply (N:=N) E s m k t).
Proof.
  intros. unfold elementWiseMultiply. apply kp_bind; [kpa|intros k']. cbv zeta.
  apply kp_bind; [kpa|intros sp]. apply kp_bind; [|kpa].
  destruct (Nat.eqb m t) eqn:E1; [apply Nat.eqb_eq in E1; subst|].
  { apply kp_enumerate. intros. kpa. }
  destruct (Nat.eqb s t) eqn:E2; [apply Nat.eqb_eq in E2; subst|].
  { apply kp_enumerate. intros. kpa. }
  destruct sp; apply kp_enumerate; intros; kpa.
Qed.
Lemma kp_check_sizes q (s m : ptr) : kp q (check_sizes (N:=N) s m).
Proof. unfold check_sizes. kpa. Qed.
Hint Resolve kp_check_sizes : kp.
Lemma kp_Add q E (s m : ptr) k (t : ptr) : kp q (Add (N:=N) E s m k t).
Proof.
  intros. unfold Add. do 3 (apply kp_bind; [kpa|intros]).
  match goal with |- kp _ (let '(_, _) := (if ?b then _ else _) in _) => destruct b end.
  all: apply kp_bind; [|kpa]; apply kp_enumerate; intros; kpa.
Qed.
Lemma kp_ewa q E (s m : ptr) k (t : ptr) : kp q (elementWiseAdd (N:=N) E s m k t).
Proof.
  intros.
  assert (H : forall src k, kp q (ewa_loop (N:=N) E src k t)).
  { intros. unfold ewa_loop. apply kp_enumerate. intros. kpa. }
  unfold elementWiseAdd. kpa.
Qed.
Lemma kp_Subtract q E (s m : ptr) k (t : ptr) : kp q (Subtract (N:=N) E s m k t).
Proof. intros. unfold Subtract. kpa; (apply kp_enumerate; intros; kpa). Qed.
Lemma kp_Transpose q E (s : ptr) k (t : ptr) : kp q (Transpose (N:=N) E s k t).
Proof. intros. unfold Transpose. kpa; (apply kp_enumerate; intros; kpa). Qed.
Lemma kp_Apply q E (s : ptr) k u (t : ptr) : kp q (Apply (N:=N) E s k u t).
Proof.
  intros. unfold Apply. apply kp_bind; [kpa|intros k'].
  destruct (Nat.eqb s t) eqn:E1; [apply Nat.eqb_eq in E1; subst|].
  - apply kp_map_over; auto. intros. kpa.
  - apply kp_bind; [|kpa]. apply kp_enumerate. intros. kpa.
Qed.
Lemma kp_Negative q E (s : ptr) k (t : ptr) : kp q (Negative (N:=N) E s k t).
Proof. intros. unfold Negative. kpa; (apply kp_map_over; auto; intros; kpa). Qed.
Lemma kp_Equal q E (s m : option ptr) : kp q (Equal (N:=N) E s m).
Proof.
  intros. unfold Equal. destruct s as [s|], m as [m|]; kpa.
  all: apply kp_enumerate; intros; kpa.
Qed.
Lemma kp_reduce_loop q E p k op : forall fuel it acc, kp q (reduce_loop (N:=N) E fuel p it k op acc).
Proof.
  induction fuel as [|fuel IH]; intros it acc; cbn [reduce_loop]; destruct (mat_HasNext it); kpa.
Qed.
Lemma kp_Reduce q E s mo k : kp q (ReduceMatrixToScalarWithMonoID (N:=N) E s mo k).
Proof. intros. unfold ReduceMatrixToScalarWithMonoID. kpa; (apply kp_reduce_loop; auto). Qed.
Hint Resolve kp_multiply kp_ewm kp_Add kp_ewa kp_Subtract kp_Transpose kp_Apply kp_Negative kp_Equal kp_Reduce : kp.

Ltac kpa2 := repeat first
  [ progress auto with kp
  | match goal with
    | |- kp _ (mbind _ _) => apply kp_bind; [|intros]
    | |- kp _ (if _ then _ else _) => apply kp_if
    | |- kp _ (for_list _ _) => apply kp_for_list; intros
    | |- kp _ (match ?x with _ => _ end) => destruct x
    end ].

Lemma kp_ReduceVec q E s mo k : kp q (ReduceMatrixToVectorWithMonoID (N:=N) E s mo k).
Proof. intros. unfold ReduceMatrixToVectorWithMonoID. kpa2. Qed.
Lemma kp_Scalar q E s a : kp q (Scalar (N:=N) E s a).
Proof. intros. unfold Scalar. kpa2. Qed.
Lemma kp_TransposeToCSR q E s : kp q (TransposeToCSR (N:=N) E s).
Proof. intros. unfold TransposeToCSR. kpa2. Qed.
Lemma kp_TransposeToCSC q E s : kp q (TransposeToCSC (N:=N) E s).
Proof. intros. unfold TransposeToCSC. kpa2. Qed.
Lemma kp_mMultiply q E (s m : ptr) : kp q (m_Multiply (N:=N) E s m).
Proof. intros. unfold m_Multiply. kpa2. Qed.
Lemma kp_mAdd q E (s m : ptr) : kp q (m_Add (N:=N) E s m).
Proof. intros. unfold m_Add. kpa2. Qed.
Lemma kp_mSubtract q E (s m : ptr) : kp q (m_Subtract (N:=N) E s m).
Proof. intros. unfold m_Subtract. apply kp_bind; [kpa|intros so]. destruct so; kpa2. Qed.
Lemma kp_mNegative q E (s : ptr) : kp q (m_Negative (N:=N) E s).
Proof. intros. unfold m_Negative. kpa2. Qed.
Lemma kp_mTranspose q E (s : ptr) : kp q (m_Transpose (N:=N) E s).
Proof. intros. unfold m_Transpose. kpa2. Qed.

Lemma kp_drop {A} q (x : M A) : kp q x -> kp q (drop x).
Proof. intros H. unfold drop. kpa. Qed.
Lemma kp_new q (x : res mat) : kp q (new x). Proof. unfold new. kpa. Qed.
Hint Resolve kp_ReduceVec kp_Scalar kp_TransposeToCSR kp_TransposeToCSC kp_mMultiply kp_mAdd kp_mSubtract kp_mNegative
  kp_mTranspose kp_drop kp_new : kp.

Lemma kin_call q (k : call N) : kp q (perform k).
Proof.
  destruct k; cbn [perform];
    unfold MatrixMatrixMultiply, VectorMatrixMultiply, ElementWiseMatrixMultiply, ElementWiseVectorMultiply,
      ElementWiseMatrixAdd, ElementWiseVectorAdd, NotEqual, user_Map; kpa.
  all: try (apply kp_drop; kpa; fail).
  all: try (apply kp_map_over; auto; intros; kpa).
Qed.

End Kin.
