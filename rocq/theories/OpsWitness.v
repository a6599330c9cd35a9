(** Concrete cases for the operator properties. *)
From Coq Require Import String.
From Verif Require Import GoBase Num SparseVec Csr Csc DenseVec DenseMat Mat World Ops Spec Api.
From Verif Require Import BaseProofs MatProofs HeapProofs ReachProofs NumProofs StoreProofs StoreThms OpsProps MaskThms Witness StoreWitness.

(** the cells of object [t], as read by [At] *)
Definition cells {N} (w : world N) (t : ptr) (R C : Z) : list (res (T N)) :=
  map (fun p => snd (p_At t (fst p) (snd p) w)) (positions R C).

Lemma in_positions R C i j : 0 <= i < R -> 0 <= j < C -> In (i, j) (positions R C).
Proof.
  intros Hi Hj. unfold positions. apply in_flat_map. exists i. split; [apply in_zrange; lia|].
  apply in_map_iff. exists j. split; [reflexivity|apply in_zrange; lia].
Qed.

Lemma denotes_tab {N} (w : world N) p m R C f : sane N -> reachable w -> obj w p m -> mat_Rows m = R -> mat_Columns m = C ->
  map (fun q => rmap fst (mat_At m (fst q) (snd q))) (positions R C) = map (fun q => Ok (f (fst q) (snd q))) (positions R C) ->
  denotes m R C f.
Proof.
  intros Hs Hr Ho ER EC H. split; [exact ER|]. split; [exact EC|]. intros i j Hi Hj.
  pose proof (sane_wfw w Hs Hr _ _ Ho) as Hw. destruct Hs as [Hz _].
  assert (E : rmap fst (mat_At m i j) = Ok (f i j)).
  { pose proof (in_positions R C i j Hi Hj) as Hin. revert H Hin. induction (positions R C) as [|q L IH]; intros H; [intros []|].
    cbn [map] in H. inversion H as [[H1 H2]]. intros [->|Hin]; [exact H1|apply IH; auto]. }
  rewrite At_ok in E |- * by (auto; unfold inb; lia). cbn in E. congruence.
Qed.

Lemma read_back {N A} (x : M N A) w w' a t O' R C f i j v : x w = (w', Ok a) -> obj w' t O' -> denotes O' R C f ->
  0 <= i < R -> 0 <= j < C -> snd (p_At t i j (fst (x w))) = Ok v -> f i j = v.
Proof.
  intros Hx Ho (_ & _ & Hd) Hi Hj E. rewrite Hx in E. cbn [fst] in E.
  unfold p_At in E. rewrite (mbind_ok _ _ _ _ _ (load_ok _ _ _ Ho)), (Hd i j Hi Hj), mbind_lift in E. cbn in E. congruence.
Qed.

Lemma float64_sane : sane num_float64.
Proof. apply go_types_sane. simpl. tauto. Qed.

(** ** Integer matrices *)
Definition dA := [[gi 1; gi 2; gi 3]; [gi 4; gi 5; gi 6]].
Definition dB := [[gi 1; gi 0]; [gi 2; gi 1]; [gi 0; gi 3]].
Definition dC := [[gi 10; gi 0; gi (-1)]; [gi 2; gi 2; gi 2]].
Definition dP := [[gi 1; gi 2; gi 0]; [gi 3; gi 0; gi 4]].
Definition dQ := [[gi 1; gi 2]; [gi 3; gi 4]].
Definition dH := [[gi 0; gi 99]; [gi 0; gi 0]].
Definition dMask := [[gi 0; gi 1]; [gi 0; gi 0]].
Definition dS := [[gi 5; gi 0; gi 0]; [gi 0; gi 7; gi 0]].
Definition ops_calls : list (call num_goint) :=
  [KDenseFrom dA; KDenseFrom dB; KDenseFrom dH; KDenseFrom dMask; KDenseFrom dC;
   KCSRFrom [[gi 0; gi 0; gi 1]]; KCSCFrom [[gi 0]; [gi 0]; [gi 1]]; KNewCSR 1 1;
   KCSRFrom dP; KCSCFrom dB; KNewDense 2 2; KCSRFrom dS; KDenseFrom dQ;
   KDVFrom [gi 1; gi 2; gi 3]; KNewSV 5; KSetVec 14 3 (gi 7); KDVFrom [gi 1; gi 0]; KNewDV 2;
   KSVFrom [gi 3; gi 4]; KSVFrom [gi 1; gi 1]; KNewDense 3 2; KDenseFrom [[gi 1; gi 1]; [gi 1; gi 1]; [gi 1; gi 1]]].
Definition ops : world num_goint := after_all ops_calls empty_world.

Ltac allowed_call :=
  first
    [ exact I
    | cbn [allowed]; lia
    | cbn [allowed]; split; [intros a b Ha Hb; cbn [In] in Ha, Hb; intuition (subst; reflexivity)
                            |intros a Ha; cbn [In] in Ha; intuition (subst; vm_compute; reflexivity)] ].
Ltac reach_ops := cbn [after_all]; repeat (apply reach_call; [|allowed_call]); apply reach_start.
Lemma ops_reachable : reachable ops.
Proof. unfold ops, ops_calls, dA, dB, dC, dP, dQ, dH, dMask, dS. reach_ops. Qed.

Definition oA : mat num_goint := MDM (MkDense 3 2 dA).
Definition oB : mat num_goint := MDM (MkDense 2 3 dB).
Definition oH : mat num_goint := MDM (MkDense 2 2 dH).
Definition oMask : mat num_goint := MDM (MkDense 2 2 dMask).
Definition oC : mat num_goint := MDM (MkDense 3 2 dC).
Definition o5 : mat num_goint := MCSR (MkCSR 1 3 [gi 1] [2] [0; 1]).
Definition o6 : mat num_goint := MCSC (MkCSC 3 1 [gi 1] [2] [0; 1]).
Definition o7 : mat num_goint := MCSR (MkCSR 1 1 [] [] [0; 0]).
Definition oP : mat num_goint := MCSR (MkCSR 2 3 [gi 1; gi 2; gi 3; gi 4] [0; 1; 0; 2] [0; 2; 4]).
Definition o9 : mat num_goint := MCSC (MkCSC 3 2 [gi 1; gi 2; gi 1; gi 3] [0; 1; 1; 2] [0; 2; 4]).
Definition o10 : mat num_goint := MDM (MkDense 2 2 [[gi 0; gi 0]; [gi 0; gi 0]]).
Definition oS : mat num_goint := MCSR (MkCSR 2 3 [gi 5; gi 7] [0; 1] [0; 1; 2]).
Definition oQ : mat num_goint := MDM (MkDense 2 2 dQ).
Definition o13 : mat num_goint := MDV (MkDV 3 [gi 1; gi 2; gi 3]).
Definition o14 : mat num_goint := MSV (MkSV 5 [gi 7] [3]).
Definition o15 : mat num_goint := MDV (MkDV 2 [gi 1; gi 0]).
Definition o16 : mat num_goint := MDV (MkDV 2 [gi 0; gi 0]).
Definition o17 : mat num_goint := MSV (MkSV 2 [gi 3; gi 4] [0; 1]).
Definition o18 : mat num_goint := MSV (MkSV 2 [gi 1; gi 1] [0; 1]).
Definition o19 : mat num_goint := MDM (MkDense 2 3 [[gi 0; gi 0]; [gi 0; gi 0]; [gi 0; gi 0]]).
Definition o20 : mat num_goint := MDM (MkDense 2 3 [[gi 1; gi 1]; [gi 1; gi 1]; [gi 1; gi 1]]).

Lemma h0 : obj ops 0 oA. Proof. at_obj. Qed.
Lemma h1 : obj ops 1 oB. Proof. at_obj. Qed.
Lemma h2 : obj ops 2 oH. Proof. at_obj. Qed.
Lemma h3 : obj ops 3 oMask. Proof. at_obj. Qed.
Lemma h4 : obj ops 4 oC. Proof. at_obj. Qed.
Lemma h5 : obj ops 5 o5. Proof. at_obj. Qed.
Lemma h6 : obj ops 6 o6. Proof. at_obj. Qed.
Lemma h7 : obj ops 7 o7. Proof. at_obj. Qed.
Lemma h8 : obj ops 8 oP. Proof. at_obj. Qed.
Lemma h9 : obj ops 9 o9. Proof. at_obj. Qed.
Lemma h10 : obj ops 10 o10. Proof. at_obj. Qed.
Lemma h11 : obj ops 11 oS. Proof. at_obj. Qed.
Lemma h12 : obj ops 12 oQ. Proof. at_obj. Qed.
Lemma h13 : obj ops 13 o13. Proof. at_obj. Qed.
Lemma h14 : obj ops 14 o14. Proof. at_obj. Qed.
Lemma h15 : obj ops 15 o15. Proof. at_obj. Qed.
Lemma h16 : obj ops 16 o16. Proof. at_obj. Qed.
Lemma h17 : obj ops 17 o17. Proof. at_obj. Qed.
Lemma h18 : obj ops 18 o18. Proof. at_obj. Qed.
Lemma h19 : obj ops 19 o19. Proof. at_obj. Qed.
Lemma h20 : obj ops 20 o20. Proof. at_obj. Qed.

Definition zeroes : Z -> Z -> T num_goint := fun _ _ => gi 0.
Ltac tab H := apply (denotes_tab ops _ _ _ _ _ goint_sane ops_reachable H eq_refl eq_refl); vm_compute; reflexivity.
Lemma t0 : denotes oA 2 3 (cell_of dA). Proof. tab h0. Qed.
Lemma t1 : denotes oB 3 2 (cell_of dB). Proof. tab h1. Qed.
Lemma t2 : denotes oH 2 2 (cell_of dH). Proof. tab h2. Qed.
Lemma t3 : denotes oMask 2 2 (cell_of dMask). Proof. tab h3. Qed.
Lemma t4 : denotes oC 2 3 (cell_of dC). Proof. tab h4. Qed.
Lemma t5 : denotes o5 1 3 (cell_of [[gi 0; gi 0; gi 1]]). Proof. tab h5. Qed.
Lemma t6 : denotes o6 3 1 (cell_of [[gi 0]; [gi 0]; [gi 1]]). Proof. tab h6. Qed.
Lemma t7 : denotes o7 1 1 zeroes. Proof. tab h7. Qed.
Lemma t8 : denotes oP 2 3 (cell_of dP). Proof. tab h8. Qed.
Lemma t9 : denotes o9 3 2 (cell_of dB). Proof. tab h9. Qed.
Lemma t10 : denotes o10 2 2 zeroes. Proof. tab h10. Qed.
Lemma t11 : denotes oS 2 3 (cell_of dS). Proof. tab h11. Qed.
Lemma t12 : denotes oQ 2 2 (cell_of dQ). Proof. tab h12. Qed.
Lemma t13 : denotes o13 3 1 (cell_of [[gi 1]; [gi 2]; [gi 3]]). Proof. tab h13. Qed.
Lemma t14 : denotes o14 5 1 zeroes. Proof. tab h14. Qed.
Lemma t15 : denotes o15 2 1 (cell_of [[gi 1]; [gi 0]]). Proof. tab h15. Qed.
Lemma t16 : denotes o16 2 1 zeroes. Proof. tab h16. Qed.
Lemma t17 : denotes o17 2 1 (cell_of [[gi 3]; [gi 4]]). Proof. tab h17. Qed.
Lemma t18 : denotes o18 2 1 (cell_of [[gi 1]; [gi 1]]). Proof. tab h18. Qed.
Lemma t19 : denotes o19 3 2 zeroes. Proof. tab h19. Qed.
Lemma t20 : denotes o20 3 2 (fun _ _ => gi 1). Proof. tab h20. Qed.

(** ** float64 matrices: these formats are in the registry *)
Definition fS := [[fl 1; fl 0; fl 0]; [fl 0; fl 2; fl 0]].
Definition fT := [[fl 1; fl 4; fl 0]; [fl 0; fl 2; fl 8]].
Definition fcalls : list (call num_float64) :=
  [KCSRFrom fS; KDenseFrom fT; KCSCFrom fS; KDenseFrom fS].
Definition fops : world num_float64 := after_all fcalls empty_world.
Lemma fops_reachable : reachable fops.
Proof. unfold fops, fcalls, fS, fT. reach_ops. Qed.
Definition f0 : mat num_float64 := MCSR (MkCSR 2 3 [fl 1; fl 2] [0; 1] [0; 1; 2]).
Definition f1 : mat num_float64 := MDM (MkDense 3 2 fT).
Definition f2 : mat num_float64 := MCSC (MkCSC 2 3 [fl 1; fl 2] [0; 1] [0; 1; 2; 2]).
Definition f3 : mat num_float64 := MDM (MkDense 3 2 fS).
Lemma g0 : obj fops 0 f0. Proof. at_obj. Qed.
Lemma g1 : obj fops 1 f1. Proof. at_obj. Qed.
Lemma g2 : obj fops 2 f2. Proof. at_obj. Qed.
Lemma g3 : obj fops 3 f3. Proof. at_obj. Qed.
Ltac ftab H := apply (denotes_tab fops _ _ _ _ _ float64_sane fops_reachable H eq_refl eq_refl); vm_compute; reflexivity.
Lemma u0 : denotes f0 2 3 (cell_of fS). Proof. ftab g0. Qed.
Lemma u1 : denotes f1 2 3 (cell_of fT). Proof. ftab g1. Qed.
Lemma u2 : denotes f2 2 3 (cell_of fS). Proof. ftab g2. Qed.
Lemma u3 : denotes f3 2 3 (cell_of fS). Proof. ftab g3. Qed.

(** ** Refutations *)
Ltac differs := vm_compute; discriminate.

Lemma mul_sparse_no :
  ~ (forall N E (w : world N) (s m : ptr) k t S Mo O R K C f g h,
      sane N -> reachable w -> obj w s S -> obj w m Mo -> obj w t O ->
      is_sparse_matrix S -> is_sparse_matrix Mo -> not_sparse_vector O ->
      denotes S R K f -> denotes Mo K C g -> denotes O R C h -> mask_dims w k R C -> s <> t -> m <> t -> e_ctx E = None ->
      exists w' O', MatrixMatrixMultiply E s m k t w = (w', Ok tt) /\ obj w' t O' /\
        denotes O' R C (fun i j => if covers w k i j then h i j else kept O (sum_from n0 (fun l => nmul (f i l) (g l j)) 0 K))).
Proof.
  intros H. destruct (H _ E0 ops 5%nat 6%nat MNil 7%nat _ _ _ _ _ _ _ _ _ goint_sane ops_reachable h5 h6 h7 I I I t5 t6 t7 I
    ltac:(discriminate) ltac:(discriminate) eq_refl) as (w' & O' & Hr & Ho & Hd).
  pose proof (read_back _ _ _ _ _ _ _ _ _ 0 0 (gi 0) Hr Ho Hd ltac:(lia) ltac:(lia) ltac:(vm_compute; reflexivity)) as E.
  revert E. differs.
Qed.
Lemma add_sparse_no :
  ~ (forall N E (w : world N) (s m : ptr) S Mo R C f g,
      sane N -> reachable w -> obj w s S -> obj w m Mo -> is_sparse_matrix S -> not_sparse_vector Mo ->
      denotes S R C f -> denotes Mo R C g -> mat_Values S <= Z.of_nat (e_fuel E) -> mat_Values Mo <= Z.of_nat (e_fuel E) ->
      exists w' t O', m_Add E s m w = (w', Ok t) /\ obj w' t O' /\ denotes O' R C (fun i j => nadd (f i j) (g i j))).
Proof.
  intros H. destruct (H _ E0 fops 0%nat 1%nat _ _ _ _ _ _ float64_sane fops_reachable g0 g1 I I u0 u1
    ltac:(vm_compute; discriminate) ltac:(vm_compute; discriminate)) as (w' & t & O' & Hr & Ho & Hd).
  assert (Et : Ok t = Ok 4%nat) by (apply (f_equal snd) in Hr; cbn [snd] in Hr; rewrite <- Hr; vm_compute; reflexivity).
  injection Et as ->.
  pose proof (read_back _ _ _ _ _ _ _ _ _ 0 1 (fl 0) Hr Ho Hd ltac:(lia) ltac:(lia) ltac:(vm_compute; reflexivity)) as E.
  revert E. differs.
Qed.
Lemma sub_sparse_no :
  ~ (forall N E (w : world N) (s m : ptr) S Mo R C f g,
      sane N -> reachable w -> obj w s S -> obj w m Mo -> is_sparse_matrix S -> not_sparse_vector Mo ->
      denotes S R C f -> denotes Mo R C g -> mat_Values S <= Z.of_nat (e_fuel E) -> mat_Values Mo <= Z.of_nat (e_fuel E) ->
      exists w' t O', m_Subtract E s m w = (w', Ok t) /\ obj w' t O' /\ denotes O' R C (fun i j => nsub (f i j) (g i j))).
Proof.
  intros H. destruct (H _ E0 ops 11%nat 8%nat _ _ _ _ _ _ goint_sane ops_reachable h11 h8 I I t11 t8
    ltac:(vm_compute; discriminate) ltac:(vm_compute; discriminate)) as (w' & t & O' & Hr & Ho & Hd).
  assert (Et : Ok t = Ok 21%nat) by (apply (f_equal snd) in Hr; cbn [snd] in Hr; rewrite <- Hr; vm_compute; reflexivity).
  injection Et as ->.
  pose proof (read_back _ _ _ _ _ _ _ _ _ 0 1 (gi 2) Hr Ho Hd ltac:(lia) ltac:(lia) ltac:(vm_compute; reflexivity)) as E.
  revert E. differs.
Qed.
Lemma sub_sv_no :
  ~ (forall N E (w : world N) (s m : ptr) S Mo L f g,
      sane N -> reachable w -> obj w s (MSV S) -> obj w m Mo ->
      denotes (MSV S) L 1 f -> denotes Mo L 1 g -> mat_Values (MSV S) <= Z.of_nat (e_fuel E) ->
      exists w' t O', m_Subtract E s m w = (w', Ok t) /\ obj w' t O' /\ denotes O' L 1 (fun i j => nsub (f i j) (g i j))).
Proof.
  intros H. destruct (H _ E0 ops 17%nat 18%nat _ _ _ _ _ goint_sane ops_reachable h17 h18 t17 t18
    ltac:(vm_compute; discriminate)) as (w' & t & O' & Hr & Ho & Hd).
  assert (Et : Ok t = Ok 21%nat) by (apply (f_equal snd) in Hr; cbn [snd] in Hr; rewrite <- Hr; vm_compute; reflexivity).
  injection Et as ->.
  pose proof (read_back _ _ _ _ _ _ _ _ _ 0 0 (gi 0) Hr Ho Hd ltac:(lia) ltac:(lia) ltac:(vm_compute; reflexivity)) as E.
  revert E. differs.
Qed.
Lemma neg_operator_no :
  ~ (forall N E (w : world N) (s t : ptr) k S O R C f h,
      sane N -> reachable w -> obj w s S -> obj w t O -> not_sparse_vector S -> not_sparse_vector O ->
      denotes S R C f -> denotes O R C h -> mask_dims w k R C -> mat_Values O <= Z.of_nat (e_fuel E) -> e_ctx E = None ->
      exists w' O', Negative E s k t w = (w', Ok tt) /\ obj w' t O' /\
        denotes O' R C (fun i j => if covers w k i j then h i j else nneg (f i j))).
Proof.
  intros H. destruct (H _ E0 ops 12%nat 10%nat MNil _ _ _ _ _ _ goint_sane ops_reachable h12 h10 I I t12 t10 I
    ltac:(vm_compute; discriminate) eq_refl) as (w' & O' & Hr & Ho & Hd).
  pose proof (read_back _ _ _ _ _ _ _ _ _ 0 0 (gi 0) Hr Ho Hd ltac:(lia) ltac:(lia) ltac:(vm_compute; reflexivity)) as E.
  revert E. differs.
Qed.
Lemma scalar_no :
  ~ (forall N E (w : world N) (s : ptr) S a R C f,
      sane N -> reachable w -> obj w s S -> denotes S R C f -> mat_Values S <= Z.of_nat (e_fuel E) ->
      exists w' t O', m_Scalar E s a w = (w', Ok t) /\ obj w' t O' /\ denotes O' R C (fun i j => nmul a (f i j))).
Proof.
  intros H.
  assert (Hr : reachable row12) by (unfold row12; reach_ops).
  assert (Ho : obj row12 0 (MCSR (MkCSR 1 2 [gi 1; gi 1] [0; 1] [0; 2]))) by at_obj.
  assert (Hd : denotes (MCSR (MkCSR 1 2 [gi 1; gi 1] [0; 1] [0; 2])) 1 2 (cell_of [[gi 1; gi 1]])).
  { apply (denotes_tab row12 _ _ _ _ _ goint_sane Hr Ho eq_refl eq_refl). vm_compute. reflexivity. }
  destruct (H _ E0 row12 0%nat _ (gi 0) _ _ _ goint_sane Hr Ho Hd ltac:(vm_compute; discriminate)) as (w' & t & O' & Hrun & _).
  apply (f_equal snd) in Hrun. cbn [snd] in Hrun.
  assert (X : snd (m_Scalar E0 0 (gi 0) row12) = Panic) by (vm_compute; reflexivity). congruence.
Qed.
Lemma transpose_sv_no :
  ~ (forall N E (w : world N) (s : ptr) S R C f,
      sane N -> reachable w -> obj w s S -> denotes S R C f ->
      mat_Values S <= Z.of_nat (e_fuel E) -> (is_vector S -> R < 2 ^ 63) ->
      exists w' t O', m_Transpose E s w = (w', Ok t) /\ obj w' t O' /\ denotes O' C R (fun i j => f j i)).
Proof.
  intros H. destruct (H _ E0 ops 14%nat _ _ _ _ goint_sane ops_reachable h14 t14
    ltac:(vm_compute; discriminate) ltac:(lia)) as (w' & t & O' & Hr & Ho & Hd).
  assert (Et : Ok t = Ok 21%nat) by (apply (f_equal snd) in Hr; cbn [snd] in Hr; rewrite <- Hr; vm_compute; reflexivity).
  injection Et as ->.
  pose proof (read_back _ _ _ _ _ _ _ _ _ 0 3 (gi 7) Hr Ho Hd ltac:(lia) ltac:(lia) ltac:(vm_compute; reflexivity)) as E.
  revert E. differs.
Qed.
Lemma transpose_mask_no :
  ~ (forall N E (w : world N) (s : ptr) k t S O R C f h,
      sane N -> reachable w -> obj w s S -> obj w t O -> is_dense S -> not_sparse_vector O ->
      denotes S R C f -> denotes O C R h -> mask_dims w k C R -> s <> t -> mask_not k t ->
      mat_Values S <= Z.of_nat (e_fuel E) -> e_ctx E = None ->
      exists w' O', Transpose E s k t w = (w', Ok tt) /\ obj w' t O' /\
        denotes O' C R (fun i j => if covers w k i j then h i j else kept O (f j i))).
Proof.
  intros H. destruct (H _ E0 ops 12%nat (MObj 3) 10%nat _ _ _ _ _ _ goint_sane ops_reachable h12 h10 I I t12 t10
    (ex_intro _ oMask (conj h3 (conj eq_refl eq_refl))) ltac:(discriminate) ltac:(discriminate)
    ltac:(vm_compute; discriminate) eq_refl) as (w' & O' & Hr & Ho & Hd).
  pose proof (read_back _ _ _ _ _ _ _ _ _ 0 1 (gi 3) Hr Ho Hd ltac:(lia) ltac:(lia) ltac:(vm_compute; reflexivity)) as E.
  revert E. differs.
Qed.
(** a 3 x 2 output with an object mask of the same size *)
Lemma transpose_nonsquare_panics :
  obj ops 0 oA /\ denotes oA 2 3 (cell_of dA) /\ obj ops 19 o19 /\ denotes o19 3 2 zeroes /\
  mask_dims ops (MObj 20) 3 2 /\ snd (Transpose E0 0 (MObj 20) 19 ops) = Panic /\
  snd (Apply E0 0 (MObj 20) nneg 19 ops) = Panic.
Proof.
  split; [exact h0|]. split; [exact t0|]. split; [exact h19|]. split; [exact t19|].
  split; [exact (ex_intro _ o20 (conj h20 (conj eq_refl eq_refl)))|]. split; vm_compute; reflexivity.
Qed.
Lemma apply_no :
  ~ (forall N E (w : world N) (s : ptr) k t S O R C f h u,
      sane N -> reachable w -> obj w s S -> obj w t O -> is_dense S -> is_dense O ->
      denotes S R C f -> denotes O R C h -> mask_dims w k R C -> s <> t -> mask_not k t ->
      mat_Values S <= Z.of_nat (e_fuel E) -> e_ctx E = None ->
      exists w' O', Apply E s k u t w = (w', Ok tt) /\ obj w' t O' /\
        denotes O' R C (fun i j => if covers w k i j then h i j else u (f i j))).
Proof.
  intros H. destruct (H _ E0 ops 12%nat MNil 10%nat _ _ _ _ _ _ nneg goint_sane ops_reachable h12 h10 I I t12 t10
    I ltac:(discriminate) ltac:(discriminate) ltac:(vm_compute; discriminate) eq_refl) as (w' & O' & Hr & Ho & Hd).
  pose proof (read_back _ _ _ _ _ _ _ _ _ 0 1 (gi (-3)) Hr Ho Hd ltac:(lia) ltac:(lia) ltac:(vm_compute; reflexivity)) as E.
  revert E. differs.
Qed.
Lemma apply_in_no :
  ~ (forall N E (w : world N) k t O R C h u,
      sane N -> reachable w -> obj w t O -> is_dense O ->
      denotes O R C h -> mask_dims w k R C -> mask_not k t -> mat_Values O <= Z.of_nat (e_fuel E) -> e_ctx E = None ->
      exists w' O', Apply E t k u t w = (w', Ok tt) /\ obj w' t O' /\
        denotes O' R C (fun i j => if covers w k i j then h i j else u (h i j))).
Proof.
  intros H. destruct (H _ E0 ops MNil 12%nat _ _ _ _ nneg goint_sane ops_reachable h12 I t12
    I ltac:(discriminate) ltac:(vm_compute; discriminate) eq_refl) as (w' & O' & Hr & Ho & Hd).
  pose proof (read_back _ _ _ _ _ _ _ _ _ 0 1 (gi 2) Hr Ho Hd ltac:(lia) ltac:(lia) ltac:(vm_compute; reflexivity)) as E.
  revert E. differs.
Qed.
(** sparse against dense of type float64: only the entries of the sparse one count *)
Lemma equal_mixed_true :
  exists S Mo f g, obj fops 0 S /\ obj fops 1 Mo /\ is_sparse_matrix S /\ is_dense Mo /\ denotes S 2 3 f /\ denotes Mo 2 3 g /\
    snd (Equal E0 (Some 0%nat) (Some 1%nat) fops) = Ok true /\ neqb (f 0 1) (g 0 1) = false.
Proof.
  exists f0, f1, (cell_of fS), (cell_of fT). split; [exact g0|]. split; [exact g1|]. split; [exact I|]. split; [exact I|].
  split; [exact u0|]. split; [exact u1|]. split; vm_compute; reflexivity.
Qed.
(** an int matrix in CSR and in dense storage with equal cells *)
Definition csr_dense : world num_goint := after_all [KCSRFrom dS; KDenseFrom dS] empty_world.
Lemma equal_unregistered_false :
  exists S Mo f, reachable csr_dense /\ obj csr_dense 0 S /\ obj csr_dense 1 Mo /\ is_sparse_matrix S /\ is_dense Mo /\
    denotes S 2 3 f /\ denotes Mo 2 3 f /\ (forall i j, 0 <= i < 2 -> 0 <= j < 3 -> neqb (f i j) (f i j) = true) /\
    snd (Equal E0 (Some 0%nat) (Some 1%nat) csr_dense) = Ok false.
Proof.
  assert (Hr : reachable csr_dense) by (unfold csr_dense, dS; reach_ops).
  exists oS, (MDM (MkDense 3 2 dS)), (cell_of dS). split; [exact Hr|].
  assert (H1 : obj csr_dense 0 oS) by at_obj. assert (H2 : obj csr_dense 1 (MDM (MkDense 3 2 dS))) by at_obj.
  split; [exact H1|]. split; [exact H2|]. split; [exact I|]. split; [exact I|].
  split; [apply (denotes_tab _ _ _ _ _ _ goint_sane Hr H1 eq_refl eq_refl); vm_compute; reflexivity|].
  split; [apply (denotes_tab _ _ _ _ _ _ goint_sane Hr H2 eq_refl eq_refl); vm_compute; reflexivity|].
  split; [intros i j _ _; apply Z.eqb_refl|vm_compute; reflexivity].
Qed.
Lemma ewa_no :
  ~ (forall N E (w : world N) (s m : ptr) t S Mo O R f g h,
      sane N -> reachable w -> obj w s S -> obj w m Mo -> obj w t O -> is_dense S -> is_dense Mo -> is_dense O ->
      denotes S R R f -> denotes Mo R R g -> denotes O R R h -> s <> t -> m <> t -> R * R <= Z.of_nat (e_fuel E) -> e_ctx E = None ->
      exists w' O', ElementWiseMatrixAdd E s m MNil t w = (w', Ok tt) /\ obj w' t O' /\ denotes O' R R (fun i j => nadd (f i j) (g i j))).
Proof.
  intros H. destruct (H _ E0 ops 12%nat 2%nat 10%nat _ _ _ _ _ _ _ goint_sane ops_reachable h12 h2 h10 I I I t12 t2 t10
    ltac:(discriminate) ltac:(discriminate) ltac:(cbn; lia) eq_refl) as (w' & O' & Hr & Ho & Hd).
  pose proof (read_back _ _ _ _ _ _ _ _ _ 0 1 (gi 99) Hr Ho Hd ltac:(lia) ltac:(lia) ltac:(vm_compute; reflexivity)) as E.
  revert E. differs.
Qed.
Lemma ewm_no :
  ~ (forall N E (w : world N) (s m : ptr) t S Mo O R f g h,
      sane N -> reachable w -> obj w s S -> obj w m Mo -> obj w t O -> is_dense S -> is_dense Mo -> is_dense O ->
      denotes S R R f -> denotes Mo R R g -> denotes O R R h -> s <> t -> m <> t -> R * R <= Z.of_nat (e_fuel E) -> e_ctx E = None ->
      exists w' O', ElementWiseMatrixMultiply E s m MNil t w = (w', Ok tt) /\ obj w' t O' /\ denotes O' R R (fun i j => nmul (f i j) (g i j))).
Proof.
  intros H. destruct (H _ E0 ops 12%nat 2%nat 10%nat _ _ _ _ _ _ _ goint_sane ops_reachable h12 h2 h10 I I I t12 t2 t10
    ltac:(discriminate) ltac:(discriminate) ltac:(cbn; lia) eq_refl) as (w' & O' & Hr & Ho & Hd).
  pose proof (read_back _ _ _ _ _ _ _ _ _ 0 1 (gi 0) Hr Ho Hd ltac:(lia) ltac:(lia) ltac:(vm_compute; reflexivity)) as E.
  revert E. differs.
Qed.
Lemma vecmat_no :
  ~ (forall N E (w : world N) (s m : ptr) t S Mo O R f g h,
      sane N -> reachable w -> obj w s S -> obj w m Mo -> obj w t O -> is_dense S -> is_dense Mo -> is_dense O ->
      denotes S R 1 f -> denotes Mo R R g -> denotes O R 1 h -> s <> t -> m <> t -> e_ctx E = None ->
      exists w' O', VectorMatrixMultiply E s m MNil t w = (w', Ok tt) /\ obj w' t O' /\
        denotes O' R 1 (fun i _ => sum_from n0 (fun l => nmul (f l 0) (g l i)) 0 R)).
Proof.
  intros H. destruct (H _ E0 ops 15%nat 12%nat 16%nat _ _ _ _ _ _ _ goint_sane ops_reachable h15 h12 h16 I I I t15 t12 t16
    ltac:(discriminate) ltac:(discriminate) eq_refl) as (w' & O' & Hr & Ho & Hd).
  pose proof (read_back _ _ _ _ _ _ _ _ _ 1 0 (gi 3) Hr Ho Hd ltac:(lia) ltac:(lia) ltac:(vm_compute; reflexivity)) as E.
  revert E. differs.
Qed.
Lemma vec_multiply_no :
  ~ (forall N E (w : world N) (s m : ptr) S Mo l c f g,
      sane N -> reachable w -> obj w s S -> obj w m Mo -> is_vector S -> denotes S l 1 f -> denotes Mo 1 c g -> 0 < l -> 0 < c ->
      exists w' t O', m_Multiply E s m w = (w', Ok t) /\ obj w' t O' /\ denotes O' l c (fun i j => nmul (f i 0) (g 0 j))).
Proof.
  intros H. destruct (H _ E0 ops 13%nat 5%nat _ _ _ _ _ _ goint_sane ops_reachable h13 h5 I t13 t5 ltac:(lia) ltac:(lia)) as (w' & t & O' & Hr & _).
  apply (f_equal snd) in Hr. cbn [snd] in Hr.
  assert (X : snd (m_Multiply E0 13 5 ops) = Panic) by (vm_compute; reflexivity). congruence.
Qed.
Lemma scalar_cancel_hangs : exists S, obj ops 12 S /\ 0 < mat_Values S /\
  forall fuel, snd (Scalar (MkEnv (Some 2%nat) reg0 fuel) 12 (gi 2) ops) = Diverge.
Proof.
  exists oQ. split; [exact h12|]. split; [vm_compute; reflexivity|]. intros fuel.
  destruct (scalar_cancel (MkEnv (Some 2%nat) reg0 fuel) 2 ops 12%nat oQ (gi 2) goint_sane ops_reachable h12 eq_refl ltac:(discriminate)) as [H _].
  destruct H as [w' H]; [vm_compute; reflexivity| |rewrite H; reflexivity].
  replace (w_polls ops) with 0%nat by (vm_compute; reflexivity). vm_compute. reflexivity.
Qed.

(** ** The registry and the element types *)
Lemma ints_exact_zero N : In N go_ints -> exact_zero (N := N).
Proof.
  intros H. split; [|intros x y; apply (go_ints_eq N H)].
  intros x. pose proof (go_ints_ring N H) as Rg. rewrite (Radd_comm Rg). apply (Radd_0_l Rg).
Qed.
Lemma ints_unregistered N (m : mat N) : In N go_ints -> IsSparseMatrix reg0 m = false.
Proof.
  intros H. unfold go_ints in H. cbn [In] in H.
  repeat (destruct H as [<-|H]; [destruct m; reflexivity|]). contradiction.
Qed.
Lemma dense_unregistered N (m : mat N) : is_dense m -> IsSparseMatrix reg0 m = false.
Proof.
  intros H. destruct m; try contradiction; reflexivity.
Qed.
Lemma add_ints N E (w : world N) (s m : ptr) S Mo R C f g :
  In N go_ints -> e_reg E = reg0 -> reachable w -> obj w s S -> obj w m Mo -> is_sparse_matrix S -> not_sparse_vector Mo ->
  denotes S R C f -> denotes Mo R C g ->
  mat_Values S <= Z.of_nat (e_fuel E) -> mat_Values Mo <= Z.of_nat (e_fuel E) ->
  exists w' t O', m_Add E s m w = (w', Ok t) /\ (forall x, ~ obj w t x) /\ extends w w' /\ obj w' t O' /\ same_storage S O' /\
    denotes O' R C (fun i j => nadd (f i j) (g i j)).
Proof.
  intros HN He Hr H1 H2 Ps Pm Ds Dm Hf Hg. apply (add_unregistered E w s m S Mo); auto.
  - apply go_types_sane. do 2 right. exact HN.
  - apply ints_exact_zero; auto.
  - rewrite He. apply ints_unregistered; auto.
Qed.

(** ** Solving the hypotheses of the cases *)
Ltac hyp :=
  lazymatch goal with
  | |- reachable ops => exact ops_reachable
  | |- reachable fops => exact fops_reachable
  | |- obj ops 0 _ => exact h0
  | |- obj ops 1 _ => exact h1
  | |- obj ops 2 _ => exact h2
  | |- obj ops 3 _ => exact h3
  | |- obj ops 4 _ => exact h4
  | |- obj ops 5 _ => exact h5
  | |- obj ops 6 _ => exact h6
  | |- obj ops 7 _ => exact h7
  | |- obj ops 8 _ => exact h8
  | |- obj ops 9 _ => exact h9
  | |- obj ops 10 _ => exact h10
  | |- obj ops 11 _ => exact h11
  | |- obj ops 12 _ => exact h12
  | |- obj ops 13 _ => exact h13
  | |- obj ops 14 _ => exact h14
  | |- obj ops 15 _ => exact h15
  | |- obj ops 16 _ => exact h16
  | |- obj ops 17 _ => exact h17
  | |- obj ops 18 _ => exact h18
  | |- obj ops 19 _ => exact h19
  | |- obj ops 20 _ => exact h20
  | |- obj fops 0 _ => exact g0
  | |- obj fops 1 _ => exact g1
  | |- obj fops 2 _ => exact g2
  | |- obj fops 3 _ => exact g3
  | |- denotes oA _ _ _ => exact t0
  | |- denotes oB _ _ _ => exact t1
  | |- denotes oH _ _ _ => exact t2
  | |- denotes oMask _ _ _ => exact t3
  | |- denotes oC _ _ _ => exact t4
  | |- denotes o5 _ _ _ => exact t5
  | |- denotes o6 _ _ _ => exact t6
  | |- denotes o7 _ _ _ => exact t7
  | |- denotes oP _ _ _ => exact t8
  | |- denotes o9 _ _ _ => exact t9
  | |- denotes o10 _ _ _ => exact t10
  | |- denotes oS _ _ _ => exact t11
  | |- denotes oQ _ _ _ => exact t12
  | |- denotes o13 _ _ _ => exact t13
  | |- denotes o14 _ _ _ => exact t14
  | |- denotes o15 _ _ _ => exact t15
  | |- denotes o16 _ _ _ => exact t16
  | |- denotes o17 _ _ _ => exact t17
  | |- denotes o18 _ _ _ => exact t18
  | |- denotes o19 _ _ _ => exact t19
  | |- denotes o20 _ _ _ => exact t20
  | |- denotes f0 _ _ _ => exact u0
  | |- denotes f1 _ _ _ => exact u1
  | |- denotes f2 _ _ _ => exact u2
  | |- denotes f3 _ _ _ => exact u3
  | |- mask_dims ops (MObj 3) _ _ => exact (ex_intro _ oMask (conj h3 (conj eq_refl eq_refl)))
  | |- mask_dims ops (MObj 20) _ _ => exact (ex_intro _ o20 (conj h20 (conj eq_refl eq_refl)))
  | |- _ => vm_compute; reflexivity
  end.
Ltac the_case := repeat (split; [hyp|]); hyp.
