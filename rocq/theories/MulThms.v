(** Multiplication and the other operators, in the specification's words. *)
From Coq Require Import String Sorting.Sorted.
From Verif Require Import GoBase Num SparseVec Csr Csc DenseVec DenseMat Mat World Ops.
From Verif Require Import BaseProofs AssocProofs CsrProofs SvProofs CsrIterProofs CscProofs DenseProofs MatProofs.
From Verif Require Import Spec HeapProofs Api ReachProofs StoreProofs VecProofs LoopProofs StoreThms OpsProofs OpsThms.

Section Mul.
Context {N : num}.
Notation V := (T N).
Notation mat := (mat N).
Notation ent := (Z * Z * V)%type.
Notation row := (list (Z * V)).
Notation world := (world N).
Notation M := (M N).
Implicit Types w : world.
Implicit Types m S Mo O : mat.

Lemma sv_read_zeroed l (ents : row) i : zero_ok N -> ents_ok l ents -> 0 <= i < l -> zeroed (sv_read ents i) = sv_read ents i.
Proof.
  intros Hz (H0 & H1 & H2) Hi. pose proof (sv_AtVec_read l ents i Hi) as Hr. unfold zeroed.
  destruct (sv_AtVec_probe l ents i Hi) as [(lo & v & hi & He & Hv)|Hv].
  - rewrite Hv in Hr. injection Hr as <-. rewrite He in H2. apply Forall_app in H2 as [_ H2]. inversion H2; subst.
    cbn [snd] in *. destruct (neqb v n0) eqn:E; [|reflexivity]. unfold isz in *. congruence.
  - rewrite Hv in Hr. injection Hr as <-. destruct (neqb n0 n0); reflexivity.
Qed.

Lemma row_view m R C f r : zero_ok N -> wf m -> denotes m R C f -> 0 <= r < R ->
  exists rv, mat_RowsAt m r = Ok rv /\ mat_Rows rv = C /\
    forall l, 0 <= l < C -> mat_AtVec rv l = Ok (shown m C (f r) l).
Proof.
  intros Hz Hw Hd Hr. pose proof Hd as (ER & EC & Hat). destruct (kind m) eqn:K.
  1-2: (destruct (RowsAt_ascending m R C f r Hz) as (v & E & A1 & _ & _ & _ & A2);
    [split; [auto|congruence]|destruct m; simpl in *; congruence|auto|auto|];
    exists v; split; [exact E|]; split; [exact A1|]; intros l Hl; rewrite A2 by auto;
    destruct m; simpl in K; try discriminate; reflexivity).
  1-2: (rewrite RowsAt_dense; [|split; [auto|congruence]|destruct m; simpl in *; congruence|lia];
    eexists; split; [reflexivity|]; rewrite EC; pose proof (wf_dims m Hw) as [_ HC]; rewrite EC in HC;
    destruct (vdenotes_dv C (peek m r) HC) as (A & B & D); split; [exact A|]; intros l Hl; rewrite D by auto;
    rewrite (denotes_peek m R C f r l Hd) by (unfold inb; lia); destruct m; simpl in K; try discriminate; reflexivity).
  destruct m as [| | | |v]; simpl in K; try discriminate. destruct Hw as (l & ents & -> & H). cbn in ER, EC. subst R C.
  cbn [mat_RowsAt]. unfold sv_RowsAt, sv_Rows. cbn [sv_l mk_sv].
  replace ((r <? 0) || (r >=? l)) with false by (rewrite Z.geb_leb; lia).
  replace (MkSV l (map snd ents) (map fst ents)) with (mk_sv l ents) by reflexivity.
  rewrite NewSparseVector_spec. cbn [rbind]. rewrite sv_AtVec_read by auto. cbn [rbind].
  specialize (Hat r 0 Hr ltac:(unfold sv_Columns; lia)). cbn [mat_At] in Hat.
  rewrite (sv_At_ok l ents r 0 Hz H Hr eq_refl) in Hat. cbn [rmap rbind] in Hat. injection Hat as Hat.
  assert (Hok : row_ok 1 ([] : row)) by (repeat split; constructor).
  rewrite (sv_SetVec_sorted 1 [] 0 (sv_read ents r) Hok) by (zl; lia). cbn [rmap rbind].
  eexists; split; [reflexivity|]. split; [reflexivity|]. intros l0 Hl0. unfold sv_Columns in Hl0.
  assert (l0 = 0) by lia. subst l0. cbn [mat_AtVec shown].
  rewrite sv_AtVec_read by lia. f_equal. rewrite <- Hat.
  rewrite <- (sv_read_zeroed l ents r Hz H Hr) at 2.
  assert (Hok' : row_ok 1 (aput 0 (sv_read ents r) ([] : row))).
  { unfold aput. cbn. destruct (isz (sv_read ents r)) eqn:E; [exact Hok|].
    repeat split; repeat constructor; cbn [fst snd]; try lia. exact E. }
  rewrite (sv_read_sorted 1) by (auto; lia).
  unfold aput, zeroed, isz. cbn. destruct (neqb (sv_read ents r) n0) eqn:E; [reflexivity|].
  unfold aval. cbn. rewrite ?Z.eqb_refl. reflexivity.
Qed.

Lemma col_view m R C f c : zero_ok N -> wf m -> denotes m R C f -> 0 <= c < C ->
  exists cv, mat_ColumnsAt m c = Ok cv /\
    forall l, 0 <= l < R -> mat_AtVec cv l = Ok (shown m R (fun r => f r c) l).
Proof.
  intros Hz Hw Hd Hr. pose proof Hd as (ER & EC & Hat). destruct (kind m) eqn:K.
  1-2: (destruct (ColumnsAt_ascending m R C f c Hz) as (v & E & A1 & _ & _ & _ & A2);
    [split; [auto|congruence]|destruct m; simpl in *; congruence|auto|auto|];
    exists v; split; [exact E|]; intros l Hl; rewrite A2 by auto;
    destruct m; simpl in K; try discriminate; reflexivity).
  1-2: (rewrite ColumnsAt_dense; [|split; [auto|congruence]|destruct m; simpl in *; congruence|lia];
    eexists; split; [reflexivity|]; rewrite ER; pose proof (wf_dims m Hw) as [HR _]; rewrite ER in HR;
    destruct (vdenotes_dv R (fun r => peek m r c) HR) as (A & B & D); intros l Hl; rewrite D by auto;
    rewrite (denotes_peek m R C f l c Hd) by (unfold inb; lia); destruct m; simpl in K; try discriminate; reflexivity).
  destruct m as [| | | |v]; simpl in K; try discriminate. destruct Hw as (l & ents & -> & H). cbn in ER, EC. subst R C.
  cbn [mat_ColumnsAt]. unfold sv_ColumnsAt, sv_Columns in *. replace ((c <? 0) || (c >=? 1)) with false by (rewrite Z.geb_leb; lia).
  rewrite sv_copy_mk. eexists; split; [reflexivity|]. intros l0 Hl0. cbn [mat_AtVec shown].
  rewrite sv_AtVec_read by auto. f_equal.
  specialize (Hat l0 c Hl0 Hr). cbn [mat_At] in Hat.
  rewrite (sv_At_ok l ents l0 c Hz H Hl0 ltac:(lia)) in Hat. cbn [rmap rbind] in Hat. injection Hat as Hat. exact Hat.
Qed.

(** the product the code computes *)
Definition product (S Mo : mat) (K : Z) (f g : Z -> Z -> V) (i j : Z) : V :=
  sum_from n0 (fun l => nmul (shown S K (f i) l) (shown Mo K (fun r => g r j) l)) 0 K.

Lemma multiply_run E w (s m : ptr) k t S Mo O R K C f g h :
  zero_ok N -> wfw w -> obj w s S -> obj w m Mo -> obj w t O -> not_sparse_vector O ->
  denotes S R K f -> denotes Mo K C g -> denotes O R C h -> mask_dims w k R C -> s <> t -> m <> t ->
  exists w' O' L rest, multiply E s m k t w = (w', Ok tt) /\ extends_but t w w' /\ obj w' t O' /\ same_shape O O' /\ wf O' /\
    positions R C = L ++ rest /\ until_done (Z.to_nat K) E w w' L rest /\
    denotes O' R C (fun i j => if visited L i j && negb (covers w k i j) then kept O (product S Mo K f g i j) else h i j).
Proof.
  intros Hz Hw Hs Hm Ho Po Ds Dm Do Hk Hst Hmt.
  pose proof Ds as (SR & SC & _). pose proof Dm as (MR & MC & _).
  destruct (multiply_views E w s m k t S Mo O R C K h (fun i l => shown S K (f i) l) (fun j l => shown Mo K (fun r => g r j) l)
    Hz Hw Hs Hm Ho Po SR MC ltac:(congruence)) as (w' & O' & L & rest & H); auto.
  - intros r Hr. apply row_view with (R := R); auto. eapply Hw; eauto.
  - intros c Hc. apply col_view with (C := C); auto. eapply Hw; eauto.
  - exists w', O', L, rest. exact H.
Qed.

End Mul.
