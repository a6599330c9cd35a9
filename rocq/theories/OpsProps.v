(** The operator theorems over reachable heaps, in the vocabulary of Spec.v. *)
From Coq Require Import String.
From Verif Require Import GoBase Num SparseVec Csr Csc DenseVec DenseMat Mat World Ops.
From Verif Require Import BaseProofs AssocProofs CsrProofs SvProofs CsrIterProofs CscProofs DenseProofs MatProofs.
From Verif Require Import Spec HeapProofs Api ReachProofs StoreProofs StoreThms OpsProofs OpsThms MulThms EwThms EqThms MethThms MaskThms.

Section OpsProps.
Context {N : num}.
Notation V := (T N).
Notation mat := (mat N).
Notation world := (world N).
Implicit Types w : world.
Implicit Types S Mo O : mat.

Lemma storage_of S O : same_shape S O -> same_storage S O.
Proof. intros (H & _). destruct S, O; cbn in *; try discriminate; exact I. Qed.
Lemma kind_storage S O : kind O = kind S -> same_storage S O.
Proof. destruct S, O; cbn; intros H; try discriminate; exact I. Qed.
Lemma sane_wfw w : sane N -> reachable w -> wfw w.
Proof. intros [Hz Hn] Hr. apply reach_wfw; auto. Qed.
Lemma dense_plain S : is_dense S -> not_sparse_vector S. Proof. destruct S; cbn; tauto. Qed.
Lemma sparse_plain S : is_sparse_matrix S -> not_sparse_vector S. Proof. destruct S; cbn; tauto. Qed.
Lemma dense_stored S v : is_dense S -> stored S v = true. Proof. destruct S; cbn; tauto. Qed.
Lemma dense_kept S v : is_dense S -> kept S v = v. Proof. destruct S; cbn; tauto. Qed.
Lemma sum_from_ext (a : V) f g x y : (forall l, x <= l < y -> f l = g l) -> sum_from a f x y = sum_from a g x y.
Proof.
  intros H. unfold sum_from. assert (Hin : forall l, In l (zrange x y) -> f l = g l) by (intros l Hl; apply H; apply in_zrange; auto).
  revert a Hin. induction (zrange x y) as [|l L IH]; intros a Hin; [reflexivity|]. cbn [fold_left].
  rewrite (Hin l) by (left; reflexivity). apply IH. intros z Hz. apply Hin. right; auto.
Qed.

Lemma count_row_bound P C : 0 <= C -> 0 <= count_row P C <= C.
Proof.
  intros HC. assert (H : forall l, zlen (filter P l) <= zlen l).
  { induction l as [|x l IH]; cbn [filter]; [reflexivity|]. destruct (P x); zl; lia. }
  unfold count_row. specialize (H (zrange 0 C)). rewrite zlen_zrange in H by auto. unfold zlen at 1. lia.
Qed.
Lemma count_cells_bound P R C : 0 <= R -> 0 <= C -> count_cells P R C <= R * C.
Proof.
  intros HR HC. unfold count_cells.
  assert (H : forall l : list Z, fold_right Z.add 0 (map (fun i => count_row (P i) C) l) <= zlen l * C).
  { induction l as [|i l IH]; [unfold zlen; cbn; lia|]. cbn [map fold_right]. pose proof (count_row_bound (P i) C HC). zl. nia. }
  specialize (H (zrange 0 R)). rewrite zlen_zrange in H by auto. nia.
Qed.
Lemma values_bound w p m R C f : sane N -> reachable w -> obj w p m -> not_sparse_vector m -> denotes m R C f -> mat_Values m <= R * C.
Proof.
  intros Hs Hr Ho Hp Hd. pose proof (sane_wfw w Hs Hr) as Hw. pose proof (wf_dims m (Hw _ _ Ho)) as [D1 D2].
  pose proof Hd as (ER & EC & _). rewrite ER in D1. rewrite EC in D2.
  assert (K : is_sparse_matrix m \/ is_dense m) by (destruct m; cbn in *; tauto).
  destruct K as [K|K].
  - destruct (sparse_exact w p m R C f Hs Hr Ho K Hd) as (-> & _). apply count_cells_bound; auto.
  - rewrite (dense_values m R C f (proj1 Hs) (Hw _ _ Ho) K Hd). lia.
Qed.

(** ** Multiplication *)
Definition dot (f g : Z -> Z -> V) (K : Z) (i j : Z) : V := sum_from n0 (fun l => nmul (f i l) (g l j)) 0 K.

Lemma mul_exact E w (s m : ptr) k t S Mo O R K C f g h :
  sane N -> reachable w -> obj w s S -> obj w m Mo -> obj w t O -> not_sparse_vector O ->
  denotes S R K f -> denotes Mo K C g -> denotes O R C h -> mask_dims w k R C -> s <> t -> m <> t -> e_ctx E = None ->
  exists w' O', MatrixMatrixMultiply E s m k t w = (w', Ok tt) /\ MatrixVectorMultiply E s m k t w = (w', Ok tt) /\
    extends_but t w w' /\ obj w' t O' /\ same_storage O O' /\
    denotes O' R C (fun i j => if covers w k i j then h i j else
      kept O (sum_from n0 (fun l => nmul (shown S K (f i) l) (shown Mo K (fun r => g r j) l)) 0 K)).
Proof.
  intros Hs Hr H1 H2 H3 Po Ds Dm Do Hk Hst Hmt Hc. pose proof (sane_wfw w Hs Hr) as Hw. destruct Hs as [Hz _].
  destruct (multiply_run E w s m k t S Mo O R K C f g h Hz Hw H1 H2 H3 Po Ds Dm Do Hk Hst Hmt) as
    (w' & O' & L & rest & He & Hx & Ho & Hsh & Wo & HL & Hrest & Hd).
  rewrite (until_none _ _ _ _ _ _ Hrest Hc), app_nil_r in HL. subst L.
  exists w', O'. do 4 (split; [auto|]). split; [apply storage_of; auto|].
  eapply denotes_ext; [|exact Hd]. intros i j Hi Hj. cbn beta. rewrite visited_positions by auto. cbn [andb].
  destruct (covers w k i j); reflexivity.
Qed.
Lemma mul_method E w (s m : ptr) S Mo R K C f g :
  sane N -> reachable w -> obj w s S -> obj w m Mo -> ~ is_vector S ->
  denotes S R K f -> denotes Mo K C g -> (is_dense S -> R * C < 2 ^ 63) ->
  exists w' t O', m_Multiply E s m w = (w', Ok t) /\ (forall x, ~ obj w t x) /\ extends w w' /\ obj w' t O' /\ same_storage S O' /\
    denotes O' R C (fun i j =>
      kept S (sum_from n0 (fun l => nmul (shown S K (f i) l) (shown Mo K (fun r => g r j) l)) 0 K)).
Proof.
  intros Hs Hr H1 H2 Po Ds Dm HB. pose proof (sane_wfw w Hs Hr) as Hw. destruct Hs as [Hz _].
  destruct (m_Multiply_run E w s m S Mo R K C f g Hz Hw H1 H2 Po Ds Dm HB) as (w' & t & O' & He & Hn & Hx & Ho & Hsh & Hd).
  exists w', t, O'. do 4 (split; [auto|]). split; [apply kind_storage; auto|exact Hd].
Qed.
Lemma mul_mismatch E w (s m : ptr) k t S Mo : obj w s S -> obj w m Mo -> mat_Columns S <> mat_Rows Mo ->
  MatrixMatrixMultiply E s m k t w = (w, Panic) /\ MatrixVectorMultiply E s m k t w = (w, Panic).
Proof.
  intros Hs Hm H. unfold MatrixMatrixMultiply, MatrixVectorMultiply, multiply.
  rewrite (mbind_ok _ _ _ _ _ (p_Rows_ok _ _ _ Hm)), (mbind_ok _ _ _ _ _ (p_Columns_ok _ _ _ Hs)).
  destruct (mat_Rows Mo =? mat_Columns S) eqn:E1; [exfalso; lia|]. split; reflexivity.
Qed.

Lemma mul_dense E w (s m : ptr) k t S Mo O R K C f g h :
  sane N -> reachable w -> obj w s S -> obj w m Mo -> obj w t O -> is_dense S -> is_dense Mo -> not_sparse_vector O ->
  denotes S R K f -> denotes Mo K C g -> denotes O R C h -> mask_dims w k R C -> s <> t -> m <> t -> e_ctx E = None ->
  exists w' O', MatrixMatrixMultiply E s m k t w = (w', Ok tt) /\ MatrixVectorMultiply E s m k t w = (w', Ok tt) /\
    extends_but t w w' /\ obj w' t O' /\ same_storage O O' /\
    denotes O' R C (fun i j => if covers w k i j then h i j else kept O (sum_from n0 (fun l => nmul (f i l) (g l j)) 0 K)).
Proof.
  intros Hs Hr H1 H2 H3 Ps Pm Po Ds Dm Do Hk Hst Hmt Hc.
  destruct (mul_exact E w s m k t S Mo O R K C f g h Hs Hr H1 H2 H3 Po Ds Dm Do Hk Hst Hmt Hc) as (w' & O' & H).
  exists w', O'. destruct S; try contradiction; destruct Mo; try contradiction; exact H.
Qed.
Lemma mul_dense_method E w (s m : ptr) S Mo R K C f g :
  sane N -> reachable w -> obj w s S -> obj w m Mo -> is_dense S -> ~ is_vector S -> is_dense Mo ->
  denotes S R K f -> denotes Mo K C g -> R * C < 2 ^ 63 ->
  exists w' t O', m_Multiply E s m w = (w', Ok t) /\ (forall x, ~ obj w t x) /\ extends w w' /\ obj w' t O' /\ same_storage S O' /\
    denotes O' R C (fun i j => sum_from n0 (fun l => nmul (f i l) (g l j)) 0 K).
Proof.
  intros Hs Hr H1 H2 Ps Pv Pm Ds Dm HB.
  destruct (mul_method E w s m S Mo R K C f g Hs Hr H1 H2 Pv Ds Dm (fun _ => HB)) as (w' & t & O' & H).
  exists w', t, O'. destruct S; try contradiction; destruct Mo; try contradiction; exact H.
Qed.

(** no non-zero entry beyond position [number of non-zero entries] *)
Definition packed (L : Z) (f : Z -> V) : Prop :=
  forall l, 0 <= l < L -> neqb (f l) n0 = false -> l <= zlen (nonzeros L f).

Lemma shown_packed S R C f i l : zero_ok N -> wf S -> is_sparse_matrix S -> denotes S R C f -> 0 <= i < R ->
  packed C (f i) -> 0 <= l < C -> shown S C (f i) l = f i l.
Proof.
  intros Hz Hw Hsp Hd Hi Hp Hl. assert (Hg : good S) by (split; [auto|destruct S; cbn in *; try contradiction; discriminate]).
  assert (E1 : zeroed (f i l) = f i l) by (eapply sparse_cell_kept; eauto).
  assert (E2 : shown S C (f i) l = if l <=? zlen (nonzeros C (f i)) then zeroed (f i l) else n0) by (destruct S; try contradiction; reflexivity).
  rewrite E2, E1. destruct (l <=? zlen (nonzeros C (f i))) eqn:E; [reflexivity|].
  destruct (neqb (f i l) n0) eqn:En; [unfold zeroed in E1; rewrite En in E1; auto|].
  specialize (Hp l Hl En). lia.
Qed.
Lemma shown_packed_col S R C f j l : zero_ok N -> wf S -> is_sparse_matrix S -> denotes S R C f -> 0 <= j < C ->
  packed R (fun r => f r j) -> 0 <= l < R -> shown S R (fun r => f r j) l = f l j.
Proof.
  intros Hz Hw Hsp Hd Hi Hp Hl. assert (Hg : good S) by (split; [auto|destruct S; cbn in *; try contradiction; discriminate]).
  assert (E1 : zeroed (f l j) = f l j) by (eapply sparse_cell_kept; eauto).
  assert (E2 : shown S R (fun r => f r j) l = if l <=? zlen (nonzeros R (fun r => f r j)) then zeroed (f l j) else n0) by (destruct S; try contradiction; reflexivity).
  rewrite E2, E1. destruct (l <=? zlen (nonzeros R (fun r => f r j))) eqn:E; [reflexivity|].
  destruct (neqb (f l j) n0) eqn:En; [unfold zeroed in E1; rewrite En in E1; auto|].
  specialize (Hp l Hl En). lia.
Qed.

Lemma mul_sparse_packed E w (s m : ptr) k t S Mo O R K C f g h :
  sane N -> reachable w -> obj w s S -> obj w m Mo -> obj w t O -> is_sparse_matrix S -> is_sparse_matrix Mo -> not_sparse_vector O ->
  denotes S R K f -> denotes Mo K C g -> denotes O R C h -> mask_dims w k R C -> s <> t -> m <> t -> e_ctx E = None ->
  (forall i, 0 <= i < R -> packed K (f i)) -> (forall j, 0 <= j < C -> packed K (fun l => g l j)) ->
  exists w' O', MatrixMatrixMultiply E s m k t w = (w', Ok tt) /\
    extends_but t w w' /\ obj w' t O' /\ same_storage O O' /\
    denotes O' R C (fun i j => if covers w k i j then h i j else kept O (sum_from n0 (fun l => nmul (f i l) (g l j)) 0 K)).
Proof.
  intros Hs Hr H1 H2 H3 Ps Pm Po Ds Dm Do Hk Hst Hmt Hc P1 P2. pose proof (sane_wfw w Hs Hr) as Hw. pose proof Hs as [Hz _].
  destruct (mul_exact E w s m k t S Mo O R K C f g h Hs Hr H1 H2 H3 Po Ds Dm Do Hk Hst Hmt Hc) as (w' & O' & He & _ & Hx & Ho & Hsh & Hd).
  exists w', O'. do 4 (split; [auto|]). eapply denotes_ext; [|exact Hd]. intros i j Hi Hj. cbn beta.
  destruct (covers w k i j); [reflexivity|]. f_equal. apply sum_from_ext. intros l Hl.
  rewrite (shown_packed S R K f i l), (shown_packed_col Mo K C g j l); auto; eapply Hw; eauto.
Qed.

(** ** Addition and subtraction *)
Lemma add_dense E w (s m : ptr) S Mo R C f g :
  sane N -> reachable w -> obj w s S -> obj w m Mo -> is_dense S -> is_dense Mo -> denotes S R C f -> denotes Mo R C g ->
  IsSparseMatrix (e_reg E) S = false -> R * C <= Z.of_nat (e_fuel E) ->
  exists w' t O', m_Add E s m w = (w', Ok t) /\ (forall x, ~ obj w t x) /\ extends w w' /\ obj w' t O' /\ same_storage S O' /\
    denotes O' R C (fun i j => nadd (f i j) (g i j)).
Proof.
  intros Hs Hr H1 H2 Ps Pm Ds Dm Hsp Hfu. pose proof (sane_wfw w Hs Hr) as Hw. pose proof Hs as [Hz _].
  assert (Hv : mat_Values Mo <= Z.of_nat (e_fuel E)) by (rewrite (dense_values Mo R C g); auto; eapply Hw; eauto).
  destruct (m_Add_run E w s m S Mo R C f g false Hz Hw H1 H2 (dense_plain _ Ps) (dense_plain _ Pm) Ds Dm Hsp Hv)
    as (w' & t & O' & He & Hn & Hx & Ho & Hsh & Hd).
  exists w', t, O'. do 4 (split; [auto|]). split; [apply storage_of; auto|].
  eapply denotes_ext; [|exact Hd]. intros i j _ _. cbn beta. rewrite dense_stored, dense_kept by auto. reflexivity.
Qed.
Lemma sub_dense E w (s m : ptr) S Mo R C f g :
  sane N -> reachable w -> obj w s S -> obj w m Mo -> is_dense S -> is_dense Mo -> denotes S R C f -> denotes Mo R C g ->
  R * C <= Z.of_nat (e_fuel E) ->
  exists w' t O', m_Subtract E s m w = (w', Ok t) /\ (forall x, ~ obj w t x) /\ extends w w' /\ obj w' t O' /\ same_storage Mo O' /\
    denotes O' R C (fun i j => nsub (f i j) (g i j)).
Proof.
  intros Hs Hr H1 H2 Ps Pm Ds Dm Hfu. pose proof (sane_wfw w Hs Hr) as Hw. pose proof Hs as [Hz _].
  assert (Hv : mat_Values S <= Z.of_nat (e_fuel E)) by (rewrite (dense_values S R C f); auto; eapply Hw; eauto).
  destruct (m_Subtract_run E w s m S Mo R C f g Hz Hw H1 H2 (dense_plain _ Ps) (dense_plain _ Pm) Ds Dm Hv)
    as (w' & t & O' & He & Hn & Hx & Ho & Hsh & Hd).
  exists w', t, O'. do 4 (split; [auto|]). split; [apply storage_of; auto|].
  eapply denotes_ext; [|exact Hd]. intros i j _ _. cbn beta. rewrite dense_stored, dense_kept by auto. reflexivity.
Qed.
Lemma add_sub_mismatch E w (s m : ptr) S Mo : sane N -> reachable w -> obj w s S -> obj w m Mo -> is_dense S -> is_dense Mo ->
  ~ (mat_Rows S = mat_Rows Mo /\ mat_Columns S = mat_Columns Mo) ->
  snd (m_Add E s m w) = Panic /\ snd (m_Subtract E s m w) = Panic /\
  (forall k t, Add E s m k t w = (w, Panic) /\ Subtract E s m k t w = (w, Panic)).
Proof.
  intros Hs Hr H1 H2 Ps Pm Hne. pose proof (sane_wfw w Hs Hr) as Hw.
  split; [|split; [|intros; eapply sizes_panic; eauto]].
  - unfold m_Add. rewrite (mbind_ok _ _ _ _ _ (p_Copy_ok _ _ _ H1 (Hw _ _ H1))).
    destruct (sizes_panic (bg E) (ext w S) s m MNil (length (w_heap w)) S Mo (obj_ext_old _ _ _ _ H1) (obj_ext_old _ _ _ _ H2) Hne) as [HA _].
    rewrite (mbind_panic _ _ _ _ HA). reflexivity.
  - unfold m_Subtract. rewrite (mbind_ok _ _ _ _ _ (load_ok _ _ _ H1)).
    destruct (sizes_panic (bg E) (ext w Mo) s m MNil (length (w_heap w)) S Mo (obj_ext_old _ _ _ _ H1) (obj_ext_old _ _ _ _ H2) Hne) as [_ HA].
    destruct S; try contradiction; rewrite (mbind_ok _ _ _ _ _ (p_Copy_ok _ _ _ H2 (Hw _ _ H2))), (mbind_panic _ _ _ _ HA); reflexivity.
Qed.

Lemma add_exact E w (s m : ptr) S Mo R C f g :
  sane N -> reachable w -> obj w s S -> obj w m Mo -> not_sparse_vector S -> not_sparse_vector Mo ->
  denotes S R C f -> denotes Mo R C g ->
  mat_Values S <= Z.of_nat (e_fuel E) -> mat_Values Mo <= Z.of_nat (e_fuel E) ->
  exists w' t O', m_Add E s m w = (w', Ok t) /\ (forall x, ~ obj w t x) /\ extends w w' /\ obj w' t O' /\ same_storage S O' /\
    denotes O' R C (fun i j =>
      if IsSparseMatrix (e_reg E) S
      then if stored S (f i j) then kept S (nadd (g i j) (f i j)) else f i j
      else if stored Mo (g i j) then kept S (nadd (f i j) (g i j)) else f i j).
Proof.
  intros Hs Hr H1 H2 Ps Pm Ds Dm Hf1 Hf2. pose proof (sane_wfw w Hs Hr) as Hw. pose proof Hs as [Hz _].
  destruct (m_Add_run E w s m S Mo R C f g _ Hz Hw H1 H2 Ps Pm Ds Dm eq_refl ltac:(destruct (IsSparseMatrix _ _); auto))
    as (w' & t & O' & He & Hn & Hx & Ho & Hsh & Hd).
  exists w', t, O'. do 4 (split; [auto|]). split; [apply storage_of; auto|exact Hd].
Qed.
(** adding zero changes nothing, and values that compare equal are equal: all
    integer types *)
Definition exact_zero : Prop := (forall x : V, nadd x n0 = x) /\ (forall x y : V, neqb x y = true -> x = y).
Lemma add_unregistered E w (s m : ptr) S Mo R C f g :
  sane N -> exact_zero -> reachable w -> obj w s S -> obj w m Mo -> is_sparse_matrix S -> not_sparse_vector Mo ->
  denotes S R C f -> denotes Mo R C g -> IsSparseMatrix (e_reg E) S = false ->
  mat_Values S <= Z.of_nat (e_fuel E) -> mat_Values Mo <= Z.of_nat (e_fuel E) ->
  exists w' t O', m_Add E s m w = (w', Ok t) /\ (forall x, ~ obj w t x) /\ extends w w' /\ obj w' t O' /\ same_storage S O' /\
    denotes O' R C (fun i j => nadd (f i j) (g i j)).
Proof.
  intros Hs [Ha He] Hr H1 H2 Ps Pm Ds Dm Hsp Hf1 Hf2.
  destruct (add_exact E w s m S Mo R C f g Hs Hr H1 H2 (sparse_plain _ Ps) Pm Ds Dm Hf1 Hf2) as (w' & t & O' & Hrun & Hn & Hx & Ho & Hsh & Hd).
  exists w', t, O'. do 5 (split; [auto|]). eapply denotes_ext; [|exact Hd]. intros i j Hi Hj. cbn beta. rewrite Hsp.
  assert (Hkz : forall v, kept S v = v).
  { intros v. destruct S; try contradiction; cbn; unfold zeroed; destruct (neqb v n0) eqn:E1; auto; symmetry; apply He; auto. }
  rewrite Hkz. destruct (stored Mo (g i j)) eqn:Est; [reflexivity|].
  destruct Mo; cbn in Est; try discriminate; apply Bool.negb_false_iff in Est; rewrite (He _ _ Est), Ha; reflexivity.
Qed.

Lemma sub_exact E w (s m : ptr) S Mo R C f g :
  sane N -> reachable w -> obj w s S -> obj w m Mo -> not_sparse_vector S -> not_sparse_vector Mo ->
  denotes S R C f -> denotes Mo R C g -> mat_Values S <= Z.of_nat (e_fuel E) ->
  exists w' t O', m_Subtract E s m w = (w', Ok t) /\ (forall x, ~ obj w t x) /\ extends w w' /\ obj w' t O' /\ same_storage Mo O' /\
    denotes O' R C (fun i j => if stored S (f i j) then kept Mo (nsub (f i j) (g i j)) else g i j).
Proof.
  intros Hs Hr H1 H2 Ps Pm Ds Dm Hf1. pose proof (sane_wfw w Hs Hr) as Hw. pose proof Hs as [Hz _].
  destruct (m_Subtract_run E w s m S Mo R C f g Hz Hw H1 H2 Ps Pm Ds Dm Hf1) as (w' & t & O' & He & Hn & Hx & Ho & Hsh & Hd).
  exists w', t, O'. do 4 (split; [auto|]). split; [apply storage_of; auto|exact Hd].
Qed.

(** ** Negation and scalar multiplication *)
Lemma neg_method E w (s : ptr) S R C f :
  sane N -> reachable w -> obj w s S -> denotes S R C f -> mat_Values S <= Z.of_nat (e_fuel E) ->
  exists w' t O', m_Negative E s w = (w', Ok t) /\ (forall x, ~ obj w t x) /\ extends w w' /\ obj w' t O' /\ same_storage S O' /\
    denotes O' R C (fun i j => if sparse_obj S && neqb (f i j) n0 then n0 else nneg (f i j)).
Proof.
  intros Hs Hr H1 Ds Hfu. pose proof (sane_wfw w Hs Hr) as Hw. destruct Hs as [Hz Hn].
  destruct (m_Negative_run E w s S R C f Hz Hn Hw H1 Ds Hfu) as (O' & He & Hsh & Wo & Hd).
  exists (ext w O'), (length (w_heap w)), O'. split; [exact He|].
  split; [intros x Hx; pose proof (obj_lt _ _ _ Hx); lia|].
  split; [apply extends_ext|]. split; [apply obj_ext_new|]. split; [apply storage_of; auto|exact Hd].
Qed.
Lemma neg_operator E w (s t : ptr) k O R C h :
  sane N -> reachable w -> obj w t O -> not_sparse_vector O -> denotes O R C h -> mask_dims w k R C ->
  mat_Values O <= Z.of_nat (e_fuel E) -> e_ctx E = None ->
  exists w' O', Negative E s k t w = (w', Ok tt) /\ extends_but t w w' /\ obj w' t O' /\ same_storage O O' /\
    denotes O' R C (fun i j => if stored O (h i j) && negb (covers w k i j) then nneg (h i j) else h i j).
Proof.
  intros Hs Hr H1 Po Do Hk Hfu Hc. pose proof (sane_wfw w Hs Hr) as Hw. destruct Hs as [Hz Hn].
  destruct (Negative_run E w s t k O R C h Hz Hn Hw H1 Po Do Hk Hfu) as (w' & O' & d & rest & He & Hx & Ho & Hsh & Wo & Hen & Hrest & Hd).
  rewrite (until_none _ _ _ _ _ _ Hrest Hc), app_nil_r in Hen. exists w', O'. do 3 (split; [auto|]). split; [apply storage_of; auto|].
  eapply denotes_ext; [|exact Hd]. intros i j Hi Hj. cbn beta.
  rewrite (visited_stored O R C h d i j Hz (plain_is_good w t O Hw H1 Po) Do Hen Hi Hj). reflexivity.
Qed.
Lemma scalar_exact E w (s : ptr) S a R C f :
  sane N -> reachable w -> obj w s S -> denotes S R C f -> e_ctx E = None -> mat_Values S <= Z.of_nat (e_fuel E) ->
  (sparse_obj S = true -> keeps_nz (nmul a)) ->
  exists w' t O', Scalar E s a w = (w', Ok t) /\ m_Scalar E s a w = (w', Ok t) /\
    (forall x, ~ obj w t x) /\ extends w w' /\ obj w' t O' /\ same_storage S O' /\
    denotes O' R C (fun i j => if sparse_obj S && neqb (f i j) n0 then n0 else nmul a (f i j)).
Proof.
  intros Hs Hr H1 Ds Hc Hfu Hk. pose proof (sane_wfw w Hs Hr) as Hw. destruct Hs as [Hz _].
  destruct (Scalar_run E w s S a R C f Hz Hc Hw H1 Ds Hk Hfu) as (O' & He & Hsh & Wo & Hd).
  exists (ext w O'), (length (w_heap w)), O'. split; [exact He|].
  split; [unfold m_Scalar; replace (bg E) with E by (destruct E; cbn in *; subst; reflexivity); exact He|].
  split; [intros x Hx; pose proof (obj_lt _ _ _ Hx); lia|].
  split; [apply extends_ext|]. split; [apply obj_ext_new|]. split; [apply storage_of; auto|exact Hd].
Qed.
Lemma scalar_cancel E k w (s : ptr) S a : sane N -> reachable w -> obj w s S -> e_ctx E = Some k ->
  (sparse_obj S = true -> keeps_nz (nmul a)) ->
  (0 < mat_Values S -> Z.of_nat k < Z.of_nat (w_polls w) + mat_Values S -> exists w', Scalar E s a w = (w', Diverge)) /\
  (mat_Values S = 0 \/ Z.of_nat (w_polls w) + mat_Values S <= Z.of_nat k -> mat_Values S <= Z.of_nat (e_fuel E) ->
     exists w' p, Scalar E s a w = (w', Ok p)).
Proof. intros Hs Hr. pose proof (sane_wfw w Hs Hr) as Hw. destruct Hs as [Hz _]. apply Scalar_cancel; auto. Qed.

(** ** Transpose and Apply *)
Lemma transpose_method E w (s : ptr) S R C f :
  sane N -> reachable w -> obj w s S -> not_sparse_vector S -> denotes S R C f ->
  mat_Values S <= Z.of_nat (e_fuel E) -> (is_vector S -> R < 2 ^ 63) ->
  exists w' t O', m_Transpose E s w = (w', Ok t) /\ (forall x, ~ obj w t x) /\ extends w w' /\ obj w' t O' /\
    (is_sparse_matrix S -> same_storage S O') /\ denotes O' C R (fun i j => f j i).
Proof.
  intros Hs Hr H1 Ps Ds Hfu Hv. pose proof (sane_wfw w Hs Hr) as Hw. destruct Hs as [Hz _].
  destruct (m_Transpose_run E w s S R C f Hz Hw H1 Ps Ds Hfu Hv) as (w' & t & O' & He & Hn & Hx & Ho & Wo & K1 & K2 & Hd).
  exists w', t, O'. do 4 (split; [auto|]). split; [intros Hsp; apply kind_storage; auto|exact Hd].
Qed.
Lemma transpose_to E w (s : ptr) S R C f :
  sane N -> reachable w -> obj w s S -> not_sparse_vector S -> denotes S R C f ->
  mat_Values S <= Z.of_nat (e_fuel E) -> e_ctx E = None ->
  (exists w' t x, TransposeToCSR E s w = (w', Ok t) /\ (forall x, ~ obj w t x) /\ extends w w' /\ obj w' t (MCSR x) /\
    denotes (MCSR x) C R (fun i j => zeroed (f j i))) /\
  (exists w' t x, TransposeToCSC E s w = (w', Ok t) /\ (forall x, ~ obj w t x) /\ extends w w' /\ obj w' t (MCSC x) /\
    denotes (MCSC x) C R (fun i j => zeroed (f j i))).
Proof.
  intros Hs Hr H1 Ps Ds Hfu Hc. pose proof (sane_wfw w Hs Hr) as Hw. destruct Hs as [Hz _].
  destruct (TransposeTo_run E w s S R C f Hc Hz Hw H1 Ps Ds Hfu) as
    [(w' & t & O' & He & Hn & Hx & Ho & K & Hd) (w2 & t2 & O2 & He2 & Hn2 & Hx2 & Ho2 & K2 & Hd2)].
  split.
  - destruct O' as [x|x|x|x|x]; try discriminate K. exists w', t, x. auto 10.
  - destruct O2 as [x|x|x|x|x]; try discriminate K2. exists w2, t2, x. auto 10.
Qed.
Lemma transpose_twice E w (s : ptr) S R C f :
  sane N -> reachable w -> obj w s S -> not_sparse_vector S -> denotes S R C f ->
  mat_Values S <= Z.of_nat (e_fuel E) -> R * C <= Z.of_nat (e_fuel E) -> (is_vector S -> R < 2 ^ 63) ->
  exists w1 t1 w2 t2 O, m_Transpose E s w = (w1, Ok t1) /\ m_Transpose E t1 w1 = (w2, Ok t2) /\ obj w2 t2 O /\ denotes O R C f.
Proof.
  intros Hs Hr H1 Ps Ds Hfu Hfu2 Hv. pose proof (sane_wfw w Hs Hr) as Hw. destruct Hs as [Hz Hn].
  destruct (m_Transpose_run E w s S R C f Hz Hw H1 Ps Ds Hfu Hv) as (w1 & t1 & O1 & He1 & _ & Hx & Ho1 & Wo1 & K1 & K2 & Hd1).
  assert (Hr1 : reachable w1).
  { replace w1 with (after (KMTranspose E s) w).
    - apply reach_call; auto. cbn. intros so Hso. rewrite (obj_inj _ _ _ _ Hso H1) in *.
      destruct S; try contradiction; auto. destruct Ds as (SR & _). rewrite SR. apply Hv. exact I.
    - unfold after, perform, drop, mbind. rewrite He1. reflexivity. }
  pose proof (sane_wfw w1 (conj Hz Hn) Hr1) as Hw1.
  assert (P1 : not_sparse_vector O1 /\ ~ is_vector O1).
  { destruct S; try contradiction; [specialize (K1 I)|specialize (K1 I)|specialize (K2 I)|specialize (K2 I)];
      destruct O1; cbn in *; try discriminate; tauto. }
  destruct P1 as [P1 P2].
  assert (Hv1 : mat_Values O1 <= Z.of_nat (e_fuel E)).
  { pose proof Hd1 as (OR & OC & _).
    pose proof (values_bound w1 t1 O1 C R _ (conj Hz Hn) Hr1 Ho1 P1 Hd1). lia. }
  destruct (m_Transpose_run E w1 t1 O1 C R (fun i j => f j i) Hz Hw1 Ho1 P1 Hd1 Hv1 ltac:(tauto))
    as (w2 & t2 & O2 & He2 & _ & _ & Ho2 & _ & _ & _ & Hd2).
  exists w1, t1, w2, t2, O2. split; [exact He1|]. split; [exact He2|]. split; [exact Ho2|exact Hd2].
Qed.

Lemma transpose_exact E w (s : ptr) k t S O R C f h :
  sane N -> reachable w -> obj w s S -> obj w t O -> not_sparse_vector S -> not_sparse_vector O ->
  denotes S R C f -> denotes O C R h -> mask_dims w k C R -> s <> t -> mask_not k t -> (R = C \/ forall p, k <> MObj p) ->
  mat_Values S <= Z.of_nat (e_fuel E) -> e_ctx E = None ->
  exists w' O', Transpose E s k t w = (w', Ok tt) /\ extends_but t w w' /\ obj w' t O' /\ same_storage O O' /\
    denotes O' C R (fun i j => if stored S (f j i) && negb (covers w k j i) then kept O (f j i) else h i j).
Proof.
  intros Hs Hr H1 H3 Ps Po Ds Do Hk Hst Hkt Hsq Hfu Hc. pose proof (sane_wfw w Hs Hr) as Hw. destruct Hs as [Hz _].
  destruct (Transpose_run E w s k t S O R C f h Hz Hw H1 H3 Ps Po Ds Do Hk Hst Hkt Hsq Hfu) as
    (w' & O' & d & rest & He & Hx & Ho & Hsh & Wo & Hen & Hrest & Hd).
  rewrite (until_none _ _ _ _ _ _ Hrest Hc), app_nil_r in Hen. exists w', O'. do 3 (split; [auto|]). split; [apply storage_of; auto|].
  eapply denotes_ext; [|exact Hd]. intros i j Hi Hj. cbn beta.
  rewrite (visited_stored S R C f d j i Hz (plain_is_good w s S Hw H1 Ps) Ds Hen Hj Hi). reflexivity.
Qed.
Lemma transpose_symmetric E w (s : ptr) k t S O R f h :
  sane N -> reachable w -> obj w s S -> obj w t O -> is_dense S -> not_sparse_vector O ->
  denotes S R R f -> denotes O R R h -> mask_dims w k R R -> s <> t -> mask_not k t ->
  (forall i j, covers w k i j = covers w k j i) ->
  mat_Values S <= Z.of_nat (e_fuel E) -> e_ctx E = None ->
  exists w' O', Transpose E s k t w = (w', Ok tt) /\ extends_but t w w' /\ obj w' t O' /\ same_storage O O' /\
    denotes O' R R (fun i j => if covers w k i j then h i j else kept O (f j i)).
Proof.
  intros Hs Hr H1 H3 Ps Po Ds Do Hk Hst Hkt Hsy Hfu Hc.
  destruct (transpose_exact E w s k t S O R R f h Hs Hr H1 H3 (dense_plain _ Ps) Po Ds Do Hk Hst Hkt (or_introl eq_refl) Hfu Hc)
    as (w' & O' & He & Hx & Ho & Hsh & Hd).
  exists w', O'. do 4 (split; [auto|]). eapply denotes_ext; [|exact Hd]. intros i j Hi Hj. cbn beta.
  rewrite dense_stored, (Hsy i j) by auto. destruct (covers w k j i); reflexivity.
Qed.
Lemma apply_out_exact E w (s : ptr) k t S O R C f h u :
  sane N -> reachable w -> obj w s S -> obj w t O -> not_sparse_vector S -> not_sparse_vector O ->
  denotes S R C f -> denotes O C R h -> mask_dims w k C R -> s <> t -> mask_not k t -> (R = C \/ forall p, k <> MObj p) ->
  mat_Values S <= Z.of_nat (e_fuel E) -> e_ctx E = None ->
  exists w' O', Apply E s k u t w = (w', Ok tt) /\ extends_but t w w' /\ obj w' t O' /\ same_storage O O' /\
    denotes O' C R (fun i j => if stored S (f j i) && negb (covers w k j i) then kept O (u (f j i)) else h i j).
Proof.
  intros Hs Hr H1 H3 Ps Po Ds Do Hk Hst Hkt Hsq Hfu Hc. pose proof (sane_wfw w Hs Hr) as Hw. destruct Hs as [Hz _].
  destruct (Apply_out_run E w s k t S O R C f h u Hz Hw H1 H3 Ps Po Ds Do Hk Hst Hkt Hsq Hfu) as
    (w' & O' & d & rest & He & Hx & Ho & Hsh & Wo & Hen & Hrest & Hd).
  rewrite (until_none _ _ _ _ _ _ Hrest Hc), app_nil_r in Hen. exists w', O'. do 3 (split; [auto|]). split; [apply storage_of; auto|].
  eapply denotes_ext; [|exact Hd]. intros i j Hi Hj. cbn beta.
  rewrite (visited_stored S R C f d j i Hz (plain_is_good w s S Hw H1 Ps) Ds Hen Hj Hi). reflexivity.
Qed.
Lemma apply_in_exact E w k t O R C h u :
  sane N -> reachable w -> obj w t O -> not_sparse_vector O -> denotes O R C h -> mask_dims w k R C ->
  (sparse_obj O = true -> keeps_nz u) -> mat_Values O <= Z.of_nat (e_fuel E) -> e_ctx E = None ->
  exists w' O', Apply E t k u t w = (w', Ok tt) /\ extends_but t w w' /\ obj w' t O' /\ same_storage O O' /\
    denotes O' R C (fun i j => if stored O (h i j) && covers w k i j then u (h i j) else h i j).
Proof.
  intros Hs Hr H3 Po Do Hk Hu Hfu Hc. pose proof (sane_wfw w Hs Hr) as Hw. destruct Hs as [Hz _].
  destruct (Apply_in_run E w t k O R C h u Hz Hw H3 Po Do Hk Hu Hfu) as
    (w' & O' & d & rest & He & Hx & Ho & Hsh & Wo & Hen & Hrest & Hd).
  rewrite (until_none _ _ _ _ _ _ Hrest Hc), app_nil_r in Hen. exists w', O'. do 3 (split; [auto|]). split; [apply storage_of; auto|].
  eapply denotes_ext; [|exact Hd]. intros i j Hi Hj. cbn beta.
  rewrite (visited_stored O R C h d i j Hz (plain_is_good w t O Hw H3 Po) Do Hen Hi Hj). reflexivity.
Qed.

(** ** Equality *)
Lemma verdict_shape sps spm S Mo : verdict sps spm S Mo = true -> mat_Rows S = mat_Rows Mo /\ mat_Columns S = mat_Columns Mo.
Proof.
  unfold verdict. destruct ((mat_Columns S =? mat_Columns Mo) && (mat_Rows S =? mat_Rows Mo)) eqn:E; [|discriminate]. lia.
Qed.
Lemma equal_same E w (s m : ptr) S Mo R C R' C' f g :
  sane N -> cmp_ok N -> reachable w -> obj w s S -> obj w m Mo -> denotes S R C f -> denotes Mo R' C' g ->
  (is_dense S /\ is_dense Mo /\ IsSparseMatrix (e_reg E) S = false /\ IsSparseMatrix (e_reg E) Mo = false \/
   is_sparse_matrix S /\ is_sparse_matrix Mo /\ IsSparseMatrix (e_reg E) S = IsSparseMatrix (e_reg E) Mo) ->
  mat_Values S <= Z.of_nat (e_fuel E) -> mat_Values Mo <= Z.of_nat (e_fuel E) -> e_ctx E = None ->
  exists w' b, Equal E (Some s) (Some m) w = (w', Ok b) /\ w_heap w' = w_heap w /\
    (b = true <-> R = R' /\ C = C' /\ forall i j, 0 <= i < R -> 0 <= j < C -> neqb (f i j) (g i j) = true).
Proof.
  intros Hs Hcmp Hr H1 H2 Ds Dm Hk Hf1 Hf2 Hc. pose proof (sane_wfw w Hs Hr) as Hw. destruct Hs as [Hz _].
  destruct (Equal_run E w s m S Mo _ _ Hz Hw H1 H2 eq_refl eq_refl ltac:(destruct (IsSparseMatrix _ S); auto)) as (w' & b & He & Hh & Hb & _).
  exists w', b. split; [exact He|]. split; [exact Hh|]. rewrite (Hb Hc).
  pose proof Ds as (SR & SC & _). pose proof Dm as (MR & MC & _).
  assert (Key : R = R' -> C = C' -> verdict (IsSparseMatrix (e_reg E) S) (IsSparseMatrix (e_reg E) Mo) S Mo = true <->
      (forall i j, 0 <= i < R -> 0 <= j < C -> neqb (f i j) (g i j) = true)).
  { intros <- <-. destruct Hk as [(K1 & K2 & K3 & K4)|(K1 & K2 & K3)].
    - rewrite K3, K4. apply (verdict_dense S Mo R C f g); auto; eapply Hw; eauto.
    - rewrite <- K3. destruct (sparse_good S (Hw _ _ H1) K1) as [G1 G2]. destruct (sparse_good Mo (Hw _ _ H2) K2) as [G3 G4].
      apply (verdict_sparse _ S Mo R C f g); auto. }
  split.
  - intros H. destruct (verdict_shape _ _ _ _ H) as [E1 E2]. assert (ER : R = R') by congruence. assert (EC : C = C') by congruence.
    split; [exact ER|]. split; [exact EC|]. apply Key; auto.
  - intros (ER & EC & H). apply Key; auto.
Qed.
Lemma equal_symmetric E w (s m : ptr) S Mo R C R' C' f g :
  sane N -> cmp_ok N -> reachable w -> obj w s S -> obj w m Mo -> denotes S R C f -> denotes Mo R' C' g ->
  (is_dense S /\ is_dense Mo /\ IsSparseMatrix (e_reg E) S = false /\ IsSparseMatrix (e_reg E) Mo = false \/
   is_sparse_matrix S /\ is_sparse_matrix Mo /\ IsSparseMatrix (e_reg E) S = IsSparseMatrix (e_reg E) Mo) ->
  mat_Values S <= Z.of_nat (e_fuel E) -> mat_Values Mo <= Z.of_nat (e_fuel E) -> e_ctx E = None ->
  exists b, snd (Equal E (Some s) (Some m) w) = Ok b /\ snd (Equal E (Some m) (Some s) w) = Ok b.
Proof.
  intros Hs Hcmp Hr H1 H2 Ds Dm Hk Hf1 Hf2 Hc.
  destruct (equal_same E w s m S Mo R C R' C' f g Hs Hcmp Hr H1 H2 Ds Dm Hk Hf1 Hf2 Hc) as (w1 & b1 & E1 & _ & I1).
  destruct (equal_same E w m s Mo S R' C' R C g f Hs Hcmp Hr H2 H1 Dm Ds ltac:(intuition) Hf2 Hf1 Hc) as (w2 & b2 & E2 & _ & I2).
  rewrite E1, E2. exists b1. split; [reflexivity|]. cbn. f_equal. pose proof Hcmp as [Hsy _].
  destruct b1, b2; auto.
  - destruct I1 as [I1 _]. destruct (I1 eq_refl) as (-> & -> & H). apply I2. split; [auto|]. split; [auto|]. intros. rewrite Hsy. auto.
  - destruct I2 as [I2 _]. destruct (I2 eq_refl) as (-> & -> & H). symmetry. apply I1. split; [auto|]. split; [auto|]. intros. rewrite Hsy. auto.
Qed.
Lemma equal_mixed E w (s m : ptr) S Mo R C f g :
  sane N -> cmp_ok N -> reachable w -> obj w s S -> obj w m Mo -> not_sparse_vector S -> not_sparse_vector Mo ->
  denotes S R C f -> denotes Mo R C g ->
  IsSparseMatrix (e_reg E) S = negb (IsSparseMatrix (e_reg E) Mo) ->
  mat_Values S <= Z.of_nat (e_fuel E) -> mat_Values Mo <= Z.of_nat (e_fuel E) -> e_ctx E = None ->
  exists w' b, Equal E (Some s) (Some m) w = (w', Ok b) /\ w_heap w' = w_heap w /\
    (b = true <-> forall i j, 0 <= i < R -> 0 <= j < C ->
       (if IsSparseMatrix (e_reg E) S then stored S (f i j) else stored Mo (g i j)) = true -> neqb (f i j) (g i j) = true).
Proof.
  intros Hs Hcmp Hr H1 H2 Ps Pm Ds Dm Hk Hf1 Hf2 Hc. pose proof (sane_wfw w Hs Hr) as Hw. destruct Hs as [Hz _].
  destruct (Equal_run E w s m S Mo _ _ Hz Hw H1 H2 eq_refl eq_refl ltac:(destruct (IsSparseMatrix _ S); auto)) as (w' & b & He & Hh & Hb & _).
  exists w', b. split; [exact He|]. split; [exact Hh|]. rewrite (Hb Hc).
  assert (Hk' : IsSparseMatrix (e_reg E) Mo = negb (IsSparseMatrix (e_reg E) S)) by (rewrite Hk, Bool.negb_involutive; reflexivity).
  rewrite Hk'. rewrite (verdict_mixed _ S Mo R C f g Hz Hcmp (plain_is_good w s S Hw H1 Ps) (plain_is_good w m Mo Hw H2 Pm) Ds Dm).
  destruct (IsSparseMatrix (e_reg E) S); reflexivity.
Qed.
Lemma equal_counts E w (s m : ptr) S Mo :
  sane N -> reachable w -> obj w s S -> obj w m Mo ->
  IsSparseMatrix (e_reg E) S = IsSparseMatrix (e_reg E) Mo -> mat_Values S <> mat_Values Mo ->
  exists w', Equal E (Some s) (Some m) w = (w', Ok false) /\ w_heap w' = w_heap w.
Proof.
  intros Hs Hr H1 H2 Hk Hne. unfold Equal.
  rewrite (mbind_ok _ _ _ _ _ (p_Columns_ok _ _ _ H1)), (mbind_ok _ _ _ _ _ (p_Columns_ok _ _ _ H2)).
  destruct (negb (mat_Columns S =? mat_Columns Mo)); [exists w; auto|].
  rewrite (mbind_ok _ _ _ _ _ (p_Rows_ok _ _ _ H1)), (mbind_ok _ _ _ _ _ (p_Rows_ok _ _ _ H2)).
  destruct (negb (mat_Rows S =? mat_Rows Mo)); [exists w; auto|].
  rewrite (mbind_ok _ _ _ _ _ (p_IsSparse_ok E _ _ _ H1)), (mbind_ok _ _ _ _ _ (p_IsSparse_ok E _ _ _ H2)).
  rewrite (mbind_ok _ _ _ _ _ (p_Values_ok _ _ _ H1)), (mbind_ok _ _ _ _ _ (p_Values_ok _ _ _ H2)), Hk.
  replace (mat_Values S =? mat_Values Mo) with false by (symmetry; apply Z.eqb_neq; auto).
  destruct (IsSparseMatrix (e_reg E) Mo); cbn [andb orb negb]; exists w; auto.
Qed.
Lemma not_equal E w a b : NotEqual E a b w = (fst (Equal E a b w), rmap negb (snd (Equal E a b w))).
Proof. unfold NotEqual, mbind. destruct (Equal E a b w) as [w' [x| |]]; reflexivity. Qed.
Lemma equal_nil E w p : Equal E None None w = (w, Ok true) /\ Equal E None (Some p) w = (w, Ok false) /\ Equal E (Some p) None w = (w, Ok false).
Proof. repeat split. Qed.
Lemma equal_shape E w (s m : ptr) S Mo : obj w s S -> obj w m Mo ->
  ~ (mat_Rows S = mat_Rows Mo /\ mat_Columns S = mat_Columns Mo) -> Equal E (Some s) (Some m) w = (w, Ok false).
Proof.
  intros H1 H2 Hne. unfold Equal.
  rewrite (mbind_ok _ _ _ _ _ (p_Columns_ok _ _ _ H1)), (mbind_ok _ _ _ _ _ (p_Columns_ok _ _ _ H2)).
  destruct (mat_Columns S =? mat_Columns Mo) eqn:E1; cbn [negb]; [|reflexivity].
  rewrite (mbind_ok _ _ _ _ _ (p_Rows_ok _ _ _ H1)), (mbind_ok _ _ _ _ _ (p_Rows_ok _ _ _ H2)).
  destruct (mat_Rows S =? mat_Rows Mo) eqn:E2; cbn [negb]; [exfalso; apply Hne; lia|reflexivity].
Qed.
Lemma equal_cancelled E k w (s m : ptr) S Mo :
  sane N -> reachable w -> obj w s S -> obj w m Mo -> e_ctx E = Some k ->
  0 < mat_Values S -> 0 < mat_Values Mo -> mat_Values S <= Z.of_nat (e_fuel E) -> mat_Values Mo <= Z.of_nat (e_fuel E) ->
  (k <= w_polls w)%nat ->
  exists w', Equal E (Some s) (Some m) w = (w', Ok false) /\ w_heap w' = w_heap w.
Proof.
  intros Hs Hr H1 H2 Hc V1 V2 F1 F2 Hk. pose proof (sane_wfw w Hs Hr) as Hw. destruct Hs as [Hz' _]. unfold Equal.
  rewrite (mbind_ok _ _ _ _ _ (p_Columns_ok _ _ _ H1)), (mbind_ok _ _ _ _ _ (p_Columns_ok _ _ _ H2)).
  destruct (negb (mat_Columns S =? mat_Columns Mo)); [exists w; auto|].
  rewrite (mbind_ok _ _ _ _ _ (p_Rows_ok _ _ _ H1)), (mbind_ok _ _ _ _ _ (p_Rows_ok _ _ _ H2)).
  destruct (negb (mat_Rows S =? mat_Rows Mo)); [exists w; auto|].
  rewrite (mbind_ok _ _ _ _ _ (p_IsSparse_ok E _ _ _ H1)), (mbind_ok _ _ _ _ _ (p_IsSparse_ok E _ _ _ H2)).
  rewrite (mbind_ok _ _ _ _ _ (p_Values_ok _ _ _ H1)), (mbind_ok _ _ _ _ _ (p_Values_ok _ _ _ H2)).
  match goal with |- context [if ?b then _ else _] => destruct b end; [exists w; auto|].
  assert (Key : forall (src : ptr) X body, obj w src X -> 0 < mat_Values X -> mat_Values X <= Z.of_nat (e_fuel E) ->
    exists w', enumerate E src false body w = (w', Ok (Some false)) /\ w_heap w' = w_heap w).
  { intros src X body HX V F. unfold enumerate. rewrite (mbind_ok _ _ _ _ _ (load_ok _ _ _ HX)).
    destruct (e_fuel E) as [|n]; [lia|]. cbn [enum_loop].
    assert (HN : mat_HasNext (mat_iterator X) = true) 
      by (rewrite (it_rel_HasNext X _ _ _ (entries_rel X (Hw _ _ HX))); pose proof (zlen_entries X (Hw _ _ HX)) as HV;
          destruct (entries X); [unfold zlen in HV; cbn in HV; lia|reflexivity]).
    rewrite HN. unfold mbind, poll at 1. rewrite Hc.
    replace (Nat.leb k (w_polls w)) with true by (symmetry; apply Nat.leb_le; auto). eexists. split; reflexivity. }
  destruct (IsSparseMatrix (e_reg E) S).
  - destruct (Key s S (fun r c v => let! mV := p_At m r c in if negb (neqb v mV) then mret (Some false) else mret None) H1 V1 F1) as (w' & He & Hh).
    rewrite (mbind_ok _ _ _ _ _ He). exists w'. auto.
  - destruct (Key m Mo (fun r c v => let! mV := p_At s r c in if negb (neqb v mV) then mret (Some false) else mret None) H2 V2 F2) as (w' & He & Hh).
    rewrite (mbind_ok _ _ _ _ _ He). exists w'. auto.
Qed.

(** ** Element-wise operators *)
Lemma stored_or S v : stored S v && negb (neqb v n0) = negb (neqb v n0).
Proof. destruct S; cbn; destruct (neqb v n0); reflexivity. Qed.
Lemma ewa_exact E w (s m : ptr) k t S Mo O R C f g h :
  sane N -> reachable w -> obj w s S -> obj w m Mo -> obj w t O ->
  not_sparse_vector S -> not_sparse_vector Mo -> not_sparse_vector O ->
  denotes S R C f -> denotes Mo R C g -> denotes O R C h -> mask_dims w k R C -> mask_not k t ->
  mat_Values S <= Z.of_nat (e_fuel E) -> mat_Values Mo <= Z.of_nat (e_fuel E) -> e_ctx E = None ->
  (R = C -> ElementWiseMatrixAdd E s m k t w = elementWiseAdd E s m k t w) /\
  ElementWiseVectorAdd E s m k t w = elementWiseAdd E s m k t w /\
  exists w' O', elementWiseAdd E s m k t w = (w', Ok tt) /\ extends_but t w w' /\ obj w' t O' /\ same_storage O O' /\
    denotes O' R C (fun i j =>
      if covers w k i j then h i j
      else if negb (neqb (g i j) n0) && negb (Nat.eqb m t) then kept O (g i j)
      else if negb (neqb (f i j) n0) && negb (Nat.eqb s t) then kept O (f i j)
      else h i j).
Proof.
  intros Hs Hr H1 H2 H3 Ps Pm Po Ds Dm Do Hk Hkt Hf1 Hf2 Hc. pose proof (sane_wfw w Hs Hr) as Hw. destruct Hs as [Hz _].
  pose proof Ds as (SR & SC & _). pose proof Dm as (MR & MC & _).
  split; [|split].
  - intros Esq. unfold ElementWiseMatrixAdd. rewrite (mbind_ok _ _ _ _ _ (p_Rows_ok _ _ _ H2)), (mbind_ok _ _ _ _ _ (p_Columns_ok _ _ _ H1)).
    replace (mat_Rows Mo =? mat_Columns S) with true by (symmetry; apply Z.eqb_eq; congruence). reflexivity.
  - unfold ElementWiseVectorAdd. rewrite (mbind_ok _ _ _ _ _ (p_Rows_ok _ _ _ H2)), (mbind_ok _ _ _ _ _ (p_Rows_ok _ _ _ H1)).
    replace (mat_Rows Mo =? mat_Rows S) with true by (symmetry; apply Z.eqb_eq; congruence). reflexivity.
  - destruct (ewa_run E w s m k t S Mo O R C f g h Hz Hw H1 H2 H3 Ps Pm Po Ds Dm Do Hk Hkt Hf1 Hf2) as
      (w' & O' & ds & rs & dm & rm & He & Hx & Ho & Hsh & Wo & En1 & En2 & Hrest & _ & Hd).
    destruct (app_eq_nil _ _ (until_none _ _ _ _ _ _ Hrest Hc)) as [-> ->]. rewrite app_nil_r in En1, En2.
    exists w', O'. do 3 (split; [auto|]). split; [apply storage_of; auto|].
    eapply denotes_ext; [|exact Hd]. intros i j Hi Hj. cbn beta.
    rewrite (visited_stored S R C f ds i j Hz (plain_is_good w s S Hw H1 Ps) Ds En1 Hi Hj).
    rewrite (visited_stored Mo R C g dm i j Hz (plain_is_good w m Mo Hw H2 Pm) Dm En2 Hi Hj).
    rewrite !stored_or. destruct (covers w k i j); reflexivity.
Qed.
Lemma ew_nonsquare E w (s m : ptr) k t S Mo : obj w s S -> obj w m Mo -> mat_Rows Mo <> mat_Columns S ->
  ElementWiseMatrixAdd E s m k t w = (w, Panic) /\ ElementWiseMatrixMultiply E s m k t w = (w, Panic).
Proof.
  intros H1 H2 Hne. unfold ElementWiseMatrixAdd, ElementWiseMatrixMultiply. split.
  all: rewrite (mbind_ok _ _ _ _ _ (p_Rows_ok _ _ _ H2)), (mbind_ok _ _ _ _ _ (p_Columns_ok _ _ _ H1)).
  all: replace (mat_Rows Mo =? mat_Columns S) with false by (symmetry; apply Z.eqb_neq; auto); reflexivity.
Qed.
Lemma ewm_exact E w (s m : ptr) k t S Mo O R C f g h :
  sane N -> cmp_ok N -> reachable w -> obj w s S -> obj w m Mo -> obj w t O ->
  not_sparse_vector S -> not_sparse_vector Mo -> not_sparse_vector O ->
  denotes S R C f -> denotes Mo R C g -> denotes O R C h -> mask_dims w k R C -> s <> t -> m <> t ->
  mat_Values S <= Z.of_nat (e_fuel E) -> mat_Values Mo <= Z.of_nat (e_fuel E) -> e_ctx E = None ->
  (R = C -> ElementWiseMatrixMultiply E s m k t w = elementWiseMultiply E s m k t w) /\
  ElementWiseVectorMultiply E s m k t w = elementWiseMultiply E s m k t w /\
  exists w' O', elementWiseMultiply E s m k t w = (w', Ok tt) /\ extends_but t w w' /\ obj w' t O' /\ same_storage O O' /\
    denotes O' R C (fun i j =>
      let src := if IsSparseMatrix (e_reg E) S then stored S (f i j) else stored Mo (g i j) in
      if src && neqb (f i j) (g i j) && negb (covers w k i j)
      then kept O (if IsSparseMatrix (e_reg E) S then f i j else g i j) else h i j).
Proof.
  intros Hs [Hsy _] Hr H1 H2 H3 Ps Pm Po Ds Dm Do Hk Hst Hmt Hf1 Hf2 Hc. pose proof (sane_wfw w Hs Hr) as Hw. destruct Hs as [Hz _].
  pose proof Ds as (SR & SC & _). pose proof Dm as (MR & MC & _).
  split; [|split].
  - intros Esq. unfold ElementWiseMatrixMultiply. rewrite (mbind_ok _ _ _ _ _ (p_Rows_ok _ _ _ H2)), (mbind_ok _ _ _ _ _ (p_Columns_ok _ _ _ H1)).
    replace (mat_Rows Mo =? mat_Columns S) with true by (symmetry; apply Z.eqb_eq; congruence). reflexivity.
  - unfold ElementWiseVectorMultiply. rewrite (mbind_ok _ _ _ _ _ (p_Rows_ok _ _ _ H2)), (mbind_ok _ _ _ _ _ (p_Rows_ok _ _ _ H1)).
    replace (mat_Rows Mo =? mat_Rows S) with true by (symmetry; apply Z.eqb_eq; congruence). reflexivity.
  - destruct (ewm_out_run E w s m k t S Mo O R C f g h _ Hz Hw H1 H2 H3 Ps Pm Po Ds Dm Do Hk eq_refl Hst Hmt
      ltac:(destruct (IsSparseMatrix _ S); auto)) as (w' & O' & d & rest & He & Hx & Ho & Hsh & Wo & Hen & Hrest & Hd).
    rewrite (until_none _ _ _ _ _ _ Hrest Hc), app_nil_r in Hen. exists w', O'. do 3 (split; [auto|]). split; [apply storage_of; auto|].
    eapply denotes_ext; [|exact Hd]. intros i j Hi Hj. cbn beta zeta.
    destruct (IsSparseMatrix (e_reg E) S).
    + rewrite (visited_stored S R C f d i j Hz (plain_is_good w s S Hw H1 Ps) Ds Hen Hi Hj), Bool.andb_assoc. reflexivity.
    + rewrite (visited_stored Mo R C g d i j Hz (plain_is_good w m Mo Hw H2 Pm) Dm Hen Hi Hj), Bool.andb_assoc, (Hsy (g i j)). reflexivity.
Qed.
Lemma ewm_in_exact E w (s m : ptr) k t Src O R C f h :
  sane N -> reachable w -> (m = t /\ obj w s Src \/ s = t /\ m <> t /\ obj w m Src) -> obj w t O ->
  not_sparse_vector Src -> not_sparse_vector O -> denotes Src R C f -> denotes O R C h -> mask_dims w k R C ->
  (s <> m \/ is_dense O) ->
  mat_Values Src <= Z.of_nat (e_fuel E) -> e_ctx E = None ->
  exists w' O', elementWiseMultiply E s m k t w = (w', Ok tt) /\ extends_but t w w' /\ obj w' t O' /\ same_storage O O' /\
    denotes O' R C (fun i j => if stored Src (f i j) && negb (covers w k i j)
      then kept O (if neqb (f i j) (h i j) then h i j else n0) else h i j).
Proof.
  intros Hs Hr Hcase H3 Ps Po Ds Do Hk Hal Hfu Hc. pose proof (sane_wfw w Hs Hr) as Hw. destruct Hs as [Hz _].
  assert (Hrun : exists src, obj w src Src /\ exists w' O' d rest, elementWiseMultiply E s m k t w = (w', Ok tt) /\ extends_but t w w' /\ obj w' t O' /\ same_shape O O' /\ wf O' /\
    enumerates Src (d ++ rest) /\ until_done 1 E w w' d rest /\
    denotes O' R C (fun i j => if visited (map fst d) i j && negb (covers w k i j)
        then kept O (if neqb (f i j) (h i j) then h i j else n0) else h i j)).
  { destruct Hcase as [(-> & H1)|(-> & Hne & H2)].
    - exists s. split; [exact H1|]. apply (ewm_in_run E w s t s k t Src O R C f h); auto; try (destruct Hal; auto; fail); eauto.
    - exists m. split; [exact H2|]. apply (ewm_in_run E w t m m k t Src O R C f h); auto; eauto. }
  destruct Hrun as (src & Hsrc & w' & O' & d & rest & He & Hx & Ho & Hsh & Wo & Hen & Hrest & Hd).
  rewrite (until_none _ _ _ _ _ _ Hrest Hc), app_nil_r in Hen. exists w', O'. do 3 (split; [auto|]). split; [apply storage_of; auto|].
  eapply denotes_ext; [|exact Hd]. intros i j Hi Hj. cbn beta.
  rewrite (visited_stored Src R C f d i j Hz (plain_is_good w src Src Hw Hsrc Ps) Ds Hen Hi Hj). reflexivity.
Qed.

(** ** Vectors *)
Lemma vecmat_exact E w (s m : ptr) k t S Mo O R C f g h :
  sane N -> reachable w -> obj w s S -> obj w m Mo -> obj w t O -> not_sparse_vector O ->
  denotes S C 1 f -> denotes Mo R C g -> denotes O R 1 h -> mask_dims w k R 1 -> s <> t -> m <> t -> e_ctx E = None ->
  exists w' O', VectorMatrixMultiply E s m k t w = (w', Ok tt) /\
    extends_but t w w' /\ obj w' t O' /\ same_storage O O' /\
    denotes O' R 1 (fun i j => if covers w k i j then h i j else
      kept O (sum_from n0 (fun l => nmul (shown Mo C (g i) l) (shown S C (fun r => f r j) l)) 0 C)).
Proof.
  intros Hs Hr H1 H2 H3 Po Ds Dm Do Hk Hst Hmt Hc.
  destruct (mul_exact E w m s k t Mo S O R C 1 g f h Hs Hr H2 H1 H3 Po Dm Ds Do Hk Hmt Hst Hc) as (w' & O' & He & _ & H).
  exists w', O'. split; [exact He|exact H].
Qed.
Lemma vecmat_mismatch E w (s m : ptr) k t S Mo : obj w s S -> obj w m Mo -> mat_Columns Mo <> mat_Rows S ->
  VectorMatrixMultiply E s m k t w = (w, Panic).
Proof. intros H1 H2 Hne. apply (mul_mismatch E w m s k t Mo S H2 H1 Hne). Qed.

(** a vector's Multiply writes outside its 1 x 1 result *)
Lemma vec_multiply_panics E w (s m : ptr) S Mo l c f g :
  sane N -> reachable w -> obj w s S -> obj w m Mo -> is_vector S ->
  denotes S l 1 f -> denotes Mo 1 c g -> 0 < l -> 0 < c -> 1 < l \/ 1 < c ->
  snd (m_Multiply E s m w) = Panic.
Proof.
  intros Hs Hr H1 H2 Pv Ds Dm Hl Hc Hlc. pose proof (sane_wfw w Hs Hr) as Hw. destruct Hs as [Hz _].
  pose proof Ds as (SR & SC & _). pose proof Dm as (MR & MC & _).
  destruct (new_dm_zero (N:=N) 1 1 ltac:(lia) ltac:(lia) ltac:(lia)) as (d & E1 & W1 & Z1).
  set (w0 := ext w (MDM d)). set (t := length (w_heap w)).
  assert (Hm : m_Multiply E s m w = (let! _ := multiply (bg E) s m MNil t in mret t) w0).
  { unfold m_Multiply. rewrite (mbind_ok _ _ _ _ _ (load_ok _ _ _ H1)), (mbind_ok _ _ _ _ _ (p_Rows_ok _ _ _ H2)), (mbind_ok _ _ _ _ _ (p_Columns_ok _ _ _ H2)), MR, SC.
    replace (match S with MCSR _ => _ | MCSC _ => _ | MDM _ => _ | _ => _ end) with (Ok (MDM d)).
    - rewrite mbind_lift, (mbind_ok _ _ _ _ _ (alloc_ok _ _)). reflexivity.
    - destruct S; try contradiction; rewrite E1; reflexivity. }
  rewrite Hm. clear Hm.
  assert (Hst : s <> t) by (eapply obj_not_fresh; eauto). assert (Hmt : m <> t) by (eapply obj_not_fresh; eauto).
  assert (W1' : wfw w0) by (apply wfw_ext; auto).
  assert (Ps : forall w', extends_but t w0 w' -> obj w' s S /\ obj w' m Mo).
  { intros w' Hx. split; apply Hx; auto; apply obj_ext_old; auto. }
  (* one cell of the product *)
  set (cell := fun (rows : mat) (r c0 : Z) =>
      let! mo := load m in let! column := mlift (mat_ColumnsAt mo c0) in
      let! o := dot_loop (bg E) rows column (zrange 0 (mat_Length rows)) n0 in
      match o with
      | None => mret (Some tt)
      | Some sum => let! e := mask_Element (N:=N) (MEmpty 1 1) r c0 in (if negb e then p_Set t r c0 sum else mret tt) ;!; mret None
      end).
  assert (Hrow : forall r, 0 <= r < l -> exists rv, mat_RowsAt S r = Ok rv /\
    forall w' (D : dense N) c0, obj w' m Mo -> obj w' t (MDM D) -> wf (MDM D) -> mat_Rows (MDM D) = 1 -> mat_Columns (MDM D) = 1 -> 0 <= c0 < c ->
    (r = 0 /\ c0 = 0 -> exists D', cell rv r c0 w' = (upd w' t (MDM D'), Ok None) /\ wf (MDM D') /\ mat_Rows (MDM D') = 1 /\ mat_Columns (MDM D') = 1) /\
    (~ (r = 0 /\ c0 = 0) -> cell rv r c0 w' = (w', Panic))).
  { intros r Hr0. destruct (row_view S l 1 f r Hz (Hw _ _ H1) Ds Hr0) as (rv & Er & Lr & Vr).
    exists rv. split; [exact Er|]. intros w' D c0 Ho2 Ho3 WD RD CD Hc0.
    destruct (col_view Mo 1 c g c0 Hz (Hw _ _ H2) Dm Hc0) as (cv & Ec & Vc).
    set (v := fold_left (fun s l => nadd s (nmul (shown S 1 (f r) l) (shown Mo 1 (fun r => g r c0) l))) (zrange 0 1) n0).
    assert (Hcommon : exists w2, w_heap w2 = w_heap w' /\ w2 = w' /\ cell rv r c0 w' = (let! _ := p_Set t r c0 v in mret None) w').
    { exists w'. split; [reflexivity|]. split; [reflexivity|].
      unfold cell. rewrite (mbind_ok _ _ _ _ _ (load_ok _ _ _ Ho2)), Ec, mbind_lift.
      replace (mat_Length rv) with 1 by (rewrite <- Lr; destruct rv; reflexivity).
      assert (Ed : dot_loop (bg E) rv cv (zrange 0 1) n0 w' = (w', Ok (Some v))).
      { destruct (dot_loop_run (bg E) rv cv (fun l => shown S 1 (f r) l) (fun l => shown Mo 1 (fun r => g r c0) l) (zrange 0 1) n0 w') as (w2 & o & Ed & Hh & [[-> _]|(_ & Ho & _)]).
        - intros x Hx. apply in_zrange in Hx. auto.
        - rewrite Ed. f_equal. clear - Ed. change (zrange 0 1) with [0] in Ed. cbn [dot_loop] in Ed.
          unfold mbind at 1 in Ed. cbn [poll bg e_ctx] in Ed.
          destruct (mat_AtVec cv 0); [rewrite mbind_lift in Ed|discriminate|discriminate].
          destruct (mat_AtVec rv 0); [rewrite mbind_lift in Ed|discriminate|discriminate].
          inversion Ed; reflexivity.
        - exfalso. apply Ho. reflexivity. }
      rewrite (mbind_ok _ _ _ _ _ Ed). reflexivity. }
    destruct Hcommon as (_ & _ & _ & Hcommon).
    assert (HgD : good (MDM D)) by (split; [auto|discriminate]).
    split.
    - intros [-> ->].
      destruct (p_Set_ok t w' (MDM D) 0 0 v Hz Ho3 HgD ltac:(unfold inb; lia)) as (D' & ED & GD & (KD & RD' & CD') & _).
      destruct D' as [x|x|x|x|x]; try discriminate KD. exists x. rewrite Hcommon, (mbind_ok _ _ _ _ _ ED).
      split; [reflexivity|]. split; [apply GD|]. split; congruence.
    - intros Hne. rewrite Hcommon. apply mbind_panic. unfold p_Set. rewrite (mbind_ok _ _ _ _ _ (load_ok _ _ _ Ho3)).
      rewrite (Set_panic (MDM D) r c0 _ WD) by (unfold inb; lia). reflexivity. }
  assert (A1 : obj w0 s S) by (apply obj_ext_old; auto). assert (A2 : obj w0 m Mo) by (apply obj_ext_old; auto).
  assert (A3 : obj w0 t (MDM d)) by (apply obj_ext_new).
  assert (Hmul : exists w', multiply (bg E) s m MNil t w0 = (w', Panic)).
  { unfold multiply. rewrite (mbind_ok _ _ _ _ _ (p_Rows_ok _ _ _ A2)), (mbind_ok _ _ _ _ _ (p_Columns_ok _ _ _ A1)), MR, SC.
    change (negb (1 =? 1)) with false. cbv iota.
    rewrite (mbind_ok _ _ _ _ _ (check_mask_ok MNil t w0 (MDM d) A3 I)).
    pose proof Z1 as (ZR & ZC & _). rewrite ZR, ZC. cbn [mask_norm].
    rewrite (mbind_ok _ _ _ _ _ (p_Rows_ok _ _ _ A1)), (mbind_ok _ _ _ _ _ (p_Columns_ok _ _ _ A2)), SR, MC.
    rewrite (zrange_cons 0 l) by lia. cbn [for_list].
    destruct (Hrow 0 ltac:(lia)) as (rv & Er & Hc0).
    destruct (Hc0 w0 d 0 A2 A3 W1 ZR ZC ltac:(lia)) as [Hfirst _].
    destruct (Hfirst ltac:(lia)) as (D1 & ED1 & WD1 & RD1 & CD1).
    set (w1 := upd w0 t (MDM D1)).
    assert (O1 : obj w1 s S) by (apply obj_upd_neq; [auto|first [exact A1|exact A2]]).
    assert (O2 : obj w1 m Mo) by (apply obj_upd_neq; [auto|first [exact A1|exact A2]]).
    assert (O3 : obj w1 t (MDM D1)) by (eapply obj_upd_eq; exact A3).
    destruct (Z_lt_dec 1 c) as [Hc1|Hc1].
    - (* the second cell of the first row *)
      assert (Ebody : (let! so := load s in let! rows := mlift (mat_RowsAt so 0) in for_list (zrange 0 c) (cell rows 0)) w0 = (w1, Panic)).
      { rewrite (mbind_ok _ _ _ _ _ (load_ok _ _ _ A1)), Er, mbind_lift.
        rewrite (zrange_cons 0 c), (zrange_cons (0 + 1) c) by lia. cbn [for_list].
        rewrite (mbind_ok _ _ _ _ _ ED1).
        destruct (Hc0 w1 D1 (0 + 1) O2 O3 WD1 RD1 CD1 ltac:(lia)) as [_ Hp].
        rewrite (mbind_panic _ _ _ _ (Hp ltac:(lia))). reflexivity. }
      exists w1. apply mbind_panic. unfold cell in Ebody. rewrite (mbind_panic _ _ _ _ Ebody). reflexivity.
    - (* the first cell of the second row *)
      assert (Ec1 : c = 1) by lia. clear Hc1.
      assert (Ebody : (let! so := load s in let! rows := mlift (mat_RowsAt so 0) in for_list (zrange 0 c) (cell rows 0)) w0 = (w1, Ok None)).
      { rewrite (mbind_ok _ _ _ _ _ (load_ok _ _ _ A1)), Er, mbind_lift.
        rewrite (zrange_cons 0 c) by lia. rewrite (zrange_nil (0 + 1) c) by lia. cbn [for_list].
        rewrite (mbind_ok _ _ _ _ _ ED1). reflexivity. }
      destruct (Hrow (0 + 1) ltac:(lia)) as (rv1 & Er1 & Hc1).
      assert (Ebody2 : (let! so := load s in let! rows := mlift (mat_RowsAt so (0 + 1)) in for_list (zrange 0 c) (cell rows (0 + 1))) w1 = (w1, Panic)).
      { rewrite (mbind_ok _ _ _ _ _ (load_ok _ _ _ O1)), Er1, mbind_lift.
        rewrite (zrange_cons 0 c) by lia. cbn [for_list].
        destruct (Hc1 w1 D1 0 O2 O3 WD1 RD1 CD1 ltac:(lia)) as [_ Hp].
        rewrite (mbind_panic _ _ _ _ (Hp ltac:(lia))). reflexivity. }
      exists w1. apply mbind_panic. unfold cell in Ebody, Ebody2. rewrite (mbind_ok _ _ _ _ _ Ebody).
      rewrite (zrange_cons (0 + 1) l) by lia. cbn [for_list]. rewrite (mbind_panic _ _ _ _ Ebody2). reflexivity. }
  destruct Hmul as (w' & Hmul). rewrite (mbind_panic _ _ _ _ Hmul). reflexivity.
Qed.

(** ** Cancellation: the work done is a prefix of the iteration *)
Lemma mul_prefix E w (s m : ptr) k t S Mo O R K C f g h :
  sane N -> reachable w -> obj w s S -> obj w m Mo -> obj w t O -> not_sparse_vector O ->
  denotes S R K f -> denotes Mo K C g -> denotes O R C h -> mask_dims w k R C -> s <> t -> m <> t ->
  exists w' O' L rest, MatrixMatrixMultiply E s m k t w = (w', Ok tt) /\ extends_but t w w' /\ obj w' t O' /\ same_storage O O' /\
    positions R C = L ++ rest /\ until_done (Z.to_nat K) E w w' L rest /\
    denotes O' R C (fun i j => if visited L i j && negb (covers w k i j)
      then kept O (sum_from n0 (fun l => nmul (shown S K (f i) l) (shown Mo K (fun r => g r j) l)) 0 K) else h i j).
Proof.
  intros Hs Hr H1 H2 Ho Po Ds Dm Do Hk Hst Hmt. pose proof (sane_wfw w Hs Hr) as Hw. destruct Hs as [Hz Hn].
  destruct (multiply_run E w s m k t S Mo O R K C f g h Hz Hw H1 H2 Ho Po Ds Dm Do Hk Hst Hmt)
    as (w' & O' & L & rest & He & Hx & Ho' & Hsh & _ & HL & Hrest & Hd).
  exists w', O', L, rest. split; [exact He|]. do 2 (split; [assumption|]). split; [apply storage_of; auto|]. do 2 (split; [assumption|]). exact Hd.
Qed.
Lemma add_prefix E w (s m : ptr) k t S Mo O R C f g h :
  sane N -> reachable w -> obj w s S -> obj w m Mo -> obj w t O ->
  not_sparse_vector S -> not_sparse_vector Mo -> not_sparse_vector O ->
  denotes S R C f -> denotes Mo R C g -> denotes O R C h -> mask_dims w k R C ->
  let Src := if IsSparseMatrix (e_reg E) S then S else Mo in
  ((if IsSparseMatrix (e_reg E) S then s else m) <> t \/ is_dense O) -> mat_Values Src <= Z.of_nat (e_fuel E) ->
  exists w' O' d rest, Add E s m k t w = (w', Ok tt) /\ extends_but t w w' /\ obj w' t O' /\ same_storage O O' /\
    enumerates Src (d ++ rest) /\ until_done 1 E w w' d rest /\
    denotes O' R C (fun i j => if visited (map fst d) i j && negb (covers w k i j)
      then kept O (if IsSparseMatrix (e_reg E) S then nadd (g i j) (f i j) else nadd (f i j) (g i j)) else h i j).
Proof.
  intros Hs Hr H1 H2 Ho Ps Pm Po Ds Dm Do Hk Src Ha Hf. pose proof (sane_wfw w Hs Hr) as Hw. destruct Hs as [Hz Hn].
  destruct (Add_run E w s m k t S Mo O R C f g h _ Hz Hw H1 H2 Ho Ps Pm Po Ds Dm Do Hk eq_refl Ha Hf)
    as (w' & O' & L & rest & He & Hx & Ho' & Hsh & _ & HL & Hrest & Hd).
  exists w', O', L, rest. split; [exact He|]. do 2 (split; [assumption|]). split; [apply storage_of; auto|]. do 2 (split; [assumption|]). exact Hd.
Qed.
Lemma sub_prefix E w (s m : ptr) k t S Mo O R C f h :
  sane N -> reachable w -> obj w s S -> obj w m Mo -> obj w t O ->
  not_sparse_vector S -> not_sparse_vector O ->
  denotes S R C f -> mat_Rows Mo = R -> mat_Columns Mo = C -> denotes O R C h -> mask_dims w k R C ->
  (s <> t \/ is_dense O) -> mat_Values S <= Z.of_nat (e_fuel E) ->
  exists w' O' d rest, Subtract E s m k t w = (w', Ok tt) /\ extends_but t w w' /\ obj w' t O' /\ same_storage O O' /\
    enumerates S (d ++ rest) /\ until_done 1 E w w' d rest /\
    denotes O' R C (fun i j => if visited (map fst d) i j && negb (covers w k i j)
                               then kept O (nsub (f i j) (h i j)) else h i j).
Proof.
  intros Hs Hr H1 H2 Ho Ps Po Ds MR MC Do Hk Ha Hf. pose proof (sane_wfw w Hs Hr) as Hw. destruct Hs as [Hz Hn].
  destruct (Subtract_run E w s m k t S Mo O R C f h Hz Hw H1 H2 Ho Ps Po Ds MR MC Do Hk Ha Hf)
    as (w' & O' & L & rest & He & Hx & Ho' & Hsh & _ & HL & Hrest & Hd).
  exists w', O', L, rest. split; [exact He|]. do 2 (split; [assumption|]). split; [apply storage_of; auto|]. do 2 (split; [assumption|]). exact Hd.
Qed.
Lemma transpose_prefix E w (s : ptr) k t S O R C f h :
  sane N -> reachable w -> obj w s S -> obj w t O -> not_sparse_vector S -> not_sparse_vector O ->
  denotes S R C f -> denotes O C R h -> mask_dims w k C R ->
  s <> t -> mask_not k t -> (R = C \/ forall p, k <> MObj p) -> mat_Values S <= Z.of_nat (e_fuel E) ->
  exists w' O' d rest, Transpose E s k t w = (w', Ok tt) /\ extends_but t w w' /\ obj w' t O' /\ same_storage O O' /\
    enumerates S (d ++ rest) /\ until_done 1 E w w' d rest /\
    denotes O' C R (fun i j => if visited (map fst d) j i && negb (covers w k j i) then kept O (f j i) else h i j).
Proof.
  intros Hs Hr H1 Ho Ps Po Ds Do Hk Hst Hkt Hsq Hf. pose proof (sane_wfw w Hs Hr) as Hw. destruct Hs as [Hz Hn].
  destruct (Transpose_run E w s k t S O R C f h Hz Hw H1 Ho Ps Po Ds Do Hk Hst Hkt Hsq Hf)
    as (w' & O' & L & rest & He & Hx & Ho' & Hsh & _ & HL & Hrest & Hd).
  exists w', O', L, rest. split; [exact He|]. do 2 (split; [assumption|]). split; [apply storage_of; auto|]. do 2 (split; [assumption|]). exact Hd.
Qed.
Lemma apply_prefix E w (s : ptr) k t S O R C f h u :
  sane N -> reachable w -> obj w s S -> obj w t O -> not_sparse_vector S -> not_sparse_vector O ->
  denotes S R C f -> denotes O C R h -> mask_dims w k C R ->
  s <> t -> mask_not k t -> (R = C \/ forall p, k <> MObj p) -> mat_Values S <= Z.of_nat (e_fuel E) ->
  exists w' O' d rest, Apply E s k u t w = (w', Ok tt) /\ extends_but t w w' /\ obj w' t O' /\ same_storage O O' /\
    enumerates S (d ++ rest) /\ until_done 1 E w w' d rest /\
    denotes O' C R (fun i j => if visited (map fst d) j i && negb (covers w k j i) then kept O (u (f j i)) else h i j).
Proof.
  intros Hs Hr H1 Ho Ps Po Ds Do Hk Hst Hkt Hsq Hf. pose proof (sane_wfw w Hs Hr) as Hw. destruct Hs as [Hz Hn].
  destruct (Apply_out_run E w s k t S O R C f h u Hz Hw H1 Ho Ps Po Ds Do Hk Hst Hkt Hsq Hf)
    as (w' & O' & L & rest & He & Hx & Ho' & Hsh & _ & HL & Hrest & Hd).
  exists w', O', L, rest. split; [exact He|]. do 2 (split; [assumption|]). split; [apply storage_of; auto|]. do 2 (split; [assumption|]). exact Hd.
Qed.
Lemma apply_in_prefix E w (t : ptr) k O R C h u :
  sane N -> reachable w -> obj w t O -> not_sparse_vector O -> denotes O R C h -> mask_dims w k R C ->
  (sparse_obj O = true -> keeps_nz u) -> mat_Values O <= Z.of_nat (e_fuel E) ->
  exists w' O' d rest, Apply E t k u t w = (w', Ok tt) /\ extends_but t w w' /\ obj w' t O' /\ same_storage O O' /\
    enumerates O (d ++ rest) /\ until_done 1 E w w' d rest /\
    denotes O' R C (fun i j => if visited (map fst d) i j && covers w k i j then u (h i j) else h i j).
Proof.
  intros Hs Hr Ho Po Do Hk Hu Hf. pose proof (sane_wfw w Hs Hr) as Hw. destruct Hs as [Hz Hn].
  destruct (Apply_in_run E w t k O R C h u Hz Hw Ho Po Do Hk Hu Hf)
    as (w' & O' & L & rest & He & Hx & Ho' & Hsh & _ & HL & Hrest & Hd).
  exists w', O', L, rest. split; [exact He|]. do 2 (split; [assumption|]). split; [apply storage_of; auto|]. do 2 (split; [assumption|]). exact Hd.
Qed.
Lemma negative_prefix E w (s t : ptr) k O R C h :
  sane N -> reachable w -> obj w t O -> not_sparse_vector O -> denotes O R C h -> mask_dims w k R C ->
  mat_Values O <= Z.of_nat (e_fuel E) ->
  exists w' O' d rest, Negative E s k t w = (w', Ok tt) /\ extends_but t w w' /\ obj w' t O' /\ same_storage O O' /\
    enumerates O (d ++ rest) /\ until_done 1 E w w' d rest /\
    denotes O' R C (fun i j => if visited (map fst d) i j && negb (covers w k i j) then nneg (h i j) else h i j).
Proof.
  intros Hs Hr Ho Po Do Hk Hf. pose proof (sane_wfw w Hs Hr) as Hw. destruct Hs as [Hz Hn].
  destruct (Negative_run E w s t k O R C h Hz Hn Hw Ho Po Do Hk Hf)
    as (w' & O' & L & rest & He & Hx & Ho' & Hsh & _ & HL & Hrest & Hd).
  exists w', O', L, rest. split; [exact He|]. do 2 (split; [assumption|]). split; [apply storage_of; auto|]. do 2 (split; [assumption|]). exact Hd.
Qed.
Lemma ewm_prefix E w (s m : ptr) k t S Mo O R C f g h :
  sane N -> reachable w -> obj w s S -> obj w m Mo -> obj w t O ->
  not_sparse_vector S -> not_sparse_vector Mo -> not_sparse_vector O ->
  denotes S R C f -> denotes Mo R C g -> denotes O R C h -> mask_dims w k R C -> s <> t -> m <> t ->
  let Src := if IsSparseMatrix (e_reg E) S then S else Mo in
  mat_Values Src <= Z.of_nat (e_fuel E) ->
  exists w' O' d rest, elementWiseMultiply E s m k t w = (w', Ok tt) /\ extends_but t w w' /\ obj w' t O' /\ same_storage O O' /\
    enumerates Src (d ++ rest) /\ until_done 1 E w w' d rest /\
    denotes O' R C (fun i j => if visited (map fst d) i j &&
        ((if IsSparseMatrix (e_reg E) S then neqb (f i j) (g i j) else neqb (g i j) (f i j)) && negb (covers w k i j))
        then kept O (if IsSparseMatrix (e_reg E) S then f i j else g i j) else h i j).
Proof.
  intros Hs Hr H1 H2 Ho Ps Pm Po Ds Dm Do Hk Hst Hmt Src Hf. pose proof (sane_wfw w Hs Hr) as Hw. destruct Hs as [Hz Hn].
  destruct (ewm_out_run E w s m k t S Mo O R C f g h _ Hz Hw H1 H2 Ho Ps Pm Po Ds Dm Do Hk eq_refl Hst Hmt Hf)
    as (w' & O' & L & rest & He & Hx & Ho' & Hsh & _ & HL & Hrest & Hd).
  exists w', O', L, rest. split; [exact He|]. do 2 (split; [assumption|]). split; [apply storage_of; auto|]. do 2 (split; [assumption|]). exact Hd.
Qed.
Lemma ewa_prefix E w (s m : ptr) k t S Mo O R C f g h :
  sane N -> reachable w -> obj w s S -> obj w m Mo -> obj w t O ->
  not_sparse_vector S -> not_sparse_vector Mo -> not_sparse_vector O ->
  denotes S R C f -> denotes Mo R C g -> denotes O R C h -> mask_dims w k R C -> mask_not k t ->
  mat_Values S <= Z.of_nat (e_fuel E) -> mat_Values Mo <= Z.of_nat (e_fuel E) ->
  exists w' O' ds rs dm rm, elementWiseAdd E s m k t w = (w', Ok tt) /\ extends_but t w w' /\ obj w' t O' /\ same_storage O O' /\
    enumerates S (ds ++ rs) /\ enumerates Mo (dm ++ rm) /\
    until_done 1 E w w' ((if Nat.eqb s t then [] else ds) ++ (if Nat.eqb m t then [] else dm)) (rs ++ rm) /\ (rs <> [] -> dm = []) /\
    denotes O' R C (fun i j =>
      if negb (covers w k i j) then
        if visited (map fst dm) i j && negb (neqb (g i j) n0) && negb (Nat.eqb m t) then kept O (g i j)
        else if visited (map fst ds) i j && negb (neqb (f i j) n0) && negb (Nat.eqb s t) then kept O (f i j)
        else h i j
      else h i j).
Proof.
  intros Hs Hr H1 H2 Ho Ps Pm Po Ds Dm Do Hk Hkt Hf Hg. pose proof (sane_wfw w Hs Hr) as Hw. destruct Hs as [Hz Hn].
  destruct (ewa_run E w s m k t S Mo O R C f g h Hz Hw H1 H2 Ho Ps Pm Po Ds Dm Do Hk Hkt Hf Hg)
    as (w' & O' & ds & rs & dm & rm & He & Hx & Ho' & Hsh & _ & HL & HL2 & Hrest & Hr2 & Hd).
  exists w', O', ds, rs, dm, rm. split; [exact He|]. do 2 (split; [assumption|]). split; [apply storage_of; auto|]. do 4 (split; [assumption|]). exact Hd.
Qed.
(** [Equal] returns the right verdict when it gets through in time, [false]
    otherwise, and leaves every object alone *)
Lemma equal_prefix E w (s m : ptr) S Mo :
  sane N -> reachable w -> obj w s S -> obj w m Mo ->
  mat_Values S <= Z.of_nat (e_fuel E) -> mat_Values Mo <= Z.of_nat (e_fuel E) ->
  exists w' b w2 b2, Equal E (Some s) (Some m) w = (w', Ok b) /\ w_heap w' = w_heap w /\
    Equal (bg E) (Some s) (Some m) w = (w2, Ok b2) /\
    b = b2 && in_time E w (Z.to_nat (mat_Values (if IsSparseMatrix (e_reg E) S then S else Mo))).
Proof.
  intros Hs Hr H1 H2 Hf Hg. pose proof (sane_wfw w Hs Hr) as Hw. destruct Hs as [Hz Hn].
  assert (Hfu : forall b : bool, mat_Values (if b then S else Mo) <= Z.of_nat (e_fuel E)) by (intros []; assumption).
  destruct (Equal_run E w s m S Mo _ _ Hz Hw H1 H2 eq_refl eq_refl (Hfu _)) as (w' & b & He & Hh & _ & Hb).
  destruct (Equal_run (bg E) w s m S Mo _ _ Hz Hw H1 H2 eq_refl eq_refl (Hfu _)) as (w2 & b2 & He2 & _ & Hb2 & _).
  exists w', b, w2, b2. do 3 (split; [assumption|]). rewrite (Hb2 eq_refl). exact Hb.
Qed.

(** ** Masks, on reachable heaps *)
Lemma masked_frame_reach op E w (s m : ptr) k t O R C h :
  sane N -> reachable w ->
  In op masked_operators -> obj w t O -> not_sparse_vector O -> denotes O R C h -> mask_dims w k R C -> mask_not k t ->
  exists O', obj (fst (op E s m k t w)) t O' /\ mat_Rows O' = R /\ mat_Columns O' = C /\
    forall i j, 0 <= i < R -> 0 <= j < C -> covers w k i j = true -> mat_At O' i j = Ok (h i j, O').
Proof. intros Hs Hr. apply masked_frame; [apply Hs|apply sane_wfw; auto]. Qed.

End OpsProps.
