(** Single calls on reachable heaps, for reasoning about code built from them. *)
From Coq Require Import String.
From Verif Require Import GoBase Num SparseVec Csr Csc DenseVec DenseMat Mat World Ops Api MathOps.
From Verif Require Import BaseProofs CsrProofs SvProofs DenseProofs MatProofs Spec HeapProofs ReachProofs StoreProofs VecProofs StoreThms OpsProofs OpsThms EwThms EqThms MethThms OpsProps.

Section Steps.
Context {N : num}.
Notation V := (T N).
Notation mat := (mat N).
Notation world := (world N).
Implicit Types w : world.
Implicit Types m : mat.

(** cell update *)
Definition put (f : Z -> Z -> V) (r c : Z) (v : V) : Z -> Z -> V :=
  fun i j => if (i =? r) && (j =? c) then v else f i j.

Lemma step_At w p m R C f r c : obj w p m -> denotes m R C f -> 0 <= r < R -> 0 <= c < C ->
  p_At p r c w = (w, Ok (f r c)).
Proof.
  intros Ho (_ & _ & Hd) Hr Hc. unfold p_At.
  rewrite (mbind_ok _ _ _ _ _ (load_ok _ _ _ Ho)), (Hd r c Hr Hc), mbind_lift, (mbind_ok _ _ _ _ _ (store_ok _ _ _)).
  rewrite upd_same by exact Ho. reflexivity.
Qed.

Lemma kept_clean m v : not_sparse_vector m -> clean m v = kept m v.
Proof. intros H. destruct m; try contradiction; reflexivity. Qed.
Lemma kept_exact m v : eq_ok N -> kept m v = v.
Proof. intros He. destruct m; try reflexivity; cbn; unfold zeroed; destruct (neqb v n0) eqn:E; auto; symmetry; apply He; exact E. Qed.
Lemma same_storage_shape m m' : same_shape m m' -> same_storage m m'.
Proof. intros (H & _). destruct m, m'; simpl in *; auto; discriminate. Qed.
Lemma same_storage_trans (a b c : mat) : same_storage a b -> same_storage b c -> same_storage a c.
Proof. destruct a, b, c; simpl; tauto. Qed.
Lemma same_storage_refl (a : mat) : same_storage a a.
Proof. destruct a; simpl; tauto. Qed.
Lemma same_storage_nsv (a b : mat) : same_storage a b -> not_sparse_vector a -> not_sparse_vector b.
Proof. destruct a, b; simpl; tauto. Qed.
Lemma same_storage_dense (a b : mat) : same_storage a b -> is_dense a -> is_dense b.
Proof. destruct a, b; simpl; tauto. Qed.
Lemma same_storage_kept (a b : mat) v : same_storage a b -> kept a v = kept b v.
Proof. destruct a, b; simpl; tauto. Qed.
Lemma same_storage_name reg (a b : mat) : same_storage a b -> IsSparseMatrix reg a = IsSparseMatrix reg b.
Proof. intros H. unfold IsSparseMatrix, mat_name. destruct a, b; simpl in *; try contradiction; reflexivity. Qed.

Lemma denotes_change m R C f g : denotes m R C f -> (forall i j, 0 <= i < R -> 0 <= j < C -> f i j = g i j) -> denotes m R C g.
Proof. intros (A & B & D) H. split; [exact A|]. split; [exact B|]. intros i j Hi Hj. rewrite <- H by auto. apply D; auto. Qed.

Lemma nsv_good m : wf m -> not_sparse_vector m -> good m.
Proof. intros H P. split; [exact H|]. destruct m; simpl in *; try contradiction; discriminate. Qed.

Lemma step_Set w p m R C f r c v : sane N -> reachable w -> obj w p m -> not_sparse_vector m -> denotes m R C f ->
  0 <= r < R -> 0 <= c < C ->
  exists w' m', p_Set p r c v w = (w', Ok tt) /\ reachable w' /\ extends_but p w w' /\ obj w' p m' /\ same_storage m m' /\
    denotes m' R C (put f r c (kept m v)).
Proof.
  intros Hs Hr Ho Hp Hd Hrr Hcc. pose proof (sane_wfw w Hs Hr _ _ Ho) as Hw. assert (Hz := proj1 Hs).
  pose proof Hd as (ER & EC & _). assert (Hb : inb m r c) by (unfold inb; lia).
  destruct (Set_ok m r c v Hz (nsv_good m Hw Hp) Hb) as (m' & E & [Hw' Hk] & Hsh & Hc).
  assert (E1 : p_Set p r c v w = (upd w p m', Ok tt)).
  { unfold p_Set. rewrite (load_lift _ _ _ (fun m => mat_Set m r c v) _ _ Ho E). reflexivity. }
  exists (upd w p m'), m'. split; [exact E1|]. split.
  { replace (upd w p m') with (after (KSet p r c v) w) by (unfold after, perform; rewrite E1; reflexivity). apply reach_call; [exact Hr|exact Logic.I]. }
  split; [eapply extends_but_upd; reflexivity|]. split; [eapply obj_upd_eq; eauto|]. split; [apply same_storage_shape; exact Hsh|].
  pose proof Hsh as (_ & S1 & S2). apply peek_denotes; auto; [congruence|congruence|].
  intros i j Hij. apply (same_shape_inb m m') in Hij; auto. rewrite Hc by auto. unfold wrote, put. rewrite kept_clean by auto.
  destruct ((i =? r) && (j =? c)); [reflexivity|]. eapply denotes_peek; eauto.
Qed.

Lemma step_Update w p m R C f r c g : sane N -> reachable w -> obj w p m -> not_sparse_vector m -> denotes m R C f ->
  0 <= r < R -> 0 <= c < C ->
  exists w' m', p_Update p r c g w = (w', Ok tt) /\ reachable w' /\ extends_but p w w' /\ obj w' p m' /\ same_storage m m' /\
    denotes m' R C (put f r c (kept m (g (f r c)))).
Proof.
  intros Hs Hr Ho Hp Hd Hrr Hcc. pose proof (sane_wfw w Hs Hr _ _ Ho) as Hw. assert (Hz := proj1 Hs).
  pose proof Hd as (ER & EC & _). assert (Hb : inb m r c) by (unfold inb; lia).
  destruct (Update_ok m r c g Hz (nsv_good m Hw Hp) Hb) as (m' & E & [Hw' Hk] & Hsh & Hc).
  assert (E1 : p_Update p r c g w = (upd w p m', Ok tt)).
  { unfold p_Update. rewrite (load_lift _ _ _ (fun m => mat_Update m r c g) _ _ Ho E). reflexivity. }
  exists (upd w p m'), m'. split; [exact E1|]. split.
  { replace (upd w p m') with (after (KUpdate p r c g) w) by (unfold after, perform; rewrite E1; reflexivity). apply reach_call; [exact Hr|exact Logic.I]. }
  split; [eapply extends_but_upd; reflexivity|]. split; [eapply obj_upd_eq; eauto|]. split; [apply same_storage_shape; exact Hsh|].
  pose proof Hsh as (_ & S1 & S2). apply peek_denotes; auto; [congruence|congruence|].
  intros i j Hij. apply (same_shape_inb m m') in Hij; auto. rewrite Hc by auto. unfold wrote, put. rewrite kept_clean by auto.
  rewrite (denotes_peek m R C f r c Hd Hb).
  destruct ((i =? r) && (j =? c)); [reflexivity|]. eapply denotes_peek; eauto.
Qed.

(** an operation that returns a value and has no effect on the arguments *)
Lemma reach_drop {A} w (x : M N A) k w' a : reachable w -> allowed w k -> perform k = drop x -> x w = (w', Ok a) -> reachable w'.
Proof.
  intros Hr Ha Hp E. replace w' with (after k w); [apply reach_call; auto|].
  unfold after. rewrite Hp. unfold drop, mbind. rewrite E. reflexivity.
Qed.

Lemma step_Copy w p m : sane N -> reachable w -> obj w p m ->
  exists w' q, p_Copy p w = (w', Ok q) /\ reachable w' /\ (forall x, ~ obj w q x) /\ extends w w' /\ obj w' q m.
Proof.
  intros Hs Hr Ho. pose proof (sane_wfw w Hs Hr _ _ Ho) as Hw. pose proof (p_Copy_ok p w m Ho Hw) as E.
  exists (ext w m), (length (w_heap w)). split; [exact E|]. split; [eapply (reach_drop w (p_Copy p) (KCopy p)); eauto; exact Logic.I|].
  split; [intros x Hx; apply obj_lt in Hx; lia|]. split; [apply extends_ext|apply obj_ext_new].
Qed.

Lemma step_Transpose E w (s : ptr) S R C f : sane N -> reachable w -> obj w s S -> not_sparse_vector S -> denotes S R C f ->
  R * C <= Z.of_nat (e_fuel E) -> (is_vector S -> R < 2 ^ 63) ->
  exists w' t O', m_Transpose E s w = (w', Ok t) /\ reachable w' /\ (forall x, ~ obj w t x) /\ extends w w' /\ obj w' t O' /\
    (is_sparse_matrix S -> same_storage S O') /\ (is_dense S -> exists d, O' = MDM d) /\ denotes O' C R (fun i j => f j i).
Proof.
  intros Hs Hr H1 Ps Ds Hfu Hv. pose proof (sane_wfw w Hs Hr) as Hw.
  assert (Hf : mat_Values S <= Z.of_nat (e_fuel E)) by (pose proof (values_bound w s S R C f Hs Hr H1 Ps Ds); lia).
  destruct (m_Transpose_run E w s S R C f (proj1 Hs) Hw H1 Ps Ds Hf Hv) as (w1 & t1 & O1 & He1 & Hfr & Hx & Ho1 & Wo1 & K1 & K2 & Hd1).
  exists w1, t1, O1. split; [exact He1|]. split.
  { eapply (reach_drop w (m_Transpose E s) (KMTranspose E s)); eauto. cbn. intros so Hso. rewrite (obj_inj _ _ _ _ Hso H1) in *.
    destruct S; try contradiction; auto. destruct Ds as (SR & _). rewrite SR. apply Hv. exact I. }
  split; [exact Hfr|]. split; [exact Hx|]. split; [exact Ho1|]. split; [|split; [|exact Hd1]].
  - intros K. specialize (K1 K). destruct S, O1; simpl in *; try contradiction; try discriminate; exact Logic.I.
  - intros K. specialize (K2 K). destruct O1; simpl in K2; try discriminate; eauto.
Qed.

Lemma step_Negative E w (s : ptr) S R C f : sane N -> reachable w -> obj w s S -> not_sparse_vector S -> denotes S R C f ->
  R * C <= Z.of_nat (e_fuel E) ->
  exists w' t O', m_Negative E s w = (w', Ok t) /\ reachable w' /\ (forall x, ~ obj w t x) /\ extends w w' /\ obj w' t O' /\
    same_storage S O' /\ denotes O' R C (fun i j => if sparse_obj S && neqb (f i j) n0 then n0 else nneg (f i j)).
Proof.
  intros Hs Hr H1 Ps Ds Hfu.
  assert (Hf : mat_Values S <= Z.of_nat (e_fuel E)) by (pose proof (values_bound w s S R C f Hs Hr H1 Ps Ds); lia).
  destruct (neg_method E w s S R C f Hs Hr H1 Ds Hf) as (w1 & t1 & O1 & He1 & Hfr & Hx & Ho1 & K1 & Hd1).
  exists w1, t1, O1. split; [exact He1|]. split.
  { eapply (reach_drop w (m_Negative E s) (KMNegative E s)); eauto. exact Logic.I. }
  tauto.
Qed.

(** ** Symmetric and SkewSymmetric *)

(** storage of which the symmetry tests are exact: dense storage (not in the
    registry of sparse types) or a sparse matrix *)
Definition comparable (E : env) (m : mat) : Prop :=
  (is_dense m /\ forall d : mat, is_dense d -> IsSparseMatrix (e_reg E) d = false) \/ is_sparse_matrix m.

Lemma symmetric_exact E w (s : ptr) S R C f : sane N -> cmp_ok N -> reachable w -> obj w s S -> comparable E S -> denotes S R C f ->
  R * C <= Z.of_nat (e_fuel E) -> (is_vector S -> R < 2 ^ 63) ->
  exists w' b, Symmetric E s w = (w', Ok b) /\ extends w w' /\
    (b = true <-> R = C /\ forall i j, 0 <= i < R -> 0 <= j < C -> neqb (f i j) (f j i) = true).
Proof.
  intros Hs Hc Hr Ho Hk Hd Hf Hv. pose proof Hd as (ER & EC & _). unfold Symmetric.
  rewrite (mbind_ok _ _ _ _ _ (p_Rows_ok _ _ _ Ho)), (mbind_ok _ _ _ _ _ (p_Columns_ok _ _ _ Ho)), ER, EC.
  destruct (R =? C) eqn:E1; cbn [negb].
  2:{ exists w, false. split; [reflexivity|]. split; [apply extends_refl|]. split; [discriminate|]. intros [-> _]. lia. }
  apply Z.eqb_eq in E1. clear ER EC. subst C.
  assert (Ps : not_sparse_vector S) by (destruct S, Hk as [[? _]|?]; simpl in *; tauto).
  destruct (step_Transpose E w s S R R f Hs Hr Ho Ps Hd Hf Hv) as (w1 & t & O1 & He & Hr1 & Hfr & Hx & Ho1 & K1 & K2 & Hd1).
  rewrite (mbind_ok _ _ _ _ _ He).
  assert (Pt : not_sparse_vector O1).
  { destruct Hk as [[Hk _]|Hk]; [destruct (K2 Hk) as [d ->]; exact Logic.I|eapply same_storage_nsv; eauto]. }
  assert (Hcl : is_dense O1 /\ is_dense S /\ IsSparseMatrix (e_reg (bg E)) O1 = false /\ IsSparseMatrix (e_reg (bg E)) S = false \/
                is_sparse_matrix O1 /\ is_sparse_matrix S /\ IsSparseMatrix (e_reg (bg E)) O1 = IsSparseMatrix (e_reg (bg E)) S).
  { destruct Hk as [[Hk Hreg]|Hk].
    - destruct (K2 Hk) as [d ->]. left. repeat split; auto; apply Hreg; auto; exact Logic.I.
    - right. pose proof (K1 Hk) as Ks. split; [destruct S, O1; simpl in *; tauto|]. split; [exact Hk|]. symmetry. apply same_storage_name. exact Ks. }
  destruct (equal_same (bg E) w1 t s O1 S R R R R (fun i j => f j i) f Hs Hc Hr1 Ho1 (Hx _ _ Ho) Hd1 Hd Hcl) as (w2 & b & He2 & Hh & Hb).
  { pose proof (values_bound w1 t O1 R R _ Hs Hr1 Ho1 Pt Hd1). cbn. lia. }
  { pose proof (values_bound w s S R R _ Hs Hr Ho Ps Hd). cbn. lia. }
  { reflexivity. }
  exists w2, b. split; [exact He2|]. split.
  { intros p x Hp. unfold obj. rewrite Hh. apply Hx. exact Hp. }
  rewrite Hb. split.
  - intros (_ & _ & H). split; [reflexivity|]. intros i j Hi Hj. apply H; auto.
  - intros (_ & H). do 2 (split; [reflexivity|]). intros i j Hi Hj. apply H; auto.
Qed.

Lemma skew_exact E w (s : ptr) S R C f : sane N -> cmp_ok N -> neg_zero N -> reachable w -> obj w s S -> comparable E S -> denotes S R C f ->
  R * C <= Z.of_nat (e_fuel E) -> (is_vector S -> R < 2 ^ 63) ->
  exists w' b, SkewSymmetric E s w = (w', Ok b) /\ extends w w' /\
    (b = true <-> R = C /\ forall i j, 0 <= i < R -> 0 <= j < C -> neqb (nneg (f i j)) (f j i) = true).
Proof.
  intros Hs Hc Hnz Hr Ho Hk Hd Hf Hv. pose proof Hd as (ER & EC & _). unfold SkewSymmetric.
  rewrite (mbind_ok _ _ _ _ _ (p_Rows_ok _ _ _ Ho)), (mbind_ok _ _ _ _ _ (p_Columns_ok _ _ _ Ho)), ER, EC.
  destruct (R =? C) eqn:E1; cbn [negb].
  2:{ exists w, false. split; [reflexivity|]. split; [apply extends_refl|]. split; [discriminate|]. intros [-> _]. lia. }
  apply Z.eqb_eq in E1. clear ER EC. subst C.
  assert (Ps : not_sparse_vector S) by (destruct S, Hk as [[? _]|?]; simpl in *; tauto).
  destruct (step_Negative E w s S R R f Hs Hr Ho Ps Hd Hf) as (w0 & n & O0 & He0 & Hr0 & Hfr0 & Hx0 & Ho0 & K0 & Hd0).
  rewrite (mbind_ok _ _ _ _ _ He0).
  assert (P0 : not_sparse_vector O0) by (eapply same_storage_nsv; eauto).
  destruct (step_Transpose E w0 n O0 R R _ Hs Hr0 Ho0 P0 Hd0 Hf) as (w1 & t & O1 & He & Hr1 & Hfr & Hx & Ho1 & K1 & K2 & Hd1).
  { intros Hvv. apply Hv. destruct S, O0; simpl in *; tauto. }
  rewrite (mbind_ok _ _ _ _ _ He).
  assert (Pt : not_sparse_vector O1).
  { destruct Hk as [[Hk _]|Hk].
    - destruct (K2 ltac:(destruct S, O0; simpl in *; tauto)) as [d ->]; exact Logic.I.
    - eapply same_storage_nsv; [apply K1; destruct S, O0; simpl in *; tauto|exact P0]. }
  assert (Hcl : is_dense O1 /\ is_dense S /\ IsSparseMatrix (e_reg (bg E)) O1 = false /\ IsSparseMatrix (e_reg (bg E)) S = false \/
                is_sparse_matrix O1 /\ is_sparse_matrix S /\ IsSparseMatrix (e_reg (bg E)) O1 = IsSparseMatrix (e_reg (bg E)) S).
  { destruct Hk as [[Hk Hreg]|Hk].
    - destruct (K2 ltac:(destruct S, O0; simpl in *; tauto)) as [d ->]. left. repeat split; auto; apply Hreg; auto; exact Logic.I.
    - right. assert (Ks : same_storage S O1).
      { eapply same_storage_trans; [exact K0|]. apply K1. destruct S, O0; simpl in *; tauto. }
      split; [destruct S, O1; simpl in *; tauto|]. split; [exact Hk|]. symmetry. apply same_storage_name. exact Ks. }
  destruct (equal_same (bg E) w1 t s O1 S R R R R _ f Hs Hc Hr1 Ho1 (Hx _ _ (Hx0 _ _ Ho)) Hd1 Hd Hcl) as (w2 & b & He2 & Hh & Hb).
  { pose proof (values_bound w1 t O1 R R _ Hs Hr1 Ho1 Pt Hd1). cbn. lia. }
  { pose proof (values_bound w s S R R _ Hs Hr Ho Ps Hd). cbn. lia. }
  { reflexivity. }
  exists w2, b. split; [exact He2|]. split.
  { intros p x Hp. unfold obj. rewrite Hh. apply Hx, Hx0. exact Hp. }
  assert (Hcell : forall i j, neqb (if sparse_obj S && neqb (f j i) n0 then n0 else nneg (f j i)) (f i j) = neqb (nneg (f j i)) (f i j)).
  { intros i j. destruct (sparse_obj S); [|reflexivity]. cbn [andb]. destruct (neqb (f j i) n0) eqn:Ez; [|reflexivity]. symmetry. apply Hnz. exact Ez. }
  rewrite Hb. split.
  - intros (_ & _ & H). split; [reflexivity|]. intros i j Hi Hj. rewrite <- Hcell. apply H; auto.
  - intros (_ & H). do 2 (split; [reflexivity|]). intros i j Hi Hj. cbn beta. rewrite Hcell. apply H; auto.
Qed.
End Steps.
