(** Column-wise reduction. *)
From Verif Require Import GoBase Num SparseVec Csr Csc DenseVec DenseMat Mat World Ops Api.
From Verif Require Import BaseProofs CsrProofs SvProofs DenseProofs MatProofs Spec HeapProofs ReachProofs StoreProofs VecProofs StoreThms OpsProofs OpsThms EwThms EqThms OpsProps ReduceConc ReduceProofs.

Section ReduceVec.
Context {N : num}.
Notation V := (T N).
Notation mat := (mat N).
Notation world := (world N).
Implicit Types w : world.
Implicit Types m : mat.

Lemma covers_extends k w w' r c : mask_wf w k -> extends w w' -> covers w' k r c = covers w k r c.
Proof.
  destruct k; simpl; auto. intros (x & Hx & Hw) He. pose proof (He _ _ Hx) as Hx'.
  unfold obj in *. rewrite Hx, Hx'. reflexivity.
Qed.
Lemma mask_dims_extends k w w' R C : mask_dims w k R C -> extends w w' -> mask_dims w' k R C.
Proof. destruct k; simpl; auto. intros (x & Hx & Hw) He. exists x. split; auto. Qed.

Lemma filter_all {A} (l : list A) : filter (fun _ => true) l = l.
Proof. induction l; simpl; congruence. Qed.

Lemma filter_len {A} (g : A -> bool) l : (length (filter g l) <= length l)%nat.
Proof. induction l as [|a l IH]; simpl; [lia|]. destruct (g a); simpl; lia. Qed.

Lemma column_enum m R C f c : zero_ok N -> wf m -> not_sparse_vector m -> denotes m R C f -> 0 <= c < C ->
  exists cv, mat_ColumnsAt m c = Ok cv /\ wf cv /\ mat_Rows cv = R /\ mat_Columns cv = 1 /\ mat_Values cv <= R /\
    enumerates cv (column_elements m R (fun r => f r c)).
Proof.
  intros Hz Hw Hp Hd Hc. pose proof Hd as (ER & EC & _). pose proof (wf_dims m Hw) as [HR _]. rewrite ER in HR.
  assert (Hg : good m) by (split; [auto|destruct m; try contradiction; discriminate]).
  destruct (is_sp m) eqn:Es.
  - destruct (ColumnsAt_ascending m R C f c Hz Hg Es Hd Hc) as (v & E & A1 & A2 & A3 & A4 & _).
    exists v. split; [exact E|]. split; [eapply ColumnsAt_any; eauto|]. split; [exact A1|]. split; [exact A2|].
    split.
    + rewrite A3. unfold nonzeros. rewrite zlen_map. etransitivity; [unfold zlen; apply inj_le, filter_len|].
      fold (zlen (zrange 0 R)). rewrite ?zlen_zrange by lia. lia.
    + intros fuel Hf. rewrite A4 by lia. unfold nonzeros, column_elements. do 3 f_equal.
      destruct m; simpl in Es, Hp; try discriminate; try contradiction; reflexivity.
  - exists (MDV (mk_dv R (fun r => peek m r c))). split.
    { rewrite ColumnsAt_dense by (auto; lia). rewrite ER. reflexivity. }
    split; [eexists _, _; eauto|]. do 2 (split; [reflexivity|]).
    assert (He : entries (MDV (mk_dv R (fun r => peek m r c))) = column_elements m R (fun r => f r c)).
    { rewrite entries_dv by auto. unfold column_elements.
      replace (filter _ _) with (zrange 0 R).
      2:{ rewrite <- (filter_all (zrange 0 R)) at 1. apply filter_ext. intros i. destruct m; simpl in Es; try discriminate; reflexivity. }
      apply map_ext_in. intros i Hi. apply in_zrange in Hi. rewrite (denotes_peek m R C f i c Hd) by (unfold inb; lia). reflexivity. }
    assert (Hwf : wf (MDV (mk_dv R (fun r => peek m r c)))) by (eexists _, _; eauto).
    split.
    + rewrite <- zlen_entries, entries_dv, zlen_map, zlen_zrange by auto. lia.
    + intros fuel Hf. rewrite loop_Next_ok by auto. rewrite He. reflexivity.
Qed.

(** the fold of a total operator *)
Lemma fold_res_total (op : V -> V -> res V) (g : V -> V -> V) : (forall a b, op a b = Ok (g a b)) ->
  forall l acc, fold_res op acc l = Ok (fold_left g l acc).
Proof. intros H. induction l as [|v l IH]; intros acc; simpl; [reflexivity|]. rewrite H. simpl. apply IH. Qed.

Lemma reduce_columns E w (s : ptr) m mo g k R C f : sane N -> reachable w -> obj w s m -> not_sparse_vector m ->
  denotes m R C f -> mask_dims w k R 1 -> (forall a b, mo_op mo a b = Ok (g a b)) ->
  e_ctx E = None -> R <= Z.of_nat (e_fuel E) ->
  exists w' q v, ReduceMatrixToVectorWithMonoID E s mo k w = (w', Ok q) /\ extends w w' /\ ~ (exists x, obj w q x) /\ obj w' q v /\
    is_dense v /\ vdenotes v C (fun c => fold_left g (uncovered (covers w k) (column_elements m R (fun r => f r c))) (mo_unit mo)).
Proof.
  intros Hsn Hr Ho Hp Hd Hk Hop Hc Hf. pose proof (sane_wfw w Hsn Hr) as Hw. destruct Hsn as [Hz Hn].
  pose proof Hd as (ER & EC & _). pose proof (wf_dims m (Hw _ _ Ho)) as [HR HC]. rewrite ER in HR. rewrite EC in HC.
  unfold ReduceMatrixToVectorWithMonoID. rewrite (mbind_ok _ _ _ _ _ (p_Columns_ok _ _ _ Ho)), EC.
  rewrite newDenseVector_spec by auto. rewrite mbind_lift, (mbind_ok _ _ _ _ _ (alloc_ok _ _)).
  set (q := length (w_heap w)). set (F := fun c => fold_left g (uncovered (covers w k) (column_elements m R (fun r => f r c))) (mo_unit mo)).
  assert (Hmw : mask_wf w k) by (eapply mask_dims_wf; eauto).
  pose (Inv := fun (done : list Z) (w1 : world) => wfw w1 /\ extends w w1 /\
    exists h, obj w1 q (MDV (mk_dv C h)) /\ forall i, In i done -> h i = F i).
  destruct (for_list_inv (R := unit) (zrange 0 C) (fun c =>
    let! v := p_ColumnsAt s c in
    let! scaler := ReduceMatrixToScalarWithMonoID E v mo k in
    p_SetVec q c scaler ;!; mret None) Inv (fun _ _ _ _ => False)) with (w := ext w (MDV (mk_dv C (fun _ => n0)))) as (w' & o & Hfor & Ho').
  - intros done c rest w1 El (I1 & I2 & h & I3 & I4).
    assert (Hc' : 0 <= c < C). { apply in_zrange. rewrite El. apply in_app_iff. right. left. reflexivity. }
    destruct (column_enum m R C f c Hz (Hw _ _ Ho) Hp Hd Hc') as (cv & E1 & E2 & E3 & E4 & E5 & E6).
    set (w2 := ext w1 cv).
    assert (X2 : extends w w2) by (eapply extends_trans; [exact I2|apply extends_ext]).
    assert (Hq2 : obj w2 q (MDV (mk_dv C h))) by (apply obj_ext_old; exact I3).
    exists (upd w2 q (MDV (mk_dv C (upd1 h c (F c))))), None. split.
    + unfold p_ColumnsAt. unfold mbind at 1. rewrite (load_lift _ _ _ (fun m => mat_ColumnsAt m c) _ _ (I2 _ _ Ho) E1), alloc_ok.
      cbv iota. unfold mbind at 1. fold w2.
      rewrite (reduce_value_wf E w2 (length (w_heap w1)) cv mo k (column_elements m R (fun r => f r c)) Hz (wfw_ext _ _ I1 E2)
        (obj_ext_new w1 cv) ltac:(rewrite E3, E4; eapply mask_dims_extends; eauto) E6 Hc ltac:(lia)).
      rewrite (fold_res_total (mo_op mo) g Hop). cbv iota. unfold mbind at 1. unfold p_SetVec.
      rewrite (load_lift _ _ _ (fun m => mat_SetVec m c _) _ _ Hq2 (f_equal (rmap MDV) (dv_SetVec_spec C h c _ Hc'))).
      cbn [rmap rbind]. rewrite store_ok. unfold mret.
      assert (Hu : forall l : list (Z * Z * V), uncovered (covers w2 k) l = uncovered (covers w k) l);
        [|rewrite Hu; reflexivity].
      intros l. unfold uncovered. f_equal. apply filter_ext. intros e. f_equal. apply covers_extends; auto.
    + split; [|split].
      * apply wfw_upd; [apply wfw_ext; auto|]. eexists _, _; eauto.
      * intros p x Hx. pose proof (obj_lt _ _ _ Hx). apply obj_upd_neq; [unfold q; lia|]. apply X2; exact Hx.
      * eexists. split; [eapply obj_upd_eq; exact Hq2|]. intros i Hi. unfold upd1.
        destruct (i =? c) eqn:Ei; [apply Z.eqb_eq in Ei; subst; reflexivity|].
        apply I4. apply in_app_iff in Hi as [Hi|[->|[]]]; [exact Hi|lia].
  - split; [apply wfw_ext; [auto|eexists _, _; eauto]|]. split; [apply extends_ext|]. eexists. split; [apply obj_ext_new|]. intros i [].
  - destruct Ho' as [(-> & I1 & I2 & h & I3 & I4)|(d & i & r & x & _ & _ & [])].
    exists w', q, (MDV (mk_dv C h)). split; [rewrite (mbind_ok _ _ _ _ _ Hfor); reflexivity|]. split; [exact I2|].
    split; [intros [x Hx]; apply obj_lt in Hx; unfold q in Hx; lia|]. split; [exact I3|]. split; [exact Logic.I|].
    destruct (vdenotes_dv C h HC) as (A & B & D). split; [exact A|]. split; [exact B|]. intros i Hi.
    rewrite D by auto. rewrite I4; [reflexivity|]. apply in_zrange. exact Hi.
Qed.

(** ** The maximum *)
Definition gmax (x y : V) : V := if ngtb x y then x else y.

Lemma fold_gmax l : order_ok N -> forall acc,
  nltb (fold_left gmax l acc) acc = false /\ (forall v, In v l -> nltb (fold_left gmax l acc) v = false) /\
  (fold_left gmax l acc = acc \/ In (fold_left gmax l acc) l).
Proof.
  intros (O1 & O2 & O3). assert (O0 : forall x : V, nltb x x = false).
  { intros x. destruct (nltb x x) eqn:E; [|reflexivity]. rewrite <- E. apply O1. exact E. }
  induction l as [|v l IH]; intros acc; cbn [fold_left].
  - split; [apply O0|]. split; [intros v []|left; reflexivity].
  - destruct (IH (gmax acc v)) as (A & B & D).
    assert (G1 : nltb (gmax acc v) acc = false).
    { unfold gmax, ngtb. destruct (nltb v acc) eqn:E; auto. }
    assert (G2 : nltb (gmax acc v) v = false).
    { unfold gmax, ngtb. destruct (nltb v acc) eqn:E; auto. }
    split; [eapply O2; eauto|]. split.
    + intros x [->|Hx]; [eapply O2; eauto|auto].
    + destruct D as [D|D]; [|right; right; exact D]. rewrite D. unfold gmax. destruct (ngtb acc v); [left; reflexivity|right; left; reflexivity].
Qed.

Lemma uncovered_none l : uncovered (fun _ _ => false) l = map (@snd (Z * Z) V) l.
Proof. unfold uncovered. f_equal. apply (filter_all l). Qed.

(** the maximum of the column and of zero *)
Lemma reduce_maximum E w (s : ptr) m R C f : sane N -> eq_ok N -> order_ok N -> reachable w -> obj w s m -> not_sparse_vector m ->
  denotes m R C f -> e_ctx E = None -> R <= Z.of_nat (e_fuel E) ->
  exists w' q v g, ReduceMatrixToVector E s w = (w', Ok q) /\ extends w w' /\ ~ (exists x, obj w q x) /\ obj w' q v /\ vdenotes v C g /\
    forall c, 0 <= c < C ->
      (forall r, 0 <= r < R -> nltb (g c) (f r c) = false) /\ nltb (g c) n0 = false /\
      (g c = n0 \/ exists r, 0 <= r < R /\ g c = f r c) /\
      ((exists r, 0 <= r < R /\ nltb (f r c) n0 = false) -> exists r, 0 <= r < R /\ g c = f r c).
Proof.
  intros Hsn Heq Hord Hr Ho Hp Hd Hc Hf. unfold ReduceMatrixToVector.
  destruct (reduce_columns E w s m DefaultMonoIDMaximum gmax MNil R C f Hsn Hr Ho Hp Hd Logic.I (fun a b => eq_refl) Hc Hf)
    as (w' & q & v & H1 & H2 & H3 & H4 & _ & H5).
  exists w', q, v. eexists. split; [exact H1|]. split; [exact H2|]. split; [exact H3|]. split; [exact H4|]. split; [exact H5|].
  intros c Hc'. cbn [covers]. rewrite uncovered_none.
  destruct (fold_gmax (map snd (column_elements m R (fun r => f r c))) Hord (mo_unit DefaultMonoIDMaximum)) as (A & B & D).
  set (G := fold_left gmax _ _) in *. cbn [DefaultMonoIDMaximum mo_unit] in A, B, D.
  assert (Hin : forall x, In x (map snd (column_elements m R (fun r => f r c))) <-> exists r, 0 <= r < R /\ stored m (f r c) = true /\ x = f r c).
  { intros x. unfold column_elements. rewrite map_map. cbn [snd]. rewrite in_map_iff. split.
    - intros (r & <- & Hx). apply filter_In in Hx as [Hx Hy]. apply in_zrange in Hx. eauto.
    - intros (r & Hx & Hy & ->). exists r. split; [reflexivity|]. apply filter_In. split; [apply in_zrange|]; auto. }
  destruct Hord as (O1 & O2 & O3).
  assert (Hge : forall r, 0 <= r < R -> nltb G (f r c) = false).
  { intros r Hr'. destruct (stored m (f r c)) eqn:Es; [apply B, Hin; eauto|].
    assert (f r c = n0) as ->; [|exact A]. destruct m; simpl in Es; try discriminate; apply Heq; destruct (neqb (f r c) n0); auto; discriminate. }
  assert (Hat : G = n0 \/ exists r, 0 <= r < R /\ G = f r c).
  { destruct D as [D|D]; [left; exact D|right]. apply Hin in D as (r & X & _ & Y). eauto. }
  split; [exact Hge|]. split; [exact A|]. split; [exact Hat|].
  intros (r & X & Y). destruct Hat as [Hat|Hat]; [|exact Hat]. exists r. split; [exact X|].
  rewrite Hat. apply O3; [|exact Y]. rewrite <- Hat. apply Hge. exact X.
Qed.
End ReduceVec.
