(** Column-wise reduction of a sparse vector: its one column is a copy of it, and the stored
    elements are combined as the iterator shows them. *)
From Verif Require Import GoBase Num SparseVec Csr Csc DenseVec DenseMat Mat World Ops Api.
From Verif Require Import BaseProofs CsrProofs SvProofs DenseProofs MatProofs Spec HeapProofs ReachProofs StoreProofs VecProofs StoreThms OpsProofs OpsThms EwThms EqThms OpsProps ReduceConc ReduceProofs ReduceVec.

Section ReduceSv.
Context {N : num}.
Notation V := (T N).
Notation mat := (mat N).
Notation world := (world N).
Implicit Types w : world.
Implicit Types m : mat.

Lemma reduce_sparse_vector E w (s : ptr) a mo g k L : sane N -> reachable w -> obj w s (MSV a) -> enumerates (MSV a) L ->
  mask_dims w k (mat_Rows (MSV a)) 1 -> (forall x y, mo_op mo x y = Ok (g x y)) ->
  e_ctx E = None -> mat_Values (MSV a) <= Z.of_nat (e_fuel E) ->
  exists w' q v, ReduceMatrixToVectorWithMonoID E s mo k w = (w', Ok q) /\ extends w w' /\ ~ (exists x, obj w q x) /\ obj w' q v /\
    is_dense v /\ vdenotes v 1 (fun _ => fold_left g (uncovered (covers w k) L) (mo_unit mo)).
Proof.
  intros Hsn Hr Ho He Hk Hop Hc Hf. pose proof (sane_wfw w Hsn Hr) as Hw. destruct Hsn as [Hz Hn].
  pose proof (Hw _ _ Ho) as Hwf. destruct Hwf as (l & ents & Ea & Hl).
  unfold ReduceMatrixToVectorWithMonoID. rewrite (mbind_ok _ _ _ _ _ (p_Columns_ok _ _ _ Ho)).
  cbn [mat_Columns]. unfold sv_Columns. rewrite newDenseVector_spec by lia. rewrite mbind_lift, (mbind_ok _ _ _ _ _ (alloc_ok _ _)).
  set (q := length (w_heap w)). set (F := fold_left g (uncovered (covers w k) L) (mo_unit mo)).
  set (w1 := ext w (MDV (mk_dv 1 (fun _ => n0)))). set (w2 := ext w1 (MSV a)).
  assert (X1 : extends w w1) by apply extends_ext. assert (X2 : extends w w2) by (eapply extends_trans; [exact X1|apply extends_ext]).
  assert (W1 : wfw w1) by (apply wfw_ext; [exact Hw|eexists _, _; split; [reflexivity|lia]]).
  assert (W2 : wfw w2) by (apply wfw_ext; [exact W1|exact (Hw _ _ Ho)]).
  assert (Hq : obj w2 q (MDV (mk_dv 1 (fun _ => n0)))) by (apply obj_ext_old; apply obj_ext_new).
  assert (Hu : uncovered (covers w2 k) L = uncovered (covers w k) L).
  { unfold uncovered. f_equal. apply filter_ext. intros e. f_equal. apply covers_extends; [eapply mask_dims_wf; eauto|exact X2]. }
  assert (Hcol : mat_ColumnsAt (MSV a) 0 = Ok (MSV a)) by (cbn [mat_ColumnsAt]; unfold sv_ColumnsAt; rewrite Ea, sv_copy_mk; reflexivity).
  exists (upd w2 q (MDV (mk_dv 1 (upd1 (fun _ => n0) 0 F)))), q, (MDV (mk_dv 1 (upd1 (fun _ => n0) 0 F))).
  split; [|split; [|split; [|split; [|split]]]].
  - change (zrange 0 1) with [0]. cbn [for_list].
    assert (B : (let! v := p_ColumnsAt s 0 in let! scaler := ReduceMatrixToScalarWithMonoID E v mo k in
                 p_SetVec q 0 scaler ;!; mret (@None unit)) w1 = (upd w2 q (MDV (mk_dv 1 (upd1 (fun _ => n0) 0 F))), Ok None)).
    { unfold p_ColumnsAt. unfold mbind at 1. rewrite (load_lift _ _ _ (fun m => mat_ColumnsAt m 0) _ _ (X1 _ _ Ho) Hcol), alloc_ok.
      cbv iota. unfold mbind at 1. fold w2.
      rewrite (reduce_value_wf E w2 (length (w_heap w1)) (MSV a) mo k L Hz W2 (obj_ext_new w1 (MSV a)) ltac:(eapply mask_dims_extends; eauto) He Hc Hf).
      rewrite (fold_res_total (mo_op mo) g Hop), Hu. cbv iota. unfold mbind at 1. unfold p_SetVec. fold F.
      rewrite (load_lift _ _ _ (fun m => mat_SetVec m 0 _) _ _ Hq (f_equal (rmap MDV) (dv_SetVec_spec 1 _ 0 F ltac:(lia)))).
      cbn [rmap rbind]. rewrite store_ok. reflexivity. }
    fold q. unfold mbind at 1. unfold mbind at 1. rewrite B. reflexivity.
  - intros p x Hx. pose proof (obj_lt _ _ _ Hx). apply obj_upd_neq; [unfold q; lia|]. apply X2; exact Hx.
  - intros [x Hx]. apply obj_lt in Hx. unfold q in Hx. lia.
  - eapply obj_upd_eq. exact Hq.
  - exact I.
  - destruct (vdenotes_dv 1 (upd1 (fun _ => n0) 0 F) ltac:(lia)) as (A & B & D). split; [exact A|]. split; [exact B|].
    intros i Hi. rewrite D by auto. unfold upd1. replace (i =? 0) with true by lia. reflexivity.
Qed.

(** the maximum of the stored elements and of zero *)
Lemma reduce_sparse_vector_maximum E w (s : ptr) a L : sane N -> order_ok N -> reachable w -> obj w s (MSV a) -> enumerates (MSV a) L ->
  e_ctx E = None -> mat_Values (MSV a) <= Z.of_nat (e_fuel E) ->
  exists w' q v g, ReduceMatrixToVector E s w = (w', Ok q) /\ extends w w' /\ ~ (exists x, obj w q x) /\ obj w' q v /\ vdenotes v 1 (fun _ => g) /\
    (forall r c x, In (r, c, x) L -> nltb g x = false) /\ nltb g n0 = false /\ (g = n0 \/ exists r c, In (r, c, g) L).
Proof.
  intros Hsn Hord Hr Ho He Hc Hf. unfold ReduceMatrixToVector.
  destruct (reduce_sparse_vector E w s a DefaultMonoIDMaximum gmax MNil L Hsn Hr Ho He Logic.I (fun a b => eq_refl) Hc Hf)
    as (w' & q & v & H1 & H2 & H3 & H4 & _ & H5).
  exists w', q, v. eexists. split; [exact H1|]. split; [exact H2|]. split; [exact H3|]. split; [exact H4|]. split; [exact H5|].
  cbn [covers]. rewrite uncovered_none.
  destruct (fold_gmax (map snd L) Hord (mo_unit DefaultMonoIDMaximum)) as (A & B & D). cbn [DefaultMonoIDMaximum mo_unit] in *.
  split; [intros r c x Hx; apply B; apply in_map_iff; exists (r, c, x); auto|]. split; [exact A|].
  destruct D as [D|D]; [left; exact D|]. right. apply in_map_iff in D as ([[r c] x] & E1 & E2). cbn in E1. subst x. exists r, c. exact E2.
Qed.
End ReduceSv.
