(** Vectors: histories of operations, sparse vectors filled in ascending order. *)
From Coq Require Import String Sorting.Sorted Permutation.
From Verif Require Import GoBase Num SparseVec Csr Csc DenseVec DenseMat Mat World Ops.
From Verif Require Import BaseProofs AssocProofs CsrProofs SvProofs CsrIterProofs CscProofs DenseProofs MatProofs.
From Verif Require Import Spec HeapProofs Api ReachProofs StoreProofs.

Section Vec.
Context {N : num}.
Notation V := (T N).
Notation mat := (mat N).
Notation world := (world N).
Notation row := (list (Z * V)).
Implicit Types w : world.
Implicit Types m : mat.

(** ** Dense vectors *)

Lemma dv_do_vop L (o : @vop N) (f g : Z -> V) : 0 <= L -> (forall i, 0 <= i < L -> f i = g i) ->
  let '(m', x) := do_vop (MDV (mk_dv L f)) o in
  let '(g', y) := map_vop exactly false L g o in
  x = y /\ exists f', m' = MDV (mk_dv L f') /\ (forall i, 0 <= i < L -> f' i = g' i).
Proof.
  intros HL Hg. unfold map_vop.
  destruct o as [i v|i|r c v|r c h|r c|r c|];
    cbn [do_vop do_op mat_Set mat_Update mat_At mat_Element mat_Clear mat_SetVec mat_AtVec negb orb].
  - destruct ((0 <=? i) && (i <? L)) eqn:E.
    + rewrite dv_SetVec_spec by lia. cbn. split; [reflexivity|]. eexists; split; [reflexivity|].
      intros j Hj. unfold upd1, vwrote, exactly. destruct (j =? i); auto.
    + rewrite dv_SetVec_panic by lia. cbn. eauto.
  - destruct ((0 <=? i) && (i <? L)) eqn:E.
    + rewrite dv_AtVec_spec by lia. cbn. rewrite Hg by lia. eauto.
    + rewrite dv_AtVec_panic by lia. cbn. eauto.
  - destruct ((0 <=? r) && (r <? L) && (c =? 0)) eqn:E.
    + replace c with 0 by lia. rewrite dv_Set_spec by lia. cbn. split; [reflexivity|]. eexists; split; [reflexivity|].
      intros j Hj. unfold upd1, vwrote, exactly. destruct (j =? r); auto.
    + rewrite dv_Set_panic by lia. cbn. eauto.
  - destruct ((0 <=? r) && (r <? L) && (c =? 0)) eqn:E.
    + replace c with 0 by lia. rewrite dv_Update_spec by lia. cbn. split; [reflexivity|]. eexists; split; [reflexivity|].
      intros j Hj. unfold upd1, vwrote, exactly. rewrite (Hg r) by lia. destruct (j =? r); auto.
    + rewrite dv_Update_panic by lia. cbn. eauto.
  - rewrite andb_true_r. unfold dv_At. destruct ((0 <=? r) && (r <? L)) eqn:E.
    + rewrite dv_AtVec_spec by lia. cbn. rewrite Hg by lia. eauto.
    + rewrite dv_AtVec_panic by lia. cbn. eauto.
  - unfold dv_Element. destruct ((0 <=? r) && (r <? L)) eqn:E.
    + rewrite dv_AtVec_spec by lia. cbn. rewrite Hg by lia. eauto.
    + rewrite dv_AtVec_panic by lia. cbn. eauto.
  - rewrite dv_Clear_spec by auto. cbn. split; [reflexivity|]. eexists; split; reflexivity.
Qed.

Lemma dv_behaves L (f : Z -> V) : 0 <= L ->
  vbehaves_as_map (MDV (mk_dv L f)) exactly false L f (fun _ => True).
Proof.
  intros HL os _.
  assert (H : forall f g : Z -> V, (forall i, 0 <= i < L -> f i = g i) ->
    let '(m, outs) := do_vops (MDV (mk_dv L f)) os in
    let '(g', outs') := map_vops exactly false L g os in outs = outs' /\ vdenotes m L g').
  { clear f. induction os as [|o os IH]; intros f g Hg; cbn [do_vops map_vops].
    - split; [reflexivity|]. do 2 (split; [reflexivity|]). intros i Hi. cbn [mat_AtVec].
      rewrite dv_AtVec_spec, Hg by auto. reflexivity.
    - pose proof (dv_do_vop L o f g HL Hg) as H1. destruct (do_vop _ o) as [m1 x].
      destruct (map_vop exactly false L g o) as [g1 y]. destruct H1 as (-> & f1 & -> & Hg1).
      specialize (IH f1 g1 Hg1). destruct (do_vops _ os) as [m2 xs]. destruct (map_vops exactly false L g1 os) as [g2 ys].
      destruct IH as (-> & Hd). auto. }
  apply H. auto.
Qed.

Lemma dvec_map L : 0 <= L ->
  exists s : dvec N, newDenseVector L = Ok s /\
    vbehaves_as_map (MDV s) exactly false L (fun _ => n0) (fun _ => True).
Proof. intros HL. rewrite newDenseVector_spec by auto. eexists; split; [reflexivity|]. apply dv_behaves; auto. Qed.

Lemma dvec_from_array (d : list V) :
  exists s : dvec N, NewDenseVectorFromArray d = Ok s /\
    vbehaves_as_map (MDV s) exactly false (zlen d) (fun i => nth (Z.to_nat i) d n0) (fun _ => True).
Proof.
  unfold NewDenseVectorFromArray. rewrite newDenseVector_spec by apply zlen_nonneg. cbn [rbind mk_dv dv_l].
  eexists; split; [reflexivity|].
  replace (MkDV (zlen d) d) with (mk_dv (zlen d) (fun i => nth (Z.to_nat i) d n0))
    by (unfold mk_dv; rewrite <- (tab_of_list n0 d); reflexivity).
  apply dv_behaves, zlen_nonneg.
Qed.

(** ** Sparse vectors in ascending order *)

Lemma row_ok_aput l (ents : row) i x : row_ok l ents -> 0 <= i < l -> row_ok l (aput i x ents).
Proof.
  intros (H1 & H2 & H3) Hi. split; [apply aput_sorted; auto|]. split.
  - apply aput_Forall; auto.
  - apply aput_Forall; auto.
Qed.

Lemma zlen_row_nonzeros L (ents : row) f : zero_ok N -> row_ok L ents -> (forall i, 0 <= i < L -> aval i ents = f i) ->
  zlen ents = zlen (filter (fun i => negb (neqb (f i) n0)) (zrange 0 L)).
Proof.
  intros Hz H Hf. pose proof (row_nonzeros L ents f Hz H Hf) as E.
  apply (f_equal zlen) in E. unfold nonzeros in E. rewrite !zlen_map in E. exact E.
Qed.

Lemma sv_do_vop L (o : @vop N) (ents : row) (g : Z -> V) : zero_ok N -> 0 <= L -> row_ok L ents ->
  (forall i, 0 <= i < L -> aval i ents = g i) -> vop_index o <= zlen ents ->
  let '(m', x) := do_vop (MSV (mk_sv L ents)) o in
  let '(g', y) := map_vop zeroed true L g o in
  x = y /\ exists ents', m' = MSV (mk_sv L ents') /\ row_ok L ents' /\ (forall i, 0 <= i < L -> aval i ents' = g' i).
Proof.
  intros Hz HL Hok Hg Hi. pose proof (row_ok_ents_ok L ents HL Hok) as Heo. pose proof Hok as (Hs & _).
  assert (Hput : forall i x, 0 <= i < L -> forall j, 0 <= j < L -> aval j (aput i x ents) = vwrote zeroed g i x j).
  { intros i x Hi' j Hj. rewrite aval_aput by auto. unfold vwrote. destruct (j =? i); [reflexivity|auto]. }
  unfold map_vop.
  destruct o as [i v|i|r c v|r c h|r c|r c|]; cbn [vop_index] in Hi;
    cbn [do_vop do_op mat_Set mat_Update mat_At mat_Element mat_Clear mat_SetVec mat_AtVec negb orb].
  - destruct ((0 <=? i) && (i <? L)) eqn:E.
    + rewrite sv_SetVec_sorted by (auto; lia). cbn. split; [reflexivity|]. eexists; split; [reflexivity|].
      split; [apply row_ok_aput; auto; lia|]. apply Hput. lia.
    + unfold sv_SetVec, sv_Length. cbn [sv_l mk_sv].
      replace ((i <? 0) || (i >=? L)) with true by (rewrite Z.geb_leb; lia). cbn. eauto 10.
  - destruct ((0 <=? i) && (i <? L)) eqn:E.
    + rewrite sv_AtVec_read by lia. rewrite (sv_read_sorted L) by (auto; lia). replace (i <=? zlen ents) with true by lia.
      cbn. rewrite Hg by lia. eauto 10.
    + rewrite sv_AtVec_panic by lia. cbn. eauto 10.
  - unfold sv_Set, sv_Rows, sv_Columns. replace (sv_l (mk_sv L ents)) with L by reflexivity.
    destruct ((0 <=? r) && (r <? L) && (c =? 0)) eqn:E.
    + replace ((r <? 0) || (r >=? L)) with false by (rewrite Z.geb_leb; lia).
      replace ((c <? 0) || (c >=? 1)) with false by (rewrite Z.geb_leb; lia).
      rewrite sv_SetVec_sorted by (auto; lia). cbn. split; [reflexivity|]. eexists; split; [reflexivity|].
      split; [apply row_ok_aput; auto; lia|]. apply Hput. lia.
    + destruct ((r <? 0) || (r >=? L)) eqn:E1; [cbn; eauto 10|].
      destruct ((c <? 0) || (c >=? 1)) eqn:E2; [cbn; eauto 10|]. rewrite Z.geb_leb in *. lia.
  - destruct ((0 <=? r) && (r <? L) && (c =? 0)) eqn:E.
    + rewrite sv_Update_ok by lia. rewrite sv_SetVec_sorted by (auto; lia). cbn. split; [reflexivity|]. eexists; split; [reflexivity|].
      split; [apply row_ok_aput; auto; lia|]. rewrite (sv_read_sorted L) by (auto; lia).
      replace (r <=? zlen ents) with true by lia. rewrite Hg by lia. apply Hput. lia.
    + unfold sv_Update, sv_Rows, sv_Columns. replace (sv_l (mk_sv L ents)) with L by reflexivity.
      destruct ((r <? 0) || (r >=? L)) eqn:E1; [cbn; eauto 10|].
      destruct ((c <? 0) || (c >=? 1)) eqn:E2; [cbn; eauto 10|]. rewrite Z.geb_leb in *. lia.
  - destruct ((0 <=? r) && (r <? L) && (c =? 0)) eqn:E.
    + rewrite sv_At_ok by (auto; lia). cbn. rewrite (sv_read_sorted L) by (auto; lia).
      replace (r <=? zlen ents) with true by lia. rewrite Hg by lia. eauto 10.
    + unfold sv_At, sv_Update, sv_Rows, sv_Columns. replace (sv_l (mk_sv L ents)) with L by reflexivity.
      destruct ((r <? 0) || (r >=? L)) eqn:E1; [cbn; eauto 10|].
      destruct ((c <? 0) || (c >=? 1)) eqn:E2; [cbn; eauto 10|]. rewrite Z.geb_leb in *. lia.
  - unfold sv_Element. destruct ((0 <=? r) && (r <? L)) eqn:E.
    + rewrite sv_AtVec_read by lia. rewrite (sv_read_sorted L) by (auto; lia). replace (r <=? zlen ents) with true by lia.
      cbn. rewrite Hg by lia. eauto 10.
    + rewrite sv_AtVec_panic by lia. cbn. eauto 10.
  - cbn. split; [reflexivity|]. exists []. split; [reflexivity|]. split; [apply row_ok_nil|]. reflexivity.
Qed.

(** within the guard of [near] a sparse vector is a map; the final content is
    readable up to the number of non-zero entries *)
Lemma sv_behaves L : zero_ok N -> 0 <= L ->
  exists s : svec N, NewSparseVector L = Ok s /\
  forall os, near zeroed true L (fun _ => n0) os ->
    let '(m, outs) := do_vops (MSV s) os in
    let '(g, outs') := map_vops zeroed true L (fun _ => n0) os in
    outs = outs' /\ ascending_vector m L g.
Proof.
  intros Hz HL. rewrite NewSparseVector_spec. eexists; split; [reflexivity|].
  intros os. assert (G : forall os (ents : row) (g : Z -> V), row_ok L ents ->
    (forall i, 0 <= i < L -> aval i ents = g i) -> near zeroed true L g os ->
    let '(m, outs) := do_vops (MSV (mk_sv L ents)) os in
    let '(g, outs') := map_vops zeroed true L g os in
    outs = outs' /\ ascending_vector m L g).
  { clear os. induction os as [|o os IH]; intros ents g Hok Hg Hn; cbn [do_vops map_vops].
    - split; [reflexivity|]. pose proof (row_ok_ents_ok L ents HL Hok) as Heo.
      pose proof (row_nonzeros L ents g Hz Hok Hg) as En.
      assert (El : zlen (nonzeros L g) = zlen ents) by (rewrite <- En; apply zlen_map).
      assert (Hw : wf (MSV (mk_sv L ents))) by (exists L, ents; auto).
      split; [reflexivity|]. split; [reflexivity|].
      split; [rewrite El; cbn; unfold sv_Values; cbn; apply zlen_map|]. split.
      + intros fuel Hf. rewrite loop_Next_ok; auto.
        * rewrite entries_sv by auto. rewrite En. reflexivity.
        * rewrite <- zlen_entries, entries_sv, zlen_map by auto. lia.
      + intros i Hi. cbn [mat_AtVec]. rewrite sv_AtVec_read, (sv_read_sorted L), El by auto.
        destruct (i <=? zlen ents); [|reflexivity]. rewrite Hg by auto. f_equal.
        rewrite <- Hg by auto. unfold zeroed. destruct (neqb (aval i ents) n0) eqn:E; [|reflexivity].
        unfold aval in *. destruct (alookup i ents) as [v|] eqn:Ea; [|reflexivity].
        exfalso. apply alookup_In in Ea. destruct Hok as (_ & _ & Hnz). rewrite Forall_forall in Hnz.
        specialize (Hnz _ Ea). unfold isz in Hnz. simpl in Hnz. congruence.
    - cbn [near] in Hn. destruct Hn as [Hi Hn]. rewrite <- (zlen_row_nonzeros L ents g Hz Hok Hg) in Hi.
      pose proof (sv_do_vop L o ents g Hz HL Hok Hg Hi) as H1. destruct (do_vop _ o) as [m1 x].
      destruct (map_vop zeroed true L g o) as [g1 y]. destruct H1 as (-> & ents1 & -> & Hok1 & Hg1).
      cbn [fst] in Hn. specialize (IH ents1 g1 Hok1 Hg1 Hn). destruct (do_vops _ os) as [m2 xs].
      destruct (map_vops zeroed true L g1 os) as [g2 ys]. destruct IH as (-> & Hd). auto. }
  intros Hn. apply G; auto. apply row_ok_nil.
Qed.

Lemma ascending L (ents : row) f : zero_ok N -> 0 <= L -> row_ok L ents ->
  (forall i, 0 <= i < L -> aval i ents = zeroed (f i)) -> ascending_vector (MSV (mk_sv L ents)) L f.
Proof.
  intros Hz HL Hok Hg. pose proof (row_ok_ents_ok L ents HL Hok) as Heo.
  assert (Hzz : forall v : V, neqb (zeroed v) n0 = neqb v n0).
  { intros v. unfold zeroed. destruct (neqb v n0) eqn:E; [exact Hz|exact E]. }
  assert (En : map (fun e => (fst e, 0, snd e)) ents = nonzeros L f).
  { rewrite (row_nonzeros L ents (fun i => zeroed (f i)) Hz Hok Hg). unfold nonzeros.
    rewrite (filter_ext _ (fun i => negb (neqb (f i) n0))) by (intros; rewrite Hzz; reflexivity).
    apply map_ext_in. intros i Hin. apply filter_In in Hin as [_ Hin]. unfold zeroed.
    destruct (neqb (f i) n0); [discriminate|reflexivity]. }
  assert (El : zlen (nonzeros L f) = zlen ents) by (rewrite <- En; apply zlen_map).
  assert (Hw : wf (MSV (mk_sv L ents))) by (exists L, ents; auto).
  split; [reflexivity|]. split; [reflexivity|].
  split; [rewrite El; cbn; unfold sv_Values; cbn; apply zlen_map|]. split.
  - intros fuel Hf. rewrite loop_Next_ok; auto.
    + rewrite entries_sv by auto. rewrite En. reflexivity.
    + rewrite <- zlen_entries, entries_sv, zlen_map by auto. lia.
  - intros i Hi. cbn [mat_AtVec]. rewrite sv_AtVec_read, (sv_read_sorted L), El by auto.
    destruct (i <=? zlen ents); [|reflexivity]. rewrite Hg by auto. reflexivity.
Qed.

Lemma sv_from_array (d : list V) : zero_ok N ->
  exists s : svec N, NewSparseVectorFromArray d = Ok s /\
    ascending_vector (MSV s) (zlen d) (fun i => nth (Z.to_nat i) d n0).
Proof.
  intros Hz. unfold NewSparseVectorFromArray. change (newSparseVector (zlen d) 0) with (NewSparseVector (N:=N) (zlen d)).
  rewrite NewSparseVector_spec. cbn [rbind]. set (L := zlen d). assert (HL : 0 <= L) by apply zlen_nonneg.
  destruct (rfold_to (fun i (s : svec N) => exists ents : row, s = mk_sv L ents /\ row_ok L ents /\ klt i ents /\
     forall k, 0 <= k < L -> aval k ents = if k <? i then zeroed (nth (Z.to_nat k) d n0) else n0)
     (fun s i => v <- zget d i ;; sv_SetVec s i v) L (mk_sv L []) HL)
    as (s & -> & ents & -> & Hok & _ & Hc).
  - exists []. split; [reflexivity|]. split; [apply row_ok_nil|]. split; [constructor|].
    intros k Hk. destruct (k <? 0) eqn:E; [lia|reflexivity].
  - intros i s Hi (ents & -> & Hok & Hlt & Hc). rewrite (zget_nth_ok n0) by auto. cbn [rbind].
    set (v := nth (Z.to_nat i) d n0). rewrite sv_SetVec_append by auto.
    eexists; split; [reflexivity|]. eexists; split; [reflexivity|].
    destruct (isz v) eqn:Ev.
    + rewrite app_nil_r. split; [auto|]. split; [eapply Forall_impl; [|exact Hlt]; simpl; intros; lia|].
      intros k Hk. rewrite Hc by auto. destruct (k =? i) eqn:E.
      * assert (k = i) by lia. subst k. replace (i <? i) with false by lia. replace (i <? i + 1) with true by lia.
        unfold zeroed. fold v. unfold isz in Ev. rewrite Ev. reflexivity.
      * replace (k <? i + 1) with (k <? i) by lia. reflexivity.
    + split; [apply row_ok_snoc; auto|]. split.
      * apply Forall_app. split; [eapply Forall_impl; [|exact Hlt]; simpl; intros; lia|].
        constructor; [simpl; lia|constructor].
      * intros k Hk. unfold aval. rewrite alookup_app. specialize (Hc k Hk). unfold aval in Hc.
        destruct (k =? i) eqn:E.
        -- assert (k = i) by lia. subst k. rewrite alookup_notin by (eapply klt_notin; [exact Hlt|lia]).
           simpl. rewrite Z.eqb_refl. replace (i <? i + 1) with true by lia. fold v. unfold zeroed, isz in *. rewrite Ev. reflexivity.
        -- replace (k <? i + 1) with (k <? i) by lia. simpl. replace (i =? k) with false by lia.
           destruct (alookup k ents); exact Hc.
  - eexists; split; [reflexivity|]. apply ascending; auto. intros i Hi. rewrite Hc by auto.
    replace (i <? L) with true by lia. reflexivity.
Qed.

Lemma peek_zeroed m i j : zero_ok N -> good m -> is_sp m = true -> inb m i j -> zeroed (peek m i j) = peek m i j.
Proof.
  intros Hz Hg Hs Hb. unfold zeroed. destruct (neqb (peek m i j) n0) eqn:E; [|reflexivity].
  symmetry. apply peek_zero; auto.
Qed.

Lemma RowsAt_ascending m R C f r : zero_ok N -> good m -> is_sp m = true -> denotes m R C f -> 0 <= r < R ->
  exists v, mat_RowsAt m r = Ok v /\ ascending_vector v C (f r).
Proof.
  intros Hz Hg Hs Hd Hr. pose proof Hd as (ER & EC & _).
  destruct (RowsAt_sparse m r Hz Hg Hs ltac:(lia)) as (ents & -> & Hok & Hc). eexists; split; [reflexivity|].
  rewrite EC in *. pose proof (wf_dims m (proj1 Hg)) as [_ HC].
  apply ascending; auto; [lia|]. intros c Hcc. rewrite Hc by auto.
  assert (Hb : inb m r c) by (split; lia).
  rewrite <- (denotes_peek m R C f r c Hd Hb). symmetry. apply peek_zeroed; auto.
Qed.

Lemma ColumnsAt_ascending m R C f c : zero_ok N -> good m -> is_sp m = true -> denotes m R C f -> 0 <= c < C ->
  exists v, mat_ColumnsAt m c = Ok v /\ ascending_vector v R (fun r => f r c).
Proof.
  intros Hz Hg Hs Hd Hr. pose proof Hd as (ER & EC & _).
  destruct (ColumnsAt_sparse m c Hz Hg Hs ltac:(lia)) as (ents & -> & Hok & Hc). eexists; split; [reflexivity|].
  rewrite ER in *. pose proof (wf_dims m (proj1 Hg)) as [HR _].
  apply ascending; auto; [lia|]. intros r Hrr. rewrite Hc by auto.
  assert (Hb : inb m r c) by (split; lia).
  rewrite <- (denotes_peek m R C f r c Hd Hb). symmetry. apply peek_zeroed; auto.
Qed.

End Vec.
