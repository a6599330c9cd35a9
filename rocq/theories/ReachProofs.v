(** Every object of every reachable heap is well formed. *)
From Coq Require Import String.
From Verif Require Import GoBase Num BaseProofs SparseVec Csr Csc DenseVec DenseMat Mat World Ops
  AssocProofs CsrProofs SvProofs CsrIterProofs CscProofs DenseProofs MatProofs Spec HeapProofs Api MapLag.

Section Reach.
Context {N : num}.
Notation V := (T N).
Notation mat := (mat N).
Notation row := (list (Z * V)).
Notation world := (world N).
Notation M := (M N).
Implicit Types w : world.
Implicit Types m : mat.

Definition wfw w : Prop := forall p m, obj w p m -> wf m.
Definition pres {A} (x : M A) : Prop := forall w, wfw w -> wfw (fst (x w)).

Lemma wfw_heap w w' : w_heap w' = w_heap w -> wfw w -> wfw w'.
Proof. unfold wfw, obj. intros ->. auto. Qed.
Lemma wfw_upd w p m : wfw w -> wf m -> wfw (upd w p m).
Proof.
  intros H Hm q x Hq. destruct (Nat.eq_dec q p) as [->|Hn].
  - unfold obj, upd in Hq. simpl in Hq. destruct (Nat.lt_ge_cases p (length (w_heap w))) as [Hl|Hl].
    + rewrite nth_error_list_set_eq in Hq by auto. congruence.
    + assert (E : nth_error (list_set (w_heap w) p m) p = None).
      { apply nth_error_None. rewrite length_list_set. lia. }
      congruence.
  - apply obj_upd_neq_iff in Hq; auto. eapply H; eauto.
Qed.
Lemma wfw_ext w m : wfw w -> wf m -> wfw (ext w m).
Proof.
  intros H Hm q x Hq. unfold obj, ext in Hq. simpl in Hq.
  destruct (Nat.lt_ge_cases q (length (w_heap w))) as [Hl|Hl].
  - rewrite nth_error_app1 in Hq by auto. eapply H; eauto.
  - rewrite nth_error_app2 in Hq by auto.
    destruct (q - length (w_heap w))%nat as [|n]; simpl in Hq; [congruence|].
    destruct n; discriminate.
Qed.

Lemma pres_ret {A} (a : A) : pres (mret a). Proof. intros w H; exact H. Qed.
Lemma pres_panic {A} : pres (mpanic (A:=A)). Proof. intros w H; exact H. Qed.
Lemma pres_diverge {A} : pres (mdiverge (A:=A)). Proof. intros w H; exact H. Qed.
Lemma pres_lift {A} (x : res A) : pres (mlift x). Proof. intros w H; exact H. Qed.
Lemma pres_bind {A B} (x : M A) (k : A -> M B) : pres x -> (forall a, pres (k a)) -> pres (mbind x k).
Proof.
  intros Hx Hk w H. unfold mbind. specialize (Hx w H). destruct (x w) as [w' [a| |]]; simpl in *; auto.
  apply Hk; auto.
Qed.
(** the continuation may use that the loaded object is well formed *)
Lemma pres_load {B} p (k : mat -> M B) : (forall m, wf m -> pres (k m)) -> pres (mbind (load p) k).
Proof.
  intros Hk w H. unfold mbind, load. destruct (nth_error (w_heap w) p) as [m|] eqn:E; simpl; auto.
  apply Hk; auto. eapply H; eauto.
Qed.
Lemma pres_lift_bind {A B} (x : res A) (k : A -> M B) :
  (forall a, x = Ok a -> pres (k a)) -> pres (mbind (mlift x) k).
Proof. intros Hk w H. unfold mbind, mlift. destruct x as [a| |]; simpl; auto. apply Hk; auto. Qed.
Lemma pres_store p m : wf m -> pres (store p m).
Proof. intros Hm w H. simpl. apply (wfw_upd w p m); auto. Qed.
Lemma pres_alloc m : wf m -> pres (alloc m).
Proof. intros Hm w H. simpl. apply (wfw_ext w m); auto. Qed.
Lemma pres_poll E : pres (poll E).
Proof. intros w H. destruct (poll_heap E w) as (w' & b & -> & Hh & _). simpl. eapply wfw_heap; eauto. Qed.
Lemma pres_Rows p : pres (p_Rows p).
Proof. apply pres_load. intros. apply pres_ret. Qed.
Lemma pres_Columns p : pres (p_Columns p).
Proof. apply pres_load. intros. apply pres_ret. Qed.
Lemma pres_Values p : pres (p_Values p).
Proof. apply pres_load. intros. apply pres_ret. Qed.
Lemma pres_IsSparse E p : pres (p_IsSparse E p).
Proof. apply pres_load. intros. apply pres_ret. Qed.

Lemma inb_dec m r c : inb m r c \/ ~ inb m r c.
Proof.
  unfold inb. destruct (Z_le_dec 0 r), (Z_lt_dec r (mat_Rows m)), (Z_le_dec 0 c), (Z_lt_dec c (mat_Columns m));
    (left; lia) || (right; lia).
Qed.

(** [At] and [Element] of a well-formed object never change it *)
Lemma At_same m r c v m' : zero_ok N -> wf m -> mat_At m r c = Ok (v, m') -> m' = m.
Proof.
  intros Hz H E. destruct (inb_dec m r c) as [Hb|Hb].
  - rewrite At_ok in E by auto. congruence.
  - destruct m; simpl in *; unfold inb in Hb; simpl in Hb.
    + destruct H as (R & C & rows & -> & H). unfold csr_At, csr_Update in E.
      rewrite csr_bounds in E by auto. discriminate.
    + destruct H as (R & C & rows & -> & H). unfold csc_At in E.
      rewrite csc_bounds in E by auto. discriminate.
    + destruct (dm_At s r c); simpl in E; congruence.
    + destruct (dv_At s r c); simpl in E; congruence.
    + destruct H as (l & ents & -> & H). unfold sv_At in E.
      pose proof (Update_panic (MSV (mk_sv l ents)) r c (fun v => v)) as P. simpl in P.
      unfold sv_Update in *.
      destruct ((r <? 0) || (r >=? sv_Rows (mk_sv l ents))) eqn:E1; [discriminate|].
      destruct ((c <? 0) || (c >=? sv_Columns (mk_sv l ents))) eqn:E2; [discriminate|].
      exfalso. apply Hb. lia.
Qed.

Lemma Element_same m r c b m' : zero_ok N -> wf m -> mat_Element m r c = Ok (b, m') -> m' = m.
Proof.
  intros Hz H E. destruct (inb_dec m r c) as [Hb|Hb].
  - rewrite Element_ok in E by auto. congruence.
  - destruct m; simpl in *; unfold inb in Hb; simpl in Hb.
    + destruct H as (R & C & rows & -> & H). unfold csr_Element, csr_Update in E.
      rewrite csr_bounds in E by auto. discriminate.
    + destruct H as (R & C & rows & -> & H). unfold csc_Element in E.
      rewrite csc_bounds in E by auto. discriminate.
    + destruct (dm_Element s r c); simpl in E; congruence.
    + destruct (dv_Element s r c); simpl in E; congruence.
    + destruct (sv_Element s r c); simpl in E; congruence.
Qed.

Lemma load_cases p w : (exists m, obj w p m /\ load p w = (w, Ok m)) \/ load p w = (w, Panic).
Proof.
  unfold load, obj. destruct (nth_error (w_heap w) p) as [m|]; [left; eauto|auto].
Qed.

(** reading through a pointer leaves a well-formed heap as it is *)
Lemma p_At_quiet p r c w : zero_ok N -> wfw w -> w_heap (fst (p_At p r c w)) = w_heap w.
Proof.
  intros Hz H. unfold p_At, mbind at 1. destruct (load_cases p w) as [(m & Ho & ->)| ->]; [|reflexivity].
  unfold mbind, mlift. destruct (mat_At m r c) as [[v m']| |] eqn:E; try reflexivity.
  rewrite (At_same _ _ _ _ _ Hz (H _ _ Ho) E). simpl.
  apply list_set_same. exact Ho.
Qed.
Lemma mask_Element_quiet k r c w : zero_ok N -> wfw w -> w_heap (fst (mask_Element k r c w)) = w_heap w.
Proof.
  intros Hz H. destruct k as [| | p |]; try reflexivity. simpl. unfold mbind at 1.
  destruct (load_cases p w) as [(m & Ho & ->)| ->]; [|reflexivity].
  unfold mbind, mlift. destruct (mat_Element m r c) as [[v m']| |] eqn:E; try reflexivity.
  rewrite (Element_same _ _ _ _ _ Hz (H _ _ Ho) E). simpl.
  apply list_set_same. exact Ho.
Qed.
Lemma pres_At p r c : zero_ok N -> pres (p_At p r c).
Proof. intros Hz w H. eapply wfw_heap; [apply p_At_quiet|]; auto. Qed.
Lemma pres_Element k r c : zero_ok N -> pres (mask_Element k r c).
Proof. intros Hz w H. eapply wfw_heap; [apply mask_Element_quiet|]; auto. Qed.

Lemma Set_any m r c v m' : zero_ok N -> wf m -> mat_Set m r c v = Ok m' -> wf m' /\ same_shape m m'.
Proof.
  intros Hz H E. destruct (inb_dec m r c) as [Hb|Hb].
  - destruct (Set_wf m r c v Hz H Hb) as (m1 & E1 & Hw & Hs). rewrite E1 in E. inversion E; subst; auto.
  - rewrite Set_panic in E by auto. discriminate.
Qed.
Lemma Update_any m r c g m' : zero_ok N -> wf m -> mat_Update m r c g = Ok m' -> wf m' /\ same_shape m m'.
Proof.
  intros Hz H E. destruct (inb_dec m r c) as [Hb|Hb].
  - destruct (Update_wf m r c g Hz H Hb) as (m1 & E1 & Hw & Hs). rewrite E1 in E. inversion E; subst; auto.
  - rewrite Update_panic in E by auto. discriminate.
Qed.
Lemma SetVec_any m i v m' : wf m -> mat_SetVec m i v = Ok m' -> wf m' /\ same_shape m m'.
Proof.
  intros H E. destruct m; simpl in *; try discriminate.
  - destruct H as (L & f & -> & H). destruct (Z_le_dec 0 i), (Z_lt_dec i L);
      try (rewrite dv_SetVec_panic in E by lia; discriminate).
    rewrite dv_SetVec_spec in E by lia. inversion E; subst. split; [|repeat split]. simpl. eauto.
  - destruct H as (l & ents & -> & H). destruct (Z_le_dec 0 i), (Z_lt_dec i l).
    2-4: unfold sv_SetVec in E; replace (sv_Length (mk_sv l ents)) with l in E by reflexivity;
      destruct ((i <? 0) || (i >=? l)) eqn:E1; [discriminate|lia].
    destruct (sv_SetVec_wf l ents i v H) as (ents' & E' & H'); [lia|]. rewrite E' in E. inversion E; subst.
    split; [|repeat split]. simpl; eauto.
Qed.

Lemma pres_Set p r c v : zero_ok N -> pres (p_Set p r c v).
Proof.
  intros Hz. apply pres_load. intros m Hm. apply pres_lift_bind. intros m' E.
  apply pres_store. eapply Set_any; eauto.
Qed.
Lemma pres_Update p r c g : zero_ok N -> pres (p_Update p r c g).
Proof.
  intros Hz. apply pres_load. intros m Hm. apply pres_lift_bind. intros m' E.
  apply pres_store. eapply Update_any; eauto.
Qed.
Lemma pres_SetVec p i v : pres (p_SetVec p i v).
Proof.
  apply pres_load. intros m Hm. apply pres_lift_bind. intros m' E.
  apply pres_store. eapply SetVec_any; eauto.
Qed.
Lemma pres_Copy p : pres (p_Copy p).
Proof.
  apply pres_load. intros m Hm. apply pres_lift_bind. intros m' E.
  rewrite Copy_ok in E by auto. apply pres_alloc. congruence.
Qed.
Lemma pres_Clear p : zero_ok N -> pres (p_Clear p).
Proof.
  intros Hz. apply pres_load. intros m Hm. apply pres_lift_bind. intros m' E.
  destruct (Clear_ok m Hz Hm) as (m1 & E1 & Hw & _). apply pres_store. congruence.
Qed.

(** extracted rows and columns *)
Lemma RowsAt_any m r m' : wf m -> mat_RowsAt m r = Ok m' -> wf m'.
Proof.
  intros H E. destruct (Z_le_dec 0 r) as [H0|H0], (Z_lt_dec r (mat_Rows m)) as [H1|H1].
  2-4: exfalso; destruct m; simpl in *;
    unfold csr_RowsAt, csc_RowsAt, dm_RowsAt, dv_RowsAt, sv_RowsAt, csr_Rows, csc_Rows, dm_Rows, dv_Rows, sv_Rows in *;
    match type of E with rmap _ (if ?b then _ else _) = _ => destruct b eqn:Eb; [discriminate|lia] end.
  destruct m; simpl in *.
  - destruct H as (R & C & rows & -> & H). cbn in H1. rewrite csr_RowsAt_spec in E by auto. inversion E; subst. simpl.
    eexists _, _. split; [reflexivity|]. apply row_ok_ents_ok; [apply H|]. eapply rnth_ok; eauto.
  - destruct H as (R & C & rows & -> & H). cbn in H1. rewrite csc_RowsAt_spec in E by auto. inversion E; subst. simpl.
    eexists _, _. split; [reflexivity|]. apply row_ok_ents_ok; [apply H|]. eapply col_ents_ok; eauto.
  - destruct H as (R & C & f & -> & H2 & H3 & _). cbn in H1. rewrite dm_RowsAt_spec in E by auto. inversion E; subst. simpl. eauto.
  - destruct H as (L & f & -> & H2). cbn in H1. rewrite dv_RowsAt_spec in E by auto. inversion E; subst. simpl.
    eexists _, _. split; [reflexivity|lia].
  - destruct H as (l & ents & -> & H2). cbn in H1. unfold sv_RowsAt in E.
    replace (sv_Rows (mk_sv l ents)) with l in E by reflexivity.
    destruct ((r <? 0) || (r >=? l)) eqn:Eb; [lia|]. rewrite NewSparseVector_spec in E. cbn [rbind] in E.
    rewrite sv_AtVec_read in E by lia. cbn [rbind] in E.
    destruct (sv_SetVec_wf 1 [] 0 (sv_read ents r)) as (e' & E' & H'); [repeat split; auto; lia|lia|].
    rewrite E' in E. inversion E; subst. simpl. eauto.
Qed.

Lemma ColumnsAt_any m c m' : wf m -> mat_ColumnsAt m c = Ok m' -> wf m'.
Proof.
  intros H E. destruct (Z_le_dec 0 c) as [H0|H0], (Z_lt_dec c (mat_Columns m)) as [H1|H1].
  2-4: exfalso; destruct m; simpl in *;
    unfold csr_ColumnsAt, csc_ColumnsAt, dm_ColumnsAt, dv_ColumnsAt, sv_ColumnsAt, csr_Columns, csc_Columns, dm_Columns, dv_Columns, sv_Columns in *;
    match type of E with rmap _ (if ?b then _ else _) = _ => destruct b eqn:Eb; [discriminate|lia] end.
  destruct m; simpl in *.
  - destruct H as (R & C & rows & -> & H). cbn in H1. rewrite csr_ColumnsAt_spec in E by auto. inversion E; subst. simpl.
    eexists _, _. split; [reflexivity|]. apply row_ok_ents_ok; [apply H|]. eapply col_ents_ok; eauto.
  - destruct H as (R & C & rows & -> & H). cbn in H1. rewrite csc_ColumnsAt_spec in E by auto. inversion E; subst. simpl.
    eexists _, _. split; [reflexivity|]. apply row_ok_ents_ok; [apply H|]. eapply rnth_ok; eauto.
  - destruct H as (R & C & f & -> & H2 & H3 & _). cbn in H1. rewrite dm_ColumnsAt_spec in E by auto. inversion E; subst. simpl. eauto.
  - destruct H as (L & f & -> & H2). unfold dv_ColumnsAt in E. unfold dv_Columns in *.
    destruct ((c <? 0) || (c >=? 1)) eqn:Eb; [lia|]. rewrite dv_copy_spec in E by auto. inversion E; subst. simpl. eauto.
  - destruct H as (l & ents & -> & H2). unfold sv_ColumnsAt in E. unfold sv_Columns in *.
    destruct ((c <? 0) || (c >=? 1)) eqn:Eb; [lia|]. rewrite sv_copy_mk in E. inversion E; subst. simpl. eauto.
Qed.

Lemma pres_RowsAt p r : pres (p_RowsAt p r).
Proof.
  apply pres_load. intros m Hm. apply pres_lift_bind. intros m' E. apply pres_alloc. eapply RowsAt_any; eauto.
Qed.
Lemma pres_ColumnsAt p c : pres (p_ColumnsAt p c).
Proof.
  apply pres_load. intros m Hm. apply pres_lift_bind. intros m' E. apply pres_alloc. eapply ColumnsAt_any; eauto.
Qed.

Lemma pres_mask_Rows k : pres (mask_Rows k).
Proof. destruct k; simpl; auto using pres_panic, pres_ret, pres_Rows. Qed.
Lemma pres_mask_Columns k : pres (mask_Columns k).
Proof. destruct k; simpl; auto using pres_panic, pres_ret, pres_Columns. Qed.
Lemma pres_if {A} (b : bool) (x y : M A) : pres x -> pres y -> pres (if b then x else y).
Proof. destruct b; auto. Qed.

Lemma pres_check_mask k t : pres (check_mask k t).
Proof.
  unfold check_mask. apply pres_bind; [apply pres_Rows|intros r]. apply pres_bind; [apply pres_Columns|intros c].
  apply pres_bind; [apply pres_mask_Rows|intros kr]. apply pres_if; [apply pres_panic|].
  apply pres_bind; [apply pres_mask_Columns|intros kc]. apply pres_if; [apply pres_panic|apply pres_ret].
Qed.

Lemma pres_for_list {R I} (l : list I) (body : I -> M (option R)) :
  (forall i, pres (body i)) -> pres (for_list l body).
Proof.
  intros H. induction l as [|i l IH]; simpl; [apply pres_ret|].
  apply pres_bind; [apply H|]. intros [x|]; [apply pres_ret|exact IH].
Qed.

Lemma pres_enum_loop {R} E p (x : R) body : (forall r c v, pres (body r c v)) ->
  forall fuel it, pres (enum_loop E fuel p it x body).
Proof.
  intros H. induction fuel as [|fuel IH]; intros it; cbn [enum_loop]; destruct (mat_HasNext it);
    try apply pres_ret; try apply pres_diverge.
  apply pres_bind; [apply pres_poll|]. intros d. apply pres_if; [apply pres_ret|].
  apply pres_load. intros m Hm. apply pres_lift_bind. intros [[[r c] v] it'] _.
  apply pres_bind; [apply H|]. intros [y|]; [apply pres_ret|apply IH].
Qed.
Lemma pres_enumerate {R} E p (x : R) body : (forall r c v, pres (body r c v)) -> pres (enumerate E p x body).
Proof. intros H. apply pres_load. intros m Hm. apply pres_enum_loop; auto. Qed.

(** ** [Map] *)

Lemma concat_pos {A} (rows : list (list A)) k : 0 <= k < zlen (concat rows) ->
  exists X lo e hi Y, rows = X ++ (lo ++ e :: hi) :: Y /\ k = zlen (concat X) + zlen lo.
Proof.
  revert k; induction rows as [|l rows IH]; intros k Hk; [unfold zlen in Hk; simpl in Hk; lia|]. simpl in Hk.
  rewrite zlen_app in Hk. destruct (Z_lt_dec k (zlen l)) as [H|H].
  - assert (Hn : (Z.to_nat k < length l)%nat) by (unfold zlen in H; lia).
    destruct (nth_error l (Z.to_nat k)) as [e|] eqn:E; [|apply nth_error_None in E; lia].
    apply nth_error_split in E as (lo & hi & -> & Hl).
    exists [], lo, e, hi, rows. split; [reflexivity|]. simpl. rewrite zlen_nil. unfold zlen. lia.
  - destruct (IH (k - zlen l)) as (X & lo & e & hi & Y & -> & Hk'); [lia|].
    exists (l :: X), lo, e, hi, Y. split; [reflexivity|]. simpl. rewrite zlen_app. lia.
Qed.

Lemma csr_put_any R C (rows : list row) i x s' : rows_ok R C rows -> isz x = false ->
  csr_map_put (mk_csr R C rows) i x = Ok s' -> exists rows', s' = mk_csr R C rows' /\ rows_ok R C rows'.
Proof.
  intros H Hx E.
  destruct (Z_le_dec 0 (cri_index i)) as [H0|H0], (Z_lt_dec (cri_index i) (zlen (concat rows))) as [H1|H1].
  2-4: unfold csr_map_put in E; rewrite Hx in E; cbn [negb] in E; unfold zset in E;
    cbn [csr_values mk_csr] in E; rewrite zlen_map in E;
    destruct ((cri_index i <? 0) || (zlen (concat rows) <=? cri_index i)) eqn:Eb; [discriminate|lia].
  destruct (concat_pos rows (cri_index i)) as (X & lo & [c v] & hi & Y & -> & Hi); [lia|].
  rewrite csr_put_spec in E by auto. inversion E; subst.
  eexists. split; [reflexivity|]. eapply rows_ok_replace; eauto.
Qed.

Lemma map_put_any m it x m' : wf m -> (is_sp m = true -> isz x = false) ->
  mat_map_put m it x = Ok m' -> wf m' /\ kind m' = kind m.
Proof.
  intros H Hx E. destruct m as [s|s|s|s|s], it as [i|i|i|i|i]; simpl in *; try discriminate.
  - destruct H as (R & C & rows & -> & H).
    destruct (csr_map_put (mk_csr R C rows) i x) as [s'| |] eqn:E'; simpl in E; try discriminate.
    inversion E; subst. destruct (csr_put_any _ _ _ _ _ _ H (Hx eq_refl) E') as (rows' & -> & H').
    split; [simpl; eauto|reflexivity].
  - destruct H as (R & C & rows & -> & H). rewrite csc_map_put_sw, sw_mk in E.
    destruct (csr_map_put (mk_csr C R rows) (isw i) x) as [s'| |] eqn:E'; simpl in E; try discriminate.
    inversion E; subst. destruct (csr_put_any _ _ _ _ _ _ H (Hx eq_refl) E') as (rows' & -> & H').
    rewrite unsw_mk. split; [simpl; eauto|reflexivity].
  - destruct H as (R & C & f & -> & H1 & H2 & H3). unfold dm_map_put in E.
    destruct (Z_le_dec 0 (dmi_r i)), (Z_lt_dec (dmi_r i) R), (Z_le_dec 0 (dmi_cOld i)), (Z_lt_dec (dmi_cOld i) C);
      try (rewrite dm_Set_panic in E by lia; discriminate).
    rewrite dm_Set_spec in E by lia. inversion E; subst. split; [simpl; eauto 10|reflexivity].
  - unfold dv_map_put in E. destruct (SetVec_any (MDV s) (dvi_rOld i) x m') as [Hw Hs]; [exact H|exact E|].
    split; [exact Hw|apply Hs].
  - destruct H as (l & ents & -> & H). unfold sv_map_put in E. rewrite (Hx eq_refl) in E. cbn [negb] in E.
    unfold zset in E. cbn [sv_values sv_indices mk_sv sv_l] in E. rewrite zlen_map in E.
    destruct ((svi_old i <? 0) || (zlen ents <=? svi_old i)) eqn:Eb; [discriminate|]. cbn [rbind rmap] in E.
    inversion E; subst m'. split; [|reflexivity].
    assert (Hn : (Z.to_nat (svi_old i) < length ents)%nat) by (unfold zlen in Eb; lia).
    destruct (nth_error ents (Z.to_nat (svi_old i))) as [e|] eqn:En; [|apply nth_error_None in En; lia].
    apply nth_error_split in En as (lo & hi & -> & Hl). destruct e as [k v].
    simpl. exists l, (lo ++ (k, x) :: hi). split.
    + unfold mk_sv. f_equal.
      * rewrite !map_app. cbn [map snd]. apply list_set_mid. rewrite map_length. lia.
      * rewrite !map_app. reflexivity.
    + destruct H as (H1 & H2 & H3). split; [auto|]. apply Forall_app in H2 as [H2 H2']. apply Forall_app in H3 as [H3 H3'].
      inversion H2'; inversion H3'; subst. split; apply Forall_app; split; auto.
Qed.

Lemma zget_In {A} (l : list A) i x : zget l i = Ok x -> In x l.
Proof.
  unfold zget. destruct (i <? 0); [discriminate|]. destruct (nth_error l (Z.to_nat i)) eqn:E; [|discriminate].
  intros H. inversion H; subst. eapply nth_error_In; eauto.
Qed.

Lemma rows_nz R C (rows : list row) v : rows_ok R C rows -> In v (map snd (concat rows)) -> isz v = false.
Proof.
  intros (_ & _ & _ & Hf) Hin. apply in_map_iff in Hin as (e & <- & He). apply in_concat in He as (l & Hl & He).
  rewrite Forall_forall in Hf. destruct (Hf l Hl) as (_ & _ & Hz). rewrite Forall_forall in Hz. auto.
Qed.

Lemma cur_nz m it r c v : wf m -> is_sp m = true -> mat_cur m it = Ok (r, c, v) -> isz v = false.
Proof.
  intros H Hs E. destruct m as [s|s|s|s|s], it as [i|i|i|i|i]; simpl in *; try discriminate.
  - destruct H as (R & C & rows & -> & H). unfold csr_cur in E.
    destruct (zget (csr_values (mk_csr R C rows)) (cri_index i)) eqn:Ez; try discriminate. cbn [rbind] in E.
    inversion E; subst. eapply rows_nz; eauto. eapply zget_In; eauto.
  - destruct H as (R & C & rows & -> & H). unfold csc_cur in E.
    destruct (zget (csc_values (mk_csc R C rows)) (cci_index i)) eqn:Ez; try discriminate. cbn [rbind] in E.
    inversion E; subst. eapply rows_nz; eauto. eapply zget_In; eauto.
  - destruct H as (l & ents & -> & (_ & _ & H)). unfold sv_cur in E.
    destruct (zget (sv_indices (mk_sv l ents)) (svi_old i)) eqn:Ez0; try discriminate. cbn [rbind] in E.
    destruct (zget (sv_values (mk_sv l ents)) (svi_old i)) eqn:Ez; try discriminate. cbn [rbind] in E.
    inversion E; subst. apply zget_In in Ez. simpl in Ez. apply in_map_iff in Ez as (e & <- & He).
    rewrite Forall_forall in H. auto.
Qed.

(** a mapped function that reads masks but writes nothing, and keeps non-zero
    values non-zero if the object is sparse *)
Definition quiet_nz (sp : bool) (f : Z -> Z -> V -> M V) : Prop := forall r c v w, wfw w ->
  w_heap (fst (f r c v w)) = w_heap w /\
  (forall x, snd (f r c v w) = Ok x -> sp = true -> isz v = false -> isz x = false).

Definition okind (w : world) (p : ptr) (sp : bool) : Prop := forall m, obj w p m -> is_sp m = sp.

Lemma okind_heap w w' p sp : w_heap w' = w_heap w -> okind w p sp -> okind w' p sp.
Proof. unfold okind, obj. intros ->. auto. Qed.

Lemma map_step_pres p it f sp w : quiet_nz sp f -> wfw w -> okind w p sp ->
  wfw (fst (map_step p it f w)) /\ okind (fst (map_step p it f w)) p sp.
Proof.
  intros Hf H Hk. unfold map_step.
  destruct (load_cases p w) as [(m & Ho & El)|El];
    [rewrite (mbind_ok _ _ _ _ _ El)|rewrite (mbind_panic _ _ _ _ El); auto].
  destruct (mat_next m it) as [it'| |] eqn:En; [|split; assumption..].
  rewrite mbind_lift.
  destruct (mat_cur m it') as [[[r c] v]| |] eqn:Ec; [|split; assumption..].
  rewrite mbind_lift. destruct (Hf r c v w H) as [Hq Hx].
  destruct (f r c v w) as [w1 [x| |]] eqn:Ef; simpl in Hq, Hx.
  2:{ rewrite (mbind_panic _ _ _ _ Ef). split; [eapply wfw_heap; eauto|eapply okind_heap; eauto]. }
  2:{ rewrite (mbind_div _ _ _ _ Ef). split; [eapply wfw_heap; eauto|eapply okind_heap; eauto]. }
  rewrite (mbind_ok _ _ _ _ _ Ef).
  assert (H1 : wfw w1) by (eapply wfw_heap; eauto).
  assert (Hk1 : okind w1 p sp) by (eapply okind_heap; eauto).
  assert (Ho1 : obj w1 p m) by (unfold obj in *; rewrite Hq; exact Ho).
  rewrite (mbind_ok _ _ _ _ _ (load_ok _ _ _ Ho1)).
  destruct (mat_map_put m it' x) as [m'| |] eqn:Ep; [|split; assumption..].
  rewrite mbind_lift, (mbind_ok _ _ _ _ _ (store_ok _ _ _)). cbn [mret fst].
  destruct (map_put_any m it' x m') as [Hw Hkd]; [eapply H; eauto| |exact Ep|].
  { intros Hs. eapply Hx; eauto; [rewrite <- (Hk _ Ho); exact Hs|]. eapply cur_nz; eauto. }
  split; [apply wfw_upd; auto|].
  intros y Hy. rewrite (obj_inj _ _ _ _ Hy (obj_upd_eq _ _ _ _ Ho1)).
  specialize (Hk _ Ho). destruct m', m; simpl in *; congruence.
Qed.

Lemma map_loop_pres E stop p f sp : quiet_nz sp f -> forall fuel it w, wfw w -> okind w p sp ->
  wfw (fst (map_loop E stop fuel p it f w)).
Proof.
  intros Hf. induction fuel as [|fuel IH]; intros it w H Hk; cbn [map_loop]; destruct (mat_HasNext it); auto.
  destruct (poll_heap E w) as (w1 & b & Ep & Hh & _). rewrite (mbind_ok _ _ _ _ _ Ep).
  assert (H1 : wfw w1) by (eapply wfw_heap; eauto).
  assert (Hk1 : okind w1 p sp) by (eapply okind_heap; eauto).
  destruct b; [destruct stop; [exact H1|apply IH; auto]|].
  destruct (map_step_pres p it f sp w1 Hf H1 Hk1) as [H2 Hk2].
  destruct (map_step p it f w1) as [w2 [it'| |]] eqn:Es; cbn [fst] in *.
  - rewrite (mbind_ok _ _ _ _ _ Es). auto.
  - rewrite (mbind_panic _ _ _ _ Es). auto.
  - rewrite (mbind_div _ _ _ _ Es). auto.
Qed.

Lemma map_over_pres E stop p f w : wfw w ->
  (forall m, obj w p m -> quiet_nz (is_sp m) f) ->
  wfw (fst (map_over E stop p f w)).
Proof.
  intros H Hf. unfold map_over, mbind. destruct (load_cases p w) as [(m & Ho & ->)| ->]; [|auto].
  eapply map_loop_pres; eauto. intros m' Ho'. rewrite (obj_inj _ _ _ _ Ho' Ho). reflexivity.
Qed.

(** ** Loops whose function may produce zeros *)

(** writes nothing, and makes a zero of a non-zero value only where [zp] allows it *)
Definition quiet_zero (zp : Z -> Z -> V -> bool) (f : Z -> Z -> V -> M V) : Prop := forall r c v w, wfw w ->
  w_heap (fst (f r c v w)) = w_heap w /\
  (forall x, snd (f r c v w) = Ok x -> isz v = false -> isz x = true -> zp r c v = true).

Definition calm (m : mat) (zp : Z -> Z -> V -> bool) (rest : list (Z * Z * V)) : Prop := forall l1 r c v l2,
  rest = l1 ++ (r, c, v) :: l2 -> isz v = false -> zp r c v = true ->
  (forall e, In e l2 -> ~ same_line m (r, c) (fst e)) \/ (forall e, In e l2 -> same_line m (r, c) (fst e)).

(** the object and the iterator in the middle of the loop *)
Definition runs (zp : Z -> Z -> V -> bool) (m : mat) (it : iter) : Prop :=
  match m with
  | MCSR s => (exists dn rest, mrel m it dn rest /\ calm m zp rest) \/
      (exists R C X row Y i q, it = ICSR i /\ s = mk_csr R C (X ++ row :: Y) /\ past R C X row Y i q)
  | MCSC s => (exists dn rest, mrel m it dn rest /\ calm m zp rest) \/
      (exists R C X row Y i q, it = ICSC i /\ s = mk_csc R C (X ++ row :: Y) /\ past C R X row Y (isw i) q)
  | _ => True
  end.

Lemma calm_cons m zp e rest : calm m zp (e :: rest) -> calm m zp rest.
Proof. intros H l1 r c v l2 E. apply (H (e :: l1)). rewrite E. reflexivity. Qed.

Lemma mrel_wf m it dn rest : mrel m it dn rest -> wf m.
Proof. intros (it0 & H & _). eapply it_rel_wf; eauto. Qed.

Lemma sv_put_any (s s' : svec N) i x : wf (MSV s) -> sv_map_put s i x = Ok s' -> wf (MSV s').
Proof.
  intros H E. destruct (isz x) eqn:Ex.
  - destruct H as (l & ents & -> & H). unfold sv_map_put in E. rewrite Ex in E. cbn [negb] in E. unfold sv_remove in E. cbn [sv_values sv_indices mk_sv sv_l] in E.
    destruct (Z_lt_dec (svi_old i) 0) as [Hn|Hn].
    { unfold slice_to at 1 in E. destruct ((svi_old i <? 0) || (zlen (map fst ents) <? svi_old i)) eqn:Q; [discriminate|lia]. }
    destruct (Z_lt_dec (svi_old i) (zlen ents)) as [Hb|Hb].
    + assert (Hk : (Z.to_nat (svi_old i) < length ents)%nat) by (unfold zlen in Hb; lia).
      destruct (nth_error ents (Z.to_nat (svi_old i))) as [e|] eqn:En; [|apply nth_error_None in En; lia].
      apply nth_error_split in En as (lo & hi & -> & Hl). destruct e as [k v]. assert (Hz : svi_old i = zlen lo) by (unfold zlen; lia).
      rewrite !map_app in E. cbn [map fst snd] in E. rewrite slice_to_app in E by (zl; lia). cbn [rbind] in E.
      change (k :: map fst hi) with ([k] ++ map fst hi) in E. change (v :: map snd hi) with ([v] ++ map snd hi) in E. rewrite (app_assoc (map fst lo)) in E.
      rewrite slice_from_app in E by (zl; lia). cbn [rbind] in E. rewrite slice_to_app in E by (zl; lia). cbn [rbind] in E. rewrite (app_assoc (map snd lo)) in E.
      rewrite slice_from_app in E by (zl; lia). cbn [rbind] in E. injection E as <-. exists l, (lo ++ hi). split; [unfold mk_sv; rewrite !map_app; reflexivity|].
      destruct H as (H1 & H2 & H3). apply Forall_app in H2 as [H2 H2']. apply Forall_app in H3 as [H3 H3']. apply Forall_cons_iff in H2' as [_ H2']. apply Forall_cons_iff in H3' as [_ H3'].
      split; [exact H1|]. split; apply Forall_app; auto.
    + exfalso. destruct (slice_to (map fst ents) (svi_old i)); cbn [rbind] in E; try discriminate.
      assert (Q : slice_from (map fst ents) (svi_old i + 1) = Panic).
      { unfold slice_from. destruct ((svi_old i + 1 <? 0) || (zlen (map fst ents) <? svi_old i + 1)) eqn:Q; [reflexivity|]. revert Q. zl. lia. }
      rewrite Q in E. discriminate.
  - eapply (map_put_any (MSV s) (ISV i) x (MSV s')); auto. cbn [mat_map_put]. rewrite E. reflexivity.
Qed.

Lemma runs_step zp m it it' r c v x m' : wf m -> runs zp m it -> mat_HasNext it = true -> mat_next m it = Ok it' -> mat_cur m it' = Ok (r, c, v) ->
  (isz v = false -> isz x = true -> zp r c v = true) -> mat_map_put m it' x = Ok m' -> wf m' /\ runs zp m' it'.
Proof.
  intros Hw Hr Hh Hn Hc Hx Hp. assert (Hnz : is_sp m = true -> isz v = false) by (intros; eapply cur_nz; eauto).
  destruct m as [s|s|s|s|s].
  - destruct Hr as [(dn & rest & Hm & Hq)|(R & C & X & row & Y & i & q & -> & -> & Hq)].
    + destruct rest as [|[[r0 c0] v0] rest]; [rewrite (mrel_HasNext _ _ _ _ Hm) in Hh; discriminate|].
      destruct (mrel_step _ _ _ _ _ _ _ Hm) as (it0 & H1 & H2 & H3). rewrite H1 in Hn. injection Hn as <-. rewrite H2 in Hc. injection Hc as -> -> ->.
      specialize (Hnz eq_refl).
      assert (D : (isz x = true -> ends (MCSR s) r c rest) \/ isz x = true /\ rest <> [] /\ forall e, In e rest -> fst (fst e) = r).
      { destruct (isz x) eqn:Ex; [|left; discriminate]. destruct rest as [|e0 rest]; [left; intros _ e []|].
        destruct (Hq [] r c v (e0 :: rest) eq_refl Hnz (Hx Hnz eq_refl)) as [Q|Q].
        - left. intros _ e He Q'. apply (Q e He). cbn. congruence.
        - right. split; [reflexivity|]. split; [discriminate|]. intros e He. specialize (Q e He). cbn in Q. congruence. }
      destruct D as [D|(D1 & D2 & D3)].
      * destruct (H3 x (fun _ => D)) as (m1 & Q1 & Q2 & Q3). rewrite Q1 in Hp. injection Hp as <-. split; [eapply mrel_wf; eauto|].
        destruct Q2 as [Q2 _]. destruct m1; try discriminate Q2. left. eexists _, rest. split; [exact Q3|]. apply calm_cons in Hq. exact Hq.
      * destruct (past_start s it dn r c v rest x Hm D2 D3 D1) as (R & C & X & row & Y & i & q & P1 & P2 & P3 & P4 & P5).
        rewrite H1 in P3. injection P3 as ->. rewrite P5 in Hp. injection Hp as <-. split; [exists R, C, (X ++ row :: Y); split; [reflexivity|apply P1]|].
        right. exists R, C, X, row, Y, i, q. auto.
    + cbn [mat_next] in Hn. destruct (past_next R C X row Y i q Hq) as [Q|(i' & c' & v' & t & Q1 & Q2 & Q3 & Q4)]; [rewrite Q in Hn; discriminate|].
      rewrite Q1 in Hn. injection Hn as <-. destruct (Q4 x) as (row' & Q5 & Q6 & _). cbn [mat_map_put] in Hp. rewrite Q5 in Hp. injection Hp as <-.
      split; [exists R, C, (X ++ row' :: Y); split; [reflexivity|apply Q6]|]. right. exists R, C, X, row', Y, i', (S q). auto.
  - destruct Hr as [(dn & rest & Hm & Hq)|(R & C & X & row & Y & i & q & -> & -> & Hq)].
    + destruct rest as [|[[r0 c0] v0] rest]; [rewrite (mrel_HasNext _ _ _ _ Hm) in Hh; discriminate|].
      destruct (mrel_step _ _ _ _ _ _ _ Hm) as (it0 & H1 & H2 & H3). rewrite H1 in Hn. injection Hn as <-. rewrite H2 in Hc. injection Hc as -> -> ->.
      specialize (Hnz eq_refl).
      assert (D : (isz x = true -> ends (MCSC s) r c rest) \/ isz x = true /\ rest <> [] /\ forall e, In e rest -> snd (fst e) = c).
      { destruct (isz x) eqn:Ex; [|left; discriminate]. destruct rest as [|e0 rest]; [left; intros _ e []|].
        destruct (Hq [] r c v (e0 :: rest) eq_refl Hnz (Hx Hnz eq_refl)) as [Q|Q].
        - left. intros _ e He Q'. apply (Q e He). cbn. congruence.
        - right. split; [reflexivity|]. split; [discriminate|]. intros e He. specialize (Q e He). cbn in Q. congruence. }
      destruct D as [D|(D1 & D2 & D3)].
      * destruct (H3 x (fun _ => D)) as (m1 & Q1 & Q2 & Q3). rewrite Q1 in Hp. injection Hp as <-. split; [eapply mrel_wf; eauto|].
        destruct Q2 as [Q2 _]. destruct m1; try discriminate Q2. left. eexists _, rest. split; [exact Q3|]. apply calm_cons in Hq. exact Hq.
      * assert (Hi : exists i, it = ICSC i).
        { destruct Hm as (i0 & G & L). destruct it as [i|i|i|i|i], i0; cbn [lagging] in L; try contradiction; simpl in G; try contradiction. eauto. }
        destruct Hi as (i0 & ->). apply mrel_sw in Hm. cbn [map swap_ent fst snd] in Hm.
        destruct (past_start (sw s) (ICSR (isw i0)) _ c r v (map swap_ent rest) x Hm) as (R & C & X & row & Y & i & q & P1 & P2 & P3 & P4 & P5).
        { intros Q. apply map_eq_nil in Q. contradiction. }
        { intros e He. apply in_map_iff in He as (e' & <- & He'). apply D3. exact He'. }
        { exact D1. }
        cbn [mat_next] in H1, P3. rewrite csc_next_sw in H1. destruct (csr_next (sw s) (isw i0)) as [j| |]; try discriminate. injection P3 as ->. cbn [rmap rbind] in H1. injection H1 as <-.
        cbn [mat_map_put] in Hp, P5. rewrite csc_map_put_sw, isw_iunsw in Hp. destruct (csr_map_put (sw s) i x) as [t| |]; try discriminate. injection P5 as ->.
        cbn [rmap rbind] in Hp. injection Hp as <-. rewrite unsw_mk. split; [exists C, R, (X ++ row :: Y); split; [reflexivity|apply P1]|].
        right. exists C, R, X, row, Y, (iunsw i), q. rewrite isw_iunsw. auto.
    + cbn [mat_next] in Hn. rewrite csc_next_sw, sw_mk in Hn. destruct (past_next C R X row Y (isw i) q Hq) as [Q|(i' & c' & v' & t & Q1 & Q2 & Q3 & Q4)]; [rewrite Q in Hn; discriminate|].
      rewrite Q1 in Hn. cbn [rmap rbind] in Hn. injection Hn as <-. destruct (Q4 x) as (row' & Q5 & Q6 & _).
      cbn [mat_map_put] in Hp. rewrite csc_map_put_sw, sw_mk, isw_iunsw, Q5 in Hp. cbn [rmap rbind] in Hp. injection Hp as <-. rewrite unsw_mk.
      split; [exists R, C, (X ++ row' :: Y); split; [reflexivity|apply Q6]|]. right. exists R, C, X, row', Y, (iunsw i'), (S q). rewrite isw_iunsw. auto.
  - destruct (map_put_any (MDM s) it' x m' Hw ltac:(discriminate) Hp) as [H1 H2]. destruct m'; try discriminate H2. split; [exact H1|exact I].
  - destruct (map_put_any (MDV s) it' x m' Hw ltac:(discriminate) Hp) as [H1 H2]. destruct m'; try discriminate H2. split; [exact H1|exact I].
  - destruct it' as [i|i|i|i|i]; cbn [mat_map_put] in Hp; try discriminate. destruct (sv_map_put s i x) as [s'| |] eqn:Es; try discriminate. cbn [rmap rbind] in Hp. injection Hp as <-.
    split; [eapply sv_put_any; eauto|exact I].
Qed.

Lemma map_loop_calm E stop p f zp : quiet_zero zp f -> forall fuel it w m, wfw w -> obj w p m -> runs zp m it ->
  wfw (fst (map_loop E stop fuel p it f w)).
Proof.
  intros Hf. induction fuel as [|fuel IH]; intros it w m H Ho Hr; cbn [map_loop]; destruct (mat_HasNext it) eqn:Hh; auto.
  destruct (poll_heap E w) as (w1 & b & Ep & Hhp & _). rewrite (mbind_ok _ _ _ _ _ Ep).
  assert (H1 : wfw w1) by (eapply wfw_heap; eauto).
  assert (Ho1 : obj w1 p m) by (unfold obj in *; rewrite Hhp; exact Ho).
  destruct b; [destruct stop; [exact H1|eapply IH; eauto]|].
  unfold map_step. unfold mbind at 1. rewrite (mbind_ok _ _ _ _ _ (load_ok _ _ _ Ho1)).
  destruct (mat_next m it) as [it'| |] eqn:En; [|exact H1..]. rewrite mbind_lift.
  destruct (mat_cur m it') as [[[r c] v]| |] eqn:Ec; [|exact H1..]. rewrite mbind_lift.
  destruct (Hf r c v w1 H1) as [Hq Hx]. unfold mbind at 1. destruct (f r c v w1) as [w2 [x| |]]; cbn [fst snd] in Hq, Hx; [|eapply wfw_heap; eauto..].
  assert (H2 : wfw w2) by (eapply wfw_heap; eauto). assert (Ho2 : obj w2 p m) by (unfold obj in *; rewrite Hq; exact Ho1).
  rewrite (mbind_ok _ _ _ _ _ (load_ok _ _ _ Ho2)). destruct (mat_map_put m it' x) as [m'| |] eqn:Eput; [|exact H2..].
  rewrite mbind_lift. rewrite (mbind_ok _ _ _ _ _ (store_ok _ _ _)). cbn [mret].
  destruct (runs_step zp m it it' r c v x m' (H1 _ _ Ho1) Hr Hh En Ec (Hx x eq_refl) Eput) as [Hw' Hr'].
  apply (IH it' _ m'); [apply wfw_upd; auto|eapply obj_upd_eq; eauto|exact Hr'].
Qed.

Lemma runs_init zp m : wf m -> (forall l1 i j v l2, entries m = l1 ++ (i, j, v) :: l2 -> is_sparse_matrix m -> isz v = false -> zp i j v = true ->
    (forall e, In e l2 -> ~ same_line m (i, j) (fst e)) \/ (forall e, In e l2 -> same_line m (i, j) (fst e))) ->
  runs zp m (mat_iterator m).
Proof.
  intros Hw H. destruct m; cbn [runs]; try exact I.
  - left. exists [], (entries (MCSR s)). split; [apply it_rel_mrel, entries_rel; exact Hw|]. intros l1 r c v l2 E Hv Hz. apply (H l1 r c v l2); auto. exact I.
  - left. exists [], (entries (MCSC s)). split; [apply it_rel_mrel, entries_rel; exact Hw|]. intros l1 r c v l2 E Hv Hz. apply (H l1 r c v l2); auto. exact I.
Qed.

Lemma map_over_calm E stop p f (g : Z -> Z -> V -> V) w : wfw w -> quiet_zero (fun r c v => isz (g r c v)) f -> (forall m, obj w p m -> harmless_zeros m g) ->
  wfw (fst (map_over E stop p f w)).
Proof.
  intros H Hf Hg. unfold map_over, mbind. destruct (load_cases p w) as [(m & Ho & ->)| ->]; [|auto].
  eapply map_loop_calm; eauto. pose proof (H _ _ Ho) as Hw. apply runs_init; auto. intros l1 i j v l2 EL Hsp Hv Hz.
  assert (He : enumerates m (l1 ++ (i, j, v) :: l2)).
  { intros fuel Hfu. change (collect fuel m (mat_iterator m) = Ok (l1 ++ (i, j, v) :: l2)). rewrite <- EL. apply collect_entries; auto.
    rewrite <- (zlen_entries m Hw) in Hfu. unfold zlen in Hfu. lia. }
  specialize (Hg m Ho). destruct m; try contradiction; apply (Hg l1 i j v l2); auto.
Qed.

(** ** Operators *)

Ltac pr := repeat first
  [ apply pres_ret | apply pres_panic | apply pres_diverge | apply pres_Rows | apply pres_Columns | apply pres_Values
  | apply pres_IsSparse | apply pres_check_mask | apply pres_poll
  | apply pres_At; assumption | apply pres_Element; assumption | apply pres_Set; assumption
  | apply pres_Update; assumption | apply pres_SetVec | apply pres_Copy | apply pres_ColumnsAt
  | apply pres_RowsAt
  | (apply pres_for_list; intro) | (apply pres_enumerate; intros)
  | (apply pres_load; intros ? ?) | (apply pres_lift_bind; intros ? ?) | (apply pres_bind; [|intros])
  | apply pres_if | apply pres_lift
  | match goal with |- pres (match ?x with _ => _ end) => destruct x end ].

Lemma pres_dot E a b ls : forall s, pres (dot_loop E a b ls s).
Proof. induction ls as [|l ls IH]; intros s; cbn [dot_loop]; pr. apply IH. Qed.

Lemma pres_multiply E (s m : ptr) k (t : ptr) : zero_ok N -> pres (multiply E s m k t).
Proof. intros Hz. unfold multiply. pr. apply pres_dot. Qed.

Lemma pres_ewm E (s m : ptr) k (t : ptr) : zero_ok N -> pres (elementWiseMultiply E s m k t).
Proof. intros Hz. unfold elementWiseMultiply. pr. Qed.

Lemma pres_Add E (s m : ptr) k (t : ptr) : zero_ok N -> pres (Add E s m k t).
Proof. intros Hz. unfold Add, check_sizes. pr. Qed.
Lemma pres_Subtract E (s m : ptr) k (t : ptr) : zero_ok N -> pres (Subtract E s m k t).
Proof. intros Hz. unfold Subtract, check_sizes. pr. Qed.
Lemma pres_ewa E (s m : ptr) k (t : ptr) : zero_ok N -> pres (elementWiseAdd E s m k t).
Proof. intros Hz. unfold elementWiseAdd, ewa_loop. pr. Qed.
Lemma pres_Transpose E s k t : zero_ok N -> pres (Transpose E s k t).
Proof. intros Hz. unfold Transpose. pr. Qed.

Lemma pres_Equal E (s m : option ptr) : zero_ok N -> pres (Equal E s m).
Proof. intros Hz. unfold Equal. destruct s, m; pr. Qed.

Lemma pres_reduce_loop E p k op : zero_ok N -> forall fuel it acc, pres (reduce_loop E fuel p it k op acc).
Proof.
  intros Hz. induction fuel as [|fuel IH]; intros it acc; cbn [reduce_loop]; destruct (mat_HasNext it); pr.
  apply IH.
Qed.
Lemma pres_Reduce E s mo k : zero_ok N -> pres (ReduceMatrixToScalarWithMonoID E s mo k).
Proof. intros Hz. unfold ReduceMatrixToScalarWithMonoID. pr. apply pres_reduce_loop; auto. Qed.

Lemma quiet_pure sp (f : Z -> Z -> V -> V) :
  (sp = true -> forall r c v, isz v = false -> isz (f r c v) = false) ->
  quiet_nz sp (fun r c v => mret (f r c v)).
Proof.
  intros H r c v w Hw. split; [reflexivity|]. simpl. intros x E Hs Hv. inversion E; subst. apply H; auto.
Qed.
Lemma quiet_masked sp k (f g : V -> V) : zero_ok N ->
  (sp = true -> forall v, isz v = false -> isz (f v) = false /\ isz (g v) = false) ->
  quiet_nz sp (fun r c v => let! e := mask_Element k r c in mret (if e : bool then f v else g v)).
Proof.
  intros Hz H r c v w Hw. pose proof (mask_Element_quiet k r c w Hz Hw) as Hq.
  unfold mbind. destruct (mask_Element k r c w) as [w1 [b| |]]; simpl in *; split; auto; try discriminate.
  intros x E Hs Hv. injection E as <-. destruct (H Hs v Hv). destruct b; auto.
Qed.

Lemma quiet_zero_pure (f : Z -> Z -> V -> V) : quiet_zero (fun r c v => isz (f r c v)) (fun r c v => mret (f r c v)).
Proof. intros r c v w Hw. split; [reflexivity|]. simpl. intros x E _ Hx. inversion E; subst. exact Hx. Qed.
Lemma quiet_zero_masked k (f : V -> V) : zero_ok N ->
  quiet_zero (fun _ _ v => isz (f v)) (fun r c v => let! e := mask_Element k r c in mret (if e : bool then f v else v)).
Proof.
  intros Hz r c v w Hw. pose proof (mask_Element_quiet k r c w Hz Hw) as Hq.
  unfold mbind. destruct (mask_Element k r c w) as [w1 [b| |]]; simpl in *; split; auto; try discriminate.
  intros x E Hv Hx. injection E as <-. destruct b; [exact Hx|congruence].
Qed.

Lemma after_check {A} k t (x : mask -> M A) w : wfw w ->
  (forall k' w', w' = w -> wfw (fst (x k' w'))) -> wfw (fst (mbind (check_mask k t) x w)).
Proof.
  intros H Hx.
  assert (Hs : fst (check_mask k t w) = w).
  { unfold check_mask, p_Rows at 1, p_Columns at 1.
    destruct (load_cases t w) as [(O & Ho & El)|El]; [|unfold mbind; rewrite El; reflexivity].
    rewrite (mbind_ok _ _ w w (mat_Rows O)) by (rewrite (mbind_ok _ _ _ _ _ El); reflexivity).
    rewrite (mbind_ok _ _ w w (mat_Columns O)) by (rewrite (mbind_ok _ _ _ _ _ El); reflexivity).
    assert (HR : forall q, fst (mask_Rows q w) = w).
    { intros [| |p|]; try reflexivity. simpl. unfold p_Rows, mbind.
      destruct (load_cases p w) as [(? & ? & ->)| ->]; reflexivity. }
    assert (HC : forall q, fst (mask_Columns q w) = w).
    { intros [| |p|]; try reflexivity. simpl. unfold p_Columns, mbind.
      destruct (load_cases p w) as [(? & ? & ->)| ->]; reflexivity. }
    set (k' := match k with MNil => MEmpty (mat_Rows O) (mat_Columns O) | _ => k end).
    unfold mbind at 1. specialize (HR k'). destruct (mask_Rows k' w) as [w1 [x1| |]]; simpl in HR; subst; auto.
    destruct (negb (x1 =? mat_Rows O)); [reflexivity|].
    unfold mbind at 1. specialize (HC k'). destruct (mask_Columns k' w) as [w1 [x2| |]]; simpl in HC; subst; auto.
    destruct (negb (x2 =? mat_Columns O)); reflexivity. }
  unfold mbind. destruct (check_mask k t w) as [w1 [k'| |]]; simpl in Hs; subst; auto.
Qed.

Lemma sparse_is_sp m : sparse_obj m = is_sp m. Proof. destruct m; reflexivity. Qed.

Lemma wfw_Apply E s k u (t : ptr) w : zero_ok N -> wfw w ->
  (s = t -> forall m, obj w t m -> harmless_zeros m (fun _ _ => u)) -> wfw (fst (Apply E s k u t w)).
Proof.
  intros Hz H Hu. unfold Apply. apply after_check; auto. intros k' w' ->.
  destruct (Nat.eqb s t) eqn:Est.
  - apply Nat.eqb_eq in Est; subst. apply (map_over_calm _ _ _ _ (fun _ _ => u)); auto. apply (quiet_zero_masked k' u Hz).
  - assert (P : pres (let! _ := enumerate E s tt (fun r c value =>
      let! e := mask_Element k' r c in
      (if negb e then p_Set t c r (u value) else mret tt) ;!; mret None) in mret tt)) by pr.
    apply P; auto.
Qed.

Lemma wfw_Negative E s k (t : ptr) w : zero_ok N -> neg_nz N -> wfw w -> wfw (fst (Negative E s k t w)).
Proof.
  intros Hz Hn H. unfold Negative. apply after_check; auto. intros k' w' ->.
  apply map_over_pres; auto. intros m Ho r c v w' Hw'.
  destruct (quiet_masked (is_sp m) k' (fun v => v) nneg Hz) with (r := r) (c := c) (v := v) (w := w')
    as [Hq Hx]; auto.
  { intros Hs x Hx. split; [auto|]. apply Hn; auto. }
  unfold mbind in *. destruct (mask_Element k' r c w') as [w1 [b| |]]; simpl in *; split; auto; try discriminate.
  intros x E'. apply Hx. rewrite <- E'. destruct b; reflexivity.
Qed.

Lemma wfw_Copy_then {A} p (k : ptr -> M A) w : wfw w ->
  (forall m, obj w p m -> wfw (fst (k (length (w_heap w)) (ext w m)))) ->
  wfw (fst (mbind (p_Copy p) k w)).
Proof.
  intros H Hk. destruct (load_cases p w) as [(m & Ho & El)|El].
  - rewrite (mbind_ok _ _ _ _ _ (p_Copy_ok _ _ _ Ho (H _ _ Ho))). auto.
  - rewrite (mbind_panic _ _ w w); [auto|]. unfold p_Copy. apply mbind_panic; auto.
Qed.

Lemma drop_fst {A} (x : M A) w : fst (drop x w) = fst (x w).
Proof. unfold drop, mbind. destruct (x w) as [? [?| |]]; reflexivity. Qed.
Lemma bind_ret_fst {A B} (x : M A) (f : A -> B) w : fst (mbind x (fun a => mret (f a)) w) = fst (x w).
Proof. unfold mbind. destruct (x w) as [? [?| |]]; reflexivity. Qed.

Lemma wfw_Scalar E s a w : zero_ok N -> wfw w ->
  (forall m, obj w s m -> harmless_zeros m (fun _ _ => nmul a)) -> wfw (fst (Scalar E s a w)).
Proof.
  intros Hz H Ha. unfold Scalar. apply wfw_Copy_then; auto. intros m Ho.
  rewrite (bind_ret_fst _ (fun _ : unit => length (w_heap w))).
  apply (map_over_calm _ _ _ _ (fun _ _ => nmul a)); [apply wfw_ext; auto; eapply H; eauto|apply (quiet_zero_pure (fun _ _ => nmul a))|]. intros m' Ho'.
  rewrite (obj_inj _ _ _ _ Ho' (obj_ext_new w m)). auto.
Qed.

Lemma pres_new (x : res mat) : (forall m, x = Ok m -> wf m) -> pres (new x).
Proof. intros H. unfold new. apply pres_lift_bind. intros m E. apply pres_bind; [apply pres_alloc; auto|]. intros; apply pres_ret. Qed.

Lemma rfold_inv {S I} (P : S -> Prop) (body : S -> I -> res S) (l : list I) : forall s s',
  (forall s i s', P s -> body s i = Ok s' -> P s') -> P s -> rfold body s l = Ok s' -> P s'.
Proof.
  induction l as [|i l IH]; intros s s' Hb Hs E; simpl in E; [congruence|].
  destruct (body s i) as [s1| |] eqn:E1; simpl in E; try discriminate. eapply IH; [exact Hb| |exact E]. eapply Hb; eauto.
Qed.

Lemma new_csr_wf r c (s : csr N) : 0 <= r -> 0 <= c -> newCSRMatrix r c 0 = Ok s -> wf (MCSR s).
Proof.
  intros Hr Hc E. rewrite new_csr_spec in E by auto. inversion E; subst. simpl.
  eexists _, _, _. split; [reflexivity|]. apply rows_ok_empty; auto.
Qed.
Lemma new_csc_wf r c (s : csc N) : 0 <= r -> 0 <= c -> newCSCMatrix r c 0 = Ok s -> wf (MCSC s).
Proof.
  intros Hr Hc E. rewrite new_csc_spec in E by auto. inversion E; subst. simpl.
  eexists _, _, _. split; [reflexivity|]. apply rows_ok_empty; auto.
Qed.
Lemma newMatrix_wf r c (s : dense N) : 0 <= r -> 0 <= c -> r * c < 2 ^ 63 -> newMatrix r c = Ok s -> wf (MDM s).
Proof.
  intros Hr Hc Hb E. rewrite newMatrix_spec in E by auto. inversion E; subst. simpl. eauto 10.
Qed.
Lemma newDenseVector_wf l (s : dvec N) : newDenseVector l = Ok s -> wf (MDV s).
Proof.
  intros E. destruct (Z_le_dec 0 l); [|rewrite newDenseVector_neg in E by lia; discriminate].
  rewrite newDenseVector_spec in E by auto. inversion E; subst. simpl; eauto.
Qed.

Lemma CSRFrom_wf (d : list (list V)) (s : csr N) : zero_ok N -> NewCSRMatrixFromArray d = Ok s -> wf (MCSR s).
Proof.
  intros Hz E. unfold NewCSRMatrixFromArray in E.
  destruct (zget d 0) as [row0| |]; simpl in E; try discriminate.
  destruct (newCSRMatrix (zlen d) (zlen row0) 0) as [s0| |] eqn:E0; simpl in E; try discriminate.
  eapply (rfold_inv (fun s => wf (MCSR s))); [|eapply new_csr_wf; [| |exact E0]; apply zlen_nonneg|exact E].
  intros s1 i s2 H1 E1. eapply (rfold_inv (fun s => wf (MCSR s))); [|exact H1|exact E1].
  intros s3 k s4 H3 E3. destruct (zget d i) as [rw| |]; simpl in E3; try discriminate.
  destruct (zget rw k) as [v| |]; simpl in E3; try discriminate.
  eapply (Set_any (MCSR s3) i k v (MCSR s4)); auto. simpl. rewrite E3. reflexivity.
Qed.
Lemma CSCFrom_wf (d : list (list V)) (s : csc N) : zero_ok N -> NewCSCMatrixFromArray d = Ok s -> wf (MCSC s).
Proof.
  intros Hz E. unfold NewCSCMatrixFromArray in E.
  destruct (zget d 0) as [row0| |]; simpl in E; try discriminate.
  destruct (newCSCMatrix (zlen d) (zlen row0) 0) as [s0| |] eqn:E0; simpl in E; try discriminate.
  eapply (rfold_inv (fun s => wf (MCSC s))); [|eapply new_csc_wf; [| |exact E0]; apply zlen_nonneg|exact E].
  intros s1 i s2 H1 E1. eapply (rfold_inv (fun s => wf (MCSC s))); [|exact H1|exact E1].
  intros s3 k s4 H3 E3. destruct (zget d i) as [rw| |]; simpl in E3; try discriminate.
  destruct (zget rw k) as [v| |]; simpl in E3; try discriminate.
  eapply (Set_any (MCSC s3) i k v (MCSC s4)); auto. simpl. rewrite E3. reflexivity.
Qed.
Lemma DenseFrom_spec (d : list (list V)) (s : dense N) : rectangular d -> NewDenseMatrixFromArray d = Ok s ->
  exists row0 rest, d = row0 :: rest /\
  s = mk_dm (zlen d) (zlen row0) (fun i j => nth (Z.to_nat j) (nth (Z.to_nat i) d []) n0).
Proof.
  intros Hr E. unfold NewDenseMatrixFromArray in E.
  destruct d as [|row0 d]; [discriminate|]. exists row0, d. split; [reflexivity|].
  change (zget (row0 :: d) 0) with (@Ok (list V) row0) in E. cbn [rbind] in E.
  rewrite newMatrix_spec in E by apply zlen_nonneg. cbn [rbind dm_c dm_r mk_dm] in E.
  inversion E; subst. apply dm_rep. unfold dm_ok. cbn [dm_r dm_c dm_data].
  split; [apply zlen_nonneg|]. split; [apply zlen_nonneg|]. split; [reflexivity|].
  apply Forall_forall. intros x Hx. apply Hr; simpl; auto.
Qed.
Lemma DenseFrom_wf (d : list (list V)) (s : dense N) : rectangular d -> (forall row, In row d -> zlen d * zlen row < 2 ^ 63) ->
  NewDenseMatrixFromArray d = Ok s -> wf (MDM s).
Proof.
  intros Hr Hb E. destruct (DenseFrom_spec d s Hr E) as (row0 & rest & Hd & ->). simpl.
  eexists _, _, _. split; [reflexivity|]. split; [apply zlen_nonneg|]. split; [apply zlen_nonneg|].
  apply Hb. rewrite Hd. simpl; auto.
Qed.
Lemma SVFrom_wf (d : list V) (s : svec N) : NewSparseVectorFromArray d = Ok s -> wf (MSV s).
Proof.
  intros E. unfold NewSparseVectorFromArray in E.
  change (newSparseVector (zlen d) 0) with (@NewSparseVector N (zlen d)) in E.
  rewrite NewSparseVector_spec in E. cbn [rbind] in E.
  eapply (rfold_inv (fun s => wf (MSV s))); [| |exact E].
  - intros s1 i s2 H1 E1. cbn beta in E1. destruct (zget d i) as [v| |]; simpl in E1; try discriminate.
    eapply (SetVec_any (MSV s1) i v (MSV s2)); auto. simpl. rewrite E1. reflexivity.
  - simpl. exists (zlen d), []. split; [reflexivity|]. split; [apply zlen_nonneg|]. auto.
Qed.
Lemma DVFrom_wf (d : list V) (s : dvec N) : NewDenseVectorFromArray d = Ok s -> wf (MDV s).
Proof.
  intros E. unfold NewDenseVectorFromArray in E. rewrite newDenseVector_spec in E by apply zlen_nonneg.
  cbn [rbind dv_l mk_dv] in E. inversion E; subst.
  destruct (dv_rep (MkDV (zlen d) d) eq_refl) as (f & Ef). simpl in Ef. rewrite Ef. simpl.
  eexists _, _. split; [reflexivity|apply zlen_nonneg].
Qed.

Lemma ReSize_wf (s : dvec N) n l s' : wf (MDV s) -> dv_ReSize s n = Ok (l, s') -> wf (MDV s').
Proof.
  intros H E. unfold dv_ReSize in E. match type of E with rbind ?x _ = _ => destruct x as [vs| |] end; try discriminate.
  cbn [rbind] in E. inversion E; subst.
  destruct (dv_rep (MkDV (zlen vs) vs) eq_refl) as (f & Ef). simpl in Ef. rewrite Ef. simpl.
  eexists _, _. split; [reflexivity|apply zlen_nonneg].
Qed.

Lemma wf_nonneg m : wf m -> 0 <= mat_Rows m /\ 0 <= mat_Columns m.
Proof. apply wf_dims. Qed.

Ltac inv_rmap E := match type of E with rmap _ ?x = Ok _ =>
  let s' := fresh "s" in let Es := fresh "Es" in
  destruct x as [s'| |] eqn:Es; simpl in E; try discriminate; injection E as E; subst end.

(** one allowed call *)
Theorem after_wfw w k : zero_ok N -> neg_nz N -> wfw w -> allowed w k -> wfw (after k w).
Proof.
  intros Hz Hn H Ha. unfold after.
  assert (P : forall A (x : M A), pres x -> wfw (fst (x w))) by (intros A x Hx; apply Hx; auto).
  destruct k; cbn [perform allowed] in *; rewrite ?drop_fst.
  - apply P, pres_new. intros m E. inv_rmap E. eapply new_csr_wf; [| |exact Es]; tauto.
  - apply P, pres_new. intros m E. inv_rmap E. eapply new_csc_wf; [| |exact Es]; tauto.
  - apply P, pres_new. intros m E. inv_rmap E. eapply newMatrix_wf; [| | |exact Es]; tauto.
  - apply P, pres_new. intros m E. inv_rmap E. eapply newDenseVector_wf; eauto.
  - apply P, pres_new. intros m E. inv_rmap E. rewrite NewSparseVector_spec in Es. inversion Es; subst.
    simpl. exists l, []. repeat split; auto.
  - apply P, pres_new. intros m E. inv_rmap E. eapply CSRFrom_wf; eauto.
  - apply P, pres_new. intros m E. inv_rmap E. eapply CSCFrom_wf; eauto.
  - apply P, pres_new. intros m E. inv_rmap E. eapply DenseFrom_wf; [| |exact Es]; tauto.
  - apply P, pres_new. intros m E. inv_rmap E. eapply DVFrom_wf; eauto.
  - apply P, pres_new. intros m E. inv_rmap E. eapply SVFrom_wf; eauto.
  - apply P, pres_Set; auto.
  - apply P, pres_Update; auto.
  - apply P, pres_SetVec; auto.
  - apply P, pres_At; auto.
  - apply P, pres_Element; auto.
  - apply P, pres_Clear; auto.
  - apply P, pres_Copy; auto.
  - apply P. unfold p_ReSize. apply pres_load. intros m Hm. destruct m; try apply pres_panic.
    apply pres_lift_bind. intros [l s'] E. apply pres_bind; [|intros; apply pres_ret].
    apply pres_store. eapply ReSize_wf; eauto.
  - apply P, pres_RowsAt; auto.
  - apply P, pres_ColumnsAt; auto.
  - apply (map_over_calm _ _ _ _ f); auto. apply quiet_zero_pure.
  - apply P, pres_multiply; auto.
  - apply P, pres_multiply; auto.
  - apply P, pres_Add; auto.
  - apply P, pres_Subtract; auto.
  - apply P. unfold ElementWiseMatrixMultiply. pr; try (apply pres_ewm; auto).
  - apply P. unfold ElementWiseVectorMultiply. pr; try (apply pres_ewm; auto).
  - apply P. unfold ElementWiseMatrixAdd. pr; try (apply pres_ewa; auto).
  - apply P. unfold ElementWiseVectorAdd. pr; try (apply pres_ewa; auto).
  - apply wfw_Apply; auto.
  - apply wfw_Negative; auto.
  - apply P, pres_Transpose; auto.
  - unfold TransposeToCSR, p_Columns at 1, p_Rows at 1.
    destruct (load_cases s w) as [(so & Ho & El)|El]; [|unfold mbind; rewrite El; exact H].
    rewrite (mbind_ok _ _ w w (mat_Columns so)) by (rewrite (mbind_ok _ _ _ _ _ El); reflexivity).
    rewrite (mbind_ok _ _ w w (mat_Rows so)) by (rewrite (mbind_ok _ _ _ _ _ El); reflexivity).
    apply P. apply pres_lift_bind. intros t Et. apply pres_bind; [|intros; apply pres_bind; [apply pres_Transpose; auto|intros; apply pres_ret]].
    apply pres_alloc. eapply new_csr_wf; [| |exact Et]; apply wf_dims; eapply H; eauto.
  - unfold TransposeToCSC, p_Columns at 1, p_Rows at 1.
    destruct (load_cases s w) as [(so & Ho & El)|El]; [|unfold mbind; rewrite El; exact H].
    rewrite (mbind_ok _ _ w w (mat_Columns so)) by (rewrite (mbind_ok _ _ _ _ _ El); reflexivity).
    rewrite (mbind_ok _ _ w w (mat_Rows so)) by (rewrite (mbind_ok _ _ _ _ _ El); reflexivity).
    apply P. apply pres_lift_bind. intros t Et. apply pres_bind; [|intros; apply pres_bind; [apply pres_Transpose; auto|intros; apply pres_ret]].
    apply pres_alloc. eapply new_csc_wf; [| |exact Et]; apply wf_dims; eapply H; eauto.
  - apply P, pres_Equal; auto.
  - apply P. unfold NotEqual. apply pres_bind; [apply pres_Equal; auto|intros; apply pres_ret].
  - apply wfw_Scalar; auto.
  - apply P, pres_Reduce; auto.
  - apply P. unfold ReduceMatrixToVectorWithMonoID. apply pres_bind; [apply pres_Columns|intros cols].
    apply pres_lift_bind. intros v0 Ev. apply pres_bind; [apply pres_alloc; eapply newDenseVector_wf; eauto|intros vp].
    pr; apply pres_reduce_loop; auto.
  - unfold m_Multiply.
    destruct (load_cases s w) as [(so & Ho & El)|El]; [|unfold mbind; rewrite El; exact H].
    rewrite (mbind_ok _ _ _ _ _ El).
    destruct (load_cases m w) as [(mo & Hmo & Elm)|Elm]; [|unfold p_Rows at 1, mbind; rewrite Elm; exact H].
    rewrite (mbind_ok _ _ _ _ _ (p_Rows_ok _ _ _ Hmo)), (mbind_ok _ _ _ _ _ (p_Columns_ok _ _ _ Hmo)).
    specialize (Ha so mo Ho Hmo). pose proof (wf_dims so (H _ _ Ho)) as [D1 D2]. pose proof (wf_dims mo (H _ _ Hmo)) as [D3 D4].
    apply P. apply pres_lift_bind. intros t Et. apply pres_bind; [|intros; apply pres_bind; [apply pres_multiply; auto|intros; apply pres_ret]].
    apply pres_alloc. destruct so; inv_rmap Et.
    + eapply new_csr_wf; [| |exact Es]; auto.
    + eapply new_csc_wf; [| |exact Es]; auto.
    + eapply newMatrix_wf; [| | |exact Es]; auto.
    + eapply newMatrix_wf; [| | |exact Es]; auto.
    + eapply newMatrix_wf; [| | |exact Es]; auto.
  - apply P. unfold m_Add. pr; try (apply pres_Add; auto).
  - apply P. unfold m_Subtract. pr; try (apply pres_Subtract; auto).
  - unfold m_Negative. apply wfw_Copy_then; auto. intros m Ho.
    rewrite (bind_ret_fst _ (fun _ : unit => length (w_heap w))). apply wfw_Negative; auto.
    apply wfw_ext; auto. eapply H; eauto.
  - unfold m_Transpose.
    destruct (load_cases s w) as [(so & Ho & El)|El]; [|unfold mbind; rewrite El; exact H].
    rewrite (mbind_ok _ _ _ _ _ El). specialize (Ha so Ho). pose proof (H _ _ Ho) as Hwf.
    pose proof (wf_dims so Hwf) as [D1 D2].
    apply P. apply pres_lift_bind. intros t Et. apply pres_bind; [|intros; apply pres_bind; [apply pres_Transpose; auto|intros; apply pres_ret]].
    apply pres_alloc. destruct so; inv_rmap Et.
    + eapply new_csr_wf; [| |exact Es]; auto.
    + eapply new_csc_wf; [| |exact Es]; auto.
    + eapply newMatrix_wf; [| | |exact Es]; auto. destruct Hwf as (R & C & f & -> & ? & ? & ?). cbn in *. lia.
    + eapply newMatrix_wf; [| | |exact Es]; auto. cbn [mat_Rows mat_Columns] in *. unfold dv_Columns in *. lia.
    + eapply newMatrix_wf; [| | |exact Es]; auto. cbn [mat_Rows mat_Columns] in *. unfold sv_Columns in *. lia.
Qed.

Theorem reach_wfw w : zero_ok N -> neg_nz N -> reachable w -> wfw w.
Proof.
  intros Hz Hn H. induction H as [|w k H IH Ha]; [|apply after_wfw; auto].
  intros p m Ho. unfold obj, empty_world in Ho. simpl in Ho. destruct p; discriminate.
Qed.

Lemma reach_wf w p m : zero_ok N -> neg_nz N -> reachable w -> obj w p m -> wf m.
Proof. intros Hz Hn H Ho. eapply reach_wfw; eauto. Qed.

Lemma after_all_reachable ks : forall w, reachable w ->
  (forall pre k post, ks = pre ++ k :: post -> allowed (after_all pre w) k) -> reachable (after_all ks w).
Proof.
  induction ks as [|k ks IH]; intros w H Ha; simpl; auto.
  apply IH.
  - constructor; auto. apply (Ha [] k ks); reflexivity.
  - intros pre k' post ->. apply (Ha (k :: pre) k' post). reflexivity.
Qed.

End Reach.
