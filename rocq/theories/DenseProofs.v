(** Dense storage as functions on indices. *)
From Verif Require Import GoBase Num BaseProofs DenseVec DenseMat.

(** the slice [f 0, ..., f (L-1)] *)
Definition tab {A} (L : Z) (f : Z -> A) : list A := map f (zrange 0 L).

Definition upd1 {A} (f : Z -> A) (i : Z) (x : A) : Z -> A := fun j => if j =? i then x else f j.
Definition upd2 {A} (f : Z -> Z -> A) (r c : Z) (x : A) : Z -> Z -> A :=
  fun i j => if (i =? r) && (j =? c) then x else f i j.

Lemma zlen_tab {A} L (f : Z -> A) : 0 <= L -> zlen (tab L f) = L.
Proof. intros H. unfold tab. rewrite zlen_map, zlen_zrange by lia. lia. Qed.

Lemma zget_tab {A} L (f : Z -> A) i : 0 <= i < L -> zget (tab L f) i = Ok (f i).
Proof. intros H. unfold tab. rewrite zget_map, zget_zrange by lia. reflexivity. Qed.

Lemma tab_ext {A} L (f g : Z -> A) : (forall i, 0 <= i < L -> f i = g i) -> tab L f = tab L g.
Proof. intros H. unfold tab. apply map_ext_in. intros i Hi. apply in_zrange in Hi. auto. Qed.

Lemma tab_of_list {A} (d : A) (l : list A) : l = tab (zlen l) (fun i => nth (Z.to_nat i) l d).
Proof.
  apply zget_ext; [rewrite zlen_tab; [reflexivity|apply zlen_nonneg]|].
  intros i Hi. rewrite zget_tab by auto. apply zget_nth. split; [lia|].
  apply nth_error_nth'. unfold zlen in Hi; lia.
Qed.

Lemma zset_tab {A} L (f : Z -> A) i x : 0 <= i < L -> zset (tab L f) i x = Ok (tab L (upd1 f i x)).
Proof.
  intros H. rewrite zset_ok by (rewrite zlen_tab by lia; lia). f_equal.
  apply zget_ext; [rewrite zlen_list_set, !zlen_tab by lia; reflexivity|].
  intros j Hj. rewrite zlen_list_set, zlen_tab in Hj by lia.
  rewrite zget_list_set by (rewrite zlen_tab by lia; lia). rewrite !zget_tab by lia.
  unfold upd1. destruct (j =? i); reflexivity.
Qed.

Lemma repeat_tab {A} (x : A) L : 0 <= L -> repeat x (Z.to_nat L) = tab L (fun _ => x).
Proof.
  intros H. apply zget_ext; [zl; rewrite zlen_tab by lia; lia|].
  intros i Hi. zl. rewrite zget_repeat by lia. rewrite zget_tab by lia. reflexivity.
Qed.

Lemma make_slice_tab {A} (x : A) L : 0 <= L -> make_slice x L = Ok (tab L (fun _ => x)).
Proof. intros H. rewrite make_slice_ok by auto. rewrite repeat_tab by auto. reflexivity. Qed.

(** filling a slice from left to right *)
Lemma fill_tab {A} L (f g : Z -> A) (body : list A -> Z -> res (list A)) : 0 <= L ->
  (forall t i, 0 <= i < L -> zlen t = L -> body t i = zset t i (g i)) ->
  rfold body (tab L f) (zrange 0 L) = Ok (tab L g).
Proof.
  intros HL Hb.
  destruct (rfold_range_inv (fun i t => t = tab L (fun j => if j <? i then g j else f j)) body 0 L (tab L f))
    as (t & -> & ->); auto.
  - apply tab_ext. intros i Hi. destruct (i <? 0) eqn:E; [lia|reflexivity].
  - intros i t Hi ->. rewrite Hb by (rewrite ?zlen_tab; lia). rewrite zset_tab by lia.
    eexists; split; [reflexivity|]. apply tab_ext. intros j Hj. unfold upd1.
    destruct (j =? i) eqn:E1; destruct (j <? i + 1) eqn:E2; destruct (j <? i) eqn:E3; try lia; auto.
    f_equal; lia.
  - f_equal. apply tab_ext. intros i Hi. destruct (i <? L) eqn:E; [reflexivity|lia].
Qed.

Section Dense.
Context {N : num}.
Notation V := (T N).

(** ** Vectors *)
Definition mk_dv (L : Z) (f : Z -> V) : dvec N := MkDV L (tab L f).

Lemma mk_dv_ext L f g : (forall i, 0 <= i < L -> f i = g i) -> mk_dv L f = mk_dv L g.
Proof. intros H. unfold mk_dv. f_equal. apply tab_ext; auto. Qed.

Lemma dv_rep (s : dvec N) : zlen (dv_values s) = dv_l s -> exists f, s = mk_dv (dv_l s) f.
Proof.
  intros H. exists (fun i => nth (Z.to_nat i) (dv_values s) n0). destruct s as [l vs]; cbn in *.
  unfold mk_dv. f_equal. rewrite <- H. apply tab_of_list.
Qed.

Lemma newDenseVector_spec L : 0 <= L -> newDenseVector L = Ok (mk_dv L (fun _ => n0)).
Proof. intros H. unfold newDenseVector. rewrite make_slice_tab by auto. reflexivity. Qed.

Lemma newDenseVector_neg L : L < 0 -> @newDenseVector N L = Panic.
Proof. intros H. unfold newDenseVector, make_slice. destruct (L <? 0) eqn:E; [reflexivity|lia]. Qed.

Lemma dv_AtVec_spec L f i : 0 <= i < L -> dv_AtVec (mk_dv L f) i = Ok (f i).
Proof.
  intros H. unfold dv_AtVec, dv_Length. cbn. destruct ((i <? 0) || (i >=? L)) eqn:E; [lia|].
  apply zget_tab; auto.
Qed.
Lemma dv_AtVec_panic L f i : ~ (0 <= i < L) -> dv_AtVec (mk_dv L f) i = Panic.
Proof. intros H. unfold dv_AtVec, dv_Length. cbn. destruct ((i <? 0) || (i >=? L)) eqn:E; [reflexivity|lia]. Qed.

Lemma dv_SetVec_spec L f i x : 0 <= i < L -> dv_SetVec (mk_dv L f) i x = Ok (mk_dv L (upd1 f i x)).
Proof.
  intros H. unfold dv_SetVec, dv_Length. cbn. destruct ((i <? 0) || (i >=? L)) eqn:E; [lia|].
  rewrite zset_tab by auto. reflexivity.
Qed.
Lemma dv_SetVec_panic L f i x : ~ (0 <= i < L) -> dv_SetVec (mk_dv L f) i x = Panic.
Proof. intros H. unfold dv_SetVec, dv_Length. cbn. destruct ((i <? 0) || (i >=? L)) eqn:E; [reflexivity|lia]. Qed.

Lemma dv_Update_spec {W} L f r (g : V -> W * V) : 0 <= r < L ->
  dv_Update (mk_dv L f) r 0 g = Ok (fst (g (f r)), mk_dv L (upd1 f r (snd (g (f r))))).
Proof.
  intros H. unfold dv_Update, dv_Rows, dv_Columns.
  replace (dv_l (mk_dv L f)) with L by reflexivity.
  destruct ((r <? 0) || (r >=? L)) eqn:E; [lia|]. simpl.
  rewrite dv_AtVec_spec by auto. cbn [rbind]. destruct (g (f r)) as [w x]. cbn [fst snd].
  rewrite dv_SetVec_spec by auto. reflexivity.
Qed.
Lemma dv_Update_panic {W} L f r c (g : V -> W * V) : ~ (0 <= r < L /\ c = 0) ->
  dv_Update (mk_dv L f) r c g = Panic.
Proof.
  intros H. unfold dv_Update, dv_Rows, dv_Columns.
  replace (dv_l (mk_dv L f)) with L by reflexivity.
  destruct ((r <? 0) || (r >=? L)) eqn:E; [reflexivity|].
  destruct ((c <? 0) || (c >=? 1)) eqn:E2; [reflexivity|lia].
Qed.

Lemma dv_Set_spec L f r x : 0 <= r < L -> dv_Set (mk_dv L f) r 0 x = Ok (mk_dv L (upd1 f r x)).
Proof.
  intros H. unfold dv_Set, dv_Rows, dv_Columns.
  replace (dv_l (mk_dv L f)) with L by reflexivity.
  destruct ((r <? 0) || (r >=? L)) eqn:E; [lia|]. simpl. apply dv_SetVec_spec; auto.
Qed.
Lemma dv_Set_panic L f r c x : ~ (0 <= r < L /\ c = 0) -> dv_Set (mk_dv L f) r c x = Panic.
Proof.
  intros H. unfold dv_Set, dv_Rows, dv_Columns.
  replace (dv_l (mk_dv L f)) with L by reflexivity.
  destruct ((r <? 0) || (r >=? L)) eqn:E; [reflexivity|].
  destruct ((c <? 0) || (c >=? 1)) eqn:E2; [reflexivity|lia].
Qed.

(** filling a vector from left to right *)
Lemma fill_dv L f g (body : dvec N -> Z -> res (dvec N)) : 0 <= L ->
  (forall t i, 0 <= i < L -> dv_l t = L -> body t i = dv_SetVec t i (g i)) ->
  rfold body (mk_dv L f) (zrange 0 L) = Ok (mk_dv L g).
Proof.
  intros HL Hb.
  destruct (rfold_range_inv (fun i t => t = mk_dv L (fun j => if j <? i then g j else f j)) body 0 L (mk_dv L f))
    as (t & -> & ->); auto.
  - apply mk_dv_ext. intros i Hi. destruct (i <? 0) eqn:E; [lia|reflexivity].
  - intros i t Hi ->. rewrite Hb by (auto; lia). rewrite dv_SetVec_spec by lia.
    eexists; split; [reflexivity|]. apply mk_dv_ext. intros j Hj. unfold upd1.
    destruct (j =? i) eqn:E1; destruct (j <? i + 1) eqn:E2; destruct (j <? i) eqn:E3; try lia; auto.
    f_equal; lia.
  - f_equal. apply mk_dv_ext. intros i Hi. destruct (i <? L) eqn:E; [reflexivity|lia].
Qed.

Lemma dv_copy_spec L f : 0 <= L -> dv_copy (mk_dv L f) = Ok (mk_dv L f).
Proof.
  intros HL. unfold dv_copy. cbn [dv_l dv_values mk_dv]. rewrite newDenseVector_spec by auto. cbn [rbind].
  rewrite zlen_tab by auto. rewrite (fill_dv L _ f); auto.
  intros t i Hi _. rewrite zget_tab by auto. reflexivity.
Qed.

Lemma dv_RowsAt_spec L f r : 0 <= r < L -> dv_RowsAt (mk_dv L f) r = Ok (mk_dv 1 (fun _ => f r)).
Proof.
  intros H. unfold dv_RowsAt, dv_Rows. replace (dv_l (mk_dv L f)) with L by reflexivity.
  destruct ((r <? 0) || (r >=? L)) eqn:E; [lia|].
  rewrite newDenseVector_spec by lia. cbn [rbind]. rewrite dv_AtVec_spec by auto. cbn [rbind].
  rewrite dv_SetVec_spec by lia. apply f_equal. apply mk_dv_ext. intros i Hi. unfold upd1.
  destruct (i =? 0) eqn:E2; [reflexivity|lia].
Qed.

Lemma dv_RowsAtToArray_spec L f r : 0 <= r < L -> dv_RowsAtToArray (mk_dv L f) r = Ok [f r].
Proof.
  intros H. unfold dv_RowsAtToArray, dv_Rows. replace (dv_l (mk_dv L f)) with L by reflexivity.
  destruct ((r <? 0) || (r >=? L)) eqn:E; [lia|].
  rewrite make_slice_ok by lia. cbn [rbind]. rewrite dv_AtVec_spec by auto. reflexivity.
Qed.

Lemma dv_Clear_spec L f : 0 <= L -> dv_Clear (mk_dv L f) = Ok (mk_dv L (fun _ => n0)).
Proof. intros H. unfold dv_Clear. cbn [dv_l mk_dv]. rewrite make_slice_tab by auto. reflexivity. Qed.

(** ** Matrices *)
Definition mk_dm (R C : Z) (f : Z -> Z -> V) : dense N :=
  MkDense C R (tab R (fun i => tab C (f i))).

Definition dm_ok (s : dense N) : Prop :=
  0 <= dm_r s /\ 0 <= dm_c s /\ zlen (dm_data s) = dm_r s /\
  Forall (fun row => zlen row = dm_c s) (dm_data s).

Lemma mk_dm_ext R C f g : (forall i j, 0 <= i < R -> 0 <= j < C -> f i j = g i j) ->
  mk_dm R C f = mk_dm R C g.
Proof.
  intros H. unfold mk_dm. f_equal. apply tab_ext. intros i Hi. apply tab_ext. intros j Hj. auto.
Qed.

Lemma mk_dm_ok R C f : 0 <= R -> 0 <= C -> dm_ok (mk_dm R C f).
Proof.
  intros HR HC. repeat split; cbn; auto; [apply zlen_tab; auto|].
  apply Forall_forall. intros l Hl. unfold tab in Hl at 1. apply in_map_iff in Hl as (i & <- & Hi).
  apply zlen_tab; auto.
Qed.

Lemma dm_rep (s : dense N) : dm_ok s ->
  s = mk_dm (dm_r s) (dm_c s) (fun i j => nth (Z.to_nat j) (nth (Z.to_nat i) (dm_data s) []) n0).
Proof.
  intros (HR & HC & Hl & Hf). destruct s as [c r data]. cbn in *. unfold mk_dm. f_equal.
  rewrite <- Hl. rewrite (tab_of_list [] data) at 1. apply tab_ext. intros i Hi.
  rewrite Forall_forall in Hf. rewrite <- (Hf (nth (Z.to_nat i) data [])).
  - apply tab_of_list.
  - apply nth_In. unfold zlen in Hi; lia.
Qed.

Lemma newMatrix_spec R C : 0 <= R -> 0 <= C -> newMatrix R C = Ok (mk_dm R C (fun _ _ => n0)).
Proof.
  intros HR HC. unfold newMatrix. rewrite make_slice_tab by auto. cbn [rbind].
  rewrite (fill_tab R _ (fun _ => tab C (fun _ => n0))); auto.
  intros t i Hi _. rewrite make_slice_tab by auto. reflexivity.
Qed.

(** the rows are made one by one, so a negative column count is noticed only
    when there is a row *)
Lemma newMatrix_neg R C : R < 0 -> @newMatrix N R C = Panic.
Proof. intros H. unfold newMatrix, make_slice at 1. destruct (R <? 0) eqn:E; [reflexivity|lia]. Qed.

Lemma dm_read_spec R C f r c : 0 <= r < R -> 0 <= c < C -> dm_read (mk_dm R C f) r c = Ok (f r c).
Proof.
  intros Hr Hc. unfold dm_read. cbn [dm_data mk_dm]. rewrite zget_tab by auto. cbn [rbind].
  apply zget_tab; auto.
Qed.

Lemma dm_write_spec R C f r c x : 0 <= r < R -> 0 <= c < C ->
  dm_write (mk_dm R C f) r c x = Ok (mk_dm R C (upd2 f r c x)).
Proof.
  intros Hr Hc. unfold dm_write. cbn [dm_data dm_r dm_c mk_dm]. rewrite zget_tab by auto. cbn [rbind].
  rewrite zset_tab by auto. cbn [rbind]. rewrite zset_tab by auto. cbn [rbind].
  unfold mk_dm. do 2 f_equal. apply tab_ext. intros i Hi. unfold upd1 at 1.
  destruct (i =? r) eqn:E; apply tab_ext; intros j Hj; unfold upd2, upd1; rewrite E; simpl.
  - apply Z.eqb_eq in E; subst. reflexivity.
  - reflexivity.
Qed.

Definition dm_in (R C r c : Z) : Prop := 0 <= r < R /\ 0 <= c < C.

Lemma dm_Update_spec {W} R C f r c (g : V -> W * V) : 0 <= r < R -> 0 <= c < C ->
  dm_Update (mk_dm R C f) r c g =
  Ok (fst (g (f r c)), mk_dm R C (upd2 f r c (snd (g (f r c))))).
Proof.
  intros Hr Hc. unfold dm_Update, dm_Rows, dm_Columns.
  replace (dm_r (mk_dm R C f)) with R by reflexivity. replace (dm_c (mk_dm R C f)) with C by reflexivity.
  destruct ((r <? 0) || (r >=? R)) eqn:E1; [lia|]. destruct ((c <? 0) || (c >=? C)) eqn:E2; [lia|].
  rewrite dm_read_spec by auto. cbn [rbind]. destruct (g (f r c)) as [w x]. cbn [fst snd].
  rewrite dm_write_spec by auto. reflexivity.
Qed.
Lemma dm_Update_panic {W} R C f r c (g : V -> W * V) : ~ (0 <= r < R /\ 0 <= c < C) ->
  dm_Update (mk_dm R C f) r c g = Panic.
Proof.
  intros H. unfold dm_Update, dm_Rows, dm_Columns.
  replace (dm_r (mk_dm R C f)) with R by reflexivity. replace (dm_c (mk_dm R C f)) with C by reflexivity.
  destruct ((r <? 0) || (r >=? R)) eqn:E1; [reflexivity|].
  destruct ((c <? 0) || (c >=? C)) eqn:E2; [reflexivity|lia].
Qed.
Lemma dm_At_spec R C f r c : 0 <= r < R -> 0 <= c < C -> dm_At (mk_dm R C f) r c = Ok (f r c).
Proof.
  intros Hr Hc. unfold dm_At, dm_Rows, dm_Columns.
  replace (dm_r (mk_dm R C f)) with R by reflexivity. replace (dm_c (mk_dm R C f)) with C by reflexivity.
  destruct ((r <? 0) || (r >=? R)) eqn:E1; [lia|]. destruct ((c <? 0) || (c >=? C)) eqn:E2; [lia|].
  apply dm_read_spec; auto.
Qed.
Lemma dm_At_panic R C f r c : ~ (0 <= r < R /\ 0 <= c < C) -> dm_At (mk_dm R C f) r c = Panic.
Proof.
  intros H. unfold dm_At, dm_Rows, dm_Columns.
  replace (dm_r (mk_dm R C f)) with R by reflexivity. replace (dm_c (mk_dm R C f)) with C by reflexivity.
  destruct ((r <? 0) || (r >=? R)) eqn:E1; [reflexivity|].
  destruct ((c <? 0) || (c >=? C)) eqn:E2; [reflexivity|lia].
Qed.
Lemma dm_Set_spec R C f r c x : 0 <= r < R -> 0 <= c < C ->
  dm_Set (mk_dm R C f) r c x = Ok (mk_dm R C (upd2 f r c x)).
Proof.
  intros Hr Hc. unfold dm_Set, dm_Rows, dm_Columns.
  replace (dm_r (mk_dm R C f)) with R by reflexivity. replace (dm_c (mk_dm R C f)) with C by reflexivity.
  destruct ((r <? 0) || (r >=? R)) eqn:E1; [lia|]. destruct ((c <? 0) || (c >=? C)) eqn:E2; [lia|].
  apply dm_write_spec; auto.
Qed.
Lemma dm_Set_panic R C f r c x : ~ (0 <= r < R /\ 0 <= c < C) -> dm_Set (mk_dm R C f) r c x = Panic.
Proof.
  intros H. unfold dm_Set, dm_Rows, dm_Columns.
  replace (dm_r (mk_dm R C f)) with R by reflexivity. replace (dm_c (mk_dm R C f)) with C by reflexivity.
  destruct ((r <? 0) || (r >=? R)) eqn:E1; [reflexivity|].
  destruct ((c <? 0) || (c >=? C)) eqn:E2; [reflexivity|lia].
Qed.

Lemma dm_ColumnsAt_spec R C f c : 0 <= R -> 0 <= c < C ->
  dm_ColumnsAt (mk_dm R C f) c = Ok (mk_dv R (fun i => f i c)).
Proof.
  intros HR Hc. unfold dm_ColumnsAt, dm_Columns.
  replace (dm_r (mk_dm R C f)) with R by reflexivity. replace (dm_c (mk_dm R C f)) with C by reflexivity.
  destruct ((c <? 0) || (c >=? C)) eqn:E2; [lia|].
  rewrite newDenseVector_spec by auto. cbn [rbind]. rewrite (fill_dv R _ (fun i => f i c)); auto.
  intros t i Hi _. rewrite dm_read_spec by auto. reflexivity.
Qed.

Lemma dm_RowsAt_spec R C f r : 0 <= r < R -> 0 <= C ->
  dm_RowsAt (mk_dm R C f) r = Ok (mk_dv C (f r)).
Proof.
  intros Hr HC. unfold dm_RowsAt, dm_Rows.
  replace (dm_r (mk_dm R C f)) with R by reflexivity. replace (dm_c (mk_dm R C f)) with C by reflexivity.
  destruct ((r <? 0) || (r >=? R)) eqn:E2; [lia|].
  rewrite newDenseVector_spec by auto. cbn [rbind]. rewrite (fill_dv C _ (f r)); auto.
  intros t i Hi _. rewrite dm_read_spec by auto. reflexivity.
Qed.

Lemma dm_RowsAtToArray_spec R C f r : 0 <= r < R -> 0 <= C ->
  dm_RowsAtToArray (mk_dm R C f) r = Ok (tab C (f r)).
Proof.
  intros Hr HC. unfold dm_RowsAtToArray, dm_Rows.
  replace (dm_r (mk_dm R C f)) with R by reflexivity. replace (dm_c (mk_dm R C f)) with C by reflexivity.
  destruct ((r <? 0) || (r >=? R)) eqn:E2; [lia|].
  rewrite make_slice_tab by auto. cbn [rbind]. apply fill_tab; auto.
  intros t i Hi _. rewrite dm_read_spec by auto. reflexivity.
Qed.

Lemma dm_Copy_spec R C f : 0 <= R -> 0 <= C -> dm_Copy (mk_dm R C f) = Ok (mk_dm R C f).
Proof.
  intros HR HC. unfold dm_Copy, newMatrixInit, dm_Rows, dm_Columns.
  replace (dm_r (mk_dm R C f)) with R by reflexivity. replace (dm_c (mk_dm R C f)) with C by reflexivity.
  rewrite make_slice_tab by auto. cbn [rbind].
  rewrite (fill_tab R _ (fun i => tab C (f i))); auto.
  intros t i Hi _. rewrite make_slice_tab by auto. cbn [rbind].
  rewrite (fill_tab C _ (f i)); auto.
  intros t' j Hj _. rewrite dm_read_spec by auto. reflexivity.
Qed.

Lemma dm_Clear_spec R C f : 0 <= R -> 0 <= C -> dm_Clear (mk_dm R C f) = Ok (mk_dm R C (fun _ _ => n0)).
Proof.
  intros HR HC. unfold dm_Clear.
  replace (dm_r (mk_dm R C f)) with R by reflexivity. replace (dm_c (mk_dm R C f)) with C by reflexivity.
  rewrite make_slice_tab by auto. cbn [rbind].
  rewrite (fill_tab R _ (fun _ => tab C (fun _ => n0))); auto.
  intros t i Hi _. rewrite make_slice_tab by auto. reflexivity.
Qed.

Lemma wrap64_id z : 0 <= z < 2 ^ 63 -> wrap true 64 z = z.
Proof.
  intros H. unfold wrap. change (64 - 1) with 63.
  rewrite Z.mod_small; [lia|]. change (2 ^ 64) with (2 * 2 ^ 63). lia.
Qed.

(** ** Iterators *)

(** all cells of an R x C matrix in row-major order *)
Definition all_cells (R C : Z) : list (Z * Z) :=
  flat_map (fun i => map (fun j => (i, j)) (zrange 0 C)) (zrange 0 R).

Lemma in_all_cells R C i j : In (i, j) (all_cells R C) <-> 0 <= i < R /\ 0 <= j < C.
Proof.
  unfold all_cells. rewrite in_flat_map. split.
  - intros (x & Hx & H). apply in_zrange in Hx. apply in_map_iff in H as (y & E & Hy).
    apply in_zrange in Hy. inversion E; subst. lia.
  - intros [Hi Hj]. exists i. rewrite in_zrange. split; [auto|].
    apply in_map_iff. exists j. rewrite in_zrange. auto.
Qed.

Lemma zlen_flat_map_const {A B} (f : A -> list B) l k :
  (forall x, zlen (f x) = k) -> zlen (flat_map f l) = zlen l * k.
Proof.
  intros H. induction l; simpl; [reflexivity|]. zl. rewrite H, IHl. lia.
Qed.

Lemma zlen_all_cells R C : 0 <= R -> 0 <= C -> zlen (all_cells R C) = R * C.
Proof.
  intros HR HC. unfold all_cells. rewrite (zlen_flat_map_const _ _ C).
  - rewrite zlen_zrange by lia. f_equal; lia.
  - intros x. rewrite zlen_map, zlen_zrange by lia. lia.
Qed.

Lemma zget_all_cells R C k : 0 < C -> 0 <= k < R * C ->
  zget (all_cells R C) k = Ok (k / C, k mod C).
Proof.
  intros HC Hk. unfold all_cells.
  assert (Hgen : forall n a k, 0 <= k < Z.of_nat n * C ->
    zget (flat_map (fun i => map (fun j => (i, j)) (zrange 0 C)) (zrange a (a + Z.of_nat n))) k
    = Ok (a + k / C, k mod C)).
  { clear k Hk. induction n as [|n IH]; intros a k Hk; [lia|].
    rewrite (zrange_cons a) by lia. simpl flat_map.
    assert (Hl : zlen (map (fun j => (a, j)) (zrange 0 C)) = C) by (rewrite zlen_map, zlen_zrange by lia; lia).
    destruct (Z_lt_dec k C) as [Hlt|Hge].
    - rewrite zget_app1 by lia. rewrite zget_map, zget_zrange by lia. simpl.
      rewrite Z.div_small, Z.mod_small by lia. do 2 f_equal; lia.
    - rewrite zget_app2 by lia. rewrite Hl.
      replace (a + Z.of_nat (S n)) with (a + 1 + Z.of_nat n) by lia.
      rewrite IH by lia.
      replace k with (k - C + 1 * C) at 3 4 by lia.
      rewrite Z.div_add, Z.mod_add by lia. do 2 f_equal; lia. }
  assert (HR : 0 <= R) by (destruct (Z_lt_dec R 0); [nia|lia]).
  specialize (Hgen (Z.to_nat R) 0 k). rewrite Z2Nat.id, !Z.add_0_l in Hgen by lia.
  apply Hgen. lia.
Qed.

(** dense iterator: after [k] steps it stands at cell [k] *)
Definition dmi_inv (R C : Z) (it : dm_iter) (k : Z) : Prop :=
  0 <= k <= R * C /\ dmi_size it = R * C /\ dmi_last it = k /\
  ((k = 0 /\ dmi_c it = 0 /\ dmi_r it = 0) \/
   (0 < k /\ dmi_c it = (k - 1) mod C + 1 /\ dmi_r it = (k - 1) / C)).

Lemma dmi_init R C f : 0 <= R -> 0 <= C -> R * C < 2 ^ 63 ->
  dmi_inv R C (dm_iterator (mk_dm R C f)) 0.
Proof.
  intros HR HC Hb. unfold dm_iterator, dm_Values. cbn [dm_r dm_c mk_dm].
  repeat split; cbn; auto; try nia. apply wrap64_id. nia.
Qed.

Lemma dmi_HasNext R C it k : dmi_inv R C it k -> dm_HasNext it = (k <? R * C).
Proof.
  intros (H1 & H2 & H3 & _). unfold dm_HasNext. rewrite H2, H3.
  destruct (k >=? R * C) eqn:E1; destruct (k <? R * C) eqn:E2; auto; lia.
Qed.

Lemma dmi_next R C f it k : dmi_inv R C it k -> k < R * C -> 0 < C ->
  let it' := dm_next (mk_dm R C f) it in
  dmi_inv R C it' (k + 1) /\ dmi_r it' = k / C /\ dmi_cOld it' = k mod C.
Proof.
  intros (H1 & H2 & H3 & H4) Hk HC. unfold dm_next, dm_Columns.
  replace (dm_c (mk_dm R C f)) with C by reflexivity.
  destruct H4 as [(-> & E1 & E2)|(Hp & E1 & E2)].
  - rewrite E1, E2. destruct (0 =? C) eqn:E; [lia|]. cbn [dmi_size dmi_last dmi_c dmi_r dmi_cOld].
    rewrite Z.div_0_l, Z.mod_0_l by lia.
    split; [|split; reflexivity]. unfold dmi_inv. cbn [dmi_size dmi_last dmi_c dmi_r dmi_cOld].
    split; [lia|]. split; [lia|]. split; [lia|].
    right. replace (0 + 1 - 1) with 0 by lia. rewrite Z.div_0_l, Z.mod_0_l by lia. lia.
  - pose proof (Z.mod_pos_bound (k - 1) C HC) as Hm.
    pose proof (Z.div_mod (k - 1) C ltac:(lia)) as Hd.
    destruct (dmi_c it =? C) eqn:E; rewrite E1 in *.
    + assert (Hk1 : k = C * ((k - 1) / C + 1) + 0) by lia.
      assert (Hq : k / C = (k - 1) / C + 1) by (symmetry; apply Z.div_unique with 0; lia).
      assert (Hr : k mod C = 0) by (symmetry; apply Z.mod_unique with ((k - 1) / C + 1); lia).
      cbn [dmi_size dmi_last dmi_c dmi_r dmi_cOld].
      split; [|split; lia]. unfold dmi_inv. cbn [dmi_size dmi_last dmi_c dmi_r dmi_cOld].
      split; [lia|]. split; [lia|]. split; [lia|].
      right. replace (k + 1 - 1) with k by lia. lia.
    + assert (Hk1 : k = C * ((k - 1) / C) + ((k - 1) mod C + 1)) by lia.
      assert (Hq : k / C = (k - 1) / C) by (symmetry; apply Z.div_unique with ((k - 1) mod C + 1); lia).
      assert (Hr : k mod C = (k - 1) mod C + 1) by (symmetry; apply Z.mod_unique with ((k - 1) / C); lia).
      cbn [dmi_size dmi_last dmi_c dmi_r dmi_cOld].
      split; [|split; lia]. unfold dmi_inv. cbn [dmi_size dmi_last dmi_c dmi_r dmi_cOld].
      split; [lia|]. split; [lia|]. split; [lia|].
      right. replace (k + 1 - 1) with k by lia. lia.
Qed.

Definition dvi_inv (L : Z) (it : dv_iter) (k : Z) : Prop :=
  0 <= k <= L /\ dvi_size it = L /\ dvi_last it = k /\ dvi_r it = k.

Lemma dvi_init L f : 0 <= L -> dvi_inv L (dv_iterator (mk_dv L f)) 0.
Proof. intros H. repeat split; cbn; lia. Qed.

Lemma dvi_HasNext L it k : dvi_inv L it k -> dv_HasNext it = (k <? L).
Proof.
  intros (H1 & H2 & H3 & _). unfold dv_HasNext. rewrite H2, H3.
  destruct (k >=? L) eqn:E1; destruct (k <? L) eqn:E2; auto; lia.
Qed.

Lemma dvi_next L f it k : dvi_inv L it k -> k < L ->
  let it' := dv_next (mk_dv L f) it in dvi_inv L it' (k + 1) /\ dvi_rOld it' = k.
Proof.
  intros (H1 & H2 & H3 & H4) Hk. unfold dv_next, dv_Rows.
  replace (dv_l (mk_dv L f)) with L by reflexivity.
  destruct (dvi_r it =? L) eqn:E; [lia|]. cbn. repeat split; cbn; lia.
Qed.

End Dense.
