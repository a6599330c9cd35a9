(** What the [Matrix] interface guarantees for every storage type. *)
From Coq Require Import String Sorting.Sorted.
From Verif Require Import GoBase Num BaseProofs SparseVec Csr Csc DenseVec DenseMat Mat
  AssocProofs CsrProofs SvProofs CsrIterProofs CscProofs DenseProofs.

Section Mat.
Context {N : num}.
Notation V := (T N).
Notation row := (list (Z * V)).
Notation mat := (mat N).
Notation ent := (Z * Z * V)%type.

(** ** Well-formed objects *)
Definition wf (m : mat) : Prop :=
  match m with
  | MCSR s => exists R C rows, s = mk_csr R C rows /\ rows_ok R C rows
  | MCSC s => exists R C cols, s = mk_csc R C cols /\ rows_ok C R cols
  | MDM s => exists R C f, s = mk_dm R C f /\ 0 <= R /\ 0 <= C /\ R * C < 2 ^ 63
  | MDV s => exists L f, s = mk_dv L f /\ 0 <= L
  | MSV s => exists l ents, s = mk_sv l ents /\ ents_ok l ents
  end.

Inductive kd := KCSR | KCSC | KDM | KDV | KSV.
Definition kind (m : mat) : kd :=
  match m with MCSR _ => KCSR | MCSC _ => KCSC | MDM _ => KDM | MDV _ => KDV | MSV _ => KSV end.

(** stored as entries (CSR, CSC, sparse vector) *)
Definition is_sp (m : mat) : bool :=
  match m with MCSR _ | MCSC _ | MSV _ => true | _ => false end.

(** every kind but the sparse vector *)
Definition good (m : mat) : Prop := wf m /\ kind m <> KSV.

(** the cell is inside the matrix *)
Definition inb (m : mat) (r c : Z) : Prop := 0 <= r < mat_Rows m /\ 0 <= c < mat_Columns m.

Definition same_shape (m m' : mat) : Prop :=
  kind m' = kind m /\ mat_Rows m' = mat_Rows m /\ mat_Columns m' = mat_Columns m.

(** the value [At] returns *)
Definition peek (m : mat) (r c : Z) : V :=
  match mat_At m r c with Ok (v, _) => v | _ => n0 end.

(** the value read back after writing [v] *)
Definition clean (m : mat) (v : V) : V := if is_sp m then norm v else v.

Lemma same_shape_refl m : same_shape m m. Proof. repeat split. Qed.
Lemma same_shape_trans m1 m2 m3 : same_shape m1 m2 -> same_shape m2 m3 -> same_shape m1 m3.
Proof. intros (A1 & A2 & A3) (B1 & B2 & B3). repeat split; congruence. Qed.
Lemma same_shape_sym m m' : same_shape m m' -> same_shape m' m.
Proof. intros (A1 & A2 & A3). repeat split; congruence. Qed.
Lemma same_shape_sp m m' : same_shape m m' -> is_sp m' = is_sp m.
Proof. intros (A & _). destruct m, m'; simpl in *; congruence. Qed.
Lemma same_shape_clean m m' v : same_shape m m' -> clean m' v = clean m v.
Proof. intros H. unfold clean. rewrite (same_shape_sp m m'); auto. Qed.
Lemma same_shape_inb m m' r c : same_shape m m' -> (inb m' r c <-> inb m r c).
Proof. intros (_ & A & B). unfold inb. rewrite A, B. tauto. Qed.

Lemma wf_dims m : wf m -> 0 <= mat_Rows m /\ 0 <= mat_Columns m.
Proof.
  destruct m; simpl; intros H.
  - destruct H as (R & C & rows & -> & (H1 & H2 & _)). auto.
  - destruct H as (R & C & rows & -> & (H1 & H2 & _)). auto.
  - destruct H as (R & C & f & -> & H1 & H2 & _). auto.
  - destruct H as (L & f & -> & H1). cbn. unfold dv_Columns. lia.
  - destruct H as (l & ents & -> & (H1 & _)). cbn. unfold sv_Columns. lia.
Qed.

(** ** Cell access *)

Lemma At_ok m r c : zero_ok N -> wf m -> inb m r c -> mat_At m r c = Ok (peek m r c, m).
Proof.
  intros Hz H Hb. unfold peek.
  destruct m; simpl in *; unfold inb in Hb; simpl in Hb.
  - destruct H as (R & C & rows & -> & H). rewrite csr_At_spec by (auto; apply Hb). reflexivity.
  - destruct H as (R & C & rows & -> & H). rewrite csc_At_spec by (auto; apply Hb). reflexivity.
  - destruct H as (R & C & f & -> & H). rewrite dm_At_spec by apply Hb. reflexivity.
  - destruct H as (L & f & -> & H). unfold dv_At. rewrite dv_AtVec_spec by apply Hb. reflexivity.
  - destruct H as (l & ents & -> & H). unfold sv_Columns in Hb.
    rewrite sv_At_ok; [reflexivity|auto|auto|apply Hb|lia].
Qed.

Lemma Element_ok m r c : zero_ok N -> wf m -> inb m r c ->
  mat_Element m r c = Ok (ngtb (peek m r c) n0, m).
Proof.
  intros Hz H Hb. unfold peek.
  destruct m; simpl in *; unfold inb in Hb; simpl in Hb.
  - destruct H as (R & C & rows & -> & H).
    rewrite csr_Element_spec, csr_At_spec by (auto; apply Hb). reflexivity.
  - destruct H as (R & C & rows & -> & H).
    rewrite csc_Element_spec, csc_At_spec by (auto; apply Hb). reflexivity.
  - destruct H as (R & C & f & -> & H). unfold dm_Element. rewrite dm_At_spec by apply Hb. reflexivity.
  - destruct H as (L & f & -> & H). unfold dv_Element, dv_At. rewrite dv_AtVec_spec by apply Hb. reflexivity.
  - destruct H as (l & ents & -> & H). unfold sv_Columns in Hb.
    unfold sv_Element. rewrite sv_AtVec_read by apply Hb.
    rewrite sv_At_ok; [reflexivity|auto|auto|apply Hb|lia].
Qed.

(** concrete cells *)
Lemma peek_csr R C rows r c : zero_ok N -> rows_ok R C rows -> 0 <= r < R -> 0 <= c < C ->
  peek (MCSR (mk_csr R C rows)) r c = cell rows r c.
Proof. intros. unfold peek. simpl. rewrite csr_At_spec by auto. reflexivity. Qed.
Lemma peek_csc R C cols r c : zero_ok N -> rows_ok C R cols -> 0 <= r < R -> 0 <= c < C ->
  peek (MCSC (mk_csc R C cols)) r c = cell cols c r.
Proof. intros. unfold peek. simpl. rewrite csc_At_spec by auto. reflexivity. Qed.
Lemma peek_dm R C f r c : 0 <= r < R -> 0 <= c < C -> peek (MDM (mk_dm R C f)) r c = f r c.
Proof. intros. unfold peek. simpl. rewrite dm_At_spec by auto. reflexivity. Qed.
Lemma peek_dv L f r c : 0 <= r < L -> peek (MDV (mk_dv L f)) r c = f r.
Proof. intros. unfold peek. simpl. unfold dv_At. rewrite dv_AtVec_spec by auto. reflexivity. Qed.

Lemma Update_ok m r c g : zero_ok N -> good m -> inb m r c ->
  exists m', mat_Update m r c g = Ok m' /\ good m' /\ same_shape m m' /\
    forall i j, inb m i j ->
      peek m' i j = if (i =? r) && (j =? c) then clean m (g (peek m r c)) else peek m i j.
Proof.
  intros Hz [H Hk] Hb. unfold clean.
  destruct m; simpl in *; unfold inb in *; simpl in *; try congruence.
  - destruct H as (R & C & rows & -> & H). cbn in Hb. destruct Hb as [Hr Hc].
    rewrite csr_Update_spec by auto. eexists. split; [reflexivity|].
    assert (H' : forall x, rows_ok R C (rput rows r c x)) by (intros; apply rows_ok_rput; auto).
    split; [split; [exists R, C, (rput rows r c (g (cell rows r c))); split; [reflexivity|auto]|discriminate]|].
    split; [repeat split|]. cbn. intros i j [Hi Hj].
    rewrite !peek_csr by auto. apply (cell_rput R C); auto; lia.
  - destruct H as (R & C & rows & -> & H). cbn in Hb. destruct Hb as [Hr Hc].
    rewrite csc_Update_spec by auto. eexists. split; [reflexivity|].
    assert (H' : forall x, rows_ok C R (rput rows c r x)) by (intros; apply rows_ok_rput; auto).
    split; [split; [exists R, C, (rput rows c r (g (cell rows c r))); split; [reflexivity|auto]|discriminate]|].
    split; [repeat split|]. cbn. intros i j [Hi Hj].
    rewrite !peek_csc by auto. rewrite (cell_rput C R) by (auto; lia).
    rewrite andb_comm. reflexivity.
  - destruct H as (R & C & f & -> & H). cbn in Hb. destruct Hb as [Hr Hc].
    rewrite dm_Update_spec by auto. eexists. split; [reflexivity|].
    split; [split; [exists R, C, (upd2 f r c (g (f r c))); split; [reflexivity|auto]|discriminate]|].
    split; [repeat split|]. cbn. intros i j [Hi Hj]. rewrite !peek_dm by auto. reflexivity.
  - destruct H as (L & f & -> & H). cbn in Hb. unfold dv_Columns in Hb. destruct Hb as [Hr Hc].
    replace c with 0 by lia. rewrite dv_Update_spec by auto. eexists. split; [reflexivity|].
    split; [split; [exists L, (upd1 f r (g (f r))); split; [reflexivity|auto]|discriminate]|].
    split; [repeat split|]. cbn. unfold dv_Columns. intros i j [Hi Hj].
    rewrite !peek_dv by auto. unfold upd1. destruct (j =? 0) eqn:E; [|lia].
    rewrite andb_true_r. reflexivity.
Qed.

Lemma Set_ok m r c v : zero_ok N -> good m -> inb m r c ->
  exists m', mat_Set m r c v = Ok m' /\ good m' /\ same_shape m m' /\
    forall i j, inb m i j ->
      peek m' i j = if (i =? r) && (j =? c) then clean m v else peek m i j.
Proof.
  intros Hz Hg Hb. destruct (Update_ok m r c (fun _ => v) Hz Hg Hb) as (m' & Hu & Hrest).
  exists m'. split; [|exact Hrest]. rewrite <- Hu. destruct Hg as [H Hk].
  destruct m; simpl in *; unfold inb in *; simpl in *; try congruence.
  - unfold csr_Set. destruct (csr_Update s r c (fun _ : V => (tt, v))) as [[? ?]| |]; reflexivity.
  - unfold csc_Set. destruct (csc_Update s r c (fun _ : V => (tt, v))) as [[? ?]| |]; reflexivity.
  - destruct H as (R & C & f & -> & H). cbn in Hb. destruct Hb as [Hr Hc].
    rewrite dm_Update_spec, dm_Set_spec by auto. reflexivity.
  - destruct H as (L & f & -> & H). cbn in Hb. unfold dv_Columns in Hb. destruct Hb as [Hr Hc].
    replace c with 0 by lia. rewrite dv_Update_spec, dv_Set_spec by auto. reflexivity.
Qed.

(** the same without the cell values, for every kind *)
Lemma Update_wf m r c g : zero_ok N -> wf m -> inb m r c ->
  exists m', mat_Update m r c g = Ok m' /\ wf m' /\ same_shape m m'.
Proof.
  intros Hz H Hb. destruct m as [s|s|s|s|s] eqn:Em.
  5:{ simpl in H. destruct H as (l & ents & -> & H). unfold inb in Hb; cbn in Hb.
      unfold sv_Columns in Hb. simpl. rewrite sv_Update_ok by lia.
      destruct (sv_SetVec_wf l ents r (g (sv_read ents r)) H ltac:(lia)) as (ents' & -> & H').
      eexists. split; [reflexivity|]. split; [|repeat split]. exists l, ents'. auto. }
  all: destruct (Update_ok m r c g Hz) as (m' & Hu & Hg & Hs & _);
    [subst m; split; [exact H|discriminate]|subst m; exact Hb|];
    subst m; exists m'; destruct Hg; auto.
Qed.

Lemma Set_wf m r c v : zero_ok N -> wf m -> inb m r c ->
  exists m', mat_Set m r c v = Ok m' /\ wf m' /\ same_shape m m'.
Proof.
  intros Hz H Hb. destruct m as [s|s|s|s|s] eqn:Em.
  5:{ simpl in H. destruct H as (l & ents & -> & H). unfold inb in Hb; cbn in Hb.
      unfold sv_Columns in Hb. simpl. unfold sv_Set, sv_Rows, sv_Columns.
      replace (sv_l (mk_sv l ents)) with l by reflexivity.
      destruct ((r <? 0) || (r >=? l)) eqn:E1; [lia|].
      destruct ((c <? 0) || (c >=? 1)) eqn:E2; [lia|].
      destruct (sv_SetVec_wf l ents r v H ltac:(lia)) as (ents' & -> & H').
      eexists. split; [reflexivity|]. split; [|repeat split]. exists l, ents'. auto. }
  all: destruct (Set_ok m r c v Hz) as (m' & Hu & Hg & Hs & _);
    [subst m; split; [exact H|discriminate]|subst m; exact Hb|];
    subst m; exists m'; destruct Hg; auto.
Qed.

(** out of range *)
Lemma Update_panic m r c g : wf m -> ~ inb m r c -> mat_Update m r c g = Panic.
Proof.
  intros H Hb. unfold inb in Hb. destruct m; simpl in *.
  - destruct H as (R & C & rows & -> & H). cbn in Hb. unfold csr_Update. rewrite csr_bounds by auto. reflexivity.
  - destruct H as (R & C & rows & -> & H). cbn in Hb. rewrite csc_bounds by auto. reflexivity.
  - destruct H as (R & C & f & -> & H). cbn in Hb. rewrite dm_Update_panic by auto. reflexivity.
  - destruct H as (L & f & -> & H). cbn in Hb. unfold dv_Columns in Hb. rewrite dv_Update_panic by lia. reflexivity.
  - destruct H as (l & ents & -> & H). cbn in Hb. unfold sv_Columns in Hb.
    unfold sv_Update, sv_Rows, sv_Columns. replace (sv_l (mk_sv l ents)) with l by reflexivity.
    destruct ((r <? 0) || (r >=? l)) eqn:E1; [reflexivity|].
    destruct ((c <? 0) || (c >=? 1)) eqn:E2; [reflexivity|]. exfalso; apply Hb; lia.
Qed.

Lemma Set_panic m r c v : wf m -> ~ inb m r c -> mat_Set m r c v = Panic.
Proof.
  intros H Hb. unfold inb in Hb. destruct m; simpl in *.
  - destruct H as (R & C & rows & -> & H). cbn in Hb. unfold csr_Set, csr_Update. rewrite csr_bounds by auto. reflexivity.
  - destruct H as (R & C & rows & -> & H). cbn in Hb. unfold csc_Set. rewrite csc_bounds by auto. reflexivity.
  - destruct H as (R & C & f & -> & H). cbn in Hb. rewrite dm_Set_panic by auto. reflexivity.
  - destruct H as (L & f & -> & H). cbn in Hb. unfold dv_Columns in Hb. rewrite dv_Set_panic by lia. reflexivity.
  - destruct H as (l & ents & -> & H). cbn in Hb. unfold sv_Columns in Hb.
    unfold sv_Set, sv_Rows, sv_Columns. replace (sv_l (mk_sv l ents)) with l by reflexivity.
    destruct ((r <? 0) || (r >=? l)) eqn:E1; [reflexivity|].
    destruct ((c <? 0) || (c >=? 1)) eqn:E2; [reflexivity|]. exfalso; apply Hb; lia.
Qed.

(** [Copy] returns an equal object *)
Lemma Copy_ok m : wf m -> mat_Copy m = Ok m.
Proof.
  intros H. destruct m; simpl in *.
  - destruct H as (R & C & rows & -> & H). rewrite csr_Copy_mk by auto. reflexivity.
  - destruct H as (R & C & rows & -> & H). rewrite csc_Copy_mk by auto. reflexivity.
  - destruct H as (R & C & f & -> & H1 & H2 & _). rewrite dm_Copy_spec by auto. reflexivity.
  - destruct H as (L & f & -> & H). rewrite dv_copy_spec by auto. reflexivity.
  - destruct H as (l & ents & -> & H). rewrite sv_copy_mk. reflexivity.
Qed.

(** [Clear] *)
Lemma Clear_ok m : zero_ok N -> wf m ->
  exists m', mat_Clear m = Ok m' /\ wf m' /\ same_shape m m' /\
    forall i j, inb m i j -> peek m' i j = n0.
Proof.
  intros Hz H. destruct m; simpl in *.
  - destruct H as (R & C & rows & -> & H). pose proof H as (HR & HC & _). rewrite csr_Clear_spec by auto.
    pose proof (rows_ok_empty (N:=N) R C HR HC) as He.
    eexists; split; [reflexivity|]. split; [eexists _, _, _; split; [reflexivity|exact He]|].
    split; [repeat split|]. unfold inb; cbn. intros i j [Hi Hj].
    rewrite peek_csr by auto. apply cell_empty.
  - destruct H as (R & C & rows & -> & H). pose proof H as (HR & HC & _). rewrite csc_Clear_spec by auto.
    pose proof (rows_ok_empty (N:=N) C R HR HC) as He.
    eexists; split; [reflexivity|]. split; [eexists _, _, _; split; [reflexivity|exact He]|].
    split; [repeat split|]. unfold inb; cbn. intros i j [Hi Hj].
    rewrite peek_csc by auto. apply cell_empty.
  - destruct H as (R & C & f & -> & H1 & H2 & H3). rewrite dm_Clear_spec by auto.
    eexists; split; [reflexivity|]. split; [eexists _, _, _; split; [reflexivity|auto]|].
    split; [repeat split|]. unfold inb; cbn. intros i j [Hi Hj]. rewrite peek_dm by auto. reflexivity.
  - destruct H as (L & f & -> & H). rewrite dv_Clear_spec by auto.
    eexists; split; [reflexivity|]. split; [eexists _, _; split; [reflexivity|auto]|].
    split; [repeat split|]. unfold inb; cbn. intros i j [Hi Hj]. rewrite peek_dv by auto. reflexivity.
  - destruct H as (l & ents & -> & (H & _)). eexists; split; [reflexivity|].
    assert (He : ents_ok l (@nil (Z * V))) by (repeat split; auto).
    split; [exists l, []; auto|].
    split; [repeat split|]. unfold inb; cbn. unfold sv_Columns. intros i j [Hi Hj].
    unfold peek. simpl. change (sv_Clear (mk_sv l ents)) with (mk_sv l (@nil (Z * V))).
    rewrite sv_At_ok by (auto; lia). simpl.
    rewrite (sv_read_sorted l) by (auto using row_ok_nil).
    destruct (i <=? zlen (@nil (Z * V))); reflexivity.
Qed.

(** ** Enumeration *)

Definition tag (r : Z) (l : row) : list ent := map (fun e => (r, fst e, snd e)) l.

(** the stored entries of a list of rows, numbering rows from [k] *)
Fixpoint rents (k : Z) (rows : list row) : list ent :=
  match rows with [] => [] | l :: rest => tag k l ++ rents (k + 1) rest end.

Definition swap_ent (e : ent) : ent := (snd (fst e), fst (fst e), snd e).

Lemma rents_pos k rows : map fst (rents k rows) = kpos k (map (map fst) rows).
Proof.
  revert k; induction rows as [|l rows IH]; intros k; simpl; [reflexivity|].
  rewrite map_app, IH. f_equal. unfold tag. rewrite !map_map. reflexivity.
Qed.
Lemma rents_vals k rows : map snd (rents k rows) = map snd (concat rows).
Proof.
  revert k; induction rows as [|l rows IH]; intros k; simpl; [reflexivity|].
  rewrite !map_app, IH. f_equal. unfold tag. rewrite !map_map. reflexivity.
Qed.
Lemma zlen_rents k rows : zlen (rents k rows) = zlen (concat rows).
Proof. rewrite <- (zlen_map snd (rents k rows)), rents_vals, zlen_map. reflexivity. Qed.
Lemma rents_app k X Y : rents k (X ++ Y) = rents k X ++ rents (k + zlen X) Y.
Proof.
  revert k; induction X as [|l X IH]; intros k; simpl.
  - rewrite zlen_nil, Z.add_0_r. reflexivity.
  - zl. rewrite IH, <- app_assoc. do 3 f_equal. lia.
Qed.

Lemma tag_split r l done e rest : tag r l = done ++ e :: rest ->
  exists lo v hi, l = lo ++ v :: hi /\ done = tag r lo /\ e = (r, fst v, snd v) /\ rest = tag r hi.
Proof.
  revert done; induction l as [|x l IH]; intros done H; simpl in H; [destruct done; discriminate|].
  destruct done as [|d done]; simpl in H; inversion H; subst.
  - exists [], x, l. auto.
  - destruct (IH done H2) as (lo & v & hi & -> & -> & -> & ->).
    exists (x :: lo), v, hi. auto.
Qed.

Lemma app_cons_split {A} (a b done : list A) e rest : a ++ b = done ++ e :: rest ->
  (exists a2, a = done ++ e :: a2 /\ rest = a2 ++ b) \/
  (exists d2, done = a ++ d2 /\ b = d2 ++ e :: rest).
Proof.
  revert done; induction a as [|x a IH]; intros done H; simpl in H.
  - right. exists done. auto.
  - destruct done as [|d done]; simpl in H; inversion H; subst.
    + left. exists a. auto.
    + destruct (IH done H2) as [(a2 & -> & ->)|(d2 & -> & ->)].
      * left; exists a2; split; reflexivity.
      * right; exists d2; split; reflexivity.
Qed.

Lemma rents_split rows : forall k done e rest, rents k rows = done ++ e :: rest ->
  exists X lo c v hi Y, rows = X ++ (lo ++ (c, v) :: hi) :: Y /\ e = (k + zlen X, c, v) /\
    done = rents k X ++ tag (k + zlen X) lo /\ rest = tag (k + zlen X) hi ++ rents (k + zlen X + 1) Y.
Proof.
  induction rows as [|l rows IH]; intros k done e rest H; simpl in H; [destruct done; discriminate|].
  apply app_cons_split in H as [(a2 & H1 & ->)|(d2 & -> & H1)].
  - apply tag_split in H1 as (lo & [c v] & hi & -> & -> & -> & ->).
    exists [], lo, c, v, hi, rows. rewrite zlen_nil, Z.add_0_r. auto.
  - destruct (IH _ _ _ _ H1) as (X & lo & c & v & hi & Y & -> & -> & -> & ->).
    exists (l :: X), lo, c, v, hi, Y. zl. simpl.
    replace (k + (zlen X + 1)) with (k + 1 + zlen X) by lia.
    repeat split; auto. rewrite <- app_assoc. reflexivity.
Qed.

(** [it] has visited [done] and has [rest] still to visit *)
Definition it_rel (m : mat) (it : iter) (done rest : list ent) : Prop :=
  match m, it with
  | MCSR s, ICSR i => exists R C rows, s = mk_csr R C rows /\ rows_ok R C rows /\
      rents 0 rows = done ++ rest /\ cri_last i = zlen done /\
      it_inv (map (map fst) rows) i (map fst rest)
  | MCSC s, ICSC i => exists R C cols, s = mk_csc R C cols /\ rows_ok C R cols /\
      map swap_ent (rents 0 cols) = done ++ rest /\ cci_last i = zlen done /\
      it_inv (map (map fst) cols) (isw i) (map fst (map swap_ent rest))
  | MDM s, IDM i => exists R C f, s = mk_dm R C f /\ 0 <= R /\ 0 <= C /\ R * C < 2 ^ 63 /\
      map (fun p => (p, f (fst p) (snd p))) (all_cells R C) = done ++ rest /\
      dmi_inv R C i (zlen done)
  | MDV s, IDV i => exists L f, s = mk_dv L f /\ 0 <= L /\
      map (fun k => (k, 0, f k)) (zrange 0 L) = done ++ rest /\ dvi_inv L i (zlen done)
  | MSV s, ISV i => exists l ents, s = mk_sv l ents /\ ents_ok l ents /\
      map (fun e => (fst e, 0, snd e)) ents = done ++ rest /\
      svi_last i = zlen done /\ svi_size i = zlen ents
  | _, _ => False
  end.

Lemma it_rel_wf m it done rest : it_rel m it done rest -> wf m.
Proof.
  destruct m, it; simpl; try tauto.
  - intros (R & C & rows & -> & H & _). eauto.
  - intros (R & C & rows & -> & H & _). eauto.
  - intros (R & C & f & -> & H1 & H2 & H3 & _). eauto 10.
  - intros (L & f & -> & H & _). eauto.
  - intros (l & ents & -> & H & _). eauto.
Qed.

Lemma it_rel_init m : wf m -> exists L, it_rel m (mat_iterator m) [] L /\ zlen L = mat_Values m.
Proof.
  intros H. destruct m; simpl in *.
  - destruct H as (R & C & rows & -> & H). exists (rents 0 rows). split.
    + exists R, C, rows. split; [auto|]. split; [auto|]. split; [reflexivity|].
      split; [reflexivity|]. rewrite rents_pos.
      apply it_inv_init; [split; cbn|cbn].
      * rewrite concat_map. reflexivity.
      * rewrite offsets_map. reflexivity.
      * rewrite <- concat_map. zl. reflexivity.
    + unfold csr_Values. cbn. rewrite zlen_rents. zl. reflexivity.
  - destruct H as (R & C & cols & -> & H). exists (map swap_ent (rents 0 cols)). split.
    + exists R, C, cols. split; [auto|]. split; [auto|]. split; [reflexivity|].
      split; [reflexivity|].
      assert (Hs : map swap_ent (map swap_ent (rents 0 cols)) = rents 0 cols).
      { rewrite map_map. rewrite <- map_id. apply map_ext. intros [[a b] c]. reflexivity. }
      rewrite Hs, rents_pos, csc_iterator_sw, isw_iunsw.
      apply it_inv_init; [split; cbn|cbn].
      * rewrite concat_map. reflexivity.
      * rewrite offsets_map. reflexivity.
      * rewrite <- concat_map. zl. reflexivity.
    + unfold csc_Values. cbn. zl. rewrite zlen_rents. reflexivity.
  - destruct H as (R & C & f & -> & HR & HC & Hb). eexists. split.
    + exists R, C, f. repeat (split; [first [reflexivity|assumption]|]).
      apply dmi_init; auto.
    + unfold dm_Values. cbn [dm_r dm_c mk_dm]. rewrite wrap64_id by nia. zl. apply zlen_all_cells; auto.
  - destruct H as (L & f & -> & HL). eexists. split.
    + exists L, f. repeat (split; [first [reflexivity|assumption]|]). apply dvi_init; auto.
    + unfold dv_Values. cbn. zl. rewrite zlen_zrange by auto. lia.
  - destruct H as (l & ents & -> & H). eexists. split.
    + exists l, ents. repeat (split; [first [reflexivity|assumption]|]). cbn. zl. reflexivity.
    + unfold sv_Values. cbn. zl. reflexivity.
Qed.

Lemma it_rel_HasNext m it done rest : it_rel m it done rest ->
  mat_HasNext it = match rest with [] => false | _ => true end.
Proof.
  destruct m, it; simpl; try tauto.
  - intros (R & C & rows & -> & H & E & El & Hi). rewrite (it_inv_HasNext _ _ _ Hi).
    destruct rest; reflexivity.
  - intros (R & C & rows & -> & H & E & El & Hi). rewrite csc_HasNext_sw, (it_inv_HasNext _ _ _ Hi).
    destruct rest; reflexivity.
  - intros (R & C & f & -> & H1 & H2 & H3 & E & Hi). rewrite (dmi_HasNext _ _ _ _ Hi).
    assert (zlen (done ++ rest) = R * C) by (rewrite <- E, zlen_map; apply zlen_all_cells; auto).
    zl. destruct rest; zl; [destruct (zlen done <? R * C) eqn:E2; auto; lia|].
    pose proof (zlen_nonneg rest). destruct (zlen done <? R * C) eqn:E2; auto; lia.
  - intros (L & f & -> & H & E & Hi). rewrite (dvi_HasNext _ _ _ Hi).
    assert (zlen (done ++ rest) = L) by (rewrite <- E, zlen_map, zlen_zrange by lia; lia).
    zl. destruct rest; zl; [destruct (zlen done <? L) eqn:E2; auto; lia|].
    pose proof (zlen_nonneg rest). destruct (zlen done <? L) eqn:E2; auto; lia.
  - intros (l & ents & -> & H & E & E1 & E2). unfold sv_HasNext. rewrite E1, E2.
    assert (zlen (done ++ rest) = zlen ents) by (rewrite <- E, zlen_map; reflexivity).
    zl. destruct rest; zl; [destruct (zlen done >=? zlen ents) eqn:E3; auto; lia|].
    pose proof (zlen_nonneg rest). destruct (zlen done >=? zlen ents) eqn:E3; auto; lia.
Qed.

Lemma map_split {A B} (f : A -> B) l d r : map f l = d ++ r ->
  exists l1 l2, l = l1 ++ l2 /\ d = map f l1 /\ r = map f l2.
Proof.
  revert d; induction l as [|x l IH]; intros d H; simpl in H.
  - destruct d; [|discriminate]. exists [], []. auto.
  - destruct d as [|y d]; simpl in H.
    + exists [], (x :: l). auto.
    + inversion H; subst. destruct (IH d H2) as (l1 & l2 & -> & -> & ->).
      exists (x :: l1), l2. auto.
Qed.

(** csr_map_put at the position just visited, non-zero value *)
Lemma csr_put_spec R C (X : list row) lo c v hi (Y : list row) i x : isz x = false ->
  cri_index i = zlen (concat X) + zlen lo ->
  csr_map_put (mk_csr R C (X ++ (lo ++ (c, v) :: hi) :: Y)) i x
  = Ok (mk_csr R C (X ++ (lo ++ (c, x) :: hi) :: Y)).
Proof.
  intros Hx Hi. unfold csr_map_put. rewrite Hx. cbn [negb].
  assert (Hv : csr_values (mk_csr R C (X ++ (lo ++ (c, v) :: hi) :: Y))
           = map snd (concat X ++ lo) ++ v :: map snd (hi ++ concat Y)).
  { cbn [csr_values mk_csr]. rewrite concat_mid, map_app. reflexivity. }
  rewrite Hv, zset_mid by (zl; lia). cbn [rbind]. unfold mk_csr. cbn [csr_r csr_c csr_cols csr_rowStart].
  rewrite !concat_mid, !map_app. cbn [map fst snd app]. do 2 f_equal; try (rewrite <- ?app_assoc; reflexivity).
  rewrite !offsets_app. simpl. zl. reflexivity.
Qed.

Lemma rows_ok_replace R C (X : list row) lo c v hi (Y : list row) x : isz x = false ->
  rows_ok R C (X ++ (lo ++ (c, v) :: hi) :: Y) -> rows_ok R C (X ++ (lo ++ (c, x) :: hi) :: Y).
Proof.
  intros Hx (HR & HC & Hl & Hf). apply Forall_app in Hf as [Hf1 Hf2]. inversion Hf2 as [|? ? H1 H2]; subst.
  split; [auto|]. split; [auto|]. split; [zl; lia|]. apply Forall_app; split; [auto|]. constructor; [|auto].
  destruct H1 as (Hs & Hb & Hz). apply Forall_app in Hb as [Hb1 Hb2]. apply Forall_app in Hz as [Hz1 Hz2].
  inversion Hb2; subst. inversion Hz2; subst.
  split; [rewrite map_app in *; exact Hs|]. split; apply Forall_app; split; auto.
Qed.

Lemma map_fst_replace (X Y : list row) lo c v x hi :
  map (map fst) (X ++ (lo ++ (c, v) :: hi) :: Y) = map (map fst) (X ++ (lo ++ (c, x) :: hi) :: Y).
Proof. rewrite !map_app. simpl. rewrite !map_app. reflexivity. Qed.

Lemma sorted_keys R C (rows : list row) : rows_ok R C rows -> Forall ksorted (map (map fst) rows).
Proof.
  intros (_ & _ & _ & Hf). apply Forall_map. eapply Forall_impl; [|exact Hf].
  intros l (H & _). exact H.
Qed.

Lemma swap_swap e : swap_ent (swap_ent e) = e. Proof. destruct e as [[a b] c]. reflexivity. Qed.
Lemma map_swap_swap l : map swap_ent (map swap_ent l) = l.
Proof. rewrite map_map. rewrite <- map_id. apply map_ext. apply swap_swap. Qed.

Lemma list_mid_inj {A} (a1 a2 b1 b2 : list A) x y :
  length a1 = length a2 -> a1 ++ x :: b1 = a2 ++ y :: b2 -> a1 = a2 /\ x = y /\ b1 = b2.
Proof.
  revert a2; induction a1 as [|z a1 IH]; intros [|w a2] Hl H; simpl in *; try discriminate.
  - inversion H; auto.
  - inversion H; subst. destruct (IH a2) as (-> & -> & ->); auto.
Qed.

(** one step of an iterator, and what a [Map] write does there *)
Lemma it_rel_step m it done r c v rest : it_rel m it done ((r, c, v) :: rest) ->
  exists it', mat_next m it = Ok it' /\ mat_cur m it' = Ok (r, c, v) /\
    it_rel m it' (done ++ [(r, c, v)]) rest /\
    (forall x, (is_sp m = true -> isz x = false) ->
      exists m', mat_map_put m it' x = Ok m' /\ same_shape m m' /\
                 it_rel m' it' (done ++ [(r, c, x)]) rest).
Proof.
  destruct m as [s|s|s|s|s], it as [i|i|i|i|i]; simpl; try tauto.
  - intros (R & C & rows & -> & H & E & El & Hi). simpl in Hi.
    destruct (csr_next_spec (mk_csr R C rows) (map (map fst) rows) i r c (map fst rest))
      as (i' & Hn & Hi' & H1 & H2 & H3 & H4 & H5).
    + split; cbn; [rewrite concat_map; reflexivity|rewrite offsets_map; reflexivity].
    + eapply sorted_keys; eauto.
    + exact Hi.
    + rewrite Hn. exists (ICSR i'). split; [reflexivity|].
      destruct (rents_split _ _ _ _ _ E) as (X & lo & c' & v' & hi & Y & HX & He & Hd & Hr).
      injection He as He1 He2 He3; subst c' v'. rewrite Z.add_0_l in *.
      assert (Hix : cri_index i' = zlen (concat X) + zlen lo).
      { rewrite H3, El, Hd. zl. unfold tag. zl. rewrite zlen_rents. reflexivity. }
      split; [|split].
      * unfold csr_cur. cbn [csr_values mk_csr]. rewrite <- (rents_vals 0), E, map_app. cbn [map snd].
        rewrite zget_mid by (zl; lia). cbn [rbind]. rewrite H1, H2. congruence.
      * exists R, C, rows. split; [auto|]. split; [auto|].
        split; [rewrite <- app_assoc; exact E|]. split; [zl; lia|]. exact Hi'.
      * intros x Hx. specialize (Hx eq_refl). rewrite HX, csr_put_spec by auto.
        eexists. split; [reflexivity|]. split; [repeat split|].
        exists R, C, (X ++ (lo ++ (c, x) :: hi) :: Y). split; [auto|].
        split; [rewrite HX in H; eapply rows_ok_replace; eauto|].
        split; [|split; [zl; lia|rewrite (map_fst_replace _ _ _ _ x v), <- HX; exact Hi']].
        rewrite rents_app. simpl. unfold tag. rewrite map_app. cbn [map fst snd]. rewrite Z.add_0_l.
        rewrite Hd, Hr, He1. unfold tag. rewrite <- !app_assoc. simpl. reflexivity.
  - intros (R & C & cols & -> & H & E & El & Hi). simpl in Hi.
    destruct (csr_next_spec (mk_csr C R cols) (map (map fst) cols) (isw i) c r (map fst (map swap_ent rest)))
      as (i' & Hn & Hi' & H1 & H2 & H3 & H4 & H5).
    + split; cbn; [rewrite concat_map; reflexivity|rewrite offsets_map; reflexivity].
    + eapply sorted_keys; eauto.
    + exact Hi.
    + rewrite csc_next_sw, sw_mk, Hn. exists (ICSC (iunsw i')). split; [reflexivity|].
      assert (E' : rents 0 cols = map swap_ent done ++ (c, r, v) :: map swap_ent rest).
      { rewrite <- (map_swap_swap (rents 0 cols)), E, map_app. reflexivity. }
      destruct (rents_split _ _ _ _ _ E') as (X & lo & r' & v' & hi & Y & HX & He & Hd & Hr).
      injection He as He1 He2 He3; subst r' v'. rewrite Z.add_0_l in *.
      assert (Hix : cri_index i' = zlen (concat X) + zlen lo).
      { rewrite H3. cbn. rewrite El, <- (zlen_map swap_ent done), Hd. zl. unfold tag. zl. rewrite zlen_rents. reflexivity. }
      split; [|split].
      * unfold csc_cur. cbn [csc_values mk_csc cci_index cci_r cci_c iunsw].
        rewrite <- (rents_vals 0), E', map_app. cbn [map snd].
        rewrite zget_mid by (rewrite H3; cbn; zl; lia). cbn [rbind]. rewrite H1, H2. congruence.
      * exists R, C, cols. split; [auto|]. split; [auto|].
        split; [rewrite <- app_assoc; exact E|]. split; [cbn; rewrite H4; cbn; zl; lia|].
        rewrite isw_iunsw. exact Hi'.
      * intros x Hx. specialize (Hx eq_refl). rewrite csc_map_put_sw, sw_mk, isw_iunsw, HX, csr_put_spec by auto.
        eexists. split; [reflexivity|]. split; [repeat split|].
        exists R, C, (X ++ (lo ++ (r, x) :: hi) :: Y). split; [auto|].
        split; [rewrite HX in H; eapply rows_ok_replace; eauto|].
        split; [|split; [cbn; rewrite H4; cbn; zl; lia|
                 rewrite isw_iunsw, (map_fst_replace _ _ _ _ x v), <- HX; exact Hi']].
        assert (Hd' : done = map swap_ent (rents 0 X ++ tag (zlen X) lo)) by (rewrite <- Hd, map_swap_swap; auto).
        assert (Hr' : rest = map swap_ent (tag (zlen X) hi ++ rents (zlen X + 1) Y)) by (rewrite <- Hr, map_swap_swap; auto).
        rewrite Hd', Hr', He1. rewrite rents_app. simpl. unfold tag. rewrite Z.add_0_l.
        rewrite !map_app. cbn [map fst snd]. rewrite <- !app_assoc. simpl. reflexivity.
  - intros (R & C & f & -> & HR & HC & Hb & E & Hi).
    assert (Hlen : zlen (done ++ (r, c, v) :: rest) = R * C) by (rewrite <- E, zlen_map; apply zlen_all_cells; auto).
    zl. pose proof (zlen_nonneg done) as Hdn. pose proof (zlen_nonneg rest) as Hrn.
    assert (HC0 : 0 < C) by nia.
    destruct (dmi_next R C f i (zlen done) Hi ltac:(lia) HC0) as (Hi' & H1 & H2).
    set (i' := dm_next (mk_dm R C f) i) in *.
    exists (IDM i'). split; [reflexivity|].
    assert (Hg : zget (map (fun p => (p, f (fst p) (snd p))) (all_cells R C)) (zlen done) = Ok (r, c, v)).
    { rewrite E. apply zget_mid; reflexivity. }
    rewrite zget_map, zget_all_cells in Hg by lia. unfold rmap in Hg. cbn [rbind fst snd] in Hg.
    injection Hg as Hr Hc Hv.
    assert (Hrb : 0 <= r < R).
    { rewrite <- Hr. split; [apply Z.div_pos; lia|]. apply Z.div_lt_upper_bound; lia. }
    assert (Hcb : 0 <= c < C) by (rewrite <- Hc; apply Z.mod_pos_bound; lia).
    split; [|split].
    + unfold dm_cur. rewrite H1, H2, Hr, Hc. rewrite dm_At_spec by auto. cbn [rbind]. congruence.
    + exists R, C, f. rewrite <- app_assoc. zl. rewrite Z.add_0_l. auto 10.
    + intros x _. unfold dm_map_put. rewrite H1, H2, Hr, Hc. rewrite dm_Set_spec by auto.
      eexists. split; [reflexivity|]. split; [repeat split|].
      exists R, C, (upd2 f r c x). zl. rewrite Z.add_0_l. do 4 (split; [auto|]). split; [|exact Hi'].
      rewrite <- app_assoc. simpl.
      destruct (map_split _ _ _ _ E) as (l1 & l2 & Hl & Hd & Hre). destruct l2 as [|[p1 p2] l2]; [discriminate|].
      simpl in Hre. injection Hre as Hp1 Hp2 Hv' Hrest. subst p1 p2. rewrite Hl, map_app. simpl.
      assert (HND : NoDup (all_cells R C)).
      { apply NoDup_nth_error. intros a b Ha Hab.
        assert (Ha' : (a < length (all_cells R C))%nat) by auto.
        assert (Hb' : (b < length (all_cells R C))%nat).
        { apply nth_error_Some. rewrite <- Hab. apply nth_error_Some. auto. }
        pose proof (zlen_all_cells R C HR HC) as Hz. unfold zlen in Hz.
        assert (Ga : zget (all_cells R C) (Z.of_nat a) = zget (all_cells R C) (Z.of_nat b)).
        { unfold zget. destruct (Z.of_nat a <? 0) eqn:X1; [lia|]. destruct (Z.of_nat b <? 0) eqn:X2; [lia|].
          rewrite !Nat2Z.id, Hab. reflexivity. }
        rewrite !zget_all_cells in Ga by lia. injection Ga as G1 G2.
        pose proof (Z.div_mod (Z.of_nat a) C ltac:(lia)). pose proof (Z.div_mod (Z.of_nat b) C ltac:(lia)).
        rewrite G1, G2 in *. lia. }
      rewrite Hl in HND. apply NoDup_remove in HND as [HND Hnin].
      assert (Hup : forall q, In q (l1 ++ l2) -> upd2 f r c x (fst q) (snd q) = f (fst q) (snd q)).
      { intros q Hq. unfold upd2. destruct (fst q =? r) eqn:Q1; destruct (snd q =? c) eqn:Q2; auto.
        exfalso. apply Hnin. destruct q as [q1 q2]; simpl in *.
        replace (r, c) with (q1, q2) by (f_equal; lia). exact Hq. }
      unfold upd2 at 2. cbn [fst snd]. rewrite !Z.eqb_refl. simpl.
      f_equal; [|f_equal].
      * rewrite Hd. apply map_ext_in. intros q Hq. rewrite Hup by (apply in_or_app; auto). reflexivity.
      * rewrite Hrest. apply map_ext_in. intros q Hq. rewrite Hup by (apply in_or_app; auto). reflexivity.
  - intros (L & f & -> & HL & E & Hi).
    assert (Hlen : zlen (done ++ (r, c, v) :: rest) = L) by (rewrite <- E, zlen_map, zlen_zrange by lia; lia).
    zl. pose proof (zlen_nonneg done) as Hdn. pose proof (zlen_nonneg rest) as Hrn.
    destruct (dvi_next L f i (zlen done) Hi ltac:(lia)) as (Hi' & H1).
    set (i' := dv_next (mk_dv L f) i) in *.
    exists (IDV i'). split; [reflexivity|].
    assert (Hg : zget (map (fun k => (k, 0, f k)) (zrange 0 L)) (zlen done) = Ok (r, c, v)).
    { rewrite E. apply zget_mid; reflexivity. }
    rewrite zget_map, zget_zrange in Hg by lia. unfold rmap in Hg. cbn [rbind] in Hg.
    injection Hg as Hr Hc Hv. rewrite Z.add_0_l in *. subst r c.
    split; [|split].
    + unfold dv_cur. rewrite H1. rewrite dv_AtVec_spec by lia. cbn [rbind]. congruence.
    + exists L, f. rewrite <- app_assoc. zl. rewrite ?Z.add_0_l. auto 10.
    + intros x _. unfold dv_map_put. rewrite H1. rewrite dv_SetVec_spec by lia.
      eexists. split; [reflexivity|]. split; [repeat split|].
      exists L, (upd1 f (zlen done) x). zl. rewrite ?Z.add_0_l. do 2 (split; [auto|]). split; [|exact Hi'].
      rewrite <- app_assoc. simpl.
      destruct (map_split _ _ _ _ E) as (l1 & l2 & Hl & Hd & Hre). destruct l2 as [|p l2]; [discriminate|].
      simpl in Hre. injection Hre as Hp Hv' Hrest. rewrite Hl, map_app. simpl.
      pose proof (NoDup_zrange 0 L) as HND. rewrite Hl in HND. apply NoDup_remove in HND as [HND Hnin].
      assert (Hup : forall q, In q (l1 ++ l2) -> upd1 f (zlen done) x q = f q).
      { intros q Hq. unfold upd1. destruct (q =? zlen done) eqn:Q1; auto.
        exfalso. apply Hnin. replace p with q by lia. exact Hq. }
      rewrite Hp in *. unfold upd1 at 2. rewrite Z.eqb_refl.
      f_equal; [|f_equal].
      * etransitivity; [|symmetry; exact Hd]. apply map_ext_in. intros q Hq. rewrite Hup by (apply in_or_app; auto). reflexivity.
      * rewrite Hrest. apply map_ext_in. intros q Hq. rewrite Hup by (apply in_or_app; auto). reflexivity.
  - intros (l & ents & -> & H & E & E1 & E2).
    destruct (map_split _ _ _ _ E) as (l1 & l2 & Hl & Hd & Hre). destruct l2 as [|[k w] l2]; [discriminate|].
    simpl in Hre. inversion Hre as [[Hp Hc Hv Hrest]]. subst k w c.
    exists (ISV (sv_next i)). split; [reflexivity|].
    assert (Hz : zlen l1 = zlen done) by (rewrite Hd; zl; reflexivity).
    split; [|split].
    + unfold sv_cur, sv_next. cbn [svi_old sv_indices sv_values mk_sv]. rewrite Hl, !map_app. cbn [map fst snd].
      rewrite !zget_mid by (zl; lia). reflexivity.
    + exists l, ents. rewrite <- app_assoc. split; [auto|]. split; [auto|]. split; [subst rest; exact E|].
      cbn. zl. split; lia.
    + intros x Hx. specialize (Hx eq_refl). unfold sv_map_put. rewrite Hx. cbn [negb].
      cbn [svi_old sv_next sv_values sv_l sv_indices mk_sv]. rewrite Hl, !map_app. cbn [map fst snd].
      rewrite zset_mid by (zl; lia). eexists. split; [reflexivity|]. split; [repeat split|].
      exists l, (l1 ++ (r, x) :: l2). unfold mk_sv. rewrite !map_app. split; [reflexivity|].
      split.
      * destruct H as (H0 & H1 & H2). rewrite Hl in H1, H2.
        apply Forall_app in H1 as [A1 A2]. apply Forall_app in H2 as [B1 B2].
        inversion A2; subst. inversion B2; subst.
        split; [auto|]. split; apply Forall_app; split; auto.
      * split; [rewrite <- app_assoc; rewrite Hd; reflexivity|].
        cbn. zl. rewrite Hl in E2. zl. split; lia.
Qed.

(** ** The enumerated entries *)

(** run an iterator for at most [fuel] steps, collecting what [Next] returns *)
Fixpoint collect (fuel : nat) (m : mat) (it : iter) : res (list ent) :=
  if mat_HasNext it then
    match fuel with
    | O => Diverge
    | S fuel' => '(e, it') <- mat_Next m it ;; l <- collect fuel' m it' ;; Ok (e :: l)
    end
  else Ok [].

Lemma collect_rel m : forall rest it done fuel, it_rel m it done rest -> (length rest <= fuel)%nat ->
  collect fuel m it = Ok rest.
Proof.
  induction rest as [|[[r c] v] rest IH]; intros it done fuel H Hf.
  - destruct fuel; simpl; rewrite (it_rel_HasNext _ _ _ _ H); reflexivity.
  - destruct fuel as [|fuel]; [simpl in Hf; lia|]. cbn [collect].
    rewrite (it_rel_HasNext _ _ _ _ H).
    destruct (it_rel_step _ _ _ _ _ _ _ H) as (it' & Hn & Hc & Hr & _).
    unfold mat_Next. rewrite Hn. cbn [rbind]. rewrite Hc. cbn [rbind].
    rewrite (IH _ _ _ Hr) by (simpl in Hf; lia). reflexivity.
Qed.

(** the list of entries a full enumeration yields *)
Definition entries (m : mat) : list ent :=
  match collect (Z.to_nat (mat_Values m)) m (mat_iterator m) with Ok l => l | _ => [] end.

Lemma entries_rel m : wf m -> it_rel m (mat_iterator m) [] (entries m).
Proof.
  intros H. destruct (it_rel_init m H) as (L & HL & Hl). unfold entries.
  rewrite (collect_rel m L _ [] _ HL) by (unfold zlen in Hl; lia). exact HL.
Qed.

Lemma zlen_entries m : wf m -> zlen (entries m) = mat_Values m.
Proof.
  intros H. destruct (it_rel_init m H) as (L & HL & Hl). unfold entries.
  rewrite (collect_rel m L _ [] _ HL) by (unfold zlen in Hl; lia). exact Hl.
Qed.

Lemma collect_entries m fuel : wf m -> (length (entries m) <= fuel)%nat ->
  collect fuel m (mat_iterator m) = Ok (entries m).
Proof. intros H Hf. eapply collect_rel; [apply entries_rel; auto|auto]. Qed.

Lemma it_rel_fresh m it done rest : it_rel m it done rest ->
  it_rel m (mat_iterator m) [] (done ++ rest).
Proof.
  destruct m, it; simpl; try tauto.
  - intros (R & C & rows & -> & H & E & El & Hi). exists R, C, rows.
    split; [auto|]. split; [auto|]. split; [exact E|]. split; [reflexivity|].
    rewrite <- E, rents_pos. apply it_inv_init; [split; cbn|cbn].
    * rewrite concat_map. reflexivity.
    * rewrite offsets_map. reflexivity.
    * rewrite <- concat_map. zl. reflexivity.
  - intros (R & C & cols & -> & H & E & El & Hi). exists R, C, cols.
    split; [auto|]. split; [auto|]. split; [exact E|]. split; [reflexivity|].
    rewrite <- E, map_swap_swap, rents_pos, csc_iterator_sw, isw_iunsw. apply it_inv_init; [split; cbn|cbn].
    * rewrite concat_map. reflexivity.
    * rewrite offsets_map. reflexivity.
    * rewrite <- concat_map. zl. reflexivity.
  - intros (R & C & f & -> & H1 & H2 & H3 & E & Hi). exists R, C, f.
    do 5 (split; [auto|]). apply dmi_init; auto.
  - intros (L & f & -> & H & E & Hi). exists L, f. do 3 (split; [auto|]). apply dvi_init; auto.
  - intros (l & ents & -> & H & E & E1 & E2). exists l, ents. do 3 (split; [auto|]).
    cbn. zl. auto.
Qed.

Lemma it_rel_entries m it done rest : it_rel m it done rest -> entries m = done ++ rest.
Proof.
  intros H. pose proof (it_rel_fresh _ _ _ _ H) as Hf.
  pose proof (it_rel_wf _ _ _ _ H) as Hw. pose proof (zlen_entries m Hw) as Hz.
  pose proof (entries_rel m Hw) as He.
  pose proof (collect_rel m _ _ _ (length (entries m) + length (done ++ rest))%nat Hf ltac:(lia)) as C1.
  pose proof (collect_rel m _ _ _ (length (entries m) + length (done ++ rest))%nat He ltac:(lia)) as C2.
  congruence.
Qed.

(** concrete entry lists *)
Lemma entries_csr R C rows : rows_ok R C rows -> entries (MCSR (mk_csr R C rows)) = rents 0 rows.
Proof.
  intros H. assert (Hw : wf (MCSR (mk_csr R C rows))) by (exists R, C, rows; auto).
  destruct (it_rel_init _ Hw) as (L & HL & _). pose proof (it_rel_entries _ _ _ _ HL) as E.
  simpl in HL. destruct HL as (R' & C' & rows' & E1 & H' & E2 & _).
  assert (Hr : it_rel (MCSR (mk_csr R C rows)) (mat_iterator (MCSR (mk_csr R C rows))) [] (rents 0 rows)).
  { exists R, C, rows. split; [auto|]. split; [auto|]. split; [reflexivity|]. split; [reflexivity|].
    rewrite rents_pos. apply it_inv_init; [split; cbn|cbn].
    * rewrite concat_map. reflexivity.
    * rewrite offsets_map. reflexivity.
    * rewrite <- concat_map. zl. reflexivity. }
  apply (it_rel_entries _ _ _ _ Hr).
Qed.

Lemma entries_csc R C cols : rows_ok C R cols ->
  entries (MCSC (mk_csc R C cols)) = map swap_ent (rents 0 cols).
Proof.
  intros H.
  assert (Hr : it_rel (MCSC (mk_csc R C cols)) (mat_iterator (MCSC (mk_csc R C cols))) [] (map swap_ent (rents 0 cols))).
  { exists R, C, cols. split; [auto|]. split; [auto|]. split; [reflexivity|]. split; [reflexivity|].
    rewrite map_swap_swap, rents_pos. change (isw (csc_iterator (mk_csc R C cols))) with (csr_iterator (mk_csr C R cols)).
    apply it_inv_init; [split; cbn|cbn].
    * rewrite concat_map. reflexivity.
    * rewrite offsets_map. reflexivity.
    * rewrite <- concat_map. zl. reflexivity. }
  apply (it_rel_entries _ _ _ _ Hr).
Qed.

Lemma entries_dm R C f : 0 <= R -> 0 <= C -> R * C < 2 ^ 63 ->
  entries (MDM (mk_dm R C f)) = map (fun p => (p, f (fst p) (snd p))) (all_cells R C).
Proof.
  intros HR HC Hb.
  assert (Hr : it_rel (MDM (mk_dm R C f)) (mat_iterator (MDM (mk_dm R C f))) []
                 (map (fun p => (p, f (fst p) (snd p))) (all_cells R C))).
  { exists R, C, f. do 5 (split; [auto|]). apply dmi_init; auto. }
  apply (it_rel_entries _ _ _ _ Hr).
Qed.

Lemma entries_dv L f : 0 <= L -> entries (MDV (mk_dv L f)) = map (fun k => (k, 0, f k)) (zrange 0 L).
Proof.
  intros HL.
  assert (Hr : it_rel (MDV (mk_dv L f)) (mat_iterator (MDV (mk_dv L f))) [] (map (fun k => (k, 0, f k)) (zrange 0 L))).
  { exists L, f. do 3 (split; [auto|]). apply dvi_init; auto. }
  apply (it_rel_entries _ _ _ _ Hr).
Qed.

Lemma entries_sv l ents : ents_ok l ents ->
  entries (MSV (mk_sv l ents)) = map (fun e => (fst e, 0, snd e)) ents.
Proof.
  intros H.
  assert (Hr : it_rel (MSV (mk_sv l ents)) (mat_iterator (MSV (mk_sv l ents))) [] (map (fun e => (fst e, 0, snd e)) ents)).
  { exists l, ents. do 3 (split; [auto|]). cbn. zl. auto. }
  apply (it_rel_entries _ _ _ _ Hr).
Qed.

(** entries are inside the matrix *)
Lemma in_rents k rows r c v : In (r, c, v) (rents k rows) <->
  k <= r < k + zlen rows /\ In (c, v) (rnth rows (r - k)).
Proof.
  revert k; induction rows as [|l rows IH]; intros k; simpl.
  - rewrite zlen_nil. split; [tauto|lia].
  - zl. rewrite in_app_iff, IH. pose proof (zlen_nonneg rows). unfold tag. rewrite in_map_iff. split.
    + intros [([c' v'] & E & Hin)|[Hr Hin]].
      * simpl in E. inversion E; subst. rewrite Z.sub_diag. split; [lia|exact Hin].
      * split; [lia|]. unfold rnth in *. replace (Z.to_nat (r - k)) with (S (Z.to_nat (r - (k + 1)))) by lia. exact Hin.
    + intros [Hr Hin]. destruct (Z.eq_dec r k) as [->|Hne].
      * left. exists (c, v). rewrite Z.sub_diag in Hin. split; [reflexivity|exact Hin].
      * right. split; [lia|]. unfold rnth in *.
        replace (Z.to_nat (r - k)) with (S (Z.to_nat (r - (k + 1)))) in Hin by lia. exact Hin.
Qed.

Lemma in_rents_cell R C rows r c v : rows_ok R C rows ->
  (In (r, c, v) (rents 0 rows) <->
   (0 <= r < R /\ 0 <= c < C) /\ alookup c (rnth rows r) = Some v).
Proof.
  intros H. rewrite in_rents, Z.sub_0_r. pose proof H as (HR & HC & Hl & Hf). rewrite Z.add_0_l, Hl. split.
  - intros [Hr Hin]. pose proof (rnth_ok R C rows r H Hr) as (Hs & Hb & Hz).
    assert (0 <= c < C) by (rewrite Forall_forall in Hb; apply (Hb (c, v) Hin)).
    split; [auto|]. apply alookup_in_iff; auto.
  - intros [[Hr Hc] Ha]. split; [auto|]. pose proof (rnth_ok R C rows r H Hr) as (Hs & _).
    apply alookup_in_iff in Ha; auto.
Qed.

Theorem entries_spec m i j v : zero_ok N -> good m ->
  (In (i, j, v) (entries m) <->
   inb m i j /\ peek m i j = v /\ (is_sp m = true -> isz v = false)).
Proof.
  intros Hz [H Hk]. unfold inb. destruct m; simpl in H, Hk |- *; try congruence.
  - destruct H as (R & C & rows & -> & H). rewrite entries_csr by auto. rewrite (in_rents_cell R C) by auto.
    cbn [mk_csr csr_Rows csr_Columns csr_r csr_c]. split.
    + intros [[Hr Hc] Ha]. split; [auto|]. rewrite peek_csr by auto. unfold cell, aval. rewrite Ha.
      split; [reflexivity|]. intros _. pose proof (rnth_ok R C rows i H Hr) as (_ & _ & Hnz).
      apply alookup_In in Ha. rewrite Forall_forall in Hnz. apply (Hnz (j, v) Ha).
    + intros [[Hr Hc] [Hp Hnz]]. split; [auto|]. rewrite peek_csr in Hp by auto. unfold cell, aval in Hp.
      destruct (alookup j (rnth rows i)); [congruence|]. exfalso.
      specialize (Hnz eq_refl). subst v. unfold zero_ok, isz in *. congruence.
  - destruct H as (R & C & rows & -> & H). rewrite entries_csc by auto.
    assert (Hsw : In (i, j, v) (map swap_ent (rents 0 rows)) <-> In (j, i, v) (rents 0 rows)).
    { rewrite in_map_iff. split.
      - intros ([[a b] w] & E & Hin). unfold swap_ent in E. simpl in E. inversion E; subst. exact Hin.
      - intros Hin. exists (j, i, v). auto. }
    rewrite Hsw, (in_rents_cell C R) by auto.
    cbn [mk_csc csc_Rows csc_Columns csc_r csc_c]. split.
    + intros [[Hc Hr] Ha]. split; [auto|]. rewrite peek_csc by auto. unfold cell, aval. rewrite Ha.
      split; [reflexivity|]. intros _. pose proof (rnth_ok C R rows j H Hc) as (_ & _ & Hnz).
      apply alookup_In in Ha. rewrite Forall_forall in Hnz. apply (Hnz (i, v) Ha).
    + intros [[Hr Hc] [Hp Hnz]]. split; [auto|]. rewrite peek_csc in Hp by auto. unfold cell, aval in Hp.
      destruct (alookup i (rnth rows j)); [congruence|]. exfalso.
      specialize (Hnz eq_refl). subst v. unfold zero_ok, isz in *. congruence.
  - destruct H as (R & C & f & -> & HR & HC & Hb). rewrite entries_dm by auto. cbn [mk_dm dm_Rows dm_Columns dm_r dm_c].
    rewrite in_map_iff. split.
    + intros ([a b] & E & Hin). simpl in E. inversion E; subst. apply in_all_cells in Hin.
      split; [auto|]. rewrite peek_dm by apply Hin. split; [reflexivity|discriminate].
    + intros [[Hi Hj] [Hp _]]. rewrite peek_dm in Hp by auto. exists (i, j). simpl. split; [congruence|].
      apply in_all_cells; auto.
  - destruct H as (L & f & -> & HL). rewrite entries_dv by auto. cbn [mk_dv dv_Rows dv_Columns dv_l].
    unfold dv_Columns. rewrite in_map_iff. split.
    + intros (k & E & Hin). inversion E; subst. apply in_zrange in Hin. split; [lia|].
      rewrite peek_dv by auto. split; [reflexivity|discriminate].
    + intros [[Hi Hj] [Hp _]]. rewrite peek_dv in Hp by auto. exists i. split; [f_equal; [f_equal; lia|auto]|].
      apply in_zrange; auto.
Qed.

(** entries of any well-formed object lie inside it, and sparse ones are non-zero *)
Lemma entries_inb m i j v : zero_ok N -> wf m -> In (i, j, v) (entries m) ->
  inb m i j /\ (is_sp m = true -> isz v = false).
Proof.
  intros Hz H Hin. destruct m as [s|s|s|s|s] eqn:Em.
  5:{ simpl in H. destruct H as (l & ents & -> & H). rewrite entries_sv in Hin by auto.
      apply in_map_iff in Hin as ([k w] & E & Hin). simpl in E. inversion E; subst.
      destruct H as (H0 & H1 & H2). rewrite Forall_forall in H1, H2.
      unfold inb. cbn. unfold sv_Columns. specialize (H1 _ Hin). specialize (H2 _ Hin). simpl in H1, H2.
      split; [lia|auto]. }
  all: rewrite <- Em in *; apply (entries_spec m i j v Hz) in Hin;
       [destruct Hin as (A & B & C); split; auto|split; [exact H|subst m; discriminate]].
Qed.

(** ** Order and uniqueness of positions *)

Definition lex (p q : Z * Z) : Prop := fst p < fst q \/ (fst p = fst q /\ snd p < snd q).
Definition colex (p q : Z * Z) : Prop := snd p < snd q \/ (snd p = snd q /\ fst p < fst q).

Lemma SS_app {A} (Rl : A -> A -> Prop) l1 l2 :
  StronglySorted Rl l1 -> StronglySorted Rl l2 -> (forall a b, In a l1 -> In b l2 -> Rl a b) ->
  StronglySorted Rl (l1 ++ l2).
Proof.
  intros H1 H2 H. induction H1 as [|a l1 H1 IH Hf]; simpl; [auto|]. constructor.
  - apply IH. intros; apply H; simpl; auto.
  - apply Forall_app. split; [auto|]. apply Forall_forall. intros b Hb. apply H; simpl; auto.
Qed.

Lemma SS_NoDup {A} (Rl : A -> A -> Prop) l : (forall a, ~ Rl a a) -> StronglySorted Rl l -> NoDup l.
Proof.
  intros Hirr H. induction H as [|a l H IH Hf]; constructor; auto.
  intros Hin. rewrite Forall_forall in Hf. apply (Hirr a). auto.
Qed.

Lemma SS_map {A B} (f : A -> B) (RA : A -> A -> Prop) (RB : B -> B -> Prop) l :
  (forall a b, RA a b -> RB (f a) (f b)) -> StronglySorted RA l -> StronglySorted RB (map f l).
Proof.
  intros Hf H. induction H as [|a l H IH Hl]; simpl; constructor; auto.
  apply Forall_map. eapply Forall_impl; [|exact Hl]. auto.
Qed.

Lemma kpos_ge k K p : In p (kpos k K) -> k <= fst p.
Proof.
  revert k; induction K as [|l K IH]; intros k; simpl; [tauto|].
  rewrite in_app_iff, in_map_iff. intros [(c & <- & _)|H]; [simpl; lia|].
  apply IH in H. lia.
Qed.

Lemma kpos_sorted k K : Forall ksorted K -> StronglySorted lex (kpos k K).
Proof.
  intros H; revert k; induction H as [|l K Hl HK IH]; intros k; simpl; [constructor|].
  apply SS_app.
  - eapply SS_map; [|exact Hl]. intros a b Hab. right. simpl. auto.
  - apply IH.
  - intros a b Ha Hb. apply in_map_iff in Ha as (c & <- & _). apply kpos_ge in Hb. left. simpl. lia.
Qed.

Lemma entries_csr_sorted s : wf (MCSR s) -> StronglySorted lex (map fst (entries (MCSR s))).
Proof.
  intros (R & C & rows & -> & H). rewrite entries_csr by auto. rewrite rents_pos.
  apply kpos_sorted. eapply sorted_keys; eauto.
Qed.

Lemma entries_csc_sorted s : wf (MCSC s) -> StronglySorted colex (map fst (entries (MCSC s))).
Proof.
  intros (R & C & cols & -> & H). rewrite entries_csc by auto.
  assert (E : map fst (map swap_ent (rents 0 cols)) = map (fun p => (snd p, fst p)) (map fst (rents 0 cols))).
  { rewrite !map_map. reflexivity. }
  rewrite E, rents_pos. eapply SS_map; [|apply kpos_sorted; eapply sorted_keys; eauto].
  intros [a b] [c d] Hab. exact Hab.
Qed.

Lemma zrange_sorted a b : StronglySorted Z.lt (zrange a b).
Proof.
  destruct (Z_le_dec b a) as [H|H]; [rewrite zrange_nil by lia; constructor|].
  remember (Z.to_nat (b - a)) as n eqn:Hn. revert a H Hn. induction n as [|n IH]; intros a H Hn; [lia|].
  rewrite zrange_cons by lia. constructor.
  - destruct (Z_le_dec b (a + 1)) as [H'|H']; [rewrite zrange_nil by lia; constructor|]. apply IH; lia.
  - apply Forall_forall. intros x Hx. apply in_zrange in Hx. lia.
Qed.

Lemma all_cells_sorted R C : StronglySorted lex (all_cells R C).
Proof.
  unfold all_cells. pose proof (zrange_sorted 0 R) as H. induction H as [|a l H IH Hf]; simpl; [constructor|].
  apply SS_app.
  - eapply SS_map; [|apply zrange_sorted]. intros x y Hxy. right; simpl; auto.
  - exact IH.
  - intros p q Hp Hq. apply in_map_iff in Hp as (c & <- & _). apply in_flat_map in Hq as (x & Hx & Hq).
    apply in_map_iff in Hq as (d & <- & _). rewrite Forall_forall in Hf. left. simpl. auto.
Qed.

Lemma entries_NoDup m : good m -> NoDup (map fst (entries m)).
Proof.
  intros [H Hk]. destruct m; simpl in Hk; try congruence.
  - eapply SS_NoDup; [|apply entries_csr_sorted; auto]. unfold lex; intros a; lia.
  - eapply SS_NoDup; [|apply entries_csc_sorted; auto]. unfold colex; intros a; lia.
  - destruct H as (R & C & f & -> & HR & HC & Hb). rewrite entries_dm by auto. rewrite map_map. simpl.
    rewrite map_id. eapply SS_NoDup; [|apply all_cells_sorted]. unfold lex; intros a; lia.
  - destruct H as (L & f & -> & HL). rewrite entries_dv by auto. rewrite map_map. simpl.
    eapply (SS_NoDup lex); [unfold lex; intros a; lia|]. eapply SS_map; [|apply zrange_sorted].
    intros a b Hab. left. exact Hab.
Qed.

(** dense kinds enumerate every cell *)
Lemma entries_dense_pos m : good m -> is_sp m = false ->
  map fst (entries m) = all_cells (mat_Rows m) (mat_Columns m).
Proof.
  intros [H _] Hs. destruct m; simpl in Hs; try discriminate.
  - destruct H as (R & C & f & -> & HR & HC & Hb). rewrite entries_dm by auto. rewrite map_map. simpl. apply map_id.
  - destruct H as (L & f & -> & HL). rewrite entries_dv by auto. rewrite map_map. simpl.
    unfold dv_Columns, all_cells. induction (zrange 0 L); simpl; [reflexivity|]. f_equal.
Qed.

(** the value at a cell is determined by the entries *)
Lemma peek_entries m i j : zero_ok N -> good m -> inb m i j ->
  (exists v, In (i, j, v) (entries m) /\ peek m i j = v) \/
  (is_sp m = true /\ isz (peek m i j) = true /\ forall v, ~ In (i, j, v) (entries m)).
Proof.
  intros Hz Hg Hb. destruct (is_sp m) eqn:Es; [destruct (isz (peek m i j)) eqn:Ez|].
  - right. repeat split; auto. intros v Hin. apply entries_spec in Hin; auto.
    destruct Hin as (_ & Hp & Hn). rewrite Hp in Ez. rewrite Hn in Ez by auto. discriminate.
  - left. exists (peek m i j). split; [|reflexivity]. apply entries_spec; auto.
  - left. exists (peek m i j). split; [|reflexivity]. apply entries_spec; auto.
    split; [exact Hb|]. split; [reflexivity|]. intros; congruence.
Qed.

(** the reader of a sparse matrix returns the zero value itself for a missing
    entry, never another value that merely compares equal to zero *)
Lemma peek_zero m i j : zero_ok N -> good m -> is_sp m = true -> inb m i j ->
  isz (peek m i j) = true -> peek m i j = n0.
Proof.
  intros Hz [H Hk] Hs Hb E. unfold inb in Hb. destruct m; simpl in Hs, Hk; try congruence.
  - destruct H as (R & C & rows & -> & H). cbn in Hb. rewrite peek_csr in * by (auto; apply Hb).
    unfold cell, aval in *. destruct (alookup j (rnth rows i)) eqn:Ea; [|reflexivity].
    exfalso. pose proof (rnth_ok R C rows i H (proj1 Hb)) as (_ & _ & Hnz).
    apply alookup_In in Ea. rewrite Forall_forall in Hnz. specialize (Hnz _ Ea). simpl in Hnz. congruence.
  - destruct H as (R & C & rows & -> & H). cbn in Hb. rewrite peek_csc in * by (auto; apply Hb).
    unfold cell, aval in *. destruct (alookup i (rnth rows j)) eqn:Ea; [|reflexivity].
    exfalso. pose proof (rnth_ok C R rows j H (proj2 Hb)) as (_ & _ & Hnz).
    apply alookup_In in Ea. rewrite Forall_forall in Hnz. specialize (Hnz _ Ea). simpl in Hnz. congruence.
Qed.

End Mat.
