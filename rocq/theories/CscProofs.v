(** CSC is CSR with the roles of rows and columns exchanged. *)
From Verif Require Import GoBase Num BaseProofs SparseVec Csr Csc AssocProofs CsrProofs SvProofs CsrIterProofs.

Section Csc.
Context {N : num}.
Notation V := (T N).
Notation row := (list (Z * V)).

Definition sw (s : csc N) : csr N :=
  MkCSR (csc_c s) (csc_r s) (csc_values s) (csc_rows s) (csc_colStart s).
Definition unsw (s : csr N) : csc N :=
  MkCSC (csr_c s) (csr_r s) (csr_values s) (csr_cols s) (csr_rowStart s).

Lemma sw_unsw s : sw (unsw s) = s. Proof. destruct s; reflexivity. Qed.
Lemma unsw_sw s : unsw (sw s) = s. Proof. destruct s; reflexivity. Qed.

(** the CSC arrays holding the given columns *)
Definition mk_csc (R C : Z) (cols : list row) : csc N :=
  MkCSC R C (map snd (concat cols)) (map fst (concat cols)) (offsets 0 cols).

Lemma sw_mk R C cols : sw (mk_csc R C cols) = mk_csr C R cols. Proof. reflexivity. Qed.
Lemma unsw_mk R C rows : unsw (mk_csr R C rows) = mk_csc C R rows. Proof. reflexivity. Qed.

Lemma new_csc_sw R C l : newCSCMatrix R C l = rmap unsw (@newCSRMatrix N C R l).
Proof.
  unfold newCSCMatrix, newCSRMatrix, rmap.
  destruct (make_slice n0 l); cbn [rbind]; [|reflexivity|reflexivity].
  destruct (make_slice 0 l); cbn [rbind]; [|reflexivity|reflexivity].
  destruct (make_slice 0 (C + 1)); reflexivity.
Qed.

Lemma csc_search_eq : csc_search = csr_search. Proof. reflexivity. Qed.

Lemma rowIndex_sw s r c : csc_rowIndex s r c = csr_columnIndex (sw s) c r.
Proof. reflexivity. Qed.

Lemma csc_hit_sw s ps pe r : csc_hit s ps pe r = csr_hit (sw s) ps pe r.
Proof. reflexivity. Qed.

Ltac bindcase := match goal with
  | |- context [rbind ?m _] => destruct m; cbn [rbind]; try reflexivity
  end.

Lemma csc_insert_sw s p r c x :
  csc_insert s p r c x = rmap (fun q => (fst q, unsw (snd q))) (csr_insert (sw s) p c r x).
Proof.
  unfold csc_insert, csr_insert, rmap. destruct (isz x); [destruct s; reflexivity|].
  cbn [sw csr_cols csr_values csr_rowStart csr_r csr_c].
  change (csc_shift 1 (csc_colStart s) c (csc_c s)) with (csr_shift 1 (csc_colStart s) c (csc_c s)).
  repeat bindcase.
Qed.

Lemma csc_remove_sw s p c : csc_remove s p c = rmap unsw (csr_remove (sw s) p c).
Proof.
  unfold csc_remove, csr_remove, rmap.
  cbn [sw csr_cols csr_values csr_rowStart csr_r csr_c].
  change (csc_shift (-1) (csc_colStart s) c (csc_c s)) with (csr_shift (-1) (csc_colStart s) c (csc_c s)).
  repeat bindcase.
Qed.

Lemma csc_URP_sw {W} s r c (f : V -> W * V) :
  csc_UpdateReturnPointer s r c f =
  rmap (fun q => (fst q, unsw (snd q))) (csr_UpdateReturnPointer (sw s) c r f).
Proof.
  unfold csc_UpdateReturnPointer, csr_UpdateReturnPointer.
  cbn [sw csr_r csr_c]. fold (sw s).
  destruct ((r <? 0) || (r >=? csc_r s)) eqn:E1; destruct ((c <? 0) || (c >=? csc_c s)) eqn:E2;
    try reflexivity.
  rewrite rowIndex_sw. destruct (csr_columnIndex (sw s) c r) as [[ps pe]| |]; cbn [rbind]; try reflexivity.
  rewrite csc_hit_sw. destruct (csr_hit (sw s) ps pe r) as [[]| |]; cbn [rbind]; try reflexivity.
  - cbn [sw csr_values csr_cols csr_rowStart]. fold (sw s).
    destruct (zget (csc_values s) ps) as [v| |]; cbn [rbind]; try reflexivity.
    destruct (f v) as [w x]. destruct (isz x).
    + rewrite csc_remove_sw. destruct (csr_remove (sw s) ps c); reflexivity.
    + destruct (zset (csc_values s) ps x); reflexivity.
  - destruct (f n0) as [w x]. rewrite csc_insert_sw.
    destruct (csr_insert (sw s) ps c r x) as [[a t]| |]; reflexivity.
Qed.

Lemma csc_Update_sw {W} s r c (f : V -> W * V) :
  csc_Update s r c f = rmap (fun q => (fst q, unsw (snd q))) (csr_Update (sw s) c r f).
Proof.
  unfold csc_Update, csr_Update. rewrite csc_URP_sw.
  destruct (csr_UpdateReturnPointer (sw s) c r f) as [[[w p] t]| |]; reflexivity.
Qed.

Lemma csc_bounds {W} R C cols r c (f : V -> W * V) :
  ~ (0 <= r < R /\ 0 <= c < C) -> csc_Update (mk_csc R C cols) r c f = Panic.
Proof.
  intros H. rewrite csc_Update_sw, sw_mk. unfold csr_Update. rewrite csr_bounds by tauto. reflexivity.
Qed.

Lemma csc_Update_spec {W} R C cols r c (f : V -> W * V) :
  rows_ok C R cols -> 0 <= r < R -> 0 <= c < C ->
  csc_Update (mk_csc R C cols) r c f
    = Ok (fst (f (cell cols c r)), mk_csc R C (rput cols c r (snd (f (cell cols c r))))).
Proof.
  intros H Hr Hc. rewrite csc_Update_sw, sw_mk, csr_Update_spec by auto. reflexivity.
Qed.

Lemma csc_At_spec R C cols r c : zero_ok N -> rows_ok C R cols -> 0 <= r < R -> 0 <= c < C ->
  csc_At (mk_csc R C cols) r c = Ok (cell cols c r, mk_csc R C cols).
Proof.
  intros Hz H Hr Hc. unfold csc_At. rewrite csc_Update_spec by auto. cbn [fst snd].
  rewrite (rput_same C R) by auto. reflexivity.
Qed.

Lemma csc_Element_spec R C cols r c : zero_ok N -> rows_ok C R cols -> 0 <= r < R -> 0 <= c < C ->
  csc_Element (mk_csc R C cols) r c = Ok (ngtb (cell cols c r) n0, mk_csc R C cols).
Proof.
  intros Hz H Hr Hc. unfold csc_Element. rewrite csc_Update_spec by auto. cbn [fst snd].
  rewrite (rput_same C R) by auto. reflexivity.
Qed.

Lemma csc_Set_spec R C cols r c x : rows_ok C R cols -> 0 <= r < R -> 0 <= c < C ->
  csc_Set (mk_csc R C cols) r c x = Ok (mk_csc R C (rput cols c r x)).
Proof. intros H Hr Hc. unfold csc_Set. rewrite csc_Update_spec by auto. reflexivity. Qed.

Lemma new_csc_spec R C : 0 <= C ->
  newCSCMatrix R C 0 = Ok (mk_csc R C (repeat [] (Z.to_nat C))).
Proof. intros H. rewrite new_csc_sw, new_csr_spec by auto. reflexivity. Qed.

Lemma csc_Clear_spec R C cols : 0 <= C ->
  csc_Clear (mk_csc R C cols) = Ok (mk_csc R C (repeat [] (Z.to_nat C))).
Proof.
  intros H. pose proof (csr_Clear_spec C R cols H) as Hc.
  unfold csc_Clear. unfold csr_Clear in Hc. cbn [csr_r csr_c mk_csr csc_r csc_c mk_csc] in *.
  destruct (make_slice 0 (C + 1)); cbn [rbind] in *; [|discriminate|discriminate].
  inversion Hc. unfold mk_csc. rewrite concat_empty. reflexivity.
Qed.

Lemma rfold_ext {S I} (b1 b2 : S -> I -> res S) l : forall t,
  (forall t i, b1 t i = b2 t i) -> rfold b1 t l = rfold b2 t l.
Proof.
  induction l as [|i l IH]; intros t He; simpl; [reflexivity|].
  rewrite He. destruct (b2 t i); simpl; auto.
Qed.

Lemma rfold_sim {S S' I} (g : S -> S') (b : S -> I -> res S) (b' : S' -> I -> res S') l : forall t,
  (forall t i, b' (g t) i = rmap g (b t i)) -> rfold b' (g t) l = rmap g (rfold b t l).
Proof.
  induction l as [|i l IH]; intros t He; simpl; [reflexivity|].
  rewrite He. unfold rmap at 1. destruct (b t i); simpl; auto.
Qed.

Lemma csc_Copy_sw s : csc_Copy s = rmap unsw (csr_Copy (sw s)).
Proof.
  unfold csc_Copy, csr_Copy. rewrite new_csc_sw.
  cbn [sw csr_r csr_c csr_values csr_cols csr_rowStart].
  destruct (newCSRMatrix (csc_c s) (csc_r s) (zlen (csc_values s))) as [t| |]; cbn [rbind rmap]; try reflexivity.
  rewrite (rfold_sim unsw (fun t i =>
         v <- zget (csc_values s) i ;;
         vs <- zset (csr_values t) i v ;;
         k <- zget (csc_rows s) i ;;
         cs <- zset (csr_cols t) i k ;;
         Ok {| csr_r := csr_r t; csr_c := csr_c t; csr_values := vs;
               csr_cols := cs; csr_rowStart := csr_rowStart t |})).
  2: { intros t0 i. unfold rmap. cbn [unsw csc_r csc_c csc_values csc_rows csc_colStart].
       repeat bindcase. }
  destruct (rfold _ t (zrange 0 (zlen (csc_values s)))) as [t'| |]; cbn [rbind rmap]; try reflexivity.
  rewrite (rfold_sim unsw (fun t i =>
         x <- zget (csc_colStart s) i ;;
         rs <- zset (csr_rowStart t) i x ;;
         Ok {| csr_r := csr_r t; csr_c := csr_c t; csr_values := csr_values t;
               csr_cols := csr_cols t; csr_rowStart := rs |})); [reflexivity|].
  intros t0 i. unfold rmap. cbn [unsw csc_r csc_c csc_values csc_rows csc_colStart].
  repeat bindcase.
Qed.

Lemma csc_Copy_mk R C cols : rows_ok C R cols -> csc_Copy (mk_csc R C cols) = Ok (mk_csc R C cols).
Proof. intros H. rewrite csc_Copy_sw, sw_mk, csr_Copy_mk by auto. reflexivity. Qed.

Lemma csc_ColumnsAt_spec R C cols c : rows_ok C R cols -> 0 <= c < C ->
  csc_ColumnsAt (mk_csc R C cols) c = Ok (mk_sv R (rnth cols c)).
Proof. intros H Hc. exact (csr_RowsAt_spec C R cols c H Hc). Qed.

Lemma csc_RowsAt_spec R C cols r : rows_ok C R cols -> 0 <= r < R ->
  csc_RowsAt (mk_csc R C cols) r = Ok (mk_sv C (col_ents 0 cols r)).
Proof. intros H Hr. exact (csr_ColumnsAt_spec C R cols r H Hr). Qed.

Lemma csc_RowsAtToArray_spec R C cols r : rows_ok C R cols -> 0 <= r < R ->
  csc_RowsAtToArray (mk_csc R C cols) r = Ok (map (fun c => cell cols c r) (zrange 0 C)).
Proof.
  intros H Hr. unfold csc_RowsAtToArray, csc_Rows.
  replace (csc_c (mk_csc R C cols)) with C by reflexivity.
  replace (csc_r (mk_csc R C cols)) with R by reflexivity.
  destruct ((r <? 0) || (r >=? R)) eqn:E; [lia|].
  pose proof H as (HC & HR & Hl & Hf).
  rewrite make_slice_ok by lia. cbn [rbind].
  assert (Hst : slice_to (csc_colStart (mk_csc R C cols)) C = Ok (starts 0 cols)).
  { cbn [csc_colStart mk_csc]. rewrite <- (app_nil_r cols) at 1. rewrite offsets_app.
    apply slice_to_app. rewrite zlen_starts. lia. }
  rewrite Hst. cbn [rbind]. rewrite zlen_starts, Hl.
  destruct (rfold_range_inv
    (fun i arr => zlen arr = C /\ forall j, 0 <= j < C ->
        zget arr j = Ok (if j <? i then cell cols j r else n0))
    (fun rows c =>
      '(ps, pe) <- csc_rowIndex (mk_csc R C cols) r c ;;
      hit <- csc_hit (mk_csc R C cols) ps pe r ;;
      if hit then v <- zget (csc_values (mk_csc R C cols)) ps ;; zset rows c v
      else Ok rows) 0 C (repeat n0 (Z.to_nat C))) as (arr & -> & Hla & Harr).
  - lia.
  - split; [zl; lia|]. intros j Hj. rewrite zget_repeat by lia.
    destruct (j <? 0) eqn:E2; [lia|reflexivity].
  - intros i arr Hi (Hla & Harr).
    destruct (rows_split C R cols i H ltac:(lia)) as (X & l & Y & HX & HXl & (Hs & Hb & Hz)).
    assert (Hcell : cell cols i r = aval r l).
    { unfold cell. rewrite HX, rnth_mid by lia. reflexivity. }
    rewrite rowIndex_sw, sw_mk.
    destruct (row_split l r Hs) as [(lo & v & hi & -> & H1 & H2)|(lo & hi & -> & H1 & H2)].
    + destruct (columnIndex_hit C R X lo r v hi Y i H1 H2 Hs ltac:(lia)) as (pe & Hci & Hhit).
      rewrite <- HX in Hci, Hhit. rewrite Hci. cbn [rbind]. rewrite csc_hit_sw, sw_mk, Hhit. cbn [rbind].
      assert (Hv : csc_values (mk_csc R C cols) = map snd (concat X ++ lo) ++ v :: map snd (hi ++ concat Y)).
      { cbn [csc_values mk_csc]. rewrite HX, concat_mid, map_app. reflexivity. }
      rewrite Hv. rewrite zget_mid by (zl; lia). cbn [rbind].
      rewrite zset_ok by lia. eexists. split; [reflexivity|]. split; [zl; lia|].
      intros j Hj. rewrite zget_list_set by lia.
      unfold aval in Hcell. rewrite alookup_hit in Hcell by auto.
      destruct (j =? i) eqn:Ej.
      * destruct (j <? i + 1) eqn:E3; [|lia]. replace j with i by lia. congruence.
      * rewrite Harr by auto. destruct (j <? i) eqn:E3; destruct (j <? i + 1) eqn:E4; auto; lia.
    + destruct (columnIndex_miss C R X lo r hi Y i H1 H2 Hs ltac:(lia)) as (pe & Hci & Hhit).
      rewrite <- HX in Hci, Hhit. rewrite Hci. cbn [rbind]. rewrite csc_hit_sw, sw_mk, Hhit. cbn [rbind].
      exists arr. split; [reflexivity|]. split; [auto|]. intros j Hj. rewrite Harr by auto.
      unfold aval in Hcell. rewrite alookup_miss in Hcell by auto.
      destruct (j <? i) eqn:E3; destruct (j <? i + 1) eqn:E4; auto; try lia.
      replace j with i by lia. congruence.
  - f_equal. apply zget_ext; [zl; rewrite zlen_zrange by lia; lia|].
    intros j Hj. rewrite Harr by lia. rewrite zget_map, zget_zrange by lia.
    destruct (j <? C) eqn:E2; [|lia]. simpl. rewrite Z.add_0_l. reflexivity.
Qed.

(** ** Iterator *)

Definition isw (it : csc_iter) : csr_iter :=
  MkCSRI (cci_size it) (cci_last it) (cci_r it) (cci_c it) (cci_rIndex it) (cci_index it)
         (cci_ps it) (cci_pe it).
Definition iunsw (it : csr_iter) : csc_iter :=
  MkCSCI (cri_size it) (cri_last it) (cri_r it) (cri_c it) (cri_cIndex it) (cri_index it)
         (cri_ps it) (cri_pe it).
Lemma iunsw_isw it : iunsw (isw it) = it. Proof. destruct it; reflexivity. Qed.
Lemma isw_iunsw it : isw (iunsw it) = it. Proof. destruct it; reflexivity. Qed.

Lemma csc_next_col_sw s : forall fuel it,
  csc_next_col fuel s it = rmap iunsw (csr_next_row fuel (sw s) (isw it)).
Proof.
  induction fuel as [|fuel IH]; intros it; cbn [csc_next_col csr_next_row];
    cbn [isw cri_ps cri_pe cri_r cri_size cri_last cri_c cri_index sw csr_rowStart csr_cols].
  - destruct (cci_ps it =? cci_pe it); [reflexivity|]. destruct it; reflexivity.
  - destruct (cci_ps it =? cci_pe it); [|destruct it; reflexivity]. cbv zeta.
    destruct (zget (csc_colStart s) (cci_c it + 1)); cbn [rbind]; try reflexivity.
    destruct (zget (csc_colStart s) (cci_c it + 1 + 1)); cbn [rbind]; try reflexivity.
    destruct (zget (csc_rows s) a); cbn [rbind]; try reflexivity.
    rewrite IH. reflexivity.
Qed.

Lemma csc_next_row_sw s : forall fuel it,
  csc_next_row fuel s it = rmap iunsw (csr_next_col fuel (sw s) (isw it)).
Proof.
  induction fuel as [|fuel IH]; intros it; cbn [csc_next_row csr_next_col];
    cbn [isw cri_ps cri_pe cri_r cri_size cri_last cri_c cri_index cri_cIndex sw csr_rowStart csr_cols].
  - destruct (cci_ps it <? cci_pe it); [|destruct it; reflexivity].
    destruct (zget (csc_rows s) (cci_ps it)); cbn [rbind]; try reflexivity.
    destruct (a =? cci_rIndex it); reflexivity.
  - destruct (cci_ps it <? cci_pe it); [|destruct it; reflexivity].
    destruct (zget (csc_rows s) (cci_ps it)); cbn [rbind]; try reflexivity.
    destruct (a =? cci_rIndex it); [reflexivity|]. rewrite IH. reflexivity.
Qed.

Lemma csc_next_sw s it : csc_next s it = rmap iunsw (csr_next (sw s) (isw it)).
Proof.
  unfold csc_next, csr_next. rewrite csc_next_col_sw.
  replace (length (csr_rowStart (sw s))) with (length (csc_colStart s)) by reflexivity.
  destruct (csr_next_row (S (length (csc_colStart s))) (sw s) (isw it)) as [it1| |]; cbn [rbind rmap];
    try reflexivity.
  rewrite csc_next_row_sw, isw_iunsw. reflexivity.
Qed.

Lemma csc_iterator_sw s : csc_iterator s = iunsw (csr_iterator (sw s)).
Proof. reflexivity. Qed.

Lemma csc_HasNext_sw it : csc_HasNext it = csr_HasNext (isw it).
Proof. reflexivity. Qed.

Lemma csc_cur_sw s it : csc_cur s it =
  rmap (fun e => (snd (fst e), fst (fst e), snd e)) (csr_cur (sw s) (isw it)).
Proof. unfold csc_cur, csr_cur. cbn. destruct (zget (csc_values s) (cci_index it)); reflexivity. Qed.

Lemma csc_map_put_sw s it x : csc_map_put s it x = rmap unsw (csr_map_put (sw s) (isw it) x).
Proof.
  unfold csc_map_put, csr_map_put. destruct (negb (isz x)).
  - cbn. destruct (zset (csc_values s) (cci_index it) x); reflexivity.
  - rewrite csc_remove_sw. reflexivity.
Qed.

End Csc.
