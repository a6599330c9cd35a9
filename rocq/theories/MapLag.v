(** [Map] loops whose function produces zeros (csrMatrix.go:392-401, cscMatrix.go:402-411,
    sparseVector.go:357-366): a zero takes the element out of the sparse object while the iterator runs over it. *)
From Coq Require Import String Sorting.Sorted.
From Verif Require Import GoBase Num SparseVec Csr Csc DenseVec DenseMat Mat World Ops.
From Verif Require Import BaseProofs AssocProofs CsrProofs SvProofs CsrIterProofs CscProofs DenseProofs MatProofs.
From Verif Require Import Spec HeapProofs.

Section MapLag.
Context {N : num}.
Notation V := (T N).
Notation mat := (mat N).
Notation ent := (Z * Z * V)%type.
Notation world := (world N).
Implicit Types w : world.
Implicit Types m : mat.

(** ** Iterators that have seen elements disappear behind them *)

(** equal but for the counters, which are [k] ahead, and what was found last *)
Definition lag1 (k : Z) (i i0 : csr_iter) : Prop :=
  cri_r i = cri_r i0 /\ cri_last i = cri_last i0 + k /\ cri_size i = cri_size i0 + k /\
  cri_ps i = cri_ps i0 /\ cri_pe i = cri_pe i0 /\ cri_cIndex i = cri_cIndex i0.
(** or at the end of a row *)
Definition lag (k : Z) (i i0 : csr_iter) : Prop :=
  cri_r i = cri_r i0 /\ cri_last i = cri_last i0 + k /\ cri_size i = cri_size i0 + k /\
  (cri_ps i = cri_ps i0 /\ cri_pe i = cri_pe i0 /\ cri_cIndex i = cri_cIndex i0 \/ cri_ps i = cri_pe i /\ cri_ps i0 = cri_pe i0).

Lemma next_row_lag1 k (s : csr N) : forall fuel i i0 j0, lag1 k i i0 -> csr_next_row fuel s i0 = Ok j0 ->
  exists j, csr_next_row fuel s i = Ok j /\ lag1 k j j0 /\ cri_last j0 = cri_last i0.
Proof.
  induction fuel as [|fuel IH]; intros i i0 j0 (H1 & H2 & H3 & H4 & H5 & H6) H; cbn [csr_next_row] in *; rewrite H4, H5.
  - destruct (cri_ps i0 =? cri_pe i0); [discriminate|]. injection H as <-. exists i. unfold lag1. auto 10.
  - destruct (cri_ps i0 =? cri_pe i0).
    + cbv zeta in *. rewrite H1.
      destruct (zget (csr_rowStart s) (cri_r i0 + 1)) as [ps| |]; cbn [rbind] in *; try discriminate.
      destruct (zget (csr_rowStart s) (cri_r i0 + 1 + 1)) as [pe| |]; cbn [rbind] in *; try discriminate.
      destruct (zget (csr_cols s) ps) as [ci| |]; cbn [rbind] in *; try discriminate.
      edestruct IH as (j & Hj & Hl & Hl'); [|exact H|exists j; split; [exact Hj|]; split; [exact Hl|exact Hl']].
      unfold lag1. cbn. auto 10.
    + injection H as <-. exists i. unfold lag1. auto 10.
Qed.

Lemma next_row_lag k (s : csr N) fuel i i0 j0 : lag k i i0 -> csr_next_row (S fuel) s i0 = Ok j0 ->
  exists j, csr_next_row (S fuel) s i = Ok j /\ lag1 k j j0 /\ cri_last j0 = cri_last i0.
Proof.
  intros (H1 & H2 & H3 & [(H4 & H5 & H6)|(H4 & H5)]) H.
  - apply (next_row_lag1 k s (S fuel) i i0 j0); [unfold lag1; auto 10|exact H].
  - cbn [csr_next_row] in *. rewrite H5, Z.eqb_refl in H. rewrite H4, Z.eqb_refl. cbv zeta in *. rewrite H1.
    destruct (zget (csr_rowStart s) (cri_r i0 + 1)) as [ps| |]; cbn [rbind] in *; try discriminate.
    destruct (zget (csr_rowStart s) (cri_r i0 + 1 + 1)) as [pe| |]; cbn [rbind] in *; try discriminate.
    destruct (zget (csr_cols s) ps) as [ci| |]; cbn [rbind] in *; try discriminate.
    edestruct (next_row_lag1 k s fuel) as (j & Hj & Hl & Hl'); [|exact H|exists j; split; [exact Hj|]; split; [exact Hl|exact Hl']].
    unfold lag1. cbn. auto 10.
Qed.

Lemma next_col_lag1 k (s : csr N) : forall fuel i i0 j0, lag1 k i i0 -> csr_next_col fuel s i0 = Ok j0 -> cri_last j0 = cri_last i0 + 1 ->
  exists j, csr_next_col fuel s i = Ok j /\ lag1 k j j0 /\ cri_c j = cri_c j0 /\ cri_index j = cri_index j0.
Proof.
  induction fuel as [|fuel IH]; intros i i0 j0 (H1 & H2 & H3 & H4 & H5 & H6) H Hl; cbn [csr_next_col] in *; rewrite H4, H5.
  - destruct (cri_ps i0 <? cri_pe i0); [|injection H as <-; lia].
    destruct (zget (csr_cols s) (cri_ps i0)) as [x| |]; cbn [rbind] in *; try discriminate. rewrite H6.
    destruct (x =? cri_cIndex i0); [|discriminate]. injection H as <-. eexists. split; [reflexivity|]. unfold lag1. cbn. repeat split; lia.
  - destruct (cri_ps i0 <? cri_pe i0); [|injection H as <-; lia].
    destruct (zget (csr_cols s) (cri_ps i0)) as [x| |]; cbn [rbind] in *; try discriminate. rewrite H6.
    destruct (x =? cri_cIndex i0).
    + injection H as <-. eexists. split; [reflexivity|]. unfold lag1. cbn. repeat split; lia.
    + eapply IH; [|exact H|exact Hl]. unfold lag1. cbn. repeat split; lia.
Qed.

Lemma next_lag k (s : csr N) i i0 j0 : lag k i i0 -> csr_next s i0 = Ok j0 -> cri_last j0 = cri_last i0 + 1 ->
  exists j, csr_next s i = Ok j /\ lag1 k j j0 /\ cri_c j = cri_c j0 /\ cri_index j = cri_index j0.
Proof.
  intros Hl H Hl'. unfold csr_next in *.
  destruct (csr_next_row (S (length (csr_rowStart s))) s i0) as [x0| |] eqn:E; cbn [rbind] in H; try discriminate.
  destruct (next_row_lag k s _ i i0 x0 Hl E) as (x & -> & Hx & Hx'). cbn [rbind].
  assert (Hf : csr_col_fuel s x = csr_col_fuel s x0).
  { unfold csr_col_fuel. destruct Hx as (_ & _ & _ & -> & _ & ->). reflexivity. }
  rewrite Hf. eapply next_col_lag1; eauto. lia.
Qed.

Lemma lag1_lag k i i0 : lag1 k i i0 -> lag k i i0.
Proof. intros (H1 & H2 & H3 & H4 & H5 & H6). unfold lag. auto 10. Qed.

Lemma put_same (s : csr N) i i0 x : cri_index i = cri_index i0 -> cri_r i = cri_r i0 -> csr_map_put s i x = csr_map_put s i0 x.
Proof. intros H1 H2. unfold csr_map_put. rewrite H1, H2. reflexivity. Qed.
Lemma cur_same (s : csr N) i i0 : cri_index i = cri_index i0 -> cri_r i = cri_r i0 -> cri_c i = cri_c i0 -> csr_cur s i = csr_cur s i0.
Proof. intros H1 H2 H3. unfold csr_cur. rewrite H1, H2, H3. reflexivity. Qed.

(** ** Taking out the last element of a row *)

Lemma rows_ok_drop R C (X : list (list (Z * V))) lo c v (Y : list (list (Z * V))) : rows_ok R C (X ++ (lo ++ [(c, v)]) :: Y) -> rows_ok R C (X ++ lo :: Y).
Proof.
  intros (HR & HC & Hl & Hf). apply Forall_app in Hf as [Hf1 Hf2]. inversion Hf2 as [|? ? H1 H2]; subst.
  split; [auto|]. split; [auto|]. split; [zl; lia|]. apply Forall_app; split; [auto|]. constructor; [|auto].
  destruct H1 as (Hs & Hb & Hz). apply Forall_app in Hb as [Hb1 _]. apply Forall_app in Hz as [Hz1 _].
  split; [|auto]. rewrite map_app in Hs. apply ksorted_app in Hs. tauto.
Qed.

(** the rows of a matrix while its iterator [i0] stands at the last element of a row *)
Lemma drop_spec R C (rows : list (list (Z * V))) done r c v rest i0 x :
  rows_ok R C rows -> rents 0 rows = (done ++ [(r, c, v)]) ++ rest -> cri_last i0 = zlen done + 1 -> cri_index i0 = zlen done -> cri_r i0 = r ->
  it_inv (map (map fst) rows) i0 (map fst rest) -> isz x = true -> (forall e, In e rest -> fst (fst e) <> r) ->
  exists rows' j0, csr_map_put (mk_csr R C rows) i0 x = Ok (mk_csr R C rows') /\ rows_ok R C rows' /\ rents 0 rows' = done ++ rest /\
    cri_last j0 = zlen done /\ it_inv (map (map fst) rows') j0 (map fst rest) /\
    cri_r j0 = r /\ cri_size j0 = cri_size i0 - 1 /\ cri_ps j0 = cri_pe j0 /\ cri_ps i0 = cri_pe i0.
Proof.
  intros H E El Eix Er Hi Hx Hends. rewrite <- app_assoc in E. cbn [app] in E.
  destruct (rents_split _ _ _ _ _ E) as (X & lo & c' & v' & hi & Y & HX & He & Hd & Hr).
  injection He as He1 He2 He3; subst c' v'. rewrite Z.add_0_l in *.
  assert (hi = []) as ->.
  { destruct hi as [|[c1 v1] hi]; [reflexivity|]. exfalso. apply (Hends (zlen X, c1, v1)); [rewrite Hr; left; reflexivity|]. symmetry. exact He1. }
  assert (Hz : zlen done = zlen (concat X) + zlen lo) by (rewrite Hd; zl; unfold tag; zl; rewrite zlen_rents; reflexivity).
  destruct Hi as (X1 & l2 & Y1 & pre & K1 & K2 & K3 & K4 & K5 & K6 & K7 & K8 & K9 & K10).
  assert (l2 = []) as ->.
  { destruct l2 as [|a l2]; [reflexivity|]. exfalso. cbn [map app] in K10.
    destruct rest as [|[[r1 c1] v1] rest]; [discriminate|]. cbn [map fst] in K10. injection K10 as Q1 Q2 Q3.
    apply (Hends (r1, c1, v1)); [left; reflexivity|]. cbn [fst]. lia. }
  rewrite app_nil_r in K2.
  exists (X ++ lo :: Y), (MkCSRI (cri_size i0 - 1) (cri_last i0 - 1) (cri_c i0) r (cri_cIndex i0) (cri_index i0) (cri_last i0 - 1) (cri_last i0 - 1)).
  split.
  { unfold csr_map_put. rewrite Hx. cbn [negb]. rewrite HX, Eix, Er, Hz, He1. rewrite csr_remove_spec by (rewrite HX in H; exact H).
    rewrite app_nil_r. reflexivity. }
  split; [rewrite HX in H; eapply rows_ok_drop; eauto|].
  split.
  { rewrite rents_app. cbn [rents]. rewrite Z.add_0_l. rewrite Hd, Hr. cbn [tag map app]. rewrite <- app_assoc. reflexivity. }
  cbn [cri_last cri_r cri_size cri_ps cri_pe]. split; [lia|]. split.
  { exists (map (map fst) (X ++ [lo])), [], (map (map fst) Y), (concat (map (map fst) (X ++ [lo]))).
    cbn [cri_last cri_r cri_size cri_ps cri_pe cri_cIndex].
    assert (Hc : zlen (concat (map (map fst) (X ++ [lo]))) = zlen (concat X) + zlen lo).
    { rewrite <- concat_map, concat_app. cbn [concat]. rewrite app_nil_r. zl. reflexivity. }
    rewrite Hc. split; [rewrite <- map_app, <- app_assoc; reflexivity|]. split; [rewrite app_nil_r; reflexivity|].
    split; [zl; lia|]. split; [lia|]. split; [lia|]. split; [lia|]. split.
    - rewrite K7. rewrite HX. rewrite <- !concat_map. zl. rewrite !concat_mid. rewrite !concat_app. cbn [concat]. zl. lia.
    - split; [constructor|]. split; [constructor|]. cbn [map app]. rewrite Hr. cbn [tag map app]. rewrite rents_pos. f_equal. zl. lia. }
  split; [reflexivity|]. split; [reflexivity|]. split; [reflexivity|]. rewrite K4, K5, K2. reflexivity.
Qed.

(** ** The relation between an object, its iterator, what is done and what is to come *)

Definition lagging (it it0 : iter) (rest : list ent) : Prop :=
  match it, it0 with
  | ICSR i, ICSR i0 => exists k, lag k i i0
  | ICSC i, ICSC i0 => exists k, lag k (isw i) (isw i0)
  | ISV i, ISV i0 => i = i0 \/ rest = [] /\ sv_HasNext i = false
  | IDM i, IDM i0 => i = i0
  | IDV i, IDV i0 => i = i0
  | _, _ => False
  end.
Definition mrel (m : mat) (it : iter) (done rest : list ent) : Prop := exists it0, it_rel m it0 done rest /\ lagging it it0 rest.

(** no element of [rest] is in the line that the iterator is in *)
Definition ends (m : mat) (r c : Z) (rest : list ent) : Prop :=
  match m with
  | MCSR _ => forall e, In e rest -> fst (fst e) <> r
  | MCSC _ => forall e, In e rest -> snd (fst e) <> c
  | MSV _ => rest = []
  | _ => True
  end.
Definition keep (m : mat) (e : ent) : list ent := if is_sp m && isz (snd e) then [] else [e].

Lemma it_rel_mrel m it done rest : it_rel m it done rest -> mrel m it done rest.
Proof.
  intros H. exists it. split; [exact H|]. destruct m, it; simpl in H; try contradiction; cbn [lagging]; auto.
  - exists 0. unfold lag. repeat split; lia.
  - exists 0. unfold lag. repeat split; lia.
Qed.

Lemma mrel_HasNext m it done rest : mrel m it done rest -> mat_HasNext it = match rest with [] => false | _ => true end.
Proof.
  intros (it0 & H & L). pose proof (it_rel_HasNext _ _ _ _ H) as Hn. destruct it as [i|i|i|i|i], it0 as [i0|i0|i0|i0|i0]; cbn [lagging] in L; try contradiction.
  - destruct L as (k & L1 & L2 & L3 & _). rewrite <- Hn. cbn [mat_HasNext]. unfold csr_HasNext. rewrite L2, L3.
    destruct (Z.geb_spec (cri_last i0 + k) (cri_size i0 + k)), (Z.geb_spec (cri_last i0) (cri_size i0)); auto; lia.
  - destruct L as (k & L1 & L2 & L3 & _). rewrite <- Hn. cbn [mat_HasNext]. rewrite !csc_HasNext_sw. unfold csr_HasNext. rewrite L2, L3.
    destruct (Z.geb_spec (cri_last (isw i0) + k) (cri_size (isw i0) + k)), (Z.geb_spec (cri_last (isw i0)) (cri_size (isw i0))); auto; lia.
  - subst. exact Hn.
  - subst. exact Hn.
  - destruct L as [->|[-> L]]; [exact Hn|exact L].
Qed.

Lemma csr_next_facts (s : csr N) i r c v done rest it' : it_rel (MCSR s) (ICSR i) done ((r, c, v) :: rest) ->
  mat_next (MCSR s) (ICSR i) = Ok it' ->
  exists i', it' = ICSR i' /\ csr_next s i = Ok i' /\ cri_index i' = zlen done /\ cri_last i = zlen done /\ cri_last i' = cri_last i + 1 /\ cri_r i' = r /\ cri_c i' = c.
Proof.
  intros (R & C & rows & -> & H & E & El & Hi) Hn.
  destruct (csr_next_spec (mk_csr R C rows) (map (map fst) rows) i r c (map fst rest)) as (i' & Hn' & Hi' & H1 & H2 & H3 & H4 & H5).
  - split; cbn; [rewrite concat_map; reflexivity|rewrite offsets_map; reflexivity].
  - eapply sorted_keys; eauto.
  - exact Hi.
  - cbn [mat_next] in Hn. rewrite Hn' in Hn. cbn [rmap rbind] in Hn. injection Hn as <-. exists i'. repeat split; auto; lia.
Qed.

Lemma csc_next_facts (s : csc N) i r c v done rest it' : it_rel (MCSC s) (ICSC i) done ((r, c, v) :: rest) ->
  mat_next (MCSC s) (ICSC i) = Ok it' ->
  exists i', it' = ICSC (iunsw i') /\ csr_next (sw s) (isw i) = Ok i' /\ cri_index i' = zlen done /\ cri_last (isw i) = zlen done /\
    cri_last i' = cri_last (isw i) + 1 /\ cri_r i' = c /\ cri_c i' = r.
Proof.
  intros (R & C & cols & -> & H & E & El & Hi) Hn.
  destruct (csr_next_spec (mk_csr C R cols) (map (map fst) cols) (isw i) c r (map fst (map swap_ent rest))) as (i' & Hn' & Hi' & H1 & H2 & H3 & H4 & H5).
  - split; cbn; [rewrite concat_map; reflexivity|rewrite offsets_map; reflexivity].
  - eapply sorted_keys; eauto.
  - exact Hi.
  - cbn [mat_next] in Hn. rewrite csc_next_sw, sw_mk, Hn' in Hn. cbn [rmap rbind] in Hn. injection Hn as <-. rewrite sw_mk. exists i'.
    assert (Q : cri_last (isw i) = zlen done) by exact El. repeat split; auto; lia.
Qed.

Lemma mrel_step m it done r c v rest : mrel m it done ((r, c, v) :: rest) ->
  exists it', mat_next m it = Ok it' /\ mat_cur m it' = Ok (r, c, v) /\
    forall x, (is_sp m = true -> isz x = true -> ends m r c rest) ->
      exists m', mat_map_put m it' x = Ok m' /\ same_shape m m' /\ mrel m' it' (done ++ keep m (r, c, x)) rest.
Proof.
  intros (it0 & H & L). destruct (it_rel_step _ _ _ _ _ _ _ H) as (it0' & Hn & Hc & Hr & Hput).
  assert (Hnz : forall x, is_sp m = true -> isz x = false -> keep m (r, c, x) = [(r, c, x)]).
  { intros x H1 H2. unfold keep. cbn [snd]. rewrite H2, andb_false_r. reflexivity. }
  destruct m as [s|s|s|s|s], it0 as [i0|i0|i0|i0|i0]; try (simpl in H; contradiction); destruct it as [i|i|i|i|i]; cbn [lagging] in L; try contradiction.
  - destruct (csr_next_facts s i0 r c v done rest it0' H Hn) as (j0 & -> & N0 & N1 & N2 & N3 & N4 & N5).
    destruct L as (k & L). destruct (next_lag k s i i0 j0 L N0 N3) as (j & Hj & Lj & J1 & J2).
    assert (J3 : cri_r j = cri_r j0) by apply Lj.
    exists (ICSR j). split; [cbn [mat_next]; rewrite Hj; reflexivity|]. split; [cbn [mat_cur] in *; rewrite (cur_same s j j0); auto|].
    intros x Hx. cbn [mat_map_put]. rewrite (put_same s j j0 x J2 J3). destruct (isz x) eqn:Ex.
    + specialize (Hx eq_refl eq_refl). cbn [ends] in Hx.
      destruct Hr as (R & C & rows & -> & Hro & E & El & Hi).
      destruct (drop_spec R C rows done r c v rest j0 x Hro E) as (rows' & k0 & P1 & P2 & P3 & P4 & P5 & P6 & P7 & P8 & P9); auto; [lia|].
      rewrite P1. eexists. split; [reflexivity|]. split; [repeat split|].
      exists (ICSR k0). split.
      * unfold keep. cbn [is_sp snd andb]. rewrite Ex, app_nil_r. exists R, C, rows'. auto.
      * cbn [lagging]. exists (k + 1). destruct Lj as (A1 & A2 & A3 & A4 & A5 & A6). unfold lag. split; [lia|]. split; [lia|]. split; [lia|]. right. lia.
    + destruct (Hput x) as (m' & Hm & Hs & Hr'); [auto|]. cbn [mat_map_put] in Hm. rewrite Hm. exists m'. split; [reflexivity|]. split; [exact Hs|].
      rewrite Hnz by auto. exists (ICSR j0). split; [exact Hr'|]. cbn [lagging]. exists k. apply lag1_lag. exact Lj.
  - destruct (csc_next_facts s i0 r c v done rest it0' H Hn) as (j0 & -> & N0 & N1 & N2 & N3 & N4 & N5).
    destruct L as (k & L). destruct (next_lag k (sw s) (isw i) (isw i0) j0 L N0 N3) as (j & Hj & Lj & J1 & J2).
    assert (J3 : cri_r j = cri_r j0) by apply Lj.
    exists (ICSC (iunsw j)). split; [cbn [mat_next]; rewrite csc_next_sw, Hj; reflexivity|].
    split; [cbn [mat_cur] in *; rewrite csc_cur_sw, isw_iunsw in *; rewrite (cur_same (sw s) j j0); auto|].
    intros x Hx. cbn [mat_map_put] in *. rewrite csc_map_put_sw, isw_iunsw, (put_same (sw s) j j0 x J2 J3). destruct (isz x) eqn:Ex.
    + specialize (Hx eq_refl eq_refl). cbn [ends] in Hx.
      destruct Hr as (R & C & cols & -> & Hro & E & El & Hi). rewrite isw_iunsw in Hi.
      assert (E' : rents 0 cols = (map swap_ent done ++ [(c, r, v)]) ++ map swap_ent rest).
      { rewrite <- (map_swap_swap (rents 0 cols)), E, !map_app. reflexivity. }
      destruct (drop_spec C R cols (map swap_ent done) c r v (map swap_ent rest) j0 x Hro E') as (cols' & k0 & P1 & P2 & P3 & P4 & P5 & P6 & P7 & P8 & P9); auto; zl; try lia.
      { intros e He. apply in_map_iff in He as ([[a b] u] & <- & He). apply (Hx _ He). }
      rewrite sw_mk, P1. cbn [rmap rbind]. eexists. split; [reflexivity|]. split; [repeat split|].
      exists (ICSC (iunsw k0)). split.
      * unfold keep. cbn [is_sp snd andb]. rewrite Ex, app_nil_r. exists R, C, cols'. split; [reflexivity|]. split; [exact P2|].
        split; [rewrite P3, map_app, !map_swap_swap; reflexivity|]. rewrite isw_iunsw. split; [|exact P5]. rewrite ?zlen_map in P4. exact P4.
      * cbn [lagging]. exists (k + 1). rewrite !isw_iunsw. destruct Lj as (A1 & A2 & A3 & A4 & A5 & A6). rewrite ?zlen_map in P4. unfold lag. split; [lia|]. split; [lia|]. split; [lia|]. right. lia.
    + destruct (Hput x) as (m' & Hm & Hs & Hr'); [auto|]. rewrite csc_map_put_sw, isw_iunsw in Hm.
      destruct (csr_map_put (sw s) j0 x) as [q| |]; cbn [rmap rbind] in *; try discriminate. injection Hm as <-. eexists. split; [reflexivity|]. split; [exact Hs|].
      rewrite Hnz by auto. exists (ICSC (iunsw j0)). split; [exact Hr'|]. cbn [lagging]. exists k. rewrite !isw_iunsw. apply lag1_lag. exact Lj.
  - subst i. exists it0'. split; [exact Hn|]. split; [exact Hc|]. intros x _. destruct (Hput x) as (m' & Hm & Hs & Hr'); [discriminate|].
    exists m'. split; [exact Hm|]. split; [exact Hs|]. apply it_rel_mrel. exact Hr'.
  - subst i. exists it0'. split; [exact Hn|]. split; [exact Hc|]. intros x _. destruct (Hput x) as (m' & Hm & Hs & Hr'); [discriminate|].
    exists m'. split; [exact Hm|]. split; [exact Hs|]. apply it_rel_mrel. exact Hr'.
  - destruct L as [->|[L _]]; [|discriminate]. exists it0'. split; [exact Hn|]. split; [exact Hc|]. intros x Hx. destruct (isz x) eqn:Ex.
    + specialize (Hx eq_refl eq_refl). cbn [ends] in Hx. subst rest. cbn [mat_next] in Hn. injection Hn as <-.
      destruct Hr as (l & ents & -> & Hok & E & E1 & E2). rewrite app_nil_r in E.
      destruct H as (l' & ents' & Hs & _ & _ & E3 & E4).
      destruct (map_split _ _ _ _ E) as (l1 & l2 & -> & Hd & Hre). destruct l2 as [|[q u] [|? ?]]; try discriminate.
      cbn [map fst snd] in Hre. injection Hre as -> -> ->.
      cbn [mat_map_put]. unfold sv_map_put. rewrite Ex. cbn [negb]. unfold sv_remove. cbn [sv_l sv_values sv_indices mk_sv sv_next svi_old].
      assert (Hz : svi_last i0 = zlen l1) by (rewrite E3, Hd; zl; reflexivity).
      rewrite !map_app. rewrite slice_to_app by (zl; lia). cbn [rbind map fst snd].
      rewrite <- (app_nil_r (map fst l1 ++ [q])). rewrite slice_from_app by (zl; lia). cbn [rbind].
      rewrite slice_to_app by (zl; lia). cbn [rbind]. rewrite <- (app_nil_r (map snd l1 ++ [u])). rewrite slice_from_app by (zl; lia). cbn [rbind].
      rewrite !app_nil_r. eexists. split; [reflexivity|]. split; [repeat split|].
      exists (ISV (MkSVI (zlen l1) (zlen l1) 0)). split.
      * unfold keep. cbn [is_sp snd andb]. rewrite Ex, !app_nil_r. exists l, l1. split; [reflexivity|].
        split; [|split; [rewrite app_nil_r; symmetry; exact Hd|split; [cbn; rewrite Hd; zl; reflexivity|reflexivity]]].
        destruct Hok as (H0 & H1 & H2). apply Forall_app in H1 as [A1 _]. apply Forall_app in H2 as [B1 _]. split; [auto|]. split; auto.
      * cbn [lagging]. right. split; [reflexivity|]. unfold sv_HasNext. cbn [svi_last svi_size sv_next] in *. zl. rewrite E1, E2, Hd. zl.
        destruct (Z.geb_spec (zlen l1 + (0 + 1)) (zlen l1 + (0 + 1))); [reflexivity|lia].
    + destruct (Hput x) as (m' & Hm & Hs & Hr'); [auto|]. exists m'. split; [exact Hm|]. split; [exact Hs|]. rewrite Hnz by auto. apply it_rel_mrel. exact Hr'.
Qed.

(** ** A zero before the end of the last row *)

(** after it the iterator runs past the end of the arrays *)
Definition past (R C : Z) (X : list (list (Z * V))) (row : list (Z * V)) (Y : list (list (Z * V))) (i : csr_iter) (q : nat) : Prop :=
  rows_ok R C (X ++ row :: Y) /\ concat Y = [] /\ cri_r i = zlen X /\ cri_ps i = zlen (concat X) + Z.of_nat q /\ cri_ps i < cri_pe i /\
  zlen (concat X) + zlen row < cri_pe i /\ cri_size i - cri_last i = cri_pe i - cri_ps i /\ Forall (fun e => cri_cIndex i <= fst e) (skipn q row).

Lemma skipn_cons_inv {A} n (l : list A) x t : skipn n l = x :: t -> l = firstn n l ++ x :: t /\ length (firstn n l) = n /\ skipn (S n) l = t.
Proof.
  intros H. split; [rewrite <- H; symmetry; apply firstn_skipn|]. split.
  - apply firstn_length_le. destruct (Nat.le_gt_cases n (length l)) as [Q|Q]; [exact Q|]. rewrite skipn_all2 in H by lia. discriminate.
  - revert l H. induction n as [|n IH]; intros [|a l] H; try discriminate; [injection H as -> ->; reflexivity|]. apply IH. exact H.
Qed.

Lemma past_HasNext R C X row Y i q : past R C X row Y i q -> csr_HasNext i = true.
Proof. intros (_ & _ & _ & _ & H1 & _ & H2 & _). unfold csr_HasNext. destruct (Z.geb_spec (cri_last i) (cri_size i)); [lia|reflexivity]. Qed.

Lemma past_next R C X row Y i q : past R C X row Y i q ->
  csr_next (mk_csr R C (X ++ row :: Y)) i = Panic \/
  exists i' c v t, csr_next (mk_csr R C (X ++ row :: Y)) i = Ok i' /\ skipn q row = (c, v) :: t /\ csr_cur (mk_csr R C (X ++ row :: Y)) i' = Ok (zlen X, c, v) /\
    forall x, exists row', csr_map_put (mk_csr R C (X ++ row :: Y)) i' x = Ok (mk_csr R C (X ++ row' :: Y)) /\ past R C X row' Y i' (S q) /\ cri_pe i' - cri_ps i' = cri_pe i - cri_ps i - 1.
Proof.
  intros (H1 & H2 & H3 & H4 & H5 & H6 & H7 & H8). unfold csr_next.
  assert (Er : csr_next_row (S (length (csr_rowStart (mk_csr R C (X ++ row :: Y))))) (mk_csr R C (X ++ row :: Y)) i = Ok i).
  { cbn [csr_next_row]. destruct (Z.eqb_spec (cri_ps i) (cri_pe i)); [lia|reflexivity]. }
  rewrite Er. cbn [rbind].
  assert (Ec : csr_cols (mk_csr R C (X ++ row :: Y)) = map fst (concat X) ++ map fst row).
  { cbn [csr_cols mk_csr]. rewrite concat_app. cbn [concat]. rewrite H2, app_nil_r, map_app. reflexivity. }
  assert (Ev : csr_values (mk_csr R C (X ++ row :: Y)) = map snd (concat X) ++ map snd row).
  { cbn [csr_values mk_csr]. rewrite concat_app. cbn [concat]. rewrite H2, app_nil_r, map_app. reflexivity. }
  destruct (skipn q row) as [|[c v] t] eqn:Eq.
  - left. assert (Hb : zlen row <= Z.of_nat q).
    { pose proof (skipn_length q row) as L. rewrite Eq in L. cbn [length] in L. unfold zlen. lia. }
    assert (Hg : zget (csr_cols (mk_csr R C (X ++ row :: Y))) (cri_ps i) = Panic) by (rewrite Ec; apply zget_big; zl; lia).
    unfold csr_col_fuel. rewrite Hg. cbn [csr_next_col]. destruct (Z.ltb_spec (cri_ps i) (cri_pe i)); [|lia]. rewrite Hg. reflexivity.
  - right. destruct (skipn_cons_inv _ _ _ _ Eq) as (Erow & El & Et). remember (firstn q row) as lo eqn:Elo. clear Elo.
    assert (Hlo : zlen lo = Z.of_nat q) by (unfold zlen; lia).
    apply Forall_cons_iff in H8 as [Hc Ht]. cbn [fst] in Hc.
    assert (Hg : zget (csr_cols (mk_csr R C (X ++ row :: Y))) (cri_ps i) = Ok c).
    { rewrite Ec, Erow, map_app. cbn [map fst]. rewrite app_assoc. apply zget_mid. zl. lia. }
    assert (Hrow : ksorted (map fst row)).
    { destruct H1 as (_ & _ & _ & Hf). apply Forall_app in Hf as [_ Hf]. apply Forall_cons_iff in Hf as [Hr _]. apply Hr. }
    assert (Hgt : Forall (fun e => c < fst e) t).
    { rewrite Erow, map_app in Hrow. apply ksorted_app in Hrow as (_ & Hrow & _). cbn [map fst] in Hrow. apply ksorted_cons in Hrow as [_ Hrow].
      rewrite Forall_forall in Hrow. apply Forall_forall. intros e He. apply Hrow. apply in_map. exact He. }
    rewrite (csr_next_col_spec _ c); [|exact Hg|exact H5|unfold csr_col_fuel; rewrite Hg; lia].
    eexists. exists c, v, t. split; [reflexivity|]. split; [reflexivity|].
    assert (Hrange : zlen (concat X) + zlen row = zlen (concat X) + zlen lo + 1 + zlen t) by (rewrite Erow; zl; lia).
    pose proof (zlen_nonneg t) as Htn.
    split.
    { unfold csr_cur. cbn [cri_index cri_r cri_c]. rewrite Ev, Erow, map_app. cbn [map snd]. rewrite app_assoc. rewrite zget_mid by (zl; lia). cbn [rbind]. rewrite H3. reflexivity. }
    intros x. destruct (isz x) eqn:Ex.
    + exists (lo ++ t). split.
      { unfold csr_map_put. rewrite Ex. cbn [negb cri_index cri_r]. rewrite Erow in H1 |- *. rewrite H3, H4, <- Hlo. rewrite csr_remove_spec by exact H1. reflexivity. }
      split; [|cbn [cri_pe cri_ps]; lia]. split.
      { destruct H1 as (A1 & A2 & A3 & A4). split; [auto|]. split; [auto|]. split; [zl; lia|].
        apply Forall_app in A4 as [A4 A5]. apply Forall_cons_iff in A5 as [A6 A7]. apply Forall_app; split; [auto|]. constructor; [|auto].
        destruct A6 as (B1 & B2 & B3). rewrite Erow in B1, B2, B3. apply Forall_app in B2 as [B2 B2']. apply Forall_app in B3 as [B3 B3'].
        apply Forall_cons_iff in B2' as [_ B2']. apply Forall_cons_iff in B3' as [_ B3']. split; [|split; apply Forall_app; auto].
        rewrite map_app in *. cbn [map fst] in B1. apply ksorted_app in B1 as (D1 & D2 & D3). apply ksorted_cons in D2 as [D2 _].
        apply ksorted_app. split; [auto|]. split; [auto|]. intros a b Ha Hb. apply D3; [exact Ha|right; exact Hb]. }
      cbn [cri_r cri_ps cri_pe cri_size cri_last cri_cIndex]. split; [exact H2|]. split; [exact H3|]. split; [lia|]. split; [lia|].
      split; [zl; lia|]. split; [lia|].
      replace (S q) with (length lo + 1)%nat by lia. rewrite skipn_app, skipn_all2 by lia. replace (length lo + 1 - length lo)%nat with 1%nat by lia. cbn [app].
      destruct t as [|[c1 v1] t]; [constructor|]. cbn [skipn]. apply Forall_cons_iff in Hgt as [G1 G2]. eapply Forall_impl; [|exact G2]. cbn. intros; lia.
    + exists (lo ++ (c, x) :: t). rewrite Erow. rewrite csr_put_spec by (auto; cbn [cri_index]; lia). split; [reflexivity|].
      split; [|cbn [cri_pe cri_ps]; lia]. split; [rewrite Erow in H1; eapply rows_ok_replace; eauto|].
      cbn [cri_r cri_ps cri_pe cri_size cri_last cri_cIndex]. split; [exact H2|]. split; [exact H3|]. split; [lia|]. split; [lia|].
      split; [zl; lia|]. split; [lia|].
      replace (S q) with (length lo + 1)%nat by lia. rewrite skipn_app, skipn_all2 by lia. replace (length lo + 1 - length lo)%nat with 1%nat by lia. cbn [app skipn].
      eapply Forall_impl; [|exact Hgt]. cbn. intros; lia.
Qed.

(** the first zero that does not end the last row *)
Lemma past_start (s : csr N) it dn r c v rest x : mrel (MCSR s) it dn ((r, c, v) :: rest) -> rest <> [] -> (forall e, In e rest -> fst (fst e) = r) -> isz x = true ->
  exists R C X row Y i q, past R C X row Y i q /\ cri_pe i - cri_ps i = zlen rest /\
    mat_next (MCSR s) it = Ok (ICSR i) /\ mat_cur (MCSR s) (ICSR i) = Ok (r, c, v) /\ mat_map_put (MCSR s) (ICSR i) x = Ok (MCSR (mk_csr R C (X ++ row :: Y))).
Proof.
  intros (it0 & H & L) Hne Hrow Hx. destruct (it_rel_step _ _ _ _ _ _ _ H) as (it0' & Hn & Hc & Hr & _).
  destruct it0 as [i0|i0|i0|i0|i0]; try (simpl in H; contradiction). destruct it as [i|i|i|i|i]; cbn [lagging] in L; try contradiction.
  destruct (csr_next_facts s i0 r c v dn rest it0' H Hn) as (j0 & -> & N0 & N1 & N2 & N3 & N4 & N5).
  destruct L as (k & L). destruct (next_lag k s i i0 j0 L N0 N3) as (j & Hj & Lj & J1 & J2).
  assert (J3 : cri_r j = cri_r j0) by apply Lj. destruct Lj as (_ & A2 & A3 & A4 & A5 & A6).
  destruct Hr as (R & C & rows & -> & Hro & E & El & Hi). rewrite <- app_assoc in E. cbn [app] in E.
  destruct (rents_split _ _ _ _ _ E) as (X & lo & c' & v' & hi & Y & HX & He & Hd & Hrest).
  injection He as He1 He2 He3; subst c' v'. rewrite Z.add_0_l in *.
  assert (HY : concat Y = []).
  { assert (Q : rents (zlen X + 1) Y = []).
    { destruct (rents (zlen X + 1) Y) as [|[[a b] u] T] eqn:ER; [reflexivity|]. exfalso.
      assert (I1 : In (a, b, u) rest) by (rewrite Hrest; apply in_or_app; right; left; reflexivity).
      pose proof (Hrow _ I1) as I2. cbn [fst] in I2.
      destruct (rents_split Y (zlen X + 1) [] (a, b, u) T ER) as (X' & lo' & c1 & v1 & hi' & Y' & _ & I3 & _). injection I3 as I3 _ _.
      pose proof (zlen_nonneg X'). lia. }
    pose proof (zlen_rents (zlen X + 1) Y) as Z1. rewrite Q in Z1. rewrite zlen_nil in Z1. destruct (concat Y) as [|e T]; [reflexivity|]. zl. pose proof (zlen_nonneg T). lia. }
  assert (ERest : rest = tag (zlen X) hi).
  { rewrite Hrest. pose proof (zlen_rents (zlen X + 1) Y) as Z1. rewrite HY, zlen_nil in Z1. destruct (rents (zlen X + 1) Y) as [|e T]; [apply app_nil_r|]. zl. pose proof (zlen_nonneg T). lia. }
  assert (Hz : zlen dn = zlen (concat X) + zlen lo) by (rewrite Hd; zl; unfold tag; zl; rewrite zlen_rents; reflexivity).
  assert (Hl : zlen rest = zlen hi) by (rewrite ERest; unfold tag; zl; reflexivity).
  pose proof Hi as Hi'. destruct Hi' as (X1 & l2 & Y1 & pre & K1 & K2 & K3 & K4 & K5 & K6 & K7 & K8 & K9 & K10).
  assert (HlX : length X1 = S (length X)) by (unfold zlen in *; lia).
  assert (EX1 : X1 = map (map fst) (X ++ [lo ++ (c, v) :: hi])).
  { rewrite HX in K1. change ((lo ++ (c, v) :: hi) :: Y) with ([lo ++ (c, v) :: hi] ++ Y) in K1. rewrite app_assoc, map_app in K1.
    assert (G : forall (A : Type) (a b a' b' : list A), length a = length a' -> a ++ b = a' ++ b' -> a = a').
    { clear. intros A. induction a as [|x a IH]; intros b [|y a'] b' Hl H; try discriminate; [reflexivity|]. cbn [app] in H. injection H as -> H. f_equal. eapply IH; eauto. }
    symmetry. eapply G; [|exact K1]. rewrite map_length, app_length. cbn [length]. lia. }
  assert (Hpe : cri_pe j0 = zlen (concat X) + zlen lo + 1 + zlen hi).
  { rewrite K5, EX1, <- concat_map, concat_app. cbn [concat]. rewrite app_nil_r. zl. lia. }
  assert (Hps : cri_ps j0 = zlen (concat X) + zlen lo + 1) by lia.
  assert (Hsize : cri_size j0 = cri_pe j0).
  { rewrite K7, Hpe, HX, <- concat_map. zl. rewrite concat_mid, HY, app_nil_r. zl. lia. }
  assert (Hl2 : l2 = map fst hi).
  { assert (Q : map fst rest = map (fun c => (r, c)) (map fst hi)).
    { rewrite ERest. unfold tag. rewrite !map_map. apply map_ext. intros [a b]. cbn. congruence. }
    assert (QY : kpos (zlen X1) Y1 = []).
    { pose proof (zlen_kpos (zlen X1) Y1) as Z1. assert (Z2 : zlen (concat Y1) = 0).
      { assert (Z3 : zlen (concat (map (map fst) rows)) = zlen (concat X1) + zlen (concat Y1)) by (rewrite K1, concat_app; zl; reflexivity).
        rewrite <- K7, Hsize, K5 in Z3. lia. }
      destruct (kpos (zlen X1) Y1) as [|e T]; [reflexivity|]. zl. pose proof (zlen_nonneg T). lia. }
    rewrite QY, app_nil_r, Q in K10. replace (zlen X1 - 1) with r in K10 by lia. clear - K10. revert l2 K10. induction (map fst hi) as [|a l IH]; intros [|b l2] H; try discriminate; [reflexivity|].
    cbn [map] in H. injection H as -> H. f_equal. apply IH. exact H. }
  exists R, C, X, (lo ++ hi), Y, j, (S (length lo)).
  pose proof (zlen_nonneg hi) as Hhn.
  assert (Hh0 : 0 < zlen hi). { rewrite <- Hl. destruct rest; [contradiction|]. zl. pose proof (zlen_nonneg rest). lia. }
  split; [|split; [|split; [|split]]].
  - split.
    { rewrite HX in Hro. destruct Hro as (B1 & B2 & B3 & B4). split; [auto|]. split; [auto|]. split; [zl; lia|].
      apply Forall_app in B4 as [B4 B5]. apply Forall_cons_iff in B5 as [(D1 & D2 & D3) B6]. apply Forall_app; split; [auto|]. constructor; [|auto].
      apply Forall_app in D2 as [D2 D2']. apply Forall_app in D3 as [D3 D3']. apply Forall_cons_iff in D2' as [_ D2']. apply Forall_cons_iff in D3' as [_ D3'].
      split; [|split; apply Forall_app; auto]. rewrite map_app in *. cbn [map fst] in D1. apply ksorted_app in D1 as (F1 & F2 & F3). apply ksorted_cons in F2 as [F2 _].
      apply ksorted_app. split; [auto|]. split; [auto|]. intros a b Ha Hb. apply F3; [exact Ha|right; exact Hb]. }
    split; [exact HY|]. split; [lia|]. split; [unfold zlen in *; lia|]. split; [lia|]. split; [zl; lia|]. split; [lia|].
    replace (S (length lo)) with (length lo + 1)%nat by lia. rewrite skipn_app, skipn_all2 by lia. replace (length lo + 1 - length lo)%nat with 1%nat by lia. cbn [app].
    rewrite A6. rewrite Hl2 in K8. apply Forall_forall. intros e Hin. rewrite Forall_forall in K8. apply K8. apply in_map. destruct hi; [exact Hin|right; exact Hin].
  - lia.
  - cbn [mat_next]. rewrite Hj. reflexivity.
  - cbn [mat_cur] in *. rewrite (cur_same _ j j0) by auto. exact Hc.
  - cbn [mat_map_put]. unfold csr_map_put. rewrite Hx. cbn [negb]. rewrite J2, J3, N1, N4, Hz, He1, HX. rewrite csr_remove_spec by (rewrite HX in Hro; exact Hro). reflexivity.
Qed.

(** a CSC matrix is the CSR matrix of its columns *)
Lemma mrel_sw (s : csc N) i (dn rest : list ent) : mrel (MCSC s) (ICSC i) dn rest -> mrel (MCSR (sw s)) (ICSR (isw i)) (map swap_ent dn) (map swap_ent rest).
Proof.
  intros (it0 & H & L). destruct it0 as [i0|i0|i0|i0|i0]; cbn [lagging] in L; try contradiction. exists (ICSR (isw i0)). split; [|exact L].
  destruct H as (R & C & cols & -> & H1 & H2 & H3 & H4). exists C, R, cols. split; [reflexivity|]. split; [exact H1|].
  split; [rewrite <- map_app, <- H2; symmetry; apply map_swap_swap|]. split; [zl; exact H3|exact H4].
Qed.
End MapLag.
