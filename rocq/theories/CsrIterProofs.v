(** The CSR iterator visits the stored entries in row-major order.  Everything
    here depends on the column and row-offset arrays only, so it also covers an
    iterator whose callback rewrites values. *)
From Verif Require Import GoBase Num BaseProofs SparseVec Csr AssocProofs CsrProofs.

(** stored positions, row by row, numbering rows from [k] *)
Fixpoint kpos (k : Z) (K : list (list Z)) : list (Z * Z) :=
  match K with
  | [] => []
  | l :: rest => map (fun c => (k, c)) l ++ kpos (k + 1) rest
  end.

Lemma kpos_app k X Y : kpos k (X ++ Y) = kpos k X ++ kpos (k + zlen X) Y.
Proof.
  revert k; induction X as [|l X IH]; intros k; simpl.
  - rewrite zlen_nil, Z.add_0_r. reflexivity.
  - zl. rewrite IH, <- app_assoc. do 3 f_equal. lia.
Qed.

Lemma zlen_kpos k K : zlen (kpos k K) = zlen (concat K).
Proof. revert k; induction K; intros k; simpl; [reflexivity|]. zl. rewrite IHK. reflexivity. Qed.

Section CsrIter.
Context {N : num}.
Notation V := (T N).

(** the arrays [cols] and [rowStart] of [s] hold the keys [K] *)
Definition has_keys (s : csr N) (K : list (list Z)) : Prop :=
  csr_cols s = concat K /\ csr_rowStart s = offsets 0 K.

(** iterator [it] has [rest] still to visit *)
Definition it_inv (K : list (list Z)) (it : csr_iter) (rest : list (Z * Z)) : Prop :=
  exists X l2 Y pre,
    K = X ++ Y /\ concat X = pre ++ l2 /\
    cri_r it = zlen X - 1 /\ cri_ps it = zlen pre /\ cri_pe it = zlen (concat X) /\
    cri_last it = zlen pre /\ cri_size it = zlen (concat K) /\
    Forall (fun c => cri_cIndex it <= c) l2 /\ ksorted l2 /\
    rest = map (fun c => (zlen X - 1, c)) l2 ++ kpos (zlen X) Y.

Lemma it_inv_size K it rest : it_inv K it rest -> zlen rest = cri_size it - cri_last it.
Proof.
  intros (X & l2 & Y & pre & -> & E & _ & _ & _ & E5 & E6 & _ & _ & ->).
  zl. rewrite zlen_kpos. rewrite E5, E6, concat_app. zl. rewrite E. zl. lia.
Qed.

Lemma it_inv_HasNext K it rest : it_inv K it rest -> csr_HasNext it = match rest with [] => false | _ => true end.
Proof.
  intros H. pose proof (it_inv_size K it rest H). unfold csr_HasNext.
  destruct rest; zl.
  - destruct (cri_last it >=? cri_size it) eqn:E; [reflexivity|lia].
  - pose proof (zlen_nonneg rest). destruct (cri_last it >=? cri_size it) eqn:E; [lia|reflexivity].
Qed.

Lemma it_inv_init s K : has_keys s K -> zlen (csr_values s) = zlen (concat K) ->
  it_inv K (csr_iterator s) (kpos 0 K).
Proof.
  intros _ Hl. exists [], [], K, []. unfold csr_iterator. cbn. rewrite !zlen_nil.
  repeat split; try constructor; lia || auto.
Qed.

(** first loop of [next]: skip to the next non-empty row *)
Lemma csr_next_row_spec s K : has_keys s K -> Forall ksorted K ->
  forall Y X it fuel r c rest,
  K = X ++ Y -> cri_r it = zlen X - 1 -> cri_ps it = zlen (concat X) -> cri_pe it = zlen (concat X) ->
  kpos (zlen X) Y = (r, c) :: rest -> (length Y <= fuel)%nat ->
  exists X' l Y', K = X' ++ (c :: l) :: Y' /\ zlen X' = r /\
     concat X' = concat X /\
     rest = map (fun c => (r, c)) l ++ kpos (r + 1) Y' /\
     csr_next_row fuel s it =
       Ok (MkCSRI (cri_size it) (cri_last it) (cri_c it) r c (cri_index it)
             (zlen (concat X)) (zlen (concat X) + zlen (c :: l))).
Proof.
  intros [Hc Hr] Hsort. induction Y as [|y Y IH]; intros X it fuel r c rest HK E1 E2 E3 Hk Hf;
    [discriminate|].
  assert (Hps : zget (csr_rowStart s) (cri_r it + 1) = Ok (zlen (concat X)) /\
                zget (csr_rowStart s) (cri_r it + 1 + 1) = Ok (zlen (concat X) + zlen y)).
  { rewrite Hr, HK. replace (cri_r it + 1) with (zlen X) by lia.
    destruct (offsets_get 0 X y Y) as [H1 H2]. split; [exact H1|exact H2]. }
  destruct Hps as [Hp1 Hp2].
  assert (Hci : exists k, zget (csr_cols s) (zlen (concat X)) = Ok k /\ (forall a y', y = a :: y' -> k = a)).
  { rewrite Hc, HK, concat_app.
    assert (Hne : exists k T, concat (y :: Y) = k :: T).
    { assert (zlen (concat (y :: Y)) = zlen ((r, c) :: rest)) by (rewrite <- Hk, zlen_kpos; reflexivity).
      destruct (concat (y :: Y)); [zl; pose proof (zlen_nonneg rest); lia|eauto]. }
    destruct Hne as (k & T & Hne). rewrite Hne. exists k. split; [apply zget_mid; reflexivity|].
    intros a y' ->. simpl in Hne. congruence. }
  destruct Hci as (k & Hk1 & Hk2).
  destruct fuel as [|fuel]; [simpl in Hf; lia|].
  cbn [csr_next_row]. rewrite E2, E3, Z.eqb_refl. cbv zeta.
  rewrite Hp1. cbn [rbind]. rewrite Hp2. cbn [rbind]. rewrite Hk1. cbn [rbind].
  destruct y as [|a y].
  - destruct (IH (X ++ [[]])
      (MkCSRI (cri_size it) (cri_last it) (cri_c it) (cri_r it + 1) k (cri_index it)
        (zlen (concat X)) (zlen (concat X) + zlen (@nil Z))) fuel r c rest)
      as (X' & l & Y' & H1 & H2 & H3 & H4 & H5).
    + rewrite HK, <- app_assoc. reflexivity.
    + cbn. zl. lia.
    + cbn. rewrite concat_app. simpl. rewrite app_nil_r. reflexivity.
    + cbn. rewrite concat_app. simpl. rewrite app_nil_r, zlen_nil. lia.
    + zl. simpl in Hk. rewrite Z.add_0_l. exact Hk.
    + simpl in Hf; lia.
    + exists X', l, Y'. repeat split; auto.
      * rewrite H3, concat_app. simpl. rewrite app_nil_r. reflexivity.
      * rewrite H5. cbn. rewrite concat_app. simpl. rewrite app_nil_r. reflexivity.
  - rewrite (Hk2 a y eq_refl). simpl in Hk. inversion Hk; subst r c rest.
    exists X, y, Y. repeat split; auto.
    assert (Hstop : (zlen (concat X) =? zlen (concat X) + zlen (a :: y)) = false).
    { apply Z.eqb_neq. zl. pose proof (zlen_nonneg y). lia. }
    destruct fuel; cbn [csr_next_row cri_ps cri_pe]; rewrite Hstop;
      (replace (cri_r it + 1) with (zlen X) by lia); reflexivity.
Qed.

(** second loop of [next]: walk [cIndex] up to the entry's column *)
Lemma csr_next_col_spec (s : csr N) x : forall n it,
  zget (csr_cols s) (cri_ps it) = Ok x -> cri_ps it < cri_pe it ->
  x = cri_cIndex it + Z.of_nat n ->
  csr_next_col n s it =
    Ok (MkCSRI (cri_size it) (cri_last it + 1) x (cri_r it) (x + 1) (cri_ps it)
          (cri_ps it + 1) (cri_pe it)).
Proof.
  induction n as [|n IH]; intros it Hx Hlt Hn.
  - cbn [csr_next_col]. destruct (cri_ps it <? cri_pe it) eqn:E; [|lia].
    rewrite Hx. cbn [rbind]. destruct (x =? cri_cIndex it) eqn:E2; [|lia].
    replace (cri_cIndex it) with x by lia. reflexivity.
  - cbn [csr_next_col]. destruct (cri_ps it <? cri_pe it) eqn:E; [|lia].
    rewrite Hx. cbn [rbind]. destruct (x =? cri_cIndex it) eqn:E2; [lia|].
    rewrite IH; cbn; auto; lia.
Qed.

Theorem csr_next_spec (s : csr N) K it r c rest : has_keys s K -> Forall ksorted K ->
  it_inv K it ((r, c) :: rest) ->
  exists it', csr_next s it = Ok it' /\ it_inv K it' rest /\
    cri_r it' = r /\ cri_c it' = c /\ cri_index it' = cri_last it /\
    cri_last it' = cri_last it + 1 /\ cri_size it' = cri_size it.
Proof.
  intros Hkeys Hsort (X & l2 & Y & pre & HK & E1 & E2 & E3 & E4 & E5 & E6 & E7 & E8 & Er).
  unfold csr_next. destruct l2 as [|a l2].
  - rewrite app_nil_r in E1. simpl in Er. symmetry in Er.
    destruct (csr_next_row_spec s K Hkeys Hsort Y X it (S (length (csr_rowStart s))) r c rest)
      as (X' & l & Y' & H1 & H2 & H3 & H4 & ->); auto.
    + rewrite E3, E1. reflexivity.
    + destruct Hkeys as [_ ->]. pose proof (zlen_offsets 0 K). unfold zlen in H.
      rewrite HK in H |- *. rewrite app_length in H. lia.
    + cbn [rbind]. set (it1 := MkCSRI _ _ _ _ _ _ _ _).
      assert (Hx : zget (csr_cols s) (cri_ps it1) = Ok c).
      { unfold it1. cbn. destruct Hkeys as [-> _]. rewrite H1, concat_app. simpl.
        apply zget_mid. rewrite H3. reflexivity. }
      assert (Hks : ksorted (c :: l)).
      { rewrite H1 in Hsort. apply Forall_app in Hsort as [_ Hs]. inversion Hs; auto. }
      apply ksorted_cons in Hks as [Hks Hgt].
      rewrite (csr_next_col_spec s c); [|exact Hx| |].
      * eexists. split; [reflexivity|]. cbn. split; [|repeat split; rewrite E5, <- E1; reflexivity].
        exists (X' ++ [c :: l]), l, Y', (pre ++ [c]). cbn.
        assert (Hcc : concat (X' ++ [c :: l]) = concat X' ++ c :: l)
          by (rewrite concat_app; simpl; rewrite app_nil_r; reflexivity).
        rewrite Hcc, H3, E1. zl.
        repeat split; auto; try lia.
        -- rewrite H1, <- app_assoc. reflexivity.
        -- rewrite <- app_assoc. reflexivity.
        -- eapply Forall_impl; [|exact Hgt]. simpl; intros; lia.
        -- rewrite H4. replace (zlen X' + (0 + 1) - 1) with r by lia.
           replace (zlen X' + (0 + 1)) with (r + 1) by lia. reflexivity.
      * unfold it1; cbn. zl. pose proof (zlen_nonneg l). lia.
      * unfold csr_col_fuel. rewrite Hx. unfold it1. cbn. lia.
  - simpl in Er. inversion Er; subst r c rest. clear Er.
    assert (Hrow : csr_next_row (S (length (csr_rowStart s))) s it = Ok it).
    { cbn [csr_next_row]. destruct (cri_ps it =? cri_pe it) eqn:E; [|reflexivity].
      rewrite E3, E4, E1 in E. zl. pose proof (zlen_nonneg l2). lia. }
    rewrite Hrow. cbn [rbind].
    assert (Hx : zget (csr_cols s) (cri_ps it) = Ok a).
    { destruct Hkeys as [-> _]. rewrite HK, concat_app, E1, <- app_assoc. simpl.
      apply zget_mid. lia. }
    inversion E7 as [|? ? Ha E7']; subst. apply ksorted_cons in E8 as [E8 E8'].
    rewrite (csr_next_col_spec s a); [|exact Hx| |].
    + eexists. split; [reflexivity|]. cbn. split; [|repeat split; lia].
      exists X, l2, Y, (pre ++ [a]). cbn. zl. rewrite <- app_assoc.
      repeat split; auto; try lia.
      eapply Forall_impl; [|exact E8']. simpl; intros; lia.
    + rewrite E3, E4, E1. zl. pose proof (zlen_nonneg l2). lia.
    + unfold csr_col_fuel. rewrite Hx. lia.
Qed.

End CsrIter.
