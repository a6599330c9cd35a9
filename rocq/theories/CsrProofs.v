(** The CSR arrays as a list of sorted rows. *)
From Verif Require Import GoBase Num BaseProofs SparseVec Csr AssocProofs.

Fixpoint offsets {A} (k : Z) (rows : list (list A)) : list Z :=
  match rows with
  | [] => [k]
  | row :: rest => k :: offsets (k + zlen row) rest
  end.

Fixpoint starts {A} (k : Z) (rows : list (list A)) : list Z :=
  match rows with
  | [] => []
  | row :: rest => k :: starts (k + zlen row) rest
  end.

Lemma zlen_offsets {A} k (rows : list (list A)) : zlen (offsets k rows) = zlen rows + 1.
Proof. revert k; induction rows; intros k; simpl; zl; [reflexivity|rewrite IHrows; lia]. Qed.

Lemma zlen_starts {A} k (rows : list (list A)) : zlen (starts k rows) = zlen rows.
Proof. revert k; induction rows; intros k; simpl; zl; [reflexivity|rewrite IHrows; lia]. Qed.

Lemma offsets_app {A} k (X Y : list (list A)) :
  offsets k (X ++ Y) = starts k X ++ offsets (k + zlen (concat X)) Y.
Proof.
  revert k; induction X as [|x X IH]; intros k; simpl.
  - rewrite zlen_nil, Z.add_0_r. reflexivity.
  - rewrite IH. zl. do 2 f_equal. f_equal. lia.
Qed.

Lemma offsets_shift {A} d k (rows : list (list A)) :
  offsets (k + d) rows = map (fun x => x + d) (offsets k rows).
Proof.
  revert k; induction rows; intros k; simpl; [reflexivity|].
  f_equal. rewrite <- IHrows. f_equal. lia.
Qed.

Lemma offsets_map {A B} (f : A -> B) k rows :
  offsets k (map (map f) rows) = offsets k rows.
Proof. revert k; induction rows; intros k; simpl; [reflexivity|]. zl. rewrite IHrows. reflexivity. Qed.

Lemma offsets_get0 {A} k (rows : list (list A)) : zget (offsets k rows) 0 = Ok k.
Proof. destruct rows; reflexivity. Qed.

Lemma offsets_get {A} k (X : list (list A)) row Y :
  zget (offsets k (X ++ row :: Y)) (zlen X) = Ok (k + zlen (concat X)) /\
  zget (offsets k (X ++ row :: Y)) (zlen X + 1) = Ok (k + zlen (concat X) + zlen row).
Proof.
  rewrite offsets_app. pose proof (zlen_starts k X) as Hs. split.
  - rewrite zget_app2 by lia. rewrite Hs, Z.sub_diag. reflexivity.
  - rewrite zget_app2 by lia. replace (zlen X + 1 - zlen (starts k X)) with 1 by lia.
    simpl offsets. rewrite zget_cons by lia. apply offsets_get0.
Qed.

Lemma csr_shift_spec d L1 L2 r R :
  zlen L1 = r + 1 -> zlen (L1 ++ L2) = R + 1 ->
  csr_shift d (L1 ++ L2) r R = Ok (L1 ++ map (fun x => x + d) L2).
Proof.
  intros H1 H2. unfold csr_shift. zl. pose proof (zlen_nonneg L2).
  destruct (rfold_range_inv
    (fun i rs => exists M1 M2, L2 = M1 ++ M2 /\ zlen M1 = i - (r + 1) /\
                   rs = L1 ++ map (fun x => x + d) M1 ++ M2)
    (fun rs i => x <- zget rs i ;; zset rs i (x + d)) (r + 1) (R + 1) (L1 ++ L2))
    as (rs & -> & M1 & M2 & HL & Hz & ->).
  - lia.
  - exists [], L2. repeat split; rewrite ?zlen_nil; lia.
  - intros i rs Hi (M1 & M2 & -> & Hz & ->). zl.
    destruct M2 as [|x M2]; [rewrite zlen_nil in *; lia|].
    exists (L1 ++ map (fun x => x + d) (M1 ++ [x]) ++ M2). split.
    + rewrite (app_assoc L1). rewrite zget_mid by (zl; lia). cbn [rbind].
      rewrite zset_mid by (zl; lia). f_equal. rewrite map_app, <- !app_assoc. reflexivity.
    + exists (M1 ++ [x]), M2. repeat split; [rewrite <- app_assoc; reflexivity|zl; lia].
  - assert (zlen M2 = 0) by (subst L2; zl; lia). apply zlen_0_nil in H0; subst M2.
    rewrite app_nil_r in *. subst. reflexivity.
Qed.

Section CsrRep.
Context {N : num}.
Notation V := (T N).
Notation row := (list (Z * V)).

Definition row_ok (C : Z) (l : row) : Prop :=
  ksorted (map fst l) /\
  Forall (fun e => 0 <= fst e < C) l /\
  Forall (fun e => isz (snd e) = false) l.

Definition rows_ok (R C : Z) (rows : list row) : Prop :=
  0 <= R /\ 0 <= C /\ zlen rows = R /\ Forall (row_ok C) rows.

(** the CSR arrays holding the given rows *)
Definition mk_csr (R C : Z) (rows : list row) : csr N :=
  MkCSR R C (map snd (concat rows)) (map fst (concat rows)) (offsets 0 rows).

Definition rnth (rows : list row) (r : Z) : row := nth (Z.to_nat r) rows [].
Definition cell (rows : list row) (r c : Z) : V := aval c (rnth rows r).
Definition rput (rows : list row) (r c : Z) (x : V) : list row :=
  list_set rows (Z.to_nat r) (aput c x (rnth rows r)).

Lemma rnth_mid X l Y r : r = zlen X -> rnth (X ++ l :: Y) r = l.
Proof.
  intros ->. unfold rnth, zlen. rewrite Nat2Z.id. apply nth_middle.
Qed.
Lemma rput_mid X l Y r c x : r = zlen X -> rput (X ++ l :: Y) r c x = X ++ aput c x l :: Y.
Proof.
  intros H. unfold rput. rewrite rnth_mid by exact H. apply list_set_mid. unfold zlen in H; lia.
Qed.

Lemma rows_split R C rows r : rows_ok R C rows -> 0 <= r < R ->
  exists X l Y, rows = X ++ l :: Y /\ zlen X = r /\ row_ok C l.
Proof.
  intros (_ & _ & Hl & Hf) Hr.
  destruct (list_split rows r ltac:(lia)) as (X & l & Y & -> & HX).
  exists X, l, Y. repeat split; auto; apply Forall_app in Hf as [_ Hf]; inversion Hf; subst;
    match goal with H : row_ok _ _ |- _ => destruct H as (? & ? & ?); auto end.
Qed.

Lemma rows_ok_rput R C rows r c x : rows_ok R C rows -> 0 <= r < R -> 0 <= c < C ->
  rows_ok R C (rput rows r c x).
Proof.
  intros H Hr Hc. destruct (rows_split R C rows r H Hr) as (X & l & Y & -> & HX & (Hs & Hb & Hz)).
  rewrite rput_mid by lia. destruct H as (HR & HC & Hl & Hf).
  apply Forall_app in Hf as [Hf1 Hf2]. inversion Hf2; subst.
  repeat split; [lia|lia|zl; lia|]. apply Forall_app. split; [auto|]. constructor; [|auto].
  repeat split; [apply aput_sorted; auto|apply aput_Forall; auto|apply aput_Forall; auto].
Qed.

Lemma cell_rput R C rows r c x i j : rows_ok R C rows -> 0 <= r < R -> 0 <= i ->
  cell (rput rows r c x) i j = if (i =? r) && (j =? c) then norm x else cell rows i j.
Proof.
  intros H Hr Hi. destruct (rows_split R C rows r H Hr) as (X & l & Y & -> & HX & (Hs & _)).
  rewrite rput_mid by lia. unfold cell. destruct (i =? r) eqn:E; simpl.
  - rewrite !rnth_mid by lia. apply aval_aput; auto.
  - replace (rnth (X ++ aput c x l :: Y) i) with (rnth (X ++ l :: Y) i); [reflexivity|].
    unfold rnth. rewrite <- (list_set_mid X Y l (aput c x l) (Z.to_nat r)) by (unfold zlen in *; lia).
    rewrite <- !nth_default_eq. unfold nth_default.
    rewrite nth_error_list_set_neq by lia. reflexivity.
Qed.

(** columnIndex finds the insertion point, and the membership test that follows
    it is exact *)
Lemma columnIndex_hit R C X lo c v hi Y r :
  klt c lo -> kgt c hi -> ksorted (map fst (lo ++ (c, v) :: hi)) -> r = zlen X ->
  exists pe, let ps := zlen (concat X) + zlen lo in
    csr_columnIndex (mk_csr R C (X ++ (lo ++ (c, v) :: hi) :: Y)) r c = Ok (ps, pe) /\
    csr_hit (mk_csr R C (X ++ (lo ++ (c, v) :: hi) :: Y)) ps pe c = Ok true.
Proof.
  intros Hlo Hhi Hs ->. set (l := lo ++ (c, v) :: hi) in *.
  pose proof (zlen_nonneg (concat X)) as Pn1.
  assert (Hl : zlen l = zlen lo + zlen hi + 1) by (unfold l; zl; lia).
  pose proof (zlen_nonneg lo) as Pn2; pose proof (zlen_nonneg hi) as Pn3.
  unfold csr_columnIndex. cbn [csr_rowStart csr_cols mk_csr].
  destruct (offsets_get 0 X l Y) as [-> ->]. cbn [rbind]. rewrite Z.add_0_l.
  destruct (zlen (concat X) - (zlen (concat X) + zlen l) =? 0) eqn:E0; [lia|].
  assert (Hcols : map fst (concat (X ++ l :: Y)) =
            map fst (concat X) ++ map fst lo ++ map fst ((c, v) :: hi) ++ map fst (concat Y)).
  { rewrite concat_app. simpl. unfold l. rewrite !map_app. rewrite <- !app_assoc. reflexivity. }
  rewrite Hcols.
  assert (Hlast : exists x, zget (map fst (concat X) ++ map fst lo ++ map fst ((c, v) :: hi) ++ map fst (concat Y))
                    (zlen (concat X) + zlen l - 1) = Ok x /\ c <= x).
  { destruct (search_mid (map fst (concat X)) (map fst lo) (map fst ((c, v) :: hi)) (map fst (concat Y))
        (zlen (concat X) + zlen l - 1) ltac:(zl; lia))
      as [(lo1 & x & lo2 & E1 & E2 & E3)|(hi1 & x & hi2 & E1 & E2 & E3)].
    - exfalso. assert (zlen (map fst lo) = zlen lo) by (zl; lia).
      rewrite E1 in H. zl. pose proof (zlen_nonneg lo2). lia.
    - exists x. split; [exact E3|].
      assert (In x (map fst ((c, v) :: hi))) by (rewrite E1; apply in_or_app; right; left; auto).
      simpl in H. destruct H as [->|H]; [lia|].
      apply in_map_iff in H as (e & <- & He). unfold kgt in Hhi. rewrite Forall_forall in Hhi.
      specialize (Hhi e He). lia. }
  destruct Hlast as (x & -> & Hx). cbn [rbind].
  destruct (c >? x) eqn:E1; [lia|].
  unfold l in Hs. rewrite map_app in Hs. apply ksorted_app in Hs as (S1 & S2 & S3).
  destruct (csr_search_spec (S (Z.to_nat (zlen (concat X) + zlen l - zlen (concat X))))
    (map fst (concat X)) (map fst lo) (map fst ((c, v) :: hi)) (map fst (concat Y)) c
    (zlen (concat X)) (zlen (concat X) + zlen l)) as (e & He & Hh & _); auto.
  - apply Forall_map. exact Hlo.
  - apply Forall_map. constructor; [simpl; lia|].
    eapply Forall_impl; [|exact Hhi]. simpl; intros; lia.
  - zl; lia.
  - zl; lia.
  - exists e. cbv zeta. rewrite He. zl. split; [reflexivity|].
    unfold csr_hit. cbn [csr_cols mk_csr]. rewrite Hcols.
    specialize (Hh ltac:(simpl; eauto)). zl.
    destruct (zlen (concat X) + zlen lo <? e) eqn:E2; [|lia].
    rewrite app_assoc. simpl. rewrite zget_mid by (zl; lia). cbn [rbind].
    rewrite Z.eqb_refl. reflexivity.
Qed.

Lemma columnIndex_miss R C X lo c hi Y r :
  klt c lo -> kgt c hi -> ksorted (map fst (lo ++ hi)) -> r = zlen X ->
  exists pe, let ps := zlen (concat X) + zlen lo in
    csr_columnIndex (mk_csr R C (X ++ (lo ++ hi) :: Y)) r c = Ok (ps, pe) /\
    csr_hit (mk_csr R C (X ++ (lo ++ hi) :: Y)) ps pe c = Ok false.
Proof.
  intros Hlo Hhi Hs ->. set (l := lo ++ hi) in *.
  pose proof (zlen_nonneg (concat X)) as Pn1.
  assert (Hl : zlen l = zlen lo + zlen hi) by (unfold l; zl; lia).
  pose proof (zlen_nonneg lo) as Pn2; pose proof (zlen_nonneg hi) as Pn3.
  unfold csr_columnIndex. cbn [csr_rowStart csr_cols mk_csr].
  destruct (offsets_get 0 X l Y) as [-> ->]. cbn [rbind]. rewrite Z.add_0_l.
  destruct (zlen (concat X) - (zlen (concat X) + zlen l) =? 0) eqn:E0.
  { exists (zlen (concat X) + zlen l). cbv zeta.
    split; [f_equal; f_equal; lia|]. unfold csr_hit.
    destruct (zlen (concat X) + zlen lo <? zlen (concat X) + zlen l) eqn:E; [lia|reflexivity]. }
  assert (Hcols : map fst (concat (X ++ l :: Y)) =
            map fst (concat X) ++ map fst lo ++ map fst hi ++ map fst (concat Y)).
  { rewrite concat_app. simpl. unfold l. rewrite !map_app. rewrite <- !app_assoc. reflexivity. }
  rewrite Hcols.
  assert (Hlast : exists x, zget (map fst (concat X) ++ map fst lo ++ map fst hi ++ map fst (concat Y))
                    (zlen (concat X) + zlen l - 1) = Ok x /\ (hi <> [] -> c < x) /\ (hi = [] -> x < c)).
  { destruct (search_mid (map fst (concat X)) (map fst lo) (map fst hi) (map fst (concat Y))
        (zlen (concat X) + zlen l - 1) ltac:(zl; lia))
      as [(lo1 & x & lo2 & E1 & E2 & E3)|(hi1 & x & hi2 & E1 & E2 & E3)].
    - exists x. split; [exact E3|]. split; intros Hh.
      + exfalso. assert (zlen (map fst lo) = zlen lo) by (zl; lia).
        rewrite E1 in H. zl. pose proof (zlen_nonneg lo2).
        destruct hi; [congruence|zl; pose proof (zlen_nonneg hi); lia].
      + assert (In x (map fst lo)) by (rewrite E1; apply in_or_app; right; left; auto).
        apply in_map_iff in H as (e & <- & He). unfold klt in Hlo. rewrite Forall_forall in Hlo. auto.
    - exists x. split; [exact E3|].
      assert (In x (map fst hi)) by (rewrite E1; apply in_or_app; right; left; auto).
      split; [|intros ->; destruct H].
      intros _. apply in_map_iff in H as (e & <- & He). unfold kgt in Hhi. rewrite Forall_forall in Hhi. auto. }
  destruct Hlast as (x & -> & Hx1 & Hx2). cbn [rbind].
  destruct (c >? x) eqn:E1.
  { assert (hi = []) by (destruct hi; [reflexivity|]; specialize (Hx1 ltac:(discriminate)); lia).
    subst hi. rewrite zlen_nil in *. exists (zlen (concat X) + zlen l). cbv zeta.
    split; [f_equal; f_equal; lia|]. unfold csr_hit.
    destruct (zlen (concat X) + zlen lo <? zlen (concat X) + zlen l) eqn:E; [lia|reflexivity]. }
  unfold l in Hs. rewrite map_app in Hs. apply ksorted_app in Hs as (S1 & S2 & S3).
  destruct (csr_search_spec (S (Z.to_nat (zlen (concat X) + zlen l - zlen (concat X))))
    (map fst (concat X)) (map fst lo) (map fst hi) (map fst (concat Y)) c
    (zlen (concat X)) (zlen (concat X) + zlen l)) as (e & He & _ & Hm); auto.
  - apply Forall_map. exact Hlo.
  - apply Forall_map. eapply Forall_impl; [|exact Hhi]. simpl; intros; lia.
  - zl; lia.
  - zl; lia.
  - exists e. cbv zeta. rewrite He. zl. split; [reflexivity|].
    unfold csr_hit. rewrite Hm by (apply Forall_map; exact Hhi).
    destruct (zlen (concat X) + zlen lo <? zlen (concat X) + zlen lo) eqn:E2; [lia|reflexivity].
Qed.

Lemma concat_mid {A} (X : list (list A)) l1 l2 Y :
  concat (X ++ (l1 ++ l2) :: Y) = (concat X ++ l1) ++ (l2 ++ concat Y).
Proof. rewrite concat_app. simpl. rewrite <- !app_assoc. reflexivity. Qed.

Lemma shift_mid {A} d R X (l l' : list A) Y r :
  r = zlen X -> R = zlen (X ++ l :: Y) -> zlen l' = zlen l + d ->
  csr_shift d (offsets 0 (X ++ l :: Y)) r R = Ok (offsets 0 (X ++ l' :: Y)).
Proof.
  intros -> -> Hd. rewrite !offsets_app. simpl offsets.
  set (k := 0 + zlen (concat X)).
  change (starts 0 X ++ k :: offsets (k + zlen l) Y) with (starts 0 X ++ [k] ++ offsets (k + zlen l) Y).
  rewrite app_assoc. rewrite csr_shift_spec.
  - rewrite Hd. rewrite <- app_assoc. simpl. do 3 f_equal. rewrite Z.add_assoc. symmetry. apply offsets_shift.
  - zl. rewrite zlen_starts. reflexivity.
  - zl. rewrite zlen_starts, zlen_offsets. lia.
Qed.

Lemma csr_remove_spec R C X lo c v hi Y :
  rows_ok R C (X ++ (lo ++ (c, v) :: hi) :: Y) ->
  csr_remove (mk_csr R C (X ++ (lo ++ (c, v) :: hi) :: Y)) (zlen (concat X) + zlen lo) (zlen X)
  = Ok (mk_csr R C (X ++ (lo ++ hi) :: Y)).
Proof.
  intros (HR & HC & Hl & Hf). unfold csr_remove. cbn [csr_cols csr_values csr_rowStart csr_r csr_c mk_csr].
  rewrite !concat_mid. simpl app. rewrite !map_app. cbn [map fst snd]. rewrite !map_app.
  rewrite slice_to_app by (zl; lia). cbn [rbind].
  change (c :: map fst hi ++ map fst (concat Y)) with ([c] ++ map fst hi ++ map fst (concat Y)).
  rewrite (app_assoc _ [c]). rewrite slice_from_app by (zl; lia). cbn [rbind].
  rewrite slice_to_app by (zl; lia). cbn [rbind].
  change (v :: map snd hi ++ map snd (concat Y)) with ([v] ++ map snd hi ++ map snd (concat Y)).
  rewrite (app_assoc _ [v]). rewrite slice_from_app by (zl; lia). cbn [rbind].
  rewrite (shift_mid (-1) R X _ (lo ++ hi) Y) by (zl; auto; lia). cbn [rbind].
  unfold mk_csr. rewrite concat_mid, !map_app. rewrite <- !app_assoc. reflexivity.
Qed.

Lemma csr_insert_spec R C X lo c x hi Y :
  rows_ok R C (X ++ (lo ++ hi) :: Y) -> isz x = false ->
  csr_insert (mk_csr R C (X ++ (lo ++ hi) :: Y)) (zlen (concat X) + zlen lo) (zlen X) c x
  = Ok (R, mk_csr R C (X ++ (lo ++ (c, x) :: hi) :: Y)).
Proof.
  intros (HR & HC & Hl & Hf) Hx. unfold csr_insert. rewrite Hx.
  cbn [csr_cols csr_values csr_rowStart csr_r csr_c mk_csr].
  rewrite !concat_mid, !map_app.
  rewrite slice_to_app by (zl; lia). cbn [rbind].
  rewrite slice_from_app by (zl; lia). cbn [rbind].
  rewrite slice_to_app by (zl; lia). cbn [rbind].
  rewrite slice_from_app by (zl; lia). cbn [rbind].
  rewrite (shift_mid 1 R X _ (lo ++ (c, x) :: hi) Y) by (zl; auto; lia). cbn [rbind].
  unfold mk_csr. rewrite (concat_mid X lo), !map_app. cbn [map fst snd app].
  rewrite <- !app_assoc. reflexivity.
Qed.

Lemma csr_bounds R C rows r c {W} (f : V -> W * V) :
  ~ (0 <= r < R /\ 0 <= c < C) -> csr_UpdateReturnPointer (mk_csr R C rows) r c f = Panic.
Proof.
  intros H. unfold csr_UpdateReturnPointer. cbn [csr_r csr_c mk_csr].
  destruct ((r <? 0) || (r >=? R)) eqn:E1; [reflexivity|].
  destruct ((c <? 0) || (c >=? C)) eqn:E2; [reflexivity|]. exfalso; lia.
Qed.

(** The central fact: [Update] replaces one cell. *)
Theorem csr_UpdateRP_spec {W} R C rows r c (f : V -> W * V) :
  rows_ok R C rows -> 0 <= r < R -> 0 <= c < C ->
  exists p, csr_UpdateReturnPointer (mk_csr R C rows) r c f
    = Ok (fst (f (cell rows r c)), p, mk_csr R C (rput rows r c (snd (f (cell rows r c))))).
Proof.
  intros H Hr Hc. destruct (rows_split R C rows r H Hr) as (X & l & Y & -> & HX & (Hs & Hb & Hz)).
  unfold cell. rewrite rnth_mid by lia. rewrite rput_mid by lia.
  unfold csr_UpdateReturnPointer. cbn [csr_r csr_c].
  replace (csr_r (mk_csr R C (X ++ l :: Y))) with R by reflexivity.
  replace (csr_c (mk_csr R C (X ++ l :: Y))) with C by reflexivity.
  destruct ((r <? 0) || (r >=? R)) eqn:E1; [lia|].
  destruct ((c <? 0) || (c >=? C)) eqn:E2; [lia|].
  destruct (row_split l c Hs) as [(lo & v & hi & -> & H1 & H2)|(lo & hi & -> & H1 & H2)].
  - destruct (columnIndex_hit R C X lo c v hi Y r H1 H2 Hs ltac:(lia)) as (pe & Hci & Hhit).
    rewrite Hci. cbn [rbind]. rewrite Hhit. cbn [rbind].
    unfold aval. rewrite alookup_hit by auto.
    rewrite aput_hit by auto.
    assert (Hv : csr_values (mk_csr R C (X ++ (lo ++ (c, v) :: hi) :: Y))
             = map snd (concat X ++ lo) ++ v :: map snd (hi ++ concat Y)).
    { cbn [csr_values mk_csr]. rewrite concat_mid, map_app. reflexivity. }
    rewrite Hv. rewrite zget_mid by (zl; lia). cbn [rbind].
    destruct (f v) as [w x]. cbn [fst snd].
    destruct (isz x) eqn:Ex.
    + rewrite <- HX. rewrite csr_remove_spec by auto. cbn [rbind]. eexists; reflexivity.
    + rewrite zset_mid by (zl; lia). cbn [rbind]. eexists. do 2 f_equal.
      unfold mk_csr. cbn [csr_r csr_c csr_cols csr_rowStart].
      rewrite !concat_mid, !map_app. cbn [map fst snd app].
      f_equal; try (rewrite <- ?app_assoc; reflexivity).
      rewrite !offsets_app. simpl. zl. reflexivity.
  - destruct (columnIndex_miss R C X lo c hi Y r H1 H2 Hs ltac:(lia)) as (pe & Hci & Hhit).
    rewrite Hci. cbn [rbind]. rewrite Hhit. cbn [rbind].
    unfold aval. rewrite alookup_miss by auto. rewrite aput_miss by auto.
    destruct (f n0) as [w x]. cbn [fst snd].
    destruct (isz x) eqn:Ex.
    + unfold csr_insert. rewrite Ex. cbn [rbind]. eexists; reflexivity.
    + rewrite <- HX. rewrite csr_insert_spec by auto. cbn [rbind]. eexists; reflexivity.
Qed.

Corollary csr_Update_spec {W} R C rows r c (f : V -> W * V) :
  rows_ok R C rows -> 0 <= r < R -> 0 <= c < C ->
  csr_Update (mk_csr R C rows) r c f
    = Ok (fst (f (cell rows r c)), mk_csr R C (rput rows r c (snd (f (cell rows r c))))).
Proof.
  intros H Hr Hc. unfold csr_Update.
  destruct (csr_UpdateRP_spec R C rows r c f H Hr Hc) as (p & ->). reflexivity.
Qed.

Lemma rput_same R C rows r c : zero_ok N ->
  rows_ok R C rows -> 0 <= r < R -> rput rows r c (cell rows r c) = rows.
Proof.
  intros Hz0 H Hr. destruct (rows_split R C rows r H Hr) as (X & l & Y & -> & HX & (Hs & Hb & Hz)).
  unfold cell. rewrite rnth_mid by lia. rewrite rput_mid by lia. rewrite aput_same; auto.
Qed.

Corollary csr_At_spec R C rows r c : zero_ok N ->
  rows_ok R C rows -> 0 <= r < R -> 0 <= c < C ->
  csr_At (mk_csr R C rows) r c = Ok (cell rows r c, mk_csr R C rows).
Proof.
  intros Hz H Hr Hc. unfold csr_At. rewrite csr_Update_spec by auto. cbn [fst snd].
  rewrite (rput_same R C) by auto. reflexivity.
Qed.

Corollary csr_Element_spec R C rows r c : zero_ok N ->
  rows_ok R C rows -> 0 <= r < R -> 0 <= c < C ->
  csr_Element (mk_csr R C rows) r c = Ok (ngtb (cell rows r c) n0, mk_csr R C rows).
Proof.
  intros Hz H Hr Hc. unfold csr_Element. rewrite csr_Update_spec by auto. cbn [fst snd].
  rewrite (rput_same R C) by auto. reflexivity.
Qed.

Corollary csr_Set_spec R C rows r c x :
  rows_ok R C rows -> 0 <= r < R -> 0 <= c < C ->
  csr_Set (mk_csr R C rows) r c x = Ok (mk_csr R C (rput rows r c x)).
Proof.
  intros H Hr Hc. unfold csr_Set. rewrite csr_Update_spec by auto. reflexivity.
Qed.

(** empty matrix *)
Lemma offsets_empty {A} n k : offsets k (repeat (@nil A) n) = repeat k (S n).
Proof. induction n; simpl; [reflexivity|]. rewrite zlen_nil, Z.add_0_r, IHn. reflexivity. Qed.

Lemma concat_empty {A} n : concat (repeat (@nil A) n) = [].
Proof. induction n; simpl; auto. Qed.

Lemma new_csr_spec R C : 0 <= R ->
  newCSRMatrix R C 0 = Ok (mk_csr R C (repeat [] (Z.to_nat R))).
Proof.
  intros HR. unfold newCSRMatrix. rewrite !make_slice_ok by lia. cbn [rbind].
  unfold mk_csr. rewrite concat_empty, offsets_empty. simpl.
  replace (Z.to_nat (R + 1)) with (S (Z.to_nat R)) by lia. reflexivity.
Qed.

Lemma rows_ok_empty R C : 0 <= R -> 0 <= C -> rows_ok R C (repeat [] (Z.to_nat R)).
Proof.
  intros HR HC. repeat split; [lia|lia|zl; lia|].
  apply Forall_forall. intros l Hl. apply repeat_spec in Hl as ->.
  repeat split; constructor.
Qed.

Lemma cell_empty n r c : cell (repeat [] n) r c = n0.
Proof.
  unfold cell, rnth. replace (nth (Z.to_nat r) (repeat [] n) []) with (@nil (Z * V)); [reflexivity|].
  symmetry. destruct (nth_in_or_default (Z.to_nat r) (repeat (@nil (Z * V)) n) []) as [H|H]; [|exact H].
  eapply repeat_spec; eauto.
Qed.

Lemma csr_Clear_spec R C rows : 0 <= R ->
  csr_Clear (mk_csr R C rows) = Ok (mk_csr R C (repeat [] (Z.to_nat R))).
Proof.
  intros HR. unfold csr_Clear. cbn [csr_r csr_c mk_csr]. rewrite make_slice_ok by lia. cbn [rbind].
  unfold mk_csr. rewrite concat_empty, offsets_empty. simpl.
  replace (Z.to_nat (R + 1)) with (S (Z.to_nat R)) by lia. reflexivity.
Qed.

(** [Copy] reproduces the arrays *)
Lemma copy_loop {A B S} (src1 : list A) (src2 : list B) (d1 : A) (d2 : B)
    (get1 : S -> list A) (get2 : S -> list B) (mk : list A -> list B -> S) :
  (forall a b, get1 (mk a b) = a) -> (forall a b, get2 (mk a b) = b) ->
  zlen src2 = zlen src1 ->
  rfold (fun t i =>
           v <- zget src1 i ;; vs <- zset (get1 t) i v ;;
           k <- zget src2 i ;; ks <- zset (get2 t) i k ;;
           Ok (mk vs ks))
    (mk (repeat d1 (length src1)) (repeat d2 (length src1))) (zrange 0 (zlen src1))
  = Ok (mk src1 src2).
Proof.
  intros G1 G2 Hl.
  destruct (rfold_range_inv
    (fun i t => exists a1 b1 a2 b2 n, src1 = a1 ++ a2 /\ src2 = b1 ++ b2 /\ zlen a1 = i /\ zlen b1 = i /\
        length a2 = n /\ t = mk (a1 ++ repeat d1 n) (b1 ++ repeat d2 n))
    (fun t i =>
           v <- zget src1 i ;; vs <- zset (get1 t) i v ;;
           k <- zget src2 i ;; ks <- zset (get2 t) i k ;;
           Ok (mk vs ks)) 0 (zlen src1) (mk (repeat d1 (length src1)) (repeat d2 (length src1))))
    as (t & -> & a1 & b1 & a2 & b2 & n & E1 & E2 & E3 & E4 & E5 & ->).
  - apply zlen_nonneg.
  - exists [], [], src1, src2, (length src1). rewrite !zlen_nil. repeat split; reflexivity.
  - intros i t Hi (a1 & b1 & a2 & b2 & n & E1 & E2 & E3 & E4 & E5 & ->).
    rewrite G1, G2.
    destruct a2 as [|x a2]; [subst src1; rewrite app_nil_r in *; lia|].
    destruct b2 as [|y b2]; [subst src1 src2; rewrite app_nil_r in *; zl; pose proof (zlen_nonneg a2); lia|].
    simpl in E5. subst n. simpl repeat.
    rewrite E1. rewrite zget_mid by lia. cbn [rbind].
    rewrite zset_mid by lia. cbn [rbind].
    rewrite E2. rewrite zget_mid by lia. cbn [rbind].
    rewrite zset_mid by lia. cbn [rbind].
    eexists. split; [reflexivity|].
    exists (a1 ++ [x]), (b1 ++ [y]), a2, b2, (length a2).
    rewrite <- !app_assoc. simpl. zl. repeat split; lia.
  - assert (zlen a2 = 0) by (subst src1; zl; lia). apply zlen_0_nil in H; subst a2.
    assert (zlen b2 = 0) by (subst src1 src2; zl; lia). apply zlen_0_nil in H; subst b2.
    simpl in E5. subst n. simpl. rewrite !app_nil_r in *. subst. reflexivity.
Qed.

Lemma csr_Copy_spec (s : csr N) :
  0 <= csr_r s -> zlen (csr_cols s) = zlen (csr_values s) -> zlen (csr_rowStart s) = csr_r s + 1 ->
  csr_Copy s = Ok s.
Proof.
  intros HR Hc Hr. unfold csr_Copy, newCSRMatrix.
  pose proof (zlen_nonneg (csr_values s)).
  rewrite !make_slice_ok by lia. cbn [rbind].
  pose proof (copy_loop (csr_values s) (csr_cols s) n0 0
    (@csr_values N) (@csr_cols N)
    (fun a b => MkCSR (csr_r s) (csr_c s) a b (repeat 0 (Z.to_nat (csr_r s + 1))))
    ltac:(reflexivity) ltac:(reflexivity) Hc) as HC1.
  replace (Z.to_nat (zlen (csr_values s))) with (length (csr_values s)) by (unfold zlen; lia).
  assert (Hext : forall (b1 b2 : csr N -> Z -> res (csr N)) P l t,
    P t -> (forall t i, P t -> b1 t i = b2 t i) -> (forall t i t', P t -> b2 t i = Ok t' -> P t') ->
    rfold b1 t l = rfold b2 t l).
  { intros b1 b2 P l. induction l as [|i l IH]; intros t Ht He Hp; simpl; [reflexivity|].
    rewrite He by auto. destruct (b2 t i) eqn:E; simpl; auto. apply IH; eauto. }
  erewrite (Hext _ _ (fun t => csr_r t = csr_r s /\ csr_c t = csr_c s /\
                          csr_rowStart t = repeat 0 (Z.to_nat (csr_r s + 1)))).
  2: { cbn. auto. }
  2: { intros t i (E1 & E2 & E3). rewrite E1, E2, E3. reflexivity. }
  2: { intros t i t' _ Ht.
       apply rbind_ok in Ht as (? & _ & Ht). apply rbind_ok in Ht as (? & _ & Ht).
       apply rbind_ok in Ht as (? & _ & Ht). apply rbind_ok in Ht as (? & _ & Ht).
       inversion Ht; cbn; auto. }
  rewrite HC1. cbn [rbind].
  pose proof (copy_loop (csr_rowStart s) (csr_rowStart s) 0 0
    (@csr_rowStart N) (@csr_rowStart N)
    (fun a b => MkCSR (csr_r s) (csr_c s) (csr_values s) (csr_cols s) b)) as HC2.
  clear HC2 HC1.
  destruct (rfold_range_inv
    (fun i t => exists a1 a2, csr_rowStart s = a1 ++ a2 /\ zlen a1 = i /\
        t = MkCSR (csr_r s) (csr_c s) (csr_values s) (csr_cols s) (a1 ++ repeat 0 (length a2)))
    (fun t i =>
       x <- zget (csr_rowStart s) i ;;
       rs <- zset (csr_rowStart t) i x ;;
       Ok {| csr_r := csr_r t; csr_c := csr_c t; csr_values := csr_values t;
             csr_cols := csr_cols t; csr_rowStart := rs |})
    0 (zlen (csr_rowStart s))
    (MkCSR (csr_r s) (csr_c s) (csr_values s) (csr_cols s) (repeat 0 (Z.to_nat (csr_r s + 1)))))
    as (t & -> & a1 & a2 & E1 & E2 & ->).
  - apply zlen_nonneg.
  - exists [], (csr_rowStart s). repeat split. f_equal.
    simpl. f_equal. unfold zlen in Hr; lia.
  - intros i t Hi (a1 & a2 & E1 & E2 & ->). cbn [csr_rowStart csr_r csr_c csr_values csr_cols].
    destruct a2 as [|x a2]; [rewrite E1, app_nil_r in Hi; lia|].
    rewrite E1. rewrite zget_mid by lia. cbn [rbind]. simpl repeat.
    rewrite zset_mid by lia. cbn [rbind]. eexists. split; [reflexivity|].
    exists (a1 ++ [x]), a2. rewrite <- !app_assoc. zl. repeat split; lia.
  - assert (zlen a2 = 0) by (rewrite E1 in E2; zl; lia). apply zlen_0_nil in H0; subst a2.
    simpl. rewrite !app_nil_r in *. rewrite <- E1. destruct s; reflexivity.
Qed.

Lemma csr_Copy_mk R C rows : rows_ok R C rows -> csr_Copy (mk_csr R C rows) = Ok (mk_csr R C rows).
Proof.
  intros (HR & HC & Hl & Hf). apply csr_Copy_spec; cbn [csr_r csr_cols csr_values csr_rowStart mk_csr].
  - lia.
  - zl. reflexivity.
  - rewrite zlen_offsets. lia.
Qed.

End CsrRep.
