(** Sparse vectors: what histories show. *)
From Coq Require Import String Sorting.Sorted Permutation.
From Verif Require Import GoBase Num SparseVec Csr Csc DenseVec DenseMat Mat World Ops.
From Verif Require Import BaseProofs AssocProofs CsrProofs SvProofs CsrIterProofs CscProofs DenseProofs MatProofs.
From Verif Require Import Spec HeapProofs Api ReachProofs StoreProofs VecProofs VecHist.

Section VecHist.
Context {N : num}.
Notation V := (T N).
Notation mat := (mat N).
Notation row := (list (Z * V)).

(** ** Histories that keep the entries sorted *)

Lemma aval_nz L (ents : row) j : row_ok L ents -> zero_ok N -> In j (map fst ents) -> neqb (aval j ents) n0 = false.
Proof.
  intros (Hs & _ & Hn) Hz Hin. apply in_map_iff in Hin as ([j' v] & <- & Hin). unfold aval.
  cbn [fst]. rewrite (proj2 (alookup_in_iff _ _ _ Hs) Hin). rewrite Forall_forall in Hn. apply (Hn _ Hin).
Qed.

Lemma write_sorted L (ents : row) (g : Z -> V) i x : zero_ok N -> 0 <= L -> row_ok L ents ->
  (forall j, 0 <= j < L -> aval j ents = g j) -> 0 <= i < L ->
  (neqb x n0 = false -> support L g < i -> forall j, i <= j < L -> neqb (g j) n0 = true) ->
  exists ents', sv_SetVec (mk_sv L ents) i x = Ok (mk_sv L ents') /\ row_ok L ents' /\
    (forall j, 0 <= j < L -> aval j ents' = windowed_write L g i x j).
Proof.
  intros Hz HL Hok Hg Hi Hord. pose proof (row_ok_ents_ok L ents HL Hok) as Heo. pose proof Hok as (Hs & Hb & _).
  assert (El : support L g = zlen ents) by (symmetry; apply zlen_row_nonzeros; auto).
  unfold windowed_write. destruct (Z_le_gt_dec i (zlen ents)) as [Hle|Hgt].
  - rewrite sv_SetVec_sorted by auto. eexists; split; [reflexivity|]. split; [apply row_ok_aput; auto|].
    intros j Hj. rewrite aval_aput by auto. rewrite El. replace (zlen ents <? i) with false by lia. cbn [andb].
    unfold vwrote. destruct (j =? i); [reflexivity|auto].
  - rewrite El. replace (zlen ents <? i) with true by lia. cbn [andb]. destruct (neqb x n0) eqn:Ex.
    + (* a zero beyond the entries *)
      exists ents. split; [|split; auto].
      assert (Hr : sv_read ents i = n0) by (rewrite (sv_read_sorted L) by auto; replace (i <=? zlen ents) with false by lia; reflexivity).
      unfold sv_SetVec, sv_Length. cbn [sv_l mk_sv]. destruct ((i <? 0) || (i >=? L)) eqn:E; [rewrite Z.geb_leb in E; lia|].
      unfold sv_index. cbn [sv_indices mk_sv]. rewrite zlen_map. rewrite Z.gtb_ltb. replace (zlen ents <? i) with true by lia.
      cbn [rbind]. unfold sv_hit. rewrite Z.ltb_irrefl. cbn [rbind]. unfold sv_insert, isz. rewrite Ex. reflexivity.
    + assert (Hlt : klt i ents).
      { apply Forall_forall. intros [j v] Hin. cbn [fst]. rewrite Forall_forall in Hb. pose proof (Hb _ Hin) as Hj. cbn [fst] in Hj.
        destruct (Z_lt_ge_dec j i); [assumption|]. exfalso. specialize (Hord eq_refl ltac:(lia) j ltac:(lia)).
        rewrite <- Hg in Hord by lia. rewrite (aval_nz L) in Hord; [discriminate|auto|auto|]. apply in_map_iff. exists (j, v). auto. }
      rewrite sv_SetVec_append by auto. unfold isz at 1. rewrite Ex. eexists; split; [reflexivity|]. split; [unfold isz; rewrite ?Ex; apply row_ok_snoc; auto|].
      intros j Hj. unfold vwrote, isz. rewrite ?Ex. destruct (j =? i) eqn:E.
      * assert (j = i) by lia. subst j. unfold aval. rewrite alookup_app, alookup_notin by (eapply klt_notin; [exact Hlt|lia]).
        cbn. rewrite Z.eqb_refl. unfold zeroed. rewrite Ex. reflexivity.
      * rewrite <- Hg by auto. unfold aval. rewrite alookup_app. cbn. replace (i =? j) with false by lia.
        destruct (alookup j ents); reflexivity.
Qed.

Lemma read_sorted L (ents : row) (g : Z -> V) i : zero_ok N -> row_ok L ents ->
  (forall j, 0 <= j < L -> aval j ents = g j) -> 0 <= i < L -> sv_read ents i = windowed L g i.
Proof.
  intros Hz Hok Hg Hi. rewrite (sv_read_sorted L) by auto. unfold windowed, support.
  rewrite <- (zlen_row_nonzeros L ents g Hz Hok Hg). rewrite Hg by auto. reflexivity.
Qed.

Lemma win_do_vop L (o : @vop N) (ents : row) (g : Z -> V) : zero_ok N -> 0 <= L -> row_ok L ents ->
  (forall i, 0 <= i < L -> aval i ents = g i) -> in_order L g o ->
  let '(m', x) := do_vop (MSV (mk_sv L ents)) o in
  let '(g', y) := win_vop L g o in
  x = y /\ exists ents', m' = MSV (mk_sv L ents') /\ row_ok L ents' /\ (forall i, 0 <= i < L -> aval i ents' = g' i).
Proof.
  intros Hz HL Hok Hg Hi. pose proof (row_ok_ents_ok L ents HL Hok) as Heo.
  unfold win_vop.
  destruct o as [i v|i|r c v|r c h|r c|r c|]; cbn [in_order writes_at] in Hi; unfold in_order in Hi; cbn [writes_at] in Hi;
    cbn [do_vop do_op mat_Set mat_Update mat_At mat_Element mat_Clear mat_SetVec mat_AtVec].
  - destruct ((0 <=? i) && (i <? L)) eqn:E.
    + destruct (write_sorted L ents g i v Hz HL Hok Hg ltac:(lia) Hi) as (e' & -> & H1 & H2). cbn. eauto 10.
    + unfold sv_SetVec, sv_Length. cbn [sv_l mk_sv].
      replace ((i <? 0) || (i >=? L)) with true by (rewrite Z.geb_leb; lia). cbn. eauto 10.
  - destruct ((0 <=? i) && (i <? L)) eqn:E.
    + rewrite sv_AtVec_read by lia. rewrite (read_sorted L _ g) by (auto; lia). cbn. eauto 10.
    + rewrite sv_AtVec_panic by lia. cbn. eauto 10.
  - unfold sv_Set, sv_Rows, sv_Columns. replace (sv_l (mk_sv L ents)) with L by reflexivity.
    destruct ((0 <=? r) && (r <? L) && (c =? 0)) eqn:E.
    + replace ((r <? 0) || (r >=? L)) with false by (rewrite Z.geb_leb; lia).
      replace ((c <? 0) || (c >=? 1)) with false by (rewrite Z.geb_leb; lia).
      destruct (write_sorted L ents g r v Hz HL Hok Hg ltac:(lia) Hi) as (e' & -> & H1 & H2). cbn. eauto 10.
    + destruct ((r <? 0) || (r >=? L)) eqn:E1; [cbn; eauto 10|].
      destruct ((c <? 0) || (c >=? 1)) eqn:E2; [cbn; eauto 10|]. rewrite Z.geb_leb in *. lia.
  - destruct ((0 <=? r) && (r <? L) && (c =? 0)) eqn:E.
    + rewrite sv_Update_ok by lia. rewrite (read_sorted L _ g) by (auto; lia).
      destruct (write_sorted L ents g r (h (windowed L g r)) Hz HL Hok Hg ltac:(lia) Hi) as (e' & -> & H1 & H2). cbn. eauto 10.
    + unfold sv_Update, sv_Rows, sv_Columns. replace (sv_l (mk_sv L ents)) with L by reflexivity.
      destruct ((r <? 0) || (r >=? L)) eqn:E1; [cbn; eauto 10|].
      destruct ((c <? 0) || (c >=? 1)) eqn:E2; [cbn; eauto 10|]. rewrite Z.geb_leb in *. lia.
  - destruct ((0 <=? r) && (r <? L) && (c =? 0)) eqn:E.
    + rewrite sv_At_ok by (auto; lia). cbn. rewrite (read_sorted L _ g) by (auto; lia). eauto 10.
    + unfold sv_At, sv_Update, sv_Rows, sv_Columns. replace (sv_l (mk_sv L ents)) with L by reflexivity.
      destruct ((r <? 0) || (r >=? L)) eqn:E1; [cbn; eauto 10|].
      destruct ((c <? 0) || (c >=? 1)) eqn:E2; [cbn; eauto 10|]. rewrite Z.geb_leb in *. lia.
  - unfold sv_Element. destruct ((0 <=? r) && (r <? L)) eqn:E.
    + rewrite sv_AtVec_read by lia. rewrite (read_sorted L _ g) by (auto; lia). cbn. eauto 10.
    + rewrite sv_AtVec_panic by lia. cbn. eauto 10.
  - cbn. split; [reflexivity|]. exists []. split; [reflexivity|]. split; [apply row_ok_nil|]. reflexivity.
Qed.

Lemma aval_zeroed L (ents : row) j : zero_ok N -> row_ok L ents -> aval j ents = zeroed (aval j ents).
Proof.
  intros Hz Hok. unfold zeroed. destruct (neqb (aval j ents) n0) eqn:E; [|reflexivity].
  unfold aval in *. destruct (alookup j ents) as [v|] eqn:Ea; [|reflexivity]. exfalso. apply alookup_In in Ea.
  destruct Hok as (_ & _ & Hnz). rewrite Forall_forall in Hnz. specialize (Hnz _ Ea). unfold isz in Hnz. cbn in Hnz. congruence.
Qed.

(** histories that write in order show exactly what the specification computes *)
Lemma sv_orderly L : zero_ok N -> 0 <= L ->
  exists s : svec N, NewSparseVector L = Ok s /\
  forall os, orderly L (fun _ => n0) os ->
    let '(m, outs) := do_vops (MSV s) os in
    let '(g, outs') := win_vops L (fun _ => n0) os in
    outs = outs' /\ ascending_vector m L g.
Proof.
  intros Hz HL. rewrite NewSparseVector_spec. eexists; split; [reflexivity|].
  intros os. assert (G : forall os (ents : row) (g : Z -> V), row_ok L ents ->
    (forall i, 0 <= i < L -> aval i ents = g i) -> orderly L g os ->
    let '(m, outs) := do_vops (MSV (mk_sv L ents)) os in
    let '(g, outs') := win_vops L g os in
    outs = outs' /\ ascending_vector m L g).
  { clear os. induction os as [|o os IH]; intros ents g Hok Hg Hn; cbn [do_vops win_vops].
    - split; [reflexivity|]. apply ascending; auto. intros i Hi. rewrite (aval_zeroed L) by auto. rewrite Hg by auto. reflexivity.
    - cbn [orderly] in Hn. destruct Hn as [Hi Hn].
      pose proof (win_do_vop L o ents g Hz HL Hok Hg Hi) as H1. destruct (do_vop _ o) as [m1 x].
      destruct (win_vop L g o) as [g1 y]. destruct H1 as (-> & ents1 & -> & Hok1 & Hg1).
      cbn [fst] in Hn. specialize (IH ents1 g1 Hok1 Hg1 Hn). destruct (do_vops _ os) as [m2 xs].
      destruct (win_vops L g1 os) as [g2 ys]. destruct IH as (-> & Hd). auto. }
  intros Hn. apply G; auto. apply row_ok_nil.
Qed.

(** ** Any history *)

Lemma made_more (os os' : list (@vop N)) i v : incl os os' -> made os i v -> made os' i v.
Proof. intros Hi. induction 1; eauto using made_zero, made_SetVec, made_Set, made_Update. Qed.

Lemma sv_read_in (ents : row) i : sv_read ents i = n0 \/ In (i, sv_read ents i) ents.
Proof.
  destruct (Z_lt_ge_dec i 0) as [H|H].
  - left. unfold sv_read. rewrite sv_AtVec_panic by lia. reflexivity.
  - pose proof (sv_AtVec_read (i + 1) ents i ltac:(lia)) as R.
    destruct (sv_AtVec_probe (i + 1) ents i ltac:(lia)) as [(lo & v & hi & He & Hv)|Hv]; rewrite Hv in R; injection R as R; subst v || (left; congruence).
    right. rewrite He at 2. apply in_or_app. right. left. reflexivity.
Qed.

Lemma put_in i (x : V) (ents ents' : row) e : sv_put i x ents ents' -> In e ents' -> In e ents \/ e = (i, x).
Proof.
  destruct 1; intros Hin; repeat (apply in_app_iff in Hin as [Hin|Hin]);
    try (destruct (isz x); [destruct Hin|destruct Hin as [<-|[]]; auto]); left; apply in_app_iff; cbn; auto.
Qed.

Definition from (os : list (@vop N)) (ents : row) : Prop := forall i v, In (i, v) ents -> made os i v.

Lemma from_read os (ents : row) i : from os ents -> made os i (sv_read ents i).
Proof. intros H. destruct (sv_read_in ents i) as [-> | Hin]; [constructor|auto]. Qed.

Lemma from_set L os (ents : row) i x : from os ents -> made os i x -> 0 <= i < L ->
  exists ents', sv_SetVec (mk_sv L ents) i x = Ok (mk_sv L ents') /\ from os ents'.
Proof.
  intros Hf Hm Hi. destruct (sv_SetVec_put L ents i x Hi) as (e' & E & P). exists e'. split; [exact E|].
  intros j v Hin. destruct (put_in _ _ _ _ _ P Hin) as [H|H]; [auto|]. injection H as -> ->. exact Hm.
Qed.

Lemma from_vop L os (ents : row) o : from os ents -> In o os ->
  exists ents', fst (do_vop (MSV (mk_sv L ents)) o) = MSV (mk_sv L ents') /\ from os ents'.
Proof.
  intros Hf Ho. assert (Hset : forall i x, made os i x ->
      exists ents', fst (done_or (MSV (mk_sv L ents)) (rmap MSV (sv_SetVec (mk_sv L ents) i x)) (fun m' => (m', @Done V))) = MSV (mk_sv L ents') /\ from os ents').
  { intros i x Hm. destruct ((i <? 0) || (i >=? L)) eqn:E; rewrite Z.geb_leb in E.
    - unfold sv_SetVec, sv_Length. cbn [sv_l mk_sv]. rewrite Z.geb_leb, E. cbn. eauto.
    - destruct (from_set L os ents i x Hf Hm ltac:(lia)) as (e' & -> & H). cbn. eauto. }
  destruct o as [i v|i|r c v|r c h|r c|r c|];
    cbn [do_vop do_op mat_Set mat_Update mat_At mat_Element mat_Clear mat_SetVec mat_AtVec].
  - apply Hset. econstructor 2; exact Ho.
  - exists ents. split; [|exact Hf]. destruct (sv_AtVec _ i); reflexivity.
  - unfold sv_Set. destruct (_ || _); [cbn; eauto|]. destruct (_ || _); [cbn; eauto|]. apply Hset. econstructor 3; exact Ho.
  - destruct ((0 <=? r) && (r <? L) && (c =? 0)) eqn:E.
    + rewrite sv_Update_ok by lia. destruct (from_set L os ents r (h (sv_read ents r)) Hf) as (e' & -> & H); [econstructor 4; [exact Ho|apply from_read; auto]|lia|]. cbn. eauto.
    + unfold sv_Update, sv_Rows, sv_Columns. replace (sv_l (mk_sv L ents)) with L by reflexivity.
      destruct ((r <? 0) || (r >=? L)) eqn:E1; [cbn; eauto 10|].
      destruct ((c <? 0) || (c >=? 1)) eqn:E2; [cbn; eauto 10|]. rewrite Z.geb_leb in *. lia.
  - destruct ((0 <=? r) && (r <? L) && (c =? 0)) eqn:E.
    + unfold sv_At. rewrite sv_Update_ok by lia. destruct (from_set L os ents r (sv_read ents r) Hf) as (e' & -> & H); [apply from_read; auto|lia|]. cbn. eauto.
    + unfold sv_At, sv_Update, sv_Rows, sv_Columns. replace (sv_l (mk_sv L ents)) with L by reflexivity.
      destruct ((r <? 0) || (r >=? L)) eqn:E1; [cbn; eauto 10|].
      destruct ((c <? 0) || (c >=? 1)) eqn:E2; [cbn; eauto 10|]. rewrite Z.geb_leb in *. lia.
  - exists ents. split; [|exact Hf]. destruct (sv_Element _ r c); reflexivity.
  - exists []. split; [reflexivity|]. intros i v [].
Qed.

Lemma from_vops L os os' (ents : row) : from os ents -> incl os' os ->
  exists ents', fst (do_vops (MSV (mk_sv L ents)) os') = MSV (mk_sv L ents') /\ from os ents'.
Proof.
  revert ents. induction os' as [|o os' IH]; intros ents Hf Hi; [cbn; eauto|].
  cbn [do_vops]. destruct (from_vop L os ents o Hf ltac:(apply Hi; left; reflexivity)) as (e1 & E1 & F1).
  destruct (do_vop _ o) as [m1 x]. cbn [fst] in E1. subst m1.
  destruct (IH e1 F1 ltac:(intros y Hy; apply Hi; right; exact Hy)) as (e2 & E2 & F2).
  destruct (do_vops _ os') as [m2 xs]. cbn [fst] in *. eauto.
Qed.

(** In any history a position shows only values made at that position: through [AtVec],
    and in the enumeration. *)
Lemma sv_made L (os : list (@vop N)) s m outs i v : NewSparseVector L = Ok s -> do_vops (MSV s) os = (m, outs) ->
  (mat_AtVec m i = Ok v -> made os i v) /\
  (forall fuel l, loop_Next fuel m (mat_iterator m) = Ok l -> In (i, 0, v) l -> made os i v).
Proof.
  intros Hs Hd. rewrite NewSparseVector_spec in Hs. injection Hs as <-.
  destruct (from_vops L os os [] ltac:(intros ? ? []) (incl_refl _)) as (ents & E & F).
  rewrite Hd in E. cbn [fst] in E. subst m. split.
  - cbn [mat_AtVec]. intros Ha. destruct (Z_lt_ge_dec i 0); [rewrite sv_AtVec_panic in Ha by lia; discriminate|].
    destruct (Z_lt_ge_dec i L); [|rewrite sv_AtVec_panic in Ha by lia; discriminate].
    rewrite sv_AtVec_read in Ha by lia. injection Ha as <-. apply from_read; auto.
  - assert (G : forall fuel it l, loop_Next fuel (MSV (mk_sv L ents)) (ISV it) = Ok l -> In (i, 0, v) l -> In (i, v) ents).
    { induction fuel as [|fuel IH]; intros it l; cbn [loop_Next].
      - destruct (mat_HasNext (ISV it)); [discriminate|]. intros H; injection H as <-. intros [].
      - destruct (mat_HasNext (ISV it)); [|intros H; injection H as <-; intros []].
        cbn [mat_Next mat_next mat_cur rbind]. unfold mat_Next. cbn [mat_next mat_cur rbind]. unfold sv_cur. cbn [sv_indices sv_values mk_sv].
        destruct (zget (map fst ents) (svi_old (sv_next it))) as [j| |] eqn:Ei; cbn [rbind]; try discriminate.
        destruct (zget (map snd ents) (svi_old (sv_next it))) as [x| |] eqn:Ex; cbn [rbind]; try discriminate.
        destruct (loop_Next fuel _ (ISV (sv_next it))) as [l'| |] eqn:El; cbn [rbind]; try discriminate.
        intros H; injection H as <-. intros [Hh|Ht]; [|eapply IH; eauto].
        injection Hh as -> ->. rewrite zget_map in Ei. rewrite zget_map in Ex.
        destruct (zget ents (svi_old (sv_next it))) as [[j x]| |] eqn:Ee; cbn [rmap rbind fst snd] in Ei, Ex; try discriminate.
        injection Ei as ->. injection Ex as ->. eapply zget_In; eauto. }
    intros fuel l Hl Hin. apply F. eapply G; [exact Hl|exact Hin].
Qed.

End VecHist.
