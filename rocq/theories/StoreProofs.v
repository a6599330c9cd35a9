(** Storage theorems in the vocabulary of Spec.v: histories of cell operations,
    counting, enumeration, construction from arrays, extraction, copies. *)
From Coq Require Import String Sorting.Sorted Permutation.
From Verif Require Import GoBase Num SparseVec Csr Csc DenseVec DenseMat Mat World Ops.
From Verif Require Import BaseProofs AssocProofs CsrProofs SvProofs CsrIterProofs CscProofs DenseProofs MatProofs.
From Verif Require Import Spec HeapProofs Api ReachProofs.

Section Store.
Context {N : num}.
Notation V := (T N).
Notation mat := (mat N).
Notation world := (world N).
Notation row := (list (Z * V)).
Notation ent := (Z * Z * V)%type.
Implicit Types w : world.
Implicit Types m : mat.

(** ** [denotes] and [peek] *)

Lemma wf_denotes m : zero_ok N -> wf m -> denotes m (mat_Rows m) (mat_Columns m) (peek m).
Proof.
  intros Hz Hw. do 2 (split; [reflexivity|]). intros i j Hi Hj. apply At_ok; auto. split; auto.
Qed.

Lemma denotes_peek m R C f i j : denotes m R C f -> inb m i j -> peek m i j = f i j.
Proof.
  intros (HR & HC & H) [Hi Hj]. unfold peek. rewrite H by lia. reflexivity.
Qed.

Lemma denotes_ext m R C f g : (forall i j, 0 <= i < R -> 0 <= j < C -> f i j = g i j) ->
  denotes m R C f -> denotes m R C g.
Proof.
  intros Hfg (HR & HC & H). split; [auto|]. split; [auto|]. intros i j Hi Hj. rewrite H, Hfg by auto. reflexivity.
Qed.

Lemma peek_denotes m R C f : zero_ok N -> wf m -> mat_Rows m = R -> mat_Columns m = C ->
  (forall i j, inb m i j -> peek m i j = f i j) -> denotes m R C f.
Proof.
  intros Hz Hw HR HC H. apply (denotes_ext m R C (peek m)).
  - intros i j Hi Hj. apply H. unfold inb. rewrite HR, HC. auto.
  - rewrite <- HR, <- HC. apply wf_denotes; auto.
Qed.

Lemma denotes_inj m R C f R' C' f' : denotes m R C f -> denotes m R' C' f' ->
  R = R' /\ C = C' /\ forall i j, 0 <= i < R -> 0 <= j < C -> f i j = f' i j.
Proof.
  intros (HR & HC & H) (HR' & HC' & H'). split; [congruence|]. split; [congruence|].
  intros i j Hi Hj. assert (Ok (f i j, m) = Ok (f' i j, m)) by (rewrite <- H, <- H' by lia; reflexivity). congruence.
Qed.

(** ** Out-of-range reads *)

Definition plain m : Prop := match m with MCSR _ | MCSC _ | MDM _ => True | _ => False end.

Lemma plain_good m : wf m -> plain m -> good m.
Proof. intros H P. split; auto. destruct m; simpl in *; try tauto; discriminate. Qed.

Lemma same_shape_plain m m' : same_shape m m' -> plain m -> plain m'.
Proof. intros (H & _) P. destruct m, m'; simpl in *; try tauto; discriminate. Qed.

Lemma At_panic m r c : wf m -> kind m <> KDV -> ~ inb m r c -> mat_At m r c = Panic.
Proof.
  intros H P Hb. unfold inb in Hb. destruct m; simpl in *; try congruence.
  - destruct H as (R & C & rows & -> & H). cbn in Hb. unfold csr_At, csr_Update. rewrite csr_bounds by auto. reflexivity.
  - destruct H as (R & C & rows & -> & H). cbn in Hb. unfold csc_At. rewrite csc_bounds by auto. reflexivity.
  - destruct H as (R & C & f & -> & H). cbn in Hb. rewrite dm_At_panic by auto. reflexivity.
  - destruct H as (l & ents & -> & H). cbn in Hb. unfold sv_Columns in Hb.
    unfold sv_At, sv_Update, sv_Rows, sv_Columns. cbn [sv_l mk_sv].
    destruct ((r <? 0) || (r >=? l)) eqn:E1; [reflexivity|].
    destruct ((c <? 0) || (c >=? 1)) eqn:E2; [reflexivity|].
    exfalso. apply Hb. rewrite Z.geb_leb in *. lia.
Qed.

Lemma Element_panic m r c : wf m -> plain m -> ~ inb m r c -> mat_Element m r c = Panic.
Proof.
  intros H P Hb. unfold inb in Hb. destruct m; simpl in *; try tauto.
  - destruct H as (R & C & rows & -> & H). cbn in Hb. unfold csr_Element, csr_Update. rewrite csr_bounds by auto. reflexivity.
  - destruct H as (R & C & rows & -> & H). cbn in Hb. unfold csc_Element. rewrite csc_bounds by auto. reflexivity.
  - destruct H as (R & C & f & -> & H). cbn in Hb. unfold dm_Element. rewrite dm_At_panic by auto. reflexivity.
Qed.

Lemma dv_At_any (s : dvec N) r c : wf (MDV s) ->
  mat_At (MDV s) r c = if (0 <=? r) && (r <? mat_Rows (MDV s)) then Ok (peek (MDV s) r 0, MDV s) else Panic.
Proof.
  intros (L & f & -> & H). cbn [mat_Rows mk_dv dv_Rows dv_l]. unfold peek. cbn [mat_At]. unfold dv_At.
  destruct ((0 <=? r) && (r <? L)) eqn:E.
  - rewrite dv_AtVec_spec by lia. reflexivity.
  - rewrite dv_AtVec_panic by lia. reflexivity.
Qed.

(** ** Histories of cell operations *)

Lemma inside_inb m r c : inside (mat_Rows m) (mat_Columns m) r c = true <-> inb m r c.
Proof. unfold inside, inb. lia. Qed.

Definition keep_of m : V -> V := if is_sp m then zeroed else exactly.
Lemma keep_clean m v : keep_of m v = clean m v.
Proof. unfold keep_of, clean. destruct (is_sp m); reflexivity. Qed.

Lemma do_op_ok m o g : zero_ok N -> wf m -> plain m ->
  (forall i j, inb m i j -> peek m i j = g i j) ->
  let '(m', x) := do_op m o in
  let '(g', y) := map_op (keep_of m) (mat_Rows m) (mat_Columns m) g o in
  x = y /\ wf m' /\ plain m' /\ same_shape m m' /\ (forall i j, inb m' i j -> peek m' i j = g' i j).
Proof.
  intros Hz Hw Hp Hg. pose proof (plain_good m Hw Hp) as Hgd.
  assert (HS : same_shape m m) by (do 2 (split; auto)).
  destruct o as [r c v|r c f|r c|r c|]; cbn [do_op map_op].
  - destruct (inside (mat_Rows m) (mat_Columns m) r c) eqn:E.
    + apply inside_inb in E. destruct (Set_ok m r c v Hz Hgd E) as (m' & -> & [Hw' Hk] & Hs & Hc). cbn [done_or].
      split; [reflexivity|]. split; [auto|]. split; [eapply same_shape_plain; eauto|]. split; [auto|].
      intros i j Hb. apply (same_shape_inb m m') in Hb; auto. rewrite Hc by auto. unfold wrote.
      rewrite keep_clean. destruct ((i =? r) && (j =? c)); auto.
    + rewrite Set_panic; [cbn [done_or]; auto 10|auto|]; intros Hb; apply inside_inb in Hb; congruence.
  - destruct (inside (mat_Rows m) (mat_Columns m) r c) eqn:E.
    + apply inside_inb in E. destruct (Update_ok m r c f Hz Hgd E) as (m' & -> & [Hw' Hk] & Hs & Hc). cbn [done_or].
      split; [reflexivity|]. split; [auto|]. split; [eapply same_shape_plain; eauto|]. split; [auto|].
      intros i j Hb. apply (same_shape_inb m m') in Hb; auto. rewrite Hc by auto. unfold wrote.
      rewrite keep_clean. rewrite <- (Hg r c E). destruct ((i =? r) && (j =? c)); auto.
    + rewrite Update_panic; [cbn [done_or]; auto 10|auto|]; intros Hb; apply inside_inb in Hb; congruence.
  - destruct (inside (mat_Rows m) (mat_Columns m) r c) eqn:E.
    + apply inside_inb in E. rewrite At_ok by auto. cbn [done_or fst snd]. rewrite Hg by auto. auto 10.
    + rewrite At_panic; [cbn [done_or]; auto 10|auto|destruct m; simpl in *; try tauto; discriminate|].
      intros Hb. apply inside_inb in Hb. congruence.
  - destruct (inside (mat_Rows m) (mat_Columns m) r c) eqn:E.
    + apply inside_inb in E. rewrite Element_ok by auto. cbn [done_or fst snd]. rewrite Hg by auto. auto 10.
    + rewrite Element_panic; [cbn [done_or]; auto 10|auto|auto|]; intros Hb; apply inside_inb in Hb; congruence.
  - destruct (Clear_ok m Hz Hw) as (m' & -> & Hw' & Hs & Hc). cbn [done_or].
    split; [reflexivity|]. split; [auto|]. split; [eapply same_shape_plain; eauto|]. split; [auto|].
    intros i j Hb. apply (same_shape_inb m m') in Hb; auto.
Qed.

Lemma do_ops_ok os : zero_ok N -> forall m g, wf m -> plain m ->
  (forall i j, inb m i j -> peek m i j = g i j) ->
  let '(m', x) := do_ops m os in
  let '(g', y) := map_ops (keep_of m) (mat_Rows m) (mat_Columns m) g os in
  x = y /\ wf m' /\ plain m' /\ same_shape m m' /\ (forall i j, inb m' i j -> peek m' i j = g' i j).
Proof.
  intros Hz. induction os as [|o os IH]; intros m g Hw Hp Hg; cbn [do_ops map_ops].
  - split; [auto|]. split; [auto|]. split; [auto|]. split; [do 2 (split; auto)|auto].
  - pose proof (do_op_ok m o g Hz Hw Hp Hg) as H1.
    destruct (do_op m o) as [m1 x]. destruct (map_op _ _ _ g o) as [g1 y].
    destruct H1 as (-> & Hw1 & Hp1 & Hs1 & Hg1).
    specialize (IH m1 g1 Hw1 Hp1 Hg1).
    assert (E : keep_of m1 = keep_of m) by (unfold keep_of; rewrite (same_shape_sp m m1); auto).
    pose proof Hs1 as (_ & Er & Ec). rewrite E, Er, Ec in IH.
    destruct (do_ops m1 os) as [m2 xs]. destruct (map_ops _ _ _ g1 os) as [g2 ys].
    destruct IH as (-> & Hw2 & Hp2 & Hs2 & Hg2).
    split; [auto|]. split; [auto|]. split; [auto|]. split; [eapply same_shape_trans; eauto|auto].
Qed.

Lemma behaves m0 keep R C g0 : zero_ok N -> wf m0 -> plain m0 -> keep = keep_of m0 -> denotes m0 R C g0 ->
  behaves_as_map m0 keep R C g0.
Proof.
  intros Hz Hw Hp -> Hd os. pose proof (do_ops_ok os Hz m0 g0 Hw Hp) as H.
  pose proof Hd as (ER & EC & _). rewrite ER, EC in H.
  specialize (H (fun i j Hb => denotes_peek _ _ _ _ i j Hd Hb)).
  destruct (do_ops m0 os) as [m outs]. destruct (map_ops _ R C g0 os) as [g outs'].
  destruct H as (-> & Hw' & _ & (_ & E1 & E2) & Hc). split; [reflexivity|].
  apply peek_denotes; auto; congruence.
Qed.

Lemma csr_map R C : zero_ok N -> 0 <= R -> 0 <= C ->
  exists s : csr N, NewCSRMatrix R C = Ok s /\ behaves_as_map (MCSR s) zeroed R C (fun _ _ => n0).
Proof.
  intros Hz HR HC. unfold NewCSRMatrix. rewrite new_csr_spec by auto.
  eexists; split; [reflexivity|].
  assert (Hr : rows_ok R C (repeat [] (Z.to_nat R) : list row)) by (apply rows_ok_empty; auto).
  apply behaves; auto; [exists R, C; eauto|exact I|].
  apply peek_denotes; auto. { exists R, C; eauto. }
  intros i j [Hi Hj]. rewrite peek_csr by auto. apply cell_empty.
Qed.

Lemma csc_map R C : zero_ok N -> 0 <= R -> 0 <= C ->
  exists s : csc N, NewCSCMatrix R C = Ok s /\ behaves_as_map (MCSC s) zeroed R C (fun _ _ => n0).
Proof.
  intros Hz HR HC. unfold NewCSCMatrix. rewrite new_csc_spec by auto.
  eexists; split; [reflexivity|].
  assert (Hr : rows_ok C R (repeat [] (Z.to_nat C) : list row)) by (apply rows_ok_empty; auto).
  apply behaves; auto; [exists R, C; eauto|exact I|].
  apply peek_denotes; auto. { exists R, C; eauto. }
  intros i j [Hi Hj]. rewrite peek_csc by auto. apply cell_empty.
Qed.

(** dense matrices need no bound on the number of cells here *)
Lemma dm_do_op R C (o : @op N) (f g : Z -> Z -> V) :
  (forall i j, 0 <= i < R -> 0 <= j < C -> f i j = g i j) -> 0 <= R -> 0 <= C ->
  let '(m', x) := do_op (MDM (mk_dm R C f)) o in
  let '(g', y) := map_op exactly R C g o in
  x = y /\ exists f', m' = MDM (mk_dm R C f') /\ (forall i j, 0 <= i < R -> 0 <= j < C -> f' i j = g' i j).
Proof.
  intros Hg HR HC. unfold map_op, inside.
  destruct o as [r c v|r c h|r c|r c|]; cbn [do_op mat_Set mat_Update mat_At mat_Element mat_Clear];
    try destruct ((0 <=? r) && (r <? R) && (0 <=? c) && (c <? C)) eqn:E.
  - rewrite dm_Set_spec by lia. cbn. split; [reflexivity|]. eexists; split; [reflexivity|].
    intros i j Hi Hj. unfold upd2, wrote. destruct ((i =? r) && (j =? c)); auto.
  - rewrite dm_Set_panic by lia. cbn. eauto.
  - rewrite dm_Update_spec by lia. cbn. split; [reflexivity|]. eexists; split; [reflexivity|].
    intros i j Hi Hj. unfold upd2, wrote, exactly. rewrite (Hg r c) by lia. destruct ((i =? r) && (j =? c)); auto.
  - rewrite dm_Update_panic by lia. cbn. eauto.
  - rewrite dm_At_spec by lia. cbn. rewrite Hg by lia. eauto.
  - rewrite dm_At_panic by lia. cbn. eauto.
  - unfold dm_Element. rewrite dm_At_spec by lia. cbn. rewrite Hg by lia. eauto.
  - unfold dm_Element. rewrite dm_At_panic by lia. cbn. eauto.
  - rewrite dm_Clear_spec by lia. cbn. split; [reflexivity|]. eexists; split; [reflexivity|]. reflexivity.
Qed.

Lemma dm_behaves R C (f : Z -> Z -> V) : 0 <= R -> 0 <= C -> behaves_as_map (MDM (mk_dm R C f)) exactly R C f.
Proof.
  intros HR HC os.
  assert (H : forall f g : Z -> Z -> V, (forall i j, 0 <= i < R -> 0 <= j < C -> f i j = g i j) ->
    let '(m, outs) := do_ops (MDM (mk_dm R C f)) os in
    let '(g', outs') := map_ops exactly R C g os in outs = outs' /\ denotes m R C g').
  { clear f. induction os as [|o os IH]; intros f g Hg; cbn [do_ops map_ops].
    - split; [reflexivity|]. do 2 (split; [reflexivity|]). intros i j Hi Hj. cbn [mat_At].
      rewrite dm_At_spec by auto. cbn. rewrite Hg by auto. reflexivity.
    - pose proof (dm_do_op R C o f g Hg HR HC) as H1. destruct (do_op _ o) as [m1 x].
      destruct (map_op exactly R C g o) as [g1 y]. destruct H1 as (-> & f1 & -> & Hg1).
      specialize (IH f1 g1 Hg1). destruct (do_ops _ os) as [m2 xs]. destruct (map_ops exactly R C g1 os) as [g2 ys].
      destruct IH as (-> & Hd). auto. }
  apply H. auto.
Qed.

Lemma dense_map R C : 0 <= R -> 0 <= C ->
  exists s : dense N, newMatrix R C = Ok s /\ behaves_as_map (MDM s) exactly R C (fun _ _ => n0).
Proof. intros HR HC. rewrite newMatrix_spec by auto. eexists; split; [reflexivity|]. apply dm_behaves; auto. Qed.

(** ** Arrays *)

Lemma zget_nth_ok {A} (d : A) (l : list A) i : 0 <= i < zlen l -> zget l i = Ok (nth (Z.to_nat i) l d).
Proof.
  intros H. apply zget_nth. split; [lia|]. apply nth_error_nth'. unfold zlen in H. lia.
Qed.

Lemma rect_zget (d : list (list V)) row0 rest i j : d = row0 :: rest -> rectangular d ->
  0 <= i < zlen d -> 0 <= j < zlen row0 ->
  exists row, zget d i = Ok row /\ zget row j = Ok (cell_of d i j).
Proof.
  intros Hd Hr Hi Hj.
  assert (Hz : zget d i = Ok (nth (Z.to_nat i) d [])) by (apply zget_nth_ok; lia).
  exists (nth (Z.to_nat i) d []). split; [exact Hz|].
  assert (zlen (nth (Z.to_nat i) d []) = zlen row0).
  { apply Hr; [|subst; simpl; auto]. apply zget_In in Hz. exact Hz. }
  apply zget_nth_ok; lia.
Qed.

Lemma rfold_range {S} (P : Z -> S -> Prop) (body : S -> Z -> res S) b : forall n a s,
  Z.of_nat n = b - a -> P a s ->
  (forall i s, a <= i < b -> P i s -> exists s', body s i = Ok s' /\ P (i + 1) s') ->
  exists s', rfold body s (zrange a b) = Ok s' /\ P b s'.
Proof.
  induction n as [|n IH]; intros a s Hn Hp Hb.
  - rewrite zrange_nil by lia. exists s. split; [reflexivity|]. replace b with a by lia. exact Hp.
  - rewrite zrange_cons by lia. cbn [rfold]. destruct (Hb a s ltac:(lia) Hp) as (s1 & -> & H1). cbn [rbind].
    apply IH; [lia|exact H1|]. intros i t Hi Ht. apply Hb; [lia|auto].
Qed.

Lemma rfold_to {S} (P : Z -> S -> Prop) (body : S -> Z -> res S) b s : 0 <= b -> P 0 s ->
  (forall i s, 0 <= i < b -> P i s -> exists s', body s i = Ok s' /\ P (i + 1) s') ->
  exists s', rfold body s (zrange 0 b) = Ok s' /\ P b s'.
Proof. intros Hb H0 H. apply (rfold_range P body b (Z.to_nat b) 0); auto. lia. Qed.

Lemma csr_from_array (d : list (list V)) row0 rest : zero_ok N -> d = row0 :: rest -> rectangular d ->
  exists s : csr N, NewCSRMatrixFromArray d = Ok s /\ wf (MCSR s) /\
    denotes (MCSR s) (zlen d) (zlen row0) (fun i j => zeroed (cell_of d i j)).
Proof.
  intros Hz Hd Hr. unfold NewCSRMatrixFromArray. rewrite Hd, zget_0, <- Hd. cbn [rbind].
  set (R := zlen d). set (C := zlen row0).
  assert (HR : 0 <= R) by apply zlen_nonneg. assert (HC : 0 <= C) by apply zlen_nonneg.
  rewrite new_csr_spec by auto. cbn [rbind].
  pose (P := fun (i k : Z) (s : csr N) => exists rows, s = mk_csr R C rows /\ rows_ok R C rows /\
     forall r c, 0 <= r < R -> 0 <= c < C ->
       cell rows r c = if (r <? i) || ((r =? i) && (c <? k)) then zeroed (cell_of d r c) else n0).
  destruct (rfold_to (fun i => P i 0)
     (fun s i => rfold (fun s k => row <- zget d i ;; v <- zget row k ;; csr_Set s i k v) s (zrange 0 C))
     R (mk_csr R C (repeat [] (Z.to_nat R))) HR) as (s & -> & rows & -> & Hok & Hc).
  - exists (repeat [] (Z.to_nat R)). split; [reflexivity|]. split; [apply rows_ok_empty; auto|].
    intros r c H1 H2. rewrite cell_empty. destruct (r <? 0) eqn:E1; [lia|]. destruct (c <? 0) eqn:E2; [lia|].
    rewrite andb_false_r. reflexivity.
  - intros i s Hi Hp.
    destruct (rfold_to (P i) (fun s k => row <- zget d i ;; v <- zget row k ;; csr_Set s i k v) C s HC Hp)
      as (s' & E & rows & -> & Hok & Hc).
    + intros k t Hk (rows & -> & Hok & Hc).
      destruct (rect_zget d row0 rest i k Hd Hr Hi Hk) as (row & -> & Hv). cbn [rbind]. rewrite Hv. cbn [rbind].
      unfold csr_Set, csr_Update.
      destruct (csr_UpdateRP_spec R C rows i k (fun _ => (tt, cell_of d i k)) Hok Hi Hk) as (p & ->). cbn.
      eexists; split; [reflexivity|]. exists (rput rows i k (cell_of d i k)).
      split; [reflexivity|]. split; [apply rows_ok_rput; auto|]. intros r c H1 H2.
      rewrite (cell_rput R C) by (auto; lia). destruct ((r =? i) && (c =? k)) eqn:E.
      * assert (r = i) by lia. assert (c = k) by lia. subst r c.
        replace ((i <? i) || ((i =? i) && (k <? k + 1))) with true by lia. reflexivity.
      * rewrite Hc by auto.
        replace ((r <? i) || ((r =? i) && (c <? k + 1))) with ((r <? i) || ((r =? i) && (c <? k))) by lia. reflexivity.
    + exists (mk_csr R C rows). split; [exact E|]. exists rows. split; [reflexivity|]. split; [auto|].
      intros r c H1 H2. rewrite Hc by auto.
      replace ((r <? i + 1) || ((r =? i + 1) && (c <? 0))) with ((r <? i) || ((r =? i) && (c <? C))) by lia. reflexivity.
  - eexists; split; [reflexivity|]. assert (Hw : wf (MCSR (mk_csr R C rows))) by (exists R, C, rows; auto).
    split; [exact Hw|]. apply peek_denotes; auto. intros i j [Hi Hj]. cbn in Hi, Hj. rewrite peek_csr by auto.
    rewrite Hc by auto. replace (i <? R) with true by lia. reflexivity.
Qed.

Lemma csc_from_array (d : list (list V)) row0 rest : zero_ok N -> d = row0 :: rest -> rectangular d ->
  exists s : csc N, NewCSCMatrixFromArray d = Ok s /\ wf (MCSC s) /\
    denotes (MCSC s) (zlen d) (zlen row0) (fun i j => zeroed (cell_of d i j)).
Proof.
  intros Hz Hd Hr. unfold NewCSCMatrixFromArray. rewrite Hd, zget_0, <- Hd. cbn [rbind].
  set (R := zlen d). set (C := zlen row0).
  assert (HR : 0 <= R) by apply zlen_nonneg. assert (HC : 0 <= C) by apply zlen_nonneg.
  rewrite new_csc_spec by auto. cbn [rbind].
  pose (P := fun (i k : Z) (s : csc N) => exists cols, s = mk_csc R C cols /\ rows_ok C R cols /\
     forall r c, 0 <= r < R -> 0 <= c < C ->
       cell cols c r = if (r <? i) || ((r =? i) && (c <? k)) then zeroed (cell_of d r c) else n0).
  destruct (rfold_to (fun i => P i 0)
     (fun s i => rfold (fun s k => row <- zget d i ;; v <- zget row k ;; csc_Set s i k v) s (zrange 0 C))
     R (mk_csc R C (repeat [] (Z.to_nat C))) HR) as (s & -> & cols & -> & Hok & Hc).
  - exists (repeat [] (Z.to_nat C)). split; [reflexivity|]. split; [apply rows_ok_empty; auto|].
    intros r c H1 H2. rewrite cell_empty. destruct (r <? 0) eqn:E1; [lia|]. destruct (c <? 0) eqn:E2; [lia|].
    rewrite andb_false_r. reflexivity.
  - intros i s Hi Hp.
    destruct (rfold_to (P i) (fun s k => row <- zget d i ;; v <- zget row k ;; csc_Set s i k v) C s HC Hp)
      as (s' & E & cols & -> & Hok & Hc).
    + intros k t Hk (cols & -> & Hok & Hc).
      destruct (rect_zget d row0 rest i k Hd Hr Hi Hk) as (row & -> & Hv). cbn [rbind]. rewrite Hv. cbn [rbind].
      rewrite csc_Set_spec by auto. eexists; split; [reflexivity|]. exists (rput cols k i (cell_of d i k)).
      split; [reflexivity|]. split; [apply rows_ok_rput; auto|]. intros r c H1 H2.
      rewrite (cell_rput C R) by (auto; lia). destruct ((c =? k) && (r =? i)) eqn:E.
      * assert (r = i) by lia. assert (c = k) by lia. subst r c.
        replace ((i <? i) || ((i =? i) && (k <? k + 1))) with true by lia. reflexivity.
      * rewrite Hc by auto.
        replace ((r <? i) || ((r =? i) && (c <? k + 1))) with ((r <? i) || ((r =? i) && (c <? k))) by lia. reflexivity.
    + exists (mk_csc R C cols). split; [exact E|]. exists cols. split; [reflexivity|]. split; [auto|].
      intros r c H1 H2. rewrite Hc by auto.
      replace ((r <? i + 1) || ((r =? i + 1) && (c <? 0))) with ((r <? i) || ((r =? i) && (c <? C))) by lia. reflexivity.
  - eexists; split; [reflexivity|]. assert (Hw : wf (MCSC (mk_csc R C cols))) by (exists R, C, cols; auto).
    split; [exact Hw|]. apply peek_denotes; auto. intros i j [Hi Hj]. cbn in Hi, Hj. rewrite peek_csc by auto.
    rewrite Hc by auto. replace (i <? R) with true by lia. reflexivity.
Qed.

Lemma dense_from_array (d : list (list V)) row0 rest : d = row0 :: rest -> rectangular d ->
  NewDenseMatrixFromArray d = Ok (mk_dm (zlen d) (zlen row0) (cell_of d)).
Proof.
  intros Hd Hr. destruct (NewDenseMatrixFromArray d) as [s| |] eqn:E.
  - destruct (DenseFrom_spec d s Hr E) as (row0' & rest' & Hd' & ->).
    assert (row0' = row0) by congruence. subst row0'. reflexivity.
  - exfalso. unfold NewDenseMatrixFromArray in E. rewrite Hd, zget_0 in E. cbn [rbind] in E.
    rewrite newMatrix_spec in E by apply zlen_nonneg. discriminate.
  - exfalso. unfold NewDenseMatrixFromArray in E. rewrite Hd, zget_0 in E. cbn [rbind] in E.
    rewrite newMatrix_spec in E by apply zlen_nonneg. discriminate.
Qed.

Lemma dense_from_array_map (d : list (list V)) row0 rest : d = row0 :: rest -> rectangular d ->
  exists s : dense N, NewDenseMatrixFromArray d = Ok s /\
    denotes (MDM s) (zlen d) (zlen row0) (cell_of d) /\
    behaves_as_map (MDM s) exactly (zlen d) (zlen row0) (cell_of d).
Proof.
  intros Hd Hr. rewrite (dense_from_array d row0 rest) by auto. eexists; split; [reflexivity|]. split.
  - do 2 (split; [reflexivity|]). intros i j Hi Hj. cbn [mat_At]. rewrite dm_At_spec by auto. reflexivity.
  - apply dm_behaves; apply zlen_nonneg.
Qed.

(** ** Counting the non-zero cells *)

Lemma filter_flat_map {A B} (P : B -> bool) (f : A -> list B) l :
  filter P (flat_map f l) = flat_map (fun x => filter P (f x)) l.
Proof. induction l as [|x l IH]; simpl; [reflexivity|]. rewrite filter_app, IH. reflexivity. Qed.

Lemma filter_map {A B} (P : B -> bool) (f : A -> B) l :
  filter P (map f l) = map f (filter (fun x => P (f x)) l).
Proof. induction l as [|x l IH]; simpl; [reflexivity|]. destruct (P (f x)); simpl; rewrite IH; reflexivity. Qed.

Lemma count_cells_filter P R C :
  count_cells P R C = zlen (filter (fun p => P (fst p) (snd p)) (all_cells R C)).
Proof.
  unfold count_cells, all_cells, count_row. rewrite filter_flat_map.
  induction (zrange 0 R) as [|i l IH]; simpl; [reflexivity|].
  rewrite IH, zlen_app, filter_map, zlen_map. reflexivity.
Qed.

Lemma all_cells_NoDup R C : NoDup (all_cells R C).
Proof. eapply SS_NoDup; [|apply all_cells_sorted]. unfold lex; intros a; lia. Qed.

Lemma NoDup_length_eq {A} (l1 l2 : list A) : NoDup l1 -> NoDup l2 -> (forall x, In x l1 <-> In x l2) -> zlen l1 = zlen l2.
Proof. intros H1 H2 H. unfold zlen. f_equal. apply Permutation_length, NoDup_Permutation; auto. Qed.

Lemma values_count m : zero_ok N -> good m -> is_sp m = true ->
  mat_Values m = count_cells (fun i j => negb (neqb (peek m i j) n0)) (mat_Rows m) (mat_Columns m).
Proof.
  intros Hz Hg Hs. rewrite <- zlen_entries by apply Hg. rewrite count_cells_filter.
  rewrite <- (zlen_map fst (entries m)). apply NoDup_length_eq.
  - apply entries_NoDup; auto.
  - apply NoDup_filter, all_cells_NoDup.
  - intros [i j]. rewrite filter_In, in_all_cells. cbn [fst snd]. rewrite in_map_iff. split.
    + intros ([[a b] v] & E & Hin). simpl in E. inversion E; subst a b.
      apply entries_spec in Hin as (Hb & Hp & Hn); auto. split; [exact Hb|]. rewrite Hp.
      specialize (Hn Hs). unfold isz in Hn. rewrite Hn. reflexivity.
    + intros [Hb Hp]. exists (i, j, peek m i j). split; [reflexivity|]. apply entries_spec; auto.
      split; [exact Hb|]. split; [reflexivity|]. intros _. unfold isz. destruct (neqb (peek m i j) n0); auto; discriminate.
Qed.

Lemma count_cells_ext P Q R C : (forall i j, 0 <= i < R -> 0 <= j < C -> P i j = Q i j) ->
  count_cells P R C = count_cells Q R C.
Proof.
  intros H. rewrite !count_cells_filter. f_equal. apply filter_ext_in. intros [i j] Hin.
  apply in_all_cells in Hin. apply H; apply Hin.
Qed.

Lemma values_denotes m R C f : zero_ok N -> good m -> is_sp m = true -> denotes m R C f ->
  mat_Values m = count_cells (fun i j => negb (neqb (f i j) n0)) R C.
Proof.
  intros Hz Hg Hs Hd. rewrite values_count by auto. pose proof Hd as (<- & <- & _).
  apply count_cells_ext. intros i j Hi Hj. rewrite (denotes_peek _ _ _ _ i j Hd) by (split; auto). reflexivity.
Qed.

(** ** Enumeration *)

Lemma loop_Next_collect fuel m it : loop_Next fuel m it = collect fuel m it.
Proof. reflexivity. Qed.

Lemma loop_Next_ok m fuel : wf m -> mat_Values m <= Z.of_nat fuel ->
  loop_Next fuel m (mat_iterator m) = Ok (entries m).
Proof.
  intros Hw Hf. rewrite loop_Next_collect. apply collect_entries; auto.
  rewrite <- (zlen_entries m Hw) in Hf. unfold zlen in Hf. lia.
Qed.

(** ** Strictly sorted lists are determined by their elements *)

Lemma SS_unique {A} (Rl : A -> A -> Prop) (l1 l2 : list A) : (forall a, ~ Rl a a) ->
  (forall a b, Rl a b -> ~ Rl b a) ->
  StronglySorted Rl l1 -> StronglySorted Rl l2 -> (forall x, In x l1 <-> In x l2) -> l1 = l2.
Proof.
  intros Hi Ha H1; revert l2. induction H1 as [|a l1 H1 IH F1]; intros l2 H2 H.
  - destruct l2 as [|b l2]; [reflexivity|]. exfalso. apply (H b). simpl; auto.
  - destruct H2 as [|b l2 H2 F2]; [exfalso; apply (H a); simpl; auto|].
    rewrite Forall_forall in F1, F2.
    assert (a = b).
    { destruct (proj1 (H a) (or_introl eq_refl)) as [E|Hin]; [auto|].
      destruct (proj2 (H b) (or_introl eq_refl)) as [E|Hin']; [auto|].
      exfalso. apply (Ha a b); auto. }
    subst b. f_equal. apply IH; auto. intros x. split; intros Hx.
    + destruct (proj1 (H x) (or_intror Hx)) as [E|Hin]; [|exact Hin]. subst x. exfalso. apply (Hi a). auto.
    + destruct (proj2 (H x) (or_intror Hx)) as [E|Hin]; [|exact Hin]. subst x. exfalso. apply (Hi a). auto.
Qed.

Definition keylt (a b : Z * V) : Prop := fst a < fst b.

Lemma ksorted_key (l : row) : ksorted (map fst l) -> StronglySorted keylt l.
Proof.
  induction l as [|a l IH]; simpl; intros H; [constructor|]. apply ksorted_cons in H as [H F].
  constructor; [auto|]. rewrite Forall_map in F. exact F.
Qed.

Lemma row_nonzeros L (ents : row) f : zero_ok N -> row_ok L ents ->
  (forall i, 0 <= i < L -> aval i ents = f i) ->
  map (fun e => (fst e, 0, snd e)) ents = nonzeros L f.
Proof.
  intros Hz (Hs & Hb & Hn) Hf. unfold nonzeros.
  assert (E : ents = map (fun i => (i, f i)) (filter (fun i => negb (neqb (f i) n0)) (zrange 0 L))).
  { apply (SS_unique keylt); unfold keylt; try (intros; lia).
    - apply ksorted_key; auto.
    - apply ksorted_key. rewrite map_map. cbn [fst]. rewrite map_id.
      assert (G : forall l, ksorted l -> ksorted (filter (fun i => negb (neqb (f i) n0)) l)).
      { induction l as [|a l IH]; simpl; intros H; [auto|]. apply ksorted_cons in H as [H F].
        destruct (negb (neqb (f a) n0)); [|auto]. apply ksorted_cons. split; [auto|].
        apply Forall_forall. intros x Hx. apply filter_In in Hx as [Hx _]. rewrite Forall_forall in F. auto. }
      apply G. apply zrange_sorted.
    - intros [i v]. rewrite in_map_iff. rewrite Forall_forall in Hb, Hn. split.
      + intros Hin. exists i. pose proof (Hb _ Hin) as Hi. pose proof (Hn _ Hin) as Hv. simpl in Hi, Hv.
        apply (alookup_in_iff ents i v Hs) in Hin.
        assert (Ef : f i = v) by (rewrite <- (Hf i Hi); unfold aval; rewrite Hin; reflexivity).
        rewrite Ef. split; [reflexivity|]. apply filter_In. split; [apply in_zrange; lia|]. rewrite Ef.
        unfold isz in Hv. rewrite Hv. reflexivity.
      + intros (k & Ek & Hin). inversion Ek; subst k v. apply filter_In in Hin as [Hi Hnz]. apply in_zrange in Hi.
        apply (alookup_in_iff ents i (f i) Hs). pose proof (Hf i Hi) as Ef. unfold aval in Ef.
        destruct (alookup i ents) as [v|] eqn:Ea; [congruence|].
        exfalso. rewrite <- Ef in Hnz. unfold zero_ok in Hz. rewrite Hz in Hnz. discriminate. }
  rewrite E at 1. rewrite map_map. reflexivity.
Qed.


(** ** Rows and columns *)

Lemma RowsAt_sparse m r : zero_ok N -> good m -> is_sp m = true -> 0 <= r < mat_Rows m ->
  exists ents, mat_RowsAt m r = Ok (MSV (mk_sv (mat_Columns m) ents)) /\ row_ok (mat_Columns m) ents /\
    forall c, 0 <= c < mat_Columns m -> aval c ents = peek m r c.
Proof.
  intros Hz [H Hk] Hs Hr. destruct m; simpl in Hs, Hk; try congruence.
  - destruct H as (R & C & rows & -> & H). cbn [mat_RowsAt mat_Rows mat_Columns csr_Rows csr_Columns csr_r csr_c mk_csr] in *.
    rewrite csr_RowsAt_spec by auto. eexists; split; [reflexivity|]. split; [eapply rnth_ok; eauto|].
    intros c Hc. rewrite peek_csr by auto. reflexivity.
  - destruct H as (R & C & cols & -> & H). cbn [mat_RowsAt mat_Rows mat_Columns csc_Rows csc_Columns csc_r csc_c mk_csc] in *.
    rewrite csc_RowsAt_spec by auto. eexists; split; [reflexivity|]. split; [eapply col_ents_ok; eauto|].
    intros c Hc. rewrite peek_csc by auto. unfold aval, cell, aval. rewrite col_ents_lookup.
    destruct H as (_ & _ & Hl & _). rewrite Hl, Z.sub_0_r. replace ((0 <=? c) && (c <? 0 + C)) with true by lia. reflexivity.
Qed.

Lemma ColumnsAt_sparse m c : zero_ok N -> good m -> is_sp m = true -> 0 <= c < mat_Columns m ->
  exists ents, mat_ColumnsAt m c = Ok (MSV (mk_sv (mat_Rows m) ents)) /\ row_ok (mat_Rows m) ents /\
    forall r, 0 <= r < mat_Rows m -> aval r ents = peek m r c.
Proof.
  intros Hz [H Hk] Hs Hc. destruct m; simpl in Hs, Hk; try congruence.
  - destruct H as (R & C & rows & -> & H). cbn [mat_ColumnsAt mat_Rows mat_Columns csr_Rows csr_Columns csr_r csr_c mk_csr] in *.
    rewrite csr_ColumnsAt_spec by auto. eexists; split; [reflexivity|]. split; [eapply col_ents_ok; eauto|].
    intros r Hr. rewrite peek_csr by auto. unfold aval, cell, aval. rewrite col_ents_lookup.
    destruct H as (_ & _ & Hl & _). rewrite Hl, Z.sub_0_r. replace ((0 <=? r) && (r <? 0 + R)) with true by lia. reflexivity.
  - destruct H as (R & C & cols & -> & H). cbn [mat_ColumnsAt mat_Rows mat_Columns csc_Rows csc_Columns csc_r csc_c mk_csc] in *.
    rewrite csc_ColumnsAt_spec by auto. eexists; split; [reflexivity|]. split; [eapply rnth_ok; eauto|].
    intros r Hr. rewrite peek_csc by auto. reflexivity.
Qed.

Lemma RowsAt_dense m r : good m -> is_sp m = false -> 0 <= r < mat_Rows m ->
  mat_RowsAt m r = Ok (MDV (mk_dv (mat_Columns m) (peek m r))).
Proof.
  intros [H Hk] Hs Hr. destruct m; simpl in Hs, Hk; try congruence.
  - destruct H as (R & C & f & -> & HR & HC & _). cbn in Hr. cbn [mat_RowsAt mat_Columns dm_Columns dm_c mk_dm].
    rewrite dm_RowsAt_spec by auto. cbn [rmap rbind]. do 2 f_equal. apply mk_dv_ext. intros i Hi.
    rewrite peek_dm by auto. reflexivity.
  - destruct H as (L & f & -> & HL). cbn in Hr. cbn [mat_RowsAt mat_Columns dv_Columns].
    rewrite dv_RowsAt_spec by auto. cbn [rmap rbind]. do 2 f_equal. apply mk_dv_ext. intros i Hi.
    rewrite peek_dv by auto. reflexivity.
Qed.

Lemma ColumnsAt_dense m c : good m -> is_sp m = false -> 0 <= c < mat_Columns m ->
  mat_ColumnsAt m c = Ok (MDV (mk_dv (mat_Rows m) (fun r => peek m r c))).
Proof.
  intros [H Hk] Hs Hc. destruct m; simpl in Hs, Hk; try congruence.
  - destruct H as (R & C & f & -> & HR & HC & _). cbn in Hc. cbn [mat_ColumnsAt mat_Rows dm_Rows dm_r mk_dm].
    rewrite dm_ColumnsAt_spec by auto. cbn [rmap rbind]. do 2 f_equal. apply mk_dv_ext. intros i Hi.
    rewrite peek_dm by auto. reflexivity.
  - destruct H as (L & f & -> & HL). cbn in Hc. cbn [mat_ColumnsAt mat_Rows dv_Rows dv_l mk_dv]. unfold dv_ColumnsAt, dv_Columns.
    replace ((c <? 0) || (c >=? 1)) with false by (unfold dv_Columns in Hc; rewrite Z.geb_leb; lia).
    rewrite dv_copy_spec by auto. cbn [rmap rbind]. do 2 f_equal. apply mk_dv_ext. intros i Hi.
    rewrite peek_dv by auto. reflexivity.
Qed.

Lemma zrange_01 : zrange 0 1 = [0]. Proof. reflexivity. Qed.

Lemma RowsAtToArray_ok m r : zero_ok N -> wf m -> 0 <= r < mat_Rows m ->
  mat_RowsAtToArray m r = Ok (map (peek m r) (zrange 0 (mat_Columns m))).
Proof.
  intros Hz H Hr. destruct m; simpl in H.
  - destruct H as (R & C & rows & -> & H). cbn in Hr. cbn [mat_RowsAtToArray mat_Columns csr_Columns csr_c mk_csr].
    rewrite csr_RowsAtToArray_spec by auto. f_equal. apply map_ext_in. intros c Hc. apply in_zrange in Hc.
    rewrite peek_csr by auto. reflexivity.
  - destruct H as (R & C & cols & -> & H). cbn in Hr. cbn [mat_RowsAtToArray mat_Columns csc_Columns csc_c mk_csc].
    rewrite csc_RowsAtToArray_spec by auto. f_equal. apply map_ext_in. intros c Hc. apply in_zrange in Hc.
    rewrite peek_csc by auto. reflexivity.
  - destruct H as (R & C & f & -> & HR & HC & _). cbn in Hr. cbn [mat_RowsAtToArray mat_Columns dm_Columns dm_c mk_dm].
    rewrite dm_RowsAtToArray_spec by auto. f_equal. apply tab_ext. intros c Hc. rewrite peek_dm by auto. reflexivity.
  - destruct H as (L & f & -> & HL). cbn in Hr. cbn [mat_RowsAtToArray mat_Columns]. unfold dv_Columns.
    rewrite dv_RowsAtToArray_spec by auto. rewrite zrange_01. cbn [map]. rewrite peek_dv by auto. reflexivity.
  - destruct H as (l & ents & -> & H). cbn in Hr. cbn [mat_RowsAtToArray mat_Columns]. unfold sv_Columns.
    rewrite zrange_01. cbn [map]. unfold sv_RowsAtToArray, sv_Rows. cbn [sv_l mk_sv].
    replace ((r <? 0) || (r >=? l)) with false by (rewrite Z.geb_leb; lia).
    replace (MkSV l (map snd ents) (map fst ents)) with (mk_sv l ents) by reflexivity.
    rewrite sv_AtVec_read by auto. unfold peek. cbn [mat_At]. rewrite sv_At_ok by auto. reflexivity.
Qed.

Lemma RowsAt_panic m r : wf m -> ~ (0 <= r < mat_Rows m) -> mat_RowsAt m r = Panic /\ mat_RowsAtToArray m r = Panic.
Proof.
  intros H Hr. destruct m as [s|s|s|s|s]; cbn [mat_Rows mat_RowsAt mat_RowsAtToArray] in *;
    unfold csr_RowsAt, csr_RowsAtToArray, csc_RowsAt, csc_RowsAtToArray, dm_RowsAt, dm_RowsAtToArray,
           dv_RowsAt, dv_RowsAtToArray, sv_RowsAt, sv_RowsAtToArray, csr_Rows, csc_Rows in *.
  - replace ((r <? 0) || (r >=? csr_r s)) with true by (rewrite Z.geb_leb; lia). auto.
  - replace ((r <? 0) || (r >=? csc_r s)) with true by (rewrite Z.geb_leb; lia). auto.
  - replace ((r <? 0) || (r >=? dm_Rows s)) with true by (rewrite Z.geb_leb; lia). auto.
  - replace ((r <? 0) || (r >=? dv_Rows s)) with true by (rewrite Z.geb_leb; lia). auto.
  - replace ((r <? 0) || (r >=? sv_Rows s)) with true by (rewrite Z.geb_leb; lia). auto.
Qed.

Lemma ColumnsAt_panic m c : wf m -> ~ (0 <= c < mat_Columns m) -> mat_ColumnsAt m c = Panic.
Proof.
  intros H Hc. destruct m as [s|s|s|s|s]; cbn [mat_Columns mat_ColumnsAt] in *;
    unfold csr_ColumnsAt, csc_ColumnsAt, dm_ColumnsAt, dv_ColumnsAt, sv_ColumnsAt, csr_Columns, csc_Columns in *.
  - replace ((c <? 0) || (c >=? csr_c s)) with true by (rewrite Z.geb_leb; lia). auto.
  - replace ((c <? 0) || (c >=? csc_c s)) with true by (rewrite Z.geb_leb; lia). auto.
  - replace ((c <? 0) || (c >=? dm_Columns s)) with true by (rewrite Z.geb_leb; lia). auto.
  - replace ((c <? 0) || (c >=? dv_Columns s)) with true by (rewrite Z.geb_leb; lia). auto.
  - replace ((c <? 0) || (c >=? sv_Columns s)) with true by (rewrite Z.geb_leb; lia). auto.
Qed.

Lemma sv_RowsAt_ok l (ents : row) r : 0 <= r < l ->
  exists v, sv_RowsAt (mk_sv l ents) r = Ok v.
Proof.
  intros Hr. unfold sv_RowsAt, sv_Rows. cbn [sv_l mk_sv].
  replace ((r <? 0) || (r >=? l)) with false by (rewrite Z.geb_leb; lia).
  replace (MkSV l (map snd ents) (map fst ents)) with (mk_sv l ents) by reflexivity.
  rewrite NewSparseVector_spec. cbn [rbind]. rewrite sv_AtVec_read by auto. cbn [rbind].
  destruct (sv_SetVec_put 1 ([] : row) 0 (sv_read ents r) ltac:(lia)) as (e & -> & _). eauto.
Qed.

Lemma RowsAt_total m r : zero_ok N -> wf m -> 0 <= r < mat_Rows m -> exists v, mat_RowsAt m r = Ok v.
Proof.
  intros Hz H Hr. destruct (kind m) eqn:K.
  1-2: destruct (RowsAt_sparse m r Hz) as (e & -> & _); [split; [auto|congruence]|destruct m; simpl in *; congruence|auto|eauto].
  1-2: rewrite RowsAt_dense; [eauto|split; [auto|congruence]|destruct m; simpl in *; congruence|auto].
  destruct m; simpl in K; try discriminate. destruct H as (l & ents & -> & H). cbn in Hr. cbn [mat_RowsAt].
  destruct (sv_RowsAt_ok l ents r Hr) as (v & ->). eexists; reflexivity.
Qed.

Lemma ColumnsAt_total m c : zero_ok N -> wf m -> 0 <= c < mat_Columns m -> exists v, mat_ColumnsAt m c = Ok v.
Proof.
  intros Hz H Hr. destruct (kind m) eqn:K.
  1-2: destruct (ColumnsAt_sparse m c Hz) as (e & -> & _); [split; [auto|congruence]|destruct m; simpl in *; congruence|auto|eauto].
  1-2: rewrite ColumnsAt_dense; [eauto|split; [auto|congruence]|destruct m; simpl in *; congruence|auto].
  destruct m; simpl in K; try discriminate. destruct H as (l & ents & -> & H). cbn in Hr. cbn [mat_ColumnsAt].
  unfold sv_ColumnsAt, sv_Columns in *. replace ((c <? 0) || (c >=? 1)) with false by (rewrite Z.geb_leb; lia).
  rewrite sv_copy_mk. eexists; reflexivity.
Qed.

End Store.
