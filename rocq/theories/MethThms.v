(** The arithmetic methods, which write to a fresh object. *)
From Coq Require Import String Sorting.Sorted.
From Verif Require Import GoBase Num SparseVec Csr Csc DenseVec DenseMat Mat World Ops.
From Verif Require Import BaseProofs AssocProofs CsrProofs SvProofs CsrIterProofs CscProofs DenseProofs MatProofs.
From Verif Require Import Spec HeapProofs Api ReachProofs StoreProofs VecProofs LoopProofs StoreThms OpsProofs OpsThms MulThms EwThms EqThms.

Section Meth.
Context {N : num}.
Notation V := (T N).
Notation mat := (mat N).
Notation ent := (Z * Z * V)%type.
Notation row := (list (Z * V)).
Notation world := (world N).
Notation M := (M N).
Implicit Types w : world.
Implicit Types m S Mo O : mat.

(** ** Every kind of object: remapping the values *)
Lemma remapped_every m m' g : zero_ok N -> wf m -> wf m' -> same_shape m m' ->
  (is_sp m = true -> forall i j v, In (i, j, v) (entries m) -> isz (g i j v) = false) ->
  entries m' = map (remap g) (entries m) ->
  forall i j, inb m i j -> peek m' i j = if is_sp m && isz (peek m i j) then n0 else g i j (peek m i j).
Proof.
  intros Hz Hw Hw' Hs Hnz E i j Hb.
  destruct (kind m) eqn:K; try (apply remapped_all; auto; split; [auto|congruence]).
  destruct m as [| | | |v]; simpl in K; try discriminate. destruct Hs as (Hk & HR & HC).
  destruct m' as [| | | |v']; simpl in Hk; try discriminate.
  destruct Hw as (l & ents & -> & H). destruct Hw' as (l' & ents' & -> & H').
  cbn in HR. subst l'. rewrite (entries_sv l ents), (entries_sv l ents') in * by auto.
  assert (Ee : ents' = map (fun e => (fst e, g (fst e) 0 (snd e))) ents).
  { rewrite map_map in E. clear - E. revert ents E. induction ents' as [|[a x] e IH]; intros [|[b y] e2] E; cbn [map] in *; try discriminate; auto.
    unfold remap in E at 1. cbn [fst snd] in E. injection E as -> -> E. cbn [fst snd]. f_equal. apply IH. exact E. }
  unfold inb in Hb. cbn [mat_Rows mat_Columns] in Hb. unfold sv_Rows, sv_Columns in Hb. cbn [sv_l mk_sv] in Hb.
  assert (j = 0) by lia. subst j. cbn [is_sp andb].
  assert (P : forall e : row, ents_ok l e -> peek (MSV (mk_sv l e)) i 0 = sv_read e i).
  { intros e He. unfold peek. cbn [mat_At]. rewrite sv_At_ok by (auto; lia). reflexivity. }
  rewrite !P by auto. rewrite Ee. apply (sv_read_map ents (fun i v => g i 0 v) i l); auto; try lia.
  intros v Hv Hin. apply (Hnz eq_refl i 0 v). apply in_map_iff. exists (i, v). auto.
Qed.

Lemma pure_map_run E w t O (g : V -> V) R C h :
  zero_ok N -> e_ctx E = None -> wfw w -> obj w t O -> denotes O R C h ->
  (sparse_obj O = true -> keeps_nz g) -> mat_Values O <= Z.of_nat (e_fuel E) ->
  forall stop f, (forall r c v w1, f r c v w1 = (w1, Ok (g v))) ->
  exists O', map_over E stop t f w = (upd w t O', Ok tt) /\ same_shape O O' /\ wf O' /\
    denotes O' R C (fun i j => if sparse_obj O && neqb (h i j) n0 then n0 else g (h i j)).
Proof.
  intros Hz Hc Hw Ho Do Hk Hfu stop f Hf. pose proof (Hw _ _ Ho) as Wo. pose proof Do as (OR & OC & _).
  assert (Hnz : forall r c v, In (r, c, v) (entries O) -> is_sp O = true -> isz (g v) = false).
  { intros r c v Hin Hsp. apply Hk; [rewrite sparse_is_sp; auto|]. apply (entries_inb O r c v Hz Wo) in Hin. apply Hin; auto. }
  destruct (map_over_run E stop t f (fun _ _ v => g v) w O Ho Wo (or_intror Hc) Hfu) as
    (w' & m' & d & r & Hm & Hh & Hw' & Hsh & He & He' & _ & Hn).
  - intros. apply Hf.
  - exact Hnz.
  - destruct (Hn Hc) as [-> ->]. rewrite app_nil_r in *. subst d. exists m'. split; [exact Hm|]. split; [exact Hsh|]. split; [exact Hw'|].
    apply peek_denotes; auto; [destruct Hsh as (_ & ? & _); lia|destruct Hsh as (_ & _ & ?); lia|].
    intros i j Hb. apply (same_shape_inb _ _ _ _ Hsh) in Hb.
    rewrite (remapped_every O m' (fun _ _ v => g v) Hz Wo Hw' Hsh (fun Hsp a b v Hin => Hnz a b v Hin Hsp) He' i j Hb).
    rewrite (denotes_peek _ _ _ _ _ _ Do Hb), (sparse_is_sp O). reflexivity.
Qed.

Lemma upd_ext w m m' : upd (ext w m) (length (w_heap w)) m' = ext w m'.
Proof.
  unfold upd, ext. cbn [w_heap w_polls]. f_equal.
  induction (w_heap w) as [|x l IH]; [reflexivity|]. cbn [app length list_set]. f_equal. exact IH.
Qed.

Lemma Scalar_run E w (s : ptr) S a R C f :
  zero_ok N -> e_ctx E = None -> wfw w -> obj w s S -> denotes S R C f ->
  (sparse_obj S = true -> keeps_nz (nmul a)) -> mat_Values S <= Z.of_nat (e_fuel E) ->
  exists O', Scalar E s a w = (ext w O', Ok (length (w_heap w))) /\ same_shape S O' /\ wf O' /\
    denotes O' R C (fun i j => if sparse_obj S && neqb (f i j) n0 then n0 else nmul a (f i j)).
Proof.
  intros Hz Hc Hw Hs Ds Hk Hfu. pose proof (Hw _ _ Hs) as Ws.
  destruct (pure_map_run E (ext w S) (length (w_heap w)) S (nmul a) R C f Hz Hc (wfw_ext _ _ Hw Ws) (obj_ext_new w S) Ds Hk Hfu
     false (fun r c v => mret (nmul a v))) as (O' & Hm & Hsh & Hw' & Hd); [reflexivity|].
  exists O'. split; [|auto]. unfold Scalar. rewrite (mbind_ok _ _ _ _ _ (p_Copy_ok _ _ _ Hs Ws)), (mbind_ok _ _ _ _ _ Hm).
  rewrite upd_ext. reflexivity.
Qed.

Lemma m_Negative_run E w (s : ptr) S R C f :
  zero_ok N -> neg_nz N -> wfw w -> obj w s S -> denotes S R C f -> mat_Values S <= Z.of_nat (e_fuel E) ->
  exists O', m_Negative E s w = (ext w O', Ok (length (w_heap w))) /\ same_shape S O' /\ wf O' /\
    denotes O' R C (fun i j => if sparse_obj S && neqb (f i j) n0 then n0 else nneg (f i j)).
Proof.
  intros Hz Hng Hw Hs Ds Hfu. pose proof (Hw _ _ Hs) as Ws.
  destruct (pure_map_run (bg E) (ext w S) (length (w_heap w)) S nneg R C f Hz eq_refl (wfw_ext _ _ Hw Ws) (obj_ext_new w S) Ds
     (fun _ => Hng) Hfu true (fun r c value =>
      let! e := mask_Element (MEmpty (mat_Rows S) (mat_Columns S)) r c in mret (if negb e then nneg value else value)))
    as (O' & Hm & Hsh & Hw' & Hd); [reflexivity|].
  exists O'. split; [|auto]. unfold m_Negative, Negative. rewrite (mbind_ok _ _ _ _ _ (p_Copy_ok _ _ _ Hs Ws)).
  unfold mbind at 1. unfold mbind at 1.
  rewrite (check_mask_ok MNil _ _ _ (obj_ext_new w S) I). cbn [mask_norm]. rewrite Hm, upd_ext. reflexivity.
Qed.

(** ** Scalar under cancellation: it spins for ever *)
Lemma map_loop_stuck E k (p : ptr) it f : e_ctx E = Some k -> mat_HasNext it = true ->
  forall fuel w, (k <= w_polls w)%nat -> exists w', map_loop E false fuel p it f w = (w', Diverge).
Proof.
  intros Hc Hn. induction fuel as [|fuel IH]; intros w Hk; cbn [map_loop]; rewrite Hn; [eexists; reflexivity|].
  unfold mbind at 1. unfold poll at 1. rewrite Hc. replace (Nat.leb k (w_polls w)) with true by (symmetry; apply Nat.leb_le; exact Hk).
  apply IH. cbn [w_polls]. lia.
Qed.

Lemma map_loop_late E k p (g : V -> V) w0 m0 : e_ctx E = Some k -> obj w0 p m0 ->
  (forall r c v, In (r, c, v) (entries m0) -> is_sp m0 = true -> isz (g v) = false) ->
  forall rest it d m w fuel, it_rel m it (map (remap (fun _ _ => g)) d) rest -> same_shape m0 m ->
  entries m0 = d ++ rest -> w_heap w = list_set (w_heap w0) p m ->
  (rest <> [] -> (k < w_polls w + length rest)%nat ->
     exists w', map_loop E false fuel p it (fun r c v => mret (g v)) w = (w', Diverge)) /\
  (rest = [] \/ (w_polls w + length rest <= k)%nat -> (length rest <= fuel)%nat ->
     exists w' m', map_loop E false fuel p it (fun r c v => mret (g v)) w = (w', Ok tt) /\
       w_heap w' = list_set (w_heap w0) p m' /\ wf m' /\ same_shape m0 m' /\
       entries m' = map (remap (fun _ _ => g)) (entries m0)).
Proof.
  intros Hc Ho Hnz. induction rest as [|[[r c] v] rest IH]; intros it d m w fuel Hit Hsh He Hh.
  - split; [congruence|]. intros _ _. exists w, m.
    split; [destruct fuel; cbn [map_loop]; rewrite (it_rel_HasNext _ _ _ _ Hit); reflexivity|].
    split; [exact Hh|]. split; [eapply it_rel_wf; eauto|]. split; [exact Hsh|].
    rewrite (it_rel_entries _ _ _ _ Hit), He, !app_nil_r. reflexivity.
  - assert (Hin0 : In (r, c, v) (entries m0)) by (rewrite He; apply in_or_app; right; left; reflexivity).
    destruct (it_rel_step _ _ _ _ _ _ _ Hit) as (it' & Hn & Hc' & _ & Hput).
    destruct (Hput (g v)) as (m' & Hm' & Hsh' & Hit').
    { intros Hs. apply (Hnz _ _ _ Hin0). rewrite <- (same_shape_sp _ _ Hsh). exact Hs. }
    set (w1 := MkWorld (w_heap w) (Datatypes.S (w_polls w))).
    assert (Hob : obj w1 p m).
    { unfold obj, w1. cbn [w_heap]. rewrite Hh. apply nth_error_list_set_eq. eapply obj_lt; eauto. }
    assert (Hstep : map_step p it (fun r c v => mret (g v)) w1 = (upd w1 p m', Ok it')).
    { unfold map_step. rewrite (mbind_ok _ _ _ _ _ (load_ok _ _ _ Hob)), Hn, mbind_lift, Hc', mbind_lift, mbind_ret.
      rewrite (mbind_ok _ _ _ _ _ (load_ok _ _ _ Hob)), Hm', mbind_lift. reflexivity. }
    assert (IH' : forall fuel, _ /\ _) by
      (intros fuel0; apply (IH it' (d ++ [(r, c, v)]) m' (upd w1 p m') fuel0);
       [rewrite map_app; cbn [map remap fst snd]; exact Hit'
       |eapply same_shape_trans; eauto
       |rewrite <- app_assoc; exact He
       |unfold upd, w1; cbn [w_heap]; rewrite Hh, list_set_twice; reflexivity]).
    cbn [upd w1 w_polls] in IH'.
    pose proof (it_rel_HasNext _ _ _ _ Hit) as HN. split.
    + intros _ Hk. destruct (Nat.leb k (w_polls w)) eqn:El.
      * apply (map_loop_stuck E k); auto. apply Nat.leb_le; exact El.
      * destruct fuel as [|fuel]; cbn [map_loop]; rewrite HN; [eexists; reflexivity|].
        unfold mbind at 1. unfold poll at 1. rewrite Hc, El. fold w1. rewrite (mbind_ok _ _ _ _ _ Hstep).
        apply Nat.leb_gt in El. cbn [length] in Hk. apply IH'; [|lia]. destruct rest; [cbn [length] in Hk; lia|discriminate].
    + intros [Hx|Hk] Hfu; [discriminate|]. destruct fuel as [|fuel]; [cbn [length] in Hfu; lia|]. cbn [length] in Hk, Hfu.
      cbn [map_loop]. rewrite HN. unfold mbind at 1. unfold poll at 1. rewrite Hc.
      replace (Nat.leb k (w_polls w)) with false by (symmetry; apply Nat.leb_gt; lia). fold w1. rewrite (mbind_ok _ _ _ _ _ Hstep).
      apply IH'; [right; lia|lia].
Qed.

(** [Scalar] returns exactly when the context is not done before the last element *)
Lemma Scalar_cancel E k w (s : ptr) S a : zero_ok N -> wfw w -> obj w s S -> e_ctx E = Some k ->
  (sparse_obj S = true -> keeps_nz (nmul a)) ->
  (0 < mat_Values S -> Z.of_nat k < Z.of_nat (w_polls w) + mat_Values S -> exists w', Scalar E s a w = (w', Diverge)) /\
  (mat_Values S = 0 \/ Z.of_nat (w_polls w) + mat_Values S <= Z.of_nat k -> mat_Values S <= Z.of_nat (e_fuel E) ->
     exists w' p, Scalar E s a w = (w', Ok p)).
Proof.
  intros Hz Hw Hs Hc Hk. pose proof (Hw _ _ Hs) as Ws.
  pose proof (zlen_entries S Ws) as HV. unfold zlen in HV.
  destruct (map_loop_late E k (length (w_heap w)) (nmul a) (ext w S) S Hc (obj_ext_new w S)) with
    (rest := entries S) (it := mat_iterator S) (d := @nil ent) (m := S) (w := ext w S) (fuel := e_fuel E) as [H1 H2].
  - intros r c v Hin Hsp. apply Hk; [rewrite sparse_is_sp; auto|]. apply (entries_inb S r c v Hz Ws) in Hin. apply Hin; auto.
  - apply entries_rel; auto.
  - apply same_shape_refl.
  - reflexivity.
  - symmetry. apply list_set_same. apply (obj_ext_new w S).
  - cbn [ext w_polls] in *. unfold Scalar. rewrite (mbind_ok _ _ _ _ _ (p_Copy_ok _ _ _ Hs Ws)). unfold map_over.
    split.
    + intros Hp Hlt. destruct H1 as (w' & H1); [destruct (entries S); [cbn [length] in HV; lia|discriminate]|lia|].
      exists w'. unfold mbind at 1. rewrite (mbind_ok _ _ _ _ _ (load_ok _ _ _ (obj_ext_new w S))). rewrite H1. reflexivity.
    + intros Hle Hfu. destruct H2 as (w' & m' & H2 & _); [|lia|].
      * destruct Hle as [H0|Hle]; [left; destruct (entries S); [reflexivity|cbn [length] in HV; lia]|right; lia].
      * exists w', (length (w_heap w)). unfold mbind at 1. rewrite (mbind_ok _ _ _ _ _ (load_ok _ _ _ (obj_ext_new w S))). rewrite H2. reflexivity.
Qed.

(** ** Fresh targets *)
Lemma extends_fresh w x w' : extends_but (length (w_heap w)) (ext w x) w' -> extends w w'.
Proof.
  intros H p m Hp. apply H; [|apply obj_ext_old; auto]. pose proof (obj_lt _ _ _ Hp). lia.
Qed.
Lemma obj_not_fresh w p m : obj w p m -> p <> length (w_heap w).
Proof. intros H. pose proof (obj_lt _ _ _ H). lia. Qed.

Lemma new_dm_zero R C : 0 <= R -> 0 <= C -> R * C < 2 ^ 63 ->
  exists d : dense N, newMatrix R C = Ok d /\ wf (MDM d) /\ denotes (MDM d) R C (fun _ _ => n0).
Proof.
  intros HR HC HB. destruct (dense_map (N:=N) R C HR HC) as (d & E & Hb). exists d. split; [exact E|].
  split; [exact (newMatrix_wf R C d HR HC HB E)|]. apply (Hb []).
Qed.
Lemma new_csr_zero R C : zero_ok N -> 0 <= R -> 0 <= C ->
  exists d : csr N, NewCSRMatrix R C = Ok d /\ wf (MCSR d) /\ denotes (MCSR d) R C (fun _ _ => n0).
Proof.
  intros Hz HR HC. destruct (csr_map (N:=N) R C Hz HR HC) as (d & E & Hb). exists d. split; [exact E|].
  split; [exact (new_csr_wf R C d HR HC E)|]. apply (Hb []).
Qed.
Lemma new_csc_zero R C : zero_ok N -> 0 <= R -> 0 <= C ->
  exists d : csc N, NewCSCMatrix R C = Ok d /\ wf (MCSC d) /\ denotes (MCSC d) R C (fun _ _ => n0).
Proof.
  intros Hz HR HC. destruct (csc_map (N:=N) R C Hz HR HC) as (d & E & Hb). exists d. split; [exact E|].
  split; [exact (new_csc_wf R C d HR HC E)|]. apply (Hb []).
Qed.

(** ** Add and Subtract *)
Lemma m_Add_run E w (s m : ptr) S Mo R C f g (sp : bool) :
  zero_ok N -> wfw w -> obj w s S -> obj w m Mo -> not_sparse_vector S -> not_sparse_vector Mo ->
  denotes S R C f -> denotes Mo R C g -> IsSparseMatrix (e_reg E) S = sp ->
  mat_Values (if sp then S else Mo) <= Z.of_nat (e_fuel E) ->
  exists w' t O', m_Add E s m w = (w', Ok t) /\ (forall x, ~ obj w t x) /\ extends w w' /\ obj w' t O' /\ same_shape S O' /\
    denotes O' R C (fun i j =>
      if sp then if stored S (f i j) then kept S (nadd (g i j) (f i j)) else f i j
      else if stored Mo (g i j) then kept S (nadd (f i j) (g i j)) else f i j).
Proof.
  intros Hz Hw Hs Hm Ps Pm Ds Dm Hsp Hfu. pose proof (Hw _ _ Hs) as Ws.
  set (t := length (w_heap w)). set (w0 := ext w S).
  assert (Hw0 : wfw w0) by (apply wfw_ext; auto).
  destruct (Add_run (bg E) w0 s m MNil t S Mo S R C f g f sp Hz Hw0 (obj_ext_old _ _ _ _ Hs) (obj_ext_old _ _ _ _ Hm)
    (obj_ext_new w S) Ps Pm Ps Ds Dm Ds I Hsp) as (w' & O' & d & rest & Hr & Hx & Ho & Hsh & Wo & Hen & Hrest & Hd).
  { left. destruct sp; eapply obj_not_fresh; eauto. }
  { exact Hfu. }
  rewrite (until_none _ _ _ _ _ _ Hrest eq_refl), app_nil_r in Hen.
  exists w', t, O'. split.
  { unfold m_Add. rewrite (mbind_ok _ _ _ _ _ (p_Copy_ok _ _ _ Hs Ws)), (mbind_ok _ _ _ _ _ Hr). reflexivity. }
  split; [intros x Hx'; pose proof (obj_lt _ _ _ Hx'); unfold t in *; lia|].
  split; [eapply extends_fresh; eauto|]. split; [exact Ho|]. split; [exact Hsh|].
  eapply denotes_ext; [|exact Hd]. intros i j Hi Hj. cbn beta.
  destruct sp.
  - rewrite (visited_stored S R C f d i j Hz (plain_is_good w s S Hw Hs Ps) Ds Hen Hi Hj). cbn [covers negb]. rewrite Bool.andb_true_r. reflexivity.
  - rewrite (visited_stored Mo R C g d i j Hz (plain_is_good w m Mo Hw Hm Pm) Dm Hen Hi Hj). cbn [covers negb]. rewrite Bool.andb_true_r. reflexivity.
Qed.

Lemma m_Subtract_run E w (s m : ptr) S Mo R C f g :
  zero_ok N -> wfw w -> obj w s S -> obj w m Mo -> not_sparse_vector S -> not_sparse_vector Mo ->
  denotes S R C f -> denotes Mo R C g -> mat_Values S <= Z.of_nat (e_fuel E) ->
  exists w' t O', m_Subtract E s m w = (w', Ok t) /\ (forall x, ~ obj w t x) /\ extends w w' /\ obj w' t O' /\ same_shape Mo O' /\
    denotes O' R C (fun i j => if stored S (f i j) then kept Mo (nsub (f i j) (g i j)) else g i j).
Proof.
  intros Hz Hw Hs Hm Ps Pm Ds Dm Hfu. pose proof (Hw _ _ Hm) as Wm. pose proof Dm as (MR & MC & _).
  set (t := length (w_heap w)). set (w0 := ext w Mo).
  assert (Hw0 : wfw w0) by (apply wfw_ext; auto).
  destruct (Subtract_run (bg E) w0 s m MNil t S Mo Mo R C f g Hz Hw0 (obj_ext_old _ _ _ _ Hs) (obj_ext_old _ _ _ _ Hm)
    (obj_ext_new w Mo) Ps Pm Ds MR MC Dm I) as (w' & O' & d & rest & Hr & Hx & Ho & Hsh & Wo & Hen & Hrest & Hd).
  { left. eapply obj_not_fresh; eauto. }
  { exact Hfu. }
  rewrite (until_none _ _ _ _ _ _ Hrest eq_refl), app_nil_r in Hen.
  exists w', t, O'. split.
  { unfold m_Subtract. rewrite (mbind_ok _ _ _ _ _ (load_ok _ _ _ Hs)).
    destruct S; try contradiction; rewrite (mbind_ok _ _ _ _ _ (p_Copy_ok _ _ _ Hm Wm)), (mbind_ok _ _ _ _ _ Hr); reflexivity. }
  split; [intros x Hx'; pose proof (obj_lt _ _ _ Hx'); unfold t in *; lia|].
  split; [eapply extends_fresh; eauto|]. split; [exact Ho|]. split; [exact Hsh|].
  eapply denotes_ext; [|exact Hd]. intros i j Hi Hj. cbn beta.
  rewrite (visited_stored S R C f d i j Hz (plain_is_good w s S Hw Hs Ps) Ds Hen Hi Hj). cbn [covers negb]. rewrite Bool.andb_true_r. reflexivity.
Qed.

Lemma sizes_panic E w (s m : ptr) k t S Mo : obj w s S -> obj w m Mo ->
  ~ (mat_Rows S = mat_Rows Mo /\ mat_Columns S = mat_Columns Mo) ->
  Add E s m k t w = (w, Panic) /\ Subtract E s m k t w = (w, Panic).
Proof.
  intros Hs Hm H. unfold Add, Subtract, mbind. rewrite (check_sizes_panic s m w S Mo Hs Hm H). auto.
Qed.

(** ** Transpose *)
(** sparse storage shows zero itself for every zero cell *)
Lemma sparse_cell_zero m R C f i j : zero_ok N -> good m -> denotes m R C f -> 0 <= i < R -> 0 <= j < C ->
  stored m (f i j) = false -> f i j = n0.
Proof.
  intros Hz Hg Hd Hi Hj Hst. pose proof Hd as (ER & EC & _). assert (Hb : inb m i j) by (unfold inb; lia).
  rewrite stored_is_sp in Hst. apply Bool.negb_false_iff, Bool.andb_true_iff in Hst as [Hsp Hiz].
  rewrite <- (denotes_peek _ _ _ _ _ _ Hd Hb) in *. apply peek_zero; auto.
Qed.

Lemma transpose_fresh E w (s : ptr) S T0 R C f : e_ctx E = None ->
  zero_ok N -> wfw w -> obj w s S -> not_sparse_vector S -> denotes S R C f ->
  wf T0 -> not_sparse_vector T0 -> denotes T0 C R (fun _ _ => n0) -> mat_Values S <= Z.of_nat (e_fuel E) ->
  exists w' O', Transpose E s MNil (length (w_heap w)) (ext w T0) = (w', Ok tt) /\ extends w w' /\
    obj w' (length (w_heap w)) O' /\ same_shape T0 O' /\ wf O' /\ denotes O' C R (fun i j => kept T0 (f j i)).
Proof.
  intros Hc Hz Hw Hs Ps Ds WT PT DT Hfu. set (t := length (w_heap w)). set (w0 := ext w T0).
  destruct (Transpose_run E w0 s MNil t S T0 R C f (fun _ _ => n0) Hz (wfw_ext _ _ Hw WT) (obj_ext_old _ _ _ _ Hs) (obj_ext_new w T0)
    Ps PT Ds DT I) as (w' & O' & d & rest & Hr & Hx & Ho & Hsh & Wo & Hen & Hrest & Hd); auto.
  { eapply obj_not_fresh; eauto. }
  { unfold mask_not; discriminate. }
  { right. discriminate. }
  rewrite (until_none _ _ _ _ _ _ Hrest Hc), app_nil_r in Hen.
  exists w', O'. split; [exact Hr|]. split; [eapply extends_fresh; eauto|]. split; [exact Ho|]. split; [exact Hsh|]. split; [exact Wo|].
  eapply denotes_ext; [|exact Hd]. intros i j Hi Hj. cbn beta.
  assert (Gs : good S) by (exact (plain_is_good w s S Hw Hs Ps)).
  rewrite (visited_stored S R C f d j i) by auto. cbn [covers negb]. rewrite Bool.andb_true_r.
  destruct (stored S (f j i)) eqn:Est; [reflexivity|].
  rewrite (sparse_cell_zero S R C f j i Hz Gs Ds Hj Hi Est). destruct T0; cbn; try reflexivity; unfold zeroed; rewrite Hz; reflexivity.
Qed.

Lemma sparse_cell_kept m R C f i j : zero_ok N -> good m -> denotes m R C f -> 0 <= i < R -> 0 <= j < C -> is_sparse_matrix m ->
  zeroed (f i j) = f i j.
Proof.
  intros Hz Hg Hd Hi Hj Hs. unfold zeroed. destruct (neqb (f i j) n0) eqn:E; [|reflexivity]. symmetry.
  apply (sparse_cell_zero m R C f i j); auto. destruct m; try contradiction; cbn [stored]; rewrite E; reflexivity.
Qed.

Lemma m_Transpose_run E w (s : ptr) S R C f :
  zero_ok N -> wfw w -> obj w s S -> not_sparse_vector S -> denotes S R C f -> mat_Values S <= Z.of_nat (e_fuel E) ->
  (is_vector S -> R < 2 ^ 63) ->
  exists w' t O', m_Transpose E s w = (w', Ok t) /\ (forall x, ~ obj w t x) /\ extends w w' /\ obj w' t O' /\ wf O' /\
    (is_sparse_matrix S -> kind O' = kind S) /\ (is_dense S -> kind O' = KDM) /\
    denotes O' C R (fun i j => f j i).
Proof.
  intros Hz Hw Hs Ps Ds Hfu Hvec. pose proof (Hw _ _ Hs) as Ws. pose proof Ds as (SR & SC & _).
  pose proof (wf_dims S Ws) as [D1 D2]. rewrite SR in D1. rewrite SC in D2.
  assert (Gs : good S) by (exact (plain_is_good w s S Hw Hs Ps)).
  assert (Key : forall T0, wf T0 -> not_sparse_vector T0 -> denotes T0 C R (fun _ _ => n0) ->
    exists w' O', (let! _ := Transpose (bg E) s MNil (length (w_heap w)) in mret (length (w_heap w))) (ext w T0) = (w', Ok (length (w_heap w))) /\
      extends w w' /\ obj w' (length (w_heap w)) O' /\ same_shape T0 O' /\ wf O' /\ denotes O' C R (fun i j => kept T0 (f j i))).
  { intros T0 WT PT DT. destruct (transpose_fresh (bg E) w s S T0 R C f eq_refl Hz Hw Hs Ps Ds WT PT DT Hfu) as (w' & O' & Hr & H).
    exists w', O'. split; [|exact H]. rewrite (mbind_ok _ _ _ _ _ Hr). reflexivity. }
  assert (Hnew : forall x, ~ obj w (length (w_heap w)) x) by (intros x Hx; pose proof (obj_lt _ _ _ Hx); lia).
  assert (HB : is_dense S -> C * R < 2 ^ 63).
  { intros Hd. destruct S; try contradiction.
    - destruct Ws as (R' & C' & f' & -> & ? & ? & ?). cbn in SR, SC. subst. lia.
    - cbn [mat_Columns] in SC. unfold dv_Columns in SC. subst C. pose proof (Hvec I). lia. }
  unfold m_Transpose. rewrite (mbind_ok _ _ _ _ _ (load_ok _ _ _ Hs)).
  destruct S as [x|x|x|x|x]; try contradiction; rewrite SR, SC.
  - destruct (new_csr_zero C R Hz D2 D1) as (d & E1 & W1 & Z1). unfold NewCSRMatrix in E1. rewrite E1. cbn [rmap rbind]. rewrite mbind_lift.
    rewrite (mbind_ok _ _ _ _ _ (alloc_ok _ _)). destruct (Key (MCSR d) W1 I Z1) as (w' & O' & Hr & Hx & Ho & Hsh & Wo & Hd).
    exists w', (length (w_heap w)), O'. split; [exact Hr|]. do 4 (split; [auto|]). split; [intros _; apply Hsh|]. split; [intros []|].
    eapply denotes_ext; [|exact Hd]. intros i j Hi Hj. cbn [kept]. eapply sparse_cell_kept; eauto; exact I.
  - destruct (new_csc_zero C R Hz D2 D1) as (d & E1 & W1 & Z1). unfold NewCSCMatrix in E1. rewrite E1. cbn [rmap rbind]. rewrite mbind_lift.
    rewrite (mbind_ok _ _ _ _ _ (alloc_ok _ _)). destruct (Key (MCSC d) W1 I Z1) as (w' & O' & Hr & Hx & Ho & Hsh & Wo & Hd).
    exists w', (length (w_heap w)), O'. split; [exact Hr|]. do 4 (split; [auto|]). split; [intros _; apply Hsh|]. split; [intros []|].
    eapply denotes_ext; [|exact Hd]. intros i j Hi Hj. cbn [kept]. eapply sparse_cell_kept; eauto; exact I.
  - destruct (new_dm_zero C R D2 D1 (HB I)) as (d & E1 & W1 & Z1). rewrite E1. cbn [rmap rbind]. rewrite mbind_lift.
    rewrite (mbind_ok _ _ _ _ _ (alloc_ok _ _)). destruct (Key (MDM d) W1 I Z1) as (w' & O' & Hr & Hx & Ho & Hsh & Wo & Hd).
    exists w', (length (w_heap w)), O'. split; [exact Hr|]. do 4 (split; [auto|]). split; [intros []|]. split; [intros _; apply Hsh|]. exact Hd.
  - destruct (new_dm_zero C R D2 D1 (HB I)) as (d & E1 & W1 & Z1). rewrite E1. cbn [rmap rbind]. rewrite mbind_lift.
    rewrite (mbind_ok _ _ _ _ _ (alloc_ok _ _)). destruct (Key (MDM d) W1 I Z1) as (w' & O' & Hr & Hx & Ho & Hsh & Wo & Hd).
    exists w', (length (w_heap w)), O'. split; [exact Hr|]. do 4 (split; [auto|]). split; [intros []|]. split; [intros _; apply Hsh|]. exact Hd.
Qed.

Lemma TransposeTo_run E w (s : ptr) S R C f : e_ctx E = None ->
  zero_ok N -> wfw w -> obj w s S -> not_sparse_vector S -> denotes S R C f -> mat_Values S <= Z.of_nat (e_fuel E) ->
  (exists w' t O', TransposeToCSR E s w = (w', Ok t) /\ (forall x, ~ obj w t x) /\ extends w w' /\ obj w' t O' /\ kind O' = KCSR /\
    denotes O' C R (fun i j => zeroed (f j i))) /\
  (exists w' t O', TransposeToCSC E s w = (w', Ok t) /\ (forall x, ~ obj w t x) /\ extends w w' /\ obj w' t O' /\ kind O' = KCSC /\
    denotes O' C R (fun i j => zeroed (f j i))).
Proof.
  intros Hc Hz Hw Hs Ps Ds Hfu. pose proof (Hw _ _ Hs) as Ws. pose proof Ds as (SR & SC & _).
  pose proof (wf_dims S Ws) as [D1 D2]. rewrite SR in D1. rewrite SC in D2.
  assert (Hnew : forall x, ~ obj w (length (w_heap w)) x) by (intros x Hx; pose proof (obj_lt _ _ _ Hx); lia).
  unfold TransposeToCSR, TransposeToCSC.
  rewrite (mbind_ok _ _ _ _ _ (p_Columns_ok _ _ _ Hs)), (mbind_ok _ _ _ _ _ (p_Columns_ok _ _ _ Hs)),
    (mbind_ok _ _ _ _ _ (p_Rows_ok _ _ _ Hs)), (mbind_ok _ _ _ _ _ (p_Rows_ok _ _ _ Hs)), SR, SC.
  split.
  - destruct (new_csr_zero C R Hz D2 D1) as (d & E1 & W1 & Z1). rewrite E1, mbind_lift.
    rewrite (mbind_ok _ _ _ _ _ (alloc_ok _ _)).
    destruct (transpose_fresh E w s S (MCSR d) R C f Hc Hz Hw Hs Ps Ds W1 I Z1 Hfu) as (w' & O' & Hr & Hx & Ho & Hsh & Wo & Hd).
    exists w', (length (w_heap w)), O'. rewrite (mbind_ok _ _ _ _ _ Hr). split; [reflexivity|]. do 3 (split; [auto|]). split; [apply Hsh|]. exact Hd.
  - destruct (new_csc_zero C R Hz D2 D1) as (d & E1 & W1 & Z1). rewrite E1, mbind_lift.
    rewrite (mbind_ok _ _ _ _ _ (alloc_ok _ _)).
    destruct (transpose_fresh E w s S (MCSC d) R C f Hc Hz Hw Hs Ps Ds W1 I Z1 Hfu) as (w' & O' & Hr & Hx & Ho & Hsh & Wo & Hd).
    exists w', (length (w_heap w)), O'. rewrite (mbind_ok _ _ _ _ _ Hr). split; [reflexivity|]. do 3 (split; [auto|]). split; [apply Hsh|]. exact Hd.
Qed.

(** ** Multiply *)
Lemma visited_positions R C i j : 0 <= i < R -> 0 <= j < C -> visited (positions R C) i j = true.
Proof.
  intros Hi Hj. apply visited_in. unfold positions. apply in_flat_map. exists i. split; [apply in_zrange; lia|].
  apply in_map_iff. exists j. split; [reflexivity|apply in_zrange; lia].
Qed.

Lemma m_Multiply_run E w (s m : ptr) S Mo R K C f g :
  zero_ok N -> wfw w -> obj w s S -> obj w m Mo -> ~ is_vector S -> denotes S R K f -> denotes Mo K C g ->
  (is_dense S -> R * C < 2 ^ 63) ->
  exists w' t O', m_Multiply E s m w = (w', Ok t) /\ (forall x, ~ obj w t x) /\ extends w w' /\ obj w' t O' /\ kind O' = kind S /\
    denotes O' R C (fun i j => kept S (product S Mo K f g i j)).
Proof.
  intros Hz Hw Hs Hm Ps Ds Dm HB. pose proof (Hw _ _ Hs) as Ws. pose proof (Hw _ _ Hm) as Wm.
  pose proof Ds as (SR & SC & _). pose proof Dm as (MR & MC & _).
  pose proof (wf_dims S Ws) as [D1 D2]. pose proof (wf_dims Mo Wm) as [D3 D4].
  rewrite SR in D1. rewrite MC in D4.
  assert (Hnew : forall x, ~ obj w (length (w_heap w)) x) by (intros x Hx; pose proof (obj_lt _ _ _ Hx); lia).
  assert (Key : forall T0, wf T0 -> not_sparse_vector T0 -> denotes T0 R C (fun _ _ => n0) ->
    exists w' O', (let! _ := multiply (bg E) s m MNil (length (w_heap w)) in mret (length (w_heap w))) (ext w T0) = (w', Ok (length (w_heap w))) /\
      extends w w' /\ obj w' (length (w_heap w)) O' /\ same_shape T0 O' /\ denotes O' R C (fun i j => kept T0 (product S Mo K f g i j))).
  { intros T0 WT PT DT.
    destruct (multiply_run (bg E) (ext w T0) s m MNil (length (w_heap w)) S Mo T0 R K C f g (fun _ _ => n0) Hz (wfw_ext _ _ Hw WT)
      (obj_ext_old _ _ _ _ Hs) (obj_ext_old _ _ _ _ Hm) (obj_ext_new w T0) PT Ds Dm DT I (obj_not_fresh _ _ _ Hs) (obj_not_fresh _ _ _ Hm))
      as (w' & O' & L & rest & Hr & Hx & Ho & Hsh & Wo & HL & Hrest & Hd).
    rewrite (until_none _ _ _ _ _ _ Hrest eq_refl), app_nil_r in HL. subst L. exists w', O'. rewrite (mbind_ok _ _ _ _ _ Hr). split; [reflexivity|].
    split; [eapply extends_fresh; eauto|]. split; [exact Ho|]. split; [exact Hsh|].
    eapply denotes_ext; [|exact Hd]. intros i j Hi Hj. cbn beta. rewrite visited_positions by auto. reflexivity. }
  unfold m_Multiply. rewrite (mbind_ok _ _ _ _ _ (load_ok _ _ _ Hs)), (mbind_ok _ _ _ _ _ (p_Rows_ok _ _ _ Hm)), (mbind_ok _ _ _ _ _ (p_Columns_ok _ _ _ Hm)), MC.
  destruct S as [x|x|x|x|x]; try (exfalso; apply Ps; exact I); rewrite SR.
  - destruct (new_csr_zero R C Hz D1 D4) as (d & E1 & W1 & Z1). unfold NewCSRMatrix in E1. rewrite E1. cbn [rmap rbind]. rewrite mbind_lift.
    rewrite (mbind_ok _ _ _ _ _ (alloc_ok _ _)). destruct (Key (MCSR d) W1 I Z1) as (w' & O' & Hr & Hx & Ho & Hsh & Hd).
    exists w', (length (w_heap w)), O'. split; [exact Hr|]. do 3 (split; [auto|]). split; [apply Hsh|exact Hd].
  - destruct (new_csc_zero R C Hz D1 D4) as (d & E1 & W1 & Z1). unfold NewCSCMatrix in E1. rewrite E1. cbn [rmap rbind]. rewrite mbind_lift.
    rewrite (mbind_ok _ _ _ _ _ (alloc_ok _ _)). destruct (Key (MCSC d) W1 I Z1) as (w' & O' & Hr & Hx & Ho & Hsh & Hd).
    exists w', (length (w_heap w)), O'. split; [exact Hr|]. do 3 (split; [auto|]). split; [apply Hsh|exact Hd].
  - destruct (new_dm_zero R C D1 D4 (HB I)) as (d & E1 & W1 & Z1). rewrite E1. cbn [rmap rbind]. rewrite mbind_lift.
    rewrite (mbind_ok _ _ _ _ _ (alloc_ok _ _)). destruct (Key (MDM d) W1 I Z1) as (w' & O' & Hr & Hx & Ho & Hsh & Hd).
    exists w', (length (w_heap w)), O'. split; [exact Hr|]. do 3 (split; [auto|]). split; [apply Hsh|exact Hd].
Qed.

End Meth.
