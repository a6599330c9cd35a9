(** The storage properties, for every object of every reachable heap. *)
From Coq Require Import String Sorting.Sorted QArith Qcanon.
From Verif Require Import GoBase Num SparseVec Csr Csc DenseVec DenseMat Mat World Ops.
From Verif Require Import BaseProofs AssocProofs CsrProofs SvProofs CsrIterProofs CscProofs DenseProofs MatProofs.
From Verif Require Import Spec HeapProofs Api ReachProofs NumProofs StoreProofs VecProofs FrameProofs LoopProofs.
#[global] Open Scope Z_scope.

Lemma go_types_sane N : In N go_types -> sane N.
Proof. intros H. split; [apply go_types_zero; auto|]. intros x. apply go_types_neg; auto. Qed.
Lemma num_Z_sane : sane num_Z.
Proof. split; [apply num_Z_zero|]. intros x. apply num_Z_neg. Qed.
Lemma num_Qc_neg (x : T num_Qc) : neqb x n0 = false -> neqb (nneg x) n0 = false.
Proof.
  simpl. intros H. destruct (Qc_eq_bool (- x)%Qc 0%Qc) eqn:E; [|reflexivity].
  apply Qc_eq_bool_correct in E. assert (x = 0%Qc).
  { rewrite <- (Qcopp_involutive x), E. reflexivity. }
  subst x. discriminate H.
Qed.
Lemma num_Qc_sane : sane num_Qc.
Proof. split; [apply num_Qc_zero|]. intros x. apply num_Qc_neg. Qed.

Section Thms.
Context {N : num}.
Notation V := (T N).
Notation mat := (mat N).
Notation world := (world N).
Notation row := (list (Z * V)).
Implicit Types w : world.
Implicit Types m : mat.

Lemma reach_good w p m : sane N -> reachable w -> obj w p m -> wf m.
Proof. intros [Hz Hn] Hr Ho. eapply reach_wf; eauto. Qed.

Lemma extends_but_upd w w' p m : w_heap w' = list_set (w_heap w) p m -> extends_but p w w'.
Proof.
  intros E q m' Hn Ho. unfold obj in *. rewrite E, nth_error_list_set_neq by auto. exact Ho.
Qed.

(** C01, C02, C05: any reachable matrix behaves as a map *)
Lemma csr_reach_map w p (s : csr N) R C f : sane N -> reachable w -> obj w p (MCSR s) -> denotes (MCSR s) R C f ->
  behaves_as_map (MCSR s) zeroed R C f.
Proof. intros Hs Hr Ho Hd. apply behaves; [apply Hs|eapply reach_good; eauto|exact I|reflexivity|exact Hd]. Qed.
Lemma csc_reach_map w p (s : csc N) R C f : sane N -> reachable w -> obj w p (MCSC s) -> denotes (MCSC s) R C f ->
  behaves_as_map (MCSC s) zeroed R C f.
Proof. intros Hs Hr Ho Hd. apply behaves; [apply Hs|eapply reach_good; eauto|exact I|reflexivity|exact Hd]. Qed.
Lemma dm_reach_map w p (s : dense N) R C f : sane N -> reachable w -> obj w p (MDM s) -> denotes (MDM s) R C f ->
  behaves_as_map (MDM s) exactly R C f.
Proof. intros Hs Hr Ho Hd. apply behaves; [apply Hs|eapply reach_good; eauto|exact I|reflexivity|exact Hd]. Qed.

Lemma reach_denotes w p m : sane N -> reachable w -> obj w p m ->
  exists f, denotes m (mat_Rows m) (mat_Columns m) f.
Proof. intros Hs Hr Ho. exists (peek m). apply wf_denotes; [apply Hs|eapply reach_good; eauto]. Qed.

(** C06: reachable dense vectors *)
Lemma dv_reach_map w p (s : dvec N) L g : sane N -> reachable w -> obj w p (MDV s) -> vdenotes (MDV s) L g ->
  vbehaves_as_map (MDV s) exactly false L g (fun _ => True).
Proof.
  intros Hs Hr Ho Hd. destruct (reach_good _ _ _ Hs Hr Ho) as (L' & f & -> & HL).
  destruct Hd as (E1 & _ & Hat). cbn in E1. subst L'.
  intros os _.
  pose proof (dv_behaves L f HL os I) as H0.
  assert (H : forall f g : Z -> V, (forall i, 0 <= i < L -> f i = g i) ->
    let '(m, outs) := do_vops (MDV (mk_dv L f)) os in
    let '(g', outs') := map_vops exactly false L g os in outs = outs' /\ vdenotes m L g').
  { clear - HL. induction os as [|o os IH]; intros f g Hg; cbn [do_vops map_vops].
    - split; [reflexivity|]. do 2 (split; [reflexivity|]). intros i Hi. cbn [mat_AtVec].
      rewrite dv_AtVec_spec, Hg by auto. reflexivity.
    - pose proof (dv_do_vop L o f g HL Hg) as H1. destruct (do_vop _ o) as [m1 x].
      destruct (map_vop exactly false L g o) as [g1 y]. destruct H1 as (-> & f1 & -> & Hg1).
      specialize (IH f1 g1 Hg1). destruct (do_vops _ os) as [m2 xs]. destruct (map_vops exactly false L g1 os) as [g2 ys].
      destruct IH as (-> & Hd). auto. }
  apply H. intros i Hi. specialize (Hat i Hi). cbn [mat_AtVec] in Hat. rewrite dv_AtVec_spec in Hat by auto.
  injection Hat as ->. reflexivity.
Qed.

(** C03 *)

Lemma sparse_good m : wf m -> is_sparse_matrix m -> good m /\ is_sp m = true.
Proof. intros Hw H. destruct m; try contradiction; (split; [split; [auto|discriminate]|reflexivity]). Qed.

Lemma stored_nonzero m v : wf m -> is_sparse_matrix m -> In v (stored_values m) -> neqb v n0 = false.
Proof.
  intros Hw Hs Hin. destruct m; try contradiction; cbn [stored_values] in Hin.
  - destruct Hw as (R & C & rows & -> & H). eapply rows_nz; eauto.
  - destruct Hw as (R & C & rows & -> & H). eapply rows_nz; eauto.
Qed.

Lemma sparse_exact w p m R C f : sane N -> reachable w -> obj w p m -> is_sparse_matrix m -> denotes m R C f ->
  mat_Values m = count_cells (fun i j => negb (neqb (f i j) n0)) R C /\
  zlen (stored_values m) = mat_Values m /\
  (forall v, In v (stored_values m) -> neqb v n0 = false).
Proof.
  intros Hs Hr Ho Hsp Hd. pose proof (reach_good _ _ _ Hs Hr Ho) as Hw.
  destruct (sparse_good m Hw Hsp) as [Hg Hi]. split; [apply values_denotes; auto; apply Hs|]. split.
  - destruct m; try contradiction; reflexivity.
  - intros v. apply stored_nonzero; auto.
Qed.

(** C04 *)

Lemma AtVec_total m i : wf m -> is_vector m -> 0 <= i < mat_Rows m -> exists v, mat_AtVec m i = Ok v.
Proof.
  intros Hw Hv Hi. destruct m; try contradiction; cbn [mat_AtVec].
  - destruct Hw as (L & f & -> & HL). rewrite dv_AtVec_spec by exact Hi. eauto.
  - destruct Hw as (l & ents & -> & He). rewrite sv_AtVec_read by exact Hi. eauto.
Qed.
Lemma AtVec_panic m i : wf m -> ~ (0 <= i < mat_Rows m) -> mat_AtVec m i = Panic.
Proof.
  intros Hw Hi. destruct m; cbn [mat_AtVec]; try reflexivity.
  - destruct Hw as (L & f & -> & HL). apply dv_AtVec_panic. exact Hi.
  - destruct Hw as (l & ents & -> & He). apply sv_AtVec_panic. exact Hi.
Qed.
Lemma SetVec_panic m i v : wf m -> ~ (0 <= i < mat_Rows m) -> mat_SetVec m i v = Panic.
Proof.
  intros Hw Hi. destruct m; cbn [mat_SetVec]; try reflexivity.
  - destruct Hw as (L & f & -> & HL). rewrite dv_SetVec_panic by exact Hi. reflexivity.
  - destruct Hw as (l & ents & -> & He). unfold sv_SetVec, sv_Length. cbn [sv_l mk_sv].
    unfold mat_Rows, sv_Rows in Hi. cbn [sv_l mk_sv] in Hi.
    replace ((i <? 0) || (i >=? l)) with true by (rewrite Z.geb_leb; lia). reflexivity.
Qed.
Lemma SetVec_total m i v : wf m -> is_vector m -> 0 <= i < mat_Rows m -> exists m', mat_SetVec m i v = Ok m'.
Proof.
  intros Hw Hv Hi. destruct m; try contradiction; cbn [mat_SetVec].
  - destruct Hw as (L & f & -> & HL). rewrite dv_SetVec_spec by exact Hi. cbn. eauto.
  - destruct Hw as (l & ents & -> & He). destruct (sv_SetVec_wf l ents i v He Hi) as (ents' & -> & _). cbn. eauto.
Qed.

Lemma load_lift {A B} w p m (g : mat -> res A) (k : A -> M N B) x : obj w p m -> g m = x ->
  mbind (load p) (fun m => mbind (mlift (g m)) k) w =
  match x with Ok a => k a w | Panic => (w, Panic) | Diverge => (w, Diverge) end.
Proof.
  intros Ho E. rewrite (mbind_ok _ _ _ _ _ (load_ok _ _ _ Ho)). rewrite E. destruct x; reflexivity.
Qed.

Lemma in_range w p m r c : sane N -> reachable w -> obj w p m -> 0 <= r < mat_Rows m -> 0 <= c < mat_Columns m ->
  (exists v, p_At p r c w = (w, Ok v)) /\
  (exists b, mask_Element (MObj p) r c w = (w, Ok b)) /\
  (forall v, exists w', p_Set p r c v w = (w', Ok tt)) /\
  (forall f, exists w', p_Update p r c f w = (w', Ok tt)) /\
  (exists w' q, p_RowsAt p r w = (w', Ok q)) /\
  (exists w' q, p_ColumnsAt p c w = (w', Ok q)) /\
  (exists l, p_RowsAtToArray p r w = (w, Ok l)) /\
  (is_vector m -> (exists v, mat_AtVec m r = Ok v) /\ (forall v, exists w', p_SetVec p r v w = (w', Ok tt))).
Proof.
  intros Hs Hr Ho Hr' Hc'. pose proof (reach_good _ _ _ Hs Hr Ho) as Hw. assert (Hz := proj1 Hs).
  assert (Hb : inb m r c) by (split; auto).
  split; [eexists; apply p_At_ok; eauto|].
  split.
  { eexists. cbn [mask_Element]. rewrite (mbind_ok _ _ _ _ _ (load_ok _ _ _ Ho)), Element_ok, mbind_lift by auto.
    rewrite (mbind_ok _ _ _ _ _ (store_ok _ _ _)), upd_same by auto. reflexivity. }
  split.
  { intros v. destruct (Set_wf m r c v Hz Hw Hb) as (m' & E & _). eexists. unfold p_Set.
    rewrite (load_lift _ _ _ _ _ _ Ho E). reflexivity. }
  split.
  { intros f. destruct (Update_wf m r c f Hz Hw Hb) as (m' & E & _). eexists. unfold p_Update.
    rewrite (load_lift _ _ _ (fun m => mat_Update m r c f) _ _ Ho E). reflexivity. }
  split.
  { destruct (RowsAt_total m r Hz Hw Hr') as (v & E). eexists _, _. unfold p_RowsAt.
    rewrite (load_lift _ _ _ (fun m => mat_RowsAt m r) _ _ Ho E). reflexivity. }
  split.
  { destruct (ColumnsAt_total m c Hz Hw Hc') as (v & E). eexists _, _. unfold p_ColumnsAt.
    rewrite (load_lift _ _ _ (fun m => mat_ColumnsAt m c) _ _ Ho E). reflexivity. }
  split.
  { eexists. unfold p_RowsAtToArray. rewrite (mbind_ok _ _ _ _ _ (load_ok _ _ _ Ho)), RowsAtToArray_ok by auto. reflexivity. }
  intros Hv. split; [apply AtVec_total; auto|]. intros v. destruct (SetVec_total m r v Hw Hv Hr') as (m' & E).
  eexists. unfold p_SetVec. rewrite (load_lift _ _ _ (fun m => mat_SetVec m r v) _ _ Ho E). reflexivity.
Qed.

Lemma out_of_range w p m r c : sane N -> reachable w -> obj w p m ->
  (~ (0 <= r < mat_Rows m /\ 0 <= c < mat_Columns m) ->
     (forall v, p_Set p r c v w = (w, Panic)) /\
     (forall f, p_Update p r c f w = (w, Panic)) /\
     ((forall s, m <> MDV s) -> p_At p r c w = (w, Panic)) /\
     (~ is_vector m -> mask_Element (MObj p) r c w = (w, Panic))) /\
  (~ 0 <= r < mat_Rows m ->
     p_At p r c w = (w, Panic) /\
     p_RowsAt p r w = (w, Panic) /\ p_RowsAtToArray p r w = (w, Panic) /\
     mat_AtVec m r = Panic /\ (forall v, p_SetVec p r v w = (w, Panic))) /\
  (~ 0 <= c < mat_Columns m -> p_ColumnsAt p c w = (w, Panic)).
Proof.
  intros Hs Hr Ho. pose proof (reach_good _ _ _ Hs Hr Ho) as Hw. assert (Hz := proj1 Hs).
  split; [intros Hb; change (~ inb m r c) in Hb|split; intros Hb].
  - split.
    { intros v. unfold p_Set. rewrite (load_lift _ _ _ (fun m => mat_Set m r c v) _ _ Ho (Set_panic m r c v Hw Hb)). reflexivity. }
    split.
    { intros f. unfold p_Update. rewrite (load_lift _ _ _ (fun m => mat_Update m r c f) _ _ Ho (Update_panic m r c f Hw Hb)). reflexivity. }
    split.
    { intros Hn. unfold p_At. rewrite (load_lift _ _ _ (fun m => mat_At m r c) (fun '(v, m') => store p m' ;!; mret v) _ Ho (At_panic m r c Hw ltac:(destruct m; try discriminate; exfalso; eapply Hn; reflexivity) Hb)). reflexivity. }
    intros Hv. cbn [mask_Element].
    rewrite (load_lift _ _ _ (fun m => mat_Element m r c) (fun '(v, m') => store p m' ;!; mret v) _ Ho (Element_panic m r c Hw ltac:(destruct m; simpl in *; tauto) Hb)). reflexivity.
  - split.
    { unfold p_At. assert (E : mat_At m r c = Panic).
      { destruct m as [s|s|s|s|s]; try (apply At_panic; [auto|discriminate|unfold inb; tauto]).
        rewrite dv_At_any by auto. replace ((0 <=? r) && (r <? mat_Rows (MDV s))) with false by lia. reflexivity. }
      rewrite (load_lift _ _ _ (fun m => mat_At m r c) (fun '(v, m') => store p m' ;!; mret v) _ Ho E). reflexivity. }
    destruct (RowsAt_panic m r Hw Hb) as [E1 E2].
    split.
    { unfold p_RowsAt. rewrite (load_lift _ _ _ (fun m => mat_RowsAt m r) _ _ Ho E1). reflexivity. }
    split.
    { unfold p_RowsAtToArray. rewrite (mbind_ok _ _ _ _ _ (load_ok _ _ _ Ho)), E2. reflexivity. }
    split; [apply AtVec_panic; auto|].
    intros v. unfold p_SetVec. rewrite (load_lift _ _ _ (fun m => mat_SetVec m r v) _ _ Ho (SetVec_panic m r v Hw Hb)). reflexivity.
  - unfold p_ColumnsAt. rewrite (load_lift _ _ _ (fun m => mat_ColumnsAt m c) _ _ Ho (ColumnsAt_panic m c Hw Hb)). reflexivity.
Qed.

(** C07 *)
Lemma sv_map_false L i (x : V) : zero_ok N -> neqb x n0 = false -> 2 <= i < L ->
  exists s : svec N, NewSparseVector L = Ok s /\
    snd (do_vops (MSV s) [VSetVec i x; VAtVec i]) = [Done; Value n0] /\
    snd (map_vops zeroed true L (fun _ => n0) [VSetVec i x; VAtVec i]) = [Done; Value x] /\
    x <> n0.
Proof.
  intros Hz Hx Hi. rewrite NewSparseVector_spec. eexists. split; [reflexivity|].
  assert (Hne : x <> n0) by (intros ->; unfold zero_ok in Hz; congruence).
  cbn [do_vops do_vop mat_SetVec]. rewrite sv_SetVec_append by (try apply row_ok_nil; try (constructor; fail); lia).
  unfold isz. rewrite Hx. cbn [rmap rbind done_or app mat_AtVec].
  rewrite sv_AtVec_read by lia. rewrite (sv_read_sorted L); [|apply (row_ok_snoc L [] i x (row_ok_nil L)); [lia|constructor|exact Hx]|lia].
  change (zlen _) with 1. replace (i <=? 1) with false by lia.
  cbn [done_or snd]. split; [reflexivity|]. split; [|exact Hne].
  cbn [map_vops map_vop]. replace ((0 <=? i) && (i <? L)) with true by lia. cbn [snd vwrote]. unfold vwrote, zeroed.
  rewrite Z.eqb_refl, Hx. reflexivity.
Qed.

(** C09, C10, C11: enumeration *)
Lemma enum_general w p m R C f fuel : sane N -> reachable w -> obj w p m -> kind m <> KSV ->
  denotes m R C f -> mat_Values m <= Z.of_nat fuel ->
  exists l, loop_Next fuel m (mat_iterator m) = Ok l /\ zlen l = mat_Values m /\
    (forall i j v, In (i, j, v) l <->
       (0 <= i < R /\ 0 <= j < C) /\ f i j = v /\ (is_sp m = true -> neqb v n0 = false)) /\
    NoDup (map fst l).
Proof.
  intros Hs Hr Ho Hk Hd Hf. pose proof (reach_good _ _ _ Hs Hr Ho) as Hw. assert (Hz := proj1 Hs).
  assert (Hg : good m) by (split; auto). exists (entries m).
  split; [apply loop_Next_ok; auto|]. split; [apply zlen_entries; auto|]. split; [|apply entries_NoDup; auto].
  intros i j v. rewrite entries_spec by auto. pose proof Hd as (ER & EC & _). unfold inb. rewrite ER, EC.
  split; intros (H1 & H2 & H3); (split; [exact H1|split; [|exact H3]]).
  - rewrite <- H2. symmetry. eapply denotes_peek; eauto. unfold inb. rewrite ER, EC. exact H1.
  - rewrite <- H2. eapply denotes_peek; eauto. unfold inb. rewrite ER, EC. exact H1.
Qed.

Lemma enum_csr w p (s : csr N) R C f fuel : sane N -> reachable w -> obj w p (MCSR s) -> denotes (MCSR s) R C f ->
  mat_Values (MCSR s) <= Z.of_nat fuel ->
  exists l, loop_Next fuel (MCSR s) (mat_iterator (MCSR s)) = Ok l /\ zlen l = mat_Values (MCSR s) /\
    StronglySorted before_row (map fst l) /\
    (forall i j v, In (i, j, v) l <-> (0 <= i < R /\ 0 <= j < C) /\ f i j = v /\ neqb v n0 = false).
Proof.
  intros Hs Hr Ho Hd Hf.
  destruct (enum_general _ _ _ _ _ _ _ Hs Hr Ho ltac:(discriminate) Hd Hf) as (l & Hl & Hn & Hin & _).
  exists l. split; [exact Hl|]. split; [exact Hn|]. split.
  - pose proof (reach_good _ _ _ Hs Hr Ho) as Hw. rewrite loop_Next_ok in Hl by auto. injection Hl as <-.
    exact (entries_csr_sorted s Hw).
  - intros i j v. rewrite Hin. cbn [is_sp]. split; intros (H1 & H2 & H3); auto.
Qed.
Lemma enum_csc w p (s : csc N) R C f fuel : sane N -> reachable w -> obj w p (MCSC s) -> denotes (MCSC s) R C f ->
  mat_Values (MCSC s) <= Z.of_nat fuel ->
  exists l, loop_Next fuel (MCSC s) (mat_iterator (MCSC s)) = Ok l /\ zlen l = mat_Values (MCSC s) /\
    StronglySorted before_col (map fst l) /\
    (forall i j v, In (i, j, v) l <-> (0 <= i < R /\ 0 <= j < C) /\ f i j = v /\ neqb v n0 = false).
Proof.
  intros Hs Hr Ho Hd Hf.
  destruct (enum_general _ _ _ _ _ _ _ Hs Hr Ho ltac:(discriminate) Hd Hf) as (l & Hl & Hn & Hin & _).
  exists l. split; [exact Hl|]. split; [exact Hn|]. split.
  - pose proof (reach_good _ _ _ Hs Hr Ho) as Hw. rewrite loop_Next_ok in Hl by auto. injection Hl as <-.
    exact (entries_csc_sorted s Hw).
  - intros i j v. rewrite Hin. cbn [is_sp]. split; intros (H1 & H2 & H3); auto.
Qed.
Lemma enum_dense w p m R C f fuel : sane N -> reachable w -> obj w p m -> is_dense m -> denotes m R C f ->
  R * C <= Z.of_nat fuel ->
  mat_Values m = R * C /\
  loop_Next fuel m (mat_iterator m) = Ok (map (fun q => (q, f (fst q) (snd q))) (positions R C)).
Proof.
  intros Hs Hr Ho Hd Hden Hf. pose proof (reach_good _ _ _ Hs Hr Ho) as Hw. assert (Hz := proj1 Hs).
  pose proof Hden as (ER & EC & _).
  assert (Hg : good m) by (split; [auto|destruct m; try contradiction; discriminate]).
  assert (Hsp : is_sp m = false) by (destruct m; try contradiction; reflexivity).
  assert (He : entries m = map (fun q => (q, f (fst q) (snd q))) (positions R C)).
  { assert (E : map fst (entries m) = all_cells R C) by (rewrite <- ER, <- EC; apply entries_dense_pos; auto).
    change (positions R C) with (all_cells R C). rewrite <- E, map_map.
    rewrite <- (map_id (entries m)) at 1. apply map_ext_in. intros [[i j] v] Hin. cbn [fst snd].
    apply entries_spec in Hin; auto. destruct Hin as (Hb & Hv & _).
    rewrite <- Hv. f_equal. eapply denotes_peek; eauto. }
  assert (Hv : mat_Values m = R * C).
  { rewrite <- zlen_entries, He, zlen_map by auto. change (positions R C) with (all_cells R C).
    pose proof (wf_dims m Hw) as [H1 H2]. rewrite zlen_all_cells by lia. reflexivity. }
  split; [exact Hv|]. rewrite loop_Next_ok by (auto; lia). rewrite He. reflexivity.
Qed.

(** C13 *)
Lemma rows_array w p m R C f r : sane N -> reachable w -> obj w p m -> denotes m R C f -> 0 <= r < R ->
  p_RowsAtToArray p r w = (w, Ok (map (f r) (zrange 0 C))).
Proof.
  intros Hs Hr Ho Hd Hr'. pose proof (reach_good _ _ _ Hs Hr Ho) as Hw. pose proof Hd as (ER & EC & _).
  unfold p_RowsAtToArray. rewrite (mbind_ok _ _ _ _ _ (load_ok _ _ _ Ho)), RowsAtToArray_ok by (try apply Hs; auto; lia).
  unfold mlift. f_equal. f_equal. rewrite EC. apply map_ext_in. intros j Hj. apply in_zrange in Hj.
  eapply denotes_peek; eauto. unfold inb. lia.
Qed.
Lemma vdenotes_dv L (f : Z -> V) : 0 <= L -> vdenotes (MDV (mk_dv L f)) L f.
Proof. intros HL. do 2 (split; [reflexivity|]). intros i Hi. cbn [mat_AtVec]. apply dv_AtVec_spec; auto. Qed.

Lemma alloc_result w p (g : mat -> res mat) m v : obj w p m -> g m = Ok v ->
  exists w' q, mbind (load p) (fun m => mbind (mlift (g m)) alloc) w = (w', Ok q) /\ extends w w' /\ obj w' q v.
Proof.
  intros Ho E. rewrite (load_lift _ _ _ g _ _ Ho E). rewrite alloc_ok. eexists _, _. split; [reflexivity|].
  split; [apply extends_ext|apply obj_ext_new].
Qed.

Lemma extract_dense w p m R C f : sane N -> reachable w -> obj w p m -> is_dense m -> denotes m R C f ->
  (forall r, 0 <= r < R -> exists w' q v, p_RowsAt p r w = (w', Ok q) /\ extends w w' /\ obj w' q v /\ vdenotes v C (f r)) /\
  (forall c, 0 <= c < C -> exists w' q v, p_ColumnsAt p c w = (w', Ok q) /\ extends w w' /\ obj w' q v /\ vdenotes v R (fun r => f r c)).
Proof.
  intros Hs Hr Ho Hd Hden. pose proof (reach_good _ _ _ Hs Hr Ho) as Hw. pose proof Hden as (ER & EC & _).
  assert (Hg : good m) by (split; [auto|destruct m; try contradiction; discriminate]).
  assert (Hsp : is_sp m = false) by (destruct m; try contradiction; reflexivity).
  pose proof (wf_dims m Hw) as [H1 H2].
  split.
  - intros r Hr'. destruct (alloc_result w p (fun m => mat_RowsAt m r) m _ Ho (RowsAt_dense m r Hg Hsp ltac:(lia))) as (w' & q & E & He & Hq).
    eexists _, _, _. split; [exact E|]. split; [exact He|]. split; [exact Hq|].
    rewrite EC in *. destruct (vdenotes_dv C (peek m r) H2) as (A & B & D). split; [exact A|]. split; [exact B|].
    intros i Hi. rewrite D by auto. f_equal. eapply denotes_peek; eauto. unfold inb; lia.
  - intros c Hc'. destruct (alloc_result w p (fun m => mat_ColumnsAt m c) m _ Ho (ColumnsAt_dense m c Hg Hsp ltac:(lia))) as (w' & q & E & He & Hq).
    eexists _, _, _. split; [exact E|]. split; [exact He|]. split; [exact Hq|].
    rewrite ER in *. destruct (vdenotes_dv R (fun r => peek m r c) H1) as (A & B & D). split; [exact A|]. split; [exact B|].
    intros i Hi. rewrite D by auto. f_equal. eapply denotes_peek; eauto. unfold inb; lia.
Qed.

Lemma extract_sparse w p m R C f : sane N -> reachable w -> obj w p m -> is_sparse_matrix m -> denotes m R C f ->
  (forall r, 0 <= r < R -> exists w' q v, p_RowsAt p r w = (w', Ok q) /\ extends w w' /\ obj w' q v /\ ascending_vector v C (f r)) /\
  (forall c, 0 <= c < C -> exists w' q v, p_ColumnsAt p c w = (w', Ok q) /\ extends w w' /\ obj w' q v /\ ascending_vector v R (fun r => f r c)).
Proof.
  intros Hs Hr Ho Hsp Hden. pose proof (reach_good _ _ _ Hs Hr Ho) as Hw.
  destruct (sparse_good m Hw Hsp) as [Hg Hi]. assert (Hz := proj1 Hs).
  split.
  - intros r Hr'. destruct (RowsAt_ascending m R C f r Hz Hg Hi Hden Hr') as (v & E & Ha).
    destruct (alloc_result w p (fun m => mat_RowsAt m r) m _ Ho E) as (w' & q & E' & He & Hq). eauto 10.
  - intros c Hc'. destruct (ColumnsAt_ascending m R C f c Hz Hg Hi Hden Hc') as (v & E & Ha).
    destruct (alloc_result w p (fun m => mat_ColumnsAt m c) m _ Ho E) as (w' & q & E' & He & Hq). eauto 10.
Qed.

(** C14 *)
Lemma copy_faithful w p m R C f : sane N -> reachable w -> obj w p m -> denotes m R C f ->
  exists w' q m', p_Copy p w = (w', Ok q) /\ (forall x, ~ obj w q x) /\ extends w w' /\ obj w' q m' /\
    denotes m' R C f /\ mat_Values m' = mat_Values m /\
    (forall fuel, loop_Next fuel m' (mat_iterator m') = loop_Next fuel m (mat_iterator m)) /\
    (forall ks, (forall k, In k ks -> ~ In p (writes k)) -> obj (after_all ks w') p m) /\
    (forall ks, (forall k, In k ks -> ~ In q (writes k)) -> obj (after_all ks w') q m').
Proof.
  intros Hs Hr Ho Hd. pose proof (reach_good _ _ _ Hs Hr Ho) as Hw.
  exists (ext w m), (length (w_heap w)), m. rewrite (p_Copy_ok p w m) by auto.
  split; [reflexivity|]. split.
  { intros x Hx. apply obj_lt in Hx. lia. }
  split; [apply extends_ext|]. split; [apply obj_ext_new|]. split; [exact Hd|]. split; [reflexivity|].
  split; [reflexivity|]. split; intros ks Hk; apply frame_calls; auto; try apply Hs.
  - apply obj_ext_old; auto.
  - apply obj_ext_new.
Qed.

(** C15 *)
Lemma reads_pure w k : sane N -> reachable w -> writes k = [] -> extends w (after k w).
Proof.
  intros Hs Hr E q m Ho. pose proof (reach_good _ _ _ Hs Hr Ho) as Hw.
  apply frame_call; auto; [apply Hs|]. rewrite E. auto.
Qed.
Lemma writes_only w k : sane N -> reachable w -> forall q m, ~ In q (writes k) -> obj w q m -> obj (after k w) q m.
Proof.
  intros Hs Hr q m Hn Ho. pose proof (reach_good _ _ _ Hs Hr Ho) as Hw.
  apply frame_call; auto. apply Hs.
Qed.
Lemma At_pure w (p : ptr) r c : sane N -> reachable w ->
  w_heap (fst (p_At p r c w)) = w_heap w /\ w_heap (fst (mask_Element (MObj p) r c w)) = w_heap w.
Proof.
  intros Hs Hr. pose proof (reach_wfw w (proj1 Hs) (proj2 Hs) Hr) as Hw.
  split; [apply p_At_quiet|apply mask_Element_quiet]; auto; apply Hs.
Qed.

(** C16 *)
Lemma map_general E w p m f : sane N -> reachable w -> obj w p m -> mat_Values m <= Z.of_nat (e_fuel E) ->
  (sparse_obj m = true -> forall i j, keeps_nz (f i j)) ->
  exists w' m', user_Map E p f w = (w', Ok tt) /\ extends_but p w w' /\ obj w' p m' /\
    mat_Rows m' = mat_Rows m /\ mat_Columns m' = mat_Columns m /\
    (forall fuel l, loop_Next fuel m (mat_iterator m) = Ok l ->
       loop_Next fuel m' (mat_iterator m') = Ok (map (fun '(i, j, v) => (i, j, f i j v)) l)) /\
    (forall R C h, (is_dense m \/ is_sparse_matrix m) -> denotes m R C h ->
       denotes m' R C (fun i j => if sparse_obj m && neqb (h i j) n0 then n0 else f i j (h i j))).
Proof.
  intros Hs Hr Ho Hf Hk. pose proof (reach_good _ _ _ Hs Hr Ho) as Hw. assert (Hz := proj1 Hs).
  unfold user_Map.
  destruct (map_over_run (bg E) true p (fun r c v => mret (f r c v)) f w m Ho Hw (or_introl eq_refl) Hf) as
    (w' & m' & d & r & Hm & Hh & Hw' & Hsh & He & He' & _ & Hn).
  - reflexivity.
  - intros r c v Hin Hsp. apply Hk; [rewrite sparse_is_sp; auto|].
    apply (entries_inb m r c v Hz Hw) in Hin. apply Hin. auto.
  - destruct (Hn eq_refl) as [-> Ew]. rewrite app_nil_r in *. subst d.
    exists w', m'. split; [exact Hm|]. split; [eapply extends_but_upd; eauto|].
    split; [rewrite Ew; eapply obj_upd_eq; eauto|]. split; [apply Hsh|]. split; [apply Hsh|].
    assert (Hen : entries m' = map (fun '(i, j, v) => (i, j, f i j v)) (entries m)).
    { rewrite He'. apply map_ext. intros [[a b] c]. reflexivity. }
    assert (Hval : mat_Values m' = mat_Values m).
    { rewrite <- !zlen_entries by auto. rewrite Hen, zlen_map. reflexivity. }
    split.
    + intros fuel l Hl. destruct (Z_le_gt_dec (mat_Values m) (Z.of_nat fuel)) as [Hle|Hgt].
      * rewrite loop_Next_ok in Hl by auto. injection Hl as <-. rewrite loop_Next_ok by (auto; lia). rewrite Hen. reflexivity.
      * exfalso. revert Hl Hgt. rewrite loop_Next_collect. pose proof (entries_rel m Hw) as Hrel. rewrite <- (zlen_entries m Hw).
        clear - Hrel. intros Hl Hgt.
        assert (G : forall fuel it d r l, it_rel m it d r -> collect fuel m it = Ok l -> Z.of_nat fuel < zlen r -> False).
        { clear. induction fuel as [|fuel IH]; intros it d r l Hrel Hl Hgt.
          - destruct r as [|e r]; [unfold zlen in Hgt; simpl in Hgt; lia|]. cbn [collect] in Hl.
            rewrite (it_rel_HasNext _ _ _ _ Hrel) in Hl. discriminate.
          - destruct r as [|[[a b] v] r]; [unfold zlen in Hgt; simpl in Hgt; lia|]. cbn [collect] in Hl.
            rewrite (it_rel_HasNext _ _ _ _ Hrel) in Hl.
            destruct (it_rel_step _ _ _ _ _ _ _ Hrel) as (it' & E1 & E2 & E3 & _).
            unfold mat_Next in Hl. rewrite E1 in Hl. cbn [rbind] in Hl. rewrite E2 in Hl. cbn [rbind] in Hl.
            destruct (collect fuel m it') as [l'| |] eqn:E; try discriminate.
            eapply IH; eauto. rewrite zlen_cons in Hgt. lia. }
        eapply G; eauto. lia.
    + intros R C h Hksv Hd. pose proof Hd as (ER & EC & _). assert (Hg : good m) by (split; [auto|destruct m; simpl in Hksv; try discriminate; tauto]).
      apply peek_denotes; auto; [destruct Hsh; lia|destruct Hsh as (_ & _ & ?); lia|].
      intros i j Hb. apply (same_shape_inb _ _ _ _ Hsh) in Hb.
      rewrite (remapped_all m m' f Hz Hg Hw' Hsh He' i j Hb).
      rewrite (denotes_peek m R C h i j Hd Hb). reflexivity.
Qed.

(** C55 *)
Lemma capstone w p m : sane N -> reachable w -> obj w p m ->
  0 <= mat_Rows m /\ 0 <= mat_Columns m /\
  exists f, denotes m (mat_Rows m) (mat_Columns m) f /\
    (is_sparse_matrix m ->
       mat_Values m = count_cells (fun i j => negb (neqb (f i j) n0)) (mat_Rows m) (mat_Columns m)) /\
    (is_dense m -> mat_Values m = mat_Rows m * mat_Columns m) /\
    (exists l, (forall fuel, mat_Values m <= Z.of_nat fuel -> loop_Next fuel m (mat_iterator m) = Ok l) /\
       zlen l = mat_Values m).
Proof.
  intros Hs Hr Ho. pose proof (reach_good _ _ _ Hs Hr Ho) as Hw. assert (Hz := proj1 Hs).
  pose proof (wf_dims m Hw) as [H1 H2]. split; [auto|]. split; [auto|].
  exists (peek m). pose proof (wf_denotes m Hz Hw) as Hd. split; [exact Hd|]. split.
  { intros Hsp. destruct (sparse_good m Hw Hsp) as [Hg Hi]. apply values_count; auto. }
  split.
  { intros Hden. eapply (enum_dense w p m _ _ _ (Z.to_nat (mat_Rows m * mat_Columns m)) Hs Hr Ho Hden Hd). nia. }
  exists (entries m). split; [intros fuel Hf; apply loop_Next_ok; auto|apply zlen_entries; auto].
Qed.

End Thms.
