(** Comparison and sorting of rune matrices: theorems, concrete cases, refutations. *)
From Coq Require Import Permutation.
From Verif Require Import GoBase Num SparseVec Csr Csc DenseVec DenseMat Mat World Ops Spec Api SortModel.
From Verif Require Import BaseProofs AssocProofs CsrProofs SvProofs DenseProofs MatProofs HeapProofs ReachProofs NumProofs StoreProofs StoreThms OpsProps EqThms Steps BfsProofs RrefProofs.
From Verif Require Import Witness StoreWitness OpsWitness ReduceWitness SortProofs.
Open Scope Z_scope.

Local Notation V := (T num_rune).
Local Notation mat := (mat num_rune).
Local Notation world := (world num_rune).
Implicit Types w : world.
Implicit Types m : mat.

(** ** Reading and writing lines *)
Lemma rune_eq_ok : eq_ok num_rune.
Proof. intros x y. apply rune_eqb. Qed.

Lemma set_wf w p m R C f r c v : wfw w -> obj w p m -> not_sparse_vector m -> denotes m R C f -> 0 <= r < R -> 0 <= c < C ->
  exists w' m', p_Set p r c v w = (w', Ok tt) /\ wfw w' /\ extends_but p w w' /\ obj w' p m' /\ same_storage m m' /\
    denotes m' R C (put f r c v).
Proof.
  intros Hw Ho Hp Hd Hr Hc. pose proof (Hw _ _ Ho) as W. pose proof Hd as (ER & EC & _). assert (Hb : inb m r c) by (unfold inb; lia).
  destruct (Set_ok m r c v rune_zero (nsv_good m W Hp) Hb) as (m' & E & [Hw' Hk] & Hsh & Hcl).
  assert (E1 : p_Set p r c v w = (upd w p m', Ok tt)).
  { unfold p_Set. rewrite (load_lift _ _ _ (fun m => mat_Set m r c v) _ _ Ho E). reflexivity. }
  exists (upd w p m'), m'. split; [exact E1|]. split; [apply wfw_upd; auto|].
  split; [eapply extends_but_upd; reflexivity|]. split; [eapply obj_upd_eq; eauto|]. split; [apply same_storage_shape; exact Hsh|].
  pose proof Hsh as (_ & S1 & S2). apply peek_denotes; auto; [apply rune_zero|congruence|congruence|].
  intros i j Hij. apply (same_shape_inb m m') in Hij; auto. rewrite Hcl by auto. unfold put. rewrite kept_clean, (kept_exact m v rune_eq_ok) by auto.
  destruct ((i =? r) && (j =? c)); [reflexivity|]. eapply denotes_peek; eauto.
Qed.

Lemma shows_dense keep L u : 0 <= L -> (forall c, 0 <= c < L -> keep c = true) -> shows false keep L (MDV (mk_dv L u)) u.
Proof.
  intros HL Hk. split; [exists L, u; auto|]. split; [reflexivity|]. split; [reflexivity|]. split.
  - rewrite entries_dv by auto. f_equal. rewrite (filter_ext_in keep (fun _ => true)) by (intros c Hc; apply in_zrange in Hc; auto).
    induction (zrange 0 L) as [|x l IH]; [reflexivity|]. cbn. rewrite <- IH. reflexivity.
  - intros k Hk' _. left. apply peek_dv. exact Hk'.
Qed.
Lemma shows_sparse keep L ents u : 0 <= L -> row_ok L ents -> (forall c, 0 <= c < L -> aval c ents = u c) ->
  (forall c, 0 <= c < L -> (keep c = true <-> u c <> n0)) -> shows true keep L (MSV (mk_sv L ents)) u.
Proof.
  intros HL Hok Hu Hk. assert (He := row_ok_ents_ok L ents HL Hok). split; [exists L, ents; auto|]. split; [reflexivity|]. split; [reflexivity|]. split.
  - rewrite entries_sv by auto. rewrite (row_nonzeros L ents u rune_zero Hok Hu). unfold nonzeros. f_equal. apply filter_ext_in.
    intros c Hc. apply in_zrange in Hc. apply Bool.eq_true_iff_eq. rewrite Hk by auto. rewrite Bool.negb_true_iff. split.
    + intros H E. rewrite E in H. discriminate.
    + intros H. destruct (neqb (u c) n0) eqn:E; [|reflexivity]. apply rune_eqb in E. contradiction.
  - intros k Hk' Hkk. assert (P : peek (MSV (mk_sv L ents)) k 0 = sv_read ents k).
    { unfold peek. cbn [mat_At]. rewrite sv_At_ok by (auto; apply rune_zero). reflexivity. }
    rewrite P. destruct (sv_AtVec_probe L ents k Hk') as [(lo & v & hi & Ee & Ev)|Ev]; rewrite sv_AtVec_read in Ev by auto; injection Ev as Ev; rewrite Ev.
    + left. rewrite <- Hu by auto. destruct Hok as (Hs & _ & _). unfold aval.
      replace (alookup k ents) with (Some v); [reflexivity|]. symmetry. apply alookup_in_iff; [exact Hs|]. rewrite Ee. apply in_or_app. right. left. reflexivity.
    + right. split; [reflexivity|]. apply Hk; auto.
Qed.

(** every line is zero at the same positions *)
Definition same_zeros (K L : Z) (f : Z -> Z -> V) : Prop :=
  forall k k' c, 0 <= k < K -> 0 <= k' < K -> 0 <= c < L -> f k c = n0 -> f k' c = n0.
(** in non-decreasing lexicographic order by code point *)
Definition sorted (K L : Z) (h : Z -> Z -> V) : Prop :=
  forall a b, 0 <= a < b -> b < K -> ~ precedes (codes (line (h b) L)) (codes (line (h a) L)).
(** every rune has a UTF-8 encoding *)
Definition valid_runes (R C : Z) (f : Z -> Z -> V) : Prop :=
  forall i j, 0 <= i < R -> 0 <= j < C -> valid_rune (code (f i j)).
(** transposition *)
Definition across (f : Z -> Z -> V) : Z -> Z -> V := fun j i => f i j.

Lemma valid_all K L h : (forall k c, 0 <= k < K -> 0 <= c < L -> valid_rune (code (h k c))) -> all_valid K L h.
Proof.
  intros H k Hk. unfold codes, line. rewrite map_map, Forall_forall. intros x Hx. apply in_map_iff in Hx. destruct Hx as (c & <- & Hc).
  apply in_zrange in Hc. auto.
Qed.

Definition keep_of (K : Z) (sp : bool) (f : Z -> Z -> V) (c : Z) : bool := if sp then negb (neqb (f 0 c) n0) else true.
Lemma fits_keep K L sp f : (sp = true -> same_zeros K L f) -> fits K L sp (keep_of K sp f) f.
Proof.
  intros H. unfold fits, keep_of. destruct sp; [|auto]. specialize (H eq_refl). intros k c Hk Hc. rewrite Bool.negb_true_iff. split.
  - intros E1 E2. assert (f 0 c = n0) by (apply (H k 0 c); auto; lia). rewrite H0 in E1. discriminate.
  - intros Hn. destruct (neqb (f 0 c) n0) eqn:E; [|reflexivity]. apply rune_eqb in E. contradiction Hn. apply (H 0 k c); auto; lia.
Qed.

(** the two ways of storing a matrix that the theorems cover *)
Definition sortable (S : mat) (K L : Z) (f : Z -> Z -> V) : Prop := is_dense S \/ is_sparse_matrix S /\ same_zeros K L f.
Lemma sortable_class S K L f : sortable S K L f -> exists sp, class sp S /\ (sp = true -> same_zeros K L f).
Proof. intros [H|[H1 H2]]; [exists false|exists true]; cbn; split; auto. discriminate. Qed.
Lemma class_nsv sp (O : mat) : class sp O -> not_sparse_vector O.
Proof. unfold class. destruct sp, O; cbn; tauto. Qed.

Lemma bubble_rows E w a S R C f : reachable w -> obj w a S -> denotes S R C f -> sortable S R C f -> C <= Z.of_nat (e_fuel E) ->
  exists w' q O h, BubbleRow E a w = (w', Ok q) /\ (forall x, ~ obj w q x) /\ extends w w' /\ obj w' q O /\ same_storage S O /\ denotes O R C h /\
    Permutation (lines h R C) (lines f R C) /\ (e_ctx E = None -> valid_runes R C f -> sorted R C h).
Proof.
  intros Hr Ha Hd Hs Hf. pose proof (sane_wfw w rune_sane Hr) as Hw. assert (W := Hw _ _ Ha).
  destruct (sortable_class _ _ _ _ Hs) as (sp & Hcl & Hz). pose proof Hd as (ER & EC & _). pose proof (wf_dims S W) as [DR DC]. rewrite ER in DR. rewrite EC in DC.
  unfold BubbleRow. rewrite (mbind_ok _ _ _ _ _ (p_Rows_ok _ _ _ Ha)), (mbind_ok _ _ _ _ _ (p_Copy_ok a w S Ha W)).
  set (q := length (w_heap w)). set (w1 := ext w S). rewrite ER.
  assert (W1 : wfw w1) by (apply wfw_ext; auto). assert (O1 : obj w1 q S) by apply obj_ext_new.
  destruct (bubble_run E q R C sp (keep_of R sp f) (fun k => p_RowsAt q k) (fun k c v => p_Set q k c v) (fun O h => denotes O R C h)) with (w := w1) (O := S) (f := f)
    as (w' & O' & h & E1 & W' & X' & P' & S' & D' & Pm & Srt); auto.
  - intros O h h' H1 H2. eapply denotes_change; eauto.
  - intros w2 O h k Hw2 Ho2 Hc2 Hd2 Hf2 Hk. pose proof Hd2 as (ER2 & EC2 & _). assert (G : good O) by (apply nsv_good; [eapply Hw2; eauto|eapply class_nsv; eauto]).
    assert (Pk : forall c, 0 <= c < C -> peek O k c = h k c) by (intros c Hc; eapply denotes_peek; eauto; unfold inb; lia).
    destruct sp; cbn [class] in Hc2.
    + destruct (RowsAt_sparse O k rune_zero G) as (ents & Er & Hok & Hav); [destruct O; try contradiction; reflexivity|lia|].
      exists (MSV (mk_sv (mat_Columns O) ents)). split; [unfold p_RowsAt; rewrite (load_lift _ _ _ (fun m => mat_RowsAt m k) _ _ Ho2 Er); reflexivity|].
      rewrite EC2 in *. split; [|discriminate]. apply shows_sparse; [lia|exact Hok|intros c Hc; rewrite Hav by auto; auto|intros c Hc; apply Hf2; auto].
    + exists (MDV (mk_dv C (h k))). split.
      { unfold p_RowsAt. rewrite (load_lift _ _ _ (fun m => mat_RowsAt m k) _ _ Ho2 (RowsAt_dense O k G ltac:(destruct O; try contradiction; reflexivity) ltac:(lia))).
        rewrite EC2. rewrite (mk_dv_ext C (peek O k) (h k)) by auto. reflexivity. }
      split; [apply shows_dense; auto|]. intros _ c Hc. apply peek_dv. exact Hc.
  - intros w2 O h k c v Hw2 Ho2 Hc2 Hd2 Hk Hc. apply (set_wf w2 q O R C h k c v Hw2 Ho2 (class_nsv _ _ Hc2) Hd2 Hk Hc).
  - apply fits_keep. exact Hz.
  - rewrite (mbind_ok _ _ _ _ _ E1). exists w', q, O', h. split; [reflexivity|]. split; [intros x Hx; apply obj_lt in Hx; unfold q in Hx; lia|].
    split; [intros p x Hp; apply X'; [intros ->; apply obj_lt in Hp; unfold q in Hp; lia|apply obj_ext_old; exact Hp]|].
    do 4 (split; [assumption|]). intros Hc Hv x y Hx Hy. apply (Srt Hc); auto. apply valid_all. intros k c Hk Hcc. apply Hv; auto.
Qed.

Lemma bubble_columns E w a S R C f : reachable w -> obj w a S -> denotes S R C f -> sortable S C R (across f) -> R <= Z.of_nat (e_fuel E) ->
  exists w' q O h, BubbleColumns E a w = (w', Ok q) /\ (forall x, ~ obj w q x) /\ extends w w' /\ obj w' q O /\ same_storage S O /\ denotes O R C h /\
    Permutation (lines (across h) C R) (lines (across f) C R) /\ (e_ctx E = None -> valid_runes R C f -> sorted C R (across h)).
Proof.
  intros Hr Ha Hd Hs Hf. pose proof (sane_wfw w rune_sane Hr) as Hw. assert (W := Hw _ _ Ha).
  destruct (sortable_class _ _ _ _ Hs) as (sp & Hcl & Hz). pose proof Hd as (ER & EC & _). pose proof (wf_dims S W) as [DR DC]. rewrite ER in DR. rewrite EC in DC.
  unfold BubbleColumns. rewrite (mbind_ok _ _ _ _ _ (p_Columns_ok _ _ _ Ha)), (mbind_ok _ _ _ _ _ (p_Copy_ok a w S Ha W)).
  set (q := length (w_heap w)). set (w1 := ext w S). rewrite EC.
  assert (W1 : wfw w1) by (apply wfw_ext; auto). assert (O1 : obj w1 q S) by apply obj_ext_new.
  destruct (bubble_run E q C R sp (keep_of C sp (across f)) (fun k => p_ColumnsAt q k) (fun k c v => p_Set q c k v) (fun O h => denotes O R C (across h))) with (w := w1) (O := S) (f := across f)
    as (w' & O' & h & E1 & W' & X' & P' & S' & D' & Pm & Srt); auto.
  - intros O h h' H1 H2. eapply denotes_change; eauto.
  - intros w2 O h k Hw2 Ho2 Hc2 Hd2 Hf2 Hk. pose proof Hd2 as (ER2 & EC2 & _). assert (G : good O) by (apply nsv_good; [eapply Hw2; eauto|eapply class_nsv; eauto]).
    assert (Pk : forall c, 0 <= c < R -> peek O c k = h k c) by (intros c Hc; apply (denotes_peek O R C (across h) c k Hd2); unfold inb; lia).
    destruct sp; cbn [class] in Hc2.
    + destruct (ColumnsAt_sparse O k rune_zero G) as (ents & Er & Hok & Hav); [destruct O; try contradiction; reflexivity|lia|].
      exists (MSV (mk_sv (mat_Rows O) ents)). split; [unfold p_ColumnsAt; rewrite (load_lift _ _ _ (fun m => mat_ColumnsAt m k) _ _ Ho2 Er); reflexivity|].
      rewrite ER2 in *. split; [|discriminate]. apply shows_sparse; [lia|exact Hok|intros c Hc; rewrite Hav by auto; auto|intros c Hc; apply Hf2; auto].
    + exists (MDV (mk_dv R (h k))). split.
      { unfold p_ColumnsAt. rewrite (load_lift _ _ _ (fun m => mat_ColumnsAt m k) _ _ Ho2 (ColumnsAt_dense O k G ltac:(destruct O; try contradiction; reflexivity) ltac:(lia))).
        rewrite ER2. rewrite (mk_dv_ext R (fun r => peek O r k) (h k)) by auto. reflexivity. }
      split; [apply shows_dense; auto|]. intros _ c Hc. apply peek_dv. exact Hc.
  - intros w2 O h k c v Hw2 Ho2 Hc2 Hd2 Hk Hc.
    destruct (set_wf w2 q O R C (across h) c k v Hw2 Ho2 (class_nsv _ _ Hc2) Hd2 Hc Hk) as (w3 & O3 & H1 & H2 & H3 & H4 & H5 & H6).
    exists w3, O3. do 5 (split; [assumption|]). eapply denotes_change; [exact H6|]. intros i j Hi Hj. unfold put, across.
    rewrite Bool.andb_comm. reflexivity.
  - apply fits_keep. exact Hz.
  - rewrite (mbind_ok _ _ _ _ _ E1). exists w', q, O', (across h). split; [reflexivity|]. split; [intros x Hx; apply obj_lt in Hx; unfold q in Hx; lia|].
    split; [intros p x Hp; apply X'; [intros ->; apply obj_lt in Hp; unfold q in Hp; lia|apply obj_ext_old; exact Hp]|].
    do 4 (split; [assumption|]). intros Hc Hv x y Hx Hy. apply (Srt Hc); auto. apply valid_all. intros k c Hk Hcc. apply Hv; auto.
Qed.

(** ** C45, C46, C47 *)
Lemma sort_rows E w a S R C f : reachable w -> obj w a S -> denotes S R C f -> is_dense S -> C <= Z.of_nat (e_fuel E) ->
  e_ctx E = None -> valid_runes R C f ->
  exists w' q O h, BubbleRow E a w = (w', Ok q) /\ (forall x, ~ obj w q x) /\ extends w w' /\ obj w' q O /\ same_storage S O /\ denotes O R C h /\
    Permutation (lines h R C) (lines f R C) /\ sorted R C h.
Proof.
  intros Hr Ha Hd Hs Hf Hc Hv. destruct (bubble_rows E w a S R C f Hr Ha Hd (or_introl Hs) Hf) as (w' & q & O & h & H1 & H2 & H3 & H4 & H5 & H6 & H7 & H8).
  exists w', q, O, h. auto 10.
Qed.
Lemma sort_columns E w a S R C f : reachable w -> obj w a S -> denotes S R C f -> is_dense S -> R <= Z.of_nat (e_fuel E) ->
  e_ctx E = None -> valid_runes R C f ->
  exists w' q O h, BubbleColumns E a w = (w', Ok q) /\ (forall x, ~ obj w q x) /\ extends w w' /\ obj w' q O /\ same_storage S O /\ denotes O R C h /\
    Permutation (lines (across h) C R) (lines (across f) C R) /\ sorted C R (across h).
Proof.
  intros Hr Ha Hd Hs Hf Hc Hv. destruct (bubble_columns E w a S R C f Hr Ha Hd (or_introl Hs) Hf) as (w' & q & O & h & H1 & H2 & H3 & H4 & H5 & H6 & H7 & H8).
  exists w', q, O, h. auto 10.
Qed.
Lemma permute_rows E w a S R C f : reachable w -> obj w a S -> denotes S R C f -> is_dense S -> C <= Z.of_nat (e_fuel E) ->
  exists w' q O h, BubbleRow E a w = (w', Ok q) /\ (forall x, ~ obj w q x) /\ extends w w' /\ obj w' q O /\ same_storage S O /\ denotes O R C h /\
    Permutation (lines h R C) (lines f R C).
Proof.
  intros Hr Ha Hd Hs Hf. destruct (bubble_rows E w a S R C f Hr Ha Hd (or_introl Hs) Hf) as (w' & q & O & h & H1 & H2 & H3 & H4 & H5 & H6 & H7 & H8).
  exists w', q, O, h. auto 10.
Qed.
Lemma permute_columns E w a S R C f : reachable w -> obj w a S -> denotes S R C f -> is_dense S -> R <= Z.of_nat (e_fuel E) ->
  exists w' q O h, BubbleColumns E a w = (w', Ok q) /\ (forall x, ~ obj w q x) /\ extends w w' /\ obj w' q O /\ same_storage S O /\ denotes O R C h /\
    Permutation (lines (across h) C R) (lines (across f) C R).
Proof.
  intros Hr Ha Hd Hs Hf. destruct (bubble_columns E w a S R C f Hr Ha Hd (or_introl Hs) Hf) as (w' & q & O & h & H1 & H2 & H3 & H4 & H5 & H6 & H7 & H8).
  exists w', q, O, h. auto 10.
Qed.
Lemma sparse_rows E w a S R C f : reachable w -> obj w a S -> denotes S R C f -> is_sparse_matrix S -> same_zeros R C f -> C <= Z.of_nat (e_fuel E) ->
  exists w' q O h, BubbleRow E a w = (w', Ok q) /\ (forall x, ~ obj w q x) /\ extends w w' /\ obj w' q O /\ same_storage S O /\ denotes O R C h /\
    Permutation (lines h R C) (lines f R C) /\ (e_ctx E = None -> valid_runes R C f -> sorted R C h).
Proof. intros Hr Ha Hd Hs Hz Hf. apply (bubble_rows E w a S R C f); auto. right. auto. Qed.
Lemma sparse_columns E w a S R C f : reachable w -> obj w a S -> denotes S R C f -> is_sparse_matrix S -> same_zeros C R (across f) -> R <= Z.of_nat (e_fuel E) ->
  exists w' q O h, BubbleColumns E a w = (w', Ok q) /\ (forall x, ~ obj w q x) /\ extends w w' /\ obj w' q O /\ same_storage S O /\ denotes O R C h /\
    Permutation (lines (across h) C R) (lines (across f) C R) /\ (e_ctx E = None -> valid_runes R C f -> sorted C R (across h)).
Proof. intros Hr Ha Hd Hs Hz Hf. apply (bubble_columns E w a S R C f); auto. right. auto. Qed.

(** two sorted matrices with the same lines are equal: the result does not depend
    on the order of the lines of the input *)
Lemma sorted_cons K L h : 0 < K -> sorted K L h -> forall k, 0 <= k < K -> ~ precedes (codes (line (h k) L)) (codes (line (h 0) L)).
Proof.
  intros HK Hs k Hk. destruct (Z.eq_dec k 0) as [->|N]; [apply precedes_irrefl|]. apply Hs; lia.
Qed.
Lemma lines_cons h K L : 0 < K -> lines h K L = line (h 0) L :: lines (fun k => h (k + 1)) (K - 1) L.
Proof.
  intros HK. unfold lines. rewrite zrange_cons by lia. cbn [map]. f_equal.
  assert (Sh : forall n a, map (fun k => line (h k) L) (map (fun i => a + 1 + Z.of_nat i) (seq 0 n)) = map (fun k => line (h (k + 1)) L) (map (fun i => a + Z.of_nat i) (seq 0 n))).
  { intros n a. rewrite !map_map. apply map_ext. intros i. do 2 f_equal. lia. }
  unfold zrange. replace (K - (0 + 1)) with (K - 1 - 0) by lia. apply (Sh _ 0).
Qed.
Lemma sorted_tail K L h : sorted K L h -> sorted (K - 1) L (fun k => h (k + 1)).
Proof. intros H a b Hab Hb. apply H; lia. Qed.
Lemma sorted_unique K L : forall h g, sorted K L h -> sorted K L g -> Permutation (lines h K L) (lines g K L) -> lines h K L = lines g K L.
Proof.
  remember (Z.to_nat K) as n. revert K Heqn. induction n as [|n IH]; intros K Hn h g Hh Hg HP.
  - unfold lines. rewrite !zrange_nil by lia. reflexivity.
  - assert (HK : 0 < K) by lia.
    assert (E0 : line (h 0) L = line (g 0) L).
    { assert (I1 : In (line (h 0) L) (lines g K L)) by (eapply Permutation_in; [exact HP|]; apply in_lines; lia).
      assert (I2 : In (line (g 0) L) (lines h K L)) by (eapply Permutation_in; [apply Permutation_sym; exact HP|]; apply in_lines; lia).
      unfold lines in I1, I2. apply in_map_iff in I1, I2. destruct I1 as (a & A1 & A2). destruct I2 as (b & B1 & B2). apply in_zrange in A2, B2.
      pose proof (sorted_cons K L g HK Hg a A2) as N1. rewrite A1 in N1. pose proof (sorted_cons K L h HK Hh b B2) as N2. rewrite B1 in N2.
      apply codes_inj. destruct (precedes_total (codes (line (h 0) L)) (codes (line (g 0) L))) as [P|[P|P]]; tauto. }
    rewrite !(lines_cons _ K L HK) in *. rewrite E0 in *. f_equal. apply IH; [lia|apply sorted_tail; auto|apply sorted_tail; auto|].
    eapply Permutation_cons_inv. exact HP.
Qed.

(** ** C48 *)
Lemma valid_row_major R C f : valid_runes R C f -> Forall valid_rune (codes (row_major R C f)).
Proof.
  intros H. unfold codes, row_major. rewrite Forall_map, Forall_forall. intros v Hv. apply in_flat_map in Hv. destruct Hv as (i & Hi & Hv).
  apply in_zrange in Hi. unfold line in Hv. apply in_map_iff in Hv. destruct Hv as (j & <- & Hj). apply in_zrange in Hj. auto.
Qed.
Lemma compare_order E w (s m : ptr) S Mo R C R' C' f g : reachable w -> obj w s S -> obj w m Mo -> is_dense S -> is_dense Mo ->
  denotes S R C f -> denotes Mo R' C' g -> R * C <= Z.of_nat (e_fuel E) -> R' * C' <= Z.of_nat (e_fuel E) ->
  e_ctx E = None -> valid_runes R C f -> valid_runes R' C' g ->
  exists w' z, Compare E s m w = (w', Ok z) /\ w_heap w' = w_heap w /\ (z = 0 \/ z = -1 \/ z = 1) /\
    (z = 0 <-> R = R' /\ C = C' /\ forall i j, 0 <= i < R -> 0 <= j < C -> f i j = g i j) /\
    (z = -1 <-> precedes (codes (row_major R C f)) (codes (row_major R' C' g))).
Proof.
  intros Hr Hs Hm Ps Pm Ds Dm F1 F2 Hc V1 V2.
  destruct (Compare_run E w s m S Mo R C R' C' f g (sane_wfw w rune_sane Hr) Hs Hm Ps Pm Ds Dm F1 F2) as (w' & z & E1 & H1 & Hz & H2).
  exists w', z. split; [exact E1|]. split; [exact H1|]. split; [exact Hz|]. apply H2; auto using valid_row_major.
Qed.
Lemma less_greater E w (s m : ptr) S Mo R C R' C' f g : reachable w -> obj w s S -> obj w m Mo -> is_dense S -> is_dense Mo ->
  denotes S R C f -> denotes Mo R' C' g -> R * C <= Z.of_nat (e_fuel E) -> R' * C' <= Z.of_nat (e_fuel E) ->
  e_ctx E = None -> valid_runes R C f -> valid_runes R' C' g ->
  exists w' b b', Less E s m w = (w', Ok b) /\ Greater E s m w = (w', Ok b') /\ w_heap w' = w_heap w /\
    (b = true <-> precedes (codes (row_major R C f)) (codes (row_major R' C' g))) /\
    (b' = true <-> precedes (codes (row_major R' C' g)) (codes (row_major R C f))).
Proof.
  intros Hr Hs Hm Ps Pm Ds Dm F1 F2 Hc V1 V2.
  destruct (Less_run E w s m S Mo R C R' C' f g (sane_wfw w rune_sane Hr) Hs Hm Ps Pm Ds Dm F1 F2) as (w' & b & b' & E1 & E2 & H1 & H2).
  exists w', b, b'. split; [exact E1|]. split; [exact E2|]. split; [exact H1|]. apply H2; auto using valid_row_major.
Qed.

Lemma app_inj_len {A} (a b c d : list A) : length a = length b -> a ++ c = b ++ d -> a = b /\ c = d.
Proof.
  revert b. induction a as [|x a IH]; intros [|y b] Hl H; cbn in *; try discriminate; auto. injection H as -> H. destruct (IH b) as [-> ->]; auto.
Qed.
Lemma row_major_inj R C f g : row_major R C f = row_major R C g -> forall i j, 0 <= i < R -> 0 <= j < C -> f i j = g i j.
Proof.
  intros H i j Hi Hj. unfold row_major in H. assert (Hin : In i (zrange 0 R)) by (apply in_zrange; exact Hi). revert H Hin.
  generalize (zrange 0 R) as l. induction l as [|a l IH]; intros H Hin; [destruct Hin|]. cbn [flat_map] in H.
  assert (Hl : length (line (f a) C) = length (line (g a) C)) by (unfold line; rewrite !map_length; reflexivity).
  destruct (app_inj_len _ _ _ _ Hl H) as [H1 H2]. destruct Hin as [<-|Hin]; [apply (line_inj _ _ _ H1); exact Hj|auto].
Qed.
Lemma compare_antisym E w (s m : ptr) S Mo R C f g : reachable w -> obj w s S -> obj w m Mo -> is_dense S -> is_dense Mo ->
  denotes S R C f -> denotes Mo R C g -> R * C <= Z.of_nat (e_fuel E) -> e_ctx E = None -> valid_runes R C f -> valid_runes R C g ->
  exists w1 w2 z, Compare E s m w = (w1, Ok z) /\ Compare E m s w = (w2, Ok (- z)) /\
    (z = 1 <-> precedes (codes (row_major R C g)) (codes (row_major R C f))).
Proof.
  intros Hr Hs Hm Ps Pm Ds Dm F1 Hc V1 V2.
  destruct (compare_order E w s m S Mo R C R C f g) as (w1 & z1 & E1 & _ & Z1 & A1 & B1); auto.
  destruct (compare_order E w m s Mo S R C R C g f) as (w2 & z2 & E2 & _ & Z2 & A2 & B2); auto.
  assert (Hone : z1 = 1 <-> z2 = -1).
  { rewrite B2. split.
    - intros ->. destruct (precedes_total (codes (row_major R C f)) (codes (row_major R C g))) as [P|[P|P]]; [apply B1 in P; lia| |exact P].
      apply codes_inj in P. assert (1 = 0); [|lia]. apply A1. split; [reflexivity|]. split; [reflexivity|]. apply row_major_inj. exact P.
    - intros P. destruct Z1 as [-> |[-> | ->]]; [exfalso|exfalso|reflexivity].
      + destruct (proj1 A1 eq_refl) as (_ & _ & K). rewrite (row_major_cells R C f g K) in P. destruct (precedes_irrefl _ P).
      + apply (precedes_asym _ _ P). apply B1. reflexivity. }
  assert (Hmone : z1 = -1 <-> z2 = 1).
  { rewrite B1. split.
    - intros P. destruct Z2 as [-> |[-> | ->]]; [exfalso|exfalso|reflexivity].
      + destruct (proj1 A2 eq_refl) as (_ & _ & K). rewrite (row_major_cells R C g f K) in P. destruct (precedes_irrefl _ P).
      + apply (precedes_asym _ _ P). apply B2. reflexivity.
    - intros ->. destruct (precedes_total (codes (row_major R C f)) (codes (row_major R C g))) as [P|[P|P]]; [exact P| |apply B2 in P; lia].
      apply codes_inj in P. assert (1 = 0); [|lia]. apply A2. split; [reflexivity|]. split; [reflexivity|]. apply row_major_inj. symmetry. exact P. }
  exists w1, w2, z1. split; [exact E1|]. split; [rewrite E2; do 2 f_equal; lia|]. rewrite Hone. exact B2.
Qed.

Lemma compare_trans E w (s m t : ptr) S Mo T R C f g h : reachable w -> obj w s S -> obj w m Mo -> obj w t T -> is_dense S -> is_dense Mo -> is_dense T ->
  denotes S R C f -> denotes Mo R C g -> denotes T R C h -> R * C <= Z.of_nat (e_fuel E) -> e_ctx E = None ->
  valid_runes R C f -> valid_runes R C g -> valid_runes R C h ->
  exists w1 w2 w3 x y z, Compare E s m w = (w1, Ok x) /\ Compare E m t w = (w2, Ok y) /\ Compare E s t w = (w3, Ok z) /\
    (x <= 0 -> y <= 0 -> z <= 0 /\ (z = 0 -> x = 0 /\ y = 0)).
Proof.
  intros Hr Hs Hm Ht Ps Pm Pt Ds Dm Dt F1 Hc V1 V2 V3.
  destruct (compare_antisym E w s m S Mo R C f g) as (w1 & u1 & x & E1 & _ & A1); auto.
  destruct (compare_antisym E w m t Mo T R C g h) as (w2 & u2 & y & E2 & _ & A2); auto.
  destruct (compare_antisym E w s t S T R C f h) as (w3 & u3 & z & E3 & _ & A3); auto.
  destruct (compare_order E w s m S Mo R C R C f g) as (v1 & x' & E1' & _ & Zx & Ax & Bx); auto. rewrite E1 in E1'. injection E1' as <- <-.
  destruct (compare_order E w m t Mo T R C R C g h) as (v2 & y' & E2' & _ & Zy & Ay & By); auto. rewrite E2 in E2'. injection E2' as <- <-.
  destruct (compare_order E w s t S T R C R C f h) as (v3 & z' & E3' & _ & Zz & Az & Bz); auto. rewrite E3 in E3'. injection E3' as <- <-.
  exists w1, w2, w3, x, y, z. do 3 (split; [assumption|]). intros Hx Hy.
  assert (Nx : ~ precedes (codes (row_major R C g)) (codes (row_major R C f))) by (rewrite <- A1; lia).
  assert (Ny : ~ precedes (codes (row_major R C h)) (codes (row_major R C g))) by (rewrite <- A2; lia).
  assert (Nz : ~ precedes (codes (row_major R C h)) (codes (row_major R C f))) by (eapply npre_trans; eauto).
  rewrite <- A3 in Nz. split; [lia|]. intros Z0. destruct (proj1 Az Z0) as (_ & _ & K). pose proof (row_major_cells R C f h K) as EK.
  assert (Nx' : ~ precedes (codes (row_major R C f)) (codes (row_major R C g))) by (rewrite EK; exact Ny).
  rewrite <- Bx in Nx'. assert (x = 0) by lia. split; [assumption|].
  assert (Ny' : ~ precedes (codes (row_major R C g)) (codes (row_major R C h))) by (rewrite <- EK; exact Nx).
  rewrite <- By in Ny'. lia.
Qed.

(** ** Concrete cases *)
Definition ru (z : Z) : V := of_Z z.
(** the code points of the object a call returned *)
Definition show (R C : Z) (x : world * res ptr) : list (list Z) :=
  match x with
  | (w, Ok q) =>
      match nth_error (w_heap w) q with
      | Some m => map (fun i => map (fun j => code (peek m i j)) (zrange 0 C)) (zrange 0 R)
      | None => []
      end
  | _ => []
  end.
Lemma show_denotes R C w q O h : obj w q O -> denotes O R C h -> show R C (w, Ok q) = map codes (lines h R C).
Proof.
  intros Ho Hd. unfold show, obj in *. rewrite Ho. unfold lines, codes, line. rewrite map_map. pose proof Hd as (ER & EC & _). apply map_ext_in. intros i Hi.
  rewrite map_map. apply map_ext_in. intros j Hj. apply in_zrange in Hi. apply in_zrange in Hj. f_equal. eapply denotes_peek; eauto. unfold inb. lia.
Qed.

(** rows "zé", "Zz", U+10FFFF U+FFFF, "zA"; a CSR matrix whose rows merge; a CSR matrix
    whose rows are zero at the same positions; a 1x2 and a 2x1 matrix with the same text *)
Definition dWords : list (list V) := map (map ru) [[122; 233]; [90; 122]; [1114111; 65535]; [122; 65]].
Definition dMerge : list (list V) := map (map ru) [[98; 0]; [0; 97]].
Definition dAligned : list (list V) := map (map ru) [[98; 0; 99]; [97; 0; 99]; [97; 0; 98]].
Definition dWide : list (list V) := map (map ru) [[97; 98]].
Definition dTall : list (list V) := map (map ru) [[97]; [98]].
Definition sort_calls : list (call num_rune) := [KDenseFrom dWords; KCSRFrom dMerge; KCSRFrom dAligned; KDenseFrom dWide; KDenseFrom dTall].
Definition sortw : world := after_all sort_calls empty_world.
Lemma sortw_reachable : reachable sortw.
Proof. unfold sortw, sort_calls, dWords, dMerge, dAligned, dWide, dTall. cbn [map]. reach_ops. Qed.
Definition oWords : mat := MDM (MkDense 2 4 dWords).
Definition oMerge : mat := MCSR (MkCSR 2 2 (map ru [98; 97]) [0; 1] [0; 1; 2]).
Definition oAligned : mat := MCSR (MkCSR 3 3 (map ru [98; 99; 97; 99; 97; 98]) [0; 2; 0; 2; 0; 2] [0; 2; 4; 6]).
Lemma s0 : obj sortw 0 oWords. Proof. at_obj. Qed.
Lemma s1 : obj sortw 1 oMerge. Proof. at_obj. Qed.
Lemma s2 : obj sortw 2 oAligned. Proof. at_obj. Qed.
Lemma d0 : denotes oWords 4 2 (cell_of dWords).
Proof. apply (denotes_tab sortw _ _ _ _ _ rune_sane sortw_reachable s0 eq_refl eq_refl); vm_compute; reflexivity. Qed.
Lemma d1 : denotes oMerge 2 2 (cell_of dMerge).
Proof. apply (denotes_tab sortw _ _ _ _ _ rune_sane sortw_reachable s1 eq_refl eq_refl); vm_compute; reflexivity. Qed.
Lemma d2 : denotes oAligned 3 3 (cell_of dAligned).
Proof. apply (denotes_tab sortw _ _ _ _ _ rune_sane sortw_reachable s2 eq_refl eq_refl); vm_compute; reflexivity. Qed.

(** ** Refutation *)
Definition sparse_permutes : Prop := forall E w a S R C f, reachable w -> obj w a S -> denotes S R C f -> is_sparse_matrix S ->
  C <= Z.of_nat (e_fuel E) -> e_ctx E = None -> valid_runes R C f ->
  exists w' q O h, BubbleRow E a w = (w', Ok q) /\ obj w' q O /\ denotes O R C h /\ Permutation (lines h R C) (lines f R C).
Lemma merge_valid : valid_runes 2 2 (cell_of dMerge).
Proof.
  intros i j Hi Hj. assert (i = 0 \/ i = 1) as [-> | ->] by lia; assert (j = 0 \/ j = 1) as [-> | ->] by lia; vm_compute; intuition discriminate.
Qed.
Lemma bubble_sparse_no : ~ sparse_permutes.
Proof.
  intros H. destruct (H E0 sortw 1%nat oMerge 2 2 _ sortw_reachable s1 d1 Logic.I ltac:(vm_compute; discriminate) eq_refl merge_valid) as (w' & q & O & h & H1 & H2 & H3 & H4).
  pose proof (show_denotes 2 2 w' q O h H2 H3) as Hs. rewrite <- H1 in Hs.
  assert (Hx : show 2 2 (BubbleRow E0 1 sortw) = [[98; 97]; [98; 97]]) by (vm_compute; reflexivity).
  rewrite Hx in Hs. apply (Permutation_map codes) in H4. rewrite <- Hs in H4. apply Permutation_sym in H4.
  assert (Hf : map codes (lines (cell_of dMerge) 2 2) = [[98; 0]; [0; 97]]) by (vm_compute; reflexivity). rewrite Hf in H4.
  pose proof (Permutation_in [98; 0] H4 (or_introl eq_refl)) as K. cbn in K. intuition discriminate.
Qed.
Lemma words_valid : valid_runes 4 2 (cell_of dWords).
Proof.
  intros i j Hi Hj. assert (i = 0 \/ i = 1 \/ i = 2 \/ i = 3) as [-> |[-> |[-> | ->]]] by lia; assert (j = 0 \/ j = 1) as [-> | ->] by lia; vm_compute; intuition discriminate.
Qed.
Lemma aligned_zeros : same_zeros 3 3 (cell_of dAligned).
Proof.
  intros a b c. intros. assert (a = 0 \/ a = 1 \/ a = 2) as [-> |[-> | ->]] by lia; assert (b = 0 \/ b = 1 \/ b = 2) as [-> |[-> | ->]] by lia;
    assert (c = 0 \/ c = 1 \/ c = 2) as [-> |[-> | ->]] by lia; vm_compute; intuition discriminate.
Qed.
