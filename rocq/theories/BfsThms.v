(** Breadth-first search: theorems, concrete cases and refutations. *)
From Coq Require Import String QArith Qcanon.
From Verif Require Import GoBase Num SparseVec Csr Csc DenseVec DenseMat Mat World Ops Spec Api MathOps Bfs.
From Verif Require Import BaseProofs MatProofs HeapProofs ReachProofs NumProofs StoreProofs StoreThms OpsProps MaskThms Witness StoreWitness OpsWitness ReduceWitness.
From Verif Require Import Steps BfsProofs MathThms.
Open Scope Z_scope.

(** ** Exact types *)
Lemma counting_Z : counting num_Z.
Proof.
  unfold counting, weight. split; [reflexivity|]. split; [reflexivity|]. unfold ngtb; cbn. split; [intros v; lia|].
  split; intros x y Hx Hy.
  - assert (0 <= x /\ 0 <= y) by lia. split; [|lia]. destruct (Z.eq_dec (x + y) 0); [left; lia|right; lia].
  - destruct Hx as [->|Hx]; [split; [left; lia|rewrite Z.mul_0_l; reflexivity]|].
    destruct Hy as [->|Hy]; [split; [left; lia|rewrite Z.mul_0_r, Bool.andb_comm; reflexivity]|].
    assert (0 < x * y) by (apply Z.mul_pos_pos; lia). split; [right; lia|]. rewrite Hx, Hy. cbn. lia.
Qed.

Lemma Qc_ltb_lt x y : Qc_ltb x y = true <-> (x < y)%Qc.
Proof. unfold Qc_ltb. rewrite Qclt_alt. destruct (x ?= y)%Qc; split; intros; congruence. Qed.
Lemma counting_Qc : counting num_Qc.
Proof.
  unfold counting, weight, ngtb. cbn [nltb n0 n1 num_Qc neqb nadd nmul T].
  assert (B : forall b c : bool, (b = true <-> c = true) -> b = c) by (intros [] [] [H1 H2]; auto; try (symmetry; auto); destruct (H1 eq_refl); auto).
  split; [reflexivity|]. split; [reflexivity|]. split.
  { intros v Hv. apply Qc_ltb_lt in Hv. destruct (Qc_eq_bool v 0) eqn:E; [|reflexivity]. apply Qc_eq_bool_correct in E. subst v. discriminate Hv. }
  assert (Padd : forall x y, (0 < x)%Qc -> (0 < y)%Qc -> (0 < x + y)%Qc).
  { intros x y Hx Hy. apply Qclt_le_trans with (x + 0)%Qc; [rewrite Qcplus_0_r; exact Hx|]. apply Qcplus_le_compat; [apply Qcle_refl|apply Qclt_le_weak, Hy]. }
  assert (Pmul : forall x y, (0 < x)%Qc -> (0 < y)%Qc -> (0 < x * y)%Qc).
  { intros x y Hx Hy. replace 0%Qc with (0 * y)%Qc by ring. apply Qcmult_lt_compat_r; auto. }
  split; intros x y Hx Hy.
  - destruct Hx as [->|Hx]; [rewrite Qcplus_0_l; split; [exact Hy|reflexivity]|].
    destruct Hy as [->|Hy]; [rewrite Qcplus_0_r; split; [right; exact Hx|rewrite Hx; reflexivity]|].
    rewrite Hx, Hy. apply Qc_ltb_lt in Hx. apply Qc_ltb_lt in Hy. specialize (Padd x y Hx Hy). apply Qc_ltb_lt in Padd. rewrite Padd. auto.
  - destruct Hx as [->|Hx]; [replace (0 * y)%Qc with 0%Qc by ring; split; [left; reflexivity|reflexivity]|].
    destruct Hy as [->|Hy]; [replace (x * 0)%Qc with 0%Qc by ring; split; [left; reflexivity|rewrite Bool.andb_comm; reflexivity]|].
    rewrite Hx, Hy. apply Qc_ltb_lt in Hx. apply Qc_ltb_lt in Hy. specialize (Pmul x y Hx Hy). apply Qc_ltb_lt in Pmul. rewrite Pmul. auto.
Qed.

(** ** What the theorems say of a run: at most [n] vectors are shown; the d-th is
    right; the search stops at the first accepted vector, which is the result; if
    none is accepted, [n] vectors are shown and the result is zero *)
Definition finds {N} (n : Z) (right : nat -> (Z -> T N) -> Prop) (c : nat -> mat N -> bool) (tr : list (mat N)) (res : mat N) : Prop :=
  (length tr <= Z.to_nat n)%nat /\
  (forall e v, nth_error tr e = Some v -> exists g, vdenotes v n g /\ right (S e) g) /\
  (forall e v, nth_error tr e = Some v -> c (S e) v = true -> length tr = S e) /\
  ((exists e v, length tr = S e /\ nth_error tr e = Some v /\ c (S e) v = true /\ res = v) \/
   (length tr = Z.to_nat n /\ (forall e v, nth_error tr e = Some v -> c (S e) v = false) /\ vdenotes res n (fun _ => n0))).

Lemma outcome_finds {N} n lv (right : nat -> (Z -> T N) -> Prop) c tr res :
  search_outcome n lv c tr res -> (forall d, (d <= Z.to_nat n)%nat -> right d (lv d)) -> finds n right c tr res.
Proof.
  intros (H1 & H2 & H3 & H4) Hr. split; [exact H1|]. split; [|split; [exact H3|exact H4]].
  intros e v Hv. exists (lv (S e)). split; [apply H2, Hv|]. apply Hr. assert (e < length tr)%nat by (apply nth_error_Some; congruence). lia.
Qed.

Lemma at_distance_ext (e1 e2 : Z -> Z -> Prop) s d i : (forall x y, e1 x y <-> e2 x y) -> at_distance e1 s d i <-> at_distance e2 s d i.
Proof.
  intros He. assert (W : forall e1 e2 : Z -> Z -> Prop, (forall x y, e1 x y -> e2 x y) -> forall d i, walk e1 s d i -> walk e2 s d i).
  { intros a b Hab d' i' H. induction H; [constructor|econstructor; eauto]. }
  unfold at_distance. split; intros [H1 H2]; split.
  all: try (eapply W; [|exact H1]; intros; apply He; assumption).
  all: intros x Hx Hw; apply (H2 x Hx); eapply W; [|exact Hw]; intros; apply He; assumption.
Qed.
Lemma edge_ext {N} (a b : Z -> Z -> T N) n : (forall i j, 0 <= i < n -> 0 <= j < n -> a i j = b i j) -> forall x y, edge a n x y <-> edge b n x y.
Proof. intros H x y. unfold edge. split; intros (H1 & H2 & H3); (split; [auto|split; [auto|]]); [rewrite <- H by auto|rewrite H by auto]; auto. Qed.
Lemma is_level_ext {N} (a b : Z -> Z -> T N) n s d v : (forall i j, 0 <= i < n -> 0 <= j < n -> a i j = b i j) -> is_level a n s d v -> is_level b n s d v.
Proof. intros H L i Hi. destruct (L i Hi) as [L1 L2]. rewrite <- (at_distance_ext _ _ s d i (edge_ext a b n H)). auto. Qed.

(** the graph a search on [S] sees; for dense storage, that of the cells *)
Lemma seen_dense {N} (S : mat N) n f i j : is_dense S -> seen_graph S n f i j = f i j.
Proof. destruct S; cbn; tauto. Qed.

Lemma bfs_seen N E (w : world N) (a : ptr) S n f s c : sane N -> counting N -> e_ctx E = None -> n <= Z.of_nat (e_fuel E) ->
  reachable w -> obj w a S -> denotes S n n f -> 0 <= s < n ->
  (forall i j, 0 <= i < n -> 0 <= j < n -> weight (seen_graph S n f i j)) ->
  exists w' q res tr, Search E a s c w = (w', Ok (q, tr)) /\ extends w w' /\ (forall x, ~ obj w q x) /\ obj w' q res /\
    finds n (is_level (seen_graph S n f) n s) c tr res.
Proof.
  intros Hs Hct Hc Hfu Hr Ha Hd Hsn Hw.
  destruct (search_run E w a S n f s c Hs Hc Hr Ha Hd Hfu Hsn) as (w' & q & res & tr & H1 & H2 & H3 & H4 & H5).
  exists w', q, res, tr. do 4 (split; [assumption|]). eapply outcome_finds; [exact H5|]. intros d _.
  pose proof Hct as (A & B & C & _). apply levels_right; auto; [apply Hs|]. intros e _. apply counting_sums; auto. apply Hs.
Qed.

Lemma bfs_dense N E (w : world N) (a : ptr) S n f s c : sane N -> counting N -> e_ctx E = None -> n <= Z.of_nat (e_fuel E) ->
  reachable w -> obj w a S -> is_dense S -> denotes S n n f -> 0 <= s < n ->
  (forall i j, 0 <= i < n -> 0 <= j < n -> weight (f i j)) ->
  exists w' q res tr, Search E a s c w = (w', Ok (q, tr)) /\ extends w w' /\ (forall x, ~ obj w q x) /\ obj w' q res /\
    finds n (is_level f n s) c tr res.
Proof.
  intros Hs Hct Hc Hfu Hr Ha Hp Hd Hsn Hw.
  destruct (bfs_seen N E w a S n f s c Hs Hct Hc Hfu Hr Ha Hd Hsn) as (w' & q & res & tr & H1 & H2 & H3 & H4 & (F1 & F2 & F3)).
  { intros i j Hi Hj. rewrite seen_dense by auto. auto. }
  exists w', q, res, tr. do 4 (split; [assumption|]). split; [exact F1|]. split; [|exact F3].
  intros e v Hv. destruct (F2 e v Hv) as (g & G1 & G2). exists g. split; [exact G1|]. eapply is_level_ext; [|exact G2].
  intros i j _ _. apply seen_dense. exact Hp.
Qed.

Lemma bfs_packed N E (w : world N) (a : ptr) S n f s c : sane N -> counting N -> e_ctx E = None -> n <= Z.of_nat (e_fuel E) ->
  reachable w -> obj w a S -> is_sparse_matrix S -> denotes S n n f -> 0 <= s < n ->
  (forall i j, 0 <= i < n -> 0 <= j < n -> weight (f i j)) -> (forall i, 0 <= i < n -> packed n (f i)) ->
  exists w' q res tr, Search E a s c w = (w', Ok (q, tr)) /\ extends w w' /\ (forall x, ~ obj w q x) /\ obj w' q res /\
    finds n (is_level f n s) c tr res.
Proof.
  intros Hs Hct Hc Hfu Hr Ha Hp Hd Hsn Hw Hpk. pose proof (reach_good _ _ _ Hs Hr Ha) as Hg.
  assert (Esg : forall i j, 0 <= i < n -> 0 <= j < n -> seen_graph S n f i j = f i j).
  { intros i j Hi Hj. eapply shown_packed; eauto. apply Hs. }
  destruct (bfs_seen N E w a S n f s c Hs Hct Hc Hfu Hr Ha Hd Hsn) as (w' & q & res & tr & H1 & H2 & H3 & H4 & (F1 & F2 & F3)).
  { intros i j Hi Hj. rewrite Esg by auto. auto. }
  exists w', q, res, tr. do 4 (split; [assumption|]). split; [exact F1|]. split; [|exact F3].
  intros e v Hv. destruct (F2 e v Hv) as (g & G1 & G2). exists g. split; [exact G1|]. eapply is_level_ext; [|exact G2]. exact Esg.
Qed.

Lemma bfs_panics N E (w : world N) (a : ptr) S s c : sane N -> reachable w -> obj w a S ->
  ~ (0 <= s < mat_Rows S) \/ mat_Rows S <> mat_Columns S -> snd (Search E a s c w) = Panic.
Proof. intros Hs Hr Ha [H|H]; [eapply search_bad_source|eapply search_not_square]; eauto. Qed.

(** ** Fixed-width integers *)

(** the exact number of walks that level [d] counts at each vertex *)
Definition exact_level {sg bits} (f : Z -> Z -> wint sg bits) (n s : Z) (d : nat) : Z -> Z :=
  level (N := num_Z) (fun i j => wval (f i j)) n s d.

Section Fixed.
Context (name : string) (sg : bool) (bits : Z) (Hb : 0 < bits).
Notation N := (num_int name sg bits).
Variables (f : Z -> Z -> wint sg bits) (n s : Z).
Let g : Z -> Z -> Z := fun i j => wval (f i j).
Notation zl := (level (N := num_Z) g n s).
Notation zm := (marked (N := num_Z) g n s).

Lemma sum_wval (u : Z -> wint sg bits) (v : Z -> Z) l : (forall x, In x l -> wrap sg bits (v x) = wval (u x)) -> forall acc acc',
  wrap sg bits acc' = wval acc ->
  wval (fold_left (fun t x => nadd (n := N) t (u x)) l acc) = wrap sg bits (fold_left (fun t x => t + v x) l acc').
Proof.
  induction l as [|x l IH]; intros H acc acc' Ha; cbn [fold_left]; [auto|].
  apply IH; [intros; apply H; right; auto|]. cbn [nadd num_int of_Z wval]. rewrite <- Ha, <- (H x (or_introl eq_refl)).
  pose proof (of_Z_add sg bits Hb acc' (wrap sg bits (v x))) as E1. pose proof (of_Z_add_r sg bits Hb acc' (v x)) as E2.
  rewrite E2 in E1. apply (f_equal wval) in E1. symmetry. exact E1.
Qed.

Lemma levels_track d : (forall e i, (e <= d)%nat -> 0 <= i < n -> wrap sg bits (zl e i) = zl e i) -> forall i, 0 <= i < n ->
  wval (level (N := N) f n s d i) = zl d i /\ wval (marked (N := N) f n s d i) = zm d i.
Proof.
  induction d as [|d IH]; intros Hf i Hi.
  { pose proof (Hf O i (le_n _) Hi) as H. unfold level, marked in *. cbn [bfs_at fst snd] in *.
    destruct (i =? s) eqn:E; cbn [num_int num_Z n1 n0 of_Z wval] in *; split; exact H. }
  assert (IH' : forall i, 0 <= i < n -> wval (level (N := N) f n s d i) = zl d i /\ wval (marked (N := N) f n s d i) = zm d i)
    by (apply IH; intros; apply Hf; lia).
  assert (EL : wval (level (N := N) f n s (S d) i) = zl (S d) i).
  { pose proof (Hf (S d) i (le_n _) Hi) as Hw. rewrite (level_S (N := num_Z)) in *. rewrite (level_S (N := N)).
    assert (Em : ngtb (N := N) (marked (N := N) f n s d i) n0 = ngtb (N := num_Z) (zm d i) n0).
    { unfold ngtb. cbn [nltb num_int num_Z n0 of_Z wval]. rewrite wrap_0 by auto. destruct (IH' i Hi) as [_ ->]. reflexivity. }
    rewrite Em. destruct (ngtb (N := num_Z) (zm d i) n0); [cbn; apply wrap_0; auto|]. rewrite <- Hw. unfold sum_from.
    apply (sum_wval (fun l => nmul (n := N) (f i l) (level (N := N) f n s d l)) (fun l => g i l * zl d l)).
    - intros x Hx. apply in_zrange in Hx. cbn [nmul num_int of_Z wval]. destruct (IH' x Hx) as [-> _]. reflexivity.
    - reflexivity. }
  split; [exact EL|]. rewrite (marked_S (N := N)), (marked_S (N := num_Z)).
  assert (En : neqb (n := N) (level (N := N) f n s (S d) i) n0 = neqb (n := num_Z) (zl (S d) i) n0).
  { cbn [neqb num_int num_Z n0 of_Z wval]. rewrite EL, wrap_0 by auto. reflexivity. }
  rewrite En. destruct (neqb (n := num_Z) (zl (S d) i) n0); [apply IH'; auto|exact EL].
Qed.

Lemma fixed_level d : 0 <= s < n -> (forall i j, 0 <= i < n -> 0 <= j < n -> 0 <= wval (f i j)) ->
  (forall e i, (e <= d)%nat -> 0 <= i < n -> wrap sg bits (zl e i) = zl e i) ->
  is_level (N := N) f n s d (level (N := N) f n s d).
Proof.
  intros Hsn Hpos Hf i Hi. destruct (levels_track d Hf i Hi) as [E _].
  assert (HZ : is_level (N := num_Z) g n s d (zl d)).
  { apply (levels_right (N := num_Z)); auto; try reflexivity.
    - intros v. apply counting_Z.
    - intros e _. apply (counting_sums (N := num_Z)); auto; [apply counting_Z|reflexivity|].
      intros i' j' Hi' Hj'. unfold weight, ngtb. cbn. specialize (Hpos i' j' Hi' Hj'). unfold g. destruct (Z.eq_dec (wval (f i' j')) 0); [left; auto|right; lia]. }
  assert (He : forall x y, edge (N := N) f n x y <-> edge (N := num_Z) g n x y).
  { intros x y. unfold edge, ngtb, g. cbn [nltb num_int num_Z n0 of_Z wval]. rewrite wrap_0 by auto. tauto. }
  destruct (HZ i Hi) as [H1 H2]. rewrite (at_distance_ext _ _ s d i He). split.
  - intros H. specialize (H1 H). unfold ngtb in *. cbn [nltb num_int num_Z n0 of_Z wval] in *. rewrite wrap_0, E by auto. exact H1.
  - intros H. apply (wint_ext sg bits). rewrite E, (H2 H). cbn. symmetry. apply wrap_0. auto.
Qed.

(** [A] bounds the weights: the levels are at most [(n * A) ^ d] *)
Lemma level_bound A d : 0 <= s < n -> 1 <= A -> (forall i j, 0 <= i < n -> 0 <= j < n -> 0 <= wval (f i j) <= A) ->
  forall i, 0 <= i < n -> 0 <= zl d i <= (n * A) ^ Z.of_nat d.
Proof.
  intros Hsn HA Hg. induction d as [|d IH]; intros i Hi.
  { unfold level. cbn [bfs_at snd]. destruct (i =? s); cbn; lia. }
  assert (0 < (n * A) ^ Z.of_nat (S d)) by (apply Z.pow_pos_nonneg; nia).
  rewrite (level_S (N := num_Z)). destruct (ngtb _ _); [cbn; lia|].
  rewrite Nat2Z.inj_succ, Z.pow_succ_r by lia. set (B := (n * A) ^ Z.of_nat d) in *.
  assert (HB : 0 < B) by (apply Z.pow_pos_nonneg; nia). unfold sum_from. cbn [n0 nadd nmul num_Z].
  assert (K : forall l acc, (forall x, In x l -> 0 <= x < n) -> 0 <= acc ->
    0 <= fold_left (fun t x => t + g i x * zl d x) l acc <= acc + zlen l * (A * B)).
  { induction l as [|x l IHl]; intros acc Hl Hacc; cbn [fold_left]; [unfold zlen; cbn; lia|].
    pose proof (Hl x (or_introl eq_refl)) as Hx. pose proof (Hg i x Hi Hx) as Hgx. pose proof (IH x Hx) as Hzx. fold (g i x) in Hgx.
    assert (0 <= g i x * zl d x <= A * B) by (split; [apply Z.mul_nonneg_nonneg; lia|apply Z.mul_le_mono_nonneg; lia]).
    destruct (IHl (acc + g i x * zl d x)) as [I1 I2]; [intros; apply Hl; right; auto|lia|]. zl. nia. }
  destruct (K (zrange 0 n) 0) as [K1 K2]; [intros x Hx; apply in_zrange in Hx; auto|lia|].
  rewrite zlen_zrange in K2 by lia. replace ((n - 0) * (A * B)) with (n * A * B) in K2 by ring. cbn in *. lia.
Qed.
End Fixed.

(** enough room for every count *)
Definition room (sg : bool) (bits : Z) (B : Z) : Prop := B < 2 ^ (if sg then bits - 1 else bits).
Lemma room_wrap sg bits B z : 0 < bits -> room sg bits B -> 0 <= z <= B -> wrap sg bits z = z.
Proof.
  unfold room, wrap. intros Hb Hr Hz. destruct sg; [|apply Z.mod_small; lia].
  assert (2 ^ bits = 2 * 2 ^ (bits - 1)) by (rewrite <- Z.pow_succ_r by lia; f_equal; lia). rewrite Z.mod_small; lia.
Qed.

Lemma seen_dense_all {N} (S : mat N) n f : is_dense S -> seen_graph S n f = f.
Proof. destruct S; cbn [is_dense]; try contradiction; reflexivity. Qed.

Lemma bfs_fixed name sg bits E (w : world (num_int name sg bits)) (a : ptr) S n A f s c :
  In (num_int name sg bits) go_ints -> 0 < bits -> 1 <= A -> room sg bits ((n * A) ^ n) ->
  e_ctx E = None -> n <= Z.of_nat (e_fuel E) ->
  reachable w -> obj w a S -> is_dense S -> denotes S n n f -> 0 <= s < n ->
  (forall i j, 0 <= i < n -> 0 <= j < n -> 0 <= wval (f i j) <= A) ->
  exists w' q res tr, Search E a s c w = (w', Ok (q, tr)) /\ extends w w' /\ (forall x, ~ obj w q x) /\ obj w' q res /\
    finds n (fun d v => is_level (N := num_int name sg bits) f n s d v /\ forall i, 0 <= i < n -> wval (v i) = exact_level f n s d i) c tr res.
Proof.
  intros HN Hb HA Hroom Hc Hfu Hr Ha Hp Hd Hsn Hw.
  destruct (search_run E w a S n f s c (go_ints_sane _ HN) Hc Hr Ha Hd Hfu Hsn) as (w' & q & res & tr & H1 & H2 & H3 & H4 & H5).
  exists w', q, res, tr. do 4 (split; [assumption|]). rewrite (seen_dense_all S n f Hp) in H5.
  eapply outcome_finds; [exact H5|]. intros d Hdn. cbn beta.
  assert (Hfit : forall e i, (e <= d)%nat -> 0 <= i < n ->
    wrap sg bits (level (N := num_Z) (fun i j => wval (f i j)) n s e i) = level (N := num_Z) (fun i j => wval (f i j)) n s e i).
  { intros e i He Hi. apply (room_wrap sg bits ((n * A) ^ n)); auto.
    pose proof (level_bound sg bits f n s A e Hsn HA Hw i Hi) as HB.
    assert ((n * A) ^ Z.of_nat e <= (n * A) ^ n) by (apply Z.pow_le_mono_r; [nia|lia]). lia. }
  split; [apply fixed_level; auto; intros i j Hi Hj; apply Hw; auto|].
  intros i Hi. apply (levels_track name sg bits Hb f n s d Hfit i Hi).
Qed.

(** ** Concrete cases *)

(** the graph of breadthFirst_test.go *)
Definition dG := map (map gi)
  [[0; 0; 0; 1; 0; 0; 0];
   [1; 0; 0; 0; 0; 0; 0];
   [0; 0; 0; 1; 0; 1; 1];
   [1; 0; 0; 0; 0; 0; 1];
   [0; 1; 0; 0; 0; 0; 1];
   [0; 0; 1; 0; 1; 0; 0];
   [0; 1; 0; 0; 0; 0; 0]].
(** one edge, from vertex 2 to vertex 0 *)
Definition dOne := map (map gi) [[0; 0; 1]; [0; 0; 0]; [0; 0; 0]].
(** a CSR matrix whose rows are packed *)
Definition dPack := map (map gi) [[0; 1; 0]; [1; 1; 1]; [1; 0; 0]].
Definition bfs_calls : list (call num_goint) := [KDenseFrom dG; KCSRFrom dOne; KDenseFrom dOne; KCSRFrom dPack].
Definition bfsw : world num_goint := after_all bfs_calls empty_world.
Lemma bfsw_reachable : reachable bfsw.
Proof. unfold bfsw, bfs_calls, dG, dOne, dPack. cbn [map]. reach_ops. Qed.
Definition oG : mat num_goint := MDM (MkDense 7 7 dG).
Definition oOne : mat num_goint := MCSR (MkCSR 3 3 [gi 1] [2] [0; 1; 1; 1]).
Definition oPack : mat num_goint := MCSR (MkCSR 3 3 (map gi [1; 1; 1; 1; 1]) [1; 0; 1; 2; 0] [0; 1; 4; 5]).
Lemma b0 : obj bfsw 0 oG. Proof. at_obj. Qed.
Lemma b1 : obj bfsw 1 oOne. Proof. at_obj. Qed.
Lemma b3 : obj bfsw 3 oPack. Proof. at_obj. Qed.
Lemma g0 : denotes oG 7 7 (cell_of dG).
Proof. apply (denotes_tab bfsw _ _ _ _ _ goint_sane bfsw_reachable b0 eq_refl eq_refl); vm_compute; reflexivity. Qed.
Lemma g1 : denotes oOne 3 3 (cell_of dOne).
Proof. apply (denotes_tab bfsw _ _ _ _ _ goint_sane bfsw_reachable b1 eq_refl eq_refl); vm_compute; reflexivity. Qed.
Lemma g3 : denotes oPack 3 3 (cell_of dPack).
Proof. apply (denotes_tab bfsw _ _ _ _ _ goint_sane bfsw_reachable b3 eq_refl eq_refl); vm_compute; reflexivity. Qed.

(** the vectors a search showed *)
Definition vectors {N} (x : res (ptr * list (mat N))) : res (list (list (T N))) :=
  rmap (fun p => map (fun m => match m with MDV v => dv_values v | _ => [] end) (snd p)) x.

Definition zdG : list (list (T num_Z)) :=
  [[0; 0; 0; 1; 0; 0; 0];
   [1; 0; 0; 0; 0; 0; 0];
   [0; 0; 0; 1; 0; 1; 1];
   [1; 0; 0; 0; 0; 0; 1];
   [0; 1; 0; 0; 0; 0; 1];
   [0; 0; 1; 0; 1; 0; 0];
   [0; 1; 0; 0; 0; 0; 0]].
Definition zw : world num_Z := after_all [KDenseFrom zdG] empty_world.
Lemma zw_reachable : reachable zw. Proof. unfold zw, zdG. reach_ops. Qed.
Definition zoG : mat num_Z := MDM (MkDense 7 7 zdG).
Lemma zb : obj zw 0 zoG. Proof. at_obj. Qed.
Lemma num_Z_sane : sane num_Z. Proof. split; [exact num_Z_zero|exact num_Z_neg]. Qed.
Lemma zg : denotes zoG 7 7 (cell_of zdG).
Proof. apply (denotes_tab zw _ _ _ _ _ num_Z_sane zw_reachable zb eq_refl eq_refl); vm_compute; reflexivity. Qed.
Lemma in_range n i : 0 <= i < Z.of_nat n -> In (Z.to_nat i) (seq 0 n).
Proof. intros H. apply in_seq. lia. Qed.
Lemma zg_weight i j : 0 <= i < 7 -> 0 <= j < 7 -> weight (cell_of zdG i j).
Proof.
  intros Hi Hj. assert (K : forallb (fun r => forallb (fun v : Z => (v =? 0) || (0 <? v)) r) zdG = true) by (vm_compute; reflexivity).
  rewrite forallb_forall in K. unfold cell_of.
  assert (H1 : In (nth (Z.to_nat i) zdG []) zdG) by (apply nth_In; change (length zdG) with 7%nat; lia).
  specialize (K _ H1). rewrite forallb_forall in K.
  assert (H2 : length (nth (Z.to_nat i) zdG []) = 7%nat).
  { assert (L : forallb (fun r => Nat.eqb (length r) 7) zdG = true) by (vm_compute; reflexivity). rewrite forallb_forall in L. apply Nat.eqb_eq, L, H1. }
  assert (H3 : In (nth (Z.to_nat j) (nth (Z.to_nat i) zdG []) 0) (nth (Z.to_nat i) zdG [])) by (apply nth_In; lia).
  specialize (K _ H3). unfold weight, ngtb. cbn [nltb n0 num_Z]. apply Bool.orb_prop in K. destruct K as [K|K]; [left; lia|right; exact K].
Qed.

(** ** Refutations *)
Definition levels_always (sel : forall N : num, mat N -> Prop) (types : num -> Prop) : Prop :=
  forall N E (w : world N) (a : ptr) S n f s c, types N -> e_ctx E = None -> n <= Z.of_nat (e_fuel E) ->
    reachable w -> obj w a S -> sel N S -> denotes S n n f -> 0 <= s < n ->
    (forall i j, 0 <= i < n -> 0 <= j < n -> weight (f i j)) ->
    exists w' q tr, Search E a s c w = (w', Ok (q, tr)) /\
      forall e v, nth_error tr e = Some v -> exists g, vdenotes v n g /\ is_level f n s (Datatypes.S e) g.

(** the vector shown at call [e+1], entry [i] *)
Definition entry_shown {N} (x : res (ptr * list (mat N))) (e : nat) (i : Z) : res (T N) :=
  p <- x ;; match nth_error (snd p) e with Some v => mat_AtVec v i | None => Panic end.
Lemma shown_entry {N} (E : env) (a : ptr) s c (w w' : world N) q tr n e v g i x :
  Search E a s c w = (w', Ok (q, tr)) -> entry_shown (snd (Search E a s c w)) e i = Ok x ->
  nth_error tr e = Some v -> vdenotes v n g -> 0 <= i < n -> g i = x.
Proof.
  intros Hr Hx Hv (_ & _ & Hg) Hi. rewrite Hr in Hx. cbn [snd entry_shown rbind] in Hx. rewrite Hv in Hx. rewrite (Hg i Hi) in Hx. congruence.
Qed.
Lemma shown_some {N} (E : env) (a : ptr) s c (w w' : world N) q tr e i x :
  Search E a s c w = (w', Ok (q, tr)) -> entry_shown (snd (Search E a s c w)) e i = Ok x -> exists v, nth_error tr e = Some v.
Proof. intros Hr Hx. rewrite Hr in Hx. cbn [snd entry_shown rbind] in Hx. destruct (nth_error tr e); [eauto|discriminate]. Qed.

Definition never {N} (d : nat) (v : mat N) : bool := false.

Lemma bfs_sparse_no : ~ levels_always (fun N S => is_sparse_matrix S) (fun N => In N go_ints).
Proof.
  intros H.
  destruct (H _ E0 bfsw 1%nat oOne 3 _ 2 never goint_int eq_refl ltac:(vm_compute; discriminate) bfsw_reachable b1 Logic.I g1 ltac:(lia))
    as (w' & q & tr & Hr & Hlev).
  { intros i j Hi Hj. assert (i = 0 \/ i = 1 \/ i = 2) as [-> |[-> | ->]] by lia; assert (j = 0 \/ j = 1 \/ j = 2) as [-> |[-> | ->]] by lia;
      (left; reflexivity) || (right; reflexivity). }
  assert (Hx : entry_shown (snd (Search E0 1 2 never bfsw)) 0 0 = Ok (gi 0)) by (vm_compute; reflexivity).
  destruct (shown_some _ _ _ _ _ _ _ _ _ _ _ Hr Hx) as (v & Hv). destruct (Hlev 0%nat v Hv) as (g & G1 & G2).
  destruct (G2 0 ltac:(lia)) as [G3 _]. rewrite (shown_entry _ _ _ _ _ _ _ _ _ _ _ _ _ _ Hr Hx Hv G1 ltac:(lia)) in G3.
  discriminate G3. split.
  - econstructor; [constructor|]. repeat split; try lia; reflexivity.
  - intros e He Hw. replace e with 0%nat in Hw by lia. inversion Hw.
Qed.

(** uint8: 16 * 16 walks count as none *)
Definition u8 (z : Z) : T num_uint8 := of_Z z.
Definition dU8 := map (map u8) [[0; 0; 0]; [16; 0; 0]; [0; 16; 0]].
Definition u8w : world num_uint8 := after_all [KDenseFrom dU8] empty_world.
Lemma u8w_reachable : reachable u8w. Proof. unfold u8w, dU8. cbn [map]. reach_ops. Qed.
Definition oU8 : mat num_uint8 := MDM (MkDense 3 3 dU8).
Lemma bu8 : obj u8w 0 oU8. Proof. at_obj. Qed.
Lemma u8_sane : sane num_uint8. Proof. apply go_types_sane. simpl. tauto. Qed.
Lemma gu8 : denotes oU8 3 3 (cell_of dU8).
Proof. apply (denotes_tab u8w _ _ _ _ _ u8_sane u8w_reachable bu8 eq_refl eq_refl); vm_compute; reflexivity. Qed.

Lemma bfs_uint8_no : ~ levels_always (fun N S => is_dense S) (fun N => In N go_ints).
Proof.
  intros H.
  destruct (H _ E0 u8w 0%nat oU8 3 _ 0 never (ltac:(simpl; tauto) : In num_uint8 go_ints) eq_refl ltac:(vm_compute; discriminate) u8w_reachable bu8 Logic.I gu8 ltac:(lia))
    as (w' & q & tr & Hr & Hlev).
  { intros i j Hi Hj. assert (i = 0 \/ i = 1 \/ i = 2) as [-> |[-> | ->]] by lia; assert (j = 0 \/ j = 1 \/ j = 2) as [-> |[-> | ->]] by lia;
      (left; reflexivity) || (right; reflexivity). }
  assert (Hx : entry_shown (snd (Search E0 0 0 never u8w)) 1 2 = Ok (u8 0)) by (vm_compute; reflexivity).
  destruct (shown_some _ _ _ _ _ _ _ _ _ _ _ Hr Hx) as (v & Hv). destruct (Hlev 1%nat v Hv) as (g & G1 & G2).
  destruct (G2 2 ltac:(lia)) as [G3 _]. rewrite (shown_entry _ _ _ _ _ _ _ _ _ _ _ _ _ _ Hr Hx Hv G1 ltac:(lia)) in G3.
  discriminate G3.
  assert (W : forall d i, walk (edge (cell_of dU8) 3) 0 d i -> d = Z.to_nat i).
  { intros d i Hw. induction Hw as [|d j i Hw IH (Hi & Hj & He)]; [reflexivity|].
    assert (i = 0 \/ i = 1 \/ i = 2) as [-> |[-> | ->]] by lia; assert (j = 0 \/ j = 1 \/ j = 2) as [-> |[-> | ->]] by lia; try discriminate He; rewrite IH; reflexivity. }
  split.
  - apply (walk_step _ _ 1 1 2); [apply (walk_step _ _ 0 0 1); [constructor|]|]; repeat split; try lia; reflexivity.
  - intros e He Hw. apply W in Hw. vm_compute in Hw. lia.
Qed.
