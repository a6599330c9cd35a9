(** What a reduction computes does not depend on the storage format. *)
From Coq Require Import Permutation.
From Verif Require Import GoBase Num SparseVec Csr Csc DenseVec DenseMat Mat World Ops Spec Api Operators.
From Verif Require Import BaseProofs MatProofs HeapProofs ReachProofs NumProofs StoreProofs StoreThms OpsThms EwThms OpsProps MaskThms.
From Verif Require Import ReduceConc ReduceProofs ReduceVec ReduceWitness SortProofs MiscProofs Witness StoreWitness OpsWitness.
Import ListNotations.

Section Format.
Context {N : num}.
Notation V := (T N).
Notation ent := (Z * Z * V)%type.
Implicit Types w : world N.
Implicit Types m : mat N.

Lemma in_positions_iff R C i j : In (i, j) (positions R C) <-> 0 <= i < R /\ 0 <= j < C.
Proof.
  unfold positions. rewrite in_flat_map. split.
  - intros (x & Hx & H). apply in_map_iff in H. destruct H as (y & [= -> ->] & Hy). apply in_zrange in Hx, Hy. auto.
  - intros [Hi Hj]. exists i. split; [apply in_zrange; exact Hi|]. apply in_map_iff. exists j. split; [reflexivity|]. apply in_zrange. exact Hj.
Qed.
Lemma NoDup_app2 {A} (l1 l2 : list A) : NoDup l1 -> NoDup l2 -> (forall x, In x l1 -> ~ In x l2) -> NoDup (l1 ++ l2).
Proof.
  intros H1 H2 Hd. induction l1 as [|x l1 IH]; cbn [app]; [exact H2|]. inversion H1; subst. constructor.
  - rewrite in_app_iff. intros [H|H]; [contradiction|]. apply (Hd x); [left; reflexivity|exact H].
  - apply IH; [assumption|]. intros y Hy. apply Hd. right. exact Hy.
Qed.
Lemma NoDup_positions R C : NoDup (positions R C).
Proof.
  unfold positions. pose proof (NoDup_zrange 0 R) as HR. induction (zrange 0 R) as [|i l IH]; cbn [flat_map]; [constructor|].
  inversion HR as [|x y Hn Hl]; subst. apply NoDup_app2.
  - apply FinFun.Injective_map_NoDup; [|apply NoDup_zrange]. intros a b [= E]. exact E.
  - apply IH. exact Hl.
  - intros q Hq Hq'. apply in_map_iff in Hq. destruct Hq as (j & <- & _). apply in_flat_map in Hq'. destruct Hq' as (i' & Hi' & H).
    apply in_map_iff in H. destruct H as (j' & [= -> _] & _). contradiction.
Qed.

Lemma length_positions R C : 0 <= R -> 0 <= C -> Z.of_nat (length (positions R C)) = R * C.
Proof.
  intros HR HC. pose proof (zlen_zrange 0 R HR) as L1. pose proof (zlen_zrange 0 C HC) as L2. rewrite Z.sub_0_r in L1, L2.
  unfold positions, zlen in *. rewrite <- L1 at 2. clear L1. induction (zrange 0 R) as [|i l IH]; cbn [flat_map length]; [reflexivity|].
  rewrite app_length, map_length. lia.
Qed.

(** the cells of a matrix, in row-major order *)
Definition all_entries (R C : Z) (f : Z -> Z -> V) : list ent := map (fun q => (q, f (fst q) (snd q))) (positions R C).

Lemma entries_contents m R C f : zero_ok N -> good m -> denotes m R C f ->
  Permutation (entries m) (filter (fun e => stored m (snd e)) (all_entries R C f)).
Proof.
  intros Hz Hg Hd. pose proof Hd as (ER & EC & _). apply NoDup_Permutation.
  - eapply NoDup_map_inv. apply entries_NoDup. exact Hg.
  - apply NoDup_filter. unfold all_entries. apply FinFun.Injective_map_NoDup; [|apply NoDup_positions]. intros a b [= E _]. exact E.
  - intros [[i j] v]. rewrite entries_spec by auto. rewrite filter_In. unfold all_entries. rewrite in_map_iff. cbn [snd]. split.
    + intros (Hb & Hp & Hn). rewrite (denotes_peek _ _ _ _ _ _ Hd Hb) in Hp. unfold inb in Hb. rewrite ER, EC in Hb. split.
      * exists (i, j). split; [cbn; rewrite Hp; reflexivity|]. apply in_positions_iff. exact Hb.
      * rewrite stored_is_sp. destruct (is_sp m); [rewrite Hn; reflexivity|reflexivity].
    + intros (((i' & j') & [= -> -> <-] & Hin) & Hs). apply in_positions_iff in Hin. cbn [fst snd] in *.
      assert (Hb : inb m i j) by (unfold inb; lia). split; [exact Hb|]. rewrite (denotes_peek _ _ _ _ _ _ Hd Hb). split; [reflexivity|].
      intros Hsp. rewrite stored_is_sp, Hsp in Hs. cbn in Hs. destruct (isz (f i j)); [discriminate|reflexivity].
Qed.

Lemma Permutation_filter {A} (g : A -> bool) l l' : Permutation l l' -> Permutation (filter g l) (filter g l').
Proof.
  induction 1 as [|x l l' H IH|x y l|l l' l'' H1 IH1 H2 IH2]; cbn [filter].
  - constructor.
  - destruct (g x); [constructor|]; exact IH.
  - destruct (g y), (g x); try apply Permutation_refl. constructor.
  - eapply Permutation_trans; eassumption.
Qed.

(** zeros that are not stored do not matter *)
Lemma fold_stored op m cov (l : list ent) : eq_ok N -> comm_monoid op n0 ->
  fold_left op (uncovered cov (filter (fun e => stored m (snd e)) l)) n0 = fold_left op (uncovered cov l) n0.
Proof.
  intros Hq Hm. pose proof Hm as (Ha & Hc & Hu). unfold uncovered. generalize (n0 (n := N)) at 1 2 as a.
  induction l as [|e l IH]; intros a; cbn [filter]; [reflexivity|].
  destruct (stored m (snd e)) eqn:Es; cbn [filter]; destruct (cov (fst (fst e)) (snd (fst e))); cbn [negb map fold_left]; auto.
  rewrite IH. f_equal. assert (E : snd e = n0). { apply Hq. destruct m; cbn in Es; try discriminate; destruct (neqb (snd e) n0); [reflexivity|discriminate|reflexivity|discriminate|reflexivity|discriminate]. }
  rewrite E, Hc. symmetry. apply Hu.
Qed.

(** the values of the cells the mask leaves, in row-major order *)
Definition uncovered_cells (w : world N) (k : mask) (R C : Z) (f : Z -> Z -> V) : list V :=
  map (fun q => f (fst q) (snd q)) (filter (fun q => negb (covers w k (fst q) (snd q))) (positions R C)).

Lemma uncovered_all w k R C f : uncovered (covers w k) (all_entries R C f) = uncovered_cells w k R C f.
Proof.
  unfold uncovered, uncovered_cells, all_entries. induction (positions R C) as [|[i j] l IH]; [reflexivity|]. cbn [map filter fst snd].
  destruct (negb (covers w k i j)); cbn [map fst snd]; rewrite IH; reflexivity.
Qed.

Lemma fold_contents op w k m R C f L : sane N -> eq_ok N -> comm_monoid op n0 -> good m -> denotes m R C f -> enumerates m L ->
  fold_left op (uncovered (covers w k) L) n0 = Reduce op n0 (uncovered_cells w k R C f).
Proof.
  intros Hsn Hq Hm Hg Hd He. rewrite (enumerates_unique m L (proj1 Hg) He).
  assert (HP : Permutation (uncovered (covers w k) (entries m)) (uncovered (covers w k) (filter (fun e => stored m (snd e)) (all_entries R C f)))).
  { unfold uncovered. apply Permutation_map, Permutation_filter, entries_contents; [apply Hsn|exact Hg|exact Hd]. }
  change (Reduce op n0 (uncovered (covers w k) (entries m)) = Reduce op n0 (uncovered_cells w k R C f)).
  rewrite (reduce_perm op n0 _ _ (proj1 Hm) (proj1 (proj2 Hm)) HP). unfold Reduce. rewrite fold_stored by assumption. rewrite uncovered_all. reflexivity.
Qed.

(** the value depends only on the contents *)
Lemma reduce_contents E w (s : ptr) m op k R C f : sane N -> eq_ok N -> comm_monoid op n0 -> reachable w -> obj w s m -> not_sparse_vector m ->
  denotes m R C f -> mask_dims w k R C -> e_ctx E = None -> R * C <= Z.of_nat (e_fuel E) ->
  ReduceMatrixToScalarWithMonoID E s (NewMonoID n0 op) k w = (w, Ok (Reduce op n0 (uncovered_cells w k R C f))).
Proof.
  intros Hsn Hq Hm Hr Ho Hp Hd Hk Hc Hf. pose proof Hd as (ER & EC & _). pose proof (sane_wfw _ Hsn Hr _ _ Ho) as Hw.
  assert (Hg : good m) by (split; [auto|destruct m; try contradiction; discriminate]).
  pose proof (wf_dims m Hw) as [D1 D2]. rewrite ER in D1. rewrite EC in D2.
  assert (Hv : mat_Values m <= R * C).
  { rewrite <- zlen_entries by auto. unfold zlen. rewrite (Permutation_length (entries_contents m R C f (proj1 Hsn) Hg Hd)).
    etransitivity; [apply inj_le, filter_len|]. unfold all_entries. rewrite map_length, length_positions by lia. lia. }
  rewrite (reduce_value E w s m _ k (entries m) Hsn Hr Ho); [|rewrite ER, EC; exact Hk|apply enumerates_entries; exact Hw|exact Hc|lia].
  cbn [mo_op mo_unit NewMonoID]. rewrite (fold_res_total _ op) by reflexivity. f_equal. f_equal.
  apply (fold_contents op w k m R C f); auto. apply enumerates_entries. exact Hw.
Qed.

(** every schedule of the goroutines that returns, returns that value *)
Lemma reduce_contents_schedules w (s : ptr) m op k R C f : sane N -> eq_ok N -> comm_monoid op n0 -> reachable w -> obj w s m -> not_sparse_vector m ->
  denotes m R C f -> mask_dims w k R C ->
  forall can n y v, steps s (NewMonoID n0 op) k can n (start w) y -> st_caller y = CReturned v -> v = Reduce op n0 (uncovered_cells w k R C f).
Proof.
  intros Hsn Hq Hm Hr Ho Hp Hd Hk can n y v Hs Hv. pose proof Hd as (ER & EC & _). pose proof (sane_wfw _ Hsn Hr _ _ Ho) as Hw.
  assert (Hg : good m) by (split; [auto|destruct m; try contradiction; discriminate]).
  rewrite <- (fold_contents op w k m R C f (entries m)); auto; [|apply enumerates_entries; exact Hw].
  assert (E : fold_res (mo_op (NewMonoID n0 op)) (mo_unit (NewMonoID n0 op)) (uncovered (covers w k) (entries m)) = Ok v).
  { destruct can; [apply (reduce_cancellable w s m (NewMonoID n0 op) k (entries m)) in Hs|apply (reduce_all_schedules w s m (NewMonoID n0 op) k (entries m)) in Hs];
      try (destruct Hs as (_ & _ & Hs & _); apply Hs; exact Hv); auto; try (rewrite ER, EC; exact Hk); try (apply enumerates_entries; exact Hw); discriminate. }
  cbn [mo_op mo_unit NewMonoID] in E. rewrite (fold_res_total _ op) in E by reflexivity. injection E as <-. reflexivity.
Qed.
End Format.

(** two matrices with the same cells, whatever their formats, for every Go integer type *)
Lemma sum_ints N E (w : world N) (s : ptr) m k R C f : In N go_ints -> reachable w -> obj w s m -> not_sparse_vector m ->
  denotes m R C f -> mask_dims w k R C -> e_ctx E = None -> R * C <= Z.of_nat (e_fuel E) ->
  ReduceMatrixToScalar E s k w = (w, Ok (Reduce Addition n0 (uncovered_cells w k R C f))).
Proof.
  intros HN. apply reduce_contents; [apply go_ints_sane|apply go_ints_eq|apply addition_monoid]; exact HN.
Qed.
Lemma sum_format N E E' (w w' : world N) (s s' : ptr) m m' R C f : In N go_ints -> reachable w -> reachable w' -> obj w s m -> obj w' s' m' ->
  not_sparse_vector m -> not_sparse_vector m' -> denotes m R C f -> denotes m' R C f ->
  e_ctx E = None -> e_ctx E' = None -> R * C <= Z.of_nat (e_fuel E) -> R * C <= Z.of_nat (e_fuel E') ->
  exists v, snd (ReduceMatrixToScalar E s MNil w) = Ok v /\ snd (ReduceMatrixToScalar E' s' MNil w') = Ok v.
Proof.
  intros HN H1 H2 H3 H4 H5 H6 H7 H8 H9 H10 H11 H12.
  rewrite (sum_ints N E w s m MNil R C f), (sum_ints N E' w' s' m' MNil R C f) by (auto; exact I). eexists. split; reflexivity.
Qed.

(** in floating point the formats disagree: the order of the additions matters *)

Definition fsum : list (list (T num_float64)) := [[fl 9007199254740992; fl 1]; [fl (-9007199254740992); fl 1]].
Definition fsumw : world num_float64 := after_all [KCSRFrom fsum; KCSCFrom fsum] empty_world.
Lemma fsumw_reachable : reachable fsumw.
Proof. unfold fsumw, fsum. reach_ops. Qed.
Definition fvals : list (T num_float64) := [fl 9007199254740992; fl 1; fl (-9007199254740992); fl 1].
Definition fvalsc : list (T num_float64) := [fl 9007199254740992; fl (-9007199254740992); fl 1; fl 1].
Definition fs0 : mat num_float64 := MCSR (MkCSR 2 2 fvals [0; 1; 0; 1] [0; 2; 4]).
Definition fs1 : mat num_float64 := MCSC (MkCSC 2 2 fvalsc [0; 1; 0; 1] [0; 2; 4]).
Lemma hfs0 : obj fsumw 0 fs0. Proof. at_obj. Qed.
Lemma hfs1 : obj fsumw 1 fs1. Proof. at_obj. Qed.
Lemma tfs0 : denotes fs0 2 2 (cell_of fsum).
Proof. apply (denotes_tab fsumw _ _ _ _ _ float64_sane fsumw_reachable hfs0 eq_refl eq_refl); vm_compute; reflexivity. Qed.
Lemma tfs1 : denotes fs1 2 2 (cell_of fsum).
Proof. apply (denotes_tab fsumw _ _ _ _ _ float64_sane fsumw_reachable hfs1 eq_refl eq_refl); vm_compute; reflexivity. Qed.
Lemma float_format_no :
  ~ (forall N E (w : world N) (s s' : ptr) m m' R C f, sane N -> reachable w -> obj w s m -> obj w s' m' ->
      not_sparse_vector m -> not_sparse_vector m' -> denotes m R C f -> denotes m' R C f ->
      e_ctx E = None -> R * C <= Z.of_nat (e_fuel E) ->
      exists v, snd (ReduceMatrixToScalar E s MNil w) = Ok v /\ snd (ReduceMatrixToScalar E s' MNil w) = Ok v).
Proof.
  intros H. destruct (H _ E0 fsumw 0%nat 1%nat fs0 fs1 2 2 _ float64_sane fsumw_reachable hfs0 hfs1 I I tfs0 tfs1 eq_refl ltac:(vm_compute; discriminate)) as (v & H1 & H2).
  assert (Ok v = Ok (fl 1)) as E1 by (rewrite <- H1; vm_compute; reflexivity).
  assert (Ok v = Ok (fl 2)) as E2 by (rewrite <- H2; vm_compute; reflexivity).
  rewrite E1 in E2. revert E2. vm_compute. discriminate.
Qed.
Definition sumw : world num_goint := after_all [KCSRFrom [[gi 3; gi 0]; [gi 4; gi (-9)]]; KDenseFrom [[gi 3; gi 0]; [gi 4; gi (-9)]]] empty_world.
Definition dsum := [[gi 3; gi 0]; [gi 4; gi (-9)]].
Lemma sumw_reachable : reachable sumw. Proof. unfold sumw. reach_ops. Qed.
Definition sum0 : mat num_goint := MCSR (MkCSR 2 2 [gi 3; gi 4; gi (-9)] [0; 0; 1] [0; 1; 3]).
Definition sum1 : mat num_goint := MDM (MkDense 2 2 dsum).
Lemma hsum0 : obj sumw 0 sum0. Proof. at_obj. Qed.
Lemma hsum1 : obj sumw 1 sum1. Proof. at_obj. Qed.
Lemma tsum0 : denotes sum0 2 2 (cell_of dsum).
Proof. apply (denotes_tab sumw _ _ _ _ _ goint_sane sumw_reachable hsum0 eq_refl eq_refl); vm_compute; reflexivity. Qed.
Lemma tsum1 : denotes sum1 2 2 (cell_of dsum).
Proof. apply (denotes_tab sumw _ _ _ _ _ goint_sane sumw_reachable hsum1 eq_refl eq_refl); vm_compute; reflexivity. Qed.
