(** The math packages: theorems for the Go element types, concrete cases and
    refutations. *)
From Coq Require Import String Permutation QArith Qcanon.
From Verif Require Import GoBase Num SparseVec Csr Csc DenseVec DenseMat Mat World Ops Spec Api MathOps.
From Verif Require Import BaseProofs MatProofs HeapProofs ReachProofs NumProofs StoreProofs StoreThms OpsProps MaskThms Witness StoreWitness OpsWitness ReduceWitness.
From Verif Require Import Steps RrefProofs RrefMore StrassenProofs StrassenMore.

(** ** Symmetry *)
Lemma SFopp_zero x y : SpecFloat.SFeqb x (SpecFloat.S754_zero false) = true -> SpecFloat.SFeqb (SpecFloat.SFopp x) y = SpecFloat.SFeqb (SpecFloat.S754_zero false) y.
Proof. destruct x as [s|s| |s m e]; [|destruct s| |destruct s]; try discriminate. destruct y; destruct s; reflexivity. Qed.

Lemma go_types_neg_zero N : In N go_types -> neg_zero N.
Proof.
  intros [<-|[<-|H]]; [intros x y; apply SFopp_zero|intros x y; apply SFopp_zero|].
  destruct (go_ints_form N H) as (name & sg & bits & Hb & ->). intros x y Hx. cbn [neqb nneg n0 num_int wval of_Z] in *.
  rewrite wrap_0 in * by auto. apply Z.eqb_eq in Hx. rewrite Hx. cbn [of_Z wval]. change (- 0) with 0. rewrite wrap_0 by auto. reflexivity.
Qed.

Lemma symmetric_go N E (w : world N) (s : ptr) S R C f : In N go_types -> reachable w -> obj w s S -> comparable E S -> denotes S R C f ->
  R * C <= Z.of_nat (e_fuel E) -> (is_vector S -> R < 2 ^ 63) ->
  exists w' b, Symmetric E s w = (w', Ok b) /\ extends w w' /\
    (b = true <-> R = C /\ forall i j, 0 <= i < R -> 0 <= j < C -> neqb (f i j) (f j i) = true).
Proof. intros HN. apply symmetric_exact; [apply go_types_sane|apply go_types_cmp]; exact HN. Qed.

Lemma skew_go N E (w : world N) (s : ptr) S R C f : In N go_types -> reachable w -> obj w s S -> comparable E S -> denotes S R C f ->
  R * C <= Z.of_nat (e_fuel E) -> (is_vector S -> R < 2 ^ 63) ->
  exists w' b, SkewSymmetric E s w = (w', Ok b) /\ extends w w' /\
    (b = true <-> R = C /\ forall i j, 0 <= i < R -> 0 <= j < C -> neqb (nneg (f i j)) (f j i) = true).
Proof. intros HN. apply skew_exact; [apply go_types_sane|apply go_types_cmp|apply go_types_neg_zero]; exact HN. Qed.

(** ** Strassen multiplication *)

(** every call receives its seven sub-products in some order *)
Definition arrivals (sched : list Z -> list Z) : Prop := forall path, Permutation (sched path) [1; 2; 3; 4; 5; 6; 7].
(** no dense type is registered as sparse *)
Definition dense_unregistered (N : num) (E : env) : Prop := forall d : mat N, is_dense d -> IsSparseMatrix (e_reg E) d = false.

Lemma strassen_ring N E (w : world N) sched crossover (a b : ptr) A B m k f g : let n := m * 2 ^ Z.of_nat k in
  ring_ok N -> sane N -> arrivals sched -> e_ctx E = None -> dense_unregistered N E ->
  0 <= m <= crossover -> n * n < 2 ^ 63 -> n * n <= Z.of_nat (e_fuel E) ->
  reachable w -> obj w a A -> obj w b B -> denotes A n n f -> denotes B n n g -> (is_dense A /\ is_dense B \/ crossover < n) ->
  exists w' t O, MultiplyCrossoverPoint E sched a b crossover w = (w', Ok t) /\ extends w w' /\ (forall x, ~ obj w t x) /\ obj w' t O /\ is_dense O /\
    denotes O n n (fun i j => sum_from n0 (fun l => nmul (f i l) (g l j)) 0 n).
Proof. intros n HR Hs Ha Hc Hreg. apply strassen_product; auto. Qed.

Lemma strassen_ints N E (w : world N) sched (a b : ptr) A B m k f g : let n := m * 2 ^ Z.of_nat k in
  In N go_ints -> arrivals sched -> e_ctx E = None -> dense_unregistered N E ->
  0 <= m <= 64 -> n * n < 2 ^ 63 -> n * n <= Z.of_nat (e_fuel E) ->
  reachable w -> obj w a A -> obj w b B -> is_dense A -> is_dense B -> denotes A n n f -> denotes B n n g ->
  exists w' t O, strassen_Multiply E sched a b w = (w', Ok t) /\ extends w w' /\ (forall x, ~ obj w t x) /\ obj w' t O /\ is_dense O /\
    denotes O n n (fun i j => sum_from n0 (fun l => nmul (f i l) (g l j)) 0 n).
Proof.
  intros n HN Ha Hc Hreg Hm HB HF Hr Oa Ob Pa Pb Da Db. unfold strassen_Multiply.
  apply (strassen_ring N E w sched 64 a b A B m k f g); auto; [apply go_ints_ring|apply go_ints_sane]; exact HN.
Qed.

Lemma strassen_every_size N E (w : world N) sched crossover (a b : ptr) A B R n C f g :
  ring_ok N -> sane N -> arrivals sched -> e_ctx E = None -> dense_unregistered N E ->
  0 <= crossover < n -> n * n < 2 ^ 63 -> n * n <= Z.of_nat (e_fuel E) ->
  reachable w -> obj w a A -> obj w b B -> denotes A R n f -> denotes B n C g -> 2 * (n / 2) <= R -> 2 * (n / 2) <= C ->
  exists w' t O, MultiplyCrossoverPoint E sched a b crossover w = (w', Ok t) /\ extends w w' /\ (forall x, ~ obj w t x) /\ obj w' t O /\ is_dense O /\
    let l := survivors (Z.to_nat n) crossover n in denotes O (zlen l) (zlen l) (product_over l f g).
Proof.
  intros HR Hs Ha Hc Hreg Hn HB HF Hr Oa Ob Da Db H1 H2.
  destruct (strassen_exact HR E Hc Hreg Hs sched crossover Ha w a b A B R n C f g) as (w' & t & E1 & X1 & F1 & (d & O1 & D1)); auto; try lia.
  exists w', t, (MDM d). do 4 (split; [assumption|]). split; [exact Logic.I|exact D1].
Qed.

Lemma strassen_too_small N E (w : world N) sched crossover (a b : ptr) A B R n C f g :
  sane N -> e_ctx E = None -> 2 <= n -> crossover < n -> n * n < 2 ^ 63 -> n * n <= Z.of_nat (e_fuel E) ->
  reachable w -> obj w a A -> obj w b B -> denotes A R n f -> denotes B n C g -> ~ is_vector A -> ~ is_vector B ->
  R < 2 * (n / 2) \/ C < 2 * (n / 2) -> exists w', MultiplyCrossoverPoint E sched a b crossover w = (w', Panic).
Proof. intros Hs Hc. apply strassen_panic; auto. Qed.

Lemma strassen_endless N E (w : world N) sched crossover (a b : ptr) A B R n C f g :
  sane N -> arrivals sched -> e_ctx E = None -> dense_unregistered N E ->
  crossover < 0 -> n * n < 2 ^ 63 -> n * n <= Z.of_nat (e_fuel E) ->
  reachable w -> obj w a A -> obj w b B -> denotes A R n f -> denotes B n C g -> 2 * (n / 2) <= R -> 2 * (n / 2) <= C ->
  exists w', MultiplyCrossoverPoint E sched a b crossover w = (w', Diverge).
Proof. intros Hs Ha Hc Hreg. apply strassen_diverges; auto. Qed.

Lemma strassen_no_fit N E (w : world N) sched crossover (a b : ptr) A B R n n' C f g :
  obj w a A -> obj w b B -> denotes A R n f -> denotes B n' C g -> n <> n' ->
  MultiplyCrossoverPoint E sched a b crossover w = (w, Panic).
Proof. apply strassen_mismatch. Qed.

(** ** Reduced row echelon form *)
Lemma reduced_field N E (w : world N) (s : ptr) S R C f : field_ok N -> reachable w -> obj w s S -> not_sparse_vector S -> denotes S R C f ->
  R * C <= Z.of_nat (e_fuel E) ->
  exists w' t O g, Reduced E s w = (w', Ok t) /\ extends w w' /\ (forall x, ~ obj w t x) /\ obj w' t O /\ same_storage S O /\
    denotes O R C g /\ is_rref R C g /\ row_equiv R C f g /\ (forall x, solves R C f x <-> solves R C g x).
Proof.
  intros HF Hr Ho Ps Hd Hf. destruct (reduced_rref HF E w s S R C f Hr Ho Ps Hd Hf) as (w' & t & O & g & H1 & H2 & H3 & H4 & H5 & H6 & H7 & H8).
  exists w', t, O, g. do 8 (split; [assumption|]). apply (row_equiv_solves HF). exact H8.
Qed.

Lemma reduced_go N E (w : world N) (s : ptr) S R C f : In N go_types -> reachable w -> obj w s S -> not_sparse_vector S -> denotes S R C f ->
  R * C <= Z.of_nat (e_fuel E) ->
  exists w' t O g, Reduced E s w = (w', Ok t) /\ extends w w' /\ (forall x, ~ obj w t x) /\ obj w' t O /\ same_storage S O /\ denotes O R C g.
Proof. intros HN. apply reduced_total; [apply go_types_sane; exact HN|]. pose proof go_div_total as H. rewrite Forall_forall in H. auto. Qed.

Lemma reduced_ints_fixed N E (w : world N) (s : ptr) S R C f : In N go_ints -> reachable w -> obj w s S -> not_sparse_vector S -> denotes S R C f ->
  R * C <= Z.of_nat (e_fuel E) -> is_rref R C f ->
  exists w' t O, Reduced E s w = (w', Ok t) /\ extends w w' /\ (forall x, ~ obj w t x) /\ obj w' t O /\ same_storage S O /\ denotes O R C f.
Proof.
  intros HN. pose proof go_ints_one as H. rewrite Forall_forall in H. destruct (H N HN) as [H10 H11].
  apply reduced_fixed; auto; [apply go_ints_ring|apply go_ints_eq|apply go_ints_sane]; exact HN.
Qed.

(** ** Concrete cases *)
Definition dSym := [[gi 1; gi 2; gi 3]; [gi 2; gi 5; gi 6]; [gi 3; gi 6; gi 9]].
Definition dSkew := [[gi 0; gi 2; gi (-3)]; [gi (-2); gi 0; gi 6]; [gi 3; gi (-6); gi 0]].
Definition d4 := [[gi 1; gi 2; gi 3; gi 4]; [gi 5; gi 6; gi 7; gi 8]; [gi 1; gi 0; gi 1; gi 0]; [gi (-1); gi 2; gi (-3); gi 4]].
Definition d4' := [[gi 2; gi 0; gi 1; gi 0]; [gi 0; gi 2; gi 0; gi 1]; [gi 1; gi 1; gi 1; gi 1]; [gi 3; gi 5; gi 7; gi 9]].
Definition dTwo := [[gi 2; gi 0]; [gi 0; gi 1]].
Definition dRref := [[gi 1; gi 7; gi 0]; [gi 0; gi 0; gi 1]].
Definition math_calls : list (call num_goint) :=
  [KDenseFrom dSym; KDenseFrom dSkew; KDenseFrom d4; KDenseFrom d4'; KDenseFrom dTwo; KCSRFrom dSym; KCSRFrom dRref; KCSRFrom d4].
Definition mathw : world num_goint := after_all math_calls empty_world.
Lemma mathw_reachable : reachable mathw.
Proof. unfold mathw, math_calls, dSym, dSkew, d4, d4', dTwo, dRref. reach_ops. Qed.
Definition oSym : mat num_goint := MDM (MkDense 3 3 dSym).
Definition oSkew : mat num_goint := MDM (MkDense 3 3 dSkew).
Definition o4 : mat num_goint := MDM (MkDense 4 4 d4).
Definition o4' : mat num_goint := MDM (MkDense 4 4 d4').
Definition oTwo : mat num_goint := MDM (MkDense 2 2 dTwo).
Definition cSym : mat num_goint := MCSR (MkCSR 3 3 (map gi [1; 2; 3; 2; 5; 6; 3; 6; 9]) [0; 1; 2; 0; 1; 2; 0; 1; 2] [0; 3; 6; 9]).
Definition cRref : mat num_goint := MCSR (MkCSR 2 3 (map gi [1; 7; 1]) [0; 1; 2] [0; 2; 3]).
Lemma k0 : obj mathw 0 oSym. Proof. at_obj. Qed.
Lemma k1 : obj mathw 1 oSkew. Proof. at_obj. Qed.
Lemma k2 : obj mathw 2 o4. Proof. at_obj. Qed.
Lemma k3 : obj mathw 3 o4'. Proof. at_obj. Qed.
Lemma k4 : obj mathw 4 oTwo. Proof. at_obj. Qed.
Lemma k5 : obj mathw 5 cSym. Proof. at_obj. Qed.
Lemma k6 : obj mathw 6 cRref. Proof. at_obj. Qed.
Ltac mtab H := apply (denotes_tab mathw _ _ _ _ _ goint_sane mathw_reachable H eq_refl eq_refl); vm_compute; reflexivity.
Lemma z0 : denotes oSym 3 3 (cell_of dSym). Proof. mtab k0. Qed.
Lemma z1 : denotes oSkew 3 3 (cell_of dSkew). Proof. mtab k1. Qed.
Lemma z2 : denotes o4 4 4 (cell_of d4). Proof. mtab k2. Qed.
Lemma z3 : denotes o4' 4 4 (cell_of d4'). Proof. mtab k3. Qed.
Lemma z4 : denotes oTwo 2 2 (cell_of dTwo). Proof. mtab k4. Qed.
Lemma z5 : denotes cSym 3 3 (cell_of dSym). Proof. mtab k5. Qed.
Lemma z6 : denotes cRref 2 3 (cell_of dRref). Proof. mtab k6. Qed.

(** the sub-products arrive in descending order in calls at even depth, in
    ascending order otherwise *)
Definition mixed (path : list Z) : list Z := if Nat.even (length path) then [7; 6; 5; 4; 3; 2; 1] else [1; 2; 3; 4; 5; 6; 7].
Lemma mixed_arrivals : arrivals mixed.
Proof.
  intros path. unfold mixed. destruct (Nat.even (length path)); [|apply Permutation_refl].
  change [7; 6; 5; 4; 3; 2; 1] with (rev [1; 2; 3; 4; 5; 6; 7]). apply Permutation_sym, Permutation_rev.
Qed.
Lemma goint_ring : ring_ok num_goint. Proof. apply go_ints_ring. simpl. tauto. Qed.
Lemma goint_unregistered E : e_reg E = reg0 -> dense_unregistered num_goint E.
Proof. intros HE d _. rewrite HE. apply ints_unregistered. simpl. tauto. Qed.
Lemma goint_type : In num_goint go_types. Proof. simpl. tauto. Qed.
Lemma goint_int : In num_goint go_ints. Proof. simpl. tauto. Qed.
Lemma cRref_form : is_rref 2 3 (cell_of dRref).
Proof.
  exists 2, (fun i => if i =? 0 then 0 else 2). split; [lia|]. split; [intros i Hi; destruct (i =? 0); lia|].
  split; [intros i i' H1 H2; replace (i =? 0) with true by lia; replace (i' =? 0) with false by lia; lia|].
  split; [intros i Hi; assert (i = 0 \/ i = 1) as [-> | ->] by lia; reflexivity|].
  split; [intros i i' Hi Hi' Hne; assert (i = 0 /\ i' = 1 \/ i = 1 /\ i' = 0) as [[-> ->]|[-> ->]] by lia; reflexivity|].
  split; [|intros; lia]. intros i j Hi Hj. assert (i = 0 \/ i = 1) as [-> | ->] by lia; cbn in Hj; [lia|].
  assert (j = 0 \/ j = 1) as [-> | ->] by lia; reflexivity.
Qed.

(** ** Refutations *)

(** an integer matrix whose [Reduced] is not in reduced row echelon form *)
Lemma reduced_int_no :
  ~ (forall N E (w : world N) (s : ptr) S R C f,
      In N go_ints -> reachable w -> obj w s S -> is_dense S -> denotes S R C f -> R * C <= Z.of_nat (e_fuel E) ->
      exists w' t O g, Reduced E s w = (w', Ok t) /\ obj w' t O /\ denotes O R C g /\ is_rref R C g).
Proof.
  intros H. destruct (H _ E0 mathw 4%nat oTwo 2 2 _ goint_int mathw_reachable k4 Logic.I z4 ltac:(vm_compute; discriminate)) as (w' & t & O & g & Hr & Ho & Hd & Hg).
  assert (Et : Ok t = Ok 8%nat) by (apply (f_equal snd) in Hr; cbn [snd] in Hr; rewrite <- Hr; vm_compute; reflexivity). injection Et as ->.
  assert (G00 : g 0 0 = gi 0) by (apply (read_back (Reduced E0 4) mathw w' _ 8%nat O 2 2 g 0 0 _ Hr Ho Hd); [lia|lia|vm_compute; reflexivity]).
  assert (G01 : g 0 1 = gi 0) by (apply (read_back (Reduced E0 4) mathw w' _ 8%nat O 2 2 g 0 1 _ Hr Ho Hd); [lia|lia|vm_compute; reflexivity]).
  assert (G11 : g 1 1 = gi 1) by (apply (read_back (Reduced E0 4) mathw w' _ 8%nat O 2 2 g 1 1 _ Hr Ho Hd); [lia|lia|vm_compute; reflexivity]).
  destruct Hg as (k & piv & Hk & P1 & _ & P3 & _ & _ & P6).
  assert (Hne : gi 1 <> gi 0) by (intros He; apply (f_equal wval) in He; vm_compute in He; discriminate).
  destruct (Z_lt_le_dec k 2) as [Hlt|Hge]; [apply Hne; rewrite <- G11; apply P6; lia|].
  specialize (P1 0 ltac:(lia)). specialize (P3 0 ltac:(lia)). apply Hne. change (gi 1) with (n1 (n := num_goint)). rewrite <- P3.
  assert (piv 0 = 0 \/ piv 0 = 1) as [-> | ->] by lia; assumption.
Qed.

(** a float64 matrix whose [Reduced] is not in reduced row echelon form: 49 * (1 / 49) <> 1 *)
Definition f49 : list (list (T num_float64)) := [[fl 49]].
Definition w49 : world num_float64 := after_all [KDenseFrom f49] empty_world.
Lemma w49_reachable : reachable w49. Proof. unfold w49, f49. reach_ops. Qed.
Definition o49 : mat num_float64 := MDM (MkDense 1 1 f49).
Lemma k49 : obj w49 0 o49. Proof. at_obj. Qed.
Lemma z49 : denotes o49 1 1 (cell_of f49).
Proof. apply (denotes_tab w49 _ _ _ _ _ float64_sane w49_reachable k49 eq_refl eq_refl); vm_compute; reflexivity. Qed.

Lemma reduced_float_no :
  ~ (forall E (w : world num_float64) (s : ptr) S R C f,
      reachable w -> obj w s S -> is_dense S -> denotes S R C f -> R * C <= Z.of_nat (e_fuel E) ->
      exists w' t O g, Reduced E s w = (w', Ok t) /\ obj w' t O /\ denotes O R C g /\ is_rref R C g).
Proof.
  intros H. destruct (H E0 w49 0%nat o49 1 1 _ w49_reachable k49 Logic.I z49 ltac:(vm_compute; discriminate)) as (w' & t & O & g & Hr & Ho & Hd & Hg).
  assert (Et : Ok t = Ok 1%nat) by (apply (f_equal snd) in Hr; cbn [snd] in Hr; rewrite <- Hr; vm_compute; reflexivity). injection Et as ->.
  assert (G00 : g 0 0 = SpecFloat.S754_finite false 9007199254740991 (-53)) by (apply (read_back (Reduced E0 0) w49 w' _ 1%nat O 1 1 g 0 0 _ Hr Ho Hd); [lia|lia|vm_compute; reflexivity]).
  destruct Hg as (k & piv & Hk & P1 & _ & P3 & _ & _ & P6).
  destruct (Z_lt_le_dec k 1) as [Hlt|Hge].
  - specialize (P6 0 0 ltac:(lia) ltac:(lia)). rewrite G00 in P6. discriminate P6.
  - specialize (P1 0 ltac:(lia)). specialize (P3 0 ltac:(lia)). replace (piv 0) with 0 in P3 by lia. rewrite G00 in P3. vm_compute in P3. discriminate P3.
Qed.

(** the product of two 3 x 3 matrices with crossover 2 *)
Lemma strassen_no :
  ~ (forall N E (w : world N) sched crossover (a b : ptr) A B n f g,
      In N go_ints -> arrivals sched -> e_ctx E = None -> dense_unregistered N E -> 0 <= crossover ->
      n * n < 2 ^ 63 -> n * n <= Z.of_nat (e_fuel E) ->
      reachable w -> obj w a A -> obj w b B -> is_dense A -> is_dense B -> denotes A n n f -> denotes B n n g ->
      exists w' t O, MultiplyCrossoverPoint E sched a b crossover w = (w', Ok t) /\ obj w' t O /\
        denotes O n n (fun i j => sum_from n0 (fun l => nmul (f i l) (g l j)) 0 n)).
Proof.
  intros H. destruct (H _ E0 mathw mixed 2 0%nat 1%nat oSym oSkew 3 _ _ goint_int mixed_arrivals eq_refl (goint_unregistered E0 eq_refl) ltac:(lia)
    ltac:(lia) ltac:(vm_compute; discriminate) mathw_reachable k0 k1 Logic.I Logic.I z0 z1) as (w' & t & O & Hr & Ho & (HR & _)).
  assert (Et : Ok t = snd (MultiplyCrossoverPoint E0 mixed 0 1 2 mathw)) by (rewrite Hr; reflexivity).
  assert (Es : snd (p_Rows t (fst (MultiplyCrossoverPoint E0 mixed 0 1 2 mathw))) = Ok 3) by (rewrite Hr; cbn [fst]; rewrite (p_Rows_ok _ _ _ Ho), HR; reflexivity).
  revert Et Es. set (r := MultiplyCrossoverPoint E0 mixed 0 1 2 mathw).
  assert (Hrow : match snd r with Ok t => snd (p_Rows t (fst r)) | _ => Panic end = Ok 2) by (vm_compute; reflexivity).
  intros Et Es. rewrite <- Et, Es in Hrow. discriminate Hrow.
Qed.

(** ** Exact rationals *)
Definition qc (z : Z) : T num_Qc := Q2Qc (inject_Z z).
Definition dQc := [[qc 0; qc 2; qc 4]; [qc 3; qc 6; qc 3]].
Definition qcw : world num_Qc := after_all [KDenseFrom dQc; KCSCFrom dQc] empty_world.
Lemma qc_sane : sane num_Qc. Proof. exact (field_sane num_Qc_field). Qed.
Lemma qcw_reachable : reachable qcw.
Proof. unfold qcw, dQc. reach_ops. Qed.
Definition oQc : mat num_Qc := MDM (MkDense 3 2 dQc).
Lemma kQc : obj qcw 0 oQc. Proof. at_obj. Qed.
Lemma zQc : denotes oQc 2 3 (cell_of dQc).
Proof. apply (denotes_tab qcw _ _ _ _ _ qc_sane qcw_reachable kQc eq_refl eq_refl); vm_compute; reflexivity. Qed.
Definition matches (l : list (res (T num_Qc))) (k : list Z) : bool :=
  forallb (fun p => match fst p with Ok x => neqb x (qc (snd p)) | _ => false end) (List.combine l k) && (length l =? length k)%nat.
