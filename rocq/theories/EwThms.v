(** Element-wise operators, equality, scalar multiplication. *)
From Coq Require Import String Sorting.Sorted.
From Verif Require Import GoBase Num SparseVec Csr Csc DenseVec DenseMat Mat World Ops.
From Verif Require Import BaseProofs AssocProofs CsrProofs SvProofs CsrIterProofs CscProofs DenseProofs MatProofs.
From Verif Require Import Spec HeapProofs Api ReachProofs StoreProofs VecProofs LoopProofs StoreThms OpsProofs OpsThms MulThms.

Section Ew.
Context {N : num}.
Notation V := (T N).
Notation mat := (mat N).
Notation ent := (Z * Z * V)%type.
Notation row := (list (Z * V)).
Notation world := (world N).
Notation M := (M N).
Implicit Types w : world.
Implicit Types m S Mo O : mat.

Lemma enumerates_unique m l : wf m -> enumerates m l -> l = entries m.
Proof.
  intros Hw H. specialize (H (Z.to_nat (mat_Values m)) ltac:(lia)). rewrite loop_Next_ok in H by (auto; lia). congruence.
Qed.

Lemma stored_is_sp m v : stored m v = negb (is_sp m && isz v).
Proof. destruct m; cbn; unfold isz; try reflexivity. Qed.

(** a complete enumeration visits exactly the stored cells *)
Lemma visited_stored m R C f l i j : zero_ok N -> good m -> denotes m R C f -> enumerates m l ->
  0 <= i < R -> 0 <= j < C -> visited (map fst l) i j = stored m (f i j).
Proof.
  intros Hz Hg Hd He Hi Hj. rewrite (enumerates_unique _ _ (proj1 Hg) He). pose proof Hd as (ER & EC & _).
  assert (Hb : inb m i j) by (unfold inb; lia).
  rewrite visited_entries, (denotes_peek _ _ _ _ _ _ Hd Hb), stored_is_sp; auto.
Qed.

(** the cells of the matrix after a complete run *)
Lemma complete m R C f l O' R' C' cov (val : Z -> Z -> V) h :
  zero_ok N -> good m -> denotes m R C f -> enumerates m l -> R' = R -> C' = C ->
  denotes O' R' C' (fun i j => if visited (map fst l) i j && cov i j then val i j else h i j) ->
  denotes O' R C (fun i j => if stored m (f i j) && cov i j then val i j else h i j).
Proof.
  intros Hz Hg Hd He -> -> H. eapply denotes_ext; [|exact H]. intros i j Hi Hj. cbn beta.
  rewrite (visited_stored m R C f l i j) by auto. reflexivity.
Qed.

(** ** elementWiseMultiply *)
Lemma ewm_out_run E w (s m : ptr) k t S Mo O R C f g h (sp : bool) :
  zero_ok N -> wfw w -> obj w s S -> obj w m Mo -> obj w t O ->
  not_sparse_vector S -> not_sparse_vector Mo -> not_sparse_vector O ->
  denotes S R C f -> denotes Mo R C g -> denotes O R C h -> mask_dims w k R C ->
  IsSparseMatrix (e_reg E) S = sp -> s <> t -> m <> t ->
  let Src := if sp then S else Mo in
  mat_Values Src <= Z.of_nat (e_fuel E) ->
  exists w' O' d rest, elementWiseMultiply E s m k t w = (w', Ok tt) /\ extends_but t w w' /\ obj w' t O' /\ same_shape O O' /\ wf O' /\
    enumerates Src (d ++ rest) /\ until_done 1 E w w' d rest /\
    denotes O' R C (fun i j => if visited (map fst d) i j &&
        ((if sp then neqb (f i j) (g i j) else neqb (g i j) (f i j)) && negb (covers w k i j))
        then kept O (if sp then f i j else g i j) else h i j).
Proof.
  intros Hz Hw Hs Hm Ho Ps Pm Po Ds Dm Do Hk Hsp Hst Hmt Src Hfu.
  pose proof Ds as (SR & SC & _). pose proof Dm as (MR & MC & _). pose proof Do as (OR & OC & _).
  assert (Gs : good S) by (eapply plain_is_good; eauto). assert (Gm : good Mo) by (eapply plain_is_good; eauto).
  assert (Go : good O) by (eapply plain_is_good; eauto).
  unfold elementWiseMultiply.
  assert (Hmd : mask_dims w k (mat_Rows O) (mat_Columns O)) by (rewrite OR, OC; exact Hk).
  assert (Hmw : mask_wf w k) by (eapply mask_dims_wf; eauto).
  rewrite (mbind_ok _ _ _ _ _ (check_mask_ok _ _ _ _ Ho Hmd)).
  rewrite (mbind_ok _ _ _ _ _ (p_IsSparse_ok E _ _ _ Hs)), Hsp.
  destruct (Nat.eqb_spec m t) as [|_]; [contradiction|]. destruct (Nat.eqb_spec s t) as [|_]; [contradiction|].
  set (src := if sp then s else m). set (other := if sp then m else s). set (Oth := if sp then Mo else S).
  assert (Hsrc : obj w src Src) by (unfold src, Src; destruct sp; auto).
  assert (Hoth : obj w other Oth) by (unfold other, Oth; destruct sp; auto).
  assert (Gsrc : good Src) by (unfold Src; destruct sp; auto).
  assert (Goth : good Oth) by (unfold Oth; destruct sp; auto).
  assert (Hnt : src <> t) by (unfold src; destruct sp; auto).
  assert (HinS : forall i j, inb Src i j <-> 0 <= i < R /\ 0 <= j < C).
  { intros i j. unfold inb, Src. destruct sp; rewrite ?SR, ?SC, ?MR, ?MC; tauto. }
  assert (HinT : forall i j, inb Oth i j <-> 0 <= i < R /\ 0 <= j < C).
  { intros i j. unfold inb, Oth. destruct sp; rewrite ?SR, ?SC, ?MR, ?MC; tauto. }
  assert (HinO : forall i j, inb O i j <-> 0 <= i < R /\ 0 <= j < C).
  { intros i j. unfold inb. rewrite OR, OC. tauto. }
  set (body := fun (other : ptr) (r c : Z) (value : V) =>
      let! v := p_At other r c in
      if neqb value v then
        let! e := mask_Element (mask_norm k (mat_Rows O) (mat_Columns O)) r c in
        (if negb e then p_Set t r c value else mret tt) ;!; mret (None : option unit)
      else mret None).
  set (act := fun i j => neqb (peek Src i j) (peek Oth i j) && negb (covers w k i j)).
  destruct (enum_St E src t w Src O act (fun i j _ => peek Src i j) (fun q => q) (body other) Hz Hsrc Gsrc Ho Go)
    as (w' & o & d & rest & He & Hen & HSt & Hun & Hend).
  - left; exact Hnt.
  - auto.
  - exact Hfu.
  - intros L r c w1 Hb HSt Hv. cbn [fst snd] in Hv. apply HinS in Hb. unfold body.
    assert (Hot : other <> t) by (unfold other; destruct sp; auto).
    rewrite (mbind_ok _ _ _ _ _ (St_read _ _ _ _ _ Hz Ho L w1 other Oth r c HSt Hoth (proj1 Goth) (proj2 (HinT r c) Hb) (fun Hc => False_ind _ (Hot Hc)))).
    destruct (neqb (peek Src r c) (peek Oth r c)) eqn:Eq.
    + rewrite (mbind_ok _ _ _ _ _ (St_mask _ _ _ _ _ Hz Ho Go _ _ _ _ _ HSt Hmw Hmd (proj2 (HinO r c) Hb) (fun _ => Hv))).
      destruct (covers w k r c) eqn:Ec; cbn [negb].
      * rewrite mbind_ret. exists w1. split; [reflexivity|]. split; [|reflexivity]. apply St_skip; [exact HSt|]. unfold act. rewrite Ec. apply Bool.andb_false_r.
      * destruct (St_set _ _ _ _ _ Hz Ho L w1 r c (peek Src r c) HSt Hv (proj2 (HinO r c) Hb)) as (w2 & E2 & HS2);
          [unfold act; rewrite Ec, Eq; reflexivity|reflexivity|].
        rewrite (mbind_ok _ _ _ _ _ E2). exists w2. split; [reflexivity|exact HS2].
    + exists w1. split; [reflexivity|]. split; [|reflexivity]. apply St_skip; [exact HSt|]. unfold act. rewrite Eq. reflexivity.
  - assert (Ee : (if sp then enumerate E s tt (body m) else enumerate E m tt (body s)) w = (w', Ok o))
      by (unfold src, other in He; destruct sp; exact He).
    unfold body in Ee. rewrite (mbind_ok _ _ _ _ _ Ee).
    destruct (St_denotes _ _ _ _ _ _ _ _ _ _ Hz Ho Do HSt) as (O1 & Hext & Ho1 & Hs1 & Hw1 & Hd1).
    exists w', O1, d, rest. split; [reflexivity|]. do 4 (split; [auto|]).
    split; [rewrite <- Hen; apply enumerates_entries; apply Gsrc|].
    split; [exact Hun|].
    rewrite map_fst_id in Hd1. eapply denotes_ext; [|exact Hd1]. intros i j Hi Hj. cbn beta. unfold act.
    assert (Hbs : inb S i j) by (unfold inb; lia). assert (Hbm : inb Mo i j) by (unfold inb; lia).
    unfold Oth, Src. destruct sp; rewrite (denotes_peek _ _ _ _ _ _ Ds Hbs), (denotes_peek _ _ _ _ _ _ Dm Hbm); reflexivity.
Qed.

(** in place: the target is one of the operands (tested in the order m, s) *)
Lemma ewm_in_run E w (s m src : ptr) k t Src O R C f h :
  zero_ok N -> wfw w -> obj w s Src \/ obj w m Src -> obj w src Src -> obj w t O ->
  (m = t /\ src = s) \/ (m <> t /\ s = t /\ src = m) ->
  (exists x, obj w s x) ->
  not_sparse_vector Src -> not_sparse_vector O ->
  denotes Src R C f -> denotes O R C h -> mask_dims w k R C ->
  (src <> t \/ is_dense O) ->
  mat_Values Src <= Z.of_nat (e_fuel E) ->
  exists w' O' d rest, elementWiseMultiply E s m k t w = (w', Ok tt) /\ extends_but t w w' /\ obj w' t O' /\ same_shape O O' /\ wf O' /\
    enumerates Src (d ++ rest) /\ until_done 1 E w w' d rest /\
    denotes O' R C (fun i j => if visited (map fst d) i j && negb (covers w k i j)
        then kept O (if neqb (f i j) (h i j) then h i j else n0) else h i j).
Proof.
  intros Hz Hw _ Hsrc Ho Hcase (Sx & Hs) Ps Po Ds Do Hk Hal Hfu.
  pose proof Ds as (SR & SC & _). pose proof Do as (OR & OC & _).
  assert (Gs : good Src) by (eapply plain_is_good; eauto). assert (Go : good O) by (eapply plain_is_good; eauto).
  assert (Hmd : mask_dims w k (mat_Rows O) (mat_Columns O)) by (rewrite OR, OC; exact Hk).
  assert (Hmw : mask_wf w k) by (eapply mask_dims_wf; eauto).
  destruct (enum_St E src t w Src O (fun i j => negb (covers w k i j))
    (fun i j x => if negb (neqb (peek Src i j) x) then n0 else x) (fun q => q)
    (fun r c value =>
      let! e := mask_Element (mask_norm k (mat_Rows O) (mat_Columns O)) r c in
      (if negb e then p_Update t r c (fun v => if negb (neqb value v) then n0 else v) else mret tt) ;!; mret None) Hz Hsrc Gs Ho Go)
    as (w' & o & d & rest & He & Hen & HSt & Hun & Hend).
  - destruct Hal as [H|H]; [left; exact H|right]. split; [destruct O; try contradiction; reflexivity|auto].
  - auto.
  - exact Hfu.
  - intros L r c w1 Hb HSt Hv. cbn [fst snd] in Hv. apply masked_update; auto. unfold inb in *. lia.
  - destruct (St_denotes _ _ _ _ _ _ _ _ _ _ Hz Ho Do HSt) as (O1 & Hext & Ho1 & Hs1 & Hw1 & Hd1).
    exists w', O1, d, rest. split.
    { unfold elementWiseMultiply. rewrite (mbind_ok _ _ _ _ _ (check_mask_ok _ _ _ _ Ho Hmd)).
      rewrite (mbind_ok _ _ _ _ _ (p_IsSparse_ok E _ _ _ Hs)).
      destruct Hcase as [(-> & ->)|(Hn & -> & ->)].
      - rewrite Nat.eqb_refl. rewrite (mbind_ok _ _ _ _ _ He). reflexivity.
      - destruct (Nat.eqb_spec m t) as [|_]; [contradiction|]. rewrite Nat.eqb_refl.
        rewrite (mbind_ok _ _ _ _ _ He). reflexivity. }
    do 4 (split; [auto|]).
    split; [rewrite <- Hen; apply enumerates_entries; apply Gs|].
    split; [exact Hun|].
    rewrite map_fst_id in Hd1. eapply denotes_ext; [|exact Hd1]. intros i j Hi Hj. cbn beta.
    destruct (visited (map fst d) i j && negb (covers w k i j)); [|reflexivity]. f_equal.
    assert (Hbs : inb Src i j) by (unfold inb; lia).
    rewrite (denotes_peek _ _ _ _ _ _ Ds Hbs). destruct (neqb (f i j) (h i j)); reflexivity.
Qed.

(** ** elementWiseAdd *)
Lemma ewa_loop_run E w (src : ptr) k t Src O R C f h :
  zero_ok N -> wfw w -> obj w src Src -> obj w t O ->
  not_sparse_vector Src -> not_sparse_vector O ->
  denotes Src R C f -> denotes O R C h -> mask_dims w k R C -> src <> t ->
  mat_Values Src <= Z.of_nat (e_fuel E) ->
  exists w' O' o d rest, ewa_loop E src (mask_norm k (mat_Rows O) (mat_Columns O)) t w = (w', Ok o) /\
    w_heap w' = list_set (w_heap w) t O' /\ same_shape O O' /\ wf O' /\
    enumerates Src (d ++ rest) /\ until_done 1 E w w' d rest /\ (o = None /\ rest = [] \/ o = Some tt /\ rest <> []) /\
    denotes O' R C (fun i j => if visited (map fst d) i j && (negb (neqb (f i j) n0) && negb (covers w k i j))
        then kept O (f i j) else h i j).
Proof.
  intros Hz Hw Hsrc Ho Ps Po Ds Do Hk Hal Hfu.
  pose proof Ds as (SR & SC & _). pose proof Do as (OR & OC & _).
  assert (Gs : good Src) by (eapply plain_is_good; eauto). assert (Go : good O) by (eapply plain_is_good; eauto).
  assert (Hmd : mask_dims w k (mat_Rows O) (mat_Columns O)) by (rewrite OR, OC; exact Hk).
  assert (Hmw : mask_wf w k) by (eapply mask_dims_wf; eauto).
  set (act := fun i j => negb (neqb (peek Src i j) n0) && negb (covers w k i j)).
  destruct (enum_St E src t w Src O act (fun i j _ => peek Src i j) (fun q => q)
    (fun r c value =>
      if negb (neqb value n0) then
      let! e := mask_Element (mask_norm k (mat_Rows O) (mat_Columns O)) r c in
      (if negb e then p_Set t r c value else mret tt) ;!; mret None
      else mret None) Hz Hsrc Gs Ho Go)
    as (w' & o & d & rest & He & Hen & HSt & Hun & Hend).
  - left; exact Hal.
  - auto.
  - exact Hfu.
  - intros L r c w1 Hb HSt Hv. cbn [fst snd] in Hv.
    assert (HbO : inb O r c) by (unfold inb in *; lia).
    destruct (neqb (peek Src r c) n0) eqn:Eq; cbn [negb].
    + exists w1. split; [reflexivity|]. split; [|reflexivity]. apply St_skip; [exact HSt|]. unfold act. rewrite Eq. reflexivity.
    + rewrite (mbind_ok _ _ _ _ _ (St_mask _ _ _ _ _ Hz Ho Go _ _ _ _ _ HSt Hmw Hmd HbO (fun _ => Hv))).
      destruct (covers w k r c) eqn:Ec; cbn [negb].
      * rewrite mbind_ret. exists w1. split; [reflexivity|]. split; [|reflexivity]. apply St_skip; [exact HSt|]. unfold act. rewrite Ec. apply Bool.andb_false_r.
      * destruct (St_set _ _ _ _ _ Hz Ho L w1 r c (peek Src r c) HSt Hv HbO) as (w2 & E2 & HS2);
          [unfold act; rewrite Ec, Eq; reflexivity|reflexivity|].
        rewrite (mbind_ok _ _ _ _ _ E2). exists w2. split; [reflexivity|exact HS2].
  - destruct (St_denotes _ _ _ _ _ _ _ _ _ _ Hz Ho Do HSt) as (O1 & Hext & Ho1 & Hs1 & Hw1 & Hd1).
    destruct (St_obj _ _ _ _ _ Ho _ _ HSt) as (O2 & Ho2 & _ & _ & Hh2).
    rewrite (obj_inj _ _ _ _ Ho2 Ho1) in Hh2.
    exists w', O1, o, d, rest. split; [exact He|]. split; [exact Hh2|]. do 2 (split; [auto|]).
    split; [rewrite <- Hen; apply enumerates_entries; apply Gs|].
    split; [exact Hun|]. split; [exact Hend|].
    rewrite map_fst_id in Hd1. eapply denotes_ext; [|exact Hd1]. intros i j Hi Hj. cbn beta. unfold act.
    assert (Hbs : inb Src i j) by (unfold inb; lia).
    rewrite (denotes_peek _ _ _ _ _ _ Ds Hbs). reflexivity.
Qed.

(** two passes over the target; an operand that is the target itself is skipped *)
Lemma ewa_run E w (s m : ptr) k t S Mo O R C f g h :
  zero_ok N -> wfw w -> obj w s S -> obj w m Mo -> obj w t O ->
  not_sparse_vector S -> not_sparse_vector Mo -> not_sparse_vector O ->
  denotes S R C f -> denotes Mo R C g -> denotes O R C h -> mask_dims w k R C -> mask_not k t ->
  mat_Values S <= Z.of_nat (e_fuel E) -> mat_Values Mo <= Z.of_nat (e_fuel E) ->
  exists w' O' ds rs dm rm, elementWiseAdd E s m k t w = (w', Ok tt) /\ extends_but t w w' /\ obj w' t O' /\ same_shape O O' /\ wf O' /\
    enumerates S (ds ++ rs) /\ enumerates Mo (dm ++ rm) /\
    until_done 1 E w w' ((if Nat.eqb s t then [] else ds) ++ (if Nat.eqb m t then [] else dm)) (rs ++ rm) /\ (rs <> [] -> dm = []) /\
    denotes O' R C (fun i j =>
      if negb (covers w k i j) then
        if visited (map fst dm) i j && negb (neqb (g i j) n0) && negb (Nat.eqb m t) then kept O (g i j)
        else if visited (map fst ds) i j && negb (neqb (f i j) n0) && negb (Nat.eqb s t) then kept O (f i j)
        else h i j
      else h i j).
Proof.
  intros Hz Hw Hs Hm Ho Ps Pm Po Ds Dm Do Hk Hkt Hfs Hfm.
  pose proof Ds as (SR & SC & _). pose proof Dm as (MR & MC & _). pose proof Do as (OR & OC & _).
  assert (Gs : good S) by (eapply plain_is_good; eauto). assert (Gm : good Mo) by (eapply plain_is_good; eauto).
  assert (Go : good O) by (eapply plain_is_good; eauto).
  assert (Hmd : mask_dims w k (mat_Rows O) (mat_Columns O)) by (rewrite OR, OC; exact Hk).
  assert (H1 : exists w1 O1 o ds rs,
    (if negb (Nat.eqb s t) then ewa_loop E s (mask_norm k (mat_Rows O) (mat_Columns O)) t else mret None) w = (w1, Ok o) /\
    w_heap w1 = list_set (w_heap w) t O1 /\ same_shape O O1 /\ wf O1 /\ enumerates S (ds ++ rs) /\
    until_done 1 E w w1 (if Nat.eqb s t then [] else ds) rs /\ (o = None /\ rs = [] \/ o = Some tt /\ rs <> []) /\
    denotes O1 R C (fun i j => if visited (map fst ds) i j && negb (neqb (f i j) n0) && negb (Nat.eqb s t) && negb (covers w k i j)
        then kept O (f i j) else h i j)).
  { destruct (Nat.eqb_spec s t) as [->|Hst]; cbn [negb].
    - exists w, O, None, (entries S), []. split; [reflexivity|]. split; [symmetry; apply list_set_same; exact Ho|].
      split; [apply same_shape_refl|]. split; [apply Go|]. split; [rewrite app_nil_r; apply enumerates_entries, Gs|].
      split; [apply running_end; apply running_start|].
      split; [auto|]. eapply denotes_ext; [|exact Do]. intros i j _ _. cbn beta. rewrite Bool.andb_false_r. reflexivity.
    - destruct (ewa_loop_run E w s k t S O R C f h Hz Hw Hs Ho Ps Po Ds Do Hk Hst Hfs) as (w1 & O1 & o & d & r & A1 & A2 & A3 & A4 & A5 & A8 & A6 & A7).
      exists w1, O1, o, d, r. do 7 (split; [auto|]). eapply denotes_ext; [|exact A7]. intros i j _ _. cbn beta.
      rewrite Bool.andb_true_r, Bool.andb_assoc. reflexivity. }
  destruct H1 as (w1 & O1 & o & ds & rs & A1 & A2 & A3 & A4 & A5 & A8 & A6 & A7).
  unfold elementWiseAdd. rewrite (mbind_ok _ _ _ _ _ (check_mask_ok _ _ _ _ Ho Hmd)), (mbind_ok _ _ _ _ _ A1).
  assert (Ho1 : obj w1 t O1).
  { unfold obj. rewrite A2. apply nth_error_list_set_eq. eapply obj_lt; eauto. }
  assert (Eu : w_heap w1 = w_heap (upd w t O1)) by (rewrite A2; reflexivity).
  assert (Hxt : extends_but t w w1).
  { intros q x Hn Hq. unfold obj. rewrite A2, nth_error_list_set_neq; auto. }
  destruct A6 as [[-> ->]|[-> Hcx]].
  2:{ exists w1, O1, ds, rs, [], (entries Mo). split; [reflexivity|]. do 5 (split; [auto|]).
      split; [cbn [app]; apply enumerates_entries, Gm|].
      split; [eapply until_map; [exact A8| |]; [destruct (Nat.eqb m t); rewrite app_nil_r; reflexivity|split; [contradiction|intros Hx; apply app_eq_nil in Hx; tauto]]|]. split; [auto|].
      eapply denotes_ext; [|exact A7]. intros i j _ _. cbn beta. cbn [map visited existsb andb].
      destruct (visited (map fst ds) i j && negb (neqb (f i j) n0) && negb (Nat.eqb s t)), (covers w k i j); reflexivity. }
  assert (Hw1 : wfw w1) by (apply (wfw_heap (upd w t O1)); [auto|]; apply wfw_upd; auto).
  assert (Hm1 : m <> t -> obj w1 m Mo) by (intros Hn; apply Hxt; auto).
  assert (Po1 : not_sparse_vector O1) by (eapply same_shape_kind; eauto).
  assert (Hk1 : mask_dims w1 k R C) by (apply (mask_dims_heap k (upd w t O1)); auto; apply mask_dims_upd; auto).
  assert (Hcov : forall i j, covers w1 k i j = covers w k i j).
  { intros i j. rewrite (covers_heap k (upd w t O1) w1) by auto. apply covers_upd; auto. }
  destruct (Nat.eqb_spec m t) as [->|Hmt]; cbn [negb].
  - rewrite mbind_ret. exists w1, O1, ds, [], (entries Mo), [].
    split; [reflexivity|]. do 5 (split; [auto|]). split; [rewrite app_nil_r; apply enumerates_entries, Gm|].
    split; [rewrite !app_nil_r; exact A8|]. split; [congruence|]. eapply denotes_ext; [|exact A7]. intros i j _ _. cbn beta.
    rewrite Bool.andb_false_r. destruct (visited (map fst ds) i j && negb (neqb (f i j) n0) && negb (Nat.eqb s t)), (covers w k i j); reflexivity.
  - destruct (ewa_loop_run E w1 m k t Mo O1 R C g _ Hz Hw1 (Hm1 Hmt) Ho1 Pm Po1 Dm A7 Hk1 Hmt Hfm)
      as (w2 & O2 & o2 & dm & rm & B1 & B2 & B3 & B4 & B5 & B8 & B6 & B7).
    replace (mat_Rows O1) with (mat_Rows O) in B1 by (symmetry; apply A3).
    replace (mat_Columns O1) with (mat_Columns O) in B1 by (symmetry; apply A3).
    rewrite (mbind_ok _ _ _ _ _ B1). exists w2, O2, ds, [], dm, rm.
    split; [reflexivity|].
    split. { intros q x Hn Hq. unfold obj. rewrite B2, nth_error_list_set_neq by auto. apply Hxt; auto. }
    split. { unfold obj. rewrite B2. apply nth_error_list_set_eq. eapply obj_lt; eauto. }
    split; [eapply same_shape_trans; eauto|]. split; [auto|]. split; [auto|]. split; [auto|].
    split; [cbn [app]; eapply until_app; eauto|].
    split; [congruence|]. eapply denotes_ext; [|exact B7]. intros i j _ _. cbn beta.
    rewrite Hcov, Bool.andb_true_r, (same_shape_kept _ _ _ A3).
    destruct (visited (map fst dm) i j), (neqb (g i j) n0), (covers w k i j), (visited (map fst ds) i j), (neqb (f i j) n0), (Nat.eqb s t); reflexivity.
Qed.

End Ew.
