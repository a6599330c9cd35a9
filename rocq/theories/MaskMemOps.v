(** The operators with a caller's mask: the questions asked and the result. *)
From Coq Require Import String.
From Verif Require Import GoBase Num SparseVec Csr Csc DenseVec DenseMat Mat World Ops Spec Api.
From Verif Require Import BaseProofs MatProofs HeapProofs ReachProofs StoreProofs StoreThms VecProofs OpsThms OpsProps EwThms MulThms LoopProofs ReduceFormat ApplyMem ApplyMemThms MaskMem MaskMemSim MaskMemThms.
Import ListNotations.

Section MaskMemOps.
Context {N : num} {St : Type}.
Variable q : smask St.
Notation V := (T N).
Notation mat := (mat N).
Notation ent := (Z * Z * V)%type.
Notation world := (world N).
Implicit Types w : world.
Notation the f := (MUser (sm_Rows q) (sm_Columns q) f).

(** only the output has changed, and it has its size *)
Definition kin w (t : ptr) (O : mat) w1 : Prop := exists O1, w_heap w1 = list_set (w_heap w) t O1 /\ good O1 /\ same_shape O O1.
Lemma kin_refl w t O : obj w t O -> good O -> kin w t O w.
Proof. intros Ho Go. exists O. split; [symmetry; apply list_set_same; exact Ho|]. split; [exact Go|apply same_shape_refl]. Qed.
Lemma kin_obj w t O w1 : obj w t O -> kin w t O w1 -> exists O1, obj w1 t O1 /\ w_heap w1 = list_set (w_heap w) t O1 /\ good O1 /\ same_shape O O1.
Proof. intros Ho (O1 & H & Hr). exists O1. split; [|auto]. unfold obj. rewrite H. apply nth_error_list_set_eq. eapply obj_lt; eauto. Qed.
Lemma kin_other w t O w1 p m : kin w t O w1 -> obj w p m -> p <> t -> obj w1 p m.
Proof. intros (O1 & H & _) Hp Hne. unfold obj. rewrite H, nth_error_list_set_neq by auto. exact Hp. Qed.
Lemma kin_set w t O w1 r c x : zero_ok N -> obj w t O -> kin w t O w1 -> inb O r c -> exists w2, p_Set t r c x w1 = (w2, Ok tt) /\ kin w t O w2.
Proof.
  intros Hz Ho Hk Hb. destruct (kin_obj _ _ _ _ Ho Hk) as (O1 & Ho1 & Hh & G1 & S1).
  destruct (p_Set_ok t w1 O1 r c x Hz Ho1 G1) as (O2 & E2 & G2 & S2 & _); [apply (same_shape_inb _ _ _ _ S1); exact Hb|].
  exists (upd w1 t O2). split; [exact E2|]. exists O2. split; [unfold upd; cbn [w_heap]; rewrite Hh, list_set_twice; reflexivity|]. split; [exact G2|eapply same_shape_trans; eauto].
Qed.
Lemma kin_update w t O w1 r c g : zero_ok N -> obj w t O -> kin w t O w1 -> inb O r c -> exists w2, p_Update t r c g w1 = (w2, Ok tt) /\ kin w t O w2.
Proof.
  intros Hz Ho Hk Hb. destruct (kin_obj _ _ _ _ Ho Hk) as (O1 & Ho1 & Hh & G1 & S1).
  destruct (p_Update_ok t w1 O1 r c g Hz Ho1 G1) as (O2 & E2 & G2 & S2 & _); [apply (same_shape_inb _ _ _ _ S1); exact Hb|].
  exists (upd w1 t O2). split; [exact E2|]. exists O2. split; [unfold upd; cbn [w_heap]; rewrite Hh, list_set_twice; reflexivity|]. split; [exact G2|eapply same_shape_trans; eauto].
Qed.
Lemma kin_at w t O w1 p m r c : zero_ok N -> wfw w -> obj w t O -> kin w t O w1 -> obj w p m -> inb m r c -> exists v, p_At p r c w1 = (w1, Ok v).
Proof.
  intros Hz Hw Ho Hk Hp Hb. destruct (Nat.eq_dec p t) as [->|Hne].
  - rewrite (obj_inj _ _ _ _ Hp Ho) in Hb. destruct (kin_obj _ _ _ _ Ho Hk) as (O1 & Ho1 & _ & G1 & S1).
    eexists. apply (p_At_ok t w1 O1 r c Hz Ho1 (proj1 G1)). apply (same_shape_inb _ _ _ _ S1). exact Hb.
  - eexists. apply (p_At_ok p w1 m r c Hz (kin_other _ _ _ _ _ _ Hk Hp Hne) (Hw _ _ Hp) Hb).
Qed.

(** the end of a loop *)
Lemma frag_end (Inv : world -> Prop) ps (X : @MS N St (option unit)) Y w st : frag q Inv ps X Y w ->
  let '(st', l) := ask q st ps in
  exists w', sbind X (fun _ => sret tt) st w = (st', w', ending l tt) /\ mbind (Y (recorded l)) (fun _ => mret tt) w = (w', Ok tt) /\ Inv w'.
Proof.
  intros H. specialize (H st). destruct (ask q st ps) as [st' l]. destruct (proj1 H (recorded l)) as (w' & E1 & E2 & Hi); [reflexivity|].
  exists w'. unfold sbind, mbind. rewrite E1, E2. split; [|auto]. destruct (done l) eqn:Ed.
  - rewrite (ending_done (B := unit) l None tt Ed), (ending_done (B := unit) l tt tt Ed). reflexivity.
  - destruct (ending_not l (@None unit) tt Ed) as [[-> ->]|[-> ->]]; reflexivity.
Qed.
Lemma check_ok t w O f : obj w t O -> sm_Rows q = mat_Rows O -> sm_Columns q = mat_Columns O -> check_mask (the f) t w = (w, Ok (the f)).
Proof. intros Ho H1 H2. rewrite (check_mask_ok _ _ _ _ Ho); [reflexivity|]. split; auto. Qed.
Lemma s_check_ok {A} t w O (x : @MS N St A) st : obj w t O -> sm_Rows q = mat_Rows O -> sm_Columns q = mat_Columns O -> sbind (s_check q t) (fun _ => x) st w = x st w.
Proof. intros Ho H1 H2. unfold s_check, sbind, slift. rewrite (check_ok t w O (fun _ _ => false) Ho H1 H2). reflexivity. Qed.
Lemma places_map (S : mat) : flat_map (fun e : ent => [fst e]) (entries S) = map fst (entries S).
Proof. induction (entries S) as [|e l IH]; cbn [flat_map map app]; [reflexivity|]. rewrite IH. reflexivity. Qed.

(** ** Into another matrix *)
Lemma transpose_asks E w (s t : ptr) S O L st : sane N -> reachable w -> obj w s S -> obj w t O -> not_sparse_vector S -> not_sparse_vector O ->
  mat_Rows O = mat_Columns S -> mat_Columns O = mat_Rows S -> sm_Rows q = mat_Rows O -> sm_Columns q = mat_Columns O ->
  s <> t -> mat_Values S <= Z.of_nat (e_fuel E) -> e_ctx E = None -> enumerates S L ->
  let '(st', l) := ask q st (map fst L) in
  exists w', TransposeS E s q t st w = (st', w', ending l tt) /\ Transpose E s (the (recorded l)) t w = (w', Ok tt).
Proof.
  intros Hsn Hr Hs Ho Ps Po D1 D2 Q1 Q2 Hst Hfu Hc HL. pose proof (sane_wfw w Hsn Hr) as Hw. pose proof (proj1 Hsn) as Hz.
  assert (Gs : good S) by (eapply plain_is_good; eauto). assert (Go : good O) by (eapply plain_is_good; eauto).
  rewrite (enumerates_unique S L (proj1 Gs) HL), <- places_map.
  pose proof (frag_end (kin w t O) (flat_map (fun e : ent => [fst e]) (entries S))
    (s_enumerate E s tt (fun r c value => sbind (s_Element q r c) (fun e => sbind (if negb e then slift (p_Set t c r value) else sret tt) (fun _ => sret None))))
    (fun f => enumerate E s tt (fun r c value => mbind (mask_Element (the f) r c) (fun e => mbind (if negb e then p_Set t c r value else mret tt) (fun _ => mret None)))) w st) as H.
  destruct (ask q st _) as [st' l]. destruct H as (w' & E1 & E2 & _).
  - apply (frag_enumerate q (kin w t O) E s S (fun e => [fst e]) _ (fun r c v f => mbind (mask_Element (the f) r c) (fun e => mbind (if negb e then p_Set t c r v else mret tt) (fun _ => mret None))) Hc (proj1 Gs) Hfu).
    + intros w1 Hk. eapply kin_other; eauto.
    + intros r c v w1 Hin Hk. apply frag_ask; [exact Hk|]. apply kin_set; auto. destruct (entries_inb S r c v Hz (proj1 Gs) Hin) as [Hb _]. unfold inb in *. lia.
    + rewrite places_map. apply entries_NoDup. exact Gs.
    + apply kin_refl; auto.
  - exists w'. split.
    + unfold TransposeS. rewrite (s_check_ok t w O _ st Ho Q1 Q2). exact E1.
    + unfold Transpose. rewrite (mbind_ok _ _ _ _ _ (check_ok t w O (recorded l) Ho Q1 Q2)). exact E2.
Qed.

Lemma apply_asks E w (s t : ptr) u S O L st : sane N -> reachable w -> obj w s S -> obj w t O -> not_sparse_vector S -> not_sparse_vector O ->
  mat_Rows O = mat_Columns S -> mat_Columns O = mat_Rows S -> sm_Rows q = mat_Rows O -> sm_Columns q = mat_Columns O ->
  s <> t -> mat_Values S <= Z.of_nat (e_fuel E) -> e_ctx E = None -> enumerates S L ->
  let '(st', l) := ask q st (map fst L) in
  exists w', ApplyQ E s q u t st w = (st', w', ending l tt) /\ Apply E s (the (recorded l)) u t w = (w', Ok tt).
Proof.
  intros Hsn Hr Hs Ho Ps Po D1 D2 Q1 Q2 Hst Hfu Hc HL. pose proof (sane_wfw w Hsn Hr) as Hw. pose proof (proj1 Hsn) as Hz.
  assert (Gs : good S) by (eapply plain_is_good; eauto). assert (Go : good O) by (eapply plain_is_good; eauto).
  rewrite (enumerates_unique S L (proj1 Gs) HL), <- places_map.
  pose proof (frag_end (kin w t O) (flat_map (fun e : ent => [fst e]) (entries S))
    (s_enumerate E s tt (fun r c value => sbind (s_Element q r c) (fun e => sbind (if negb e then slift (p_Set t c r (u value)) else sret tt) (fun _ => sret None))))
    (fun f => enumerate E s tt (fun r c value => mbind (mask_Element (the f) r c) (fun e => mbind (if negb e then p_Set t c r (u value) else mret tt) (fun _ => mret None)))) w st) as H.
  destruct (ask q st _) as [st' l]. destruct H as (w' & E1 & E2 & _).
  - apply (frag_enumerate q (kin w t O) E s S (fun e => [fst e]) _ (fun r c v f => mbind (mask_Element (the f) r c) (fun e => mbind (if negb e then p_Set t c r (u v) else mret tt) (fun _ => mret None))) Hc (proj1 Gs) Hfu).
    + intros w1 Hk. eapply kin_other; eauto.
    + intros r c v w1 Hin Hk. apply frag_ask; [exact Hk|]. apply kin_set; auto. destruct (entries_inb S r c v Hz (proj1 Gs) Hin) as [Hb _]. unfold inb in *. lia.
    + rewrite places_map. apply entries_NoDup. exact Gs.
    + apply kin_refl; auto.
  - assert (Hne : Nat.eqb s t = false) by (apply Nat.eqb_neq; exact Hst). exists w'. split.
    + unfold ApplyQ. rewrite (s_check_ok t w O _ st Ho Q1 Q2), Hne. exact E1.
    + unfold Apply. rewrite (mbind_ok _ _ _ _ _ (check_ok t w O (recorded l) Ho Q1 Q2)), Hne. exact E2.
Qed.

Lemma sizes_ok w (s m : ptr) S Mo : obj w s S -> obj w m Mo -> mat_Rows Mo = mat_Rows S -> mat_Columns Mo = mat_Columns S -> check_sizes s m w = (w, Ok tt).
Proof.
  intros Hs Hm D1 D2. unfold check_sizes. rewrite (mbind_ok _ _ _ _ _ (p_Columns_ok _ _ _ Hs)), (mbind_ok _ _ _ _ _ (p_Columns_ok _ _ _ Hm)), D2, Z.eqb_refl. cbn [negb].
  rewrite (mbind_ok _ _ _ _ _ (p_Rows_ok _ _ _ Hs)), (mbind_ok _ _ _ _ _ (p_Rows_ok _ _ _ Hm)), D1, Z.eqb_refl. reflexivity.
Qed.

Lemma subtract_asks E w (s m t : ptr) S Mo O L st : sane N -> reachable w -> obj w s S -> obj w m Mo -> obj w t O -> not_sparse_vector S -> not_sparse_vector O ->
  mat_Rows Mo = mat_Rows S -> mat_Columns Mo = mat_Columns S -> mat_Rows O = mat_Rows S -> mat_Columns O = mat_Columns S -> sm_Rows q = mat_Rows O -> sm_Columns q = mat_Columns O ->
  s <> t -> mat_Values S <= Z.of_nat (e_fuel E) -> e_ctx E = None -> enumerates S L ->
  let '(st', l) := ask q st (map fst L) in
  exists w', SubtractS E s m q t st w = (st', w', ending l tt) /\ Subtract E s m (the (recorded l)) t w = (w', Ok tt).
Proof.
  intros Hsn Hr Hs Hm Ho Ps Po M1 M2 D1 D2 Q1 Q2 Hst Hfu Hc HL. pose proof (sane_wfw w Hsn Hr) as Hw. pose proof (proj1 Hsn) as Hz.
  assert (Gs : good S) by (eapply plain_is_good; eauto). assert (Go : good O) by (eapply plain_is_good; eauto).
  rewrite (enumerates_unique S L (proj1 Gs) HL), <- places_map.
  pose proof (frag_end (kin w t O) (flat_map (fun e : ent => [fst e]) (entries S))
    (s_enumerate E s tt (fun r c value => sbind (s_Element q r c) (fun e => sbind (if negb e then slift (p_Update t r c (fun v => nsub value v)) else sret tt) (fun _ => sret None))))
    (fun f => enumerate E s tt (fun r c value => mbind (mask_Element (the f) r c) (fun e => mbind (if negb e then p_Update t r c (fun v => nsub value v) else mret tt) (fun _ => mret None)))) w st) as H.
  destruct (ask q st _) as [st' l]. destruct H as (w' & E1 & E2 & _).
  - apply (frag_enumerate q (kin w t O) E s S (fun e => [fst e]) _ (fun r c v f => mbind (mask_Element (the f) r c) (fun e => mbind (if negb e then p_Update t r c (fun x => nsub v x) else mret tt) (fun _ => mret None))) Hc (proj1 Gs) Hfu).
    + intros w1 Hk. eapply kin_other; eauto.
    + intros r c v w1 Hin Hk. apply frag_ask; [exact Hk|]. apply kin_update; auto. destruct (entries_inb S r c v Hz (proj1 Gs) Hin) as [Hb _]. unfold inb in *. lia.
    + rewrite places_map. apply entries_NoDup. exact Gs.
    + apply kin_refl; auto.
  - pose proof (sizes_ok w s m S Mo Hs Hm M1 M2) as Hsz. exists w'. split.
    + unfold SubtractS. rewrite (sbind_lift _ _ _ _ _ _ Hsz), (s_check_ok t w O _ st Ho Q1 Q2). exact E1.
    + unfold Subtract. rewrite (mbind_ok _ _ _ _ _ Hsz), (mbind_ok _ _ _ _ _ (check_ok t w O (recorded l) Ho Q1 Q2)). exact E2.
Qed.

Lemma add_asks E w (s m t : ptr) S Mo O L st : sane N -> reachable w -> obj w s S -> obj w m Mo -> obj w t O -> not_sparse_vector O ->
  mat_Rows Mo = mat_Rows S -> mat_Columns Mo = mat_Columns S -> mat_Rows O = mat_Rows S -> mat_Columns O = mat_Columns S -> sm_Rows q = mat_Rows O -> sm_Columns q = mat_Columns O ->
  let Src := if IsSparseMatrix (e_reg E) S then S else Mo in
  not_sparse_vector Src -> (if IsSparseMatrix (e_reg E) S then s else m) <> t -> mat_Values Src <= Z.of_nat (e_fuel E) -> e_ctx E = None -> enumerates Src L ->
  let '(st', l) := ask q st (map fst L) in
  exists w', AddS E s m q t st w = (st', w', ending l tt) /\ Add E s m (the (recorded l)) t w = (w', Ok tt).
Proof.
  intros Hsn Hr Hs Hm Ho Po M1 M2 D1 D2 Q1 Q2 Src Ps Hst Hfu Hc HL. pose proof (sane_wfw w Hsn Hr) as Hw. pose proof (proj1 Hsn) as Hz.
  assert (Go : good O) by (eapply plain_is_good; eauto).
  set (a := if IsSparseMatrix (e_reg E) S then s else m) in *. set (b := if IsSparseMatrix (e_reg E) S then m else s). set (Oth := if IsSparseMatrix (e_reg E) S then Mo else S).
  assert (Ha : obj w a Src) by (unfold a, Src; destruct (IsSparseMatrix (e_reg E) S); auto).
  assert (Hb : obj w b Oth) by (unfold b, Oth; destruct (IsSparseMatrix (e_reg E) S); auto).
  assert (Db : forall r c, inb Src r c -> inb Oth r c /\ inb O r c) by (intros r c; unfold Src, Oth, inb; destruct (IsSparseMatrix (e_reg E) S); lia).
  assert (Gs : good Src) by (eapply plain_is_good; eauto).
  rewrite (enumerates_unique Src L (proj1 Gs) HL), <- places_map.
  pose proof (frag_end (kin w t O) (flat_map (fun e : ent => [fst e]) (entries Src))
    (s_enumerate E a tt (fun r c v => sbind (slift (p_At b r c)) (fun value => sbind (s_Element q r c) (fun e => sbind (if negb e then slift (p_Set t r c (nadd value v)) else sret tt) (fun _ => sret None)))))
    (fun f => enumerate E a tt (fun r c v => mbind (p_At b r c) (fun value => mbind (mask_Element (the f) r c) (fun e => mbind (if negb e then p_Set t r c (nadd value v) else mret tt) (fun _ => mret None))))) w st) as H.
  destruct (ask q st _) as [st' l]. destruct H as (w' & E1 & E2 & _).
  - apply (frag_enumerate q (kin w t O) E a Src (fun e => [fst e]) _ (fun r c v f => mbind (p_At b r c) (fun value => mbind (mask_Element (the f) r c) (fun e => mbind (if negb e then p_Set t r c (nadd value v) else mret tt) (fun _ => mret None)))) Hc (proj1 Gs) Hfu).
    + intros w1 Hk. eapply kin_other; eauto.
    + intros r c v w1 Hin Hk. destruct (entries_inb Src r c v Hz (proj1 Gs) Hin) as [Hbb _]. destruct (Db r c Hbb) as [Hb1 Hb2].
      destruct (kin_at w t O w1 b Oth r c Hz Hw Ho Hk Hb Hb1) as (x & Hx).
      apply (frag_pre q (kin w t O) _ (p_At b r c) x _ (fun f value => mbind (mask_Element (the f) r c) (fun e => mbind (if negb e then p_Set t r c (nadd value v) else mret tt) (fun _ => mret None))) w1 Hx).
      apply frag_ask; [exact Hk|]. apply kin_set; auto.
    + rewrite places_map. apply entries_NoDup. exact Gs.
    + apply kin_refl; auto.
  - pose proof (sizes_ok w s m S Mo Hs Hm M1 M2) as Hsz. exists w'.
    assert (Hsp : p_IsSparse E s w = (w, Ok (IsSparseMatrix (e_reg E) S))) by (unfold p_IsSparse; rewrite (mbind_ok _ _ _ _ _ (load_ok _ _ _ Hs)); reflexivity).
    split.
    + unfold AddS. rewrite (sbind_lift _ _ _ _ _ _ Hsz), (s_check_ok t w O _ st Ho Q1 Q2), (sbind_lift _ _ _ _ _ _ Hsp).
      unfold a, b in E1. destruct (IsSparseMatrix (e_reg E) S); exact E1.
    + unfold Add. rewrite (mbind_ok _ _ _ _ _ Hsz), (mbind_ok _ _ _ _ _ (check_ok t w O (recorded l) Ho Q1 Q2)), (mbind_ok _ _ _ _ _ Hsp).
      unfold a, b in E2. destruct (IsSparseMatrix (e_reg E) S); exact E2.
Qed.

(** ElementWiseMultiply asks only where the two operands are equal *)
Lemma ewm_asks E w (s m t : ptr) S Mo O g L st : sane N -> reachable w -> obj w s S -> obj w m Mo -> obj w t O -> not_sparse_vector O ->
  mat_Rows Mo = mat_Rows S -> mat_Columns Mo = mat_Columns S -> mat_Rows O = mat_Rows S -> mat_Columns O = mat_Columns S -> sm_Rows q = mat_Rows O -> sm_Columns q = mat_Columns O ->
  let Src := if IsSparseMatrix (e_reg E) S then S else Mo in
  let Other := if IsSparseMatrix (e_reg E) S then Mo else S in
  not_sparse_vector Src -> denotes Other (mat_Rows S) (mat_Columns S) g ->
  s <> t -> m <> t -> mat_Values Src <= Z.of_nat (e_fuel E) -> e_ctx E = None -> enumerates Src L ->
  let '(st', l) := ask q st (map fst (filter (fun '(r, c, v) => neqb v (g r c)) L)) in
  exists w', elementWiseMultiplyS E s m q t st w = (st', w', ending l tt) /\ elementWiseMultiply E s m (the (recorded l)) t w = (w', Ok tt).
Proof.
  intros Hsn Hr Hs Hm Ho Po M1 M2 D1 D2 Q1 Q2 Src Oth Ps Dg Hst Hmt Hfu Hc HL. pose proof (sane_wfw w Hsn Hr) as Hw. pose proof (proj1 Hsn) as Hz.
  assert (Go : good O) by (eapply plain_is_good; eauto).
  set (a := if IsSparseMatrix (e_reg E) S then s else m). set (b := if IsSparseMatrix (e_reg E) S then m else s).
  assert (Ha : obj w a Src) by (unfold a, Src; destruct (IsSparseMatrix (e_reg E) S); auto).
  assert (Hb : obj w b Oth) by (unfold b, Oth; destruct (IsSparseMatrix (e_reg E) S); auto).
  assert (Hat : a <> t) by (unfold a; destruct (IsSparseMatrix (e_reg E) S); auto).
  assert (Hbt : b <> t) by (unfold b; destruct (IsSparseMatrix (e_reg E) S); auto).
  assert (Db : forall r c, inb Src r c -> inb Oth r c /\ inb O r c) by (intros r c; unfold Src, Oth, inb; destruct (IsSparseMatrix (e_reg E) S); lia).
  assert (Gs : good Src) by (eapply plain_is_good; eauto).
  rewrite (enumerates_unique Src L (proj1 Gs) HL).
  set (pl := fun e : ent => let '(r, c, v) := e in if neqb v (g r c) then [(r, c)] else []).
  assert (Epl : forall l : list ent, map fst (filter (fun '(r, c, v) => neqb v (g r c)) l) = flat_map pl l).
  { induction l as [|[[r c] v] l IH]; [reflexivity|]. cbn [filter flat_map pl]. destruct (neqb v (g r c)); cbn [map fst app]; rewrite IH; reflexivity. }
  rewrite Epl.
  pose proof (frag_end (kin w t O) (flat_map pl (entries Src))
    (s_enumerate E a tt (fun r c value => sbind (slift (p_At b r c)) (fun v => if neqb value v then sbind (s_Element q r c) (fun e => sbind (if negb e then slift (p_Set t r c value) else sret tt) (fun _ => sret None)) else sret None)))
    (fun f => enumerate E a tt (fun r c value => mbind (p_At b r c) (fun v => if neqb value v then mbind (mask_Element (the f) r c) (fun e => mbind (if negb e then p_Set t r c value else mret tt) (fun _ => mret None)) else mret None))) w st) as H.
  destruct (ask q st _) as [st' l]. destruct H as (w' & E1 & E2 & _).
  - apply (frag_enumerate q (kin w t O) E a Src pl _ (fun r c value f => mbind (p_At b r c) (fun v => if neqb value v then mbind (mask_Element (the f) r c) (fun e => mbind (if negb e then p_Set t r c value else mret tt) (fun _ => mret None)) else mret None)) Hc (proj1 Gs) Hfu).
    + intros w1 Hk. eapply kin_other; eauto.
    + intros r c v w1 Hin Hk. destruct (entries_inb Src r c v Hz (proj1 Gs) Hin) as [Hbb _]. destruct (Db r c Hbb) as [Hb1 Hb2].
      assert (Hx : p_At b r c w1 = (w1, Ok (g r c))).
      { rewrite (p_At_ok b w1 Oth r c Hz (kin_other _ _ _ _ _ _ Hk Hb Hbt) (Hw _ _ Hb) Hb1). rewrite (denotes_peek _ _ _ _ _ _ Dg Hb1). reflexivity. }
      apply (frag_pre q (kin w t O) _ (p_At b r c) (g r c) _ (fun f v0 => if neqb v v0 then mbind (mask_Element (the f) r c) (fun e => mbind (if negb e then p_Set t r c v else mret tt) (fun _ => mret None)) else mret None) w1 Hx).
      cbn [pl]. destruct (neqb v (g r c)); [|apply frag_nil; exact Hk]. apply frag_ask; [exact Hk|]. apply kin_set; auto.
    + rewrite <- Epl. pose proof (entries_NoDup Src Gs) as Hnd. clear - Hnd. induction (entries Src) as [|e l IH]; cbn [filter map]; [constructor|].
      cbn [map] in Hnd. inversion Hnd as [|x y Hx Hy]; subst. destruct e as [[r c] v]. destruct (neqb v (g r c)); [|auto]. cbn [map]. constructor; [|auto].
      intros Hin. apply Hx. apply in_map_iff in Hin as (e & Ee & Hin). apply in_map_iff. exists e. split; [exact Ee|]. apply filter_In in Hin. apply Hin.
    + apply kin_refl; auto.
  - exists w'.
    assert (Hsp : p_IsSparse E s w = (w, Ok (IsSparseMatrix (e_reg E) S))) by (unfold p_IsSparse; rewrite (mbind_ok _ _ _ _ _ (load_ok _ _ _ Hs)); reflexivity).
    assert (Hne1 : Nat.eqb s t = false) by (apply Nat.eqb_neq; exact Hst). assert (Hne2 : Nat.eqb m t = false) by (apply Nat.eqb_neq; exact Hmt).
    split.
    + unfold elementWiseMultiplyS. rewrite (s_check_ok t w O _ st Ho Q1 Q2). cbv zeta. rewrite (sbind_lift _ _ _ _ _ _ Hsp), Hne1, Hne2.
      unfold a, b in E1. destruct (IsSparseMatrix (e_reg E) S); exact E1.
    + unfold elementWiseMultiply. rewrite (mbind_ok _ _ _ _ _ (check_ok t w O (recorded l) Ho Q1 Q2)). cbv zeta. rewrite (mbind_ok _ _ _ _ _ Hsp), Hne1, Hne2.
      unfold a, b in E2. destruct (IsSparseMatrix (e_reg E) S); exact E2.
Qed.

(** ** Multiplication: every cell of the output, row by row *)
Lemma dot_calm E rv cv : e_ctx E = None -> forall ls acc w, (forall l, In l ls -> (exists x, mat_AtVec rv l = Ok x) /\ (exists y, mat_AtVec cv l = Ok y)) ->
  exists sum, dot_loop (N := N) E rv cv ls acc w = (w, Ok (Some sum)).
Proof.
  intros Hc. induction ls as [|l ls IH]; intros acc w H; cbn [dot_loop]; [exists acc; reflexivity|].
  assert (Hp : poll E w = (w, Ok false)) by (unfold poll; rewrite Hc; reflexivity). rewrite (mbind_ok _ _ _ _ _ Hp).
  destruct (H l (or_introl eq_refl)) as ((x & Hx) & y & Hy). rewrite Hy, mbind_lift, Hx, mbind_lift. apply IH. intros; apply H; right; auto.
Qed.
Lemma positions_flat R C : flat_map (fun r => flat_map (fun c => [(r, c)]) (zrange 0 C)) (zrange 0 R) = positions R C.
Proof. unfold positions. apply flat_map_ext. intros r. induction (zrange 0 C) as [|c l IH]; cbn [flat_map map app]; [reflexivity|]. rewrite IH. reflexivity. Qed.

Lemma multiply_asks E w (s m t : ptr) S Mo O R K C f g h st : sane N -> reachable w -> obj w s S -> obj w m Mo -> obj w t O -> not_sparse_vector O ->
  denotes S R K f -> denotes Mo K C g -> denotes O R C h -> sm_Rows q = R -> sm_Columns q = C -> s <> t -> m <> t -> e_ctx E = None ->
  let '(st', l) := ask q st (positions R C) in
  exists w', multiplyS E s m q t st w = (st', w', ending l tt) /\ multiply E s m (the (recorded l)) t w = (w', Ok tt).
Proof.
  intros Hsn Hr Hs Hm Ho Po Ds Dm Do Q1 Q2 Hst Hmt Hc. pose proof (sane_wfw w Hsn Hr) as Hw. pose proof (proj1 Hsn) as Hz.
  pose proof Ds as (SR & SC & _). pose proof Dm as (MR & MC & _). pose proof Do as (OR & OC & _).
  assert (Go : good O) by (eapply plain_is_good; eauto). rewrite <- positions_flat.
  pose proof (frag_end (kin w t O) (flat_map (fun r => flat_map (fun c => [(r, c)]) (zrange 0 C)) (zrange 0 R))
    (s_for_list (zrange 0 R) (fun r => sbind (slift (load s)) (fun so => sbind (slift (mlift (mat_RowsAt so r))) (fun rows =>
       s_for_list (zrange 0 C) (fun c => sbind (slift (load m)) (fun mo => sbind (slift (mlift (mat_ColumnsAt mo c))) (fun column =>
         sbind (slift (dot_loop E rows column (zrange 0 (mat_Length rows)) n0)) (fun o => match o with None => sret (Some tt) | Some sum =>
           sbind (s_Element q r c) (fun e => sbind (if negb e then slift (p_Set t r c sum) else sret tt) (fun _ => sret None)) end))))))))
    (fun f => for_list (zrange 0 R) (fun r => mbind (load s) (fun so => mbind (mlift (mat_RowsAt so r)) (fun rows =>
       for_list (zrange 0 C) (fun c => mbind (load m) (fun mo => mbind (mlift (mat_ColumnsAt mo c)) (fun column =>
         mbind (dot_loop E rows column (zrange 0 (mat_Length rows)) n0) (fun o => match o with None => mret (Some tt) | Some sum =>
           mbind (mask_Element (the f) r c) (fun e => mbind (if negb e then p_Set t r c sum else mret tt) (fun _ => mret None)) end)))))))) w st) as H.
  destruct (ask q st _) as [st' l]. destruct H as (w' & E1 & E2 & _).
  - match goal with |- frag _ _ _ (s_for_list _ ?X) (fun f => for_list _ (fun r => @?Y r f)) _ =>
      apply (frag_for q (kin w t O) (fun r => flat_map (fun c => [(r, c)]) (zrange 0 C)) X Y) end.
    + rewrite positions_flat. apply NoDup_positions.
    + intros r w1 Hir Hk. apply in_zrange in Hir.
      destruct (row_view S R K f r Hz (Hw _ _ Hs) Ds Hir) as (rv & Er & Lr & Vr).
      eapply (frag_pre q (kin w t O)); [apply load_ok; eapply kin_other; eauto|].
      eapply (frag_pre q (kin w t O)); [rewrite Er; reflexivity|].
      match goal with |- frag _ _ _ (s_for_list _ ?X) (fun f => for_list _ (fun c => @?Y c f)) _ =>
        apply (frag_for q (kin w t O) (fun c => [(r, c)]) X Y) end.
      * pose proof (NoDup_zrange 0 C) as Hn. clear - Hn. induction (zrange 0 C) as [|c l IH]; cbn [flat_map app]; [constructor|]. inversion Hn; subst.
        constructor; [|auto]. intros Hin. apply in_flat_map in Hin as (x & Hx & [E|[]]). injection E as ->. contradiction.
      * intros c w2 Hic Hk2. apply in_zrange in Hic.
        destruct (col_view Mo K C g c Hz (Hw _ _ Hm) Dm Hic) as (cv & Ec & Vc).
        eapply (frag_pre q (kin w t O)); [apply load_ok; eapply kin_other; eauto|].
        eapply (frag_pre q (kin w t O)); [rewrite Ec; reflexivity|].
        destruct (dot_calm E rv cv Hc (zrange 0 (mat_Length rv)) n0 w2) as (sum & Hsum).
        { intros x Hx. apply in_zrange in Hx. unfold mat_Length in Hx. rewrite Lr in Hx. split; eexists; [apply Vr|apply Vc]; lia. }
        eapply (frag_pre q (kin w t O)); [exact Hsum|]. apply frag_ask; [exact Hk2|]. apply kin_set; auto. unfold inb. lia.
      * exact Hk.
    + apply kin_refl; auto.
  - exists w'. split.
    + unfold multiplyS. rewrite (sbind_lift _ _ _ _ _ _ (p_Rows_ok _ _ _ Hm)), (sbind_lift _ _ _ _ _ _ (p_Columns_ok _ _ _ Hs)), MR, SC, Z.eqb_refl. cbn [negb].
      rewrite (s_check_ok t w O _ st Ho) by congruence. rewrite (sbind_lift _ _ _ _ _ _ (p_Rows_ok _ _ _ Hs)), (sbind_lift _ _ _ _ _ _ (p_Columns_ok _ _ _ Hm)), SR, MC. exact E1.
    + unfold multiply. rewrite (mbind_ok _ _ _ _ _ (p_Rows_ok _ _ _ Hm)), (mbind_ok _ _ _ _ _ (p_Columns_ok _ _ _ Hs)), MR, SC, Z.eqb_refl. cbn [negb].
      rewrite (mbind_ok _ _ _ _ _ (check_ok t w O (recorded l) Ho ltac:(congruence) ltac:(congruence))).
      rewrite (mbind_ok _ _ _ _ _ (p_Rows_ok _ _ _ Hs)), (mbind_ok _ _ _ _ _ (p_Columns_ok _ _ _ Hm)), SR, MC. exact E2.
Qed.
End MaskMemOps.
