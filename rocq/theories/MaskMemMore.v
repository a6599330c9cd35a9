(** The questions of element-wise addition, which may ask twice, and of the operators in place. *)
From Coq Require Import String.
From Verif Require Import GoBase Num SparseVec Csr Csc DenseVec DenseMat Mat World Ops Spec Api.
From Verif Require Import BaseProofs MatProofs HeapProofs ReachProofs StoreProofs StoreThms VecProofs OpsProofs OpsThms EwThms OpsProps LoopProofs MapLag MapZero MapZeroThms ApplyMem ApplyMemThms MaskMem MaskMemSim MaskMemThms MaskMemOps.
Import ListNotations.

Section MaskMemMore.
Context {N : num} {St : Type}.
Variable q : smask St.
Notation V := (T N).
Notation mat := (mat N).
Notation ent := (Z * Z * V)%type.
Notation world := (world N).
Implicit Types w : world.
Implicit Types m : mat.
Implicit Types l : list qa.

Lemma ask_length st ps : (length (snd (ask q st ps)) <= length ps)%nat /\ (done (snd (ask q st ps)) = true -> length (snd (ask q st ps)) = length ps).
Proof.
  revert st. induction ps as [|[r c] ps IH]; intros st; cbn [ask]; [split; reflexivity|]. destruct (sm_Element q st r c) as [st1 [b| |]]; cbn [snd length].
  - specialize (IH st1). destruct (ask q st1 ps) as [st2 l]. cbn [snd length] in *. change (done ((r, c, Ok b) :: l)) with (done l). split; [lia|intros H; f_equal; apply IH; exact H].
  - split; [lia|discriminate].
  - split; [lia|discriminate].
Qed.
Lemma granted_app (e1 e2 : list ent) l1 l2 : length l1 = length e1 -> granted (e1 ++ e2) (l1 ++ l2) = granted e1 l1 ++ granted e2 l2.
Proof.
  revert l1. induction e1 as [|e e1 IH]; intros [|[p x] l1] H; try discriminate; [reflexivity|]. cbn [app granted]. injection H as H. rewrite (IH l1 H).
  destruct x as [[]| |]; reflexivity.
Qed.
Lemma granted_more (e1 e2 : list ent) l : (length l <= length e1)%nat -> granted (e1 ++ e2) l = granted e1 l.
Proof.
  revert l. induction e1 as [|e e1 IH]; intros [|[p x] l] H; cbn [app granted length] in *; try lia; try reflexivity.
  - destruct e2; reflexivity.
  - rewrite IH by lia. reflexivity.
Qed.
Lemma granted_in (es : list ent) l e : In e (granted es l) -> In e es.
Proof.
  revert l. induction es as [|a es IH]; intros [|[p x] l]; cbn [granted]; try (intros []). destruct x as [[]| |]; intros H.
  - right; eauto.
  - destruct H as [->|H]; [left; reflexivity|right; eauto].
  - right; eauto.
  - right; eauto.
Qed.

(** ** Element-wise addition *)
Definition nz (es : list ent) : list ent := filter (fun e => negb (neqb (snd e) n0)) es.
Definition wrote w (t : ptr) (O : mat) (xs : list ent) (w1 : world) : Prop :=
  exists O1, w_heap w1 = list_set (w_heap w) t O1 /\ good O1 /\ same_shape O O1 /\
    forall i j, inb O i j -> peek O1 i j = match answer xs i j with Some x => clean O x | None => peek O i j end.
Lemma wrote_obj w t O xs w1 : obj w t O -> wrote w t O xs w1 -> exists O1, obj w1 t O1 /\ w_heap w1 = list_set (w_heap w) t O1 /\ good O1 /\ same_shape O O1 /\
    forall i j, inb O i j -> peek O1 i j = match answer xs i j with Some x => clean O x | None => peek O i j end.
Proof.
  intros Ho (O1 & H & Hr). exists O1. split; [|auto]. unfold obj. rewrite H. apply nth_error_list_set_eq. eapply obj_lt; eauto.
Qed.
Lemma wrote_heap w t O xs w1 w2 : wrote w t O xs w1 -> w_heap w2 = w_heap w1 -> wrote w t O xs w2.
Proof. intros (O1 & H & Hr) E. exists O1. rewrite E. auto. Qed.
Lemma wrote_set w t O xs w1 r c x : zero_ok N -> obj w t O -> wrote w t O xs w1 -> inb O r c ->
  exists w2, p_Set t r c x w1 = (w2, Ok tt) /\ wrote w t O (xs ++ [(r, c, x)]) w2 /\ w_polls w2 = w_polls w1.
Proof.
  intros Hz Ho Hg Hb. destruct (wrote_obj _ _ _ _ _ Ho Hg) as (O1 & Ho1 & Hh & G1 & S1 & P1).
  destruct (p_Set_ok t w1 O1 r c x Hz Ho1 G1) as (O2 & E2 & G2 & S2 & P2); [apply (same_shape_inb _ _ _ _ S1); exact Hb|].
  exists (upd w1 t O2). split; [exact E2|]. split; [|reflexivity]. exists O2. split; [unfold upd; cbn [w_heap]; rewrite Hh, list_set_twice; reflexivity|]. split; [exact G2|].
  split; [eapply same_shape_trans; eauto|]. intros i j Hij. rewrite P2 by (apply (same_shape_inb _ _ _ _ S1); exact Hij). rewrite answer_snoc.
  destruct ((i =? r) && (j =? c)); [|apply P1; exact Hij]. unfold clean. rewrite (same_shape_sp _ _ S1). reflexivity.
Qed.

Lemma add_loop E w (s t : ptr) S O : zero_ok N -> obj w s S -> obj w t O -> s <> t -> wf S -> (forall r c, inb S r c -> inb O r c) ->
  forall rest it d fuel, it_rel S it d rest -> (length rest <= fuel)%nat -> forall w1 st xs, wrote w t O xs w1 ->
  let es := nz (reached E w1 rest) in
  let '(st', l) := ask q st (map fst es) in
  exists w' o, s_enum_loop E fuel s it tt (fun r c value =>
    if negb (neqb value n0) then sbind (s_Element q r c) (fun e => sbind (if negb e then slift (p_Set t r c value) else sret tt) (fun _ => sret None)) else sret None) st w1
    = (st', w', ending l o) /\ wrote w t O (xs ++ granted es l) w' /\
    (done l = true -> forall more, reached E w1 (rest ++ more) = reached E w1 rest ++ match o with None => reached E w' more | Some _ => [] end).
Proof.
  intros Hz Hs Ho Hst Hw Hb. induction rest as [|[[r c] v] rest IH]; intros it d fuel Hit Hf w1 st xs Hg es.
  - unfold es. rewrite reached_nil. cbn [nz filter map ask granted]. exists w1, None. split; [destruct fuel; cbn [s_enum_loop]; rewrite (it_rel_HasNext _ _ _ _ Hit); reflexivity|].
    rewrite app_nil_r. split; [exact Hg|]. intros _ more. reflexivity.
  - destruct fuel as [|fuel]; [simpl in Hf; lia|]. cbn [s_enum_loop]. rewrite (it_rel_HasNext _ _ _ _ Hit).
    destruct (poll_heap E w1) as (w2 & b & Hp & Hh & _). unfold es. clear es. destruct b.
    + rewrite (reached_stop _ _ _ _ Hp). cbn [nz filter map ask granted]. exists w2, (Some tt). rewrite (sbind_lift _ _ _ _ _ _ Hp). split; [reflexivity|].
      rewrite app_nil_r. split; [eapply wrote_heap; eauto|]. intros _ more. apply (reached_stop _ _ _ _ Hp).
    + rewrite (reached_go _ _ _ _ _ Hp). pose proof (wrote_heap _ _ _ _ _ _ Hg Hh) as Hg2.
      destruct (wrote_obj _ _ _ _ _ Ho Hg2) as (O2 & Ho2 & Hh2 & Gd2 & Sh2 & Pk2).
      assert (Hs2 : obj w2 s S) by (unfold obj; rewrite Hh2, nth_error_list_set_neq by auto; exact Hs).
      destruct (it_rel_step _ _ _ _ _ _ _ Hit) as (it' & Hn & Hcu & Hr & _).
      assert (En : mat_Next S it = Ok ((r, c, v), it')) by (unfold mat_Next; rewrite Hn; cbn [rbind]; rewrite Hcu; reflexivity).
      assert (Hin : In (r, c, v) (entries S)) by (rewrite (it_rel_entries _ _ _ _ Hit); apply in_or_app; right; left; reflexivity).
      destruct (entries_inb S r c v Hz Hw Hin) as [Hbs _].
      assert (Hfu : (length rest <= fuel)%nat) by (simpl in Hf; lia).
      cbn [nz filter snd]. destruct (neqb v n0) eqn:Ev; cbn [negb].
      * specialize (IH it' _ fuel Hr Hfu w2 st xs Hg2). cbv zeta in IH. unfold nz in IH. destruct (ask q st _) as [st' l]. destruct IH as (w' & o & E1 & E2 & E3).
        exists w', o. rewrite (sbind_lift _ _ _ _ _ _ Hp), (sbind_lift _ _ _ _ _ _ (load_ok _ _ _ Hs2)), (sbind_pure _ _ _ _ _ En). cbv iota beta. rewrite Ev. cbn [negb].
        split; [exact E1|]. split; [exact E2|]. intros Hd more. rewrite <- app_comm_cons, (reached_go _ _ _ _ _ Hp), (E3 Hd). reflexivity.
      * cbn [map fst ask]. destruct (sm_Element q st r c) as [st1 x] eqn:Ex.
        assert (Go : forall w3 ys st2, wrote w t O ys w3 -> w_polls w3 = w_polls w2 -> 
          let '(st', l) := ask q st2 (map fst (nz (reached E w2 rest))) in exists w' o, s_enum_loop E fuel s it' tt (fun r c value =>
          if negb (neqb value n0) then sbind (s_Element q r c) (fun e => sbind (if negb e then slift (p_Set t r c value) else sret tt) (fun _ => sret None)) else sret None) st2 w3
          = (st', w', ending l o) /\ wrote w t O (ys ++ granted (nz (reached E w2 rest)) l) w' /\
          (done l = true -> forall more, reached E w2 (rest ++ more) = reached E w2 rest ++ match o with None => reached E w' more | Some _ => [] end)).
        { intros w3 ys st2 Hw3 Hp3. specialize (IH it' _ fuel Hr Hfu w3 st2 ys Hw3). cbv zeta in IH. rewrite (reached_polls E w2 w3 rest Hp3) in IH.
          destruct (ask q st2 _) as [st' l]. destruct IH as (w' & o & E1 & E2 & E3). exists w', o. split; [exact E1|]. split; [exact E2|].
          intros Hd more. rewrite <- (reached_polls E w2 w3 _ Hp3). apply E3. exact Hd. }
        rewrite (sbind_lift _ _ _ _ _ _ Hp), (sbind_lift _ _ _ _ _ _ (load_ok _ _ _ Hs2)), (sbind_pure _ _ _ _ _ En). cbv iota beta. rewrite Ev. cbn [negb].
        destruct x as [[]| |].
        -- specialize (Go w2 xs st1 Hg2 eq_refl). unfold nz in Go. destruct (ask q st1 _) as [st' l]. destruct Go as (w' & o & E1 & E2 & E3). exists w', o.
           split; [unfold sbind at 1 2, s_Element; rewrite Ex; exact E1|]. split; [exact E2|].
           intros Hd more. rewrite <- app_comm_cons, (reached_go _ _ _ _ _ Hp), (E3 Hd). reflexivity.
        -- destruct (wrote_set w t O xs w2 r c v Hz Ho Hg2 (Hb _ _ Hbs)) as (w3 & Es & Hg3 & Hp3).
           specialize (Go w3 _ st1 Hg3 Hp3). unfold nz in Go. destruct (ask q st1 _) as [st' l]. destruct Go as (w' & o & E1 & E2 & E3). exists w', o.
           split; [unfold sbind at 1 2 3, s_Element, slift; rewrite Ex; cbn [negb]; rewrite Es; exact E1|]. split; [cbn [granted]; rewrite <- app_assoc in E2; exact E2|].
           intros Hd more. rewrite <- app_comm_cons, (reached_go _ _ _ _ _ Hp), (E3 Hd). reflexivity.
        -- exists w2, None. split; [unfold sbind at 1 2, s_Element; rewrite Ex; reflexivity|]. split; [|discriminate].
           cbn [granted]. replace (granted _ []) with (@nil ent) by (destruct (filter _ _); reflexivity). rewrite app_nil_r. exact Hg2.
        -- exists w2, None. split; [unfold sbind at 1 2, s_Element; rewrite Ex; reflexivity|]. split; [|discriminate].
           cbn [granted]. replace (granted _ []) with (@nil ent) by (destruct (filter _ _); reflexivity). rewrite app_nil_r. exact Hg2.
Qed.

(** one of the two loops, skipped when the operand is the output *)
Definition loop_of E (s : ptr) (t : ptr) : @MS N St (option unit) := if negb (Nat.eqb s t) then ewa_loopS E s q t else sret None.
Definition shown (s t : ptr) (L : list ent) : list ent := if Nat.eqb s t then [] else L.
Lemma loop_of_asks E w (s t : ptr) S O : zero_ok N -> obj w s S -> obj w t O -> wf S -> mat_Values S <= Z.of_nat (e_fuel E) -> (forall r c, inb S r c -> inb O r c) ->
  forall w1 st xs, wrote w t O xs w1 ->
  let es := nz (reached E w1 (shown s t (entries S))) in
  let '(st', l) := ask q st (map fst es) in
  exists w' o, loop_of E s t st w1 = (st', w', ending l o) /\ wrote w t O (xs ++ granted es l) w' /\
    (done l = true -> forall more, reached E w1 (shown s t (entries S) ++ more) = reached E w1 (shown s t (entries S)) ++ match o with None => reached E w' more | Some _ => [] end).
Proof.
  intros Hz Hs Ho Hw Hfu Hb w1 st xs Hg. unfold loop_of, shown. destruct (Nat.eqb_spec s t) as [->|Hst]; cbn [negb].
  - rewrite reached_nil. cbn [nz filter map ask granted]. exists w1, None. rewrite app_nil_r. split; [reflexivity|]. split; [exact Hg|]. intros _ more. reflexivity.
  - pose proof (add_loop E w s t S O Hz Hs Ho Hst Hw Hb (entries S) (mat_iterator S) [] (e_fuel E) (entries_rel S Hw)) as H.
    assert (Hl : (length (entries S) <= e_fuel E)%nat) by (pose proof (zlen_entries S Hw) as Hl; unfold zlen in Hl; lia).
    specialize (H Hl w1 st xs Hg). cbv zeta in *. destruct (ask q st _) as [st' l]. destruct H as (w' & o & E1 & E2 & E3). exists w', o. split; [|auto].
    unfold ewa_loopS, s_enumerate. destruct (wrote_obj _ _ _ _ _ Ho Hg) as (O1 & Ho1 & Hh & _).
    assert (Hs1 : obj w1 s S) by (unfold obj; rewrite Hh, nth_error_list_set_neq by auto; exact Hs).
    rewrite (sbind_lift _ _ _ _ _ _ (load_ok _ _ _ Hs1)). exact E1.
Qed.

Lemma nz_app (a b : list ent) : nz (a ++ b) = nz a ++ nz b.
Proof. unfold nz. apply filter_app. Qed.

Lemma ewa_asks E w (s m t : ptr) S Mo O R C h Ls Lm st : sane N -> reachable w -> obj w s S -> obj w m Mo -> obj w t O -> not_sparse_vector O ->
  mat_Rows S = R -> mat_Columns S = C -> mat_Rows Mo = R -> mat_Columns Mo = C -> denotes O R C h -> sm_Rows q = R -> sm_Columns q = C ->
  mat_Values S <= Z.of_nat (e_fuel E) -> mat_Values Mo <= Z.of_nat (e_fuel E) -> enumerates S Ls -> enumerates Mo Lm ->
  let es := filter (fun e => negb (neqb (snd e) n0)) (reached E w ((if Nat.eqb s t then [] else Ls) ++ (if Nat.eqb m t then [] else Lm))) in
  let '(st', l) := ask q st (map fst es) in
  exists w' O', elementWiseAddS E s m q t st w = (st', w', ending l tt) /\ extends_but t w w' /\ obj w' t O' /\ same_storage O O' /\
    denotes O' R C (fun i j => match answer (granted es l) i j with Some x => x | None => h i j end).
Proof.
  intros Hsn Hr Hs Hm Ho Po SR SC MR MC Do Q1 Q2 Hf1 Hf2 HLs HLm. pose proof (sane_wfw w Hsn Hr) as Hw. pose proof (proj1 Hsn) as Hz.
  assert (Go : good O) by (eapply plain_is_good; eauto). pose proof Do as (OR & OC & _). pose proof (Hw _ _ Hs) as Ws. pose proof (Hw _ _ Hm) as Wm.
  rewrite (enumerates_unique S Ls Ws HLs), (enumerates_unique Mo Lm Wm HLm). fold (shown s t (entries S)). fold (shown m t (entries Mo)). cbv zeta. 
  match goal with |- context [filter ?f ?x] => change (filter f x) with (nz x) end.
  assert (B1 : forall r c, inb S r c -> inb O r c) by (intros r c; unfold inb; lia).
  assert (B2 : forall r c, inb Mo r c -> inb O r c) by (intros r c; unfold inb; lia).
  assert (W0 : wrote w t O [] w).
  { exists O. split; [symmetry; apply list_set_same; exact Ho|]. split; [exact Go|]. split; [apply same_shape_refl|]. reflexivity. }
  assert (Fin : forall w' es l, wrote w t O (granted es l) w' -> incl es (nz es) ->
    exists O', extends_but t w w' /\ obj w' t O' /\ same_storage O O' /\ denotes O' R C (fun i j => match answer (granted es l) i j with Some x => x | None => h i j end)).
  { intros w' es l Hg Hes. destruct (wrote_obj _ _ _ _ _ Ho Hg) as (O' & Ho' & Hh & Gd & Sh & Pk). exists O'.
    split. { intros p x Hne Hp. unfold obj. rewrite Hh, nth_error_list_set_neq; auto. }
    split; [exact Ho'|]. split; [apply storage_of; exact Sh|].
    apply peek_denotes; [exact Hz|apply Gd|destruct Sh as (_ & ? & _); lia|destruct Sh as (_ & _ & ?); lia|].
    intros i j Hij. apply (same_shape_inb _ _ _ _ Sh) in Hij. rewrite Pk by exact Hij. destruct (answer (granted es l) i j) as [x|] eqn:Ea; [|apply (denotes_peek _ _ _ _ _ _ Do Hij)].
    apply answer_in, granted_in, Hes in Ea. unfold nz in Ea. apply filter_In in Ea as [_ Ea]. cbn [snd] in Ea. unfold clean, AssocProofs.norm, isz.
    destruct (neqb x n0); [discriminate|]. destruct (is_sp O); reflexivity. }
  assert (NZ : forall es : list ent, incl (nz es) (nz (nz es))).
  { intros es e He. unfold nz in *. apply filter_In. split; [exact He|]. apply filter_In in He. apply He. }
  assert (Start : elementWiseAddS E s m q t st w = sbind (loop_of E s t) (fun o => match o with Some _ => sret tt | None => sbind (loop_of E m t) (fun _ => sret tt) end) st w).
  { unfold elementWiseAddS. apply (s_check_ok q t w O _ st Ho); lia. }
  rewrite Start. clear Start.
  pose proof (loop_of_asks E w s t S O Hz Hs Ho Ws Hf1 B1 w st [] W0) as H1. cbv zeta in H1.
  destruct (ask q st (map fst (nz (reached E w (shown s t (entries S)))))) as [st1 l1] eqn:A1. destruct H1 as (w1 & o1 & X1 & G1 & M1). cbn [app] in G1.
  destruct (ask_length st (map fst (nz (reached E w (shown s t (entries S)))))) as [L1 L1']. rewrite A1 in L1, L1'. cbn [snd] in L1, L1'. rewrite map_length in L1, L1'.
  destruct (done l1) eqn:D1.
  - specialize (M1 eq_refl (shown m t (entries Mo))). rewrite M1, nz_app, map_app, ask_app, A1, D1. rewrite (ending_done (B := unit) l1 o1 tt D1) in X1. unfold sbind at 1. rewrite X1. destruct o1 as [[]|].
    + cbn [nz filter map ask app]. rewrite !app_nil_r. destruct (Fin w1 _ _ G1 (NZ _)) as (O' & H). exists w1, O'. rewrite (ending_done (B := unit) l1 tt tt D1). split; [reflexivity|exact H].
    + pose proof (loop_of_asks E w m t Mo O Hz Hm Ho Wm Hf2 B2 w1 st1 _ G1) as H2. cbv zeta in H2.
      destruct (ask q st1 (map fst (nz (reached E w1 (shown m t (entries Mo)))))) as [st2 l2] eqn:A2. destruct H2 as (w2 & o2 & X2 & G2 & _).
      rewrite <- granted_app in G2 by (apply L1'; reflexivity). rewrite <- nz_app in G2 |- *. destruct (Fin w2 _ _ G2 (NZ _)) as (O' & H). exists w2, O'. split; [|exact H].
      unfold sbind. rewrite X2, ending_app, D1. destruct (done l2) eqn:D2.
      * rewrite (ending_done (B := unit) l2 o2 tt D2), (ending_done (B := unit) l2 tt tt D2). reflexivity.
      * destruct (ending_not l2 o2 tt D2) as [[-> ->]|[-> ->]]; reflexivity.
  - assert (Pre : exists more, reached E w (shown s t (entries S) ++ shown m t (entries Mo)) = reached E w (shown s t (entries S)) ++ more).
    { unfold reached. destruct (e_ctx E) as [n|]; [|eexists; reflexivity]. rewrite firstn_app. eexists. reflexivity. }
    destruct Pre as [more ->]. rewrite nz_app, map_app, ask_app, A1, D1. rewrite <- (granted_more _ (nz more)) in G1 by exact L1. rewrite <- nz_app in G1 |- *.
    destruct (Fin w1 _ _ G1 (NZ _)) as (O' & H). exists w1, O'. split; [|exact H]. unfold sbind at 1. rewrite X1.
    destruct (ending_not l1 o1 tt D1) as [[-> ->]|[-> ->]]; reflexivity.
Qed.

(** ** In place *)
Definition stepQ (g : bool -> V -> V) (r c : Z) (v : V) : @MS N St V := sbind (s_Element q r c) (fun e => sret (g e v)).
Fixpoint results (g : bool -> V -> V) (es : list ent) (l : list qa) : list ent :=
  match es, l with
  | e :: es', (_, x) :: l' => match x with Ok b => (fst e, g b (snd e)) :: results g es' l' | _ => [] end
  | _, _ => []
  end.
Lemma results_places g (es : list ent) l : incl (map fst (results g es l)) (map fst es).
Proof.
  revert l. induction es as [|e es IH]; intros [|[p x] l]; cbn [results map]; try (intros ? []; fail). destruct x as [b| |]; try (intros ? []; fail).
  cbn [map fst]. intros y [<-|Hy]; [left; reflexivity|right; eapply IH; exact Hy].
Qed.
Lemma reached_incl E w (L : list ent) : incl (reached E w L) L.
Proof.
  intros e He. unfold reached in He. destruct (e_ctx E) as [n|]; [|exact He]. rewrite <- (firstn_skipn (n - w_polls w) L). apply in_or_app. left. exact He.
Qed.

Lemma in_loopQ E w (p : ptr) g m0 F : zero_ok N -> obj w p m0 -> wf m0 -> NoDup (map fst (entries m0)) ->
  forall rest it d m w1 st xs fuel, mrel m it (MapZero.kept m0 (put_in xs) d) rest -> same_shape m0 m ->
  entries m0 = d ++ rest -> incl (map fst xs) (map fst d) -> w_heap w1 = list_set (w_heap w) p m -> (length rest <= fuel)%nat ->
  forall st' l, ask q st (map fst (reached E w1 rest)) = (st', l) -> F = xs ++ results g (reached E w1 rest) l -> tame m0 (put_in F) rest [] ->
  exists w' m', s_map_loop E fuel p it (stepQ g) st w1 = (st', w', ending l tt) /\ w_heap w' = list_set (w_heap w) p m' /\
    wf m' /\ same_shape m0 m' /\ entries m' = MapZero.kept m0 (put_in F) (entries m0) /\ incl (map fst F) (map fst (entries m0)).
Proof.
  intros Hz Ho Hw Hnd.
  assert (Hnew : forall d r c v rest, entries m0 = d ++ (r, c, v) :: rest -> ~ In (r, c) (map fst d) /\ ~ In (r, c) (map fst rest)).
  { intros d r c v rest He. rewrite He, map_app in Hnd. cbn [map fst] in Hnd. apply NoDup_remove_2 in Hnd. split; intros H; apply Hnd; apply in_or_app; auto. }
  assert (Done : forall rest it d m w1 (st : St) xs (o : res unit), mrel m it (MapZero.kept m0 (put_in xs) d) rest -> same_shape m0 m ->
    entries m0 = d ++ rest -> incl (map fst xs) (map fst d) -> w_heap w1 = list_set (w_heap w) p m -> F = xs ++ [] ->
    exists w' m', (st, w1, o) = (st, w', o) /\ w_heap w' = list_set (w_heap w) p m' /\
    wf m' /\ same_shape m0 m' /\ entries m' = MapZero.kept m0 (put_in F) (entries m0) /\ incl (map fst F) (map fst (entries m0))).
  { intros rest it d m w1 st xs o Hit Hsh He Hincl Hh ->. rewrite !app_nil_r. exists w1, m. split; [reflexivity|]. split; [exact Hh|].
    destruct (mrel_wf _ _ _ _ Hit) as [Wm Em]. split; [exact Wm|]. split; [exact Hsh|]. split.
    - rewrite Em, He. unfold MapZero.kept at 2. rewrite flat_map_app. f_equal. symmetry. apply (kept_nz m0 (put_in xs)). intros r c v Hin. split.
      + unfold put_in. rewrite answer_none; [reflexivity|]. intros H. apply Hincl in H. apply in_split in Hin as (l1 & l2 & ->).
        destruct (Hnew (d ++ l1) r c v l2) as [Hn _]; [rewrite He, <- app_assoc; reflexivity|]. apply Hn. rewrite map_app. apply in_or_app. left. exact H.
      + intros Hs. apply (entries_inb m0 r c v Hz Hw); [|exact Hs]. rewrite He. apply in_or_app. right. exact Hin.
    - intros y Hy. rewrite He, map_app. apply in_or_app. left. apply Hincl. exact Hy. }
  induction rest as [|[[r c] v] rest IH]; intros it d m w1 st xs fuel Hit Hsh He Hincl Hh Hf st' l Hc HF Ht.
  - rewrite reached_nil in Hc, HF. cbn [map ask results] in Hc, HF. injection Hc as <- <-.
    replace (s_map_loop E fuel p it (stepQ g) st w1) with (st, w1, Ok tt) by (destruct fuel; cbn [s_map_loop]; rewrite (mrel_HasNext _ _ _ _ Hit); reflexivity).
    eapply Done; eauto.
  - destruct fuel as [|fuel]; [simpl in Hf; lia|]. cbn [s_map_loop]. rewrite (mrel_HasNext _ _ _ _ Hit).
    destruct (poll_heap E w1) as (w2 & b & Hp & Hh2 & _). rewrite (sbind_lift _ _ _ _ _ _ Hp). rewrite Hh in Hh2. destruct b.
    + rewrite (reached_stop _ _ _ _ Hp) in Hc, HF. cbn [map ask results] in Hc, HF. injection Hc as <- <-. unfold sret. eapply Done; eauto.
    + rewrite (reached_go _ _ _ _ _ Hp) in Hc, HF. destruct (Hnew _ _ _ _ _ He) as [Hnd1 Hnd2].
      assert (Hob : obj w2 p m) by (unfold obj; rewrite Hh2; apply nth_error_list_set_eq; eapply obj_lt; eauto).
      destruct (mrel_wf _ _ _ _ Hit) as [Wm Em].
      destruct (mrel_step _ _ _ _ _ _ _ Hit) as (it' & Hn & Hcu & Hput). cbn [tame] in Ht. destruct Ht as [Ht1 Ht2]. rewrite app_nil_r in Ht1.
      cbn [map fst ask] in Hc. destruct (sm_Element q st r c) as [st1 x] eqn:Ex.
      assert (Step : s_map_step p it (stepQ g) st w2 =
        match x with
        | Ok b => match mat_map_put m it' (g b v) with Ok m' => (st1, upd w2 p m', Ok it') | Panic => (st1, w2, Panic) | Diverge => (st1, w2, Diverge) end
        | Panic => (st1, w2, Panic) | Diverge => (st1, w2, Diverge) end).
      { unfold s_map_step. rewrite (sbind_lift _ _ _ _ _ _ (load_ok _ _ _ Hob)), (sbind_pure _ _ _ _ _ Hn), (sbind_pure _ _ _ _ _ Hcu). cbv iota beta.
        unfold sbind at 1, stepQ at 1, sbind at 1, s_Element. rewrite Ex. destruct x as [b| |]; try reflexivity. unfold sret at 1.
        rewrite (sbind_lift _ _ _ _ _ _ (load_ok _ _ _ Hob)); rewrite bind_lift; unfold mlift; destruct (mat_map_put m it' _); reflexivity. }
      unfold sbind. rewrite Step. clear Step. destruct x as [b| |].
      * destruct (ask q st1 _) as [st2 l2] eqn:Ec. injection Hc as <- <-. cbn [results fst snd] in HF.
        set (zs := results g (reached E w2 rest) l2) in *.
        assert (HFx : put_in F r c v = g b v).
        { rewrite HF. change ((r, c, g b v) :: zs) with ([(r, c, g b v)] ++ zs). rewrite app_assoc. unfold put_in.
          assert (Hzs : ~ In (r, c) (map fst zs)).
          { intros H. apply Hnd2. apply results_places in H. apply in_map_iff in H as (e & <- & H). apply reached_incl in H. apply in_map. exact H. }
          clear - Hzs. induction zs as [|e zs IHz] using rev_ind.
          - rewrite app_nil_r, answer_snoc. replace ((r =? r) && (c =? c)) with true by lia. reflexivity.
          - destruct e as [[a b'] y]. rewrite map_app in Hzs. cbn [map fst] in Hzs. rewrite app_assoc, answer_snoc.
            destruct ((r =? a) && (c =? b')) eqn:Eq.
            + exfalso. apply Hzs. apply in_or_app. right. left. f_equal; lia.
            + apply IHz. intros H. apply Hzs. apply in_or_app. left. exact H. }
        rewrite HFx in Ht1. destruct (Hput (g b v)) as (m' & Em' & Sh' & Hit').
        { intros Hs Hx. apply (ends_shape m0); [exact Hsh|]. apply Ht1; [|exact Hx]. rewrite <- (same_shape_sp _ _ Hsh). exact Hs. }
        rewrite Em'. cbn [ending].
        apply (IH it' (d ++ [(r, c, v)]) m' (upd w2 p m') st1 (xs ++ [(r, c, g b v)]) fuel) with (st' := st2) (l := l2).
        ++ unfold MapZero.kept. rewrite flat_map_app. fold (MapZero.kept m0 (put_in (xs ++ [(r, c, g b v)])) d). rewrite kept_other by exact Hnd1. cbn [flat_map].
           unfold remap. cbn [fst snd]. unfold put_in at 2. rewrite answer_snoc. replace ((r =? r) && (c =? c)) with true by lia.
           rewrite app_nil_r, <- (keep_shape m0 m) by exact Hsh. exact Hit'.
        ++ eapply same_shape_trans; eauto.
        ++ rewrite <- app_assoc. exact He.
        ++ rewrite !map_app. apply incl_app; [apply incl_appl; exact Hincl|apply incl_appr; intros y Hy; exact Hy].
        ++ unfold upd. cbn [w_heap]. rewrite Hh2, list_set_twice. reflexivity.
        ++ simpl in Hf; lia.
        ++ rewrite (reached_polls E w2) by reflexivity. exact Ec.
        ++ rewrite (reached_polls E w2) by reflexivity. rewrite <- app_assoc. exact HF.
        ++ exact Ht2.
      * injection Hc as <- <-. cbn [results] in HF. eapply Done; eauto.
      * injection Hc as <- <-. cbn [results] in HF. eapply Done; eauto.
Qed.

(** what was answered, and what came of it *)
Lemma results_answer g (es : list ent) : forall st, NoDup (map fst es) -> forall i j v, In (i, j, v) es ->
  answer (results g es (snd (ask q st (map fst es)))) i j = option_map (fun b => g b v) (replied (snd (ask q st (map fst es))) i j).
Proof.
  induction es as [|[[r c] v0] es IH]; intros st Hnd i j v Hin; [destruct Hin|]. cbn [map fst ask] in *. inversion Hnd as [|? ? Hn Hnd']; subst.
  destruct (sm_Element q st r c) as [st1 x]. destruct x as [b| |].
  - specialize (IH st1 Hnd' i j v). pose proof (results_places g es (snd (ask q st1 (map fst es)))) as Hpl. destruct (ask q st1 (map fst es)) as [st2 l]. cbn [snd fst results answer replied] in *.
    destruct ((r =? i) && (c =? j)) eqn:Eq.
    + assert (r = i /\ c = j) as [-> ->] by lia. rewrite answer_none by (intros H; apply Hn, Hpl; exact H). destruct Hin as [Hin|Hin]; [injection Hin as ->; reflexivity|].
      exfalso. apply Hn. apply (in_map fst) in Hin. exact Hin.
    + destruct Hin as [Hin|Hin]; [injection Hin as -> -> ->; lia|]. rewrite IH by exact Hin. destruct (replied l i j); reflexivity.
  - cbn [snd results answer replied]. destruct ((r =? i) && (c =? j)); reflexivity.
  - cbn [snd results answer replied]. destruct ((r =? i) && (c =? j)); reflexivity.
Qed.
Lemma replied_none ps st i j : ~ In (i, j) ps -> replied (snd (ask q st ps)) i j = None.
Proof.
  revert st. induction ps as [|[r c] ps IH]; intros st H; cbn [ask]; [reflexivity|]. assert (Eq : (r =? i) && (c =? j) = false).
  { destruct ((r =? i) && (c =? j)) eqn:Eq; [|reflexivity]. exfalso. apply H. left. f_equal; lia. }
  destruct (sm_Element q st r c) as [st1 [b| |]].
  - specialize (IH st1 (fun Hi => H (or_intror Hi))). destruct (ask q st1 ps) as [st2 l]. cbn [snd replied] in *. rewrite Eq. exact IH.
  - cbn [snd replied]. rewrite Eq. reflexivity.
  - cbn [snd replied]. rewrite Eq. reflexivity.
Qed.

Lemma place_dec (a b : Z * Z) : {a = b} + {a <> b}.
Proof. decide equality; apply Z.eq_dec. Defined.
Lemma first_NoDup {A} (l : list A) : forall n, NoDup l -> NoDup (firstn n l).
Proof.
  induction l as [|x l IH]; intros n H; destruct n; cbn [firstn]; try constructor; inversion H as [|? ? Hx Hl]; subst.
  - intros Hi. apply Hx. rewrite <- (firstn_skipn n l). apply in_or_app. left. exact Hi.
  - apply IH. exact Hl.
Qed.
Lemma map_asks E w (t : ptr) g O R C h st L : sane N -> reachable w -> obj w t O -> not_sparse_vector O -> denotes O R C h ->
  mat_Values O <= Z.of_nat (e_fuel E) -> enumerates O L ->
  let '(st', l) := ask q st (map fst (reached E w L)) in
  (sparse_obj O = true -> zeros_end_lines O (fun i j v => match replied l i j with Some b => g b v | None => v end) L []) ->
  exists w' O', s_map_over E t (stepQ g) st w = (st', w', ending l tt) /\ extends_but t w w' /\ obj w' t O' /\ same_storage O O' /\
    denotes O' R C (fun i j => match replied l i j with Some b => Spec.kept O (g b (h i j)) | None => h i j end).
Proof.
  intros Hsn Hr Ho Po Do Hfu HL. pose proof (sane_wfw w Hsn Hr) as Hw. pose proof (proj1 Hsn) as Hz. pose proof Do as (OR & OC & _).
  assert (Go : good O) by (eapply plain_is_good; eauto). rewrite (enumerates_unique O L (proj1 Go) HL). clear L HL.
  assert (ND : NoDup (map fst (entries O))) by (apply entries_NoDup; exact Go).
  assert (NDr : NoDup (map fst (reached E w (entries O)))).
  { unfold reached. destruct (e_ctx E) as [n|]; [|exact ND]. rewrite <- firstn_map. apply first_NoDup. exact ND. }
  pose proof (results_answer g (reached E w (entries O)) st NDr) as HA. pose proof (fun i j => replied_none (map fst (reached E w (entries O))) st i j) as HB.
  destruct (ask q st _) as [st' l] eqn:Ea. cbn [snd] in HA, HB. intros Hzl.
  set (F := results g (reached E w (entries O)) l) in *.
  assert (HF : forall i j v, In (i, j, v) (entries O) -> answer F i j = option_map (fun b => g b v) (replied l i j)).
  { intros i j v Hin. destruct (in_dec place_dec (i, j) (map fst (reached E w (entries O)))) as [Hi|Hi].
    - apply in_map_iff in Hi as ([[a b] v'] & Eq & Hi). cbn [fst] in Eq. injection Eq as -> ->. rewrite (HA i j v' Hi).
      apply reached_incl in Hi. apply entries_spec in Hin; auto. apply entries_spec in Hi; auto. destruct Hin as (_ & H1 & _), Hi as (_ & H2 & _). replace v' with v by congruence. reflexivity.
    - rewrite (HB i j Hi). apply answer_none. intros H. apply Hi. apply (results_places g) in H. exact H. }
  destruct (in_loopQ E w t g O F Hz Ho (proj1 Go) ND) with
    (rest := entries O) (it := mat_iterator O) (d := @nil ent) (m := O) (w1 := w) (st := st) (xs := @nil ent) (fuel := e_fuel E) (st' := st') (l := l)
    as (w' & O' & He & Hh & Wf & Sh & En & Hincl).
  - apply it_rel_mrel. apply entries_rel. apply Go.
  - apply same_shape_refl.
  - reflexivity.
  - intros y [].
  - symmetry. apply list_set_same. exact Ho.
  - pose proof (zlen_entries O (proj1 Go)) as Hl. unfold zlen in Hl. lia.
  - exact Ea.
  - reflexivity.
  - apply zeros_tame. intros Hs. eapply zeros_end_lines_ext; [|exact (Hzl Hs)]. intros i j v Hin. cbv beta. unfold put_in. rewrite (HF i j v Hin). destruct (replied l i j); reflexivity.
  - exists w', O'. split.
    { unfold s_map_over. rewrite (sbind_lift _ _ _ _ _ _ (load_ok _ _ _ Ho)). exact He. }
    split. { intros p m Hne Hp. unfold obj. rewrite Hh, nth_error_list_set_neq; auto. }
    split. { unfold obj. rewrite Hh. apply nth_error_list_set_eq. eapply obj_lt; eauto. }
    split; [apply storage_of; exact Sh|].
    apply peek_denotes; [exact Hz|exact Wf|destruct Sh as (_ & ? & _); lia|destruct Sh as (_ & _ & ?); lia|].
    intros i j Hij. apply (same_shape_inb _ _ _ _ Sh) in Hij.
    rewrite (kept_cells O O' _ Hz Go Wf Sh En i j Hij). pose proof (denotes_peek _ _ _ _ _ _ Do Hij) as Hp. rewrite <- Hp. unfold put_in.
    destruct (is_sp O && isz (peek O i j)) eqn:Esz.
    + assert (Hout : replied l i j = None).
      { apply HB. intros H. apply in_map_iff in H as ([[a b] v] & Eq & H). cbn [fst] in Eq. injection Eq as -> ->. apply reached_incl in H.
        apply entries_spec in H; auto. destruct H as (_ & Hv & Hnz). apply andb_true_iff in Esz as [Es Ez]. rewrite Hv, (Hnz Es) in Ez. discriminate. }
      rewrite Hout. symmetry. apply andb_true_iff in Esz as [Es Ez]. apply peek_zero; auto.
    + rewrite (HF i j (peek O i j)).
      * destruct (replied l i j) as [b|]; cbn [option_map]; [rewrite kept_clean|]; unfold clean, AssocProofs.norm; destruct (is_sp O) eqn:Es2; try reflexivity; cbn [andb] in *; rewrite ?Esz; reflexivity.
      * apply entries_spec; auto. split; [exact Hij|]. split; [reflexivity|]. intros Hs. rewrite Hs in Esz. exact Esz.
Qed.

Lemma negative_asks E w (s t : ptr) O R C h st L : sane N -> reachable w -> obj w t O -> not_sparse_vector O -> denotes O R C h -> sm_Rows q = R -> sm_Columns q = C ->
  mat_Values O <= Z.of_nat (e_fuel E) -> enumerates O L ->
  let '(st', l) := ask q st (map fst (reached E w L)) in
  exists w' O', NegativeS E s q t st w = (st', w', ending l tt) /\ extends_but t w w' /\ obj w' t O' /\ same_storage O O' /\
    denotes O' R C (fun i j => match replied l i j with Some false => nneg (h i j) | _ => h i j end).
Proof.
  intros Hsn Hr Ho Po Do Q1 Q2 Hfu HL. pose proof Do as (OR & OC & _). pose proof (sane_wfw w Hsn Hr) as Hw. pose proof (proj1 Hsn) as Hz.
  assert (Go : good O) by (eapply plain_is_good; eauto).
  pose proof (map_asks E w t (fun e v => if negb e then nneg v else v) O R C h st L Hsn Hr Ho Po Do Hfu HL) as H.
  pose proof (fun i j => replied_none (map fst (reached E w L)) st i j) as HB.
  destruct (ask q st _) as [st' l] eqn:Ea. cbn [snd] in HB.
  assert (HLn : sparse_obj O = true -> forall i j v, In (i, j, v) L -> isz v = false).
  { intros Hs i j v He. rewrite sparse_is_sp in Hs. rewrite (enumerates_unique O L (proj1 Go) HL) in He. apply (entries_inb O i j v Hz (proj1 Go) He). exact Hs. }
  destruct H as (w' & O' & H1 & H2 & H3 & H4 & H5).
  - intros Hs. apply no_zeros_end_lines. intros i j v Hin. specialize (HLn Hs i j v Hin). unfold isz in *. destruct (replied l i j) as [[]|]; cbn [negb]; auto. apply (proj2 Hsn). exact HLn.
  - exists w', O'. split; [unfold NegativeS; rewrite (s_check_ok q t w O _ st Ho) by lia; exact H1|]. repeat (split; [assumption|]).
    eapply denotes_ext; [|exact H5]. intros i j Hi Hj. cbv beta. destruct (replied l i j) as [b|] eqn:Er; [|reflexivity].
    assert (Hb : inb O i j) by (rewrite <- OR, <- OC in *; split; assumption).
    assert (Hst : is_sp O = true -> neqb (h i j) n0 = false).
    { intros Hs. assert (Hin : In (i, j) (map fst (reached E w L))).
      { destruct (in_dec place_dec (i, j) (map fst (reached E w L))) as [Hy|Hn]; [exact Hy|]. rewrite (HB i j Hn) in Er. discriminate. }
      apply in_map_iff in Hin as ([[a c] v] & Eq & Hin). cbn [fst] in Eq. injection Eq as -> ->. apply reached_incl in Hin.
      rewrite (enumerates_unique O L (proj1 Go) HL) in Hin. apply entries_spec in Hin; auto. destruct Hin as (_ & Hv & Hnz).
      rewrite <- (denotes_peek _ _ _ _ _ _ Do Hb), Hv. apply Hnz. exact Hs. }
    rewrite kept_clean. unfold clean, AssocProofs.norm. destruct (is_sp O) eqn:Es; [|destruct b; reflexivity]. specialize (Hst eq_refl). unfold isz.
    destruct b; cbn [negb]; [rewrite Hst; reflexivity|]. rewrite (proj2 Hsn _ Hst). reflexivity.
Qed.

Lemma apply_in_place_asks E w (t : ptr) u O R C h st L : sane N -> reachable w -> obj w t O -> not_sparse_vector O -> denotes O R C h -> sm_Rows q = R -> sm_Columns q = C ->
  mat_Values O <= Z.of_nat (e_fuel E) -> enumerates O L ->
  let '(st', l) := ask q st (map fst (reached E w L)) in
  (sparse_obj O = true -> zeros_end_lines O (fun i j v => match replied l i j with Some true => u v | _ => v end) L []) ->
  exists w' O', ApplyQ E t q u t st w = (st', w', ending l tt) /\ extends_but t w w' /\ obj w' t O' /\ same_storage O O' /\
    denotes O' R C (fun i j => match replied l i j with Some true => Spec.kept O (u (h i j)) | _ => h i j end).
Proof.
  intros Hsn Hr Ho Po Do Q1 Q2 Hfu HL. pose proof Do as (OR & OC & _). pose proof (sane_wfw w Hsn Hr) as Hw. pose proof (proj1 Hsn) as Hz.
  assert (Go : good O) by (eapply plain_is_good; eauto).
  pose proof (map_asks E w t (fun e v => if e then u v else v) O R C h st L Hsn Hr Ho Po Do Hfu HL) as H.
  pose proof (fun i j => replied_none (map fst (reached E w L)) st i j) as HB.
  destruct (ask q st _) as [st' l] eqn:Ea. cbn [snd] in HB. intros Hzl.
  destruct H as (w' & O' & H1 & H2 & H3 & H4 & H5).
  - intros Hs. eapply zeros_end_lines_ext; [|exact (Hzl Hs)]. intros i j v Hin. cbv beta. destruct (replied l i j) as [[]|]; reflexivity.
  - exists w', O'. split; [unfold ApplyQ; rewrite (s_check_ok q t w O _ st Ho) by lia; rewrite Nat.eqb_refl; exact H1|]. repeat (split; [assumption|]).
    eapply denotes_ext; [|exact H5]. intros i j Hi Hj. cbv beta. destruct (replied l i j) as [[]|] eqn:Er; try reflexivity.
    assert (Hb : inb O i j) by (rewrite <- OR, <- OC in *; split; assumption).
    rewrite kept_clean. unfold clean, AssocProofs.norm. destruct (is_sp O) eqn:Es; [|reflexivity].
    assert (Hin : In (i, j) (map fst (reached E w L))).
    { destruct (in_dec place_dec (i, j) (map fst (reached E w L))) as [Hy|Hn]; [exact Hy|]. rewrite (HB i j Hn) in Er. discriminate. }
    apply in_map_iff in Hin as ([[a c] v] & Eq & Hin). cbn [fst] in Eq. injection Eq as -> ->. apply reached_incl in Hin.
    rewrite (enumerates_unique O L (proj1 Go) HL) in Hin. apply entries_spec in Hin; auto. destruct Hin as (_ & Hv & Hnz).
    rewrite <- (denotes_peek _ _ _ _ _ _ Do Hb), Hv, (Hnz Es). reflexivity.
Qed.

(** ** Element-wise multiplication into one of the operands *)
Lemma ewm_in_place_asks E w (s m t : ptr) a S O Mo L st : sane N -> reachable w -> obj w s S -> obj w t O -> obj w a Mo -> not_sparse_vector Mo -> not_sparse_vector O ->
  (m = t /\ a = s) \/ (s = t /\ a = m) -> a <> t ->
  mat_Rows Mo = mat_Rows O -> mat_Columns Mo = mat_Columns O -> sm_Rows q = mat_Rows O -> sm_Columns q = mat_Columns O ->
  mat_Values Mo <= Z.of_nat (e_fuel E) -> e_ctx E = None -> enumerates Mo L ->
  let '(st', l) := ask q st (map fst L) in
  exists w', elementWiseMultiplyS E s m q t st w = (st', w', ending l tt) /\ elementWiseMultiply E s m (MUser (sm_Rows q) (sm_Columns q) (recorded l)) t w = (w', Ok tt).
Proof.
  intros Hsn Hr Hs Ho Ha Pa Po Hcase Hat D1 D2 Q1 Q2 Hfu Hc HL. pose proof (sane_wfw w Hsn Hr) as Hw. pose proof (proj1 Hsn) as Hz.
  assert (Ga : good Mo) by (eapply plain_is_good; eauto). assert (Go : good O) by (eapply plain_is_good; eauto).
  rewrite (enumerates_unique Mo L (proj1 Ga) HL), <- places_map.
  pose proof (frag_end q (kin w t O) (flat_map (fun e : ent => [fst e]) (entries Mo))
    (s_enumerate E a tt (fun r c value => sbind (s_Element q r c) (fun e => sbind (if negb e then slift (p_Update t r c (fun v => if negb (neqb value v) then n0 else v)) else sret tt) (fun _ => sret None))))
    (fun f => enumerate E a tt (fun r c value => mbind (mask_Element (MUser (sm_Rows q) (sm_Columns q) f) r c) (fun e => mbind (if negb e then p_Update t r c (fun v => if negb (neqb value v) then n0 else v) else mret tt) (fun _ => mret None)))) w st) as H.
  destruct (ask q st _) as [st' l]. destruct H as (w' & E1 & E2 & _).
  - apply (frag_enumerate q (kin w t O) E a Mo (fun e => [fst e]) _ (fun r c v f => mbind (mask_Element (MUser (sm_Rows q) (sm_Columns q) f) r c) (fun e => mbind (if negb e then p_Update t r c (fun x => if negb (neqb v x) then n0 else x) else mret tt) (fun _ => mret None))) Hc (proj1 Ga) Hfu).
    + intros w1 Hk. eapply kin_other; eauto.
    + intros r c v w1 Hin Hk. apply frag_ask; [exact Hk|]. apply kin_update; auto. destruct (entries_inb Mo r c v Hz (proj1 Ga) Hin) as [Hb _]. unfold inb in *. lia.
    + rewrite places_map. apply entries_NoDup. exact Ga.
    + apply kin_refl; auto.
  - exists w'.
    assert (Hsp : p_IsSparse E s w = (w, Ok (IsSparseMatrix (e_reg E) S))) by (unfold p_IsSparse; rewrite (mbind_ok _ _ _ _ _ (load_ok _ _ _ Hs)); reflexivity).
    split.
    + unfold elementWiseMultiplyS. rewrite (s_check_ok q t w O _ st Ho Q1 Q2). cbv zeta. rewrite (sbind_lift _ _ _ _ _ _ Hsp).
      destruct Hcase as [[-> ->]|[-> ->]]; [rewrite Nat.eqb_refl; exact E1|]. replace (Nat.eqb m t) with false by (symmetry; apply Nat.eqb_neq; exact Hat). rewrite Nat.eqb_refl. exact E1.
    + unfold elementWiseMultiply. rewrite (mbind_ok _ _ _ _ _ (check_ok q t w O (recorded l) Ho Q1 Q2)). cbv zeta. rewrite (mbind_ok _ _ _ _ _ Hsp).
      destruct Hcase as [[-> ->]|[-> ->]]; [rewrite Nat.eqb_refl; exact E2|]. replace (Nat.eqb m t) with false by (symmetry; apply Nat.eqb_neq; exact Hat). rewrite Nat.eqb_refl. exact E2.
Qed.
End MaskMemMore.
