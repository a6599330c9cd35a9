(** [Apply] calls the function once per element, in order, and keeps what it did until a call fails. *)
From Coq Require Import String.
From Verif Require Import GoBase Num SparseVec Csr Csc DenseVec DenseMat Mat World Ops Spec Api.
From Verif Require Import BaseProofs MatProofs HeapProofs ReachProofs StoreProofs OpsProofs OpsThms EwThms OpsProps LoopProofs MapLag MapZero MapZeroThms ApplyMem.

Section ApplyMemThms.
Context {N : num} {St : Type}.
Notation V := (T N).
Notation mat := (mat N).
Notation ent := (Z * Z * V)%type.
Notation world := (world N).
Implicit Types w : world.
Implicit Types m : mat.
Implicit Types u : unary N St.

Lemma sbind_ok {A B} (x : MS A) (f : A -> MS B) (st st' : St) w w' a : x st w = (st', w', Ok a) -> sbind x f st w = f a st' w'.
Proof. intros H. unfold sbind. rewrite H. reflexivity. Qed.
Lemma sbind_lift {A B} (x : M N A) (f : A -> MS B) (st : St) w w' a : x w = (w', Ok a) -> sbind (slift x) f st w = f a st w'.
Proof. intros H. unfold sbind, slift. rewrite H. reflexivity. Qed.
Lemma sbind_pure {A B} (x : res A) (f : A -> MS B) (st : St) w a : x = Ok a -> sbind (slift (mlift x)) f st w = f a st w.
Proof. intros ->. reflexivity. Qed.

Lemma bind_lift {A B} (x : M N A) (f : A -> MS B) (st : St) w : sbind (slift x) f st w =
  match x w with (w', Ok a) => f a st w' | (w', Panic) => (st, w', Panic) | (w', Diverge) => (st, w', Diverge) end.
Proof. unfold sbind, slift. destruct (x w) as [w' []]; reflexivity. Qed.
Lemma mbind_case {A B} (x : M N A) (f : A -> M N B) w : mbind x f w =
  match x w with (w', Ok a) => f a w' | (w', Panic) => (w', Panic) | (w', Diverge) => (w', Diverge) end.
Proof. reflexivity. Qed.
Lemma mbind_mbind {A B C} (x : M N A) (f : A -> M N B) (g : B -> M N C) w : mbind (mbind x f) g w = mbind x (fun a => mbind (f a) g) w.
Proof. unfold mbind. destruct (x w) as [w' []]; reflexivity. Qed.

(** a pure function: the same as in Ops.v *)
Lemma slift_bind {A B} (x : M N A) (f : A -> M N B) (g : A -> MS B) : (forall a (st : St) w, g a st w = slift (f a) st w) ->
  forall (st : St) w, sbind (slift x) g st w = slift (mbind x f) st w.
Proof.
  intros H st w. unfold sbind, slift, mbind. destruct (x w) as [w' [a| |]]; try reflexivity. rewrite H. reflexivity.
Qed.
Definition plainly (u : V -> V) : unary N St := fun st v => (st, Ok (u v)).
Lemma u_plain (u : V -> V) v (st : St) w : u_Apply (plainly u) v st w = (st, w, Ok (u v)).
Proof. reflexivity. Qed.
Lemma apply_plain E in_ k (u : T N -> T N) t (st : St) w :
  ApplyS E in_ k (plainly u) t st w = (st, fst (Apply E in_ k u t w), snd (Apply E in_ k u t w)).
Proof.
  transitivity (slift (Apply E in_ k u t) st w); [|unfold slift; destruct (Apply E in_ k u t w); reflexivity].
  unfold ApplyS, Apply. apply slift_bind. clear w st. intros k1 st w. destruct (Nat.eqb in_ t).
  - unfold map_over. apply slift_bind. clear w st. intros m st w. generalize (mat_iterator m) as it. revert st w.
    induction (e_fuel E) as [|fuel IH]; intros st w it; cbn [apply_in_loop map_loop]; destruct (mat_HasNext it); try reflexivity.
    apply slift_bind. clear w st. intros [] st w; [reflexivity|].
    assert (S : forall (st : St) w, apply_in_step in_ it k1 (plainly u) st w =
      slift (map_step in_ it (fun r c value => let! e := mask_Element k1 r c in mret (if e then u value else value))) st w).
    { clear. unfold apply_in_step, map_step. apply slift_bind. intros m. apply slift_bind. intros it'. apply slift_bind. intros [[r c] v] st w.
      unfold sbind, slift, mbind. destruct (mask_Element k1 r c w) as [w' [[]| |]]; try reflexivity; cbn [sret mret].
      - rewrite u_plain. unfold load. destruct (nth_error (w_heap w') in_) as [m1|]; [|reflexivity]. unfold mlift. destruct (mat_map_put m1 it' (u v)); reflexivity.
      - unfold load. destruct (nth_error (w_heap w') in_) as [m1|]; [|reflexivity]. unfold mlift. destruct (mat_map_put m1 it' v); reflexivity. }
    unfold sbind. rewrite S. unfold slift at 1, mbind. unfold slift at 1. destruct (map_step _ _ _ w) as [w' [it'| |]]; try reflexivity.
    rewrite IH. unfold slift. reflexivity.
  - assert (G : forall fuel it (st : St) w, apply_out_loop E fuel in_ it k1 (plainly u) t st w =
      let '(w', a) := (let! _ := enum_loop E fuel in_ it tt (fun r c value => let! e := mask_Element k1 r c in
        (if negb e then p_Set t c r (u value) else mret tt) ;!; mret None) in mret tt) w in (st, w', a)).
    { clear. induction fuel as [|fuel IH]; intros it st w; cbn [apply_out_loop enum_loop]; destruct (mat_HasNext it); try reflexivity.
      rewrite bind_lift. rewrite mbind_mbind. rewrite mbind_case. destruct (poll E w) as [w1 [[]| |]]; try reflexivity.
      rewrite bind_lift, mbind_mbind, mbind_case. destruct (load in_ w1) as [w2 [m| |]]; try reflexivity.
      rewrite bind_lift, mbind_mbind, mbind_case. unfold mlift. destruct (mat_Next m it) as [[[[r c] v] it']| |]; try reflexivity.
      rewrite bind_lift, !mbind_mbind, mbind_case. destruct (mask_Element k1 r c w2) as [w3 [[]| |]]; try reflexivity; cbn [negb].
      - unfold sbind, sret. rewrite IH. reflexivity.
      - unfold sbind. rewrite u_plain, !mbind_mbind, mbind_case. unfold slift at 1. destruct (p_Set t c r (u v) w3) as [w4 [[]| |]]; try reflexivity.
        rewrite IH. reflexivity. }
    rewrite bind_lift. unfold slift at 1, enumerate. rewrite mbind_mbind, mbind_case. destruct (load in_ w) as [w1 [m| |]]; try reflexivity. apply G.
Qed.

(** ** The pieces of the specification *)
Lemma answer_snoc (xs : list ent) r c x i j : answer (xs ++ [(r, c, x)]) i j = if (i =? r) && (j =? c) then Some x else answer xs i j.
Proof.
  induction xs as [|e xs IH]; cbn [app answer fst snd].
  - replace ((r =? i) && (c =? j)) with ((i =? r) && (j =? c)) by lia. destruct ((i =? r) && (j =? c)); reflexivity.
  - rewrite IH. destruct ((i =? r) && (j =? c)); [reflexivity|]. reflexivity.
Qed.
Lemma answer_in (xs : list ent) i j x : answer xs i j = Some x -> In (i, j, x) xs.
Proof.
  induction xs as [|e xs IH]; cbn [answer]; [discriminate|]. destruct (answer xs i j) as [y|].
  - intros [= ->]. right. apply IH. reflexivity.
  - destruct ((fst (fst e) =? i) && (snd (fst e) =? j)) eqn:Eq; [|discriminate]. intros [= <-]. left. destruct e as [[a b] v]. cbn in *.
    replace a with i by lia. replace b with j by lia. reflexivity.
Qed.
Lemma answer_none (xs : list ent) i j : ~ In (i, j) (map fst xs) -> answer xs i j = None.
Proof.
  intros H. destruct (answer xs i j) as [x|] eqn:E; [|reflexivity]. exfalso. apply H. apply answer_in in E. apply (in_map fst) in E. exact E.
Qed.
Lemma reached_nil E w : @reached N E w [] = [].
Proof. unfold reached. destruct (e_ctx E); [apply firstn_nil|reflexivity]. Qed.
Lemma reached_stop E w w1 (l : list ent) : poll E w = (w1, Ok true) -> reached E w l = [].
Proof.
  unfold poll, reached. destruct (e_ctx E) as [n|]; [|discriminate]. intros [= _ H]. apply Nat.leb_le in H.
  replace (n - w_polls w)%nat with 0%nat by lia. reflexivity.
Qed.
Lemma reached_go E w w1 (e : ent) l : poll E w = (w1, Ok false) -> reached E w (e :: l) = e :: reached E w1 l.
Proof.
  unfold poll, reached. destruct (e_ctx E) as [n|]; [|intros [= <-]; reflexivity]. intros [= <- H]. apply Nat.leb_gt in H. cbn [w_polls].
  replace (n - w_polls w)%nat with (S (n - S (w_polls w)))%nat by lia. reflexivity.
Qed.
Lemma reached_polls E w w1 (l : list ent) : w_polls w1 = w_polls w -> reached E w1 l = reached E w l.
Proof. intros H. unfold reached. rewrite H. reflexivity. Qed.

(** ** Into another matrix *)
Definition got w (t : ptr) (O : mat) (xs : list ent) (w1 : world) : Prop :=
  exists O1, w_heap w1 = list_set (w_heap w) t O1 /\ good O1 /\ same_shape O O1 /\
    forall i j, inb O i j -> peek O1 i j = match answer xs j i with Some x => clean O x | None => peek O i j end.

Lemma got_obj w t O xs w1 : obj w t O -> got w t O xs w1 -> exists O1, obj w1 t O1 /\ w_heap w1 = list_set (w_heap w) t O1 /\ good O1 /\ same_shape O O1 /\
    forall i j, inb O i j -> peek O1 i j = match answer xs j i with Some x => clean O x | None => peek O i j end.
Proof.
  intros Ho (O1 & H & Hr). exists O1. split; [|auto]. unfold obj. rewrite H. apply nth_error_list_set_eq. eapply obj_lt; eauto.
Qed.
Lemma got_heap w t O xs w1 w2 : got w t O xs w1 -> w_heap w2 = w_heap w1 -> got w t O xs w2.
Proof. intros (O1 & H & Hr) E. exists O1. rewrite E. auto. Qed.

Lemma out_loop E w (s t : ptr) k1 cov u S O : zero_ok N -> obj w s S -> obj w t O -> s <> t -> wf S ->
  (forall r c, inb S r c -> inb O c r) ->
  (forall r c w1 xs, inb S r c -> got w t O xs w1 -> mask_Element k1 r c w1 = (w1, Ok (cov r c))) ->
  forall rest it d w1 st xs fuel, it_rel S it d rest -> got w t O xs w1 -> (length rest <= fuel)%nat ->
  forall st' ys o, calls u st (chosen cov false (reached E w1 rest)) = (st', ys, o) ->
  exists w', apply_out_loop E fuel s it k1 u t st w1 = (st', w', o) /\ got w t O (xs ++ ys) w'.
Proof.
  intros Hz Hs Ho Hst Hw Hb Hmask. induction rest as [|[[r c] v] rest IH]; intros it d w1 st xs fuel Hit Hg Hf st' ys o Hc.
  - rewrite reached_nil in Hc. injection Hc as <- <- <-. exists w1. rewrite app_nil_r. split; [|exact Hg].
    destruct fuel; cbn [apply_out_loop]; rewrite (it_rel_HasNext _ _ _ _ Hit); reflexivity.
  - destruct fuel as [|fuel]; [simpl in Hf; lia|]. cbn [apply_out_loop]. rewrite (it_rel_HasNext _ _ _ _ Hit).
    destruct (poll_heap E w1) as (w2 & b & Hp & Hh & _). rewrite (sbind_lift _ _ _ _ _ _ Hp). destruct b.
    + rewrite (reached_stop _ _ _ _ Hp) in Hc. injection Hc as <- <- <-. exists w2. rewrite app_nil_r. split; [reflexivity|]. eapply got_heap; eauto.
    + rewrite (reached_go _ _ _ _ _ Hp) in Hc. pose proof (got_heap _ _ _ _ _ _ Hg Hh) as Hg2.
      destruct (got_obj _ _ _ _ _ Ho Hg2) as (O2 & Ho2 & Hh2 & Gd2 & Sh2 & Pk2).
      assert (Hs2 : obj w2 s S) by (unfold obj; rewrite Hh2, nth_error_list_set_neq by auto; exact Hs).
      rewrite (sbind_lift _ _ _ _ _ _ (load_ok _ _ _ Hs2)).
      destruct (it_rel_step _ _ _ _ _ _ _ Hit) as (it' & Hn & Hcu & Hr & _).
      assert (En : mat_Next S it = Ok ((r, c, v), it')) by (unfold mat_Next; rewrite Hn; cbn [rbind]; rewrite Hcu; reflexivity).
      rewrite (sbind_pure _ _ _ _ _ En). cbv iota beta.
      assert (Hin : In (r, c, v) (entries S)) by (rewrite (it_rel_entries _ _ _ _ Hit); apply in_or_app; right; left; reflexivity).
      destruct (entries_inb S r c v Hz Hw Hin) as [Hbs _].
      rewrite (sbind_lift _ _ _ _ _ _ (Hmask r c w2 xs Hbs Hg2)). unfold chosen in Hc. cbn [filter fst snd] in Hc. destruct (cov r c); cbn [negb Bool.eqb] in *.
      * unfold sret at 1. rewrite (sbind_ok _ _ st st w2 w2 tt eq_refl). apply (IH it' _ w2 st xs fuel Hr Hg2 ltac:(simpl in Hf; lia) _ _ _ Hc).
      * cbn [calls snd fst] in Hc. destruct (u st v) as [st1 x] eqn:Eu. unfold sbind at 1. unfold sbind at 1. unfold u_Apply. rewrite Eu. destruct x as [x| |].
        -- destruct (p_Set_ok t w2 O2 c r x Hz Ho2 Gd2) as (O3 & E3 & Gd3 & Sh3 & Pk3).
           { apply (same_shape_inb _ _ _ _ Sh2). apply Hb. exact Hbs. }
           unfold slift. rewrite E3. destruct (calls u st1 _) as [[st2 zs] o2] eqn:Ec. injection Hc as <- <- <-.
           destruct (IH it' _ (upd w2 t O3) st1 (xs ++ [(r, c, x)]) fuel Hr) with (st' := st2) (ys := zs) (o := o2) as (w' & Ew & Hw').
           ++ exists O3. split; [unfold upd; cbn [w_heap]; rewrite Hh2, list_set_twice; reflexivity|]. split; [exact Gd3|].
              split; [eapply same_shape_trans; eauto|]. intros i j Hij. rewrite Pk3 by (apply (same_shape_inb _ _ _ _ Sh2); exact Hij).
              rewrite answer_snoc. replace ((j =? r) && (i =? c)) with ((i =? c) && (j =? r)) by lia.
              destruct ((i =? c) && (j =? r)); [|apply Pk2; exact Hij]. unfold clean. rewrite (same_shape_sp _ _ Sh2). reflexivity.
           ++ simpl in Hf; lia.
           ++ rewrite (reached_polls E w2) by reflexivity. exact Ec.
           ++ exists w'. split; [exact Ew|]. rewrite <- app_assoc in Hw'. exact Hw'.
        -- injection Hc as <- <- <-. exists w2. rewrite app_nil_r. split; [reflexivity|exact Hg2].
        -- injection Hc as <- <- <-. exists w2. rewrite app_nil_r. split; [reflexivity|exact Hg2].
Qed.

Lemma apply_memory E w (s : ptr) k t S O R C f h u st L : sane N -> reachable w -> obj w s S -> obj w t O -> not_sparse_vector O ->
  denotes S R C f -> denotes O C R h -> mask_dims w k C R -> s <> t -> mask_not k t -> (R = C \/ forall p, k <> MObj p) ->
  mat_Values S <= Z.of_nat (e_fuel E) -> enumerates S L ->
  let '(st', xs, o) := calls u st (chosen (covers w k) false (reached E w L)) in
  exists w' O', ApplyS E s k u t st w = (st', w', o) /\ extends_but t w w' /\ obj w' t O' /\ same_storage O O' /\
    denotes O' C R (fun i j => match answer xs j i with Some x => Spec.kept O x | None => h i j end).
Proof.
  intros Hsn Hr Hs Ho Po Ds Do Hk Hst Hkt Hsq Hfu HL. pose proof (sane_wfw w Hsn Hr) as Hw. pose proof (proj1 Hsn) as Hz.
  pose proof Ds as (SR & SC & _). pose proof Do as (OR & OC & _). pose proof (Hw _ _ Hs) as Ws.
  assert (Go : good O) by (eapply plain_is_good; eauto).
  assert (Hmd : mask_dims w k (mat_Rows O) (mat_Columns O)) by (rewrite OR, OC; exact Hk).
  assert (Hmw : mask_wf w k) by (eapply mask_dims_wf; eauto).
  rewrite (enumerates_unique S L Ws HL). destruct (calls u st _) as [[st' xs] o] eqn:Ec.
  assert (Hb : forall r c, inb S r c -> inb O c r) by (intros r c; unfold inb; lia).
  destruct (out_loop E w s t (mask_norm k (mat_Rows O) (mat_Columns O)) (covers w k) u S O Hz Hs Ho Hst Ws Hb) with
    (rest := entries S) (it := mat_iterator S) (d := @nil ent) (w1 := w) (st := st) (xs := @nil ent) (fuel := e_fuel E) (st' := st') (ys := xs) (o := o)
    as (w' & He & Hg).
  - intros r c w1 ys Hbs (O1 & Hh1 & Gd1 & Sh1 & _). destruct Hsq as [Hsq|Hno]; [|apply mask_total; exact Hno].
    assert (E1 : w_heap w1 = w_heap (upd w t O1)) by (rewrite Hh1; reflexivity).
    rewrite mask_Element_ok.
    + rewrite (covers_heap k (upd w t O1) w1) by auto. rewrite covers_upd by auto. reflexivity.
    + exact Hz.
    + apply (mask_wf_heap k (upd w t O1)); auto. apply mask_wf_upd; auto.
    + apply (mask_dims_heap k (upd w t O1)); auto. apply mask_dims_upd; auto.
    + unfold inb in Hbs. lia.
    + unfold inb in Hbs. lia.
  - apply entries_rel; auto.
  - exists O. split; [symmetry; apply list_set_same; exact Ho|]. split; [exact Go|]. split; [apply same_shape_refl|]. reflexivity.
  - pose proof (zlen_entries S Ws) as Hl. unfold zlen in Hl. lia.
  - exact Ec.
  - destruct (got_obj _ _ _ _ _ Ho Hg) as (O' & Ho' & Hh & Gd & Sh & Pk). exists w', O'. split.
    { unfold ApplyS. rewrite (sbind_lift _ _ _ _ _ _ (check_mask_ok _ _ _ _ Ho Hmd)), (sbind_lift _ _ _ _ _ _ (load_ok _ _ _ Hs)).
      destruct (Nat.eqb_spec s t) as [->|_]; [contradiction|]. exact He. }
    split. { intros q m Hne Hq. unfold obj. rewrite Hh, nth_error_list_set_neq; auto. }
    split; [exact Ho'|]. split; [apply storage_of; exact Sh|].
    apply peek_denotes; [exact Hz|apply Gd|destruct Sh as (_ & ? & _); lia|destruct Sh as (_ & _ & ?); lia|].
    intros i j Hij. apply (same_shape_inb _ _ _ _ Sh) in Hij. rewrite Pk by exact Hij. cbn [app]. destruct (answer xs j i); [rewrite kept_clean by auto; reflexivity|].
    apply (denotes_peek _ _ _ _ _ _ Do Hij).
Qed.

(** ** In place *)
Definition put_in (xs : list ent) (r c : Z) (v : V) : V := match answer xs r c with Some x => x | None => v end.

Lemma put_in_other (xs : list ent) r c x d : ~ In (r, c) (map fst d) -> map (remap (put_in (xs ++ [(r, c, x)]))) d = map (remap (put_in xs)) d.
Proof.
  intros H. apply map_ext_in. intros [[a b] v] Hin. unfold remap, put_in. cbn [fst snd]. rewrite answer_snoc.
  destruct ((a =? r) && (b =? c)) eqn:Eq; [|reflexivity]. exfalso. apply H. apply (in_map fst) in Hin. cbn [fst] in Hin.
  replace r with a by lia. replace c with b by lia. exact Hin.
Qed.

Lemma calls_places u : forall l st, incl (map fst (snd (fst (calls u st l)))) (map fst l).
Proof.
  induction l as [|e l IH]; intros st; cbn [calls]; [apply incl_refl|]. destruct (u st (snd e)) as [st' [x| |]]; try (intros q []).
  specialize (IH st'). destruct (calls u st' l) as [[st2 ys] o]. cbn [fst snd map] in *. intros q [<-|Hq]; [left; reflexivity|right; apply IH; exact Hq].
Qed.
Lemma chosen_places cov b E w (l : list ent) : incl (map fst (chosen cov b (reached E w l))) (map fst l).
Proof.
  intros q Hq. apply in_map_iff in Hq as (e & <- & He). unfold chosen in He. apply filter_In in He as [He _]. apply in_map.
  unfold reached in He. destruct (e_ctx E) as [n|]; [|exact He]. rewrite <- (firstn_skipn (n - w_polls w) l). apply in_or_app. left. exact He.
Qed.
Lemma mrel_wf m it d rest : mrel m it d rest -> wf m /\ entries m = d ++ rest.
Proof. intros (it0 & H & _). split; [eapply it_rel_wf; eauto|]. apply (it_rel_entries _ _ _ _ H). Qed.
Lemma kept_nz m0 (g : Z -> Z -> V -> V) (l : list ent) : (forall r c v, In (r, c, v) l -> g r c v = v /\ (is_sp m0 = true -> isz v = false)) -> MapZero.kept m0 g l = l.
Proof.
  induction l as [|[[r c] v] l IH]; intros H; [reflexivity|]. unfold MapZero.kept. cbn [flat_map]. destruct (H r c v (or_introl eq_refl)) as [H1 H2].
  unfold keep at 1, remap at 1 2. cbn [fst snd]. rewrite H1. replace (is_sp m0 && isz v) with false by (destruct (is_sp m0); [rewrite H2; reflexivity|reflexivity]).
  cbn [app]. f_equal. apply IH. intros a b x Hx. apply H. right. exact Hx.
Qed.
Lemma kept_other m0 (xs : list ent) r c x d : ~ In (r, c) (map fst d) -> MapZero.kept m0 (put_in (xs ++ [(r, c, x)])) d = MapZero.kept m0 (put_in xs) d.
Proof.
  intros H. unfold MapZero.kept. rewrite !flat_map_concat_map. f_equal. rewrite <- !(map_map (remap _) (keep m0)). f_equal. apply put_in_other. exact H.
Qed.

Lemma in_loop E w (p : ptr) k1 cov u m0 F : zero_ok N -> obj w p m0 -> wf m0 -> NoDup (map fst (entries m0)) ->
  (forall r c v m1 w1, w_heap w1 = list_set (w_heap w) p m1 -> wf m1 -> same_shape m0 m1 ->
     In (r, c, v) (entries m0) -> In (r, c, v) (entries m1) -> mask_Element k1 r c w1 = (w1, Ok (cov r c))) ->
  forall rest it d m w1 st xs fuel, mrel m it (MapZero.kept m0 (put_in xs) d) rest -> same_shape m0 m ->
  entries m0 = d ++ rest -> incl (map fst xs) (map fst d) -> w_heap w1 = list_set (w_heap w) p m -> (length rest <= fuel)%nat ->
  forall st' ys o, calls u st (chosen cov true (reached E w1 rest)) = (st', ys, o) -> F = xs ++ ys -> tame m0 (put_in F) rest [] ->
  exists w' m', apply_in_loop E fuel p it k1 u st w1 = (st', w', o) /\ w_heap w' = list_set (w_heap w) p m' /\
    wf m' /\ same_shape m0 m' /\ entries m' = MapZero.kept m0 (put_in F) (entries m0) /\ incl (map fst F) (map fst (entries m0)).
Proof.
  intros Hz Ho Hw Hnd Hmask.
  assert (Hnew : forall d r c v rest, entries m0 = d ++ (r, c, v) :: rest -> ~ In (r, c) (map fst d) /\ ~ In (r, c) (map fst rest)).
  { intros d r c v rest He. rewrite He, map_app in Hnd. cbn [map fst] in Hnd. apply NoDup_remove_2 in Hnd. split; intros H; apply Hnd; apply in_or_app; auto. }
  assert (Done : forall rest it d m w1 (st : St) xs (o : res unit), mrel m it (MapZero.kept m0 (put_in xs) d) rest -> same_shape m0 m ->
    entries m0 = d ++ rest -> incl (map fst xs) (map fst d) -> w_heap w1 = list_set (w_heap w) p m -> F = xs ++ [] ->
    exists w' m', (st, w1, o) = (st, w', o) /\ w_heap w' = list_set (w_heap w) p m' /\
    wf m' /\ same_shape m0 m' /\ entries m' = MapZero.kept m0 (put_in F) (entries m0) /\ incl (map fst F) (map fst (entries m0))).
  { intros rest it d m w1 st xs o Hit Hsh He Hincl Hh ->. rewrite !app_nil_r. exists w1, m. split; [reflexivity|]. split; [exact Hh|].
    destruct (mrel_wf _ _ _ _ Hit) as [Wm Em]. split; [exact Wm|]. split; [exact Hsh|]. split.
    - rewrite Em, He. unfold MapZero.kept at 2. rewrite flat_map_app. f_equal. symmetry. apply (kept_nz m0 (put_in xs)). intros r c v Hin. split.
      + unfold put_in. rewrite answer_none; [reflexivity|]. intros H. apply Hincl in H. apply in_split in Hin as (l1 & l2 & ->).
        destruct (Hnew (d ++ l1) r c v l2) as [Hn _]; [rewrite He, <- app_assoc; reflexivity|]. apply Hn. rewrite map_app. apply in_or_app. left. exact H.
      + intros Hs. apply (entries_inb m0 r c v Hz Hw); [|exact Hs]. rewrite He. apply in_or_app. right. exact Hin.
    - intros q Hq. rewrite He, map_app. apply in_or_app. left. apply Hincl. exact Hq. }
  induction rest as [|[[r c] v] rest IH]; intros it d m w1 st xs fuel Hit Hsh He Hincl Hh Hf st' ys o Hc HF Ht.
  - rewrite reached_nil in Hc. injection Hc as <- <- <-.
    replace (apply_in_loop E fuel p it k1 u st w1) with (st, w1, Ok tt) by (destruct fuel; cbn [apply_in_loop]; rewrite (mrel_HasNext _ _ _ _ Hit); reflexivity).
    eapply Done; eauto.
  - destruct fuel as [|fuel]; [simpl in Hf; lia|]. cbn [apply_in_loop]. rewrite (mrel_HasNext _ _ _ _ Hit).
    destruct (poll_heap E w1) as (w2 & b & Hp & Hh2 & _). rewrite (sbind_lift _ _ _ _ _ _ Hp). rewrite Hh in Hh2. destruct b.
    + rewrite (reached_stop _ _ _ _ Hp) in Hc. injection Hc as <- <- <-. unfold sret. eapply Done; eauto.
    + rewrite (reached_go _ _ _ _ _ Hp) in Hc. destruct (Hnew _ _ _ _ _ He) as [Hnd1 Hnd2].
      assert (Hob : obj w2 p m) by (unfold obj; rewrite Hh2; apply nth_error_list_set_eq; eapply obj_lt; eauto).
      assert (Hin0 : In (r, c, v) (entries m0)) by (rewrite He; apply in_or_app; right; left; reflexivity).
      destruct (mrel_wf _ _ _ _ Hit) as [Wm Em].
      assert (Hin : In (r, c, v) (entries m)) by (rewrite Em; apply in_or_app; right; left; reflexivity).
      destruct (mrel_step _ _ _ _ _ _ _ Hit) as (it' & Hn & Hcu & Hput). cbn [tame] in Ht. destruct Ht as [Ht1 Ht2]. rewrite app_nil_r in Ht1.
      assert (Hnzv : is_sp m = true -> isz v = false).
      { intros Hs. apply (entries_inb m r c v Hz Wm Hin). exact Hs. }
      assert (Step : apply_in_step p it k1 u st w2 =
        match (if cov r c then u st v else (st, Ok v)) with
        | (st1, Ok x) => match mat_map_put m it' x with Ok m' => (st1, upd w2 p m', Ok it') | Panic => (st1, w2, Panic) | Diverge => (st1, w2, Diverge) end
        | (st1, Panic) => (st1, w2, Panic) | (st1, Diverge) => (st1, w2, Diverge) end).
      { unfold apply_in_step. rewrite (sbind_lift _ _ _ _ _ _ (load_ok _ _ _ Hob)), (sbind_pure _ _ _ _ _ Hn), (sbind_pure _ _ _ _ _ Hcu). cbv iota beta.
        rewrite (sbind_lift _ _ _ _ _ _ (Hmask r c v m w2 Hh2 Wm Hsh Hin0 Hin)).
        unfold sbind at 1. destruct (cov r c); [unfold u_Apply; destruct (u st v) as [st1 [x| |]]; try reflexivity|unfold sret at 1];
        rewrite (sbind_lift _ _ _ _ _ _ (load_ok _ _ _ Hob)); rewrite bind_lift; unfold mlift; destruct (mat_map_put m it' _); reflexivity. }
      unfold chosen in Hc. cbn [filter fst snd] in Hc. unfold sbind. rewrite Step. clear Step. destruct (cov r c); cbn [Bool.eqb] in Hc.
      * cbn [calls snd fst] in Hc. destruct (u st v) as [st1 x] eqn:Eu. destruct x as [x| |].
        -- destruct (calls u st1 _) as [[st2 zs] o2] eqn:Ec. injection Hc as <- <- <-.
           assert (HFx : put_in F r c v = x).
           { rewrite HF. change ((r, c, x) :: zs) with ([(r, c, x)] ++ zs). rewrite app_assoc. unfold put_in.
             assert (Hzs : ~ In (r, c) (map fst zs)).
             { intros H. apply Hnd2. apply (chosen_places cov true E w2 rest). pose proof (calls_places u (chosen cov true (reached E w2 rest)) st1) as Hcp.
               unfold chosen in Hcp at 1. rewrite Ec in Hcp. apply Hcp. exact H. }
             clear - Hzs. induction zs as [|e zs IHz] using rev_ind.
             - rewrite app_nil_r, answer_snoc. replace ((r =? r) && (c =? c)) with true by lia. reflexivity.
             - destruct e as [[a b] y]. rewrite map_app in Hzs. cbn [map fst] in Hzs. rewrite app_assoc, answer_snoc.
               destruct ((r =? a) && (c =? b)) eqn:Eq.
               + exfalso. apply Hzs. apply in_or_app. right. left. f_equal; lia.
               + apply IHz. intros H. apply Hzs. apply in_or_app. left. exact H. }
           rewrite HFx in Ht1. destruct (Hput x) as (m' & Em' & Sh' & Hit').
           { intros Hs Hx. apply (ends_shape m0); [exact Hsh|]. apply Ht1; [|exact Hx]. rewrite <- (same_shape_sp _ _ Hsh). exact Hs. }
           rewrite Em'.
           apply (IH it' (d ++ [(r, c, v)]) m' (upd w2 p m') st1 (xs ++ [(r, c, x)]) fuel) with (st' := st2) (ys := zs) (o := o2).
           ++ unfold MapZero.kept. rewrite flat_map_app. fold (MapZero.kept m0 (put_in (xs ++ [(r, c, x)])) d). rewrite kept_other by exact Hnd1. cbn [flat_map].
              unfold remap. cbn [fst snd]. unfold put_in at 2. rewrite answer_snoc. replace ((r =? r) && (c =? c)) with true by lia.
              rewrite app_nil_r, <- (keep_shape m0 m) by exact Hsh. exact Hit'.
           ++ eapply same_shape_trans; eauto.
           ++ rewrite <- app_assoc. exact He.
           ++ rewrite !map_app. apply incl_app; [apply incl_appl; exact Hincl|apply incl_appr; intros q Hq; exact Hq].
           ++ unfold upd. cbn [w_heap]. rewrite Hh2, list_set_twice. reflexivity.
           ++ simpl in Hf; lia.
           ++ rewrite (reached_polls E w2) by reflexivity. exact Ec.
           ++ rewrite <- app_assoc. exact HF.
           ++ exact Ht2.
        -- injection Hc as <- <- <-. eapply Done; eauto.
        -- injection Hc as <- <- <-. eapply Done; eauto.
      * destruct (Hput v) as (m' & Em' & Sh' & Hit').
        { intros Hs Hx. rewrite (Hnzv Hs) in Hx. discriminate. }
        rewrite Em'.
        apply (IH it' (d ++ [(r, c, v)]) m' (upd w2 p m') st xs fuel) with (st' := st') (ys := ys) (o := o).
        -- unfold MapZero.kept. rewrite flat_map_app. cbn [flat_map]. unfold remap at 2. cbn [fst snd]. unfold put_in at 2.
           rewrite answer_none by (intros H; apply Hnd1, Hincl, H). rewrite app_nil_r, <- (keep_shape m0 m) by exact Hsh. exact Hit'.
        -- eapply same_shape_trans; eauto.
        -- rewrite <- app_assoc. exact He.
        -- rewrite map_app. apply incl_appl. exact Hincl.
        -- unfold upd. cbn [w_heap]. rewrite Hh2, list_set_twice. reflexivity.
        -- simpl in Hf; lia.
        -- rewrite (reached_polls E w2) by reflexivity. exact Hc.
        -- exact HF.
        -- exact Ht2.
Qed.

Lemma apply_memory_zeros_in_place E w (t : ptr) k O R C h u st L : sane N -> reachable w -> obj w t O -> not_sparse_vector O -> denotes O R C h ->
  mask_dims w k R C -> mat_Values O <= Z.of_nat (e_fuel E) -> enumerates O L ->
  let '(st', xs, o) := calls u st (chosen (covers w k) true (reached E w L)) in
  (sparse_obj O = true -> zeros_end_lines O (fun i j v => match answer xs i j with Some x => x | None => v end) L []) ->
  exists w' O', ApplyS E t k u t st w = (st', w', o) /\ extends_but t w w' /\ obj w' t O' /\ same_storage O O' /\
    denotes O' R C (fun i j => match answer xs i j with Some x => Spec.kept O x | None => h i j end).
Proof.
  intros Hsn Hr Ho Po Do Hk Hfu HL. pose proof (sane_wfw w Hsn Hr) as Hw. pose proof (proj1 Hsn) as Hz.
  pose proof Do as (OR & OC & _).
  assert (Go : good O) by (eapply plain_is_good; eauto).
  assert (Hmd : mask_dims w k (mat_Rows O) (mat_Columns O)) by (rewrite OR, OC; exact Hk).
  assert (Hmw : mask_wf w k) by (eapply mask_dims_wf; eauto).
  rewrite (enumerates_unique O L (proj1 Go) HL). destruct (calls u st _) as [[st' xs] o] eqn:Ec. intros Hzl. apply zeros_tame in Hzl.
  destruct (in_loop E w t (mask_norm k (mat_Rows O) (mat_Columns O)) (covers w k) u O xs Hz Ho (proj1 Go) (entries_NoDup O Go)) with
    (rest := entries O) (it := mat_iterator O) (d := @nil ent) (m := O) (w1 := w) (st := st) (xs := @nil ent) (fuel := e_fuel E) (st' := st') (ys := xs) (o := o)
    as (w' & O' & He & Hh & Wf & Sh & En & Hincl).
  - intros r c v m1 w1 Hh1 Hw1 Hs1 Hin0 Hin1.
    assert (G1 : good m1) by (split; [auto|]; destruct Hs1 as [-> _]; apply Go).
    apply entries_spec in Hin0; auto. destruct Hin0 as (Hb & Hv0 & _).
    apply entries_spec in Hin1; auto. destruct Hin1 as (_ & Hv1 & _).
    assert (H : mask_not k t \/ k = MObj t).
    { unfold mask_not. destruct k as [| |p|]; try (left; discriminate).
      destruct (Nat.eq_dec p t); [right; congruence|left; congruence]. }
    destruct H as [Hne| ->].
    + assert (E1 : w_heap w1 = w_heap (upd w t m1)) by (rewrite Hh1; reflexivity).
      rewrite mask_Element_ok.
      * rewrite (covers_heap k (upd w t m1) w1) by auto. rewrite covers_upd by auto. reflexivity.
      * auto.
      * apply (mask_wf_heap k (upd w t m1)); auto. apply mask_wf_upd; auto.
      * apply (mask_dims_heap k (upd w t m1)); auto. apply mask_dims_upd; auto.
      * apply Hb.
      * apply Hb.
    + assert (Ho1 : obj w1 t m1).
      { unfold obj. rewrite Hh1. apply nth_error_list_set_eq. eapply obj_lt; eauto. }
      rewrite (mask_Element_ok (MObj t) w1 (mat_Rows O) (mat_Columns O)); try apply Hb; auto.
      * unfold covers. unfold obj in Ho, Ho1. rewrite Ho, Ho1.
        rewrite (At_ok O r c) by (auto; apply Go). rewrite (At_ok m1 r c) by (auto; apply (same_shape_inb _ _ _ _ Hs1); auto).
        rewrite Hv0, Hv1. reflexivity.
      * exists m1. split; [exact Ho1|exact Hw1].
      * exists m1. split; [exact Ho1|]. destruct Hs1 as (_ & -> & ->). auto.
  - apply it_rel_mrel. apply entries_rel. apply Go.
  - apply same_shape_refl.
  - reflexivity.
  - intros q [].
  - symmetry. apply list_set_same. exact Ho.
  - pose proof (zlen_entries O (proj1 Go)) as Hl. unfold zlen in Hl. lia.
  - exact Ec.
  - reflexivity.
  - exact Hzl.
  - exists w', O'. split.
    { unfold ApplyS. rewrite (sbind_lift _ _ _ _ _ _ (check_mask_ok _ _ _ _ Ho Hmd)), (sbind_lift _ _ _ _ _ _ (load_ok _ _ _ Ho)).
      rewrite Nat.eqb_refl. exact He. }
    split. { intros q m Hne Hq. unfold obj. rewrite Hh, nth_error_list_set_neq; auto. }
    split. { unfold obj. rewrite Hh. apply nth_error_list_set_eq. eapply obj_lt; eauto. }
    split; [apply storage_of; exact Sh|].
    apply peek_denotes; [exact Hz|exact Wf|destruct Sh as (_ & ? & _); lia|destruct Sh as (_ & _ & ?); lia|].
    intros i j Hij. apply (same_shape_inb _ _ _ _ Sh) in Hij.
    rewrite (kept_cells O O' _ Hz Go Wf Sh En i j Hij). rewrite <- (denotes_peek _ _ _ _ _ _ Do Hij). unfold put_in.
    destruct (answer xs i j) as [x|] eqn:Ea.
    + rewrite kept_clean. unfold clean, AssocProofs.norm. destruct (is_sp O) eqn:Esp; [|reflexivity]. cbn [andb].
      apply answer_in in Ea. apply (in_map fst) in Ea. apply Hincl in Ea. apply in_map_iff in Ea as ([[a b] v] & Ea & Hin). cbn [fst] in Ea.
      injection Ea as -> ->. apply entries_spec in Hin; auto. destruct Hin as (_ & Hv & Hnz). rewrite Hv, (Hnz Esp). reflexivity.
    + destruct (is_sp O) eqn:Esp; [|reflexivity]. cbn [andb]. destruct (isz (peek O i j)) eqn:Ez; [|reflexivity]. symmetry. apply peek_zero; auto.
Qed.

(** no zeros at all *)
Lemma calls_nz u : makes_no_zero u -> forall l st, (forall e, In e l -> isz (snd e) = false) ->
  forall e, In e (snd (fst (calls u st l))) -> isz (snd e) = false.
Proof.
  intros Hu. induction l as [|e l IH]; intros st Hl q; cbn [calls]; [intros []|]. destruct (u st (snd e)) as [st' [x| |]] eqn:Eu; try (intros []).
  specialize (IH st' (fun a Ha => Hl a (or_intror Ha)) q). destruct (calls u st' l) as [[st2 ys] o]. cbn [fst snd] in *.
  intros [<-|Hq]; [|apply IH; exact Hq]. cbn [snd]. apply (Hu st (snd e) st' x Eu). apply (Hl e). left. reflexivity.
Qed.
Lemma chosen_incl cov b E w (l : list ent) : incl (chosen cov b (reached E w l)) l.
Proof.
  intros e He. unfold chosen in He. apply filter_In in He as [He _].
  unfold reached in He. destruct (e_ctx E) as [n|]; [|exact He]. rewrite <- (firstn_skipn (n - w_polls w) l). apply in_or_app. left. exact He.
Qed.
Lemma no_zeros_end_lines (m : mat) (f : Z -> Z -> V -> V) l more : (forall i j v, In (i, j, v) l -> isz (f i j v) = false) -> zeros_end_lines m f l more.
Proof.
  intros H l1 i j v l2 -> Hx. exfalso. unfold isz in H. rewrite (H i j v) in Hx; [discriminate|]. apply in_or_app. right. left. reflexivity.
Qed.
Lemma zeros_end_lines_ext (m : mat) (f g : Z -> Z -> V -> V) l more : (forall i j v, In (i, j, v) l -> f i j v = g i j v) -> zeros_end_lines m f l more -> zeros_end_lines m g l more.
Proof.
  intros H Hf l1 i j v l2 El Hx. apply (Hf l1 i j v l2 El). rewrite H; [exact Hx|]. rewrite El. apply in_or_app. right. left. reflexivity.
Qed.

Lemma apply_memory_in_place E w (t : ptr) k O R C h u st L : sane N -> reachable w -> obj w t O -> not_sparse_vector O -> denotes O R C h ->
  mask_dims w k R C -> (sparse_obj O = true -> makes_no_zero u) -> mat_Values O <= Z.of_nat (e_fuel E) -> enumerates O L ->
  let '(st', xs, o) := calls u st (chosen (covers w k) true (reached E w L)) in
  exists w' O', ApplyS E t k u t st w = (st', w', o) /\ extends_but t w w' /\ obj w' t O' /\ same_storage O O' /\
    denotes O' R C (fun i j => match answer xs i j with Some x => x | None => h i j end).
Proof.
  intros Hsn Hr Ho Po Do Hk Hu Hfu HL. pose proof (sane_wfw w Hsn Hr) as Hw. pose proof (Hw _ _ Ho) as Wo.
  pose proof (apply_memory_zeros_in_place E w t k O R C h u st L Hsn Hr Ho Po Do Hk Hfu HL) as H.
  destruct (calls u st _) as [[st' xs] o] eqn:Ec.
  assert (HLn : sparse_obj O = true -> forall e, In e L -> isz (snd e) = false).
  { intros Hs [[a b] v] He. rewrite sparse_is_sp in Hs. rewrite (enumerates_unique O L Wo HL) in He. apply (entries_inb O a b v (proj1 Hsn) Wo He). exact Hs. }
  assert (Hxs : sparse_obj O = true -> forall e, In e xs -> isz (snd e) = false).
  { intros Hs e He. apply (calls_nz u (Hu Hs) (chosen (covers w k) true (reached E w L)) st); [|rewrite Ec; exact He].
    intros a Ha. apply (HLn Hs). apply chosen_incl in Ha. exact Ha. }
  destruct H as (w' & O' & H1 & H2 & H3 & H4 & H5).
  - intros Hs. apply no_zeros_end_lines. intros i j v Hin. destruct (answer xs i j) as [x|] eqn:Ea.
    + apply answer_in in Ea. apply (Hxs Hs _ Ea).
    + apply (HLn Hs _ Hin).
  - exists w', O'. repeat (split; [assumption|]). eapply denotes_ext; [|exact H5]. intros i j _ _. cbv beta. destruct (answer xs i j) as [x|] eqn:Ea; [|reflexivity].
    rewrite kept_clean. unfold clean, AssocProofs.norm. destruct (is_sp O) eqn:Es; [|reflexivity]. apply answer_in in Ea.
    specialize (Hxs ltac:(rewrite sparse_is_sp; exact Es) _ Ea). cbn [snd] in Hxs. rewrite Hxs. reflexivity.
Qed.

(** ** A function that writes down what it is given *)
Definition logging (g : V -> V) : unary N (list V) := fun log v => (log ++ [v], Ok (g v)).
End ApplyMemThms.

Section Log.
Context {N : num}.
Notation V := (T N).
Implicit Types w : world N.

Lemma calls_log (g : V -> V) : forall l log, calls (logging g) log l = (log ++ map snd l, map (fun e => (fst e, g (snd e))) l, Ok tt).
Proof.
  induction l as [|e l IH]; intros log; cbn [calls map]; [rewrite app_nil_r; reflexivity|]. unfold logging at 1. rewrite IH, <- app_assoc. reflexivity.
Qed.
Lemma calls_plain (g : V -> V) : forall l, calls (plainly g) tt l = (tt, map (fun e => (fst e, g (snd e))) l, Ok tt).
Proof. induction l as [|e l IH]; cbn [calls map]; [reflexivity|]. unfold plainly at 1. rewrite IH. reflexivity. Qed.

(** a pure function in place, with zeros at the ends of lines *)
Lemma apply_zeros_in_place E w (t : ptr) k O R C h (u : T N -> T N) L : sane N -> reachable w -> obj w t O -> not_sparse_vector O ->
  denotes O R C h -> mask_dims w k R C -> mat_Values O <= Z.of_nat (e_fuel E) -> e_ctx E = None -> enumerates O L ->
  (sparse_obj O = true -> zeros_end_lines O (fun i j v => if covers w k i j then u v else v) L []) ->
  exists w' O', Apply E t k u t w = (w', Ok tt) /\ extends_but t w w' /\ obj w' t O' /\ same_storage O O' /\
    denotes O' R C (fun i j => if stored O (h i j) && covers w k i j then Spec.kept O (u (h i j)) else h i j).
Proof.
  intros Hsn Hr Ho Po Do Hk Hfu Hc HL Hzl. pose proof (sane_wfw w Hsn Hr) as Hw. pose proof (proj1 Hsn) as Hz.
  assert (Go : good O) by (eapply plain_is_good; eauto).
  pose proof (apply_memory_zeros_in_place E w t k O R C h (plainly u) tt L Hsn Hr Ho Po Do Hk Hfu HL) as H.
  rewrite calls_plain in H. set (xs := map _ _) in H. apply (enumerates_unique O L (proj1 Go)) in HL. subst L.
  assert (HA : forall i j v, In (i, j, v) (entries O) -> answer xs i j = if covers w k i j then Some (u v) else None).
  { intros i j v Hin.
    assert (Hone : forall v', In (i, j, v') (entries O) -> v' = v).
    { intros v' Hin'. apply entries_spec in Hin; auto. apply entries_spec in Hin'; auto. destruct Hin as (_ & H1 & _), Hin' as (_ & H2 & _). congruence. }
    assert (Hx : forall x, In (i, j, x) xs -> covers w k i j = true /\ x = u v).
    { intros x Hx. unfold xs in Hx. apply in_map_iff in Hx as ([[a b] v'] & Ex & Hx). cbn [fst snd] in Ex. injection Ex as -> -> <-.
      unfold chosen, reached in Hx. rewrite Hc in Hx. apply filter_In in Hx as [Hx Hb]. cbn [fst snd] in Hb. rewrite (Hone v' Hx).
      split; [destruct (covers w k i j); [reflexivity|discriminate]|reflexivity]. }
    destruct (answer xs i j) as [x|] eqn:Ea.
    - apply answer_in in Ea. destruct (Hx x Ea) as [-> ->]. reflexivity.
    - destruct (covers w k i j) eqn:Ek; [|reflexivity]. exfalso.
      assert (Hin' : In (i, j, u v) xs).
      { unfold xs. apply in_map_iff. exists (i, j, v). split; [reflexivity|]. unfold chosen, reached. rewrite Hc. apply filter_In. split; [exact Hin|]. cbn [fst snd]. rewrite Ek. reflexivity. }
      clear - Ea Hin'. induction xs as [|e l IH]; [destruct Hin'|]. cbn [answer] in Ea. destruct (answer l i j) as [y|]; [discriminate|].
      destruct Hin' as [->|Hin']; [|apply IH; auto]. cbn [fst snd] in Ea. replace ((i =? i) && (j =? j)) with true in Ea by lia. discriminate. }
  destruct H as (w' & O' & H1 & H2 & H3 & H4 & H5).
  - intros Hs. eapply zeros_end_lines_ext; [|exact (Hzl Hs)]. intros i j v Hin. cbv beta. rewrite (HA i j v Hin). destruct (covers w k i j); reflexivity.
  - rewrite apply_plain in H1. destruct (Apply E t k u t w) as [w1 r] eqn:Ep. cbn [fst snd] in H1. injection H1 as -> ->.
    exists w', O'. repeat (split; [first [reflexivity|assumption]|]). eapply denotes_ext; [|exact H5]. intros i j Hi Hj. cbv beta.
    assert (Hb : inb O i j) by (destruct Do as (<- & <- & _); split; assumption).
    assert (Hp : peek O i j = h i j) by (apply (denotes_peek _ _ _ _ _ _ Do Hb)).
    destruct (stored O (h i j)) eqn:Es; cbn [andb].
    + rewrite (HA i j (h i j)); [destruct (covers w k i j); reflexivity|]. apply entries_spec; auto. split; [exact Hb|]. split; [exact Hp|].
      intros Hs. unfold stored in Es. destruct O; cbn in Hs, Es; try discriminate; unfold isz; destruct (neqb (h i j) n0); [discriminate|reflexivity|discriminate|reflexivity|discriminate|reflexivity].
    + rewrite answer_none; [reflexivity|]. intros Hin. unfold xs in Hin. rewrite map_map in Hin. cbn [fst] in Hin. apply chosen_places in Hin.
      apply in_map_iff in Hin as ([[a b] v] & Ex & Hin). cbn [fst] in Ex. injection Ex as -> ->. apply entries_spec in Hin; auto. destruct Hin as (_ & Hv & Hnz).
      rewrite Hp in Hv. subst v. unfold stored in Es. destruct O; cbn in Es; try discriminate; specialize (Hnz eq_refl); unfold isz in Hnz; rewrite Hnz in Es; discriminate.
Qed.

Lemma apply_log E w (s : ptr) k t S O R C f h (g : T N -> T N) L : sane N -> reachable w -> obj w s S -> obj w t O -> not_sparse_vector O ->
  denotes S R C f -> denotes O C R h -> mask_dims w k C R -> s <> t -> mask_not k t -> (R = C \/ forall p, k <> MObj p) ->
  mat_Values S <= Z.of_nat (e_fuel E) -> e_ctx E = None -> enumerates S L ->
  exists w', ApplyS E s k (logging g) t [] w = (uncovered (covers w k) L, w', Ok tt).
Proof.
  intros Hsn Hr Hs Ho Po Ds Do Hk Hst Hkt Hsq Hfu Hc HL.
  pose proof (apply_memory E w s k t S O R C f h (logging g) [] L Hsn Hr Hs Ho Po Ds Do Hk Hst Hkt Hsq Hfu HL) as H.
  rewrite calls_log in H. destruct H as (w' & _ & H & _). exists w'. rewrite H. unfold reached. rewrite Hc. reflexivity.
Qed.
Lemma apply_log_in_place E w (t : ptr) k O R C h (g : T N -> T N) L : sane N -> reachable w -> obj w t O -> not_sparse_vector O ->
  denotes O R C h -> mask_dims w k R C -> (sparse_obj O = true -> keeps_nz g) -> mat_Values O <= Z.of_nat (e_fuel E) -> e_ctx E = None -> enumerates O L ->
  exists w', ApplyS E t k (logging g) t [] w = (map snd (filter (fun e => covers w k (fst (fst e)) (snd (fst e))) L), w', Ok tt).
Proof.
  intros Hsn Hr Ho Po Do Hk Hg Hfu Hc HL.
  pose proof (apply_memory_in_place E w t k O R C h (logging g) [] L Hsn Hr Ho Po Do Hk) as H.
  rewrite calls_log in H. destruct H as (w' & _ & H & _); [|exact Hfu|exact HL|].
  - intros Hs st v st' x Hx. unfold logging in Hx. injection Hx as _ <-. apply Hg. exact Hs.
  - exists w'. rewrite H. unfold reached. rewrite Hc. cbn [app].
    unfold chosen. f_equal. f_equal. f_equal. apply filter_ext. intros e. destruct (covers w k _ _); reflexivity.
Qed.
End Log.
