(** The operators that write a target cell by cell. *)
From Coq Require Import String Sorting.Sorted.
From Verif Require Import GoBase Num SparseVec Csr Csc DenseVec DenseMat Mat World Ops.
From Verif Require Import BaseProofs AssocProofs CsrProofs SvProofs CsrIterProofs CscProofs DenseProofs MatProofs.
From Verif Require Import Spec HeapProofs Api ReachProofs StoreProofs.

Section Ops.
Context {N : num}.
Notation V := (T N).
Notation mat := (mat N).
Notation ent := (Z * Z * V)%type.
Notation world := (world N).
Notation M := (M N).
Implicit Types w : world.
Implicit Types m : mat.

(** ** Visited positions *)

Lemma visited_in L i j : visited L i j = true <-> In (i, j) L.
Proof.
  unfold visited. rewrite existsb_exists. split.
  - intros ([a b] & Hin & E). cbn [fst snd] in E. assert (a = i /\ b = j) as [-> ->] by lia. exact Hin.
  - intros H. exists (i, j). cbn [fst snd]. split; [exact H|lia].
Qed.
Lemma visited_notin L i j : visited L i j = false <-> ~ In (i, j) L.
Proof. rewrite <- visited_in. destruct (visited L i j); split; congruence. Qed.
Lemma visited_app L L' i j : visited (L ++ L') i j = visited L i j || visited L' i j.
Proof. apply existsb_app. Qed.
Lemma visited_one a b i j : visited [(a, b)] i j = (i =? a) && (j =? b).
Proof. unfold visited. cbn [existsb fst snd]. lia. Qed.

(** ** The state of the target after the positions [L] have been handled *)
Section State.
Variables (w : world) (t : ptr) (O : mat) (act : Z -> Z -> bool) (val : Z -> Z -> V -> V).

Definition St (L : list (Z * Z)) (w1 : world) : Prop :=
  exists O1, w_heap w1 = list_set (w_heap w) t O1 /\ good O1 /\ same_shape O O1 /\
    forall i j, inb O i j ->
      peek O1 i j = if visited L i j && act i j then clean O (val i j (peek O i j)) else peek O i j.

Hypothesis Hz : zero_ok N.
Hypothesis Ho : obj w t O.
Hypothesis Hg : good O.

Lemma St_start : St [] w.
Proof.
  exists O. split; [symmetry; apply list_set_same; exact Ho|]. split; [exact Hg|].
  split; [apply same_shape_refl|]. intros i j _. reflexivity.
Qed.
Lemma St_heap L w1 w2 : St L w1 -> w_heap w2 = w_heap w1 -> St L w2.
Proof. intros (O1 & H & R) E. exists O1. rewrite E. auto. Qed.

Lemma St_obj L w1 : St L w1 -> exists O1, obj w1 t O1 /\ good O1 /\ same_shape O O1 /\
  w_heap w1 = list_set (w_heap w) t O1.
Proof.
  intros (O1 & H & Hg1 & Hs & _). exists O1. split; [|auto]. unfold obj. rewrite H.
  apply nth_error_list_set_eq. eapply obj_lt; eauto.
Qed.
Lemma St_other L w1 q m : St L w1 -> q <> t -> obj w q m -> obj w1 q m.
Proof. intros (O1 & H & _) Hn Hq. unfold obj. rewrite H, nth_error_list_set_neq; auto. Qed.

(** reading a cell of any object that has not been written yet *)
Lemma St_read L w1 q m r c : St L w1 -> obj w q m -> wf m -> inb m r c ->
  (q = t -> visited L r c = false) -> p_At q r c w1 = (w1, Ok (peek m r c)).
Proof.
  intros HS Hq Hw Hb Hv. destruct (Nat.eq_dec q t) as [->|Hn].
  - assert (m = O) by (eapply obj_inj; eauto). subst m.
    destruct HS as (O1 & H & Hg1 & Hs & Hp).
    assert (Ho1 : obj w1 t O1).
    { unfold obj. rewrite H. apply nth_error_list_set_eq. eapply obj_lt; eauto. }
    rewrite (p_At_ok t w1 O1 r c Hz Ho1 (proj1 Hg1) (proj2 (same_shape_inb _ _ _ _ Hs) Hb)).
    rewrite Hp, Hv by auto. reflexivity.
  - apply p_At_ok; auto. eapply St_other; eauto.
Qed.

Lemma St_mask L w1 k r c : St L w1 -> mask_wf w k -> mask_dims w k (mat_Rows O) (mat_Columns O) ->
  inb O r c -> (k = MObj t -> visited L r c = false) ->
  mask_Element (mask_norm k (mat_Rows O) (mat_Columns O)) r c w1 = (w1, Ok (covers w k r c)).
Proof.
  intros HS Hmw Hd Hb Hv.
  assert (H : mask_not k t \/ k = MObj t).
  { unfold mask_not. destruct k as [| |p|]; try (left; discriminate).
    destruct (Nat.eq_dec p t); [right; congruence|left; congruence]. }
  destruct HS as (O1 & H1 & Hg1 & Hs & Hp). destruct H as [Hn | ->].
  - assert (E : w_heap w1 = w_heap (upd w t O1)) by (rewrite H1; reflexivity).
    rewrite mask_Element_ok.
    + rewrite (covers_heap k (upd w t O1) w1) by auto. rewrite covers_upd by auto. reflexivity.
    + auto.
    + apply (mask_wf_heap k (upd w t O1)); auto. apply mask_wf_upd; auto.
    + apply (mask_dims_heap k (upd w t O1)); auto. apply mask_dims_upd; auto.
    + apply Hb.
    + apply Hb.
  - assert (Ho1 : obj w1 t O1).
    { unfold obj. rewrite H1. apply nth_error_list_set_eq. eapply obj_lt; eauto. }
    rewrite (mask_Element_ok (MObj t) w1 (mat_Rows O) (mat_Columns O)); try apply Hb; auto.
    + unfold covers. unfold obj in Ho, Ho1. rewrite Ho, Ho1. rewrite !At_ok; auto; try apply Hg; try apply Hg1.
      * rewrite Hp, Hv by auto. reflexivity.
      * apply (same_shape_inb _ _ _ _ Hs); auto.
    + exists O1. split; [exact Ho1|apply Hg1].
    + exists O1. split; [exact Ho1|]. destruct Hs as (_ & -> & ->). auto.
Qed.

Lemma St_skip L w1 r c : St L w1 -> act r c = false -> St (L ++ [(r, c)]) w1.
Proof.
  intros (O1 & H & Hg1 & Hs & Hp) Ha. exists O1. do 3 (split; [auto|]). intros i j Hb. rewrite Hp by auto.
  rewrite visited_app, visited_one. destruct (visited L i j); [reflexivity|].
  destruct ((i =? r) && (j =? c)) eqn:E; [|reflexivity]. assert (i = r /\ j = c) as [-> ->] by lia. rewrite Ha. reflexivity.
Qed.

Lemma St_put L w1 w2 O1 O2 r c : St L w1 -> visited L r c = false -> inb O r c -> act r c = true ->
  obj w1 t O1 -> w_heap w2 = list_set (w_heap w1) t O2 -> good O2 -> same_shape O1 O2 ->
  (forall i j, inb O1 i j -> peek O2 i j = if (i =? r) && (j =? c) then clean O1 (val r c (peek O r c)) else peek O1 i j) ->
  St (L ++ [(r, c)]) w2.
Proof.
  intros (O1' & H & Hg1 & Hs & Hp) Hv Hb Ha Ho1 Hh Hg2 Hs2 Hp2.
  assert (O1' = O1).
  { eapply obj_inj; [|exact Ho1]. unfold obj. rewrite H. apply nth_error_list_set_eq. eapply obj_lt; eauto. }
  subst O1'. exists O2. split; [rewrite Hh, H, list_set_twice; reflexivity|]. split; [exact Hg2|].
  split; [eapply same_shape_trans; eauto|]. intros i j Hij. rewrite Hp2 by (apply (same_shape_inb _ _ _ _ Hs); auto).
  rewrite visited_app, visited_one. destruct ((i =? r) && (j =? c)) eqn:E.
  - assert (i = r /\ j = c) as [-> ->] by lia. rewrite Hv, Ha. cbn [orb andb].
    rewrite (same_shape_clean _ _ _ Hs). reflexivity.
  - rewrite Bool.orb_false_r, Hp by auto. reflexivity.
Qed.

Lemma St_cell L w1 O1 r c : St L w1 -> obj w1 t O1 -> visited L r c = false -> inb O r c -> peek O1 r c = peek O r c.
Proof.
  intros (O1' & H & Hg1 & Hs & Hp) Ho1 Hv Hb.
  assert (O1' = O1).
  { eapply obj_inj; [|exact Ho1]. unfold obj. rewrite H. apply nth_error_list_set_eq. eapply obj_lt; eauto. }
  subst O1'. rewrite Hp, Hv by auto. reflexivity.
Qed.

Lemma St_set L w1 r c x : St L w1 -> visited L r c = false -> inb O r c -> act r c = true ->
  x = val r c (peek O r c) -> exists w2, p_Set t r c x w1 = (w2, Ok tt) /\ St (L ++ [(r, c)]) w2 /\ w_polls w2 = w_polls w1.
Proof.
  intros HS Hv Hb Ha ->. destruct (St_obj _ _ HS) as (O1 & Ho1 & Hg1 & Hs & _).
  destruct (p_Set_ok t w1 O1 r c (val r c (peek O r c)) Hz Ho1 Hg1) as (O2 & E & Hg2 & Hs2 & Hp2).
  { apply (same_shape_inb _ _ _ _ Hs); auto. }
  eexists. split; [exact E|]. split; [|reflexivity]. apply (St_put L w1 (upd w1 t O2) O1 O2); auto.
Qed.
Lemma St_update L w1 r c g : St L w1 -> visited L r c = false -> inb O r c -> act r c = true ->
  (forall x, g x = val r c x) -> exists w2, p_Update t r c g w1 = (w2, Ok tt) /\ St (L ++ [(r, c)]) w2 /\ w_polls w2 = w_polls w1.
Proof.
  intros HS Hv Hb Ha Hval. destruct (St_obj _ _ HS) as (O1 & Ho1 & Hg1 & Hs & _).
  destruct (p_Update_ok t w1 O1 r c g Hz Ho1 Hg1) as (O2 & E & Hg2 & Hs2 & Hp2).
  { apply (same_shape_inb _ _ _ _ Hs); auto. }
  eexists. split; [exact E|]. split; [|reflexivity]. apply (St_put L w1 (upd w1 t O2) O1 O2); auto. intros i j Hij. rewrite Hp2 by auto.
  rewrite (St_cell _ _ _ _ _ HS Ho1 Hv Hb), Hval. reflexivity.
Qed.

(** the final object *)
Lemma St_final L w1 : St L w1 -> exists O1, extends_but t w w1 /\ obj w1 t O1 /\ good O1 /\ same_shape O O1 /\
  forall i j, inb O i j ->
    peek O1 i j = if visited L i j && act i j then clean O (val i j (peek O i j)) else peek O i j.
Proof.
  intros HS. destruct HS as (O1 & H & Hg1 & Hs & Hp). exists O1. split.
  - intros q m Hn Hq. unfold obj. rewrite H, nth_error_list_set_neq; auto.
  - split; [|auto]. unfold obj. rewrite H. apply nth_error_list_set_eq. eapply obj_lt; eauto.
Qed.
End State.

(** ** Dense objects are determined by their cells *)
Lemma dense_ext m m' : good m -> good m' -> same_shape m m' -> is_sp m = false ->
  (forall i j, inb m i j -> peek m' i j = peek m i j) -> m' = m.
Proof.
  intros [H Hk] [H' Hk'] (Ek & ER & EC) Hsp Hp. unfold inb in Hp.
  destruct m, m'; simpl in Ek, Hsp; try discriminate.
  - destruct H as (R & C & f & -> & HR & HC & _). destruct H' as (R' & C' & f' & -> & HR' & HC' & _).
    cbn in ER, EC. subst R' C'. f_equal. unfold mk_dm. f_equal. apply map_ext_in. intros i Hi. apply in_zrange in Hi.
    apply map_ext_in. intros j Hj. apply in_zrange in Hj.
    specialize (Hp i j). cbn in Hp. rewrite !peek_dm in Hp by auto. apply Hp; auto.
  - destruct H as (L & f & -> & HL). destruct H' as (L' & f' & -> & HL').
    cbn in ER, EC. subst L'. f_equal. unfold mk_dv. f_equal. apply map_ext_in. intros i Hi. apply in_zrange in Hi.
    specialize (Hp i 0). cbn in Hp. rewrite !peek_dv in Hp by auto. apply Hp; split; [exact Hi|]. change (0 <= 0 < 1). lia.
Qed.

(** ** Enumeration loops that write the target *)
Lemma enum_St E (p t : ptr) w S O act val (tp : Z * Z -> Z * Z) body :
  zero_ok N -> obj w p S -> good S -> obj w t O -> good O ->
  (p <> t \/ (is_sp O = false /\ forall q, tp q = q)) ->
  (forall q q', tp q = tp q' -> q = q') ->
  mat_Values S <= Z.of_nat (e_fuel E) ->
  (forall L r c w1, inb S r c -> St w t O act val L w1 -> visited L (fst (tp (r, c))) (snd (tp (r, c))) = false ->
     exists w2, body r c (peek S r c) w1 = (w2, Ok None) /\ St w t O act val (L ++ [tp (r, c)]) w2 /\ w_polls w2 = w_polls w1) ->
  exists w' o d l, enumerate E p tt body w = (w', Ok o) /\ entries S = d ++ l /\
    St w t O act val (map tp (map fst d)) w' /\
    until_done 1 E w w' d l /\ ((o = None /\ l = []) \/ (o = Some tt /\ l <> [])).
Proof.
  intros Hz Hp HS Ho HO Hal Hinj Hfu Hbody. unfold enumerate. rewrite (mbind_ok _ _ _ _ _ (load_ok _ _ _ Hp)).
  assert (G : forall rest it d dc S1 w1 fuel,
    it_rel S1 it dc rest -> map fst dc = map fst d -> obj w1 p S1 -> (p <> t -> S1 = S) ->
    entries S = d ++ rest -> St w t O act val (map tp (map fst d)) w1 -> running E w w1 (1 * length d) -> (length rest <= fuel)%nat ->
    exists w' o d' l, enum_loop E fuel p it tt body w1 = (w', Ok o) /\ entries S = d' ++ l /\
      St w t O act val (map tp (map fst d')) w' /\
      until_done 1 E w w' d' l /\ ((o = None /\ l = []) \/ (o = Some tt /\ l <> []))) .
  { induction rest as [|[[r c] v] rest IH]; intros it d dc S1 w1 fuel Hit Hpos Hob HS1 He HSt Hru Hf.
    - exists w1, None, d, []. split; [destruct fuel; cbn [enum_loop]; rewrite (it_rel_HasNext _ _ _ _ Hit); reflexivity|].
      split; [exact He|]. split; [exact HSt|]. split; [apply running_end; exact Hru|auto].
    - destruct fuel as [|fuel]; [simpl in Hf; lia|]. cbn [enum_loop].
      rewrite (it_rel_HasNext _ _ _ _ Hit).
      destruct (poll_heap E w1) as (w1' & b & Hpo & Hh & Hbg). rewrite (mbind_ok _ _ _ _ _ Hpo).
      assert (HSt' : St w t O act val (map tp (map fst d)) w1') by (eapply St_heap; eauto).
      destruct b.
      + exists w1', (Some tt), d, ((r, c, v) :: rest). split; [reflexivity|]. split; [exact He|]. split; [exact HSt'|].
        split; [eapply running_stop; [exact Hru|exact Hpo|discriminate|lia]|]. right. split; [reflexivity|discriminate].
      + assert (Hob' : obj w1' p S1) by (unfold obj; rewrite Hh; exact Hob).
        rewrite (mbind_ok _ _ _ _ _ (load_ok _ _ _ Hob')).
        destruct (it_rel_step _ _ _ _ _ _ _ Hit) as (it' & Hn & Hc & Hr & Hput).
        unfold mat_Next. rewrite Hn. cbn [rbind]. rewrite Hc. cbn [rbind]. rewrite mbind_lift.
        assert (Hin : In (r, c, v) (entries S)) by (rewrite He; apply in_or_app; right; left; reflexivity).
        apply entries_spec in Hin; auto. destruct Hin as (Hb & Hv & _). subst v.
        assert (Hnv : visited (map tp (map fst d)) (fst (tp (r, c))) (snd (tp (r, c))) = false).
        { apply visited_notin. rewrite <- surjective_pairing. intros Hin. apply in_map_iff in Hin as (q & Eq & Hin).
          apply Hinj in Eq. subst q. pose proof (entries_NoDup S HS) as Hnd. rewrite He, map_app in Hnd. cbn [map fst] in Hnd.
          apply NoDup_remove_2 in Hnd. apply Hnd. apply in_or_app; left. exact Hin. }
        destruct (Hbody _ r c _ Hb HSt' Hnv) as (w2 & Hbd & HSt2 & Hpl).
        assert (Hru2 : running E w w2 (1 * length (d ++ [(r, c, peek S r c)]))).
        { rewrite app_length. cbn [length]. replace (1 * (length d + 1))%nat with (Datatypes.S (1 * length d)) by lia.
          eapply running_polls; [eapply running_go; [exact Hru|exact Hpo]|exact Hpl]. }
        rewrite (mbind_ok _ _ _ _ _ Hbd).
        assert (HSt2' : St w t O act val (map tp (map fst (d ++ [(r, c, peek S r c)]))) w2).
        { rewrite !map_app. exact HSt2. }
        destruct (Nat.eq_dec p t) as [Ept|Hne].
        * destruct Hal as [Hne|[Hsp Hid]]; [congruence|]. subst p.
          assert (S = O) by (eapply obj_inj; eauto). subst S.
          destruct (St_obj _ _ _ _ _ Ho _ _ HSt2) as (O2 & Ho2 & Hg2 & Hs2 & Hh2).
          destruct (St_obj _ _ _ _ _ Ho _ _ HSt') as (O1 & Ho1 & Hg1 & Hs1 & Hh1).
          assert (S1 = O1) by (eapply obj_inj; eauto). subst S1.
          assert (Hsp1 : is_sp O1 = false) by (rewrite (same_shape_sp _ _ Hs1); exact Hsp).
          destruct (Hput (peek O2 r c)) as (m' & _ & Hsm & Hrel).
          { rewrite Hsp1. discriminate. }
          assert (Hgm : good m').
          { split; [eapply it_rel_wf; eauto|]. destruct Hsm as [-> _]. apply Hg1. }
          assert (m' = O2).
          { symmetry. apply dense_ext; auto.
            - eapply same_shape_trans; [apply same_shape_sym; exact Hsm|]. eapply same_shape_trans; [apply same_shape_sym; exact Hs1|exact Hs2].
            - rewrite (same_shape_sp _ _ Hsm). exact Hsp1.
            - intros i j Hij. apply (same_shape_inb _ _ _ _ Hsm) in Hij.
              assert (HijO : inb O i j) by (apply (same_shape_inb _ _ _ _ Hs1); auto).
              assert (Hijm : inb m' i j) by (apply (same_shape_inb _ _ _ _ Hsm); auto).
              pose proof (it_rel_entries _ _ _ _ Hrel) as Em. pose proof (it_rel_entries _ _ _ _ Hit) as E1.
              destruct (Z.eq_dec i r) as [->|Hi]; [destruct (Z.eq_dec j c) as [->|Hj]|].
              + assert (Hin : In (r, c, peek O2 r c) (entries m')).
                { rewrite Em. apply in_or_app; left. apply in_or_app; right; left; reflexivity. }
                apply entries_spec in Hin; auto. symmetry. apply Hin.
              + apply (fun X => eq_trans X (eq_sym (proj1 (proj2 (proj1 (entries_spec m' r j (peek O1 r j) Hz Hgm) ltac:(
                  rewrite Em; destruct (peek_entries O1 r j Hz Hg1 Hij) as [(v & Hin & Hv)|(Hx & _)]; [|congruence];
                  rewrite Hv; rewrite E1 in Hin; apply in_app_or in Hin as [Hin|[Hin|Hin]];
                  [apply in_or_app; left; apply in_or_app; left; exact Hin|injection Hin; intros; congruence|apply in_or_app; right; exact Hin])))))).
                destruct HSt' as (O1' & A1 & A2 & A3 & A4). destruct HSt2 as (O2' & B1 & B2 & B3 & B4).
                assert (O1' = O1) by (eapply obj_inj; [|exact Ho1]; unfold obj; rewrite A1; apply nth_error_list_set_eq; eapply obj_lt; eauto).
                assert (O2' = O2) by (eapply obj_inj; [|exact Ho2]; unfold obj; rewrite B1; apply nth_error_list_set_eq; eapply obj_lt; eauto).
                subst O1' O2'. rewrite A4, B4 by auto. rewrite visited_app, Hid, visited_one.
                replace ((r =? r) && (j =? c)) with false by lia. rewrite Bool.orb_false_r. reflexivity.
              + apply (fun X => eq_trans X (eq_sym (proj1 (proj2 (proj1 (entries_spec m' i j (peek O1 i j) Hz Hgm) ltac:(
                  rewrite Em; destruct (peek_entries O1 i j Hz Hg1 Hij) as [(v & Hin & Hv)|(Hx & _)]; [|congruence];
                  rewrite Hv; rewrite E1 in Hin; apply in_app_or in Hin as [Hin|[Hin|Hin]];
                  [apply in_or_app; left; apply in_or_app; left; exact Hin|injection Hin; intros; congruence|apply in_or_app; right; exact Hin])))))).
                destruct HSt' as (O1' & A1 & A2 & A3 & A4). destruct HSt2 as (O2' & B1 & B2 & B3 & B4).
                assert (O1' = O1) by (eapply obj_inj; [|exact Ho1]; unfold obj; rewrite A1; apply nth_error_list_set_eq; eapply obj_lt; eauto).
                assert (O2' = O2) by (eapply obj_inj; [|exact Ho2]; unfold obj; rewrite B1; apply nth_error_list_set_eq; eapply obj_lt; eauto).
                subst O1' O2'. rewrite A4, B4 by auto. rewrite visited_app, Hid, visited_one.
                replace ((i =? r) && (j =? c)) with false by lia. rewrite Bool.orb_false_r. reflexivity. }
          subst m'. apply (IH it' (d ++ [(r, c, peek O r c)]) (dc ++ [(r, c, peek O2 r c)]) O2 w2 fuel); auto.
          -- rewrite !map_app, Hpos. reflexivity.
          -- intros X; congruence.
          -- rewrite <- app_assoc. exact He.
          -- simpl in Hf; lia.
        * specialize (HS1 Hne). subst S1.
          apply (IH it' (d ++ [(r, c, peek S r c)]) (dc ++ [(r, c, peek S r c)]) S w2 fuel); auto.
          -- rewrite !map_app, Hpos. reflexivity.
          -- eapply St_other; eauto.
          -- rewrite <- app_assoc. exact He.
          -- simpl in Hf; lia. }
  apply (G (entries S) (mat_iterator S) [] [] S w (e_fuel E)); auto.
  - apply entries_rel. apply HS.
  - apply St_start; auto.
  - apply running_start.
  - pose proof (zlen_entries S (proj1 HS)) as Hzl. unfold zlen in Hzl. lia.
Qed.

End Ops.
