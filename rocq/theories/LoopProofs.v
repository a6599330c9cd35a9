(** In-place map loops ([for it := m.Map(); it.HasNext(); { it.Map(f) }]). *)
From Coq Require Import String Sorting.Sorted.
From Verif Require Import GoBase Num SparseVec Csr Csc DenseVec DenseMat Mat World Ops.
From Verif Require Import BaseProofs AssocProofs CsrProofs SvProofs CsrIterProofs CscProofs DenseProofs MatProofs.
From Verif Require Import Spec HeapProofs Api ReachProofs StoreProofs.

Section Loop.
Context {N : num}.
Notation V := (T N).
Notation mat := (mat N).
Notation ent := (Z * Z * V)%type.
Notation world := (world N).
Notation M := (M N).
Implicit Types w : world.
Implicit Types m : mat.

Definition remap (g : Z -> Z -> V -> V) (e : ent) : ent := (fst e, g (fst (fst e)) (snd (fst e)) (snd e)).

Lemma remap_pos g l : map fst (map (remap g) l) = map fst l.
Proof. rewrite map_map. apply map_ext. intros [[a b] c]. reflexivity. Qed.

(** The loop over an object [m] at [p].  The callback may read the heap (a mask),
    including the object itself: when it is called for (r,c,v) the object still
    shows [v] at that place. *)
Lemma map_loop_run E stop p f g w0 m0 :
  obj w0 p m0 -> (stop = true \/ e_ctx E = None) ->
  (forall r c v m1 w1, w_heap w1 = list_set (w_heap w0) p m1 -> wf m1 -> same_shape m0 m1 ->
     In (r, c, v) (entries m0) -> In (r, c, v) (entries m1) -> f r c v w1 = (w1, Ok (g r c v))) ->
  (forall r c v, In (r, c, v) (entries m0) -> is_sp m0 = true -> isz (g r c v) = false) ->
  forall rest it d m w fuel, it_rel m it (map (remap g) d) rest -> same_shape m0 m ->
  entries m0 = d ++ rest -> w_heap w = list_set (w_heap w0) p m -> (length rest <= fuel)%nat ->
  exists w' m' d2 r2, map_loop E stop fuel p it f w = (w', Ok tt) /\
    w_heap w' = list_set (w_heap w0) p m' /\ wf m' /\ same_shape m0 m' /\ rest = d2 ++ r2 /\
    entries m' = map (remap g) (d ++ d2) ++ r2 /\
    until_done 1 E w w' d2 r2.
Proof.
  intros Ho Hstop Hf Hnz. induction rest as [|[[r c] v] rest IH]; intros it d m w fuel Hit Hsh He Hh Hfu.
  - exists w, m, [], []. split; [destruct fuel; cbn [map_loop]; rewrite (it_rel_HasNext _ _ _ _ Hit); reflexivity|].
    split; [exact Hh|]. split; [eapply it_rel_wf; eauto|]. split; [exact Hsh|]. split; [reflexivity|].
    rewrite (it_rel_entries _ _ _ _ Hit), !app_nil_r. split; [reflexivity|].
    apply running_end. apply running_start.
  - destruct fuel as [|fuel]; [simpl in Hfu; lia|]. cbn [map_loop]. rewrite (it_rel_HasNext _ _ _ _ Hit).
    destruct (poll_heap E w) as (w1 & b & Hp & Hh1 & Hbg). rewrite (mbind_ok _ _ _ _ _ Hp).
    destruct b.
    + assert (Hc : e_ctx E <> None) by (intros Hn; destruct (Hbg Hn); discriminate).
      destruct Hstop as [->|Hn]; [|contradiction].
      exists w1, m, [], ((r, c, v) :: rest). split; [reflexivity|]. split; [congruence|].
      split; [eapply it_rel_wf; eauto|]. split; [exact Hsh|]. split; [reflexivity|].
      rewrite (it_rel_entries _ _ _ _ Hit), app_nil_r. split; [reflexivity|].
      eapply running_stop; [apply running_start|exact Hp|discriminate|cbn [length]; lia].
    + rewrite Hh in Hh1.
      assert (Hin0 : In (r, c, v) (entries m0)) by (rewrite He; apply in_or_app; right; left; reflexivity).
      assert (Hin : In (r, c, v) (entries m)).
      { rewrite (it_rel_entries _ _ _ _ Hit). apply in_or_app; right; left; reflexivity. }
      assert (Hob : obj w1 p m).
      { unfold obj. rewrite Hh1. apply nth_error_list_set_eq. eapply obj_lt; eauto. }
      destruct (it_rel_step _ _ _ _ _ _ _ Hit) as (it' & Hn & Hc & _ & Hput).
      destruct (Hput (g r c v)) as (m' & Hm' & Hsh' & Hit').
      { intros Hs. apply Hnz; auto. rewrite <- (same_shape_sp _ _ Hsh). exact Hs. }
      assert (Hstep : map_step p it f w1 = (upd w1 p m', Ok it')).
      { unfold map_step. rewrite (mbind_ok _ _ _ _ _ (load_ok _ _ _ Hob)), Hn, mbind_lift, Hc, mbind_lift.
        rewrite (mbind_ok _ _ _ _ _ (Hf _ _ _ _ _ Hh1 (it_rel_wf _ _ _ _ Hit) Hsh Hin0 Hin)).
        rewrite (mbind_ok _ _ _ _ _ (load_ok _ _ _ Hob)), Hm', mbind_lift. reflexivity. }
      rewrite (mbind_ok _ _ _ _ _ Hstep).
      destruct (IH it' (d ++ [(r, c, v)]) m' (upd w1 p m') fuel) as (w' & m'' & d2 & r2 & Hl & Hh' & Hw' & Hs' & Hr & Hent & Hnone).
      * rewrite map_app. cbn [map remap fst snd]. exact Hit'.
      * eapply same_shape_trans; eauto.
      * rewrite <- app_assoc. exact He.
      * unfold upd. cbn [w_heap]. rewrite Hh1, list_set_twice. reflexivity.
      * simpl in Hfu. lia.
      * exists w', m'', ((r, c, v) :: d2), r2. split; [exact Hl|]. split; [exact Hh'|]. split; [exact Hw'|].
        split; [exact Hs'|]. split; [rewrite Hr; reflexivity|]. split.
        -- rewrite Hent, <- app_assoc. reflexivity.
        -- eapply until_step; [exact Hp| |exact Hnone]. reflexivity.
Qed.

Lemma map_over_run E stop p f g w m :
  obj w p m -> wf m -> (stop = true \/ e_ctx E = None) -> mat_Values m <= Z.of_nat (e_fuel E) ->
  (forall r c v m1 w1, w_heap w1 = list_set (w_heap w) p m1 -> wf m1 -> same_shape m m1 ->
     In (r, c, v) (entries m) -> In (r, c, v) (entries m1) -> f r c v w1 = (w1, Ok (g r c v))) ->
  (forall r c v, In (r, c, v) (entries m) -> is_sp m = true -> isz (g r c v) = false) ->
  exists w' m' d r, map_over E stop p f w = (w', Ok tt) /\
    w_heap w' = list_set (w_heap w) p m' /\ wf m' /\ same_shape m m' /\ entries m = d ++ r /\
    entries m' = map (remap g) d ++ r /\
    until_done 1 E w w' d r /\ (e_ctx E = None -> r = [] /\ w' = upd w p m').
Proof.
  intros Ho Hw Hst Hfu Hf Hnz. unfold map_over. rewrite (mbind_ok _ _ _ _ _ (load_ok _ _ _ Ho)).
  destruct (map_loop_run E stop p f g w m Ho Hst Hf Hnz (entries m) (mat_iterator m) [] m w (e_fuel E))
    as (w' & m' & d2 & r2 & Hl & Hh & Hw' & Hs & Hr & Hent & Hnone).
  - apply entries_rel; auto.
  - apply same_shape_refl.
  - reflexivity.
  - symmetry. apply list_set_same. exact Ho.
  - pose proof (zlen_entries m Hw) as Hz. unfold zlen in Hz. lia.
  - exists w', m', d2, r2. split; [exact Hl|]. split; [exact Hh|]. split; [exact Hw'|]. split; [exact Hs|].
    split; [exact Hr|]. split; [exact Hent|]. split; [exact Hnone|]. intros Hn. unfold until_done in Hnone. rewrite Hn in Hnone. destruct Hnone as [-> Hp]. split; [reflexivity|].
    destruct w' as [h n]. unfold upd. cbn [w_heap w_polls] in *. congruence.
Qed.

Lemma NoDup_pos_inj (l : list ent) p u v : NoDup (map fst l) -> In (p, u) l -> In (p, v) l -> u = v.
Proof.
  induction l as [|e l IH]; cbn [map In]; [tauto|]. intros Hnd [H1|H1] [H2|H2]; inversion_clear Hnd.
  - congruence.
  - subst e. exfalso. apply H. apply (in_map fst) in H2. exact H2.
  - subst e. exfalso. apply H. apply (in_map fst) in H1. exact H1.
  - apply IH; auto.
Qed.

(** reading the cells off a remapped enumeration *)
Lemma remapped_cells m m' g d r : zero_ok N -> good m -> wf m' -> same_shape m m' ->
  entries m = d ++ r -> entries m' = map (remap g) d ++ r ->
  forall i j, inb m i j ->
    (forall v, In (i, j, v) d -> peek m' i j = g i j v) /\
    ((forall v, ~ In (i, j, v) d) -> peek m' i j = peek m i j).
Proof.
  intros Hz Hg Hw' Hs E E' i j Hb.
  assert (Hg' : good m') by (split; [auto|]; destruct Hs as [-> _]; apply Hg).
  assert (Hb' : inb m' i j) by (apply (same_shape_inb _ _ _ _ Hs); auto).
  split.
  - intros v Hin. assert (H : In (i, j, g i j v) (entries m')).
    { rewrite E'. apply in_or_app; left. apply in_map_iff. exists (i, j, v). split; auto. }
    apply entries_spec in H; auto. tauto.
  - intros Hnot. destruct (peek_entries m i j Hz Hg Hb) as [(v & Hin & Hp)|(Hsp & Hiz & Hno)].
    + assert (H : In (i, j, v) (entries m')).
      { rewrite E'. apply in_or_app; right. rewrite E in Hin. apply in_app_or in Hin as [Hin|Hin]; auto.
        exfalso. eapply Hnot; eauto. }
      apply entries_spec in H; auto. destruct H as (_ & H & _). congruence.
    + rewrite (peek_zero m i j) by auto. destruct (peek_entries m' i j Hz Hg' Hb') as [(v & Hin & Hp)|(Hsp' & Hiz' & Hno')].
      * exfalso. rewrite E' in Hin. apply in_app_or in Hin as [Hin|Hin].
        -- apply in_map_iff in Hin as (((a & b) & u) & He & Hin). unfold remap in He. cbn [fst snd] in He.
           injection He as -> -> _. eapply Hnot; eauto.
        -- eapply Hno. rewrite E. apply in_or_app; right; eauto.
      * apply peek_zero; auto.
Qed.

Lemma remapped_all m m' g : zero_ok N -> good m -> wf m' -> same_shape m m' ->
  entries m' = map (remap g) (entries m) ->
  forall i j, inb m i j -> peek m' i j = if is_sp m && isz (peek m i j) then n0 else g i j (peek m i j).
Proof.
  intros Hz Hg Hw' Hs E i j Hb.
  destruct (remapped_cells m m' g (entries m) [] Hz Hg Hw' Hs ltac:(rewrite app_nil_r; auto) ltac:(rewrite app_nil_r; auto) i j Hb) as [H1 H2].
  destruct (peek_entries m i j Hz Hg Hb) as [(v & Hin & Hp)|(Hsp & Hiz & Hno)].
  - rewrite (H1 v Hin), Hp. destruct (is_sp m) eqn:Esp; [|reflexivity].
    apply entries_spec in Hin; auto. destruct Hin as (_ & _ & Hnz). rewrite (Hnz Esp). reflexivity.
  - rewrite Hsp, Hiz. cbn [andb]. rewrite H2 by auto. apply peek_zero; auto.
Qed.

End Loop.
