(** What the operators compute, for every context. *)
From Coq Require Import String Sorting.Sorted.
From Verif Require Import GoBase Num SparseVec Csr Csc DenseVec DenseMat Mat World Ops.
From Verif Require Import BaseProofs AssocProofs CsrProofs SvProofs CsrIterProofs CscProofs DenseProofs MatProofs.
From Verif Require Import Spec HeapProofs Api ReachProofs StoreProofs LoopProofs OpsProofs.

Section Thms.
Context {N : num}.
Notation V := (T N).
Notation mat := (mat N).
Notation ent := (Z * Z * V)%type.
Notation world := (world N).
Notation M := (M N).
Implicit Types w : world.
Implicit Types m S Mo O : mat.

Lemma plain_is_good w p m : wfw w -> obj w p m -> not_sparse_vector m -> good m.
Proof. intros Hw Ho Hp. split; [eapply Hw; eauto|]. destruct m; simpl in *; try tauto; discriminate. Qed.

Lemma kept_clean m v : kept m v = clean m v.
Proof. destruct m; reflexivity. Qed.

Lemma mask_dims_wf w k R C : wfw w -> mask_dims w k R C -> mask_wf w k.
Proof. intros Hw. destruct k; simpl; auto. intros (m & Hm & _). eauto. Qed.

Lemma enumerates_entries m : wf m -> enumerates m (entries m).
Proof. intros Hw fuel Hf. apply loop_Next_ok; auto. Qed.

Lemma same_shape_kind m m' : same_shape m m' -> not_sparse_vector m -> not_sparse_vector m'.
Proof. intros (Hk & _) H. destruct m, m'; simpl in *; try discriminate; auto. Qed.
Lemma same_shape_kept m m' v : same_shape m m' -> kept m' v = kept m v.
Proof. intros (Hk & _). destruct m, m'; simpl in *; try discriminate; auto. Qed.

(** reading a [St] off in the specification's words *)
Lemma St_denotes w t O act val L w1 R C h : zero_ok N -> obj w t O -> denotes O R C h ->
  St w t O act val L w1 -> exists O1, extends_but t w w1 /\ obj w1 t O1 /\ same_shape O O1 /\ wf O1 /\
    denotes O1 R C (fun i j => if visited L i j && act i j then kept O (val i j (h i j)) else h i j).
Proof.
  intros Hz Ho Hd HS. destruct (St_final _ _ _ _ _ Ho _ _ HS) as (O1 & He & Ho1 & Hg1 & Hs & Hp).
  exists O1. split; [exact He|]. split; [exact Ho1|]. split; [exact Hs|]. split; [apply Hg1|].
  pose proof Hd as (ER & EC & _). destruct Hs as (Hk & HsR & HsC).
  apply peek_denotes; auto; [apply Hg1|congruence|congruence|].
  intros i j Hb. assert (Hb' : inb O i j) by (unfold inb in *; rewrite HsR, HsC in Hb; exact Hb).
  rewrite Hp, (denotes_peek _ _ _ _ _ _ Hd Hb'), <- kept_clean by auto. reflexivity.
Qed.

Lemma St_act_ext w t O act val act' val' L w1 : (forall i j, inb O i j -> act i j = act' i j) ->
  (forall i j x, inb O i j -> val i j x = val' i j x) ->
  St w t O act val L w1 -> St w t O act' val' L w1.
Proof.
  intros Ha Hv (O1 & H1 & H2 & H3 & H4). exists O1. do 3 (split; [auto|]). intros i j Hb.
  rewrite H4 by auto. rewrite Ha, Hv by auto. reflexivity.
Qed.

(** a masked write, the tail of most loop bodies *)
Lemma masked_set w t O val k L w1 r c x : zero_ok N -> obj w t O -> good O ->
  mask_wf w k -> mask_dims w k (mat_Rows O) (mat_Columns O) ->
  St w t O (fun i j => negb (covers w k i j)) val L w1 -> inb O r c -> visited L r c = false ->
  x = val r c (peek O r c) ->
  exists w2, mbind (mask_Element (mask_norm k (mat_Rows O) (mat_Columns O)) r c)
    (fun e => (if negb e then p_Set t r c x else mret tt) ;!; mret (None : option unit)) w1 = (w2, Ok None) /\
    St w t O (fun i j => negb (covers w k i j)) val (L ++ [(r, c)]) w2 /\ w_polls w2 = w_polls w1.
Proof.
  intros Hz Ho Hg Hmw Hmd HS Hb Hv Hx.
  rewrite (mbind_ok _ _ _ _ _ (St_mask _ _ _ _ _ Hz Ho Hg _ _ _ _ _ HS Hmw Hmd Hb (fun _ => Hv))).
  destruct (covers w k r c) eqn:Ec; cbn [negb].
  - rewrite mbind_ret. exists w1. split; [reflexivity|]. split; [|reflexivity]. apply St_skip; [exact HS|]. cbv beta. rewrite Ec. reflexivity.
  - destruct (St_set _ _ _ _ _ Hz Ho L w1 r c x HS Hv Hb ltac:(cbv beta; rewrite Ec; reflexivity) Hx) as (w2 & E & HS2).
    rewrite (mbind_ok _ _ _ _ _ E). exists w2. split; [reflexivity|exact HS2].
Qed.

Lemma map_fst_id (l : list (Z * Z)) : map (fun q => q) l = l.
Proof. apply map_id. Qed.

Lemma check_sizes_ok (s m : ptr) w S Mo R C : obj w s S -> obj w m Mo ->
  mat_Rows S = R -> mat_Columns S = C -> mat_Rows Mo = R -> mat_Columns Mo = C ->
  check_sizes s m w = (w, Ok tt).
Proof.
  intros Hs Hm E1 E2 E3 E4. unfold check_sizes.
  rewrite (mbind_ok _ _ _ _ _ (p_Columns_ok _ _ _ Hs)), (mbind_ok _ _ _ _ _ (p_Columns_ok _ _ _ Hm)), E2, E4, Z.eqb_refl.
  cbn [negb]. rewrite (mbind_ok _ _ _ _ _ (p_Rows_ok _ _ _ Hs)), (mbind_ok _ _ _ _ _ (p_Rows_ok _ _ _ Hm)), E1, E3, Z.eqb_refl.
  reflexivity.
Qed.
Lemma check_sizes_panic (s m : ptr) w S Mo : obj w s S -> obj w m Mo ->
  ~ (mat_Rows S = mat_Rows Mo /\ mat_Columns S = mat_Columns Mo) -> check_sizes s m w = (w, Panic).
Proof.
  intros Hs Hm H. unfold check_sizes.
  rewrite (mbind_ok _ _ _ _ _ (p_Columns_ok _ _ _ Hs)), (mbind_ok _ _ _ _ _ (p_Columns_ok _ _ _ Hm)).
  destruct (mat_Columns S =? mat_Columns Mo) eqn:E; cbn [negb]; [|reflexivity].
  rewrite (mbind_ok _ _ _ _ _ (p_Rows_ok _ _ _ Hs)), (mbind_ok _ _ _ _ _ (p_Rows_ok _ _ _ Hm)).
  destruct (mat_Rows S =? mat_Rows Mo) eqn:E'; cbn [negb]; [|reflexivity]. exfalso; apply H; lia.
Qed.


(** ** Add *)
Lemma Add_run E w (s m : ptr) k t S Mo O R C f g h (sp : bool) :
  zero_ok N -> wfw w -> obj w s S -> obj w m Mo -> obj w t O ->
  not_sparse_vector S -> not_sparse_vector Mo -> not_sparse_vector O ->
  denotes S R C f -> denotes Mo R C g -> denotes O R C h -> mask_dims w k R C ->
  IsSparseMatrix (e_reg E) S = sp ->
  let src := if sp then s else m in
  let Src := if sp then S else Mo in
  (src <> t \/ is_dense O) -> mat_Values Src <= Z.of_nat (e_fuel E) ->
  exists w' O' d rest, Add E s m k t w = (w', Ok tt) /\ extends_but t w w' /\ obj w' t O' /\ same_shape O O' /\ wf O' /\
    enumerates Src (d ++ rest) /\ until_done 1 E w w' d rest /\
    denotes O' R C (fun i j => if visited (map fst d) i j && negb (covers w k i j)
                               then kept O (if sp then nadd (g i j) (f i j) else nadd (f i j) (g i j)) else h i j).
Proof.
  intros Hz Hw Hs Hm Ho Ps Pm Po Ds Dm Do Hk Hsp src Src Hal Hfu.
  pose proof Ds as (SR & SC & _). pose proof Dm as (MR & MC & _). pose proof Do as (OR & OC & _).
  assert (Gs : good S) by (eapply plain_is_good; eauto). assert (Gm : good Mo) by (eapply plain_is_good; eauto).
  assert (Go : good O) by (eapply plain_is_good; eauto).
  unfold Add. rewrite (mbind_ok _ _ _ _ _ (check_sizes_ok _ _ _ _ _ _ _ Hs Hm SR SC MR MC)).
  assert (Hmd : mask_dims w k (mat_Rows O) (mat_Columns O)) by (rewrite OR, OC; exact Hk).
  assert (Hmw : mask_wf w k) by (eapply mask_dims_wf; eauto).
  rewrite (mbind_ok _ _ _ _ _ (check_mask_ok _ _ _ _ Ho Hmd)).
  rewrite (mbind_ok _ _ _ _ _ (p_IsSparse_ok E _ _ _ Hs)), Hsp.
  set (other := if sp then m else s). set (Oth := if sp then Mo else S).
  assert (Hsrc : obj w src Src) by (unfold src, Src; destruct sp; auto).
  assert (Hoth : obj w other Oth) by (unfold other, Oth; destruct sp; auto).
  assert (Gsrc : good Src) by (unfold Src; destruct sp; auto).
  assert (Goth : good Oth) by (unfold Oth; destruct sp; auto).
  assert (HinS : forall i j, inb Src i j <-> 0 <= i < R /\ 0 <= j < C).
  { intros i j. unfold inb, Src. destruct sp; rewrite ?SR, ?SC, ?MR, ?MC; tauto. }
  assert (HinT : forall i j, inb Oth i j <-> 0 <= i < R /\ 0 <= j < C).
  { intros i j. unfold inb, Oth. destruct sp; rewrite ?SR, ?SC, ?MR, ?MC; tauto. }
  assert (HinO : forall i j, inb O i j <-> 0 <= i < R /\ 0 <= j < C).
  { intros i j. unfold inb. rewrite OR, OC. tauto. }
  replace (if sp then (s, m) else (m, s)) with (src, other) by (unfold src, other; destruct sp; reflexivity).
  destruct (enum_St E src t w Src O (fun i j => negb (covers w k i j))
    (fun i j _ => nadd (peek Oth i j) (peek Src i j)) (fun q => q)
    (fun r c v => let! value := p_At other r c in
      let! e := mask_Element (mask_norm k (mat_Rows O) (mat_Columns O)) r c in
      (if negb e then p_Set t r c (nadd value v) else mret tt) ;!; mret None) Hz Hsrc Gsrc Ho Go)
    as (w' & o & d & rest & He & Hen & HSt & Hun & Hend).
  - destruct Hal as [H|H]; [left; exact H|right]. split; [destruct O; try contradiction; reflexivity|auto].
  - auto.
  - exact Hfu.
  - intros L r c w1 Hb HSt Hv. cbn [fst snd] in Hv. apply HinS in Hb.
    rewrite (mbind_ok _ _ _ _ _ (St_read _ _ _ _ _ Hz Ho L w1 other Oth r c HSt Hoth (proj1 Goth) (proj2 (HinT r c) Hb) (fun _ => Hv))).
    apply masked_set; auto. apply HinO; auto.
  - rewrite (mbind_ok _ _ _ _ _ He).
    destruct (St_denotes _ _ _ _ _ _ _ _ _ _ Hz Ho Do HSt) as (O1 & Hext & Ho1 & Hs1 & Hw1 & Hd1).
    exists w', O1, d, rest. split; [reflexivity|]. do 4 (split; [auto|]).
    split; [rewrite <- Hen; apply enumerates_entries; apply Gsrc|].
    split; [exact Hun|].
    rewrite map_fst_id in Hd1. eapply denotes_ext; [|exact Hd1]. intros i j Hi Hj. cbn beta.
    destruct (visited (map fst d) i j && negb (covers w k i j)); [|reflexivity]. f_equal.
    assert (Hbs : inb S i j) by (unfold inb; lia). assert (Hbm : inb Mo i j) by (unfold inb; lia).
    unfold Oth, Src. destruct sp; rewrite (denotes_peek _ _ _ _ _ _ Ds Hbs), (denotes_peek _ _ _ _ _ _ Dm Hbm); reflexivity.
Qed.

(** a complete enumeration visits everything but the zero cells of sparse storage *)
Lemma visited_entries m i j : zero_ok N -> good m -> inb m i j ->
  visited (map fst (entries m)) i j = negb (is_sp m && isz (peek m i j)).
Proof.
  intros Hz Hg Hb. destruct (peek_entries m i j Hz Hg Hb) as [(v & Hin & Hv)|(Hsp & Hiz & Hno)].
  - assert (H : visited (map fst (entries m)) i j = true).
    { apply visited_in. apply (in_map fst) in Hin. exact Hin. }
    rewrite H. apply entries_spec in Hin; auto. destruct Hin as (_ & _ & Hnz). rewrite Hv.
    destruct (is_sp m); [rewrite Hnz by auto|]; reflexivity.
  - rewrite Hsp, Hiz. cbn [andb negb]. apply visited_notin. intros Hin. apply in_map_iff in Hin as ([[a b] v] & Ea & Hin).
    cbn [fst] in Ea. injection Ea as -> ->. eapply Hno; eauto.
Qed.

(** ** Subtract *)
Lemma masked_update w t O val k L w1 r c g : zero_ok N -> obj w t O -> good O ->
  mask_wf w k -> mask_dims w k (mat_Rows O) (mat_Columns O) ->
  St w t O (fun i j => negb (covers w k i j)) val L w1 -> inb O r c -> visited L r c = false ->
  (forall x, g x = val r c x) ->
  exists w2, mbind (mask_Element (mask_norm k (mat_Rows O) (mat_Columns O)) r c)
    (fun e => (if negb e then p_Update t r c g else mret tt) ;!; mret (None : option unit)) w1 = (w2, Ok None) /\
    St w t O (fun i j => negb (covers w k i j)) val (L ++ [(r, c)]) w2 /\ w_polls w2 = w_polls w1.
Proof.
  intros Hz Ho Hg Hmw Hmd HS Hb Hv Hx.
  rewrite (mbind_ok _ _ _ _ _ (St_mask _ _ _ _ _ Hz Ho Hg _ _ _ _ _ HS Hmw Hmd Hb (fun _ => Hv))).
  destruct (covers w k r c) eqn:Ec; cbn [negb].
  - rewrite mbind_ret. exists w1. split; [reflexivity|]. split; [|reflexivity]. apply St_skip; [exact HS|]. cbv beta. rewrite Ec. reflexivity.
  - destruct (St_update _ _ _ _ _ Hz Ho L w1 r c g HS Hv Hb ltac:(cbv beta; rewrite Ec; reflexivity) Hx) as (w2 & E & HS2).
    rewrite (mbind_ok _ _ _ _ _ E). exists w2. split; [reflexivity|exact HS2].
Qed.

Lemma Subtract_run E w (s m : ptr) k t S Mo O R C f h :
  zero_ok N -> wfw w -> obj w s S -> obj w m Mo -> obj w t O ->
  not_sparse_vector S -> not_sparse_vector O ->
  denotes S R C f -> mat_Rows Mo = R -> mat_Columns Mo = C -> denotes O R C h -> mask_dims w k R C ->
  (s <> t \/ is_dense O) -> mat_Values S <= Z.of_nat (e_fuel E) ->
  exists w' O' d rest, Subtract E s m k t w = (w', Ok tt) /\ extends_but t w w' /\ obj w' t O' /\ same_shape O O' /\ wf O' /\
    enumerates S (d ++ rest) /\ until_done 1 E w w' d rest /\
    denotes O' R C (fun i j => if visited (map fst d) i j && negb (covers w k i j)
                               then kept O (nsub (f i j) (h i j)) else h i j).
Proof.
  intros Hz Hw Hs Hm Ho Ps Po Ds MR MC Do Hk Hal Hfu.
  pose proof Ds as (SR & SC & _). pose proof Do as (OR & OC & _).
  assert (Gs : good S) by (eapply plain_is_good; eauto). assert (Go : good O) by (eapply plain_is_good; eauto).
  unfold Subtract. rewrite (mbind_ok _ _ _ _ _ (check_sizes_ok _ _ _ _ _ _ _ Hs Hm SR SC MR MC)).
  assert (Hmd : mask_dims w k (mat_Rows O) (mat_Columns O)) by (rewrite OR, OC; exact Hk).
  assert (Hmw : mask_wf w k) by (eapply mask_dims_wf; eauto).
  rewrite (mbind_ok _ _ _ _ _ (check_mask_ok _ _ _ _ Ho Hmd)).
  destruct (enum_St E s t w S O (fun i j => negb (covers w k i j))
    (fun i j x => nsub (peek S i j) x) (fun q => q)
    (fun r c v =>
      let! e := mask_Element (mask_norm k (mat_Rows O) (mat_Columns O)) r c in
      (if negb e then p_Update t r c (fun x => nsub v x) else mret tt) ;!; mret None) Hz Hs Gs Ho Go)
    as (w' & o & d & rest & He & Hen & HSt & Hun & Hend).
  - destruct Hal as [H|H]; [left; exact H|right]. split; [destruct O; try contradiction; reflexivity|auto].
  - auto.
  - exact Hfu.
  - intros L r c w1 Hb HSt Hv. cbn [fst snd] in Hv. apply masked_update; auto. unfold inb in *. rewrite OR, OC, <- SR, <- SC. exact Hb.
  - rewrite (mbind_ok _ _ _ _ _ He).
    destruct (St_denotes _ _ _ _ _ _ _ _ _ _ Hz Ho Do HSt) as (O1 & Hext & Ho1 & Hs1 & Hw1 & Hd1).
    exists w', O1, d, rest. split; [reflexivity|]. do 4 (split; [auto|]).
    split; [rewrite <- Hen; apply enumerates_entries; apply Gs|].
    split; [exact Hun|].
    rewrite map_fst_id in Hd1. eapply denotes_ext; [|exact Hd1]. intros i j Hi Hj. cbn beta.
    destruct (visited (map fst d) i j && negb (covers w k i j)); [|reflexivity]. f_equal.
    assert (Hbs : inb S i j) by (unfold inb; lia).
    rewrite (denotes_peek _ _ _ _ _ _ Ds Hbs). reflexivity.
Qed.

(** ** Transpose, and Apply with a separate output *)
Definition swap (q : Z * Z) : Z * Z := (snd q, fst q).
Lemma visited_swap L i j : visited (map swap L) i j = visited L j i.
Proof.
  unfold visited. induction L as [|[a b] L IH]; [reflexivity|]. cbn [map existsb swap fst snd]. rewrite IH. f_equal. lia.
Qed.

Lemma mask_total k w w1 R C r c : (forall p, k <> MObj p) ->
  mask_Element (mask_norm k R C) r c w1 = (w1, Ok (covers w k r c)).
Proof. intros H. destruct k; try reflexivity. exfalso; eapply H; reflexivity. Qed.

Lemma swapped_run E w (s : ptr) k t S O R C f h (u : V -> V) :
  zero_ok N -> wfw w -> obj w s S -> obj w t O ->
  not_sparse_vector S -> not_sparse_vector O ->
  denotes S R C f -> denotes O C R h -> mask_dims w k C R ->
  s <> t -> mask_not k t -> (R = C \/ forall p, k <> MObj p) -> mat_Values S <= Z.of_nat (e_fuel E) ->
  exists w' O' o d rest,
    enumerate E s tt (fun r c value =>
      let! e := mask_Element (mask_norm k (mat_Rows O) (mat_Columns O)) r c in
      (if negb e then p_Set t c r (u value) else mret tt) ;!; mret None) w = (w', Ok o) /\
    extends_but t w w' /\ obj w' t O' /\ same_shape O O' /\ wf O' /\
    enumerates S (d ++ rest) /\ until_done 1 E w w' d rest /\
    denotes O' C R (fun i j => if visited (map fst d) j i && negb (covers w k j i)
                               then kept O (u (f j i)) else h i j).
Proof.
  intros Hz Hw Hs Ho Ps Po Ds Do Hk Hal Hkt Hsq Hfu.
  pose proof Ds as (SR & SC & _). pose proof Do as (OR & OC & _).
  assert (Gs : good S) by (eapply plain_is_good; eauto). assert (Go : good O) by (eapply plain_is_good; eauto).
  assert (Hmd : mask_dims w k (mat_Rows O) (mat_Columns O)) by (rewrite OR, OC; exact Hk).
  assert (Hmw : mask_wf w k) by (eapply mask_dims_wf; eauto).
  destruct (enum_St E s t w S O (fun i j => negb (covers w k j i))
    (fun i j _ => u (peek S j i)) swap
    (fun r c v =>
      let! e := mask_Element (mask_norm k (mat_Rows O) (mat_Columns O)) r c in
      (if negb e then p_Set t c r (u v) else mret tt) ;!; mret None) Hz Hs Gs Ho Go)
    as (w' & o & d & rest & He & Hen & HSt & Hun & Hend).
  - left; exact Hal.
  - intros [a b] [a' b'] X. unfold swap in X. cbn in X. congruence.
  - exact Hfu.
  - intros L r c w1 Hb HSt Hv. unfold swap in *. cbn [fst snd] in Hv |- *.
    assert (HbO : inb O c r) by (unfold inb in *; lia).
    assert (Em : mask_Element (mask_norm k (mat_Rows O) (mat_Columns O)) r c w1 = (w1, Ok (covers w k r c))).
    { destruct Hsq as [Hsq|Hno]; [|apply mask_total; auto].
      apply (St_mask _ _ _ _ _ Hz Ho Go _ _ _ _ _ HSt Hmw Hmd); [unfold inb in *; lia|]. intros ->. exfalso. apply Hkt. reflexivity. }
    rewrite (mbind_ok _ _ _ _ _ Em). destruct (covers w k r c) eqn:Ec; cbn [negb].
    + rewrite mbind_ret. exists w1. split; [reflexivity|]. split; [|reflexivity]. apply St_skip; [exact HSt|]. cbv beta. rewrite Ec. reflexivity.
    + destruct (St_set _ _ _ _ _ Hz Ho L w1 c r (u (peek S r c)) HSt Hv HbO ltac:(cbv beta; rewrite Ec; reflexivity) eq_refl) as (w2 & E2 & HS2).
      rewrite (mbind_ok _ _ _ _ _ E2). exists w2. split; [reflexivity|exact HS2].
  - destruct (St_denotes _ _ _ _ _ _ _ _ _ _ Hz Ho Do HSt) as (O1 & Hext & Ho1 & Hs1 & Hw1 & Hd1).
    exists w', O1, o, d, rest. split; [exact He|]. do 4 (split; [auto|]).
    split; [rewrite <- Hen; apply enumerates_entries; apply Gs|].
    split; [exact Hun|].
    eapply denotes_ext; [|exact Hd1]. intros i j Hi Hj. cbn beta. rewrite visited_swap.
    destruct (visited (map fst d) j i && negb (covers w k j i)); [|reflexivity]. f_equal.
    assert (Hbs : inb S j i) by (unfold inb; lia).
    rewrite (denotes_peek _ _ _ _ _ _ Ds Hbs). reflexivity.
Qed.

Lemma Transpose_run E w (s : ptr) k t S O R C f h :
  zero_ok N -> wfw w -> obj w s S -> obj w t O ->
  not_sparse_vector S -> not_sparse_vector O ->
  denotes S R C f -> denotes O C R h -> mask_dims w k C R ->
  s <> t -> mask_not k t -> (R = C \/ forall p, k <> MObj p) -> mat_Values S <= Z.of_nat (e_fuel E) ->
  exists w' O' d rest, Transpose E s k t w = (w', Ok tt) /\
    extends_but t w w' /\ obj w' t O' /\ same_shape O O' /\ wf O' /\
    enumerates S (d ++ rest) /\ until_done 1 E w w' d rest /\
    denotes O' C R (fun i j => if visited (map fst d) j i && negb (covers w k j i)
                               then kept O (f j i) else h i j).
Proof.
  intros Hz Hw Hs Ho Ps Po Ds Do Hk Hal Hkt Hsq Hfu. pose proof Do as (OR & OC & _).
  destruct (swapped_run E w s k t S O R C f h (fun v => v) Hz Hw Hs Ho Ps Po Ds Do Hk Hal Hkt Hsq Hfu)
    as (w' & O' & o & d & rest & He & Hx). unfold Transpose.
  rewrite (mbind_ok _ _ _ _ _ (check_mask_ok _ _ _ _ Ho ltac:(rewrite OR, OC; exact Hk))).
  rewrite (mbind_ok _ _ _ _ _ He). exists w', O', d, rest. split; [reflexivity|exact Hx].
Qed.

Lemma Apply_out_run E w (s : ptr) k t S O R C f h u :
  zero_ok N -> wfw w -> obj w s S -> obj w t O ->
  not_sparse_vector S -> not_sparse_vector O ->
  denotes S R C f -> denotes O C R h -> mask_dims w k C R ->
  s <> t -> mask_not k t -> (R = C \/ forall p, k <> MObj p) -> mat_Values S <= Z.of_nat (e_fuel E) ->
  exists w' O' d rest, Apply E s k u t w = (w', Ok tt) /\
    extends_but t w w' /\ obj w' t O' /\ same_shape O O' /\ wf O' /\
    enumerates S (d ++ rest) /\ until_done 1 E w w' d rest /\
    denotes O' C R (fun i j => if visited (map fst d) j i && negb (covers w k j i)
                               then kept O (u (f j i)) else h i j).
Proof.
  intros Hz Hw Hs Ho Ps Po Ds Do Hk Hal Hkt Hsq Hfu. pose proof Do as (OR & OC & _).
  destruct (swapped_run E w s k t S O R C f h u Hz Hw Hs Ho Ps Po Ds Do Hk Hal Hkt Hsq Hfu)
    as (w' & O' & o & d & rest & He & Hx). unfold Apply.
  rewrite (mbind_ok _ _ _ _ _ (check_mask_ok _ _ _ _ Ho ltac:(rewrite OR, OC; exact Hk))).
  destruct (Nat.eqb_spec s t) as [->|_]; [contradiction|].
  rewrite (mbind_ok _ _ _ _ _ He). exists w', O', d, rest. split; [reflexivity|exact Hx].
Qed.

(** ** In-place maps under a mask: Apply in place, Negative *)
Lemma in_place_run E w (t : ptr) k O R C h (G : bool -> V -> V) :
  zero_ok N -> wfw w -> obj w t O -> not_sparse_vector O -> denotes O R C h -> mask_dims w k R C ->
  (sparse_obj O = true -> forall e, keeps_nz (G e)) -> mat_Values O <= Z.of_nat (e_fuel E) ->
  exists w' O' d rest,
    map_over E true t (fun r c value =>
      let! e := mask_Element (mask_norm k (mat_Rows O) (mat_Columns O)) r c in mret (G e value)) w = (w', Ok tt) /\
    extends_but t w w' /\ obj w' t O' /\ same_shape O O' /\ wf O' /\
    enumerates O (d ++ rest) /\ until_done 1 E w w' d rest /\
    denotes O' R C (fun i j => if visited (map fst d) i j then G (covers w k i j) (h i j) else h i j).
Proof.
  intros Hz Hw Ho Po Do Hk Hnz Hfu. pose proof Do as (OR & OC & _).
  assert (Go : good O) by (eapply plain_is_good; eauto).
  assert (Hmd : mask_dims w k (mat_Rows O) (mat_Columns O)) by (rewrite OR, OC; exact Hk).
  assert (Hmw : mask_wf w k) by (eapply mask_dims_wf; eauto).
  destruct (map_over_run E true t (fun r c value =>
      let! e := mask_Element (mask_norm k (mat_Rows O) (mat_Columns O)) r c in mret (G e value))
      (fun r c v => G (covers w k r c) v) w O Ho (proj1 Go) (or_introl eq_refl) Hfu)
    as (w' & O' & d & rest & Hm & Hh & Hw' & Hsh & He & He' & Hun & Hn).
  - intros r c v m1 w1 Hh1 Hw1 Hs1 Hin0 Hin1.
    assert (G1 : good m1) by (split; [auto|]; destruct Hs1 as [-> _]; apply Go).
    apply entries_spec in Hin0; auto. destruct Hin0 as (Hb & Hv0 & _).
    apply entries_spec in Hin1; auto. destruct Hin1 as (_ & Hv1 & _).
    assert (Em : mask_Element (mask_norm k (mat_Rows O) (mat_Columns O)) r c w1 = (w1, Ok (covers w k r c))).
    { assert (H : mask_not k t \/ k = MObj t).
      { unfold mask_not. destruct k as [| |p|]; try (left; discriminate).
        destruct (Nat.eq_dec p t); [right; congruence|left; congruence]. }
      destruct H as [Hne| ->].
      - assert (E1 : w_heap w1 = w_heap (upd w t m1)) by (rewrite Hh1; reflexivity).
        rewrite mask_Element_ok.
        + rewrite (covers_heap k (upd w t m1) w1) by auto. rewrite covers_upd by auto. reflexivity.
        + auto.
        + apply (mask_wf_heap k (upd w t m1)); auto. apply mask_wf_upd; auto.
        + apply (mask_dims_heap k (upd w t m1)); auto. apply mask_dims_upd; auto.
        + apply Hb.
        + apply Hb.
      - assert (Ho1 : obj w1 t m1).
        { unfold obj. rewrite Hh1. apply nth_error_list_set_eq. eapply obj_lt; eauto. }
        rewrite (mask_Element_ok (MObj t) w1 (mat_Rows O) (mat_Columns O)); try apply Hb; auto.
        + unfold covers. unfold obj in Ho, Ho1. rewrite Ho, Ho1.
          rewrite (At_ok O r c) by (auto; apply Go). rewrite (At_ok m1 r c) by (auto; apply (same_shape_inb _ _ _ _ Hs1); auto).
          rewrite Hv0, Hv1. reflexivity.
        + exists m1. split; [exact Ho1|exact Hw1].
        + exists m1. split; [exact Ho1|]. destruct Hs1 as (_ & -> & ->). auto. }
    rewrite (mbind_ok _ _ _ _ _ Em). reflexivity.
  - intros r c v Hin Hsp. apply Hnz; [exact Hsp|]. apply (entries_inb O r c v Hz (proj1 Go)) in Hin. apply Hin. auto.
  - exists w', O', d, rest. split; [exact Hm|].
    split. { intros q m Hne Hq. unfold obj. rewrite Hh, nth_error_list_set_neq; auto. }
    split. { unfold obj. rewrite Hh. apply nth_error_list_set_eq. eapply obj_lt; eauto. }
    split; [exact Hsh|]. split; [exact Hw'|]. split; [rewrite <- He; apply enumerates_entries; apply Go|].
    split; [exact Hun|].
    apply peek_denotes; auto; [destruct Hsh as (_ & ? & _); lia|destruct Hsh as (_ & _ & ?); lia|].
    intros i j Hb. apply (same_shape_inb _ _ _ _ Hsh) in Hb.
    destruct (remapped_cells O O' _ d rest Hz Go Hw' Hsh He He' i j Hb) as [H1 H2].
    rewrite <- (denotes_peek _ _ _ _ _ _ Do Hb).
    destruct (visited (map fst d) i j) eqn:Ev.
    + apply visited_in in Ev. apply in_map_iff in Ev as ([[a b] v] & Ea & Hin). cbn [fst] in Ea. injection Ea as -> ->.
      rewrite (H1 v Hin). f_equal.
      assert (Hin' : In (i, j, v) (entries O)) by (rewrite He; apply in_or_app; auto).
      apply entries_spec in Hin'; auto. destruct Hin' as (_ & Hv & _). auto.
    + rewrite H2; [reflexivity|]. intros v Hin. apply visited_notin in Ev. apply Ev. apply (in_map fst) in Hin. exact Hin.
Qed.

Lemma Negative_run E w (s t : ptr) k O R C h :
  zero_ok N -> neg_nz N -> wfw w -> obj w t O -> not_sparse_vector O -> denotes O R C h -> mask_dims w k R C ->
  mat_Values O <= Z.of_nat (e_fuel E) ->
  exists w' O' d rest, Negative E s k t w = (w', Ok tt) /\
    extends_but t w w' /\ obj w' t O' /\ same_shape O O' /\ wf O' /\
    enumerates O (d ++ rest) /\ until_done 1 E w w' d rest /\
    denotes O' R C (fun i j => if visited (map fst d) i j && negb (covers w k i j) then nneg (h i j) else h i j).
Proof.
  intros Hz Hng Hw Ho Po Do Hk Hfu. pose proof Do as (OR & OC & _).
  destruct (in_place_run E w t k O R C h (fun e v => if negb e then nneg v else v) Hz Hw Ho Po Do Hk) as
    (w' & O' & d & rest & Hm & H1 & H2 & H3 & H4 & H5 & H6 & Hd); [|exact Hfu|].
  { intros _ [] v Hv; [exact Hv|apply Hng; exact Hv]. }
  exists w', O', d, rest. split.
  { unfold Negative. rewrite (mbind_ok _ _ _ _ _ (check_mask_ok _ _ _ _ Ho ltac:(rewrite OR, OC; exact Hk))). exact Hm. }
  do 6 (split; [auto|]). eapply denotes_ext; [|exact Hd]. intros i j _ _. cbn beta.
  destruct (visited (map fst d) i j), (covers w k i j); reflexivity.
Qed.

Lemma Apply_in_run E w (t : ptr) k O R C h u :
  zero_ok N -> wfw w -> obj w t O -> not_sparse_vector O -> denotes O R C h -> mask_dims w k R C ->
  (sparse_obj O = true -> keeps_nz u) -> mat_Values O <= Z.of_nat (e_fuel E) ->
  exists w' O' d rest, Apply E t k u t w = (w', Ok tt) /\
    extends_but t w w' /\ obj w' t O' /\ same_shape O O' /\ wf O' /\
    enumerates O (d ++ rest) /\ until_done 1 E w w' d rest /\
    denotes O' R C (fun i j => if visited (map fst d) i j && covers w k i j then u (h i j) else h i j).
Proof.
  intros Hz Hw Ho Po Do Hk Hu Hfu. pose proof Do as (OR & OC & _).
  destruct (in_place_run E w t k O R C h (fun e v => if e then u v else v) Hz Hw Ho Po Do Hk) as
    (w' & O' & d & rest & Hm & H1 & H2 & H3 & H4 & H5 & H6 & Hd); [|exact Hfu|].
  { intros Hs [] v Hv; [apply Hu; auto|exact Hv]. }
  exists w', O', d, rest. split.
  { unfold Apply. rewrite (mbind_ok _ _ _ _ _ (check_mask_ok _ _ _ _ Ho ltac:(rewrite OR, OC; exact Hk))).
    rewrite Nat.eqb_refl. exact Hm. }
  do 6 (split; [auto|]). eapply denotes_ext; [|exact Hd]. intros i j _ _. cbn beta.
  destruct (visited (map fst d) i j), (covers w k i j); reflexivity.
Qed.

(** ** Multiplication *)
Lemma dot_loop_run E rv cv (a b : Z -> V) : forall ls acc w,
  (forall l, In l ls -> mat_AtVec rv l = Ok (a l) /\ mat_AtVec cv l = Ok (b l)) ->
  exists w' o, dot_loop E rv cv ls acc w = (w', Ok o) /\ w_heap w' = w_heap w /\
    ((o = Some (fold_left (fun s l => nadd s (nmul (a l) (b l))) ls acc) /\
        forall w0 c, running E w0 w c -> running E w0 w' (c + length ls)) \/
     (o = None /\ e_ctx E <> None /\ forall n A w0 c (d rest : list A), running E w0 w c -> rest <> [] ->
        (n * length d <= c /\ c + length ls <= n * Datatypes.S (length d))%nat -> until_done n E w0 w' d rest)).
Proof.
  induction ls as [|l ls IH]; intros acc w H; cbn [dot_loop fold_left].
  - exists w, (Some acc). split; [reflexivity|]. split; [reflexivity|]. left. split; [reflexivity|]. intros w0 c H0. cbn [length]. rewrite Nat.add_0_r. exact H0.
  - destruct (poll_heap E w) as (w1 & x & Hp & Hh & Hbg). rewrite (mbind_ok _ _ _ _ _ Hp). destruct x.
    + exists w1, None. split; [reflexivity|]. split; [exact Hh|]. right. split; [reflexivity|].
      split; [intros Hn; destruct (Hbg Hn); discriminate|]. intros n A w0 c d rest H0 Hr Hc.
      eapply running_stop; [exact H0|exact Hp|exact Hr|cbn [length] in Hc; lia].
    + destruct (H l (or_introl eq_refl)) as [Ha Hb]. rewrite Hb, mbind_lift, Ha, mbind_lift.
      destruct (IH (nadd acc (nmul (a l) (b l))) w1 ltac:(intros; apply H; right; auto)) as (w' & o & H1 & H2 & H3).
      exists w', o. split; [exact H1|]. split; [congruence|]. cbn [length]. destruct H3 as [[H3 H4]|(H3 & H4 & H5)]; [left|right].
      * split; [exact H3|]. intros w0 c H0. replace (c + Datatypes.S (length ls))%nat with (Datatypes.S c + length ls)%nat by lia.
        apply H4. eapply running_go; [exact H0|exact Hp].
      * split; [exact H3|]. split; [exact H4|]. intros n A w0 c d rest H0 Hr Hc.
        apply (H5 n A w0 (Datatypes.S c)); [eapply running_go; [exact H0|exact Hp]|exact Hr|lia].
Qed.

Lemma visited_rows C d i j : visited (flat_map (fun r => map (fun c => (r, c)) (zrange 0 C)) d) i j = true -> In i d.
Proof.
  rewrite visited_in, in_flat_map. intros (r & Hr & Hin). apply in_map_iff in Hin as (c & E & _). injection E as -> ->. exact Hr.
Qed.

Lemma zrange_split_notin n d x r : zrange 0 n = d ++ x :: r -> ~ In x d.
Proof.
  intros E Hin. assert (Hn : NoDup (zrange 0 n)) by apply NoDup_zrange. rewrite E in Hn.
  apply NoDup_remove_2 in Hn. apply Hn. apply in_or_app; auto.
Qed.

Lemma multiply_views E w (s m : ptr) k t S Mo O R C n h (fr gc : Z -> Z -> V) :
  zero_ok N -> wfw w -> obj w s S -> obj w m Mo -> obj w t O -> not_sparse_vector O ->
  mat_Rows S = R -> mat_Columns Mo = C -> mat_Rows Mo = mat_Columns S ->
  (forall r, 0 <= r < R -> exists rv, mat_RowsAt S r = Ok rv /\ mat_Rows rv = n /\
     forall l, 0 <= l < n -> mat_AtVec rv l = Ok (fr r l)) ->
  (forall c, 0 <= c < C -> exists cv, mat_ColumnsAt Mo c = Ok cv /\
     forall l, 0 <= l < n -> mat_AtVec cv l = Ok (gc c l)) ->
  denotes O R C h -> mask_dims w k R C -> s <> t -> m <> t ->
  exists w' O' L rest, multiply E s m k t w = (w', Ok tt) /\ extends_but t w w' /\ obj w' t O' /\ same_shape O O' /\ wf O' /\
    positions R C = L ++ rest /\ until_done (Z.to_nat n) E w w' L rest /\
    denotes O' R C (fun i j => if visited L i j && negb (covers w k i j)
       then kept O (sum_from n0 (fun l => nmul (fr i l) (gc j l)) 0 n) else h i j).
Proof.
  intros Hz Hw Hs Hm Ho Po SR MC Hdim Hrow Hcol Do Hk Hst Hmt.
  pose proof Do as (OR & OC & _).
  assert (Go : good O) by (eapply plain_is_good; eauto).
  assert (Hmd : mask_dims w k (mat_Rows O) (mat_Columns O)) by (rewrite OR, OC; exact Hk).
  assert (Hmw : mask_wf w k) by (eapply mask_dims_wf; eauto).
  set (act := fun i j => negb (covers w k i j)).
  set (val := fun i j (_ : V) => sum_from n0 (fun l => nmul (fr i l) (gc j l)) 0 n).
  set (rowpos := fun r : Z => map (fun c => (r, c)) (zrange 0 C)).
  assert (Hbody : exists w' o, for_list (R := unit) (zrange 0 R) (fun r =>
      let! so := load s in
      let! rows := mlift (mat_RowsAt so r) in
      for_list (zrange 0 C) (fun c =>
        let! mo := load m in
        let! column := mlift (mat_ColumnsAt mo c) in
        let! o := dot_loop E rows column (zrange 0 (mat_Length rows)) n0 in
        match o with
        | None => mret (Some tt)
        | Some sum =>
            let! e := mask_Element (mask_norm k (mat_Rows O) (mat_Columns O)) r c in
            (if negb e then p_Set t r c sum else mret tt) ;!;
            mret None
        end)) w = (w', Ok o) /\
      exists L rest, positions R C = L ++ rest /\ until_done (Z.to_nat n) E w w' L rest /\ St w t O act val L w').
  { destruct (for_list_inv (R := unit) (zrange 0 R) (fun r =>
      let! so := load s in
      let! rows := mlift (mat_RowsAt so r) in
      for_list (zrange 0 C) (fun c =>
        let! mo := load m in
        let! column := mlift (mat_ColumnsAt mo c) in
        let! o := dot_loop E rows column (zrange 0 (mat_Length rows)) n0 in
        match o with
        | None => mret (Some tt)
        | Some sum =>
            let! e := mask_Element (mask_norm k (mat_Rows O) (mat_Columns O)) r c in
            (if negb e then p_Set t r c sum else mret tt) ;!;
            mret None
        end))
      (fun d w1 => St w t O act val (flat_map rowpos d) w1 /\ running E w w1 (Z.to_nat n * length (flat_map rowpos d)))
      (fun d r (_ : unit) w1 => exists L rest, positions R C = L ++ rest /\ until_done (Z.to_nat n) E w w1 L rest /\ St w t O act val L w1))
      with (w := w) as (w' & o & Hrun & Hend).
    - intros d r rest w1 El [HSt Hru].
      assert (Hr : 0 <= r < R).
      { apply in_zrange. rewrite El. apply in_or_app. right; left; auto. }
      assert (Hrd : ~ In r d) by (eapply zrange_split_notin; eauto).
      rewrite (mbind_ok _ _ _ _ _ (load_ok _ _ _ (St_other _ _ _ _ _ _ _ _ _ HSt Hst Hs))).
      destruct (Hrow r Hr) as (rv & -> & Hlen & Hat). rewrite mbind_lift.
      destruct (for_list_inv (R := unit) (zrange 0 C) (fun c =>
        let! mo := load m in
        let! column := mlift (mat_ColumnsAt mo c) in
        let! o := dot_loop E rv column (zrange 0 (mat_Length rv)) n0 in
        match o with
        | None => mret (Some tt)
        | Some sum =>
            let! e := mask_Element (mask_norm k (mat_Rows O) (mat_Columns O)) r c in
            (if negb e then p_Set t r c sum else mret tt) ;!;
            mret None
        end)
        (fun d' w1 => St w t O act val (flat_map rowpos d ++ map (fun c => (r, c)) d') w1 /\
           running E w w1 (Z.to_nat n * length (flat_map rowpos d ++ map (fun c => (r, c)) d')))
        (fun d' c (_ : unit) w1 => (forall rest : list (Z * Z), rest <> [] ->
             until_done (Z.to_nat n) E w w1 (flat_map rowpos d ++ map (fun c => (r, c)) d') rest) /\ St w t O act val (flat_map rowpos d ++ map (fun c => (r, c)) d') w1))
        with (w := w1) as (w2 & o & Hrun & Hend).
      + intros d' c rest' w2 El' [HSt2 Hru2].
        assert (Hc : 0 <= c < C).
        { apply in_zrange. rewrite El'. apply in_or_app. right; left; auto. }
        assert (Hcd : ~ In c d') by (eapply zrange_split_notin; eauto).
        rewrite (mbind_ok _ _ _ _ _ (load_ok _ _ _ (St_other _ _ _ _ _ _ _ _ _ HSt2 Hmt Hm))).
        destruct (Hcol c Hc) as (cv & -> & Hatc). rewrite mbind_lift.
        destruct (dot_loop_run E rv cv (fr r) (gc c) (zrange 0 (mat_Length rv)) n0 w2) as (w3 & o & Hdot & Hh & Ho3).
        { intros l Hl. apply in_zrange in Hl. unfold mat_Length in Hl. rewrite Hlen in Hl. split; [apply Hat|apply Hatc]; lia. }
        rewrite (mbind_ok _ _ _ _ _ Hdot). pose proof (St_heap _ _ _ _ _ _ _ w3 HSt2 Hh) as HSt3.
        assert (Hll : length (zrange 0 (mat_Length rv)) = Z.to_nat n).
        { unfold mat_Length. rewrite Hlen, zrange_length, Z.sub_0_r. reflexivity. }
        rewrite Hll in Ho3.
        destruct Ho3 as [[-> Hru3] | (-> & _ & Hcx)].
        * unfold mat_Length. rewrite Hlen.
          destruct (masked_set w t O val k (flat_map rowpos d ++ map (fun c => (r, c)) d') w3 r c
             (fold_left (fun s l => nadd s (nmul (fr r l) (gc c l))) (zrange 0 n) n0) Hz Ho Go Hmw Hmd HSt3) as (w4 & E4 & HSt4 & Hp4).
          -- unfold inb. lia.
          -- apply visited_notin. intros Hin. apply in_app_or in Hin as [Hin|Hin].
             ++ apply Hrd. apply visited_in in Hin. eapply visited_rows; eauto.
             ++ apply in_map_iff in Hin as (c' & Ec & Hin). injection Ec as ->. contradiction.
          -- reflexivity.
          -- eexists _, _. split; [exact E4|]. rewrite map_app, app_assoc. split; [exact HSt4|].
             eapply running_polls; [|exact Hp4]. rewrite (app_length _ (map _ [c])). cbn [map length].
             rewrite Nat.mul_add_distr_l, Nat.mul_1_r. apply Hru3. exact Hru2.
        * eexists _, _. split; [reflexivity|]. split; [|exact HSt3]. intros rest0 Hne.
          apply (Hcx (Z.to_nat n) _ w _ _ rest0 Hru2 Hne). lia.
      + rewrite app_nil_r. split; [exact HSt|exact Hru].
      + exists w2, o. split; [exact Hrun|]. destruct Hend as [[-> HS2]|(d' & c & r' & x & -> & El' & Hcx & HS2)].
        * rewrite flat_map_app. cbn [flat_map]. rewrite app_nil_r. exact HS2.
        * exists (flat_map rowpos d ++ map (fun c => (r, c)) d'), (map (fun c => (r, c)) (c :: r') ++ flat_map rowpos rest).
          split; [|split; [apply Hcx; discriminate|exact HS2]]. unfold positions. fold rowpos. rewrite El, flat_map_app. cbn [flat_map].
          replace (rowpos r) with (map (fun c => (r, c)) d' ++ map (fun c => (r, c)) (c :: r'))
            by (unfold rowpos; rewrite El', map_app; reflexivity).
          rewrite <- !app_assoc. reflexivity.
    - cbn [flat_map]. split; [apply St_start; auto|]. cbn [length]. rewrite Nat.mul_0_r. apply running_start.
    - exists w', o. split; [exact Hrun|]. destruct Hend as [[-> [HS Hru]]|(d & r & r' & x & -> & _ & L & rest & HL & Hcx & HS)].
      + exists (positions R C), []. rewrite app_nil_r. split; [reflexivity|]. split; [apply running_end; exact Hru|exact HS].
      + exists L, rest. split; [exact HL|]. split; [exact Hcx|exact HS]. }
  destruct Hbody as (w' & o & Hrun & L & rest & HL & Hrest & HSt).
  destruct (St_denotes _ _ _ _ _ _ _ _ _ _ Hz Ho Do HSt) as (O1 & Hext & Ho1 & Hs1 & Hw1 & Hd1).
  exists w', O1, L, rest. split.
  { unfold multiply. rewrite (mbind_ok _ _ _ _ _ (p_Rows_ok _ _ _ Hm)), (mbind_ok _ _ _ _ _ (p_Columns_ok _ _ _ Hs)).
    rewrite Hdim, Z.eqb_refl. cbn [negb]. rewrite (mbind_ok _ _ _ _ _ (check_mask_ok _ _ _ _ Ho Hmd)).
    rewrite (mbind_ok _ _ _ _ _ (p_Rows_ok _ _ _ Hs)), (mbind_ok _ _ _ _ _ (p_Columns_ok _ _ _ Hm)).
    rewrite SR, MC. rewrite (mbind_ok _ _ _ _ _ Hrun). reflexivity. }
  do 4 (split; [auto|]). split; [exact HL|]. split; [exact Hrest|]. exact Hd1.
Qed.

End Thms.
