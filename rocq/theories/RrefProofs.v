(** [Reduced] (math/reduced) over an exact field. *)
From Coq Require Import String Ring.
From Verif Require Import GoBase Num SparseVec Csr Csc DenseVec DenseMat Mat World Ops Api MathOps.
From Verif Require Import BaseProofs CsrProofs SvProofs DenseProofs MatProofs Spec HeapProofs ReachProofs StoreProofs VecProofs StoreThms OpsProofs OpsThms EwThms EqThms MethThms OpsProps Steps.

(** ** Specification *)
Section RrefSpec.
Context {N : num}.
Notation V := (T N).

(** [g] is in reduced row echelon form: its first [k] rows have a leading one
    each, in ascending columns, alone in its column and with nothing to the left;
    the other rows are zero *)
Definition is_rref (R C : Z) (g : Z -> Z -> V) : Prop :=
  exists (k : Z) (piv : Z -> Z), 0 <= k <= R /\
    (forall i, 0 <= i < k -> 0 <= piv i < C) /\
    (forall i i', 0 <= i < i' -> i' < k -> piv i < piv i') /\
    (forall i, 0 <= i < k -> g i (piv i) = n1) /\
    (forall i i', 0 <= i < k -> 0 <= i' < R -> i' <> i -> g i' (piv i) = n0) /\
    (forall i j, 0 <= i < k -> 0 <= j < piv i -> g i j = n0) /\
    (forall i j, k <= i < R -> 0 <= j < C -> g i j = n0).

(** [g] results from [f] by elementary row operations *)
Inductive row_equiv (R C : Z) (f : Z -> Z -> V) : (Z -> Z -> V) -> Prop :=
| re_same g : (forall i j, 0 <= i < R -> 0 <= j < C -> g i j = f i j) -> row_equiv R C f g
| re_swap g h a b : row_equiv R C f g -> 0 <= a < R -> 0 <= b < R ->
    (forall i j, 0 <= i < R -> 0 <= j < C -> h i j = g (if i =? a then b else if i =? b then a else i) j) -> row_equiv R C f h
| re_scale g h a x : row_equiv R C f g -> 0 <= a < R -> x <> n0 ->
    (forall i j, 0 <= i < R -> 0 <= j < C -> h i j = if i =? a then nmul (g i j) x else g i j) -> row_equiv R C f h
| re_add g h a b x : row_equiv R C f g -> 0 <= a < R -> 0 <= b < R -> a <> b ->
    (forall i j, 0 <= i < R -> 0 <= j < C -> h i j = if i =? a then nadd (g i j) (nmul x (g b j)) else g i j) -> row_equiv R C f h.

(** [x] solves the homogeneous equation of every row *)
Definition solves (R C : Z) (f : Z -> Z -> V) (x : Z -> V) : Prop :=
  forall i, 0 <= i < R -> sum_from n0 (fun j => nmul (f i j) (x j)) 0 C = n0.
End RrefSpec.

Section Rref.
Context {N : num}.
Notation V := (T N).
Notation mat := (mat N).
Notation world := (world N).
Implicit Types w : world.
Implicit Types f g h : Z -> Z -> V.
Implicit Types p q : ptr.

Lemma for_range {R} a b (body : Z -> M N (option R)) (Inv : Z -> world -> Prop) : a <= b ->
  (forall i w, a <= i < b -> Inv i w -> exists w', body i w = (w', Ok None) /\ Inv (i + 1) w') ->
  forall w, Inv a w -> exists w', for_list (zrange a b) body w = (w', Ok None) /\ Inv b w'.
Proof.
  intros Hab Hb. remember (Z.to_nat (b - a)) as n. revert a Hab Heqn Hb. induction n as [|n IH]; intros a Hab En Hb w Hw.
  - rewrite zrange_nil by lia. exists w. split; [reflexivity|]. replace b with a by lia. exact Hw.
  - rewrite zrange_cons by lia. destruct (Hb a w ltac:(lia) Hw) as (w1 & E & H1). cbn [for_list]. rewrite (mbind_ok _ _ _ _ _ E).
    apply (IH (a + 1)); try lia; [|exact H1]. intros i w2 Hi. apply Hb. lia.
Qed.

(** ** The copy being worked on *)

(** [p] is an [R] x [C] matrix with content [f] in the storage format of [S]; it
    is not an object of [w0], and the objects of [w0] are untouched *)
Definition holds (w0 : world) (p : ptr) (S : mat) (R C : Z) w f : Prop :=
  reachable w /\ (forall q x, obj w0 q x -> q <> p /\ obj w q x) /\
  exists m, obj w p m /\ same_storage S m /\ denotes m R C f.

Lemma holds_ext w0 p S R C w f g : holds w0 p S R C w f -> (forall i j, 0 <= i < R -> 0 <= j < C -> f i j = g i j) -> holds w0 p S R C w g.
Proof. intros (A & B & m & H1 & H2 & H3) H. split; [exact A|]. split; [exact B|]. exists m. split; [exact H1|]. split; [exact H2|]. eapply denotes_change; eauto. Qed.

Section On.
Context (w0 : world) (p : ptr) (S : mat) (R C : Z).
Context (Hs : sane N) (Ps : not_sparse_vector S) (Hk : forall v, kept S v = v).
Notation holds := (holds w0 p S R C).

Lemma holds_At w f r c : holds w f -> 0 <= r < R -> 0 <= c < C -> p_At p r c w = (w, Ok (f r c)).
Proof. intros (_ & _ & m & H1 & _ & H3) Hr Hc. eapply step_At; eauto. Qed.

Lemma holds_row w f r : holds w f -> 0 <= r < R -> p_RowsAtToArray p r w = (w, Ok (map (f r) (zrange 0 C))).
Proof. intros (A & _ & m & H1 & _ & H3) Hr. eapply rows_array; eauto. Qed.

Lemma holds_Set w f r c v : holds w f -> 0 <= r < R -> 0 <= c < C ->
  exists w', p_Set p r c v w = (w', Ok tt) /\ holds w' (put f r c v).
Proof.
  intros (A & B & m & H1 & H2 & H3) Hr Hc.
  destruct (step_Set w p m R C f r c v Hs A H1 (same_storage_nsv _ _ H2 Ps) H3 Hr Hc) as (w' & m' & E & A' & X & O' & S' & D').
  exists w'. split; [exact E|]. split; [exact A'|]. split.
  - intros q x Hq. destruct (B q x Hq) as [D1 D2]. split; [exact D1|]. apply X; auto.
  - exists m'. split; [exact O'|]. split; [eapply same_storage_trans; eauto|]. rewrite <- (same_storage_kept S m v H2), Hk in D'. exact D'.
Qed.

Lemma holds_Update w f r c u : holds w f -> 0 <= r < R -> 0 <= c < C ->
  exists w', p_Update p r c u w = (w', Ok tt) /\ holds w' (put f r c (u (f r c))).
Proof.
  intros (A & B & m & H1 & H2 & H3) Hr Hc.
  destruct (step_Update w p m R C f r c u Hs A H1 (same_storage_nsv _ _ H2 Ps) H3 Hr Hc) as (w' & m' & E & A' & X & O' & S' & D').
  exists w'. split; [exact E|]. split; [exact A'|]. split.
  - intros q x Hq. destruct (B q x Hq) as [D1 D2]. split; [exact D1|]. apply X; auto.
  - exists m'. split; [exact O'|]. split; [eapply same_storage_trans; eauto|]. rewrite <- (same_storage_kept S m _ H2), Hk in D'. exact D'.
Qed.

(** a loop over the columns that rewrites row [r] cell by cell *)
Lemma for_values_row (v : Z -> V) (body : Z -> V -> M N unit) (k : Z -> V -> V) w f r :
  0 <= C -> holds w f -> 0 <= r < R ->
  (forall w f c, holds w f -> 0 <= c < C -> exists w', body c (v c) w = (w', Ok tt) /\ holds w' (put f r c (k c (f r c)))) ->
  exists w', for_values (map v (zrange 0 C)) body w = (w', Ok tt) /\
    holds w' (fun i j => if i =? r then k j (f r j) else f i j).
Proof.
  intros HC Hh Hr Hb. unfold for_values.
  assert (El : zlen (map v (zrange 0 C)) = C) by (unfold zlen; rewrite map_length; fold (zlen (zrange 0 C)); rewrite zlen_zrange; lia).
  rewrite El.
  destruct (for_range (R := unit) 0 C (fun c => mbind (mlift (zget (map v (zrange 0 C)) c)) (fun x => mbind (body c x) (fun _ => mret None)))
    (fun n w => holds w (fun i j => if (i =? r) && (j <? n) then k j (f r j) else f i j))) with (w := w) as (w' & E & H).
  - exact HC.
  - intros c w1 Hc H1. rewrite zget_map, zget_zrange by lia. unfold rmap. cbn [rbind]. rewrite Z.add_0_l, mbind_lift.
    destruct (Hb _ _ c H1 Hc) as (w2 & E2 & H2). rewrite (mbind_ok _ _ _ _ _ E2). exists w2. split; [reflexivity|].
    eapply holds_ext; [exact H2|]. intros i j Hi Hj. unfold put. cbn beta.
    rewrite Z.eqb_refl. replace (c <? c) with false by lia. cbn [andb].
    destruct (i =? r) eqn:E3, (j =? c) eqn:E4; cbn [andb]; try reflexivity.
    + apply Z.eqb_eq in E4. subst j. replace (c <? c + 1) with true by lia. reflexivity.
    + replace (j <? c + 1) with (j <? c) by lia. reflexivity.
  - eapply holds_ext; [exact Hh|]. intros i j Hi Hj. cbn beta. replace (j <? 0) with false by lia. rewrite andb_false_r. reflexivity.
  - rewrite (mbind_ok _ _ _ _ _ E). exists w'. split; [reflexivity|]. eapply holds_ext; [exact H|]. intros i j Hi Hj. cbn beta.
    replace (j <? C) with true by lia. rewrite andb_true_r. destruct (i =? r) eqn:E3; reflexivity.
Qed.

Lemma holds_swap w f i r : 0 <= C -> holds w f -> 0 <= i < R -> 0 <= r < R ->
  exists w', swap_rows p i r w = (w', Ok tt) /\ holds w' (fun a j => f (if a =? i then r else if a =? r then i else a) j).
Proof.
  intros HC Hh Hi Hr. unfold swap_rows. destruct (i =? r) eqn:E; cbn [negb].
  - apply Z.eqb_eq in E. subst i. exists w. split; [reflexivity|]. eapply holds_ext; [exact Hh|]. intros a j _ _. cbn beta.
    destruct (a =? r) eqn:E1; [|reflexivity]. apply Z.eqb_eq in E1. subst. reflexivity.
  - rewrite (mbind_ok _ _ _ _ _ (holds_row _ _ i Hh Hi)), (mbind_ok _ _ _ _ _ (holds_row _ _ r Hh Hr)).
    destruct (for_values_row (f i) (fun c x => p_Set p r c x) (fun c _ => f i c) w f r HC Hh Hr) as (w1 & E1 & H1).
    { intros w1 g c Hg Hc. apply holds_Set; auto. }
    rewrite (mbind_ok _ _ _ _ _ E1).
    destruct (for_values_row (f r) (fun c x => p_Set p i c x) (fun c _ => f r c) w1 _ i HC H1 Hi) as (w2 & E2 & H2).
    { intros w2 g c Hg Hc. apply holds_Set; auto. }
    exists w2. split; [exact E2|]. eapply holds_ext; [exact H2|]. intros a j _ _. cbn beta.
    destruct (a =? i) eqn:E3; [reflexivity|]. destruct (a =? r) eqn:E4; reflexivity.
Qed.

Lemma holds_scale w f r lead y : 0 <= C -> holds w f -> 0 <= r < R -> 0 <= lead < C -> ndiv n1 (f r lead) = Ok y ->
  exists w', scale_row p r lead w = (w', Ok tt) /\ holds w' (fun a j => if a =? r then nmul (f r j) y else f a j).
Proof.
  intros HC Hh Hr Hl Hy. unfold scale_row.
  rewrite (mbind_ok _ _ _ _ _ (holds_At _ _ r lead Hh Hr Hl)), Hy, mbind_lift, (mbind_ok _ _ _ _ _ (holds_row _ _ r Hh Hr)).
  destruct (for_values_row (f r) (fun c v => p_Set p r c (nmul v y)) (fun c _ => nmul (f r c) y) w f r HC Hh Hr) as (w1 & E1 & H1).
  { intros w1 g c Hg Hc. apply holds_Set; auto. }
  exists w1. split; [exact E1|exact H1].
Qed.

Lemma holds_clear w f r lead : 0 <= C -> holds w f -> 0 <= r < R -> 0 <= lead < C ->
  exists w', clear_column p R r lead w = (w', Ok tt) /\
    holds w' (fun a j => if a =? r then f r j else nsub (f a j) (nmul (f r j) (f a lead))).
Proof.
  intros HC Hh Hr Hl. unfold clear_column.
  match goal with |- context [for_list _ ?b] => destruct (for_range (R := unit) 0 R b
    (fun n w => holds w (fun a j => if (a =? r) || (n <=? a) then f a j else nsub (f a j) (nmul (f r j) (f a lead))))) with (w := w) as (w' & E & H) end.
  - lia.
  - intros i w1 Hi H1. cbn beta. destruct (i =? r) eqn:Er; cbn [negb].
    + exists w1. split; [reflexivity|]. eapply holds_ext; [exact H1|]. intros a j Ha Hj. cbn beta.
      destruct (a =? r) eqn:E1; [reflexivity|]. replace (i + 1 <=? a) with (i <=? a) by lia. reflexivity.
    + rewrite (mbind_ok _ _ _ _ _ (holds_At _ _ i lead H1 Hi Hl)), (mbind_ok _ _ _ _ _ (holds_row _ _ r H1 Hr)).
      rewrite Er, Z.eqb_refl. replace (i <=? i) with true by lia. cbn [orb].
      destruct (for_values_row (f r) (fun c value => p_Update p i c (fun v => nsub v (nmul value (f i lead))))
        (fun c v => nsub v (nmul (f r c) (f i lead))) w1 _ i HC H1 Hi) as (w2 & E2 & H2).
      { intros w2 g c Hg Hc. apply (holds_Update w2 g i c (fun v => nsub v (nmul (f r c) (f i lead)))); auto. }
      rewrite (mbind_ok _ _ _ _ _ E2). exists w2. split; [reflexivity|]. eapply holds_ext; [exact H2|]. intros a j Ha Hj. cbn beta.
      rewrite Er. replace (i <=? i) with true by lia. cbn [orb]. destruct (a =? i) eqn:E3.
      * apply Z.eqb_eq in E3. subst a. rewrite Er. replace (i + 1 <=? i) with false by lia. reflexivity.
      * replace (i + 1 <=? a) with (i <=? a) by lia. reflexivity.
  - eapply holds_ext; [exact Hh|]. intros a j Ha Hj. cbn beta. replace (0 <=? a) with true by lia. rewrite orb_true_r. reflexivity.
  - rewrite (mbind_ok _ _ _ _ _ E). exists w'. split; [reflexivity|]. eapply holds_ext; [exact H|]. intros a j Ha Hj. cbn beta.
    replace (R <=? a) with false by lia. rewrite orb_false_r. destruct (a =? r) eqn:E3; [|reflexivity]. apply Z.eqb_eq in E3. subst. reflexivity.
Qed.

(** the search for a pivot *)
Lemma holds_search w f r : eq_ok N -> holds w f -> 0 <= r < R -> forall fuel i lead,
  r <= i < R -> 0 <= lead < C -> (C - lead) * R - i <= Z.of_nat fuel ->
  (forall a j, r <= a < R -> 0 <= j < lead -> f a j = n0) -> (forall a, r <= a < i -> f a lead = n0) ->
  exists o, pivot_search fuel p R C r i lead w = (w, Ok o) /\
    match o with
    | None => forall a j, r <= a < R -> 0 <= j < C -> f a j = n0
    | Some (i', lead') => r <= i' < R /\ lead <= lead' < C /\ f i' lead' <> n0 /\
        (forall a j, r <= a < R -> 0 <= j < lead' -> f a j = n0) /\ (forall a, r <= a < i' -> f a lead' = n0)
    end.
Proof.
  intros He Hh Hr. induction fuel as [|fuel IH]; intros i lead Hi Hl Hf Hz Hz'.
  { exfalso. nia. }
  cbn [pivot_search]. rewrite (mbind_ok _ _ _ _ _ (holds_At _ _ i lead Hh ltac:(lia) Hl)).
  destruct (neqb (f i lead) n0) eqn:E.
  - apply He in E.
    assert (Hz2 : forall a, r <= a < i + 1 -> f a lead = n0).
    { intros a Ha. destruct (Z.eq_dec a i) as [->|]; [exact E|]. apply Hz'. lia. }
    destruct (R =? i + 1) eqn:E1.
    + apply Z.eqb_eq in E1.
      assert (Hz3 : forall a j, r <= a < R -> 0 <= j < lead + 1 -> f a j = n0).
      { intros a j Ha Hj. destruct (Z.eq_dec j lead) as [->|]; [apply Hz2; lia|]. apply Hz; lia. }
      destruct (C =? lead + 1) eqn:E2.
      * apply Z.eqb_eq in E2. exists None. split; [reflexivity|]. intros a j Ha Hj. apply Hz3; lia.
      * destruct (IH r (lead + 1) ltac:(lia) ltac:(lia) ltac:(subst R; ring_simplify; ring_simplify in Hf; lia) Hz3 ltac:(intros; lia)) as (o & Eo & Ho).
        exists o. split; [exact Eo|]. destruct o as [[i' l']|]; [|exact Ho]. destruct Ho as (A & B & D). split; [exact A|]. split; [lia|exact D].
    + destruct (IH (i + 1) lead) as (o & Eo & Ho); try lia; auto. exists o. auto.
  - exists (Some (i, lead)). split; [reflexivity|]. split; [lia|]. split; [lia|]. split; [|split; [exact Hz|exact Hz']].
    intros Hn. assert (neqb (f i lead) n0 = true) by (apply He; exact Hn). congruence.
Qed.
End On.

(** ** Over a field *)
Section Field.
Context (HF : field_ok N).
Lemma field_ring : ring_theory (n0 (n := N)) n1 nadd nmul nsub nneg eq. Proof. apply HF. Qed.
Add Ring Vring : field_ring.

Lemma one_nz : n1 <> n0 :> V. Proof. exact (proj1 (proj2 (proj2 HF))). Qed.

Lemma field_sane : sane N.
Proof.
  destruct HF as (_ & He & _). split; [apply He; reflexivity|]. intros x Hx.
  destruct (neqb (nneg x) n0) eqn:E; [|reflexivity]. apply He in E. assert (neqb x n0 = true); [|congruence]. apply He.
  replace x with (nneg (nneg x)) by ring. rewrite E. ring.
Qed.

(** the state of the elimination: [r] rows done, columns before [lead] settled *)
Definition echelon (R C r lead : Z) (piv : Z -> Z) (f : Z -> Z -> V) : Prop :=
  (forall i, 0 <= i < r -> 0 <= piv i < lead) /\
  (forall i i', 0 <= i < i' -> i' < r -> piv i < piv i') /\
  (forall i, 0 <= i < r -> f i (piv i) = n1) /\
  (forall i i', 0 <= i < r -> 0 <= i' < R -> i' <> i -> f i' (piv i) = n0) /\
  (forall i j, 0 <= i < r -> 0 <= j < piv i -> f i j = n0) /\
  (forall i j, r <= i < R -> 0 <= j < lead -> f i j = n0).

Lemma echelon_rref R C r lead piv f : 0 <= r <= R -> lead <= C -> echelon R C r lead piv f ->
  (forall i j, r <= i < R -> 0 <= j < C -> f i j = n0) -> is_rref R C f.
Proof.
  intros Hr Hl (H1 & H2 & H3 & H4 & H5 & H6) H7. exists r, piv. split; [exact Hr|]. split; [intros i Hi; specialize (H1 i Hi); lia|]. tauto.
Qed.

(** clearing a column is a sequence of additions of a multiple of row [r] *)
Lemma clear_equiv R C f0 f r lead : 0 <= r < R -> row_equiv R C f0 f -> forall n, 0 <= n ->
  row_equiv R C f0 (fun a j => if (a =? r) || (n <=? a) then f a j else nsub (f a j) (nmul (f r j) (f a lead))).
Proof.
  intros Hr H. apply natlike_ind.
  - apply (re_scale R C f0 f _ r n1 H Hr one_nz). intros a j Ha Hj. cbn beta.
    replace (0 <=? a) with true by lia. rewrite orb_true_r. destruct (a =? r); [ring|reflexivity].
  - intros n Hn IH. destruct (Z.eq_dec n r) as [->|Hne].
    + eapply re_scale with (x := n1) (a := r); [exact IH|exact Hr|exact one_nz|]. intros a j Ha Hj. cbn beta.
      destruct (a =? r) eqn:E; cbn [orb]; [ring|]. unfold Z.succ; replace (r + 1 <=? a) with (r <=? a) by lia. reflexivity.
    + destruct (Z_lt_le_dec n R) as [Hlt|Hge].
      * eapply re_add with (a := n) (b := r) (x := nneg (f n lead)); [exact IH|lia|exact Hr|exact Hne|]. intros a j Ha Hj. cbn beta.
        rewrite Z.eqb_refl. cbn [orb]. destruct (a =? n) eqn:E.
        -- apply Z.eqb_eq in E. subst a. replace (n =? r) with false by lia. unfold Z.succ; replace (n + 1 <=? n) with false by lia.
           replace (n <=? n) with true by lia. cbn [orb]. ring.
        -- unfold Z.succ; replace (n + 1 <=? a) with (n <=? a) by lia. reflexivity.
      * eapply re_scale with (x := n1) (a := r); [exact IH|exact Hr|exact one_nz|]. intros a j Ha Hj. cbn beta.
        unfold Z.succ; replace (n + 1 <=? a) with false by lia. replace (n <=? a) with false by lia. destruct (a =? r); cbn [orb]; [ring|reflexivity].
Qed.

Lemma row_equiv_ext R C f0 f g : row_equiv R C f0 f -> (forall i j, 0 <= i < R -> 0 <= j < C -> f i j = g i j) -> 0 < R -> row_equiv R C f0 g.
Proof.
  intros H E HR. eapply re_scale with (x := n1) (a := 0); [exact H|lia|exact one_nz|]. intros a j Ha Hj. rewrite E by auto. destruct (a =? 0); [ring|reflexivity].
Qed.

Lemma reduce_ok w0 p S R C fuel f0 : not_sparse_vector S -> 0 <= C -> R * C <= Z.of_nat fuel -> forall n r lead piv f w,
  0 <= r -> r + Z.of_nat n = R -> 0 <= lead <= C -> echelon R C r lead piv f -> row_equiv R C f0 f -> holds w0 p S R C w f ->
  exists w' g, reduce_rows fuel p R C n r lead w = (w', Ok tt) /\ holds w0 p S R C w' g /\ is_rref R C g /\ row_equiv R C f0 g.
Proof.
  intros Ps HC Hfu. assert (Hs := field_sane). assert (He : eq_ok N) by apply HF.
  assert (Hk : forall v, kept S v = v) by (intros v; apply kept_exact; exact He).
  induction n as [|n IH]; intros r lead piv f w Hr En Hl Hech Heq Hh.
  - cbn [reduce_rows]. exists w, f. split; [reflexivity|]. split; [exact Hh|]. split; [|exact Heq].
    eapply (echelon_rref R C r lead piv f); eauto; try lia.
  - cbn [reduce_rows]. destruct (lead >=? C) eqn:E1.
    { exists w, f. split; [reflexivity|]. split; [exact Hh|]. split; [|exact Heq].
      eapply (echelon_rref R C r lead piv f); eauto; try lia. destruct Hech as (_ & _ & _ & _ & _ & H6). intros i j Hi Hj. apply H6; lia. }
    pose proof Hech as (H1 & H2 & H3 & H4 & H5 & H6).
    destruct (holds_search w0 p S R C w f r He Hh ltac:(lia) fuel r lead ltac:(lia) ltac:(lia) ltac:(nia) H6 ltac:(intros; lia)) as (o & Eo & Ho).
    rewrite (mbind_ok _ _ _ _ _ Eo). destruct o as [[i l]|].
    2:{ exists w, f. split; [reflexivity|]. split; [exact Hh|]. split; [|exact Heq]. eapply (echelon_rref R C r lead piv f); eauto; try lia. }
    destruct Ho as (Hi & Hll & Hnz & Hz & _).
    destruct (holds_swap w0 p S R C Hs Ps Hk w f i r HC Hh ltac:(lia) ltac:(lia)) as (w1 & F1 & G1).
    rewrite (mbind_ok _ _ _ _ _ F1). set (f1 := fun a j : Z => f (if a =? i then r else if a =? r then i else a) j) in *.
    pose proof HF as (_ & _ & _ & Hinv). destruct (Hinv (f1 r l)) as (y & Hy & Hyx).
    { unfold f1. rewrite Z.eqb_refl. destruct (r =? i) eqn:Eri; [apply Z.eqb_eq in Eri; subst; exact Hnz|exact Hnz]. }
    destruct (holds_scale w0 p S R C Hs Ps Hk w1 f1 r l y HC G1 ltac:(lia) ltac:(lia) Hy) as (w2 & F2 & G2).
    rewrite (mbind_ok _ _ _ _ _ F2). set (f2 := fun a j : Z => if a =? r then nmul (f1 r j) y else f1 a j) in *.
    destruct (holds_clear w0 p S R C Hs Ps Hk w2 f2 r l HC G2 ltac:(lia) ltac:(lia)) as (w3 & F3 & G3).
    rewrite (mbind_ok _ _ _ _ _ F3). set (f3 := fun a j : Z => if a =? r then f2 r j else nsub (f2 a j) (nmul (f2 r j) (f2 a l))) in *.
    assert (Q1 : row_equiv R C f0 f1).
    { eapply re_swap with (a := i) (b := r); [exact Heq|lia|lia|]. intros a j _ _. reflexivity. }
    assert (Q2 : row_equiv R C f0 f2).
    { eapply re_scale with (a := r) (x := y); [exact Q1|lia| |].
      - intros ->. apply one_nz. rewrite <- Hyx. ring.
      - intros a j _ _. unfold f2. destruct (a =? r) eqn:E; [|reflexivity]. apply Z.eqb_eq in E. subst. reflexivity. }
    assert (Q3 : row_equiv R C f0 f3).
    { eapply row_equiv_ext; [apply (clear_equiv R C f0 f2 r l ltac:(lia) Q2 R ltac:(lia))| |lia]. intros a j Ha Hj. cbn beta.
      replace (R <=? a) with false by lia. rewrite orb_false_r. unfold f3. destruct (a =? r) eqn:E; [apply Z.eqb_eq in E; subst; reflexivity|reflexivity]. }
    (* cells of f1, f2, f3 *)
    assert (Z1 : forall a j, r <= a < R -> 0 <= j < l -> f1 a j = n0).
    { intros a j Ha Hj. unfold f1. destruct (a =? i); [apply Hz; lia|]. destruct (a =? r); apply Hz; lia. }
    assert (O1 : forall a j, 0 <= a < r -> f1 a j = f a j).
    { intros a j Ha. unfold f1. replace (a =? i) with false by lia. replace (a =? r) with false by lia. reflexivity. }
    assert (Z2 : forall j, 0 <= j < l -> f2 r j = n0).
    { intros j Hj. unfold f2. rewrite Z.eqb_refl, Z1 by lia. ring. }
    assert (U2 : f2 r l = n1).
    { unfold f2. rewrite Z.eqb_refl, <- Hyx. ring. }
    assert (Or : forall a j, 0 <= a < R -> a <> r -> 0 <= j < l -> f3 a j = f1 a j).
    { intros a j Ha Hne Hj. unfold f3. replace (a =? r) with false by lia. rewrite Z2 by lia. unfold f2. replace (a =? r) with false by lia. ring. }
    assert (Rr : forall j, f3 r j = f2 r j) by (intros j; unfold f3; rewrite Z.eqb_refl; reflexivity).
    assert (Cl : forall a, 0 <= a < R -> a <> r -> f3 a l = n0).
    { intros a Ha Hne. unfold f3. replace (a =? r) with false by lia. rewrite U2. ring. }
    eapply (IH (r + 1) (l + 1) (fun a => if a =? r then l else piv a) f3 w3); try lia; auto.
    split; [|split; [|split; [|split; [|split]]]].
    + intros a Ha. cbn beta. destruct (a =? r) eqn:E; [lia|]. specialize (H1 a ltac:(lia)). lia.
    + intros a b Hab Hb. cbn beta. destruct (a =? r) eqn:E; [lia|]. destruct (b =? r) eqn:E'; [specialize (H1 a ltac:(lia)); lia|]. apply H2; lia.
    + intros a Ha. cbn beta. destruct (a =? r) eqn:E.
      * apply Z.eqb_eq in E. subst a. rewrite Rr. exact U2.
      * specialize (H1 a ltac:(lia)). rewrite Or by lia. rewrite O1 by lia. apply H3. lia.
    + intros a b Ha Hb Hne. cbn beta. destruct (a =? r) eqn:E.
      * apply Z.eqb_eq in E. subst a. apply Cl; auto.
      * specialize (H1 a ltac:(lia)). destruct (Z.eq_dec b r) as [->|Hbr]; [rewrite Rr; apply Z2; lia|].
        rewrite Or by lia. destruct (Z_lt_le_dec b r); [rewrite O1 by lia; apply H4; lia|apply Z1; lia].
    + intros a j Ha Hj. cbn beta in Hj. destruct (a =? r) eqn:E.
      * apply Z.eqb_eq in E. subst a. rewrite Rr. apply Z2. lia.
      * specialize (H1 a ltac:(lia)). rewrite Or by lia. rewrite O1 by lia. apply H5; lia.
    + intros a j Ha Hj. destruct (Z.eq_dec j l) as [->|]; [apply Cl; lia|]. rewrite Or by lia. apply Z1; lia.
Qed.

Lemma reduced_rref E w (s : ptr) S R C f : reachable w -> obj w s S -> not_sparse_vector S -> denotes S R C f ->
  R * C <= Z.of_nat (e_fuel E) ->
  exists w' t O g, Reduced E s w = (w', Ok t) /\ extends w w' /\ (forall x, ~ obj w t x) /\ obj w' t O /\ same_storage S O /\
    denotes O R C g /\ is_rref R C g /\ row_equiv R C f g.
Proof.
  intros Hr Ho Ps Hd Hf. assert (Hs := field_sane). pose proof Hd as (ER & EC & _).
  destruct (step_Copy w s S Hs Hr Ho) as (w1 & q & E1 & Hr1 & Hfr & Hx & Ho1).
  unfold Reduced. rewrite (mbind_ok _ _ _ _ _ E1), (mbind_ok _ _ _ _ _ (p_Rows_ok _ _ _ Ho1)), (mbind_ok _ _ _ _ _ (p_Columns_ok _ _ _ Ho1)), ER, EC.
  pose proof (wf_dims S (sane_wfw w Hs Hr _ _ Ho)) as HRC.
  destruct (reduce_ok w q S R C (e_fuel E) f Ps ltac:(lia) Hf (Z.to_nat R) 0 0 (fun _ => 0) f w1) as (w2 & g & E2 & (_ & B & m & Hm & Sm & Dm) & Hrr & Heq); try lia.
  - split; [|split; [|split; [|split; [|split]]]]; intros; lia.
  - apply re_same. reflexivity.
  - split; [exact Hr1|]. split.
    + intros z x Hz. split; [|apply Hx; exact Hz]. intros ->. apply (Hfr x). exact Hz.
    + exists S. split; [exact Ho1|]. split; [apply same_storage_refl|exact Hd].
  - rewrite (mbind_ok _ _ _ _ _ E2). exists w2, q, m, g. split; [reflexivity|]. split; [intros z x Hz; apply B; exact Hz|]. tauto.
Qed.

(** ** Row operations keep the solutions *)
Lemma sum_acc (F : Z -> V) a b acc : sum_from acc F a b = nadd acc (sum_from n0 F a b).
Proof.
  unfold sum_from. generalize (zrange a b). intros l. revert acc. induction l as [|x l IH]; intros acc; cbn [fold_left]; [ring|].
  rewrite IH, (IH (nadd n0 (F x))). ring.
Qed.
Lemma sum_linear (F G H : Z -> V) x y a b : (forall j, a <= j < b -> H j = nadd (nmul x (F j)) (nmul y (G j))) ->
  sum_from n0 H a b = nadd (nmul x (sum_from n0 F a b)) (nmul y (sum_from n0 G a b)).
Proof.
  intros HH. unfold sum_from. assert (forall l, (forall j, In j l -> a <= j < b) -> forall u v z, z = nadd (nmul x u) (nmul y v) ->
    fold_left (fun s l => nadd s (H l)) l z = nadd (nmul x (fold_left (fun s l => nadd s (F l)) l u)) (nmul y (fold_left (fun s l => nadd s (G l)) l v))) as Hl.
  { induction l as [|j l IH]; intros Hj u v z Hz; cbn [fold_left]; [exact Hz|]. apply IH; [intros k Hk; apply Hj; right; exact Hk|].
    rewrite HH by (apply Hj; left; reflexivity). rewrite Hz. ring. }
  apply Hl; [intros j Hj; apply in_zrange in Hj; exact Hj|ring].
Qed.

Lemma cancel_nz x y : x <> n0 -> nmul y x = n0 -> y = n0 :> V.
Proof.
  intros Hx H. pose proof HF as (_ & _ & _ & Hinv). destruct (Hinv x Hx) as (z & _ & Hz).
  replace y with (nmul (nmul y x) z); [rewrite H; ring|]. transitivity (nmul y (nmul z x)); [ring|]. rewrite Hz. ring.
Qed.

Lemma row_equiv_solves R C f g : row_equiv R C f g -> forall x, solves R C f x <-> solves R C g x.
Proof.
  intros H x. induction H as [g Hg|g h a b H IH Ha Hb Hh|g h a y H IH Ha Hy Hh|g h a b y H IH Ha Hb Hab Hh].
  - split; intros HS i Hi; (etransitivity; [|exact (HS i Hi)]); apply sum_from_ext; intros j Hj; rewrite Hg by auto; reflexivity.
  - rewrite IH. split; intros HS i Hi.
    + set (i' := if i =? a then b else if i =? b then a else i). assert (Hi' : 0 <= i' < R) by (unfold i'; destruct (i =? a), (i =? b); lia).
      etransitivity; [|exact (HS i' Hi')]. apply sum_from_ext. intros j Hj. rewrite Hh by auto. reflexivity.
    + set (i' := if i =? a then b else if i =? b then a else i). assert (Hi' : 0 <= i' < R) by (unfold i'; destruct (i =? a), (i =? b); lia).
      etransitivity; [|exact (HS i' Hi')]. apply sum_from_ext. intros j Hj. rewrite Hh by auto. f_equal. f_equal. unfold i'.
      destruct (i =? a) eqn:E1; [|destruct (i =? b) eqn:E2].
      * destruct (b =? a) eqn:E2; [|rewrite Z.eqb_refl]; lia.
      * rewrite Z.eqb_refl. lia.
      * rewrite E1, E2. reflexivity.
  - rewrite IH. assert (Hrow : forall i, 0 <= i < R -> sum_from n0 (fun j => nmul (h i j) (x j)) 0 C =
      nmul (if i =? a then y else n1) (sum_from n0 (fun j => nmul (g i j) (x j)) 0 C)).
    { intros i Hi. rewrite (sum_linear (fun j => nmul (g i j) (x j)) (fun _ => n0) (fun j => nmul (h i j) (x j)) (if i =? a then y else n1) n0); [ring|].
      intros j Hj. rewrite Hh by auto. destruct (i =? a); ring. }
    split; intros HS i Hi.
    + rewrite Hrow, (HS i Hi) by auto. ring.
    + specialize (HS i Hi). rewrite Hrow in HS by auto. apply (cancel_nz (if i =? a then y else n1)); [destruct (i =? a); [exact Hy|exact one_nz]|].
      etransitivity; [|exact HS]; ring.
  - rewrite IH. assert (Hrow : forall i, 0 <= i < R -> sum_from n0 (fun j => nmul (h i j) (x j)) 0 C =
      nadd (nmul n1 (sum_from n0 (fun j => nmul (g i j) (x j)) 0 C)) (nmul (if i =? a then y else n0) (sum_from n0 (fun j => nmul (g b j) (x j)) 0 C))).
    { intros i Hi. apply sum_linear. intros j Hj. rewrite Hh by auto. destruct (i =? a); ring. }
    split; intros HS i Hi.
    + rewrite Hrow, (HS i Hi), (HS b Hb) by auto. ring.
    + assert (Hgb : sum_from n0 (fun j => nmul (g b j) (x j)) 0 C = n0).
      { specialize (HS b Hb). rewrite Hrow in HS by auto. replace (b =? a) with false in HS by lia. etransitivity; [|exact HS]; ring. }
      specialize (HS i Hi). rewrite Hrow, Hgb in HS by auto. etransitivity; [|exact HS]; ring.
Qed.
End Field.
End Rref.
