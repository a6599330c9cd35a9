(** [Reduced] (math/reduced) for the Go element types: what holds without a field. *)
From Coq Require Import String Ring.
From Verif Require Import GoBase Num SparseVec Csr Csc DenseVec DenseMat Mat World Ops Api MathOps.
From Verif Require Import BaseProofs CsrProofs SvProofs DenseProofs MatProofs Spec HeapProofs ReachProofs StoreProofs VecProofs StoreThms OpsProofs OpsThms EwThms EqThms MethThms OpsProps Steps RrefProofs NumProofs.

Section Total.
Context {N : num}.
Notation V := (T N).
Notation mat := (mat N).
Notation world := (world N).
Implicit Types w : world.
Implicit Types f g h : Z -> Z -> V.
Implicit Types p q : ptr.

(** dividing one by a value that does not compare equal to zero does not panic *)
Definition div_total : Prop := forall x : V, neqb x n0 = false -> exists y, ndiv n1 x = Ok y.

Section On.
Context (w0 : world) (p : ptr) (S : mat) (R C : Z).
Context (Hs : sane N) (Ps : not_sparse_vector S).
Notation holds := (holds w0 p S R C).

Lemma keep_Set w f r c v : holds w f -> 0 <= r < R -> 0 <= c < C ->
  exists w', p_Set p r c v w = (w', Ok tt) /\ holds w' (put f r c (kept S v)).
Proof.
  intros (A & B & m & H1 & H2 & H3) Hr Hc.
  destruct (step_Set w p m R C f r c v Hs A H1 (same_storage_nsv _ _ H2 Ps) H3 Hr Hc) as (w' & m' & E & A' & X & O' & S' & D').
  exists w'. split; [exact E|]. split; [exact A'|]. split.
  - intros q x Hq. destruct (B q x Hq) as [D1 D2]. split; [exact D1|]. apply X; auto.
  - exists m'. split; [exact O'|]. split; [eapply same_storage_trans; eauto|]. rewrite <- (same_storage_kept S m v H2) in D'. exact D'.
Qed.

Lemma keep_Update w f r c u : holds w f -> 0 <= r < R -> 0 <= c < C ->
  exists w', p_Update p r c u w = (w', Ok tt) /\ holds w' (put f r c (kept S (u (f r c)))).
Proof.
  intros (A & B & m & H1 & H2 & H3) Hr Hc.
  destruct (step_Update w p m R C f r c u Hs A H1 (same_storage_nsv _ _ H2 Ps) H3 Hr Hc) as (w' & m' & E & A' & X & O' & S' & D').
  exists w'. split; [exact E|]. split; [exact A'|]. split.
  - intros q x Hq. destruct (B q x Hq) as [D1 D2]. split; [exact D1|]. apply X; auto.
  - exists m'. split; [exact O'|]. split; [eapply same_storage_trans; eauto|]. rewrite <- (same_storage_kept S m _ H2) in D'. exact D'.
Qed.

Lemma keep_swap w f i r : 0 <= C -> holds w f -> 0 <= i < R -> 0 <= r < R ->
  exists w' g, swap_rows p i r w = (w', Ok tt) /\ holds w' g /\ forall j, g r j = if i =? r then f r j else kept S (f i j).
Proof.
  intros HC Hh Hi Hr. unfold swap_rows. destruct (i =? r) eqn:E; cbn [negb].
  - exists w, f. auto.
  - rewrite (mbind_ok _ _ _ _ _ (holds_row _ _ _ _ _ Hs _ _ i Hh Hi)), (mbind_ok _ _ _ _ _ (holds_row _ _ _ _ _ Hs _ _ r Hh Hr)).
    destruct (for_values_row w0 p S R C (f i) (fun c x => p_Set p r c x) (fun c _ => kept S (f i c)) w f r HC Hh Hr) as (w1 & E1 & H1).
    { intros w1 g c Hg Hc. apply keep_Set; auto. }
    rewrite (mbind_ok _ _ _ _ _ E1).
    destruct (for_values_row w0 p S R C (f r) (fun c x => p_Set p i c x) (fun c _ => kept S (f r c)) w1 _ i HC H1 Hi) as (w2 & E2 & H2).
    { intros w2 g c Hg Hc. apply keep_Set; auto. }
    exists w2. eexists. split; [exact E2|]. split; [exact H2|]. intros j. cbn beta. rewrite Z.eqb_sym, E, Z.eqb_refl. reflexivity.
Qed.

Lemma keep_scale w f r lead y : 0 <= C -> holds w f -> 0 <= r < R -> 0 <= lead < C -> ndiv n1 (f r lead) = Ok y ->
  exists w' g, scale_row p r lead w = (w', Ok tt) /\ holds w' g.
Proof.
  intros HC Hh Hr Hl Hy. unfold scale_row.
  rewrite (mbind_ok _ _ _ _ _ (holds_At _ _ _ _ _ _ _ r lead Hh Hr Hl)), Hy, mbind_lift, (mbind_ok _ _ _ _ _ (holds_row _ _ _ _ _ Hs _ _ r Hh Hr)).
  destruct (for_values_row w0 p S R C (f r) (fun c v => p_Set p r c (nmul v y)) (fun c _ => kept S (nmul (f r c) y)) w f r HC Hh Hr) as (w1 & E1 & H1).
  { intros w1 g c Hg Hc. apply keep_Set; auto. }
  eauto.
Qed.

Lemma keep_clear w f r lead : 0 <= C -> holds w f -> 0 <= r < R -> 0 <= lead < C ->
  exists w' g, clear_column p R r lead w = (w', Ok tt) /\ holds w' g.
Proof.
  intros HC Hh Hr Hl. unfold clear_column.
  match goal with |- context [for_list _ ?b] => destruct (for_range (R := unit) 0 R b (fun n w => exists g, holds w g)) with (w := w) as (w' & E & (g & H)) end.
  - lia.
  - intros i w1 Hi (g & H1). cbn beta. destruct (i =? r) eqn:Er; cbn [negb].
    + exists w1. split; [reflexivity|]. eauto.
    + rewrite (mbind_ok _ _ _ _ _ (holds_At _ _ _ _ _ _ _ i lead H1 Hi Hl)), (mbind_ok _ _ _ _ _ (holds_row _ _ _ _ _ Hs _ _ r H1 Hr)).
      destruct (for_values_row w0 p S R C (g r) (fun c value => p_Update p i c (fun v => nsub v (nmul value (g i lead))))
        (fun c v => kept S (nsub v (nmul (g r c) (g i lead)))) w1 _ i HC H1 Hi) as (w2 & E2 & H2).
      { intros w2 h c Hg Hc. apply (keep_Update w2 h i c (fun v => nsub v (nmul (g r c) (g i lead)))); auto. }
      rewrite (mbind_ok _ _ _ _ _ E2). exists w2. split; [reflexivity|]. eauto.
  - eauto.
  - rewrite (mbind_ok _ _ _ _ _ E). exists w', g. split; [reflexivity|exact H].
Qed.

Lemma keep_search w f r : holds w f -> 0 <= r < R -> forall fuel i lead,
  r <= i < R -> 0 <= lead < C -> (C - lead) * R - i <= Z.of_nat fuel ->
  exists o, pivot_search fuel p R C r i lead w = (w, Ok o) /\
    match o with
    | None => True
    | Some (i', lead') => r <= i' < R /\ lead <= lead' < C /\ neqb (f i' lead') n0 = false
    end.
Proof.
  intros Hh Hr. induction fuel as [|fuel IH]; intros i lead Hi Hl Hf.
  { exfalso. nia. }
  cbn [pivot_search]. rewrite (mbind_ok _ _ _ _ _ (holds_At _ _ _ _ _ _ _ i lead Hh ltac:(lia) Hl)).
  destruct (neqb (f i lead) n0) eqn:E.
  - destruct (R =? i + 1) eqn:E1.
    + apply Z.eqb_eq in E1. destruct (C =? lead + 1) eqn:E2; [exists None; auto|].
      destruct (IH r (lead + 1) ltac:(lia) ltac:(lia) ltac:(subst R; ring_simplify; ring_simplify in Hf; lia)) as (o & Eo & Ho).
      exists o. split; [exact Eo|]. destruct o as [[i' l']|]; [|exact Ho]. destruct Ho as (A & B & D). split; [exact A|]. split; [lia|exact D].
    + destruct (IH (i + 1) lead) as (o & Eo & Ho); try lia; auto. exists o. auto.
  - exists (Some (i, lead)). split; [reflexivity|]. split; [lia|]. split; [lia|exact E].
Qed.

Lemma kept_nz v : neqb v n0 = false -> kept S v = v.
Proof. intros H. unfold kept, exactly, zeroed, isz. destruct S; rewrite ?H; reflexivity. Qed.

Lemma reduce_total fuel (Hdiv : div_total) : 0 <= C -> R * C <= Z.of_nat fuel -> forall n r lead f w,
  0 <= r -> r + Z.of_nat n = R -> 0 <= lead <= C -> holds w f ->
  exists w' g, reduce_rows fuel p R C n r lead w = (w', Ok tt) /\ holds w' g.
Proof.
  intros HC Hfu. induction n as [|n IH]; intros r lead f w Hr En Hl Hh; cbn [reduce_rows]; [exists w, f; split; [reflexivity|exact Hh]|].
  destruct (lead >=? C) eqn:E1; [exists w, f; split; [reflexivity|exact Hh]|].
  destruct (keep_search w f r Hh ltac:(lia) fuel r lead ltac:(lia) ltac:(lia) ltac:(nia)) as (o & Eo & Ho).
  rewrite (mbind_ok _ _ _ _ _ Eo). destruct o as [[i l]|]; [|exists w, f; split; [reflexivity|exact Hh]]. destruct Ho as (Hi & Hll & Hnz).
  destruct (keep_swap w f i r HC Hh ltac:(lia) ltac:(lia)) as (w1 & f1 & F1 & G1 & Hf1). rewrite (mbind_ok _ _ _ _ _ F1).
  assert (Hp : neqb (f1 r l) n0 = false).
  { rewrite Hf1. destruct (i =? r) eqn:E; [apply Z.eqb_eq in E; subst; exact Hnz|]. rewrite kept_nz; exact Hnz. }
  destruct (Hdiv _ Hp) as (y & Hy).
  destruct (keep_scale w1 f1 r l y HC G1 ltac:(lia) ltac:(lia) Hy) as (w2 & f2 & F2 & G2). rewrite (mbind_ok _ _ _ _ _ F2).
  destruct (keep_clear w2 f2 r l HC G2 ltac:(lia) ltac:(lia)) as (w3 & f3 & F3 & G3). rewrite (mbind_ok _ _ _ _ _ F3).
  eapply IH; eauto; lia.
Qed.
End On.

(** [Reduced] of any matrix returns: no panic, no endless loop, a new matrix of
    the same shape and storage format, everything else unchanged *)
Lemma reduced_total E w (s : ptr) S R C f : sane N -> div_total -> reachable w -> obj w s S -> not_sparse_vector S -> denotes S R C f ->
  R * C <= Z.of_nat (e_fuel E) ->
  exists w' t O g, Reduced E s w = (w', Ok t) /\ extends w w' /\ (forall x, ~ obj w t x) /\ obj w' t O /\ same_storage S O /\ denotes O R C g.
Proof.
  intros Hs Hdiv Hr Ho Ps Hd Hf. pose proof Hd as (ER & EC & _).
  destruct (step_Copy w s S Hs Hr Ho) as (w1 & q & E1 & Hr1 & Hfr & Hx & Ho1).
  unfold Reduced. rewrite (mbind_ok _ _ _ _ _ E1), (mbind_ok _ _ _ _ _ (p_Rows_ok _ _ _ Ho1)), (mbind_ok _ _ _ _ _ (p_Columns_ok _ _ _ Ho1)), ER, EC.
  pose proof (wf_dims S (sane_wfw w Hs Hr _ _ Ho)) as HRC.
  destruct (reduce_total w q S R C Hs Ps (e_fuel E) Hdiv ltac:(lia) Hf (Z.to_nat R) 0 0 f w1) as (w2 & g & E2 & (_ & B & m & Hm & Sm & Dm)); try lia.
  - split; [exact Hr1|]. split.
    + intros z x Hz. split; [|apply Hx; exact Hz]. intros ->. apply (Hfr x). exact Hz.
    + exists S. split; [exact Ho1|]. split; [apply same_storage_refl|exact Hd].
  - rewrite (mbind_ok _ _ _ _ _ E2). exists w2, q, m, g. split; [reflexivity|]. split; [intros z x Hz; apply B; exact Hz|]. tauto.
Qed.

(** ** A matrix already in reduced row echelon form *)
Section Ring.
Context (HR : ring_ok N) (He : eq_ok N) (H10 : n1 <> n0 :> V) (H11 : ndiv n1 n1 = Ok (n1 : V)) (Hs : sane N).
Lemma ring_laws : ring_theory (n0 (n := N)) n1 nadd nmul nsub nneg eq. Proof. exact HR. Qed.
Add Ring Vring : ring_laws.

Lemma reduce_rref w0 p S R C fuel f : not_sparse_vector S -> 0 <= C -> R * C <= Z.of_nat fuel ->
  forall k piv, 0 <= k <= R ->
    (forall i, 0 <= i < k -> 0 <= piv i < C) ->
    (forall i i', 0 <= i < i' -> i' < k -> piv i < piv i') ->
    (forall i, 0 <= i < k -> f i (piv i) = n1) ->
    (forall i i', 0 <= i < k -> 0 <= i' < R -> i' <> i -> f i' (piv i) = n0) ->
    (forall i j, 0 <= i < k -> 0 <= j < piv i -> f i j = n0) ->
    (forall i j, k <= i < R -> 0 <= j < C -> f i j = n0) ->
  forall n r lead w, 0 <= r -> r + Z.of_nat n = R -> 0 <= lead <= C -> (r < k -> lead <= piv r) ->
    (forall i j, r <= i < R -> 0 <= j < lead -> f i j = n0) -> holds w0 p S R C w f ->
  exists w', reduce_rows fuel p R C n r lead w = (w', Ok tt) /\ holds w0 p S R C w' f.
Proof.
  intros Ps HC Hfu k piv Hk P1 P2 P3 P4 P5 P6. assert (Hkp : forall v, kept S v = v) by (intros v; apply kept_exact; exact He).
  induction n as [|n IH]; intros r lead w Hr En Hl Hpl Hz0 Hh; cbn [reduce_rows]; [exists w; split; [reflexivity|exact Hh]|].
  destruct (lead >=? C) eqn:E1; [exists w; split; [reflexivity|exact Hh]|].
  destruct (holds_search w0 p S R C w f r He Hh ltac:(lia) fuel r lead ltac:(lia) ltac:(lia) ltac:(nia) Hz0 ltac:(intros; lia)) as (o & Eo & Ho).
  rewrite (mbind_ok _ _ _ _ _ Eo). destruct o as [[i l]|]; [|exists w; split; [reflexivity|exact Hh]]. destruct Ho as (Hi & Hll & Hnz & Hz & Hz').
  destruct (Z_lt_le_dec r k) as [Hrk|Hrk]; [|exfalso; apply Hnz; apply P6; lia].
  specialize (Hpl Hrk). pose proof (P1 r ltac:(lia)) as Hpr.
  assert (El : l = piv r).
  { destruct (Z.lt_trichotomy l (piv r)) as [H|[H|H]]; [exfalso|exact H|exfalso].
    - apply Hnz. destruct (Z_lt_le_dec i k); [|apply P6; lia]. apply P5; [lia|]. destruct (Z.eq_dec i r) as [->|]; [lia|]. specialize (P2 r i ltac:(lia) ltac:(lia)). lia.
    - apply H10. rewrite <- (P3 r ltac:(lia)). apply Hz; lia. }
  assert (Ei : i = r).
  { destruct (Z.eq_dec i r) as [|Hne]; [assumption|]. exfalso. apply H10. rewrite <- (P3 r ltac:(lia)), <- El. apply Hz'. lia. }
  subst l i. unfold swap_rows at 1. rewrite Z.eqb_refl. cbn [negb]. rewrite mbind_ret.
  destruct (holds_scale w0 p S R C Hs Ps Hkp w f r (piv r) n1 HC Hh ltac:(lia) ltac:(lia)) as (w2 & F2 & G2).
  { rewrite P3 by lia. exact H11. }
  rewrite (mbind_ok _ _ _ _ _ F2).
  assert (G2' : holds w0 p S R C w2 f) by (eapply holds_ext; [exact G2|]; intros a j Ha Hj; cbn beta; destruct (a =? r) eqn:E; [apply Z.eqb_eq in E; subst; ring|reflexivity]).
  destruct (holds_clear w0 p S R C Hs Ps Hkp w2 f r (piv r) HC G2' ltac:(lia) ltac:(lia)) as (w3 & F3 & G3).
  rewrite (mbind_ok _ _ _ _ _ F3).
  assert (G3' : holds w0 p S R C w3 f).
  { eapply holds_ext; [exact G3|]. intros a j Ha Hj. cbn beta. destruct (a =? r) eqn:E; [apply Z.eqb_eq in E; subst; reflexivity|].
    rewrite (P4 r a) by lia. ring. }
  apply IH; try lia; auto.
  - intros Hrk'. specialize (P2 r (r + 1) ltac:(lia) ltac:(lia)). lia.
  - intros a j Ha Hj. destruct (Z.eq_dec j (piv r)) as [->|]; [apply P4; lia|]. apply Hz; lia.
Qed.

Lemma reduced_fixed E w (s : ptr) S R C f : reachable w -> obj w s S -> not_sparse_vector S -> denotes S R C f ->
  R * C <= Z.of_nat (e_fuel E) -> is_rref R C f ->
  exists w' t O, Reduced E s w = (w', Ok t) /\ extends w w' /\ (forall x, ~ obj w t x) /\ obj w' t O /\ same_storage S O /\ denotes O R C f.
Proof.
  intros Hr Ho Ps Hd Hf (k & piv & Hk & P1 & P2 & P3 & P4 & P5 & P6). pose proof Hd as (ER & EC & _).
  destruct (step_Copy w s S Hs Hr Ho) as (w1 & q & E1 & Hr1 & Hfr & Hx & Ho1).
  unfold Reduced. rewrite (mbind_ok _ _ _ _ _ E1), (mbind_ok _ _ _ _ _ (p_Rows_ok _ _ _ Ho1)), (mbind_ok _ _ _ _ _ (p_Columns_ok _ _ _ Ho1)), ER, EC.
  pose proof (wf_dims S (sane_wfw w Hs Hr _ _ Ho)) as HRC.
  destruct (reduce_rref w q S R C (e_fuel E) f Ps ltac:(lia) Hf k piv Hk P1 P2 P3 P4 P5 P6 (Z.to_nat R) 0 0 w1) as (w2 & E2 & (_ & B & m & Hm & Sm & Dm)); try lia.
  - intros H. apply P1. lia.
  - split; [exact Hr1|]. split.
    + intros z x Hz. split; [|apply Hx; exact Hz]. intros ->. apply (Hfr x). exact Hz.
    + exists S. split; [exact Ho1|]. split; [apply same_storage_refl|exact Hd].
  - rewrite (mbind_ok _ _ _ _ _ E2). exists w2, q, m. split; [reflexivity|]. split; [intros z x Hz; apply B; exact Hz|]. tauto.
Qed.
End Ring.
End Total.
Arguments div_total : clear implicits.

(** ** The Go element types *)
Lemma int_div_total name sg bits : wval (of_Z (sg := sg) (bits := bits) 0) = 0 -> div_total (num_int name sg bits).
Proof.
  intros H0 x Hx. cbn [num_int ndiv neqb n0 n1 T] in *. rewrite H0 in Hx. rewrite Hx. eexists. reflexivity.
Qed.
Lemma go_div_total : Forall div_total go_types.
Proof.
  constructor; [intros x _; eexists; reflexivity|]. constructor; [intros x _; eexists; reflexivity|].
  repeat constructor; apply int_div_total; reflexivity.
Qed.

Lemma go_ints_one : Forall (fun N => n1 <> n0 :> T N /\ ndiv n1 n1 = Ok (n1 : T N)) go_ints.
Proof.
  repeat constructor; try reflexivity; intros H; apply (f_equal wval) in H; vm_compute in H; discriminate.
Qed.
