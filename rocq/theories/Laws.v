(** Expressions built from method calls on dense matrices, and the laws of matrix algebra. *)
From Coq Require Import String Ring.
From Verif Require Import GoBase Num SparseVec Csr Csc DenseVec DenseMat Mat World Ops Api MathOps.
From Verif Require Import BaseProofs MatProofs Spec HeapProofs ReachProofs StoreProofs StoreThms OpsProofs OpsThms OpsProps Steps StrassenProofs NumProofs ReduceWitness Witness StoreWitness OpsWitness MathThms.

(** ** Programs *)

(** an expression over the objects of the program, evaluated by calling the methods of
    the intermediate results, left operand first.  The method Transpose of a dense matrix
    returns a [DenseMatrix], which has no Multiply, Add etc. (denseMatrix.go:246-250); in the
    middle of an expression [ETr a] is its body, the operator Transpose, with an output made by
    NewDenseMatrixN.  Negative returns a [DenseMatrixNumber] behind an interface that has to be
    asserted to [Matrix]. *)
Inductive expr (N : num) : Type :=
| EObj (p : ptr)                 (* an object of the program *)
| EMul (a b : expr N)            (* a.Multiply(b) *)
| EAdd (a b : expr N)            (* a.Add(b) *)
| ESub (a b : expr N)            (* a.Subtract(b) *)
| ENeg (a : expr N)              (* a.Negative() *)
| ETr (a : expr N)               (* a.Transpose(), or Transpose(ctx, a, nil, NewDenseMatrixN(c, r)) *)
| EScale (k : T N) (a : expr N)  (* a.Scalar(k) *)
| ECopy (a : expr N).            (* a.Copy() *)
Arguments EObj {N}. Arguments EMul {N}. Arguments EAdd {N}. Arguments ESub {N}.
Arguments ENeg {N}. Arguments ETr {N}. Arguments EScale {N}. Arguments ECopy {N}.

(** the calls *)
Fixpoint eval {N} (E : env) (e : expr N) : M N ptr :=
  match e with
  | EObj p => mret p
  | EMul a b => let! p := eval E a in let! q := eval E b in m_Multiply E p q
  | EAdd a b => let! p := eval E a in let! q := eval E b in m_Add E p q
  | ESub a b => let! p := eval E a in let! q := eval E b in m_Subtract E p q
  | ENeg a => let! p := eval E a in m_Negative E p
  | ETr a => let! p := eval E a in m_Transpose E p
  | EScale k a => let! p := eval E a in m_Scalar E p k
  | ECopy a => let! p := eval E a in p_Copy p
  end.

(** ** Specification: the matrix an expression stands for.  [means w B e R C f]: it has [R]
    rows, [C] columns and the cells [f]; no matrix that occurs has more than [B] cells. *)
Inductive means {N} (w : world N) (B : Z) : expr N -> Z -> Z -> (Z -> Z -> T N) -> Prop :=
| means_obj p d R C f : obj w p (MDM d) -> denotes (MDM d) R C f -> R * C <= B -> means w B (EObj p) R C f
| means_mul a b R K C f g : means w B a R K f -> means w B b K C g -> R * C <= B ->
    means w B (EMul a b) R C (fun i j => sum_from n0 (fun l => nmul (f i l) (g l j)) 0 K)
| means_add a b R C f g : means w B a R C f -> means w B b R C g -> means w B (EAdd a b) R C (fun i j => nadd (f i j) (g i j))
| means_sub a b R C f g : means w B a R C f -> means w B b R C g -> means w B (ESub a b) R C (fun i j => nsub (f i j) (g i j))
| means_neg a R C f : means w B a R C f -> means w B (ENeg a) R C (fun i j => nneg (f i j))
| means_tr a R C f : means w B a R C f -> means w B (ETr a) C R (fun i j => f j i)
| means_scale k a R C f : means w B a R C f -> means w B (EScale k a) R C (fun i j => nmul k (f i j))
| means_copy a R C f : means w B a R C f -> means w B (ECopy a) R C f.

(** two programs, run one after the other, end without panic and change no object, and
    Equal says that their results are the same *)
Definition agree {N} (E : env) (w : world N) (e1 e2 : expr N) : Prop :=
  exists w1 p w2 q w3, eval E e1 w = (w1, Ok p) /\ eval E e2 w1 = (w2, Ok q) /\
    m_Equal E p (Some q) w2 = (w3, Ok true) /\ extends w w3.

Section Laws.
Context {N : num}.
Notation V := (T N).
Notation world := (world N).
Implicit Types w : world.

Lemma means_mono w w' B e R C f : extends w w' -> means w B e R C f -> means w' B e R C f.
Proof. intros Hx H. induction H; econstructor; eauto. Qed.
Lemma means_small w B e R C f : means w B e R C f -> R * C <= B.
Proof. intros H. induction H; auto; lia. Qed.

Lemma eval_ok E w B e R C f : sane N -> dense_unregistered N E -> reachable w -> means w B e R C f ->
  B < 2 ^ 63 -> B <= Z.of_nat (e_fuel E) ->
  exists w' t, eval E e w = (w', Ok t) /\ reachable w' /\ extends w w' /\ dm w' t R C f.
Proof.
  intros Hs Hreg Hr Hm HB Hfu. revert w Hr Hm. 
  assert (G : forall w0, means w0 B e R C f -> forall w, reachable w -> extends w0 w ->
    exists w' t, eval E e w = (w', Ok t) /\ reachable w' /\ extends w w' /\ dm w' t R C f).
  2:{ intros w Hr Hm. apply (G w Hm w Hr). apply extends_refl. }
  intros w0 Hm. induction Hm; intros w Hr Hx; cbn [eval].
  - exists w, p. split; [reflexivity|]. split; [exact Hr|]. split; [apply extends_refl|]. exists d. auto.
  - destruct (IHHm1 w Hr Hx) as (w1 & p & E1 & R1 & X1 & D1). rewrite (mbind_ok _ _ _ _ _ E1).
    destruct (IHHm2 w1 R1 (extends_trans _ _ _ Hx X1)) as (w2 & q & E2 & R2 & X2 & D2). rewrite (mbind_ok _ _ _ _ _ E2).
    apply (dm_mono w1 w2) in D1; [|exact X2]. destruct D1 as (d1 & O1 & D1), D2 as (d2 & O2 & D2).
    destruct (mul_dense_method E w2 p q (MDM d1) (MDM d2) R K C f g Hs R2 O1 O2 Logic.I (fun x => x) Logic.I D1 D2 ltac:(lia))
      as (w3 & t & O' & E3 & F3 & X3 & O3 & S3 & D3).
    exists w3, t. split; [exact E3|]. split.
    { eapply (reach_drop w2 (m_Multiply E p q) (KMMultiply E p q)); eauto. cbn. intros so mo Hso Hmo.
      rewrite (obj_inj _ _ _ _ Hso O1), (obj_inj _ _ _ _ Hmo O2). destruct D1 as (-> & _), D2 as (_ & -> & _). lia. }
    split; [eapply extends_trans; [exact X1|eapply extends_trans; [exact X2|exact X3]]|].
    destruct O'; try contradiction. eexists. split; [exact O3|exact D3].
  - destruct (IHHm1 w Hr Hx) as (w1 & p & E1 & R1 & X1 & D1). rewrite (mbind_ok _ _ _ _ _ E1).
    destruct (IHHm2 w1 R1 (extends_trans _ _ _ Hx X1)) as (w2 & q & E2 & R2 & X2 & D2). rewrite (mbind_ok _ _ _ _ _ E2).
    destruct (dm_Add E w2 p q R C f g Hs R2 (dm_mono _ _ _ _ _ _ X2 D1) D2 Hreg ltac:(pose proof (means_small _ _ _ _ _ _ Hm1); lia)) as (w3 & t & E3 & R3 & X3 & D3).
    exists w3, t. split; [exact E3|]. split; [exact R3|]. split; [|exact D3].
    eapply extends_trans; [exact X1|eapply extends_trans; [exact X2|exact X3]].
  - destruct (IHHm1 w Hr Hx) as (w1 & p & E1 & R1 & X1 & D1). rewrite (mbind_ok _ _ _ _ _ E1).
    destruct (IHHm2 w1 R1 (extends_trans _ _ _ Hx X1)) as (w2 & q & E2 & R2 & X2 & D2). rewrite (mbind_ok _ _ _ _ _ E2).
    destruct (dm_Subtract E w2 p q R C f g Hs R2 (dm_mono _ _ _ _ _ _ X2 D1) D2 ltac:(pose proof (means_small _ _ _ _ _ _ Hm1); lia)) as (w3 & t & E3 & R3 & X3 & D3).
    exists w3, t. split; [exact E3|]. split; [exact R3|]. split; [|exact D3].
    eapply extends_trans; [exact X1|eapply extends_trans; [exact X2|exact X3]].
  - destruct (IHHm w Hr Hx) as (w1 & p & E1 & R1 & X1 & (d1 & O1 & D1)). rewrite (mbind_ok _ _ _ _ _ E1).
    destruct (step_Negative E w1 p (MDM d1) R C f Hs R1 O1 Logic.I D1 ltac:(pose proof (means_small _ _ _ _ _ _ Hm); lia)) as (w2 & t & O' & E2 & R2 & F2 & X2 & O2 & S2 & D2).
    exists w2, t. split; [exact E2|]. split; [exact R2|]. split; [eapply extends_trans; eauto|].
    destruct O'; try contradiction. eexists. split; [exact O2|exact D2].
  - destruct (IHHm w Hr Hx) as (w1 & p & E1 & R1 & X1 & (d1 & O1 & D1)). rewrite (mbind_ok _ _ _ _ _ E1).
    destruct (step_Transpose E w1 p (MDM d1) R C f Hs R1 O1 Logic.I D1 ltac:(pose proof (means_small _ _ _ _ _ _ Hm); lia) ltac:(intros []))
      as (w2 & t & O' & E2 & R2 & F2 & X2 & O2 & _ & S2 & D2).
    exists w2, t. split; [exact E2|]. split; [exact R2|]. split; [eapply extends_trans; eauto|].
    destruct (S2 Logic.I) as [d ->]. exists d. auto.
  - destruct (IHHm w Hr Hx) as (w1 & p & E1 & R1 & X1 & (d1 & O1 & D1)). rewrite (mbind_ok _ _ _ _ _ E1).
    pose proof (means_small _ _ _ _ _ _ Hm). pose proof (values_bound w1 p (MDM d1) R C f Hs R1 O1 Logic.I D1).
    destruct (scalar_exact (bg E) w1 p (MDM d1) k R C f Hs R1 O1 D1 eq_refl ltac:(cbn [e_fuel bg]; lia) ltac:(discriminate))
      as (w2 & t & O' & E2 & _ & F2 & X2 & O2 & S2 & D2).
    exists w2, t. split; [exact E2|]. split.
    { eapply (reach_drop w1 (Scalar (bg E) p k) (KScalar (bg E) p k)); eauto. cbn. intros m Hm0. rewrite (obj_inj _ _ _ _ Hm0 O1). exact I. }
    split; [eapply extends_trans; eauto|]. destruct O'; try contradiction. eexists. split; [exact O2|exact D2].
  - destruct (IHHm w Hr Hx) as (w1 & p & E1 & R1 & X1 & (d1 & O1 & D1)). rewrite (mbind_ok _ _ _ _ _ E1).
    destruct (step_Copy w1 p (MDM d1) Hs R1 O1) as (w2 & q & E2 & R2 & F2 & X2 & O2).
    exists w2, q. split; [exact E2|]. split; [exact R2|]. split; [eapply extends_trans; eauto|]. exists d1. auto.
Qed.

(** expressions that stand for the same matrix agree *)
Lemma agree_ok E w B e1 e2 R C f g : sane N -> cmp_ok N -> dense_unregistered N E -> reachable w ->
  B < 2 ^ 63 -> B <= Z.of_nat (e_fuel E) ->
  means w B e1 R C f -> means w B e2 R C g ->
  (forall i j, 0 <= i < R -> 0 <= j < C -> neqb (f i j) (g i j) = true) -> agree E w e1 e2.
Proof.
  intros Hs Hc Hreg Hr HB Hfu H1 H2 Heq.
  destruct (eval_ok E w B e1 R C f Hs Hreg Hr H1 HB Hfu) as (w1 & p & E1 & R1 & X1 & D1).
  destruct (eval_ok E w1 B e2 R C g Hs Hreg R1 (means_mono _ _ _ _ _ _ _ X1 H2) HB Hfu) as (w2 & q & E2 & R2 & X2 & (d2 & O2 & D2)).
  apply (dm_mono _ _ _ _ _ _ X2) in D1. destruct D1 as (d1 & O1 & D1).
  pose proof (means_small _ _ _ _ _ _ H1).
  destruct (equal_same (bg E) w2 p q (MDM d1) (MDM d2) R C R C f g Hs Hc R2 O1 O2 D1 D2) as (w3 & b & E3 & Hh & Hb).
  { left. repeat split; auto; apply Hreg; exact Logic.I. }
  { pose proof (values_bound w2 p (MDM d1) R C f Hs R2 O1 Logic.I D1). cbn [e_fuel bg]. lia. }
  { pose proof (values_bound w2 q (MDM d2) R C g Hs R2 O2 Logic.I D2). cbn [e_fuel bg]. lia. }
  { reflexivity. }
  exists w1, p, w2, q, w3. split; [exact E1|]. split; [exact E2|]. split.
  - unfold m_Equal. rewrite E3. do 2 f_equal. apply Hb. auto.
  - intros r m Hm. unfold obj. rewrite Hh. apply X2, X1, Hm.
Qed.

(** ** The laws, over a ring *)
Context (HR : ring_ok N).
Lemma laws_ring : ring_theory (n0 (n := N)) n1 nadd nmul nsub nneg eq. Proof. exact HR. Qed.
Add Ring Lring : laws_ring.

Lemma sum_scale l (k : V) F : sum_over l (fun x => nmul k (F x)) = nmul k (sum_over l F).
Proof. induction l as [|x l IH]; [unfold sum_over; cbn; ring|]. rewrite !(sum_cons HR), IH. ring. Qed.
Lemma sum_scale_r l (k : V) F : sum_over l (fun x => nmul (F x) k) = nmul (sum_over l F) k.
Proof. induction l as [|x l IH]; [unfold sum_over; cbn; ring|]. rewrite !(sum_cons HR), IH. ring. Qed.
Lemma sum_zero l : sum_over l (fun _ => n0) = (n0 : V).
Proof. induction l as [|x l IH]; [reflexivity|]. rewrite (sum_cons HR), IH. ring. Qed.
Lemma sum_swap l l' (F : Z -> Z -> V) : sum_over l (fun x => sum_over l' (fun y => F x y)) = sum_over l' (fun y => sum_over l (fun x => F x y)).
Proof.
  induction l as [|x l IH].
  - change (n0 = sum_over l' (fun _ => n0) :> V). rewrite sum_zero. reflexivity.
  - rewrite (sum_cons HR), IH, <- (sum_plus HR). apply sum_ext. intros y _. rewrite (sum_cons HR). reflexivity.
Qed.
Lemma mul_assoc l l' (f : Z -> V) (g : Z -> Z -> V) (h : Z -> V) :
  sum_over l' (fun y => nmul (sum_over l (fun x => nmul (f x) (g x y))) (h y)) =
  sum_over l (fun x => nmul (f x) (sum_over l' (fun y => nmul (g x y) (h y)))).
Proof.
  rewrite (sum_ext l' _ (fun y => sum_over l (fun x => nmul (nmul (f x) (g x y)) (h y)))) by (intros; symmetry; apply sum_scale_r).
  rewrite sum_swap. apply sum_ext. intros x _. rewrite <- sum_scale. apply sum_ext. intros y _. ring.
Qed.

Lemma v_distr_l l (f g h : Z -> V) : sum_over l (fun x => nmul (f x) (nadd (g x) (h x))) =
  nadd (sum_over l (fun x => nmul (f x) (g x))) (sum_over l (fun x => nmul (f x) (h x))).
Proof. rewrite <- (sum_plus HR). apply sum_ext. intros x _. ring. Qed.
Lemma v_distr_r l (f g h : Z -> V) : sum_over l (fun x => nmul (nadd (f x) (g x)) (h x)) =
  nadd (sum_over l (fun x => nmul (f x) (h x))) (sum_over l (fun x => nmul (g x) (h x))).
Proof. rewrite <- (sum_plus HR). apply sum_ext. intros x _. ring. Qed.
Lemma v_distr_sub l (f g h : Z -> V) : sum_over l (fun x => nmul (f x) (nsub (g x) (h x))) =
  nsub (sum_over l (fun x => nmul (f x) (g x))) (sum_over l (fun x => nmul (f x) (h x))).
Proof. rewrite <- (sum_minus HR). apply sum_ext. intros x _. ring. Qed.
Lemma v_tr l (f g : Z -> V) : sum_over l (fun x => nmul (f x) (g x)) = sum_over l (fun x => nmul (g x) (f x)).
Proof. apply sum_ext. intros x _. ring. Qed.
Lemma v_scale_mul l (k : V) (f g : Z -> V) : nmul k (sum_over l (fun x => nmul (f x) (g x))) = sum_over l (fun x => nmul (nmul k (f x)) (g x)).
Proof. rewrite <- sum_scale. apply sum_ext. intros x _. ring. Qed.
Lemma v_mul_scale l (k : V) (f g : Z -> V) : nmul k (sum_over l (fun x => nmul (f x) (g x))) = sum_over l (fun x => nmul (f x) (nmul k (g x))).
Proof. rewrite <- sum_scale. apply sum_ext. intros x _. ring. Qed.
Lemma v_neg_mul l (f g : Z -> V) : nneg (sum_over l (fun x => nmul (f x) (g x))) = sum_over l (fun x => nmul (nneg (f x)) (g x)).
Proof.
  rewrite (sum_ext l (fun x => nmul (nneg (f x)) (g x)) (fun x => nmul (nneg n1) (nmul (f x) (g x)))) by (intros; ring).
  rewrite sum_scale. ring.
Qed.
Lemma v_add_comm (x y : V) : nadd x y = nadd y x. Proof. ring. Qed.
Lemma v_add_assoc (x y z : V) : nadd (nadd x y) z = nadd x (nadd y z). Proof. ring. Qed.
Lemma v_sub_neg (x y : V) : nsub x y = nadd x (nneg y). Proof. ring. Qed.
Lemma v_sub_add (x y : V) : nadd (nsub x y) y = x. Proof. ring. Qed.
Lemma v_neg_neg (x : V) : nneg (nneg x) = x. Proof. ring. Qed.
Lemma v_scale_add (k x y : V) : nmul k (nadd x y) = nadd (nmul k x) (nmul k y). Proof. ring. Qed.
Lemma v_scale_scale (k k' x : V) : nmul k (nmul k' x) = nmul (nmul k k') x. Proof. ring. Qed.
Lemma v_scale_plus (k k' x : V) : nmul (nadd k k') x = nadd (nmul k x) (nmul k' x). Proof. ring. Qed.
Lemma v_scale_one (x : V) : nmul n1 x = x. Proof. ring. Qed.
End Laws.

(** ** Theorems *)
Section Theorems.
Context (N : num).
(** the hypotheses of the laws: dense matrices are not registered as sparse, and all
    matrices have at most [B] cells *)
Definition setting (E : env) (w : world N) (B : Z) : Prop :=
  sane N /\ eq_ok N /\ ring_ok N /\ dense_unregistered N E /\ reachable w /\ B < 2 ^ 63 /\ B <= Z.of_nat (e_fuel E).

Lemma agree_eq E w B e1 e2 R C f g : setting E w B -> means w B e1 R C f -> means w B e2 R C g ->
  (ring_ok N -> forall i j, 0 <= i < R -> 0 <= j < C -> f i j = g i j) -> agree E w e1 e2.
Proof.
  intros (Hs & He & HR & Hreg & Hr & HB & Hf) H1 H2 H. eapply (agree_ok E w B e1 e2 R C f g); eauto; [apply eq_cmp; exact He|].
  intros i j Hi Hj. apply He. apply H; auto.
Qed.
Ltac mean := lazymatch goal with
  | |- means _ _ (EMul _ _) _ _ _ => eapply means_mul; [mean|mean|first [eassumption|lia]]
  | |- means _ _ (EAdd _ _) _ _ _ => eapply means_add; [mean|mean]
  | |- means _ _ (ESub _ _) _ _ _ => eapply means_sub; [mean|mean]
  | |- means _ _ (ENeg _) _ _ _ => eapply means_neg; mean
  | |- means _ _ (ETr _) _ _ _ => eapply means_tr; mean
  | |- means _ _ (EScale _ _) _ _ _ => eapply means_scale; mean
  | |- _ => eassumption
  end.
Ltac law := intros; eapply agree_eq; [eassumption|mean|mean|]; intros HR i j Hi Hj; cbn beta.

Lemma law_assoc E w B a b c R K L C f g h : setting E w B -> means w B a R K f -> means w B b K L g -> means w B c L C h ->
  R * L <= B -> K * C <= B -> R * C <= B -> agree E w (EMul (EMul a b) c) (EMul a (EMul b c)).
Proof. law. apply (mul_assoc HR). Qed.
Lemma law_distr_l E w B a b c R K C f g h : setting E w B -> means w B a R K f -> means w B b K C g -> means w B c K C h ->
  R * C <= B -> agree E w (EMul a (EAdd b c)) (EAdd (EMul a b) (EMul a c)).
Proof. law. apply (v_distr_l HR). Qed.
Lemma law_distr_r E w B a b c R K C f g h : setting E w B -> means w B a R K f -> means w B b R K g -> means w B c K C h ->
  R * C <= B -> agree E w (EMul (EAdd a b) c) (EAdd (EMul a c) (EMul b c)).
Proof. law. apply (v_distr_r HR). Qed.
Lemma law_distr_sub E w B a b c R K C f g h : setting E w B -> means w B a R K f -> means w B b K C g -> means w B c K C h ->
  R * C <= B -> agree E w (EMul a (ESub b c)) (ESub (EMul a b) (EMul a c)).
Proof. law. apply (v_distr_sub HR). Qed.
Lemma law_tr_mul E w B a b R K C f g : setting E w B -> means w B a R K f -> means w B b K C g ->
  R * C <= B -> agree E w (ETr (EMul a b)) (EMul (ETr b) (ETr a)).
Proof.
  intros Hs Ha Hb Hc. eapply agree_eq; [eassumption|eapply means_tr, means_mul; eassumption|eapply means_mul; [apply means_tr; eassumption|apply means_tr; eassumption|lia]|].
  intros HR i j Hi Hj. apply (v_tr HR).
Qed.
Lemma law_scale_mul E w B k a b R K C f g : setting E w B -> means w B a R K f -> means w B b K C g ->
  R * C <= B -> agree E w (EScale k (EMul a b)) (EMul (EScale k a) b).
Proof. law. apply (v_scale_mul HR). Qed.
Lemma law_mul_scale E w B k a b R K C f g : setting E w B -> means w B a R K f -> means w B b K C g ->
  R * C <= B -> agree E w (EScale k (EMul a b)) (EMul a (EScale k b)).
Proof. law. apply (v_mul_scale HR). Qed.
Lemma law_neg_mul E w B a b R K C f g : setting E w B -> means w B a R K f -> means w B b K C g ->
  R * C <= B -> agree E w (ENeg (EMul a b)) (EMul (ENeg a) b).
Proof. law. apply (v_neg_mul HR). Qed.
Lemma law_tr_tr E w B a R C f : setting E w B -> means w B a R C f -> agree E w (ETr (ETr a)) a.
Proof. law. reflexivity. Qed.
Lemma law_tr_add E w B a b R C f g : setting E w B -> means w B a R C f -> means w B b R C g -> agree E w (ETr (EAdd a b)) (EAdd (ETr a) (ETr b)).
Proof. law. reflexivity. Qed.
Lemma law_add_comm E w B a b R C f g : setting E w B -> means w B a R C f -> means w B b R C g -> agree E w (EAdd a b) (EAdd b a).
Proof. law. apply (v_add_comm HR). Qed.
Lemma law_add_assoc E w B a b c R C f g h : setting E w B -> means w B a R C f -> means w B b R C g -> means w B c R C h ->
  agree E w (EAdd (EAdd a b) c) (EAdd a (EAdd b c)).
Proof. law. apply (v_add_assoc HR). Qed.
Lemma law_sub_neg E w B a b R C f g : setting E w B -> means w B a R C f -> means w B b R C g -> agree E w (ESub a b) (EAdd a (ENeg b)).
Proof. law. apply (v_sub_neg HR). Qed.
Lemma law_sub_add E w B a b R C f g : setting E w B -> means w B a R C f -> means w B b R C g -> agree E w (EAdd (ESub a b) b) a.
Proof. law. apply (v_sub_add HR). Qed.
Lemma law_neg_neg E w B a R C f : setting E w B -> means w B a R C f -> agree E w (ENeg (ENeg a)) a.
Proof. law. apply (v_neg_neg HR). Qed.
Lemma law_scale_add E w B k a b R C f g : setting E w B -> means w B a R C f -> means w B b R C g ->
  agree E w (EScale k (EAdd a b)) (EAdd (EScale k a) (EScale k b)).
Proof. law. apply (v_scale_add HR). Qed.
Lemma law_scale_scale E w B k k' a R C f : setting E w B -> means w B a R C f -> agree E w (EScale k (EScale k' a)) (EScale (nmul k k') a).
Proof. law. apply (v_scale_scale HR). Qed.
Lemma law_scale_plus E w B k k' a R C f : setting E w B -> means w B a R C f -> agree E w (EScale (nadd k k') a) (EAdd (EScale k a) (EScale k' a)).
Proof. law. apply (v_scale_plus HR). Qed.
Lemma law_scale_one E w B a R C f : setting E w B -> means w B a R C f -> agree E w (EScale n1 a) a.
Proof. law. apply (v_scale_one HR). Qed.
End Theorems.
Arguments setting {N}.

(** every Go integer type, with the registry the package starts with *)
Lemma ints_setting N E (w : world N) B : In N go_ints -> e_reg E = reg0 -> reachable w -> B < 2 ^ 63 -> B <= Z.of_nat (e_fuel E) -> setting E w B.
Proof.
  intros HN HE Hr HB Hf. split; [apply go_ints_sane; exact HN|]. split; [apply go_ints_eq; exact HN|]. split; [apply go_ints_ring; exact HN|].
  split; [|auto]. intros d _. rewrite HE. apply ints_unregistered. exact HN.
Qed.

(** ** A case, and why not for floats *)
Lemma mathw_setting : setting E0 mathw 16.
Proof. apply ints_setting; [exact goint_int|reflexivity|exact mathw_reachable|reflexivity|vm_compute; discriminate]. Qed.
Lemma mathw_means2 : means mathw 16 (EObj 2) 4 4 (cell_of d4). Proof. econstructor; [exact k2|exact z2|lia]. Qed.
Lemma mathw_means3 : means mathw 16 (EObj 3) 4 4 (cell_of d4'). Proof. econstructor; [exact k3|exact z3|lia]. Qed.

(** float64: (2^53 + 1) + 1 is 2^53, 2^53 + (1 + 1) is 2^53 + 2 *)
Definition fbig : list (list (T num_float64)) := [[fl 9007199254740992]].
Definition fone : list (list (T num_float64)) := [[fl 1]].
Definition lawsw : world num_float64 := after_all [KDenseFrom fbig; KDenseFrom fone] empty_world.
Lemma lawsw_reachable : reachable lawsw. Proof. unfold lawsw, fbig, fone. reach_ops. Qed.
Lemma lw0 : obj lawsw 0 (MDM (MkDense 1 1 fbig)). Proof. at_obj. Qed.
Lemma lw1 : obj lawsw 1 (MDM (MkDense 1 1 fone)). Proof. at_obj. Qed.
Lemma lz0 : denotes (MDM (MkDense 1 1 fbig)) 1 1 (cell_of fbig).
Proof. apply (denotes_tab lawsw _ _ _ _ _ float64_sane lawsw_reachable lw0 eq_refl eq_refl); vm_compute; reflexivity. Qed.
Lemma lz1 : denotes (MDM (MkDense 1 1 fone)) 1 1 (cell_of fone).
Proof. apply (denotes_tab lawsw _ _ _ _ _ float64_sane lawsw_reachable lw1 eq_refl eq_refl); vm_compute; reflexivity. Qed.

(** what the comparison of the results of two programs says *)
Definition compared {N} (E : env) (w : world N) (e1 e2 : expr N) : res bool :=
  snd ((let! p := eval E e1 in let! q := eval E e2 in m_Equal E p (Some q)) w).
Lemma compared_agree {N} E (w : world N) e1 e2 : agree E w e1 e2 -> compared E w e1 e2 = Ok true.
Proof. intros (w1 & p & w2 & q & w3 & E1 & E2 & E3 & _). unfold compared. rewrite (mbind_ok _ _ _ _ _ E1), (mbind_ok _ _ _ _ _ E2), E3. reflexivity. Qed.

Lemma float_laws_no :
  ~ (forall E (w : world num_float64) B a b c R C f g h,
      e_reg E = reg0 -> reachable w -> B < 2 ^ 63 -> B <= Z.of_nat (e_fuel E) ->
      means w B a R C f -> means w B b R C g -> means w B c R C h ->
      agree E w (EAdd (EAdd a b) c) (EAdd a (EAdd b c))).
Proof.
  intros H.
  assert (A : agree E0 lawsw (EAdd (EAdd (EObj 0) (EObj 1)) (EObj 1)) (EAdd (EObj 0) (EAdd (EObj 1) (EObj 1)))).
  { eapply (H E0 lawsw 1); [reflexivity|exact lawsw_reachable|reflexivity|vm_compute; discriminate| | |]; econstructor;
      [exact lw0|exact lz0|lia|exact lw1|exact lz1|lia|exact lw1|exact lz1|lia]. }
  apply compared_agree in A.
  assert (F : compared E0 lawsw (EAdd (EAdd (EObj 0) (EObj 1)) (EObj 1)) (EAdd (EObj 0) (EAdd (EObj 1) (EObj 1))) = Ok false) by (vm_compute; reflexivity).
  rewrite A in F. discriminate F.
Qed.
