(** Strassen multiplication (math/strassen). *)
From Coq Require Import String Ring Permutation.
From Verif Require Import GoBase Num SparseVec Csr Csc DenseVec DenseMat Mat World Ops Api MathOps.
From Verif Require Import BaseProofs CsrProofs SvProofs DenseProofs MatProofs Spec HeapProofs ReachProofs StoreProofs VecProofs StoreThms OpsProofs OpsThms EwThms EqThms MethThms OpsProps Steps RrefProofs.

(** ** Specification *)

(** the indices that take part in the product: a matrix of size [n] above the
    crossover is cut into blocks of size [n / 2], which drops the last index when
    [n] is odd, and the blocks are treated alike *)
Fixpoint survivors (k : nat) (crossover n : Z) : list Z :=
  if n <=? crossover then zrange 0 n
  else match k with
       | O => []
       | Datatypes.S k' => let l := survivors k' crossover (n / 2) in l ++ map (fun i => i + n / 2) l
       end.

Definition pick (l : list Z) (i : Z) : Z := nth (Z.to_nat i) l 0.

Section StrassenSpec.
Context {N : num}.
Notation V := (T N).
(** the sum of [F x] for [x] in [l] *)
Definition sum_over (l : list Z) (F : Z -> V) : V := fold_left (fun s x => nadd s (F x)) l n0.

(** the product of the matrices restricted to the rows and columns in [l] *)
Definition product_over (l : list Z) (f g : Z -> Z -> V) (i j : Z) : V :=
  sum_over l (fun x => nmul (f (pick l i) x) (g x (pick l j))).
End StrassenSpec.

Section Strassen.
Context {N : num}.
Notation V := (T N).
Notation mat := (mat N).
Notation world := (world N).
Implicit Types w : world.
Implicit Types p q : ptr.

(** [p] is a dense [R] x [C] matrix with content [f] *)
Definition dm w p (R C : Z) (f : Z -> Z -> V) : Prop := exists d, obj w p (MDM d) /\ denotes (MDM d) R C f.

Lemma dm_mono w w' p R C f : extends w w' -> dm w p R C f -> dm w' p R C f.
Proof. intros Hx (d & Ho & Hd). exists d. auto. Qed.
Lemma dm_ext w p R C f g : dm w p R C f -> (forall i j, 0 <= i < R -> 0 <= j < C -> f i j = g i j) -> dm w p R C g.
Proof. intros (d & Ho & Hd) H. exists d. split; [exact Ho|]. eapply denotes_change; eauto. Qed.

Lemma new_dense_ok w R C : reachable w -> 0 <= R -> 0 <= C -> R * C < 2 ^ 63 ->
  exists w', new_dense R C w = (w', Ok (length (w_heap w))) /\ reachable w' /\ extends w w' /\
    length (w_heap w') = Datatypes.S (length (w_heap w)) /\ dm w' (length (w_heap w)) R C (fun _ _ => n0).
Proof.
  intros Hr HR HC HB. unfold new_dense.
  assert (E : new_dense R C w = (ext w (MDM (mk_dm R C (fun _ _ => n0))), Ok (length (w_heap w)))).
  { unfold new_dense. rewrite newMatrix_spec by auto. reflexivity. }
  exists (ext w (MDM (mk_dm R C (fun _ _ => n0)))). split; [exact E|]. split.
  { replace (ext w (MDM (mk_dm R C (fun _ _ => n0)))) with (after (KNewDense R C) w); [apply reach_call; [exact Hr|cbn; auto]|].
    unfold after, perform. rewrite newMatrix_spec by auto. reflexivity. }
  split; [apply extends_ext|]. split; [unfold ext; cbn; rewrite app_length; cbn; lia|].
  eexists. split; [apply obj_ext_new|]. split; [reflexivity|]. split; [reflexivity|].
  intros i j Hi Hj. cbn [mat_At]. rewrite dm_At_spec by auto. reflexivity.
Qed.

Lemma dm_Set w p R C f r c v : sane N -> reachable w -> dm w p R C f -> 0 <= r < R -> 0 <= c < C ->
  exists w', p_Set p r c v w = (w', Ok tt) /\ reachable w' /\ extends_but p w w' /\ dm w' p R C (put f r c v).
Proof.
  intros Hs Hr (d & Ho & Hd) Hrr Hc.
  destruct (step_Set w p (MDM d) R C f r c v Hs Hr Ho Logic.I Hd Hrr Hc) as (w' & m' & E & A & X & O' & S' & D').
  exists w'. split; [exact E|]. split; [exact A|]. split; [exact X|]. destruct m'; try contradiction. eexists. split; [exact O'|exact D'].
Qed.

Lemma dm_Add E w p q R C f g : sane N -> reachable w -> dm w p R C f -> dm w q R C g ->
  (forall d : mat, is_dense d -> IsSparseMatrix (e_reg E) d = false) -> R * C <= Z.of_nat (e_fuel E) ->
  exists w' t, m_Add E p q w = (w', Ok t) /\ reachable w' /\ extends w w' /\ dm w' t R C (fun i j => nadd (f i j) (g i j)).
Proof.
  intros Hs Hr (d & Ho & Hd) (d' & Ho' & Hd') Hreg Hf.
  destruct (add_dense E w p q _ _ R C f g Hs Hr Ho Ho' Logic.I Logic.I Hd Hd' (Hreg (MDM d) Logic.I) Hf) as (w' & t & O' & E1 & _ & X & O1 & S1 & D1).
  exists w', t. split; [exact E1|]. split; [eapply (reach_drop w (m_Add E p q) (KMAdd E p q)); eauto; exact Logic.I|]. split; [exact X|].
  destruct O'; try contradiction. eexists. split; [exact O1|exact D1].
Qed.
Lemma dm_Subtract E w p q R C f g : sane N -> reachable w -> dm w p R C f -> dm w q R C g -> R * C <= Z.of_nat (e_fuel E) ->
  exists w' t, m_Subtract E p q w = (w', Ok t) /\ reachable w' /\ extends w w' /\ dm w' t R C (fun i j => nsub (f i j) (g i j)).
Proof.
  intros Hs Hr (d & Ho & Hd) (d' & Ho' & Hd') Hf.
  destruct (sub_dense E w p q _ _ R C f g Hs Hr Ho Ho' Logic.I Logic.I Hd Hd' Hf) as (w' & t & O' & E1 & _ & X & O1 & S1 & D1).
  exists w', t. split; [exact E1|]. split; [eapply (reach_drop w (m_Subtract E p q) (KMSubtract E p q)); eauto; exact Logic.I|]. split; [exact X|].
  destruct O'; try contradiction. eexists. split; [exact O1|exact D1].
Qed.

(** ** Loops that copy cells *)
Record copying : Type := MkCopying { c_dst : ptr; c_src : ptr; c_sr : Z -> Z; c_sc : Z -> Z; c_dr : Z -> Z; c_dc : Z -> Z }.

Definition copy_one (e : copying) (r c : Z) : M N unit := copy_cell (c_dst e) (c_src e) (c_sr e r) (c_sc e c) (c_dr e r) (c_dc e c).
Fixpoint copies (l : list copying) (r c : Z) : M N unit :=
  match l with
  | [] => mret tt
  | [e] => copy_one e r c
  | e :: rest => mbind (copy_one e r c) (fun _ => copies rest r c)
  end.
Lemma copies_cons e l r c w : copies (e :: l) r c w = mbind (copy_one e r c) (fun _ => copies l r c) w.
Proof.
  destruct l; [|reflexivity]. cbn [copies]. unfold mbind. destruct (copy_one e r c w) as [w1 [[]| |]]; reflexivity.
Qed.

Section CopyGrid.
Context (Hs : sane N) (w0 : world) (D : list ptr) (dim : ptr -> Z * Z) (Tg : ptr -> Z -> Z -> V) (rows cols : Z) (L : list copying).
Context (HD : forall d x, In d D -> ~ obj w0 d x).
(** every copying reads an object outside [D] and writes what [Tg] says *)
Context (HL : forall e, In e L -> In (c_dst e) D /\ exists m R C f, obj w0 (c_src e) m /\ denotes m R C f /\
  (forall r c, 0 <= r < rows -> 0 <= c < cols ->
     0 <= c_sr e r < R /\ 0 <= c_sc e c < C /\ 0 <= c_dr e r < fst (dim (c_dst e)) /\ 0 <= c_dc e c < snd (dim (c_dst e)) /\
     Tg (c_dst e) (c_dr e r) (c_dc e c) = f (c_sr e r) (c_sc e c))).

Definition filled (P : copying -> Z -> Z -> Prop) w : Prop :=
  reachable w /\ (forall q x, ~ In q D -> obj w0 q x -> obj w q x) /\
  forall d, In d D -> exists f, dm w d (fst (dim d)) (snd (dim d)) f /\
    (forall e r c, In e L -> c_dst e = d -> P e r c -> f (c_dr e r) (c_dc e c) = Tg d (c_dr e r) (c_dc e c)).

Lemma filled_weaken (P Q : copying -> Z -> Z -> Prop) w : filled P w -> (forall e r c, In e L -> Q e r c -> P e r c) -> filled Q w.
Proof. intros (A & B & F) H. split; [exact A|]. split; [exact B|]. intros d Hd. destruct (F d Hd) as (f & D1 & D2). exists f. split; [exact D1|]. intros e r c He Hed HQ. apply D2; auto. Qed.

Lemma copy_one_ok P w e r c : filled P w -> In e L -> 0 <= r < rows -> 0 <= c < cols ->
  exists w', copy_one e r c w = (w', Ok tt) /\ filled (fun e' r' c' => P e' r' c' \/ (e' = e /\ r' = r /\ c' = c)) w'.
Proof.
  intros (Hr & Hx & HF) He Hrr Hcc. destruct (HL e He) as (Hdst & m & R & C & f & Ho & Hd & HI). destruct (HI r c Hrr Hcc) as (I1 & I2 & I3 & I4 & I5).
  unfold copy_one, copy_cell. assert (Hns : ~ In (c_src e) D) by (intros Hin; apply (HD _ m Hin); exact Ho).
  rewrite (mbind_ok _ _ _ _ _ (step_At w (c_src e) m R C f _ _ (Hx _ _ Hns Ho) Hd I1 I2)).
  destruct (HF _ Hdst) as (g & Dg & Pg).
  destruct (dm_Set w (c_dst e) _ _ g (c_dr e r) (c_dc e c) (f (c_sr e r) (c_sc e c)) Hs Hr Dg I3 I4) as (w1 & E1 & Hr1 & X1 & D1).
  exists w1. split; [exact E1|]. split; [exact Hr1|]. split.
  - intros q x Hq Hqo. apply X1; [intros ->; auto|]. apply Hx; auto.
  - intros d Hdd. destruct (Nat.eq_dec d (c_dst e)) as [->|Hne].
    + exists (put g (c_dr e r) (c_dc e c) (f (c_sr e r) (c_sc e c))). split; [exact D1|].
      intros e' r' c' He' Hed HP. unfold put. destruct ((c_dr e' r' =? c_dr e r) && (c_dc e' c' =? c_dc e c)) eqn:E.
      * apply andb_true_iff in E. destruct E as [Ea Eb]. apply Z.eqb_eq in Ea, Eb. rewrite Ea, Eb. symmetry. exact I5.
      * destruct HP as [HP|(-> & -> & ->)]; [apply Pg; auto|]. rewrite !Z.eqb_refl in E. discriminate.
    + destruct (HF d Hdd) as (h & (dd & Oh & Dh) & Ph). exists h. split; [exists dd; split; [apply X1; auto|exact Dh]|].
      intros e' r' c' He' Hed [HP|(-> & _)]; [apply Ph; auto|congruence].
Qed.

Lemma copies_ok r c : 0 <= r < rows -> 0 <= c < cols -> forall l P w, filled P w -> incl l L ->
  exists w', copies l r c w = (w', Ok tt) /\ filled (fun e' r' c' => P e' r' c' \/ (In e' l /\ r' = r /\ c' = c)) w'.
Proof.
  intros Hr Hc. induction l as [|e l IH]; intros P w Hf Hl.
  - exists w. split; [reflexivity|]. eapply filled_weaken; [exact Hf|]. intros e r' c' _ [H|([] & _)]. exact H.
  - rewrite copies_cons. destruct (copy_one_ok P w e r c Hf (Hl e (or_introl eq_refl)) Hr Hc) as (w1 & E1 & F1).
    rewrite (mbind_ok _ _ _ _ _ E1). destruct (IH _ w1 F1) as (w2 & E2 & F2); [intros x Hx; apply Hl; right; exact Hx|].
    exists w2. split; [exact E2|]. eapply filled_weaken; [exact F2|]. intros e' r' c' _ [H|([->|H] & -> & ->)]; tauto.
Qed.

Lemma grid_ok E w : e_ctx E = None -> 0 <= rows -> 0 <= cols -> filled (fun _ _ _ => False) w ->
  exists w', grid E rows cols (copies L) w = (w', Ok tt) /\ filled (fun e r c => 0 <= r < rows /\ 0 <= c < cols) w'.
Proof.
  intros Hc HR HC Hf. unfold grid.
  match goal with |- context [for_list _ ?b] => destruct (for_range (R := unit) 0 rows b (fun n => filled (fun e r c => 0 <= r < n /\ 0 <= c < cols))) with (w := w) as (w' & E1 & F1) end.
  - exact HR.
  - intros r w1 Hr F1.
    match goal with |- context [for_list _ ?b] => destruct (for_range (R := unit) 0 cols b (fun n => filled (fun e r' c => (0 <= r' < r /\ 0 <= c < cols) \/ (r' = r /\ 0 <= c < n)))) with (w := w1) as (w2 & E2 & F2) end.
    + exact HC.
    + intros c w2 Hcc F2. destruct (poll_heap E w2) as (w3 & b & Ep & _ & Hb). destruct (Hb Hc) as [-> ->]. rewrite (mbind_ok _ _ _ _ _ Ep).
      destruct (copies_ok r c Hr Hcc L _ w2 F2 (incl_refl L)) as (w4 & E4 & F4). rewrite (mbind_ok _ _ _ _ _ E4).
      exists w4. split; [reflexivity|]. eapply filled_weaken; [exact F4|]. intros e r' c' He H.
      destruct (Z.eq_dec r' r), (Z.eq_dec c' c); [right; auto|left; lia|left; lia|left; lia].
    + eapply filled_weaken; [exact F1|]. intros e r' c' _ H. cbn beta in *. lia.
    + exists w2. split; [exact E2|]. eapply filled_weaken; [exact F2|]. intros e r' c' _ H. cbn beta in *. lia.
  - eapply filled_weaken; [exact Hf|]. intros e r c _ H. cbn beta in *. lia.
  - rewrite (mbind_ok _ _ _ _ _ E1). exists w'. split; [reflexivity|]. exact F1.
Qed.

(** every cell is written *)
Context (Hcov : forall d i j, In d D -> 0 <= i < fst (dim d) -> 0 <= j < snd (dim d) ->
  exists e r c, In e L /\ c_dst e = d /\ 0 <= r < rows /\ 0 <= c < cols /\ c_dr e r = i /\ c_dc e c = j).

Lemma copy_grid E w : e_ctx E = None -> 0 <= rows -> 0 <= cols -> reachable w -> (forall q x, ~ In q D -> obj w0 q x -> obj w q x) ->
  (forall d, In d D -> exists f, dm w d (fst (dim d)) (snd (dim d)) f) ->
  exists w', grid E rows cols (copies L) w = (w', Ok tt) /\ reachable w' /\ extends w0 w' /\
    forall d, In d D -> dm w' d (fst (dim d)) (snd (dim d)) (Tg d).
Proof.
  intros Hc HR HC Hr Hx Hd. destruct (grid_ok E w Hc HR HC) as (w' & E1 & (A & B & F)).
  { split; [exact Hr|]. split; [exact Hx|]. intros d Hdd. destruct (Hd d Hdd) as (f & Df). exists f. split; [exact Df|]. intros; contradiction. }
  exists w'. split; [exact E1|]. split; [exact A|]. split.
  { intros q x Hq. apply B; [|exact Hq]. intros Hin. apply (HD q x Hin Hq). }
  intros d Hdd. destruct (F d Hdd) as (f & Df & Pf). eapply dm_ext; [exact Df|]. intros i j Hi Hj.
  destruct (Hcov d i j Hdd Hi Hj) as (e & r & c & He & Hed & Hr' & Hc' & <- & <-). apply Pf; auto.
Qed.
End CopyGrid.

(** ** Sums over a ring *)
Section Ring.
Context (HR : ring_ok N).
Lemma values_ring : ring_theory (n0 (n := N)) n1 nadd nmul nsub nneg eq. Proof. exact HR. Qed.
Add Ring Vring : values_ring.

Lemma sum_acc_over l (F : Z -> V) acc : fold_left (fun s x => nadd s (F x)) l acc = nadd acc (sum_over l F).
Proof.
  unfold sum_over. revert acc. induction l as [|x l IH]; intros acc; cbn [fold_left]; [ring|].
  rewrite IH, (IH (nadd n0 (F x))). ring.
Qed.
Lemma sum_app l l' (F : Z -> V) : sum_over (l ++ l') F = nadd (sum_over l F) (sum_over l' F).
Proof. unfold sum_over at 1. rewrite fold_left_app. apply sum_acc_over. Qed.
Lemma sum_map l (h : Z -> Z) (F : Z -> V) : sum_over (map h l) F = sum_over l (fun x => F (h x)).
Proof. unfold sum_over. generalize (n0 (n := N)). induction l as [|x l IH]; intros a; cbn; auto. Qed.
Lemma sum_ext l (F G : Z -> V) : (forall x, In x l -> F x = G x) -> sum_over l F = sum_over l G.
Proof.
  unfold sum_over. generalize (n0 (n := N)). induction l as [|x l IH]; intros a H; cbn; auto.
  rewrite (H x (or_introl eq_refl)). apply IH. intros y Hy. apply H. right. exact Hy.
Qed.
Lemma sum_cons x l (F : Z -> V) : sum_over (x :: l) F = nadd (F x) (sum_over l F).
Proof. unfold sum_over at 1. cbn [fold_left]. rewrite sum_acc_over. ring. Qed.
Lemma sum_plus l (F G : Z -> V) : sum_over l (fun x => nadd (F x) (G x)) = nadd (sum_over l F) (sum_over l G).
Proof. induction l as [|x l IH]; [unfold sum_over; cbn; ring|]. rewrite !sum_cons, IH. ring. Qed.
Lemma sum_minus l (F G : Z -> V) : sum_over l (fun x => nsub (F x) (G x)) = nsub (sum_over l F) (sum_over l G).
Proof. induction l as [|x l IH]; [unfold sum_over; cbn; ring|]. rewrite !sum_cons, IH. ring. Qed.

Lemma pick_app1 l l' i : 0 <= i < zlen l -> pick (l ++ l') i = pick l i.
Proof. intros H. unfold pick. apply app_nth1. unfold zlen in *. lia. Qed.
Lemma pick_app2 l h i : zlen l <= i < 2 * zlen l -> pick (l ++ map h l) i = h (pick l (i - zlen l)).
Proof.
  intros H. unfold pick. rewrite app_nth2 by (unfold zlen in *; lia). replace (Z.to_nat i - length l)%nat with (Z.to_nat (i - zlen l)) by (unfold zlen in *; lia).
  rewrite (nth_indep _ 0 (h 0)) by (rewrite map_length; unfold zlen in *; lia). apply map_nth.
Qed.

(** the seven products put together *)
Section Blocks.
Context (l : list Z) (size : Z) (f g : Z -> Z -> V).
Let a11 i j := f i j.
Let a12 i j := f i (j + size).
Let a21 i j := f (i + size) j.
Let a22 i j := f (i + size) (j + size).
Let b11 i j := g i j.
Let b12 i j := g i (j + size).
Let b21 i j := g (i + size) j.
Let b22 i j := g (i + size) (j + size).
Let P := product_over (N := N) l.
Let plus (x y : Z -> Z -> V) i j := nadd (x i j) (y i j).
Let minus (x y : Z -> Z -> V) i j := nsub (x i j) (y i j).
Let m1 := P (plus a11 a22) (plus b11 b22).
Let m2 := P (plus a21 a22) b11.
Let m3 := P a11 (minus b12 b22).
Let m4 := P a22 (minus b21 b11).
Let m5 := P (plus a11 a12) b22.
Let m6 := P (minus a21 a11) (plus b11 b12).
Let m7 := P (minus a12 a22) (plus b21 b22).
Let K := zlen l.
Let l2 := l ++ map (fun i => i + size) l.

Ltac blocks := unfold P, product_over, plus, minus, a11, a12, a21, a22, b11, b12, b21, b22;
  repeat first [rewrite <- sum_plus | rewrite <- sum_minus]; apply sum_ext; intros x _; cbn beta; fold K; ring.

Lemma blocks_product i j : 0 <= i < 2 * K -> 0 <= j < 2 * K ->
  (if i <? K then if j <? K then plus (minus (plus m1 m4) m5) m7 i j else plus m3 m5 i (j - K)
   else if j <? K then plus m2 m4 (i - K) j else plus (plus (minus m1 m2) m3) m6 (i - K) (j - K)) =
  product_over l2 f g i j.
Proof.
  intros Hi Hj. unfold product_over at 1. unfold l2. rewrite sum_app, sum_map.
  destruct (i <? K) eqn:Ei, (j <? K) eqn:Ej; first [rewrite (pick_app1 l _ i) by (unfold K in *; lia)|rewrite (pick_app2 l _ i) by (unfold K in *; lia)];
    first [rewrite (pick_app1 l _ j) by (unfold K in *; lia)|rewrite (pick_app2 l _ j) by (unfold K in *; lia)]; unfold m1, m2, m3, m4, m5, m6, m7.
  - blocks.
  - blocks.
  - blocks.
  - blocks.
Qed.
End Blocks.

(** ** One level of the recursion *)
Section Level.
Context (E : env) (Hctx : e_ctx E = None) (Hreg : forall d : mat, is_dense d -> IsSparseMatrix (e_reg E) d = false).
Context (Hs : sane N) (sched : list Z -> list Z) (crossover : Z).

Lemma gather_ok (run : Z -> M N ptr) K (F : Z -> Z -> Z -> V) w0 : forall order,
  (forall i w, In i order -> reachable w -> extends w0 w -> exists w' t, run i w = (w', Ok t) /\ reachable w' /\ extends w w' /\ dm w' t K K (F i)) ->
  forall w, reachable w -> extends w0 w ->
  exists w' l, gather run order w = (w', Ok l) /\ reachable w' /\ extends w w' /\
    (forall i, In i order -> exists p, (forall w, received i l w = (w, Ok p)) /\ dm w' p K K (F i)).
Proof.
  induction order as [|i order IH]; intros Hrun w Hr Hx.
  - exists w, []. split; [reflexivity|]. split; [exact Hr|]. split; [apply extends_refl|]. intros i [].
  - cbn [gather]. destruct (Hrun i w (or_introl eq_refl) Hr Hx) as (w1 & t & E1 & Hr1 & Hx1 & D1). rewrite (mbind_ok _ _ _ _ _ E1).
    destruct (IH (fun j w' Hj => Hrun j w' (or_intror Hj)) w1 Hr1 (extends_trans _ _ _ Hx Hx1)) as (w2 & l & E2 & Hr2 & Hx2 & D2).
    fold (gather run). rewrite (mbind_ok _ _ _ _ _ E2). exists w2, ((i, t) :: l). split; [reflexivity|]. split; [exact Hr2|]. split; [eapply extends_trans; eauto|].
    intros j Hj. cbn [received]. destruct (Z.eq_dec i j) as [->|Hne].
    + exists t. rewrite Z.eqb_refl. split; [reflexivity|]. eapply dm_mono; eauto.
    + destruct Hj as [->|Hj]; [congruence|]. destruct (D2 j Hj) as (p & Hp & Dp). exists p. replace (i =? j) with false by lia. auto.
Qed.

(** [sub fuel] multiplies dense [size] x [size] matrices *)
Definition multiplies (fuel : nat) (path : list Z) (size : Z) (l : list Z) : Prop :=
  forall i w x y f g, reachable w -> dm w x size size f -> dm w y size size g ->
    exists w' t, strassen fuel E sched (i :: path) x y crossover w = (w', Ok t) /\ reachable w' /\ extends w w' /\
      dm w' t (zlen l) (zlen l) (product_over l f g).

Ltac move_on X := match type of X with extends ?u ?v =>
  repeat match goal with H : dm u _ _ _ _ |- _ => apply (dm_mono u v _ _ _ _ X) in H end;
  match goal with H : extends _ u |- _ => apply (fun H' => extends_trans _ _ _ H' X) in H end; clear X end.
Ltac add_step D D' HF M := match goal with Hr : reachable ?w |- _ =>
  let E1 := fresh in let R1 := fresh in let X1 := fresh in
  destruct (dm_Add E w _ _ _ _ _ _ Hs Hr D D' Hreg HF) as (? & ? & E1 & R1 & X1 & M); rewrite (mbind_ok _ _ _ _ _ E1); clear E1 Hr; move_on X1; cbn beta in M end.
Ltac sub_step D D' HF M := match goal with Hr : reachable ?w |- _ =>
  let E1 := fresh in let R1 := fresh in let X1 := fresh in
  destruct (dm_Subtract E w _ _ _ _ _ _ Hs Hr D D' HF) as (? & ? & E1 & R1 & X1 & M); rewrite (mbind_ok _ _ _ _ _ E1); clear E1 Hr; move_on X1; cbn beta in M end.

(** the operands of the sub-products *)
Definition left_of (size : Z) (f : Z -> Z -> V) (i : Z) : Z -> Z -> V :=
  if i =? 1 then (fun i j => nadd (f i j) (f (i + size) (j + size)))
  else if i =? 2 then (fun i j => nadd (f (i + size) j) (f (i + size) (j + size)))
  else if i =? 3 then (fun i j => f i j)
  else if i =? 4 then (fun i j => f (i + size) (j + size))
  else if i =? 5 then (fun i j => nadd (f i j) (f i (j + size)))
  else if i =? 6 then (fun i j => nsub (f (i + size) j) (f i j))
  else (fun i j => nsub (f i (j + size)) (f (i + size) (j + size))).
Definition right_of (size : Z) (g : Z -> Z -> V) (i : Z) : Z -> Z -> V :=
  if i =? 1 then (fun i j => nadd (g i j) (g (i + size) (j + size)))
  else if i =? 2 then (fun i j => g i j)
  else if i =? 3 then (fun i j => nsub (g i (j + size)) (g (i + size) (j + size)))
  else if i =? 4 then (fun i j => nsub (g (i + size) j) (g i j))
  else if i =? 5 then (fun i j => g (i + size) (j + size))
  else if i =? 6 then (fun i j => nadd (g i j) (g i (j + size)))
  else (fun i j => nadd (g (i + size) j) (g (i + size) (j + size))).

Lemma operands_ok size w a b A B R Q Q' C f g :
  0 <= size -> size * size < 2 ^ 63 -> size * size <= Z.of_nat (e_fuel E) ->
  reachable w -> obj w a A -> obj w b B -> denotes A R Q f -> denotes B Q' C g -> 2 * size <= R -> 2 * size <= Q -> 2 * size <= Q' -> 2 * size <= C ->
  exists w' ops, operands E size a b w = (w', Ok ops) /\ reachable w' /\ extends w w' /\
    forall i, dm w' (fst (ops i)) size size (left_of size f i) /\ dm w' (snd (ops i)) size size (right_of size g i).
Proof.
  intros Hsz HSS HSF Hr Ha Hb Da Db HRR HQQ HQQ' HCC. unfold operands.
  set (k := length (w_heap w)).
  destruct (new_dense_ok w size size Hr Hsz Hsz HSS) as (w1 & E1 & R1 & X1 & L1 & M1).
  destruct (new_dense_ok w1 size size R1 Hsz Hsz HSS) as (w2 & E2 & R2 & X2 & L2 & M2).
  destruct (new_dense_ok w2 size size R2 Hsz Hsz HSS) as (w3 & E3 & R3 & X3 & L3 & M3).
  destruct (new_dense_ok w3 size size R3 Hsz Hsz HSS) as (w4 & E4 & R4 & X4 & L4 & M4).
  destruct (new_dense_ok w4 size size R4 Hsz Hsz HSS) as (w5 & E5 & R5 & X5 & L5 & M5).
  destruct (new_dense_ok w5 size size R5 Hsz Hsz HSS) as (w6 & E6 & R6 & X6 & L6 & M6).
  destruct (new_dense_ok w6 size size R6 Hsz Hsz HSS) as (w7 & E7 & R7 & X7 & L7 & M7).
  destruct (new_dense_ok w7 size size R7 Hsz Hsz HSS) as (w8 & E8 & R8 & X8 & L8 & M8).
  rewrite (mbind_ok _ _ _ _ _ E1), (mbind_ok _ _ _ _ _ E2), (mbind_ok _ _ _ _ _ E3), (mbind_ok _ _ _ _ _ E4),
    (mbind_ok _ _ _ _ _ E5), (mbind_ok _ _ _ _ _ E6), (mbind_ok _ _ _ _ _ E7), (mbind_ok _ _ _ _ _ E8).
  rewrite L7, L6, L5, L4, L3, L2, L1 in M8. rewrite L6, L5, L4, L3, L2, L1 in M7. rewrite L5, L4, L3, L2, L1 in M6. rewrite L4, L3, L2, L1 in M5.
  rewrite L3, L2, L1 in M4. rewrite L2, L1 in M3. rewrite L1 in M2. rewrite L7, L6, L5, L4, L3, L2, L1. fold k in M1, M2, M3, M4, M5, M6, M7, M8 |- *.
  clear E1 E2 E3 E4 E5 E6 E7 E8 L2 L3 L4 L5 L6 L7 L8 L1.
  pose (idx := fun r : Z => r). pose (sh := fun r : Z => r + size).
  pose (cs := [MkCopying k a idx idx idx idx; MkCopying (1 + k) a idx sh idx idx; MkCopying (2 + k) a sh idx idx idx; MkCopying (3 + k) a sh sh idx idx;
               MkCopying (4 + k) b idx idx idx idx; MkCopying (5 + k) b idx sh idx idx; MkCopying (6 + k) b sh idx idx idx; MkCopying (7 + k) b sh sh idx idx]).
  pose (Tg := fun d => nth (d - k) [(fun i j => f i j); (fun i j => f i (j + size)); (fun i j => f (i + size) j); (fun i j => f (i + size) (j + size));
               (fun i j => g i j); (fun i j => g i (j + size)); (fun i j => g (i + size) j); (fun i j => g (i + size) (j + size))] (fun _ _ => n0)).
  assert (Hnew : forall d x, (k <= d)%nat -> ~ obj w d x) by (intros d x Hd Ho; apply obj_lt in Ho; unfold k in Hd; lia).
  destruct (copy_grid Hs w (map (fun m => (m + k)%nat) [0; 1; 2; 3; 4; 5; 6; 7]%nat) (fun _ => (size, size)) Tg size size cs) with (E := E) (w := w8) as (w9 & E9 & R9 & X9 & M9).
  { intros d x Hd. apply Hnew. apply in_map_iff in Hd. destruct Hd as (m & <- & _). lia. }
  { intros e He.
    unfold cs in He. cbn [In] in He.
    repeat (destruct He as [<-|He]); [..|contradiction]; cbn [c_dst c_src c_sr c_sc c_dr c_dc fst snd].
    all: split; [cbn [In map]; tauto|].
    all: first [exists A, R, Q, f; split; [exact Ha|]; split; [exact Da|] | exists B, Q', C, g; split; [exact Hb|]; split; [exact Db|]].
    all: intros r c Hr' Hc'; unfold Tg, idx, sh.
    all: do 4 (split; [lia|]).
    all: match goal with |- context [nth (?d - ?kk) _ _] => first [replace (d - kk)%nat with 0%nat by lia|replace (d - kk)%nat with 1%nat by lia
      |replace (d - kk)%nat with 2%nat by lia|replace (d - kk)%nat with 3%nat by lia|replace (d - kk)%nat with 4%nat by lia|replace (d - kk)%nat with 5%nat by lia
      |replace (d - kk)%nat with 6%nat by lia|replace (d - kk)%nat with 7%nat by lia] end.
    all: reflexivity. }
  { intros d i j Hd Hi Hj. cbn [fst snd] in Hi, Hj. cbn [map In] in Hd.
    repeat (destruct Hd as [<-|Hd]); [..|contradiction].
    all: match (eval unfold cs in cs) with [?e0; ?e1; ?e2; ?e3; ?e4; ?e5; ?e6; ?e7] =>
      first [exists e0, i, j; split; [unfold cs; cbn [In]; tauto|]; split; [reflexivity|]|exists e1, i, j; split; [unfold cs; cbn [In]; tauto|]; split; [reflexivity|]
            |exists e2, i, j; split; [unfold cs; cbn [In]; tauto|]; split; [reflexivity|]|exists e3, i, j; split; [unfold cs; cbn [In]; tauto|]; split; [reflexivity|]
            |exists e4, i, j; split; [unfold cs; cbn [In]; tauto|]; split; [reflexivity|]|exists e5, i, j; split; [unfold cs; cbn [In]; tauto|]; split; [reflexivity|]
            |exists e6, i, j; split; [unfold cs; cbn [In]; tauto|]; split; [reflexivity|]|exists e7, i, j; split; [unfold cs; cbn [In]; tauto|]; split; [reflexivity|]] end.
    all: split; [exact Hi|]; split; [exact Hj|]; split; reflexivity. }
  { exact Hctx. } { exact Hsz. } { exact Hsz. } { exact R8. }
  { intros q x _ Hq. auto 10. }
  { intros d Hd. cbn [fst snd]. cbn [map In] in Hd. exists (fun _ _ => n0).
    repeat (destruct Hd as [<-|Hd]); [..|contradiction]; eauto 10 using dm_mono. }
  assert (EG : grid E size size (fun r c =>
            mbind (copy_cell k a r c r c) (fun _ => 
            mbind (copy_cell (1 + k) a r (c + size) r c) (fun _ =>
            mbind (copy_cell (2 + k) a (r + size) c r c) (fun _ =>
            mbind (copy_cell (3 + k) a (r + size) (c + size) r c) (fun _ =>
            mbind (copy_cell (4 + k) b r c r c) (fun _ =>
            mbind (copy_cell (5 + k) b r (c + size) r c) (fun _ =>
            mbind (copy_cell (6 + k) b (r + size) c r c) (fun _ =>
            copy_cell (7 + k) b (r + size) (c + size) r c)))))))) w8 = (w9, Ok tt)) by exact E9.
  assert (T0 : Tg k = fun i j => f i j) by (unfold Tg; replace (k - k)%nat with 0%nat by lia; reflexivity).
  assert (T1 : Tg (1 + k)%nat = fun i j => f i (j + size)) by (unfold Tg; replace (1 + k - k)%nat with 1%nat by lia; reflexivity).
  assert (T2 : Tg (2 + k)%nat = fun i j => f (i + size) j) by (unfold Tg; replace (2 + k - k)%nat with 2%nat by lia; reflexivity).
  assert (T3 : Tg (3 + k)%nat = fun i j => f (i + size) (j + size)) by (unfold Tg; replace (3 + k - k)%nat with 3%nat by lia; reflexivity).
  assert (T4 : Tg (4 + k)%nat = fun i j => g i j) by (unfold Tg; replace (4 + k - k)%nat with 4%nat by lia; reflexivity).
  assert (T5 : Tg (5 + k)%nat = fun i j => g i (j + size)) by (unfold Tg; replace (5 + k - k)%nat with 5%nat by lia; reflexivity).
  assert (T6 : Tg (6 + k)%nat = fun i j => g (i + size) j) by (unfold Tg; replace (6 + k - k)%nat with 6%nat by lia; reflexivity).
  assert (T7 : Tg (7 + k)%nat = fun i j => g (i + size) (j + size)) by (unfold Tg; replace (7 + k - k)%nat with 7%nat by lia; reflexivity).
  cbn [fst snd map In] in M9.
  assert (D11 := M9 k ltac:(tauto)). assert (D12 := M9 (1 + k)%nat ltac:(tauto)). assert (D21 := M9 (2 + k)%nat ltac:(tauto)). assert (D22 := M9 (3 + k)%nat ltac:(tauto)).
  assert (F11 := M9 (4 + k)%nat ltac:(tauto)). assert (F12 := M9 (5 + k)%nat ltac:(tauto)). assert (F21 := M9 (6 + k)%nat ltac:(tauto)). assert (F22 := M9 (7 + k)%nat ltac:(tauto)).
  rewrite T0 in D11. rewrite T1 in D12. rewrite T2 in D21. rewrite T3 in D22. rewrite T4 in F11. rewrite T5 in F12. rewrite T6 in F21. rewrite T7 in F22.
  clear M9 T0 T1 T2 T3 T4 T5 T6 T7 M1 M2 M3 M4 M5 M6 M7 M8 E9 cs Tg idx sh.
  change (Datatypes.S k) with (1 + k)%nat. change (Datatypes.S (1 + k)) with (2 + k)%nat. change (Datatypes.S (2 + k)) with (3 + k)%nat. change (Datatypes.S (3 + k)) with (4 + k)%nat.
  change (Datatypes.S (4 + k)) with (5 + k)%nat. change (Datatypes.S (5 + k)) with (6 + k)%nat. change (Datatypes.S (6 + k)) with (7 + k)%nat.
  rewrite (mbind_ok _ _ _ _ _ EG). clear EG.
  clear R1 R2 R3 R4 R5 R6 R7 R8 X1 X2 X3 X4 X5 X6 X7 X8.
  repeat match goal with |- context [(?m + k)%nat] => generalize dependent (m + k)%nat; intros end.
  add_step D11 D22 HSF A1. add_step F11 F22 HSF B1. add_step D21 D22 HSF A2. sub_step F12 F22 HSF B3. sub_step F21 F11 HSF B4.
  add_step D11 D12 HSF A5. sub_step D21 D11 HSF A6. add_step F11 F12 HSF B6. sub_step D12 D22 HSF A7. add_step F21 F22 HSF B7.
  do 2 eexists. split; [reflexivity|]. split; [assumption|]. split; [assumption|].
  intros i. unfold left_of, right_of. repeat (destruct (i =? _); [split; assumption|]). split; assumption.
Qed.

Lemma combine_ok K w w0 ms (P : Z -> Z -> Z -> V) : extends w0 w ->
  0 <= K -> 2 * K * (2 * K) < 2 ^ 63 -> K * K <= Z.of_nat (e_fuel E) -> reachable w ->
  (forall i, In i [1; 2; 3; 4; 5; 6; 7] -> exists p, (forall w : world, received i ms w = (w, Ok p)) /\ dm w p K K (P i)) ->
  exists w' t, combine E ms w = (w', Ok t) /\ reachable w' /\ extends w0 w' /\ (forall x, ~ obj w0 t x) /\
    dm w' t (K * 2) (K * 2) (fun i j =>
      if i <? K then if j <? K then nadd (nsub (nadd (P 1 i j) (P 4 i j)) (P 5 i j)) (P 7 i j) else nadd (P 3 i (j - K)) (P 5 i (j - K))
      else if j <? K then nadd (P 2 (i - K) j) (P 4 (i - K) j)
           else nadd (nadd (nsub (P 1 (i - K) (j - K)) (P 2 (i - K) (j - K))) (P 3 (i - K) (j - K))) (P 6 (i - K) (j - K))).
Proof.
  intros X9 HK HKK HKF Hr Mg. unfold combine.
  destruct (Mg 1 ltac:(cbn; tauto)) as (p1 & Q1 & P1). destruct (Mg 2 ltac:(cbn; tauto)) as (p2 & Q2 & P2).
  destruct (Mg 3 ltac:(cbn; tauto)) as (p3 & Q3 & P3). destruct (Mg 4 ltac:(cbn; tauto)) as (p4 & Q4 & P4).
  destruct (Mg 5 ltac:(cbn; tauto)) as (p5 & Q5 & P5). destruct (Mg 6 ltac:(cbn; tauto)) as (p6 & Q6 & P6).
  destruct (Mg 7 ltac:(cbn; tauto)) as (p7 & Q7 & P7). clear Mg.
  rewrite (mbind_ok _ _ _ _ _ (Q1 w)), (mbind_ok _ _ _ _ _ (Q2 w)), (mbind_ok _ _ _ _ _ (Q3 w)), (mbind_ok _ _ _ _ _ (Q4 w)),
    (mbind_ok _ _ _ _ _ (Q5 w)), (mbind_ok _ _ _ _ _ (Q6 w)), (mbind_ok _ _ _ _ _ (Q7 w)).
  clear Q1 Q2 Q3 Q4 Q5 Q6 Q7.
  add_step P1 P4 HKF U1. sub_step U1 P5 HKF U2. add_step U2 P7 HKF C11. clear U1 U2.
  add_step P3 P5 HKF C12. add_step P2 P4 HKF C21. sub_step P1 P2 HKF U1. add_step U1 P3 HKF U2. add_step U2 P6 HKF C22. clear U1 U2.
  clear P1 P2 P3 P4 P5 P6 P7.
  pose proof C11 as (d11 & O11 & N11). pose proof C12 as (d12 & O12 & N12). pose proof C21 as (d21 & O21 & N21). pose proof C22 as (d22 & O22 & N22).
  pose proof N11 as (NR & NC & _).
  rewrite (mbind_ok _ _ _ _ _ (p_Rows_ok _ _ _ O11)), NR.
  match goal with Hr : reachable ?u |- context [mbind (new_dense _ _) _ ?u] => rename u into v; destruct (new_dense_ok v (K * 2) (K * 2) Hr ltac:(lia) ltac:(lia) ltac:(nia)) as (v1 & V1 & W1 & Z1 & LL1 & MM1) end.
  rewrite (mbind_ok _ _ _ _ _ V1). clear V1. set (t := length (w_heap v)) in *.
  rewrite (mbind_ok _ _ _ _ _ (p_Columns_ok _ _ _ (Z1 _ _ O11))), NC.
  pose (idx := fun r : Z => r). pose (sh := fun r : Z => r + K).
  match type of O11 with obj _ ?c11 _ => match type of O12 with obj _ ?c12 _ => match type of O21 with obj _ ?c21 _ => match type of O22 with obj _ ?c22 _ =>
  pose (cs := [MkCopying t c11 idx idx idx idx; MkCopying t c12 idx idx idx sh; MkCopying t c21 idx idx sh idx; MkCopying t c22 idx idx sh sh]) end end end end.
  match type of N11 with denotes _ _ _ ?f11 => match type of N12 with denotes _ _ _ ?f12 => match type of N21 with denotes _ _ _ ?f21 => match type of N22 with denotes _ _ _ ?f22 =>
  pose (Tg := fun (d : ptr) i j => if i <? K then if j <? K then f11 i j else f12 i (j - K) else if j <? K then f21 (i - K) j else f22 (i - K) (j - K)) end end end end.
  destruct (copy_grid Hs v [t] (fun _ => (K * 2, K * 2)) Tg K K cs) with (E := E) (w := v1) as (v2 & V2 & W2 & Z2 & MM2).
  { intros d xx [<-|[]] Ho. apply obj_lt in Ho. unfold t in Ho. lia. }
  { intros e He. unfold cs in He. cbn [In] in He. repeat (destruct He as [<-|He]); [..|contradiction]; cbn [c_dst c_src c_sr c_sc c_dr c_dc fst snd].
    all: split; [left; reflexivity|].
    all: first [exists (MDM d11); do 3 eexists; split; [exact O11|]; split; [exact N11|] | exists (MDM d12); do 3 eexists; split; [exact O12|]; split; [exact N12|]
               |exists (MDM d21); do 3 eexists; split; [exact O21|]; split; [exact N21|] | exists (MDM d22); do 3 eexists; split; [exact O22|]; split; [exact N22|]].
    all: intros r c Hr' Hc'; unfold Tg, idx, sh; do 4 (split; [lia|]).
    all: repeat match goal with |- context [?x <? ?y] => first [replace (x <? y) with true by lia|replace (x <? y) with false by lia] end; rewrite ?Z.add_simpl_r; reflexivity. }
  { intros d i j [<-|[]] Hi Hj. cbn [fst snd] in Hi, Hj.
    destruct (Z_lt_le_dec i K), (Z_lt_le_dec j K).
    - eexists _, i, j. split; [left; reflexivity|]. cbn [c_dst c_dr c_dc]. unfold idx. repeat split; lia.
    - eexists _, i, (j - K). split; [right; left; reflexivity|]. cbn [c_dst c_dr c_dc]. unfold idx, sh. repeat split; lia.
    - eexists _, (i - K), j. split; [right; right; left; reflexivity|]. cbn [c_dst c_dr c_dc]. unfold idx, sh. repeat split; lia.
    - eexists _, (i - K), (j - K). split; [right; right; right; left; reflexivity|]. cbn [c_dst c_dr c_dc]. unfold idx, sh. repeat split; lia. }
  { exact Hctx. } { exact HK. } { exact HK. } { exact W1. } { intros q xx _ Hq. auto. }
  { intros d [<-|[]]. cbn [fst snd]. eauto. }
  match goal with |- context [mbind ?g1 (fun _ => mret t) v1] => assert (V2' : g1 v1 = (v2, Ok tt)) by exact V2 end.
  rewrite (mbind_ok _ _ _ _ _ V2'). exists v2, t. split; [reflexivity|]. split; [exact W2|]. split; [eapply extends_trans; eauto|]. split.
  { intros xx Hx. apply X9 in Hx. apply obj_lt in Hx. unfold t in Hx. lia. }
  exact (MM2 t (or_introl eq_refl)).
Qed.

Lemma level fuel path n l w a b A B R C f g :
  crossover < n -> 0 <= n -> n * n < 2 ^ 63 -> n * n <= Z.of_nat (e_fuel E) -> zlen l <= n / 2 ->
  Permutation (sched path) [1; 2; 3; 4; 5; 6; 7] -> multiplies fuel path (n / 2) l ->
  reachable w -> obj w a A -> obj w b B -> denotes A R n f -> denotes B n C g -> 2 * (n / 2) <= R -> 2 * (n / 2) <= C ->
  exists w' t, strassen (Datatypes.S fuel) E sched path a b crossover w = (w', Ok t) /\ reachable w' /\ extends w w' /\ (forall x, ~ obj w t x) /\
    let l2 := l ++ map (fun i => i + n / 2) l in dm w' t (zlen l2) (zlen l2) (product_over l2 f g).
Proof.
  intros Hn Hn0 HB Hfu Hl Hperm Hsub Hr Ha Hb Da Db HRR HCC. pose proof Da as (_ & EA & _). pose proof Db as (EB & _).
  cbn [strassen]. rewrite (mbind_ok _ _ _ _ _ (p_Columns_ok _ _ _ Ha)), (mbind_ok _ _ _ _ _ (p_Rows_ok _ _ _ Hb)), EA, EB, Z.eqb_refl. cbn [negb].
  rewrite (mbind_ok _ _ _ _ _ (p_Rows_ok _ _ _ Hb)), EB. replace (n <=? crossover) with false by lia.
  rewrite (Z.quot_div_nonneg n 2) by lia. set (size := n / 2) in *.
  assert (Hsz : 0 <= size /\ 2 * size <= n) by (unfold size; split; [apply Z.div_pos; lia|apply Z.mul_div_le; lia]). destruct Hsz as [Hsz Hsz2].
  assert (HSS : size * size < 2 ^ 63) by nia. assert (HSF : size * size <= Z.of_nat (e_fuel E)) by nia.
  destruct (operands_ok size w a b A B R n n C f g) as (w1 & ops & E1 & R1 & X1 & D1); auto.
  rewrite (mbind_ok _ _ _ _ _ E1). clear E1.
  match goal with |- context [mbind (gather ?run _) _ w1] =>
    destruct (gather_ok run (zlen l) (fun i => product_over l (left_of size f i) (right_of size g i)) w1 (sched path)) with (w := w1) as (wg & ms & Eg & Rg & Xg & Mg) end.
  { intros i u Hi Ru Xu. destruct (D1 i) as [L1 L2]. cbn beta. eapply Hsub; eauto; eapply dm_mono; eauto. }
  { assumption. } { apply extends_refl. }
  rewrite (mbind_ok _ _ _ _ _ Eg). clear Eg.
  assert (HK : 0 <= zlen l) by apply zlen_nonneg. set (K := zlen l) in *.
  destruct (combine_ok K wg w ms (fun i => product_over l (left_of size f i) (right_of size g i))) as (w' & t & E2 & R2 & X2 & F2 & D2); auto; try nia.
  { eapply extends_trans; eauto. }
  { intros i Hi. apply Mg. eapply Permutation_in; [apply Permutation_sym; exact Hperm|exact Hi]. }
  exists w', t. do 4 (split; [assumption|]).
  assert (EK : zlen (l ++ map (fun i => i + size) l) = K * 2) by (unfold zlen; rewrite app_length, map_length; unfold K, zlen; lia).
  cbv zeta. rewrite EK. eapply dm_ext; [exact D2|]. intros i j Hi Hj. cbn beta.
  rewrite <- (blocks_product l size f g i j) by (fold K; lia). reflexivity.
Qed.

Context (Hsched : forall path, Permutation (sched path) [1; 2; 3; 4; 5; 6; 7]).

(** at or below the crossover the ordinary product is computed *)
Lemma base fuel path w a b A B R K C f g : K <= crossover -> reachable w -> obj w a A -> obj w b B -> is_dense A -> is_dense B ->
  denotes A R K f -> denotes B K C g -> R * C < 2 ^ 63 ->
  exists w' t, strassen fuel E sched path a b crossover w = (w', Ok t) /\ reachable w' /\ extends w w' /\ (forall x, ~ obj w t x) /\
    dm w' t R C (fun i j => sum_from n0 (fun l => nmul (f i l) (g l j)) 0 K).
Proof.
  intros HK Hr Ha Hb Pa Pb Da Db HB. pose proof Da as (ER & EA & _). pose proof Db as (EB & EC & _).
  pose proof (wf_dims A (sane_wfw w Hs Hr _ _ Ha)) as DA. pose proof (wf_dims B (sane_wfw w Hs Hr _ _ Hb)) as DB.
  assert (Heq : exists w' t, (let! ar := p_Rows a in let! bc := p_Columns b in let! matrix := new_dense ar bc in MatrixMatrixMultiply E a b MNil matrix ;!; mret matrix) w = (w', Ok t) /\
    reachable w' /\ extends w w' /\ (forall x, ~ obj w t x) /\ dm w' t R C (fun i j => sum_from n0 (fun l => nmul (f i l) (g l j)) 0 K)).
  { rewrite (mbind_ok _ _ _ _ _ (p_Rows_ok _ _ _ Ha)), (mbind_ok _ _ _ _ _ (p_Columns_ok _ _ _ Hb)), ER, EC.
    destruct (new_dense_ok w R C Hr ltac:(lia) ltac:(lia) HB) as (w1 & E1 & R1 & X1 & L1 & (d & O1 & D1)). rewrite (mbind_ok _ _ _ _ _ E1).
    set (t := length (w_heap w)) in *.
    assert (Hta : a <> t) by (intros ->; apply obj_lt in Ha; unfold t in Ha; lia). assert (Htb : b <> t) by (intros ->; apply obj_lt in Hb; unfold t in Hb; lia).
    destruct (mul_dense E w1 a b MNil t A B (MDM d) R K C f g _ Hs R1 (X1 _ _ Ha) (X1 _ _ Hb) O1 Pa Pb Logic.I Da Db D1 Logic.I Hta Htb Hctx) as (w2 & O' & E2 & _ & X2 & O2 & S2 & D2).
    rewrite (mbind_ok _ _ _ _ _ E2). exists w2, t. split; [reflexivity|]. split.
    { replace w2 with (after (KMultiply E a b MNil t) w1) by (unfold after, perform; rewrite E2; reflexivity). apply reach_call; [exact R1|exact Logic.I]. }
    split; [intros q x Hq; apply X2; [intros ->; apply obj_lt in Hq; unfold t in Hq; lia|auto]|].
    split; [intros x Hx; apply obj_lt in Hx; unfold t in Hx; lia|].
    destruct O'; try contradiction. eexists. split; [exact O2|]. eapply denotes_change; [exact D2|]. intros i j _ _. reflexivity. }
  destruct fuel; cbn [strassen];
  rewrite (mbind_ok _ _ _ _ _ (p_Columns_ok _ _ _ Ha)), (mbind_ok _ _ _ _ _ (p_Rows_ok _ _ _ Hb)), EA, EB, Z.eqb_refl; cbn [negb];
  rewrite (mbind_ok _ _ _ _ _ (p_Rows_ok _ _ _ Hb)), EB; replace (K <=? crossover) with true by lia; exact Heq.
Qed.

Lemma pick_zrange n i : 0 <= i < n -> pick (zrange 0 n) i = i.
Proof.
  intros H. unfold pick. pose proof (zget_zrange 0 n i ltac:(lia)) as Hz. apply (zget_nth _ _ _) in Hz. destruct Hz as [_ Hz]. apply nth_error_nth with (d := 0) in Hz. rewrite Hz. lia.
Qed.
Lemma product_zrange n (f g : Z -> Z -> V) i j : 0 <= i < n -> 0 <= j < n ->
  product_over (zrange 0 n) f g i j = sum_from n0 (fun l => nmul (f i l) (g l j)) 0 n.
Proof. intros Hi Hj. unfold product_over. rewrite !pick_zrange by auto. reflexivity. Qed.

Lemma survivors_len k n : 0 <= crossover -> 0 <= n -> 0 <= zlen (survivors k crossover n) <= n.
Proof.
  intros Hc. revert n. induction k as [|k IH]; intros n Hn; cbn [survivors]; destruct (n <=? crossover) eqn:En.
  - rewrite zlen_zrange; lia.
  - unfold zlen. cbn. lia.
  - rewrite zlen_zrange; lia.
  - specialize (IH (n / 2) ltac:(apply Z.div_pos; lia)). pose proof (Z.mul_div_le n 2 ltac:(lia)). unfold zlen in *. rewrite app_length, map_length. lia.
Qed.

Lemma survivors_fuel n : 0 <= crossover -> 0 <= n -> forall k k', n <= Z.of_nat k -> n <= Z.of_nat k' -> survivors k crossover n = survivors k' crossover n.
Proof.
  intros Hc Hn k. revert n Hn. induction k as [|k IH]; intros n Hn k' H1 H2.
  - destruct k'; cbn [survivors]; replace (n <=? crossover) with true by lia; reflexivity.
  - destruct k' as [|k']; cbn [survivors]; destruct (n <=? crossover) eqn:En; try reflexivity; [lia|].
    assert (n / 2 < n) by (apply Z.div_lt; lia). rewrite (IH (n / 2) ltac:(apply Z.div_pos; lia) k') by lia. reflexivity.
Qed.

Lemma strassen_square : 0 <= crossover -> forall fuel path n w a b f g,
  0 <= n <= Z.of_nat fuel -> n * n < 2 ^ 63 -> n * n <= Z.of_nat (e_fuel E) -> reachable w -> dm w a n n f -> dm w b n n g ->
  exists w' t, strassen fuel E sched path a b crossover w = (w', Ok t) /\ reachable w' /\ extends w w' /\
    let l := survivors fuel crossover n in dm w' t (zlen l) (zlen l) (product_over l f g).
Proof.
  intros Hc. induction fuel as [|fuel IH]; intros path n w a b f g Hn HB HF Hr (da & Oa & Da) (db & Ob & Db).
  - destruct (base 0 path w a b (MDM da) (MDM db) n n n f g ltac:(lia) Hr Oa Ob Logic.I Logic.I Da Db HB) as (w' & t & E1 & R1 & X1 & _ & D1).
    exists w', t. do 3 (split; [assumption|]). cbn [survivors]. replace (n <=? crossover) with true by lia. cbv zeta. rewrite zlen_zrange, Z.sub_0_r by lia.
    eapply dm_ext; [exact D1|]. intros i j Hi Hj. cbn beta. symmetry. apply product_zrange; auto.
  - destruct (Z_le_gt_dec n crossover) as [Hle|Hgt].
    + destruct (base (Datatypes.S fuel) path w a b (MDM da) (MDM db) n n n f g Hle Hr Oa Ob Logic.I Logic.I Da Db HB) as (w' & t & E1 & R1 & X1 & _ & D1).
      exists w', t. do 3 (split; [assumption|]). cbn [survivors]. replace (n <=? crossover) with true by lia. cbv zeta. rewrite zlen_zrange, Z.sub_0_r by lia.
      eapply dm_ext; [exact D1|]. intros i j Hi Hj. cbn beta. symmetry. apply product_zrange; auto.
    + assert (Hd : 0 <= n / 2) by (apply Z.div_pos; lia). assert (n / 2 < n) by (apply Z.div_lt; lia). pose proof (Z.mul_div_le n 2 ltac:(lia)) as H2.
      destruct (level fuel path n (survivors fuel crossover (n / 2)) w a b (MDM da) (MDM db) n n f g) as (w' & t & E1 & R1 & X1 & _ & D1); auto; try lia.
      * apply survivors_len; lia.
      * intros i u x y p q Ru Dx Dy. apply IH; auto; [lia|nia|nia].
      * exists w', t. do 3 (split; [assumption|]). cbn [survivors]. replace (n <=? crossover) with false by lia. exact D1.
Qed.

(** the whole call *)
Lemma strassen_exact w a b A B R n C f g : 0 <= crossover -> crossover < n ->
  n * n < 2 ^ 63 -> n * n <= Z.of_nat (e_fuel E) -> reachable w -> obj w a A -> obj w b B -> denotes A R n f -> denotes B n C g ->
  2 * (n / 2) <= R -> 2 * (n / 2) <= C ->
  exists w' t, MultiplyCrossoverPoint E sched a b crossover w = (w', Ok t) /\ extends w w' /\ (forall x, ~ obj w t x) /\
    let l := survivors (Z.to_nat n) crossover n in dm w' t (zlen l) (zlen l) (product_over l f g).
Proof.
  intros Hc Hgt HB HF Hr Oa Ob Da Db HRR HCC. unfold MultiplyCrossoverPoint.
  assert (Hd : 0 <= n / 2) by (apply Z.div_pos; lia). assert (n / 2 < n) by (apply Z.div_lt; lia). pose proof (Z.mul_div_le n 2 ltac:(lia)) as H2.
  destruct (e_fuel E) as [|fuel] eqn:Ef; [nia|]. rewrite <- Ef in HF.
  destruct (level fuel [] n (survivors fuel crossover (n / 2)) w a b A B R C f g) as (w' & t & E1 & R1 & X1 & F1 & D1); auto; try lia.
  - apply survivors_len; lia.
  - intros i u x y p q Ru Dx Dy. apply strassen_square; auto; nia.
  - exists w', t. do 3 (split; [assumption|]).
    rewrite (survivors_fuel n Hc ltac:(lia) (Z.to_nat n) (Datatypes.S fuel)) by nia.
    cbn [survivors]. replace (n <=? crossover) with false by lia. exact D1.
Qed.

(** sizes that are a power of two times a size within the crossover lose nothing *)
Lemma survivors_power m : 0 <= m <= crossover -> forall k d, m * 2 ^ Z.of_nat k <= Z.of_nat d -> survivors d crossover (m * 2 ^ Z.of_nat k) = zrange 0 (m * 2 ^ Z.of_nat k).
Proof.
  intros Hm. induction k as [|k IH]; intros d Hd.
  - change (2 ^ Z.of_nat 0) with 1 in *. rewrite Z.mul_1_r in *. destruct d; cbn [survivors]; replace (m <=? crossover) with true by lia; reflexivity.
  - rewrite Nat2Z.inj_succ, Z.pow_succ_r in * by lia. set (q := 2 ^ Z.of_nat k) in *. assert (Hq : 0 < q) by (apply Z.pow_pos_nonneg; lia).
    replace (m * (2 * q)) with (m * q * 2) in * by ring.
    destruct (m * q * 2 <=? crossover) eqn:En; [destruct d; cbn [survivors]; rewrite En; reflexivity|].
    destruct d as [|d]; [nia|]. cbn [survivors]. rewrite En, Z.div_mul by lia. rewrite IH by nia.
    replace (m * q * 2) with (m * q + m * q) by ring. rewrite (zrange_split 0 (m * q) (m * q + m * q)) by nia. cbv zeta. f_equal.
    unfold zrange. rewrite map_map. replace (Z.to_nat (m * q + m * q - m * q)) with (Z.to_nat (m * q - 0)) by (f_equal; ring). apply map_ext. intros i. lia.
Qed.

Lemma strassen_product w a b A B m k f g : let n := m * 2 ^ Z.of_nat k in 0 <= m <= crossover ->
  n * n < 2 ^ 63 -> n * n <= Z.of_nat (e_fuel E) -> reachable w -> obj w a A -> obj w b B -> denotes A n n f -> denotes B n n g ->
  (is_dense A /\ is_dense B \/ crossover < n) ->
  exists w' t O, MultiplyCrossoverPoint E sched a b crossover w = (w', Ok t) /\ extends w w' /\ (forall x, ~ obj w t x) /\ obj w' t O /\ is_dense O /\
    denotes O n n (fun i j => sum_from n0 (fun l => nmul (f i l) (g l j)) 0 n).
Proof.
  intros n Hm HB HF Hr Oa Ob Da Db Hcase. assert (Hn : 0 <= n) by (unfold n; assert (0 < 2 ^ Z.of_nat k) by (apply Z.pow_pos_nonneg; lia); nia).
  assert (HH : exists w' t, MultiplyCrossoverPoint E sched a b crossover w = (w', Ok t) /\ extends w w' /\ (forall x, ~ obj w t x) /\
    dm w' t n n (fun i j => sum_from n0 (fun l => nmul (f i l) (g l j)) 0 n)).
  { destruct (Z_le_gt_dec n crossover) as [Hle|Hgt].
    - destruct Hcase as [[Pa Pb]|]; [|lia]. unfold MultiplyCrossoverPoint.
      destruct (base (e_fuel E) [] w a b A B n n n f g Hle Hr Oa Ob Pa Pb Da Db HB) as (w' & t & E1 & R1 & X1 & F1 & D1). exists w', t. auto.
    - pose proof (Z.mul_div_le n 2 ltac:(lia)).
      destruct (strassen_exact w a b A B n n n f g) as (w' & t & E1 & X1 & F1 & D1); auto; try lia. exists w', t. do 3 (split; [assumption|]).
      unfold n in D1. rewrite survivors_power in D1 by (auto; fold n; lia). fold n in D1. cbv zeta in D1. rewrite zlen_zrange, Z.sub_0_r in D1 by lia.
      eapply dm_ext; [exact D1|]. intros i j Hi Hj. apply product_zrange; auto. }
  destruct HH as (w' & t & E1 & X1 & F1 & d & O1 & D1). exists w', t, (MDM d). repeat (split; [assumption|]). split; [exact Logic.I|exact D1].
Qed.
End Level.
End Ring.
End Strassen.
