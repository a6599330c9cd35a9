(** A call of Strassen's multiplication with a context that is not done until the call returns takes the steps
    of a call with a context that is never done. *)
From Coq Require Import String.
From Verif Require Import GoBase Num SparseVec Csr Csc DenseVec DenseMat Mat World Ops MathOps Bfs Spec Api BaseProofs Fine FineRel FineConc FineProofs FineStrassen FineStrassenInv FineSafe FineCancel.

Section FineSame.
Context {N : num}.
Notation V := (T N).
Notation mat := (mat N).
Notation prog := (prog N).
Notation gor := (gor (N := N)).
Notation task := (task (N := N)).

(** the same but for the contexts; those on the right are never done *)
Fixpoint same {A} (x y : prog A) : Prop :=
  match x, y with
  | Ret a, Ret b => a = b
  | Stop, Stop => True
  | Hang, Hang => True
  | Poll E k, Poll E' k' => e_ctx E' = None /\ forall b, same (k b) (k' b)
  | Load p k, Load p' k' => p = p' /\ forall m, same (k m) (k' m)
  | Store p m q, Store p' m' q' => p = p' /\ m = m' /\ same q q'
  | AtOp p r c k, AtOp p' r' c' k' => (p = p' /\ r = r' /\ c = c') /\ forall v, same (k v) (k' v)
  | ElemOp p r c k, ElemOp p' r' c' k' => (p = p' /\ r = r' /\ c = c') /\ forall v, same (k v) (k' v)
  | Alloc m k, Alloc m' k' => m = m' /\ forall p, same (k p) (k' p)
  | _, _ => False
  end.

Lemma same_bind {A B} (x x' : prog A) (f f' : A -> prog B) : same x x' -> (forall a, same (f a) (f' a)) -> same (mbind x f) (mbind x' f').
Proof.
  intros H K. revert x' H. induction x as [a| | |E k IH|p k IH|p m q IH|p r c k IH|p r c k IH|m k IH]; intros [a'| | |E' k'|p' k'|p' m' q'|p' r' c' k'|p' r' c' k'|m' k'] H; cbn [same] in H; try contradiction; cbn [mbind same]; auto.
  - subst. apply K.
  - destruct H as [H1 H2]. split; auto.
  - destruct H as [H1 H2]. split; auto.
  - destruct H as (H1 & H2 & H3). split; auto.
  - destruct H as [H1 H2]. split; auto.
  - destruct H as [H1 H2]. split; auto.
  - destruct H as [H1 H2]. split; auto.
Qed.
Lemma same_ret {A} (a : A) : same (mret a) (mret a). Proof. reflexivity. Qed.
Lemma same_panic {A} : same (mpanic (A := A)) mpanic. Proof. exact Logic.I. Qed.
Lemma same_lift {A} (r : res A) : same (mlift r) (mlift r). Proof. destruct r; exact Logic.I || reflexivity. Qed.
Lemma same_poll E E' : e_ctx E' = None -> same (poll E) (poll E'). Proof. intro H. split; [exact H|]. intro b. reflexivity. Qed.
Lemma same_load p : same (load p) (load p). Proof. split; [reflexivity|]. intro m. reflexivity. Qed.
Lemma same_store p m : same (store p m) (store p m). Proof. repeat split. Qed.
Lemma same_alloc m : same (alloc m) (alloc m). Proof. split; [reflexivity|]. intro p. reflexivity. Qed.
Lemma same_at p r c : same (p_At p r c) (p_At p r c). Proof. split; [auto|]. intro v. reflexivity. Qed.
Lemma same_el k r c : same (mask_Element k r c) (mask_Element k r c).
Proof. destruct k; cbn [mask_Element]; try exact Logic.I; try reflexivity. split; [auto|]. intro v. reflexivity. Qed.

Ltac sm := repeat first
  [ apply same_ret | apply same_panic | apply same_lift | apply same_load | apply same_store | apply same_alloc | apply same_at | apply same_el | assumption
  | (apply same_bind; [|intro])
  | match goal with
    | |- same (if ?b then _ else _) _ => destruct b
    | |- same (match ?o with Some _ => _ | None => _ end) _ => destruct o
    | |- same (match ?o with Ok _ => _ | Panic => _ | Diverge => _ end) _ => destruct o
    end ].

Lemma same_for {R I} (l : list I) (b b' : I -> prog (option R)) : (forall i, same (b i) (b' i)) -> same (for_list l b) (for_list l b').
Proof. intro H. induction l as [|i l IH]; cbn [for_list]; [apply same_ret|]. apply same_bind; [apply H|]. intros [r|]; [apply same_ret|exact IH]. Qed.
Lemma same_grid E E' R C (b b' : Z -> Z -> prog unit) : e_ctx E' = None -> (forall r c, same (b r c) (b' r c)) -> same (grid E R C b) (grid E' R C b').
Proof.
  intros H K. unfold grid. apply same_bind; [|intro; apply same_ret]. apply same_for. intro r. apply same_for. intro c.
  apply same_bind; [apply same_poll; exact H|]. intro d. apply same_bind; [destruct d; [apply same_ret|apply K]|]. intro. apply same_ret.
Qed.
Lemma same_enum {R} E E' fuel p it (o : R) b b' : e_ctx E' = None -> (forall r c v, same (b r c v) (b' r c v)) -> same (enum_loop E fuel p it o b) (enum_loop E' fuel p it o b').
Proof.
  intros H K. revert it. induction fuel as [|fuel IH]; intro it; cbn [enum_loop]; destruct (mat_HasNext it); try apply same_ret; [exact Logic.I|].
  apply same_bind; [apply same_poll; exact H|]. intros []; [apply same_ret|]. apply same_bind; [apply same_load|]. intro m. apply same_bind; [apply same_lift|]. intros [[[r c] v] it'].
  apply same_bind; [apply K|]. intros [y|]; [apply same_ret|apply IH].
Qed.
Lemma same_enumerate {R} E E' p (o : R) b b' : e_ctx E' = None -> e_fuel E' = e_fuel E -> (forall r c v, same (b r c v) (b' r c v)) -> same (enumerate E p o b) (enumerate E' p o b').
Proof. intros H F K. unfold enumerate. apply same_bind; [apply same_load|]. intro m. rewrite F. apply same_enum; assumption. Qed.
Lemma same_check_mask k t : same (check_mask k t) (check_mask k t).
Proof. unfold check_mask, mask_Rows, mask_Columns, p_Rows, p_Columns. sm; destruct k; cbn [mask_Rows mask_Columns]; sm. Qed.
Lemma same_set p r c v : same (p_Set p r c v) (p_Set p r c v). Proof. unfold p_Set. sm. Qed.
Lemma same_copy p : same (p_Copy p) (p_Copy p). Proof. unfold p_Copy. sm. Qed.
Lemma same_new r c : same (new_dense r c) (new_dense r c). Proof. unfold new_dense. sm. Qed.
Lemma same_rows p : same (p_Rows p) (p_Rows p). Proof. unfold p_Rows. sm. Qed.
Lemma same_columns p : same (p_Columns p) (p_Columns p). Proof. unfold p_Columns. sm. Qed.

Lemma same_check_sizes s m : same (check_sizes s m) (check_sizes s m).
Proof. unfold check_sizes, p_Rows, p_Columns. sm. Qed.

Lemma same_m_Add E s m : same (m_Add E s m) (m_Add (bg E) s m).
Proof.
  unfold m_Add, Add. apply same_bind; [apply same_copy|]. intro t. apply same_bind; [|intro; apply same_ret].
  apply same_bind; [apply same_check_sizes|]. intros _. apply same_bind; [apply same_check_mask|]. intro k. apply same_bind; [unfold p_IsSparse; sm|]. intro sp. destruct sp;
  (apply same_bind; [|intro; apply same_ret]; apply same_enumerate; [reflexivity|reflexivity|]; intros r c v; sm; apply same_set).
Qed.
Lemma same_m_Subtract E s m : same (m_Subtract E s m) (m_Subtract (bg E) s m).
Proof.
  unfold m_Subtract, Subtract. apply same_bind; [apply same_load|]. intro so. apply same_bind; [destruct so; apply same_copy|]. intro t. apply same_bind; [|intro; apply same_ret].
  apply same_bind; [apply same_check_sizes|]. intros _. apply same_bind; [apply same_check_mask|]. intro k.
  repeat first [progress sm | apply same_enumerate; [reflexivity|reflexivity|]; intros | apply same_set].
Qed.
Lemma same_dot E E' a b ls : e_ctx E' = None -> forall sum, same (dot_loop (N := N) E a b ls sum) (dot_loop E' a b ls sum).
Proof.
  intro H. induction ls as [|l ls IH]; intro sum; cbn [dot_loop]; [apply same_ret|]. apply same_bind; [apply same_poll; exact H|]. intros []; [apply same_ret|].
  apply same_bind; [apply same_lift|]. intro. apply same_bind; [apply same_lift|]. intro. apply IH.
Qed.
Lemma same_multiply E s m k t : same (MatrixMatrixMultiply E s m k t) (MatrixMatrixMultiply (bg E) s m k t).
Proof.
  unfold MatrixMatrixMultiply, multiply. apply same_bind; [apply same_rows|]. intro mr. apply same_bind; [apply same_columns|]. intro sc. destruct (negb (mr =? sc)); [exact Logic.I|].
  apply same_bind; [apply same_check_mask|]. intro k'. apply same_bind; [apply same_rows|]. intro. apply same_bind; [apply same_columns|]. intro.
  apply same_bind; [|intro; apply same_ret]. apply same_for. intro r. apply same_bind; [apply same_load|]. intro. apply same_bind; [apply same_lift|]. intro.
  apply same_for. intro c. apply same_bind; [apply same_load|]. intro. apply same_bind; [apply same_lift|]. intro. apply same_bind; [apply same_dot; reflexivity|]. intros [sum|]; [|apply same_ret].
  sm; apply same_set.
Qed.
Lemma same_copy_cell a b r c r' c' : same (copy_cell (N := N) a b r c r' c') (copy_cell a b r c r' c').
Proof. unfold copy_cell. apply same_bind; [apply same_at|]. intro. apply same_set. Qed.
Lemma same_divide E s a b : same (divide (N := N) E s a b) (divide (bg E) s a b).
Proof.
  unfold divide. do 8 (apply same_bind; [apply same_new|]; intro). apply same_bind; [|intro; apply same_ret]. apply same_grid; [reflexivity|]. intros r c.
  repeat (apply same_bind; [apply same_copy_cell|]; intro). apply same_copy_cell.
Qed.
Lemma same_head E x f a b : same (head (N := N) E x f a b) (head (bg E) x f a b).
Proof.
  unfold head. apply same_bind; [apply same_columns|]. intro ac. apply same_bind; [apply same_rows|]. intro br. destruct (negb (ac =? br)); [exact Logic.I|].
  apply same_bind; [apply same_rows|]. intro n. destruct (n <=? x).
  - apply same_bind; [apply same_rows|]. intro. apply same_bind; [apply same_columns|]. intro. apply same_bind; [apply same_new|]. intro. apply same_bind; [apply same_multiply|]. intro. apply same_ret.
  - destruct f; [exact Logic.I|]. apply same_bind; [apply same_divide|]. intro. apply same_ret.
Qed.
Lemma same_opnd E i bl : same (opnd (N := N) E i bl) (opnd (bg E) i bl).
Proof.
  unfold opnd. repeat match goal with |- same (if ?b then _ else _) _ => destruct b end; repeat (apply same_bind; [first [apply same_m_Add|apply same_m_Subtract]|]; intro); apply same_ret.
Qed.
Lemma same_received i l : same (received (N := N) i l) (received i l).
Proof. induction l as [|[j p] l IH]; cbn [received]; [exact Logic.I|]. destruct (j =? i); [apply same_ret|exact IH]. Qed.
Lemma same_combine E l : same (combine (N := N) E l) (combine (bg E) l).
Proof.
  unfold combine. do 7 (apply same_bind; [apply same_received|]; intro). do 8 (apply same_bind; [first [apply same_m_Add|apply same_m_Subtract]|]; intro).
  apply same_bind; [apply same_rows|]. intro. apply same_bind; [apply same_new|]. intro. apply same_bind; [apply same_columns|]. intro. apply same_bind; [|intro; apply same_ret].
  apply same_grid; [reflexivity|]. intros r c. repeat (apply same_bind; [apply same_copy_cell|]; intro). apply same_copy_cell.
Qed.

(** ** Goroutines and calls *)
Definition gsame {A} (g g' : gor A) : Prop := same (g_prog g) (g_prog g') /\ g_back g = g_back g'.
Lemma gsame_go {A} (x y : prog A) : same x y -> gsame (go x) (go y). Proof. intro H. split; [exact H|reflexivity]. Qed.
Lemma gsame_outcome {A} (g g' : gor A) : gsame g g' -> outcome g = outcome g'.
Proof. intros [H B]. unfold outcome. rewrite <- B. destruct (g_back g); [reflexivity|]. destruct (g_prog g), (g_prog g'); cbn [same] in H; try contradiction; try reflexivity. congruence. Qed.
Lemma gsame_step {A} h (g g' : gor A) h1 g1 : gsame g g' -> dstep false h g = Some (h1, g1) -> exists g1', gstep h g' = Some (h1, g1') /\ gsame g1 g1'.
Proof.
  intros [H B] S. unfold dstep, gstep in *. rewrite <- B. destruct (g_back g) as [[p m]|].
  - injection S as <- <-. eexists. split; [reflexivity|]. split; [exact H|reflexivity].
  - destruct (g_prog g) as [a| | |E k|p k|p m q|p r c k|p r c k|m k], (g_prog g') as [a'| | |E' k'|p' k'|p' m' q'|p' r' c' k'|p' r' c' k'|m' k']; cbn [same] in H; try contradiction; try discriminate.
    + destruct H as [H1 H2]. rewrite H1. eexists. split; [destruct (e_ctx E); injection S as <- <-; reflexivity|]. destruct (e_ctx E); injection S as <- <-; (split; [apply H2|reflexivity]).
    + destruct H as [<- H]. destruct (nth_error h p); injection S as <- <-; eexists; (split; [reflexivity|split; [apply H || exact Logic.I|reflexivity]]).
    + destruct H as (<- & <- & H). injection S as <- <-. eexists; (split; [reflexivity|split; [apply H|reflexivity]]).
    + destruct H as [(<- & <- & <-) H]. destruct (nth_error h p) as [m|]; [destruct (mat_At m r c) as [[v m']| |]|]; injection S as <- <-; eexists; (split; [reflexivity|split; [apply H || exact Logic.I|reflexivity]]).
    + destruct H as [(<- & <- & <-) H]. destruct (nth_error h p) as [m|]; [destruct (mat_Element m r c) as [[v m']| |]|]; injection S as <- <-; eexists; (split; [reflexivity|split; [apply H || exact Logic.I|reflexivity]]).
    + destruct H as [<- H]. injection S as <- <-. eexists; (split; [reflexivity|split; [apply H|reflexivity]]).
Qed.

Inductive tsame : task -> task -> Prop :=
| ts_head : forall f g g', gsame g g' -> tsame (THead f g) (THead f g')
| ts_spawn : forall f bl i rest g g' ks ks', gsame g g' -> Forall2 (fun k k' => fst k = fst k' /\ tsame (snd k) (snd k')) ks ks' -> tsame (TSpawn f bl i rest g ks) (TSpawn f bl i rest g' ks')
| ts_recv : forall f ks ks' got, Forall2 (fun k k' => fst k = fst k' /\ tsame (snd k) (snd k')) ks ks' -> tsame (TRecv f ks got) (TRecv f ks' got)
| ts_comb : forall g g', gsame g g' -> tsame (TComb g) (TComb g').

Lemma tsame_finished t t' : tsame t t' -> finished t = finished t'.
Proof. intro H. destruct H; cbn [finished]; try reflexivity; rewrite (gsame_outcome _ _ H); reflexivity. Qed.

Lemma tsame_turn E x c c1 : turn (@dstep N false) E x c c1 -> forall u, tsame (snd c) u -> exists u1, turn (@gstep N) (bg E) x (fst c, u) (fst c1, u1) /\ tsame (snd c1) u1.
Proof.
  induction 1 as [f h g h' g' St|f h g bl Eo|f bl i rest ks h g h' g' St|f bl i rest ks h g a b Eo|f bl i rest g h h' k1 j t t' k2 T IH|f got h h' k1 j t t' k2 T IH|f got h k1 j t k2 p Ef|f got h|h g h' g' St];
    intros u H; cbn [fst snd] in *; inversion H; subst.
  - destruct (gsame_step _ _ _ _ _ H3 St) as (g1 & S1 & G1). eexists. split; [eapply st_head; exact S1|]. constructor. exact G1.
  - eexists. split; [eapply st_divided; rewrite <- (gsame_outcome _ _ H3); exact Eo|]. constructor; [apply gsame_go, same_opnd|constructor].
  - match goal with G : gsame g _ |- _ => destruct (gsame_step _ _ _ _ _ G St) as (g1 & S1 & G1) end. eexists. split; [eapply st_operands; exact S1|]. constructor; assumption.
  - match goal with G : gsame g _ |- _ => rename G into Gg end.
    eexists. split; [eapply st_go; rewrite <- (gsame_outcome _ _ Gg); exact Eo|].
    assert (K : Forall2 (fun k k' : Z * task => fst k = fst k' /\ tsame (snd k) (snd k')) (ks ++ [(i, THead f (go (head E x f a b)))]) (ks' ++ [(i, THead f (go (head (bg E) x f a b)))])).
    { apply Forall2_app; [assumption|]. constructor; [|constructor]. split; [reflexivity|]. constructor. apply gsame_go, same_head. }
    unfold spawned. destruct rest; constructor; [exact K|apply gsame_go, same_opnd|exact K].
  - match goal with K : Forall2 _ _ _ |- _ => apply Forall2_app_inv_l in K; destruct K as (u1 & u2 & K1 & K2 & ->); inversion K2 as [|? [j' v] ? u2' [Ej Ek] K3]; subst end. cbn [fst snd] in *. subst j'.
    destruct (IH v Ek) as (v1 & S1 & T1). eexists. split; [eapply st_kid_spawn; exact S1|]. constructor; [assumption|]. apply Forall2_app; [exact K1|]. constructor; [split; [reflexivity|exact T1]|exact K3].
  - match goal with K : Forall2 _ _ _ |- _ => apply Forall2_app_inv_l in K; destruct K as (u1 & u2 & K1 & K2 & ->); inversion K2 as [|? [j' v] ? u2' [Ej Ek] K3]; subst end. cbn [fst snd] in *. subst j'.
    destruct (IH v Ek) as (v1 & S1 & T1). eexists. split; [eapply st_kid_recv; exact S1|]. constructor. apply Forall2_app; [exact K1|]. constructor; [split; [reflexivity|exact T1]|exact K3].
  - match goal with K : Forall2 _ _ _ |- _ => apply Forall2_app_inv_l in K; destruct K as (u1 & u2 & K1 & K2 & ->); inversion K2 as [|? [j' v] ? u2' [Ej Ek] K3]; subst end. cbn [fst snd] in *. subst j'.
    eexists. split; [eapply st_receive; rewrite <- (tsame_finished _ _ Ek); exact Ef|]. constructor. apply Forall2_app; assumption.
  - match goal with K : Forall2 _ _ _ |- _ => inversion K; subst end. eexists. split; [apply st_received|]. constructor. apply gsame_go, same_combine.
  - match goal with G : gsame g _ |- _ => destruct (gsame_step _ _ _ _ _ G St) as (g1 & S1 & G1) end. eexists. split; [eapply st_combine; exact S1|]. constructor. exact G1.
Qed.

Lemma not_done_steps E x c c1 : csteps E x c c1 -> fst c1 = false -> forall u, tsame (snd (snd c)) u -> exists u1, tsteps (bg E) x (fst (snd c), u) (fst (snd c1), u1) /\ tsame (snd (snd c1)) u1.
Proof.
  induction 1 as [c|a b c S IH T]; intros D u H; [exists u; split; [constructor|exact H]|].
  inversion T as [d c0 c1 Tn|c0]; subst; cbn [fst snd] in *; [|discriminate]. subst d. destruct (IH eq_refl u H) as (u1 & S1 & T1).
  destruct (tsame_turn _ _ _ _ Tn u1 T1) as (u2 & S2 & T2). exists u2. split; [eapply ts_more; eauto|exact T2].
Qed.
End FineSame.
