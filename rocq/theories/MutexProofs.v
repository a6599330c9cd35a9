(** The mutex keeps writers apart, and every execution has the outcome of a
    sequential one. *)
From Verif Require Import GoBase Num SparseVec Csr Csc DenseVec DenseMat Mat World Mutex.
From Verif Require Import BaseProofs CsrProofs CscProofs DenseProofs SvProofs MatProofs Spec HeapProofs ReachProofs StoreProofs StoreThms.
Open Scope Z_scope.

Section MutexProofs.
Context {N : num}.
Notation V := (T N).
Notation mat := (mat N).
Notation mcall := (mcall N).
Notation state := (state N).
Implicit Types m : mat.
Implicit Types k : mcall.
Implicit Types x y : state.

(** ** Specification: running calls one after the other *)

(** what a call returns on [m]; [None]: it panics *)
Definition result (k : mcall) (m : mat) : option (ret N) :=
  match body k m with Ok (v, _) => Some v | _ => None end.
(** the object a call leaves behind *)
Definition next (k : mcall) (m : mat) : mat :=
  match body k m with Ok (_, m') => m' | _ => m end.
(** the calls [h] one after the other: the final object and each call's result *)
Fixpoint sequential (h : list (nat * mcall)) (m : mat) : mat * list (nat * (mcall * option (ret N))) :=
  match h with
  | [] => (m, [])
  | (i, k) :: rest =>
      let '(mf, o) := sequential rest (next k m) in
      (mf, (i, (k, result k m)) :: o)
  end.
(** the part that belongs to goroutine [i] *)
Definition of_goroutine {A} (i : nat) (l : list (nat * A)) : list A :=
  map snd (filter (fun p => Nat.eqb (fst p) i) l).

(** the calls C49 is about: every method except Clear, Values and iteration *)
Definition guarded (k : mcall) : Prop :=
  match k with MClear | MValues | MNext _ | MMapNext _ _ => False | _ => True end.
(** goroutine [i] is inside a call of kind [l]: between getting and releasing the lock *)
Definition inside (x : state) (i : nat) (k : mcall) : Prop :=
  exists g, nth_error (s_gs x) i = Some g /\
    (g_pc g = In k \/ (exists m, g_pc g = Got k m) \/ exists o, g_pc g = Fin k o).

(** ** Bodies *)
(** the callback's extra result does not matter to the object *)
Definition agrees {W S} (x : res (unit * S)) (y : res (W * S)) : Prop :=
  match x with
  | Ok (_, s') => exists w, y = Ok (w, s')
  | Panic => y = Panic
  | Diverge => y = Diverge
  end.
Lemma csr_Update_agrees {W} (s : csr N) r c (h : V -> W * V) : agrees (csr_Update s r c (fun v => (tt, snd (h v)))) (csr_Update s r c h).
Proof.
  unfold csr_Update, csr_UpdateReturnPointer.
  destruct ((r <? 0) || (r >=? csr_r s)); [reflexivity|]. destruct ((c <? 0) || (c >=? csr_c s)); [reflexivity|].
  destruct (csr_columnIndex s r c) as [[ps pe]| |]; cbn [rbind]; try reflexivity.
  destruct (csr_hit s ps pe c) as [[|]| |]; cbn [rbind]; try reflexivity.
  - destruct (zget (csr_values s) ps) as [v| |]; cbn [rbind]; try reflexivity.
    destruct (h v) as [w v']; cbn [snd]. destruct (isz v').
    + destruct (csr_remove s ps r); cbn; eauto.
    + destruct (zset (csr_values s) ps v'); cbn; eauto.
  - destruct (h n0) as [w v']; cbn [snd]. destruct (csr_insert s ps r c v') as [[? ?]| |]; cbn; eauto.
Qed.
Lemma csc_Update_agrees {W} (s : csc N) r c (h : V -> W * V) : agrees (csc_Update s r c (fun v => (tt, snd (h v)))) (csc_Update s r c h).
Proof.
  unfold csc_Update, csc_UpdateReturnPointer.
  destruct ((r <? 0) || (r >=? csc_r s)); [reflexivity|]. destruct ((c <? 0) || (c >=? csc_c s)); [reflexivity|].
  destruct (csc_rowIndex s r c) as [[ps pe]| |]; cbn [rbind]; try reflexivity.
  destruct (csc_hit s ps pe r) as [[|]| |]; cbn [rbind]; try reflexivity.
  - destruct (zget (csc_values s) ps) as [v| |]; cbn [rbind]; try reflexivity.
    destruct (h v) as [w v']; cbn [snd]. destruct (isz v').
    + destruct (csc_remove s ps c); cbn; eauto.
    + destruct (zset (csc_values s) ps v'); cbn; eauto.
  - destruct (h n0) as [w v']; cbn [snd]. destruct (csc_insert s ps r c v') as [[? ?]| |]; cbn; eauto.
Qed.
Lemma dm_Update_agrees {W} (s : dense N) r c (h : V -> W * V) : agrees (dm_Update s r c (fun v => (tt, snd (h v)))) (dm_Update s r c h).
Proof.
  unfold dm_Update. destruct ((r <? 0) || (r >=? dm_Rows s)); [reflexivity|]. destruct ((c <? 0) || (c >=? dm_Columns s)); [reflexivity|].
  destruct (dm_read s r c) as [v| |]; cbn [rbind]; try reflexivity. destruct (h v) as [w v']; cbn [snd]. destruct (dm_write s r c v'); cbn; eauto.
Qed.
Lemma dv_Update_agrees {W} (s : dvec N) r c (h : V -> W * V) : agrees (dv_Update s r c (fun v => (tt, snd (h v)))) (dv_Update s r c h).
Proof.
  unfold dv_Update. destruct ((r <? 0) || (r >=? dv_Rows s)); [reflexivity|]. destruct ((c <? 0) || (c >=? dv_Columns s)); [reflexivity|].
  destruct (dv_AtVec s r) as [v| |]; cbn [rbind]; try reflexivity. destruct (h v) as [w v']; cbn [snd]. destruct (dv_SetVec s r v'); cbn; eauto.
Qed.
Lemma sv_Update_agrees {W} (s : svec N) r c (h : V -> W * V) : agrees (sv_Update s r c (fun v => (tt, snd (h v)))) (sv_Update s r c h).
Proof.
  unfold sv_Update. destruct ((r <? 0) || (r >=? sv_Rows s)); [reflexivity|]. destruct ((c <? 0) || (c >=? sv_Columns s)); [reflexivity|].
  destruct (sv_AtVec s r) as [v| |]; cbn [rbind]; try reflexivity. destruct (h v) as [w v']; cbn [snd]. destruct (sv_SetVec s r v'); cbn; eauto.
Qed.

Definition total (f : V -> option V) (v : V) : V := snd (match f v with Some v' => (true, v') | None => (false, v) end).
Lemma UpdateP_cases m r c (f : V -> option V) :
  (mat_UpdateP m r c f = Panic) \/ (mat_UpdateP m r c f = Diverge /\ mat_Update m r c (total f) = Diverge) \/
  exists m', mat_UpdateP m r c f = Ok m' /\ mat_Update m r c (total f) = Ok m'.
Proof.
  unfold mat_UpdateP, mat_Update, total. destruct m as [s|s|s|s|s].
  1: pose proof (csr_Update_agrees s r c (fun v => match f v with Some v' => (true, v') | None => (false, v) end)) as A.
  2: pose proof (csc_Update_agrees s r c (fun v => match f v with Some v' => (true, v') | None => (false, v) end)) as A.
  3: pose proof (dm_Update_agrees s r c (fun v => match f v with Some v' => (true, v') | None => (false, v) end)) as A.
  4: pose proof (dv_Update_agrees s r c (fun v => match f v with Some v' => (true, v') | None => (false, v) end)) as A.
  5: pose proof (sv_Update_agrees s r c (fun v => match f v with Some v' => (true, v') | None => (false, v) end)) as A.
  all: match type of A with agrees ?x _ => destruct x as [[[] s']| |] end; cbn [agrees] in A;
    [destruct A as [[|] A]; rewrite A; cbn; eauto|rewrite A; auto|rewrite A; auto].
Qed.

(** a read leaves the object alone *)
Lemma read_pure k m v m' : zero_ok N -> wf m -> guarded k -> lock_of k <> LWrite -> body k m = Ok (v, m') -> m' = m.
Proof.
  intros Hz Hw Hg Hl. destruct k; cbn in *; try tauto; try congruence.
  - destruct (mat_At m r c) as [[a b]| |] eqn:E; cbn; intros H; inversion H; subst. eapply At_same; eauto.
  - destruct (mat_Element m r c) as [[a b]| |] eqn:E; cbn; intros H; inversion H; subst. eapply Element_same; eauto.
  - destruct (mat_ColumnsAt m c); cbn; congruence.
  - destruct (mat_RowsAt m r); cbn; congruence.
  - destruct (mat_RowsAtToArray m r); cbn; congruence.
  - destruct (mat_Copy m); cbn; congruence.
  - destruct (g m); cbn; congruence.
Qed.
Lemma next_read k m : zero_ok N -> wf m -> guarded k -> lock_of k <> LWrite -> next k m = m.
Proof.
  intros Hz Hw Hg Hl. unfold next. destruct (body k m) as [[v m']| |] eqn:E; [eapply read_pure; eauto|reflexivity|reflexivity].
Qed.
(** a call on a well-formed object leaves a well-formed one of the same shape *)
Lemma next_wf k m : zero_ok N -> wf m -> guarded k -> wf (next k m) /\ same_shape m (next k m).
Proof.
  intros Hz Hw Hg. destruct (lock_of k) eqn:Hl.
  1,2: rewrite next_read by (auto; congruence); split; [exact Hw|apply same_shape_refl].
  destruct k; cbn in Hl; try discriminate; unfold next; cbn.
  - destruct (mat_Set m r c v) as [m'| |] eqn:E; cbn; [apply (Set_any m r c v m' Hz Hw E)|split; [exact Hw|apply same_shape_refl]..].
  - destruct (UpdateP_cases m r c f) as [-> |[[-> _]|(m' & -> & E)]]; cbn; [split; [exact Hw|apply same_shape_refl]..|].
    apply (Update_any m r c _ m' Hz Hw E).
Qed.
(** an unlocked call sees only the shape *)
Lemma result_shape k m m' : guarded k -> lock_of k = LNone -> same_shape m m' -> result k m' = result k m.
Proof.
  intros Hg Hl (S1 & S2 & S3). unfold result. destruct k; cbn in *; try tauto; try discriminate.
  - rewrite S2. reflexivity.
  - rewrite S3. reflexivity.
  - destruct m, m'; cbn in S1; try discriminate; cbn -[wrap] in *; unfold csr_Size, csc_Size, dm_Size, dv_Size, sv_Size, csr_Rows, csr_Columns, csc_Rows, csc_Columns, dm_Rows, dm_Columns, dv_Rows, sv_Rows in *; rewrite ?S2, ?S3; reflexivity.
Qed.

(** a call ends if the functions it is given do *)
Definition ends (k : mcall) : Prop := match k with MRead g => forall m, g m <> Diverge | _ => True end.
Lemma AtVec_ends m r : wf m -> mat_AtVec m r <> Diverge.
Proof.
  intros Hw. destruct (Z_le_dec 0 r), (Z_lt_dec r (mat_Rows m)).
  2-4: rewrite (AtVec_panic m r Hw) by lia; discriminate.
  destruct m as [s|s|s|s|s]; try discriminate.
  - destruct (AtVec_total (MDV s) r Hw Logic.I ltac:(lia)) as (v & ->). discriminate.
  - destruct (AtVec_total (MSV s) r Hw Logic.I ltac:(lia)) as (v & ->). discriminate.
Qed.
Lemma body_ends k m : zero_ok N -> wf m -> guarded k -> ends k -> body k m <> Diverge.
Proof.
  intros Hz Hw Hg He. destruct k; cbn in *; try tauto; try discriminate.
  - destruct (inb_dec m r c) as [Hb|Hb]; [rewrite At_ok by auto; discriminate|].
    destruct m as [s|s|s|s|s]; try (rewrite At_panic by (auto; discriminate); discriminate).
    cbn. unfold dv_At. pose proof (AtVec_ends (MDV s) r Hw) as K. cbn in K. destruct (dv_AtVec s r); cbn; congruence.
  - destruct (inb_dec m r c) as [Hb|Hb]; [rewrite Element_ok by auto; discriminate|].
    destruct m as [s|s|s|s|s]; try (rewrite Element_panic by (auto; exact Logic.I); discriminate).
    + cbn. unfold dv_Element. pose proof (AtVec_ends (MDV s) r Hw) as K. cbn in K. destruct (dv_AtVec s r); cbn; congruence.
    + cbn. unfold sv_Element. pose proof (AtVec_ends (MSV s) r Hw) as K. cbn in K. destruct (sv_AtVec s r); cbn; congruence.
  - destruct (Z_le_dec 0 c), (Z_lt_dec c (mat_Columns m)).
    2-4: rewrite ColumnsAt_panic by (auto; lia); discriminate.
    destruct (ColumnsAt_total m c Hz Hw ltac:(lia)) as (v & ->). discriminate.
  - destruct (Z_le_dec 0 r), (Z_lt_dec r (mat_Rows m)).
    2-4: rewrite (proj1 (RowsAt_panic m r Hw ltac:(lia))); discriminate.
    destruct (RowsAt_total m r Hz Hw ltac:(lia)) as (v & ->). discriminate.
  - destruct (Z_le_dec 0 r), (Z_lt_dec r (mat_Rows m)).
    2-4: rewrite (proj2 (RowsAt_panic m r Hw ltac:(lia))); discriminate.
    rewrite RowsAtToArray_ok by auto. discriminate.
  - rewrite Copy_ok by auto. discriminate.
  - specialize (He m). destruct (g m); cbn; congruence.
  - destruct (inb_dec m r c) as [Hb|Hb]; [|rewrite Set_panic by auto; discriminate].
    destruct (Set_wf m r c v Hz Hw Hb) as (m' & -> & _). discriminate.
  - destruct (UpdateP_cases m r c f) as [-> |[[-> E]|(m' & -> & E)]]; try discriminate. exfalso.
    destruct (inb_dec m r c) as [Hb|Hb]; [|rewrite Update_panic in E by auto; discriminate].
    destruct (Update_wf m r c (total f) Hz Hw Hb) as (m' & E' & _). congruence.
Qed.

(** ** The invariant *)
Notation gor := (gor N).
Implicit Types g : gor.
Implicit Types h : list (nat * mcall).

Definition call_of (p : pc N) : option mcall :=
  match p with In k | Got k _ | Fin k _ => Some k | _ => None end.
Definition rdp (p : pc N) : nat := match call_of p with Some k => match lock_of k with LRead => 1%nat | _ => 0%nat end | None => 0%nat end.
Definition winp (p : pc N) : nat := match call_of p with Some k => match lock_of k with LWrite => 1%nat | _ => 0%nat end | None => 0%nat end.
Definition wrp (p : pc N) : nat := match p with Ann _ => 1%nat | _ => winp p end.
(** goroutines inside a call with the read lock; inside one with the write lock; and
    those or waiting for the readers to leave *)
Definition rd g : nat := rdp (g_pc g).
Definition win g : nat := winp (g_pc g).
Definition wr g : nat := wrp (g_pc g).
Lemma rd_at g : rd g = rdp (g_pc g). Proof. reflexivity. Qed.
Lemma win_at g : win g = winp (g_pc g). Proof. reflexivity. Qed.
Lemma wr_at g : wr g = wrp (g_pc g). Proof. reflexivity. Qed.
Fixpoint total_of (f : gor -> nat) (l : list gor) : nat := match l with [] => 0%nat | g :: rest => (f g + total_of f rest)%nat end.

Lemma total_of_set f l i g g' : nth_error l i = Some g ->
  (total_of f (list_set l i g') + f g = total_of f l + f g')%nat.
Proof.
  revert i. induction l as [|a l IH]; intros [|i] H; cbn in *; try discriminate.
  - inversion H; subst. lia.
  - specialize (IH i H). lia.
Qed.
Lemma total_of_ge f l i g : nth_error l i = Some g -> (f g <= total_of f l)%nat.
Proof. revert i. induction l as [|a l IH]; intros [|i] H; cbn in *; try discriminate; [inversion H; subst; lia|specialize (IH i H); lia]. Qed.
Lemma total_of_two f l i j g g' : nth_error l i = Some g -> nth_error l j = Some g' -> i <> j -> (f g + f g' <= total_of f l)%nat.
Proof.
  revert i j. induction l as [|a l IH]; intros [|i] [|j] H H' D; cbn in *; try discriminate; try congruence.
  - inversion H; subst. pose proof (total_of_ge f l j g' H'). lia.
  - inversion H'; subst. pose proof (total_of_ge f l i g H). lia.
  - specialize (IH i j H H' ltac:(congruence)). lia.
Qed.

Lemma sequential_snoc h i k m : sequential (h ++ [(i, k)]) m =
  (next k (fst (sequential h m)), snd (sequential h m) ++ [(i, (k, result k (fst (sequential h m))))]).
Proof.
  revert m. induction h as [|[j k'] h IH]; intros m; [reflexivity|]. cbn [app sequential].
  rewrite IH. destruct (sequential h (next k' m)); reflexivity.
Qed.
Lemma of_app {A} i (l1 l2 : list (nat * A)) : of_goroutine i (l1 ++ l2) = of_goroutine i l1 ++ of_goroutine i l2.
Proof. unfold of_goroutine. rewrite filter_app, map_app. reflexivity. Qed.
Lemma of_one {A} i j (a : A) : of_goroutine i [(j, a)] = if Nat.eqb j i then [a] else [].
Proof. unfold of_goroutine. cbn. destruct (Nat.eqb j i); reflexivity. Qed.

Definition owed (m : mat) (p : pc N) : list (mcall * option (ret N)) :=
  match p with
  | Out | Ann _ => []
  | In k | Got k _ => [(k, result k m)]
  | Fin k o => [(k, o)]
  end.
Definition waiting (p : pc N) : list mcall := match p with Ann k => [k] | _ => [] end.
(** a call that holds the write lock and has not yet changed the object *)
Definition pending g (k : mcall) : Prop := (g_pc g = In k \/ exists m, g_pc g = Got k m) /\ lock_of k = LWrite.

Record inv (m0 : mat) (progs : list (list mcall)) h (x : state) : Prop := MkInv {
  v_wf : wf (s_mat x);
  v_shape : same_shape m0 (s_mat x);
  v_readers : rw_readers (s_rw x) = total_of rd (s_gs x);
  v_writer : (if rw_writer (s_rw x) then 1 else 0)%nat = total_of wr (s_gs x);
  v_excl : (total_of win (s_gs x) > 0)%nat -> total_of rd (s_gs x) = 0%nat;
  v_pend : forall i g k, nth_error (s_gs x) i = Some g -> pending g k -> fst (sequential h m0) = next k (s_mat x);
  v_quiet : (forall i g k, nth_error (s_gs x) i = Some g -> ~ pending g k) -> fst (sequential h m0) = s_mat x;
  v_out : forall i g, nth_error (s_gs x) i = Some g -> of_goroutine i (snd (sequential h m0)) = g_out g ++ owed (s_mat x) (g_pc g);
  v_got : forall i g k m, nth_error (s_gs x) i = Some g -> g_pc g = Got k m -> wf m /\ same_shape m0 m /\ (lock_of k <> LNone -> m = s_mat x);
  v_guard : forall i g k, nth_error (s_gs x) i = Some g -> call_of (g_pc g) = Some k \/ g_pc g = Ann k -> guarded k;
  v_prog : forall i, nth_error progs i = option_map (fun g => of_goroutine i h ++ waiting (g_pc g) ++ g_todo g) (nth_error (s_gs x) i);
}.

Lemma pend_dec (l : list gor) : (exists i g k, nth_error l i = Some g /\ pending g k) \/ (forall i g k, nth_error l i = Some g -> ~ pending g k).
Proof.
  induction l as [|a l [(i & g & k & H & P)|IH]].
  - right. intros [|i] g k H; discriminate.
  - left. exists (S i), g, k. auto.
  - destruct (g_pc a) as [| | k|k m|] eqn:E.
    1,2,5: right; intros [|i] g k' H P; [inversion H; subst; destruct P as [[P|[m P]] _]; congruence|exact (IH i g k' H P)].
    + destruct (lock_of k) eqn:L.
      1,2: right; intros [|i] g k' H P; [inversion H; subst; destruct P as [[P|[m P]] L']; congruence|exact (IH i g k' H P)].
      left. exists 0%nat, a, k. split; [reflexivity|split; [auto|exact L]].
    + destruct (lock_of k) eqn:L.
      1,2: right; intros [|i] g k' H P; [inversion H; subst; destruct P as [[P|[m' P]] L']; congruence|exact (IH i g k' H P)].
      left. exists 0%nat, a, k. split; [reflexivity|split; [eauto|exact L]].
Qed.
Lemma pending_win g k : pending g k -> win g = 1%nat /\ wr g = 1%nat.
Proof. intros [[P|[m P]] L]; unfold wr, win; rewrite P; unfold wrp, winp; cbn [call_of]; rewrite L; auto. Qed.

Lemma nth_set {A} (l : list A) i a b : nth_error l i = Some a -> forall j c, nth_error (list_set l i b) j = Some c ->
  (j = i /\ c = b) \/ (j <> i /\ nth_error l j = Some c).
Proof.
  intros H j c. assert (i < length l)%nat by (apply nth_error_Some; congruence).
  destruct (Nat.eq_dec j i) as [-> |D]; [rewrite nth_error_list_set_eq by assumption|rewrite nth_error_list_set_neq by congruence]; intros E; [left; split; congruence|right; auto].
Qed.
Lemma nth_set_map {A B} (f : nat -> A -> B) (l : list A) i a b : nth_error l i = Some a -> f i b = f i a ->
  forall j, option_map (f j) (nth_error (list_set l i b) j) = option_map (f j) (nth_error l j).
Proof.
  intros H E j. assert (i < length l)%nat by (apply nth_error_Some; congruence).
  destruct (Nat.eq_dec j i) as [-> |D]; [rewrite nth_error_list_set_eq, H by assumption; cbn; congruence|rewrite nth_error_list_set_neq by congruence; reflexivity].
Qed.

Definition added (lb : label) : list (nat * mcall) := match lb with Acq i k => [(i, k)] | Tau => [] end.

Ltac tots H g' Hp Hl :=
  let Er := fresh "Er" in let Ew := fresh "Ew" in let Ea := fresh "Ea" in
  pose proof (total_of_set rd _ _ _ g' H) as Er; pose proof (total_of_set win _ _ _ g' H) as Ew; pose proof (total_of_set wr _ _ _ g' H) as Ea;
  rewrite !rd_at in Er; rewrite !win_at in Ew; rewrite !wr_at in Ea; cbn [g_pc] in Er, Ew, Ea; rewrite Hp in Er, Ew, Ea;
  unfold wrp, winp, rdp in Er, Ew, Ea; cbn [call_of] in Er, Ew, Ea; rewrite ?Hl in Er, Ew, Ea.
Section Step.
Variable m0 : mat.
Variable progs : list (list mcall).
Hypothesis Hz : zero_ok N.
Hypothesis Hg : forall p k, List.In p progs -> List.In k p -> guarded k.

Lemma todo_guarded h x i g k rest : inv m0 progs h x -> nth_error (s_gs x) i = Some g -> g_todo g = k :: rest -> guarded k.
Proof.
  intros I H E. pose proof (v_prog _ _ _ _ I i) as P. rewrite H in P. cbn in P.
  apply (Hg _ k (nth_error_In _ _ P)). rewrite E, !in_app_iff. cbn. auto.
Qed.


Ltac neq_false := match goal with |- context [Nat.eqb ?a ?b] => replace (Nat.eqb a b) with false by (symmetry; apply Nat.eqb_neq; congruence) end.

Lemma now_wf h x : inv m0 progs h x -> wf (fst (sequential h m0)) /\ same_shape (s_mat x) (fst (sequential h m0)).
Proof.
  intros I. destruct (pend_dec (s_gs x)) as [(j & g' & k' & E & P)|Q].
  - rewrite (v_pend _ _ _ _ I j g' k' E P). apply next_wf; auto; [apply (v_wf _ _ _ _ I)|]. apply (v_guard _ _ _ _ I j g' k' E). left. destruct P as [[P|[m P]] _]; rewrite P; reflexivity.
  - rewrite (v_quiet _ _ _ _ I Q). split; [apply (v_wf _ _ _ _ I)|apply same_shape_refl].
Qed.

(** entering a call that does not write *)
Lemma inv_enter h x i g k rest l : inv m0 progs h x -> nth_error (s_gs x) i = Some g -> g_pc g = Out -> g_todo g = k :: rest ->
  (lock_of k = LNone /\ l = s_rw x) \/ (lock_of k = LRead /\ rlock (s_rw x) = Some l) ->
  inv m0 progs (h ++ [(i, k)]) (at_pc x i (In k) rest (g_out g) (s_mat x) l).
Proof.
  intros I H Hp Ht Hl. pose proof (todo_guarded h x i g k rest I H Ht) as Hk.
  assert (Hnw : lock_of k <> LWrite) by (destruct Hl as [[L _]|[L _]]; congruence).
  destruct (now_wf h x I) as [W3 W4].
  assert (Hres : result k (fst (sequential h m0)) = result k (s_mat x)).
  { destruct Hl as [[L _]|[L E]]; [apply result_shape; auto|].
    rewrite (v_quiet _ _ _ _ I); [reflexivity|]. intros j g' k' E' P. apply pending_win in P as [_ P].
    pose proof (total_of_ge wr _ _ _ E'). pose proof (v_writer _ _ _ _ I). unfold rlock in E. destruct (rw_writer (s_rw x)); [discriminate|]. lia. }
  assert (NP : forall k', ~ pending (MkGor (In k) rest (g_out g)) k').
  { intros k' [[P|[m P]] L]; cbn in P; congruence. }
  assert (Hlock : rw_readers l = total_of rd (list_set (s_gs x) i (MkGor (In k) rest (g_out g))) /\
     (if rw_writer l then 1 else 0)%nat = total_of wr (list_set (s_gs x) i (MkGor (In k) rest (g_out g))) /\
     ((total_of win (list_set (s_gs x) i (MkGor (In k) rest (g_out g))) > 0)%nat -> total_of rd (list_set (s_gs x) i (MkGor (In k) rest (g_out g))) = 0%nat)).
  { pose proof (v_readers _ _ _ _ I) as R1. pose proof (v_writer _ _ _ _ I) as R2. pose proof (v_excl _ _ _ _ I) as R3.
    destruct Hl as [[L ->]|[L E]]; tots H (MkGor (In k) rest (g_out g)) Hp L.
    - repeat split; lia.
    - unfold rlock in E. destruct (rw_writer (s_rw x)); [discriminate|]. inversion E; subst l. cbn.
      assert (total_of win (s_gs x) <= total_of wr (s_gs x))%nat.
      { clear. induction (s_gs x) as [|a l IH]; [cbn; lia|]. cbn. assert (win a <= wr a)%nat by (unfold win, wr, wrp, winp; destruct (g_pc a); cbn; lia). lia. }
      repeat split; lia. }
  destruct Hlock as (L1 & L2 & L3).
  constructor; cbn [at_pc s_mat s_rw s_gs].
  - apply (v_wf _ _ _ _ I).
  - apply (v_shape _ _ _ _ I).
  - exact L1.
  - exact L2.
  - exact L3.
  - intros j g' k' E P. rewrite sequential_snoc. cbn [fst]. rewrite next_read by auto.
    destruct (nth_set _ _ _ _ H j g' E) as [[-> ->]|[D E']]; [edestruct NP; eauto|]. apply (v_pend _ _ _ _ I j g' k' E' P).
  - intros Q. rewrite sequential_snoc. cbn [fst]. rewrite next_read by auto. apply (v_quiet _ _ _ _ I).
    intros j g' k' E P. destruct (Nat.eq_dec j i) as [-> |D].
    + destruct P as [[P|[m P]] L]; congruence.
    + apply (Q j g' k'); [rewrite nth_error_list_set_neq by congruence; exact E|exact P].
  - intros j g' E. rewrite sequential_snoc. cbn [snd]. rewrite of_app, of_one, Hres.
    destruct (nth_set _ _ _ _ H j g' E) as [[-> ->]|[D E']].
    + rewrite (v_out _ _ _ _ I i g H), Hp, Nat.eqb_refl. cbn. rewrite app_nil_r. reflexivity.
    + rewrite (v_out _ _ _ _ I j g' E'). neq_false. apply app_nil_r.
  - intros j g' k' m E P. destruct (nth_set _ _ _ _ H j g' E) as [[-> ->]|[D E']]; [discriminate P|]. apply (v_got _ _ _ _ I j g' k' m E' P).
  - intros j g' k' E P. destruct (nth_set _ _ _ _ H j g' E) as [[-> ->]|[D E']]; [cbn in P; destruct P as [P|P]; [congruence|discriminate]|]. apply (v_guard _ _ _ _ I j g' k' E' P).
  - intros j. rewrite (v_prog _ _ _ _ I j). destruct (Nat.eq_dec j i) as [-> |D].
    + rewrite nth_error_list_set_eq, H by (apply nth_error_Some; congruence). cbn. rewrite Hp, Ht, of_app, of_one, Nat.eqb_refl. cbn. rewrite <- app_assoc. reflexivity.
    + rewrite nth_error_list_set_neq by congruence. destruct (nth_error (s_gs x) j); [|reflexivity]. cbn. rewrite of_app, of_one. neq_false. rewrite app_nil_r. reflexivity.
Qed.

Lemma inv_announce h x i g k rest l : inv m0 progs h x -> nth_error (s_gs x) i = Some g -> g_pc g = Out -> g_todo g = k :: rest -> lock_of k = LWrite ->
  announce (s_rw x) = Some l ->
  inv m0 progs h (at_pc x i (Ann k) rest (g_out g) (s_mat x) l).
Proof.
  intros I H Hp Ht Hl A. pose proof (todo_guarded h x i g k rest I H Ht) as Hk.
  pose proof (v_readers _ _ _ _ I) as R1. pose proof (v_writer _ _ _ _ I) as R2. pose proof (v_excl _ _ _ _ I) as R3.
  tots H (MkGor (Ann k) rest (g_out g)) Hp Hl. unfold announce in A. destruct (rw_writer (s_rw x)); [discriminate|]. inversion A; subst l.
  constructor; cbn [at_pc s_mat s_rw s_gs rw_readers rw_writer].
  - apply (v_wf _ _ _ _ I).
  - apply (v_shape _ _ _ _ I).
  - lia.
  - lia.
  - lia.
  - intros j g' k' E P. destruct (nth_set _ _ _ _ H j g' E) as [[-> ->]|[D E']]; [destruct P as [[P|[m P]] L]; discriminate|]. apply (v_pend _ _ _ _ I j g' k' E' P).
  - intros Q. apply (v_quiet _ _ _ _ I). intros j g' k' E P. destruct (Nat.eq_dec j i) as [-> |D].
    + destruct P as [[P|[m P]] L]; congruence.
    + apply (Q j g' k'); [rewrite nth_error_list_set_neq by congruence; exact E|exact P].
  - intros j g' E. destruct (nth_set _ _ _ _ H j g' E) as [[-> ->]|[D E']].
    + rewrite (v_out _ _ _ _ I i g H), Hp. reflexivity.
    + apply (v_out _ _ _ _ I j g' E').
  - intros j g' k' m E P. destruct (nth_set _ _ _ _ H j g' E) as [[-> ->]|[D E']]; [discriminate P|]. apply (v_got _ _ _ _ I j g' k' m E' P).
  - intros j g' k' E P. destruct (nth_set _ _ _ _ H j g' E) as [[-> ->]|[D E']]; [cbn in P; destruct P as [P|P]; [discriminate|congruence]|]. apply (v_guard _ _ _ _ I j g' k' E' P).
  - intros j. rewrite (v_prog _ _ _ _ I j). symmetry. apply (nth_set_map (fun j g => of_goroutine j h ++ waiting (g_pc g) ++ g_todo g) _ _ _ _ H). cbn. rewrite Hp, Ht. reflexivity.
Qed.

Lemma others_quiet h x i g : inv m0 progs h x -> nth_error (s_gs x) i = Some g -> wr g = 1%nat ->
  forall j g', j <> i -> nth_error (s_gs x) j = Some g' -> wr g' = 0%nat.
Proof.
  intros I H W j g' D E. pose proof (total_of_two wr _ _ _ _ _ H E ltac:(congruence)). pose proof (v_writer _ _ _ _ I). destruct (rw_writer (s_rw x)); lia.
Qed.

Lemma inv_lock h x i g k : inv m0 progs h x -> nth_error (s_gs x) i = Some g -> g_pc g = Ann k -> lock_of k = LWrite -> no_readers (s_rw x) = true ->
  inv m0 progs (h ++ [(i, k)]) (at_pc x i (In k) (g_todo g) (g_out g) (s_mat x) (s_rw x)).
Proof.
  intros I H Hp Hl A. pose proof (v_guard _ _ _ _ I i g k H (or_intror Hp)) as Hk.
  pose proof (v_readers _ _ _ _ I) as R1. pose proof (v_writer _ _ _ _ I) as R2. apply Nat.eqb_eq in A.
  tots H (MkGor (In k) (g_todo g) (g_out g)) Hp Hl.
  assert (Q0 : forall j g' k', nth_error (s_gs x) j = Some g' -> ~ pending g' k').
  { intros j g' k' E P. destruct (Nat.eq_dec j i) as [-> |D].
    - destruct P as [[P|[m P]] L]; congruence.
    - apply pending_win in P as [_ P]. rewrite (others_quiet h x i g I H ltac:(rewrite wr_at, Hp; reflexivity) j g' D E) in P. discriminate. }
  pose proof (v_quiet _ _ _ _ I Q0) as Hm.
  constructor; cbn [at_pc s_mat s_rw s_gs].
  - apply (v_wf _ _ _ _ I).
  - apply (v_shape _ _ _ _ I).
  - lia.
  - lia.
  - lia.
  - intros j g' k' E P. rewrite sequential_snoc. cbn [fst]. rewrite Hm.
    destruct (nth_set _ _ _ _ H j g' E) as [[-> ->]|[D E']]; [destruct P as [[P|[m P]] L]; cbn in P; congruence|]. edestruct Q0; eauto.
  - intros Q. edestruct (Q i); [apply nth_error_list_set_eq, nth_error_Some; congruence|]. split; [left; reflexivity|exact Hl].
  - intros j g' E. rewrite sequential_snoc. cbn [snd]. rewrite of_app, of_one, Hm.
    destruct (nth_set _ _ _ _ H j g' E) as [[-> ->]|[D E']].
    + rewrite (v_out _ _ _ _ I i g H), Hp, Nat.eqb_refl. cbn. rewrite app_nil_r. reflexivity.
    + rewrite (v_out _ _ _ _ I j g' E'). neq_false. apply app_nil_r.
  - intros j g' k' m E P. destruct (nth_set _ _ _ _ H j g' E) as [[-> ->]|[D E']]; [discriminate P|]. apply (v_got _ _ _ _ I j g' k' m E' P).
  - intros j g' k' E P. destruct (nth_set _ _ _ _ H j g' E) as [[-> ->]|[D E']]; [cbn in P; destruct P as [P|P]; [congruence|discriminate]|]. apply (v_guard _ _ _ _ I j g' k' E' P).
  - intros j. rewrite (v_prog _ _ _ _ I j). destruct (Nat.eq_dec j i) as [-> |D].
    + rewrite nth_error_list_set_eq, H by (apply nth_error_Some; congruence). cbn. rewrite Hp, of_app, of_one, Nat.eqb_refl. cbn. rewrite <- app_assoc. reflexivity.
    + rewrite nth_error_list_set_neq by congruence. destruct (nth_error (s_gs x) j); [|reflexivity]. cbn. rewrite of_app, of_one. neq_false. rewrite app_nil_r. reflexivity.
Qed.

Lemma inv_read h x i g k : inv m0 progs h x -> nth_error (s_gs x) i = Some g -> g_pc g = In k ->
  inv m0 progs h (at_pc x i (Got k (s_mat x)) (g_todo g) (g_out g) (s_mat x) (s_rw x)).
Proof.
  intros I H Hp. pose proof (v_guard _ _ _ _ I i g k H ltac:(left; rewrite Hp; reflexivity)) as Hk.
  pose proof (v_readers _ _ _ _ I) as R1. pose proof (v_writer _ _ _ _ I) as R2. pose proof (v_excl _ _ _ _ I) as R3.
  tots H (MkGor (Got k (s_mat x)) (g_todo g) (g_out g)) Hp Hp.
  constructor; cbn [at_pc s_mat s_rw s_gs].
  - apply (v_wf _ _ _ _ I).
  - apply (v_shape _ _ _ _ I).
  - lia.
  - lia.
  - lia.
  - intros j g' k' E P. destruct (nth_set _ _ _ _ H j g' E) as [[-> ->]|[D E']]; [|apply (v_pend _ _ _ _ I j g' k' E' P)].
    apply (v_pend _ _ _ _ I i g k' H). destruct P as [[P|[m P]] L]; cbn in P; [discriminate|]. inversion P; subst. split; auto.
  - intros Q. apply (v_quiet _ _ _ _ I). intros j g' k' E P. destruct (Nat.eq_dec j i) as [-> |D].
    + edestruct (Q i); [apply nth_error_list_set_eq, nth_error_Some; congruence|]. split; [right; cbn; eauto|]. destruct P as [[P|[m P]] L]; congruence.
    + apply (Q j g' k'); [rewrite nth_error_list_set_neq by congruence; exact E|exact P].
  - intros j g' E. destruct (nth_set _ _ _ _ H j g' E) as [[-> ->]|[D E']].
    + rewrite (v_out _ _ _ _ I i g H), Hp. reflexivity.
    + apply (v_out _ _ _ _ I j g' E').
  - intros j g' k' m E P. destruct (nth_set _ _ _ _ H j g' E) as [[-> ->]|[D E']]; [|apply (v_got _ _ _ _ I j g' k' m E' P)].
    cbn in P. inversion P; subst. repeat split; [apply (v_wf _ _ _ _ I)|apply (v_shape _ _ _ _ I)..].
  - intros j g' k' E P. destruct (nth_set _ _ _ _ H j g' E) as [[-> ->]|[D E']]; [cbn in P; destruct P as [P|P]; [congruence|discriminate]|]. apply (v_guard _ _ _ _ I j g' k' E' P).
  - intros j. rewrite (v_prog _ _ _ _ I j). symmetry. apply (nth_set_map (fun j g => of_goroutine j h ++ waiting (g_pc g) ++ g_todo g) _ _ _ _ H). cbn. rewrite Hp. reflexivity.
Qed.

(** the body ends, with or without a panic *)
Lemma inv_end h x i g k m o m' : inv m0 progs h x -> nth_error (s_gs x) i = Some g -> g_pc g = Got k m ->
  (exists v m1, body k m = Ok (v, m1) /\ o = Some v /\ m' = if stores k then m1 else s_mat x) \/ (body k m = Panic /\ o = None /\ m' = s_mat x) ->
  inv m0 progs h (at_pc x i (Fin k o) (g_todo g) (g_out g) m' (s_rw x)).
Proof.
  intros I H Hp B. pose proof (v_guard _ _ _ _ I i g k H ltac:(left; rewrite Hp; reflexivity)) as Hk.
  destruct (v_got _ _ _ _ I i g k m H Hp) as (G1 & G2 & G3).
  pose proof (v_wf _ _ _ _ I) as W0. pose proof (v_shape _ _ _ _ I) as S0.
  assert (Ho : o = result k (s_mat x)).
  { assert (o = result k m) as -> by (unfold result; destruct B as [(v & m1 & -> & -> & _)|(-> & -> & _)]; reflexivity).
    destruct (lock_of k) eqn:L; [apply result_shape; auto; eapply same_shape_trans; [apply same_shape_sym; exact S0|exact G2]|rewrite G3 by discriminate; reflexivity..]. }
  assert (Hm : m' = next k (s_mat x)).
  { destruct (lock_of k) eqn:L.
    - rewrite next_read by (auto; congruence). destruct B as [(v & m1 & _ & _ & ->)|(_ & _ & ->)]; [|reflexivity]. destruct k; cbn in L, Hk |- *; try discriminate; try reflexivity; tauto.
    - rewrite G3 in B by discriminate. rewrite next_read by (auto; congruence). destruct B as [(v & m1 & E & _ & ->)|(_ & _ & ->)]; [|reflexivity]. destruct (stores k); [|reflexivity]. eapply read_pure; eauto. congruence.
    - rewrite G3 in B by discriminate. unfold next. destruct B as [(v & m1 & -> & _ & ->)|(-> & _ & ->)]; [|reflexivity]. destruct k; cbn in L |- *; try discriminate; reflexivity. }
  destruct (next_wf k (s_mat x) Hz W0 Hk) as [W1 S1]. rewrite <- Hm in W1, S1.
  pose proof (v_readers _ _ _ _ I) as R1. pose proof (v_writer _ _ _ _ I) as R2. pose proof (v_excl _ _ _ _ I) as R3.
  assert (Hoth : lock_of k = LWrite -> forall j g', j <> i -> nth_error (s_gs x) j = Some g' -> wr g' = 0%nat /\ rd g' = 0%nat).
  { intros L j g' D E. split.
    - apply (others_quiet h x i g I H ltac:(rewrite wr_at, Hp; cbn; rewrite L; reflexivity) j g' D E).
    - pose proof (total_of_ge win _ _ _ H) as T. rewrite win_at, Hp in T. unfold winp in T. cbn in T. rewrite L in T. pose proof (total_of_ge rd _ _ _ E). lia. }
  assert (Hsame : lock_of k <> LWrite -> m' = s_mat x) by (intros L; rewrite Hm; apply next_read; auto).
  tots H (MkGor (Fin k o) (g_todo g) (g_out g)) Hp Hp.
  constructor; cbn [at_pc s_mat s_rw s_gs].
  - exact W1.
  - eapply same_shape_trans; eauto.
  - lia.
  - lia.
  - lia.
  - intros j g' k' E P. destruct (nth_set _ _ _ _ H j g' E) as [[-> ->]|[D E']]; [destruct P as [[P|[m2 P]] L]; discriminate|].
    rewrite (v_pend _ _ _ _ I j g' k' E' P). apply pending_win in P as [_ P]. destruct (lock_of k) eqn:L; [rewrite Hsame by discriminate; reflexivity..|].
    destruct (Hoth eq_refl j g' D E'). congruence.
  - intros Q. destruct (lock_of k) eqn:L.
    1,2: rewrite Hsame by discriminate; apply (v_quiet _ _ _ _ I); intros j g' k' E P; destruct (Nat.eq_dec j i) as [-> |D];
      [destruct P as [[P|[m2 P]] L2]; congruence|apply (Q j g' k'); [rewrite nth_error_list_set_neq by congruence; exact E|exact P]].
    rewrite Hm. apply (v_pend _ _ _ _ I i g k H). split; eauto.
  - intros j g' E. destruct (nth_set _ _ _ _ H j g' E) as [[-> ->]|[D E']].
    + rewrite (v_out _ _ _ _ I i g H), Hp. cbn. rewrite Ho. reflexivity.
    + rewrite (v_out _ _ _ _ I j g' E'). f_equal. destruct (lock_of k) eqn:L; [rewrite Hsame by discriminate; reflexivity..|].
      destruct (Hoth eq_refl j g' D E') as [O1 O2]. rewrite wr_at in O1. rewrite rd_at in O2. unfold wrp, winp in O1. unfold rdp in O2.
      pose proof (v_guard _ _ _ _ I j g') as Gk. destruct (g_pc g') as [| | k2|k2 m2|]; try reflexivity; cbn in O1, O2 |- *;
        (destruct (lock_of k2) eqn:L2; try discriminate; rewrite (result_shape k2 (s_mat x) m') by (auto; apply Gk; auto); reflexivity).
  - intros j g' k' m2 E P. destruct (nth_set _ _ _ _ H j g' E) as [[-> ->]|[D E']]; [discriminate P|].
    destruct (v_got _ _ _ _ I j g' k' m2 E' P) as (A1 & A2 & A3). repeat split; try apply A2; [exact A1|]. intros L'. rewrite (A3 L').
    destruct (lock_of k) eqn:L; [rewrite Hsame by discriminate; reflexivity..|].
    destruct (Hoth eq_refl j g' D E') as [O1 O2]. rewrite wr_at, P in O1. rewrite rd_at, P in O2. unfold wrp, winp in O1. unfold rdp in O2. cbn in O1, O2. destruct (lock_of k'); congruence.
  - intros j g' k' E P. destruct (nth_set _ _ _ _ H j g' E) as [[-> ->]|[D E']]; [cbn in P; destruct P as [P|P]; [congruence|discriminate]|]. apply (v_guard _ _ _ _ I j g' k' E' P).
  - intros j. rewrite (v_prog _ _ _ _ I j). symmetry. apply (nth_set_map (fun j g => of_goroutine j h ++ waiting (g_pc g) ++ g_todo g) _ _ _ _ H). cbn. rewrite Hp. reflexivity.
Qed.

Lemma inv_leave h x i g k o : inv m0 progs h x -> nth_error (s_gs x) i = Some g -> g_pc g = Fin k o ->
  inv m0 progs h (at_pc x i Out (g_todo g) (g_out g ++ [(k, o)]) (s_mat x)
    (match lock_of k with LNone => s_rw x | LRead => runlock (s_rw x) | LWrite => unlock (s_rw x) end)).
Proof.
  intros I H Hp.
  pose proof (v_readers _ _ _ _ I) as R1. pose proof (v_writer _ _ _ _ I) as R2. pose proof (v_excl _ _ _ _ I) as R3.
  tots H (MkGor Out (g_todo g) (g_out g ++ [(k, o)])) Hp Hp.
  constructor; cbn [at_pc s_mat s_rw s_gs].
  - apply (v_wf _ _ _ _ I).
  - apply (v_shape _ _ _ _ I).
  - destruct (lock_of k); cbn; lia.
  - destruct (lock_of k); cbn; destruct (rw_writer (s_rw x)); lia.
  - destruct (lock_of k); lia.
  - intros j g' k' E P. destruct (nth_set _ _ _ _ H j g' E) as [[-> ->]|[D E']]; [destruct P as [[P|[m P]] L]; discriminate|]. apply (v_pend _ _ _ _ I j g' k' E' P).
  - intros Q. apply (v_quiet _ _ _ _ I). intros j g' k' E P. destruct (Nat.eq_dec j i) as [-> |D].
    + destruct P as [[P|[m P]] L]; congruence.
    + apply (Q j g' k'); [rewrite nth_error_list_set_neq by congruence; exact E|exact P].
  - intros j g' E. destruct (nth_set _ _ _ _ H j g' E) as [[-> ->]|[D E']].
    + rewrite (v_out _ _ _ _ I i g H), Hp. cbn. rewrite app_nil_r. reflexivity.
    + apply (v_out _ _ _ _ I j g' E').
  - intros j g' k' m E P. destruct (nth_set _ _ _ _ H j g' E) as [[-> ->]|[D E']]; [discriminate P|]. apply (v_got _ _ _ _ I j g' k' m E' P).
  - intros j g' k' E P. destruct (nth_set _ _ _ _ H j g' E) as [[-> ->]|[D E']]; [cbn in P; destruct P as [P|P]; discriminate|]. apply (v_guard _ _ _ _ I j g' k' E' P).
  - intros j. rewrite (v_prog _ _ _ _ I j). symmetry. apply (nth_set_map (fun j g => of_goroutine j h ++ waiting (g_pc g) ++ g_todo g) _ _ _ _ H). cbn. rewrite Hp. reflexivity.
Qed.

Definition ann_ok x : Prop := forall i g k, nth_error (s_gs x) i = Some g -> g_pc g = Ann k -> lock_of k = LWrite.
Lemma ann_step x lb y : ann_ok x -> step x lb y -> ann_ok y.
Proof.
  intros A S. destruct S; intros j g' k' E P; cbn in E.
  all: match goal with H : nth_error (s_gs _) _ = Some _ |- _ => destruct (nth_set _ _ _ _ H _ _ E) as [[-> ->]|[D E']] end; [cbn in P; try discriminate|eapply A; eauto].
  inversion P; subst; assumption.
Qed.
Lemma inv_step h x lb y : inv m0 progs h x -> ann_ok x -> step x lb y -> inv m0 progs (h ++ added lb) y.
Proof.
  intros I A S. destruct S; cbn [added]; rewrite ?app_nil_r.
  - eapply inv_enter; eauto.
  - eapply inv_enter; eauto.
  - eapply inv_announce; eauto.
  - eapply inv_lock; eauto.
  - eapply inv_read; eauto.
  - eapply inv_end; eauto. left. eauto.
  - eapply inv_end; eauto.
  - eapply inv_leave; eauto.
Qed.
Hypothesis Hw0 : wf m0.
Lemma inv_begin : inv m0 progs [] (begin m0 progs).
Proof.
  assert (A : forall i g, nth_error (s_gs (begin m0 progs)) i = Some g -> g_pc g = Out /\ g_out g = []).
  { intros i g H. cbn in H. rewrite nth_error_map in H. destruct (nth_error progs i); inversion H; subst. auto. }
  assert (T : forall f, (forall p, f (MkGor Out p []) = 0%nat) -> total_of f (s_gs (begin m0 progs)) = 0%nat).
  { intros f Hf. cbn. clear -Hf. induction progs as [|a l IH]; [reflexivity|]. cbn. rewrite Hf, IH. reflexivity. }
  constructor; cbn [sequential fst snd].
  - exact Hw0.
  - apply same_shape_refl.
  - rewrite T; [reflexivity|]. reflexivity.
  - rewrite T; [reflexivity|]. reflexivity.
  - intros _. apply T. reflexivity.
  - intros i g k H P. apply A in H as [H _]. destruct P as [[P|[m P]] _]; congruence.
  - reflexivity.
  - intros i g H. apply A in H as [H1 H2]. rewrite H1, H2. reflexivity.
  - intros i g k m H P. apply A in H as [H _]. congruence.
  - intros i g k H P. apply A in H as [H _]. rewrite H in P. destruct P; discriminate.
  - intros i. cbn. rewrite nth_error_map. destruct (nth_error progs i); reflexivity.
Qed.
Lemma run_inv h x : run (begin m0 progs) h x -> inv m0 progs h x /\ ann_ok x.
Proof.
  induction 1 as [|h y i k z R [IH1 IH2] S|h y z R [IH1 IH2] S].
  - split; [apply inv_begin|]. intros i g k H P. cbn in H. rewrite nth_error_map in H. destruct (nth_error progs i); inversion H; subst; discriminate.
  - split; [apply (inv_step h y (Acq i k) z IH1 IH2 S)|eapply ann_step; eauto].
  - split; [rewrite <- (app_nil_r h); apply (inv_step h y Tau z IH1 IH2 S)|eapply ann_step; eauto].
Qed.

(** ** The theorems *)
Lemma inside_call x i k : inside x i k -> exists g, nth_error (s_gs x) i = Some g /\ call_of (g_pc g) = Some k.
Proof. intros (g & H & [P|[[m P]|[o P]]]); exists g; rewrite P; auto. Qed.

Lemma exclusion h x i j k k' : run (begin m0 progs) h x -> inside x i k -> inside x j k' -> i <> j ->
  lock_of k = LWrite -> lock_of k' = LNone.
Proof.
  intros R P Q D L. destruct (run_inv h x R) as [I _]. apply inside_call in P as (g & H & P). apply inside_call in Q as (g' & H' & Q).
  assert (W : win g = 1%nat) by (rewrite win_at; unfold winp; rewrite P, L; reflexivity).
  assert (W2 : wr g = 1%nat) by (rewrite wr_at; unfold wrp; destruct (g_pc g); try discriminate; unfold winp; rewrite P, L; reflexivity).
  destruct (lock_of k') eqn:L'; [reflexivity| |]; exfalso.
  - assert (W' : rd g' = 1%nat) by (rewrite rd_at; unfold rdp; rewrite Q, L'; reflexivity).
    pose proof (total_of_ge win _ _ _ H). pose proof (total_of_ge rd _ _ _ H'). pose proof (v_excl _ _ _ _ I). lia.
  - assert (W' : wr g' = 1%nat) by (rewrite wr_at; unfold wrp; destruct (g_pc g'); try discriminate; unfold winp; rewrite Q, L'; reflexivity).
    rewrite (others_quiet h x i g I H W2 j g' ltac:(congruence) H') in W'. discriminate.
Qed.

Lemma results_so_far h x i g : run (begin m0 progs) h x -> nth_error (s_gs x) i = Some g ->
  exists rest, of_goroutine i (snd (sequential h m0)) = g_out g ++ rest /\ (length rest <= 1)%nat /\ (g_pc g = Out -> rest = []).
Proof.
  intros R H. destruct (run_inv h x R) as [I _]. exists (owed (s_mat x) (g_pc g)). rewrite (v_out _ _ _ _ I i g H).
  split; [reflexivity|]. split; [destruct (g_pc g); cbn; lia|intros ->; reflexivity].
Qed.

Lemma quiescent h x : run (begin m0 progs) h x -> (forall i g, nth_error (s_gs x) i = Some g -> g_pc g = Out) ->
  fst (sequential h m0) = s_mat x /\
  forall i g, nth_error (s_gs x) i = Some g ->
    g_out g = of_goroutine i (snd (sequential h m0)) /\ nth_error progs i = Some (of_goroutine i h ++ g_todo g).
Proof.
  intros R Q. destruct (run_inv h x R) as [I _]. split.
  - apply (v_quiet _ _ _ _ I). intros i g k H [[P|[m P]] _]; rewrite (Q i g H) in P; discriminate.
  - intros i g H. split.
    + rewrite (v_out _ _ _ _ I i g H), (Q i g H). cbn. rewrite app_nil_r. reflexivity.
    + rewrite (v_prog _ _ _ _ I i), H. cbn. rewrite (Q i g H). reflexivity.
Qed.

(** *** Progress *)
Hypothesis He : forall p k, List.In p progs -> List.In k p -> ends k.
Lemma fst_sequential h m : map (fun p => (fst p, fst (snd p))) (snd (sequential h m)) = h.
Proof.
  revert m. induction h as [|[i k] h IH]; intros m; [reflexivity|]. cbn [sequential]. specialize (IH (next k m)).
  destruct (sequential h (next k m)). cbn in *. congruence.
Qed.
Lemma of_map {A B} (f : A -> B) i l : of_goroutine i (map (fun p => (fst p, f (snd p))) l) = map f (of_goroutine i l).
Proof. unfold of_goroutine. induction l as [|[j a] l IH]; [reflexivity|]. cbn. destruct (Nat.eqb j i); cbn; congruence. Qed.
Lemma inside_ends h x i g k : inv m0 progs h x -> nth_error (s_gs x) i = Some g -> call_of (g_pc g) = Some k -> ends k.
Proof.
  intros I H P. pose proof (v_prog _ _ _ _ I i) as Q. rewrite H in Q. cbn in Q. apply (He _ k (nth_error_In _ _ Q)).
  apply in_app_iff. left. rewrite <- (fst_sequential h m0), (of_map (fun p : mcall * option (ret N) => fst p)), (v_out _ _ _ _ I i g H), map_app, in_app_iff. right.
  destruct (g_pc g); cbn in P; inversion P; subst; cbn; auto.
Qed.
Definition finished g : Prop := g_pc g = Out /\ g_todo g = [].
Lemma progress h x : run (begin m0 progs) h x -> (exists lb y, step x lb y) \/ (forall i g, nth_error (s_gs x) i = Some g -> finished g).
Proof.
  intros R. destruct (run_inv h x R) as [I A].
  assert (C : (exists i g k, nth_error (s_gs x) i = Some g /\ call_of (g_pc g) = Some k) \/ (forall i g, nth_error (s_gs x) i = Some g -> call_of (g_pc g) = None)).
  { clear. induction (s_gs x) as [|a l [(i & g & k & H & P)|IH]].
    - right. intros [|i] g H; discriminate.
    - left. exists (S i), g, k. auto.
    - destruct (call_of (g_pc a)) as [k|] eqn:E; [left; exists 0%nat, a, k; auto|]. right. intros [|i] g H; [inversion H; subst; exact E|exact (IH i g H)]. }
  destruct C as [(i & g & k & H & P)|C].
  - left. destruct (g_pc g) as [| |k'|k' m|k' o] eqn:E; cbn in P; try discriminate; inversion P; subst k'.
    + eexists _, _. eapply st_read; eauto.
    + destruct (body k m) as [[v m']| |] eqn:B.
      * eexists _, _. eapply st_write; eauto.
      * eexists _, _. eapply st_panic; eauto.
      * exfalso. destruct (v_got _ _ _ _ I i g k m H E) as [G1 _]. apply (body_ends k m Hz G1); auto.
        -- apply (v_guard _ _ _ _ I i g k H). left. rewrite E. reflexivity.
        -- eapply inside_ends; eauto. rewrite E. reflexivity.
    + eexists _, _. eapply st_leave; eauto.
  - assert (R0 : rw_readers (s_rw x) = 0%nat).
    { rewrite (v_readers _ _ _ _ I). revert C. generalize (s_gs x). induction l as [|a l IH]; intros C; [reflexivity|]. cbn.
      rewrite rd_at. unfold rdp. rewrite (C 0%nat a eq_refl). rewrite IH; [reflexivity|]. intros i g H. apply (C (S i) g H). }
    destruct (rw_writer (s_rw x)) eqn:Wr.
    + pose proof (v_writer _ _ _ _ I) as W. rewrite Wr in W. left.
      assert (exists i g k, nth_error (s_gs x) i = Some g /\ g_pc g = Ann k) as (i & g & k & H & P).
      { revert C W. clear. generalize (s_gs x). induction l as [|a l IH]; intros C W; [discriminate|]. cbn in W. rewrite wr_at in W.
        destruct (g_pc a) as [|k| | |] eqn:E.
        2: exists 0%nat, a, k; auto.
        all: specialize (C 0%nat a eq_refl) as Ca; rewrite E in Ca; try discriminate.
        destruct IH as (i & g & k & H & P); [intros i g H; apply (C (S i) g H)|exact W|]. exists (S i), g, k. auto. }
      eexists _, _. eapply st_lock; eauto. unfold no_readers. rewrite R0. reflexivity.
    + assert (D : forall i g, nth_error (s_gs x) i = Some g -> g_pc g = Out).
      { intros i g H. specialize (C i g H). pose proof (v_writer _ _ _ _ I) as W. rewrite Wr in W. pose proof (total_of_ge wr _ _ _ H) as T. rewrite wr_at in T.
        destruct (g_pc g); cbn in *; try discriminate; [reflexivity|lia]. }
      assert (F : (exists i g k rest, nth_error (s_gs x) i = Some g /\ g_todo g = k :: rest) \/ (forall i g, nth_error (s_gs x) i = Some g -> g_todo g = [])).
      { clear. induction (s_gs x) as [|a l [(i & g & k & rest & H & P)|IH]].
        - right. intros [|i] g H; discriminate.
        - left. exists (S i), g, k, rest. auto.
        - destruct (g_todo a) as [|k rest] eqn:E; [|left; exists 0%nat, a, k, rest; auto]. right. intros [|i] g H; [inversion H; subst; exact E|exact (IH i g H)]. }
      destruct F as [(i & g & k & rest & H & P)|F]; [|right; intros i g H; split; eauto]. left.
      destruct (lock_of k) eqn:L.
      * eexists _, _. eapply st_none; eauto.
      * eexists _, _. eapply st_rlock; eauto. unfold rlock. rewrite Wr. reflexivity.
      * eexists _, _. eapply st_announce; eauto. unfold announce. rewrite Wr. reflexivity.
Qed.
End Step.

(** *** Executions are finite *)
Definition work g : nat := (5 * length (g_todo g) + match g_pc g with Out => 0 | Ann _ => 4 | In _ => 3 | Got _ _ => 2 | Fin _ _ => 1 end)%nat.
Lemma work_step x lb y : step x lb y -> (total_of work (s_gs y) < total_of work (s_gs x))%nat.
Proof.
  intros S. destruct S; cbn [at_pc s_gs];
    match goal with H : nth_error (s_gs x) ?i = Some ?g |- context [list_set _ ?i ?g'] => pose proof (total_of_set work _ _ _ g' H) as E end;
    unfold work in E at 2 4; cbn [g_todo g_pc] in E;
    repeat match goal with H : g_pc _ = _ |- _ => rewrite H in E; clear H | H : g_todo _ = _ |- _ => rewrite H in E; clear H end; cbn [length] in E; lia.
Qed.
End MutexProofs.

Ltac tots H g' Hp Hl :=
  let Er := fresh "Er" in let Ew := fresh "Ew" in let Ea := fresh "Ea" in
  pose proof (total_of_set rd _ _ _ g' H) as Er; pose proof (total_of_set win _ _ _ g' H) as Ew; pose proof (total_of_set wr _ _ _ g' H) as Ea;
  rewrite !rd_at in Er; rewrite !win_at in Ew; rewrite !wr_at in Ea; cbn [g_pc] in Er, Ew, Ea; rewrite Hp in Er, Ew, Ea;
  unfold wrp, winp, rdp in Er, Ew, Ea; cbn [call_of] in Er, Ew, Ea; rewrite ?Hl in Er, Ew, Ea.
