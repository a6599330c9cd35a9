(** Operands that refuse, with outputs of the library. *)
From Coq Require Import String.
From Verif Require Import GoBase Num SparseVec Csr Csc DenseVec DenseMat Mat World Ops Spec Api.
From Verif Require Import BaseProofs MatProofs HeapProofs ReachProofs StoreProofs StoreThms VecProofs OpsProofs OpsThms EwThms OpsProps LoopProofs ApplyMem ApplyMemThms MaskMem Foreign ForeignThms ForeignOps Sink SinkThms SinkLib Shared SharedThms SharedLib Refuse RefuseThms.
Import ListNotations.

Section RefuseLib.
Context {N : num} {St : Type}.
Notation V := (T N).
Notation mat := (mat N).
Notation ent := (Z * Z * V)%type.
Notation world := (world N).
Notation arg := (arg N).
Notation sink := (sink N St).
Notation MS := (@MS N St).
Implicit Types w : world.
Implicit Types a : arg.

Section Same.
Variable w : world.
Hypothesis Hsn : sane N.
Hypothesis Hr : reachable w.
Definition quiet {A} (x : World.M N A) : Prop := forall w1, w_heap w1 = w_heap w -> w_heap (fst (x w1)) = w_heap w.
Definition same {A} (X Y : MS A) : Prop := forall st w1, w_heap w1 = w_heap w -> X st w1 = Y st w1 /\ w_heap (snd (fst (Y st w1))) = w_heap w.
Lemma quiet_ret {A} (x : A) : quiet (mret x). Proof. intros w1 H. exact H. Qed.
Lemma quiet_lift {A} (x : res A) : quiet (mlift x). Proof. intros w1 H. exact H. Qed.
Lemma quiet_bind {A B} (x : World.M N A) (f : A -> World.M N B) : quiet x -> (forall y, quiet (f y)) -> quiet (mbind x f).
Proof. intros Hx Hf w1 H. unfold mbind. specialize (Hx w1 H). destruct (x w1) as [w2 [y| |]]; cbn [fst] in *; auto. apply Hf. exact Hx. Qed.
Lemma quiet_load p : quiet (load p).
Proof. intros w1 H. unfold load. destruct (nth_error (w_heap w1) p); exact H. Qed.
Lemma quiet_poll E : quiet (poll E).
Proof. intros w1 H. destruct (poll_heap E w1) as (w2 & b & Hp & Hh & _). rewrite Hp. cbn [fst]. congruence. Qed.
Lemma quiet_At a r c : quiet (a_At a r c).
Proof. intros w1 H. destruct (operands_answer w a Hsn Hr) as [[g Hg] _]. rewrite (At_heap _ _ _ _ _ _ H (Hg r c)). exact H. Qed.
Lemma quiet_RowsAt a r : quiet (a_RowsAt a r).
Proof. intros w1 H. destruct (operands_answer w a Hsn Hr) as (_ & [g Hg] & _). rewrite (RowsAt_heap _ _ _ _ _ H (Hg r)). exact H. Qed.
Lemma quiet_ColumnsAt a r : quiet (a_ColumnsAt a r).
Proof. intros w1 H. destruct (operands_answer w a Hsn Hr) as (_ & _ & [g Hg]). rewrite (ColumnsAt_heap _ _ _ _ _ H (Hg r)). exact H. Qed.
Lemma quiet_Rows a : quiet (a_Rows a).
Proof. destruct a; cbn [a_Rows]; unfold p_Rows; [apply quiet_bind; [apply quiet_load|intros; apply quiet_ret]|apply quiet_ret]. Qed.
Lemma quiet_Columns a : quiet (a_Columns a).
Proof. destruct a; cbn [a_Columns]; unfold p_Columns; [apply quiet_bind; [apply quiet_load|intros; apply quiet_ret]|apply quiet_ret]. Qed.
Lemma quiet_IsSparse E a : quiet (a_IsSparse E a).
Proof. destruct a; cbn [a_IsSparse]; unfold p_IsSparse; [apply quiet_bind; [apply quiet_load|intros; apply quiet_ret]|apply quiet_ret]. Qed.
Lemma quiet_if {A} (b : bool) (x y : World.M N A) : quiet x -> quiet y -> quiet (if b then x else y). Proof. destruct b; auto. Qed.
Lemma quiet_panic {A} : quiet (@mpanic N A). Proof. intros w1 H. exact H. Qed.
Lemma quiet_sizes s m : quiet (a_check_sizes s m).
Proof.
  unfold a_check_sizes. apply quiet_bind; [apply quiet_Columns|]. intros x. apply quiet_bind; [apply quiet_Columns|]. intros y. apply quiet_if; [apply quiet_panic|].
  apply quiet_bind; [apply quiet_Rows|]. intros x'. apply quiet_bind; [apply quiet_Rows|]. intros y'. apply quiet_if; [apply quiet_panic|apply quiet_ret].
Qed.
Lemma quiet_dot E (rv cv : vec N) : forall ls acc, quiet (a_dot E rv cv ls acc).
Proof.
  induction ls as [|l ls IH]; intros acc; cbn [a_dot]; [apply quiet_ret|]. apply quiet_bind; [apply quiet_poll|]. intros b. apply quiet_if; [apply quiet_ret|].
  apply quiet_bind; [apply quiet_lift|]. intros x. apply quiet_bind; [apply quiet_lift|]. intros y. apply IH.
Qed.

Lemma same_ret {A} (x : A) : same (sret x) (sret x). Proof. intros st w1 H. split; [reflexivity|exact H]. Qed.
Lemma same_lift {A} (x : World.M N A) : quiet x -> same (slift x) (slift x).
Proof. intros Hx st w1 H. split; [reflexivity|]. specialize (Hx w1 H). unfold slift. destruct (x w1). exact Hx. Qed.
Lemma same_bind {A B} (X Y : MS A) (F G : A -> MS B) : same X Y -> (forall y, same (F y) (G y)) -> same (sbind X F) (sbind Y G).
Proof.
  intros HX HF st w1 H. destruct (HX st w1 H) as [E1 E2]. unfold sbind. rewrite E1. destruct (Y st w1) as [[st2 w2] [y| |]]; cbn [fst snd] in *; auto. apply HF. exact E2.
Qed.
Lemma same_set (out : sink) r c v : same (o_Set out r c v) (o_Set out r c v).
Proof. intros st w1 H. split; [reflexivity|]. unfold o_Set. destruct (so_Set out st r c v). exact H. Qed.
Lemma same_update (out : sink) r c f : same (o_Update out r c f) (o_Update out r c f).
Proof. intros st w1 H. split; [reflexivity|]. unfold o_Update. destruct (so_Update out st r c f). exact H. Qed.
Lemma same_for {R I} (X Y : I -> MS (option R)) : forall l, (forall i, same (X i) (Y i)) -> same (s_for_list l X) (s_for_list l Y).
Proof. induction l as [|i l IH]; intros H; cbn [s_for_list]; [apply same_ret|]. apply same_bind; [apply H|]. intros [y|]; [apply same_ret|apply IH; exact H]. Qed.
Lemma same_enum {R} E a (onC : R) X Y : (forall r c v, same (X r c v) (Y r c v)) -> same (o_enumerate E a onC X) (o_enumerate E a onC Y).
Proof.
  intros H. destruct a as [p|x]; cbn [o_enumerate].
  - unfold s_enumerate. apply same_bind; [apply same_lift; apply quiet_load|]. intros m. generalize (mat_iterator m) as it.
    induction (e_fuel E) as [|n IH]; intros it; cbn [s_enum_loop]; destruct (mat_HasNext it); try apply same_ret.
    + apply same_lift. intros w1 Hw1. exact Hw1.
    + apply same_bind; [apply same_lift; apply quiet_poll|]. intros []; [apply same_ret|]. apply same_bind; [apply same_lift; apply quiet_load|]. intros m1.
      apply same_bind; [apply same_lift; apply quiet_lift|]. intros [[[r c] v] it']. apply same_bind; [apply H|]. intros [y|]; [apply same_ret|apply IH].
  - induction (own_shows x) as [|[[r c] v] l IH]; cbn [o_own_loop]; [apply same_ret|].
    apply same_bind; [apply same_lift; apply quiet_poll|]. intros []; [apply same_ret|]. apply same_bind; [apply H|]. intros [y|]; [apply same_ret|apply IH].
Qed.
Variables (k : mask) (out : sink).
Hypothesis Hd : mask_dims w k (so_Rows out) (so_Columns out).
Notation q := (as_mask w k out).
Notation kn := (mask_norm k (so_Rows out) (so_Columns out)).
Lemma same_element r c : same (slift (mask_Element kn r c)) (s_Element q r c).
Proof.
  intros st w1 H. unfold slift, s_Element, as_mask, mask_says. cbn [sm_Element]. destruct k as [|r' c'|p|r' c' f]; cbn [mask_norm mask_Element]; try (split; [reflexivity|exact H]).
  unfold mbind, load. rewrite H. destruct (nth_error (w_heap w) p) as [y|] eqn:Ey; [|split; [reflexivity|exact H]]. unfold mlift.
  destruct (mat_Element y r c) as [[v m']| |] eqn:Ea; [|split; [reflexivity|exact H]..]. pose proof (sane_wfw w Hsn Hr p y Ey) as Wy.
  pose proof (Element_same y r c v m' (proj1 Hsn) Wy Ea) as Em.
  subst m'. unfold store, mret. rewrite H, (list_set_same _ _ _ Ey). cbn [snd fst]. split; [|exact H]. rewrite <- H. destruct w1. reflexivity.
Qed.
Lemma same_masked r c X : same X X ->
  same (let$ e := slift (mask_Element kn r c) in let$ _ := (if negb e then X else sret tt) in sret (None : option unit))
    (let$ e := s_Element q r c in let$ _ := (if negb e then X else sret tt) in sret None).
Proof. intros H. apply same_bind; [apply same_element|]. intros e. apply same_bind; [destruct e; [apply same_ret|exact H]|]. intros _. apply same_ret. Qed.
Lemma same_check {B} (F : mask -> MS B) (G : unit -> MS B) : same (F kn) (G tt) -> same (sbind (slift (o_check k out)) F) (sbind (b_check q out) G).
Proof.
  intros HF st w1 H.
  assert (Hd1 : mask_dims w1 k (so_Rows out) (so_Columns out)).
  { destruct k; cbn [mask_dims] in *; auto. destruct Hd as (m & Hm & Hd'). exists m. split; [unfold obj; rewrite H; exact Hm|exact Hd']. }
  assert (Eo : o_check k out w1 = (w1, Ok kn)).
  { unfold o_check. destruct k as [|r c|p|r c f]; cbn [mask_dims] in Hd1; cbn [mask_Rows mask_Columns mask_norm].
    - rewrite mbind_ret, Z.eqb_refl. cbn [negb]. rewrite mbind_ret, Z.eqb_refl. reflexivity.
    - destruct Hd1 as [-> ->]. rewrite mbind_ret, Z.eqb_refl. cbn [negb]. rewrite mbind_ret, Z.eqb_refl. reflexivity.
    - destruct Hd1 as (m & Hm & <- & <-). rewrite (mbind_ok _ _ _ _ _ (p_Rows_ok _ _ _ Hm)), Z.eqb_refl. cbn [negb].
      rewrite (mbind_ok _ _ _ _ _ (p_Columns_ok _ _ _ Hm)), Z.eqb_refl. reflexivity.
    - destruct Hd1 as [-> ->]. rewrite mbind_ret, Z.eqb_refl. cbn [negb]. rewrite mbind_ret, Z.eqb_refl. reflexivity. }
  rewrite (sbind_lift _ _ _ _ _ _ Eo). rewrite b_check_bind by (split; reflexivity). apply HF. exact H.
Qed.
Lemma same_end {A} (X Y : MS A) : same X Y -> same (let$ _ := X in sret tt) (let$ _ := Y in sret tt).
Proof. intros H. apply same_bind; [exact H|]. intros _. apply same_ret. Qed.
Variables (E : env) (s m : arg).
Lemma same_add : same (AddO E s m k out) (AddB E s m q out).
Proof.
  unfold AddO, AddB. apply same_bind; [apply same_lift; apply quiet_sizes|]. intros _. apply same_check.
  apply same_bind; [apply same_lift; apply quiet_IsSparse|]. intros sp. destruct sp; apply same_end; apply same_enum; intros r c v;
    (apply same_bind; [apply same_lift; apply quiet_At|]); intros x; apply same_masked; apply same_set.
Qed.
Lemma same_subtract : same (SubtractO E s m k out) (SubtractB E s m q out).
Proof.
  unfold SubtractO, SubtractB. apply same_bind; [apply same_lift; apply quiet_sizes|]. intros _. apply same_check.
  apply same_end; apply same_enum; intros r c v. apply same_masked; apply same_update.
Qed.
Lemma same_ewm : same (elementWiseMultiplyO E s m k out) (elementWiseMultiplyB E s m q out).
Proof.
  unfold elementWiseMultiplyO, elementWiseMultiplyB. apply same_check.
  apply same_bind; [apply same_lift; apply quiet_IsSparse|]. intros sp. destruct sp; apply same_end; apply same_enum; intros r c v;
    (apply same_bind; [apply same_lift; apply quiet_At|]); intros x; (destruct (neqb v x); [apply same_masked; apply same_set|apply same_ret]).
Qed.
Lemma same_ewa_loop a : same (ewa_loopO E a kn out) (ewa_loopB E a q out).
Proof. apply same_enum; intros r c v. destruct (negb (neqb v n0)); [apply same_masked; apply same_set|apply same_ret]. Qed.
Lemma same_ewa : same (elementWiseAddO E s m k out) (elementWiseAddB E s m q out).
Proof.
  unfold elementWiseAddO, elementWiseAddB. apply same_check. apply same_bind; [apply same_ewa_loop|]. intros [y|]; [apply same_ret|].
  apply same_end. apply same_ewa_loop.
Qed.
Lemma same_apply u : same (ApplyO E s k u out) (ApplyB E s q (fun st v => (st, Ok (u v))) out).
Proof.
  unfold ApplyO, ApplyB. apply same_check. apply same_end. apply same_enum; intros r c v.
  apply (same_masked r c (o_Set out c r (u v))). apply same_set.
Qed.
Lemma same_transpose : same (TransposeO E s k out) (TransposeB E s q out).
Proof. unfold TransposeO, TransposeB. apply same_check. apply same_end. apply same_enum; intros r c v. apply same_masked. apply same_set. Qed.
Lemma same_multiply : same (multiplyO E s m k out) (multiplyB E s m q out).
Proof.
  unfold multiplyO, multiplyB. apply same_bind; [apply same_lift; apply quiet_Rows|]. intros mr. apply same_bind; [apply same_lift; apply quiet_Columns|]. intros sc.
  destruct (negb (mr =? sc)); [apply same_lift; apply quiet_panic|]. apply same_check.
  apply same_bind; [apply same_lift; apply quiet_Rows|]. intros sr. apply same_bind; [apply same_lift; apply quiet_Columns|]. intros mc. apply same_end.
  apply same_for. intros r. apply same_bind; [apply same_lift; apply quiet_RowsAt|]. intros rv. apply same_for. intros c.
  apply same_bind; [apply same_lift; apply quiet_ColumnsAt|]. intros cv. apply same_bind; [apply same_lift; apply quiet_dot|]. intros [sum|]; [|apply same_ret].
  apply same_masked. apply same_set.
Qed.
End Same.
End RefuseLib.

Section Settles.
Context {N : num}.
Notation V := (T N).
Notation mat := (mat N).
Notation ent := (Z * Z * V)%type.
Notation arg := (arg N).
Implicit Types w : world N.

Lemma run_settles t O X Z (Y : World.M N unit) w l : same_run t O X Y w -> same w X Z -> amounts_to Z O w l -> settles t O Y w l.
Proof.
  intros Hr Hs (w' & Ea & Hw). destruct (Hs O w eq_refl) as [Es _]. unfold same_run in Hr. rewrite Es, Ea in Hr.
  eexists. split; [exact Hr|]. cbn [w_heap]. rewrite Hw. reflexivity.
Qed.
Lemma refuse_library E w t O (s m : arg) k R C g L Ls Lm b : sane N -> reachable w -> obj w t O -> s <> Lib t -> m <> Lib t -> mask_not k t -> mask_dims w k (mat_Rows O) (mat_Columns O) ->
  registered E w s b -> walks E w s Ls -> walks E w m Lm -> L = (if b then Ls else Lm) -> at_gives w (if b then m else s) g ->
  let Q := as_mask w k (lib_out O) in
  let Out := lib_out O in
  (sized w s R C -> sized w m R C ->
    settles t O (AddF E s m k t) w
      (map (fun e : ent => with_answer (g (row_of e) (col_of e)) (fun x => unless Q (row_of e) (col_of e) (set_at Out (row_of e) (col_of e) (nadd x (snd e))))) (reached E w L)) /\
    settles t O (SubtractF E s m k t) w
      (map (fun e : ent => unless Q (row_of e) (col_of e) (update_at Out (row_of e) (col_of e) (fun x => nsub (snd e) x))) (reached E w Ls))) /\
  settles t O (elementWiseMultiplyF E s m k t) w
    (map (fun e : ent => with_answer (g (row_of e) (col_of e)) (fun x => if neqb (snd e) x then unless Q (row_of e) (col_of e) (set_at Out (row_of e) (col_of e) (snd e)) else nothing)) (reached E w L)) /\
  settles t O (elementWiseAddF E s m k t) w
    (map (fun e : ent => unless Q (row_of e) (col_of e) (set_at Out (row_of e) (col_of e) (snd e))) (filter (fun e : ent => negb (neqb (snd e) n0)) (reached E w (Ls ++ Lm)))) /\
  settles t O (TransposeF E s k t) w
    (map (fun e : ent => unless Q (row_of e) (col_of e) (set_at Out (col_of e) (row_of e) (snd e))) (reached E w Ls)).
Proof.
  intros Hsn Hr Ho Ns Nm Hk Hd Hb Ws Wm -> Hg Q Out.
  assert (Hf : fits Q Out) by (split; reflexivity). assert (Hw : walks E w (if b then s else m) (if b then Ls else Lm)) by (destruct b; assumption).
  assert (Hd' : mask_dims w k (so_Rows Out) (so_Columns Out)) by exact Hd.
  split; [intros Hs Hm; split|split; [|split]].
  - eapply run_settles; [apply (alike_run _ _ _ _ _ Ho); apply alike_add; assumption|apply same_add; assumption|eapply refuse_add; eauto].
  - eapply run_settles; [apply (alike_run _ _ _ _ _ Ho); apply alike_subtract; assumption|apply same_subtract; assumption|eapply refuse_subtract; eauto].
  - eapply run_settles; [apply (alike_run _ _ _ _ _ Ho); apply alike_ewm; assumption|apply same_ewm; assumption|eapply refuse_ewm; eauto].
  - eapply run_settles; [apply (alike_run _ _ _ _ _ Ho); apply alike_ewa; assumption|apply same_ewa; assumption|eapply refuse_ewa; eauto].
  - eapply run_settles; [apply (alike_run _ _ _ _ _ Ho); apply alike_transpose; assumption|apply same_transpose; assumption|eapply refuse_transpose; eauto].
Qed.
Lemma refuse_library_apply E w t O x k (u : V -> V) : sane N -> reachable w -> obj w t O -> mask_not k t -> mask_dims w k (mat_Rows O) (mat_Columns O) ->
  settles t O (ApplyF E x k u t) w
    (map (fun e : ent => unless (as_mask w k (lib_out O)) (row_of e) (col_of e) (set_at (lib_out O) (col_of e) (row_of e) (u (snd e)))) (reached E w (own_shows x))).
Proof.
  intros Hsn Hr Ho Hk Hd. eapply run_settles; [apply (alike_run _ _ _ _ _ Ho); apply alike_apply; assumption|apply (same_apply w Hsn Hr k (lib_out O) Hd E (Own x) u)|].
  exact (refuse_apply E w (Own x) (as_mask w k (lib_out O)) (fun st v => (st, Ok (u v))) (lib_out O) (own_shows x) O Hsn Hr eq_refl (conj eq_refl eq_refl)).
Qed.
Lemma refuse_library_multiply E w t O (s m : arg) k R K C rows columns : sane N -> reachable w -> obj w t O -> s <> Lib t -> m <> Lib t -> mask_not k t -> mask_dims w k (mat_Rows O) (mat_Columns O) ->
  sized w s R K -> sized w m K C -> rows_give w s rows -> columns_give w m columns ->
  settles t O (multiplyF E s m k t) w (in_time E w (all_cells (as_mask w k (lib_out O)) (lib_out O) R C rows columns)).
Proof.
  intros Hsn Hr Ho Ns Nm Hk Hd Hs Hm Hrow Hcol. eapply run_settles; [apply (alike_run _ _ _ _ _ Ho); apply alike_multiply; assumption|apply same_multiply; assumption|].
  eapply refuse_multiply; eauto. split; reflexivity.
Qed.
End Settles.
