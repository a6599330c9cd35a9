(** The library's outputs with a mask that keeps memory, as an instance of Shared.v; and what is refused before the first call. *)
From Coq Require Import String.
From Verif Require Import GoBase Num SparseVec Csr Csc DenseVec DenseMat Mat World Ops Spec Api.
From Verif Require Import BaseProofs HeapProofs ReachProofs ApplyMem ApplyMemThms MaskMem Foreign ForeignThms ForeignOps Sink SinkThms SinkLib Shared SharedThms.
Import ListNotations.

Section SharedLib.
Context {N : num} {St : Type}.
Notation V := (T N).
Notation mat := (mat N).
Notation world := (world N).
Notation MS := (@MS N St).
Notation MB := (@ApplyMem.MS N (St * mat)).
Notation M := (World.M N).
Implicit Types w : world.

Section Alike.
Variable t : ptr.
(** the same code with the object as part of the memory and with the object in the heap *)
Definition akin {A} (st : St) (O : mat) (X : MB A) (Y : MS A) : Prop := forall w, (t < length (w_heap w))%nat ->
  let '(sO, w', o) := X (st, O) w in Y st (upd w t O) = (fst sO, upd w' t (snd sO), o) /\ length (w_heap w') = length (w_heap w).

Lemma akin_ret {A} st O (y : A) : akin st O (sret y) (sret y). Proof. intros w Hl. split; reflexivity. Qed.
Lemma akin_lift {A} st O (x : M A) : away t x -> akin st O (slift x) (slift x).
Proof. intros H w Hl. destruct (H w O Hl) as [E1 E2]. unfold slift. rewrite E1. destruct (x w) as [w1 o]. auto. Qed.
Lemma akin_bind {A B} st O (X : MB A) Y (F : A -> MB B) G : akin st O X Y -> (forall y st' O', akin st' O' (F y) (G y)) -> akin st O (sbind X F) (sbind Y G).
Proof.
  intros HX HF w Hl. specialize (HX w Hl). unfold sbind. destruct (X (st, O) w) as [[[st1 O1] w1] o]. destruct HX as [-> E2]. cbn [fst snd]. destruct o as [y| |]; auto.
  specialize (HF y st1 O1 w1 ltac:(lia)). destruct (F y (st1, O1) w1) as [[[st2 O2] w2] o]. destruct HF as [-> E3]. split; [reflexivity|congruence].
Qed.
Lemma akin_pre {A B} st O (x : M A) (F : A -> MB B) G : away t x -> (forall y, akin st O (F y) (G y)) -> akin st O (sbind (slift x) F) (sbind (slift x) G).
Proof.
  intros Hx HF w Hl. destruct (Hx w O Hl) as [E1 E2]. unfold sbind, slift. rewrite E1. destruct (x w) as [w1 [y| |]]; cbn [fst snd] in *; auto.
  specialize (HF y w1 ltac:(lia)). destruct (F y (st, O) w1) as [[[st2 O2] w2] o]. destruct HF as [-> E3]. split; [reflexivity|congruence].
Qed.
Lemma akin_set O0 st O r c v : akin st O (o_Set (on_second O0) r c v) (slift (p_Set t r c v)).
Proof.
  intros w Hl. unfold o_Set, on_second, slift, p_Set. cbn [so_Set fst snd].
  rewrite (mbind_ok _ _ (upd w t O) (upd w t O) O) by (apply load_ok; unfold obj, upd; cbn [w_heap]; apply nth_error_list_set_eq; exact Hl).
  destruct (mat_Set O r c v) as [m'| |]; [|split; reflexivity..]. rewrite mbind_lift. unfold store, upd. cbn [w_heap w_polls fst snd]. rewrite list_set_twice. split; reflexivity.
Qed.
Lemma akin_update O0 st O r c f : akin st O (o_Update (on_second O0) r c f) (slift (p_Update t r c f)).
Proof.
  intros w Hl. unfold o_Update, on_second, slift, p_Update. cbn [so_Update fst snd].
  rewrite (mbind_ok _ _ (upd w t O) (upd w t O) O) by (apply load_ok; unfold obj, upd; cbn [w_heap]; apply nth_error_list_set_eq; exact Hl).
  destruct (mat_Update O r c f) as [m'| |]; [|split; reflexivity..]. rewrite mbind_lift. unfold store, upd. cbn [w_heap w_polls fst snd]. rewrite list_set_twice. split; reflexivity.
Qed.
Lemma akin_element (q : smask St) st O r c : akin st O (s_Element (on_first q) r c) (s_Element q r c).
Proof. intros w Hl. unfold s_Element, on_first. cbn [sm_Element fst snd]. destruct (sm_Element q st r c) as [st' b]. split; reflexivity. Qed.
Lemma akin_check (q : smask St) st O : akin st O (b_check (on_first q) (on_second O)) (s_check q t).
Proof.
  intros w Hl. assert (Ho : obj (upd w t O) t O) by (unfold obj, upd; cbn [w_heap]; apply nth_error_list_set_eq; exact Hl).
  unfold b_check, s_check, check_mask, on_first, on_second. cbn [sm_Rows sm_Columns so_Rows so_Columns].
  unfold sbind, slift. rewrite (mbind_ok _ _ _ _ _ (p_Rows_ok _ _ _ Ho)), (mbind_ok _ _ _ _ _ (p_Columns_ok _ _ _ Ho)). cbn [mask_Rows mask_Columns]. rewrite mbind_ret.
  destruct (negb (sm_Rows q =? mat_Rows O)); [split; reflexivity|]. rewrite mbind_ret. destruct (negb (sm_Columns q =? mat_Columns O)); split; reflexivity.
Qed.
Lemma akin_for {R I} (X : I -> MB (option R)) Y : forall l st O, (forall i st' O', akin st' O' (X i) (Y i)) -> akin st O (s_for_list l X) (s_for_list l Y).
Proof.
  induction l as [|i l IH]; intros st O H; cbn [s_for_list]; [apply akin_ret|]. apply akin_bind; [apply H|]. intros [y|] st' O'; [apply akin_ret|apply IH; exact H].
Qed.
Lemma akin_enum {R} E p (onC : R) X Y st O : p <> t -> (forall r c v st' O', akin st' O' (X r c v) (Y r c v)) -> akin st O (o_enumerate E (Lib p) onC X) (s_enumerate E p onC Y).
Proof.
  intros Hp H. cbn [o_enumerate]. unfold s_enumerate. apply akin_pre; [apply away_load; exact Hp|]. intros m. generalize (mat_iterator m) as it. revert st O.
  induction (e_fuel E) as [|n IH]; intros st O it; cbn [s_enum_loop]; destruct (mat_HasNext it); try apply akin_ret.
  - intros w Hl. split; reflexivity.
  - apply akin_pre; [apply away_poll|]. intros []; [apply akin_ret|]. apply akin_pre; [apply away_load; exact Hp|]. intros m1.
    apply akin_pre; [apply away_lift|]. intros [[[r c] v] it']. apply akin_bind; [apply H|]. intros [y|] st' O'; [apply akin_ret|apply IH].
Qed.
Lemma akin_masked (q : smask St) st O r c X Y : (forall st' O', akin st' O' X Y) ->
  akin st O (let$ e := s_Element (on_first q) r c in let$ _ := (if negb e then X else sret tt) in sret (None : option unit))
    (let$ e := s_Element q r c in let$ _ := (if negb e then Y else sret tt) in sret None).
Proof.
  intros H. apply akin_bind; [apply akin_element|]. intros e st' O'. apply akin_bind; [destruct e; cbn [negb]; [apply akin_ret|apply H]|]. intros _ st2 O2. apply akin_ret.
Qed.
Lemma akin_end {A} st O (X : MB A) Y : akin st O X Y -> akin st O (let$ _ := X in sret tt) (let$ _ := Y in sret tt).
Proof. intros H. apply akin_bind; [exact H|]. intros _ st' O'. apply akin_ret. Qed.
(** the prologue reads the sizes of the output as they are when the operator starts *)
Lemma akin_checked {B} (q : smask St) st O (F : unit -> MB B) G : akin st O (F tt) (G tt) ->
  akin st O (sbind (b_check (on_first q) (on_second O)) F) (sbind (s_check q t) G).
Proof.
  intros HF w Hl.
  assert (Hb : b_check (on_first (A := mat) q) (on_second (St := St) O) (st, O) w = ((st, O), w, if (sm_Rows q =? mat_Rows O) && (sm_Columns q =? mat_Columns O) then Ok tt else Panic)).
  { unfold b_check, on_first, on_second. cbn [sm_Rows sm_Columns so_Rows so_Columns]. destruct (sm_Rows q =? mat_Rows O), (sm_Columns q =? mat_Columns O); reflexivity. }
  pose proof (akin_check q st O w Hl) as Hc. rewrite Hb in Hc. destruct Hc as [Hc _]. unfold sbind. rewrite Hb, Hc. cbn [fst snd].
  destruct ((sm_Rows q =? mat_Rows O) && (sm_Columns q =? mat_Columns O)); [apply HF; exact Hl|split; reflexivity].
Qed.

Variables (E : env) (s m : ptr) (q : smask St) (st : St) (O : mat).
Hypothesis Hs : s <> t.
Hypothesis Hm : m <> t.
Lemma sizes_same w : check_sizes (N := N) s m w = a_check_sizes (Lib s) (Lib m) w.
Proof. reflexivity. Qed.
Lemma lib_ne p : p <> t -> Lib (N := N) p <> Lib t. Proof. congruence. Qed.
Lemma akin_add : akin st O (AddB E (Lib s) (Lib m) (on_first q) (on_second O)) (AddS E s m q t).
Proof.
  unfold AddB, AddS. change (check_sizes (N := N) s m) with (a_check_sizes (N := N) (Lib s) (Lib m)). apply akin_pre; [apply away_sizes; apply lib_ne; assumption|]. intros _. apply akin_checked.
  apply (akin_pre st O (a_IsSparse E (Lib s))); [apply away_IsSparse; apply lib_ne; exact Hs|]. intros sp.
  destruct sp; apply akin_end; apply akin_enum; try assumption; intros r c v st' O';
    (apply (akin_pre st' O' (a_At (Lib _) r c)); [apply away_At; apply lib_ne; assumption|]); intros x; apply akin_masked; intros st2 O2; apply akin_set.
Qed.
Lemma akin_subtract : akin st O (SubtractB E (Lib s) (Lib m) (on_first q) (on_second O)) (SubtractS E s m q t).
Proof.
  unfold SubtractB, SubtractS. change (check_sizes (N := N) s m) with (a_check_sizes (N := N) (Lib s) (Lib m)). apply akin_pre; [apply away_sizes; apply lib_ne; assumption|]. intros _. apply akin_checked.
  apply akin_end; apply akin_enum; [assumption|]. intros r c v st' O'. apply akin_masked. intros st2 O2. apply akin_update.
Qed.
Lemma akin_ewm : akin st O (elementWiseMultiplyB E (Lib s) (Lib m) (on_first q) (on_second O)) (elementWiseMultiplyS E s m q t).
Proof.
  unfold elementWiseMultiplyB, elementWiseMultiplyS. apply akin_checked.
  apply (akin_pre st O (a_IsSparse E (Lib s))); [apply away_IsSparse; apply lib_ne; exact Hs|]. intros sp.
  replace (Nat.eqb m t) with false by (symmetry; apply Nat.eqb_neq; exact Hm). replace (Nat.eqb s t) with false by (symmetry; apply Nat.eqb_neq; exact Hs).
  destruct sp; apply akin_end; apply akin_enum; try assumption; intros r c v st' O';
    (apply (akin_pre st' O' (a_At (Lib _) r c)); [apply away_At; apply lib_ne; assumption|]); intros x;
    (destruct (neqb v x); [apply akin_masked; intros st2 O2; apply akin_set|apply akin_ret]).
Qed.
Lemma akin_ewa_loop p st1 O1 : p <> t -> akin st1 O1 (ewa_loopB E (Lib p) (on_first q) (on_second O)) (ewa_loopS E p q t).
Proof.
  intros Hp. apply akin_enum; [exact Hp|]. intros r c v st' O'. destruct (negb (neqb v n0)); [apply akin_masked; intros st2 O2; apply akin_set|apply akin_ret].
Qed.
Lemma akin_ewa : akin st O (elementWiseAddB E (Lib s) (Lib m) (on_first q) (on_second O)) (elementWiseAddS E s m q t).
Proof.
  unfold elementWiseAddB, elementWiseAddS. apply akin_checked.
  replace (Nat.eqb m t) with false by (symmetry; apply Nat.eqb_neq; exact Hm). replace (Nat.eqb s t) with false by (symmetry; apply Nat.eqb_neq; exact Hs).
  cbn [negb]. apply akin_bind; [apply akin_ewa_loop; assumption|]. intros [y|] st' O'; [apply akin_ret|]. apply akin_end. apply akin_ewa_loop; assumption.
Qed.
Lemma akin_apply (u : V -> V) : akin st O (ApplyB E (Lib s) (on_first q) (fun st v => (st, Ok (u v))) (on_second O)) (ApplyQ E s q u t).
Proof.
  unfold ApplyB, ApplyQ. apply akin_checked. replace (Nat.eqb s t) with false by (symmetry; apply Nat.eqb_neq; exact Hs).
  apply akin_end. apply akin_enum; [exact Hs|]. intros r c v st' O'. apply akin_masked. intros st2 O2.
  change (let$ x := u_Apply (N := N) (fun (st : St * mat) v => (st, Ok (u v))) v in o_Set (on_second O) c r x) with (o_Set (on_second (St := St) O) c r (u v)). apply akin_set.
Qed.
Lemma akin_transpose : akin st O (TransposeB E (Lib s) (on_first q) (on_second O)) (TransposeS E s q t).
Proof.
  unfold TransposeB, TransposeS. apply akin_checked. apply akin_end. apply akin_enum; [assumption|]. intros r c v st' O'. apply akin_masked. intros st2 O2. apply akin_set.
Qed.
Lemma akin_vector {B} st1 O1 p (x : mat -> res mat) (F : vec N -> MB B) G : p <> t -> (forall v, akin st1 O1 (F (vec_of v)) (G v)) ->
  akin st1 O1 (sbind (slift (let! m := load p in let! v := mlift (x m) in mret (vec_of v))) F) (let$ o := slift (load p) in let$ v := slift (mlift (x o)) in G v).
Proof.
  intros Hp HF w Hl. destruct (away_load t p Hp w O1 Hl) as [E1 E2]. unfold sbind, slift, mbind. rewrite E1. destruct (load p w) as [w1 [y| |]]; cbn [fst snd] in *; auto.
  unfold mlift. destruct (x y) as [v| |]; cbn; auto. rewrite <- E2. apply (HF v w1). unfold ptr in *. lia.
Qed.
Lemma akin_dot {B} st1 O1 (rv cv : mat) ls (F : option V -> MB B) G : (forall y, akin st1 O1 (F y) (G y)) ->
  akin st1 O1 (sbind (slift (a_dot E (vec_of rv) (vec_of cv) ls n0)) F) (sbind (slift (dot_loop E rv cv ls n0)) G).
Proof.
  intros HF w Hl. pose proof (akin_pre st1 O1 (a_dot E (vec_of rv) (vec_of cv) ls n0) F G (away_dot _ _ _ _ _ _) HF w Hl) as H.
  destruct (sbind (slift (a_dot E (vec_of rv) (vec_of cv) ls n0)) F (st1, O1) w) as [[sO w'] o]. destruct H as [H1 H2]. split; [|exact H2].
  rewrite <- H1. unfold sbind, slift. rewrite dot_same. reflexivity.
Qed.
Lemma akin_multiply : akin st O (multiplyB E (Lib s) (Lib m) (on_first q) (on_second O)) (multiplyS E s m q t).
Proof.
  unfold multiplyB, multiplyS. apply (akin_pre st O (a_Rows (Lib m))); [apply away_Rows; apply lib_ne; assumption|]. intros mr.
  apply (akin_pre st O (a_Columns (Lib s))); [apply away_Columns; apply lib_ne; assumption|]. intros sc.
  destruct (negb (mr =? sc)); [apply akin_lift; apply away_panic|]. apply akin_checked.
  apply (akin_pre st O (a_Rows (Lib s))); [apply away_Rows; apply lib_ne; assumption|]. intros sr.
  apply (akin_pre st O (a_Columns (Lib m))); [apply away_Columns; apply lib_ne; assumption|]. intros mc. apply akin_end.
  apply akin_for. intros r st' O'. apply (akin_vector st' O' s (fun o => mat_RowsAt o r)); [exact Hs|]. intros rv. apply akin_for. intros c st2 O2.
  apply (akin_vector st2 O2 m (fun o => mat_ColumnsAt o c)); [exact Hm|]. intros cv. apply akin_dot. intros [sum|]; [|apply akin_ret].
  apply akin_masked. intros st3 O3. apply akin_set.
Qed.
End Alike.

Lemma akin_comes t O X Y (st : St) w l : obj w t O -> akin t st O X Y -> amounts_to X (st, O) w l -> comes_to t O Y st w l.
Proof.
  intros Ho H (w' & E1 & E2). specialize (H w (obj_lt _ _ _ Ho)). rewrite E1 in H. destruct H as [H _]. rewrite (upd_same _ _ _ Ho) in H.
  eexists. split; [exact H|]. cbn [upd w_heap]. rewrite E2. reflexivity.
Qed.
Lemma first_fits (q : smask St) (O : mat) : sm_Rows q = mat_Rows O -> sm_Columns q = mat_Columns O -> fits (on_first (A := mat) q) (on_second (St := St) O).
Proof. split; assumption. Qed.

Lemma library_shared E w t O (s m : ptr) (q : smask St) (u : V -> V) R C f g Ls Lm b st : sane N -> reachable w -> obj w t O ->
  operand E w t (Lib s) R C f Ls -> operand E w t (Lib m) R C g Lm -> registered E w (Lib s) b -> sm_Rows q = mat_Rows O -> sm_Columns q = mat_Columns O ->
  let Q := on_first (A := mat) q in
  let Out := on_second (St := St) O in
  comes_to t O (AddS E s m q t) st w
    (map (fun e => unless Q (row_of e) (col_of e) (set_at Out (row_of e) (col_of e) (nadd ((if b then g else f) (row_of e) (col_of e)) (snd e)))) (reached E w (if b then Ls else Lm))) /\
  comes_to t O (SubtractS E s m q t) st w
    (map (fun e => unless Q (row_of e) (col_of e) (update_at Out (row_of e) (col_of e) (fun x => nsub (snd e) x))) (reached E w Ls)) /\
  comes_to t O (elementWiseMultiplyS E s m q t) st w
    (map (fun e => unless Q (row_of e) (col_of e) (set_at Out (row_of e) (col_of e) (snd e)))
      (filter (fun e => neqb (snd e) ((if b then g else f) (row_of e) (col_of e))) (reached E w (if b then Ls else Lm)))) /\
  comes_to t O (elementWiseAddS E s m q t) st w
    (map (fun e => unless Q (row_of e) (col_of e) (set_at Out (row_of e) (col_of e) (snd e))) (filter (fun e => negb (neqb (snd e) n0)) (reached E w (Ls ++ Lm)))) /\
  comes_to t O (ApplyQ E s q u t) st w
    (map (fun e => unless Q (row_of e) (col_of e) (set_at Out (col_of e) (row_of e) (u (snd e)))) (reached E w Ls)) /\
  comes_to t O (TransposeS E s q t) st w
    (map (fun e => unless Q (row_of e) (col_of e) (set_at Out (col_of e) (row_of e) (snd e))) (reached E w Ls)).
Proof.
  intros Hsn Hr Ho [Hs Ps] [Hm Pm] Hb E1 E2 Q Out. pose proof (first_fits q O E1 E2) as Hf.
  assert (Hs' : s <> t) by congruence. assert (Hm' : m <> t) by congruence.
  split; [eapply akin_comes; [exact Ho|apply akin_add; assumption|eapply addB; eauto]|].
  split; [eapply akin_comes; [exact Ho|apply akin_subtract; assumption|eapply subtractB; eauto]|].
  split; [eapply akin_comes; [exact Ho|apply akin_ewm; assumption|eapply ewmB; eauto]|].
  split; [eapply akin_comes; [exact Ho|apply akin_ewa; assumption|eapply ewaB; eauto]|].
  split; [eapply akin_comes; [exact Ho|apply akin_apply; assumption|exact (applyB E w (Lib s) Q (fun st v => (st, Ok (u v))) Out R C f Ls (st, O) Hsn Hr Ps Hf)]|].
  eapply akin_comes; [exact Ho|apply akin_transpose; assumption|eapply transposeB; eauto].
Qed.
Lemma library_shared_product E w t O (s m : ptr) (q : smask St) R K C n (fr gc : Z -> Z -> V) st : sane N -> reachable w -> obj w t O ->
  rows_show w t (Lib s) R K n fr -> columns_show w t (Lib m) K C n gc -> sm_Rows q = mat_Rows O -> sm_Columns q = mat_Columns O ->
  comes_to t O (multiplyS E s m q t) st w
    (map (fun p : Z * Z => unless (on_first q) (fst p) (snd p) (set_at (on_second O) (fst p) (snd p) (sum_from n0 (fun l => nmul (fr (fst p) l) (gc (snd p) l)) 0 n)))
      (reached_n (Z.to_nat n) E w (positions R C))).
Proof.
  intros Hsn Hr Ho Hs Hm E1 E2. destruct Hs as (Ns & y & Hy & Hs). destruct Hm as (Nm & z & Hzo & Hm).
  eapply akin_comes; [exact Ho|apply akin_multiply; assumption|]. apply multiplyB_ok with (K := K); auto; [..|apply first_fits; assumption].
  - split; [|exists y; auto]. apply obj_lt in Hy. unfold ptr in *. lia.
  - split; [|exists z; auto]. apply obj_lt in Hzo. unfold ptr in *. lia.
Qed.

(** sizes that do not match: nothing is asked or called *)
Lemma shared_sizes E w (s m : arg N) (q : smask St) (out : sink N St) R C R' C' f g Ls Lm st : presents E w s R C f Ls -> presents E w m R' C' g Lm ->
  ((R <> R' \/ C <> C') -> AddB E s m q out st w = (st, w, Panic) /\ SubtractB E s m q out st w = (st, w, Panic)) /\
  (C <> R' -> multiplyB E s m q out st w = (st, w, Panic)).
Proof.
  intros Hs Hm. apply present_t in Hs, Hm. pose proof (only_refl w (length (w_heap w))) as Ho.
  pose proof (operand_Columns _ _ _ _ _ _ _ _ _ Hs Ho) as E1. pose proof (operand_Columns _ _ _ _ _ _ _ _ _ Hm Ho) as E2.
  pose proof (operand_Rows _ _ _ _ _ _ _ _ _ Hs Ho) as E3. pose proof (operand_Rows _ _ _ _ _ _ _ _ _ Hm Ho) as E4. split.
  - intros Hne. assert (Hc : a_check_sizes s m w = (w, Panic)).
    { unfold a_check_sizes. rewrite (mbind_ok _ _ _ _ _ E1), (mbind_ok _ _ _ _ _ E2). destruct (C =? C') eqn:Ec; cbn [negb]; [|reflexivity].
      rewrite (mbind_ok _ _ _ _ _ E3), (mbind_ok _ _ _ _ _ E4). replace (R =? R') with false by lia. reflexivity. }
    unfold AddB, SubtractB, sbind, slift. rewrite Hc. auto.
  - intros Hne. unfold multiplyB. rewrite (sbind_lift _ _ _ _ _ _ E4), (sbind_lift _ _ _ _ _ _ E1). replace (R' =? C) with false by lia. reflexivity.
Qed.
Lemma shared_mask E w (s m : arg N) (q : smask St) (out : sink N St) u R C R' C' f g Ls Lm st : presents E w s R C f Ls -> presents E w m R' C' g Lm ->
  (sm_Rows q <> so_Rows out \/ sm_Columns q <> so_Columns out) ->
  multiplyB E s m q out st w = (st, w, Panic) /\ AddB E s m q out st w = (st, w, Panic) /\ SubtractB E s m q out st w = (st, w, Panic) /\
  elementWiseMultiplyB E s m q out st w = (st, w, Panic) /\ elementWiseAddB E s m q out st w = (st, w, Panic) /\
  ApplyB E s q u out st w = (st, w, Panic) /\ TransposeB E s q out st w = (st, w, Panic).
Proof.
  intros Hs Hm Hne.
  assert (Hb : forall A (F : unit -> MS A), sbind (b_check q out) F st w = (st, w, Panic)).
  { intros A F. unfold sbind, b_check. destruct (sm_Rows q =? so_Rows out) eqn:E1; cbn [negb]; [|reflexivity]. replace (sm_Columns q =? so_Columns out) with false by lia. reflexivity. }
  destruct (shared_sizes E w s m q out R C R' C' f g Ls Lm st Hs Hm) as [Hz1 Hz2]. split.
  { destruct (Z.eq_dec C R') as [He|He]; [|apply Hz2; exact He]. apply present_t in Hs, Hm. pose proof (only_refl w (length (w_heap w))) as Ho. unfold multiplyB.
    rewrite (sbind_lift _ _ _ _ _ _ (operand_Rows _ _ _ _ _ _ _ _ _ Hm Ho)), (sbind_lift _ _ _ _ _ _ (operand_Columns _ _ _ _ _ _ _ _ _ Hs Ho)), He, Z.eqb_refl. cbn [negb]. apply Hb. }
  assert (HA : AddB E s m q out st w = (st, w, Panic) /\ SubtractB E s m q out st w = (st, w, Panic)).
  { destruct (Z.eq_dec R R') as [HR|HR]; [|apply Hz1; auto]. destruct (Z.eq_dec C C') as [HC|HC]; [|apply Hz1; auto]. subst R' C'.
    pose proof (check_sizes_ok _ _ _ _ _ _ _ _ _ _ Hs Hm) as Hz. unfold AddB, SubtractB. rewrite !(sbind_lift _ _ _ _ _ _ Hz), !Hb. auto. }
  split; [apply HA|]. split; [apply HA|].
  unfold elementWiseMultiplyB, elementWiseAddB, ApplyB, TransposeB. rewrite !Hb. auto.
Qed.
End SharedLib.
