(** The objects of the library are outputs of the kind of Sink.v; and what is refused before the first call. *)
From Coq Require Import String.
From Verif Require Import GoBase Num SparseVec Csr Csc DenseVec DenseMat Mat World Ops Spec Api.
From Verif Require Import BaseProofs HeapProofs ReachProofs ApplyMem ApplyMemThms MaskMem Foreign ForeignThms ForeignOps Sink SinkThms.
Import ListNotations.

Section SinkLib.
Context {N : num}.
Notation V := (T N).
Notation mat := (mat N).
Notation world := (world N).
Notation arg := (arg N).
Notation MS := (@MS N mat).
Notation M := (World.M N).
Implicit Types w : world.

(** ** Code that leaves [t] alone *)
Section Away.
Variable t : ptr.
Definition away {A} (x : M A) : Prop := forall w m, (t < length (w_heap w))%nat ->
  x (upd w t m) = (upd (fst (x w)) t m, snd (x w)) /\ length (w_heap (fst (x w))) = length (w_heap w).

Lemma away_ret {A} (y : A) : away (mret y). Proof. split; reflexivity. Qed.
Lemma away_lift {A} (y : res A) : away (mlift y). Proof. split; reflexivity. Qed.
Lemma away_panic {A} : away (@mpanic N A). Proof. split; reflexivity. Qed.
Lemma away_bind {A B} (x : M A) (f : A -> M B) : away x -> (forall y, away (f y)) -> away (mbind x f).
Proof.
  intros Hx Hf w m Hl. destruct (Hx w m Hl) as [E1 E2]. unfold mbind. rewrite E1. destruct (x w) as [w1 [y| |]]; cbn [fst snd] in *; auto.
  destruct (Hf y w1 m ltac:(lia)) as [E3 E4]. split; [exact E3|congruence].
Qed.
Lemma away_load p : p <> t -> away (load p).
Proof. intros Hn w m Hl. unfold load, upd. cbn [w_heap]. rewrite nth_error_list_set_neq by auto. destruct (nth_error (w_heap w) p); split; reflexivity. Qed.
Lemma away_store p x : p <> t -> away (store p x).
Proof. intros Hn w m Hl. unfold store, upd. cbn [w_heap w_polls fst snd]. rewrite length_list_set, list_set_comm by auto. split; reflexivity. Qed.
Lemma away_poll E : away (poll E).
Proof. intros w m Hl. unfold poll. destruct (e_ctx E); split; reflexivity. Qed.
Lemma away_if {A} (b : bool) (x y : M A) : away x -> away y -> away (if b then x else y).
Proof. destruct b; auto. Qed.
Ltac aw := repeat (intros; first [apply away_ret | apply away_lift | apply away_panic | apply away_poll | (apply away_load; congruence) | (apply away_store; congruence) | apply away_if | apply away_bind |
  match goal with |- away (match ?x with (_, _) => _ end) => destruct x end]).
Lemma away_mask k r c : k <> MObj t -> away (mask_Element k r c).
Proof. intros Hk. destruct k; cbn [mask_Element]; aw. Qed.
Lemma away_At a r c : a <> Lib t -> away (a_At a r c).
Proof. intros Ha. destruct a; cbn [a_At]; unfold p_At; aw. Qed.
Lemma away_Rows a : a <> Lib t -> away (a_Rows a).
Proof. intros Ha. destruct a; cbn [a_Rows]; unfold p_Rows; aw. Qed.
Lemma away_Columns a : a <> Lib t -> away (a_Columns a).
Proof. intros Ha. destruct a; cbn [a_Columns]; unfold p_Columns; aw. Qed.
Lemma away_RowsAt a r : a <> Lib t -> away (a_RowsAt a r).
Proof. intros Ha. destruct a; cbn [a_RowsAt]; aw. Qed.
Lemma away_ColumnsAt a r : a <> Lib t -> away (a_ColumnsAt a r).
Proof. intros Ha. destruct a; cbn [a_ColumnsAt]; aw. Qed.
Lemma away_IsSparse E a : a <> Lib t -> away (a_IsSparse E a).
Proof. intros Ha. destruct a; cbn [a_IsSparse]; unfold p_IsSparse; aw. Qed.
Lemma away_sizes s m : s <> Lib t -> m <> Lib t -> away (a_check_sizes s m).
Proof. intros Hs Hm. unfold a_check_sizes. aw; first [apply away_Rows|apply away_Columns]; assumption. Qed.
Lemma away_dot E rv cv : forall ls acc, away (a_dot E rv cv ls acc).
Proof. induction ls as [|l ls IH]; intros acc; cbn [a_dot]; aw; intros; apply IH. Qed.
Lemma away_mask_Rows k : k <> MObj t -> away (mask_Rows k).
Proof. intros Hk. destruct k; cbn [mask_Rows]; unfold p_Rows; aw. Qed.
Lemma away_mask_Columns k : k <> MObj t -> away (mask_Columns k).
Proof. intros Hk. destruct k; cbn [mask_Columns]; unfold p_Columns; aw. Qed.

(** ** The same code with the object in the heap and with the object as the memory *)
Definition alike {A} (st : mat) (X : MS A) (Y : M A) : Prop := forall w, (t < length (w_heap w))%nat ->
  let '(st', w', o) := X st w in Y (upd w t st) = (upd w' t st', o) /\ length (w_heap w') = length (w_heap w).

Lemma alike_ret {A} st (y : A) : alike st (sret y) (mret y). Proof. intros w Hl. split; reflexivity. Qed.
Lemma alike_lift {A} st (x : M A) : away x -> alike st (slift x) x.
Proof. intros H w Hl. destruct (H w st Hl) as [E1 E2]. unfold slift. destruct (x w) as [w1 o]. cbn [fst snd] in *. auto. Qed.
Lemma alike_bind {A B} st (X : MS A) Y (F : A -> MS B) G : alike st X Y -> (forall y st', alike st' (F y) (G y)) -> alike st (sbind X F) (mbind Y G).
Proof.
  intros HX HF w Hl. specialize (HX w Hl). unfold sbind, mbind. destruct (X st w) as [[st1 w1] o]. destruct HX as [-> E2]. destruct o as [y| |]; auto.
  specialize (HF y st1 w1 ltac:(lia)). destruct (F y st1 w1) as [[st2 w2] o]. destruct HF as [-> E3]. split; [reflexivity|congruence].
Qed.
Lemma alike_pre {A B} st (x : M A) (F : A -> MS B) G : away x -> (forall y, alike st (F y) (G y)) -> alike st (sbind (slift x) F) (mbind x G).
Proof.
  intros Hx HF w Hl. destruct (Hx w st Hl) as [E1 E2]. unfold sbind, mbind, slift. rewrite E1. destruct (x w) as [w1 [y| |]]; cbn [fst snd] in *; auto.
  specialize (HF y w1 ltac:(lia)). destruct (F y st w1) as [[st2 w2] o]. destruct HF as [-> E3]. split; [reflexivity|congruence].
Qed.
Lemma alike_set O st r c v : alike st (o_Set (lib_out O) r c v) (p_Set t r c v).
Proof.
  intros w Hl. unfold o_Set, lib_out, p_Set. cbn [so_Set]. rewrite (mbind_ok _ _ (upd w t st) (upd w t st) st) by (apply load_ok; unfold obj, upd; cbn [w_heap]; apply nth_error_list_set_eq; exact Hl).
  destruct (mat_Set st r c v) as [m'| |]; [|split; reflexivity..]. rewrite mbind_lift. unfold store, upd. cbn [w_heap w_polls]. rewrite list_set_twice. split; reflexivity.
Qed.
Lemma alike_update O st r c f : alike st (o_Update (lib_out O) r c f) (p_Update t r c f).
Proof.
  intros w Hl. unfold o_Update, lib_out, p_Update. cbn [so_Update]. rewrite (mbind_ok _ _ (upd w t st) (upd w t st) st) by (apply load_ok; unfold obj, upd; cbn [w_heap]; apply nth_error_list_set_eq; exact Hl).
  destruct (mat_Update st r c f) as [m'| |]; [|split; reflexivity..]. rewrite mbind_lift. unfold store, upd. cbn [w_heap w_polls]. rewrite list_set_twice. split; reflexivity.
Qed.
Lemma alike_check {B} O k (F : mask -> MS B) G : k <> MObj t -> (forall k', k' <> MObj t -> alike O (F k') (G k')) ->
  alike O (sbind (slift (o_check k (lib_out O))) F) (mbind (check_mask k t) G).
Proof.
  intros Hk HF w Hl.
  assert (Ec : check_mask k t (upd w t O) = o_check k (lib_out O) (upd w t O)).
  { assert (Ho : obj (upd w t O) t O) by (unfold obj, upd; cbn [w_heap]; apply nth_error_list_set_eq; exact Hl).
    unfold check_mask. rewrite (mbind_ok _ _ _ _ _ (p_Rows_ok _ _ _ Ho)), (mbind_ok _ _ _ _ _ (p_Columns_ok _ _ _ Ho)). reflexivity. }
  assert (Ha : away (o_check k (lib_out O))).
  { unfold o_check. assert (Hk' : match k with MNil => MEmpty (so_Rows (lib_out O)) (so_Columns (lib_out O)) | _ => k end <> MObj t) by (destruct k; congruence).
    apply away_bind; [apply away_mask_Rows; exact Hk'|]. aw. apply away_mask_Columns. exact Hk'. }
  assert (Hres : forall w1 k', o_check k (lib_out O) w = (w1, Ok k') -> k' <> MObj t).
  { intros w1 k' H. unfold o_check, mbind in H. destruct (mask_Rows _ w) as [w2 [kr| |]]; try discriminate. destruct (negb _); [discriminate|].
    destruct (mask_Columns _ w2) as [w3 [kc| |]]; try discriminate. destruct (negb _); [discriminate|]. injection H as _ <-. destruct k; congruence. }
  destruct (Ha w O Hl) as [E1 E2]. unfold sbind at 1, mbind, slift. rewrite Ec, E1. destruct (o_check k (lib_out O) w) as [w1 [k'| |]] eqn:Eo; cbn [fst snd] in *; auto.
  specialize (HF k' (Hres _ _ eq_refl) w1 ltac:(lia)). destruct (F k' O w1) as [[st2 w2] o]. destruct HF as [-> E3]. split; [reflexivity|congruence].
Qed.
Lemma alike_for {R I} (X : I -> MS (option R)) Y : forall l st, (forall i st', alike st' (X i) (Y i)) -> alike st (s_for_list l X) (for_list l Y).
Proof.
  induction l as [|i l IH]; intros st H; cbn [s_for_list for_list]; [apply alike_ret|]. apply alike_bind; [apply H|]. intros [y|] st'; [apply alike_ret|apply IH; exact H].
Qed.
Lemma alike_enum {R} E a (onC : R) X Y st : a <> Lib t -> (forall r c v st', alike st' (X r c v) (Y r c v)) -> alike st (o_enumerate E a onC X) (a_enumerate E a onC Y).
Proof.
  intros Ha H. destruct a as [p|x]; cbn [o_enumerate a_enumerate].
  - unfold s_enumerate, enumerate. apply alike_pre; [apply away_load; congruence|]. intros m. generalize (mat_iterator m) as it. revert st.
    induction (e_fuel E) as [|n IH]; intros st it; cbn [s_enum_loop enum_loop]; destruct (mat_HasNext it); try apply alike_ret.
    + intros w Hl. split; reflexivity.
    + apply alike_pre; [apply away_poll|]. intros []; [apply alike_ret|]. apply alike_pre; [apply away_load; congruence|]. intros m1.
      apply alike_pre; [apply away_lift|]. intros [[[r c] v] it']. apply alike_bind; [apply H|]. intros [y|] st'; [apply alike_ret|apply IH].
  - revert st. induction (own_shows x) as [|[[r c] v] l IH]; intros st; cbn [o_own_loop own_loop]; [apply alike_ret|].
    apply alike_pre; [apply away_poll|]. intros []; [apply alike_ret|]. apply alike_bind; [apply H|]. intros [y|] st'; [apply alike_ret|apply IH].
Qed.
Lemma alike_masked O st k r c r' c' (v : V) : k <> MObj t ->
  alike st (let$ e := slift (mask_Element k r c) in let$ _ := (if negb e then o_Set (lib_out O) r' c' v else sret tt) in sret (None : option unit))
    (let! e := mask_Element k r c in (if negb e then p_Set t r' c' v else mret tt) ;!; mret None).
Proof.
  intros Hk. apply alike_pre; [apply away_mask; exact Hk|]. intros e. apply alike_bind; [destruct e; cbn [negb]; [apply alike_ret|apply alike_set]|]. intros _ st'. apply alike_ret.
Qed.
Lemma alike_end {A} st (X : MS A) Y : alike st X Y -> alike st (let$ _ := X in sret tt) (let! _ := Y in mret tt).
Proof. intros H. apply alike_bind; [exact H|]. intros _ st'. apply alike_ret. Qed.

Variables (E : env) (s m : arg) (k : mask) (O : mat).
Hypothesis Hs : s <> Lib t.
Hypothesis Hm : m <> Lib t.
Hypothesis Hk : k <> MObj t.
Lemma alike_add : alike O (AddO E s m k (lib_out O)) (AddF E s m k t).
Proof.
  unfold AddO, AddF. apply alike_pre; [apply away_sizes; assumption|]. intros _. apply alike_check; [exact Hk|]. intros k' Hk'.
  apply alike_pre; [apply away_IsSparse; exact Hs|]. intros sp.
  destruct sp; apply alike_end; apply alike_enum; try assumption; intros r c v st'; (apply alike_pre; [apply away_At; assumption|]); intros x; apply alike_masked; exact Hk'.
Qed.
Lemma alike_subtract : alike O (SubtractO E s m k (lib_out O)) (SubtractF E s m k t).
Proof.
  unfold SubtractO, SubtractF. apply alike_pre; [apply away_sizes; assumption|]. intros _. apply alike_check; [exact Hk|]. intros k' Hk'.
  apply alike_end; apply alike_enum; [assumption|]. intros r c v st'. apply alike_pre; [apply away_mask; exact Hk'|]. intros e.
  apply alike_bind; [destruct e; cbn [negb]; [apply alike_ret|apply alike_update]|]. intros _ st2. apply alike_ret.
Qed.
Lemma alike_ewm : alike O (elementWiseMultiplyO E s m k (lib_out O)) (elementWiseMultiplyF E s m k t).
Proof.
  unfold elementWiseMultiplyO, elementWiseMultiplyF. apply alike_check; [exact Hk|]. intros k' Hk'.
  apply alike_pre; [apply away_IsSparse; exact Hs|]. intros sp.
  assert (Em : forall a : arg, a <> Lib t -> a_same a t = false) by (intros [p|x] Ha; cbn [a_same]; [apply Nat.eqb_neq; congruence|reflexivity]).
  rewrite (Em m Hm), (Em s Hs). destruct sp; apply alike_end; apply alike_enum; try assumption; intros r c v st'; (apply alike_pre; [apply away_At; assumption|]); intros x;
    (destruct (neqb v x); [apply alike_masked; exact Hk'|apply alike_ret]).
Qed.
Lemma alike_ewa_loop a k' st : a <> Lib t -> k' <> MObj t -> alike st (ewa_loopO E a k' (lib_out O)) (ewa_loopF E a k' t).
Proof.
  intros Ha Hk'. apply alike_enum; [exact Ha|]. intros r c v st'. destruct (negb (neqb v n0)); [apply alike_masked; exact Hk'|apply alike_ret].
Qed.
Lemma alike_ewa : alike O (elementWiseAddO E s m k (lib_out O)) (elementWiseAddF E s m k t).
Proof.
  unfold elementWiseAddO, elementWiseAddF. apply alike_check; [exact Hk|]. intros k' Hk'.
  assert (Em : forall a : arg, a <> Lib t -> a_same a t = false) by (intros [p|x] Ha; cbn [a_same]; [apply Nat.eqb_neq; congruence|reflexivity]).
  rewrite (Em m Hm), (Em s Hs). cbn [negb]. apply alike_bind; [apply alike_ewa_loop; assumption|]. intros [y|] st'; [apply alike_ret|].
  apply alike_end. apply alike_ewa_loop; assumption.
Qed.
Lemma alike_apply o u : alike O (ApplyO E (Own o) k u (lib_out O)) (ApplyF E o k u t).
Proof.
  unfold ApplyO, ApplyF. apply alike_check; [exact Hk|]. intros k' Hk'. apply alike_end. apply alike_enum; [discriminate|]. intros r c v st'. apply alike_masked. exact Hk'.
Qed.
Lemma alike_apply_lib p u : p <> t -> alike O (ApplyO E (Lib p) k u (lib_out O)) (Apply E p k u t).
Proof.
  intros Hp. unfold ApplyO, Apply. apply alike_check; [exact Hk|]. intros k' Hk'. replace (Nat.eqb p t) with false by (symmetry; apply Nat.eqb_neq; exact Hp).
  apply alike_end. apply (alike_enum E (Lib p)); [congruence|]. intros r c v st'. apply alike_masked. exact Hk'.
Qed.
Lemma alike_transpose : alike O (TransposeO E s k (lib_out O)) (TransposeF E s k t).
Proof.
  unfold TransposeO, TransposeF. apply alike_check; [exact Hk|]. intros k' Hk'. apply alike_end. apply alike_enum; [assumption|]. intros r c v st'. apply alike_masked. exact Hk'.
Qed.
Lemma alike_multiply : alike O (multiplyO E s m k (lib_out O)) (multiplyF E s m k t).
Proof.
  unfold multiplyO, multiplyF. apply alike_pre; [apply away_Rows; assumption|]. intros mr. apply alike_pre; [apply away_Columns; assumption|]. intros sc.
  destruct (negb (mr =? sc)); [apply alike_lift; apply away_panic|]. apply alike_check; [exact Hk|]. intros k' Hk'.
  apply alike_pre; [apply away_Rows; assumption|]. intros sr. apply alike_pre; [apply away_Columns; assumption|]. intros mc. apply alike_end.
  apply alike_for. intros r st'. apply alike_pre; [apply away_RowsAt; assumption|]. intros rv. apply alike_for. intros c st2.
  apply alike_pre; [apply away_ColumnsAt; assumption|]. intros cv. apply alike_pre; [apply away_dot|]. intros [sum|]; [|apply alike_ret]. apply alike_masked. exact Hk'.
Qed.
End Away.

Lemma alike_run t O X Y w : obj w t O -> alike t O X Y -> same_run t O X Y w.
Proof.
  intros Ho H. unfold same_run. specialize (H w (obj_lt _ _ _ Ho)). destruct (X O w) as [[O' w'] o]. destruct H as [H _]. rewrite (upd_same _ _ _ Ho) in H. exact H.
Qed.
Lemma library_outputs E w t O (s m : arg) k u p o : obj w t O -> s <> Lib t -> m <> Lib t -> p <> t -> mask_not k t ->
  same_run t O (multiplyO E s m k (lib_out O)) (multiplyF E s m k t) w /\
  same_run t O (elementWiseMultiplyO E s m k (lib_out O)) (elementWiseMultiplyF E s m k t) w /\
  same_run t O (AddO E s m k (lib_out O)) (AddF E s m k t) w /\
  same_run t O (elementWiseAddO E s m k (lib_out O)) (elementWiseAddF E s m k t) w /\
  same_run t O (SubtractO E s m k (lib_out O)) (SubtractF E s m k t) w /\
  same_run t O (ApplyO E (Own o) k u (lib_out O)) (ApplyF E o k u t) w /\
  same_run t O (ApplyO E (Lib p) k u (lib_out O)) (Apply E p k u t) w /\
  same_run t O (TransposeO E s k (lib_out O)) (TransposeF E s k t) w.
Proof.
  intros Ho Hs Hm Hp Hk.
  do 7 (split; [apply (alike_run _ _ _ _ _ Ho); first [apply alike_multiply|apply alike_ewm|apply alike_add|apply alike_ewa|apply alike_subtract|apply alike_apply|apply alike_apply_lib]; assumption|]).
  apply (alike_run _ _ _ _ _ Ho). apply alike_transpose; assumption.
Qed.
Lemma library_makes t O X Y w ws : same_run t O X Y w -> makes (lib_out O) X O w ws -> written t O Y w ws.
Proof.
  unfold same_run. intros H (w' & E1 & E2). rewrite E1 in H. eexists. split; [exact H|]. cbn [w_heap]. rewrite E2. reflexivity.
Qed.

(** what the operators write into an object of the library, of whatever type and state *)
Lemma library_writes E w t O (s m : arg) k R C f g Ls Lm b : sane N -> reachable w -> obj w t O -> operand E w t s R C f Ls -> operand E w t m R C g Lm -> registered E w s b ->
  mask_not k t -> mask_fits w k (lib_out O) R C ->
  written t O (AddF E s m k t) w (map (fun e => WSet (row_of e) (col_of e) (nadd ((if b then g else f) (row_of e) (col_of e)) (snd e))) (left_by w k (reached E w (if b then Ls else Lm)))) /\
  written t O (SubtractF E s m k t) w (map (fun e => WUpdate (row_of e) (col_of e) (fun x => nsub (snd e) x)) (left_by w k (reached E w Ls))) /\
  written t O (elementWiseMultiplyF E s m k t) w (map (fun e => WSet (row_of e) (col_of e) (snd e))
      (left_by w k (filter (fun e => neqb (snd e) ((if b then g else f) (row_of e) (col_of e))) (reached E w (if b then Ls else Lm))))) /\
  written t O (elementWiseAddF E s m k t) w (map (fun e => WSet (row_of e) (col_of e) (snd e)) (left_by w k (filter (fun e => negb (neqb (snd e) n0)) (reached E w (Ls ++ Lm))))) /\
  written t O (TransposeF E s k t) w (map (fun e => WSet (col_of e) (row_of e) (snd e)) (left_by w k (reached E w Ls))).
Proof.
  intros Hsn Hr Ho [Hs Ps] [Hm Pm] Hb Hk Hf.
  assert (Hp : exists p : ptr, p <> t) by (exists (S t); lia). destruct Hp as [p Hp].
  destruct (library_outputs E w t O s m k (fun v => v) p (MkOwn "" 0 0 0 (fun _ _ => Panic) (fun _ => Panic) (fun _ => Panic) []) Ho Hs Hm Hp Hk) as (_ & H2 & H3 & H4 & H5 & _ & _ & H8).
  split; [eapply library_makes; [exact H3|eapply addO; eauto]|]. split; [eapply library_makes; [exact H5|eapply subtractO; eauto]|].
  split; [eapply library_makes; [exact H2|eapply ewmO; eauto]|]. split; [eapply library_makes; [exact H4|eapply ewaO; eauto]|].
  eapply library_makes; [exact H8|eapply transposeO; eauto].
Qed.
Lemma library_product E w t O (s m : arg) k R K C n (fr gc : Z -> Z -> V) : sane N -> reachable w -> obj w t O -> rows_show w t s R K n fr -> columns_show w t m K C n gc ->
  mask_not k t -> mask_fits w k (lib_out O) R C ->
  written t O (multiplyF E s m k t) w
    (map (fun p : Z * Z => WSet (fst p) (snd p) (sum_from n0 (fun l => nmul (fr (fst p) l) (gc (snd p) l)) 0 n))
      (filter (fun p : Z * Z => negb (covers w k (fst p) (snd p))) (reached_n (Z.to_nat n) E w (positions R C)))).
Proof.
  intros Hsn Hr Ho Hs Hm Hk Hf.
  assert (Ns : s <> Lib t) by (destruct s as [p|x]; [destruct Hs as [Hs _]; congruence|discriminate]). assert (Nm : m <> Lib t) by (destruct m as [p|x]; [destruct Hm as [Hm _]; congruence|discriminate]).
  eapply library_makes; [apply (alike_run _ _ _ _ _ Ho); apply alike_multiply; assumption|]. apply multiplyO_ok with (K := K); auto.
  - destruct s as [p|x]; [|exact Hs]. destruct Hs as (_ & y & Hy & H). split; [|exists y; auto]. apply obj_lt in Hy. unfold ptr in *. lia.
  - destruct m as [p|x]; [|exact Hm]. destruct Hm as (_ & y & Hy & H). split; [|exists y; auto]. apply obj_lt in Hy. unfold ptr in *. lia.
Qed.
End SinkLib.

Section Refused.
Context {N : num} {St : Type}.
Notation arg := (arg N).
Implicit Types w : world N.

(** sizes that do not match: nothing is called *)
Lemma wrong_sizes E w (s m : arg) k (out : sink N St) R C R' C' f g Ls Lm st : presents E w s R C f Ls -> presents E w m R' C' g Lm ->
  ((R <> R' \/ C <> C') -> AddO E s m k out st w = (st, w, Panic) /\ SubtractO E s m k out st w = (st, w, Panic)) /\
  (C <> R' -> multiplyO E s m k out st w = (st, w, Panic)).
Proof.
  intros Hs Hm. apply present_t in Hs, Hm. pose proof (only_refl w (length (w_heap w))) as Ho.
  pose proof (operand_Columns _ _ _ _ _ _ _ _ _ Hs Ho) as E1. pose proof (operand_Columns _ _ _ _ _ _ _ _ _ Hm Ho) as E2.
  pose proof (operand_Rows _ _ _ _ _ _ _ _ _ Hs Ho) as E3. pose proof (operand_Rows _ _ _ _ _ _ _ _ _ Hm Ho) as E4. split.
  - intros Hne. assert (Hc : a_check_sizes s m w = (w, Panic)).
    { unfold a_check_sizes. rewrite (mbind_ok _ _ _ _ _ E1), (mbind_ok _ _ _ _ _ E2). destruct (C =? C') eqn:Ec; cbn [negb]; [|reflexivity].
      rewrite (mbind_ok _ _ _ _ _ E3), (mbind_ok _ _ _ _ _ E4). replace (R =? R') with false by lia. reflexivity. }
    unfold AddO, SubtractO, sbind, slift. rewrite Hc. auto.
  - intros Hne. unfold multiplyO. rewrite (sbind_lift _ _ _ _ _ _ E4), (sbind_lift _ _ _ _ _ _ E1). replace (R' =? C) with false by lia. reflexivity.
Qed.
Lemma wrong_mask E w (s m : arg) k (out : sink N St) u R C R' C' r c f g Ls Lm st : presents E w s R C f Ls -> presents E w m R' C' g Lm ->
  k <> MNil -> mask_dims w k r c -> (r <> so_Rows out \/ c <> so_Columns out) ->
  multiplyO E s m k out st w = (st, w, Panic) /\ AddO E s m k out st w = (st, w, Panic) /\ SubtractO E s m k out st w = (st, w, Panic) /\
  elementWiseMultiplyO E s m k out st w = (st, w, Panic) /\ elementWiseAddO E s m k out st w = (st, w, Panic) /\
  ApplyO E s k u out st w = (st, w, Panic) /\ TransposeO E s k out st w = (st, w, Panic).
Proof.
  intros Hs Hm Hk Hd Hne.
  assert (Hc : o_check k out w = (w, Panic)).
  { unfold o_check. destruct k as [|r' c'|p|r' c' f']; cbn [mask_dims mask_Rows mask_Columns] in *; [congruence| | |].
    - destruct Hd as [-> ->]. rewrite mbind_ret. destruct (r =? so_Rows out) eqn:E1; cbn [negb]; [|reflexivity]. rewrite mbind_ret.
      replace (c =? so_Columns out) with false by lia. reflexivity.
    - destruct Hd as (x & Hx & <- & <-). rewrite (mbind_ok _ _ _ _ _ (p_Rows_ok _ _ _ Hx)). destruct (mat_Rows x =? so_Rows out) eqn:E1; cbn [negb]; [|reflexivity].
      rewrite (mbind_ok _ _ _ _ _ (p_Columns_ok _ _ _ Hx)). replace (mat_Columns x =? so_Columns out) with false by lia. reflexivity.
    - destruct Hd as [-> ->]. rewrite mbind_ret. destruct (r =? so_Rows out) eqn:E1; cbn [negb]; [|reflexivity]. rewrite mbind_ret.
      replace (c =? so_Columns out) with false by lia. reflexivity. }
  assert (Hb : forall A (F : mask -> @MS N St A), sbind (slift (o_check k out)) F st w = (st, w, Panic)) by (intros A F; unfold sbind, slift; rewrite Hc; reflexivity).
  destruct (wrong_sizes E w s m k out R C R' C' f g Ls Lm st Hs Hm) as [Hz1 Hz2]. split.
  { destruct (Z.eq_dec C R') as [He|He]; [|apply Hz2; exact He]. apply present_t in Hs, Hm. pose proof (only_refl w (length (w_heap w))) as Ho. unfold multiplyO.
    rewrite (sbind_lift _ _ _ _ _ _ (operand_Rows _ _ _ _ _ _ _ _ _ Hm Ho)), (sbind_lift _ _ _ _ _ _ (operand_Columns _ _ _ _ _ _ _ _ _ Hs Ho)), He, Z.eqb_refl. cbn [negb]. apply Hb. }
  assert (HA : AddO E s m k out st w = (st, w, Panic) /\ SubtractO E s m k out st w = (st, w, Panic)).
  { destruct (Z.eq_dec R R') as [HR|HR]; [|apply Hz1; auto]. destruct (Z.eq_dec C C') as [HC|HC]; [|apply Hz1; auto]. subst R' C'.
    pose proof (check_sizes_ok _ _ _ _ _ _ _ _ _ _ Hs Hm) as Hz. unfold AddO, SubtractO. rewrite !(sbind_lift _ _ _ _ _ _ Hz), !Hb. auto. }
  split; [apply HA|]. split; [apply HA|].
  unfold elementWiseMultiplyO, elementWiseAddO, ApplyO, TransposeO. rewrite !Hb. auto.
Qed.
End Refused.
