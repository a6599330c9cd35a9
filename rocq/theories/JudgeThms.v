(** Comparison of matrices of the caller's own types. *)
From Coq Require Import String.
From Verif Require Import GoBase Num SparseVec Csr Csc DenseVec DenseMat Mat World Ops Spec Api SortModel.
From Verif Require Import BaseProofs MatProofs HeapProofs ReachProofs StoreProofs StoreThms VecProofs OpsProofs OpsThms EwThms OpsProps LoopProofs ApplyMem ApplyMemThms MaskMem Foreign ForeignThms ForeignOps Sink SinkThms SinkLib Shared SharedThms SharedLib Refuse RefuseThms SortProofs Judge.
Import ListNotations.

Lemma world_same {N : num} (w w' : world N) : w_heap w' = w_heap w -> w_polls w' = w_polls w -> w' = w.
Proof. destruct w, w'; cbn; congruence. Qed.
Lemma poll_quota {N : num} E (w : world N) : exists w', poll E w = (w', Ok (over (quota E w))) /\ w_heap w' = w_heap w /\ (e_ctx E = None -> w' = w) /\
  quota E w' = spent (quota E w) 1.
Proof.
  unfold poll, quota, spent, over. destruct (e_ctx E) as [k|]; cbn [option_map].
  - eexists. split; [f_equal; f_equal|]. 2:{ cbn [w_heap w_polls]. split; [reflexivity|]. split; [discriminate|]. f_equal. lia. }
    destruct (Nat.leb_spec k (w_polls w)) as [H|H]; [replace (k - w_polls w)%nat with 0%nat by lia; reflexivity|].
    destruct (k - w_polls w)%nat eqn:Ek; [lia|reflexivity].
  - exists w. auto.
Qed.
Lemma spent_spent q a b : spent (spent q a) b = spent q (a + b).
Proof. destruct q as [k|]; cbn [spent option_map]; [|reflexivity]. f_equal. lia. Qed.
Lemma spent_over q n : over q = true -> spent q n = q.
Proof. destruct q as [[|k]|]; cbn; intros H; try discriminate. reflexivity. Qed.
Lemma within_over {A} q (l : list A) : over q = true -> within q l = [].
Proof. destruct q as [[|k]|]; cbn; intros H; try discriminate. reflexivity. Qed.
Lemma within_go {A} q (x : A) l : over q = false -> within q (x :: l) = x :: within (spent q 1) l.
Proof. destruct q as [[|k]|]; cbn; intros H; try discriminate; [|reflexivity]. rewrite Nat.sub_0_r. reflexivity. Qed.

Section JudgeEqual.
Context {N : num}.
Notation V := (T N).
Notation world := (world N).
Notation arg := (arg N).
Notation ent := (Z * Z * V)%type.
Implicit Types w : world.
Implicit Types a : arg.

Lemma ruling_run E w (g : Z -> Z -> res V) body :
  forall L w1, w_heap w1 = w_heap w ->
  (forall r c v w1, w_heap w1 = w_heap w -> body r c v w1 = (w1, match g r c with Ok x => Ok (if neqb v x then None else Some false) | Panic => Panic | Diverge => Diverge end)) ->
  exists w', own_loop E L false body w1 = (w', match ruling g (quota E w1) L with Ok true => Ok None | Ok false => Ok (Some false) | Panic => Panic | Diverge => Diverge end)
    /\ w_heap w' = w_heap w /\ (e_ctx E = None -> w' = w1).
Proof.
  induction L as [|[[r c] v] L IH]; intros w1 Hh Hb; cbn [own_loop].
  - exists w1. split; [|auto]. unfold ruling. destruct (quota E w1) as [[|k]|]; reflexivity.
  - destruct (poll_quota E w1) as (w2 & Hp & Hw2 & Hc & Hq). rewrite (mbind_ok _ _ _ _ _ Hp). assert (H2 : w_heap w2 = w_heap w) by congruence.
    destruct (over (quota E w1)) eqn:Eo.
    + exists w2. split; [|auto]. unfold ruling. rewrite within_over by exact Eo. reflexivity.
    + destruct (IH w2 H2 Hb) as (w3 & E3 & H3 & H4). rewrite Hq in E3. unfold mbind. rewrite (Hb r c v w2 H2).
      unfold ruling. rewrite within_go by exact Eo. cbn [find]. unfold objects at 1. unfold row_of, col_of. cbn [fst snd length Nat.eqb].
      destruct (g r c) as [x| |] eqn:Eg; [|cbv iota beta; cbn [fst snd]; rewrite Eg; exists w2; auto..].
      destruct (neqb v x) eqn:En; cbn [negb].
      * exists w3. split; [exact E3|]. split; [exact H3|]. intros Hn. rewrite (H4 Hn). auto.
      * cbn [fst snd]. rewrite Eg. exists w2. auto.
Qed.
Lemma walk_compare E w p m (body : Z -> Z -> V -> M N (option bool)) : obj w p m ->
  (forall r c v w1, w_heap w1 = w_heap w -> fst (body r c v w1) = w1) ->
  forall rest it d fuel, it_rel m it d rest -> (length rest <= fuel)%nat -> forall w1, w_heap w1 = w_heap w ->
  enum_loop E fuel p it false body w1 = own_loop E rest false body w1.
Proof.
  intros Hm Hb. induction rest as [|[[r c] v] rest IH]; intros it d fuel Hit Hf w1 Hh.
  - destruct fuel; cbn [enum_loop own_loop]; rewrite (it_rel_HasNext _ _ _ _ Hit); reflexivity.
  - destruct fuel as [|fuel]; [simpl in Hf; lia|]. cbn [enum_loop own_loop]. rewrite (it_rel_HasNext _ _ _ _ Hit).
    destruct (poll_heap E w1) as (w2 & b & Hp & Hw2 & _). rewrite !(mbind_ok _ _ _ _ _ Hp). destruct b; [reflexivity|].
    assert (H2 : w_heap w2 = w_heap w) by congruence. assert (Hm2 : obj w2 p m) by (unfold obj; rewrite H2; exact Hm).
    rewrite (mbind_ok _ _ _ _ _ (load_ok _ _ _ Hm2)). destruct (it_rel_step _ _ _ _ _ _ _ Hit) as (it' & Hx & Hcu & Hr & _).
    assert (En : mat_Next m it = Ok ((r, c, v), it')) by (unfold mat_Next; rewrite Hx; cbn [rbind]; rewrite Hcu; reflexivity).
    rewrite En, mbind_lift. cbv iota beta. specialize (Hb r c v w2 H2).
    unfold mbind. destruct (body r c v w2) as [w3 o]. cbn [fst] in Hb. subst w3. destruct o as [[x|]| |]; try reflexivity. apply (IH it' _ fuel Hr); [simpl in Hf; lia|exact H2].
Qed.

Lemma equal_run_wf E w (s m : arg) R C R' C' g L b b' n n' : (forall p x, obj w p x -> wf x) -> sized w s R C -> sized w m R' C' ->
  registered E w s b -> registered E w m b' -> says w s n -> says w m n' ->
  walks E w (if b then s else m) L -> at_gives w (if b then m else s) g ->
  exists w', EqualF E s m w = (w', if (C =? C') && (R =? R') && (negb (Bool.eqb b b') || (n =? n')) then ruling g (quota E w) L else Ok false) /\
    w_heap w' = w_heap w /\ (e_ctx E = None -> w' = w).
Proof.
  intros Hwf [S1 S2] [M1 M2] Rs Rm Cs Cm HL Hg.
  unfold EqualF. rewrite (mbind_ok _ _ _ _ _ S2), (mbind_ok _ _ _ _ _ M2).
  destruct (C =? C'); cbn [negb andb]; [|exists w; auto].
  rewrite (mbind_ok _ _ _ _ _ S1), (mbind_ok _ _ _ _ _ M1).
  destruct (R =? R'); cbn [negb andb]; [|exists w; auto].
  rewrite (mbind_ok _ _ _ _ _ (registered_IsSparse _ _ _ _ Rs)), (mbind_ok _ _ _ _ _ (registered_IsSparse _ _ _ _ Rm)), (mbind_ok _ _ _ _ _ (says_Values _ _ _ Cs)), (mbind_ok _ _ _ _ _ (says_Values _ _ _ Cm)).
  replace (b && b' || negb b && negb b') with (Bool.eqb b b') by (destruct b, b'; reflexivity).
  replace (negb (Bool.eqb b b') || (n =? n')) with (negb (Bool.eqb b b' && negb (n =? n'))) by (destruct (Bool.eqb b b'), (n =? n'); reflexivity).
  destruct (Bool.eqb b b' && negb (n =? n')); cbn [negb]; [exists w; auto|].
  set (src := if b then s else m) in *. set (matrix := if b then m else s) in *.
  replace (if b then (s, m) else (m, s)) with (src, matrix) by (destruct b; reflexivity). cbv iota beta.
  set (body := fun r c v => let! mV := a_At matrix r c in if negb (neqb v mV) then mret (Some false) else mret None).
  assert (Hb : forall r c v w1, w_heap w1 = w_heap w -> body r c v w1 = (w1, match g r c with Ok x => Ok (if neqb v x then None else Some false) | Panic => Panic | Diverge => Diverge end)).
  { intros r c v w1 Hh. unfold body, mbind. rewrite (At_heap _ _ _ _ _ _ Hh (Hg r c)). destruct (g r c) as [x| |]; [|reflexivity..]. destruct (neqb v x); reflexivity. }
  destruct (ruling_run E w g body L w eq_refl Hb) as (w' & El & Hh' & Hn).
  assert (Hen : a_enumerate E src false body w = own_loop E L false body w).
  { clear - HL Hb Hwf. destruct src as [p|o]; cbn [a_enumerate walks] in *; [|subst L; reflexivity]. destruct HL as (x & Hx & He & Hf).
    pose proof (Hwf _ _ Hx) as Wx. rewrite (enumerates_unique x L Wx He). unfold enumerate. rewrite (mbind_ok _ _ _ _ _ (load_ok _ _ _ Hx)).
    apply (walk_compare E w p x body Hx) with (d := []); auto.
    - intros r c v w1 Hh. rewrite (Hb r c v w1 Hh). reflexivity.
    - apply entries_rel. exact Wx.
    - pose proof (zlen_entries x Wx) as Hz. unfold zlen in Hz. lia. }
  exists w'. split; [|auto]. unfold mbind. rewrite Hen, El. destruct (ruling g (quota E w) L) as [[]| |]; reflexivity.
Qed.
Lemma equal_run E w (s m : arg) R C R' C' g L b b' n n' : sane N -> reachable w -> sized w s R C -> sized w m R' C' ->
  registered E w s b -> registered E w m b' -> says w s n -> says w m n' ->
  walks E w (if b then s else m) L -> at_gives w (if b then m else s) g ->
  exists w', EqualF E s m w = (w', if (C =? C') && (R =? R') && (negb (Bool.eqb b b') || (n =? n')) then ruling g (quota E w) L else Ok false) /\ w_heap w' = w_heap w.
Proof.
  intros Hsn Hr Hs Hm Rs Rm Cs Cm HL Hg. destruct (equal_run_wf E w s m R C R' C' g L b b' n n') as (w' & Ee & Hh & _); eauto. intros p x Hp. exact (sane_wfw w Hsn Hr _ _ Hp).
Qed.
Lemma sized_heap w w1 a R C : w_heap w1 = w_heap w -> sized w a R C -> sized w1 a R C.
Proof.
  intros Hh. destruct a as [p|o]; unfold sized; cbn [a_Rows a_Columns]; [|unfold mret; intros [A B]; split; congruence]. unfold p_Rows, p_Columns, mbind. rewrite (load_heap _ _ _ Hh). unfold load.
  destruct (nth_error (w_heap w) p) as [m|]; cbn [snd]; unfold mret; intros [A B]; split; congruence.
Qed.
Lemma walks_heap E w w1 a L : w_heap w1 = w_heap w -> walks E w a L -> walks E w1 a L.
Proof. intros Hh. destruct a as [p|o]; cbn [walks]; [|auto]. intros (m & Hm & H). exists m. split; [unfold obj; rewrite Hh; exact Hm|exact H]. Qed.
Lemma says_heap w w1 a n : w_heap w1 = w_heap w -> says w a n -> says w1 a n.
Proof. intros Hh. destruct a as [p|o]; cbn [says]; [|auto]. intros (m & Hm & H). exists m. split; [unfold obj; rewrite Hh; exact Hm|exact H]. Qed.
Lemma registered_heap E w w1 a b : w_heap w1 = w_heap w -> registered E w a b -> registered E w1 a b.
Proof. intros Hh. destruct a as [p|o]; cbn [registered]; [|auto]. intros (m & Hm & H). exists m. split; [unfold obj; rewrite Hh; exact Hm|exact H]. Qed.
Lemma equal_method E w w1 (s m : arg) R C R' C' g L b b' n n' : sane N -> reachable w -> w_heap w1 = w_heap w -> sized w s R C -> sized w m R' C' ->
  registered E w s b -> registered E w m b' -> says w s n -> says w m n' ->
  walks E w (if b then s else m) L -> at_gives w (if b then m else s) g ->
  EqualF (bg E) s m w1 = (w1, if (C =? C') && (R =? R') && (negb (Bool.eqb b b') || (n =? n')) then ruling g None L else Ok false).
Proof.
  intros Hsn Hr Hh Hs Hm Rs Rm Cs Cm HL Hg.
  destruct (equal_run_wf (bg E) w1 s m R C R' C' g L b b' n n') as (w' & Ee & _ & Hw); eauto using sized_heap, says_heap.
  - intros p x Hp. apply (sane_wfw w Hsn Hr p x). unfold obj in *. rewrite <- Hh. exact Hp.
  - exact (registered_heap E w w1 s b Hh Rs).
  - exact (registered_heap E w w1 m b' Hh Rm).
  - exact (walks_heap E w w1 _ L Hh HL).
  - intros r c. exact (At_heap _ _ _ _ _ _ Hh (Hg r c)).
  - rewrite Ee, (Hw eq_refl). reflexivity.
Qed.
(** an operand that panics is found out only by comparison with an element that is shown *)
Lemma ruling_panics (g : Z -> Z -> res V) q L : ruling g q L = Panic -> exists r c v, In (r, c, v) L /\ g r c = Panic.
Proof.
  unfold ruling. destruct (find (objects g) (within q L)) as [[[r c] v]|] eqn:Ef; [|discriminate]. apply find_some in Ef as [Hi _]. unfold row_of, col_of. cbn [fst snd].
  destruct (g r c) eqn:Eg; try discriminate. intros _. exists r, c, v. split; [|exact Eg]. destruct q as [k|]; cbn [within] in Hi; [|exact Hi].
  rewrite <- (firstn_skipn k L). apply in_or_app. auto.
Qed.
Lemma equal_panics E w (s m : arg) R C R' C' g L b b' n n' : sane N -> reachable w -> sized w s R C -> sized w m R' C' ->
  registered E w s b -> registered E w m b' -> says w s n -> says w m n' ->
  walks E w (if b then s else m) L -> at_gives w (if b then m else s) g ->
  snd (EqualF E s m w) = Panic -> exists r c v, In (r, c, v) L /\ g r c = Panic.
Proof.
  intros Hsn Hr Hs Hm Rs Rm Cs Cm HL Hg. destruct (equal_run E w s m R C R' C' g L b b' n n') as (w' & Ee & _); auto. rewrite Ee. cbn [snd].
  destruct (_ && _); [apply ruling_panics|discriminate].
Qed.
End JudgeEqual.

Notation rworld := (world num_rune).
Notation rent := (Z * Z * T num_rune)%type.
Lemma own_string_run E : forall (L : list rent) acc (w : rworld), exists w', own_string E L acc w = (w', Ok (acc ++ spelled (within (quota E w) L))) /\ w_heap w' = w_heap w /\
  quota E w' = spent (quota E w) (length L).
Proof.
  induction L as [|[[r c] v] L IH]; intros acc w; cbn [own_string].
  - exists w. replace (within (quota E w) []) with (@nil rent) by (destruct (quota E w) as [[|k]|]; reflexivity). cbn [spelled flat_map]. rewrite app_nil_r. split; [reflexivity|]. split; [reflexivity|].
    destruct (quota E w); cbn; [rewrite Nat.sub_0_r|]; reflexivity.
  - destruct (poll_quota E w) as (w1 & Hp & Hw1 & _ & Hq). rewrite (mbind_ok _ _ _ _ _ Hp). destruct (over (quota E w)) eqn:Eo.
    + exists w1. rewrite within_over by exact Eo. cbn [spelled flat_map]. rewrite app_nil_r. split; [reflexivity|]. split; [exact Hw1|]. rewrite Hq, !spent_over by exact Eo. reflexivity.
    + destruct (IH (acc ++ utf8 (code v)) w1) as (w2 & E2 & H2 & Q2). exists w2. rewrite within_go by exact Eo. cbn [spelled flat_map snd]. split; [rewrite E2, Hq, <- app_assoc; reflexivity|].
      split; [congruence|]. rewrite Q2, Hq, spent_spent. reflexivity.
Qed.
Lemma lib_string E m p : forall (rest : list rent) it d fuel acc (w : rworld), it_rel m it d rest -> obj w p m -> (length rest <= fuel)%nat ->
  string_loop E fuel p it acc w = own_string E rest acc w.
Proof.
  induction rest as [|[[r c] v] rest IH]; intros it d fuel acc w Hit Ho Hf.
  - destruct fuel; cbn [string_loop own_string]; rewrite (it_rel_HasNext _ _ _ _ Hit); reflexivity.
  - destruct fuel as [|fuel]; [simpl in Hf; lia|]. cbn [string_loop own_string]. rewrite (it_rel_HasNext _ _ _ _ Hit).
    destruct (poll_heap E w) as (w1 & b & Hp & Hh & _). rewrite !(mbind_ok _ _ _ _ _ Hp). destruct b; [reflexivity|].
    assert (Ho1 : obj w1 p m) by (unfold obj in *; rewrite Hh; exact Ho). rewrite (mbind_ok _ _ _ _ _ (load_ok _ _ _ Ho1)).
    destruct (it_rel_step _ _ _ _ _ _ _ Hit) as (it' & Hn & Hc & Hr & _). unfold mat_Next. rewrite Hn. cbn [rbind]. rewrite Hc. cbn [rbind]. rewrite mbind_lift.
    apply (IH it' _ fuel _ w1 Hr Ho1). exact (le_S_n _ _ Hf).
Qed.
Lemma size_heap a n (w w1 : rworld) : w_heap w1 = w_heap w -> t_Size a w = (w, Ok n) -> t_Size a w1 = (w1, Ok n).
Proof.
  intros Hh. destruct a as [p|o z b]; cbn [t_Size]; [|unfold mret; congruence]. unfold p_Size, mbind. rewrite (load_heap _ _ _ Hh). unfold load.
  destruct (nth_error (w_heap w) p) as [m|]; cbn [snd]; unfold mret; congruence.
Qed.
Definition all_wf (w : rworld) : Prop := forall p m, obj w p m -> wf m.
Lemma string_run_wf E (w : rworld) a n L : all_wf w -> reads E w a n L ->
  exists w', StringF E a w = (w', if n <? 0 then Panic else Ok (spelled (within (quota E w) L))) /\ w_heap w' = w_heap w /\ (0 <= n -> quota E w' = spent (quota E w) (length L)).
Proof.
  intros Hw [Hn HL]. destruct a as [p|o z b]; cbn [StringF t_arg walks] in *.
  - destruct HL as (m & Hm & He & Hf). pose proof (Hw _ _ Hm) as Wm. unfold RuneString. cbn [t_Size] in Hn. rewrite (mbind_ok _ _ _ _ _ Hn).
    destruct (Z.ltb_spec n 0) as [H0|H0]; [exists w; split; [reflexivity|]; split; [reflexivity|lia]|]. rewrite (mbind_ok _ _ _ _ _ (load_ok _ _ _ Hm)).
    rewrite (enumerates_unique m L Wm He).
    destruct (own_string_run E (entries m) [] w) as (w' & E1 & H1 & Q1). exists w'. split; [|auto].
    etransitivity; [|exact E1]. apply (lib_string E m p (entries m) (mat_iterator m) []); [apply entries_rel; exact Wm|exact Hm|]. pose proof (zlen_entries m Wm) as Hz. unfold zlen in Hz. lia.
  - subst L. rewrite (mbind_ok _ _ _ _ _ Hn). destruct (Z.ltb_spec n 0) as [H0|H0]; [exists w; split; [reflexivity|]; split; [reflexivity|lia]|].
    destruct (own_string_run E (own_shows o) [] w) as (w' & E1 & H1 & Q1). exists w'. auto.
Qed.
Lemma rune_wf (w : rworld) : reachable w -> all_wf w.
Proof. intros Hr p m Hm. exact (sane_wfw w rune_sane Hr _ _ Hm). Qed.
Lemma heap_wf (w w1 : rworld) : w_heap w1 = w_heap w -> all_wf w -> all_wf w1.
Proof. intros Hh H p m Hm. apply (H p m). unfold obj in *. rewrite <- Hh. exact Hm. Qed.
Lemma string_run E (w : rworld) a n L : reachable w -> reads E w a n L ->
  exists w', StringF E a w = (w', if n <? 0 then Panic else Ok (spelled (within (quota E w) L))) /\ w_heap w' = w_heap w.
Proof. intros Hr H. destruct (string_run_wf E w a n L (rune_wf w Hr) H) as (w' & E1 & H1 & _). eauto. Qed.

Lemma two_strings E (w : rworld) s m n n' L L' : all_wf w -> reads E w s n L -> reads E w m n' L' ->
  exists w', w_heap w' = w_heap w /\ forall A (F : list Z -> list Z -> A), (let! a := StringF E s in let! b := StringF E m in mret (F a b)) w =
    (w', if (n <? 0) || (n' <? 0) then Panic else Ok (F (spelled (within (quota E w) L)) (spelled (within (spent (quota E w) (length L)) L')))).
Proof.
  intros Hw Hs Hm. destruct (string_run_wf E w s n L Hw Hs) as (w1 & E1 & H1 & Q1).
  assert (Hm1 : reads E w1 m n' L') by (destruct Hm as [A B]; split; [eapply size_heap; eauto|eapply walks_heap; eauto]).
  destruct (string_run_wf E w1 m n' L' (heap_wf _ _ H1 Hw) Hm1) as (w2 & E2 & H2 & _).
  unfold mbind. destruct (Z.ltb_spec n 0) as [H0|H0].
  - exists w1. split; [exact H1|]. intros A F. rewrite E1. reflexivity.
  - exists w2. split; [congruence|]. intros A F. rewrite E1, E2. rewrite (Q1 H0). cbn [orb]. destruct (n' <? 0); reflexivity.
Qed.
Lemma less_run E (w : rworld) s m n n' L L' : reachable w -> reads E w s n L -> reads E w m n' L' ->
  (exists w', LessF E s m w = (w', earlier (quota E w) n n' L L') /\ w_heap w' = w_heap w) /\
  (exists w', GreaterF E s m w = (w', if (n <? 0) || (n' <? 0) then Panic else Ok (str_ltb (spelled (within (spent (quota E w) (length L)) L')) (spelled (within (quota E w) L)))) /\ w_heap w' = w_heap w).
Proof.
  intros Hr Hs Hm. destruct (two_strings E w s m n n' L L' (rune_wf w Hr) Hs Hm) as (w' & Hh & HF).
  split; exists w'; (split; [|exact Hh]); [exact (HF bool str_ltb)|exact (HF bool (fun a b => str_ltb b a))].
Qed.
Lemma compare_run E (w : rworld) s m n n' L L' x : reachable w -> reads E w s n L -> reads E w m n' L' -> finds E w s m x ->
  exists w', CompareF E s m w = (w',
    if over (quota E w) then Ok 0 else
    match x with
    | Ok true => Ok 0
    | Ok false => if over (spent (quota E w) 1) then Ok 0 else
        match earlier (spent (quota E w) 2) n n' L L' with Ok true => Ok (-1) | Ok false => Ok 1 | Panic => Panic | Diverge => Diverge end
    | Panic => Panic
    | Diverge => Diverge
    end) /\ w_heap w' = w_heap w.
Proof.
  intros Hr Hs Hm Hx. unfold CompareF. destruct (poll_quota E w) as (w1 & Hp & H1 & _ & Q1). rewrite (mbind_ok _ _ _ _ _ Hp). destruct (over (quota E w)); [exists w1; auto|].
  specialize (Hx w1 H1). destruct x as [[]| |]; unfold mbind at 1; rewrite Hx; [exists w1; auto| |exists w1; auto..].
  destruct (poll_quota E w1) as (w2 & Hp2 & H2 & _ & Q2). rewrite (mbind_ok _ _ _ _ _ Hp2). rewrite <- Q1. destruct (over (quota E w1)); [exists w2; split; [reflexivity|congruence]|].
  assert (Hh : w_heap w2 = w_heap w) by congruence.
  assert (T : forall a k l, reads E w a k l -> reads E w2 a k l) by (intros a k l [A B]; split; [eapply size_heap; eauto|eapply walks_heap; eauto]).
  destruct (two_strings E w2 s m n n' L L' (heap_wf _ _ Hh (rune_wf w Hr)) (T _ _ _ Hs) (T _ _ _ Hm)) as (w3 & H3 & HF). specialize (HF bool str_ltb).
  exists w3. split; [|congruence]. unfold mbind at 1. change (LessF E s m w2) with ((let! a := StringF E s in let! b := StringF E m in mret (str_ltb a b)) w2). rewrite HF.
  rewrite Q2, Q1, spent_spent. unfold earlier. cbn [Nat.add]. destruct ((n <? 0) || (n' <? 0)); [reflexivity|].
  match goal with |- (if ?x then _ else _) _ = _ => destruct x; reflexivity end.
Qed.
Lemma own_finds E (w : rworld) o n x m : finds E w (TOwn o n x) m x.
Proof. intros w1 _. reflexivity. Qed.
Lemma compare_own E (w : rworld) o x m n n' L L' : reachable w -> reads E w (TOwn o n x) n L -> reads E w m n' L' ->
  e_ctx E = None -> 0 <= n -> 0 <= n' ->
  exists w', CompareF E (TOwn o n x) m w = (w', match x with
    | Ok true => Ok 0
    | Ok false => Ok (if str_ltb (spelled L) (spelled L') then -1 else 1)
    | Panic => Panic
    | Diverge => Diverge
    end) /\ w_heap w' = w_heap w.
Proof.
  intros Hr Hs Hm Hc H0 H1. destruct (compare_run E w (TOwn o n x) m n n' L L' x Hr Hs Hm (own_finds E w o n x m)) as (w' & Ee & Hh). exists w'. split; [|exact Hh]. rewrite Ee.
  unfold quota, earlier. rewrite Hc. cbn [option_map over spent within]. replace (n <? 0) with false by lia. replace (n' <? 0) with false by lia. cbn [orb].
  destruct x as [[]| |]; try reflexivity. destruct (str_ltb (spelled L) (spelled L')); reflexivity.
Qed.
Lemma library_finds E (w : rworld) p m R C R' C' g L b b' n n' : reachable w -> sized w (Lib p) R C -> sized w (t_arg m) R' C' ->
  registered E w (Lib p) b -> registered E w (t_arg m) b' -> says w (Lib p) n -> says w (t_arg m) n' ->
  walks E w (if b then Lib p else t_arg m) L -> at_gives w (if b then t_arg m else Lib p) g ->
  finds E w (TLib p) m (if (C =? C') && (R =? R') && (negb (Bool.eqb b b') || (n =? n')) then ruling g None L else Ok false).
Proof. intros Hr Hs Hm Rs Rm Cs Cm HL Hg w1 Hh. cbn [t_Equal]. eapply equal_method; eauto using rune_sane. Qed.
(** operands of the library: the model of SortModel.v *)
Lemma library_texts E s m (w : rworld) : StringF E (TLib s) w = RuneString E s w /\ LessF E (TLib s) (TLib m) w = Less E s m w /\
  GreaterF E (TLib s) (TLib m) w = Greater E s m w /\ CompareF E (TLib s) (TLib m) w = Compare E s m w.
Proof.
  do 3 (split; [reflexivity|]). unfold CompareF, Compare. apply bind_same. intros d w1. destruct d; [reflexivity|]. unfold mbind at 1 3. cbn [t_Equal t_arg]. unfold m_Equal.
  destruct (lib_same (bg E) s m 0 MNil w1) as (_ & _ & _ & _ & _ & _ & H). rewrite H. reflexivity.
Qed.
