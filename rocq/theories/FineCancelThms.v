(** Strassen's multiplication when its context becomes done at some moment of the call. *)
From Coq Require Import String Permutation.
From Verif Require Import GoBase Num SparseVec Csr Csc DenseVec DenseMat Mat World Ops MathOps Bfs Spec Api BaseProofs SvProofs DenseProofs MatProofs StoreProofs HeapProofs ReachProofs StoreThms AccessThms.
From Verif Require Import NumProofs Steps StrassenProofs MathThms Fine FineRel FineConc FineProofs FineThms FineStrassen FineCalm FineStrassenRel FineStrassenInv FineStrassenStep FineStrassenThms FineSafe FineCancel.

Section FineCancelThms.
Context {N : num}.
Notation V := (T N).
Notation mat := (mat N).
Notation prog := (prog N).
Notation world := (world N).
Notation names := (ptr -> Prop).
Notation known := (ptr -> option (mat -> Prop)).
Notation gor := (gor (N := N)).
Notation task := (task (N := N)).
Notation fp := (names * names)%type.

(** ** Executions end *)
Lemma dstep_acc {A} (g : gor A) : Acc (fun g' g => exists d h h', dstep d h g = Some (h', g')) g.
Proof.
  set (after := fun g' g : gor A => exists d h h', dstep d h g = Some (h', g')).
  assert (Ends : forall pl, Acc after (MkGor (A := A) (N := N) Stop None pl)) by (intros; constructor; intros g' (d & h & h' & E); discriminate).
  assert (Ends' : forall pl, Acc after (MkGor (A := A) (N := N) Hang None pl)) by (intros; constructor; intros g' (d & h & h' & E); discriminate).
  assert (B : forall pr : prog A, (forall pl, Acc after (MkGor pr None pl)) -> forall b pl, Acc after (MkGor pr (Some b) pl)).
  { intros pr H [p m] pl. constructor. intros g' (d & h & h' & E). unfold dstep, gstep in E. cbn [g_back g_prog g_polls] in E. injection E as _ <-. apply H. }
  assert (H : forall pr pl, Acc after (MkGor (A := A) (N := N) pr None pl)).
  { induction pr as [a| | |E k IH|p k IH|p m q IH|p r c k IH|p r c k IH|m k IH]; intros pl; auto; constructor; intros g' (d & h & h' & S); unfold dstep, gstep in S; cbn [g_back g_prog g_polls] in S; try discriminate.
    - injection S as _ <-; apply IH.
    - destruct (nth_error h p); injection S as _ <-; auto.
    - injection S as _ <-. apply IH.
    - destruct (nth_error h p) as [m|]; [destruct (mat_At m r c) as [[v m']| |]|]; injection S as _ <-; auto. destruct (At_writes m); auto.
    - destruct (nth_error h p) as [m|]; [destruct (mat_Element m r c) as [[v m']| |]|]; injection S as _ <-; auto. destruct (Element_writes m); auto.
    - injection S as _ <-. apply IH. }
  destruct g as [pr [b|] pl]; auto.
Qed.

Lemma cancel_finite E x (f : nat -> bool * (list mat * task)) : ~ (forall n, cstep E x (f n) (f (Datatypes.S n))).
Proof.
  intro H.
  assert (Q : forall t, Acc (later bool (fun d => @dstep N d) E x) t -> forall n, t = snd (snd (f n)) -> fst (f n) = true -> False).
  { induction 1 as [t _ IH]. intros n -> D. specialize (H n). inversion H as [d c c' S E1 E2|c E1 E2].
    - apply (IH (snd (snd (f (Datatypes.S n))))) with (n := Datatypes.S n); [|reflexivity|].
      + exists d, (fst c), (fst c'). rewrite <- E1, <- E2. cbn [snd]. rewrite <- !surjective_pairing. exact S.
      + rewrite <- E2. rewrite <- E1 in D. exact D.
    - rewrite <- E1 in D. discriminate. }
  assert (Q' : forall t, Acc (later bool (fun d => @dstep N d) E x) t -> forall n, t = snd (snd (f n)) -> False).
  { induction 1 as [t _ IH]. intros n ->. pose proof (H n) as Hn. inversion Hn as [d c c' S E1 E2|c E1 E2].
    - apply (IH (snd (snd (f (Datatypes.S n))))) with (n := Datatypes.S n); [|reflexivity].
      exists d, (fst c), (fst c'). rewrite <- E1, <- E2. cbn [snd]. rewrite <- !surjective_pairing. exact S.
    - apply (Q (snd (snd (f (Datatypes.S n)))) ) with (n := Datatypes.S n); [|reflexivity|rewrite <- E2; reflexivity].
      apply (task_acc bool (fun d => @dstep N d)). intros A g. apply dstep_acc. }
  apply (Q' (snd (snd (f 0%nat)))) with (n := 0%nat); [|reflexivity]. apply (task_acc bool (fun d => @dstep N d)). intros A g. apply dstep_acc.
Qed.

(** ** Nobody panics, somebody can go on, nothing races *)
Section Call.
Variable E : env.
Variable x : Z.
Notation ok := (ok (N := N) E x).

Lemma ok_not_broken t : forall W R C X Y h, ok W R C X Y h t -> broken t -> False.
Proof.
  assert (Kids : forall r h (cs : list (Z * task)) (fs : list fp), Forall (fun c => forall W R C X Y h, ok W R C X Y h (snd c) -> broken (snd c) -> False) cs ->
    Forall2 (fun k w => ok none r r (fst w) (snd w) h (snd k)) cs fs -> (fix any (l : list (Z * task)) : Prop := match l with [] => False | (_, t) :: l => broken t \/ any l end) cs -> False).
  { intros r h cs fs IH F B. induction F as [|[j t0] w cs fs K F IHF]; [exact B|]. inversion IH; subst. destruct B as [B|B]; [eauto|apply IHF; assumption]. }
  induction t as [f g|f bl i rest g cs IH|f cs got IH|g] using task_ind2; intros W R C X Y h H B; inversion H; subst; cbn [broken] in B.
  - destruct (gok_fails _ _ _ _ _ _ H1). destruct B; contradiction.
  - destruct B as [B|B]; [|eapply Kids; eauto]. match goal with G : gok none _ _ _ _ g |- _ => destruct (gok_fails _ _ _ _ _ _ G) end. destruct B; contradiction.
  - eapply Kids; eauto.
  - destruct (gok_fails _ _ _ _ _ _ H1). destruct B; contradiction.
Qed.

Lemma ok_goes_on d t : forall W R C X Y h, ok W R C X Y h t -> (exists p, finished t = Some p) \/ exists c, turn (@dstep N d) E x (h, t) c.
Proof.
  induction t as [f g|f bl i rest g cs IH|f cs got IH|g] using task_ind2; intros W R C X Y h H; inversion H; subst.
  - destruct (dstep_on d h g) as [[[h' g'] S]|S]; [right; eexists; eapply st_head; exact S|]. destruct (gok_fails _ _ _ _ _ _ H1) as [F1 F2].
    cbn [finished]. destruct (outcome g) as [[[p|bl]| |]|] eqn:Og; try congruence; [left; eauto|right].
    destruct (gok_end _ _ _ _ _ _ _ H1 Og) as (D & O & (f' & s & -> & _) & _). eexists. eapply st_divided. exact Og.
  - right. match goal with G : gok none _ _ _ _ g |- _ => destruct (gok_fails _ _ _ _ _ _ G) as [F1 F2] end.
    destruct (dstep_on d h g) as [[[h' g'] S]|S]; [eexists; eapply st_operands; exact S|]. destruct (outcome g) as [[[a b]| |]|] eqn:Og; try congruence. eexists. eapply st_go. exact Og.
  - right. destruct cs as [|[j t] cs]; [eexists; apply st_received|]. inversion IH as [|? ? I1 I2]; subst. match goal with K : Forall2 _ _ _ |- _ => inversion K as [|? fk ? fs' K1 K2]; subst end.
    destruct (I1 _ _ _ _ _ _ K1) as [[p Fi]|[[h' t'] S]].
    + eexists. exact (st_receive _ E x f got h [] j t cs p Fi).
    + eexists. exact (st_kid_recv _ E x f got h h' [] j t t' cs S).
  - destruct (dstep_on d h g) as [[[h' g'] S]|S]; [right; eexists; eapply st_combine; exact S|]. destruct (gok_fails _ _ _ _ _ _ H1) as [F1 F2].
    cbn [finished]. destruct (outcome g) as [[p| |]|] eqn:Og; try congruence. left; eauto.
Qed.

Lemma touch_gok {A} (Q : known -> names -> A -> Prop) X Y h g : gok none Q X Y h g -> forall c, List.In c (touch g) -> X (fst c) /\ (snd c = true -> Y (fst c)).
Proof.
  intros (D & O & [S H Ow B] & SX & SY) [p b] Hc. unfold touch in Hc. destruct (next_touch g) as [c|] eqn:Ht; [|contradiction]. destruct Hc as [->|[]]. cbn [fst snd].
  unfold next_touch in Ht. destruct (g_back g) as [[p0 mb]|] eqn:Eb.
  - destruct (B p0 mb eq_refl) as (_ & [] & _).
  - destruct (g_prog g); try discriminate; injection Ht as <- <-; cbn [safe] in S; try (destruct S as (P & E1 & _); split; [apply SX; congruence|discriminate]).
    destruct S as (E1 & (P & E2 & _) & _). split; [apply SX; congruence|]. intros _. apply SY, E1.
Qed.

Notation all := (fix all (l : list (Z * task)) : list (ptr * bool) := match l with [] => [] | (_, t) :: l => touches t ++ all l end).
Definition touches_within (X Y : names) (l : list (ptr * bool)) : Prop := forall c, List.In c l -> X (fst c) /\ (snd c = true -> Y (fst c)).
Lemma disj_peaceful (f f' : fp) l l' : FineCancel.disj f f' -> touches_within (fst f) (snd f) l -> touches_within (fst f') (snd f') l' -> forall a b, List.In a l -> List.In b l' -> peaceful a b.
Proof.
  intros D T T' a b Ha Hb Eq. destruct (T a Ha) as [A1 A2]. destruct (T' b Hb) as [B1 B2].
  destruct (snd a) eqn:Sa; [exfalso; apply (proj1 (D (fst a)) (A2 eq_refl)); rewrite Eq; exact B1|].
  destruct (snd b) eqn:Sb; [exfalso|reflexivity]. apply (proj2 (D (fst b)) (B2 eq_refl)). rewrite <- Eq. exact A1.
Qed.
Lemma kids_peace r h X Y (cs : list (Z * task)) (fs : list fp) : Forall (fun c => forall R C X Y h, ok none R C X Y h (snd c) -> ForallOrdPairs peaceful (touches (snd c)) /\ touches_within X Y (touches (snd c))) cs ->
  Forall2 (fun k w => ok none r r (fst w) (snd w) h (snd k)) cs fs -> FineCancel.apart fs -> within X Y fs ->
  ForallOrdPairs peaceful (all cs) /\ touches_within X Y (all cs) /\ forall f l, Forall (FineCancel.disj f) fs -> touches_within (fst f) (snd f) l -> forall a b, List.In a l -> List.In b (all cs) -> peaceful a b.
Proof.
  intros IH F Ap Wi. revert X Y Wi. induction F as [|[j t] w cs fs K F IHF]; intros X Y Wi; [split; [constructor|split; [intros c []|intros f l _ _ a b _ []]]|].
  inversion IH as [|? ? I1 I2]; subst. inversion Ap as [|? ? A1 A2]; subst. inversion Wi as [|? ? [W1 W2] W3]; subst. cbn [snd] in *.
  destruct (I1 _ _ _ _ _ K) as [P1 T1]. destruct (IHF I2 A2 X Y W3) as (P2 & T2 & X2). split; [|split].
  - apply fop_app; [exact P1|exact P2|]. exact (X2 w _ A1 T1).
  - intros c Hc. apply in_app_or in Hc. destruct Hc as [Hc|Hc]; [|exact (T2 c Hc)]. destruct (T1 c Hc) as [C1 C2]. split; [apply W1, C1|]. intro Hs. apply W2, C2, Hs.
  - intros f l Hf Hl a b Ha Hb. inversion Hf as [|? ? D1 D2]; subst. apply in_app_or in Hb. destruct Hb as [Hb|Hb]; [exact (disj_peaceful f w _ _ D1 Hl T1 a b Ha Hb)|exact (X2 f l D2 Hl a b Ha Hb)].
Qed.

Lemma ok_peace t : forall R C X Y h, ok none R C X Y h t -> ForallOrdPairs peaceful (touches t) /\ touches_within X Y (touches t).
Proof.
  induction t as [f g|f bl i rest g cs IH|f cs got IH|g] using task_ind2; intros R C X Y h H; inversion H; subst; cbn [touches].
  - split; [apply fop_one, touch_one|]. intros c Hc. eapply touch_gok; eauto.
  - match goal with G : gok none _ Xg Yg _ g, Ap : FineCancel.apart _, Wi : within _ _ _ |- _ => rename G into Hg; rename Ap into Ha; rename Wi into Hw end.
    inversion Ha as [|? ? _ Ha1]; subst. inversion Ha1 as [|? ? Ha2 Ha3]; subst. inversion Hw as [|? ? _ Hw1]; subst. inversion Hw1 as [|? ? [Hw2 Hw3] Hw4]; subst. cbn [fst snd] in *.
    destruct (kids_peace _ _ X Y _ _ IH ltac:(eassumption) Ha3 Hw4) as (P & T & Xs). pose proof (touch_gok _ _ _ _ _ Hg) as Tg. split.
    + apply fop_app; [apply fop_one, touch_one|exact P|]. exact (Xs (Xg, Yg) _ Ha2 Tg).
    + intros c Hc. apply in_app_or in Hc. destruct Hc as [Hc|Hc]; [|exact (T c Hc)]. destruct (Tg c Hc) as [C1 C2]. split; [apply Hw2, C1|]. intro Hs. apply Hw3, C2, Hs.
  - match goal with Ap : FineCancel.apart _, Wi : within _ _ _ |- _ => rename Ap into Ha; rename Wi into Hw end.
    inversion Ha as [|? ? _ Ha1]; subst. inversion Hw as [|? ? _ Hw1]; subst. destruct (kids_peace _ _ X Y _ _ IH ltac:(eassumption) Ha1 Hw1) as (P & T & _). auto.
  - split; [apply fop_one, touch_one|]. intros c Hc. eapply touch_gok; eauto.
Qed.

Lemma ok_no_clash W R C X Y h t : ok W R C X Y h t -> ~ clash t.
Proof.
  intros H (i & j & p & b & b' & D & Hi & Hj & Hb).
  assert (P : ForallOrdPairs peaceful (touches t)).
  { destruct t as [f g|f bl i0 rest g cs|f cs got|g]; [apply fop_one, touch_one| | |apply fop_one, touch_one]; inversion H; subst; eapply (ok_peace _ R C X Y h).
    - eapply ok_spawn; eauto.
    - eapply ok_recv; eauto. }
  assert (Q : peaceful (p, b) (p, b')).
  { eapply fop_nth; [|exact P|exact D|exact Hi|exact Hj]. unfold peaceful. intros c c' K Eq. rewrite orb_comm. apply K. congruence. }
  specialize (Q eq_refl). cbn [snd] in Q. congruence.
Qed.

(** ** All executions *)
Hypothesis x0 : 0 <= x.
Lemma ok_csteps c c' : csteps E x c c' -> forall W R C X, ok W R C X none (fst (snd c)) (snd (snd c)) -> inside (fst (snd c)) X ->
  exists X' Y', ok W R C X' Y' (fst (snd c')) (snd (snd c')) /\ inside (fst (snd c')) X' /\ inside (fst (snd c')) Y' /\
    (length (fst (snd c)) <= length (fst (snd c')))%nat /\ (forall p, Y' p -> (length (fst (snd c)) <= p)%nat) /\ forall p, (p < length (fst (snd c)))%nat -> nth_error (fst (snd c')) p = nth_error (fst (snd c)) p.
Proof.
  induction 1 as [c|a b c S IH T]; intros W R C X H I1.
  - exists X, none. split; [exact H|]. split; [exact I1|]. split; [intros p []|]. split; [lia|]. split; [intros p []|reflexivity].
  - destruct (IH W R C X H I1) as (X1 & Y1 & O1 & J1 & J2 & L & Yn & Fr). inversion T as [d c0 c1 Tn|c0]; subst; cbn [fst snd] in *.
    + destruct (ok_turn E x x0 d _ _ Tn _ _ _ _ _ O1 J1 J2) as [O2 [L2 Ch]]. exists (plus (fst c0) (fst c1) X1), (plus (fst c0) (fst c1) Y1).
      split; [exact O2|]. split; [apply inside_plus; assumption|]. split; [apply inside_plus; assumption|]. split; [lia|]. split.
      * intros p [Hp|Hp]; [exact (Yn p Hp)|lia].
      * intros p Hp. rewrite Ch; [exact (Fr p Hp)|lia|]. intro Hy. specialize (Yn p Hy). lia.
    + exists X1, Y1. auto 10.
Qed.
End Call.

(** rows and columns of an object *)
Lemma wf_lined (m : mat) : zero_ok N -> wf m -> lined (mat_Rows m) (mat_Columns m) (is m).
Proof.
  intros Hz Hw m' ->. split; [reflexivity|]. split; [reflexivity|].
  assert (Sv : forall l ents i, 0 <= i < l -> exists y, mat_AtVec (N := N) (MSV (mk_sv l ents)) i = Ok y) by (intros; cbn [mat_AtVec]; rewrite sv_AtVec_read by assumption; eauto).
  assert (Dv : forall l f i, 0 <= i < l -> exists y, mat_AtVec (N := N) (MDV (mk_dv l f)) i = Ok y) by (intros; cbn [mat_AtVec]; rewrite dv_AtVec_spec by assumption; eauto).
  destruct (kind m) eqn:K.
  1-2: split; intros r Hr; [destruct (RowsAt_sparse m r Hz) as (e & -> & _); [split; [exact Hw|congruence]|destruct m; cbn in *; congruence|exact Hr|]|destruct (ColumnsAt_sparse m r Hz) as (e & -> & _); [split; [exact Hw|congruence]|destruct m; cbn in *; congruence|exact Hr|]];
    eexists; repeat (split; [reflexivity|]); intros l Hl; apply Sv; exact Hl.
  1-2: split; intros r Hr; [rewrite RowsAt_dense; [|split; [exact Hw|congruence]|destruct m; cbn in *; congruence|exact Hr]|rewrite ColumnsAt_dense; [|split; [exact Hw|congruence]|destruct m; cbn in *; congruence|exact Hr]];
    eexists; repeat (split; [reflexivity|]); intros l Hl; apply Dv; exact Hl.
  destruct m; cbn in K; try discriminate. destruct Hw as (l & ents & -> & H). cbn [mat_Rows mat_Columns sv_Rows sv_Columns sv_l mk_sv]. split; intros r Hr.
  - cbn [mat_RowsAt]. destruct (sv_RowsAt_ok l ents r Hr) as (v & Ev). rewrite Ev. eexists. split; [reflexivity|].
    unfold sv_RowsAt, sv_Rows in Ev. cbn [sv_l mk_sv] in Ev. replace ((r <? 0) || (r >=? l)) with false in Ev by (rewrite Z.geb_leb; lia).
    replace (MkSV l (map snd ents) (map fst ents)) with (mk_sv l ents) in Ev by reflexivity. rewrite NewSparseVector_spec in Ev. cbn [rbind] in Ev. rewrite sv_AtVec_read in Ev by auto. cbn [rbind] in Ev.
    destruct (sv_SetVec_put (N := N) 1 [] 0 (sv_read ents r) ltac:(lia)) as (e & E1 & _). rewrite E1 in Ev. injection Ev as <-. split; [reflexivity|]. intros i Hi. apply Sv. exact Hi.
  - cbn [mat_ColumnsAt]. unfold sv_ColumnsAt, sv_Columns in *. replace ((r <? 0) || (r >=? 1)) with false by (rewrite Z.geb_leb; lia).
    rewrite sv_copy_mk. eexists. split; [reflexivity|]. intros i Hi. apply Sv. exact Hi.
Qed.

Lemma rs_survivors x f : 0 <= x -> forall n, 0 <= n <= Z.of_nat f -> rs x f n = zlen (survivors f x n).
Proof.
  intro x0. induction f as [|f IH]; intros n Hn; cbn [rs survivors]; destruct (Z.leb_spec n x); try (rewrite zlen_zrange by lia; lia); [lia|].
  pose proof (Z.div_mod n 2 ltac:(lia)). pose proof (Z.mod_pos_bound n 2 ltac:(lia)).
  rewrite Z.quot_div_nonneg by lia. rewrite IH by lia. rewrite zlen_app. unfold zlen. rewrite map_length. lia.
Qed.

Lemma cancel_ok E x (w : world) a b (A B : mat) R n C f g : sane N -> reachable w -> obj w a A -> obj w b B -> denotes A R n f -> denotes B n C g ->
  0 <= x -> n * n < 2 ^ 63 -> n * n <= Z.of_nat (e_fuel E) -> (n <= x -> R * C < 2 ^ 63) -> (x < n -> 2 * (n / 2) <= R /\ 2 * (n / 2) <= C) ->
  let l := survivors (Z.to_nat n) x n in
  ok E x (fun p => p = a \/ p = b) (if n <=? x then R else zlen l) (if n <=? x then C else zlen l) (fun p => p = a \/ p = b) none (w_heap w) (begin E x a b).
Proof.
  intros Hs Hr Ha Hb (A1 & A2 & A3) (B1 & B2 & B3) H0 Hn2 Hf Lo Hi l.
  pose proof (reach_good w a A Hs Hr Ha) as Wa. pose proof (reach_good w b B Hs Hr Hb) as Wb. pose proof (wf_dims A Wa) as [DA1 DA2]. pose proof (wf_dims B Wb) as [DB1 DB2].
  set (D := fun p : ptr => if Nat.eqb p a then Some (is A) else if Nat.eqb p b then Some (is B) else None).
  assert (Da : D a = Some (is A)) by (unfold D; rewrite Nat.eqb_refl; reflexivity).
  assert (Db : D b = Some (is B)). { unfold D. rewrite Nat.eqb_refl. destruct (Nat.eqb_spec b a) as [->|]; [|reflexivity]. unfold obj in *. congruence. }
  assert (Nf : n <= Z.of_nat (e_fuel E)) by nia.
  assert (El : zlen l = rs x (e_fuel E) n). { rewrite rs_survivors by lia. unfold l. rewrite (survivors_fuel x n H0 ltac:(lia) (Z.to_nat n) (e_fuel E)) by lia. reflexivity. }
  rewrite El. apply ok_head. exists D, none. split; [split; cbn [go g_prog g_back]|].
  - eapply (safe_head E x); eauto; try lia.
    + intros m ->. exact A2.
    + intros m ->. exact B1.
    + intro Le. split; [|split]; [rewrite <- A1, <- A2; apply wf_lined; [apply Hs|exact Wa]|rewrite <- B1, <- B2; apply wf_lined; [apply Hs|exact Wb]|].
      split; [lia|]. split; [lia|]. split; [apply Lo; exact Le|]. split; intros m ->; assumption.
    + intro Lt. destruct (Hi Lt) as [K1 K2]. rewrite Z.quot_div_nonneg by lia. assert (2 * (n / 2) <= n) by (pose proof (Z.div_mod n 2 ltac:(lia)); pose proof (Z.mod_pos_bound n 2 ltac:(lia)); lia).
      split; intros m -> r c Hrr Hc; [exists (f r c)|exists (g r c)]; (split; [first [apply A3|apply B3]; lia|intros _; auto]).
  - intros p P Hp. unfold D in Hp. destruct (Nat.eqb_spec p a) as [->|]; [injection Hp as <-; exists A; split; [exact Ha|reflexivity]|].
    destruct (Nat.eqb_spec p b) as [->|]; [injection Hp as <-; exists B; split; [exact Hb|reflexivity]|discriminate].
  - intros p [].
  - discriminate.
  - split; [|intros p []]. intros p Hp. destruct (Nat.eq_dec p a) as [Ea|Ea]; [left; exact Ea|]. destruct (Nat.eq_dec p b) as [Eb|Eb]; [right; exact Eb|]. exfalso. apply Hp. unfold D. apply Nat.eqb_neq in Ea, Eb. rewrite Ea, Eb. reflexivity.
Qed.

(** At whatever moment the context becomes done and however the goroutines take turns: none panics, the call
    can always go on until it has returned, nothing races, what was there stays as it is, and what the call
    returns is a new dense matrix of the size the product has. *)
Lemma strassen_any_moment E x (w : world) a b (A B : mat) R n C f g d h t : sane N -> reachable w -> obj w a A -> obj w b B -> denotes A R n f -> denotes B n C g ->
  0 <= x -> n * n < 2 ^ 63 -> n * n <= Z.of_nat (e_fuel E) -> (n <= x -> R * C < 2 ^ 63) -> (x < n -> 2 * (n / 2) <= R /\ 2 * (n / 2) <= C) ->
  csteps E x (false, (w_heap w, begin E x a b)) (d, (h, t)) ->
  ~ broken t /\ ((exists p, finished t = Some p) \/ exists c, cstep E x (d, (h, t)) (d, c)) /\ ~ clash t /\ (forall p m, obj w p m -> nth_error h p = Some m) /\
  forall p, finished t = Some p -> (forall y, ~ obj w p y) /\ exists O k, nth_error h p = Some O /\ is_dense O /\
    let l := survivors (Z.to_nat n) x n in denotes O (if n <=? x then R else zlen l) (if n <=? x then C else zlen l) k.
Proof.
  intros Hs Hr Ha Hb Da Db H0 Hn Hf Lo Hi S.
  pose proof (cancel_ok E x w a b A B R n C f g Hs Hr Ha Hb Da Db H0 Hn Hf Lo Hi) as Ok. cbv zeta in Ok.
  destruct (ok_csteps E x H0 _ _ S _ _ _ _ Ok) as (X & Y & O1 & _ & _ & L & Yn & Fr).
  { intros p [->| ->]; cbn [fst snd]; [apply obj_lt in Ha; exact Ha|apply obj_lt in Hb; exact Hb]. }
  cbn [fst snd] in *. split; [intro Bt; exact (ok_not_broken E x t _ _ _ _ _ _ O1 Bt)|]. split.
  { destruct (ok_goes_on E x d t _ _ _ _ _ _ O1) as [P|[c P]]; [left; exact P|right]. exists c. apply cs_run. exact P. }
  split; [exact (ok_no_clash E x _ _ _ _ _ _ _ O1)|]. split; [intros p m Hp; rewrite Fr; [exact Hp|apply obj_lt in Hp; exact Hp]|].
  intros p Fi. destruct (ok_end E x _ _ _ _ _ _ _ _ O1 Fi) as (_ & m & Em & (D1 & D2 & D3 & k & ->) & Yp). split.
  { intros y Hy. apply obj_lt in Hy. specialize (Yn p Yp). lia. }
  exists (MDM (mk_dm (if n <=? x then R else zlen (survivors (Z.to_nat n) x n)) (if n <=? x then C else zlen (survivors (Z.to_nat n) x n)) k)), k.
  split; [exact Em|]. split; [exact Logic.I|]. split; [reflexivity|]. split; [reflexivity|]. intros i j Hi' Hj'. cbn [mat_At]. rewrite dm_At_spec by assumption. reflexivity.
Qed.

End FineCancelThms.
