(** Strassen's multiplication when its context becomes done at some moment of the call: every cell of what it
    returns is zero or what it is when the context is never done. *)
From Coq Require Import String Permutation.
From Verif Require Import GoBase Num SparseVec Csr Csc DenseVec DenseMat Mat World Ops MathOps Bfs Spec Api BaseProofs SvProofs DenseProofs MatProofs StoreProofs HeapProofs ReachProofs StoreThms AccessThms.
From Verif Require Import NumProofs Steps StrassenProofs MathThms Fine FineRel FineConc FineProofs FineThms FineStrassen FineCalm FineStrassenRel FineStrassenInv FineStrassenStep FineStrassenThms FineSafe FineCancel FineCancelThms FineSame FineAlone.

Section FineCells.
Context {N : num}.
Notation V := (T N).
Notation mat := (mat N).
Notation prog := (prog N).
Notation world := (world N).
Notation names := (ptr -> Prop).
Notation known := (ptr -> option (mat -> Prop)).
Notation gor := (gor (N := N)).
Notation task := (task (N := N)).

(** ** A context that is not done until the call has returned *)
Lemma begin_same E x a b : tsame (N := N) (begin E x a b) (begin (bg E) x a b).
Proof. constructor. apply gsame_go, same_head. Qed.

Lemma strassen_not_done E x (w : world) a b (A B : mat) h t p : sane N -> reachable w -> obj w a A -> obj w b B ->
  csteps E x (false, (w_heap w, begin E x a b)) (false, (h, t)) -> finished t = Some p ->
  exists w' q m, MultiplyCrossoverPoint (bg E) (fun _ => seven) a b x w = (w', Ok q) /\ obj w' q m /\ nth_error h p = Some m.
Proof.
  intros Hs Hr Ha Hb S Fi. destruct (not_done_steps E x _ _ S eq_refl _ (begin_same E x a b)) as (u & S1 & T1). cbn [fst snd] in S1, T1.
  rewrite (tsame_finished _ _ T1) in Fi. destruct (strassen_as_alone (bg E) x w a b A B h u p Hs Hr Ha Hb (or_introl eq_refl) S1 Fi) as (w' & q & m & E1 & E2 & E3 & _). eauto 6.
Qed.

(** ** Running on to the end *)
Lemma csteps_more E x (a b c : bool * (list mat * task)) : csteps E x a b -> csteps E x b c -> csteps E x a c.
Proof. intros H1 H2. induction H2 as [|b b1 c H IH S]; [exact H1|]. eapply css_more; [apply IH; exact H1|exact S]. Qed.
Lemma tsteps_more E x (a b c : list mat * task) : tsteps E x a b -> tsteps E x b c -> tsteps E x a c.
Proof. intros H1 H2. induction H2 as [|b b1 c H IH S]; [exact H1|]. eapply ts_more; [apply IH; exact H1|exact S]. Qed.

Lemma head_steps E x f c c' : gsteps (N := N) c c' -> tsteps E x (fst c, THead f (snd c)) (fst c', THead f (snd c')).
Proof.
  induction 1 as [c|h g h1 g1 c S G IH]; [constructor|]. eapply tsteps_more; [|exact IH]. eapply ts_more; [constructor|]. cbn [fst snd]. apply st_head. exact S.
Qed.
Lemma comb_steps E x c c' : gsteps (N := N) c c' -> tsteps E x (fst c, TComb (snd c)) (fst c', TComb (snd c')).
Proof.
  induction 1 as [c|h g h1 g1 c S G IH]; [constructor|]. eapply tsteps_more; [|exact IH]. eapply ts_more; [constructor|]. cbn [fst snd]. apply st_combine. exact S.
Qed.

Lemma completes E x : 0 <= x -> forall (t : task) W R C X Y h, ok E x W R C X Y h t -> inside h X -> inside h Y -> exists h' (t' : task) p, csteps E x (false, (h, t)) (false, (h', t')) /\ finished t' = Some p.
Proof.
  intros x0 t. assert (Ac : Acc (later bool (fun d => @dstep N d) E x) t) by (apply task_acc; intros; apply dstep_acc).
  induction Ac as [t _ IH]. intros W R C X Y h H I1 I2. destruct (ok_goes_on E x false t _ _ _ _ _ _ H) as [[p P]|[[h1 t1] P]]; [exists h, t, p; split; [constructor|exact P]|].
  destruct (ok_turn E x x0 false _ _ P _ _ _ _ _ H I1 I2) as [O2 [L2 Ch]]. cbn [fst snd] in *.
  destruct (IH t1 ltac:(exists false, h, h1; exact P) _ _ _ _ _ _ O2 (inside_plus _ _ _ I1 L2) (inside_plus _ _ _ I2 L2)) as (h' & t' & p & S & F).
  exists h', t', p. split; [|exact F]. eapply csteps_more; [|exact S]. eapply css_more; [constructor|]. apply cs_run. exact P.
Qed.

Lemma mk_dm_cells R C (k k' : Z -> Z -> V) : MDM (mk_dm R C k) = MDM (mk_dm R C k') -> forall i j, 0 <= i < R -> 0 <= j < C -> k i j = k' i j.
Proof.
  intros H i j Hi Hj. assert (X : dm_At (mk_dm R C k) i j = dm_At (mk_dm R C k') i j) by congruence. rewrite !dm_At_spec in X by assumption. congruence.
Qed.

Lemma safe_head_divides E x W f a b P P' n (D : known) (O : names) : 0 <= n -> n * n < 2 ^ 63 -> x < n ->
  D a = Some P -> D b = Some P' -> (forall m, P m -> mat_Columns m = n) -> (forall m, P' m -> mat_Rows m = n) ->
  celled W (2 * Z.quot n 2) a P -> celled W (2 * Z.quot n 2) b P' -> (0 < f)%nat ->
  safe W (fun _ _ nx => match nx with Fin _ => False | Div _ => True end) D O (head E x f a b).
Proof.
  intros Hn Hn2 Lt Da Db Ca Rb C1 C2 Hf. unfold head.
  eapply safe_bind; [apply (safe_Columns W _ _ _ _ n Da Ca)|]. intros D1 O1 ? M1 N1 Eq; unfold gives in Eq; rewrite Eq; clear Eq.
  eapply safe_bind; [apply (safe_Rows W _ _ _ _ n (M1 _ _ Db) Rb)|]. intros D2 O2 ? M2 N2 Eq; unfold gives in Eq; rewrite Eq; clear Eq. rewrite Z.eqb_refl. cbn [negb].
  eapply safe_bind; [apply (safe_Rows W _ _ _ _ n (M2 _ _ (M1 _ _ Db)) Rb)|]. intros D3 O3 ? M3 N3 Eq; unfold gives in Eq; rewrite Eq; clear Eq.
  apply M1, M2, M3 in Da. apply M1, M2, M3 in Db. destruct (Z.leb_spec n x) as [?|_]; [lia|]. destruct f as [|f]; [lia|].
  pose proof (Z.quot_pos n 2 Hn ltac:(lia)) as Q0. assert (Q1 : 2 * Z.quot n 2 <= n) by (rewrite Z.quot_div_nonneg by lia; pose proof (Z.div_mod n 2 ltac:(lia)); pose proof (Z.mod_pos_bound n 2 ltac:(lia)); lia).
  eapply safe_bind; [apply (safe_divide W E a b P P' (Z.quot n 2)); try assumption; nia|]. intros D4 O4 bl M4 N4 Q. exact Logic.I.
Qed.

(** ** The cells *)
Section Cells.
Variables (E : env) (x : Z) (w : world) (a b : ptr) (A B : mat) (R n C : Z) (f g : Z -> Z -> V).
Hypothesis Hs : sane N.
Hypothesis Hr : reachable w.
Hypothesis Ha : obj w a A.
Hypothesis Hb : obj w b B.
Hypothesis Da : denotes A R n f.
Hypothesis Db : denotes B n C g.
Hypothesis H0 : 0 <= x.
Hypothesis Hn : n * n < 2 ^ 63.
Hypothesis Hf : n * n <= Z.of_nat (e_fuel E).
Hypothesis Lo : n <= x -> R * C < 2 ^ 63.
Hypothesis Hi : x < n -> 2 * (n / 2) <= R /\ 2 * (n / 2) <= C.
Hypothesis Hc : e_ctx E <> None.
Let l := survivors (Z.to_nat n) x n.
Let R' := if n <=? x then R else zlen l.
Let C' := if n <=? x then C else zlen l.
Let start : bool * (list mat * task) := (false, (w_heap w, begin E x a b)).

Lemma start_ok : ok E x (fun p => p = a \/ p = b) R' C' (fun p => p = a \/ p = b) none (w_heap w) (begin E x a b).
Proof. exact (cancel_ok E x w a b A B R n C f g Hs Hr Ha Hb Da Db H0 Hn Hf Lo Hi). Qed.
Lemma start_inside : inside (w_heap w) (fun p => p = a \/ p = b).
Proof. intros p [->| ->]; [apply obj_lt in Ha; exact Ha|apply obj_lt in Hb; exact Hb]. Qed.

(** what the call returns when the context is never done *)
Lemma alone_result : exists w' q F, MultiplyCrossoverPoint (bg E) (fun _ => seven) a b x w = (w', Ok q) /\ obj w' q (MDM (mk_dm R' C' F)).
Proof.
  destruct (completes E x H0 _ _ _ _ _ _ _ start_ok start_inside ltac:(intros p [])) as (h & t & p & S & Fi).
  destruct (strassen_not_done E x w a b A B h t p Hs Hr Ha Hb S Fi) as (w' & q & m & E1 & E2 & E3). exists w', q.
  destruct (ok_csteps E x H0 _ _ S _ _ _ _ start_ok start_inside) as (X & Y & O1 & _). destruct (ok_end E x _ _ _ _ _ _ _ _ O1 Fi) as (_ & m' & Em & (_ & _ & _ & F & ->) & _).
  cbn [fst snd] in Em. exists F. split; [exact E1|]. congruence.
Qed.

Variables (w' : world) (q : ptr) (F : Z -> Z -> V).
Hypothesis HM : MultiplyCrossoverPoint (bg E) (fun _ => seven) a b x w = (w', Ok q).
Hypothesis HF : obj w' q (MDM (mk_dm R' C' F)).

(** every cell is zero or as it is then *)
Let QF : bool -> list mat -> ptr -> Prop := fun _ h p => exists k, nth_error h p = Some (MDM (mk_dm R' C' k)) /\ part R' C' F k.
Let Qn : bool -> list mat -> next -> Prop := fun d h nx => match nx with Fin p => QF d h p | Div _ => True end.
Definition cells (c : bool * (list mat * task)) : Prop :=
  match snd (snd c) with
  | THead _ g => gwp Qn (fst c) (fst (snd c)) g
  | TComb g => gwp QF (fst c) (fst (snd c)) g
  | _ => True
  end.

Lemma bg_result h u p : tsteps (bg E) x (w_heap w, begin (bg E) x a b) (h, u) -> finished u = Some p -> nth_error h p = Some (MDM (mk_dm R' C' F)).
Proof.
  intros S Fi. destruct (strassen_as_alone (bg E) x w a b A B h u p Hs Hr Ha Hb (or_introl eq_refl) S Fi) as (w2 & q2 & m & E1 & E2 & E3 & _).
  assert (X : (w2, Ok q2) = (w', Ok q)) by congruence. injection X as -> ->. unfold obj in *. congruence.
Qed.
Lemma filled_part full d h p : filled R' C' full d h p -> (forall i j, 0 <= i < R' -> 0 <= j < C' -> full i j = F i j) -> QF d h p.
Proof.
  intros (k & Ek & Pk & _) H. exists k. split; [exact Ek|]. intros i j I J. destruct (Pk i j I J) as [Z0|Z0]; [left; exact Z0|right; rewrite Z0; apply H; assumption].
Qed.

Lemma cells_start : cells start.
Proof.
  unfold cells, start. cbn [fst snd begin]. apply gwp_go. destruct Da as (A1 & A2 & A3). destruct Db as (B1 & B2 & B3).
  pose proof (reach_good w a A Hs Hr Ha) as Wa. pose proof (reach_good w b B Hs Hr Hb) as Wb. pose proof (wf_dims A Wa) as [DA1 DA2]. pose proof (wf_dims B Wb) as [DB1 DB2].
  assert (Cs : n <= x \/ x < n) by lia. destruct Cs as [Le|Lt].
  - assert (W : forall d, wp (fun d' h' nx => match nx with Fin p => filled R C (entry A B) d' h' p | Div _ => False end) d (w_heap w) (head E x (e_fuel E) a b)).
    { intro d. apply (wp_direct E x _ a b A B R n C); try assumption; try lia; [rewrite <- A1, <- A2|rewrite <- B1, <- B2]; apply wf_lined; first [apply Hs|assumption]. }
    assert (ER : R' = R) by (unfold R'; rewrite (proj2 (Z.leb_le n x) Le); reflexivity). assert (EC : C' = C) by (unfold C'; rewrite (proj2 (Z.leb_le n x) Le); reflexivity).
    destruct (wp_runs _ _ (head (bg E) x (e_fuel E) a b) (w_heap w) 0 (same_head E x (e_fuel E) a b) (W false)) as (h1 & [p|bl] & n1 & G & Q); [|destruct Q].
    apply (head_steps (bg E) x (e_fuel E)) in G. cbn [fst snd] in G. pose proof (bg_result _ _ p G eq_refl) as Eq. destruct Q as (k & Ek & _ & Fk).
    eapply wp_impl; [apply W|]. intros d h' [p'|bl'] Q'; [|destruct Q']. rewrite <- ER, <- EC in Q', Ek, Fk. unfold Qn. eapply filled_part; [exact Q'|]. intros i j I J. rewrite <- Fk by auto. apply (mk_dm_cells R' C'); [congruence|assumption|assumption].
  - destruct (Hi Lt) as [K1 K2].
    set (D := fun p : ptr => if Nat.eqb p a then Some (is A) else if Nat.eqb p b then Some (is B) else None).
    assert (Ea : D a = Some (is A)) by (unfold D; rewrite Nat.eqb_refl; reflexivity).
    assert (Eb : D b = Some (is B)). { unfold D. rewrite Nat.eqb_refl. destruct (Nat.eqb_spec b a) as [->|]; [|reflexivity]. unfold obj in *. congruence. }
    assert (Le2 : 2 * (n / 2) <= n) by (pose proof (Z.div_mod n 2 ltac:(lia)); pose proof (Z.mod_pos_bound n 2 ltac:(lia)); lia).
    eapply wp_impl; [eapply (safe_wp (fun p => p = a \/ p = b)); [eapply (safe_head_divides E x _ _ a b (is A) (is B) n D none); try assumption; try lia|]|].
    + intros m ->. exact A2.
    + intros m ->. exact B1.
    + rewrite Z.quot_div_nonneg by lia. intros m -> r c Hrr Hcc. exists (f r c). split; [apply A3; lia|auto].
    + rewrite Z.quot_div_nonneg by lia. intros m -> r c Hrr Hcc. exists (g r c). split; [apply B3; lia|auto].
    + nia.
    + split.
      * intros p P Hp. unfold D in Hp. destruct (Nat.eqb_spec p a) as [->|]; [injection Hp as <-; exists A; split; [exact Ha|reflexivity]|].
        destruct (Nat.eqb_spec p b) as [->|]; [injection Hp as <-; exists B; split; [exact Hb|reflexivity]|discriminate].
      * intros p Hp. apply start_inside. destruct (Nat.eq_dec p a) as [Xa|Xa]; [left; exact Xa|]. destruct (Nat.eq_dec p b) as [Xb|Xb]; [right; exact Xb|]. exfalso. apply Hp. unfold D. apply Nat.eqb_neq in Xa, Xb. rewrite Xa, Xb. reflexivity.
    + cbv beta. intros d h' [p|bl] (D0 & O0 & Q); [destruct Q|exact Logic.I].
Qed.

Lemma cells_steps c : csteps E x start c -> cells c.
Proof.
  intro S. remember start as s eqn:Es. induction S as [c|s c c1 S IH T]; subst; [exact cells_start|]. specialize (IH eq_refl).
  inversion T as [d [h t] [h1 t1] Tn|[h t]]; subst.
  - inversion Tn; subst; unfold cells in *; cbn [fst snd] in *; try exact Logic.I.
    + eapply gwp_step; eauto.
    + unfold spawned. destruct rest; exact Logic.I.
    + apply gwp_go. destruct (ok_csteps E x H0 _ _ S _ _ _ _ start_ok start_inside) as (X & Y & O1 & I1 & _). cbn [fst snd] in O1, I1. inversion O1; subst.
      match goal with P : plan _ _ _ _ _ _ |- _ => destruct P as (P0 & P1 & P2 & P3 & P4 & P5) end.
      pose proof (rs_bound x f0 s P0) as Rb.
      destruct (wp_combine E got (rs x f0 s) (knows (map snd got) (dsh (rs x f0 s) (rs x f0 s))) h1) as (full & W1 & W2); try nia.
      * split.
        { intros p P Hp. pose proof (knows_val _ _ _ _ Hp) as ->. match goal with Sh : shaped _ _ _ _ |- _ => apply Sh end. eapply knows_some. rewrite Hp. discriminate. }
        { intros p Hp. apply knows_some in Hp. match goal with Sh : shaped _ _ _ _ |- _ => destruct (Sh p Hp) as (m & Em & _) end. apply nth_error_Some. congruence. }
      * split.
        { intros i Hin. match goal with K : forall i, List.In i seven -> _ |- _ => destruct (K i Hin) as [[]|K2] end. apply in_map_iff in K2. destruct K2 as ([i' p] & Ei & Hp). cbn [fst] in Ei. subst. eauto. }
        { intros i p Hp. apply knows_in. apply in_map_iff. exists (i, p). auto. }
      * replace (filled (2 * rs x f0 s) (2 * rs x f0 s) full) with (filled R' C' full) in W1 by (rewrite P4, P5; reflexivity).
        replace (mk_dm (N := N) (2 * rs x f0 s) (2 * rs x f0 s) (fun _ _ => n0)) with (mk_dm (N := N) R' C' (fun _ _ => n0)) in W2 by (rewrite P4, P5; reflexivity).
        destruct d.
        { eapply wp_impl; [apply W2; exact Hc|]. intros d0 h' p Ep. exists (fun _ _ => n0). split; [exact Ep|]. intros i j _ _. left. reflexivity. }
        destruct (not_done_steps E x _ _ S eq_refl _ (begin_same E x a b)) as (u & S1 & T1). cbn [fst snd] in S1, T1. inversion T1; subst. match goal with K : Forall2 _ [] _ |- _ => inversion K; subst end.
        destruct (wp_runs _ _ (combine (bg E) got) h1 0 (same_combine E got) (W1 false)) as (h2 & p & n2 & G & (k & Ek & _ & Fk)).
        apply (comb_steps (bg E) x) in G. cbn [fst snd] in G.
        assert (Eq : nth_error h2 p = Some (MDM (mk_dm R' C' F))). { apply (bg_result h2 (TComb (MkGor (Ret p) None n2)) p); [|reflexivity]. eapply tsteps_more; [|exact G]. eapply ts_more; [exact S1|]. apply st_received. }
        eapply wp_impl; [apply W1|]. intros d h' p' Q'. eapply filled_part; [exact Q'|]. intros i j I J. rewrite <- Fk by auto. apply (mk_dm_cells R' C'); [congruence|assumption|assumption].
    + eapply gwp_step; eauto.
  - unfold cells in *. cbn [fst snd] in *. destruct t; try exact Logic.I; (apply gwp_done; [|exact IH]); [intros h0 [p|bl] Q; exact Q|intros h0 p Q; exact Q].
Qed.

Lemma cells_end d h t p : csteps E x start (d, (h, t)) -> finished t = Some p -> exists k, nth_error h p = Some (MDM (mk_dm R' C' k)) /\ part R' C' F k.
Proof.
  intros S Fi. pose proof (cells_steps _ S) as K. unfold cells in K. cbn [fst snd] in K. destruct t as [f0 g0| | |g0]; cbn [finished] in Fi; try discriminate.
  - destruct (outcome g0) as [[[p0|bl]| |]|] eqn:Eo; try discriminate. injection Fi as ->. exact (gwp_end _ _ _ _ _ K Eo).
  - destruct (outcome g0) as [[p0| |]|] eqn:Eo; try discriminate. injection Fi as ->. exact (gwp_end _ _ _ _ _ K Eo).
Qed.
End Cells.

(** Whenever the context becomes done and however the goroutines take turns: the call that is not cancelled
    returns too, and each cell of what this one returns is zero or what it is there; if the context is not
    done before the call returns, the two are equal. *)
Lemma strassen_cells E x (w : world) a b (A B : mat) R n C f g d h t p : sane N -> reachable w -> obj w a A -> obj w b B -> denotes A R n f -> denotes B n C g ->
  0 <= x -> n * n < 2 ^ 63 -> n * n <= Z.of_nat (e_fuel E) -> (n <= x -> R * C < 2 ^ 63) -> (x < n -> 2 * (n / 2) <= R /\ 2 * (n / 2) <= C) -> e_ctx E <> None ->
  csteps E x (false, (w_heap w, begin E x a b)) (d, (h, t)) -> finished t = Some p ->
  let l := survivors (Z.to_nat n) x n in let R' := if n <=? x then R else zlen l in let C' := if n <=? x then C else zlen l in
  exists w' q M O F k, MultiplyCrossoverPoint (bg E) (fun _ => seven) a b x w = (w', Ok q) /\ obj w' q M /\ denotes M R' C' F /\
    nth_error h p = Some O /\ is_dense O /\ denotes O R' C' k /\ (forall i j, 0 <= i < R' -> 0 <= j < C' -> k i j = n0 \/ k i j = F i j) /\ (d = false -> O = M).
Proof.
  intros Hs Hr Ha Hb Da Db H0 Hn Hf Lo Hi Hc S Fi l R' C'.
  assert (Dm : forall k : Z -> Z -> V, denotes (MDM (mk_dm R' C' k)) R' C' k). { intro k. split; [reflexivity|]. split; [reflexivity|]. intros i j I J. cbn [mat_At]. rewrite dm_At_spec by assumption. reflexivity. }
  destruct (alone_result E x w a b A B R n C f g Hs Hr Ha Hb Da Db H0 Hn Hf Lo Hi) as (w' & q & F & HM & HF).
  destruct (cells_end E x w a b A B R n C f g Hs Hr Ha Hb Da Db H0 Hn Hf Lo Hi Hc w' q F HM HF d h t p S Fi) as (k & Ek & Pk).
  exists w', q, (MDM (mk_dm R' C' F)), (MDM (mk_dm R' C' k)), F, k. split; [exact HM|]. split; [exact HF|]. split; [apply Dm|]. split; [exact Ek|]. split; [exact Logic.I|]. split; [apply Dm|]. split; [exact Pk|].
  intros ->. destruct (strassen_not_done E x w a b A B h t p Hs Hr Ha Hb S Fi) as (w2 & q2 & m & E1 & E2 & E3).
  assert (X : (w2, Ok q2) = (w', Ok q)) by congruence. injection X as -> ->. assert (Y1 : Some m = Some (MDM (mk_dm R' C' k))) by (rewrite <- E3; exact Ek).
  assert (Y2 : Some m = Some (MDM (mk_dm R' C' F))) by (rewrite <- E2; exact HF). congruence.
Qed.
End FineCells.

(** With exact arithmetic and sizes that halve evenly: each cell is zero or that of the product. *)
Lemma strassen_cells_product N E (w : world N) crossover (a b : ptr) A B m k f g d h t p : let n := m * 2 ^ Z.of_nat k in
  ring_ok N -> sane N -> e_ctx E <> None -> dense_unregistered N E ->
  0 <= m <= crossover -> n * n < 2 ^ 63 -> n * n <= Z.of_nat (e_fuel E) ->
  reachable w -> obj w a A -> obj w b B -> denotes A n n f -> denotes B n n g -> (is_dense A /\ is_dense B \/ crossover < n) ->
  csteps E crossover (false, (w_heap w, begin E crossover a b)) (d, (h, t)) -> finished t = Some p ->
  exists O c, nth_error h p = Some O /\ is_dense O /\ denotes O n n c /\
    (forall i j, 0 <= i < n -> 0 <= j < n -> c i j = n0 \/ c i j = sum_from n0 (fun l => nmul (f i l) (g l j)) 0 n) /\
    (d = false -> forall i j, 0 <= i < n -> 0 <= j < n -> c i j = sum_from n0 (fun l => nmul (f i l) (g l j)) 0 n).
Proof.
  intros n HR Hs Hc Hreg Hm HB HF Hr Oa Ob Da Db Hcase S Fi.
  assert (N0 : 0 <= n) by (unfold n; apply Z.mul_nonneg_nonneg; [lia|apply Z.pow_nonneg; lia]).
  destruct (strassen_ring N (bg E) w (fun _ => seven) crossover a b A B m k f g HR Hs) as (w1 & q1 & O1 & A1 & _ & _ & A2 & A3 & A4); auto.
  { intro path. apply Permutation_refl. }
  destruct (strassen_cells E crossover w a b A B n n n f g d h t p) as (w' & q & M & O & F & c & B1 & B2 & B3 & B4 & B5 & B6 & B7 & B8); auto; try lia.
  { intros _. assert (2 * (n / 2) <= n) by (pose proof (Z.div_mod n 2 ltac:(lia)); pose proof (Z.mod_pos_bound n 2 ltac:(lia)); lia). auto. }
  assert (X : (w1, Ok q1) = (w', Ok q)) by congruence. injection X as -> ->. assert (O1 = M) by (unfold obj in *; congruence). subst O1.
  destruct A4 as (M1 & M2 & M3). remember (if n <=? crossover then n else zlen (survivors (Z.to_nat n) crossover n)) as rr eqn:Err. clear Err.
  assert (rr = n) by (destruct B3 as (X1 & _); rewrite <- X1; exact M1). subst rr. destruct B3 as (X1 & X2 & X3).
  exists O, c. split; [exact B4|]. split; [exact B5|]. split; [exact B6|].
  assert (Ef : forall i j, 0 <= i < n -> 0 <= j < n -> F i j = sum_from n0 (fun l => nmul (f i l) (g l j)) 0 n).
  { intros i j I J. specialize (X3 i j I J). rewrite M3 in X3 by assumption. congruence. }
  split; [intros i j I J; rewrite <- Ef by assumption; auto|]. intros D i j I J. specialize (B8 D). subst O. destruct B6 as (_ & _ & Y3). specialize (Y3 i j I J). rewrite M3 in Y3 by assumption. congruence.
Qed.
