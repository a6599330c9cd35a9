(** Breadth-first search with a callback that acts: the run. *)
From Verif Require Import GoBase Num SparseVec Csr Csc DenseVec DenseMat Mat World Ops Api MathOps Bfs.
From Verif Require Import BaseProofs CsrProofs SvProofs DenseProofs MatProofs Spec HeapProofs ReachProofs StoreProofs VecProofs StoreThms OpsProofs OpsThms EwThms EqThms MethThms OpsProps Steps.
From Verif Require Import BfsProofs BfsThms BfsCall.

Section Run.
Context {N : num}.
Notation V := (T N).
Notation mat := (mat N).
Notation world := (world N).
Notation M := (M N).
Context {St : Type}.
Implicit Types w : world.

Lemma vector_mk w p m n : sane N -> reachable w -> obj w p m -> vector_of n m -> exists v, m = MDV (mk_dv n v) /\ 0 <= n.
Proof.
  intros Hs Hr Ho (d & -> & Hl). pose proof (reach_good _ _ _ Hs Hr Ho) as (L & g & -> & HL). cbn in Hl. subst L. eauto.
Qed.
Lemma mk_vector n v : vector_of (N:=N) n (MDV (mk_dv n v)). Proof. exists (mk_dv n v). split; reflexivity. Qed.

(** the run ends as the callback did, if that did not return *)
Definition fails_as (a : ptr) (n : Z) (inv : ptr -> St -> world -> Prop) (c : St -> ptr -> M (bool * St)) {A} (out : world * res A) (q : ptr) : Prop :=
  exists st w x G, reachable w /\ inv q st w /\ obj w q x /\ vector_of n x /\ obj w a G /\ graph_of n G /\
    ((c st q w = (fst out, Panic) /\ snd out = Panic) \/ (c st q w = (fst out, Diverge) /\ snd out = Diverge)).

Section Loop.
Variables (E : env) (w0 : world) (a : ptr) (n : Z) (knows : St -> ptr -> Prop) (inv : ptr -> St -> world -> Prop)
  (c : St -> ptr -> M (bool * St)) (st0 : St).
Hypotheses (Hs : sane N) (Hc : e_ctx E = None) (Hfu : n <= Z.of_nat (e_fuel E)) (Hn : 0 <= n)
  (Hcf : confined a n knows inv c) (Ha0 : exists G, obj w0 a G).

Lemma loopM_run : forall k st w frontier visited result lev vis G,
  reachable w -> obj w a G -> graph_of n G ->
  (forall x, ~ obj w0 visited x) -> (forall x, ~ obj w0 result x) -> visited <> result -> frontier <> result -> a <> frontier ->
  (forall p, knows st p -> p <> visited /\ p <> frontier /\ (exists x, obj w p x) /\ (knows st0 p \/ forall x, ~ obj w0 p x)) ->
  (forall p x, obj w0 p x -> ~ knows st0 p -> obj w p x) -> (forall p x, obj w0 p x -> exists y, obj w p y) -> inv result st w ->
  obj w frontier (MDV (mk_dv n lev)) -> obj w visited (MDV (mk_dv n vis)) -> obj w result (MDV (mk_dv n (fun _ => n0))) ->
  (exists w' st' tr res, search_loopM E a c visited result k st frontier w = (w', Ok (st', tr)) /\ reachable w' /\
    (forall p x, obj w0 p x -> ~ knows st0 p -> obj w' p x) /\ inv result st' w' /\ obj w' result res /\ goes_on n vis lev tr /\ called a n result inv c st tr st' /\
    ((exists tr0 r, tr = tr0 ++ [r] /\ (length tr <= k)%nat /\ Forall (fun r => r_answer r = false) tr0 /\ r_answer r = true /\ res = r_left r) \/
     (length tr = k /\ Forall (fun r => r_answer r = false) tr /\ vdenotes res n (fun _ => n0)))) \/
  fails_as a n inv c (search_loopM E a c visited result k st frontier w) result.
Proof.
  induction k as [|k IH]; intros st w frontier visited result lev vis G Hr Ha HG Fv Fr Nvr Nfr Naf Hk Hsp Hex Hi Of Ov Or.
  { left. exists w, st, [], (MDV (mk_dv n (fun _ => n0))). cbn [search_loopM]. split; [reflexivity|]. split; [exact Hr|]. split; [exact Hsp|].
    split; [exact Hi|]. split; [exact Or|]. split; [exact Logic.I|]. split; [reflexivity|]. right. split; [reflexivity|]. split; [constructor|]. apply vdenotes_dv. exact Hn. }
  assert (Nar : a <> result) by (intros ->; destruct Ha0 as [G0 HG0]; exact (Fr _ HG0)).
  assert (Nav : a <> visited) by (intros ->; destruct Ha0 as [G0 HG0]; exact (Fv _ HG0)).
  cbn [search_loopM]. rewrite (mbind_ok _ _ _ _ _ (load_ok _ _ _ Ha)).
  destruct HG as [g Hg].
  (* the product *)
  destruct (mul_exact E w a frontier (MObj visited) result G _ _ n n 1 g _ _ Hs Hr Ha Of Or Logic.I Hg (denotes_dv n lev Hn) (denotes_dv n _ Hn)
    (ex_intro _ _ (conj Ov (conj eq_refl eq_refl))) Nar Nfr Hc) as (w1 & O1 & _ & He1 & Hx1 & Ho1 & Hs1 & Hd1).
  assert (Hr1 : reachable w1) by (eapply (reach_run w _ (KMultiply E a frontier (MObj visited) result)); [exact Hr|exact Logic.I| |exact He1]; reflexivity).
  rewrite (mbind_ok _ _ _ _ _ He1). rewrite (mbind_ok _ _ _ _ _ (load_ok _ _ _ Ho1)).
  set (nx := next_level (seen_graph G n g) n vis lev).
  assert (E1 : O1 = MDV (mk_dv n nx)).
  { rewrite (dv_denoted O1 n _ _ (reach_good _ _ _ Hs Hr1 Ho1) Hs1 Hd1). f_equal. apply mk_dv_ext. intros i Hi'. cbn beta.
    rewrite (covers_dv w visited n vis i 0 Ov Hi'). unfold nx, next_level. destruct (ngtb _ n0); [reflexivity|].
    cbn [kept]. unfold exactly. apply sum_from_ext. intros l Hll. reflexivity. }
  subst O1.
  assert (Ha1 : obj w1 a G) by (apply Hx1; auto).
  assert (Ov1 : obj w1 visited (MDV (mk_dv n vis))) by (apply Hx1; auto).
  assert (Of1 : obj w1 frontier (MDV (mk_dv n lev))) by (apply Hx1; auto).
  assert (Hk1 : forall p, knows st p -> exists x, obj w1 p x).
  { intros p Hp. destruct (Nat.eq_dec p result) as [->|Hne]; [eauto|]. destruct (Hk p Hp) as (_ & _ & (x & Hx) & _). exists x. apply Hx1; auto. }
  assert (Hi1 : inv result st w1).
  { eapply (cf_stable _ _ _ _ _ Hcf); [exact Hi|]. intros p y _ Hne Hy. apply Hx1; auto. }
  (* the callback *)
  destruct (c st result w1) as [w2 [[b st1]| |]] eqn:Ec.
  2:{ right. exists st, w1, (MDV (mk_dv n nx)), G. do 3 (split; [assumption|]). split; [apply mk_vector|]. split; [exact Ha1|]. split; [exists g; exact Hg|]. left. rewrite (mbind_panic _ _ _ _ Ec). auto. }
  2:{ right. exists st, w1, (MDV (mk_dv n nx)), G. do 3 (split; [assumption|]). split; [apply mk_vector|]. split; [exact Ha1|]. split; [exists g; exact Hg|]. right. rewrite (mbind_div _ _ _ _ Ec). auto. }
  rewrite (mbind_ok _ _ _ _ _ Ec). cbv beta iota.
  destruct (cf_call _ _ _ _ _ Hcf st result _ G w1 w2 b st1 Hr1 Nar Ho1 (mk_vector n nx) Ha1 (ex_intro _ g Hg) Hi1 Hk1 Ec)
    as (Hr2 & (Y & Or2 & HY) & (G2 & Ha2 & HG2) & Hfr0 & Hkn & Hi2).
  assert (Hfr : forall p y, obj w1 p y -> ~ knows st p -> p <> result -> obj w2 p y).
  { intros p z Hp Hnk Hne. destruct (Hfr0 p z Hp) as (z' & Hz & [H|[H|H]]); [contradiction|contradiction|]. subst z'. exact Hz. }
  destruct (vector_mk w2 result Y n Hs Hr2 Or2 HY) as (y & -> & _).
  rewrite (mbind_ok _ _ _ _ _ (load_ok _ _ _ Or2)).
  assert (Nkf : ~ knows st frontier) by (intros H; destruct (Hk _ H) as (_ & H1 & _); congruence).
  assert (Nkv : ~ knows st visited) by (intros H; destruct (Hk _ H) as (H1 & _); congruence).
  assert (Ov2 : obj w2 visited (MDV (mk_dv n vis))) by (apply Hfr; auto).
  assert (Hsp2 : forall p x, obj w0 p x -> ~ knows st0 p -> obj w2 p x).
  { intros p x Hp Hnk. assert (p <> result) by (intros ->; exact (Fr _ Hp)). apply Hfr; auto.
    intros Hkp. destruct (Hk p Hkp) as (_ & _ & _ & [H1|H1]); [auto|]. exact (H1 _ Hp). }
  assert (Hk2 : forall p, knows st1 p -> p <> visited /\ p <> frontier /\ (exists x, obj w2 p x) /\ (knows st0 p \/ forall x, ~ obj w0 p x)).
  { intros p Hp. destruct (Hkn p Hp) as (Hv & [H1|[-> | H1]]).
    - destruct (Hk p H1) as (A1 & A2 & _ & A3). auto.
    - split; [auto|]. split; [auto|]. split; [exact Hv|]. right. exact Fr.
    - split; [intros ->; exact (H1 _ Ov1)|]. split; [intros ->; exact (H1 _ Of1)|]. split; [exact Hv|].
      right. intros x Hx. destruct (Hex _ _ Hx) as [z Hz]. destruct (Nat.eq_dec p result) as [->|Hne]; [exact (H1 _ Ho1)|].
      exact (H1 _ (Hx1 _ _ Hne Hz)). }
  assert (Hex2 : forall p x, obj w0 p x -> exists z, obj w2 p z).
  { intros p x Hp. destruct (Hex p x Hp) as [z Hz]. assert (Hne : p <> result) by (intros ->; exact (Fr _ Hp)).
    destruct (Hfr0 p z (Hx1 _ _ Hne Hz)) as (z' & Hz' & _). eauto. }
  assert (Hgo : forall rest, goes_on n (marks vis y) y rest ->
    goes_on n vis lev (MkRound G (MDV (mk_dv n nx)) (MDV (mk_dv n y)) b :: rest)).
  { intros rest Hrest. exists g, y. split; [exact Hg|]. split; [apply vdenotes_dv; exact Hn|]. split; [apply vdenotes_dv; exact Hn|exact Hrest]. }
  assert (Hca : forall rest st', called a n result inv c st1 rest st' ->
    called a n result inv c st (MkRound G (MDV (mk_dv n nx)) (MDV (mk_dv n y)) b :: rest) st').
  { intros rest st' Hrest. cbn [called r_graph r_shown r_left r_answer]. exists w1, w2, st1. do 4 (split; [assumption|]). split; [apply mk_vector|]. do 2 (split; [assumption|]). exact Hrest. }
  destruct b.
  { left. exists w2, st1, [MkRound G (MDV (mk_dv n nx)) (MDV (mk_dv n y)) true], (MDV (mk_dv n y)). split; [reflexivity|]. split; [exact Hr2|].
    split; [exact Hsp2|]. split; [exact Hi2|]. split; [exact Or2|]. split; [apply Hgo; exact Logic.I|]. split; [apply Hca; reflexivity|].
    left. exists [], (MkRound G (MDV (mk_dv n nx)) (MDV (mk_dv n y)) true). split; [reflexivity|]. split; [cbn; lia|]. auto. }
  (* visited grows *)
  destruct (ewa_exact E w2 visited result MNil visited _ _ _ n 1 _ _ _ Hs Hr2 Ov2 Or2 Ov2 Logic.I Logic.I Logic.I
    (denotes_dv n vis Hn) (denotes_dv n _ Hn) (denotes_dv n vis Hn) Logic.I ltac:(discriminate)
    ltac:(change (n <= Z.of_nat (e_fuel E)); lia) ltac:(change (n <= Z.of_nat (e_fuel E)); lia) Hc)
    as (_ & Eq3 & w3 & O3 & He3 & Hx3 & Ho3 & Hs3 & Hd3).
  assert (Hr3 : reachable w3) by (eapply (reach_run w2 _ (KEWVecAdd E visited result MNil visited)); [exact Hr2|exact Logic.I| |rewrite Eq3; exact He3]; reflexivity).
  rewrite (mbind_ok _ _ _ _ _ (eq_trans Eq3 He3)).
  assert (E3 : O3 = MDV (mk_dv n (marks vis y))).
  { rewrite (dv_denoted O3 n _ _ (reach_good _ _ _ Hs Hr3 Ho3) Hs3 Hd3). f_equal. apply mk_dv_ext. intros i Hi'. cbn beta.
    cbn [covers]. rewrite Nat.eqb_refl. replace (Nat.eqb result visited) with false by (symmetry; apply Nat.eqb_neq; auto).
    unfold marks. cbn [negb andb]. rewrite !Bool.andb_false_r, Bool.andb_true_r. destruct (neqb (y i) n0); reflexivity. }
  subst O3.
  assert (Or3 : obj w3 result (MDV (mk_dv n y))) by (apply Hx3; auto).
  (* frontier *)
  destruct (step_Copy w3 result _ Hs Hr3 Or3) as (w4 & q & He4 & Hr4 & Fq & Hx4 & Oq).
  rewrite (mbind_ok _ _ _ _ _ He4).
  (* clear *)
  assert (Or4 := Hx4 _ _ Or3).
  assert (E5 : p_Clear result w4 = (upd w4 result (MDV (mk_dv n (fun _ => n0))), Ok tt)).
  { unfold p_Clear. rewrite (load_lift _ _ _ mat_Clear _ (Ok (MDV (mk_dv n (fun _ => n0)))) Or4); [reflexivity|].
    unfold mat_Clear. rewrite dv_Clear_spec by auto. reflexivity. }
  rewrite (mbind_ok _ _ _ _ _ E5). set (w5 := upd w4 result (MDV (mk_dv n (fun _ => n0)))) in *.
  assert (Hr5 : reachable w5) by (eapply (reach_run w4 _ (KClear result)); [exact Hr4|exact Logic.I| |exact E5]; reflexivity).
  assert (Nqr : q <> result) by (intros ->; exact (Fq _ Or3)).
  assert (Hx25 : forall p x, obj w2 p x -> p <> visited -> p <> result -> obj w5 p x).
  { intros p x Hp H1 H2. apply obj_upd_neq; [auto|]. apply Hx4, Hx3; auto. }
  assert (Naq : a <> q) by (intros ->; exact (Fq _ (Hx3 _ _ Nav Ha2))).
  assert (Ov5 : obj w5 visited (MDV (mk_dv n (marks vis y)))) by (apply obj_upd_neq; auto).
  assert (Or5 : obj w5 result (MDV (mk_dv n (fun _ => n0)))) by (eapply obj_upd_eq; eauto).
  destruct (IH st1 w5 q visited result y (marks vis y) G2) as
    [(w' & st' & tr & res & He & Hr' & Hsp' & Hi' & Hor' & Hgo' & Hca' & Hend)|Hbad]; auto.
  { intros p Hp. destruct (Hk2 p Hp) as (A1 & A2 & (x & Ax) & A3). split; [exact A1|]. split.
    - intros ->. assert (~ obj w3 q x) by apply Fq. apply H. apply Hx3; auto.
    - split; [|exact A3]. destruct (Nat.eq_dec p result) as [->|Hne]; [eauto|]. exists x. apply Hx25; auto. }
  { intros p x Hp Hnk. apply Hx25; auto; intros ->; [exact (Fv _ Hp)|exact (Fr _ Hp)]. }
  { intros p x Hp. destruct (Hex2 p x Hp) as [z Hz]. exists z. apply Hx25; auto; intros ->; [exact (Fv _ Hp)|exact (Fr _ Hp)]. }
  { eapply (cf_stable _ _ _ _ _ Hcf); [exact Hi2|]. intros p z Hp Hne Hz. apply Hx25; auto. destruct (Hk2 p Hp) as (A1 & _). exact A1. }
  { apply obj_upd_neq; auto. }
  - left. rewrite (mbind_ok _ _ _ _ _ He). cbv beta iota.
    exists w', st', (MkRound G (MDV (mk_dv n nx)) (MDV (mk_dv n y)) false :: tr), res.
    split; [reflexivity|]. split; [exact Hr'|]. split; [exact Hsp'|]. split; [exact Hi'|]. split; [exact Hor'|]. split; [apply Hgo; exact Hgo'|]. split; [apply Hca; exact Hca'|].
    destruct Hend as [(tr0 & r & -> & Hlen & Hall & Hrt & Hres)|(Hlen & Hall & Hres)].
    + left. exists (MkRound G (MDV (mk_dv n nx)) (MDV (mk_dv n y)) false :: tr0), r. split; [reflexivity|]. split; [cbn; lia|].
      split; [constructor; auto|]. auto.
    + right. split; [cbn; lia|]. split; [constructor; auto|exact Hres].
  - right. destruct Hbad as (stb & wb & xb & Gb & B1 & B2 & B3 & B4 & B5 & B6 & Hb). exists stb, wb, xb, Gb. do 6 (split; [assumption|]).
    destruct (search_loopM E a c visited result k st1 q w5) as [w6 [r6| |]] eqn:E6; cbn [fst snd] in Hb.
    + destruct Hb as [(_ & H)|(_ & H)]; discriminate.
    + rewrite (mbind_panic _ _ _ _ E6). destruct Hb as [(H & _)|(_ & H)]; [auto|discriminate].
    + rewrite (mbind_div _ _ _ _ E6). destruct Hb as [(_ & H)|(H & _)]; [discriminate|auto].
Qed.
End Loop.

(** The run of Search. *)
Lemma searchM_run E w a G n s knows inv (c : St -> ptr -> M (bool * St)) st : sane N -> e_ctx E = None -> reachable w ->
  obj w a G -> graph_of n G -> n <= Z.of_nat (e_fuel E) -> 0 <= s < n -> confined a n knows inv c ->
  (forall p, knows st p -> exists x, obj w p x) ->
  (forall q w1, (forall x, ~ obj w q x) -> extends w w1 -> inv q st w1) ->
  exists q, (forall x, ~ obj w q x) /\
  ((exists w' st' tr res, SearchM E a s c st w = (w', Ok (q, st', tr)) /\ reachable w' /\
      (forall p x, obj w p x -> ~ knows st p -> obj w' p x) /\ inv q st' w' /\ obj w' q res /\
      goes_on n (source s) (source s) tr /\ called a n q inv c st tr st' /\ answered n tr res) \/
   fails_as a n inv c (SearchM E a s c st w) q).
Proof.
  intros Hs Hc Hr Ha HG Hfu Hsn Hcf Hk Hin. assert (Hn : 0 <= n) by lia. unfold SearchM.
  rewrite (mbind_ok _ _ _ _ _ (p_Rows_ok _ _ _ Ha)). replace (mat_Rows G) with n by (destruct HG as [g Hg]; symmetry; apply Hg).
  rewrite newDenseVector_spec, mbind_lift by auto. rewrite (mbind_ok _ _ _ _ _ (alloc_ok _ _)).
  set (fr := length (w_heap w)). set (w1 := ext w (MDV (mk_dv n (fun _ : Z => n0)))).
  assert (R1 : reachable w1).
  { replace w1 with (after (KNewDV n) w); [apply reach_call; [exact Hr|exact Logic.I]|]. unfold after, perform, new. rewrite newDenseVector_spec by auto. reflexivity. }
  assert (O1 : obj w1 fr (MDV (mk_dv n (fun _ : Z => n0)))) by apply obj_ext_new.
  assert (Est : mat_SetVec (MDV (mk_dv n (fun _ : Z => n0)) : mat) s n1 = Ok (MDV (mk_dv n (source s)))).
  { unfold mat_SetVec. rewrite dv_SetVec_spec by auto. cbn. do 2 f_equal. }
  assert (E2 : p_SetVec fr s n1 w1 = (upd w1 fr (MDV (mk_dv n (source s))), Ok tt)).
  { unfold p_SetVec. rewrite (load_lift _ _ _ (fun m => mat_SetVec m s n1) _ _ O1 Est). reflexivity. }
  rewrite (mbind_ok _ _ _ _ _ E2). set (w2 := upd w1 fr (MDV (mk_dv n (source s)))) in *.
  assert (R2 : reachable w2) by (eapply (reach_run w1 _ (KSetVec fr s n1)); [exact R1|exact Logic.I| |exact E2]; reflexivity).
  assert (O2 : obj w2 fr (MDV (mk_dv n (source s)))) by (eapply obj_upd_eq; eauto).
  assert (Ffr : forall x, ~ obj w fr x) by (intros x Hx; apply obj_lt in Hx; unfold fr in Hx; lia).
  assert (X2 : extends w w2).
  { intros p x Hp. apply obj_upd_neq; [intros ->; exact (Ffr _ Hp)|]. apply extends_ext, Hp. }
  destruct (step_Copy w2 fr _ Hs R2 O2) as (w3 & vi & He3 & R3 & Fv & X3 & O3).
  rewrite (mbind_ok _ _ _ _ _ He3). rewrite mbind_lift. rewrite (mbind_ok _ _ _ _ _ (alloc_ok _ _)).
  set (re := length (w_heap w3)). set (w4 := ext w3 (MDV (mk_dv n (fun _ : Z => n0)))).
  assert (R4 : reachable w4).
  { replace w4 with (after (KNewDV n) w3); [apply reach_call; [exact R3|exact Logic.I]|]. unfold after, perform, new. rewrite newDenseVector_spec by auto. reflexivity. }
  assert (Fre : forall x, ~ obj w3 re x) by (intros x Hx; apply obj_lt in Hx; unfold re in Hx; lia).
  assert (X4 : extends w w4) by (intros p x Hp; apply extends_ext, X3, X2, Hp).
  assert (Fq : forall x, ~ obj w re x) by (intros x Hx; exact (Fre _ (X3 _ _ (X2 _ _ Hx)))).
  assert (Fvi : forall x, ~ obj w vi x) by (intros x Hx; exact (Fv _ (X2 _ _ Hx))).
  exists re. split; [exact Fq|].
  destruct (loopM_run E w a n knows inv c st Hs Hc Hfu Hn Hcf (ex_intro _ G Ha) (Z.to_nat n) st w4 fr vi re (source s) (source s) G R4 (X4 _ _ Ha) HG) as
    [(w' & st' & tr & res & He & H1 & H2 & H3 & H4 & H5 & H6 & H7)|Hbad]; auto.
  { intros E0. rewrite E0 in O3. exact (Fre _ O3). }
  { intros E0. pose proof (X3 _ _ O2) as O2'. rewrite E0 in O2'. exact (Fre _ O2'). }
  { intros E0. rewrite E0 in Ha. exact (Ffr _ Ha). }
  { intros p Hp. destruct (Hk p Hp) as [x Hx]. split; [intros ->; exact (Fvi _ Hx)|]. split; [intros ->; exact (Ffr _ Hx)|]. split; [exists x; apply X4, Hx|]. left. exact Hp. }
  { intros p x Hp. exists x. apply X4, Hp. }
  { apply extends_ext, X3, O2. }
  { apply extends_ext, O3. }
  { apply obj_ext_new. }
  - left. rewrite (mbind_ok _ _ _ _ _ He). cbv beta iota. exists w', st', tr, res. split; [reflexivity|]. do 6 (split; [assumption|]). exact H7.
  - right. destruct Hbad as (stb & wb & xb & Gb & B1 & B2 & B3 & B4 & B5 & B6 & Hb). exists stb, wb, xb, Gb. do 6 (split; [assumption|]).
    destruct (search_loopM E a c vi re (Z.to_nat n) st fr w4) as [w6 [r6| |]] eqn:E6; cbn [fst snd] in Hb.
    + destruct Hb as [(_ & H)|(_ & H)]; discriminate.
    + rewrite (mbind_panic _ _ _ _ E6). destruct Hb as [(H & _)|(_ & H)]; [auto|discriminate].
    + rewrite (mbind_div _ _ _ _ E6). destruct Hb as [(_ & H)|(H & _)]; [discriminate|auto].
Qed.
End Run.
