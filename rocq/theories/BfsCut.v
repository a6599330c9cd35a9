(** Breadth-first search whose context is cancelled on the way. *)
From Verif Require Import GoBase Num SparseVec Csr Csc DenseVec DenseMat Mat World Ops Api MathOps Bfs.
From Verif Require Import BaseProofs CsrProofs SvProofs DenseProofs MatProofs Spec HeapProofs ReachProofs StoreProofs VecProofs StoreThms OpsProofs OpsThms EwThms EqThms MethThms OpsProps Steps BfsProofs BfsThms.

(** ** Specification *)

(** how often the context has been asked from the start of a search on [n] vertices
    until entry [i] of the [d]-th vector is written: each entry asks [n] times, and
    between two products marking the visited vertices asks [n] times *)
Definition asked (n : Z) (d : nat) (i : Z) : nat :=
  let k := Z.to_nat n in (pred d * (k * k + k) + k * S (Z.to_nat i))%nat.

(** [v] is level [d] as far as it was written before the cancellation, and zero in
    the other entries *)
Definition is_level_until {N} (E : env) (w : world N) (a : Z -> Z -> T N) (n s : Z) (d : nat) (v : Z -> T N) : Prop :=
  forall i, 0 <= i < n ->
    if in_time E w (asked n d i)
    then (at_distance (edge a n) s d i -> ngtb (v i) n0 = true) /\ (~ at_distance (edge a n) s d i -> v i = n0)
    else v i = n0.

Section Cut.
Context {N : num}.
Notation V := (T N).
Notation mat := (mat N).
Notation world := (world N).
Implicit Types w : world.

(** the context was found to be done, or will be at the next question *)
Definition stopped (E : env) (w0 w : world) (c : nat) : Prop :=
  exists k, e_ctx E = Some k /\ (k < w_polls w)%nat /\ (k < w_polls w0 + c)%nat.

Lemma until_mono {A} n E w w' (d rest : list A) : until_done n E w w' d rest -> (w_polls w <= w_polls w')%nat.
Proof. unfold until_done. destruct (e_ctx E); lia. Qed.
Lemma stopped_mono E w0 w w' c c' : stopped E w0 w c -> (w_polls w <= w_polls w')%nat -> (c <= c')%nat -> stopped E w0 w' c'.
Proof. intros (k & H1 & H2 & H3) H4 H5. exists k. split; [exact H1|]. lia. Qed.

(** a loop after [c] unsuccessful questions: it either gets through or is stopped *)
Lemma until_next {A} n E w0 w w' c (d rest : list A) : running E w0 w c -> until_done n E w w' d rest ->
  (rest = [] /\ running E w0 w' (c + n * length d)) \/ (rest <> [] /\ stopped E w0 w' (c + n * S (length d))).
Proof.
  unfold running, until_done, stopped. destruct (e_ctx E) as [k|].
  - intros [H1 H2] [(H3 & H4 & H5)|(H3 & H4 & H5)]; [left|right]; (split; [exact H3|]).
    + rewrite H4, H1. lia.
    + exists k. split; [reflexivity|]. lia.
  - intros H [-> H2]. left. split; [reflexivity|congruence].
Qed.

Lemma stopped_late E w0 w c c' : stopped E w0 w c -> (c <= c')%nat -> (0 < c')%nat -> in_time E w0 c' = false.
Proof.
  intros (k & H1 & H2 & H3) H4 H5. unfold in_time. rewrite H1. apply Bool.orb_false_iff. rewrite Nat.eqb_neq, Nat.leb_gt. lia.
Qed.
Lemma running_in_time E w0 w c : running E w0 w c -> in_time E w0 c = true.
Proof.
  unfold running, in_time. destruct (e_ctx E); [|reflexivity]. intros [H1 H2]. apply Bool.orb_true_iff. rewrite Nat.eqb_eq, Nat.leb_le. lia.
Qed.

(** which elements of a loop are handled *)
Lemma until_which {A} n E w0 w w' c (d rest : list A) (j : nat) : (0 < n)%nat -> running E w0 w c -> until_done n E w w' d rest ->
  (j < length (d ++ rest))%nat -> in_time E w0 (c + n * S j) = Nat.ltb j (length d).
Proof.
  unfold running, until_done, in_time. rewrite app_length. intros Hn. destruct (e_ctx E) as [k|].
  - intros [H1 H2] [(H3 & H4 & H5)|(H3 & H4 & H5)] Hj.
    + subst rest. cbn [length] in Hj. destruct (Nat.ltb_spec j (length d)) as [Hl|Hl]; [|lia].
      apply Bool.orb_true_iff. right. apply Nat.leb_le.
      assert (n * S j <= n * length d)%nat by (apply Nat.mul_le_mono_l; lia). assert (0 < n * S j)%nat by lia. lia.
    + destruct (Nat.ltb_spec j (length d)) as [Hl|Hl].
      * apply Bool.orb_true_iff. right. apply Nat.leb_le.
        assert (n * S j <= n * length d)%nat by (apply Nat.mul_le_mono_l; lia). lia.
      * apply Bool.orb_false_iff. rewrite Nat.eqb_neq, Nat.leb_gt.
        assert (n * S (length d) <= n * S j)%nat by (apply Nat.mul_le_mono_l; lia). lia.
  - intros _ [-> _] Hj. cbn [length] in Hj. symmetry. apply Nat.ltb_lt. lia.
Qed.

Lemma positions_one n : positions n 1 = map (fun i => (i, 0)) (zrange 0 n).
Proof.
  unfold positions. rewrite (zrange_cons 0 1), (zrange_nil (0 + 1) 1) by lia. cbn [map].
  induction (zrange 0 n) as [|x l IH]; [reflexivity|]. cbn [flat_map map app]. rewrite IH. reflexivity.
Qed.
Lemma visited_prefix n L rest i : 0 <= i < n -> positions n 1 = L ++ rest -> visited L i 0 = Nat.ltb (Z.to_nat i) (length L).
Proof.
  intros Hi HL. assert (Hn : nth_error (positions n 1) (Z.to_nat i) = Some (i, 0)).
  { rewrite positions_one, nth_error_map. assert (E : nth_error (zrange 0 n) (Z.to_nat i) = Some i); [|rewrite E; reflexivity].
    pose proof (zget_zrange 0 n i ltac:(lia)) as Hg. apply zget_nth in Hg as [_ Hg]. rewrite Hg. f_equal; lia. }
  destruct (Nat.ltb_spec (Z.to_nat i) (length L)) as [Hl|Hl].
  - apply visited_in. rewrite HL, nth_error_app1 in Hn by lia. eapply nth_error_In; eauto.
  - apply visited_notin. intros Hin. apply In_nth_error in Hin as (j & Hj).
    assert (Hjl : (j < length L)%nat) by (apply nth_error_Some; congruence).
    assert (Hnd : NoDup (positions n 1)).
    { rewrite positions_one. apply FinFun.Injective_map_NoDup; [intros x y Exy; congruence|apply NoDup_zrange]. }
    assert (Z.to_nat i = j); [|lia].
    rewrite NoDup_nth_error in Hnd. apply Hnd; [rewrite positions_one, map_length, zrange_length; lia|].
    rewrite Hn, HL, nth_error_app1, Hj by auto. reflexivity.
Qed.

(** ** The loop *)
Notation k_of := Z.to_nat.

Lemma search_loop_cut E w0 wS a S n f s c : sane N -> obj w0 a S -> denotes S n n f -> n <= Z.of_nat (e_fuel E) -> 0 < n ->
  let A := seen_graph S n f in let R := (k_of n * k_of n + k_of n)%nat in
  let cut d i := if in_time E wS (asked n d i) then level A n s d i else n0 in
  forall k d w frontier visited result lev vis,
  reachable w -> extends w0 w -> (forall x, ~ obj w0 visited x) -> (forall x, ~ obj w0 result x) -> visited <> result -> frontier <> result ->
  obj w frontier (MDV (mk_dv n lev)) -> obj w visited (MDV (mk_dv n vis)) -> obj w result (MDV (mk_dv n (fun _ => n0))) ->
  (running E wS w (d * R) /\ (forall i, 0 <= i < n -> lev i = level A n s d i) /\ (forall i, 0 <= i < n -> vis i = marked A n s d i)) \/
    stopped E wS w (d * R) ->
  exists w' tr, search_loop E a c visited result k (Datatypes.S d) frontier w = (w', Ok tr) /\ reachable w' /\ extends w0 w' /\
    (length tr <= k)%nat /\
    (forall e, (e < length tr)%nat -> nth_error tr e = Some (MDV (mk_dv n (cut (d + Datatypes.S e)%nat)))) /\
    (forall e v, (Datatypes.S e < length tr)%nat -> nth_error tr e = Some v -> c (d + Datatypes.S e)%nat v = false) /\
    ((exists e v, length tr = Datatypes.S e /\ nth_error tr e = Some v /\ c (d + Datatypes.S e)%nat v = true /\ obj w' result v) \/
     (length tr = k /\ (forall e v, nth_error tr e = Some v -> c (d + Datatypes.S e)%nat v = false) /\ obj w' result (MDV (mk_dv n (fun _ => n0))))).
Proof.
  intros Hs Ha Hd Hfu Hn A R cut. assert (Hn0 : 0 <= n) by lia. assert (Hk0 : (0 < k_of n)%nat) by lia.
  induction k as [|k IH]; intros d w frontier visited result lev vis Hr Hx Fv Fr Nvr Nfr Of Ov Or Hst.
  { exists w, []. cbn [search_loop]. split; [reflexivity|]. split; [exact Hr|]. split; [exact Hx|]. split; [cbn; lia|].
    split; [intros e He; cbn in He; lia|]. split; [intros e v He; cbn in He; lia|]. right. split; [reflexivity|]. split; [|exact Or].
    intros e v He. destruct e; discriminate. }
  assert (Nar : a <> result) by (intros ->; exact (Fr _ Ha)).
  assert (Nav : a <> visited) by (intros ->; exact (Fv _ Ha)).
  cbn [search_loop].
  (* the product *)
  destruct (mul_prefix E w a frontier (MObj visited) result S _ _ n n 1 f _ _ Hs Hr (Hx _ _ Ha) Of Or Logic.I Hd (denotes_dv n lev Hn0) (denotes_dv n _ Hn0)
    (ex_intro _ _ (conj Ov (conj eq_refl eq_refl))) Nar Nfr) as (w1 & O1 & L & rest & He1 & Hx1 & Ho1 & Hs1 & HL & Hun1 & Hd1).
  change (MatrixVectorMultiply E a frontier (MObj visited) result w = (w1, Ok tt)) in He1.
  assert (Hr1 : reachable w1) by (eapply (reach_run w _ (KMultiply E a frontier (MObj visited) result)); [exact Hr|exact Logic.I| |exact He1]; reflexivity).
  rewrite (mbind_ok _ _ _ _ _ He1). rewrite (mbind_ok _ _ _ _ _ (load_ok _ _ _ Ho1)).
  assert (LL : (length L + length rest = k_of n)%nat).
  { rewrite <- app_length, <- HL, positions_one, map_length, zrange_length. lia. }
  assert (Ask : forall i, asked n (Datatypes.S d) i = (d * R + k_of n * Datatypes.S (k_of i))%nat) by reflexivity.
  assert (E1 : O1 = MDV (mk_dv n (cut (Datatypes.S d)))).
  { rewrite (dv_denoted O1 n _ _ (reach_good _ _ _ Hs Hr1 Ho1) Hs1 Hd1). f_equal. apply mk_dv_ext. intros i Hi. cbn beta.
    rewrite (visited_prefix n L rest i Hi HL). unfold cut. rewrite Ask. destruct Hst as [(Hrun & Hl & Hv)|Hst].
    - rewrite (until_which _ E wS w w1 _ L rest (k_of i) Hk0 Hrun Hun1) by (rewrite app_length; lia).
      destruct (Nat.ltb (k_of i) (length L)); cbn [andb]; [|reflexivity].
      rewrite (covers_dv w visited n vis i 0 Ov Hi), level_S, Hv by auto. fold A. destruct (ngtb _ n0); cbn [negb]; [reflexivity|].
      cbn [kept]. apply sum_from_ext. intros l Hll. cbn [shown]. rewrite Hl by lia. reflexivity.
    - rewrite (stopped_late E wS w _ _ Hst) by lia. destruct Hst as (q & Hq1 & Hq2 & _).
      assert (length L = O); [|rewrite H; reflexivity].
      unfold until_done in Hun1. rewrite Hq1 in Hun1. destruct Hun1 as [(H1 & H2 & H3)|(H1 & H2 & H3)].
      + exfalso. subst rest. cbn in LL. nia.
      + nia. }
  subst O1. set (L1 := MDV (mk_dv n (cut (Datatypes.S d)))) in *.
  assert (Hst1 : (running E wS w1 (d * R + k_of n * k_of n) /\ (forall i, 0 <= i < n -> cut (Datatypes.S d) i = level A n s (Datatypes.S d) i) /\
      (forall i, 0 <= i < n -> vis i = marked A n s d i)) \/ stopped E wS w1 (d * R + k_of n * k_of n)).
  { destruct Hst as [(Hrun & Hl & Hv)|Hst].
    - destruct (until_next _ _ _ _ _ _ _ _ Hrun Hun1) as [(Er & Hrun1)|(Er & Hst1)].
      + left. subst rest. cbn in LL. replace (length L) with (k_of n) in Hrun1 by lia. split; [exact Hrun1|]. split; [|exact Hv].
        intros i Hi. unfold cut. rewrite Ask, (until_which _ E wS w w1 _ L [] (k_of i) Hk0 Hrun Hun1) by (rewrite app_length; lia).
        replace (Nat.ltb (k_of i) (length L)) with true by (symmetry; apply Nat.ltb_lt; lia). reflexivity.
      + right. eapply stopped_mono; [exact Hst1|lia|]. destruct rest; [congruence|]. cbn in LL.
        apply Nat.add_le_mono_l, Nat.mul_le_mono_l. lia.
    - right. eapply stopped_mono; [exact Hst|eapply until_mono; exact Hun1|lia]. }
  assert (Hx01 : extends w0 w1) by (intros p x Hp; apply Hx1; [intros ->; exact (Fr _ Hp)|apply Hx; exact Hp]).
  replace (d + 1)%nat with (Datatypes.S d) by lia.
  destruct (c (Datatypes.S d) L1) eqn:Ec.
  { exists w1, [L1]. split; [reflexivity|]. split; [exact Hr1|]. split; [exact Hx01|]. split; [cbn; lia|]. split.
    { intros e He. cbn in He. replace e with O by lia. replace (d + 1)%nat with (Datatypes.S d) by lia. reflexivity. }
    split; [intros e v He; cbn in He; lia|]. left. exists O, L1. replace (d + 1)%nat with (Datatypes.S d) by lia. auto. }
  (* visited grows *)
  assert (Ov1 : obj w1 visited (MDV (mk_dv n vis))) by (apply Hx1; auto).
  destruct (ewa_prefix E w1 visited result MNil visited _ _ _ n 1 _ _ _ Hs Hr1 Ov1 Ho1 Ov1 Logic.I Logic.I Logic.I
    (denotes_dv n vis Hn0) (denotes_dv n _ Hn0) (denotes_dv n vis Hn0) Logic.I ltac:(discriminate)
    ltac:(change (n <= Z.of_nat (e_fuel E)); lia) ltac:(change (n <= Z.of_nat (e_fuel E)); lia))
    as (w2 & O2 & ds & rs & dm & rm & He2 & Hx2 & Ho2 & Hs2 & En1 & En2 & Hun2 & Hrs & Hd2).
  assert (Eq2 : ElementWiseVectorAdd E visited result MNil visited w1 = elementWiseAdd E visited result MNil visited w1).
  { unfold ElementWiseVectorAdd. rewrite (mbind_ok _ _ _ _ _ (p_Rows_ok _ _ _ Ho1)), (mbind_ok _ _ _ _ _ (p_Rows_ok _ _ _ Ov1)).
    change (mat_Rows L1) with n. change (mat_Rows (MDV (mk_dv n vis))) with n. rewrite Z.eqb_refl. reflexivity. }
  assert (Hr2 : reachable w2) by (eapply (reach_run w1 _ (KEWVecAdd E visited result MNil visited)); [exact Hr1|exact Logic.I| |rewrite Eq2; exact He2]; reflexivity).
  rewrite (mbind_ok _ _ _ _ _ (eq_trans Eq2 He2)).
  assert (Nrv : Nat.eqb result visited = false) by (apply Nat.eqb_neq; auto).
  rewrite Nat.eqb_refl, Nrv in Hun2. cbn [app] in Hun2.
  assert (LM : (length dm + length rm = k_of n)%nat).
  { pose proof (reach_good _ _ _ Hs Hr1 Ho1) as Wm. rewrite <- app_length, (enumerates_unique _ _ Wm En2).
    pose proof (zlen_entries _ Wm) as El. unfold zlen in El. change (mat_Values L1) with n in El. lia. }
  pose proof (dv_denoted O2 n _ _ (reach_good _ _ _ Hs Hr2 Ho2) Hs2 Hd2) as E2.
  set (h2 := fun i : Z => _) in E2. subst O2.
  assert (Hst2 : (running E wS w2 (Datatypes.S d * R) /\ (forall i, 0 <= i < n -> cut (Datatypes.S d) i = level A n s (Datatypes.S d) i) /\
      (forall i, 0 <= i < n -> h2 i = marked A n s (Datatypes.S d) i)) \/ stopped E wS w2 (Datatypes.S d * R)).
  { replace (Datatypes.S d * R)%nat with (d * R + k_of n * k_of n + k_of n)%nat by (unfold R; lia).
    destruct Hst1 as [(Hrun & Hl & Hv)|Hst1].
    - destruct (until_next _ _ _ _ _ _ _ _ Hrun Hun2) as [(Er & Hrun2)|(Er & Hst2)].
      + left. destruct (app_eq_nil _ _ Er) as [-> ->]. rewrite app_nil_r in En1, En2. cbn in LM.
        replace (1 * length dm)%nat with (k_of n) in Hrun2 by lia. split; [exact Hrun2|]. split; [exact Hl|].
        intros i Hi. unfold h2. cbn [covers negb]. rewrite Nat.eqb_refl, Nrv, marked_S, Hl by auto.
        rewrite (visited_stored L1 n 1 _ dm i 0 (proj1 Hs) (plain_is_good w1 result L1 (sane_wfw w1 Hs Hr1) Ho1 Logic.I) (denotes_dv n _ Hn0) En2 Hi) by lia.
        cbn [stored L1 negb andb]. rewrite !Bool.andb_false_r, Bool.andb_true_r. cbn [kept].
        destruct (neqb (level A n s (Datatypes.S d) i) n0); cbn [negb]; [apply Hv; auto|reflexivity].
      + right. eapply stopped_mono; [exact Hst2|lia|]. destruct rm.
        * rewrite app_nil_r in Er. rewrite (Hrs Er). cbn. lia.
        * cbn in LM. lia.
    - right. eapply stopped_mono; [exact Hst1|eapply until_mono; exact Hun2|lia]. }
  assert (Hx02 : extends w0 w2) by (intros p x Hp; apply Hx2; [intros ->; exact (Fv _ Hp)|apply Hx01; exact Hp]).
  assert (Or2 : obj w2 result L1) by (apply Hx2; auto).
  (* frontier *)
  destruct (step_Copy w2 result L1 Hs Hr2 Or2) as (w3 & q & He3 & Hr3 & Fq & Hx3 & Oq).
  assert (Ew3 : w_polls w3 = w_polls w2).
  { pose proof (p_Copy_ok result w2 L1 Or2 (reach_good _ _ _ Hs Hr2 Or2)) as Ec3. rewrite He3 in Ec3. injection Ec3 as -> _. reflexivity. }
  rewrite (mbind_ok _ _ _ _ _ He3).
  (* clear *)
  assert (Or3 := Hx3 _ _ Or2).
  assert (E4 : p_Clear result w3 = (upd w3 result (MDV (mk_dv n (fun _ => n0))), Ok tt)).
  { unfold p_Clear. rewrite (load_lift _ _ _ mat_Clear _ (Ok (MDV (mk_dv n (fun _ => n0)))) Or3); [reflexivity|].
    unfold L1, mat_Clear. rewrite dv_Clear_spec by auto. reflexivity. }
  rewrite (mbind_ok _ _ _ _ _ E4). set (w4 := upd w3 result (MDV (mk_dv n (fun _ => n0)))) in *.
  assert (Hr4 : reachable w4) by (eapply (reach_run w3 _ (KClear result)); [exact Hr3|exact Logic.I| |exact E4]; reflexivity).
  assert (Nqr : q <> result) by (intros ->; exact (Fq _ Or2)).
  assert (Hx04 : extends w0 w4).
  { intros p x Hp. apply obj_upd_neq; [intros ->; exact (Fr _ Hp)|]. apply Hx3, Hx02, Hp. }
  assert (Ew4 : w_polls w4 = w_polls w2) by exact Ew3.
  destruct (IH (Datatypes.S d) w4 q visited result (cut (Datatypes.S d)) h2 Hr4 Hx04 Fv Fr Nvr Nqr) as
    (w' & tr & He & Hr' & Hx' & Hlen & Htr & Hno & Hend).
  { apply obj_upd_neq; auto. }
  { apply obj_upd_neq; auto. }
  { eapply obj_upd_eq; eauto. }
  { unfold running, stopped in Hst2 |- *. rewrite Ew4. exact Hst2. }
  rewrite (mbind_ok _ _ _ _ _ He). exists w', (L1 :: tr). split; [reflexivity|]. split; [exact Hr'|]. split; [exact Hx'|].
  split; [cbn; lia|].
  assert (Arith : forall e, (Datatypes.S d + Datatypes.S e = d + Datatypes.S (Datatypes.S e))%nat) by (intros; lia).
  assert (A1 : (d + 1 = Datatypes.S d)%nat) by lia.
  split; [|split].
  - intros [|e] He0; cbn [nth_error]; [rewrite A1; reflexivity|]. cbn in He0. rewrite <- Arith. apply Htr. lia.
  - intros [|e] v He0; cbn [nth_error]; intros Hv0; [injection Hv0 as <-; rewrite A1; exact Ec|]. cbn in He0. rewrite <- Arith. apply Hno; [lia|exact Hv0].
  - destruct Hend as [(e & v & Le & Hne & Hc0 & Ho)|(Le & Hno' & Ho)].
    + left. exists (Datatypes.S e), v. split; [cbn; congruence|]. split; [exact Hne|]. split; [rewrite <- Arith; exact Hc0|exact Ho].
    + right. split; [cbn; congruence|]. split; [|exact Ho]. intros [|e] v; cbn [nth_error]; intros Hv0; [injection Hv0 as <-; rewrite A1; exact Ec|].
      rewrite <- Arith. apply Hno'. exact Hv0.
Qed.
Lemma search_cut E w a S n f s c : sane N -> reachable w -> obj w a S -> denotes S n n f -> n <= Z.of_nat (e_fuel E) ->
  0 <= s < n ->
  exists w' q res tr, Search E a s c w = (w', Ok (q, tr)) /\ extends w w' /\ (forall x, ~ obj w q x) /\ obj w' q res /\
    search_outcome n (fun d i => if in_time E w (asked n d i) then level (seen_graph S n f) n s d i else n0) c tr res.
Proof.
  intros Hs Hr Ha Hd Hfu Hsn. assert (Hn : 0 <= n) by lia. unfold Search.
  rewrite (mbind_ok _ _ _ _ _ (p_Rows_ok _ _ _ Ha)). replace (mat_Rows S) with n by (symmetry; apply Hd).
  rewrite newDenseVector_spec, mbind_lift by auto. rewrite (mbind_ok _ _ _ _ _ (alloc_ok _ _)).
  set (fr := length (w_heap w)). set (w1 := ext w (MDV (mk_dv n (fun _ : Z => n0)))).
  assert (R1 : reachable w1).
  { replace w1 with (after (KNewDV n) w); [apply reach_call; [exact Hr|exact Logic.I]|]. unfold after, perform, new. rewrite newDenseVector_spec by auto. reflexivity. }
  assert (O1 : obj w1 fr (MDV (mk_dv n (fun _ : Z => n0)))) by apply obj_ext_new.
  set (st := fun i : Z => if i =? s then n1 else n0 : V).
  assert (Est : mat_SetVec (MDV (mk_dv n (fun _ : Z => n0))) s n1 = Ok (MDV (mk_dv n st))).
  { unfold mat_SetVec. rewrite dv_SetVec_spec by auto. cbn. do 2 f_equal. }
  assert (E2 : p_SetVec fr s n1 w1 = (upd w1 fr (MDV (mk_dv n st)), Ok tt)).
  { unfold p_SetVec. rewrite (load_lift _ _ _ (fun m => mat_SetVec m s n1) _ _ O1 Est). reflexivity. }
  rewrite (mbind_ok _ _ _ _ _ E2). set (w2 := upd w1 fr (MDV (mk_dv n st))) in *.
  assert (R2 : reachable w2) by (eapply (reach_run w1 _ (KSetVec fr s n1)); [exact R1|exact Logic.I| |exact E2]; reflexivity).
  assert (O2 : obj w2 fr (MDV (mk_dv n st))) by (eapply obj_upd_eq; eauto).
  assert (Ffr : forall x, ~ obj w fr x) by (intros x Hx; apply obj_lt in Hx; unfold fr in Hx; lia).
  assert (X2 : extends w w2).
  { intros p x Hp. apply obj_upd_neq; [intros ->; exact (Ffr _ Hp)|]. apply extends_ext, Hp. }
  destruct (step_Copy w2 fr _ Hs R2 O2) as (w3 & vi & He3 & R3 & Fv & X3 & O3).
  assert (Ew3 : w_polls w3 = w_polls w).
  { pose proof (p_Copy_ok fr w2 _ O2 (reach_good _ _ _ Hs R2 O2)) as Ec3. rewrite He3 in Ec3. injection Ec3 as -> _. reflexivity. }
  rewrite (mbind_ok _ _ _ _ _ He3). rewrite mbind_lift. rewrite (mbind_ok _ _ _ _ _ (alloc_ok _ _)).
  set (re := length (w_heap w3)). set (w4 := ext w3 (MDV (mk_dv n (fun _ : Z => n0)))).
  assert (R4 : reachable w4).
  { replace w4 with (after (KNewDV n) w3); [apply reach_call; [exact R3|exact Logic.I]|]. unfold after, perform, new. rewrite newDenseVector_spec by auto. reflexivity. }
  assert (Fre : forall x, ~ obj w3 re x) by (intros x Hx; apply obj_lt in Hx; unfold re in Hx; lia).
  destruct (search_loop_cut E w w a S n f s c Hs Ha Hd Hfu ltac:(lia) (Z.to_nat n) 0 w4 fr vi re st st R4) as
    (w' & tr & He & Hr' & Hx' & Hlen & Htr & Hno & Hend).
  { intros p x Hp. apply extends_ext, X3, X2, Hp. }
  { intros x Hx. exact (Fv _ (X2 _ _ Hx)). }
  { intros x Hx. exact (Fre _ (X3 _ _ (X2 _ _ Hx))). }
  { intros E0. rewrite E0 in O3. exact (Fre _ O3). }
  { intros E0. pose proof (X3 _ _ O2) as O2'. rewrite E0 in O2'. exact (Fre _ O2'). }
  { apply extends_ext, X3, O2. }
  { apply extends_ext, O3. }
  { apply obj_ext_new. }
  { left. split; [|split; reflexivity]. unfold running. change (w_polls w4) with (w_polls w3). rewrite Ew3. destruct (e_ctx E); [split|]; auto with arith. }
  rewrite (mbind_ok _ _ _ _ _ He).
  assert (Htr' : forall e v, nth_error tr e = Some v -> vdenotes v n (fun i => if in_time E w (asked n (Datatypes.S e) i) then level (seen_graph S n f) n s (Datatypes.S e) i else n0)).
  { intros e v Hv. assert (He0 : (e < length tr)%nat) by (apply nth_error_Some; congruence).
    rewrite (Htr e He0) in Hv. injection Hv as <-. apply vdenotes_dv. exact Hn. }
  assert (Hacc : forall e v, nth_error tr e = Some v -> c (Datatypes.S e) v = true -> length tr = Datatypes.S e).
  { intros e v Hv Hcv. assert (He0 : (e < length tr)%nat) by (apply nth_error_Some; congruence).
    destruct (Nat.eq_dec (length tr) (Datatypes.S e)) as [|Hne]; [auto|]. pose proof (Hno e v ltac:(lia) Hv) as Hf. cbn in Hf. congruence. }
  assert (Fq : forall x, ~ obj w re x) by (intros x Hx; exact (Fre _ (X3 _ _ (X2 _ _ Hx)))).
  destruct Hend as [(e & v & L & Hv & Hcv & Ho)|(L & Hall & Ho)].
  - exists w', re, v, tr. split; [reflexivity|]. split; [exact Hx'|]. split; [exact Fq|]. split; [exact Ho|].
    split; [exact Hlen|]. split; [exact Htr'|]. split; [exact Hacc|]. left. exists e, v. auto.
  - exists w', re, (MDV (mk_dv n (fun _ => n0))), tr. split; [reflexivity|]. split; [exact Hx'|]. split; [exact Fq|]. split; [exact Ho|].
    split; [exact Hlen|]. split; [exact Htr'|]. split; [exact Hacc|]. right. split; [exact L|]. split; [exact Hall|]. apply vdenotes_dv. exact Hn.
Qed.

End Cut.

(** ** Theorems *)
Lemma cut_seen N E (w : world N) (a : ptr) S n f s c : sane N -> counting N -> n <= Z.of_nat (e_fuel E) ->
  reachable w -> obj w a S -> denotes S n n f -> 0 <= s < n ->
  (forall i j, 0 <= i < n -> 0 <= j < n -> weight (seen_graph S n f i j)) ->
  exists w' q res tr, Search E a s c w = (w', Ok (q, tr)) /\ extends w w' /\ (forall x, ~ obj w q x) /\ obj w' q res /\
    finds n (is_level_until E w (seen_graph S n f) n s) c tr res.
Proof.
  intros Hs Hct Hfu Hr Ha Hd Hsn Hw.
  destruct (search_cut E w a S n f s c Hs Hr Ha Hd Hfu Hsn) as (w' & q & res & tr & H1 & H2 & H3 & H4 & H5).
  exists w', q, res, tr. do 4 (split; [assumption|]). eapply outcome_finds; [exact H5|]. intros d _.
  pose proof Hct as (A & B & C & _). assert (L : is_level (seen_graph S n f) n s d (level (seen_graph S n f) n s d)).
  { apply levels_right; auto; [apply Hs|]. intros e _. apply counting_sums; auto. apply Hs. }
  intros i Hi. cbn beta. destruct (in_time E w (asked n d i)); [exact (L i Hi)|reflexivity].
Qed.
Lemma cut_dense N E (w : world N) (a : ptr) S n f s c : sane N -> counting N -> n <= Z.of_nat (e_fuel E) ->
  reachable w -> obj w a S -> is_dense S -> denotes S n n f -> 0 <= s < n ->
  (forall i j, 0 <= i < n -> 0 <= j < n -> weight (f i j)) ->
  exists w' q res tr, Search E a s c w = (w', Ok (q, tr)) /\ extends w w' /\ (forall x, ~ obj w q x) /\ obj w' q res /\
    finds n (is_level_until E w f n s) c tr res.
Proof.
  intros Hs Hct Hfu Hr Ha Hp Hd Hsn Hw.
  destruct (cut_seen N E w a S n f s c Hs Hct Hfu Hr Ha Hd Hsn) as (w' & q & res & tr & H1 & H2 & H3 & H4 & (F1 & F2 & F3)).
  { intros i j Hi Hj. rewrite seen_dense by auto. auto. }
  exists w', q, res, tr. do 4 (split; [assumption|]). split; [exact F1|]. split; [|exact F3].
  intros e v Hv. destruct (F2 e v Hv) as (g & G1 & G2). exists g. split; [exact G1|]. intros i Hi. specialize (G2 i Hi).
  destruct (in_time E w (asked n (Datatypes.S e) i)); [|exact G2].
  rewrite <- (at_distance_ext _ _ s (Datatypes.S e) i (edge_ext (seen_graph S n f) f n ltac:(intros; apply seen_dense; auto))). exact G2.
Qed.
