(** What breadth-first search computes. *)
From Verif Require Import GoBase Num SparseVec Csr Csc DenseVec DenseMat Mat World Ops Api MathOps Bfs.
From Verif Require Import BaseProofs CsrProofs SvProofs DenseProofs MatProofs Spec HeapProofs ReachProofs StoreProofs VecProofs StoreThms OpsProofs OpsThms EwThms EqThms MethThms OpsProps Steps.

(** ** Specification: graphs and levels *)

(** [walk edge s d i]: there is a walk of [d] edges from [s] to [i] *)
Inductive walk (edge : Z -> Z -> Prop) (s : Z) : nat -> Z -> Prop :=
| walk_here : walk edge s O s
| walk_step d j i : walk edge s d j -> edge j i -> walk edge s (S d) i.

(** the shortest walk from [s] to [i] has [d] edges *)
Definition at_distance (edge : Z -> Z -> Prop) (s : Z) (d : nat) (i : Z) : Prop :=
  walk edge s d i /\ forall e, (e < d)%nat -> ~ walk edge s e i.

Section Levels.
Context {N : num}.
Notation V := (T N).

(** edge from [j] to [i]: the cell in row [i], column [j] is positive *)
Definition edge (a : Z -> Z -> V) (n : Z) (j i : Z) : Prop :=
  0 <= i < n /\ 0 <= j < n /\ ngtb (a i j) n0 = true.

(** zero or positive *)
Definition weight (v : V) : Prop := v = n0 \/ ngtb v n0 = true.

(** the levels as the element type's arithmetic gives them: (what is marked as
    visited, the level) *)
Fixpoint bfs_at (a : Z -> Z -> V) (n s : Z) (d : nat) : (Z -> V) * (Z -> V) :=
  match d with
  | O => let start := fun i => if i =? s then n1 else n0 in (start, start)
  | S d' =>
      let '(visited, level) := bfs_at a n s d' in
      let next i := if ngtb (visited i) n0 then n0 else sum_from n0 (fun l => nmul (a i l) (level l)) 0 n in
      (fun i => if neqb (next i) n0 then visited i else next i, next)
  end.
Definition level (a : Z -> Z -> V) n s d : Z -> V := snd (bfs_at a n s d).
Definition marked (a : Z -> Z -> V) n s d : Z -> V := fst (bfs_at a n s d).

Lemma level_S a n s d i : level a n s (S d) i =
  if ngtb (marked a n s d i) n0 then n0 else sum_from n0 (fun l => nmul (a i l) (level a n s d l)) 0 n.
Proof. unfold level, marked. cbn [bfs_at]. destruct (bfs_at a n s d). reflexivity. Qed.
Lemma marked_S a n s d i : marked a n s (S d) i = if neqb (level a n s (S d) i) n0 then marked a n s d i else level a n s (S d) i.
Proof. unfold level, marked. cbn [bfs_at]. destruct (bfs_at a n s d). reflexivity. Qed.
End Levels.

(** ** The run *)
Section Run.
Context {N : num}.
Notation V := (T N).
Notation mat := (mat N).
Notation world := (world N).
Implicit Types w : world.

Lemma denotes_dv n (f : Z -> V) : 0 <= n -> denotes (MDV (mk_dv n f)) n 1 (fun i _ => f i).
Proof.
  intros Hn. split; [reflexivity|]. split; [reflexivity|]. intros i j Hi Hj. unfold mat_At, dv_At.
  rewrite dv_AtVec_spec by auto. reflexivity.
Qed.
Lemma dv_denoted (m : mat) n d0 f : wf m -> same_storage (MDV d0) m -> denotes m n 1 f -> m = MDV (mk_dv n (fun i => f i 0)).
Proof.
  intros Hw Hs (ER & _ & Hd). destruct m; simpl in Hs; try contradiction. destruct Hw as (L & g & -> & HL).
  change (L = n) in ER. subst L. f_equal. apply mk_dv_ext. intros i Hi.
  specialize (Hd i 0 Hi ltac:(lia)). unfold mat_At, dv_At in Hd. rewrite dv_AtVec_spec in Hd by auto. cbn in Hd. congruence.
Qed.
Lemma covers_dv w p n (f : Z -> V) i j : obj w p (MDV (mk_dv n f)) -> 0 <= i < n -> covers w (MObj p) i j = ngtb (f i) n0.
Proof.
  intros Ho Hi. unfold covers, obj in *. rewrite Ho. unfold mat_At, dv_At. rewrite dv_AtVec_spec by auto. reflexivity.
Qed.
Lemma reach_run {A} w (x : M N A) k w' a : reachable w -> allowed w k -> (forall w, fst (perform k w) = fst (x w)) -> x w = (w', Ok a) -> reachable w'.
Proof.
  intros Hr Ha Hp E. replace w' with (after k w); [apply reach_call; auto|].
  unfold after. rewrite Hp, E. reflexivity.
Qed.

(** the graph that the product's row and column accesses show *)
Definition seen_graph (S : mat) (n : Z) (f : Z -> Z -> V) : Z -> Z -> V := fun i l => shown S n (f i) l.

Lemma search_loop_run E w0 a S n f s c : sane N -> e_ctx E = None -> obj w0 a S -> denotes S n n f -> n <= Z.of_nat (e_fuel E) -> 0 <= n ->
  forall k d w frontier visited result lev vis,
  reachable w -> extends w0 w -> (forall x, ~ obj w0 visited x) -> (forall x, ~ obj w0 result x) -> visited <> result -> frontier <> result ->
  obj w frontier (MDV (mk_dv n lev)) -> obj w visited (MDV (mk_dv n vis)) -> obj w result (MDV (mk_dv n (fun _ => n0))) ->
  (forall i, 0 <= i < n -> lev i = level (seen_graph S n f) n s d i) -> (forall i, 0 <= i < n -> vis i = marked (seen_graph S n f) n s d i) ->
  exists w' tr, search_loop E a c visited result k (Datatypes.S d) frontier w = (w', Ok tr) /\ reachable w' /\ extends w0 w' /\
    (length tr <= k)%nat /\
    (forall e, (e < length tr)%nat -> nth_error tr e = Some (MDV (mk_dv n (level (seen_graph S n f) n s (d + Datatypes.S e))))) /\
    (forall e v, (Datatypes.S e < length tr)%nat -> nth_error tr e = Some v -> c (d + Datatypes.S e)%nat v = false) /\
    ((exists e v, length tr = Datatypes.S e /\ nth_error tr e = Some v /\ c (d + Datatypes.S e)%nat v = true /\ obj w' result v) \/
     (length tr = k /\ (forall e v, nth_error tr e = Some v -> c (d + Datatypes.S e)%nat v = false) /\ obj w' result (MDV (mk_dv n (fun _ => n0))))).
Proof.
  intros Hs Hc Ha Hd Hfu Hn. set (A := seen_graph S n f).
  induction k as [|k IH]; intros d w frontier visited result lev vis Hr Hx Fv Fr Nvr Nfr Of Ov Or Hl Hv.
  { exists w, []. cbn [search_loop]. split; [reflexivity|]. split; [exact Hr|]. split; [exact Hx|]. split; [cbn; lia|].
    split; [intros e He; cbn in He; lia|]. split; [intros e v He; cbn in He; lia|]. right. split; [reflexivity|]. split; [|exact Or].
    intros e v He. destruct e; discriminate. }
  assert (Nar : a <> result) by (intros ->; exact (Fr _ Ha)).
  assert (Nav : a <> visited) by (intros ->; exact (Fv _ Ha)).
  cbn [search_loop].
  (* the product *)
  destruct (mul_exact E w a frontier (MObj visited) result S _ _ n n 1 f _ _ Hs Hr (Hx _ _ Ha) Of Or Logic.I Hd (denotes_dv n lev Hn) (denotes_dv n _ Hn)
    (ex_intro _ _ (conj Ov (conj eq_refl eq_refl))) Nar Nfr Hc) as (w1 & O1 & _ & He1 & Hx1 & Ho1 & Hs1 & Hd1).
  assert (Hr1 : reachable w1) by (eapply (reach_run w _ (KMultiply E a frontier (MObj visited) result)); [exact Hr|exact Logic.I| |exact He1]; reflexivity).
  rewrite (mbind_ok _ _ _ _ _ He1). rewrite (mbind_ok _ _ _ _ _ (load_ok _ _ _ Ho1)).
  assert (E1 : O1 = MDV (mk_dv n (level A n s (Datatypes.S d)))).
  { rewrite (dv_denoted O1 n _ _ (reach_good _ _ _ Hs Hr1 Ho1) Hs1 Hd1). f_equal. apply mk_dv_ext. intros i Hi. cbn beta.
    rewrite (covers_dv w visited n vis i 0 Ov Hi), level_S, Hv by auto. destruct (ngtb _ n0); [reflexivity|].
    cbn [kept]. unfold exactly. apply sum_from_ext. intros l Hll. cbn [shown]. rewrite Hl by lia. reflexivity. }
  subst O1. set (L1 := MDV (mk_dv n (level A n s (Datatypes.S d)))) in *.
  assert (Hx01 : extends w0 w1) by (intros p x Hp; apply Hx1; [intros ->; exact (Fr _ Hp)|apply Hx; exact Hp]).
  replace (d + 1)%nat with (Datatypes.S d) by lia.
  destruct (c (Datatypes.S d) L1) eqn:Ec.
  { exists w1, [L1]. split; [reflexivity|]. split; [exact Hr1|]. split; [exact Hx01|]. split; [cbn; lia|]. split.
    { intros e He. cbn in He. replace e with O by lia. replace (d + 1)%nat with (Datatypes.S d) by lia. reflexivity. }
    split; [intros e v He; cbn in He; lia|]. left. exists O, L1. replace (d + 1)%nat with (Datatypes.S d) by lia. auto. }
  (* visited grows *)
  assert (Ov1 : obj w1 visited (MDV (mk_dv n vis))) by (apply Hx1; auto).
  destruct (ewa_exact E w1 visited result MNil visited _ _ _ n 1 _ _ _ Hs Hr1 Ov1 Ho1 Ov1 Logic.I Logic.I Logic.I
    (denotes_dv n vis Hn) (denotes_dv n _ Hn) (denotes_dv n vis Hn) Logic.I ltac:(discriminate)
    ltac:(change (n <= Z.of_nat (e_fuel E)); lia) ltac:(change (n <= Z.of_nat (e_fuel E)); lia) Hc)
    as (_ & Eq2 & w2 & O2 & He2 & Hx2 & Ho2 & Hs2 & Hd2).
  assert (Hr2 : reachable w2) by (eapply (reach_run w1 _ (KEWVecAdd E visited result MNil visited)); [exact Hr1|exact Logic.I| |rewrite Eq2; exact He2]; reflexivity).
  rewrite (mbind_ok _ _ _ _ _ (eq_trans Eq2 He2)).
  assert (E2 : O2 = MDV (mk_dv n (marked A n s (Datatypes.S d)))).
  { rewrite (dv_denoted O2 n _ _ (reach_good _ _ _ Hs Hr2 Ho2) Hs2 Hd2). f_equal. apply mk_dv_ext. intros i Hi. cbn beta.
    cbn [covers]. rewrite marked_S, Nat.eqb_refl. replace (Nat.eqb result visited) with false by (symmetry; apply Nat.eqb_neq; auto).
    cbn [negb andb]. rewrite !Bool.andb_false_r, Bool.andb_true_r. destruct (neqb (level A n s (Datatypes.S d) i) n0); cbn [negb]; [apply Hv; auto|reflexivity]. }
  subst O2.
  assert (Hx02 : extends w0 w2) by (intros p x Hp; apply Hx2; [intros ->; exact (Fv _ Hp)|apply Hx01; exact Hp]).
  assert (Or2 : obj w2 result L1) by (apply Hx2; auto).
  (* frontier *)
  destruct (step_Copy w2 result L1 Hs Hr2 Or2) as (w3 & q & He3 & Hr3 & Fq & Hx3 & Oq).
  rewrite (mbind_ok _ _ _ _ _ He3).
  (* clear *)
  assert (Or3 := Hx3 _ _ Or2).
  assert (E4 : p_Clear result w3 = (upd w3 result (MDV (mk_dv n (fun _ => n0))), Ok tt)).
  { unfold p_Clear. rewrite (load_lift _ _ _ mat_Clear _ (Ok (MDV (mk_dv n (fun _ => n0)))) Or3); [reflexivity|].
    unfold L1, mat_Clear. rewrite dv_Clear_spec by auto. reflexivity. }
  rewrite (mbind_ok _ _ _ _ _ E4). set (w4 := upd w3 result (MDV (mk_dv n (fun _ => n0)))) in *.
  assert (Hr4 : reachable w4) by (eapply (reach_run w3 _ (KClear result)); [exact Hr3|exact Logic.I| |exact E4]; reflexivity).
  assert (Nqr : q <> result) by (intros ->; exact (Fq _ Or2)).
  assert (Hx04 : extends w0 w4).
  { intros p x Hp. apply obj_upd_neq; [intros ->; exact (Fr _ Hp)|]. apply Hx3, Hx02, Hp. }
  destruct (IH (Datatypes.S d) w4 q visited result (level A n s (Datatypes.S d)) (marked A n s (Datatypes.S d)) Hr4 Hx04 Fv Fr Nvr Nqr) as
    (w' & tr & He & Hr' & Hx' & Hlen & Htr & Hno & Hend).
  { apply obj_upd_neq; auto. }
  { apply obj_upd_neq; auto. }
  { eapply obj_upd_eq; eauto. }
  { auto. }
  { auto. }
  rewrite (mbind_ok _ _ _ _ _ He). exists w', (L1 :: tr). split; [reflexivity|]. split; [exact Hr'|]. split; [exact Hx'|].
  split; [cbn; lia|].
  assert (Arith : forall e, (Datatypes.S d + Datatypes.S e = d + Datatypes.S (Datatypes.S e))%nat) by (intros; lia).
  assert (A1 : (d + 1 = Datatypes.S d)%nat) by lia.
  split; [|split].
  - intros [|e] He0; cbn [nth_error]; [rewrite A1; reflexivity|]. cbn in He0. rewrite <- Arith. apply Htr. lia.
  - intros [|e] v He0; cbn [nth_error]; intros Hv0; [injection Hv0 as <-; rewrite A1; exact Ec|]. cbn in He0. rewrite <- Arith. apply Hno; [lia|exact Hv0].
  - destruct Hend as [(e & v & L & Hn0 & Hc0 & Ho)|(L & Hno' & Ho)].
    + left. exists (Datatypes.S e), v. split; [cbn; congruence|]. split; [exact Hn0|]. split; [rewrite <- Arith; exact Hc0|exact Ho].
    + right. split; [cbn; congruence|]. split; [|exact Ho]. intros [|e] v; cbn [nth_error]; intros Hv0; [injection Hv0 as <-; rewrite A1; exact Ec|].
      rewrite <- Arith. apply Hno'. exact Hv0.
Qed.

(** what a run of Search shows and returns, when the d-th vector shown is to be
    [lv d] *)
Definition search_outcome (n : Z) (lv : nat -> Z -> V) (c : nat -> mat -> bool) (tr : list mat) (res : mat) : Prop :=
  (length tr <= Z.to_nat n)%nat /\
  (forall e v, nth_error tr e = Some v -> vdenotes v n (lv (S e))) /\
  (forall e v, nth_error tr e = Some v -> c (S e) v = true -> length tr = S e) /\
  ((exists e v, length tr = S e /\ nth_error tr e = Some v /\ c (S e) v = true /\ res = v) \/
   (length tr = Z.to_nat n /\ (forall e v, nth_error tr e = Some v -> c (S e) v = false) /\ vdenotes res n (fun _ => n0))).

Lemma search_run E w a S n f s c : sane N -> e_ctx E = None -> reachable w -> obj w a S -> denotes S n n f -> n <= Z.of_nat (e_fuel E) ->
  0 <= s < n ->
  exists w' q res tr, Search E a s c w = (w', Ok (q, tr)) /\ extends w w' /\ (forall x, ~ obj w q x) /\ obj w' q res /\
    search_outcome n (level (seen_graph S n f) n s) c tr res.
Proof.
  intros Hs Hc Hr Ha Hd Hfu Hsn. assert (Hn : 0 <= n) by lia. unfold Search.
  rewrite (mbind_ok _ _ _ _ _ (p_Rows_ok _ _ _ Ha)). replace (mat_Rows S) with n by (symmetry; apply Hd).
  rewrite newDenseVector_spec, mbind_lift by auto. rewrite (mbind_ok _ _ _ _ _ (alloc_ok _ _)).
  set (fr := length (w_heap w)). set (w1 := ext w (MDV (mk_dv n (fun _ : Z => n0)))).
  assert (R1 : reachable w1).
  { replace w1 with (after (KNewDV n) w); [apply reach_call; [exact Hr|exact Logic.I]|]. unfold after, perform, new. rewrite newDenseVector_spec by auto. reflexivity. }
  assert (O1 : obj w1 fr (MDV (mk_dv n (fun _ : Z => n0)))) by apply obj_ext_new.
  set (st := fun i : Z => if i =? s then n1 else n0 : V).
  assert (Est : mat_SetVec (MDV (mk_dv n (fun _ : Z => n0))) s n1 = Ok (MDV (mk_dv n st))).
  { unfold mat_SetVec. rewrite dv_SetVec_spec by auto. cbn. do 2 f_equal. }
  assert (E2 : p_SetVec fr s n1 w1 = (upd w1 fr (MDV (mk_dv n st)), Ok tt)).
  { unfold p_SetVec. rewrite (load_lift _ _ _ (fun m => mat_SetVec m s n1) _ _ O1 Est). reflexivity. }
  rewrite (mbind_ok _ _ _ _ _ E2). set (w2 := upd w1 fr (MDV (mk_dv n st))) in *.
  assert (R2 : reachable w2) by (eapply (reach_run w1 _ (KSetVec fr s n1)); [exact R1|exact Logic.I| |exact E2]; reflexivity).
  assert (O2 : obj w2 fr (MDV (mk_dv n st))) by (eapply obj_upd_eq; eauto).
  assert (Ffr : forall x, ~ obj w fr x) by (intros x Hx; apply obj_lt in Hx; unfold fr in Hx; lia).
  assert (X2 : extends w w2).
  { intros p x Hp. apply obj_upd_neq; [intros ->; exact (Ffr _ Hp)|]. apply extends_ext, Hp. }
  destruct (step_Copy w2 fr _ Hs R2 O2) as (w3 & vi & He3 & R3 & Fv & X3 & O3).
  rewrite (mbind_ok _ _ _ _ _ He3). rewrite mbind_lift. rewrite (mbind_ok _ _ _ _ _ (alloc_ok _ _)).
  set (re := length (w_heap w3)). set (w4 := ext w3 (MDV (mk_dv n (fun _ : Z => n0)))).
  assert (R4 : reachable w4).
  { replace w4 with (after (KNewDV n) w3); [apply reach_call; [exact R3|exact Logic.I]|]. unfold after, perform, new. rewrite newDenseVector_spec by auto. reflexivity. }
  assert (Fre : forall x, ~ obj w3 re x) by (intros x Hx; apply obj_lt in Hx; unfold re in Hx; lia).
  destruct (search_loop_run E w a S n f s c Hs Hc Ha Hd Hfu Hn (Z.to_nat n) 0 w4 fr vi re st st R4) as
    (w' & tr & He & Hr' & Hx' & Hlen & Htr & Hno & Hend).
  { intros p x Hp. apply extends_ext, X3, X2, Hp. }
  { intros x Hx. exact (Fv _ (X2 _ _ Hx)). }
  { intros x Hx. exact (Fre _ (X3 _ _ (X2 _ _ Hx))). }
  { intros E0. rewrite E0 in O3. exact (Fre _ O3). }
  { intros E0. pose proof (X3 _ _ O2) as O2'. rewrite E0 in O2'. exact (Fre _ O2'). }
  { apply extends_ext, X3, O2. }
  { apply extends_ext, O3. }
  { apply obj_ext_new. }
  { reflexivity. }
  { reflexivity. }
  rewrite (mbind_ok _ _ _ _ _ He).
  assert (Htr' : forall e v, nth_error tr e = Some v -> vdenotes v n (level (seen_graph S n f) n s (Datatypes.S e))).
  { intros e v Hv. assert (He0 : (e < length tr)%nat) by (apply nth_error_Some; congruence).
    rewrite (Htr e He0) in Hv. injection Hv as <-. apply vdenotes_dv. exact Hn. }
  assert (Hacc : forall e v, nth_error tr e = Some v -> c (Datatypes.S e) v = true -> length tr = Datatypes.S e).
  { intros e v Hv Hcv. assert (He0 : (e < length tr)%nat) by (apply nth_error_Some; congruence).
    destruct (Nat.eq_dec (length tr) (Datatypes.S e)) as [|Hne]; [auto|]. pose proof (Hno e v ltac:(lia) Hv) as Hf. cbn in Hf. congruence. }
  assert (Fq : forall x, ~ obj w re x) by (intros x Hx; exact (Fre _ (X3 _ _ (X2 _ _ Hx)))).
  destruct Hend as [(e & v & L & Hv & Hcv & Ho)|(L & Hall & Ho)].
  - exists w', re, v, tr. split; [reflexivity|]. split; [exact Hx'|]. split; [exact Fq|]. split; [exact Ho|].
    split; [exact Hlen|]. split; [exact Htr'|]. split; [exact Hacc|]. left. exists e, v. auto.
  - exists w', re, (MDV (mk_dv n (fun _ => n0))), tr. split; [reflexivity|]. split; [exact Hx'|]. split; [exact Fq|]. split; [exact Ho|].
    split; [exact Hlen|]. split; [exact Htr'|]. split; [exact Hacc|]. right. split; [exact L|]. split; [exact Hall|]. apply vdenotes_dv. exact Hn.
Qed.

(** the source must be a vertex, and the matrix square *)
Lemma search_bad_source E w a S s c : sane N -> reachable w -> obj w a S -> ~ (0 <= s < mat_Rows S) ->
  snd (Search E a s c w) = Panic.
Proof.
  intros Hs Hr Ha Hsn. pose proof (wf_dims S (reach_good _ _ _ Hs Hr Ha)) as [Hn _]. unfold Search.
  rewrite (mbind_ok _ _ _ _ _ (p_Rows_ok _ _ _ Ha)).
  rewrite newDenseVector_spec, mbind_lift by auto. rewrite (mbind_ok _ _ _ _ _ (alloc_ok _ _)).
  unfold p_SetVec at 1. unfold mbind at 1. 
  rewrite (load_lift _ _ _ (fun m => mat_SetVec m s n1) _ Panic (obj_ext_new _ _)); [reflexivity|].
  unfold mat_SetVec. rewrite dv_SetVec_panic by auto. reflexivity.
Qed.
Lemma search_not_square E w a S s c : sane N -> reachable w -> obj w a S -> mat_Rows S <> mat_Columns S ->
  snd (Search E a s c w) = Panic.
Proof.
  intros Hs Hr Ha Hne. destruct (Z_le_dec 0 s) as [H0|H0]; [destruct (Z_lt_dec s (mat_Rows S)) as [H1|H1]|]; try (apply (search_bad_source E w a S s c Hs Hr Ha); lia).
  pose proof (wf_dims S (reach_good _ _ _ Hs Hr Ha)) as [Hn _]. set (n := mat_Rows S) in *. unfold Search.
  rewrite (mbind_ok _ _ _ _ _ (p_Rows_ok _ _ _ Ha)). fold n.
  rewrite newDenseVector_spec, mbind_lift by auto. rewrite (mbind_ok _ _ _ _ _ (alloc_ok _ _)).
  set (fr := length (w_heap w)). set (w1 := ext w (MDV (mk_dv n (fun _ : Z => n0)))).
  assert (O1 : obj w1 fr (MDV (mk_dv n (fun _ : Z => n0)))) by apply obj_ext_new.
  set (st := upd1 (fun _ : Z => n0) s n1 : Z -> V).
  assert (Est : mat_SetVec (MDV (mk_dv n (fun _ : Z => n0))) s n1 = Ok (MDV (mk_dv n st))) by (unfold mat_SetVec; rewrite dv_SetVec_spec by lia; reflexivity).
  assert (E2 : p_SetVec fr s n1 w1 = (upd w1 fr (MDV (mk_dv n st)), Ok tt)).
  { unfold p_SetVec. rewrite (load_lift _ _ _ (fun m => mat_SetVec m s n1) _ _ O1 Est). reflexivity. }
  rewrite (mbind_ok _ _ _ _ _ E2). set (w2 := upd w1 fr (MDV (mk_dv n st))) in *.
  assert (O2 : obj w2 fr (MDV (mk_dv n st))) by (eapply obj_upd_eq; eauto).
  assert (E3 : p_Copy fr w2 = (ext w2 (MDV (mk_dv n st)), Ok (length (w_heap w2)))).
  { apply p_Copy_ok; [exact O2|]. exists n, st. auto. }
  rewrite (mbind_ok _ _ _ _ _ E3). rewrite mbind_lift. rewrite (mbind_ok _ _ _ _ _ (alloc_ok _ _)).
  destruct (Z.to_nat n) as [|k] eqn:Ek; [lia|]. cbn [search_loop].
  assert (Oa : obj (ext (ext w2 (MDV (mk_dv n st))) (MDV (mk_dv n (fun _ : Z => n0)))) a S).
  { apply extends_ext, extends_ext, obj_upd_neq; [|apply extends_ext, Ha]. intros ->. apply obj_lt in Ha. unfold fr in Ha. lia. }
  assert (Of : obj (ext (ext w2 (MDV (mk_dv n st))) (MDV (mk_dv n (fun _ : Z => n0)))) fr (MDV (mk_dv n st))) by (apply extends_ext, extends_ext, O2).
  match goal with |- context [MatrixVectorMultiply E a fr ?k ?t] => destruct (mul_mismatch E _ a fr k t S _ Oa Of ltac:(cbn; unfold n in *; congruence)) as [_ Hm] end.
  unfold mbind at 1. unfold mbind at 1. rewrite Hm. reflexivity.
Qed.
End Run.

(** ** Levels are distances *)
Section Distance.
Context {N : num}.
Notation V := (T N).

(** the arithmetic of the run is right about which vertices of level [d+1] are
    reached: a level entry is zero or positive, and positive exactly if an edge
    comes from a vertex of level [d] *)
Definition sums_right (a : Z -> Z -> V) (n s : Z) (d : nat) : Prop :=
  forall i, 0 <= i < n -> let v := sum_from n0 (fun l => nmul (a i l) (level a n s d l)) 0 n in
    ngtb (marked a n s d i) n0 = false ->
    weight v /\ (ngtb v n0 = true <-> exists l, edge a n l i /\ ngtb (level a n s d l) n0 = true).

Lemma walk_range a n s d i : 0 <= s < n -> walk (edge (N:=N) a n) s d i -> 0 <= i < n.
Proof. intros Hs H. destruct H as [|d j i Hw [Hi _]]; auto. Qed.

Lemma levels_distance a n s : 0 <= s < n -> zero_ok N -> ngtb (n0 : V) n0 = false -> ngtb (n1 : V) n0 = true ->
  (forall v : V, ngtb v n0 = true -> neqb v n0 = false) -> forall d,
  (forall e, (e < d)%nat -> sums_right a n s e) ->
  (forall i, 0 <= i < n -> weight (level a n s d i) /\ (ngtb (level a n s d i) n0 = true <-> at_distance (edge a n) s d i)) /\
  (forall i, 0 <= i < n -> weight (marked a n s d i) /\ (ngtb (marked a n s d i) n0 = true <-> exists e, (e <= d)%nat /\ walk (edge a n) s e i)).
Proof.
  intros Hsn Hz H00 H10 Hne. induction d as [|d IH]; intros Hsum.
  { assert (K : forall i, weight (if i =? s then n1 else n0 : V) /\ (ngtb (if i =? s then n1 else n0 : V) n0 = true <-> i = s)).
    { intros i. destruct (i =? s) eqn:E; split; [right; auto| |left; auto|]; split; intros; try lia; try congruence; auto. }
    split; intros i Hi; destruct (K i) as [W K2]; (split; [exact W|]); etransitivity; try exact K2; split.
    - intros ->. split; [constructor|]. intros e He. lia.
    - intros [H _]. inversion H. reflexivity.
    - intros ->. exists O. split; [lia|constructor].
    - intros (e & He & H). replace e with O in H by lia. inversion H. reflexivity. }
  destruct IH as [IL IM]; [intros e He; apply Hsum; lia|].
  assert (HL : forall i, 0 <= i < n -> weight (level a n s (S d) i) /\ (ngtb (level a n s (S d) i) n0 = true <-> at_distance (edge a n) s (S d) i)).
  { intros i Hi. rewrite level_S. destruct (IM i Hi) as [_ HM]. destruct (ngtb (marked a n s d i) n0) eqn:Em.
    - split; [left; reflexivity|]. rewrite H00. split; [discriminate|]. intros [_ Hno]. destruct (proj1 HM eq_refl) as (e & He & Hw).
      exfalso. apply (Hno e); [lia|exact Hw].
    - destruct (Hsum d (Nat.lt_succ_diag_r d) i Hi Em) as [Hw Hp]. split; [exact Hw|]. rewrite Hp. split.
      + intros (l & He & Hl). apply (proj2 (IL l ltac:(apply He))) in Hl. split; [econstructor; [apply Hl|exact He]|].
        intros e Hed Hwk. assert (ngtb (marked a n s d i) n0 = true) by (apply (IM i Hi); exists e; split; [lia|exact Hwk]). congruence.
      + intros [Hwk Hno]. inversion Hwk as [|d' j i' Hwj Hej]; subst. exists j. split; [exact Hej|].
        apply (IL j ltac:(apply Hej)). split; [exact Hwj|]. intros e He Hwe. apply (Hno (S e)); [lia|]. econstructor; eauto. }
  split; [exact HL|]. intros i Hi. destruct (HL i Hi) as [W L]. destruct (IM i Hi) as [WM HM]. rewrite marked_S.
  destruct (neqb (level a n s (S d) i) n0) eqn:En.
  - split; [exact WM|]. rewrite HM. split; [intros (e & He & Hw); exists e; split; [lia|exact Hw]|].
    intros (e & He & Hw). destruct (Nat.eq_dec e (S d)) as [->|]; [|exists e; split; [lia|exact Hw]].
    destruct (ngtb (marked a n s d i) n0) eqn:Em; [apply HM; reflexivity|].
    assert (Hd : ngtb (level a n s (S d) i) n0 = true).
    { apply L. split; [exact Hw|]. intros e He' Hwe. assert (false = true) by (apply HM; exists e; split; [lia|exact Hwe]). discriminate. }
    rewrite (Hne _ Hd) in En. discriminate.
  - split; [exact W|]. rewrite L. split; [intros [H _]; exists (S d); split; [lia|exact H]|].
    intros (e & He & Hw). destruct W as [W0|Wp]; [rewrite W0, Hz in En; discriminate|]. apply L. exact Wp.
Qed.

(** exact arithmetic on weights *)
Definition counting (N : num) : Prop :=
  ngtb (n0 : T N) n0 = false /\ ngtb (n1 : T N) n0 = true /\
  (forall v : T N, ngtb v n0 = true -> neqb v n0 = false) /\
  (forall x y : T N, weight x -> weight y -> weight (nadd x y) /\ ngtb (nadd x y) n0 = ngtb x n0 || ngtb y n0) /\
  (forall x y : T N, weight x -> weight y -> weight (nmul x y) /\ ngtb (nmul x y) n0 = ngtb x n0 && ngtb y n0).

Lemma sum_weight (g : Z -> V) n : counting N -> 0 <= n -> (forall l, 0 <= l < n -> weight (g l)) ->
  weight (sum_from n0 g 0 n) /\ (ngtb (sum_from n0 g 0 n) n0 = true <-> exists l, 0 <= l < n /\ ngtb (g l) n0 = true).
Proof.
  intros (H00 & _ & _ & Hadd & _) Hn Hg. unfold sum_from.
  assert (K : forall L acc, weight acc -> (forall l, In l L -> weight (g l)) ->
    weight (fold_left (fun s l => nadd s (g l)) L acc) /\
    (ngtb (fold_left (fun s l => nadd s (g l)) L acc) n0 = true <-> ngtb acc n0 = true \/ exists l, In l L /\ ngtb (g l) n0 = true)).
  { induction L as [|x L IH]; intros acc Ha HL; cbn [fold_left].
    - split; [exact Ha|]. split; [auto|]. intros [H|(l & [] & _)]. exact H.
    - destruct (Hadd acc (g x) Ha (HL x (or_introl eq_refl))) as [W E].
      destruct (IH (nadd acc (g x)) W ltac:(intros; apply HL; right; auto)) as [W' E']. split; [exact W'|]. rewrite E', E, Bool.orb_true_iff.
      split; [intros [[H|H]|(l & Hl & H)]; eauto; right; [exists x|exists l]; cbn; auto|].
      intros [H|(l & [->|Hl] & H)]; auto. right. exists l. auto. }
  destruct (K (zrange 0 n) n0 (or_introl eq_refl)) as [W E].
  { intros l Hl. apply in_zrange in Hl. auto. }
  split; [exact W|]. rewrite E, H00. split; [intros [H|(l & Hl & H)]; [discriminate|]; apply in_zrange in Hl; eauto|].
  intros (l & Hl & H). right. exists l. split; [apply in_zrange; auto|auto].
Qed.

Lemma counting_sums a n s : counting N -> zero_ok N -> 0 <= s < n -> (forall i j, 0 <= i < n -> 0 <= j < n -> weight (a i j)) ->
  forall d, sums_right a n s d.
Proof.
  intros Hc Hz Hsn Ha d. induction d as [d IH] using lt_wf_ind. pose proof Hc as (H00 & H10 & Hne & _ & Hmul).
  destruct (levels_distance a n s Hsn Hz H00 H10 Hne d IH) as [HL _].
  intros i Hi v _. unfold v. destruct (sum_weight (fun l => nmul (a i l) (level a n s d l)) n Hc ltac:(lia)) as [W E].
  { intros l Hl. apply Hmul; [apply Ha; auto|apply HL; auto]. }
  split; [exact W|]. rewrite E. split.
  - intros (l & Hl & H). destruct (Hmul (a i l) (level a n s d l) (Ha i l Hi Hl) (proj1 (HL l Hl))) as [_ Em]. rewrite Em in H.
    apply andb_prop in H. exists l. split; [repeat split; try lia; apply H|apply H].
  - intros (l & (Hii & Hl & He) & H). exists l. split; [exact Hl|].
    destruct (Hmul (a i l) (level a n s d l) (Ha i l Hi Hl) (proj1 (HL l Hl))) as [_ Em]. rewrite Em, He, H. reflexivity.
Qed.

(** in exact arithmetic a level is positive exactly at the vertices at its
    distance, and zero elsewhere *)
Definition is_level (a : Z -> Z -> V) (n s : Z) (d : nat) (v : Z -> V) : Prop :=
  forall i, 0 <= i < n -> (at_distance (edge a n) s d i -> ngtb (v i) n0 = true) /\ (~ at_distance (edge a n) s d i -> v i = n0).

Lemma levels_right a n s : zero_ok N -> ngtb (n0 : V) n0 = false -> ngtb (n1 : V) n0 = true ->
  (forall v : V, ngtb v n0 = true -> neqb v n0 = false) -> 0 <= s < n ->
  forall d, (forall e, (e < d)%nat -> sums_right a n s e) -> is_level a n s d (level a n s d).
Proof.
  intros Hz H00 H10 Hne Hsn d H i Hi. destruct (levels_distance a n s Hsn Hz H00 H10 Hne d H) as [HL _].
  destruct (HL i Hi) as [W E]. split; [apply E|]. intros Hno. destruct W as [W|W]; [exact W|]. exfalso. apply Hno, E, W.
Qed.
End Distance.
