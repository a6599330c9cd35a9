(** [Negative] and [Apply] in place with a matrix of the caller's. *)
From Verif Require Import GoBase Num SparseVec Csr Csc DenseVec DenseMat Mat World Ops Spec Api.
From Verif Require Import BaseProofs HeapProofs ApplyMem ApplyMemThms MaskMem Foreign Sink SinkThms SinkLib Shared SharedThms Inplace.
Import ListNotations.

Section InplaceThms.
Context {N : num} {St : Type}.
Notation V := (T N).
Notation world := (world N).
Notation smask := (smask St).
Notation thing := (thing St).
Notation MS := (@MS N St).
Notation callback := (callback N St).
Notation walker := (walker N St).
Implicit Types w : world.

Lemma told_neg (q : smask) : forall r c v st, neg_function (N := N) q r c v st = as_told q keep negate r c v st.
Proof. intros r c v st. unfold neg_function, as_told, keep, negate. destruct (sm_Element q st r c) as [st' [[]| |]]; reflexivity. Qed.
Lemma told_apply (q : smask) (u : @unary N St) : forall r c v st, apply_function q u r c v st = as_told q u keep r c v st.
Proof. intros r c v st. unfold apply_function, as_told, keep. destruct (sm_Element q st r c) as [st' [[]| |]]; reflexivity. Qed.

Lemma rounds_did E w (f : callback) : forall l : list (callback -> thing), did E 1 w (fun rd : callback -> thing => [rd f]) (wk_loop E l f) l.
Proof.
  induction l as [|rd l IH]; cbn [wk_loop]; [apply did_nil|]. change (rd :: l) with ([rd] ++ l).
  eapply did_ext; [apply (did_seq E 1 w (fun rd : callback -> thing => [rd f]) (let$ d := slift (poll E) in if d : bool then sret (Some tt) else let$ _ := wk_Map rd f in sret None) (wk_loop E l f))|].
  - assert (Hb : forall st w1, (let$ _ := wk_Map rd f in sret None) st w1 = (fst (all_of [rd f] st), w1, match snd (all_of [rd f] st) with Ok _ => Ok (@None unit) | Panic => Panic | Diverge => Diverge end)).
    { intros st w1. rewrite all_one. unfold sbind, wk_Map. destruct (rd f st) as [st' [[]| |]]; reflexivity. }
    apply did_one. intros st w1 Hw. destruct (poll_heap E w1) as (w2 & b & Hp & Hw2 & _). exists w2. split; [congruence|]. rewrite (sbind_lift _ _ _ _ _ _ Hp).
    unfold poll in Hp. destruct (e_ctx E) as [k|] eqn:Ek.
    + injection Hp as <- Hb'. destruct b.
      * left. split; [reflexivity|]. exists k. split; [reflexivity|]. apply Nat.leb_le in Hb'. lia.
      * right. split; [apply Hb|]. apply Nat.leb_gt in Hb'. right. cbn [w_polls]. lia.
    + injection Hp as <- <-. right. split; [apply Hb|exact Logic.I].
  - exact IH.
  - intros st w1 _. unfold sbind. destruct (slift (poll E) st w1) as [[st1 w2] [[]| |]]; try reflexivity. destruct (wk_Map rd f st1 w2) as [[st2 w3] [[]| |]]; reflexivity.
Qed.
Lemma check_bind {A} q (out : walker) (F : unit -> MS A) st w : wk_fits q out -> sbind (wk_check q out) F st w = F tt st w.
Proof. intros [E1 E2]. unfold sbind, wk_check. rewrite E1, E2, !Z.eqb_refl. reflexivity. Qed.
Lemma inplace_run E w q (out : walker) (f : callback) (op : MS unit) st : wk_fits q out ->
  (forall st, op st w = (let$ _ := wk_check q out in let$ _ := wk_loop E (wk_rounds out) f in sret tt) st w) ->
  amounts_to op st w (map (fun rd => rd f) (reached_n 1 E w (wk_rounds out))).
Proof.
  intros Hk Hop. eapply (did_amounts E 1 w (fun rd : callback -> thing => [rd f])); [apply rounds_did| |].
  - intros st1. rewrite Hop, check_bind by exact Hk. reflexivity.
  - induction (reached_n 1 E w (wk_rounds out)) as [|x l IH]; [reflexivity|]. cbn [flat_map map app]. rewrite IH. reflexivity.
Qed.
Lemma negative_own E w (q : smask) (out : walker) st : wk_fits q out ->
  exists f, (forall r c v st, f r c v st = as_told q keep negate r c v st) /\ amounts_to (NegativeW E q out) st w (map (fun rd => rd f) (reached_n 1 E w (wk_rounds out))).
Proof. intros Hk. exists (neg_function q). split; [apply told_neg|]. apply (inplace_run E w q out); [exact Hk|reflexivity]. Qed.
Lemma apply_own E w (q : smask) (u : @unary N St) (out : walker) st : wk_fits q out ->
  exists f, (forall r c v st, f r c v st = as_told q u keep r c v st) /\ amounts_to (ApplyW E q u out) st w (map (fun rd => rd f) (reached_n 1 E w (wk_rounds out))).
Proof. intros Hk. exists (apply_function q u). split; [apply told_apply|]. apply (inplace_run E w q out); [exact Hk|reflexivity]. Qed.
Lemma inplace_sizes E w (q : smask) (u : @unary N St) (out : walker) st : sm_Rows q <> wk_Rows out \/ sm_Columns q <> wk_Columns out ->
  NegativeW E q out st w = (st, w, Panic) /\ ApplyW E q u out st w = (st, w, Panic).
Proof.
  intros H. assert (Hc : wk_check q out st w = (st, w, Panic)).
  { unfold wk_check. destruct (Z.eqb_spec (sm_Rows q) (wk_Rows out)); [|reflexivity]. destruct (Z.eqb_spec (sm_Columns q) (wk_Columns out)); [|reflexivity]. destruct H; congruence. }
  unfold NegativeW, ApplyW, sbind. rewrite Hc. auto.
Qed.
End InplaceThms.

Section Tables.
Context {N : num}.
Notation table := (table N).
Lemma visits_all (f : callback N table) (g : Z -> Z -> T N -> T N) : (forall r c v st, f r c v st = (st, Ok (g r c v))) ->
  forall (ps : list (Z * Z)) (st : table), NoDup ps ->
  exists st', all_of (map (fun rd => rd f) (map visit ps)) st = (st', Ok tt) /\
    forall i j, st' i j = if existsb (fun p => (i =? fst p) && (j =? snd p)) ps then g i j (st i j) else st i j.
Proof.
  intros Hf. induction ps as [|[r c] ps IH]; intros st Hd; [exists st; auto|]. inversion Hd as [|x l Hn Hd']; subst.
  cbn [map all_of]. unfold visit at 1. rewrite Hf. cbn [andthen].
  destruct (IH (fun i j => if (i =? r) && (j =? c) then g r c (st r c) else st i j) Hd') as (st' & E1 & H1). exists st'. split; [exact E1|].
  intros i j. rewrite H1. cbn [existsb fst snd]. destruct ((i =? r) && (j =? c)) eqn:Eq; [|reflexivity]. cbn [orb].
  apply andb_true_iff in Eq as [E2 E3]. apply Z.eqb_eq in E2, E3. subst i j.
  destruct (existsb (fun p => (r =? fst p) && (c =? snd p)) ps) eqn:Ex; [|reflexivity]. exfalso. apply existsb_exists in Ex as ([a b] & Hi & Hq).
  cbn [fst snd] in Hq. apply andb_true_iff in Hq as [E2 E3]. apply Z.eqb_eq in E2, E3. subst a b. contradiction.
Qed.
Lemma firstn_NoDup {A} (l : list A) : NoDup l -> forall n, NoDup (firstn n l).
Proof.
  intros H n. rewrite <- (firstn_skipn n l) in H. revert H. induction (firstn n l) as [|x k IH]; intros H; [constructor|]. cbn [app] in H. inversion H as [|y z H1 H2]; subst.
  constructor; [|auto]. intros Hi. apply H1. apply in_or_app. auto.
Qed.
Lemma reached_map {A B} n E (w : world N) (f : A -> B) l : reached_n n E w (map f l) = map f (reached_n n E w l).
Proof. unfold reached_n. destruct (e_ctx E); [|reflexivity]. destruct (Nat.eqb n 0); [reflexivity|]. apply firstn_map. Qed.
Lemma tables E (w : world N) R C ps cov (u : T N -> T N) (st : table) : NoDup ps ->
  let met i j := existsb (fun p => (i =? fst p) && (j =? snd p)) (reached_n 1 E w ps) in
  (exists st' w', NegativeW E (covering R C cov) (tabled R C ps) st w = (st', w', Ok tt) /\ w_heap w' = w_heap w /\
    forall i j, st' i j = if met i j && negb (cov i j) then nneg (st i j) else st i j) /\
  (exists st' w', ApplyW E (covering R C cov) (plainly u) (tabled R C ps) st w = (st', w', Ok tt) /\ w_heap w' = w_heap w /\
    forall i j, st' i j = if met i j && cov i j then u (st i j) else st i j).
Proof.
  intros Hd met. assert (Hd' : NoDup (reached_n 1 E w ps)) by (unfold reached_n; destruct (e_ctx E); [apply firstn_NoDup|]; exact Hd).
  assert (Hk : wk_fits (covering (N := N) R C cov) (tabled R C ps)) by (split; reflexivity). split.
  - destruct (negative_own E w _ _ st Hk) as (f & Hf & w' & Ee & Hw). cbn [tabled wk_rounds] in Ee. rewrite reached_map in Ee.
    destruct (visits_all f (fun i j v => if cov i j then v else nneg v)) with (ps := reached_n 1 E w ps) (st := st) as (st' & E1 & H1); [|exact Hd'|].
    { intros r c v s. rewrite Hf. unfold as_told, covering, keep, negate. cbn [sm_Element]. destruct (cov r c); reflexivity. }
    exists st', w'. split; [rewrite Ee; match goal with |- (fst (all_of ?l st), _, _) = _ => assert (Hx : all_of l st = (st', Ok tt)) by exact E1; rewrite Hx; reflexivity end|]. split; [exact Hw|]. intros i j. rewrite H1. fold (met i j). destruct (met i j), (cov i j); reflexivity.
  - destruct (apply_own E w _ (plainly u) _ st Hk) as (f & Hf & w' & Ee & Hw). cbn [tabled wk_rounds] in Ee. rewrite reached_map in Ee.
    destruct (visits_all f (fun i j v => if cov i j then u v else v)) with (ps := reached_n 1 E w ps) (st := st) as (st' & E1 & H1); [|exact Hd'|].
    { intros r c v s. rewrite Hf. unfold as_told, covering, keep, plainly. cbn [sm_Element]. destruct (cov r c); reflexivity. }
    exists st', w'. split; [rewrite Ee; match goal with |- (fst (all_of ?l st), _, _) = _ => assert (Hx : all_of l st = (st', Ok tt)) by exact E1; rewrite Hx; reflexivity end|]. split; [exact Hw|]. intros i j. rewrite H1. fold (met i j). destruct (met i j), (cov i j); reflexivity.
Qed.
End Tables.
