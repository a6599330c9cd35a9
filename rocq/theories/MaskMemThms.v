(** Which questions the operators ask a caller's mask, in which order, and what is left if one of them is not answered. *)
From Coq Require Import String.
From Verif Require Import GoBase Num SparseVec Csr Csc DenseVec DenseMat Mat World Ops Spec Api.
From Verif Require Import BaseProofs MatProofs HeapProofs ReachProofs StoreProofs StoreThms VecProofs OpsThms OpsProps EwThms LoopProofs ApplyMem ApplyMemThms MaskMem MaskMemSim.
Import ListNotations.

Section Asking.
Context {St : Type}.
Variable q : smask St.
Implicit Types l : list qa.

Definition done l : bool := match ending l tt with Ok _ => true | _ => false end.
Lemma ending_done {A B} l (x : A) (y : B) : done l = true -> ending l x = Ok x.
Proof. unfold done. induction l as [|[[r c] [b| |]] l IH]; cbn [ending]; try discriminate; auto. Qed.
Lemma ending_app {A} l1 l2 (x : A) : ending (l1 ++ l2) x = if done l1 then ending l2 x else ending l1 x.
Proof. unfold done. induction l1 as [|[[r c] [b| |]] l IH]; cbn [ending app]; auto. Qed.
Lemma ending_not {A B} l (x : A) (y : B) : done l = false -> (ending l x = Panic /\ ending l y = Panic) \/ (ending l x = Diverge /\ ending l y = Diverge).
Proof. unfold done. induction l as [|[[r c] [b| |]] l IH]; cbn [ending]; try discriminate; auto. Qed.

Lemma ask_app p1 p2 st : ask q st (p1 ++ p2) =
  let '(st1, l1) := ask q st p1 in if done l1 then let '(st2, l2) := ask q st1 p2 in (st2, l1 ++ l2) else (st1, l1).
Proof.
  revert st. induction p1 as [|[r c] p1 IH]; intros st; cbn [ask app].
  - cbn. destruct (ask q st p2); reflexivity.
  - destruct (sm_Element q st r c) as [st1 [b| |]]; try reflexivity. rewrite IH. destruct (ask q st1 p1) as [st2 l1].
    change (done ((r, c, Ok b) :: l1)) with (done l1). destruct (done l1); [|reflexivity]. destruct (ask q st2 p2); reflexivity.
Qed.
Lemma ask_places ps st : incl (map fst (snd (ask q st ps))) ps.
Proof.
  revert st. induction ps as [|[r c] ps IH]; intros st; cbn [ask]; [intros x []|]. destruct (sm_Element q st r c) as [st1 [b| |]]; cbn [snd map fst].
  - specialize (IH st1). destruct (ask q st1 ps) as [st2 l]. cbn [snd map fst] in *. intros x [<-|Hx]; [left; reflexivity|right; apply IH; exact Hx].
  - intros x [<-|[]]. left. reflexivity.
  - intros x [<-|[]]. left. reflexivity.
Qed.
Lemma recorded_app_l l1 l2 r c : ~ In (r, c) (map fst l2) -> recorded (l1 ++ l2) r c = recorded l1 r c.
Proof.
  induction l1 as [|[[a b] x] l1 IH]; intros H; cbn [recorded app].
  - induction l2 as [|[[a b] x] l2 IH]; cbn [recorded]; [reflexivity|]. cbn [map fst] in H. destruct ((a =? r) && (b =? c)) eqn:E.
    + exfalso. apply H. left. f_equal; lia.
    + apply IH. intros Hi. apply H. right. exact Hi.
  - destruct ((a =? r) && (b =? c)); auto.
Qed.
Lemma recorded_app_r l1 l2 r c : ~ In (r, c) (map fst l1) -> recorded (l1 ++ l2) r c = recorded l2 r c.
Proof.
  induction l1 as [|[[a b] x] l1 IH]; intros H; cbn [recorded app]; [reflexivity|]. cbn [map fst] in H. destruct ((a =? r) && (b =? c)) eqn:E.
  - exfalso. apply H. left. f_equal; lia.
  - apply IH. intros Hi. apply H. right. exact Hi.
Qed.
Lemma recorded_none l r c : ~ In (r, c) (map fst l) -> recorded l r c = true.
Proof. intros H. rewrite <- (app_nil_r l). rewrite recorded_app_r by exact H. reflexivity. Qed.
End Asking.

Section MaskMemThms.
Context {N : num} {St : Type}.
Variable q : smask St.
Notation V := (T N).
Notation mat := (mat N).
Notation ent := (Z * Z * V)%type.
Notation world := (world N).
Notation MY := (@MS N St).
Implicit Types w : world.
Notation the f := (MUser (sm_Rows q) (sm_Columns q) f).

(** a piece of program that asks about [ps], from the world [w]: as with the recorded answers; and without any effect if
    everything is covered *)
Definition frag (Inv : world -> Prop) (ps : list (Z * Z)) (X : MY (option unit)) (Y : (Z -> Z -> bool) -> M N (option unit)) w : Prop :=
  forall st, let '(st', l) := ask q st ps in
  (forall f, (forall r c, In (r, c) ps -> f r c = recorded l r c) -> exists w', X st w = (st', w', ending l None) /\ Y f w = (w', Ok None) /\ Inv w') /\
  (forall f, (forall r c, In (r, c) ps -> f r c = true) -> Y f w = (w, Ok None)).

Lemma frag_nil (Inv : world -> Prop) w : Inv w -> frag Inv [] (sret None) (fun _ => mret None) w.
Proof. intros H st. cbn [ask]. split; intros f _; [exists w|]; cbn [ending]; auto. Qed.

Lemma frag_ask (Inv : world -> Prop) r c (post : M N unit) w : Inv w -> (exists w', post w = (w', Ok tt) /\ Inv w') ->
  frag Inv [(r, c)] (sbind (s_Element q r c) (fun e => sbind (if negb e then slift post else sret tt) (fun _ => sret None)))
    (fun f => mbind (mask_Element (the f) r c) (fun e => mbind (if negb e then post else mret tt) (fun _ => mret None))) w.
Proof.
  intros Hi (w' & Hp & Hi') st. cbn [ask]. destruct (sm_Element q st r c) as [st' x] eqn:Ex.
  assert (Cov : forall f : Z -> Z -> bool, f r c = true -> mbind (mask_Element (the f) r c) (fun e => mbind (if negb e then post else mret tt) (fun _ => mret (Some tt))) w = (w, Ok (Some tt))
    /\ mbind (mask_Element (the f) r c) (fun e => mbind (if negb e then post else mret tt) (fun _ => mret (@None unit))) w = (w, Ok None)).
  { intros f Hf. cbn [mask_Element]. unfold mbind, mret. rewrite Hf. split; reflexivity. }
  destruct x as [b| |].
  - split.
    + intros f Hf. specialize (Hf r c (or_introl eq_refl)). cbn [recorded] in Hf. replace ((r =? r) && (c =? c)) with true in Hf by lia.
      cbn [ending]. destruct b.
      * exists w. split; [unfold sbind, s_Element; rewrite Ex; reflexivity|]. split; [apply (Cov f Hf)|exact Hi].
      * exists w'. split; [unfold sbind, s_Element, slift; rewrite Ex; cbn [negb]; rewrite Hp; reflexivity|].
        split; [|exact Hi']. cbn [mask_Element]. unfold mbind, mret. rewrite Hf. cbn [negb]. rewrite Hp. reflexivity.
    + intros f Hf. apply (Cov f). apply Hf. left. reflexivity.
  - split.
    + intros f Hf. specialize (Hf r c (or_introl eq_refl)). cbn [recorded] in Hf. replace ((r =? r) && (c =? c)) with true in Hf by lia.
      exists w. cbn [ending]. split; [unfold sbind, s_Element; rewrite Ex; reflexivity|]. split; [apply (Cov f Hf)|exact Hi].
    + intros f Hf. apply (Cov f). apply Hf. left. reflexivity.
  - split.
    + intros f Hf. specialize (Hf r c (or_introl eq_refl)). cbn [recorded] in Hf. replace ((r =? r) && (c =? c)) with true in Hf by lia.
      exists w. cbn [ending]. split; [unfold sbind, s_Element; rewrite Ex; reflexivity|]. split; [apply (Cov f Hf)|exact Hi].
    + intros f Hf. apply (Cov f). apply Hf. left. reflexivity.
Qed.

Lemma frag_pre {A} (Inv : world -> Prop) ps (pre : M N A) a X Y w : pre w = (w, Ok a) -> frag Inv ps (X a) (fun f => Y f a) w ->
  frag Inv ps (sbind (slift pre) X) (fun f => mbind pre (Y f)) w.
Proof.
  intros Hp H st. specialize (H st). destruct (ask q st ps) as [st' l]. destruct H as [H1 H2]. split.
  - intros f Hf. destruct (H1 f Hf) as (w' & E1 & E2 & Hi). exists w'. rewrite (sbind_lift _ _ _ _ _ _ Hp), (mbind_ok _ _ _ _ _ Hp). auto.
  - intros f Hf. rewrite (mbind_ok _ _ _ _ _ Hp). auto.
Qed.

Lemma frag_seq (Inv : world -> Prop) p1 p2 X1 Y1 X2 Y2 w : NoDup (p1 ++ p2) -> frag Inv p1 X1 Y1 w -> Inv w -> (forall w1, Inv w1 -> frag Inv p2 X2 Y2 w1) ->
  frag Inv (p1 ++ p2) (sbind X1 (fun o => match o with Some x => sret (Some x) | None => X2 end))
    (fun f => mbind (Y1 f) (fun o => match o with Some x => mret (Some x) | None => Y2 f end)) w.
Proof.
  intros Hnd H1 Hi H2 st. rewrite ask_app. pose proof (ask_places q p1 st) as Hpl. specialize (H1 st). destruct (ask q st p1) as [st1 l1] eqn:E1. cbn [snd] in Hpl.
  assert (D12 : forall x, In x p1 -> In x p2 -> False).
  { intros x Hx Hx'. apply in_split in Hx as (a & b & ->). rewrite <- app_assoc in Hnd. cbn [app] in Hnd. apply NoDup_remove_2 in Hnd. apply Hnd.
    apply in_or_app. right. apply in_or_app. right. exact Hx'. }
  destruct H1 as [A1 B1].
  assert (Allcov : forall f : Z -> Z -> bool, (forall r c, In (r, c) (p1 ++ p2) -> f r c = true) ->
    mbind (Y1 f) (fun o => match o with Some x => mret (Some x) | None => Y2 f end) w = (w, Ok None)).
  { intros f Hf. rewrite (mbind_ok _ _ _ _ _ (B1 f ltac:(intros; apply Hf; apply in_or_app; auto))).
    specialize (H2 w Hi st). destruct (ask q st p2). apply H2. intros; apply Hf; apply in_or_app; auto. }
  destruct (done l1) eqn:Ed.
  - pose proof (fun w1 Hw1 => H2 w1 Hw1 st1) as H2'. pose proof (ask_places q p2 st1) as Hpl2. destruct (ask q st1 p2) as [st2 l2] eqn:E2. cbn [snd] in Hpl2. split; [|exact Allcov].
    intros f Hf. destruct (A1 f) as (w1 & X1e & Y1e & Hi1).
    { intros r c Hrc. rewrite Hf by (apply in_or_app; auto). apply recorded_app_l. intros Hx. apply (D12 (r, c) Hrc). apply Hpl2. exact Hx. }
    destruct (H2' w1 Hi1) as [A2 _]. destruct (A2 f) as (w2 & X2e & Y2e & Hi2).
    { intros r c Hrc. rewrite Hf by (apply in_or_app; auto). apply recorded_app_r. intros Hx. apply (D12 (r, c)); [apply Hpl; exact Hx|exact Hrc]. }
    exists w2. rewrite ending_app, Ed. rewrite (ending_done (B := unit) l1 None tt Ed) in X1e. unfold sbind, mbind. rewrite X1e, Y1e. auto.
  - split; [|exact Allcov]. intros f Hf. destruct (A1 f) as (w1 & X1e & Y1e & Hi1).
    { intros r c Hrc. apply Hf. apply in_or_app; auto. }
    exists w1. split.
    + unfold sbind. rewrite X1e. destruct (ending_not l1 (@None unit) tt Ed) as [[-> _]|[-> _]]; reflexivity.
    + split; [|exact Hi1]. unfold mbind. rewrite Y1e. specialize (H2 w1 Hi1 st). destruct (ask q st p2). apply H2.
      intros r c Hrc. rewrite Hf by (apply in_or_app; auto). apply recorded_none. intros Hx. apply (D12 (r, c)); [apply Hpl; exact Hx|exact Hrc].
Qed.
Lemma frag_ext (Inv : world -> Prop) ps X Y (X' : MY (option unit)) Y' w : (forall st, X st w = X' st w) -> (forall f, Y f w = Y' f w) -> frag Inv ps X Y w -> frag Inv ps X' Y' w.
Proof.
  intros Hx Hy H st. specialize (H st). destruct (ask q st ps) as [st' l]. destruct H as [A B]. split; intros f Hf.
  - destruct (A f Hf) as (w' & E1 & E2 & Hi). exists w'. rewrite <- Hx, <- Hy. auto.
  - rewrite <- Hy. auto.
Qed.

Lemma frag_for {I} (Inv : world -> Prop) (pl : I -> list (Z * Z)) (X : I -> MY (option unit)) Y : 
  forall l, NoDup (flat_map pl l) -> (forall i w, In i l -> Inv w -> frag Inv (pl i) (X i) (Y i) w) -> forall w, Inv w ->
  frag Inv (flat_map pl l) (s_for_list l X) (fun f => for_list l (fun i => Y i f)) w.
Proof.
  induction l as [|i l IH]; intros Hnd H w Hi; cbn [flat_map s_for_list for_list]; [apply frag_nil; exact Hi|].
  apply (frag_seq Inv (pl i) (flat_map pl l) (X i) (Y i) (s_for_list l X) (fun f => for_list l (fun i => Y i f))); auto.
  - apply H; [left; reflexivity|exact Hi].
  - cbn [flat_map] in Hnd. intros w1 Hi1. apply IH; auto.
    + clear - Hnd. induction (pl i) as [|a p IHp]; [exact Hnd|]. inversion Hnd; subst. apply IHp. assumption.
    + intros j w2 Hj. apply H. right. exact Hj.
Qed.

Lemma frag_enum_loop (Inv : world -> Prop) E s S (pl : ent -> list (Z * Z)) (X : Z -> Z -> V -> MY (option unit)) (Y : Z -> Z -> V -> (Z -> Z -> bool) -> M N (option unit)) :
  e_ctx E = None -> (forall w, Inv w -> obj w s S) ->
  (forall r c v w, In (r, c, v) (entries S) -> Inv w -> frag Inv (pl (r, c, v)) (X r c v) (Y r c v) w) ->
  forall rest it d fuel, it_rel S it d rest -> NoDup (flat_map pl rest) -> (length rest <= fuel)%nat -> forall w, Inv w ->
  frag Inv (flat_map pl rest) (s_enum_loop E fuel s it tt X) (fun f => enum_loop E fuel s it tt (fun r c v => Y r c v f)) w.
Proof.
  intros Hc Ho HX. assert (Hp : forall w : world, poll E w = (w, Ok false)) by (intros w; unfold poll; rewrite Hc; reflexivity).
  induction rest as [|[[r c] v] rest IH]; intros it d fuel Hit Hnd Hf w Hi.
  - eapply frag_ext; [| |apply frag_nil; exact Hi]; intros x; destruct fuel; cbn [s_enum_loop enum_loop]; rewrite (it_rel_HasNext _ _ _ _ Hit); reflexivity.
  - destruct fuel as [|fuel]; [simpl in Hf; lia|]. cbn [flat_map] in *.
    destruct (it_rel_step _ _ _ _ _ _ _ Hit) as (it' & Hn & Hcu & Hr & _).
    assert (En : mat_Next S it = Ok ((r, c, v), it')) by (unfold mat_Next; rewrite Hn; cbn [rbind]; rewrite Hcu; reflexivity).
    assert (Hin : In (r, c, v) (entries S)) by (rewrite (it_rel_entries _ _ _ _ Hit); apply in_or_app; right; left; reflexivity).
    eapply frag_ext; [| |apply (frag_seq Inv (pl (r, c, v)) (flat_map pl rest) (X r c v) (Y r c v) (s_enum_loop E fuel s it' tt X)
      (fun f => enum_loop E fuel s it' tt (fun r c v => Y r c v f)))].
    + intros st. symmetry. cbn [s_enum_loop]. rewrite (it_rel_HasNext _ _ _ _ Hit). rewrite (sbind_lift _ _ _ _ _ _ (Hp w)).
      rewrite (sbind_lift _ _ _ _ _ _ (load_ok _ _ _ (Ho w Hi))), (sbind_pure _ _ _ _ _ En). reflexivity.
    + intros f. symmetry. cbn [enum_loop]. rewrite (it_rel_HasNext _ _ _ _ Hit). rewrite (mbind_ok _ _ _ _ _ (Hp w)).
      rewrite (mbind_ok _ _ _ _ _ (load_ok _ _ _ (Ho w Hi))). rewrite En, mbind_lift. reflexivity.
    + exact Hnd.
    + apply HX; auto.
    + exact Hi.
    + intros w1 Hi1. apply (IH it' _ fuel Hr); [|simpl in Hf; lia|exact Hi1].
      clear - Hnd. induction (pl (r, c, v)) as [|a p IHp]; [exact Hnd|]. inversion Hnd; subst. apply IHp. assumption.
Qed.
Lemma frag_enumerate (Inv : world -> Prop) E s S (pl : ent -> list (Z * Z)) (X : Z -> Z -> V -> MY (option unit)) (Y : Z -> Z -> V -> (Z -> Z -> bool) -> M N (option unit)) :
  e_ctx E = None -> wf S -> mat_Values S <= Z.of_nat (e_fuel E) -> (forall w, Inv w -> obj w s S) ->
  (forall r c v w, In (r, c, v) (entries S) -> Inv w -> frag Inv (pl (r, c, v)) (X r c v) (Y r c v) w) ->
  NoDup (flat_map pl (entries S)) -> forall w, Inv w ->
  frag Inv (flat_map pl (entries S)) (s_enumerate E s tt X) (fun f => enumerate E s tt (fun r c v => Y r c v f)) w.
Proof.
  intros Hc Hw Hfu Ho HX Hnd w Hi. unfold s_enumerate, enumerate.
  apply (frag_pre Inv _ (load s) S (fun m => s_enum_loop E (e_fuel E) s (mat_iterator m) tt X)
    (fun f m => enum_loop E (e_fuel E) s (mat_iterator m) tt (fun r c v => Y r c v f))); [apply load_ok; auto|].
  apply (frag_enum_loop Inv E s S pl X Y Hc Ho HX (entries S) (mat_iterator S) [] (e_fuel E)); auto.
  - apply entries_rel; auto.
  - pose proof (zlen_entries S Hw) as Hl. unfold zlen in Hl. lia.
Qed.
End MaskMemThms.
