(** What breadth-first search shows a callback that acts. *)
From Verif Require Import GoBase Num SparseVec Csr Csc DenseVec DenseMat Mat World Ops Api MathOps Bfs.
From Verif Require Import BaseProofs CsrProofs SvProofs DenseProofs MatProofs Spec HeapProofs ReachProofs StoreProofs VecProofs StoreThms OpsProofs OpsThms EwThms EqThms MethThms OpsProps Steps.
From Verif Require Import BfsProofs BfsThms BfsCall BfsCallProofs.

(** ** Callbacks, as programs *)
Section Callbacks.
Context {N : num}.
Notation V := (T N).
Notation mat := (mat N).
Notation world := (world N).
Notation M := (M N).

(** copies the vector and keeps the copy, with what it saw; [stop] looks at how many are
    kept already and at the vector *)
Definition keep_copies (stop : nat -> mat -> bool) (st : list (ptr * mat)) (q : ptr) : M (bool * list (ptr * mat)) :=
  let! x := load q in
  let! p := p_Copy q in
  mret (stop (length st) x, st ++ [(p, x)]).

(** keeps the vector itself *)
Definition keep_vectors (stop : nat -> mat -> bool) (st : list (ptr * mat)) (q : ptr) : M (bool * list (ptr * mat)) :=
  let! x := load q in
  mret (stop (length st) x, st ++ [(q, x)]).

(** sets the listed entries of the vector to zero *)
Fixpoint wipe (P : list Z) (q : ptr) : M unit :=
  match P with
  | [] => mret tt
  | i :: rest => p_SetVec q i n0 ;!; wipe rest q
  end.
Definition prune (P : list Z) (stop : nat -> mat -> bool) (st : nat) (q : ptr) : M (bool * nat) :=
  let! x := load q in
  wipe P q ;!;
  mret (stop st x, S st).
End Callbacks.

(** ** Specification *)
Section Rounds.
Context {N : num}.
Notation V := (T N).
Notation mat := (mat N).

(** the graph without the edges into vertices of [P] *)
Definition without (P : Z -> bool) (f : Z -> Z -> V) (i j : Z) : V := if P i then n0 else f i j.

Definition same_graph (n : Z) (f : Z -> Z -> V) (r : round N) : Prop := is_dense (r_graph r) /\ denotes (r_graph r) n n f.
Definition pruned (n : Z) (P : Z -> bool) (r : round N) : Prop :=
  exists x y, vdenotes (r_shown r) n x /\ vdenotes (r_left r) n y /\ forall i, 0 <= i < n -> y i = if P i then n0 else x i.

(** the vector shown in round [d+1] of a search that prunes [P]: a vertex outside [P] is
    positive if it is at distance [d+1] on a way around [P]; a vertex of [P] is positive
    every time there is an edge from one at distance [d]; all else is zero *)
Definition shows_around (P : Z -> bool) (f : Z -> Z -> V) (n s : Z) (d : nat) (x : Z -> V) : Prop :=
  forall i, 0 <= i < n -> let yes := if P i then i <> s /\ exists j, edge f n j i /\ at_distance (edge (without P f) n) s d j
                                     else at_distance (edge (without P f) n) s (S d) i in
    (yes -> ngtb (x i) n0 = true) /\ (~ yes -> x i = n0).

Lemma vdenotes_fun (m : mat) n f g i : vdenotes m n f -> vdenotes m n g -> 0 <= i < n -> f i = g i.
Proof. intros (_ & _ & Hf) (_ & _ & Hg) Hi. specialize (Hf i Hi). specialize (Hg i Hi). congruence. Qed.
Lemma denotes_fun (m : mat) n f g i j : denotes m n n f -> denotes m n n g -> 0 <= i < n -> 0 <= j < n -> f i j = g i j.
Proof. intros (_ & _ & Hf) (_ & _ & Hg) Hi Hj. specialize (Hf i j Hi Hj). specialize (Hg i j Hi Hj). congruence. Qed.

Section Levels.
Variables (P : Z -> bool) (f : Z -> Z -> V) (n s : Z).
Hypotheses (Hct : counting N) (Hz : zero_ok N) (Hsn : 0 <= s < n) (Hw : forall i j, 0 <= i < n -> 0 <= j < n -> weight (f i j)).
Let F := without P f.

Lemma without_weight i j : 0 <= i < n -> 0 <= j < n -> weight (F i j).
Proof. intros Hi Hj. unfold F, without. destruct (P i); [left; reflexivity|auto]. Qed.
Lemma level_ok d i : 0 <= i < n -> weight (level F n s d i) /\ (ngtb (level F n s d i) n0 = true <-> at_distance (edge F n) s d i).
Proof.
  intros Hi. pose proof Hct as (A & B & C & _). apply (levels_distance F n s Hsn Hz A B C d); [|exact Hi].
  intros e _. apply counting_sums; auto. exact without_weight.
Qed.
Lemma marked_ok d i : 0 <= i < n -> (ngtb (marked F n s d i) n0 = true <-> exists e, (e <= d)%nat /\ walk (edge F n) s e i).
Proof.
  intros Hi. pose proof Hct as (A & B & C & _). apply (levels_distance F n s Hsn Hz A B C d); [|exact Hi].
  intros e _. apply counting_sums; auto. exact without_weight.
Qed.
(** a vertex of [P] other than the source is never reached *)
Lemma not_reached d i : P i = true -> i <> s -> ~ walk (edge F n) s d i.
Proof.
  intros HP Hne H. destruct H as [|d j i Hwk (_ & _ & He)]; [congruence|]. unfold F, without in He. rewrite HP in He.
  pose proof Hct as (A & _). congruence.
Qed.
Lemma level_P d i : 0 <= i < n -> P i = true -> level F n s (S d) i = n0.
Proof.
  intros Hi HP. destruct (level_ok (S d) i Hi) as [[H|H] Hd]; [exact H|]. apply Hd in H. destruct H as [H Hno].
  destruct (Z.eq_dec i s) as [->|Hne]; [|exfalso; exact (not_reached _ _ HP Hne H)].
  exfalso. apply (Hno O); [lia|constructor].
Qed.

Lemma rounds_around : forall tr d vis lev,
  (forall i, 0 <= i < n -> lev i = level F n s d i) -> (forall i, 0 <= i < n -> vis i = marked F n s d i) ->
  goes_on n vis lev tr -> Forall (same_graph n f) tr -> Forall (pruned n P) tr ->
  forall e r, nth_error tr e = Some r ->
    (exists x, vdenotes (r_shown r) n x /\ shows_around P f n s (d + e) x) /\
    (exists y, vdenotes (r_left r) n y /\ is_level F n s (S (d + e)) y).
Proof.
  induction tr as [|r0 tr IH]; intros d vis lev Hl Hv Hg HG HP e r He; [destruct e; discriminate|].
  cbn [goes_on] in Hg. destruct Hg as (g & y & Dg & Dx & Dy & Hg). inversion HG as [|? ? [Hden Df] HG']; subst. inversion HP as [|? ? Hp0 HP']; subst.
  set (x := next_level (seen_graph (r_graph r0) n g) n vis lev) in *.
  assert (Ex : forall i, 0 <= i < n -> x i = if ngtb (marked F n s d i) n0 then n0 else sum_from n0 (fun l => nmul (f i l) (level F n s d l)) 0 n).
  { intros i Hi. unfold x, next_level. rewrite Hv by auto. destruct (ngtb _ n0); [reflexivity|]. apply sum_from_ext. intros l Hll.
    rewrite seen_dense by auto. rewrite Hl by lia. rewrite (denotes_fun _ n g f i l Dg Df) by lia. reflexivity. }
  assert (Ey : forall i, 0 <= i < n -> y i = level F n s (S d) i).
  { intros i Hi. destruct Hp0 as (x' & y' & Dx' & Dy' & Hxy). rewrite (vdenotes_fun _ _ _ _ i Dy Dy' Hi), (Hxy i Hi).
    destruct (P i) eqn:EP; [symmetry; apply level_P; auto|]. rewrite <- (vdenotes_fun _ _ _ _ i Dx Dx' Hi), Ex by auto. rewrite level_S.
    destruct (ngtb _ n0); [reflexivity|]. apply sum_from_ext. intros l _. unfold F, without. rewrite EP. reflexivity. }
  destruct e as [|e].
  - injection He as <-. rewrite Nat.add_0_r. split.
    + exists x. split; [exact Dx|]. intros i Hi. cbn zeta. rewrite (Ex i Hi). destruct (P i) eqn:EP.
      * destruct (ngtb (marked F n s d i) n0) eqn:Em.
        { apply marked_ok in Em; [|exact Hi]. destruct Em as (e & _ & Hwk). destruct (Z.eq_dec i s) as [->|Hne]; [|exfalso; exact (not_reached _ _ EP Hne Hwk)].
          split; [intros [H _]; congruence|auto]. }
        assert (Hne : i <> s) by (intros ->; assert (false = true) by (rewrite <- Em; apply marked_ok; [exact Hi|]; exists O; split; [lia|constructor]); discriminate).
        destruct (sum_weight (fun l => nmul (f i l) (level F n s d l)) n Hct ltac:(lia)) as [W E].
        { intros l Hll. pose proof Hct as (_ & _ & _ & _ & Hm). apply Hm; [auto|apply level_ok; auto]. }
        assert (Hy : ngtb (sum_from n0 (fun l => nmul (f i l) (level F n s d l)) 0 n) n0 = true <-> i <> s /\ exists j, edge f n j i /\ at_distance (edge F n) s d j).
        { rewrite E. pose proof Hct as (_ & _ & _ & _ & Hm). split.
          - intros (l & Hll & H). split; [exact Hne|]. exists l. destruct (level_ok d l Hll) as [Wl Dl].
            destruct (Hm (f i l) (level F n s d l) (Hw i l Hi Hll) Wl) as [_ Em']. rewrite Em' in H. apply andb_prop in H. destruct H as [H1 H2].
            split; [repeat split; auto; lia|apply Dl, H2].
          - intros (_ & l & (_ & Hll & H1) & H2). exists l. split; [exact Hll|]. destruct (level_ok d l Hll) as [Wl Dl].
            destruct (Hm (f i l) (level F n s d l) (Hw i l Hi Hll) Wl) as [_ Em']. rewrite Em', H1. cbn. apply Dl, H2. }
        split; [intros H; apply Hy; exact H|]. intros H. destruct W as [W|W]; [exact W|]. exfalso. apply H, Hy, W.
      * assert (Exl : (if ngtb (marked F n s d i) n0 then n0 else sum_from n0 (fun l => nmul (f i l) (level F n s d l)) 0 n) = level F n s (S d) i).
        { rewrite level_S. destruct (ngtb _ n0); [reflexivity|]. apply sum_from_ext. intros l _. unfold F, without. rewrite EP. reflexivity. }
        rewrite Exl. destruct (level_ok (S d) i Hi) as [W E]. split; [apply E|]. intros H. destruct W as [W|W]; [exact W|]. exfalso. apply H, E, W.
    + exists y. split; [exact Dy|]. intros i Hi. rewrite (Ey i Hi). destruct (level_ok (S d) i Hi) as [W E]. split; [apply E|].
      intros H. destruct W as [W|W]; [exact W|]. exfalso. apply H, E, W.
  - rewrite <- Nat.add_succ_comm. cbn [nth_error] in He. eapply (IH (S d) (marks vis y) y); eauto.
    intros i Hi. unfold marks. rewrite marked_S, (Ey i Hi), (Hv i Hi). reflexivity.
Qed.
End Levels.

Lemma shows_none f n s d (x : Z -> V) : shows_around (fun _ => false) f n s d x -> is_level f n s (S d) x.
Proof. intros H i Hi. exact (H i Hi). Qed.
End Rounds.

(** ** The searches *)
Section Searches.
Context {N : num}.
Notation V := (T N).
Notation mat := (mat N).
Notation world := (world N).
Notation M := (M N).
Context {St : Type}.

(** a callback that always returns when it can expect to *)
Definition returns (a : ptr) (n : Z) (inv : ptr -> St -> world -> Prop) (c : St -> ptr -> M (bool * St)) : Prop :=
  forall st q x (w : world) G, reachable w -> inv q st w -> obj w q x -> vector_of n x -> obj w a G -> graph_of n G ->
    exists w' b st', c st q w = (w', Ok (b, st')).

Lemma fails_not a n inv (c : St -> ptr -> M (bool * St)) {A} (out : world * res A) q : returns a n inv c -> ~ fails_as a n inv c out q.
Proof.
  intros Hret (st & w & x & G & H1 & H2 & H3 & H4 & H5 & H6 & H). destruct (Hret st q x w G H1 H2 H3 H4 H5 H6) as (w' & b & st' & E).
  rewrite E in H. destruct H as [[H _]|[H _]]; discriminate.
Qed.

Lemma called_all a n q (inv : ptr -> St -> world -> Prop) (c : St -> ptr -> M (bool * St)) (Q : round N -> Prop) :
  (forall st w w' st1 r, reachable w -> inv q st w -> obj w a (r_graph r) -> obj w q (r_shown r) -> vector_of n (r_shown r) -> c st q w = (w', Ok (r_answer r, st1)) -> obj w' q (r_left r) -> Q r) ->
  forall tr st st', called a n q inv c st tr st' -> Forall Q tr.
Proof.
  intros HQ. induction tr as [|r tr IH]; intros st st' H; [constructor|]. destruct H as (w & w' & st1 & H1 & H2 & H3 & H4 & H5 & H6 & H7 & H8).
  constructor; eauto.
Qed.
End Searches.

Section Runs.
Context {N : num}.
Notation V := (T N).
Notation mat := (mat N).
Notation world := (world N).
Implicit Types w : world.

Lemma obj_cast w p (x y : mat) : obj w p x -> x = y -> obj w p y. Proof. intros H <-. exact H. Qed.
Lemma map_nth_error_inv {A B} (g : A -> B) l e y : nth_error (map g l) e = Some y -> exists x, nth_error l e = Some x /\ g x = y.
Proof. rewrite nth_error_map. destruct (nth_error l e) as [x|]; [|discriminate]. intros H. injection H as H. eauto. Qed.
Lemma goes_on_vec n : forall tr (vis lev : Z -> V), goes_on n vis lev tr -> forall e r, nth_error tr e = Some r -> exists x, vdenotes (r_shown r) n x.
Proof.
  induction tr as [|r0 tr IH]; intros vis lev H e r He; [destruct e; discriminate|]. destruct H as (g & y & _ & Dx & _ & H).
  destruct e as [|e]; [injection He as <-; eauto|]. eapply IH; eauto.
Qed.

(** *** copies *)
Section Copies.
Variables (a : ptr) (n : Z) (G : mat) (stop : nat -> mat -> bool).
Hypotheses (Hs : sane N) (HG : graph_of n G).
Let knows (st : list (ptr * mat)) (p : ptr) : Prop := p = a \/ In p (map fst st).
Let inv (q : ptr) (st : list (ptr * mat)) w : Prop := a <> q /\ obj w a G /\ forall p x, In (p, x) st -> p <> q /\ obj w p x.

Lemma copies_call st q x w w' b st' : reachable w -> obj w q x -> keep_copies stop st q w = (w', Ok (b, st')) ->
  reachable w' /\ extends w w' /\ b = stop (length st) x /\ exists p, st' = st ++ [(p, x)] /\ (forall y, ~ obj w p y) /\ obj w' p x.
Proof.
  intros Hr Ho E. unfold keep_copies in E. rewrite (mbind_ok _ _ _ _ _ (load_ok _ _ _ Ho)) in E.
  destruct (step_Copy w q x Hs Hr Ho) as (w1 & p & Ec & Hr1 & Hf & Hx & Hp). rewrite (mbind_ok _ _ _ _ _ Ec) in E. injection E as <- <- <-.
  split; [exact Hr1|]. split; [exact Hx|]. split; [reflexivity|]. exists p. auto.
Qed.
Lemma copies_return : returns a n inv (keep_copies stop).
Proof.
  intros st q x w G0 Hr Hi Ho _ _ _. unfold keep_copies. rewrite (mbind_ok _ _ _ _ _ (load_ok _ _ _ Ho)).
  destruct (step_Copy w q x Hs Hr Ho) as (w1 & p & Ec & _). rewrite (mbind_ok _ _ _ _ _ Ec). unfold mret. eauto.
Qed.
Lemma copies_confined : confined a n knows inv (keep_copies stop).
Proof.
  split.
  - intros st q x G0 w w' b st' Hr Naq Ho Hv Ha HG0 (_ & HaG & Hi) Hk E.
    destruct (copies_call st q x w w' b st' Hr Ho E) as (Hr' & Hx & _ & p & -> & Hf & Hp).
    split; [exact Hr'|]. split; [exists x; auto|]. split; [exists G0; auto|].
    split; [intros p0 y Hy; exists y; auto|]. split.
    + intros p0 [->|H]; [split; [exists G; auto|left; left; reflexivity]|]. rewrite map_app in H. apply in_app_or in H. destruct H as [H|[<-|[]]].
      * split; [|left; right; exact H]. destruct (Hk p0 (or_intror H)) as [y Hy]. exists y. auto.
      * split; [exists x; exact Hp|right; right; exact Hf].
    + split; [exact Naq|]. split; [auto|]. intros p0 x0 H. apply in_app_or in H. destruct H as [H|[H|[]]].
      * destruct (Hi p0 x0 H) as [H1 H2]. split; auto.
      * injection H as <- <-. split; [|exact Hp]. intros ->. exact (Hf _ Ho).
  - intros q st w w' (H1 & H2 & H3) Hst. split; [exact H1|]. split; [apply Hst; [left; reflexivity|auto|auto]|].
    intros p x Hp. destruct (H3 p x Hp) as [A B]. split; [exact A|]. apply Hst; [right; apply in_map_iff; exists (p, x); auto|exact A|exact B].
Qed.
Lemma copies_called q : forall tr st st', called a n q inv (keep_copies stop) st tr st' ->
  exists more, st' = st ++ more /\ map snd more = map r_shown tr /\
    forall e r, nth_error tr e = Some r -> r_graph r = G /\ r_left r = r_shown r /\ r_answer r = stop (length st + e)%nat (r_shown r).
Proof.
  induction tr as [|r tr IH]; intros st st' H.
  { cbn in H. subst st'. exists []. rewrite app_nil_r. split; [reflexivity|]. split; [reflexivity|]. intros e r H. destruct e; discriminate. }
  destruct H as (w & w' & st1 & Hr & (Naq & HaG & _) & Ha & Ho & Hv & E & Ho' & H).
  destruct (copies_call st q _ w w' _ st1 Hr Ho E) as (Hr' & Hx & Hb & p & -> & Hf & Hp).
  destruct (IH _ _ H) as (more & -> & Hm & Hall). exists ((p, r_shown r) :: more). rewrite <- app_assoc. split; [reflexivity|].
  split; [cbn [map snd]; rewrite Hm; reflexivity|]. intros e r0 He. destruct e as [|e].
  - injection He as <-. split; [exact (obj_inj _ _ _ _ Ha HaG)|]. split; [exact (obj_inj _ _ _ _ Ho' (Hx _ _ Ho))|]. rewrite Nat.add_0_r. exact Hb.
  - destruct (Hall e r0 He) as (A & B & C). split; [exact A|]. split; [exact B|]. rewrite C, app_length. cbn. f_equal. lia.
Qed.
End Copies.

Lemma copies_search E w a G n f s stop : sane N -> counting N -> e_ctx E = None -> n <= Z.of_nat (e_fuel E) ->
  reachable w -> obj w a G -> is_dense G -> denotes G n n f -> 0 <= s < n ->
  (forall i j, 0 <= i < n -> 0 <= j < n -> weight (f i j)) ->
  exists w' q res st' tr, SearchM E a s (keep_copies stop) [] w = (w', Ok (q, st', tr)) /\ extends w w' /\ (forall x, ~ obj w q x) /\ obj w' q res /\
    finds n (is_level f n s) (fun d x => stop (Nat.pred d) x) (map snd st') res /\
    (forall p x, In (p, x) st' -> p <> q /\ obj w' p x).
Proof.
  intros Hs Hct Hc Hfu Hr Ha Hden Hd Hsn Hw. assert (HG : graph_of n G) by (exists f; exact Hd).
  destruct (searchM_run E w a G n s _ _ _ [] Hs Hc Hr Ha HG Hfu Hsn (copies_confined a n G stop Hs)) as (q & Fq & [(w' & st' & tr & res & He & Hr' & Hfr & Hi & Ho & Hgo & Hca & Han)|Hbad]).
  { intros p [->|[]]. eauto. }
  { intros q w1 Fq Hx. split; [intros ->; exact (Fq _ Ha)|]. split; [apply Hx, Ha|]. intros p x []. }
  2:{ exfalso. exact (fails_not _ _ _ _ _ _ (copies_return a n G stop Hs) Hbad). }
  destruct Hi as (Naq & HaG & Hi). destruct (copies_called a n G stop Hs q tr [] st' Hca) as (more & -> & Hm & Hall). cbn [app length] in *.
  exists w', q, res, more, tr. split; [exact He|].
  assert (Hx : extends w w').
  { intros p x Hp. destruct (Nat.eq_dec p a) as [->|Hne]; [rewrite (obj_inj _ _ _ _ Hp Ha); exact HaG|]. apply Hfr; [exact Hp|]. intros [H|[]]. auto. }
  split; [exact Hx|]. split; [exact Fq|]. split; [exact Ho|]. split; [|exact Hi].
  assert (Hlev : forall e v, nth_error (map snd more) e = Some v -> exists g, vdenotes v n g /\ is_level f n s (S e) g).
  { intros e v Hv. rewrite Hm in Hv. apply map_nth_error_inv in Hv. destruct Hv as (r & He0 & <-).
    destruct (rounds_around (fun _ => false) f n s Hct (proj1 Hs) Hsn Hw tr 0 (source s) (source s)) with (e := e) (r := r) as [(x & Dx & Sx) _]; auto.
    - apply Forall_forall. intros r1 Hr1. apply In_nth_error in Hr1. destruct Hr1 as [e1 He1]. destruct (Hall e1 r1 He1) as (Eg & _ & _). unfold same_graph. rewrite Eg. split; assumption.
    - apply Forall_forall. intros r1 Hr1. apply In_nth_error in Hr1. destruct Hr1 as [e1 He1]. destruct (Hall e1 r1 He1) as (_ & El & _).
      destruct (goes_on_vec _ _ _ _ Hgo e1 r1 He1) as (x & Dx). exists x, x. rewrite El. auto.
    - exists x. split; [exact Dx|]. apply shows_none. exact Sx. }
  assert (Hlen : length (map snd more) = length tr) by (rewrite Hm, map_length; reflexivity).
  assert (Hacc : forall e v, nth_error (map snd more) e = Some v -> exists r, nth_error tr e = Some r /\ v = r_shown r /\ stop e v = r_answer r).
  { intros e v Hv. rewrite Hm in Hv. apply map_nth_error_inv in Hv. destruct Hv as (r & He0 & <-). destruct (Hall e r He0) as (_ & _ & Hb). eauto. }
  destruct Han as [(tr0 & r & -> & HL & Hno & Hyes & ->)|(HL & Hno & Hz)].
  - split; [lia|]. split; [exact Hlev|]. rewrite app_length in Hlen. cbn in Hlen. split.
    + intros e v Hv Hst. cbn [Nat.pred] in Hst. destruct (Hacc e v Hv) as (r1 & He1 & -> & Hb). rewrite Hb in Hst.
      destruct (Nat.lt_ge_cases e (length tr0)) as [Hlt|Hge].
      * rewrite nth_error_app1 in He1 by auto. rewrite Forall_forall in Hno. rewrite (Hno r1 (nth_error_In _ _ He1)) in Hst. discriminate.
      * assert (e < length (tr0 ++ [r]))%nat by (apply nth_error_Some; congruence). rewrite app_length in H. cbn in H. lia.
    + left. exists (length tr0), (r_shown r). destruct (Hall (length tr0) r) as (_ & El & Hb).
      { rewrite nth_error_app2, Nat.sub_diag by lia. reflexivity. }
      split; [lia|]. split; [rewrite Hm, map_app, nth_error_app2; rewrite map_length; [rewrite Nat.sub_diag; reflexivity|lia]|].
      cbn [Nat.pred]. split; [rewrite <- Hyes; symmetry; exact Hb|exact El].
  - split; [lia|]. split; [exact Hlev|]. rewrite Forall_forall in Hno.
    assert (K : forall e v, nth_error (map snd more) e = Some v -> stop (Nat.pred (S e)) v = false).
    { intros e v Hv. destruct (Hacc e v Hv) as (r1 & He1 & -> & Hb). cbn [Nat.pred]. rewrite Hb. apply Hno. exact (nth_error_In _ _ He1). }
    split; [intros e v Hv Hst; rewrite (K e v Hv) in Hst; discriminate|]. right. split; [lia|]. split; [exact K|exact Hz].
Qed.

(** *** the vector itself *)
Section Vectors.
Variables (a : ptr) (n : Z) (G : mat) (stop : nat -> mat -> bool).
Let knows (st : list (ptr * mat)) (p : ptr) : Prop := p = a \/ In p (map fst st).
Let inv (q : ptr) (st : list (ptr * mat)) w : Prop := a <> q /\ obj w a G /\ forall p x, In (p, x) st -> p = q.

Lemma vectors_run st q x w : obj w q x -> keep_vectors stop st q w = (w, Ok (stop (length st) x, st ++ [(q, x)])).
Proof. intros Ho. unfold keep_vectors. rewrite (mbind_ok _ _ _ _ _ (load_ok _ _ _ Ho)). reflexivity. Qed.
Lemma vectors_return : returns a n inv (keep_vectors stop).
Proof. intros st q x w G0 _ _ Ho _ _ _. rewrite (vectors_run st q x w Ho). eauto. Qed.
Lemma vectors_confined : confined a n knows inv (keep_vectors stop).
Proof.
  split.
  - intros st q x G0 w w' b st' Hr Naq Ho Hv Ha HG0 (_ & HaG & Hi) Hk E. rewrite (vectors_run st q x w Ho) in E. injection E as <- <- <-.
    split; [exact Hr|]. split; [exists x; auto|]. split; [exists G0; auto|]. split; [intros p0 y Hy; exists y; auto|]. split.
    + intros p0 [->|H]; [split; [exists G; auto|left; left; reflexivity]|]. rewrite map_app in H. apply in_app_or in H. destruct H as [H|[<-|[]]].
      * split; [exact (Hk p0 (or_intror H))|left; right; exact H].
      * split; [exists x; exact Ho|auto].
    + split; [exact Naq|]. split; [exact HaG|]. intros p0 x0 H. apply in_app_or in H. destruct H as [H|[H|[]]]; [exact (Hi p0 x0 H)|]. injection H as <- _. reflexivity.
  - intros q st w w' (H1 & H2 & H3) Hst. split; [exact H1|]. split; [apply Hst; [left; reflexivity|auto|auto]|exact H3].
Qed.
Lemma vectors_called q : forall tr st st', called a n q inv (keep_vectors stop) st tr st' ->
  exists more, st' = st ++ more /\ map snd more = map r_shown tr.
Proof.
  induction tr as [|r tr IH]; intros st st' H.
  { cbn in H. subst st'. exists []. rewrite app_nil_r. auto. }
  destruct H as (w & w' & st1 & Hr & _ & Ha & Ho & Hv & E & Ho' & H). rewrite (vectors_run st q _ w Ho) in E. injection E as _ _ <-.
  destruct (IH _ _ H) as (more & -> & Hm). exists ((q, r_shown r) :: more). rewrite <- app_assoc. split; [reflexivity|]. cbn [map snd]. rewrite Hm. reflexivity.
Qed.
End Vectors.

Lemma vectors_search E w a G n f s stop : sane N -> e_ctx E = None -> n <= Z.of_nat (e_fuel E) ->
  reachable w -> obj w a G -> denotes G n n f -> 0 <= s < n ->
  exists w' q res st' tr, SearchM E a s (keep_vectors stop) [] w = (w', Ok (q, st', tr)) /\ (forall x, ~ obj w q x) /\ obj w' q res /\
    map snd st' = map r_shown tr /\ answered n tr res /\
    (forall p x, In (p, x) st' -> p = q /\ obj w' p res).
Proof.
  intros Hs Hc Hfu Hr Ha Hd Hsn. assert (HG : graph_of n G) by (exists f; exact Hd).
  destruct (searchM_run E w a G n s _ _ _ [] Hs Hc Hr Ha HG Hfu Hsn (vectors_confined a n G stop)) as (q & Fq & [(w' & st' & tr & res & He & Hr' & Hfr & Hi & Ho & Hgo & Hca & Han)|Hbad]).
  { intros p [->|[]]. eauto. }
  { intros q w1 Fq Hx. split; [intros ->; exact (Fq _ Ha)|]. split; [apply Hx, Ha|]. intros p x []. }
  2:{ exfalso. exact (fails_not _ _ _ _ _ _ (vectors_return a n G stop) Hbad). }
  destruct Hi as (Naq & HaG & Hi). destruct (vectors_called a n G stop q tr [] st' Hca) as (more & -> & Hm). cbn [app] in *.
  exists w', q, res, more, tr. do 5 (split; [assumption|]). intros p x Hp. rewrite (Hi p x Hp). auto.
Qed.

(** *** pruning *)
Definition listed (P : list Z) (i : Z) : bool := existsb (Z.eqb i) P.

Lemma wipe_run q n : forall P v w, 0 <= n -> (forall i, In i P -> 0 <= i < n) -> reachable w -> obj w q (MDV (mk_dv n v)) ->
  exists w', wipe P q w = (w', Ok tt) /\ reachable w' /\ (forall p x, obj w p x -> p <> q -> obj w' p x) /\
    obj w' q (MDV (mk_dv n (fun i => if listed P i then n0 else v i))).
Proof.
  induction P as [|j P IH]; intros v w Hn HP Hr Ho; cbn [wipe].
  { exists w. split; [reflexivity|]. split; [exact Hr|]. split; [auto|exact Ho]. }
  assert (Est : mat_SetVec (MDV (mk_dv n v)) j n0 = Ok (MDV (mk_dv n (fun i => if i =? j then n0 else v i)))).
  { unfold mat_SetVec. rewrite dv_SetVec_spec by (auto; apply HP; left; reflexivity). cbn. do 2 f_equal. }
  assert (E2 : p_SetVec q j n0 w = (upd w q (MDV (mk_dv n (fun i => if i =? j then n0 else v i))), Ok tt)).
  { unfold p_SetVec. rewrite (load_lift _ _ _ (fun m => mat_SetVec m j n0) _ _ Ho Est). reflexivity. }
  rewrite (mbind_ok _ _ _ _ _ E2).
  assert (R2 : reachable (upd w q (MDV (mk_dv n (fun i => if i =? j then n0 else v i))))) by (eapply (reach_run w _ (KSetVec q j n0)); [exact Hr|exact Logic.I| |exact E2]; reflexivity).
  destruct (IH (fun i => if i =? j then n0 else v i) _ Hn (fun i Hi => HP i (or_intror Hi)) R2 (obj_upd_eq _ _ _ _ Ho)) as (w' & E & Hr' & Hx & Ho').
  exists w'. split; [exact E|]. split; [exact Hr'|]. split; [intros p x Hp Hne; apply Hx; [apply obj_upd_neq; auto|auto]|].
  eapply obj_cast; [exact Ho'|]. f_equal. apply mk_dv_ext. intros i Hi. cbn [listed existsb]. unfold listed. destruct (i =? j); destruct (existsb (Z.eqb i) P); reflexivity.
Qed.

Section Prune.
Variables (a : ptr) (n : Z) (G : mat) (P : list Z) (stop : nat -> mat -> bool).
Hypotheses (Hs : sane N) (HP : forall i, In i P -> 0 <= i < n).
Let knows (st : nat) (p : ptr) : Prop := p = a.
Let inv (q : ptr) (st : nat) w : Prop := a <> q /\ obj w a G.

Lemma prune_run st q x w : reachable w -> obj w q x -> vector_of n x ->
  exists w' v, prune P stop st q w = (w', Ok (stop st x, S st)) /\ x = MDV (mk_dv n v) /\ 0 <= n /\ reachable w' /\
    (forall p y, obj w p y -> p <> q -> obj w' p y) /\ obj w' q (MDV (mk_dv n (fun i => if listed P i then n0 else v i))).
Proof.
  intros Hr Ho Hv. destruct (vector_mk w q x n Hs Hr Ho Hv) as (v & -> & Hn). destruct (wipe_run q n P v w Hn HP Hr Ho) as (w' & E & Hr' & Hx & Ho').
  exists w', v. unfold prune. rewrite (mbind_ok _ _ _ _ _ (load_ok _ _ _ Ho)), (mbind_ok _ _ _ _ _ E). unfold mret. auto 6.
Qed.
Lemma prune_return : returns a n inv (prune P stop).
Proof. intros st q x w G0 Hr _ Ho Hv _ _. destruct (prune_run st q x w Hr Ho Hv) as (w' & v & E & _). eauto. Qed.
Lemma prune_confined : confined a n knows inv (prune P stop).
Proof.
  split.
  - intros st q x G0 w w' b st' Hr Naq Ho Hv Ha HG0 (_ & HaG) Hk E. destruct (prune_run st q x w Hr Ho Hv) as (w1 & v & E1 & -> & Hn & Hr' & Hx & Ho').
    rewrite E1 in E. injection E as <- <- <-. split; [exact Hr'|]. split; [eexists; split; [exact Ho'|apply mk_vector]|]. split; [exists G0; auto|].
    split; [|split].
    + intros p y Hy. destruct (Nat.eq_dec p q) as [->|Hne]; [eexists; split; [exact Ho'|auto]|exists y; auto].
    + intros p ->. split; [exists G0; auto|left; reflexivity].
    + split; [exact Naq|auto].
  - intros q st w w' (H1 & H2) Hst. split; [exact H1|]. apply Hst; [reflexivity|auto|auto].
Qed.
Lemma prune_called q : forall tr st st', called a n q inv (prune P stop) st tr st' ->
  st' = (st + length tr)%nat /\ Forall (fun r => r_graph r = G /\ pruned n (listed P) r) tr /\
  forall e r, nth_error tr e = Some r -> r_answer r = stop (st + e)%nat (r_shown r).
Proof.
  induction tr as [|r tr IH]; intros st st' H.
  { cbn in H. subst st'. split; [cbn; lia|]. split; [constructor|]. intros e r H. destruct e; discriminate. }
  destruct H as (w & w' & st1 & Hr & (Naq & HaG) & Ha & Ho & Hv & E & Ho' & H).
  destruct (prune_run st q _ w Hr Ho Hv) as (w1 & v & E1 & Ev & Hn & Hr' & Hx & Ho1). rewrite E1 in E. injection E as <- Hb <-.
  destruct (IH _ _ H) as (-> & Hall & Hans). split; [cbn [length]; lia|]. split.
  - constructor; [|exact Hall]. split; [exact (obj_inj _ _ _ _ Ha HaG)|]. exists v, (fun i => if listed P i then n0 else v i).
    rewrite Ev, (obj_inj _ _ _ _ Ho' Ho1). split; [apply vdenotes_dv; exact Hn|]. split; [apply vdenotes_dv; exact Hn|]. auto.
  - intros e r0 He. destruct e as [|e]; [injection He as <-; rewrite Nat.add_0_r; symmetry; exact Hb|]. rewrite (Hans e r0 He). f_equal. lia.
Qed.
End Prune.


Lemma prune_search E w a G n f s P stop : sane N -> counting N -> e_ctx E = None -> n <= Z.of_nat (e_fuel E) ->
  reachable w -> obj w a G -> is_dense G -> denotes G n n f -> 0 <= s < n ->
  (forall i j, 0 <= i < n -> 0 <= j < n -> weight (f i j)) -> (forall i, In i P -> 0 <= i < n) ->
  exists w' q res k tr, SearchM E a s (prune P stop) 0%nat w = (w', Ok (q, k, tr)) /\ extends w w' /\ (forall x, ~ obj w q x) /\ obj w' q res /\
    k = length tr /\ answered n tr res /\
    forall e r, nth_error tr e = Some r -> r_answer r = stop e (r_shown r) /\
      (exists x, vdenotes (r_shown r) n x /\ shows_around (listed P) f n s e x) /\
      (exists y, vdenotes (r_left r) n y /\ is_level (without (listed P) f) n s (S e) y).
Proof.
  intros Hs Hct Hc Hfu Hr Ha Hden Hd Hsn Hw HP. assert (HG : graph_of n G) by (exists f; exact Hd).
  destruct (searchM_run E w a G n s _ _ _ 0%nat Hs Hc Hr Ha HG Hfu Hsn (prune_confined a n G P stop Hs HP)) as (q & Fq & [(w' & st' & tr & res & He & Hr' & Hfr & Hi & Ho & Hgo & Hca & Han)|Hbad]).
  { intros p ->. eauto. }
  { intros q w1 Fq Hx. split; [intros ->; exact (Fq _ Ha)|]. apply Hx, Ha. }
  2:{ exfalso. exact (fails_not _ _ _ _ _ _ (prune_return a n G P stop Hs HP) Hbad). }
  destruct Hi as (Naq & HaG).
  destruct (prune_called a n G P stop Hs HP q tr 0%nat st' Hca) as (-> & Hall & Hans). cbn [Nat.add] in *.
  exists w', q, res, (length tr), tr. split; [exact He|].
  split. { intros p x Hp. destruct (Nat.eq_dec p a) as [->|Hne]; [rewrite (obj_inj _ _ _ _ Hp Ha); exact HaG|]. apply Hfr; [exact Hp|]. intros H. auto. }
  split; [exact Fq|]. split; [exact Ho|]. split; [reflexivity|]. split; [exact Han|].
  intros e r He0. split; [exact (Hans e r He0)|].
  apply (rounds_around (listed P) f n s Hct (proj1 Hs) Hsn Hw tr 0 (source s) (source s)); auto.
  - eapply Forall_impl; [|exact Hall]. intros r1 [Eg _]. unfold same_graph. rewrite Eg. split; assumption.
  - eapply Forall_impl; [|exact Hall]. intros r1 [_ H]. exact H.
Qed.
End Runs.
