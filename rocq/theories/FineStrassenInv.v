(** What holds of a call of Strassen's multiplication and its goroutines (FineStrassen.v) after every step. *)
From Coq Require Import String Permutation.
From Verif Require Import GoBase Num SparseVec Csr Csc DenseVec DenseMat Mat World Ops MathOps Bfs Spec Api BaseProofs Fine FineRel FineConc FineProofs FineStrassen FineCalm FineStrassenRel.

Section FineStrassenInv.
Context {N : num}.
Notation V := (T N).
Notation mat := (mat N).
Notation prog := (prog N).
Notation world := (world N).
Notation names := (ptr -> Prop).
Notation gor := (gor (N := N)).
Notation task := (task (N := N)).
Notation rel := (rel (N := N)).
Variable E : env.
Variable x : Z.
Hypothesis K : constant E.

Definition owns (s : view) (O : names) : Prop := forall p, ow s p = true -> O p.
Definition knows (s : view) (U : names) : Prop := forall p q, nm s p q -> U p.
Definition fits (h : list mat) (O U : names) : Prop := (forall p, O p -> U p) /\ (forall p, U p -> (p < length h)%nat).

(** what a goroutine reads without owning it is a dense matrix, and it writes back only what it owns *)
Definition tidy {A} (h : list mat) (s : view) (g : gor A) : Prop :=
  (forall p q m, nm s p q -> ow s p = false -> nth_error h p = Some m -> dense m) /\ (forall p m, g_back g = Some (p, m) -> ow s p = true).

(** of the goroutine of a sub-product: what it may change, what it may look at, what it will return *)
Record kid : Type := MkKid { k_O : names; k_U : names; k_e : res mat }.
Definition disj (k k' : kid) : Prop := forall p, (k_O k p -> ~ k_U k' p) /\ (k_O k' p -> ~ k_U k p).
Fixpoint apart (ks : list kid) : Prop := match ks with [] => True | k :: ks => Forall (disj k) ks /\ apart ks end.
Definition family (h : list mat) (O U : names) (ks : list kid) : Prop :=
  Forall (fun k => fits h (k_O k) (k_U k) /\ sub (k_O k) O /\ sub (k_U k) U) ks /\ apart ks.
Definition kin (P : task -> kid -> Prop) : list (Z * task) -> list kid -> Prop :=
  fix go cs ks {struct cs} := match cs with
    | [] => match ks with [] => True | _ :: _ => False end
    | (_, t) :: cs' => match ks with [] => False | k :: ks' => P t k /\ go cs' ks' end
    end.

(** the product of the operands [o] *)
Definition product (f : nat) (o : ptr * ptr) (w : world) : res mat := value (tree E x f (fst o) (snd o)) w.

(** The call [t] may change [O], may look at [U] and will return [e]; [r]: it is the first call. *)
Fixpoint good (r : bool) (h : list mat) (t : task) (O U : names) (e : res mat) {struct t} : Prop :=
  let kids := kin (fun t k => good false h t (k_O k) (k_U k) (k_e k)) in
  match t with
  | THead f g => exists s a b w0 y w, tracks Rnext (head E x f a b) w0 h g s y w /\ (r = true \/ tidy h s g) /\
      e = value (tree E x f a b) w0 /\ owns s O /\ knows s U
  | TSpawn f bl i rest g cs => exists s bl' w0 y w os ks, tracks Rpair (opnd E i bl') w0 h g s y w /\ tidy h s g /\
      e = value (let! xy := opnd E i bl' in cont E (tree E x f) bl' (os ++ [(i, xy)]) rest) w0 /\ owns s O /\ knows s U /\
      Rblocks s bl bl' /\ quarters (dense_at w0) bl' /\ Forall (fun o => both (dense_at w0) (snd o)) os /\
      map fst os ++ i :: rest = seven /\ map fst cs = map fst os /\ Forall2 (fun k o => k_e k = product f (snd o) w0) ks os /\
      kids cs ks /\ family h O U ks /\ (forall k p, List.In k ks -> k_O k p -> forall q, ~ nm s p q) /\ (forall k p, List.In k ks -> ow s p = true -> ~ k_U k p)
  | TRecv f cs got => exists w0 os ks,
      e = value (let! ms := gatherT (tree E x f) os in combine E ms) w0 /\ Forall (fun o => both (dense_at w0) (snd o)) os /\ map fst os = seven /\
      Forall2 (fun c k => exists o, List.In (fst c, o) os /\ k_e k = product f o w0) cs ks /\
      Forall (fun j => exists o m, List.In (fst j, o) os /\ product f o w0 = Ok m /\ nth_error h (snd j) = Some m /\ O (snd j)) got /\
      Permutation (map fst got ++ map fst cs) seven /\ NoDup (map snd got) /\
      kids cs ks /\ family h O U ks /\ (forall k j, List.In k ks -> List.In j got -> ~ k_U k (snd j))
  | TComb g => exists s ms w0 y w, tracks Rnew (combine E ms) w0 h g s y w /\ tidy h s g /\
      e = value (combine E ms) w0 /\ owns s O /\ knows s U
  end.

Lemma kin_forall2 P cs ks : kin P cs ks <-> Forall2 (fun c k => P (snd c) k) cs ks.
Proof.
  split.
  - revert ks. induction cs as [|[j t] cs IH]; intros [|k ks] H; cbn in H; try contradiction; [constructor|]. destruct H. constructor; auto.
  - intro H. induction H as [|[j t] k cs ks H _ IH]; cbn; auto.
Qed.

(** ** Lists *)
Lemma disj_sym k k' : disj k k' -> disj k' k.
Proof. intros H p. specialize (H p). tauto. Qed.
Lemma apart_app k1 k k2 : apart (k1 ++ k :: k2) <-> Forall (disj k) (k1 ++ k2) /\ apart (k1 ++ k2).
Proof.
  induction k1 as [|k0 k1 IH]; cbn [app apart]; [tauto|]. rewrite IH. rewrite !Forall_app. split.
  - intros ((H1 & H2) & (H3 & H4) & H5). inversion H2; subst. repeat split; auto. constructor; [apply disj_sym; assumption|apply Forall_app; split; assumption].
  - intros (H1 & (H2 & H3) & H4). inversion H1 as [|? ? H5 H6]; subst. apply Forall_app in H6. destruct H6 as [H6 H7]. repeat split; auto.
    constructor; [apply disj_sym; assumption|assumption].
Qed.
Lemma apart_last ks k : apart ks -> Forall (fun k' => disj k' k) ks -> apart (ks ++ [k]).
Proof.
  intros H1 H2. apply apart_app. rewrite app_nil_r. split; [|exact H1]. eapply Forall_impl; [|exact H2]. intros; apply disj_sym; assumption.
Qed.

(** ** Induction on calls *)
Section TaskInd.
Variable P : task -> Prop.
Hypothesis P1 : forall f g, P (THead f g).
Hypothesis P2 : forall f bl i rest g cs, Forall (fun c => P (snd c)) cs -> P (TSpawn f bl i rest g cs).
Hypothesis P3 : forall f cs got, Forall (fun c => P (snd c)) cs -> P (TRecv f cs got).
Hypothesis P4 : forall g, P (TComb g).
Fixpoint task_ind2 (t : task) : P t :=
  let all := fix all (l : list (Z * task)) : Forall (fun c => P (snd c)) l :=
    match l with [] => Forall_nil _ | c :: l => Forall_cons c (task_ind2 (snd c)) (all l) end in
  match t with
  | THead f g => P1 f g
  | TSpawn f bl i rest g cs => P2 f bl i rest g cs (all cs)
  | TRecv f cs got => P3 f cs got (all cs)
  | TComb g => P4 g
  end.
End TaskInd.

(** ** Nothing changes for a call when others change what it does not look at *)
Lemma tidy_frame {A} h h' s (g : gor A) : tidy h s g -> (forall p q, nm s p q -> nth_error h' p = nth_error h p) -> tidy h' s g.
Proof. intros [H1 H2] F. split; [|exact H2]. intros p q m A1 A2 A3. rewrite (F _ _ A1) in A3. exact (H1 _ _ _ A1 A2 A3). Qed.

Lemma family_len h h' O U ks : family h O U ks -> (length h <= length h')%nat -> family h' O U ks.
Proof.
  intros [H1 H2] L. split; [|exact H2]. eapply Forall_impl; [|exact H1]. intros k ([A1 A2] & A3 & A4). repeat split; auto. intros p Hp. specialize (A2 p Hp). lia.
Qed.
Lemma family_sub h O U O' U' ks : family h O U ks -> sub O O' -> sub U U' -> family h O' U' ks.
Proof.
  intros [H1 H2] S1 S2. split; [|exact H2]. eapply Forall_impl; [|exact H1]. intros k ([A1 A2] & A3 & A4). repeat split; auto; intros p Hp; [apply S1, A3|apply S2, A4]; exact Hp.
Qed.

Lemma good_frame r h h' O U e t : good r h t O U e -> (forall p, O p -> U p) -> (length h <= length h')%nat -> (forall p, U p -> nth_error h' p = nth_error h p) -> good r h' t O U e.
Proof.
  revert r O U e. induction t as [f g|f bl i rest g cs IH|f cs got IH|g] using task_ind2; intros r O U e G OU L F; cbn [good] in *.
  - destruct G as (s & a & b & w0 & y & w & T & R & Ev & Ow & Kn). exists s, a, b, w0, y, w.
    assert (F' : forall p q, nm s p q -> nth_error h' p = nth_error h p) by (intros; apply F; eapply Kn; eassumption).
    split; [eapply tracks_frame; eauto|]. split; [destruct R; [left; assumption|right; eapply tidy_frame; eauto]|]. auto.
  - destruct G as (s & bl' & w0 & y & w & os & ks & T & R & Ev & Ow & Kn & Bl & Q & Dn & Sv & Nm & Vs & Kd & Fm & S1 & S2). exists s, bl', w0, y, w, os, ks.
    assert (F' : forall p q, nm s p q -> nth_error h' p = nth_error h p) by (intros; apply F; eapply Kn; eassumption).
    split; [eapply tracks_frame; eauto|]. split; [eapply tidy_frame; eauto|]. repeat (split; [assumption|]).
    split; [|split; [eapply family_len; eauto|auto]]. apply kin_forall2 in Kd. apply kin_forall2. destruct Fm as [Fm _].
    clear - IH Kd Fm L F. revert IH Fm. induction Kd as [|c k cs ks Hk _ IHk]; intros IH Fm; constructor.
    + inversion IH as [|? ? I1 I2]; subst. inversion Fm as [|? ? ([F1 F2] & F3 & F4) F5]; subst. apply I1; auto.
    + inversion IH; subst. inversion Fm; subst. auto.
  - destruct G as (w0 & os & ks & Ev & Dn & Sv & Vs & Gt & Pm & Nd & Kd & Fm & Ap). exists w0, os, ks. repeat (split; [assumption|]).
    split.
    { eapply Forall_impl; [|exact Gt]. intros j (o & m & A1 & A2 & A3 & A4). exists o, m. rewrite (F _ (OU _ A4)). auto. }
    repeat (split; [assumption|]). split; [|split; [eapply family_len; eauto|auto]]. apply kin_forall2 in Kd. apply kin_forall2. destruct Fm as [Fm _].
    clear - IH Kd Fm L F. revert IH Fm. induction Kd as [|c k cs ks Hk _ IHk]; intros IH Fm; constructor.
    + inversion IH as [|? ? I1 I2]; subst. inversion Fm as [|? ? ([F1 F2] & F3 & F4) F5]; subst. apply I1; auto.
    + inversion IH; subst. inversion Fm; subst. auto.
  - destruct G as (s & ms & w0 & y & w & T & R & Ev & Ow & Kn). exists s, ms, w0, y, w.
    assert (F' : forall p q, nm s p q -> nth_error h' p = nth_error h p) by (intros; apply F; eapply Kn; eassumption).
    split; [eapply tracks_frame; eauto|]. split; [eapply tidy_frame; eauto|]. auto.
Qed.

Lemma good_sub r h t O U O' U' e : good r h t O U e -> sub O O' -> sub U U' -> good r h t O' U' e.
Proof.
  intros G S1 S2. destruct t as [f g|f bl i rest g cs|f cs got|g]; cbn [good] in *.
  - destruct G as (s & a & b & w0 & y & w & T & R & Ev & Ow & Kn). exists s, a, b, w0, y, w. repeat (split; [assumption|]). split; [intros p Hp; apply S1, Ow, Hp|intros p q Hp; eapply S2, Kn, Hp].
  - destruct G as (s & bl' & w0 & y & w & os & ks & T & R & Ev & Ow & Kn & Bl & Q & Dn & Sv & Nm & Vs & Kd & Fm & A1 & A2). exists s, bl', w0, y, w, os, ks.
    repeat (split; [assumption|]). split; [intros p Hp; apply S1, Ow, Hp|]. split; [intros p q Hp; eapply S2, Kn, Hp|].
    repeat (split; [assumption|]). split; [eapply family_sub; eauto|auto].
  - destruct G as (w0 & os & ks & Ev & Dn & Sv & Vs & Gt & Pm & Nd & Kd & Fm & Ap). exists w0, os, ks. repeat (split; [assumption|]).
    split; [eapply Forall_impl; [|exact Gt]; intros j (o & m & A1 & A2 & A3 & A4); exists o, m; auto|].
    repeat (split; [assumption|]). split; [eapply family_sub; eauto|auto].
  - destruct G as (s & ms & w0 & y & w & T & R & Ev & Ow & Kn). exists s, ms, w0, y, w. repeat (split; [assumption|]). split; [intros p Hp; apply S1, Ow, Hp|intros p q Hp; eapply S2, Kn, Hp].
Qed.

(** ** From one part of a call to the next *)

(** the goroutine has come to the end of its part *)
Lemma at_end {A} (R : view -> A -> A -> Prop) (z : prog A) (w0 : world) h g s y (w : world) a : tracks R z w0 h g s y w -> outcome g = Some (Ok a) ->
  exists b, R s a b /\ interp z w0 = (w, Ok b) /\ (forall p q, nm s p q -> exists m, nth_error h p = Some m /\ nth_error (w_heap w) q = Some m).
Proof.
  intros [T1 T2 T3 T4 T5 T6 T7] H. unfold outcome in H. destruct (g_back g) as [[b0 m0]|] eqn:Eb; [discriminate|].
  destruct (g_prog g) as [a'| | |E' k|p k|p m q|p r c k|p r c k|m k]; try discriminate. injection H as ->.
  destruct y as [b| | |E' k|p k|p m q|p r c k|p r c k|m k]; cbn [FineRel.rel] in T1; try contradiction.
  exists b. split; [exact T1|]. split; [symmetry; exact T2|]. exact T4.
Qed.

(** the same names, those of [D] only, nothing owned *)
Definition restrict (s : view) (D : names) : view.
Proof.
  refine {| nm := fun p q => nm s p q /\ D q; ow := fun _ => false |}.
  - intros p q q' [H _] [H' _]. exact (nm_fun s _ _ _ H H').
  - intros p p' q [H _] [H' _]. exact (nm_inj s _ _ _ H H').
Defined.

(** the world in which the next part begins *)
Definition anew (w : world) : world := {| w_heap := w_heap w; w_polls := 0 |}.

Lemma launch {A} (R : view -> A -> A -> Prop) (z z' : prog A) h s (w : world) : rel R s z z' -> (forall p, ow s p = false) ->
  (forall p q, nm s p q -> exists m, nth_error h p = Some m /\ nth_error (w_heap w) q = Some m /\ dense m) ->
  tracks R z' (anew w) h (go z) s z' (anew w) /\ tidy h s (go z).
Proof.
  intros H O D. split.
  - constructor; cbn [go g_prog g_back g_polls flush anew w_heap w_polls]; auto.
    + intros p q X. destruct (D p q X) as (m & A1 & A2 & _). eauto.
    + discriminate.
    + intros p X. rewrite O in X. discriminate.
    + intros p q m X _ Hm. destruct (D p q X) as (m' & A1 & A2 & A3). apply dense_steady. congruence.
  - split; cbn [go g_back]; [|discriminate]. intros p q m X _ Hm. destruct (D p q X) as (m' & A1 & A2 & A3). congruence.
Qed.

(** what depends on dense matrices only *)
Lemma value_anew (D : names) (z : prog ptr) (w : world) : rel Rnew (self D) z z -> calm D any z -> (forall p, D p -> dense_at w p) -> value z w = value z (anew w).
Proof. intros H C A. apply (value_rel (self D) D); auto. apply self_together; [exact A|reflexivity]. Qed.

Lemma cont_step f bl os i rest (w : world) : value (cont E (tree E x f) bl os (i :: rest)) w = value (let! xy := opnd E i bl in cont E (tree E x f) bl (os ++ [(i, xy)]) rest) w.
Proof.
  unfold value. assert (H : interp (cont E (tree E x f) bl os (i :: rest)) w = interp (let! xy := opnd E i bl in cont E (tree E x f) bl (os ++ [(i, xy)]) rest) w); [|rewrite H; reflexivity].
  unfold cont. cbn [opsT]. rewrite mbind_assoc. apply mbind_ext. intros xy w1. rewrite mbind_assoc. apply mbind_ext. intros l w2. cbn [mret mbind].
  rewrite <- app_assoc. reflexivity.
Qed.
Lemma cont_end f bl os (w : world) : value (cont E (tree E x f) bl os []) w = value (let! ms := gatherT (tree E x f) os in combine E ms) w.
Proof. unfold cont. cbn [opsT mret mbind]. rewrite app_nil_r. reflexivity. Qed.

Lemma Rblocks_self D bl : quarters D bl -> Rblocks (self D) bl bl.
Proof. unfold quarters, Rblocks, self. cbn [nm]. tauto. Qed.
Lemma Rlist_self (D : names) os : Forall (fun o => both D (snd o)) os -> Rlist (self D) os os.
Proof. intro H. induction H as [|o os [H1 H2] _ IH]; constructor; auto. split; [reflexivity|]. split; cbn; auto. Qed.
Lemma Rblocks_restrict s D bl bl' : Rblocks s bl bl' -> quarters D bl' -> Rblocks (restrict s D) bl bl'.
Proof. unfold quarters, Rblocks, restrict. cbn [nm]. tauto. Qed.
Lemma quarters_sub (D D' : names) bl : sub D D' -> quarters D bl -> quarters D' bl.
Proof. unfold quarters, sub. intuition auto. Qed.

Lemma cont_anew f bl os todo (w : world) : quarters (dense_at w) bl -> Forall (fun o => both (dense_at w) (snd o)) os ->
  value (cont E (tree E x f) bl os todo) w = value (cont E (tree E x f) bl os todo) (anew w).
Proof.
  intros H1 H2. apply (value_anew (dense_at w)).
  - apply cont_rel; [intros; apply tree_rel; assumption|apply Rblocks_self; exact H1|apply Rlist_self; exact H2].
  - eapply calm_any, cont_calm; auto. intros. apply tree_calm. exact K.
  - auto.
Qed.

Lemma product_anew f o (w : world) : both (dense_at w) o -> product f o w = product f o (anew w).
Proof.
  intros [H1 H2]. apply tree_local; [exact K|]. intros p [-> | ->]; [destruct H1 as (m & A1 & A2)|destruct H2 as (m & A1 & A2)]; exists m; auto.
Qed.
Lemma product_frame f o (w w' : world) : both (dense_at w) o -> (forall p, (p < length (w_heap w))%nat -> nth_error (w_heap w') p = nth_error (w_heap w) p) ->
  product f o w = product f o w'.
Proof.
  intros [H1 H2] F. apply tree_local; [exact K|].
  intros p [-> | ->]; [destruct H1 as (m & A1 & A2)|destruct H2 as (m & A1 & A2)]; exists m; (split; [exact A1|split; [exact A2|]]); rewrite F; auto; apply nth_error_Some; congruence.
Qed.

(** ** A step of a goroutine's own *)
Lemma tidy_step {A} (R : view -> A -> A -> Prop) (z : prog A) (w0 : world) h g s y (w : world) h' g' s' : tracks R z w0 h g s y w -> tidy h s g -> gstep h g = Some (h', g') ->
  le s s' -> (forall p, (p < length h)%nat -> ow s p = false -> nth_error h' p = nth_error h p) ->
  (forall p q, nm s' p q -> nm s p q \/ p = length h /\ (p < length h')%nat /\ ow s' p = true) -> tidy h' s' g'.
Proof.
  intros T [D B] G L F Nm. split.
  - intros p q m H1 H2 H3. destruct (Nm p q H1) as [H4|(_ & _ & H4)]; [|congruence].
    assert (O : ow s p = false) by (destruct (ow s p) eqn:O; [rewrite (le_ow _ _ L _ O) in H2; discriminate|reflexivity]).
    rewrite (F p (proj1 (tracks_lt _ _ _ _ _ _ _ _ T _ _ H4)) O) in H3. exact (D _ _ _ H4 O H3).
  - intros p m Hb. apply (le_ow _ _ L). destruct (ow s p) eqn:O; [reflexivity|exfalso].
    unfold gstep in G. destruct (g_back g) as [[b mb]|] eqn:Eb; [injection G as _ <-; discriminate|].
    pose proof (tr_rel _ _ _ _ _ _ _ _ T) as Tr.
    destruct (g_prog g) as [a| | |E' k|p1 k|p1 m1 q|p1 r c k|p1 r c k|m1 k]; try discriminate.
    + destruct (e_ctx E'); injection G as _ <-; discriminate.
    + destruct (nth_error h p1); injection G as _ <-; discriminate.
    + injection G as _ <-; discriminate.
    + destruct y; cbn [FineRel.rel] in Tr; try contradiction. destruct Tr as (Tp & _).
      destruct (nth_error h p1) as [m1|] eqn:Em; [|injection G as _ <-; discriminate].
      destruct (mat_At m1 r c) as [[v m']| |]; injection G as _ <-; try discriminate. cbn [g_back] in Hb.
      destruct (At_writes m1) eqn:Aw; [|discriminate]. injection Hb as -> _. specialize (D _ _ _ Tp O Em). destruct m1; try contradiction; discriminate.
    + destruct y; cbn [FineRel.rel] in Tr; try contradiction. destruct Tr as (Tp & _).
      destruct (nth_error h p1) as [m1|] eqn:Em; [|injection G as _ <-; discriminate].
      destruct (mat_Element m1 r c) as [[v m']| |]; injection G as _ <-; try discriminate. cbn [g_back] in Hb.
      destruct (Element_writes m1) eqn:Aw; [|discriminate]. injection Hb as -> _. specialize (D _ _ _ Tp O Em). destruct m1; try contradiction; discriminate.
    + injection G as _ <-; discriminate.
Qed.

(** and the new ones *)
Definition new_in (h h' : list mat) (X : names) : names := fun p => X p \/ (length h <= p < length h')%nat.

Lemma own_step {A} (R : view -> A -> A -> Prop) (z : prog A) (w0 : world) h g s y (w : world) h' g' O U : tracks R z w0 h g s y w -> gstep h g = Some (h', g') -> owns s O -> knows s U ->
  exists s' y' w', le s s' /\ tracks R z w0 h' g' s' y' w' /\ (tidy h s g -> tidy h' s' g') /\ (length h <= length h')%nat /\
    (forall p, (p < length h)%nat -> ow s p = false -> nth_error h' p = nth_error h p) /\
    (forall p, ow s' p = true -> ow s p = true \/ (length h <= p < length h')%nat) /\
    (forall p q, nm s' p q -> nm s p q \/ (length h <= p < length h')%nat) /\
    owns s' (new_in h h' O) /\ knows s' (new_in h h' U).
Proof.
  intros T G Ow Kn. destruct (gstep_tracks _ _ _ _ _ _ _ _ _ _ T G) as (s' & y' & w' & L & T' & Ln & F & Nm & On).
  exists s', y', w'. split; [exact L|]. split; [exact T'|]. split; [intro D; exact (tidy_step R z w0 h g s y w h' g' s' T D G L F Nm)|].
  split; [exact Ln|]. split; [exact F|].
  split; [intros p Hp; destruct (On p Hp) as [?|[-> ?]]; [left; assumption|right; lia]|].
  split; [intros p q Hp; destruct (Nm p q Hp) as [?|(-> & ? & _)]; [left; assumption|right; lia]|].
  split.
  - intros p Hp. destruct (On p Hp) as [X|[-> X]]; [left; apply Ow, X|right; lia].
  - intros p q Hp. destruct (Nm p q Hp) as [X|(-> & X & _)]; [left; eapply Kn, X|right; lia].
Qed.

Lemma fits_new h h' O U : fits h O U -> (length h <= length h')%nat -> fits h' (new_in h h' O) (new_in h h' U).
Proof. intros [F1 F2] L. split; intros p [H|H]; [left; apply F1, H|right; exact H|specialize (F2 p H); lia|lia]. Qed.
Lemma new_in_sub h h' X : sub X (new_in h h' X).
Proof. intros p H. left. exact H. Qed.

(** ** The end of a call *)
Lemma good_end r h t O U e p : good r h t O U e -> finished t = Some p -> exists m, e = Ok m /\ nth_error h p = Some m /\ O p.
Proof.
  intros G H. destruct t as [f g|f bl i rest g cs|f cs got|g]; cbn [good finished] in *; try discriminate.
  - destruct G as (s & a & b & w0 & y & w & T & R & Ev & Ow & Kn).
    destruct (outcome g) as [[[p'|bl]| |]|] eqn:Og; try discriminate. injection H as ->.
    destruct (at_end _ _ _ _ _ _ _ _ _ T Og) as ([q|bl] & A1 & A2 & A3); cbn [Rnext] in A1; [|contradiction]. destruct A1 as [A1 A4].
    destruct (A3 _ _ A1) as (m & B1 & B2). exists m. split; [|split; [exact B1|apply Ow, A4]].
    rewrite Ev. destruct f; cbn [tree]; rewrite (value_bind _ _ _ _ _ A2); unfold value; cbn [mret interp]; rewrite B2; reflexivity.
  - destruct G as (s & ms & w0 & y & w & T & R & Ev & Ow & Kn).
    destruct (outcome g) as [[p'| |]|] eqn:Og; try discriminate. injection H as ->.
    destruct (at_end _ _ _ _ _ _ _ _ _ T Og) as (q & [A1 A4] & A2 & A3).
    destruct (A3 _ _ A1) as (m & B1 & B2). exists m. split; [|split; [exact B1|apply Ow, A4]].
    rewrite Ev. unfold value. rewrite A2, B2. reflexivity.
Qed.

Lemma Forall2_len {A B} (P : A -> B -> Prop) l l' : Forall2 P l l' -> length l = length l'.
Proof. induction 1; cbn; congruence. Qed.

(** ** A step of a sub-product's goroutine *)
Lemma kid_step h h' O U c1 j t t' c2 ks :
  kin (fun t k => good false h t (k_O k) (k_U k) (k_e k)) (c1 ++ (j, t) :: c2) ks -> family h O U ks ->
  (forall r O U e, good r h t O U e -> fits h O U -> good r h' t' (new_in h h' O) (new_in h h' U) e /\ (length h <= length h')%nat /\
     (forall p, (p < length h)%nat -> ~ O p -> nth_error h' p = nth_error h p)) ->
  exists k1 k k2, let k' := MkKid (new_in h h' (k_O k)) (new_in h h' (k_U k)) (k_e k) in
    ks = k1 ++ k :: k2 /\ length k1 = length c1 /\ kin (fun t k => good false h' t (k_O k) (k_U k) (k_e k)) (c1 ++ (j, t') :: c2) (k1 ++ k' :: k2) /\
    family h' (new_in h h' O) (new_in h h' U) (k1 ++ k' :: k2) /\ (length h <= length h')%nat /\
    (forall p, (p < length h)%nat -> ~ k_O k p -> nth_error h' p = nth_error h p).
Proof.
  intros Kd [Fm Ap] IH. apply kin_forall2 in Kd. apply Forall2_app_inv_l in Kd. destruct Kd as (k1 & l2 & H1 & H2 & ->).
  inversion H2 as [|? k ? k2 H3 H4]; subst. cbn [snd] in H3. exists k1, k, k2. cbv zeta.
  apply Forall_app in Fm. destruct Fm as [Fm1 Fm2]. inversion Fm2 as [|? ? (Fk & Sk1 & Sk2) Fm3]; subst.
  destruct (IH _ _ _ _ H3 Fk) as (G & Ln & Fr).
  apply apart_app in Ap. destruct Ap as [Dj Ap].
  assert (Fits : forall k0, List.In k0 (k1 ++ k2) -> fits h (k_O k0) (k_U k0) /\ sub (k_O k0) O /\ sub (k_U k0) U).
  { intros k0 H0. apply in_app_or in H0. destruct H0 as [H0|H0]; [exact (proj1 (Forall_forall _ _) Fm1 _ H0)|exact (proj1 (Forall_forall _ _) Fm3 _ H0)]. }
  assert (Others : forall k0 t0, List.In k0 (k1 ++ k2) -> good false h t0 (k_O k0) (k_U k0) (k_e k0) -> good false h' t0 (k_O k0) (k_U k0) (k_e k0)).
  { intros k0 t0 H0 G0. destruct (Fits k0 H0) as ([F1 F2] & _). apply (good_frame _ h); auto.
    intros p Hp. apply Fr; [apply F2; exact Hp|]. intro X. exact (proj1 (proj1 (Forall_forall _ _) Dj _ H0 p) X Hp). }
  split; [reflexivity|]. split; [symmetry; exact (Forall2_len _ _ _ H1)|]. split.
  { apply kin_forall2. apply Forall2_app; [|constructor].
    - clear - H1 Others. assert (S : forall k, List.In k k1 -> List.In k (k1 ++ k2)) by (intros; apply in_or_app; auto). revert S.
      generalize (k1 ++ k2) as all, Others. intros all Oth. clear Others. intros S. induction H1 as [|c k0 cs ks H _ IHl]; constructor.
      + apply Oth; [apply S; left; reflexivity|exact H].
      + apply IHl. intros. apply S. right. assumption.
    - exact G.
    - clear - H4 Others. assert (S : forall k, List.In k k2 -> List.In k (k1 ++ k2)) by (intros; apply in_or_app; auto). revert S.
      generalize (k1 ++ k2) as all, Others. intros all Oth. clear Others. intros S. induction H4 as [|c k0 cs ks H _ IHl]; constructor.
      + apply Oth; [apply S; left; reflexivity|exact H].
      + apply IHl. intros. apply S. right. assumption. }
  split; [|split; [exact Ln|exact Fr]]. split.
  - assert (A : forall l, Forall (fun k => fits h (k_O k) (k_U k) /\ sub (k_O k) O /\ sub (k_U k) U) l ->
      Forall (fun k => fits h' (k_O k) (k_U k) /\ sub (k_O k) (new_in h h' O) /\ sub (k_U k) (new_in h h' U)) l).
    { intros l Hl. eapply Forall_impl; [|exact Hl]. intros k0 ([F1 F2] & F3 & F4). repeat split; auto.
      - intros p Hp. specialize (F2 p Hp). lia.
      - intros p Hp. left. apply F3, Hp.
      - intros p Hp. left. apply F4, Hp. }
    apply Forall_app. split; [apply A; exact Fm1|]. constructor; [|apply A; exact Fm3]. cbn [k_O k_U]. split; [apply fits_new; assumption|].
    split; intros p [Hp|Hp]; [left; apply Sk1, Hp|right; exact Hp|left; apply Sk2, Hp|right; exact Hp].
  - apply apart_app. split; [|exact Ap]. apply Forall_forall. intros k0 H0. pose proof (proj1 (Forall_forall _ _) Dj _ H0) as D0.
    destruct (Fits k0 H0) as ([F1 F2] & _). intros p. specialize (D0 p). cbn [k_O k_U]. split.
    + intros [X|X] Y; [exact (proj1 D0 X Y)|]. specialize (F2 p Y). lia.
    + intros X [Y|Y]; [exact (proj2 D0 X Y)|]. specialize (F2 p (F1 p X)). lia.
Qed.

(** ** The steps from part to part *)
Definition in_blocks (bl : blocks) : names := fun p => List.In p [b_a11 bl; b_a12 bl; b_a21 bl; b_a22 bl; b_b11 bl; b_b12 bl; b_b21 bl; b_b22 bl].
Lemma quarters_in bl : quarters (in_blocks bl) bl.
Proof. unfold quarters, in_blocks. cbn [List.In]. tauto. Qed.
Lemma in_quarters (P : names) bl p : quarters P bl -> in_blocks bl p -> P p.
Proof. unfold quarters, in_blocks. cbn [List.In]. intros H X. intuition (subst; assumption). Qed.

Lemma good_divided r h f g bl O U e : good r h (THead (S f) g) O U e -> outcome g = Some (Ok (Div bl)) ->
  good r h (TSpawn f bl 1 [2; 3; 4; 5; 6; 7] (go (opnd E 1 bl)) []) O U e.
Proof.
  cbn [good]. intros (s & a & b & w0 & y & w & T & R & Ev & Ow & Kn) Og.
  destruct (at_end _ _ _ _ _ _ _ _ _ T Og) as ([q|bl'] & A1 & A2 & A3); cbn [Rnext] in A1; [contradiction|].
  destruct (calm_run result (head E x (S f) a b) (fun _ => False) w0 (head_calm _ _ _ _ _ _ K)) as (D1 & _ & B2 & B3); [contradiction|].
  rewrite A2 in B2, B3. cbn [fst snd] in B2, B3. specialize (B3 _ eq_refl). cbn [result] in B3.
  assert (Q : quarters (dense_at w) bl') by (eapply quarters_sub; [|exact B3]; exact B2).
  set (sn := restrict s (in_blocks bl')).
  assert (Rb : Rblocks sn bl bl') by (apply Rblocks_restrict; [exact A1|apply quarters_in]).
  destruct (launch Rpair (opnd E 1 bl) (opnd E 1 bl') h sn w) as [L1 L2].
  { apply opnd_rel. exact Rb. }
  { reflexivity. }
  { intros p q [X1 X2]. destruct (A3 _ _ X1) as (m & Y1 & Y2). exists m. repeat split; auto.
    destruct (in_quarters _ _ _ Q X2) as (m' & Z1 & Z2). congruence. }
  exists sn, bl', (anew w), (opnd E 1 bl'), (anew w), [], []. split; [exact L1|]. split; [exact L2|]. split.
  { rewrite Ev. cbn [tree]. rewrite (value_bind _ _ _ _ _ A2). rewrite cont_anew; [|exact Q|constructor]. unfold seven. rewrite cont_step. reflexivity. }
  split; [intros p X; discriminate|]. split; [intros p q [X _]; exact (Kn _ _ X)|].
  split; [exact Rb|]. split; [exact Q|]. split; [constructor|]. split; [reflexivity|]. split; [reflexivity|]. split; [constructor|].
  split; [exact Logic.I|]. split; [split; [constructor|exact Logic.I]|]. split; intros k p [].
Qed.

Lemma match_kids {A B C} (cs : list (Z * A)) (ks : list B) (os : list (Z * C)) (P : B -> C -> Prop) {all} : (forall o, List.In o os -> List.In o all) ->
  map fst cs = map fst os -> Forall2 (fun k o => P k (snd o)) ks os -> Forall2 (fun c k => exists o, List.In (fst c, o) all /\ P k o) cs ks.
Proof.
  intros S Nm Vk. revert cs Nm S. induction Vk as [|k0 o ks os X _ IH]; intros cs Nm S; destruct cs as [|c cs]; try discriminate; constructor.
  - cbn [map] in Nm. injection Nm as Nm _. exists (snd o). split; [|exact X]. rewrite Nm, <- surjective_pairing. apply S. left. reflexivity.
  - cbn [map] in Nm. injection Nm as _ Nm. apply IH; [exact Nm|]. intros. apply S. right. assumption.
Qed.

Lemma good_go r h f bl i rest g cs a b O U e : good r h (TSpawn f bl i rest g cs) O U e -> outcome g = Some (Ok (a, b)) ->
  good r h (spawned E f bl rest (cs ++ [(i, THead f (go (head E x f a b)))])) O U e.
Proof.
  cbn [good]. intros (s & bl' & w0 & y & w & os & ks & T & R & Ev & Ow & Kn & Bl & Q & Dn & Sv & Nm & Vs & Kd & Fm & S1 & S2) Og.
  destruct (at_end _ _ _ _ _ _ _ _ _ T Og) as ([a' b'] & [A1 A1'] & A2 & A3). cbn [fst snd] in A1, A1'.
  destruct (opnd_run E i bl' w0 w _ Q A2) as (B1 & B2 & B3). specialize (B3 _ eq_refl).
  assert (Q' : quarters (dense_at w) bl') by (eapply quarters_sub; [|exact Q]; intros p X; eapply dense_at_frame; eauto).
  assert (Dn' : Forall (fun o => both (dense_at w) (snd o)) (os ++ [(i, (a', b'))])).
  { apply Forall_app. split; [|constructor; [exact B3|constructor]]. eapply Forall_impl; [|exact Dn]. intros o [X1 X2]. split; eapply dense_at_frame; eauto. }
  (* the new goroutine *)
  set (D2 := fun q => q = a' \/ q = b'). set (sk := restrict s D2).
  set (k := MkKid (fun _ => False) (fun p => exists q, nm sk p q) (product f (a', b') (anew w))).
  assert (Gk : good false h (THead f (go (head E x f a b))) (k_O k) (k_U k) (k_e k)).
  { destruct (launch Rnext (head E x f a b) (head E x f a' b') h sk w) as [L1 L2].
    { apply head_rel; (split; [assumption|]); [left|right]; reflexivity. }
    { reflexivity. }
    { intros p q [X1 X2]. destruct (A3 _ _ X1) as (m & Y1 & Y2). exists m. repeat split; auto.
      assert (Z : dense_at w q) by (destruct B3; destruct X2; subst; assumption). destruct Z as (m' & Z1 & Z2). congruence. }
    cbn [good k_O k_U k_e k]. exists sk, a', b', (anew w), (head E x f a' b'), (anew w). split; [exact L1|]. split; [right; exact L2|]. split; [reflexivity|].
    split; [intros p X; discriminate|]. intros p q X. exists q. exact X. }
  assert (Fk : family h O U (ks ++ [k])).
  { destruct Fm as [Fm Ap]. split.
    - apply Forall_app. split; [exact Fm|]. constructor; [|constructor]. cbn [k k_O k_U]. repeat split; try contradiction.
      + intros p [q [X _]]. destruct (A3 _ _ X) as (m & Y & _). apply nth_error_Some. congruence.
      + intros p X. contradiction.
      + intros p [q [X _]]. exact (Kn _ _ X).
    - apply apart_last; [exact Ap|]. apply Forall_forall. intros k0 H0 p. cbn [k k_O k_U]. split; [|contradiction].
      intros X [q [Y _]]. exact (S1 _ _ H0 X _ Y). }
  assert (Kk : kin (fun t k => good false h t (k_O k) (k_U k) (k_e k)) (cs ++ [(i, THead f (go (head E x f a b)))]) (ks ++ [k])).
  { apply kin_forall2 in Kd. apply kin_forall2. apply Forall2_app; [exact Kd|]. constructor; [exact Gk|constructor]. }
  assert (Vk : Forall2 (fun k o => k_e k = product f (snd o) (anew w)) (ks ++ [k]) (os ++ [(i, (a', b'))])).
  { apply Forall2_app; [|constructor; [reflexivity|constructor]].
    clear - Vs Dn B2 K. induction Vs as [|k0 o ks os X _ IHv]; constructor; inversion Dn as [|? ? Y1 Y2]; subst; [|apply IHv; exact Y2].
    rewrite X. rewrite <- product_anew; [apply product_frame; assumption|]. destruct Y1. split; eapply dense_at_frame; eauto. }
  assert (Ev' : e = value (cont E (tree E x f) bl' (os ++ [(i, (a', b'))]) rest) (anew w)).
  { rewrite Ev. rewrite (value_bind _ _ _ _ _ A2). apply cont_anew; assumption. }
  assert (Nm' : map fst (cs ++ [(i, THead f (go (head E x f a b)))]) = map fst (os ++ [(i, (a', b'))])) by (rewrite !map_app, Nm; reflexivity).
  destruct rest as [|j rest]; cbn [spawned good].
  - (* receiving *)
    exists (anew w), (os ++ [(i, (a', b'))]), (ks ++ [k]). split; [rewrite Ev'; apply cont_end|].
    split; [exact Dn'|]. split; [rewrite map_app; exact Sv|]. split.
    { exact (match_kids _ _ _ (fun k o => k_e k = product f o (anew w)) (fun o X => X) Nm' Vk). }
    split; [constructor|]. split; [cbn [map app]; rewrite Nm', map_app; cbn [map fst]; rewrite Sv; apply Permutation_refl|].
    split; [constructor|]. split; [exact Kk|]. split; [exact Fk|]. intros ? ? _ [].
  - (* the next sub-product *)
    set (sn := restrict s (in_blocks bl')).
    assert (Rb : Rblocks sn bl bl') by (apply Rblocks_restrict; [exact Bl|apply quarters_in]).
    destruct (launch Rpair (opnd E j bl) (opnd E j bl') h sn w) as [L1 L2].
    { apply opnd_rel. exact Rb. }
    { reflexivity. }
    { intros p q [X1 X2]. destruct (A3 _ _ X1) as (m & Y1 & Y2). exists m. repeat split; auto.
      destruct (in_quarters _ _ _ Q' X2) as (m' & Z1 & Z2). congruence. }
    exists sn, bl', (anew w), (opnd E j bl'), (anew w), (os ++ [(i, (a', b'))]), (ks ++ [k]).
    split; [exact L1|]. split; [exact L2|]. split; [rewrite Ev'; apply cont_step|].
    split; [intros p X; discriminate|]. split; [intros p q [X _]; exact (Kn _ _ X)|].
    split; [exact Rb|]. split; [exact Q'|]. split; [exact Dn'|]. split; [rewrite map_app, <- app_assoc; exact Sv|]. split; [exact Nm'|]. split; [exact Vk|].
    split; [exact Kk|]. split; [exact Fk|]. split; [|intros ? ? _ X; discriminate].
    intros k0 p H0 X q [Y _]. apply in_app_or in H0. destruct H0 as [H0|[<-|[]]]; [exact (S1 _ _ H0 X _ Y)|exact X].
Qed.

Lemma app_same {A} (a b c d : list A) : a ++ b = c ++ d -> length a = length c -> a = c /\ b = d.
Proof. revert c. induction a as [|y a IH]; intros [|z c] H L; try discriminate; [auto|]. cbn in *. injection H as -> H. injection L as L. destruct (IH c H L) as [-> ->]. auto. Qed.

Lemma good_receive r h f c1 j t c2 got p O U e : good r h (TRecv f (c1 ++ (j, t) :: c2) got) O U e -> finished t = Some p ->
  good r h (TRecv f (c1 ++ c2) (got ++ [(j, p)])) O U e.
Proof.
  cbn [good]. intros (w0 & os & ks & Ev & Dn & Sv & Vs & Gt & Pm & Nd & Kd & Fm & Ap) Fi.
  apply kin_forall2 in Kd. apply Forall2_app_inv_l in Kd. destruct Kd as (k1 & l2 & H1 & H2 & ->).
  inversion H2 as [|? k ? k2 H3 H4]; subst. cbn [snd] in H3. destruct (good_end _ _ _ _ _ _ _ H3 Fi) as (m & Em & Hm & Op).
  apply Forall2_app_inv_l in Vs. destruct Vs as (k1' & l2' & V1 & V2 & Ek).
  assert (L : length k1 = length k1') by (rewrite <- (Forall2_len _ _ _ H1), <- (Forall2_len _ _ _ V1); reflexivity).
  apply app_same in Ek; [|exact L]. destruct Ek as [<- <-].
  inversion V2 as [|? ? ? ? (o & V3 & V5) V4]; subst. cbn [fst] in V3. clear V2.
  destruct Fm as [Fm Dj]. apply apart_app in Dj. destruct Dj as [Dj1 Dj2]. apply Forall_app in Fm. destruct Fm as [Fm1 Fm2]. inversion Fm2 as [|? ? (Fk & Sk1 & Sk2) Fm3]; subst.
  assert (Npm : forall j', List.In j' got -> snd j' <> p).
  { intros j' H' <-. apply (Ap k j'); [apply in_or_app; right; left; reflexivity|exact H'|]. apply (proj1 Fk), Op. }
  exists w0, os, (k1 ++ k2). split; [reflexivity|]. split; [exact Dn|]. split; [exact Sv|]. split; [apply Forall2_app; assumption|]. split.
  { apply Forall_app. split; [exact Gt|]. constructor; [|constructor]. exists o, m. cbn [fst snd]. rewrite <- V5. auto. }
  split.
  { rewrite map_app in Pm |- *. rewrite map_app. cbn [map fst] in Pm |- *. rewrite <- app_assoc. cbn [app]. eapply Permutation_trans; [|exact Pm].
    apply Permutation_app_head. apply Permutation_middle. }
  split.
  { rewrite map_app. cbn [map snd]. apply Permutation_NoDup with (l := p :: map snd got); [apply Permutation_cons_append|]. constructor; [|exact Nd].
    intro X. apply in_map_iff in X. destruct X as (j' & X1 & X2). exact (Npm j' X2 X1). }
  split; [apply kin_forall2; apply Forall2_app; assumption|].
  split; [split; [apply Forall_app; split; assumption|exact Dj2]|].
  intros k0 j' H0 H' X. apply in_app_or in H'. destruct H' as [H'|[<-|[]]].
  - apply (Ap k0 j'); [|exact H'|exact X]. apply in_app_or in H0. apply in_or_app. destruct H0; [left|right; right]; assumption.
  - cbn [snd] in X. exact (proj1 (proj1 (Forall_forall _ _) Dj1 _ H0 p) Op X).
Qed.

(** ** Putting the results together *)
Lemma received_perm i (l l' : list (Z * ptr)) : NoDup (map fst l) -> Permutation l l' -> received (N := N) i l = received i l'.
Proof.
  intros Nd P. induction P as [|[j p] l l' P IH|[j p] [j' p'] l|l1 l2 l3 P1 IH1 P2 IH2].
  - reflexivity.
  - cbn [received]. destruct (j =? i); [reflexivity|]. apply IH. cbn in Nd. inversion Nd; assumption.
  - cbn [received]. cbn in Nd. destruct (Z.eqb_spec j' i), (Z.eqb_spec j i); try reflexivity. subst. exfalso. inversion Nd as [|? ? X _]; subst. apply X. left. reflexivity.
  - rewrite IH1 by exact Nd. apply IH2. eapply Permutation_NoDup; [|exact Nd]. apply Permutation_map. exact P1.
Qed.
Lemma combine_perm (l l' : list (Z * ptr)) : NoDup (map fst l) -> Permutation l l' -> combine (N := N) E l = combine E l'.
Proof. intros Nd P. unfold combine. rewrite !(received_perm _ _ _ Nd P). reflexivity. Qed.

Lemma nodup_key {A B} (l : list (A * B)) j p p' : NoDup (map fst l) -> List.In (j, p) l -> List.In (j, p') l -> p = p'.
Proof.
  induction l as [|[j0 p0] l IH]; intros Nd H H'; [contradiction|]. cbn in Nd. inversion Nd as [|? ? X Y]; subst.
  destruct H as [H|H], H' as [H'|H']; try congruence.
  - injection H as <- <-. destruct X. apply in_map_iff. exists (j0, p'). auto.
  - injection H' as <- <-. destruct X. apply in_map_iff. exists (j0, p). auto.
  - auto.
Qed.
Lemma nodup_val {A B} (l : list (A * B)) j j' p : NoDup (map snd l) -> List.In (j, p) l -> List.In (j', p) l -> j = j'.
Proof.
  induction l as [|[j0 p0] l IH]; intros Nd H H'; [contradiction|]. cbn in Nd. inversion Nd as [|? ? X Y]; subst.
  destruct H as [H|H], H' as [H'|H']; try congruence.
  - injection H as <- <-. destruct X. apply in_map_iff. exists (j', p0). auto.
  - injection H' as <- <-. destruct X. apply in_map_iff. exists (j, p0). auto.
  - auto.
Qed.
Lemma nodup_seven : NoDup seven.
Proof. unfold seven. repeat constructor; cbn [List.In]; intuition discriminate. Qed.

(** results that carry the same number *)
Definition same_number (l l' : list (Z * ptr)) (K1 : NoDup (map fst l)) (K2 : NoDup (map snd l)) (K3 : NoDup (map fst l')) (K4 : NoDup (map snd l')) : view.
Proof.
  refine {| nm := fun p q => exists j, List.In (j, p) l /\ List.In (j, q) l'; ow := fun _ => false |}.
  - intros p q q' (j & A1 & A2) (j' & B1 & B2). rewrite (nodup_val _ _ _ _ K2 A1 B1) in A2. exact (nodup_key _ _ _ _ K3 A2 B2).
  - intros p p' q (j & A1 & A2) (j' & B1 & B2). rewrite (nodup_val _ _ _ _ K4 A2 B2) in A1. exact (nodup_key _ _ _ _ K1 A1 B1).
Defined.

Lemma same_recv (l l' : list (Z * ptr)) (P : Z -> ptr -> ptr -> Prop) : map fst l = map fst l' -> (forall j p q, List.In (j, p) l -> List.In (j, q) l' -> P j p q) ->
  Forall2 (fun a b => fst a = fst b /\ P (fst a) (snd a) (snd b)) l l'.
Proof.
  revert l'. induction l as [|[j p] l IH]; intros [|[j' p'] l'] H HP; try discriminate; constructor.
  - cbn in H. injection H as -> _. cbn [fst snd]. split; [reflexivity|]. apply HP; left; reflexivity.
  - cbn in H. injection H as _ H. apply IH; [exact H|]. intros. apply HP; right; assumption.
Qed.

Lemma good_received r h f got O U e : good r h (TRecv f [] got) O U e -> sub O U -> good r h (TComb (go (combine E got))) O U e.
Proof.
  cbn [good]. intros (w0 & os & ks & Ev & Dn & Sv & Vs & Gt & Pm & Nd & Kd & Fm & Ap) OU. cbn [map] in Pm. rewrite app_nil_r in Pm.
  destruct (Permutation_map_inv fst got (Permutation_sym Pm)) as (ms0 & E0 & P0).
  assert (K1 : NoDup (map fst ms0)) by (rewrite <- E0; exact nodup_seven).
  assert (K1' : NoDup (map fst got)) by (eapply Permutation_NoDup; [apply Permutation_sym, Pm|exact nodup_seven]).
  assert (K2 : NoDup (map snd ms0)) by (eapply Permutation_NoDup; [apply Permutation_map, P0|exact Nd]).
  assert (K0 : NoDup (map fst os)) by (rewrite Sv; exact nodup_seven).
  (* one after the other *)
  destruct (interp (gatherT (tree E x f) os) w0) as [w1 o] eqn:Eg.
  destruct (gather_run E x f os K w0 w1 o Dn Eg) as (B1 & B2 & B3 & B4).
  assert (Got : forall j p, List.In (j, p) ms0 -> exists o m, List.In (j, o) os /\ product f o w0 = Ok m /\ nth_error h p = Some m /\ O p).
  { intros j p X. apply (Permutation_in _ (Permutation_sym P0)) in X. exact (proj1 (Forall_forall _ _) Gt _ X). }
  destruct B4 as [ms ->].
  { intros [j o'] X. assert (Y : List.In j (map fst ms0)) by (rewrite <- E0, <- Sv; apply in_map_iff; exists (j, o'); auto).
    apply in_map_iff in Y. destruct Y as ([j' p] & Y1 & Y2). cbn [fst] in Y1. subst j'. destruct (Got _ _ Y2) as (o2 & m & Z1 & Z2 & _).
    rewrite (nodup_key _ _ _ _ K0 X Z1). exists m. exact Z2. }
  destruct (B3 ms eq_refl) as [K4 C].
  assert (Kf : map fst ms = seven).
  { rewrite <- Sv. clear - C. induction C as [|a b l l' (X & _) _ IH]; [reflexivity|]. cbn [map]. rewrite IH, X. reflexivity. }
  assert (K3 : NoDup (map fst ms)) by (rewrite Kf; exact nodup_seven).
  assert (Res : forall j q, List.In (j, q) ms -> exists o m, List.In (j, o) os /\ product f o w0 = Ok m /\ nth_error (w_heap w1) q = Some m /\ dense m).
  { clear - C. intros j q X. revert X. induction C as [|a [j' q'] l l' (Y1 & Y2 & m & Y3 & Y4 & Y5) _ IH]; [contradiction|]. intros [X|X].
    - injection X as -> ->. cbn [fst snd] in *. exists (snd a), m. repeat split; auto. left. destruct a; cbn in *; congruence.
    - destruct (IH X) as (o & m' & Z1 & Z2). exists o, m'. split; [right; exact Z1|exact Z2]. }
  set (s := same_number ms0 ms K1 K2 K3 K4).
  rewrite (combine_perm got ms0 K1' P0).
  assert (Obj : forall p q, nm s p q -> exists m, nth_error h p = Some m /\ nth_error (w_heap w1) q = Some m /\ dense m).
  { intros p q (j & X1 & X2). destruct (Got _ _ X1) as (o1 & m & Y1 & Y2 & Y3 & _). destruct (Res _ _ X2) as (o2 & m' & Z1 & Z2 & Z3 & Z4).
    rewrite (nodup_key _ _ _ _ K0 Y1 Z1) in Y2. exists m. assert (m' = m) by congruence. subst m'. auto. }
  destruct (launch Rnew (combine E ms0) (combine E ms) h s w1) as [L1 L2].
  { apply combine_rel. eapply Forall2_in; [|apply (same_recv ms0 ms (fun _ p q => nm s p q)); [rewrite <- E0, Kf; reflexivity|]].
    - intros a b _ X. exact X.
    - intros j p q X Y. exists j. auto. }
  { reflexivity. }
  { exact Obj. }
  exists s, ms, (anew w1), (combine E ms), (anew w1). split; [exact L1|]. split; [exact L2|]. split.
  { rewrite Ev. rewrite (value_bind _ _ _ _ _ Eg). apply (value_anew (dense_at w1)).
    - apply combine_rel. assert (Z : Forall (fun m => dense_at w1 (snd m)) ms).
      { apply Forall_forall. intros [j q] X. destruct (Res _ _ X) as (? & m & _ & _ & Y). exists m. exact Y. }
      clear - Z. induction Z; constructor; auto. split; [reflexivity|]. cbn. auto.
    - eapply calm_any, combine_calm. exact K.
    - auto. }
  split; [intros p X; discriminate|]. intros p q (j & X & _). apply OU. destruct (Got _ _ X) as (? & ? & _ & _ & _ & Y). exact Y.
Qed.
End FineStrassenInv.
