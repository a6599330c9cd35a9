(** Goroutines that call the library at the same time.

    Every goroutine runs a tree of steps (Fine.v); a scheduler picks, step by step, whose turn it
    is.  There is one heap.  No lock is involved: this is what a program gets that uses matrices
    from several goroutines without any. *)
From Coq Require Import String.
From Verif Require Import GoBase Num SparseVec Csr Csc DenseVec DenseMat Mat World Ops MathOps Bfs Spec Api BaseProofs MatProofs ReachProofs Fine FineRel.

Section FineConc.
Context {N : num}.
Notation V := (T N).
Notation mat := (mat N).
Notation prog := (prog N).
Notation world := (world N).

(** [At] and [Element] of the sparse matrices and [At] of the sparse vector are [Update]s that store the
    value they found again (csrMatrix.go:99-106, 404-411, cscMatrix.go:107-114, 414-421,
    sparseVector.go:116-123); [Element] of the sparse vector and both on dense objects only look
    (sparseVector.go:369-371, denseMatrix.go:105-115, 360-366, denseVector.go:132-134, 353-355). *)
Definition At_writes (m : mat) : bool := match m with MCSR _ | MCSC _ | MSV _ => true | MDM _ | MDV _ => false end.
Definition Element_writes (m : mat) : bool := match m with MCSR _ | MCSC _ => true | MDM _ | MDV _ | MSV _ => false end.

(** A goroutine: what it has left to do; the object that [At] or [Element] is about to write back;
    how often it has tested its context.  Contexts: the tree of a goroutine
    says from which of *its own* tests on the context is done, so for a context shared by several
    goroutines the numbers in their trees differ. *)
Record gor (A : Type) : Type := MkGor { g_prog : prog A; g_back : option (ptr * mat); g_polls : nat }.
Arguments MkGor {A}. Arguments g_prog {A}. Arguments g_back {A}. Arguments g_polls {A}.

(** the next step of a goroutine; [None] when it has none *)
Definition gstep {A} (h : list mat) (g : gor A) : option (list mat * gor A) :=
  match g_back g with
  | Some (p, m) => Some (list_set h p m, MkGor (g_prog g) None (g_polls g))
  | None =>
      match g_prog g with
      | Ret _ | Stop | Hang => None
      | Poll E k => match e_ctx E with
                    | None => Some (h, MkGor (k false) None (g_polls g))
                    | Some n => Some (h, MkGor (k (Nat.leb n (g_polls g))) None (S (g_polls g)))
                    end
      | Load p k => match nth_error h p with
                    | Some m => Some (h, MkGor (k m) None (g_polls g))
                    | None => Some (h, MkGor Stop None (g_polls g))
                    end
      | Store p m q => Some (list_set h p m, MkGor q None (g_polls g))
      | AtOp p r c k => match nth_error h p with
                        | Some m => match mat_At m r c with
                                    | Ok (v, m') => Some (h, MkGor (k v) (if At_writes m then Some (p, m') else None) (g_polls g))
                                    | Panic => Some (h, MkGor Stop None (g_polls g))
                                    | Diverge => Some (h, MkGor Hang None (g_polls g))
                                    end
                        | None => Some (h, MkGor Stop None (g_polls g))
                        end
      | ElemOp p r c k => match nth_error h p with
                          | Some m => match mat_Element m r c with
                                      | Ok (b, m') => Some (h, MkGor (k b) (if Element_writes m then Some (p, m') else None) (g_polls g))
                                      | Panic => Some (h, MkGor Stop None (g_polls g))
                                      | Diverge => Some (h, MkGor Hang None (g_polls g))
                                      end
                          | None => Some (h, MkGor Stop None (g_polls g))
                          end
      | Alloc m k => Some (h ++ [m], MkGor (k (length h)) None (g_polls g))
      end
  end.

(** one step of the program: some goroutine's next step *)
Inductive move {A} : list mat * list (gor A) -> list mat * list (gor A) -> Prop :=
| move_one : forall h gs i g h' g', nth_error gs i = Some g -> gstep h g = Some (h', g') ->
    move (h, gs) (h', list_set gs i g').

(** any number of steps *)
Inductive moves {A} : list mat * list (gor A) -> list mat * list (gor A) -> Prop :=
| moves_none : forall x, moves x x
| moves_more : forall x y z, moves x y -> move y z -> moves x z.

(** goroutines that are about to run the trees [xs]; the context has been tested [n] times *)
Definition start (n : nat) {A} (xs : list (prog A)) : list (gor A) := map (fun x => MkGor x None n) xs.

(** how a goroutine ended; [None] when it is still running *)
Definition outcome {A} (g : gor A) : option (res A) :=
  match g_back g, g_prog g with
  | None, Ret a => Some (Ok a)
  | None, Stop => Some Panic
  | None, Hang => Some Diverge
  | _, _ => None
  end.

(** the object that the next step of a goroutine reads or writes ([true]) *)
Definition next_touch {A} (g : gor A) : option (ptr * bool) :=
  match g_back g with
  | Some (p, _) => Some (p, true)
  | None => match g_prog g with
            | Load p _ | AtOp p _ _ _ | ElemOp p _ _ _ => Some (p, false)
            | Store p _ _ => Some (p, true)
            | _ => None
            end
  end.

(** a data race: two goroutines are about to touch the same object, at least one of them writing *)
Definition racing {A} (gs : list (gor A)) : Prop :=
  exists i j g g' p b b', i <> j /\ nth_error gs i = Some g /\ nth_error gs j = Some g' /\
    next_touch g = Some (p, b) /\ next_touch g' = Some (p, b') /\ b || b' = true.

(** ** What one goroutine sees *)

(** looking at the object does not change it *)
Definition steady (m : mat) : Prop :=
  (forall r c v m', mat_At m r c = Ok (v, m') -> m' = m) /\ (forall r c b m', mat_Element m r c = Ok (b, m') -> m' = m).

(** the heap once the goroutine has written back what it is about to write back *)
Definition flush (b : option (ptr * mat)) (h : list mat) : list mat :=
  match b with Some (p, m) => list_set h p m | None => h end.

(** The goroutine [g] is where a run of [x] alone from the world [w0] is, at [y] in the world [w]; the
    objects go by the names [s]. *)
Record tracks {A} (R : view -> A -> A -> Prop) (x : prog A) (w0 : world) (h : list mat) (g : gor A) (s : view)
    (y : prog A) (w : world) : Prop := MkTracks {
  tr_rel : rel R s (g_prog g) y;
  tr_run : interp y w = interp x w0;
  tr_polls : g_polls g = w_polls w;
  tr_obj : forall p q, nm s p q -> exists m, nth_error (flush (g_back g) h) p = Some m /\ nth_error (w_heap w) q = Some m;
  tr_back : forall p m, g_back g = Some (p, m) -> (exists q, nm s p q) /\ (ow s p = true \/ nth_error h p = Some m);
  tr_dom : forall p, ow s p = true -> exists q, nm s p q;
  tr_still : forall p q m, nm s p q -> ow s p = false -> nth_error h p = Some m -> steady m;
}.

Lemma flush_length b h : length (flush b h) = length h.
Proof. destruct b as [[p m]|]; [apply length_list_set|reflexivity]. Qed.

Lemma tracks_lt {A} R (x : prog A) w0 h g s y w : tracks R x w0 h g s y w -> forall p q, nm s p q -> (p < length h)%nat /\ (q < length (w_heap w))%nat.
Proof.
  intros T p q H. destruct (tr_obj _ _ _ _ _ _ _ _ T p q H) as (m & H1 & H2). split.
  - rewrite <- (flush_length (g_back g) h). apply nth_error_Some. rewrite H1. discriminate.
  - apply nth_error_Some. rewrite H2. discriminate.
Qed.

(** the goroutine does not notice what happens to objects it does not know *)
Lemma tracks_frame {A} R (x : prog A) w0 h h' g s y w : tracks R x w0 h g s y w ->
  (forall p q, nm s p q -> nth_error h' p = nth_error h p) -> tracks R x w0 h' g s y w.
Proof.
  intros T K. destruct T as [T1 T2 T3 T4 T5 T6 T7]. constructor; auto.
  - intros p q H. destruct (T4 p q H) as (m & H1 & H2). exists m. split; [|exact H2]. rewrite <- H1.
    destruct (g_back g) as [[b mb]|] eqn:Eb; cbn [flush]; [|exact (K _ _ H)].
    rewrite !nth_error_list_set, (K _ _ H). reflexivity.
  - intros p m H. destruct (T5 p m H) as [[q Hq] [O|O]]; (split; [exists q; exact Hq|]); [left; exact O|right]. rewrite (K _ _ Hq). exact O.
  - intros p q m H O Hm. rewrite (K _ _ H) in Hm. exact (T7 p q m H O Hm).
Qed.

Lemma At_looks m r c v m' : mat_At m r c = Ok (v, m') -> At_writes m = false -> m' = m.
Proof. destruct m; cbn [At_writes mat_At]; try discriminate; intros H _; [destruct (dm_At s r c)|destruct (dv_At s r c)]; cbn in H; congruence. Qed.
Lemma Element_looks m r c v m' : mat_Element m r c = Ok (v, m') -> Element_writes m = false -> m' = m.
Proof. destruct m; cbn [Element_writes mat_Element]; try discriminate; intros H _; [destruct (dm_Element s r c)|destruct (dv_Element s r c)|destruct (sv_Element s r c)]; cbn in H; congruence. Qed.

(** ** One step of one goroutine *)
Lemma gstep_tracks {A} R (x : prog A) w0 h g s y w h' g' : tracks R x w0 h g s y w -> gstep h g = Some (h', g') ->
  exists s' y' w', le s s' /\ tracks R x w0 h' g' s' y' w' /\
    (length h <= length h')%nat /\
    (forall p, (p < length h)%nat -> ow s p = false -> nth_error h' p = nth_error h p) /\
    (forall p q, nm s' p q -> nm s p q \/ p = length h /\ (p < length h')%nat /\ ow s' p = true) /\
    (forall p, ow s' p = true -> ow s p = true \/ p = length h /\ (p < length h')%nat).
Proof.
  intros T G. pose proof (tracks_lt _ _ _ _ _ _ _ _ T) as Hlt. destruct T as [T1 T2 T3 T4 T5 T6 T7]. destruct g as [pr bk pl]. cbn [g_prog g_back g_polls] in *.
  unfold gstep in G. cbn [g_prog g_back g_polls] in G.
  destruct bk as [[b mb]|].
  { (* writing back *)
    injection G as <- <-. exists s, y, w. cbn [flush] in *. destruct (T5 b mb eq_refl) as [[q Hq] O].
    split; [apply le_refl|]. split; [constructor; cbn [g_prog g_back g_polls flush]; auto; try discriminate|].
    { intros p q' m H Ho Hm. apply (T7 p q' m H Ho). destruct O as [O|O].
      - rewrite nth_error_list_set_neq in Hm; [exact Hm|]. intros ->. congruence.
      - rewrite (list_set_same _ _ _ O) in Hm. exact Hm. }
    rewrite length_list_set. split; [lia|]. split.
    { intros p _ Ho. destruct O as [O|O]; [apply nth_error_list_set_neq; intros ->; congruence|rewrite (list_set_same _ _ _ O); reflexivity]. }
    split; auto. }
  cbn [flush] in *.
  assert (Same : forall pr' y' w', rel R s pr' y' -> interp y' w' = interp x w0 -> pl = w_polls w' -> w_heap w' = w_heap w ->
    h' = h -> g' = MkGor pr' None pl -> exists s' y' w', le s s' /\ tracks R x w0 h' g' s' y' w' /\
    (length h <= length h')%nat /\ (forall p, (p < length h)%nat -> ow s p = false -> nth_error h' p = nth_error h p) /\
    (forall p q, nm s' p q -> nm s p q \/ p = length h /\ (p < length h')%nat /\ ow s' p = true) /\ (forall p, ow s' p = true -> ow s p = true \/ p = length h /\ (p < length h')%nat)).
  { intros pr' y' w' H1 H2 H3 H4 -> ->. exists s, y', w'. split; [apply le_refl|]. split; [|split; [lia|]; split; [reflexivity|]; split; auto].
    constructor; cbn [g_prog g_back g_polls flush]; auto; try discriminate. rewrite H4. exact T4. }
  (* At and Element *)
  assert (Look : forall (B : Type) (pp qq : ptr) (k k' : B -> prog A) (v : B) m m' (b : bool), nm s pp qq -> (forall v, rel R s (k v) (k' v)) ->
    nth_error h pp = Some m -> (steady m -> m' = m) -> (b = false -> m' = m) -> interp (k' v) {| w_heap := list_set (w_heap w) qq m'; w_polls := w_polls w |} = interp x w0 ->
    h' = h -> g' = MkGor (k v) (if b then Some (pp, m') else None) pl ->
    exists s' y' w', le s s' /\ tracks R x w0 h' g' s' y' w' /\
    (length h <= length h')%nat /\ (forall p, (p < length h)%nat -> ow s p = false -> nth_error h' p = nth_error h p) /\
    (forall p q, nm s' p q -> nm s p q \/ p = length h /\ (p < length h')%nat /\ ow s' p = true) /\ (forall p, ow s' p = true -> ow s p = true \/ p = length h /\ (p < length h')%nat)).
  { intros B pp qq k k' v m m' b H1 H2 H3 H4 H4' H5 -> ->. destruct b; [|apply (Same (k v) (k' v) {| w_heap := list_set (w_heap w) qq m'; w_polls := w_polls w |}); auto; cbn [w_heap];
      destruct (T4 _ _ H1) as (m2 & A1 & A2); rewrite H3 in A1; injection A1 as <-; rewrite (H4' eq_refl); apply list_set_same; exact A2]. exists s, (k' v), {| w_heap := list_set (w_heap w) qq m'; w_polls := w_polls w |}.
    split; [apply le_refl|]. split; [|split; [lia|]; split; [reflexivity|]; split; auto].
    constructor; cbn [g_prog g_back g_polls flush w_heap w_polls]; auto.
    - intros p q H. destruct (T4 p q H) as (m2 & A1 & A2). rewrite !nth_error_list_set, A1, A2.
      rewrite (nm_eqb s _ _ _ _ H1 H). destruct (Nat.eqb qq q); eauto.
    - intros p m2 E. injection E as <- <-. split; [exists qq; exact H1|]. destruct (ow s pp) eqn:O; [left; reflexivity|right].
      rewrite H3. f_equal. symmetry. apply H4. exact (T7 _ _ _ H1 O H3). }
  destruct pr as [a| | |E k|p k|p m q|p r c k|p r c k|m k]; try discriminate;
    destruct y as [a'| | |E' k'|p' k'|p' m' q'|p' r' c' k'|p' r' c' k'|m' k']; cbn [rel] in T1; try contradiction.
  - (* Poll *)
    destruct T1 as [<- T1]. cbn [interp] in T2. unfold World.poll in T2. destruct (e_ctx E) as [n|] eqn:En.
    + injection G as <- <-. exists s, (k' (Nat.leb n pl)), {| w_heap := w_heap w; w_polls := Datatypes.S (w_polls w) |}.
      split; [apply le_refl|]. split; [|split; [lia|]; split; [reflexivity|]; split; auto].
      constructor; cbn [g_prog g_back g_polls flush w_heap w_polls]; auto; try discriminate. rewrite T3. exact T2.
    + injection G as <- <-. exact (Same (k false) (k' false) w (T1 false) T2 T3 eq_refl eq_refl eq_refl).
  - (* Load *)
    destruct T1 as [Hp T1]. destruct (T4 _ _ Hp) as (m & A1 & A2). rewrite A1 in G. injection G as <- <-.
    cbn [interp] in T2. rewrite A2 in T2. exact (Same (k m) (k' m) w (T1 m) T2 T3 eq_refl eq_refl eq_refl).
  - (* Store *)
    destruct T1 as (O & Hp & <- & T1). injection G as <- <-.
    exists s, q', {| w_heap := list_set (w_heap w) p' m; w_polls := w_polls w |}. split; [apply le_refl|]. rewrite length_list_set.
    split; [|split; [lia|]; split; [intros p2 _ Ho; apply nth_error_list_set_neq; intros ->; congruence|]; split; auto].
    constructor; cbn [g_prog g_back g_polls flush w_heap w_polls]; auto; try discriminate.
    + intros p2 q2 H. destruct (T4 p2 q2 H) as (m2 & A1 & A2). rewrite !nth_error_list_set, A1, A2.
      rewrite (nm_eqb s _ _ _ _ Hp H). destruct (Nat.eqb p' q2); eauto.
    + intros p2 q2 m2 H Ho Hm. rewrite nth_error_list_set_neq in Hm by (intros ->; congruence). exact (T7 _ _ _ H Ho Hm).
  - (* At *)
    destruct T1 as (Hp & <- & <- & T1). destruct (T4 _ _ Hp) as (m & A1 & A2). rewrite A1 in G. cbn [interp] in T2. rewrite A2 in T2.
    destruct (mat_At m r c) as [[v m']| |] eqn:Em; injection G as <- <-.
    + exact (Look V p p' k k' v m m' (At_writes m) Hp T1 A1 (fun St => proj1 St _ _ _ _ Em) (At_looks m r c v m' Em) T2 eq_refl eq_refl).
    + exact (Same Stop Stop w Logic.I T2 T3 eq_refl eq_refl eq_refl).
    + exact (Same Hang Hang w Logic.I T2 T3 eq_refl eq_refl eq_refl).
  - (* Element *)
    destruct T1 as (Hp & <- & <- & T1). destruct (T4 _ _ Hp) as (m & A1 & A2). rewrite A1 in G. cbn [interp] in T2. rewrite A2 in T2.
    destruct (mat_Element m r c) as [[v m']| |] eqn:Em; injection G as <- <-.
    + exact (Look bool p p' k k' v m m' (Element_writes m) Hp T1 A1 (fun St => proj2 St _ _ _ _ Em) (Element_looks m r c v m' Em) T2 eq_refl eq_refl).
    + exact (Same Stop Stop w Logic.I T2 T3 eq_refl eq_refl eq_refl).
    + exact (Same Hang Hang w Logic.I T2 T3 eq_refl eq_refl eq_refl).
  - (* Alloc *)
    destruct T1 as [<- T1]. injection G as <- <-.
    assert (F : fresh s (length h) (length (w_heap w))).
    { split; intros q H; destruct (Hlt _ _ H); lia. }
    exists (grow s _ _ F), (k' (length (w_heap w))), {| w_heap := w_heap w ++ [m]; w_polls := w_polls w |}.
    split; [apply le_grow|]. rewrite app_length. cbn [length]. split; [|split; [lia|]; split].
    + constructor; cbn [g_prog g_back g_polls flush w_heap w_polls]; auto; try discriminate.
      * cbn [grow nm]. intros p q [[-> ->]|H].
        -- exists m. rewrite !nth_error_app2, !Nat.sub_diag by lia. split; reflexivity.
        -- destruct (T4 _ _ H) as (m2 & A1 & A2). destruct (Hlt _ _ H). exists m2. rewrite !nth_error_app1 by lia. auto.
      * cbn [grow nm ow]. intros p H. apply Bool.orb_true_iff in H. destruct H as [H|H].
        -- apply Nat.eqb_eq in H. subst. eexists. left. split; reflexivity.
        -- destruct (T6 _ H) as [q Hq]. exists q. right. exact Hq.
      * cbn [grow nm ow]. intros p q m2 H Ho Hm. apply Bool.orb_false_iff in Ho. destruct Ho as [Ho1 Ho2]. apply Nat.eqb_neq in Ho1.
        destruct H as [[-> _]|H]; [congruence|]. destruct (Hlt _ _ H). rewrite nth_error_app1 in Hm by lia. exact (T7 _ _ _ H Ho2 Hm).
    + intros p Hp _. apply nth_error_app1. exact Hp.
    + cbn [grow nm ow]. split; [intros p q [[-> _]|H]; [right; rewrite Nat.eqb_refl; repeat split; lia|left; exact H]|].
      intros p H. apply Bool.orb_true_iff in H. destruct H as [H|H]; [apply Nat.eqb_eq in H; right; lia|left; exact H].
Qed.

(** only sparse objects are written back *)
Lemma back_sparse {A} h (g : gor A) h' g' : (forall p m, g_back g = Some (p, m) -> sparse_obj m = true) -> gstep h g = Some (h', g') ->
  forall p m, g_back g' = Some (p, m) -> sparse_obj m = true.
Proof.
  intros H S p m. unfold gstep in S. destruct (g_back g) as [[b mb]|] eqn:Eb; [injection S as _ <-; discriminate|].
  destruct (g_prog g) as [a| | |E k|p1 k|p1 m1 q|p1 r c k|p1 r c k|m1 k]; try discriminate.
  - destruct (e_ctx E); injection S as _ <-; discriminate.
  - destruct (nth_error h p1); injection S as _ <-; discriminate.
  - injection S as _ <-; discriminate.
  - destruct (nth_error h p1) as [m1|]; [|injection S as _ <-; discriminate].
    destruct (mat_At m1 r c) as [[v m']| |] eqn:Em; injection S as _ <-; try discriminate. cbn [g_back].
    destruct m1; cbn [At_writes]; intro X; try discriminate; injection X as _ <-; cbn [mat_At] in Em.
    + destruct (csr_At s r c); cbn in Em; try discriminate. injection Em as _ <-. reflexivity.
    + destruct (csc_At s r c); cbn in Em; try discriminate. injection Em as _ <-. reflexivity.
    + destruct (sv_At s r c); cbn in Em; try discriminate. injection Em as _ <-. reflexivity.
  - destruct (nth_error h p1) as [m1|]; [|injection S as _ <-; discriminate].
    destruct (mat_Element m1 r c) as [[v m']| |] eqn:Em; injection S as _ <-; try discriminate. cbn [g_back].
    destruct m1; cbn [Element_writes]; intro X; try discriminate; injection X as _ <-; cbn [mat_Element] in Em.
    + destruct (csr_Element s r c); cbn in Em; try discriminate. injection Em as _ <-. reflexivity.
    + destruct (csc_Element s r c); cbn in Em; try discriminate. injection Em as _ <-. reflexivity.
  - injection S as _ <-; discriminate.
Qed.
End FineConc.
Arguments MkGor {N A}. Arguments g_prog {N A}. Arguments g_back {N A}. Arguments g_polls {N A}.
