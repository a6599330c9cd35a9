(** What holds of a call of Strassen's multiplication and its goroutines holds after every step of them. *)
From Coq Require Import String Permutation.
From Verif Require Import GoBase Num SparseVec Csr Csc DenseVec DenseMat Mat World Ops MathOps Bfs Spec Api BaseProofs Fine FineRel FineConc FineProofs FineStrassen FineCalm FineStrassenRel FineStrassenInv.

Section FineStrassenStep.
Context {N : num}.
Notation V := (T N).
Notation mat := (mat N).
Notation prog := (prog N).
Notation world := (world N).
Notation names := (ptr -> Prop).
Notation gor := (gor (N := N)).
Notation task := (task (N := N)).
Variable E : env.
Variable x : Z.
Hypothesis K : constant E.
Notation good := (good (N := N) E x).
Notation config := (list mat * task)%type.

Lemma is_there (h : list mat) p m : nth_error h p = Some m -> (p < length h)%nat.
Proof. intro H. apply nth_error_Some. congruence. Qed.

Lemma kids_frame h h' O U (cs : list (Z * task)) ks : kin (fun t k => good false h t (k_O k) (k_U k) (k_e k)) cs ks -> family h O U ks -> (length h <= length h')%nat ->
  (forall k p, List.In k ks -> k_U k p -> nth_error h' p = nth_error h p) -> kin (fun t k => good false h' t (k_O k) (k_U k) (k_e k)) cs ks.
Proof.
  intros Kd [Fm _] L F. apply kin_forall2 in Kd. apply kin_forall2. induction Kd as [|c k cs ks Hk _ IH]; constructor; inversion Fm as [|? ? ([F1 F2] & F3 & F4) F5]; subst.
  - apply (good_frame _ _ _ h); auto. intros p Hp. apply (F k p); [left; reflexivity|exact Hp].
  - apply IH; [exact F5|]. intros k0 p H0. apply F. right. exact H0.
Qed.

Lemma family_new h h' (O U : names) ks : family (N := N) h O U ks -> (length h <= length h')%nat -> family h' (new_in h h' O) (new_in h h' U) ks.
Proof. intros F L. eapply family_sub; [eapply family_len; eauto| |]; intros p H; left; exact H. Qed.

Lemma new_in_same h (X : names) : sub X (new_in (N := N) h h X).
Proof. intros p H. left. exact H. Qed.

(** the results of the other sub-products stay *)
Lemma swap_kid {A} (P : A -> kid (N := N) -> Prop) c1 c c' c2 k1 k k' k2 : Forall2 P (c1 ++ c :: c2) (k1 ++ k :: k2) -> length k1 = length c1 -> (P c k -> P c' k') ->
  Forall2 P (c1 ++ c' :: c2) (k1 ++ k' :: k2).
Proof.
  intros H L X. apply Forall2_app_inv_l in H. destruct H as (l1 & l2 & H1 & H2 & Ek). apply app_same in Ek; [|rewrite L; exact (Forall2_len _ _ _ H1)].
  destruct Ek as [<- <-]. inversion H2; subst. apply Forall2_app; [exact H1|]. constructor; auto.
Qed.
Lemma swap_kid_l {B} (P : kid (N := N) -> B -> Prop) k1 k k' k2 os : Forall2 P (k1 ++ k :: k2) os -> (forall o, P k o -> P k' o) -> Forall2 P (k1 ++ k' :: k2) os.
Proof.
  intros H X. apply Forall2_app_inv_l in H. destruct H as (l1 & l2 & H1 & H2 & ->). inversion H2; subst. apply Forall2_app; [exact H1|]. constructor; auto.
Qed.

Lemma good_step (c c' : config) : tstep E x c c' -> forall r O U e, good r (fst c) (snd c) O U e -> fits (fst c) O U ->
  good r (fst c') (snd c') (new_in (fst c) (fst c') O) (new_in (fst c) (fst c') U) e /\ (length (fst c) <= length (fst c'))%nat /\
  (forall p, (p < length (fst c))%nat -> ~ O p -> nth_error (fst c') p = nth_error (fst c) p).
Proof.
  intro S. induction S as [f h g h' g' G|f h g bl Og|f bl i rest cs h g h' g' G|f bl i rest cs h g a b Og|f bl i rest g h h' c1 j t t' c2 S IH|f got h h' c1 j t t' c2 S IH|f got h c1 j t c2 p Fi|f got h|h g h' g' G];
    intros r O U e Gd Ft; cbn [fst snd] in *.
  - cbn [FineStrassenInv.good] in Gd |- *. destruct Gd as (s & a & b & w0 & y & w & T & R & Ev & Ow & Kn).
    destruct (own_step _ _ _ _ _ _ _ _ _ _ O U T G Ow Kn) as (s' & y' & w' & L & T' & Td & Ln & Fr & On & Nn & Ow' & Kn').
    split; [|split; [exact Ln|]].
    + exists s', a, b, w0, y', w'. repeat (split; [assumption|]). split; [destruct R as [R|R]; [left; exact R|right; exact (Td R)]|]. auto.
    + intros p Hp Op. apply Fr; [exact Hp|]. destruct (ow s p) eqn:X; [destruct (Op (Ow _ X))|reflexivity].
  - split; [|split; [lia|reflexivity]]. eapply good_sub; [eapply good_divided; eauto|apply new_in_same|apply new_in_same].
  - cbn [FineStrassenInv.good] in Gd |- *. destruct Gd as (s & bl' & w0 & y & w & os & ks & T & R & Ev & Ow & Kn & Bl & Q & Dn & Sv & Nm & Vs & Kd & Fm & S1 & S2).
    destruct (own_step _ _ _ _ _ _ _ _ _ _ O U T G Ow Kn) as (s' & y' & w' & L & T' & Td & Ln & Fr & On & Nn & Ow' & Kn').
    assert (KU : forall k p, List.In k ks -> k_U k p -> (p < length h)%nat).
    { intros k p Hk Hp. pose proof (proj1 (Forall_forall _ _) (proj1 Fm) _ Hk) as ([_ X] & _). exact (X p Hp). }
    assert (KO : forall k p, List.In k ks -> k_O k p -> (p < length h)%nat).
    { intros k p Hk Hp. pose proof (proj1 (Forall_forall _ _) (proj1 Fm) _ Hk) as ([X1 X] & _). exact (X p (X1 p Hp)). }
    split; [|split; [exact Ln|]].
    + exists s', bl', w0, y', w', os, ks. split; [exact T'|]. split; [exact (Td R)|]. split; [exact Ev|]. split; [exact Ow'|]. split; [exact Kn'|].
      split; [exact (Rblocks_le _ _ _ _ L Bl)|]. repeat (split; [assumption|]). split.
      { eapply kids_frame; eauto. intros k p Hk Hp. apply Fr; [exact (KU k p Hk Hp)|]. destruct (ow s p) eqn:X; [destruct (S2 k p Hk X Hp)|reflexivity]. }
      split; [apply family_new; assumption|]. split.
      * intros k p Hk Hp q Hq. destruct (Nn _ _ Hq) as [X|X]; [exact (S1 k p Hk Hp q X)|]. specialize (KO k p Hk Hp). lia.
      * intros k p Hk Ho Hp. destruct (On _ Ho) as [X|X]; [exact (S2 k p Hk X Hp)|]. specialize (KU k p Hk Hp). lia.
    + intros p Hp Op. apply Fr; [exact Hp|]. destruct (ow s p) eqn:X; [destruct (Op (Ow _ X))|reflexivity].
  - split; [|split; [lia|reflexivity]]. eapply good_sub; [eapply good_go; eauto|apply new_in_same|apply new_in_same].
  - cbn [FineStrassenInv.good] in Gd |- *. destruct Gd as (s & bl' & w0 & y & w & os & ks & T & R & Ev & Ow & Kn & Bl & Q & Dn & Sv & Nm & Vs & Kd & Fm & S1 & S2).
    destruct (kid_step E x h h' O U c1 j t t' c2 ks Kd Fm IH) as (k1 & k & k2 & -> & Lk & Kd' & Fm' & Ln & Fr).
    assert (Hk : List.In k (k1 ++ k :: k2)) by (apply in_or_app; right; left; reflexivity).
    assert (F' : forall p q, nm s p q -> nth_error h' p = nth_error h p).
    { intros p q Hp. apply Fr; [exact (proj1 (tracks_lt _ _ _ _ _ _ _ _ T _ _ Hp))|]. intro X. exact (S1 _ _ Hk X _ Hp). }
    split; [|split; [exact Ln|]].
    + exists s, bl', w0, y, w, os, (k1 ++ MkKid (new_in h h' (k_O k)) (new_in h h' (k_U k)) (k_e k) :: k2). split; [eapply tracks_frame; eauto|]. split; [eapply tidy_frame; eauto|]. split; [exact Ev|].
      split; [intros p Hp; left; apply Ow, Hp|]. split; [intros p q Hp; left; eapply Kn, Hp|].
      repeat (split; [assumption|]). split; [rewrite <- Nm, !map_app; reflexivity|]. split; [eapply swap_kid_l; [exact Vs|intros o X; exact X]|]. split; [exact Kd'|]. split; [exact Fm'|].
      assert (Old : forall k0, List.In k0 (k1 ++ MkKid (new_in h h' (k_O k)) (new_in h h' (k_U k)) (k_e k) :: k2) -> exists k3, List.In k3 (k1 ++ k :: k2) /\
        (forall p, k_O k0 p -> k_O k3 p \/ (length h <= p)%nat) /\ (forall p, k_U k0 p -> k_U k3 p \/ (length h <= p)%nat)).
      { intros k0 H0. apply in_app_or in H0. destruct H0 as [H0|[<-|H0]].
        - exists k0. split; [apply in_or_app; auto|auto].
        - exists k. split; [exact Hk|]. cbn [k_O k_U]. split; intros p [X|X]; auto; right; lia.
        - exists k0. split; [apply in_or_app; right; right; exact H0|auto]. }
      split.
      * intros k0 p H0 Hp q Hq. destruct (Old k0 H0) as (k3 & A1 & A2 & A3). destruct (A2 p Hp) as [X|X]; [exact (S1 _ _ A1 X _ Hq)|].
        pose proof (proj1 (tracks_lt _ _ _ _ _ _ _ _ T _ _ Hq)). lia.
      * intros k0 p H0 Ho Hp. destruct (Old k0 H0) as (k3 & A1 & A2 & A3). destruct (A3 p Hp) as [X|X]; [exact (S2 _ _ A1 Ho X)|].
        destruct (tr_dom _ _ _ _ _ _ _ _ T p Ho) as [q Hq]. pose proof (proj1 (tracks_lt _ _ _ _ _ _ _ _ T _ _ Hq)). lia.
    + intros p Hp Op. apply Fr; [exact Hp|]. intro X. apply Op. pose proof (proj1 (Forall_forall _ _) (proj1 Fm) _ Hk) as (_ & Y & _). exact (Y p X).
  - cbn [FineStrassenInv.good] in Gd |- *. destruct Gd as (w0 & os & ks & Ev & Dn & Sv & Vs & Gt & Pm & Nd & Kd & Fm & Ap).
    destruct (kid_step E x h h' O U c1 j t t' c2 ks Kd Fm IH) as (k1 & k & k2 & -> & Lk & Kd' & Fm' & Ln & Fr).
    assert (Hk : List.In k (k1 ++ k :: k2)) by (apply in_or_app; right; left; reflexivity).
    assert (Lt : forall j0, List.In j0 got -> (snd j0 < length h)%nat).
    { intros j0 H0. destruct (proj1 (Forall_forall _ _) Gt _ H0) as (o & m & _ & _ & X & _). exact (is_there _ _ _ X). }
    split; [|split; [exact Ln|]].
    + exists w0, os, (k1 ++ MkKid (new_in h h' (k_O k)) (new_in h h' (k_U k)) (k_e k) :: k2). split; [exact Ev|]. split; [exact Dn|]. split; [exact Sv|]. split; [eapply swap_kid; [exact Vs|exact Lk|intros X; exact X]|]. split.
      { apply Forall_forall. intros j0 H0. destruct (proj1 (Forall_forall _ _) Gt _ H0) as (o & m & A1 & A2 & A3 & A4). exists o, m. repeat (split; [assumption|]). split; [|left; exact A4].
        rewrite Fr; [exact A3|exact (Lt _ H0)|]. intro X. apply (Ap k j0 Hk H0). pose proof (proj1 (Forall_forall _ _) (proj1 Fm) _ Hk) as ([Y _] & _). exact (Y _ X). }
      split; [rewrite map_app in Pm |- *; exact Pm|]. split; [exact Nd|]. split; [exact Kd'|]. split; [exact Fm'|].
      intros k0 j0 H0 Hj Hp. apply in_app_or in H0. destruct H0 as [H0|[<-|H0]].
      * apply (Ap k0 j0); [apply in_or_app; auto|exact Hj|exact Hp].
      * cbn [k_U] in Hp. destruct Hp as [Hp|Hp]; [exact (Ap k j0 Hk Hj Hp)|]. specialize (Lt _ Hj). lia.
      * apply (Ap k0 j0); [apply in_or_app; right; right; exact H0|exact Hj|exact Hp].
    + intros p Hp Op. apply Fr; [exact Hp|]. intro X. apply Op. pose proof (proj1 (Forall_forall _ _) (proj1 Fm) _ Hk) as (_ & Y & _). exact (Y p X).
  - split; [|split; [lia|reflexivity]]. eapply good_sub; [eapply good_receive; eauto|apply new_in_same|apply new_in_same].
  - split; [|split; [lia|reflexivity]]. eapply good_sub; [eapply good_received; eauto; exact (proj1 Ft)|apply new_in_same|apply new_in_same].
  - cbn [FineStrassenInv.good] in Gd |- *. destruct Gd as (s & ms & w0 & y & w & T & R & Ev & Ow & Kn).
    destruct (own_step _ _ _ _ _ _ _ _ _ _ O U T G Ow Kn) as (s' & y' & w' & L & T' & Td & Ln & Fr & On & Nn & Ow' & Kn').
    split; [|split; [exact Ln|]].
    + exists s', ms, w0, y', w'. split; [exact T'|]. split; [exact (Td R)|]. auto.
    + intros p Hp Op. apply Fr; [exact Hp|]. destruct (ow s p) eqn:X; [destruct (Op (Ow _ X))|reflexivity].
Qed.

(** and any number of them *)
Lemma good_steps (c c' : config) : tsteps E x c c' -> forall r O U e, good r (fst c) (snd c) O U e -> fits (fst c) O U ->
  good r (fst c') (snd c') (new_in (fst c) (fst c') O) (new_in (fst c) (fst c') U) e /\ fits (fst c') (new_in (fst c) (fst c') O) (new_in (fst c) (fst c') U) /\
  (length (fst c) <= length (fst c'))%nat /\ (forall p, (p < length (fst c))%nat -> ~ O p -> nth_error (fst c') p = nth_error (fst c) p).
Proof.
  intro S. induction S as [c|c1 c2 c3 S IH St]; intros r O U e G F.
  - split; [eapply good_sub; [exact G|apply new_in_same|apply new_in_same]|]. split; [apply fits_new; [exact F|lia]|]. split; [lia|reflexivity].
  - destruct (IH _ _ _ _ G F) as (G2 & F2 & L2 & A2). destruct (good_step _ _ St _ _ _ _ G2 F2) as (G3 & L3 & A3).
    assert (T : forall X : names, sub (new_in (fst c2) (fst c3) (new_in (fst c1) (fst c2) X)) (new_in (fst c1) (fst c3) X)).
    { intros X p [[H|H]|H]; [left; exact H|right; lia|right; lia]. }
    split; [eapply good_sub; [exact G3|apply T|apply T]|]. split; [apply fits_new; [exact F|lia]|]. split; [lia|].
    intros p Hp Op. rewrite A3; [apply A2; assumption|lia|]. intros [X|X]; [exact (Op X)|lia].
Qed.
End FineStrassenStep.
