(** A goroutine of Strassen's multiplication that runs alone while the context may become done: its steps up to
    the result, and what the cells of the result are (strassen.go:83-106 and operators.go:29-63). *)
From Coq Require Import String.
From Verif Require Import GoBase Num SparseVec Csr Csc DenseVec DenseMat Mat World Ops MathOps Bfs Spec Api BaseProofs DenseProofs MatProofs StoreProofs Fine FineRel FineConc FineProofs FineStrassen FineStrassenInv FineSafe FineCancel FineSame.

Section FineAlone.
Context {N : num}.
Notation V := (T N).
Notation mat := (mat N).
Notation prog := (prog N).
Notation names := (ptr -> Prop).
Notation known := (ptr -> option (mat -> Prop)).
Notation gor := (gor (N := N)).
Notation task := (task (N := N)).

(** whatever happens, [Q] in the end; [d]: the context is done *)
Fixpoint wp {A} (Q : bool -> list mat -> A -> Prop) (d : bool) (h : list mat) (x : prog A) : Prop :=
  match x with
  | Ret a => Q d h a
  | Stop => False
  | Hang => False
  | Poll E k => match e_ctx E with
                | None => wp Q d h (k false)
                | Some _ => (d = false -> wp Q false h (k false)) /\ wp Q true h (k true)
                end
  | Load p k => exists m, nth_error h p = Some m /\ wp Q d h (k m)
  | Store p m q => wp Q d (list_set h p m) q
  | AtOp p r c k => exists m v, nth_error h p = Some m /\ mat_At m r c = Ok (v, m) /\ wp Q d h (k v)
  | ElemOp p r c k => exists m v, nth_error h p = Some m /\ mat_Element m r c = Ok (v, m) /\ wp Q d h (k v)
  | Alloc m k => wp Q d (h ++ [m]) (k (length h))
  end.

Lemma wp_bind {A B} (Q : bool -> list mat -> B -> Prop) (x : prog A) (f : A -> prog B) : forall d h,
  wp (fun d h a => wp Q d h (f a)) d h x -> wp Q d h (mbind x f).
Proof.
  induction x as [a| | |E k IH|p k IH|p m q IH|p r c k IH|p r c k IH|m k IH]; intros d h H; cbn [mbind wp] in *; auto.
  - destruct (e_ctx E); [destruct H; split; auto|auto].
  - destruct H as (m & H1 & H2). eauto.
  - destruct H as (m & v & H1 & H2 & H3). eauto 6.
  - destruct H as (m & v & H1 & H2 & H3). eauto 6.
Qed.
Lemma wp_impl {A} (Q R : bool -> list mat -> A -> Prop) (x : prog A) : forall d h, wp Q d h x -> (forall d h a, Q d h a -> R d h a) -> wp R d h x.
Proof.
  induction x as [a| | |E k IH|p k IH|p m q IH|p r c k IH|p r c k IH|m k IH]; intros d h H K; cbn [wp] in *; auto.
  - destruct (e_ctx E); [destruct H; split; auto|auto].
  - destruct H as (m & H1 & H2). eauto.
  - destruct H as (m & v & H1 & H2 & H3). eauto 6.
  - destruct H as (m & v & H1 & H2 & H3). eauto 6.
Qed.
Lemma wp_seq {A B} (Q : bool -> list mat -> A -> Prop) (R : bool -> list mat -> B -> Prop) d h (x : prog A) (f : A -> prog B) :
  wp Q d h x -> (forall d h a, Q d h a -> wp R d h (f a)) -> wp R d h (mbind x f).
Proof. intros H K. apply wp_bind. eapply wp_impl; eauto. Qed.
Lemma wp_done {A} (Q : bool -> list mat -> A -> Prop) (x : prog A) : (forall h a, Q false h a -> Q true h a) -> forall h, wp Q false h x -> wp Q true h x.
Proof.
  intro U. induction x as [a| | |E k IH|p k IH|p m q IH|p r c k IH|p r c k IH|m k IH]; intros h H; cbn [wp] in *; auto.
  - destruct (e_ctx E); [destruct H; split; [discriminate|assumption]|auto].
  - destruct H as (m & H1 & H2). eauto.
  - destruct H as (m & v & H1 & H2 & H3). eauto 6.
  - destruct H as (m & v & H1 & H2 & H3). eauto 6.
Qed.

(** ** Goroutines *)
Definition gwp {A} (Q : bool -> list mat -> A -> Prop) (d : bool) (h : list mat) (g : gor A) : Prop :=
  wp Q d h (g_prog g) /\ forall p m, g_back g = Some (p, m) -> nth_error h p = Some m.
Lemma gwp_go {A} (Q : bool -> list mat -> A -> Prop) d h x : wp Q d h x -> gwp Q d h (go x).
Proof. intro H. split; [exact H|discriminate]. Qed.
Lemma gwp_done {A} (Q : bool -> list mat -> A -> Prop) h g : (forall h a, Q false h a -> Q true h a) -> gwp Q false h g -> gwp Q true h g.
Proof. intros U [H B]. split; [apply wp_done; assumption|exact B]. Qed.
Lemma gwp_end {A} (Q : bool -> list mat -> A -> Prop) d h g a : gwp Q d h g -> outcome g = Some (Ok a) -> Q d h a.
Proof. intros [H B] E. unfold outcome in E. destruct (g_back g); [discriminate|]. destruct (g_prog g); try discriminate. injection E as ->. exact H. Qed.
Lemma gwp_step {A} (Q : bool -> list mat -> A -> Prop) d h g h' g' : gwp Q d h g -> dstep d h g = Some (h', g') -> gwp Q d h' g'.
Proof.
  intros [H B] S. unfold dstep, gstep in S. destruct (g_back g) as [[p m]|] eqn:Eb.
  - rewrite (list_set_same h p m (B p m eq_refl)) in S. injection S as <- <-. split; [exact H|discriminate].
  - destruct (g_prog g) as [a| | |E k|p k|p m q|p r c k|p r c k|m k]; try discriminate; cbn [wp] in H.
    + injection S as <- <-. split; [|discriminate]. cbn [g_prog]. destruct (e_ctx E); [|exact H]. destruct H as [H1 H2]. destruct d; auto.
    + destruct H as (m & E1 & E2). rewrite E1 in S. injection S as <- <-. split; [exact E2|discriminate].
    + injection S as <- <-. split; [exact H|discriminate].
    + destruct H as (m & v & E1 & E2 & E3). rewrite E1, E2 in S. injection S as <- <-. split; [exact E3|]. cbn [g_back]. intros p0 m0 Hb. destruct (At_writes m); [|discriminate]. injection Hb as <- <-. exact E1.
    + destruct H as (m & v & E1 & E2 & E3). rewrite E1, E2 in S. injection S as <- <-. split; [exact E3|]. cbn [g_back]. intros p0 m0 Hb. destruct (Element_writes m); [|discriminate]. injection Hb as <- <-. exact E1.
    + injection S as <- <-. split; [exact H|discriminate].
Qed.

(** any number of steps of one goroutine, the context not done *)
Inductive gsteps {A} : list mat * gor A -> list mat * gor A -> Prop :=
| gs_none : forall c, gsteps c c
| gs_next : forall h g h1 g1 c, gstep h g = Some (h1, g1) -> gsteps (h1, g1) c -> gsteps (h, g) c.
Lemma wp_runs {A} (Q : bool -> list mat -> A -> Prop) (x : prog A) : forall y h n, same x y -> wp Q false h x ->
  exists h' a n', gsteps (h, MkGor y None n) (h', MkGor (Ret a) None n') /\ Q false h' a.
Proof.
  assert (Bk : forall (x : prog A) h p m (b : bool) n c, nth_error h p = Some m -> gsteps (h, MkGor x None n) c -> gsteps (h, MkGor x (if b then Some (p, m) else None) n) c).
  { intros x0 h p m [] n c E H; [|exact H]. eapply gs_next; [|exact H]. unfold gstep. cbn [g_back g_prog g_polls]. rewrite (list_set_same h p m E). reflexivity. }
  induction x as [a| | |E k IH|p k IH|p m q IH|p r c k IH|p r c k IH|m k IH]; intros [a'| | |E' k'|p' k'|p' m' q'|p' r' c' k'|p' r' c' k'|m' k'] h n S H; cbn [same] in S; try contradiction; cbn [wp] in H; try contradiction.
  - subst. exists h, a', n. split; [constructor|exact H].
  - destruct S as [S1 S2]. assert (H' : wp Q false h (k false)) by (destruct (e_ctx E); [apply H; reflexivity|exact H]).
    destruct (IH false (k' false) h n (S2 false) H') as (h1 & a & n1 & G & Ha). exists h1, a, n1. split; [|exact Ha]. eapply gs_next; [|exact G]. unfold gstep. cbn [g_back g_prog g_polls]. rewrite S1. reflexivity.
  - destruct S as [<- S]. destruct H as (m & E1 & E2). destruct (IH m (k' m) h n (S m) E2) as (h1 & a & n1 & G & Ha). exists h1, a, n1. split; [|exact Ha]. eapply gs_next; [|exact G]. unfold gstep. cbn [g_back g_prog g_polls]. rewrite E1. reflexivity.
  - destruct S as (<- & <- & S). destruct (IH q' _ n S H) as (h1 & a & n1 & G & Ha). exists h1, a, n1. split; [|exact Ha]. eapply gs_next; [|exact G]. reflexivity.
  - destruct S as [(<- & <- & <-) S]. destruct H as (m & v & E1 & E2 & E3). destruct (IH v (k' v) h n (S v) E3) as (h1 & a & n1 & G & Ha). exists h1, a, n1. split; [|exact Ha].
    eapply gs_next; [unfold gstep; cbn [g_back g_prog g_polls]; rewrite E1, E2; reflexivity|]. apply Bk; assumption.
  - destruct S as [(<- & <- & <-) S]. destruct H as (m & v & E1 & E2 & E3). destruct (IH v (k' v) h n (S v) E3) as (h1 & a & n1 & G & Ha). exists h1, a, n1. split; [|exact Ha].
    eapply gs_next; [unfold gstep; cbn [g_back g_prog g_polls]; rewrite E1, E2; reflexivity|]. apply Bk; assumption.
  - destruct S as [<- S]. destruct (IH (length h) (k' (length h)) _ n (S (length h)) H) as (h1 & a & n1 & G & Ha). exists h1, a, n1. split; [|exact Ha]. eapply gs_next; [|exact G]. reflexivity.
Qed.

(** ** Trees that do not ask *)
Fixpoint unasked {A} (x : prog A) : Prop :=
  match x with
  | Ret _ | Stop | Hang => True
  | Poll E k => e_ctx E = None /\ unasked (k false)
  | Load p k => forall m, unasked (k m)
  | Store p m q => unasked q
  | AtOp p r c k => forall v, unasked (k v)
  | ElemOp p r c k => forall v, unasked (k v)
  | Alloc m k => forall p, unasked (k p)
  end.
Lemma same_unasked {A} (x y : prog A) : same x y -> unasked y.
Proof.
  revert y. induction x as [a| | |E k IH|p k IH|p m q IH|p r c k IH|p r c k IH|m k IH]; intros [a'| | |E' k'|p' k'|p' m' q'|p' r' c' k'|p' r' c' k'|m' k'] S; cbn [same] in S; try contradiction; cbn [unasked]; try exact Logic.I; intuition eauto.
Qed.

(** what is known is there *)
Definition there (h : list mat) (D : known) : Prop := holds h D /\ forall p, D p <> None -> (p < length h)%nat.
Lemma there_new h (D : known) m (P : mat -> Prop) : there h D -> P m -> there (h ++ [m]) (with_new D (length h) P) /\ D (length h) = None.
Proof.
  intros [H I] Pm. assert (Nn : D (length h) = None). { destruct (D (length h)) as [P'|] eqn:E; [|reflexivity]. exfalso. assert (D (length h) <> None) as K by congruence. apply I in K. lia. }
  split; [|exact Nn]. split.
  - intros q P' Hq. unfold with_new in Hq. destruct (Nat.eq_dec q (length h)) as [Eq|Ne].
    + subst q. rewrite Nat.eqb_refl in Hq. injection Hq as <-. exists m. split; [|exact Pm]. rewrite nth_error_app2, Nat.sub_diag by lia. reflexivity.
    + apply Nat.eqb_neq in Ne. rewrite Ne in Hq. destruct (H q P' Hq) as (m' & X1 & X2). exists m'. split; [|exact X2]. rewrite nth_error_app1; [exact X1|]. apply nth_error_Some. congruence.
  - intros p Hp. rewrite app_length. cbn [length]. unfold with_new in Hp. destruct (Nat.eq_dec p (length h)) as [Eq|Ne]; [lia|]. apply Nat.eqb_neq in Ne. rewrite Ne in Hp. apply I in Hp. lia.
Qed.
Lemma there_set h (D : known) p P m : there h D -> D p = Some P -> P m -> there (list_set h p m) D.
Proof. intros [H I] Hp Pm. split; [eapply holds_set; eauto|]. intros q Hq. rewrite length_list_set. auto. Qed.

Lemma alone {A} W (Q : known -> names -> A -> Prop) (x : prog A) : forall D O h, unasked x -> safe W Q D O x -> there h D ->
  exists h' a D' O', (forall d (R : bool -> list mat -> A -> Prop), R d h' a -> wp R d h x) /\ Q D' O' a /\ there h' D' /\ more D D'.
Proof.
  induction x as [a| | |E k IH|p k IH|p m q IH|p r c k IH|p r c k IH|m k IH]; intros D O h U S H; cbn [unasked safe] in U, S; try contradiction.
  - exists h, a, D, O. split; [intros d R HR; exact HR|]. split; [exact S|]. split; [exact H|apply more_refl].
  - destruct U as [U1 U2]. destruct (IH false D O h U2 (S false) H) as (h' & a & D' & O' & K & R). exists h', a, D', O'. split; [|exact R]. intros d R0 HR. cbn [wp]. rewrite U1. apply K, HR.
  - destruct S as (P & E1 & E2). destruct (proj1 H p P E1) as (m & E3 & E4). destruct (IH m D O h (U m) (E2 m E4) H) as (h' & a & D' & O' & K & R). exists h', a, D', O'. split; [|exact R].
    intros d R0 HR. exists m. split; [exact E3|]. apply K, HR.
  - destruct S as (E1 & (P & E2 & E3) & E4). destruct (IH D O _ U E4 (there_set _ _ _ _ _ H E2 E3)) as (h' & a & D' & O' & K & R). exists h', a, D', O'. split; [|exact R]. intros d R0 HR. apply K, HR.
  - destruct S as (P & E1 & E2). destruct (proj1 H p P E1) as (m & E3 & E4). destruct (E2 m E4) as (v & E5 & _ & E6). destruct (IH v D O h (U v) E6 H) as (h' & a & D' & O' & K & R). exists h', a, D', O'. split; [|exact R].
    intros d R0 HR. exists m, v. split; [exact E3|]. split; [exact E5|]. apply K, HR.
  - destruct S as (P & E1 & E2). destruct (proj1 H p P E1) as (m & E3 & E4). destruct (E2 m E4) as (v & E5 & _ & E6). destruct (IH v D O h (U v) E6 H) as (h' & a & D' & O' & K & R). exists h', a, D', O'. split; [|exact R].
    intros d R0 HR. exists m, v. split; [exact E3|]. split; [exact E5|]. apply K, HR.
  - destruct S as (P & E1 & E2). destruct (there_new h D m P H E1) as [T Nn]. destruct (IH (length h) _ _ _ (U (length h)) (E2 (length h) Nn) T) as (h' & a & D' & O' & K & Q1 & T1 & M1).
    exists h', a, D', O'. split; [intros d R0 HR; apply K, HR|]. split; [exact Q1|]. split; [exact T1|]. eapply more_trans; [apply more_new; exact Nn|exact M1].
Qed.
(** whatever is safe among others is so alone *)
Lemma safe_wp {A} W (Q : known -> names -> A -> Prop) (x : prog A) : forall d D O h, safe W Q D O x -> there h D -> wp (fun _ h a => exists D O, Q D O a) d h x.
Proof.
  induction x as [a| | |E k IH|p k IH|p m q IH|p r c k IH|p r c k IH|m k IH]; intros d D O h S H; cbn [safe wp] in *; try contradiction.
  - eauto.
  - destruct (e_ctx E); [split; [intros _|]|]; eapply IH; eauto.
  - destruct S as (P & E1 & E2). destruct (proj1 H p P E1) as (m & E3 & E4). exists m. split; [exact E3|]. eapply IH; eauto.
  - destruct S as (E1 & (P & E2 & E3) & E4). eapply IH; [eauto|]. eapply there_set; eauto.
  - destruct S as (P & E1 & E2). destruct (proj1 H p P E1) as (m & E3 & E4). destruct (E2 m E4) as (v & E5 & _ & E6). exists m, v. split; [exact E3|]. split; [exact E5|]. eapply IH; eauto.
  - destruct S as (P & E1 & E2). destruct (proj1 H p P E1) as (m & E3 & E4). destruct (E2 m E4) as (v & E5 & _ & E6). exists m, v. split; [exact E3|]. split; [exact E5|]. eapply IH; eauto.
  - destruct S as (P & E1 & E2). destruct (there_new h D m P H E1) as [T Nn]. eapply IH; [apply E2; exact Nn|exact T].
Qed.

(** ** Filling a new matrix cell by cell *)
Section Fill.
Variable h0 : list mat.
Variable R C : Z.
Variable full : Z -> Z -> V.
(** the objects, the new matrix last *)
Definition hp (k : Z -> Z -> V) : list mat := h0 ++ [MDM (mk_dm R C k)].
(** every cell is empty or has its value *)
Definition part (k : Z -> Z -> V) : Prop := forall i j, 0 <= i < R -> 0 <= j < C -> k i j = n0 \/ k i j = full i j.
Definition keeps (k k' : Z -> Z -> V) : Prop := forall i j, k i j = full i j -> k' i j = full i j.

Lemma keeps_trans k1 k2 k3 : keeps k1 k2 -> keeps k2 k3 -> keeps k1 k3.
Proof. intros H1 H2 i j H. auto. Qed.
Lemma upd_part k r c : part k -> part (upd2 k r c (full r c)).
Proof. intros H i j Hi Hj. unfold upd2. destruct (Z.eqb_spec i r) as [->|]; destruct (Z.eqb_spec j c) as [->|]; cbn [andb]; auto. Qed.
Lemma upd_keeps k r c : keeps k (upd2 k r c (full r c)).
Proof. intros i j H. unfold upd2. destruct (Z.eqb_spec i r) as [->|]; destruct (Z.eqb_spec j c) as [->|]; cbn [andb]; auto. Qed.
Lemma upd_at k r c : upd2 k r c (full r c) r c = full r c.
Proof. unfold upd2. rewrite !Z.eqb_refl. reflexivity. Qed.

Lemma hp_last k : nth_error (hp k) (length h0) = Some (MDM (mk_dm R C k)).
Proof. unfold hp. rewrite nth_error_app2, Nat.sub_diag by lia. reflexivity. Qed.
Lemma hp_set k k' : list_set (hp k) (length h0) (MDM (mk_dm R C k')) = hp k'.
Proof.
  unfold hp. clear full. induction h0 as [|y l IH]; [reflexivity|]. cbn [app length list_set]. f_equal. exact IH.
Qed.
Lemma wp_set d k r c v (Q : bool -> list mat -> unit -> Prop) : 0 <= r < R -> 0 <= c < C -> Q d (hp (upd2 k r c v)) tt -> wp Q d (hp k) (p_Set (length h0) r c v).
Proof.
  intros Hr Hc H. unfold p_Set. cbn [load mbind wp]. exists (MDM (mk_dm R C k)). split; [apply hp_last|]. cbn [mat_Set]. rewrite dm_Set_spec by assumption. cbn [rmap rbind mlift mbind store wp]. rewrite hp_set. exact H.
Qed.
Lemma hp_old k p m : nth_error h0 p = Some m -> nth_error (hp k) p = Some m.
Proof. intro H. unfold hp. rewrite nth_error_app1; [exact H|]. apply nth_error_Some. congruence. Qed.
Lemma wp_copy d k src R' C' f r c r' c' : nth_error h0 src = Some (MDM (mk_dm R' C' f)) -> 0 <= r < R' -> 0 <= c < C' -> 0 <= r' < R -> 0 <= c' < C -> f r c = full r' c' ->
  wp (fun d' h _ => d' = d /\ h = hp (upd2 k r' c' (full r' c'))) d (hp k) (copy_cell (length h0) src r c r' c').
Proof.
  intros Hs Hr Hc Hr' Hc' Ef. unfold copy_cell, p_At. cbn [mbind wp]. exists (MDM (mk_dm R' C' f)), (f r c). split; [apply hp_old; exact Hs|]. cbn [mat_At]. rewrite dm_At_spec by assumption. split; [reflexivity|].
  rewrite Ef. apply wp_set; auto.
Qed.

(** the loops; if they are not broken off, what a round achieves is [cov] *)
Definition after {X} (d : bool) (k : Z -> Z -> V) (P : (Z -> Z -> V) -> Prop) : bool -> list mat -> option X -> Prop := fun d' h o =>
  exists k', h = hp k' /\ part k' /\ keeps k k' /\ (o <> None -> d' = true) /\ (d = true -> d' = true) /\ (d' = false -> P k').
Definition lasting (P : (Z -> Z -> V) -> Prop) : Prop := forall k k', P k -> keeps k k' -> P k'.
Lemma wp_loop {X I} (l : list I) (cov : I -> (Z -> Z -> V) -> Prop) (body : I -> prog (option X)) : (forall i, lasting (cov i)) ->
  (forall d k i, List.In i l -> part k -> wp (after d k (cov i)) d (hp k) (body i)) ->
  forall d k, part k -> wp (after d k (fun k' => forall i, List.In i l -> cov i k')) d (hp k) (for_list l body).
Proof.
  intro La. induction l as [|i l IH]; intros Hb d k Pk; cbn [for_list].
  - exists k. split; [reflexivity|]. split; [exact Pk|]. split; [intros r c Hij; exact Hij|]. split; [congruence|]. split; [auto|]. intros _ i [].
  - eapply wp_seq; [apply Hb; [left; reflexivity|exact Pk]|]. intros d1 h1 [o|] (k1 & -> & P1 & K1 & O1 & M1 & C1).
    + cbn [mret wp]. exists k1. split; [reflexivity|]. split; [exact P1|]. split; [exact K1|]. split; [exact O1|]. split; [exact M1|]. rewrite O1 by discriminate. discriminate.
    + eapply wp_impl; [apply IH; [|exact P1]|].
      * intros d0 k0 i0 H0. apply Hb. right. exact H0.
      * intros d2 h2 o (k2 & -> & P2 & K2 & O2 & M2 & C2). exists k2. split; [reflexivity|]. split; [exact P2|]. split; [eapply keeps_trans; eauto|]. split; [exact O2|]. split; [auto|].
        intros D2 i0 [<-|H0]; [|apply C2; assumption]. destruct d1; [rewrite M2 in D2 by reflexivity; discriminate|]. eapply La; [apply C1; reflexivity|exact K2].
Qed.
Lemma wp_grid E rows columns (cov : Z -> Z -> (Z -> Z -> V) -> Prop) (body : Z -> Z -> prog unit) : (forall r c, lasting (cov r c)) ->
  (forall d k r c, 0 <= r < rows -> 0 <= c < columns -> part k -> wp (fun d' h _ => d' = d /\ exists k', h = hp k' /\ part k' /\ keeps k k' /\ cov r c k') d (hp k) (body r c)) ->
  forall d k, part k -> wp (fun d' h _ => exists k', h = hp k' /\ part k' /\ (d' = false -> forall r c, 0 <= r < rows -> 0 <= c < columns -> cov r c k')) d (hp k) (grid E rows columns body).
Proof.
  intros La Hb d k Pk. unfold grid. eapply wp_seq.
  - apply (wp_loop _ (fun r k' => forall c, List.In c (zrange 0 columns) -> cov r c k')); [|intros d1 k1 r Hr P1; apply in_zrange in Hr; apply (wp_loop _ (fun c k' => cov r c k')); [apply La| |exact P1]|exact Pk].
    + intros r k1 k2 H K c Hc. eapply La; eauto.
    + intros d2 k2 c Hc P2. apply in_zrange in Hc.
      assert (G : wp (after (X := unit) d2 k2 (cov r c)) d2 (hp k2) (body r c ;!; mret None)).
      { eapply wp_seq; [apply Hb; [lia|lia|exact P2]|]. cbv beta. intros d3 h3 [] (-> & k3 & -> & P3 & K3 & C3). cbn [mret wp]. exists k3. split; [reflexivity|]. split; [exact P3|]. split; [exact K3|]. split; [congruence|]. split; [auto|]. intros _. exact C3. }
      cbn [poll mbind wp]. destruct (e_ctx E) as [n|]; [split|exact G].
      * intros ->. exact G.
      * cbn [mret mbind wp]. exists k2. split; [reflexivity|]. split; [exact P2|]. split; [intros i j Hij; exact Hij|]. split; [congruence|]. split; [auto|]. discriminate.
  - intros d1 h1 o (k1 & -> & P1 & K1 & O1 & M1 & C1). cbn [mret wp]. exists k1. split; [reflexivity|]. split; [exact P1|]. intros D r c Hr Hc. apply C1; [exact D| |]; apply in_zrange; lia.
Qed.
End Fill.

Lemma wp_grid_done E rows columns (body : Z -> Z -> prog unit) h : e_ctx E <> None -> wp (fun _ h' _ => h' = h) true h (grid E rows columns body).
Proof.
  intro Hc. unfold grid. eapply wp_seq with (Q := fun d h' _ => d = true /\ h' = h); [|intros d h1 o [_ ->]; reflexivity].
  assert (L : forall (l : list Z) (b : Z -> prog (option unit)), (forall i, wp (fun d h' o => d = true /\ h' = h /\ o = None) true h (b i)) -> wp (fun d h' o => d = true /\ h' = h /\ o = None) true h (for_list l b)).
  { induction l as [|i l IH]; intros b Hb; cbn [for_list]; [repeat split|]. eapply wp_seq; [apply Hb|]. cbv beta. intros d h1 o (-> & -> & ->). apply IH, Hb. }
  eapply wp_impl; [apply L; intro r; apply L; intro c|].
  - cbn [poll mbind wp]. destruct (e_ctx E); [|congruence]. split; [discriminate|]. cbn [mret mbind wp]. auto.
  - cbv beta. intros d h1 o (-> & -> & _). auto.
Qed.

Lemma unasked_m_Add E s m : unasked (m_Add (N := N) E s m).
Proof. exact (same_unasked _ _ (same_m_Add E s m)). Qed.
Lemma unasked_m_Subtract E s m : unasked (m_Subtract (N := N) E s m).
Proof. exact (same_unasked _ _ (same_m_Subtract E s m)). Qed.

(** a dense matrix whose cells are empty or have their value, and have it if the context is not done *)
Definition filled (R C : Z) (full : Z -> Z -> V) (d : bool) (h : list mat) (p : ptr) : Prop :=
  exists k, nth_error h p = Some (MDM (mk_dm R C k)) /\ part R C full k /\ (d = false -> forall i j, 0 <= i < R -> 0 <= j < C -> k i j = full i j).

Lemma wp_combine E got r (D : known) h : there h D -> all_there r D got -> 0 <= r -> 2 * r * (2 * r) < 2 ^ 63 -> r * r <= Z.of_nat (e_fuel E) ->
  exists full, (forall d, wp (filled (2 * r) (2 * r) full) d h (combine E got)) /\
    (e_ctx E <> None -> wp (fun _ h' p => nth_error h' p = Some (MDM (mk_dm (2 * r) (2 * r) (fun _ _ => n0)))) true h (combine E got)).
Proof.
  intros Hh Hg H0 Hb Hf. unfold combine. assert (Hf' : 0 <= r * r <= Z.of_nat (e_fuel E)) by nia. set (O := none).
  destruct (safe_received r 1 got D O Hg ltac:(cbn; tauto)) as (m1 & -> & K1). destruct (safe_received r 2 got D O Hg ltac:(cbn; tauto)) as (m2 & -> & K2).
  destruct (safe_received r 3 got D O Hg ltac:(cbn; tauto)) as (m3 & -> & K3). destruct (safe_received r 4 got D O Hg ltac:(cbn; tauto)) as (m4 & -> & K4).
  destruct (safe_received r 5 got D O Hg ltac:(cbn; tauto)) as (m5 & -> & K5). destruct (safe_received r 6 got D O Hg ltac:(cbn; tauto)) as (m6 & -> & K6).
  destruct (safe_received r 7 got D O Hg ltac:(cbn; tauto)) as (m7 & -> & K7). cbn [mret mbind]. clear Hg.
  assert (StA : forall h (D : known) s m, there h D -> D s = Some (dsh r r) -> D m = Some (dsh r r) ->
    exists h' u (D' : known), (forall d (Q : bool -> list mat -> ptr -> Prop), Q d h' u -> wp Q d h (m_Add E s m)) /\ D' u = Some (dsh r r) /\ there h' D' /\ more D D').
  { intros h1 D1 s m T1 A1 A2. destruct (alone none _ (m_Add E s m) D1 O h1 (unasked_m_Add E s m) (safe_m_Add none E s m r r D1 O A1 A2 Hf') T1) as (h' & u & D' & O' & X1 & [X2 _] & X3 & X4). eauto 10. }
  assert (StS : forall h (D : known) s m, there h D -> D s = Some (dsh r r) -> D m = Some (dsh r r) ->
    exists h' u (D' : known), (forall d (Q : bool -> list mat -> ptr -> Prop), Q d h' u -> wp Q d h (m_Subtract E s m)) /\ D' u = Some (dsh r r) /\ there h' D' /\ more D D').
  { intros h1 D1 s m T1 A1 A2. destruct (alone none _ (m_Subtract E s m) D1 O h1 (unasked_m_Subtract E s m) (safe_m_Subtract none E s m r r D1 O A1 A2 Hf') T1) as (h' & u & D' & O' & X1 & [X2 _] & X3 & X4). eauto 10. }
  Ltac upd M := repeat match goal with H : _ = Some (dsh _ _) |- _ => match type of H with ?d _ = _ => match type of M with more d _ => apply M in H end end end; clear M.
  destruct (StA h D m1 m4) as (h1 & u1 & D1 & X1 & L1 & T1 & M); try assumption. upd M.
  destruct (StS h1 D1 u1 m5) as (h2 & u2 & D2 & X2 & L2 & T2 & M); try assumption. upd M.
  destruct (StA h2 D2 u2 m7) as (h3 & c11 & D3 & X3 & L3 & T3 & M); try assumption. upd M.
  destruct (StA h3 D3 m3 m5) as (h4 & c12 & D4 & X4 & L4 & T4 & M); try assumption. upd M.
  destruct (StA h4 D4 m2 m4) as (h5 & c21 & D5 & X5 & L5 & T5 & M); try assumption. upd M.
  destruct (StS h5 D5 m1 m2) as (h6 & u6 & D6 & X6 & L6 & T6 & M); try assumption. upd M.
  destruct (StA h6 D6 u6 m3) as (h7 & u7 & D7 & X7 & L7 & T7 & M); try assumption. upd M.
  destruct (StA h7 D7 u7 m6) as (h8 & c22 & D8 & X8 & L8 & T8 & M); try assumption. upd M.
  assert (Go : forall d (Q : bool -> list mat -> ptr -> Prop),
    wp Q d (hp h8 (2 * r) (2 * r) (fun _ _ => n0)) (grid E r r (fun r0 c => copy_cell (length h8) c11 r0 c r0 c ;!; copy_cell (length h8) c12 r0 c r0 (c + r) ;!; copy_cell (length h8) c21 r0 c (r0 + r) c ;!; copy_cell (length h8) c22 r0 c (r0 + r) (c + r)) ;!; mret (length h8)) ->
    wp Q d h (let! u := m_Add E m1 m4 in let! u := m_Subtract E u m5 in let! c11 := m_Add E u m7 in let! c12 := m_Add E m3 m5 in let! c21 := m_Add E m2 m4 in let! u := m_Subtract E m1 m2 in let! u := m_Add E u m3 in let! c22 := m_Add E u m6 in
      let! shift := p_Rows c11 in let! matrix := new_dense (shift * 2) (shift * 2) in let! columns := p_Columns c11 in
      grid E shift columns (fun r c => copy_cell matrix c11 r c r c ;!; copy_cell matrix c12 r c r (c + shift) ;!; copy_cell matrix c21 r c (r + shift) c ;!; copy_cell matrix c22 r c (r + shift) (c + shift)) ;!; mret matrix)).
  { intros d Q H. apply wp_bind, X1, wp_bind, X2, wp_bind, X3, wp_bind, X4, wp_bind, X5, wp_bind, X6, wp_bind, X7, wp_bind, X8.
    destruct (proj1 T8 c11 _ L3) as (m & Em & (A1 & A2 & A3 & f & ->)). cbn [p_Rows load mbind wp]. exists (MDM (mk_dm r r f)). split; [exact Em|].
    cbn [mat_Rows dm_Rows mk_dm dm_r mret mbind]. unfold new_dense. rewrite newMatrix_spec by lia. cbn [mlift mbind alloc wp p_Columns load].
    replace (r * 2) with (2 * r) by lia. exists (MDM (mk_dm r r f)). split; [rewrite nth_error_app1; [exact Em|apply nth_error_Some; congruence]|]. exact H. }
  destruct (proj1 T8 c11 _ L3) as (? & Ef11 & (_ & _ & _ & f11 & ->)). destruct (proj1 T8 c12 _ L4) as (? & Ef12 & (_ & _ & _ & f12 & ->)).
  destruct (proj1 T8 c21 _ L5) as (? & Ef21 & (_ & _ & _ & f21 & ->)). destruct (proj1 T8 c22 _ L8) as (? & Ef22 & (_ & _ & _ & f22 & ->)).
  set (full := fun i j => if i <? r then (if j <? r then f11 i j else f12 i (j - r)) else (if j <? r then f21 (i - r) j else f22 (i - r) (j - r))).
  exists full. split.
  - intro d. apply Go. eapply wp_seq.
    + apply (wp_grid h8 (2 * r) (2 * r) full E r r (fun i j k => k i j = full i j /\ k i (j + r) = full i (j + r) /\ k (i + r) j = full (i + r) j /\ k (i + r) (j + r) = full (i + r) (j + r))).
      * intros i j k k' (B1 & B2 & B3 & B4) Kk. repeat split; apply Kk; assumption.
      * intros d1 k i j Hi Hj Pk.
        eapply wp_seq; [eapply (wp_copy h8 (2 * r) (2 * r) full); [exact Ef11|lia|lia|lia|lia|]|].
        { unfold full. destruct (Z.ltb_spec i r); [|lia]. destruct (Z.ltb_spec j r); [reflexivity|lia]. }
        cbv beta. intros d2 h' _ [-> ->]. eapply wp_seq; [eapply (wp_copy h8 (2 * r) (2 * r) full); [exact Ef12|lia|lia|lia|lia|]|].
        { unfold full. destruct (Z.ltb_spec i r); [|lia]. destruct (Z.ltb_spec (j + r) r); [lia|]. replace (j + r - r) with j by lia. reflexivity. }
        cbv beta. intros d2 h' _ [-> ->]. eapply wp_seq; [eapply (wp_copy h8 (2 * r) (2 * r) full); [exact Ef21|lia|lia|lia|lia|]|].
        { unfold full. destruct (Z.ltb_spec (i + r) r); [lia|]. destruct (Z.ltb_spec j r); [|lia]. replace (i + r - r) with i by lia. reflexivity. }
        cbv beta. intros d2 h' _ [-> ->]. eapply wp_impl; [eapply (wp_copy h8 (2 * r) (2 * r) full); [exact Ef22|lia|lia|lia|lia|]|].
        { unfold full. destruct (Z.ltb_spec (i + r) r); [lia|]. destruct (Z.ltb_spec (j + r) r); [lia|]. f_equal; lia. }
        cbv beta. intros d2 h' _ [-> ->]. split; [reflexivity|]. eexists. split; [reflexivity|]. split; [do 4 apply upd_part; exact Pk|].
        split; [do 4 (eapply keeps_trans; [|apply upd_keeps]); intros i0 j0 Hij; exact Hij|].
        repeat split; repeat first [apply upd_at|apply upd_keeps].
      * intros i j _ _. left. reflexivity.
    + cbv beta. intros d1 h' [] (k & -> & Pk & Ck). cbn [mret wp]. exists k. split; [apply hp_last|]. split; [exact Pk|]. intros Hd i j Hi Hj.
      assert (X : exists i0 j0, 0 <= i0 < r /\ 0 <= j0 < r /\ (i = i0 \/ i = i0 + r) /\ (j = j0 \/ j = j0 + r)).
      { exists (if i <? r then i else i - r), (if j <? r then j else j - r). destruct (Z.ltb_spec i r); destruct (Z.ltb_spec j r); repeat split; lia. }
      destruct X as (i0 & j0 & Y1 & Y2 & Y3 & Y4). destruct (Ck Hd i0 j0 Y1 Y2) as (B1 & B2 & B3 & B4). destruct Y3 as [-> | ->]; destruct Y4 as [-> | ->]; assumption.
  - intro Hc. apply Go. eapply wp_seq; [apply wp_grid_done; exact Hc|]. cbv beta. intros d h' [] ->. cbn [mret wp]. apply hp_last.
Qed.

(** ** The direct product *)
(** operators.go:42-52, the sum *)
Fixpoint dotp (rows column : mat) (ls : list Z) (sum : V) : V :=
  match ls with
  | [] => sum
  | l :: rest => match mat_AtVec column l, mat_AtVec rows l with Ok vC, Ok vR => dotp rows column rest (nadd sum (nmul vR vC)) | _, _ => sum end
  end.
Lemma wp_dot E rows column (ls : list Z) h : (forall l, List.In l ls -> exists y, mat_AtVec rows l = Ok y) -> (forall l, List.In l ls -> exists y, mat_AtVec column l = Ok y) ->
  forall d sum, wp (fun d' h' o => h' = h /\ (d = true -> d' = true) /\ match o with Some s => s = dotp rows column ls sum | None => d' = true end) d h (dot_loop E rows column ls sum).
Proof.
  induction ls as [|l ls IH]; intros H1 H2 d sum; cbn [dot_loop dotp]; [cbn; auto|].
  destruct (H1 l (or_introl eq_refl)) as [y1 ->]. destruct (H2 l (or_introl eq_refl)) as [y2 ->]. cbn [poll mbind wp mlift mret].
  assert (G : wp (fun d' h' o => h' = h /\ (d = true -> d' = true) /\ match o with Some s => s = dotp rows column ls (nadd sum (nmul y1 y2)) | None => d' = true end) d h (dot_loop E rows column ls (nadd sum (nmul y1 y2)))).
  { apply IH; intros l' Hl; [apply H1|apply H2]; right; exact Hl. }
  destruct (e_ctx E); [split|exact G].
  - intros ->. exact G.
  - auto.
Qed.

Definition entry (A B : mat) (r c : Z) : V :=
  match mat_RowsAt A r, mat_ColumnsAt B c with Ok rows, Ok column => dotp rows column (zrange 0 (mat_Length rows)) n0 | _, _ => n0 end.

Lemma wp_direct E x f a b (A B : mat) R n C h : nth_error h a = Some A -> nth_error h b = Some B -> lined R n (is A) -> lined n C (is B) -> 0 <= R -> 0 <= C -> n <= x -> forall d,
  wp (fun d' h' nx => match nx with Fin p => filled R C (entry A B) d' h' p | Div _ => False end) d h (head E x f a b).
Proof.
  intros Ha Hb LA LB HR HC Hx d. destruct (LA A eq_refl) as (A1 & A2 & A3 & _). destruct (LB B eq_refl) as (B1 & B2 & _ & B3).
  unfold head. cbn [p_Columns p_Rows load mbind wp mret]. exists A. split; [exact Ha|]. exists B. split; [exact Hb|]. rewrite A2, B1, Z.eqb_refl. cbn [negb]. cbn [load mbind wp mret].
  exists B. split; [exact Hb|]. rewrite B1. destruct (Z.leb_spec n x); [|lia]. cbn [load mbind wp mret]. exists A. split; [exact Ha|]. exists B. split; [exact Hb|]. rewrite A1, B2.
  unfold new_dense. rewrite newMatrix_spec by lia. cbn [mlift mbind alloc wp]. change (h ++ [MDM (mk_dm R C (fun _ _ => n0))]) with (hp h R C (fun _ _ => n0)).
  assert (Ha' : forall k, nth_error (hp h R C k) a = Some A) by (intro; apply hp_old; exact Ha). assert (Hb' : forall k, nth_error (hp h R C k) b = Some B) by (intro; apply hp_old; exact Hb).
  unfold MatrixMatrixMultiply, multiply. cbn [p_Rows p_Columns load mbind wp mret]. exists B. split; [apply Hb'|]. exists A. split; [apply Ha'|]. rewrite B1, A2, Z.eqb_refl. cbn [negb].
  unfold check_mask. cbn [p_Rows p_Columns load mbind wp mret mask_Rows mask_Columns]. exists (MDM (mk_dm R C (fun _ _ => n0))). split; [apply hp_last|]. exists (MDM (mk_dm R C (fun _ _ => n0))). split; [apply hp_last|].
  cbn [mat_Rows mat_Columns dm_Rows dm_Columns mk_dm dm_r dm_c]. rewrite !Z.eqb_refl. cbn [negb load mbind wp mret]. exists A. split; [apply Ha'|]. exists B. split; [apply Hb'|]. rewrite A1, B2.
  eapply wp_seq with (Q := fun d' h' (_ : unit) => exists k', h' = hp h R C k' /\ part R C (entry A B) k' /\ (d' = false -> forall r, List.In r (zrange 0 R) -> forall c, List.In c (zrange 0 C) -> k' r c = entry A B r c)); [eapply wp_seq; [apply (wp_loop h R C (entry A B) _ (fun r k' => forall c, List.In c (zrange 0 C) -> k' r c = entry A B r c))|]|].
  - intros r k k' Hk K c Hc. apply K, Hk, Hc.
  - intros d1 k1 r Hr P1. apply in_zrange in Hr. cbn [load mbind wp]. exists A. split; [apply Ha'|]. destruct (A3 r ltac:(lia)) as (rows & Er & Lr & Ar). rewrite Er. cbn [mlift mbind].
    apply (wp_loop h R C (entry A B) _ (fun c k' => k' r c = entry A B r c)); [|intros d2 k2 c Hc P2|exact P1].
    + intros c k k' Hk K. apply K, Hk.
    + apply in_zrange in Hc. cbn [load mbind wp]. exists B. split; [apply Hb'|]. destruct (B3 c ltac:(lia)) as (col & Ec & Ac). rewrite Ec. cbn [mlift mbind].
      eapply wp_seq; [apply wp_dot; intros l Hl; apply in_zrange in Hl; [apply Ar|apply Ac]; lia|]. cbv beta. intros d3 h3 [sum|] (-> & Md & Hs).
      * assert (Ev : sum = entry A B r c) by (unfold entry; rewrite Er, Ec; exact Hs). rewrite Ev. cbn [mask_Element mret mbind negb].
        eapply wp_seq; [apply wp_set with (Q := fun d' h' _ => d' = d3 /\ h' = hp h R C (upd2 k2 r c (entry A B r c))); [lia|lia|auto]|]. cbv beta. intros d4 h4 [] [-> ->]. cbn [mret wp].
        eexists. split; [reflexivity|]. split; [apply upd_part; exact P2|]. split; [apply upd_keeps|]. split; [congruence|]. split; [exact Md|]. intros _. apply upd_at.
      * cbn [mret wp]. exists k2. split; [reflexivity|]. split; [exact P2|]. split; [intros i j Hij; exact Hij|]. split; [auto|]. split; [exact Md|]. rewrite Hs. discriminate.
  - intros i j _ _. left. reflexivity.
  - intros d1 h1 o (k1 & -> & P1 & K1 & O1 & M1 & C1). cbn [mret wp]. eauto.
  - intros d1 h1 [] (k1 & -> & P1 & C1). cbn [mret wp]. exists k1. split; [apply hp_last|]. split; [exact P1|]. intros D i j Hi Hj. apply C1; [exact D| |]; apply in_zrange; lia.
Qed.
End FineAlone.
