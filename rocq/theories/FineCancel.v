(** Strassen's multiplication when its context becomes done at some moment of the call: an invariant of
    its goroutines. *)
From Coq Require Import String Permutation.
From Verif Require Import GoBase Num SparseVec Csr Csc DenseVec DenseMat Mat World Ops MathOps Bfs Spec Api BaseProofs DenseProofs MatProofs StoreProofs Fine FineRel FineConc FineProofs FineStrassen FineStrassenInv FineSafe.

Section FineCancel.
Context {N : num}.
Notation V := (T N).
Notation mat := (mat N).
Notation prog := (prog N).
Notation names := (ptr -> Prop).
Notation known := (ptr -> option (mat -> Prop)).
Notation gor := (gor (N := N)).
Notation task := (task (N := N)).

(** ** Steps *)

(** The next step of a goroutine while the context of the call is done ([d]) or not (FineConc.v, [gstep]).  A tree
    tests a context without [e_ctx] only where the library passes context.Background(), which is never done. *)
Definition dstep (d : bool) {A} (h : list mat) (g : gor A) : option (list mat * gor A) :=
  match g_back g, g_prog g with
  | None, Poll E k => Some (h, MkGor (k (match e_ctx E with None => false | Some _ => d end)) None (g_polls g))
  | _, _ => gstep h g
  end.

(** one step of the program (FineStrassen.v, strassen.go:23-114); or the context becomes done *)
Inductive cstep (E : env) (x : Z) : bool * (list mat * task) -> bool * (list mat * task) -> Prop :=
| cs_run : forall d c c', turn (@dstep d) E x c c' -> cstep E x (d, c) (d, c')
| cs_done : forall c, cstep E x (false, c) (true, c).
(** any number of steps *)
Inductive csteps (E : env) (x : Z) : bool * (list mat * task) -> bool * (list mat * task) -> Prop :=
| css_none : forall c, csteps E x c c
| css_more : forall a b c, csteps E x a b -> cstep E x b c -> csteps E x a c.

(** ** What a goroutine looks at and writes *)

Definition none : names := fun _ => False.
Definition plus (h h' : list mat) (X : names) : names := fun p => X p \/ (length h <= p < length h')%nat.
Definition inside (h : list mat) (X : names) : Prop := forall p, X p -> (p < length h)%nat.
(** only [Y] changes, nothing goes *)
Definition changes (Y : names) (h h' : list mat) : Prop := (length h <= length h')%nat /\ forall p, (p < length h)%nat -> ~ Y p -> nth_error h' p = nth_error h p.

Definition holds (h : list mat) (D : known) : Prop := forall p P, D p = Some P -> exists m, nth_error h p = Some m /\ P m.
Record gsafe {A} (W : names) (Q : known -> names -> A -> Prop) (D : known) (O : names) (h : list mat) (g : gor A) : Prop := MkGSafe {
  gs_safe : safe W Q D O (g_prog g);
  gs_holds : holds h D;
  gs_own : forall p, O p -> D p <> None;
  gs_back : forall p m, g_back g = Some (p, m) -> nth_error h p = Some m /\ W p /\ D p <> None }.
Definition gok {A} (W : names) (Q : known -> names -> A -> Prop) (X Y : names) (h : list mat) (g : gor A) : Prop :=
  exists D O, gsafe W Q D O h g /\ (forall p, D p <> None -> X p) /\ (forall p, O p -> Y p).

Lemma holds_set h D p P m : holds h D -> D p = Some P -> P m -> holds (list_set h p m) D.
Proof.
  intros H Hp Hm q P' Hq. destruct (Nat.eq_dec q p) as [->|Ne].
  - exists m. assert (P' = P) by congruence. subst. split; [|exact Hm]. destruct (H p P Hp) as (m0 & E & _). apply nth_error_list_set_eq. apply nth_error_Some. congruence.
  - rewrite nth_error_list_set_neq by congruence. apply H. exact Hq.
Qed.

Lemma gok_step {A} W (Q : known -> names -> A -> Prop) X Y h g d h' g' : gok W Q X Y h g -> inside h X -> dstep d h g = Some (h', g') ->
  gok W Q (plus h h' X) (plus h h' Y) h' g' /\ changes Y h h'.
Proof.
  intros (D & O & [S H Ow B] & SX & SY) In St. unfold dstep, gstep in St.
  assert (Same : forall pr bk pl, safe W Q D O pr -> (forall p m, bk = Some (p, m) -> nth_error h p = Some m /\ W p /\ D p <> None) -> Some (h, MkGor pr bk pl) = Some (h', g') -> gok W Q (plus h h' X) (plus h h' Y) h' g' /\ changes Y h h').
  { intros pr bk pl S1 B1 E1. injection E1 as <- <-. split; [|split; [lia|reflexivity]]. exists D, O. split; [split; assumption|]. split; [intros p Hp; left; auto|intros p Hp; left; auto]. }
  destruct (g_back g) as [[p m]|] eqn:Eb.
  - destruct (B p m eq_refl) as (E1 & E2 & E3). rewrite (list_set_same h p m E1) in St. apply Same in St; [exact St|exact S|discriminate].
  - destruct (g_prog g) as [a| | |E k|p k|p m q|p r c k|p r c k|m k]; try discriminate; cbn [safe] in S.
    + apply Same in St; [exact St|apply S|discriminate].
    + destruct S as (P & E1 & E2). destruct (H p P E1) as (m & E3 & E4). rewrite E3 in St. apply Same in St; [exact St|apply E2; exact E4|discriminate].
    + destruct S as (E1 & (P & E2 & E3) & E4). injection St as <- <-. split.
      * exists D, O. split; [split; cbn [g_prog g_back]; [exact E4|eapply holds_set; eauto|exact Ow|discriminate]|]. split; [intros p0 Hp; left; auto|intros p0 Hp; left; auto].
      * split; [rewrite length_list_set; lia|]. intros p0 Hp Hy. apply nth_error_list_set_neq. intros ->. apply Hy, SY, E1.
    + destruct S as (P & E1 & E2). destruct (H p P E1) as (m & E3 & E4). rewrite E3 in St. destruct (E2 m E4) as (v & E5 & E6 & E7). rewrite E5 in St.
      apply Same in St; [exact St|exact E7|]. intros p0 m0 Hb. destruct (At_writes m); [|discriminate]. injection Hb as <- <-. split; [exact E3|]. split; [auto|congruence].
    + destruct S as (P & E1 & E2). destruct (H p P E1) as (m & E3 & E4). rewrite E3 in St. destruct (E2 m E4) as (v & E5 & E6 & E7). rewrite E5 in St.
      apply Same in St; [exact St|exact E7|]. intros p0 m0 Hb. destruct (Element_writes m); [|discriminate]. injection Hb as <- <-. split; [exact E3|]. split; [auto|congruence].
    + destruct S as (P & E1 & E2). injection St as <- <-.
      assert (Nn : D (length h) = None). { destruct (D (length h)) as [P'|] eqn:E; [|reflexivity]. exfalso. assert (X (length h)) by (apply SX; congruence). apply In in H0. lia. }
      split; [|split; [rewrite app_length; lia|intros p Hp _; apply nth_error_app1; exact Hp]].
      exists (with_new D (length h) P), (fun q => O q \/ q = length h). split; [split; cbn [g_prog g_back]|split].
      * apply E2. exact Nn.
      * intros q P' Hq. unfold with_new in Hq. destruct (Nat.eqb_spec q (length h)) as [->|Ne].
        { injection Hq as <-. exists m. split; [|exact E1]. rewrite nth_error_app2, Nat.sub_diag by lia. reflexivity. }
        destruct (H q P' Hq) as (m' & X1 & X2). exists m'. split; [|exact X2]. rewrite nth_error_app1; [exact X1|]. apply nth_error_Some. congruence.
      * intros q [Hq| ->]; [|rewrite new_at; discriminate]. unfold with_new. destruct (Nat.eqb q (length h)); [discriminate|auto].
      * discriminate.
      * intros q Hq. destruct (Nat.eq_dec q (length h)) as [Eq|Ne]; [right; rewrite app_length; cbn [length]; lia|left; apply SX].
        unfold with_new in Hq. apply Nat.eqb_neq in Ne. rewrite Ne in Hq. exact Hq.
      * intros q [Hq| ->]; [left; auto|right; rewrite app_length; cbn [length]; lia].
Qed.

Lemma gok_stable {A} W (Q : known -> names -> A -> Prop) X Y h h' g : gok W Q X Y h g -> (forall p, X p -> nth_error h' p = nth_error h p) -> gok W Q X Y h' g.
Proof.
  intros (D & O & [S H Ow B] & SX & SY) F. exists D, O. split; [|split; assumption]. split; [exact S| |exact Ow|].
  - intros p P Hp. destruct (H p P Hp) as (m & E1 & E2). exists m. split; [|exact E2]. rewrite F; [exact E1|]. apply SX. congruence.
  - intros p m Hb. destruct (B p m Hb) as (E1 & E2 & E3). split; [|auto]. rewrite F; [exact E1|apply SX; exact E3].
Qed.
Lemma gok_sub {A} W (Q : known -> names -> A -> Prop) X Y X' Y' h g : gok W Q X Y h g -> moreo X X' -> moreo Y Y' -> gok W Q X' Y' h g.
Proof. intros (D & O & S & SX & SY) H1 H2. exists D, O. split; [exact S|]. split; intros p Hp; auto. Qed.

Lemma gok_end {A} W (Q : known -> names -> A -> Prop) X Y h g a : gok W Q X Y h g -> outcome g = Some (Ok a) ->
  exists D O, Q D O a /\ holds h D /\ (forall p, D p <> None -> X p) /\ (forall p, O p -> Y p).
Proof.
  intros (D & O & [S H Ow B] & SX & SY) E. unfold outcome in E. destruct (g_back g); [discriminate|]. destruct (g_prog g); try discriminate. injection E as ->.
  exists D, O. auto.
Qed.
Lemma gok_fails {A} W (Q : known -> names -> A -> Prop) X Y h g : gok W Q X Y h g -> outcome g <> Some Panic /\ outcome g <> Some Diverge.
Proof.
  intros (D & O & [S H Ow B] & SX & SY). unfold outcome. destruct (g_back g); [split; discriminate|]. destruct (g_prog g); try (split; discriminate); destruct S.
Qed.

(** a goroutine that starts *)
Definition among (l : list ptr) : names := fun p => List.In p l.
Definition knows (l : list ptr) (P : mat -> Prop) : known := fun p => if existsb (Nat.eqb p) l then Some P else None.
Lemma knows_in l P p : List.In p l -> knows l P p = Some P.
Proof. intro H. unfold knows. replace (existsb (Nat.eqb p) l) with true; [reflexivity|]. symmetry. apply existsb_exists. exists p. split; [exact H|apply Nat.eqb_refl]. Qed.
Lemma knows_some l P p : knows l P p <> None -> List.In p l.
Proof. unfold knows. destruct (existsb (Nat.eqb p) l) eqn:E; [|congruence]. intros _. apply existsb_exists in E. destruct E as (q & H & E). apply Nat.eqb_eq in E. subst. exact H. Qed.
Lemma knows_val l P p P' : knows l P p = Some P' -> P' = P.
Proof. unfold knows. destruct (existsb (Nat.eqb p) l); congruence. Qed.
Definition shaped (h : list mat) (R C : Z) (l : list ptr) : Prop := forall p, List.In p l -> exists m, nth_error h p = Some m /\ dsh R C m.

Lemma gok_go {A} (Q : known -> names -> A -> Prop) h R C l (y : prog A) : shaped h R C l -> safe none Q (knows l (dsh R C)) none y -> gok none Q (among l) none h (go y).
Proof.
  intros H S. exists (knows l (dsh R C)), none. split; [split; cbn [go g_prog g_back]; [exact S| |contradiction|discriminate]|].
  - intros p P Hp. pose proof (knows_val _ _ _ _ Hp) as ->. apply H. apply (knows_some l (dsh R C)). congruence.
  - split; [intros p Hp; eapply knows_some; exact Hp|intros p []].
Qed.

Lemma dstep_on {A} d h (g : gor A) : (exists c, dstep d h g = Some c) \/ outcome g <> None.
Proof.
  unfold dstep, gstep, outcome. destruct (g_back g) as [[p m]|]; [left; eexists; reflexivity|].
  destruct (g_prog g) as [a| | |E k|p k|p m q|p r c k|p r c k|m k]; try (right; discriminate); left; try (eexists; reflexivity).
  - destruct (nth_error h p); eexists; reflexivity.
  - destruct (nth_error h p) as [m|]; [destruct (mat_At m r c) as [[? ?]| |]|]; eexists; reflexivity.
  - destruct (nth_error h p) as [m|]; [destruct (mat_Element m r c) as [[? ?]| |]|]; eexists; reflexivity.
Qed.

(** ** What several goroutines look at and write *)
Notation fp := (names * names)%type.
Definition disj (f f' : fp) : Prop := forall p, (snd f p -> ~ fst f' p) /\ (snd f' p -> ~ fst f p).
Definition apart (l : list fp) : Prop := ForallOrdPairs disj l.
Definition within (X Y : names) (l : list fp) : Prop := Forall (fun f => moreo (fst f) X /\ moreo (snd f) Y) l.

Lemma disj_sym f f' : disj f f' -> disj f' f.
Proof. intros H p. destruct (H p). auto. Qed.
Lemma apart_mid l1 f l2 : apart (l1 ++ f :: l2) <-> Forall (disj f) (l1 ++ l2) /\ apart (l1 ++ l2).
Proof.
  unfold apart. induction l1 as [|a l1 IH]; cbn [app].
  - split; [intro H; inversion H; auto|intros [H1 H2]; constructor; auto].
  - split.
    + intro H. inversion H as [|? ? H1 H2]; subst. apply IH in H2. destruct H2 as [H2 H3]. apply Forall_app in H1. destruct H1 as [H1 H4]. inversion H4; subst.
      split; [constructor; [apply disj_sym; assumption|exact H2]|]. constructor; [apply Forall_app; auto|exact H3].
    + intros [H1 H2]. inversion H1 as [|? ? H3 H4]; subst. inversion H2 as [|? ? H5 H6]; subst. constructor; [|apply IH; auto].
      apply Forall_app in H5. apply Forall_app. destruct H5. split; [assumption|]. constructor; [apply disj_sym; exact H3|assumption].
Qed.
Lemma apart_grow h h' X Y l1 f l2 : apart (l1 ++ f :: l2) -> within X Y (l1 ++ f :: l2) -> inside h X -> inside h Y ->
  apart (l1 ++ (plus h h' (fst f), plus h h' (snd f)) :: l2).
Proof.
  intros A Wi I1 I2. apply apart_mid in A. apply apart_mid. destruct A as [A1 A2]. split; [|exact A2].
  apply Forall_forall. intros f' Hf. pose proof (proj1 (Forall_forall _ _) A1 _ Hf) as D.
  assert (Hf' : moreo (fst f') X /\ moreo (snd f') Y) by (apply (proj1 (Forall_forall _ _) Wi); apply in_app_or in Hf; apply in_or_app; cbn [List.In]; tauto).
  intro p. cbn [fst snd]. split.
  - intros [H|H] H'; [exact (proj1 (D p) H H')|]. apply Hf', I1 in H'. lia.
  - intros H [H'|H']; [exact (proj2 (D p) H H')|]. apply Hf', I2 in H. lia.
Qed.
Lemma within_grow h h' X Y l1 f l2 : within X Y (l1 ++ f :: l2) -> within (plus h h' X) (plus h h' Y) (l1 ++ (plus h h' (fst f), plus h h' (snd f)) :: l2).
Proof.
  intro H. apply Forall_app in H. destruct H as [H1 H2]. inversion H2 as [|? ? [H3 H4] H5]; subst.
  assert (K : forall l, Forall (fun f : fp => moreo (fst f) X /\ moreo (snd f) Y) l -> within (plus h h' X) (plus h h' Y) l).
  { intros l Hl. eapply Forall_impl; [|exact Hl]. intros f0 [K1 K2]. split; intros p Hp; left; auto. }
  apply Forall_app. split; [apply K, H1|]. constructor; [|apply K, H5]. cbn [fst snd]. split; intros p [Hp|Hp]; [left; auto|right; exact Hp|left; auto|right; exact Hp].
Qed.
(** the others see nothing of a step *)
Lemma others_still h h' X Y l1 f l2 : apart (l1 ++ f :: l2) -> within X Y (l1 ++ f :: l2) -> inside h X -> changes (snd f) h h' ->
  forall f', List.In f' (l1 ++ l2) -> forall p, fst f' p -> nth_error h' p = nth_error h p.
Proof.
  intros A Wi I1 [_ Ch] f' Hf p Hp. apply apart_mid in A. destruct A as [A1 _]. pose proof (proj1 (Forall_forall _ _) A1 _ Hf) as D.
  assert (Hf' : moreo (fst f') X) by (apply (proj1 (Forall_forall _ _) Wi); apply in_app_or in Hf; apply in_or_app; cbn [List.In]; tauto).
  apply Ch; [apply I1, Hf', Hp|]. intro H. exact (proj1 (D p) H Hp).
Qed.

(** ** A call *)
Section Call.
Variable E : env.
Variable x : Z.

(** the size of the product of square matrices of size [n]: an odd size above the crossover loses a row and a column *)
Fixpoint rs (f : nat) (n : Z) : Z := if n <=? x then n else match f with O => n | Datatypes.S f' => 2 * rs f' (Z.quot n 2) end.
Lemma rs_bound f : forall n, 0 <= n -> 0 <= rs f n <= n.
Proof.
  induction f as [|f IH]; intros n Hn; cbn [rs]; destruct (n <=? x); try lia.
  pose proof (Z.quot_pos n 2 Hn ltac:(lia)). pose proof (IH (Z.quot n 2) H). rewrite Z.quot_div_nonneg in * by lia. pose proof (Z.div_mod n 2 ltac:(lia)). pose proof (Z.mod_pos_bound n 2 ltac:(lia)). lia.
Qed.

(** the quarters have size [s], the product [R] rows and [C] columns *)
Definition plan (f : nat) (s R C : Z) : Prop := 0 <= s /\ 2 * s * (2 * s) < 2 ^ 63 /\ s * s <= Z.of_nat (e_fuel E) /\ s <= Z.of_nat f /\ R = 2 * rs f s /\ C = 2 * rs f s.
Definition Qhead (f : nat) (R C : Z) : known -> names -> next -> Prop := fun D O nx =>
  match nx with
  | Fin p => fresh R C D O p
  | Div bl => exists f' s, f = Datatypes.S f' /\ quarters s D bl /\ plan f' s R C
  end.

Lemma safe_head W f a b P P' R n C (D : known) (O : names) : 0 <= x -> 0 <= n -> n * n < 2 ^ 63 -> n * n <= Z.of_nat (e_fuel E) -> n <= Z.of_nat f ->
  D a = Some P -> D b = Some P' -> (forall m, P m -> mat_Columns m = n) -> (forall m, P' m -> mat_Rows m = n) ->
  (n <= x -> lined R n P /\ lined n C P' /\ 0 <= R /\ 0 <= C /\ R * C < 2 ^ 63 /\ (forall m, P m -> mat_Rows m = R) /\ (forall m, P' m -> mat_Columns m = C)) ->
  (x < n -> celled W (2 * Z.quot n 2) a P /\ celled W (2 * Z.quot n 2) b P') ->
  safe W (Qhead f (if n <=? x then R else rs f n) (if n <=? x then C else rs f n)) D O (head E x f a b).
Proof.
  intros H0 Hn Hn2 Hf Hff Da Db Ca Rb Lo Hi. unfold head.
  eapply safe_bind; [apply (safe_Columns W _ _ _ _ n Da Ca)|]. intros D1 O1 ? M1 N1 Eq; unfold gives in Eq; rewrite Eq; clear Eq.
  eapply safe_bind; [apply (safe_Rows W _ _ _ _ n (M1 _ _ Db) Rb)|]. intros D2 O2 ? M2 N2 Eq; unfold gives in Eq; rewrite Eq; clear Eq. rewrite Z.eqb_refl. cbn [negb].
  eapply safe_bind; [apply (safe_Rows W _ _ _ _ n (M2 _ _ (M1 _ _ Db)) Rb)|]. intros D3 O3 ? M3 N3 Eq; unfold gives in Eq; rewrite Eq; clear Eq.
  apply M1, M2, M3 in Da. apply M1, M2, M3 in Db. clear D D1 D2 O O1 O2 M1 M2 M3 N1 N2 N3. destruct (Z.leb_spec n x) as [Lt|Lt].
  - destruct (Lo Lt) as (L1 & L2 & R0 & C0 & Rc & Ra & Cb).
    eapply safe_bind; [apply (safe_Rows W _ _ _ _ R Da Ra)|]. intros D4 O4 ? M4 N4 Eq; unfold gives in Eq; rewrite Eq; clear Eq.
    eapply safe_bind; [apply (safe_Columns W _ _ _ _ C (M4 _ _ Db) Cb)|]. intros D5 O5 ? M5 N5 Eq; unfold gives in Eq; rewrite Eq; clear Eq.
    eapply safe_bind; [apply (safe_new W _ _ R C R0 C0 Rc)|]. intros D6 O6 t M6 N6 [F1 F2].
    eapply safe_bind; [apply (safe_multiply W E a b t P P' R n C); auto|]. intros D7 O7 [] M7 N7 _. cbn [mret safe Qhead]. split; auto.
  - destruct (Hi Lt) as [C1 C2]. destruct f as [|f]; [lia|].
    pose proof (Z.quot_pos n 2 Hn ltac:(lia)) as Q0. assert (Q1 : 2 * Z.quot n 2 <= n) by (rewrite Z.quot_div_nonneg by lia; pose proof (Z.div_mod n 2 ltac:(lia)); pose proof (Z.mod_pos_bound n 2 ltac:(lia)); lia).
    eapply safe_bind; [apply (safe_divide W E a b P P' (Z.quot n 2)); try assumption; nia|]. intros D4 O4 bl M4 N4 Q. cbn [mret safe Qhead].
    exists f, (Z.quot n 2). split; [reflexivity|]. split; [exact Q|]. cbn [rs]. destruct (Z.leb_spec n x) as [?|_]; [lia|]. repeat split; try nia.
Qed.

Definition parts (bl : blocks) : list ptr := [b_a11 bl; b_a12 bl; b_a21 bl; b_a22 bl; b_b11 bl; b_b12 bl; b_b21 bl; b_b22 bl].
Lemma quarters_parts s (D : known) bl : quarters s D bl <-> forall p, List.In p (parts bl) -> D p = Some (dsh s s).
Proof.
  unfold quarters, parts. split.
  - intros (A1 & A2 & A3 & A4 & B1 & B2 & B3 & B4) p Hp. cbn [List.In] in Hp. intuition congruence.
  - intro H. cbn [List.In] in H. repeat split; apply H; tauto.
Qed.

(** the objects [h] are such that the call [t] and its goroutines, which look at no more than [X] and write no more than
    [Y], do not fail, whatever else changes; the product is going to have [R] rows and [C] columns *)
Inductive ok (W : names) (R C : Z) (X Y : names) (h : list mat) : task -> Prop :=
| ok_head : forall f g, gok W (Qhead f R C) X Y h g -> ok W R C X Y h (THead f g)
| ok_spawn : forall f bl i rest g ks s Xg Yg (fs : list fp), plan f s R C -> map fst ks ++ i :: rest = seven -> shaped h s s (parts bl) -> gok none (pair_of s) Xg Yg h g ->
    Forall2 (fun k w => ok none (rs f s) (rs f s) (fst w) (snd w) h (snd k)) ks fs ->
    apart ((among (parts bl), none) :: (Xg, Yg) :: fs) -> within X Y ((among (parts bl), none) :: (Xg, Yg) :: fs) ->
    ok W R C X Y h (TSpawn f bl i rest g ks)
| ok_recv : forall f ks got s (fs : list fp), plan f s R C -> (forall i, List.In i seven -> List.In i (map fst ks) \/ List.In i (map fst got)) -> shaped h (rs f s) (rs f s) (map snd got) ->
    Forall2 (fun k w => ok none (rs f s) (rs f s) (fst w) (snd w) h (snd k)) ks fs ->
    apart ((among (map snd got), none) :: fs) -> within X Y ((among (map snd got), none) :: fs) ->
    ok W R C X Y h (TRecv f ks got)
| ok_comb : forall g, gok none (fresh R C) X Y h g -> ok W R C X Y h (TComb g).

Lemma within_sub X Y X' Y' l : within X Y l -> moreo X X' -> moreo Y Y' -> within X' Y' l.
Proof. intros H A B. eapply Forall_impl; [|exact H]. intros f [H1 H2]. split; intros p Hp; auto. Qed.
Lemma ok_sub W R C X Y X' Y' h t : ok W R C X Y h t -> moreo X X' -> moreo Y Y' -> ok W R C X' Y' h t.
Proof.
  intros H A B. inversion H; subst.
  - apply ok_head. eapply gok_sub; eauto.
  - eapply ok_spawn; eauto. eapply within_sub; eauto.
  - eapply ok_recv; eauto. eapply within_sub; eauto.
  - apply ok_comb. eapply gok_sub; eauto.
Qed.

Lemma shaped_still h h' R C l : shaped h R C l -> (forall p, List.In p l -> nth_error h' p = nth_error h p) -> shaped h' R C l.
Proof. intros H F p Hp. rewrite F by exact Hp. exact (H p Hp). Qed.
Lemma ok_still t : forall W R C X Y h h', ok W R C X Y h t -> (forall p, X p -> nth_error h' p = nth_error h p) -> ok W R C X Y h' t.
Proof.
  assert (Kids : forall r X Y h h' (ks : list (Z * task)) fs, Forall (fun c => forall W R C X Y h h', ok W R C X Y h (snd c) -> (forall p, X p -> nth_error h' p = nth_error h p) -> ok W R C X Y h' (snd c)) ks ->
    Forall2 (fun k w => ok none r r (fst w) (snd w) h (snd k)) ks fs -> within X Y fs -> (forall p, X p -> nth_error h' p = nth_error h p) -> Forall2 (fun k w => ok none r r (fst w) (snd w) h' (snd k)) ks fs).
  { intros r X Y h h' ks fs IH F Wi Fr. induction F as [|k w ks fs H F IHF]; [constructor|]. inversion IH; subst. inversion Wi as [|? ? [W1 W2] W3]; subst. constructor; [|apply IHF; assumption].
    eapply H2; [exact H|]. intros p Hp. apply Fr, W1, Hp. }
  induction t as [f g|f bl i rest g cs IH|f cs got IH|g] using task_ind2; intros W R C X Y h h' H F; inversion H; subst.
  - apply ok_head. eapply gok_stable; eauto.
  - match goal with H : within _ _ _ |- _ => assert (Wi := H) end. inversion Wi as [|? ? [W1 _] W3]; subst. inversion W3 as [|? ? [W4 _] W5]; subst. cbn [fst] in W1, W4. eapply ok_spawn; eauto.
    + eapply shaped_still; [eassumption|]. intros p Hp. apply F, W1, Hp.
    + eapply gok_stable; [eassumption|]. intros p Hp. apply F, W4, Hp.
  - match goal with H : within _ _ _ |- _ => assert (Wi := H) end. inversion Wi as [|? ? [W1 _] W3]; subst. cbn [fst] in W1. eapply ok_recv; eauto. eapply shaped_still; [eassumption|]. intros p Hp. apply F, W1, Hp.
  - apply ok_comb. eapply gok_stable; eauto.
Qed.

Lemma kids_still r X Y h h' (ks : list (Z * task)) fs : Forall2 (fun k w => ok none r r (fst w) (snd w) h (snd k)) ks fs ->
  (forall f, List.In f fs -> forall p, fst f p -> nth_error h' p = nth_error h p) -> within X Y fs -> Forall2 (fun k w => ok none r r (fst w) (snd w) h' (snd k)) ks fs.
Proof.
  intros F H Wi. induction F as [|k w ks fs K F IH]; [constructor|]. inversion Wi; subst. constructor; [|apply IH; [|assumption]; intros f Hf; apply H; right; exact Hf].
  eapply ok_still; [exact K|]. apply H. left. reflexivity.
Qed.

Lemma changes_sub Y Y' h h' : changes Y h h' -> moreo Y Y' -> changes Y' h h'.
Proof. intros [H1 H2] S. split; [exact H1|]. intros p Hp Hn. apply H2; auto. Qed.

Lemma ok_end W R C X Y h t p : ok W R C X Y h t -> finished t = Some p -> X p /\ exists m, nth_error h p = Some m /\ dsh R C m /\ Y p.
Proof.
  intros H F. destruct t as [f g|f bl i rest g cs|f cs got|g]; cbn [finished] in F; try discriminate; inversion H; subst.
  - destruct (outcome g) as [[[q|bl]| |]|] eqn:Eo; try discriminate. injection F as <-. destruct (gok_end _ _ _ _ _ _ _ H1 Eo) as (D & O & [Q1 Q2] & Hh & S1 & S2).
    split; [apply S1; congruence|]. destruct (Hh _ _ Q1) as (m & E1 & E2). exists m. auto.
  - destruct (outcome g) as [[q| |]|] eqn:Eo; try discriminate. injection F as <-. destruct (gok_end _ _ _ _ _ _ _ H1 Eo) as (D & O & [Q1 Q2] & Hh & S1 & S2).
    split; [apply S1; congruence|]. destruct (Hh _ _ Q1) as (m & E1 & E2). exists m. auto.
Qed.


(** one of several takes a step *)
Lemma kids_step r X Y h h' (k1 : list (Z * task)) j t t' k2 f1 f f2 (pre : list fp) :
  Forall2 (fun k w => ok none r r (fst w) (snd w) h (snd k)) (k1 ++ (j, t) :: k2) (f1 ++ f :: f2) -> length k1 = length f1 ->
  apart (pre ++ f1 ++ f :: f2) -> within X Y (pre ++ f1 ++ f :: f2) -> inside h X -> inside h Y ->
  ok none r r (plus h h' (fst f)) (plus h h' (snd f)) h' t' -> changes (snd f) h h' ->
  Forall2 (fun k w => ok none r r (fst w) (snd w) h' (snd k)) (k1 ++ (j, t') :: k2) (f1 ++ (plus h h' (fst f), plus h h' (snd f)) :: f2) /\
  apart (pre ++ f1 ++ (plus h h' (fst f), plus h h' (snd f)) :: f2) /\ within (plus h h' X) (plus h h' Y) (pre ++ f1 ++ (plus h h' (fst f), plus h h' (snd f)) :: f2) /\
  (forall f', List.In f' pre -> forall p, fst f' p -> nth_error h' p = nth_error h p) /\ changes Y h h'.
Proof.
  intros F L Ap Wi I1 I2 Ok Ch. rewrite app_assoc in Ap, Wi. pose proof (others_still h h' X Y _ _ _ Ap Wi I1 Ch) as St.
  rewrite !app_assoc. split; [|split; [|split; [|split]]].
  - apply Forall2_app_inv_l in F. destruct F as (g1 & g2 & F1 & F2 & Eq). inversion F2 as [|? ? ? ? K1 K2]; subst.
    assert (Lg : length f1 = length g1) by (rewrite <- L; eapply Forall2_len; exact F1).
    assert (f1 = g1 /\ f :: f2 = y :: l') as [-> Eq2] by (apply app_same; assumption). injection Eq2 as -> ->.
    apply Forall_app in Wi. destruct Wi as [Wi1 Wi2]. apply Forall_app in Wi1. destruct Wi1 as [_ Wi1]. inversion Wi2; subst.
    apply Forall2_app; [|constructor; [exact Ok|]].
    + eapply kids_still; [exact F1| |exact Wi1]. intros f' Hf. apply St. apply in_or_app. left. apply in_or_app. right. exact Hf.
    + eapply kids_still; [exact K2| |eassumption]. intros f' Hf. apply St. apply in_or_app. right. exact Hf.
  - eapply apart_grow; eauto.
  - apply within_grow. exact Wi.
  - intros f' Hf. apply St. apply in_or_app. left. apply in_or_app. left. exact Hf.
  - eapply changes_sub; [exact Ch|]. apply Forall_app in Wi. destruct Wi as [_ Wi]. inversion Wi as [|? ? [W1 W2] W3]; subst. exact W2.
Qed.

Lemma inside_plus h h' X : inside h X -> (length h <= length h')%nat -> inside h' (plus h h' X).
Proof. intros H L p [Hp|Hp]; [specialize (H p Hp)|]; lia. Qed.
Lemma plus_same h X p : plus h h X p <-> X p.
Proof. unfold plus. split; [intros [H|H]; [exact H|lia]|auto]. Qed.

Hypothesis x0 : 0 <= x.

Lemma ok_go f s h a b : 0 <= s -> s * s < 2 ^ 63 -> s * s <= Z.of_nat (e_fuel E) -> s <= Z.of_nat f -> shaped h s s [a; b] -> ok none (rs f s) (rs f s) (among [a; b]) none h (THead f (go (head E x f a b))).
Proof.
  intros H0 H1 H2 H3 H4. apply ok_head. eapply gok_go; [exact H4|].
  replace (rs f s) with (if s <=? x then s else rs f s) by (destruct f; cbn [rs]; destruct (s <=? x); reflexivity).
  apply (safe_head none f a b (dsh s s) (dsh s s)); try assumption; try (apply knows_in; cbn; tauto); try (intros m Hm; [apply (dsh_columns _ _ _ Hm)|apply (dsh_rows _ _ _ Hm)]).
  - intros m Hm. apply (dsh_columns _ _ _ Hm).
  - intros m Hm. apply (dsh_rows _ _ _ Hm).
  - intros _. split; [apply lined_dsh|]. split; [apply lined_dsh|]. repeat split; try assumption; intros m Hm; [apply (dsh_rows _ _ _ Hm)|apply (dsh_columns _ _ _ Hm)].
  - intros _. assert (2 * Z.quot s 2 <= s) by (rewrite Z.quot_div_nonneg by lia; pose proof (Z.div_mod s 2 ltac:(lia)); pose proof (Z.mod_pos_bound s 2 ltac:(lia)); lia).
    split; apply celled_dsh; lia.
Qed.

Lemma gok_opnd f s R C i bl h : plan f s R C -> shaped h s s (parts bl) -> gok none (pair_of s) (among (parts bl)) none h (go (opnd E i bl)).
Proof.
  intros (P0 & P1 & P2 & _) H. eapply gok_go; [exact H|]. apply (safe_opnd none E i bl s); [|nia]. apply quarters_parts. intros p Hp. apply knows_in. exact Hp.
Qed.

Lemma disj_none_l (X : names) (f : fp) : (forall p, snd f p -> ~ X p) -> disj (X, none) f.
Proof. intros H p. cbn [fst snd]. split; [intros []|apply H]. Qed.

Lemma ok_turn d c c' : turn (@dstep d) E x c c' -> forall W R C X Y, ok W R C X Y (fst c) (snd c) -> inside (fst c) X -> inside (fst c) Y ->
  ok W R C (plus (fst c) (fst c') X) (plus (fst c) (fst c') Y) (fst c') (snd c') /\ changes Y (fst c) (fst c').
Proof.
  assert (Still : forall Y h, changes Y h h) by (intros Y h; split; [lia|reflexivity]).
  induction 1 as [f h g h' g' St|f h g bl Eo|f bl i rest ks h g h' g' St|f bl i rest ks h g a b Eo|f bl i rest g h h' k1 j t t' k2 T IH|f got h h' k1 j t t' k2 T IH|f got h k1 j t k2 p Ef|f got h|h g h' g' St];
    intros W R C X Y H I1 I2; cbn [fst snd] in *; inversion H; subst.
  - destruct (gok_step _ _ _ _ _ _ _ _ _ H1 I1 St) as [G Ch]. split; [apply ok_head; exact G|exact Ch].
  - split; [|apply Still]. destruct (gok_end _ _ _ _ _ _ _ H1 Eo) as (D & O & (f' & s & Ef & Q & Pl) & Hh & S1 & S2). injection Ef as <-.
    assert (Sh : shaped h s s (parts bl)). { intros p Hp. apply (Hh p). exact (proj1 (quarters_parts s D bl) Q p Hp). }
    assert (Sx : moreo (among (parts bl)) X). { intros p Hp. apply S1. rewrite (proj1 (quarters_parts s D bl) Q p Hp). discriminate. }
    eapply ok_sub; [|intros p Hp; left; exact Hp|intros p Hp; left; exact Hp].
    eapply (ok_spawn W R C X Y h f bl 1 _ _ [] s (among (parts bl)) none []); eauto.
    + eapply gok_opnd; eauto.
    + constructor; [|constructor; constructor]. constructor; [|constructor]. apply disj_none_l. intros p [].
    + constructor; [|constructor; [|constructor]]; (split; [exact Sx|intros p []]).
  - match goal with H : gok none _ Xg Yg _ _, Wi : within _ _ _, Ap : apart _ |- _ => rename H into Hg; rename Wi into Hw; rename Ap into Ha end.
    assert (Wg : moreo Xg X /\ moreo Yg Y) by (inversion Hw as [|? ? _ W3]; subst; inversion W3; subst; assumption).
    assert (Ig : inside h Xg) by (intros p Hp; apply I1, Wg, Hp). destruct (gok_step _ _ _ _ _ _ _ _ _ Hg Ig St) as [G Ch].
    pose proof (others_still h h' X Y [(among (parts bl), none)] (Xg, Yg) fs Ha Hw I1 Ch) as Ot. cbn [app] in Ot.
    split; [|eapply changes_sub; [exact Ch|apply Wg]].
    eapply (ok_spawn _ _ _ _ _ _ f bl i rest g' ks s (plus h h' Xg) (plus h h' Yg) fs); eauto.
    + eapply shaped_still; [eassumption|]. apply (Ot (among (parts bl), none)). left. reflexivity.
    + eapply kids_still; [eassumption| |]; [intros f' Hf; apply Ot; right; exact Hf|]. inversion Hw as [|? ? _ W3]; subst; inversion W3; subst; eassumption.
    + exact (apart_grow h h' X Y [(among (parts bl), none)] (Xg, Yg) fs Ha Hw I1 I2).
    + exact (within_grow h h' X Y [(among (parts bl), none)] (Xg, Yg) fs Hw).
  - split; [|apply Still].
    match goal with H : gok none _ Xg Yg _ _, Wi : within _ _ _, Ap : apart _, Pl : plan _ _ _ _, Sh : shaped _ _ _ _, K : Forall2 _ _ _, L : _ ++ _ = seven |- _ => rename H into Hg; rename Wi into Hw; rename Ap into Ha; rename Pl into Hp; rename Sh into Hsh; rename K into Hk; rename L into Hl end.
    assert (Wg : moreo Xg X /\ moreo Yg Y) by (inversion Hw as [|? ? _ W3]; subst; inversion W3; subst; assumption).
    assert (Wb : moreo (among (parts bl)) X) by (inversion Hw as [|? ? [W3 _] _]; subst; exact W3).
    destruct (gok_end _ _ _ _ _ _ _ Hg Eo) as (D & O & [Q1 Q2] & Hh & S1 & S2). cbn [fst snd] in Q1, Q2.
    assert (Sab : shaped h s s [a; b]) by (intros p [<-|[<-|[]]]; [apply (Hh a), Q1|apply (Hh b), Q2]).
    assert (Xab : moreo (among [a; b]) Xg) by (intros p [<-|[<-|[]]]; apply S1; congruence).
    destruct Hp as (P0 & P1 & P2 & P3 & P4 & P5). assert (Hp : plan f s R C) by (repeat split; assumption).
    assert (Hk' : Forall2 (fun k w => ok none (rs f s) (rs f s) (fst w) (snd w) h (snd k)) (ks ++ [(i, THead f (go (head E x f a b)))]) (fs ++ [(among [a; b], none)])).
    { apply Forall2_app; [exact Hk|]. constructor; [|constructor]. cbn [fst snd]. apply ok_go; try assumption. nia. }
    inversion Ha as [|? ? Ha1 Ha2]; subst. inversion Ha2 as [|? ? Ha3 Ha4]; subst. inversion Ha1 as [|? ? _ Ha5]; subst.
    inversion Hw as [|? ? _ Hw1]; subst. inversion Hw1 as [|? ? _ Hw2]; subst.
    assert (Ap' : apart (fs ++ [(among [a; b], none)])).
    { apply (apart_mid fs _ []). rewrite app_nil_r. split; [|exact Ha4]. eapply Forall_impl; [|exact Ha3]. intros f' Df. apply disj_none_l. intros p Hp1 Hp2. exact (proj2 (Df p) Hp1 (Xab p Hp2)). }
    assert (Wi' : within X Y (fs ++ [(among [a; b], none)])).
    { apply Forall_app. split; [exact Hw2|]. constructor; [|constructor]. split; [intros p Hp1; apply Wg, Xab, Hp1|intros p []]. }
    assert (Bd : Forall (disj (among (parts bl), none)) (fs ++ [(among [a; b], none)])).
    { apply Forall_app. split; [exact Ha5|]. constructor; [|constructor]. apply disj_none_l. intros p []. }
    eapply ok_sub; [|intros p Hp1; left; exact Hp1|intros p Hp1; left; exact Hp1]. unfold spawned. destruct rest as [|i' rest].
    + eapply (ok_recv _ _ _ _ _ _ f _ [] s (fs ++ [(among [a; b], none)])); eauto.
      * intros i0 Hi. left. rewrite map_app. cbn [map fst]. rewrite Hl. exact Hi.
      * intros p [].
      * constructor; [|exact Ap']. apply Forall_forall. intros f' _. apply disj_none_l. intros p _ [].
      * constructor; [|exact Wi']. split; intros p [].
    + eapply (ok_spawn _ _ _ _ _ _ f bl i' rest _ _ s (among (parts bl)) none (fs ++ [(among [a; b], none)])); eauto.
      * rewrite map_app. cbn [map fst]. rewrite <- app_assoc. exact Hl.
      * eapply gok_opnd; eauto.
      * constructor; [|constructor; [exact Bd|exact Ap']]. constructor; [|exact Bd]. apply disj_none_l. intros p [].
      * constructor; [|constructor; [|exact Wi']]; (split; [exact Wb|intros p []]).
  - match goal with Wi : within _ _ _, Ap : apart _, K : Forall2 _ _ _, L : _ ++ _ = seven |- _ => rename Wi into Hw; rename Ap into Ha; rename K into Hk; rename L into Hl end.
    destruct (Forall2_app_inv_l _ _ Hk) as (f1 & f2 & F1 & F2 & Eq). inversion F2 as [|? fk ? f2' K1 K2]; subst. cbn [fst snd] in K1.
    assert (Wk : moreo (fst fk) X /\ moreo (snd fk) Y).
    { apply (proj1 (Forall_forall _ _) Hw). right. right. apply in_or_app. right. left. reflexivity. }
    destruct (IH _ _ _ _ _ K1) as [Ok Ch]; [intros p Hp; apply I1, Wk, Hp|intros p Hp; apply I2, Wk, Hp|].
    destruct (kids_step _ X Y h h' k1 j t t' k2 f1 fk f2' [(among (parts bl), none); (Xg, Yg)] Hk (Forall2_len _ _ _ F1) Ha Hw I1 I2 Ok Ch) as (Hk' & Ha' & Hw' & Ot & Ch').
    split; [|exact Ch']. eapply (ok_spawn _ _ _ _ _ _ f bl i rest g _ s Xg Yg); eauto.
    + rewrite map_app in *. exact Hl.
    + eapply shaped_still; [eassumption|]. apply (Ot (among (parts bl), none)). left. reflexivity.
    + eapply gok_stable; [eassumption|]. apply (Ot (Xg, Yg)). right. left. reflexivity.
  - match goal with Wi : within _ _ _, Ap : apart _, K : Forall2 _ _ _, L : forall i, List.In i seven -> _ |- _ => rename Wi into Hw; rename Ap into Ha; rename K into Hk; rename L into Hl end.
    destruct (Forall2_app_inv_l _ _ Hk) as (f1 & f2 & F1 & F2 & Eq). inversion F2 as [|? fk ? f2' K1 K2]; subst. cbn [fst snd] in K1.
    assert (Wk : moreo (fst fk) X /\ moreo (snd fk) Y).
    { apply (proj1 (Forall_forall _ _) Hw). right. apply in_or_app. right. left. reflexivity. }
    destruct (IH _ _ _ _ _ K1) as [Ok Ch]; [intros p Hp; apply I1, Wk, Hp|intros p Hp; apply I2, Wk, Hp|].
    destruct (kids_step _ X Y h h' k1 j t t' k2 f1 fk f2' [(among (map snd got), none)] Hk (Forall2_len _ _ _ F1) Ha Hw I1 I2 Ok Ch) as (Hk' & Ha' & Hw' & Ot & Ch').
    split; [|exact Ch']. eapply (ok_recv _ _ _ _ _ _ f _ got s); eauto.
    + rewrite map_app in *. exact Hl.
    + eapply shaped_still; [eassumption|]. apply (Ot (among (map snd got), none)). left. reflexivity.
  - split; [|apply Still].
    match goal with Wi : within _ _ _, Ap : apart _, K : Forall2 _ _ _, L : forall i, List.In i seven -> _, Sh : shaped _ _ _ _ |- _ => rename Wi into Hw; rename Ap into Ha; rename K into Hk; rename L into Hl; rename Sh into Hsh end.
    apply Forall2_app_inv_l in Hk. destruct Hk as (f1 & f2 & F1 & F2 & ->). inversion F2 as [|? fk ? f2' K1 K2]; subst. cbn [fst snd] in K1.
    destruct (ok_end _ _ _ _ _ _ _ _ K1 Ef) as (Xp & m & Em & Dm & _).
    inversion Ha as [|? ? Ha1 Ha2]; subst. apply apart_mid in Ha2. destruct Ha2 as [Ha2 Ha3].
    inversion Hw as [|? ? [Wg _] Hw1]; subst. apply Forall_app in Hw1. destruct Hw1 as [Hw1 Hw2]. inversion Hw2 as [|? ? [Wk _] Hw3]; subst. cbn [fst] in Wg.
    eapply ok_sub; [|intros q Hq; left; exact Hq|intros q Hq; left; exact Hq].
    eapply (ok_recv _ _ _ _ _ _ f _ _ s (f1 ++ f2')); eauto.
    + intros i Hi. specialize (Hl i Hi). rewrite !map_app in *. rewrite !in_app_iff in *. cbn [map fst List.In] in *. tauto.
    + intros q Hq. rewrite map_app in Hq. apply in_app_or in Hq. destruct Hq as [Hq|[<-|[]]]; [apply Hsh; exact Hq|exists m; auto].
    + apply Forall2_app; assumption.
    + constructor; [|exact Ha3]. apply Forall_forall. intros f' Hf. apply disj_none_l. intros q Hq1 Hq2. unfold among in Hq2. rewrite map_app in Hq2. apply in_app_or in Hq2. destruct Hq2 as [Hq2|[<-|[]]].
      * assert (Hf2 : List.In f' (f1 ++ fk :: f2')) by (apply in_app_or in Hf; apply in_or_app; cbn [List.In]; tauto).
        exact (proj2 (proj1 (Forall_forall _ _) Ha1 _ Hf2 q) Hq1 Hq2).
      * exact (proj2 (proj1 (Forall_forall _ _) Ha2 _ Hf p) Hq1 Xp).
    + constructor; [|apply Forall_app; split; assumption]. split; [|intros q []]. cbn [fst]. intros q Hq. unfold among in Hq. rewrite map_app in Hq. apply in_app_or in Hq. destruct Hq as [Hq|[<-|[]]]; [apply Wg; exact Hq|apply Wk; exact Xp].
  - split; [|apply Still].
    match goal with Wi : within _ _ _, K : Forall2 _ _ _, L : forall i, List.In i seven -> _, Sh : shaped _ _ _ _, Pl : plan _ _ _ _ |- _ => rename Wi into Hw; rename L into Hl; rename Sh into Hsh; destruct Pl as (P0 & P1 & P2 & P3 & -> & ->) end.
    pose proof (rs_bound f s P0) as Rb. apply ok_comb. eapply gok_sub; [eapply gok_go; [exact Hsh|]|intros q Hq; left; inversion Hw as [|? ? [Wg _] _]; subst; apply Wg, Hq|intros q []].
    apply (safe_combine none E got (rs f s)); [|lia|nia|nia]. split.
    + intros i Hi. destruct (Hl i Hi) as [[]|Hg]. apply in_map_iff in Hg. destruct Hg as ([i' p] & <- & Hg). exists p. exact Hg.
    + intros i p Hp. apply knows_in. apply in_map_iff. exists (i, p). auto.
  - destruct (gok_step _ _ _ _ _ _ _ _ _ H1 I1 St) as [G Ch]. split; [apply ok_comb; exact G|exact Ch].
Qed.

End Call.
End FineCancel.
