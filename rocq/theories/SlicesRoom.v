(** Two runs of one program with different spare room show the same.

    The arrays of the two runs do not correspond one to one: where one run appends in place
    the other allocates.  An array made with a length that the program determines is paired
    with its counterpart, and paired arrays agree in all their cells.  An array made by
    [append] has no counterpart, and only one vector refers to it. *)
From Verif Require Import GoBase BaseProofs Num SparseVec Csr Csc DenseVec DenseMat Mat Slices SlicesProofs SlicesThms DenseProofs.

(** ** Paired arrays *)
Section Pairs.
Context {A : Type}.
Implicit Types (m : mem A) (s : slice).

Definition bij (b : nat -> nat -> Prop) : Prop := forall k q k' q', b k q -> b k' q' -> (k = k' <-> q = q').

(** the paired arrays exist and agree *)
Definition pairs (b : nat -> nat -> Prop) m (m2 : mem A) : Prop :=
  bij b /\ forall k q, b k q -> (k < length m)%nat /\ (q < length m2)%nat /\ array m k = array m2 q.

(** one more pair *)
Definition more (b : nat -> nat -> Prop) (k0 q0 : nat) (k q : nat) : Prop := b k q \/ (k = k0 /\ q = q0).

(** two slices of paired arrays *)
Definition link (b : nat -> nat -> Prop) s (s2 : slice) : Prop :=
  b (s_arr s) (s_arr s2) /\ s_off s = s_off s2 /\ s_len s = s_len s2 /\ s_cap s = s_cap s2.

Lemma link_contents b m m2 s s2 : pairs b m m2 -> link b s s2 -> contents m s = contents m2 s2.
Proof. intros [_ H] (L1 & L2 & L3 & L4). unfold contents. destruct (H _ _ L1) as (_ & _ & E). rewrite E, L2, L3. reflexivity. Qed.

Lemma link_mono (b b' : nat -> nat -> Prop) s s2 : (forall k q, b k q -> b' k q) -> link b s s2 -> link b' s s2.
Proof. intros H (L1 & L2). split; auto. Qed.

Lemma pairs_fresh b m m2 (l : list A) : pairs b m m2 -> pairs (more b (length m) (length m2)) (m ++ [l]) (m2 ++ [l]).
Proof.
  intros [B H]. split.
  - intros k q k' q' [H1|[-> ->]] [H2|[-> ->]].
    + apply B; auto.
    + destruct (H _ _ H1) as (X & Y & _). split; lia.
    + destruct (H _ _ H2) as (X & Y & _). split; lia.
    + tauto.
  - intros k q [H1|[-> ->]].
    + destruct (H _ _ H1) as (X & Y & E). rewrite !app_length. cbn. split; [lia|]. split; [lia|]. rewrite !array_app by auto. auto.
    + rewrite !app_length. cbn. split; [lia|]. split; [lia|]. rewrite !array_new. reflexivity.
Qed.

Lemma pairs_keep b m m2 L L2 m' m2' : pairs b m m2 -> keeps L m m' -> keeps L2 m2 m2' ->
  (forall k q, b k q -> ~ In k L /\ ~ In q L2) -> pairs b m' m2'.
Proof.
  intros [B H] [K1 K2] [K3 K4] Hn. split; auto. intros k q Hb. destruct (H _ _ Hb) as (X & Y & E). destruct (Hn _ _ Hb).
  split; [lia|]. split; [lia|]. rewrite (proj2 (K2 _ X)), (proj2 (K4 _ Y)); auto.
Qed.

Lemma pairs_set b m m2 k q (l : list A) : pairs b m m2 -> b k q -> pairs b (list_set m k l) (list_set m2 q l).
Proof.
  intros [B H] Hb. split; auto. intros k' q' Hb'. destruct (H _ _ Hb) as (X & Y & _). destruct (H _ _ Hb') as (X' & Y' & E).
  rewrite !length_list_set_any. split; auto. split; auto. rewrite !array_set by auto. pose proof (B _ _ _ _ Hb Hb') as Q.
  destruct (Nat.eqb_spec k' k), (Nat.eqb_spec q' q); auto; exfalso; lia.
Qed.

(** writing through linked slices *)
Lemma sset_link b m m2 s s2 i (x : A) : pairs b m m2 -> link b s s2 ->
  sim (fun m' m2' => pairs b m' m2' /\ keeps [s_arr s] m m' /\ keeps [s_arr s2] m2 m2') (sset m s i x) (sset m2 s2 i x).
Proof.
  intros P L. pose proof L as (L1 & L2 & L3 & L4). unfold sset. rewrite L3. destruct (_ || _); cbn; auto.
  destruct (proj2 P _ _ L1) as (X & Y & E). rewrite <- L2, <- E. split; [apply pairs_set; auto|].
  split; apply keeps_set; auto; rewrite length_list_set_any; congruence.
Qed.
Lemma to_link b s s2 p : link b s s2 -> sim (link b) (to s p) (to s2 p).
Proof.
  intros (L1 & L2 & L3 & L4). unfold to. rewrite L4. destruct (_ || _); cbn; auto. unfold link. cbn. auto.
Qed.
Lemma from_link b s s2 p : link b s s2 -> sim (link b) (from s p) (from s2 p).
Proof.
  intros (L1 & L2 & L3 & L4). unfold from. rewrite L3. destruct (_ || _); cbn; auto. unfold link. cbn. rewrite L2, L4. auto.
Qed.
End Pairs.

Section Room.
Context {N : num}.
Implicit Types (st : store N) (o : sobj) (x y : thing) (a : act N) (ts : list thing) (D : nat -> Prop).

(** ** A vector alone with its array, in one run *)
Definition alone D st ts (i : nat) x : Prop :=
  (forall k, In k (fv st (tobj x)) -> ~ D k) /\
  (forall j y, j <> i -> nth_error ts j = Some y ->
     apart (fv st (tobj x)) (fv st (tobj y)) /\ apart (fz (tobj x)) (fz (tobj y))).

(** [ts'] is [ts] with [x'] at [t] *)
Definition upd ts (t : nat) x' ts' : Prop :=
  nth_error ts' t = Some x' /\ forall i, i <> t -> nth_error ts' i = nth_error ts i.

Lemma upd_add ts x : upd ts (length ts) x (ts ++ [x]).
Proof.
  split; [rewrite nth_error_app2, Nat.sub_diag; auto|]. intros i Hi.
  destruct (Nat.lt_ge_cases i (length ts)) as [L|L]; [apply nth_error_app1; auto|].
  transitivity (@None thing); [|symmetry]; apply nth_error_None; rewrite ?app_length; cbn; lia.
Qed.
Lemma upd_put ts t x x' : nth_error ts t = Some x -> upd ts t x' (list_set ts t x').
Proof.
  intros H. split.
  - rewrite nth_error_list_set, Nat.eqb_refl, H. reflexivity.
  - intros i Hi. apply nth_error_list_set_neq. auto.
Qed.
Lemma upd_same ts t x : nth_error ts t = Some x -> upd ts t x ts.
Proof. intros H. split; auto. Qed.

Definition all_owned st ts : Prop := forall i x, nth_error ts i = Some x -> owned st (tobj x).

Lemma alone_step D D' st ts st' ts' t x' Lv Lz i x : all_owned st ts -> alone D st ts i x -> nth_error ts i = Some x ->
  i <> t -> upd ts t x' ts' -> kept Lv Lz st st' ->
  (forall k, In k (fv st (tobj x)) -> ~ In k Lv) -> (forall k, In k (fz (tobj x)) -> ~ In k Lz) ->
  (forall k, D' k -> D k \/ (length (st_v st) <= k)%nat) ->
  (forall k, In k (fv st' (tobj x')) -> D' k \/ In k Lv \/ (length (st_v st) <= k)%nat) ->
  (forall k, In k (fz (tobj x')) -> In k Lz \/ (length (st_z st) <= k)%nat) ->
  alone D' st' ts' i x /\ see st' x = see st x.
Proof.
  intros Ho [A1 A2] Hi Hne [U1 U2] K Hv Hz HD Hx Hxz. pose proof (Ho _ _ Hi) as Hox.
  pose proof (fv_keep _ _ _ _ _ K Hox) as Efv.
  split; [|apply see_view; eapply view_keep; eauto]. split.
  - intros k Hk Hd. rewrite Efv in Hk. destruct (HD k Hd) as [Hd'|Hge]; [exact (A1 k Hk Hd')|].
    pose proof (fv_bound _ _ _ Hox Hk). lia.
  - intros j y Hj Hy. rewrite Efv. destruct (Nat.eq_dec j t) as [->|Hjt].
    + assert (y = x') by congruence. subst y. split; intros k H1 H2.
      * pose proof (fv_bound _ _ _ Hox H1). destruct (Hx k H2) as [Hd|[Hl|Hge]]; [|eapply Hv; eauto|lia].
        destruct (HD k Hd) as [Hd'|]; [exact (A1 k H1 Hd')|lia].
      * pose proof (fz_bound _ _ _ Hox H1). destruct (Hxz k H2) as [Hl|Hge]; [eapply Hz; eauto|lia].
    + rewrite (U2 j Hjt) in Hy. rewrite (fv_keep _ _ _ _ _ K (Ho _ _ Hy)). apply (A2 j y); auto.
Qed.

Lemma alone_made D st ts st' ts' t x' : all_owned st ts -> upd ts t x' ts' -> made st st' (tobj x') ->
  (forall k, D k -> (k < length (st_v st))%nat) -> alone D st' ts' t x'.
Proof.
  intros Ho [U1 U2] (K & O & F1 & F2) HD. split.
  - intros k Hk Hd. specialize (F1 k Hk). specialize (HD k Hd). lia.
  - intros j y Hj Hy. rewrite (U2 j Hj) in Hy. pose proof (Ho _ _ Hy) as Hoy. rewrite (fv_keep _ _ _ _ _ K Hoy).
    split; intros k H1 H2.
    + specialize (F1 k H1). pose proof (fv_bound _ _ _ Hoy H2). lia.
    + specialize (F2 k H1). pose proof (fz_bound _ _ _ Hoy H2). lia.
Qed.

Lemma alone_moved D st ts st' ts' t x x' : all_owned st ts -> alone D st ts t x -> upd ts t x' ts' ->
  moved st (tobj x) st' (tobj x') -> (forall k, D k -> (k < length (st_v st))%nat) -> alone D st' ts' t x'.
Proof.
  intros Ho [A1 A2] [U1 U2] (K & O & F1 & F2) HD. split.
  - intros k Hk Hd. destruct (F1 k Hk) as [H|H]; [exact (A1 k H Hd)|]. specialize (HD k Hd). lia.
  - intros j y Hj Hy. rewrite (U2 j Hj) in Hy. pose proof (Ho _ _ Hy) as Hoy. rewrite (fv_keep _ _ _ _ _ K Hoy).
    destruct (A2 j y Hj Hy) as [B1 B2]. split; intros k H1 H2.
    + destruct (F1 k H1) as [H|H]; [exact (B1 k H H2)|]. pose proof (fv_bound _ _ _ Hoy H2). lia.
    + destruct (F2 k H1) as [H|H]; [exact (B2 k H H2)|]. pose proof (fz_bound _ _ _ Hoy H2). lia.
Qed.

(** ** Two runs *)
Implicit Types (b g : nat -> nat -> Prop).

Definition linked b g o o2 : Prop :=
  match o, o2 with
  | SDV l v, SDV l2 v2 => l = l2 /\ link b v v2
  | SDM c r d, SDM c2 r2 d2 => c = c2 /\ r = r2 /\ link g d d2
  | _, _ => False
  end.
Definition same_sort x y : Prop :=
  match x, y with TObj _, TObj _ | TArr _, TArr _ | TArr2 _, TArr2 _ => True | _, _ => False end.
Definition vector_or_sparse x : Prop := match x with TObj (SDM _ _ _) => False | TObj _ => True | _ => False end.

Definition left b (k : nat) : Prop := exists q, b k q.
Definition right b (q : nat) : Prop := exists k, b k q.

Definition twin b g st ts st2 ts2 (i : nat) x y : Prop :=
  same_sort x y /\
  (linked b g (tobj x) (tobj y) \/
   (vector_or_sparse x /\ alone (left b) st ts i x /\ alone (right b) st2 ts2 i y /\ see st x = see st2 y)).

Definition rows_linked b g st st2 : Prop :=
  forall k q, g k q -> (k < length (st_o st))%nat /\ (q < length (st_o st2))%nat /\
    Forall2 (link b) (array (st_o st) k) (array (st_o st2) q).

Record twins b g st ts st2 ts2 : Prop := MkTwins {
  tw_len : length ts = length ts2;
  tw_own : all_owned st ts; tw_own2 : all_owned st2 ts2;
  tw_v : pairs b (st_v st) (st_v st2);
  tw_o : rows_linked b g st st2;
  tw_each : forall i x y, nth_error ts i = Some x -> nth_error ts2 i = Some y -> twin b g st ts st2 ts2 i x y }.

Lemma Forall2_firstn {A B} (R : A -> B -> Prop) l l' n : Forall2 R l l' -> Forall2 R (firstn n l) (firstn n l').
Proof. intros H. revert n. induction H; intros [|n]; cbn; auto. Qed.
Lemma Forall2_skipn {A B} (R : A -> B -> Prop) l l' n : Forall2 R l l' -> Forall2 R (skipn n l) (skipn n l').
Proof. intros H. revert n. induction H; intros [|n]; cbn; auto. Qed.

Lemma Forall2_weaken {A B} (R Q : A -> B -> Prop) l l' : (forall u w, R u w -> Q u w) -> Forall2 R l l' -> Forall2 Q l l'.
Proof. intros H F. induction F; auto. Qed.
Lemma Forall2_nth_error_l {A B} (R : A -> B -> Prop) l l' : Forall2 R l l' -> forall i u, nth_error l i = Some u ->
  exists w, nth_error l' i = Some w /\ R u w.
Proof. induction 1; intros [|i] z; cbn; try discriminate; [intros [= <-]; eauto|eauto]. Qed.
Lemma Forall2_nth_error_r {A B} (R : A -> B -> Prop) l l' : Forall2 R l l' -> forall i w, nth_error l' i = Some w ->
  exists u, nth_error l i = Some u /\ R u w.
Proof. induction 1; intros [|i] z; cbn; try discriminate; [intros [= <-]; eauto|eauto]. Qed.

Lemma rows_link b g st st2 d d2 : rows_linked b g st st2 -> link g d d2 -> Forall2 (link b) (rows_of st d) (rows_of st2 d2).
Proof.
  intros R (L1 & L2 & L3 & L4). unfold rows_of, contents. rewrite <- L2, <- L3.
  apply Forall2_firstn, Forall2_skipn. apply (R _ _ L1).
Qed.
Lemma grid_link b g st st2 d d2 : pairs b (st_v st) (st_v st2) -> rows_linked b g st st2 -> link g d d2 -> grid st d = grid st2 d2.
Proof.
  intros P R L. unfold grid. pose proof (rows_link _ _ _ _ _ _ R L) as F.
  induction F as [|s s2 l l2 H F IH]; cbn; [reflexivity|]. rewrite (link_contents _ _ _ _ _ P H). f_equal. exact IH.
Qed.
Lemma linked_view b g st st2 o o2 : pairs b (st_v st) (st_v st2) -> rows_linked b g st st2 -> linked b g o o2 -> view st o = view st2 o2.
Proof.
  intros P R H. destruct o as [r c v s e|r c v s e|l v s|l v|c r d], o2 as [r2 c2 v2 s2 e2|r2 c2 v2 s2 e2|l2 v2 s2|l2 v2|c2 r2 d2]; cbn in H; try contradiction; cbn.
  - destruct H as [-> H]. rewrite (link_contents _ _ _ _ _ P H). reflexivity.
  - destruct H as (-> & -> & H). do 2 f_equal. apply (grid_link _ _ _ _ _ _ P R H).
Qed.
Lemma twin_see b g st ts st2 ts2 i x y : pairs b (st_v st) (st_v st2) -> rows_linked b g st st2 ->
  twin b g st ts st2 ts2 i x y -> see st x = see st2 y.
Proof.
  intros P R [S [H|(_ & _ & _ & H)]]; [|exact H]. pose proof (linked_view _ _ _ _ _ _ P R H) as E.
  destruct x, y; cbn in S; try contradiction; cbn in *; [congruence| |]; injection E as E; intros; f_equal; auto.
Qed.

Theorem twins_see b g st ts st2 ts2 : twins b g st ts st2 ts2 -> map (see st) ts = map (see st2) ts2.
Proof.
  intros [Hl _ _ P R H]. apply nth_error_ext'; [rewrite !map_length; auto|].
  intros i Hi. rewrite map_length in Hi. rewrite !nth_error_map.
  destruct (nth_error ts i) as [x|] eqn:E1; [|apply nth_error_None in E1; lia].
  destruct (nth_error ts2 i) as [y|] eqn:E2; [|apply nth_error_None in E2; lia].
  cbn. f_equal. eapply twin_see; eauto.
Qed.

Lemma linked_mono b b' g g' o o2 : (forall k q, b k q -> b' k q) -> (forall k q, g k q -> g' k q) -> linked b g o o2 -> linked b' g' o o2.
Proof.
  intros H1 H2. destruct o, o2; cbn; auto.
  - intros [E L]. split; auto. eapply link_mono; eauto.
  - intros (E & F & L). split; auto. split; auto. eapply link_mono; eauto.
Qed.

(** a step that touches the place [t] of the two runs *)
Lemma twins_step b g b' g' st ts st2 ts2 st' ts' st2' ts2' t x' y' Lv Lz Lv2 Lz2 :
  twins b g st ts st2 ts2 -> upd ts t x' ts' -> upd ts2 t y' ts2' -> length ts' = length ts2' ->
  kept Lv Lz st st' -> kept Lv2 Lz2 st2 st2' ->
  (forall k q, b k q -> b' k q) -> (forall k q, g k q -> g' k q) ->
  (forall k q, b' k q -> b k q \/ (length (st_v st) <= k /\ length (st_v st2) <= q)%nat) ->
  pairs b' (st_v st') (st_v st2') -> rows_linked b' g' st' st2' ->
  owned st' (tobj x') -> owned st2' (tobj y') ->
  (forall i x y, i <> t -> nth_error ts i = Some x -> nth_error ts2 i = Some y ->
     alone (left b) st ts i x -> alone (right b) st2 ts2 i y ->
     (forall k, In k (fv st (tobj x)) -> ~ In k Lv) /\ (forall k, In k (fz (tobj x)) -> ~ In k Lz) /\
     (forall k, In k (fv st2 (tobj y)) -> ~ In k Lv2) /\ (forall k, In k (fz (tobj y)) -> ~ In k Lz2)) ->
  (forall k, In k (fv st' (tobj x')) -> left b' k \/ In k Lv \/ (length (st_v st) <= k)%nat) ->
  (forall k, In k (fz (tobj x')) -> In k Lz \/ (length (st_z st) <= k)%nat) ->
  (forall k, In k (fv st2' (tobj y')) -> right b' k \/ In k Lv2 \/ (length (st_v st2) <= k)%nat) ->
  (forall k, In k (fz (tobj y')) -> In k Lz2 \/ (length (st_z st2) <= k)%nat) ->
  twin b' g' st' ts' st2' ts2' t x' y' ->
  twins b' g' st' ts' st2' ts2'.
Proof.
  intros [Hl Ho Ho2 P R H] U U2 Hl' K K2 Mb Mg Nb P' R' Ox Oy Av Fx Fxz Fy Fyz Tw. pose proof U as [Ut Un]. pose proof U2 as [Ut2 Un2].
  constructor; auto.
  - intros i x Hi. destruct (Nat.eq_dec i t) as [->|Hn]; [rewrite Ut in Hi; congruence|]. rewrite Un in Hi by auto.
    eapply owned_keep; eauto.
  - intros i x Hi. destruct (Nat.eq_dec i t) as [->|Hn]; [rewrite Ut2 in Hi; congruence|]. rewrite Un2 in Hi by auto.
    eapply owned_keep; eauto.
  - intros i x y Hi Hi2. destruct (Nat.eq_dec i t) as [->|Hn].
    { assert (x = x') by congruence. assert (y = y') by congruence. subst. exact Tw. }
    rewrite Un in Hi by auto. rewrite Un2 in Hi2 by auto.
    destruct (H i x y Hi Hi2) as [S [L|(V & A1 & A2 & E)]]; (split; [exact S|]).
    + left. eapply linked_mono; eauto.
    + right. split; [exact V|]. destruct (Av i x y Hn Hi Hi2 A1 A2) as (B1 & B2 & B3 & B4).
      destruct (alone_step _ (left b') st ts st' ts' t x' Lv Lz i x Ho A1 Hi Hn U K B1 B2) as [C1 C2]; auto.
      { intros k [q Hk]. destruct (Nb k q Hk) as [|[]]; [left; exists q; auto|right; auto]. }
      destruct (alone_step _ (right b') st2 ts2 st2' ts2' t y' Lv2 Lz2 i y Ho2 A2 Hi2 Hn U2 K2 B3 B4) as [C3 C4]; auto.
      { intros q [k Hk]. destruct (Nb k q Hk) as [|[]]; [left; exists k; auto|right; auto]. }
      split; [exact C1|]. split; [exact C3|]. congruence.
Qed.

Lemma left_bound b g st ts st2 ts2 : twins b g st ts st2 ts2 -> forall k, left b k -> (k < length (st_v st))%nat.
Proof. intros T k [q H]. apply (proj2 (tw_v _ _ _ _ _ _ T) _ _ H). Qed.
Lemma right_bound b g st ts st2 ts2 : twins b g st ts st2 ts2 -> forall k, right b k -> (k < length (st_v st2))%nat.
Proof. intros T k [q H]. apply (proj2 (tw_v _ _ _ _ _ _ T) _ _ H). Qed.

Lemma rows_keep_linked b g st st2 st' st2' : rows_linked b g st st2 -> keeps [] (st_o st) (st_o st') -> keeps [] (st_o st2) (st_o st2') ->
  rows_linked b g st' st2'.
Proof.
  intros R [K1 K2] [K3 K4] k q Hg. destruct (R _ _ Hg) as (X & Y & F). split; [lia|]. split; [lia|].
  rewrite (proj2 (K2 _ X)), (proj2 (K4 _ Y)) by (cbn; tauto). exact F.
Qed.

(** the new thing at [t] is alone: it is made of new arrays *)
Lemma twins_made b g st ts st2 ts2 st' ts' st2' ts2' t x' y' : twins b g st ts st2 ts2 ->
  upd ts t x' ts' -> upd ts2 t y' ts2' -> length ts' = length ts2' ->
  made st st' (tobj x') -> made st2 st2' (tobj y') -> same_sort x' y' -> vector_or_sparse x' -> see st' x' = see st2' y' ->
  twins b g st' ts' st2' ts2'.
Proof.
  intros T U U2 Hl M M2 S V E. pose proof M as (K & O & F1 & F2). pose proof M2 as (K2 & O2 & F3 & F4).
  apply (twins_step b g b g st ts st2 ts2 st' ts' st2' ts2' t x' y' [] [] [] []); auto.
  - apply (pairs_keep b _ _ [] [] _ _ (tw_v _ _ _ _ _ _ T)); [apply K|apply K2|cbn; tauto].
  - apply (rows_keep_linked b g _ _ _ _ (tw_o _ _ _ _ _ _ T)); [apply K|apply K2].
  - split; [exact S|]. right. split; [exact V|]. split; [|split; [|exact E]].
    + apply (alone_made _ st ts); auto; [apply T|apply (left_bound _ _ _ _ _ _ T)].
    + apply (alone_made _ st2 ts2); auto; [apply T|apply (right_bound _ _ _ _ _ _ T)].
Qed.

(** a thing that is alone has changed *)
Lemma twins_moved b g st ts st2 ts2 st' ts' st2' ts2' t x y x' y' : twins b g st ts st2 ts2 ->
  nth_error ts t = Some x -> nth_error ts2 t = Some y -> alone (left b) st ts t x -> alone (right b) st2 ts2 t y ->
  upd ts t x' ts' -> upd ts2 t y' ts2' -> length ts' = length ts2' ->
  moved st (tobj x) st' (tobj x') -> moved st2 (tobj y) st2' (tobj y') -> same_sort x' y' -> vector_or_sparse x' -> see st' x' = see st2' y' ->
  twins b g st' ts' st2' ts2'.
Proof.
  intros T Hx Hy A A2 U U2 Hl M M2 S V E. pose proof M as (K & O & F1 & F2). pose proof M2 as (K2 & O2 & F3 & F4).
  apply (twins_step b g b g st ts st2 ts2 st' ts' st2' ts2' t x' y' (fv st (tobj x)) (fz (tobj x)) (fv st2 (tobj y)) (fz (tobj y))); auto.
  - apply (pairs_keep b _ _ (fv st (tobj x)) (fv st2 (tobj y)) _ _ (tw_v _ _ _ _ _ _ T)); [apply K|apply K2|].
    intros k q Hb. split; intros Hk; [apply (proj1 A k Hk); exists q; auto|apply (proj1 A2 q Hk); exists k; auto].
  - apply (rows_keep_linked b g _ _ _ _ (tw_o _ _ _ _ _ _ T)); [apply K|apply K2].
  - intros i x0 y0 Hi Hx0 Hy0 [_ B] [_ B2]. destruct (B t x (not_eq_sym Hi) Hx) as [C1 C2]. destruct (B2 t y (not_eq_sym Hi) Hy) as [C3 C4]. auto.
  - split; [exact S|]. right. split; [exact V|]. split; [|split; [|exact E]].
    + apply (alone_moved _ st ts _ _ _ x); auto; [apply T|apply (left_bound _ _ _ _ _ _ T)].
    + apply (alone_moved _ st2 ts2 _ _ _ y); auto; [apply T|apply (right_bound _ _ _ _ _ _ T)].
Qed.

Definition only_v (Lv Lv2 : list nat) st st' st2 st2' : Prop :=
  keeps Lv (st_v st) (st_v st') /\ keeps Lv2 (st_v st2) (st_v st2') /\
  keeps [] (st_z st) (st_z st') /\ keeps [] (st_z st2) (st_z st2') /\
  keeps [] (st_o st) (st_o st') /\ keeps [] (st_o st2) (st_o st2').

(** the thing at [t] is linked, and what was written lies in paired arrays *)
Lemma twins_linked b g b' g' st ts st2 ts2 st' ts' st2' ts2' t x' y' Lv Lv2 : twins b g st ts st2 ts2 ->
  upd ts t x' ts' -> upd ts2 t y' ts2' -> length ts' = length ts2' ->
  only_v Lv Lv2 st st' st2 st2' -> (forall k, In k Lv -> left b k) -> (forall q, In q Lv2 -> right b q) ->
  (forall k q, b k q -> b' k q) -> (forall k q, g k q -> g' k q) ->
  (forall k q, b' k q -> b k q \/ (length (st_v st) <= k /\ length (st_v st2) <= q)%nat) ->
  pairs b' (st_v st') (st_v st2') -> rows_linked b' g' st' st2' ->
  owned st' (tobj x') -> owned st2' (tobj y') -> same_sort x' y' -> linked b' g' (tobj x') (tobj y') ->
  twins b' g' st' ts' st2' ts2'.
Proof.
  intros T U U2 Hl (K1 & K2 & K3 & K4 & K5 & K6) Hv Hv2 Mb Mg Nb P R O O2 S L.
  assert (Fz : fz (tobj x') = [] /\ fz (tobj y') = []) by (destruct (tobj x'), (tobj y'); cbn in *; tauto).
  destruct Fz as [Fz Fz2].
  assert (Fv : (forall k, In k (fv st' (tobj x')) -> left b' k) /\ (forall k, In k (fv st2' (tobj y')) -> right b' k)).
  { clear -L R. destruct (tobj x') as [r c v s e|r c v s e|l v s|l v|c r d], (tobj y') as [r2 c2 v2 s2 e2|r2 c2 v2 s2 e2|l2 v2 s2|l2 v2|c2 r2 d2]; cbn in *; try tauto.
    - destruct L as [_ [L _]]. split; intros k [<-|[]]; eexists; exact L.
    - destruct L as (_ & _ & L). pose proof (rows_link _ _ _ _ _ _ R L) as F. split; intros k Hk; apply in_map_iff in Hk as (s & <- & Hs).
      + apply In_nth_error in Hs as [i Hi]. destruct (Forall2_nth_error_l _ _ _ F i s Hi) as (s' & _ & [Q _]). eexists; exact Q.
      + apply In_nth_error in Hs as [i Hi]. destruct (Forall2_nth_error_r _ _ _ F i s Hi) as (s' & _ & [Q _]). eexists; exact Q. }
  destruct Fv as [Fv Fv2].
  apply (twins_step b g b' g' st ts st2 ts2 st' ts' st2' ts2' t x' y' Lv [] Lv2 []); auto.
  - split; auto.
  - split; auto.
  - intros i x y Hi Hx Hy [A _] [A2 _]. split; [|split; [|split]]; try (cbn; tauto).
    + intros k H1 H2. apply (A k H1). auto.
    + intros k H1 H2. apply (A2 k H1). auto.
  - rewrite Fz. cbn. tauto.
  - rewrite Fz2. cbn. tauto.
  - split; auto.
Qed.

(** ** The steps *)
Lemma obj_twin b g st ts st2 ts2 t : twins b g st ts st2 ts2 ->
  sim (fun o o2 => nth_error ts t = Some (TObj o) /\ nth_error ts2 t = Some (TObj o2) /\ twin b g st ts st2 ts2 t (TObj o) (TObj o2))
      (the_obj ts t) (the_obj ts2 t).
Proof.
  intros T. unfold the_obj. pose proof (tw_len _ _ _ _ _ _ T) as Hl.
  destruct (nth_error ts t) as [x|] eqn:E1, (nth_error ts2 t) as [y|] eqn:E2.
  - pose proof (tw_each _ _ _ _ _ _ T t x y E1 E2) as W. pose proof (proj1 W) as S.
    destruct x, y; cbn in S; try contradiction; cbn; auto.
  - apply nth_error_None in E2. assert (t < length ts)%nat by (apply nth_error_Some; congruence). lia.
  - apply nth_error_None in E1. assert (t < length ts2)%nat by (apply nth_error_Some; congruence). lia.
  - exact I.
Qed.
Lemma arr_twin b g st ts st2 ts2 t : twins b g st ts st2 ts2 ->
  sim (fun s s2 => nth_error ts t = Some (TArr s) /\ nth_error ts2 t = Some (TArr s2) /\ link b s s2)
      (the_arr ts t) (the_arr ts2 t).
Proof.
  intros T. unfold the_arr. pose proof (tw_len _ _ _ _ _ _ T) as Hl.
  destruct (nth_error ts t) as [x|] eqn:E1, (nth_error ts2 t) as [y|] eqn:E2.
  - pose proof (tw_each _ _ _ _ _ _ T t x y E1 E2) as W. destruct W as [S W].
    destruct x, y; cbn in S; try contradiction; cbn; auto. cbn in W. tauto.
  - apply nth_error_None in E2. assert (t < length ts)%nat by (apply nth_error_Some; congruence). lia.
  - apply nth_error_None in E1. assert (t < length ts2)%nat by (apply nth_error_Some; congruence). lia.
  - exact I.
Qed.
Lemma arr2_twin b g st ts st2 ts2 t : twins b g st ts st2 ts2 ->
  sim (fun d d2 => nth_error ts t = Some (TArr2 d) /\ nth_error ts2 t = Some (TArr2 d2) /\ link g d d2)
      (the_arr2 ts t) (the_arr2 ts2 t).
Proof.
  intros T. unfold the_arr2. pose proof (tw_len _ _ _ _ _ _ T) as Hl.
  destruct (nth_error ts t) as [x|] eqn:E1, (nth_error ts2 t) as [y|] eqn:E2.
  - pose proof (tw_each _ _ _ _ _ _ T t x y E1 E2) as W. destruct W as [S W].
    destruct x, y; cbn in S; try contradiction; cbn; auto. cbn in W. tauto.
  - apply nth_error_None in E2. assert (t < length ts)%nat by (apply nth_error_Some; congruence). lia.
  - apply nth_error_None in E1. assert (t < length ts2)%nat by (apply nth_error_Some; congruence). lia.
  - exact I.
Qed.

Lemma rows_linked_mono b b' g st st2 : (forall k q, b k q -> b' k q) -> rows_linked b g st st2 -> rows_linked b' g st st2.
Proof.
  intros H R k q Hg. destruct (R k q Hg) as (X & Y & F). split; auto. split; auto.
  eapply Forall2_weaken; [|exact F]. intros s s2. apply link_mono; auto.
Qed.

(** a new slice with its own array *)
Lemma twins_slice b g st ts st2 ts2 ts' ts2' t x' y' (xs extra : list (T N)) m s m2 s2 : twins b g st ts st2 ts2 ->
  fresh extra (st_v st) xs = (m, s) -> fresh extra (st_v st2) xs = (m2, s2) ->
  upd ts t x' ts' -> upd ts2 t y' ts2' -> length ts' = length ts2' -> same_sort x' y' ->
  (exists l, tobj x' = SDV l s /\ tobj y' = SDV l s2 /\ l = Z.of_nat (length xs)) ->
  exists b', twins b' g (MkStore m (st_z st) (st_o st)) ts' (MkStore m2 (st_z st2) (st_o st2)) ts2'.
Proof.
  intros T E E2 U U2 Hl S (l & Ex & Ey & El).
  destruct (fresh_spec _ _ _ _ _ E) as (K & V & C & A & Ln). destruct (fresh_spec _ _ _ _ _ E2) as (K2 & V2 & C2 & A2 & Ln2).
  assert (Sl : s_len s = length xs) by (unfold fresh in E; injection E as <- <-; reflexivity).
  assert (Sl2 : s_len s2 = length xs) by (unfold fresh in E2; injection E2 as <- <-; reflexivity).
  exists (more b (length (st_v st)) (length (st_v st2))).
  apply (twins_linked b g _ g st ts st2 ts2 _ _ _ _ t x' y' [] []); auto; try (intros ? []; fail).
  - split; [exact K|]. split; [exact K2|]. cbn. split; [|split; [|split]]; apply keeps_refl.
  - intros k q. left. auto.
  - intros k q [H|[-> ->]]; [left; auto|right; lia].
  - cbn. unfold fresh in E, E2. injection E as <- <-. injection E2 as <- <-. apply pairs_fresh. apply T.
  - apply (rows_linked_mono b); [left; auto|]. apply (tw_o _ _ _ _ _ _ T).
  - rewrite Ex. split; [exact V|congruence].
  - rewrite Ey. split; [exact V2|congruence].
  - rewrite Ex, Ey. split; [reflexivity|]. unfold fresh in E, E2. injection E as <- <-. injection E2 as <- <-.
    unfold link. cbn. repeat split; auto. right. auto.
Qed.

Lemma fresh_rows_link rows : forall b (m m2 : mem (T N)) m' ss m2' ss2, pairs b m m2 ->
  fresh_rows m rows = (m', ss) -> fresh_rows m2 rows = (m2', ss2) ->
  exists b', (forall k q, b k q -> b' k q) /\ (forall k q, b' k q -> b k q \/ (length m <= k /\ length m2 <= q)%nat) /\
    pairs b' m' m2' /\ Forall2 (link b') ss ss2.
Proof.
  induction rows as [|row rows IH]; intros b m m2 m' ss m2' ss2 P E E2.
  - cbn in E, E2. injection E as <- <-. injection E2 as <- <-. exists b. auto.
  - cbn in E, E2. destruct (fresh_rows (m ++ [row ++ []]) rows) as [m1 r1] eqn:F1. destruct (fresh_rows (m2 ++ [row ++ []]) rows) as [m3 r3] eqn:F3.
    injection E as <- <-. injection E2 as <- <-.
    destruct (IH _ _ _ _ _ _ _ (pairs_fresh b m m2 (row ++ []) P) F1 F3) as (b' & H1 & H2 & H3 & H4).
    exists b'. split; [intros k q Hb; apply H1; left; auto|]. split; [|split; [exact H3|]].
    + intros k q Hb. destruct (H2 k q Hb) as [[H|[-> ->]]|[H H']]; [auto|right; lia|]. rewrite !app_length in *. cbn in *. right. lia.
    + constructor; [|exact H4]. unfold link. cbn. repeat split; auto. apply H1. right. auto.
Qed.

(** a new slice of slices with its own arrays *)
Lemma twins_grid b g st ts st2 ts2 ts' ts2' t x' y' rows c r m rs om d m2 rs2 om2 d2 : twins b g st ts st2 ts2 ->
  fresh_rows (st_v st) rows = (m, rs) -> fresh [] (st_o st) rs = (om, d) ->
  fresh_rows (st_v st2) rows = (m2, rs2) -> fresh [] (st_o st2) rs2 = (om2, d2) ->
  upd ts t x' ts' -> upd ts2 t y' ts2' -> length ts' = length ts2' -> same_sort x' y' ->
  tobj x' = SDM c r d -> tobj y' = SDM c r d2 ->
  exists b' g', twins b' g' (MkStore m (st_z st) om) ts' (MkStore m2 (st_z st2) om2) ts2'.
Proof.
  intros T E1 E2 E3 E4 U U2 Hl S Ex Ey.
  assert (B : made st (MkStore m (st_z st) om) (SDM c r d)).
  { apply (build_spec (MkSpare [] [] [] []) st (MDM (MkDense c r rows)) _ _ I). cbn [build dm_data dm_c dm_r]. rewrite E1, E2. reflexivity. }
  assert (B2 : made st2 (MkStore m2 (st_z st2) om2) (SDM c r d2)).
  { apply (build_spec (MkSpare [] [] [] []) st2 (MDM (MkDense c r rows)) _ _ I). cbn [build dm_data dm_c dm_r]. rewrite E3, E4. reflexivity. }
  destruct B as ((K1 & K2 & K3) & O & _ & _). destruct B2 as ((K4 & K5 & K6) & O2 & _ & _).
  destruct (fresh_rows_link rows b (st_v st) (st_v st2) m rs m2 rs2 (tw_v _ _ _ _ _ _ T) E1 E3) as (b' & H1 & H2 & H3 & H4).
  exists b', (more g (length (st_o st)) (length (st_o st2))).
  unfold fresh in E2, E4. injection E2 as <- <-. injection E4 as <- <-. cbn in K1, K2, K3, K4, K5, K6.
  apply (twins_linked b g _ _ st ts st2 ts2 _ _ _ _ t x' y' [] []); auto; try (intros ? []; fail).
  - unfold only_v. cbn. auto 10.
  - intros k q. left. auto.
  - intros k q [H|[-> ->]]; cbn [st_o].
    + destruct (tw_o _ _ _ _ _ _ T k q H) as (X & Y & F). rewrite !app_length. cbn [length]. split; [lia|]. split; [lia|].
      rewrite !array_app by auto. eapply Forall2_weaken; [|exact F]. intros s s2. apply link_mono; auto.
    + rewrite !app_length. cbn [length]. split; [lia|]. split; [lia|]. rewrite !array_new, !app_nil_r. exact H4.
  - rewrite Ex. exact O.
  - rewrite Ey. exact O2.
  - rewrite Ex, Ey. cbn. split; [reflexivity|]. split; [reflexivity|]. unfold link. cbn. repeat split; auto.
    + right. auto.
    + clear -H4. induction H4; cbn; congruence.
    + assert (length rs = length rs2) by (clear -H4; induction H4; cbn; congruence). lia.
Qed.

Lemma twins_build sp sp2 b g st ts st2 ts2 ts' ts2' t M st' o st2' o2 : twins b g st ts st2 ts2 -> lens_ok M ->
  build sp st M = (st', o) -> build sp2 st2 M = (st2', o2) ->
  upd ts t (TObj o) ts' -> upd ts2 t (TObj o2) ts2' -> length ts' = length ts2' ->
  exists b' g', twins b' g' st' ts' st2' ts2'.
Proof.
  intros T Hm E E2 U U2 Hl. destruct (build_spec _ _ _ _ _ Hm E) as [V Md]. destruct (build_spec _ _ _ _ _ Hm E2) as [V2 Md2].
  assert (Sp : vector_or_sparse (TObj o) -> exists b' g', twins b' g' st' ts' st2' ts2').
  { intros S. exists b, g. apply (twins_made b g st ts st2 ts2 _ _ _ _ t (TObj o) (TObj o2)); cbn; auto. congruence. }
  destruct M as [a|a|a|a|a]; cbn [build] in E, E2.
  1,2: apply Sp; repeat (match type of E with (let (_, _) := ?q in _) = _ => destruct q end); injection E as <- <-; exact I.
  - destruct (fresh_rows (st_v st) (dm_data a)) as [m rs] eqn:E1. destruct (fresh [] (st_o st) rs) as [om d] eqn:E3. injection E as <- <-.
    destruct (fresh_rows (st_v st2) (dm_data a)) as [m2 rs2] eqn:E4. destruct (fresh [] (st_o st2) rs2) as [om2 d2] eqn:E5. injection E2 as <- <-.
    eapply (twins_grid b g st ts st2 ts2 _ _ t (TObj (SDM (dm_c a) (dm_r a) d)) (TObj (SDM (dm_c a) (dm_r a) d2))); eauto; cbn; auto.
  - destruct (fresh [] (st_v st) (dv_values a)) as [m v] eqn:E1. injection E as <- <-.
    destruct (fresh [] (st_v st2) (dv_values a)) as [m2 v2] eqn:E3. injection E2 as <- <-.
    destruct (twins_slice b g st ts st2 ts2 ts' ts2' t (TObj (SDV (dv_l a) v)) (TObj (SDV (dv_l a) v2)) _ _ _ _ _ _ T E1 E3 U U2 Hl I) as [b' H]; eauto.
    exists (dv_l a). auto.
  - apply Sp; repeat (match type of E with (let (_, _) := ?q in _) = _ => destruct q end); injection E as <- <-; exact I.
Qed.

Lemma build_add sp sp2 b g st ts st2 ts2 M : twins b g st ts st2 ts2 -> lens_ok M ->
  exists b' g', twins b' g' (fst (add ts (build sp st M))) (snd (add ts (build sp st M))) (fst (add ts2 (build sp2 st2 M))) (snd (add ts2 (build sp2 st2 M))).
Proof.
  intros T Hm. destruct (build sp st M) as [st' o] eqn:E. destruct (build sp2 st2 M) as [st2' o2] eqn:E2. cbn.
  pose proof (tw_len _ _ _ _ _ _ T) as Hl.
  eapply (twins_build sp sp2 b g st ts st2 ts2 _ _ (length ts) M); eauto.
  - apply upd_add.
  - rewrite Hl. apply upd_add.
  - rewrite !app_length. cbn. lia.
Qed.

(** a write through linked slices of linked things *)
Lemma write_linked b g st ts st2 ts2 t x y s s2 i z : twins b g st ts st2 ts2 ->
  nth_error ts t = Some x -> nth_error ts2 t = Some y -> same_sort x y -> linked b g (tobj x) (tobj y) -> link b s s2 ->
  sim (fun m m2 => twins b g (MkStore m (st_z st) (st_o st)) ts (MkStore m2 (st_z st2) (st_o st2)) ts2)
    (sset (st_v st) s i z) (sset (st_v st2) s2 i z).
Proof.
  intros T Hx Hy S L Lk. eapply sim_impl; [|apply (sset_link b _ _ _ _ _ _ (tw_v _ _ _ _ _ _ T) Lk)].
  intros m m2 (P & K & K2).
  assert (Kt : kept [s_arr s] [] st (MkStore m (st_z st) (st_o st))) by (split; [exact K|split; apply keeps_refl]).
  assert (Kt2 : kept [s_arr s2] [] st2 (MkStore m2 (st_z st2) (st_o st2))) by (split; [exact K2|split; apply keeps_refl]).
  apply (twins_linked b g b g st ts st2 ts2 _ _ _ _ t x y [s_arr s] [s_arr s2]); auto.
  - apply upd_same; auto.
  - apply upd_same; auto.
  - apply T.
  - split; [exact K|]. split; [exact K2|]. cbn. split; [|split; [|split]]; apply keeps_refl.
  - intros k [<-|[]]. eexists. apply Lk.
  - intros k [<-|[]]. eexists. apply Lk.
  - apply T.
  - eapply owned_keep; [exact Kt|]. eapply T; eauto.
  - eapply owned_keep; [exact Kt2|]. eapply T; eauto.
Qed.

(** *** calls on an object that is alone *)
Lemma alone_op b g st ts st2 ts2 t o o2 (F F2 : res (store N * sobj)) L : twins b g st ts st2 ts2 ->
  nth_error ts t = Some (TObj o) -> nth_error ts2 t = Some (TObj o2) ->
  alone (left b) st ts t (TObj o) -> alone (right b) st2 ts2 t (TObj o2) ->
  sim (same_obj' st o) F L -> sim (same_obj' st2 o2) F2 L ->
  (forall st' o', F = Ok (st', o') -> vector_or_sparse (TObj o')) ->
  sim (fun p q => exists b' g', twins b' g' (fst (put ts t p)) (snd (put ts t p)) (fst (put ts2 t q)) (snd (put ts2 t q))) F F2.
Proof.
  intros T Hx Hy A A2 S S2 HV. destruct F as [[st' o']| |], F2 as [[st2' o2']| |], L; cbn in S, S2 |- *; auto; try contradiction.
  destruct S as [V M]. destruct S2 as [V2 M2]. cbn in V, M, V2, M2. exists b, g.
  apply (twins_moved b g st ts st2 ts2 _ _ _ _ t (TObj o) (TObj o2) (TObj o') (TObj o2')); cbn; auto.
  - eapply upd_put; eauto.
  - eapply upd_put; eauto.
  - rewrite !length_list_set_any. apply T.
  - apply (HV _ _ eq_refl).
  - congruence.
Qed.

Lemma kind_vs o o' : sparse_thing (TObj o') = sparse_thing (TObj o) /\ (sparse_thing (TObj o) = false -> o' = o) ->
  vector_or_sparse (TObj o) -> vector_or_sparse (TObj o').
Proof.
  intros [H1 H2] V. destruct (sparse_thing (TObj o)) eqn:E; [|rewrite H2; auto]. destruct o'; cbn in *; auto; discriminate.
Qed.

(** *** calls on linked objects: they write through the slices and stay *)
Definition stays_at b g ts ts2 o o2 (p q : store N * sobj) : Prop :=
  twins b g (fst p) ts (fst q) ts2 /\ snd p = o /\ snd q = o2.

Section Linked.
Variables (b g : nat -> nat -> Prop) (st : store N) (ts : list thing) (st2 : store N) (ts2 : list thing) (t : nat) (o o2 : sobj).
Hypothesis Tw : twins b g st ts st2 ts2.
Hypothesis Hx : nth_error ts t = Some (TObj o).
Hypothesis Hy : nth_error ts2 t = Some (TObj o2).
Hypothesis L : linked b g o o2.

Lemma row_link d d2 i : link g d d2 -> sim (link b) (sget (st_o st) d i) (sget (st_o st2) d2 i).
Proof.
  intros Ld. pose proof (rows_link _ _ _ _ _ _ (tw_o _ _ _ _ _ _ Tw) Ld) as F. unfold sget. fold (rows_of st d). fold (rows_of st2 d2).
  assert (El : length (rows_of st d) = length (rows_of st2 d2)) by (clear -F; induction F; cbn; congruence).
  unfold zget. destruct (i <? 0); cbn; auto.
  destruct (nth_error (rows_of st d) (Z.to_nat i)) as [s|] eqn:E.
  - destruct (Forall2_nth_error_l _ _ _ F _ _ E) as (s2 & E2 & Hs). rewrite E2. exact Hs.
  - apply nth_error_None in E. rewrite El in E. apply nth_error_None in E. rewrite E. exact I.
Qed.
Lemma get_link s s2 i : link b s s2 -> sget (st_v st) s i = sget (st_v st2) s2 i.
Proof. intros Ls. unfold sget. rewrite (link_contents _ _ _ _ _ (tw_v _ _ _ _ _ _ Tw) Ls). reflexivity. Qed.

Lemma write_here s s2 i z : link b s s2 ->
  sim (fun m m2 => twins b g (MkStore m (st_z st) (st_o st)) ts (MkStore m2 (st_z st2) (st_o st2)) ts2)
    (sset (st_v st) s i z) (sset (st_v st2) s2 i z).
Proof. intros Ls. apply (write_linked b g st ts st2 ts2 t (TObj o) (TObj o2)); auto. exact I. Qed.

Lemma Update_linked {W} sp sp2 i j (f : T N -> W * T N) :
  sim (fun p q => stays_at b g ts ts2 o o2 (snd (fst p), snd p) (snd (fst q), snd q))
    (s_Update sp st o i j f) (s_Update sp2 st2 o2 i j f).
Proof.
  pose proof write_here as WH.
  destruct o as [r c v s e|r c v s e|l v s|l v|c r d], o2 as [r2 c2 v2 s2 e2|r2 c2 v2 s2 e2|l2 v2 s2|l2 v2|c2 r2 d2]; cbn in L; try contradiction; cbn [s_Update].
  - destruct L as [-> Lv]. unfold s_dv_Update. destruct (_ || _); [exact I|]. destruct (_ || _); [exact I|].
    rewrite <- (get_link _ _ i Lv). destruct (sget (st_v st) v i) as [x| |]; cbn [rbind]; try exact I. destruct (f x) as [w x'].
    eapply sim_bind; [apply (WH _ _ i x' Lv)|]. intros m m2 H. cbn. split; auto.
  - destruct L as (-> & -> & Ld). unfold s_dm_Update. destruct (_ || _); [exact I|]. destruct (_ || _); [exact I|].
    eapply sim_bind; [apply (row_link _ _ i Ld)|]. intros row row2 Lr.
    rewrite <- (get_link _ _ j Lr). destruct (sget (st_v st) row j) as [x| |]; cbn [rbind]; try exact I. destruct (f x) as [w x'].
    eapply sim_bind; [apply (WH _ _ j x' Lr)|]. intros m m2 H. cbn. split; auto.
Qed.

Lemma SetVec_linked sp sp2 i z : sim (stays_at b g ts ts2 o o2) (s_SetVec sp st o i z) (s_SetVec sp2 st2 o2 i z).
Proof.
  pose proof write_here as WH.
  destruct o as [r c v s e|r c v s e|l v s|l v|c r d], o2 as [r2 c2 v2 s2 e2|r2 c2 v2 s2 e2|l2 v2 s2|l2 v2|c2 r2 d2]; cbn in L; try contradiction; cbn [s_SetVec]; try exact I.
  destruct L as [-> Lv]. destruct (_ || _); [exact I|].
  eapply sim_bind; [apply (WH _ _ i z Lv)|]. intros m m2 H. cbn. split; auto.
Qed.

Lemma Set_linked sp sp2 i j z : sim (stays_at b g ts ts2 o o2) (s_Set sp st o i j z) (s_Set sp2 st2 o2 i j z).
Proof.
  pose proof write_here as WH.
  pose proof (SetVec_linked sp sp2 i z) as SV.
  destruct o as [r c v s e|r c v s e|l v s|l v|c r d], o2 as [r2 c2 v2 s2 e2|r2 c2 v2 s2 e2|l2 v2 s2|l2 v2|c2 r2 d2]; cbn in L; try contradiction; cbn [s_Set].
  - destruct L as [-> Lv]. destruct (_ || _); [exact I|]. destruct (_ || _); [exact I|]. exact SV.
  - destruct L as (-> & -> & Ld). destruct (_ || _); [exact I|]. destruct (_ || _); [exact I|].
    eapply sim_bind; [apply (row_link _ _ i Ld)|]. intros row row2 Lr.
    eapply sim_bind; [apply (WH _ _ j z Lr)|]. intros m m2 H. cbn. split; auto.
Qed.

Lemma view_linked : view st o = view st2 o2.
Proof. apply (linked_view b g); auto; apply Tw. Qed.

Lemma At_linked sp sp2 i j :
  sim (fun p q => stays_at b g ts ts2 o o2 (snd (fst p), snd p) (snd (fst q), snd q)) (s_At sp st o i j) (s_At sp2 st2 o2 i j).
Proof.
  pose proof view_linked as Ev.
  destruct o as [r c v s e|r c v s e|l v s|l v|c r d], o2 as [r2 c2 v2 s2 e2|r2 c2 v2 s2 e2|l2 v2 s2|l2 v2|c2 r2 d2]; cbn in L; try contradiction; cbn [s_At];
    rewrite Ev; destruct (mat_At _ _ _) as [[x M]| |]; cbn; try exact I; split; auto.
Qed.

Lemma put_linked sp sp2 it z : sim (stays_at b g ts ts2 o o2) (s_put sp st o it z) (s_put sp2 st2 o2 it z).
Proof.
  pose proof (fun i => SetVec_linked sp sp2 i z) as SV. pose proof (fun i j => Set_linked sp sp2 i j z) as SS.
  destruct o as [r c v s e|r c v s e|l v s|l v|c r d], o2 as [r2 c2 v2 s2 e2|r2 c2 v2 s2 e2|l2 v2 s2|l2 v2|c2 r2 d2]; cbn in L; try contradiction;
    destruct it; cbn [s_put]; try exact I; auto.
Qed.

(** growing may find room, on both sides or on neither; then the vector is alone *)
Lemma ReSize_linked sp sp2 size : 0 <= size ->
  sim (fun p q => exists b' g', twins b' g' (fst (put ts t p)) (snd (put ts t p)) (fst (put ts2 t q)) (snd (put ts2 t q)))
    (s_ReSize sp st o size) (s_ReSize sp2 st2 o2 size).
Proof.
  intros Hs. pose proof (tw_own _ _ _ _ _ _ Tw _ _ Hx) as Ho. pose proof (tw_own2 _ _ _ _ _ _ Tw _ _ Hy) as Ho2. cbn in Ho, Ho2.
  assert (U : forall x', upd ts t x' (list_set ts t x')) by (intros; eapply upd_put; eauto).
  assert (U2 : forall x', upd ts2 t x' (list_set ts2 t x')) by (intros; eapply upd_put; eauto).
  assert (Hl : forall x' y', length (list_set ts t x') = length (list_set ts2 t y')) by (intros; rewrite !length_list_set_any; apply Tw).
  destruct o as [r c v s e|r c v s e|l v s|l v|c r d], o2 as [r2 c2 v2 s2 e2|r2 c2 v2 s2 e2|l2 v2 s2|l2 v2|c2 r2 d2]; cbn in L; try contradiction; cbn [s_ReSize]; try exact I.
  destruct L as [<- Lv]. destruct Ho as [V1 Hl1]. destruct Ho2 as [V2 Hl2].
  assert (New : forall sl sl2 xs m s m2 s2, fresh sl (st_v st) xs = (m, s) -> fresh sl2 (st_v st2) xs = (m2, s2) ->
    exists b' g', twins b' g' (MkStore m (st_z st) (st_o st)) (list_set ts t (TObj (SDV (Z.of_nat (s_len s)) s)))
                        (MkStore m2 (st_z st2) (st_o st2)) (list_set ts2 t (TObj (SDV (Z.of_nat (s_len s2)) s2)))).
  { intros sl sl2 xs m s m2 s2 E E2. destruct (fresh_spec _ _ _ _ _ E) as (K & V & C & A & Ln).
    destruct (fresh_spec _ _ _ _ _ E2) as (K2 & V3 & C2 & A2 & Ln2). exists b, g.
    eapply (twins_made b g st ts st2 ts2 _ _ _ _ t _ _ Tw (U _) (U2 _) (Hl _ _)); cbn; auto.
    - split; [split; [exact K|split; apply keeps_refl]|]. cbn. split; [auto|]. split; [intros k [<-|[]]; lia|tauto].
    - split; [split; [exact K2|split; apply keeps_refl]|]. cbn. split; [auto|]. split; [intros k [<-|[]]; lia|tauto].
    - rewrite C, C2. do 3 f_equal. assert (s_len s = length xs) by (rewrite <- (length_contents m s V); congruence).
      assert (s_len s2 = length xs) by (rewrite <- (length_contents m2 s2 V3); congruence). congruence. }
  destruct (Z.gtb_spec size l); [|destruct (Z.ltb_spec size l)].
  - destruct (make_slice n0 (size - l)) as [arr| |]; cbn [rbind]; try exact I.
    pose proof (link_contents _ _ _ _ _ (tw_v _ _ _ _ _ _ Tw) Lv) as Ec.
    unfold append. rewrite <- Ec. pose proof Lv as (L1 & L2 & L3 & L4). rewrite <- L3, <- L4.
    destruct (Nat.leb_spec (s_len v + length arr) (s_cap v)).
    + cbn. exists b, g. destruct (proj2 (tw_v _ _ _ _ _ _ Tw) _ _ L1) as (X & Y & Ea). destruct V1 as (W1 & W2 & W3). destruct V2 as (W4 & W5 & W6).
      assert (Lw : length (write_at (array (st_v st) (s_arr v)) (s_off v + s_len v) arr) = length (array (st_v st) (s_arr v))) by (apply length_write_at; lia).
      assert (K : keeps [s_arr v] (st_v st) (list_set (st_v st) (s_arr v) (write_at (array (st_v st) (s_arr v)) (s_off v + s_len v) arr))) by (apply keeps_set; auto).
      assert (K2 : keeps [s_arr v2] (st_v st2) (list_set (st_v st2) (s_arr v2) (write_at (array (st_v st2) (s_arr v2)) (s_off v2 + s_len v) arr))).
      { apply keeps_set; auto. rewrite <- L2, <- Ea. exact Lw. }
      eapply (twins_linked b g b g st ts st2 ts2 _ _ _ _ t _ _ [s_arr v] [s_arr v2] Tw (U _) (U2 _) (Hl _ _)); auto; cbn.
      * split; [exact K|]. split; [exact K2|]. cbn. split; [|split; [|split]]; apply keeps_refl.
      * intros k [<-|[]]. eexists. exact L1.
      * intros k [<-|[]]. eexists. exact L1.
      * rewrite <- L2, <- Ea. apply pairs_set; auto. apply Tw.
      * apply (rows_keep_linked b g st st2); [apply Tw|apply keeps_refl|apply keeps_refl].
      * split; [|reflexivity]. apply (valid_keep _ _ _ _ K). split; [exact W1|]. cbn. split; auto.
      * split; [|reflexivity]. apply (valid_keep _ _ _ _ K2). split; [exact W4|]. cbn. split; [auto|]. rewrite L4. exact W6.
      * exact I.
      * split; [reflexivity|]. unfold link. cbn. auto.
    + destruct (fresh (sp_v1 sp) (st_v st) (contents (st_v st) v ++ arr)) as [m s] eqn:E.
      destruct (fresh (sp_v1 sp2) (st_v st2) (contents (st_v st) v ++ arr)) as [m2 s2] eqn:E2. cbn.
      eapply New; eauto.
  - pose proof (to_link b v v2 (l - size) Lv) as S. destruct (to v (l - size)) as [w| |], (to v2 (l - size)) as [w2| |]; cbn [sim rbind] in S |- *; auto; try contradiction.
    pose proof (link_contents _ _ _ _ _ (tw_v _ _ _ _ _ _ Tw) S) as Ec. rewrite <- Ec.
    destruct (fresh (sp_v1 sp) (st_v st) (contents (st_v st) w)) as [m s] eqn:E.
    destruct (fresh (sp_v1 sp2) (st_v st2) (contents (st_v st) w)) as [m2 s2] eqn:E2. cbn. eapply New; eauto.
  - cbn. exists b, g. 
    eapply (twins_linked b g b g st ts st2 ts2 _ _ _ _ t _ _ [] [] Tw (U _) (U2 _) (Hl _ _)); auto; cbn; try tauto.
    * split; [|split; [|split; [|split; [|split]]]]; apply keeps_refl.
    * apply (tw_v _ _ _ _ _ _ Tw).
    * apply (rows_keep_linked b g st st2); [apply Tw|apply keeps_refl|apply keeps_refl].
    * split; [|exact Lv]. destruct Lv as (_ & _ & -> & _). reflexivity.
Qed.
End Linked.

(** ** One step of the two runs *)
Definition sized a : Prop := match a with AReSize _ size => 0 <= size | _ => True end.
Definition both (p q : store N * list thing) : Prop := exists b g, twins b g (fst p) (snd p) (fst q) (snd q).

Lemma stays_put b g ts ts2 t o o2 p q : nth_error ts t = Some (TObj o) -> nth_error ts2 t = Some (TObj o2) ->
  stays_at b g ts ts2 o o2 p q -> both (put ts t p) (put ts2 t q).
Proof.
  intros Hx Hy (T & E & E2). unfold both, put. cbn. rewrite E, E2, !list_set_same' by auto. exists b, g. exact T.
Qed.

Lemma new_slice b g st ts st2 ts2 (xs extra : list (T N)) : twins b g st ts st2 ts2 ->
  sim both (let '(m, s) := fresh extra (st_v st) xs in Ok (MkStore m (st_z st) (st_o st), ts ++ [TArr s]))
           (let '(m, s) := fresh extra (st_v st2) xs in Ok (MkStore m (st_z st2) (st_o st2), ts2 ++ [TArr s])).
Proof.
  intros Tw. pose proof (tw_len _ _ _ _ _ _ Tw) as Hl.
  destruct (fresh extra (st_v st) xs) as [m s] eqn:E. destruct (fresh extra (st_v st2) xs) as [m2 s2] eqn:E2.
  destruct (twins_slice b g st ts st2 ts2 (ts ++ [TArr s]) (ts2 ++ [TArr s2]) (length ts) (TArr s) (TArr s2) xs extra m s m2 s2 Tw E E2) as [b' H].
  - apply upd_add.
  - rewrite Hl. apply upd_add.
  - rewrite !app_length. cbn. lia.
  - exact I.
  - unfold fresh in E, E2. injection E as <- <-. injection E2 as <- <-. cbn. eauto.
  - exists b', g. exact H.
Qed.

(** a new thing linked to what is there *)
Lemma share_twin b g st ts st2 ts2 x y : twins b g st ts st2 ts2 -> owned st (tobj x) -> owned st2 (tobj y) -> same_sort x y ->
  linked b g (tobj x) (tobj y) -> both (st, ts ++ [x]) (st2, ts2 ++ [y]).
Proof.
  intros Tw O O2 S L. exists b, g. pose proof (tw_len _ _ _ _ _ _ Tw) as Hl. cbn.
  apply (twins_linked b g b g st ts st2 ts2 _ _ _ _ (length ts) x y [] []); auto; try (intros ? []; fail).
  - apply upd_add.
  - rewrite Hl. apply upd_add.
  - rewrite !app_length. cbn. lia.
  - split; [|split; [|split; [|split; [|split]]]]; apply keeps_refl.
  - apply Tw.
  - apply Tw.
Qed.

Theorem do_twins sp sp2 st ts st2 ts2 a : both (st, ts) (st2, ts2) -> sized a -> sim both (do sp st ts a) (do sp2 st2 ts2 a).
Proof.
  intros (b & g & Tw) Hz. cbn in Tw. pose proof (tw_len _ _ _ _ _ _ Tw) as Hl.
  pose proof (tw_v _ _ _ _ _ _ Tw) as P. pose proof (tw_o _ _ _ _ _ _ Tw) as R.
  assert (Bd : forall M, lens_ok M -> both (add ts (build sp st M)) (add ts2 (build sp2 st2 M))) by (intros M Hm; eapply build_add; eauto).
  destruct a as [xs extra|xss|t lo hi|t i x|t i j x|k r c|k t|t|t r|t c|t r|t|t i j f|t i j x|t i j|t i x|t it x|t|t size]; cbn [do].
  - apply (new_slice b g); auto.
  - destruct (fresh_rows (st_v st) xss) as [m rs] eqn:E1. destruct (fresh [] (st_o st) rs) as [om d] eqn:E2.
    destruct (fresh_rows (st_v st2) xss) as [m2 rs2] eqn:E3. destruct (fresh [] (st_o st2) rs2) as [om2 d2] eqn:E4. cbn.
    apply (twins_grid b g st ts st2 ts2 (ts ++ [TArr2 d]) (ts2 ++ [TArr2 d2]) (length ts) (TArr2 d) (TArr2 d2) xss 0 0 m rs om d m2 rs2 om2 d2 Tw E1 E2 E3 E4); try exact I; try reflexivity.
    + apply upd_add.
    + rewrite Hl. apply upd_add.
    + rewrite !app_length. cbn. lia.
  - eapply sim_bind; [apply (arr_twin b g st ts st2 ts2 t Tw)|]. intros s s2 (Hx & Hy & Lk).
    pose proof (tw_own _ _ _ _ _ _ Tw _ _ Hx) as [V _]. pose proof (tw_own2 _ _ _ _ _ _ Tw _ _ Hy) as [V2 _]. cbn in V, V2.
    pose proof (to_link b s s2 hi Lk) as S. destruct (to s hi) as [s1| |] eqn:E1, (to s2 hi) as [s3| |] eqn:E3; cbn [sim rbind] in S |- *; auto; try contradiction.
    pose proof (from_link b s1 s3 lo S) as S'. destruct (from s1 lo) as [s4| |] eqn:E4, (from s3 lo) as [s5| |] eqn:E5; cbn [sim rbind] in S' |- *; auto; try contradiction.
    apply (share_twin b g); cbn; auto.
    + split; [|reflexivity]. eapply valid_from; [eapply valid_to|]; eauto.
    + split; [|reflexivity]. eapply valid_from; [eapply valid_to|]; eauto.
    + split; [|exact S']. destruct S' as (_ & _ & -> & _). reflexivity.
  - eapply sim_bind; [apply (arr_twin b g st ts st2 ts2 t Tw)|]. intros s s2 (Hx & Hy & Lk).
    eapply sim_bind; [apply (write_linked b g st ts st2 ts2 t (TArr s) (TArr s2) s s2 i x Tw Hx Hy I)|].
    + split; [|exact Lk]. destruct Lk as (_ & _ & -> & _). reflexivity.
    + exact Lk.
    + intros m m2 H. cbn. exists b, g. exact H.
  - eapply sim_bind; [apply (arr2_twin b g st ts st2 ts2 t Tw)|]. intros d d2 (Hx & Hy & Lk).
    eapply sim_bind; [apply (row_link b g st ts st2 ts2 Tw _ _ i Lk)|]. intros row row2 Lr.
    eapply sim_bind; [apply (write_linked b g st ts st2 ts2 t (TArr2 d) (TArr2 d2) row row2 j x Tw Hx Hy I)|].
    + split; [reflexivity|]. split; [reflexivity|]. exact Lk.
    + exact Lr.
    + intros m m2 H. cbn. exists b, g. exact H.
  - destruct (new_mat k r c) as [M| |] eqn:E; cbn [rbind]; try exact I. apply Bd. eapply lens_new; eauto.
  - destruct k.
    + eapply sim_bind; [apply (arr2_twin b g st ts st2 ts2 t Tw)|]. intros d d2 (Hx & Hy & Lk).
      rewrite (grid_link b g st st2 d d2 P R Lk). destruct (NewCSRMatrixFromArray _) as [M| |]; cbn [rbind sim]; auto.
    + eapply sim_bind; [apply (arr2_twin b g st ts st2 ts2 t Tw)|]. intros d d2 (Hx & Hy & Lk).
      rewrite (grid_link b g st st2 d d2 P R Lk). destruct (NewCSCMatrixFromArray _) as [M| |]; cbn [rbind sim]; auto.
    + eapply sim_bind; [apply (arr2_twin b g st ts st2 ts2 t Tw)|]. intros d d2 (Hx & Hy & Lk).
      eapply sim_bind; [apply (row_link b g st ts st2 ts2 Tw _ _ 0 Lk)|]. intros row row2 Lr. cbn [sim].
      apply (share_twin b g); cbn [tobj]; auto; try exact I.
      * apply (tw_own _ _ _ _ _ _ Tw _ _ Hx).
      * apply (tw_own2 _ _ _ _ _ _ Tw _ _ Hy).
      * destruct Lr as (_ & _ & Er & _). pose proof Lk as (_ & _ & Ed & _). split; [congruence|]. split; [congruence|exact Lk].
    + eapply sim_bind; [apply (arr_twin b g st ts st2 ts2 t Tw)|]. intros s s2 (Hx & Hy & Lk). cbn [sim].
      apply (share_twin b g); cbn [tobj]; auto; try exact I.
      * apply (tw_own _ _ _ _ _ _ Tw _ _ Hx).
      * apply (tw_own2 _ _ _ _ _ _ Tw _ _ Hy).
      * split; [|exact Lk]. destruct Lk as (_ & _ & -> & _). reflexivity.
    + eapply sim_bind; [apply (arr_twin b g st ts st2 ts2 t Tw)|]. intros s s2 (Hx & Hy & Lk).
      rewrite (link_contents _ _ _ _ _ P Lk). destruct (NewSparseVectorFromArray _) as [M| |]; cbn [rbind sim]; auto.
  - eapply sim_bind; [apply (obj_twin b g st ts st2 ts2 t Tw)|]. intros o o2 (Hx & Hy & W).
    pose proof (twin_see _ _ _ _ _ _ _ _ _ P R W) as Es. cbn in Es. injection Es as Es. rewrite Es.
    destruct (mat_Copy _) as [M| |] eqn:E; cbn [rbind sim]; auto. apply Bd. eapply lens_copy; eauto.
  - eapply sim_bind; [apply (obj_twin b g st ts st2 ts2 t Tw)|]. intros o o2 (Hx & Hy & W).
    pose proof (twin_see _ _ _ _ _ _ _ _ _ P R W) as Es. cbn in Es. injection Es as Es. rewrite Es.
    destruct (mat_RowsAt _ _) as [M| |] eqn:E; cbn [rbind sim]; auto. apply Bd. eapply lens_row; eauto.
  - eapply sim_bind; [apply (obj_twin b g st ts st2 ts2 t Tw)|]. intros o o2 (Hx & Hy & W).
    pose proof (twin_see _ _ _ _ _ _ _ _ _ P R W) as Es. cbn in Es. injection Es as Es. rewrite Es.
    destruct (mat_ColumnsAt _ _) as [M| |] eqn:E; cbn [rbind sim]; auto. apply Bd. eapply lens_col; eauto.
  - eapply sim_bind; [apply (obj_twin b g st ts st2 ts2 t Tw)|]. intros o o2 (Hx & Hy & W).
    pose proof (twin_see _ _ _ _ _ _ _ _ _ P R W) as Es. cbn in Es. injection Es as Es. rewrite Es.
    destruct (mat_RowsAtToArray _ _) as [xs| |] eqn:E; cbn [rbind]; try exact I. apply (new_slice b g); auto.
  - eapply sim_bind; [apply (obj_twin b g st ts st2 ts2 t Tw)|]. intros o o2 (Hx & Hy & W).
    pose proof (tw_own _ _ _ _ _ _ Tw _ _ Hx) as Ho. pose proof (tw_own2 _ _ _ _ _ _ Tw _ _ Hy) as Ho2. cbn [tobj] in Ho, Ho2.
    pose proof (twin_see _ _ _ _ _ _ _ _ _ P R W) as Es. cbn in Es. injection Es as Es. destruct W as [_ W].
    destruct o as [r c v s e|r c v s e|l v s|l v|c r d], o2 as [r2 c2 v2 s2 e2|r2 c2 v2 s2 e2|l2 v2 s2|l2 v2|c2 r2 d2]; try discriminate Es; cbn [sim]; try exact I.
    apply (share_twin b g); cbn [tobj]; auto; try exact I. destruct W as [(_ & _ & W)|[[] _]]. split; [reflexivity|]. split; [reflexivity|exact W].
  - (* AUpdate *)
    eapply sim_bind; [apply (obj_twin b g st ts st2 ts2 t Tw)|]. intros o o2 (Hx & Hy & W).
    pose proof (tw_own _ _ _ _ _ _ Tw _ _ Hx) as Ho. pose proof (tw_own2 _ _ _ _ _ _ Tw _ _ Hy) as Ho2. cbn [tobj] in Ho, Ho2.
    destruct W as [_ [L|(Vs & A & A2 & Es)]].
    + eapply sim_bind; [apply (Update_linked b g st ts st2 ts2 t o o2 Tw Hx Hy L)|]. intros [[w st'] o'] [[w2 st2'] o2'] H. cbn in H. cbn [sim].
      eapply stays_put; eauto.
    + cbn in Es. injection Es as Es.
      pose proof (Update_sim sp st o i j (fun v => (tt, f v)) Ho) as S. pose proof (Update_sim sp2 st2 o2 i j (fun v => (tt, f v)) Ho2) as S2.
      rewrite <- Es in S2.
      pose proof (alone_op b g st ts st2 ts2 t o o2 ('(_, st', o') <- s_Update sp st o i j (fun v => (tt, f v)) ;; Ok (st', o'))
        ('(_, st', o') <- s_Update sp2 st2 o2 i j (fun v => (tt, f v)) ;; Ok (st', o'))
        ('(_, M) <- mat_UpdateW (view st o) i j (fun v => (tt, f v)) ;; Ok M) Tw Hx Hy A A2) as Q.
      assert (KV : forall w st' o', s_Update sp st o i j (fun v => (tt, f v)) = Ok (w, st', o') -> vector_or_sparse (TObj o')).
      { intros w st' o' E. eapply kind_vs; [eapply kind_Update; eauto|auto]. }
      destruct (s_Update sp st o i j _) as [[[w st'] o']| |], (s_Update sp2 st2 o2 i j _) as [[[w2 st2'] o2']| |],
        (mat_UpdateW _ _ _ _) as [[w3 M]| |]; cbn [sim rbind same_obj] in S, S2, Q |- *; auto; try contradiction.
      apply Q; [destruct S as (_ & ? & ?); split; auto|destruct S2 as (_ & ? & ?); split; auto|]. intros st0 o0 [= <- <-]. eapply KV; eauto.
  - (* ASet *)
    eapply sim_bind; [apply (obj_twin b g st ts st2 ts2 t Tw)|]. intros o o2 (Hx & Hy & W).
    pose proof (tw_own _ _ _ _ _ _ Tw _ _ Hx) as Ho. pose proof (tw_own2 _ _ _ _ _ _ Tw _ _ Hy) as Ho2. cbn [tobj] in Ho, Ho2.
    destruct W as [_ [L|(Vs & A & A2 & Es)]].
    + eapply sim_bind; [apply (Set_linked b g st ts st2 ts2 t o o2 Tw Hx Hy L)|]. intros p q H. cbn [sim]. eapply stays_put; eauto.
    + cbn in Es. injection Es as Es.
      eapply sim_bind; [eapply (alone_op b g st ts st2 ts2 t o o2 _ _ (mat_Set (view st o) i j x) Tw Hx Hy A A2)|].
      * apply Set_sim; auto.
      * rewrite Es. apply Set_sim; auto.
      * intros st' o' E. eapply kind_vs; [eapply kind_Set; eauto|auto].
      * intros p q H. exact H.
  - (* AAt *)
    eapply sim_bind; [apply (obj_twin b g st ts st2 ts2 t Tw)|]. intros o o2 (Hx & Hy & W).
    pose proof (tw_own _ _ _ _ _ _ Tw _ _ Hx) as Ho. pose proof (tw_own2 _ _ _ _ _ _ Tw _ _ Hy) as Ho2. cbn [tobj] in Ho, Ho2.
    destruct W as [_ [L|(Vs & A & A2 & Es)]].
    + eapply sim_bind; [apply (At_linked b g st ts st2 ts2 t o o2 Tw Hx Hy L)|]. intros [[w st'] o'] [[w2 st2'] o2'] H. cbn in H. cbn [sim].
      eapply stays_put; eauto.
    + cbn in Es. injection Es as Es.
      pose proof (At_sim sp st o i j Ho) as S. pose proof (At_sim sp2 st2 o2 i j Ho2) as S2.
      rewrite <- Es in S2.
      pose proof (alone_op b g st ts st2 ts2 t o o2 ('(_, st', o') <- s_At sp st o i j ;; Ok (st', o'))
        ('(_, st', o') <- s_At sp2 st2 o2 i j ;; Ok (st', o'))
        ('(_, M) <- mat_At (view st o) i j ;; Ok M) Tw Hx Hy A A2) as Q.
      assert (KV : forall w st' o', s_At sp st o i j = Ok (w, st', o') -> vector_or_sparse (TObj o')).
      { intros w st' o' E. eapply kind_vs; [eapply kind_At; eauto|auto]. }
      destruct (s_At sp st o i j) as [[[w st'] o']| |], (s_At sp2 st2 o2 i j) as [[[w2 st2'] o2']| |],
        (mat_At (view st o) i j) as [[w3 M]| |]; cbn [sim rbind same_obj] in S, S2, Q |- *; auto; try contradiction.
      apply Q; [destruct S as (_ & ? & ?); split; auto|destruct S2 as (_ & ? & ?); split; auto|]. intros st0 o0 [= <- <-]. eapply KV; eauto.
  - (* ASetVec *)
    eapply sim_bind; [apply (obj_twin b g st ts st2 ts2 t Tw)|]. intros o o2 (Hx & Hy & W).
    pose proof (tw_own _ _ _ _ _ _ Tw _ _ Hx) as Ho. pose proof (tw_own2 _ _ _ _ _ _ Tw _ _ Hy) as Ho2. cbn [tobj] in Ho, Ho2.
    destruct W as [_ [L|(Vs & A & A2 & Es)]].
    + eapply sim_bind; [apply (SetVec_linked b g st ts st2 ts2 t o o2 Tw Hx Hy L)|]. intros p q H. cbn [sim]. eapply stays_put; eauto.
    + cbn in Es. injection Es as Es.
      eapply sim_bind; [eapply (alone_op b g st ts st2 ts2 t o o2 _ _ (mat_SetVec (view st o) i x) Tw Hx Hy A A2)|].
      * apply SetVec_sim; auto.
      * rewrite Es. apply SetVec_sim; auto.
      * intros st' o' E. eapply kind_vs; [eapply kind_SetVec; eauto|auto].
      * intros p q H. exact H.
  - (* APut *)
    eapply sim_bind; [apply (obj_twin b g st ts st2 ts2 t Tw)|]. intros o o2 (Hx & Hy & W).
    pose proof (tw_own _ _ _ _ _ _ Tw _ _ Hx) as Ho. pose proof (tw_own2 _ _ _ _ _ _ Tw _ _ Hy) as Ho2. cbn [tobj] in Ho, Ho2.
    destruct W as [_ [L|(Vs & A & A2 & Es)]].
    + eapply sim_bind; [apply (put_linked b g st ts st2 ts2 t o o2 Tw Hx Hy L)|]. intros p q H. cbn [sim]. eapply stays_put; eauto.
    + cbn in Es. injection Es as Es.
      eapply sim_bind; [eapply (alone_op b g st ts st2 ts2 t o o2 _ _ (mat_map_put (view st o) it x) Tw Hx Hy A A2)|].
      * apply put_sim; auto.
      * rewrite Es. apply put_sim; auto.
      * intros st' o' E. eapply kind_vs; [eapply kind_put; eauto|auto].
      * intros p q H. exact H.
  - (* AClear *)
    eapply sim_bind; [apply (obj_twin b g st ts st2 ts2 t Tw)|]. intros o o2 (Hx & Hy & W).
    pose proof (twin_see _ _ _ _ _ _ _ _ _ P R W) as Es. cbn in Es. injection Es as Es. rewrite Es.
    destruct (mat_Clear _) as [M| |] eqn:E; cbn [rbind sim]; auto.
    destruct (build sp st M) as [st' o'] eqn:E1. destruct (build sp2 st2 M) as [st2' o2'] eqn:E2.
    eapply (twins_build sp sp2 b g st ts st2 ts2 _ _ t M _ _ _ _ Tw (lens_clear _ _ E) E1 E2).
    + eapply upd_put; eauto.
    + eapply upd_put; eauto.
    + cbn. rewrite !length_list_set_any. exact Hl.
  - (* AReSize *)
    eapply sim_bind; [apply (obj_twin b g st ts st2 ts2 t Tw)|]. intros o o2 (Hx & Hy & W).
    pose proof (tw_own _ _ _ _ _ _ Tw _ _ Hx) as Ho. pose proof (tw_own2 _ _ _ _ _ _ Tw _ _ Hy) as Ho2. cbn [tobj] in Ho, Ho2. cbn in Hz.
    destruct W as [_ [L|(Vs & A & A2 & Es)]].
    + eapply sim_bind; [apply (ReSize_linked b g st ts st2 ts2 t o o2 Tw Hx Hy L sp sp2 size Hz)|]. intros p q H. exact H.
    + cbn in Es. injection Es as Es.
      eapply sim_bind; [eapply (alone_op b g st ts st2 ts2 t o o2 _ _ (l_ReSize (view st o) size) Tw Hx Hy A A2)|].
      * apply ReSize_sim; auto.
      * rewrite Es. apply ReSize_sim; auto.
      * intros st' o' E. destruct o; cbn in E; try discriminate E.
        repeat (match type of E with rbind ?m _ = _ => destruct m as [[? ?]| |]; cbn [rbind] in E; try discriminate E end).
        injection E as <- <-. exact I.
      * intros p q H. exact H.
Qed.

Lemma do_all_twins p : forall sp sp2 st ts st2 ts2, both (st, ts) (st2, ts2) -> Forall sized p ->
  sim both (do_all sp st ts p) (do_all sp2 st2 ts2 p).
Proof.
  induction p as [|a p IH]; intros sp sp2 st ts st2 ts2 H Hs; cbn; [exact H|]. inversion Hs; subst.
  eapply sim_bind; [apply do_twins; eauto|]. intros [st' ts'] [st2' ts2'] H'. apply IH; auto.
Qed.

(** How much room [append] leaves in the arrays it allocates, and what lies there, shows in
    no program that resizes to sizes >= 0 only. *)
Theorem spare_room_unseen_always (sp sp' : nat -> spare N) p : Forall sized p ->
  rmap (fun r => map (see (fst r)) (snd r)) (run sp p) = rmap (fun r => map (see (fst r)) (snd r)) (run sp' p).
Proof.
  intros Hs. assert (B : both (MkStore (N := N) [] [] [], []) (MkStore [] [] [], [])).
  { exists (fun _ _ => False), (fun _ _ => False). constructor; cbn; auto.
    - intros i x H. destruct i; discriminate.
    - intros i x H. destruct i; discriminate.
    - split; [intros k q k' q' []|intros k q []].
    - intros k q [].
    - intros i x y H. destruct i; discriminate. }
  pose proof (do_all_twins p sp sp' _ _ _ _ B Hs) as S. unfold run.
  destruct (do_all sp _ _ p) as [[st ts]| |], (do_all sp' _ _ p) as [[st2 ts2]| |]; cbn in S |- *; auto; try contradiction.
  destruct S as (b & g & S). f_equal. exact (twins_see _ _ _ _ _ _ S).
Qed.
End Room.
