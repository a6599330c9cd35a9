(** What iterators held open show, along every history. *)
From Coq Require Import String Sorting.Sorted.
From Verif Require Import GoBase Num SparseVec Csr Csc DenseVec DenseMat Mat World Ops.
From Verif Require Import BaseProofs AssocProofs CsrProofs SvProofs CsrIterProofs CscProofs DenseProofs MatProofs.
From Verif Require Import Spec HeapProofs Api ReachProofs MapLag StoreProofs EwThms Iters IterKin IterProofs IterPut.

Section IterThms.
Context {N : num}.
Notation V := (T N).
Notation mat := (mat N).
Notation ent := (Z * Z * V)%type.
Notation world := (world N).
Implicit Types w : world.
Implicit Types m : mat.

(** ** Lists *)
Lemma set_nth_same {A} k (x y : A) l : nth_error l k = Some y -> nth_error (set_nth k x l) k = Some x.
Proof. revert k; induction l as [|z l IH]; intros [|k] H; cbn in *; try discriminate; auto. Qed.
Lemma set_nth_other {A} k j (x : A) l : j <> k -> nth_error (set_nth k x l) j = nth_error l j.
Proof. revert k j; induction l as [|z l IH]; intros [|k] [|j] H; cbn in *; auto; try congruence. Qed.
Lemma set_nth_length {A} k (x : A) l : length (set_nth k x l) = length l.
Proof. revert k; induction l as [|z l IH]; intros [|k]; cbn; auto. Qed.
(** ** The invariant of histories *)
Definition held m (it : iter) (cu : cursor N) : Prop :=
  tracks m it cu /\ forall seen e, cu_seen cu = seen ++ [e] -> spot m it = cu_spot cu /\ on_spot m it (line_of m (fst e)).
Definition inv w (hs : list handle) (cs : list (ptr * cursor N)) : Prop :=
  wfw w /\ length hs = length cs /\
  forall k p it p' cu, nth_error hs k = Some (p, it) -> nth_error cs k = Some (p', cu) -> p' = p /\ exists m, obj w p m /\ held m it cu.

Lemma obj_fun w p m m' : obj w p m -> obj w p m' -> m' = m.
Proof. unfold obj. congruence. Qed.

Lemma nth_snoc {A} (l : list A) x k y : nth_error (l ++ [x]) k = Some y -> nth_error l k = Some y \/ k = length l /\ y = x.
Proof.
  intros H. destruct (Nat.lt_ge_cases k (length l)) as [L|L]; [left; rewrite nth_error_app1 in H; auto|]. rewrite nth_error_app2 in H by exact L.
  destruct (k - length l)%nat as [|n] eqn:E; cbn in H; [injection H as <-; right; split; [lia|reflexivity]|]. destruct n; discriminate.
Qed.

(** a [Next] that succeeded *)
Lemma next_inv m it cu l e it' : wf m -> enumerates m l -> tracks m it cu -> mat_Next m it = Ok (e, it') ->
  shown m (cu_place cu) l = Ok e /\ tracks m it' (advance m cu l e) /\ mat_next m it = Ok it' /\ mat_cur m it' = Ok e /\
  forall x, settled m (cu_place cu) l \/ neqb x n0 = false -> exists m', mat_map_put m it' x = Ok m' /\ put_done m (cu_place cu) l e x m'.
Proof.
  intros Hw He Ht H. pose proof (tracks_next m it cu l Hw He Ht) as T. destruct (shown m (cu_place cu) l) as [e0| |]; [|congruence|congruence].
  destruct T as (it0 & H1 & H2 & H3 & H4). unfold mat_Next in H. rewrite H1 in H. cbn [rbind] in H. rewrite H2 in H. cbn [rbind] in H. injection H as <- <-. auto.
Qed.
Lemma MapNext_inv m it f e m' it' : mat_MapNext m it f = Ok (e, m', it') ->
  mat_Next m it = Ok (e, it') /\ mat_map_put m it' (f (fst (fst e)) (snd (fst e)) (snd e)) = Ok m'.
Proof.
  unfold mat_MapNext, mat_Next. destruct (mat_next m it) as [it0| |]; cbn [rbind]; try discriminate. destruct (mat_cur m it0) as [e0| |]; cbn [rbind]; try discriminate.
  destruct (mat_map_put m it0 _) as [m0| |] eqn:E; cbn [rbind]; try discriminate. intros H. injection H as <- <- <-. auto.
Qed.

Lemma kin_line m m' q : kin m m' -> line_of m' q = line_of m q.
Proof. destruct m, m'; cbn [kin]; intros K; try contradiction; reflexivity. Qed.
Lemma held_kin m m' it cu : kin m m' -> held m it cu -> held m' it cu.
Proof.
  intros K [H1 H2]. split; [eapply tracks_kin; eauto|]. intros seen e E. destruct (H2 seen e E) as [H3 H4]. rewrite (spot_kin m m') by exact K. split; [exact H3|].
  rewrite (kin_line m m') by exact K. eapply on_spot_kin; eauto.
Qed.
Lemma held_next m it cu l e it' : wf m -> enumerates m l -> held m it cu -> mat_Next m it = Ok (e, it') -> held m it' (advance m cu l e).
Proof.
  intros Hw He [Ht _] Hx. split; [eapply next_inv; eauto|]. destruct (tracks_spot m it cu l e it' Hw He Ht Hx) as (H1 & H2 & _).
  unfold advance. cbn [cu_seen cu_spot]. intros seen e0 E. apply app_inj_tail in E as [_ <-]. auto.
Qed.
Lemma last_of {A} (l : list A) : l <> [] -> exists a x, l = a ++ [x].
Proof. intros H. destruct (exists_last H) as (a & x & E). eauto. Qed.

(** writing *)
Lemma held_put m it cu l seen e x : wf m -> enumerates m l -> held m it cu -> cu_seen cu = seen ++ [e] ->
  match nth_error l (cu_spot cu) with
  | Some z => neqb x n0 = false \/ lined m = false \/ line_of m (fst z) = line_of m (fst e) ->
      exists m', mat_map_put m it x = Ok m' /\ wf m' /\ entries m' = put_at m l (cu_spot cu) z x
  | None => mat_map_put m it x = Panic
  end.
Proof. intros Hw He [_ H] E. destruct (H seen e E) as [H1 H2]. rewrite <- H1. exact (put_spot m l it _ x Hw He H2). Qed.

Lemma held_put_wf m it cu l x m' : wf m -> enumerates m l -> held m it cu -> cu_seen cu <> [] -> mat_map_put m it x = Ok m' ->
  neqb x n0 = false \/ in_place m cu l -> wf m'.
Proof.
  intros Hw He Hh Hs Hp Hx. destruct (last_of _ Hs) as (seen & e & E). pose proof (held_put m it cu l seen e x Hw He Hh E) as H.
  destruct (nth_error l (cu_spot cu)) as [z|] eqn:En; [|congruence]. destruct H as (m0 & H1 & H2 & _); [|congruence].
  destruct Hx as [Hx|[Hx|(z' & s' & e' & Q1 & Q2 & Q3)]]; auto. right. right. rewrite E in Q2. apply app_inj_tail in Q2 as [_ <-]. congruence.
Qed.

Lemma follows_inv (P : world -> Prop) w hs cs : sane N -> follows P w hs cs -> inv w hs cs.
Proof.
  intros [Hz Hn] H. induction H as [w Hr HP|w hs cs p m H IH Ho|w hs cs k p it cu m l e it' H IH Hk Hc Ho He Hx|w hs cs k p it cu m l x m' H IH Hk Hc Hse Ho He Hput Hs HP|w hs cs c H IH Ha HP].
  - split; [apply reach_wfw; auto|]. split; [reflexivity|]. intros k p it p' cu Hk. destruct k; discriminate.
  - destruct IH as (Hw & HL & IH). split; [exact Hw|]. split; [rewrite !app_length; cbn; lia|].
    intros k p1 it1 p2 cu H1 H2. apply nth_snoc in H1 as [H1|[E1 H1]]; apply nth_snoc in H2 as [H2|[E2 H2]].
    + eauto.
    + exfalso. assert (k < length hs)%nat by (apply nth_error_Some; congruence). lia.
    + exfalso. assert (k < length cs)%nat by (apply nth_error_Some; congruence). lia.
    + injection H1 as -> ->. injection H2 as -> ->. split; [reflexivity|]. exists m. split; [exact Ho|]. split; [apply tracks_start; eauto|]. intros [|] ? E; discriminate.
  - destruct IH as (Hw & HL & IH). split; [exact Hw|]. split; [rewrite !set_nth_length; exact HL|].
    intros j p1 it1 p2 cu2 H1 H2. destruct (Nat.eq_dec j k) as [->|Hj].
    + rewrite (set_nth_same _ _ _ _ Hk) in H1. rewrite (set_nth_same _ _ _ _ Hc) in H2. injection H1 as <- <-. injection H2 as <- <-. split; [reflexivity|].
      destruct (IH _ _ _ _ _ Hk Hc) as (_ & m0 & Ho0 & Ht). pose proof (obj_fun _ _ _ _ Ho Ho0) as ->. exists m. split; [exact Ho|].
      eapply held_next; eauto.
    + rewrite set_nth_other in H1 by exact Hj. rewrite set_nth_other in H2 by exact Hj. eauto.
  - destruct IH as (Hw & HL & IH).
    destruct (IH _ _ _ _ _ Hk Hc) as (_ & m0 & Ho0 & Ht). pose proof (obj_fun _ _ _ _ Ho Ho0) as ->.
    pose proof (held_put_wf m it cu l x m' (Hw _ _ Ho) He Ht Hse Hput Hs) as Hw1.
    pose proof (put_kin _ _ _ _ Hput) as Hkin. rewrite store_ok. cbn [fst].
    split; [apply wfw_upd; auto|]. split; [exact HL|].
    intros j p1 it1 p2 cu2 H1 H2. destruct (IH _ _ _ _ _ H1 H2) as (-> & m2 & Ho2 & Ht2). split; [reflexivity|].
    destruct (Nat.eq_dec p1 p) as [->|Hp].
    + pose proof (obj_fun _ _ _ _ Ho Ho2) as ->. exists m'. split; [eapply obj_upd_eq; eauto|]. eapply held_kin; eauto.
    + exists m2. split; [apply obj_upd_neq; auto|exact Ht2].
  - destruct IH as (Hw & HL & IH). split; [apply after_wfw; auto|]. split; [exact HL|].
    intros k p it p' cu H1 H2. destruct (IH _ _ _ _ _ H1 H2) as (-> & m & Ho & Ht). split; [reflexivity|].
    destruct (kin_call p c w m Ho) as (m' & Ho' & Hk). exists m'. split; [exact Ho'|]. eapply held_kin; eauto.
Qed.

(** a [Map] with a function that only computes *)
Lemma fol_map (P : world -> Prop) w hs cs k p it cu m l f e m' it' : sane N -> follows P w hs cs ->
  nth_error hs k = Some (p, it) -> nth_error cs k = Some (p, cu) -> obj w p m -> enumerates m l ->
  mat_MapNext m it f = Ok (e, m', it') ->
  settled m (cu_place cu) l \/ neqb (f (fst (fst e)) (snd (fst e)) (snd e)) n0 = false ->
  P (fst (store p m' w)) ->
  follows P (fst (store p m' w)) (set_nth k (p, it') hs) (set_nth k (p, advance m cu l e) cs).
Proof.
  intros Hsane H Hk Hc Ho He Hx Hs HP. apply MapNext_inv in Hx as [Hx Hput]. pose proof (fol_next P w hs cs k p it cu m l e it' H Hk Hc Ho He Hx) as H1.
  apply (fol_put P w _ _ k p it' (advance m cu l e) m l _ m' H1 (set_nth_same _ _ _ _ Hk) (set_nth_same _ _ _ _ Hc)) in Hput; auto.
  - unfold advance. cbn [cu_seen]. destruct (cu_seen cu); discriminate.
  - destruct Hs as [Hs|Hs]; [right|left; exact Hs]. destruct (follows_inv P w hs cs Hsane H) as (Hw & _ & Hi). destruct (Hi _ _ _ _ _ Hk Hc) as (_ & m0 & Ho0 & Ht & _).
    pose proof (obj_fun _ _ _ _ Ho Ho0) as ->. destruct (tracks_spot m it cu l e it' (Hw _ _ Ho) He Ht Hx) as (_ & Q & y & Q1 & _ & Q2 & _).
    right. exists e, (cu_seen cu), e. unfold advance. cbn [cu_seen cu_spot]. rewrite <- Q, <- (Q2 Hs). auto.
Qed.

(** ** The element shown next, whatever has happened *)
Lemma open_iterator (P : world -> Prop) w hs cs k p it p' cu m l : sane N -> follows P w hs cs ->
  nth_error hs k = Some (p, it) -> nth_error cs k = Some (p', cu) -> obj w p m -> enumerates m l ->
  p' = p /\ mat_HasNext it = (zlen (cu_seen cu) <? cu_total cu) /\
  match shown m (cu_place cu) l with
  | Ok e => (exists it', mat_Next m it = Ok (e, it')) /\
      (forall f, settled m (cu_place cu) l \/ neqb (f (fst (fst e)) (snd (fst e)) (snd e)) n0 = false ->
        exists m' it' l', mat_MapNext m it f = Ok (e, m', it') /\ enumerates m' l' /\
          mapped_to m (cu_place cu) l e (f (fst (fst e)) (snd (fst e)) (snd e)) l')
  | Panic => mat_Next m it = Panic
  | Diverge => mat_Next m it = Diverge
  end.
Proof.
  intros Hsane H H1 H2 Ho He. destruct (follows_inv P w hs cs Hsane H) as (Hw & _ & Hi). destruct (Hi _ _ _ _ _ H1 H2) as (-> & m0 & Ho0 & Ht & _).
  pose proof (obj_fun _ _ _ _ Ho Ho0) as ->. split; [reflexivity|]. split; [eapply tracks_HasNext; eauto|].
  pose proof (tracks_next m it cu l (Hw _ _ Ho) He Ht) as T. destruct (shown m (cu_place cu) l) as [e| |]; [|exact T|exact T].
  destruct T as (it' & E1 & E2 & _ & E4). split.
  - exists it'. unfold mat_Next. rewrite E1. cbn [rbind]. rewrite E2. reflexivity.
  - intros f Hf. destruct (E4 (f (fst (fst e)) (snd (fst e)) (snd e)) Hf) as (m' & E5 & Hw' & E6). exists m', it', (entries m'). split; [|split; [apply OpsThms.enumerates_entries; exact Hw'|exact E6]]. unfold mat_MapNext. rewrite E1. cbn [rbind]. rewrite E2. cbn [rbind]. rewrite E5. reflexivity.
Qed.

(** an iterator that is settled shows the first of the elements ahead of it *)
Lemma settled_iterator (P : world -> Prop) w hs cs k p it p' cu m l : sane N -> follows P w hs cs ->
  nth_error hs k = Some (p, it) -> nth_error cs k = Some (p', cu) -> obj w p m -> enumerates m l -> settled m (cu_place cu) l ->
  match upcoming m (cu_place cu) l with
  | [] => mat_Next m it = Panic
  | e :: _ => (exists it', mat_Next m it = Ok (e, it')) /\ (forall f, exists m' it' n, mat_MapNext m it f = Ok (e, m', it') /\
      nth_error l n = Some e /\ enumerates m' (put_at m l n e (f (fst (fst e)) (snd (fst e)) (snd e))))
  end.
Proof.
  intros Hsane H H1 H2 Ho He Hs. destruct (open_iterator P w hs cs k p it p' cu m l Hsane H H1 H2 Ho He) as (-> & _ & T).
  destruct (follows_inv P w hs cs Hsane H) as (Hw & _ & Hi). destruct (Hi _ _ _ _ _ H1 H2) as (_ & m0 & Ho0 & Ht & _). pose proof (obj_fun _ _ _ _ Ho Ho0) as ->.
  destruct (tracks_settled m it cu l (Hw _ _ Ho) He Ht Hs) as [E _]. rewrite E in T. destruct (upcoming m (cu_place cu) l); cbn [first] in T; [exact T|].
  destruct T as [T1 T2]. split; [exact T1|]. intros f. destruct (T2 f (or_introl Hs)) as (m' & it' & l' & Q1 & Q2 & n & y & Q3 & _ & Q4 & _ & ->). rewrite (Q4 Hs) in *. eauto 8.
Qed.

(** a handle keeps its pointer: the objects of open iterators are there *)
Lemma open_object (P : world -> Prop) w hs cs k p it : sane N -> follows P w hs cs -> nth_error hs k = Some (p, it) ->
  exists m l cu, obj w p m /\ enumerates m l /\ nth_error cs k = Some (p, cu).
Proof.
  intros Hsane H H1. destruct (follows_inv P w hs cs Hsane H) as (Hw & HL & Hi).
  destruct (nth_error cs k) as [[p' cu]|] eqn:E.
  - destruct (Hi _ _ _ _ _ H1 E) as (-> & m & Ho & Ht). exists m, (entries m), cu. split; [exact Ho|]. split; [|reflexivity]. apply OpsThms.enumerates_entries. eauto.
  - exfalso. apply nth_error_None in E. assert (k < length hs)%nat by (apply nth_error_Some; congruence). lia.
Qed.

(** ** Values may change, positions may not *)
Definition aheadp m (pl : place) (q : Z * Z) : bool :=
  match pl with
  | Between ln => ln <? line_of m q
  | Within ln ps _ _ => (line_of m q =? ln) && (ps <? pos_of m q) || (ln <? line_of m q)
  | Index _ => true
  end.
Definition is_dv m : bool := match m with MDV _ => true | _ => false end.

Definition on_course m (cu : cursor N) (ps : list (Z * Z)) : Prop :=
  zlen (cu_seen cu) <= zlen ps ->
  cu_total cu = zlen ps /\ exists D U, ps = D ++ U /\ map fst (cu_seen cu) = D /\
  (if lined m then (forall q, In q D -> aheadp m (cu_place cu) q = false) /\ (forall q, In q U -> aheadp m (cu_place cu) q = true) /\
     match cu_place cu with
     | Within ln p b mo => zlen (filter (fun q => negb (aheadp m (cu_place cu) q)) ps) = b /\ zlen (filter (fun q => (line_of m q =? ln) && (p <? pos_of m q)) ps) = mo
     | Between _ => True
     | Index _ => False
     end
   else cu_place cu = Index (zlen D)).

Lemma on_course_kin m m' cu ps : kin m m' -> on_course m cu ps -> on_course m' cu ps.
Proof.
  intros K H L. destruct (H L) as (Et & D & U & E1 & E2 & E3). split; [exact Et|]. exists D, U. split; [exact E1|]. split; [exact E2|].
  destruct m as [s|s|s|s|s], m' as [s'|s'|s'|s'|s']; try (cbn in K; contradiction); exact E3.
Qed.

Lemma zlen_filter_fst (g : Z * Z -> bool) (l : list ent) : zlen (filter (fun e => g (fst e)) l) = zlen (filter g (map fst l)).
Proof. rewrite filter_map, zlen_map. reflexivity. Qed.

Lemma course_settled m cu l : on_course m cu (map fst l) -> zlen (cu_seen cu) <= zlen l -> settled m (cu_place cu) l.
Proof.
  intros H L. destruct H as (_ & D & U & E & _ & H); [rewrite zlen_map; exact L|].
  destruct (cu_place cu) as [ln|ln ps b mo|k] eqn:Ep; cbn [settled]; auto. destruct (lined m) eqn:El; [|discriminate]. destruct H as (_ & _ & H1 & H2).
  cbn [aheadp] in H1. rewrite <- H1, <- H2. split.
  - apply (zlen_filter_fst (fun q => negb ((line_of m q =? ln) && (ps <? pos_of m q) || (ln <? line_of m q)))).
  - apply (zlen_filter_fst (fun q => (line_of m q =? ln) && (ps <? pos_of m q))).
Qed.

Lemma filter_split {A B} (g : B -> bool) (f : A -> B) (l : list A) D U : map f l = D ++ U -> (forall q, In q D -> g q = false) -> (forall q, In q U -> g q = true) ->
  filter (fun x => g (f x)) l = skipn (length D) l.
Proof.
  revert D. induction l as [|x l IH]; intros D E HD HU; [destruct D; reflexivity|]. destruct D as [|d D]; cbn [app map] in E.
  - cbn [length skipn]. apply filter_every. intros y Hy. apply HU. rewrite <- E. change (f x :: map f l) with (map f (x :: l)). apply in_map. exact Hy.
  - injection E as <- E. cbn [filter length skipn]. rewrite (HD (f x)) by (left; reflexivity). apply IH; auto. intros q Hq. apply HD. right. exact Hq.
Qed.

(** the elements ahead *)
Lemma course_upcoming m cu l : on_course m cu (map fst l) -> zlen (cu_seen cu) < zlen l ->
  upcoming m (cu_place cu) l = skipn (length (cu_seen cu)) l.
Proof.
  intros H L. destruct H as (_ & D & U & E & E2 & H); [rewrite zlen_map; lia|].
  assert (ED : length (cu_seen cu) = length D) by (rewrite <- E2, map_length; reflexivity). rewrite ED.
  destruct (lined m) eqn:El.
  - destruct H as (H1 & H2 & H3). pose proof (filter_split (aheadp m (cu_place cu)) fst l D U E H1 H2) as F. rewrite <- F.
    destruct (cu_place cu); [reflexivity|reflexivity|contradiction].
  - rewrite H. cbn [upcoming]. assert (EZ : Z.to_nat (zlen D) = length D) by (unfold zlen; lia). rewrite EZ.
    destruct m; try reflexivity. destruct (Z.eqb_spec (zlen D) (zlen l)) as [Q|Q]; [|reflexivity]. exfalso. unfold zlen in *. lia.
Qed.

Lemma dv_positions m : wf m -> is_dv m = true -> map fst (entries m) = map (fun k => (k, 0)) (zrange 0 (zlen (entries m))).
Proof. intros Hw H. destruct m; try discriminate. destruct Hw as (L & f & -> & HL). rewrite entries_dv by exact HL. rewrite map_map, zlen_map, zlen_zrange, Z.sub_0_r by exact HL. reflexivity. Qed.

Lemma course_step m it cu l e : wf m -> enumerates m l -> tracks m it cu -> on_course m cu (map fst l) -> zlen (cu_seen cu) < zlen l ->
  shown m (cu_place cu) l = Ok e -> on_course m (advance m cu l e) (map fst l).
Proof.
  intros Hw He Ht H L Hsh _. destruct (tracks_settled m it cu l Hw He Ht (course_settled m cu l H ltac:(lia))) as [Hh Hmv]. rewrite Hsh in Hh.
  apply enumerates_unique in He; [|exact Hw]. rewrite (course_upcoming m cu l H L) in Hh.
  destruct H as (Et & D & U & E & E2 & H); [rewrite zlen_map; lia|].
  assert (ED : length (cu_seen cu) = length D) by (rewrite <- E2, map_length; reflexivity). rewrite ED in Hh.
  destruct (skipn (length D) l) as [|e0 rest] eqn:Es; [discriminate|]. injection Hh as <-.
  assert (El : l = firstn (length D) l ++ e :: rest) by (rewrite <- Es, firstn_skipn; reflexivity).
  assert (EDl : map fst (firstn (length D) l) = D) by (rewrite <- firstn_map, E, firstn_app, firstn_all, Nat.sub_diag; cbn [firstn]; apply app_nil_r).
  split; [exact Et|]. exists (D ++ [fst e]), (map fst rest).
  split; [rewrite <- app_assoc; cbn [app]; rewrite El at 1; rewrite map_app, EDl; reflexivity|].
  split; [unfold advance; cbn [cu_seen]; rewrite map_app, E2; reflexivity|].
  destruct (lined m) eqn:Elm.
  - destruct H as (_ & _ & Hp).
    assert (Em : cu_place (advance m cu l e) =
      if zlen (filter (in_line m (line_of m (fst e)) (pos_of m (fst e))) l) =? 0 then Between (line_of m (fst e))
      else Within (line_of m (fst e)) (pos_of m (fst e)) (zlen (filter (fun x => negb (in_line m (line_of m (fst e)) (pos_of m (fst e)) x || in_later m (line_of m (fst e)) x)) l)) (zlen (filter (in_line m (line_of m (fst e)) (pos_of m (fst e))) l))).
    { exact (Hmv eq_refl e Hsh). }
    rewrite Em. pose proof (sorted_lines m Hw Elm) as S. rewrite <- He, El, map_app, EDl in S. cbn [map] in S. apply SS_around in S as [S1 S2].
    destruct (Z.eqb_spec (zlen (filter (in_line m (line_of m (fst e)) (pos_of m (fst e))) l)) 0) as [Z0|Z0].
    + cbn [aheadp]. split; [|split; [|exact I]].
      * intros q Hq. apply in_app_or in Hq as [Hq|[<-|[]]]; [apply S1 in Hq|]; lia.
      * intros q Hq. pose proof (S2 _ Hq) as Q. destruct Q as [Q|[Q1 Q2]]; [lia|]. exfalso.
        apply in_map_iff in Hq as (x & <- & Hx). assert (Hin : In x (filter (in_line m (line_of m (fst e)) (pos_of m (fst e))) l)).
        { apply filter_In. split; [rewrite El; apply in_or_app; right; right; exact Hx|]. unfold in_line. lia. }
        destruct (filter (in_line m (line_of m (fst e)) (pos_of m (fst e))) l) as [|y T]; [destruct Hin|]. revert Z0. zl. pose proof (zlen_nonneg T). lia.
    + cbn [aheadp]. split; [|split].
      * intros q Hq. apply in_app_or in Hq as [Hq|[<-|[]]]; [apply S1 in Hq|]; lia.
      * intros q Hq. apply S2 in Hq. lia.
      * split; symmetry.
        -- apply (zlen_filter_fst (fun q => negb ((line_of m q =? line_of m (fst e)) && (pos_of m (fst e) <? pos_of m q) || (line_of m (fst e) <? line_of m q)))).
        -- apply (zlen_filter_fst (fun q => (line_of m q =? line_of m (fst e)) && (pos_of m (fst e) <? pos_of m q))).
  - unfold advance. cbn [cu_place]. rewrite H. cbn [moved]. replace (zlen (D ++ [fst e])) with (zlen D + 1) by (zl; lia).
    destruct m; try reflexivity. rename s into q. pose proof (dv_positions (MDV q) Hw eq_refl) as Q. rewrite <- He, E in Q.
    assert (EU : U = fst e :: map fst rest).
    { assert (Q2 : D ++ U = D ++ fst e :: map fst rest) by (rewrite <- E; rewrite El at 1; rewrite map_app, EDl; reflexivity). apply app_inv_head in Q2. exact Q2. }
    rewrite EU in Q. assert (G : zget (D ++ fst e :: map fst rest) (zlen D) = Ok (fst e)) by (apply zget_mid; lia).
    rewrite Q, zget_map, zget_zrange in G by (unfold zlen in *; lia). cbn in G. injection G as <-. reflexivity.
Qed.

Lemma course_start m : wf m -> on_course m (start m) (map fst (entries m)).
Proof.
  intros Hw _. unfold start. cbn [cu_total cu_seen cu_place]. split; [rewrite zlen_map, zlen_entries; auto|].
  exists [], (map fst (entries m)). split; [reflexivity|]. split; [reflexivity|]. destruct (lined m) eqn:El; [|reflexivity]. split; [intros q []|]. split; [|exact I].
  intros q Hq. cbn [aheadp]. assert (Hb : 0 <= line_of m q).
  { apply in_map_iff in Hq as (e & <- & He). destruct m; try discriminate.
    - destruct Hw as (R & C & rows & -> & Hok). rewrite entries_csr in He by exact Hok. apply rents_line in He. cbn [line_of]. lia.
    - destruct Hw as (R & C & rows & -> & Hok). rewrite entries_csc in He by exact Hok. apply in_map_iff in He as (x & <- & He). apply rents_line in He. cbn [line_of swap_ent fst snd]. lia. }
  lia.
Qed.

(** the enumeration of [p] has the positions [ps] *)
Lemma keeps_pos p ps w m : wfw w -> keeps p ps w -> obj w p m -> map fst (entries m) = ps.
Proof. intros Hw (m' & l & Ho & He & E) Ho'. pose proof (obj_fun _ _ _ _ Ho Ho') as ->. rewrite <- (enumerates_unique m' l); eauto. Qed.

Lemma follows_P (P : world -> Prop) w hs cs : follows P w hs cs -> P w.
Proof. intros H. induction H; auto. Qed.

Lemma keeps_course p ps w hs cs : sane N -> follows (keeps p ps) w hs cs ->
  forall k it cu m, nth_error hs k = Some (p, it) -> nth_error cs k = Some (p, cu) -> obj w p m -> on_course m cu ps.
Proof.
  intros Hsane H. induction H as [w Hr HP|w hs cs q mq H IH Hoq|w hs cs k q it cu mq l e it' H IH Hk Hc Hoq He Hx|w hs cs k q it cu mq l x m' H IH Hk Hc Hse Hoq He Hput Hs HP|w hs cs c H IH Ha HP]; intros j itj cuj m Hj Hcj Ho.
  - destruct j; discriminate.
  - pose proof (follows_inv _ _ _ _ Hsane H) as (Hw & HL & _).
    apply nth_snoc in Hj as [Hj|[E1 Hj]]; apply nth_snoc in Hcj as [Hcj|[E2 Hcj]].
    + eauto.
    + exfalso. assert (j < length hs)%nat by (apply nth_error_Some; congruence). lia.
    + exfalso. assert (j < length cs)%nat by (apply nth_error_Some; congruence). lia.
    + injection Hj as <- ->. injection Hcj as ->. pose proof (obj_fun _ _ _ _ Ho Hoq) as ->. rewrite <- (keeps_pos p ps w m Hw (follows_P _ _ _ _ H) Ho). apply course_start. eauto.
  - destruct (follows_inv _ _ _ _ Hsane H) as (Hw & HL & Hi). destruct (Nat.eq_dec j k) as [->|Hjk].
    + rewrite (set_nth_same _ _ _ _ Hk) in Hj. rewrite (set_nth_same _ _ _ _ Hc) in Hcj. injection Hj as -> <-. injection Hcj as <-.
      pose proof (obj_fun _ _ _ _ Ho Hoq) as ->.
      destruct (Hi _ _ _ _ _ Hk Hc) as (_ & m0 & Ho0 & Ht & _). pose proof (obj_fun _ _ _ _ Ho Ho0) as ->.
      destruct (next_inv m it cu l e it' (Hw _ _ Ho) He Ht Hx) as (Hhd & _).
      pose proof (keeps_pos p ps w m Hw (follows_P _ _ _ _ H) Ho) as Ep. rewrite <- (enumerates_unique m l (Hw _ _ Ho) He) in Ep.
      pose proof (IH _ _ _ _ Hk Hc Ho) as IHc. intros L.
      assert (L' : zlen (cu_seen cu) < zlen l) by (revert L; unfold advance; cbn [cu_seen]; rewrite <- Ep; zl; lia).
      rewrite <- Ep in *. apply (course_step m it cu l e); eauto.
    + rewrite set_nth_other in Hj by exact Hjk. rewrite set_nth_other in Hcj by exact Hjk. eauto.
  - pose proof (put_kin _ _ _ _ Hput) as Hkin. rewrite store_ok in Ho. cbn [fst] in Ho. destruct (Nat.eq_dec p q) as [->|Hpq].
    + pose proof (obj_upd_eq w q m' mq Hoq) as Ho'. pose proof (obj_fun _ _ _ _ Ho Ho') as ->. apply (on_course_kin mq m _ _ Hkin). eauto.
    + apply obj_upd_neq_iff in Ho; [|exact Hpq]. eauto.
  - destruct (follows_inv _ _ _ _ Hsane H) as (Hw & HL & Hi). destruct (Hi _ _ _ _ _ Hj Hcj) as (_ & m0 & Ho0 & _).
    destruct (kin_call p c w m0 Ho0) as (m1 & Ho1 & Hk). fold (after c w) in Ho1. pose proof (obj_fun _ _ _ _ Ho Ho1) as ->. apply (on_course_kin m0 m _ _ Hk). eauto.
Qed.

(** the iterator goes through the positions in order and shows each with the value it has then *)
Lemma steady_iterator p ps w hs cs k it p' cu m l : sane N -> follows (keeps p ps) w hs cs ->
  nth_error hs k = Some (p, it) -> nth_error cs k = Some (p', cu) -> obj w p m -> enumerates m l ->
  zlen (cu_seen cu) <= zlen ps ->
  map fst l = ps /\ settled m (cu_place cu) l /\
  exists done rest, l = done ++ rest /\ map fst (cu_seen cu) = map fst done /\
    match rest with
    | [] => mat_HasNext it = false
    | e :: _ => mat_HasNext it = true /\ (exists it', mat_Next m it = Ok (e, it')) /\ forall f, exists m' it' n, mat_MapNext m it f = Ok (e, m', it') /\
        nth_error l n = Some e /\ enumerates m' (put_at m l n e (f (fst (fst e)) (snd (fst e)) (snd e)))
    end.
Proof.
  intros Hsane H Hk Hc Ho He L. destruct (follows_inv _ _ _ _ Hsane H) as (Hw & HL & Hi). destruct (Hi _ _ _ _ _ Hk Hc) as (-> & _).
  pose proof (keeps_pos p ps w m Hw (follows_P _ _ _ _ H) Ho) as Ep. rewrite <- (enumerates_unique m l (Hw _ _ Ho) He) in Ep.
  pose proof (keeps_course p ps w hs cs Hsane H k it cu m Hk Hc Ho) as Co. rewrite <- Ep in Co, L. rewrite zlen_map in L.
  pose proof (course_settled m cu l Co L) as Hs. split; [exact Ep|]. split; [exact Hs|].
  destruct (open_iterator _ _ _ _ _ _ _ _ _ _ _ Hsane H Hk Hc Ho He) as (_ & Hn & _).
  pose proof (settled_iterator _ _ _ _ _ _ _ _ _ _ _ Hsane H Hk Hc Ho He Hs) as Hx.
  exists (firstn (length (cu_seen cu)) l), (skipn (length (cu_seen cu)) l). split; [symmetry; apply firstn_skipn|].
  destruct (Co ltac:(rewrite zlen_map; exact L)) as (Et & D & U & E & E2 & _).
  assert (ED : length (cu_seen cu) = length D) by (rewrite <- E2, map_length; reflexivity).
  split; [rewrite ED, <- firstn_map, E, firstn_app, firstn_all, Nat.sub_diag, E2; cbn [firstn]; rewrite app_nil_r; reflexivity|].
  rewrite Hn, Et, zlen_map. destruct (Z_lt_dec (zlen (cu_seen cu)) (zlen l)) as [L1|L1].
  - rewrite (course_upcoming m cu l Co L1) in Hx. destruct (skipn (length (cu_seen cu)) l) as [|e r] eqn:Es.
    + exfalso. assert (Q : length (skipn (length (cu_seen cu)) l) = 0%nat) by (rewrite Es; reflexivity). rewrite skipn_length in Q. unfold zlen in L1. lia.
    + split; [lia|exact Hx].
  - rewrite skipn_all2 by (unfold zlen in *; lia). lia.
Qed.

End IterThms.
