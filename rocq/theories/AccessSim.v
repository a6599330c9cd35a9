(** Access by access, the calls of a [MutexMatrix] do what the coarse machine of Mutex.v does. *)
From Verif Require Import GoBase Num SparseVec Csr Csc DenseVec DenseMat Mat World Mutex.
From Verif Require Import BaseProofs CsrProofs CscProofs DenseProofs SvProofs MatProofs Spec HeapProofs ReachProofs StoreProofs StoreThms MutexProofs MutexThms Access AccessProofs AccessConc AccessRace AccessClash.
Open Scope Z_scope.

Section AccessSim.
Context {N : num}.
Notation V := (T N).
Notation mat := (mat N).
Notation mem := (mem (N := N)).
Notation wcall := (wcall (N := N)).
Notation prog := (prog (N := N)).
Notation agor := (agor N).
Notation astate := (astate N).
Notation ev := (ev N).
Implicit Types m : mat.
Implicit Types k : wcall.
Implicit Types tr : list ev.

(** every method except Clear and Values *)
Definition wok k : Prop := guarded (plain_call k) /\ reads_only k.
Definition plain_out (p : wcall * option (ret N)) := (plain_call (fst p), snd p).
Definition plain_order (p : nat * wcall) := (fst p, plain_call (snd p)).
Definition pcs (p : apc N) : pc N :=
  match p with AOut => Out | AAnn k => Ann (plain_call k) | AIn k _ => In (plain_call k) | AFin k o => Fin (plain_call k) o end.
Definition gs (g : agor) : gor N := MkGor (pcs (ag_pc g)) (map plain_call (ag_todo g)) (map plain_out (ag_out g)).
(** the state of Mutex.v, the wrapped matrix being [m] *)
Definition down (y : astate) m : state N := MkSt m (a_rw y) (map gs (a_gs y)).

Definition calls_of (p : apc N) : list wcall := match p with AOut => [] | AAnn k | AIn k _ | AFin k _ => [k] end.
Definition body_ok m (x : mem) k (p : prog (ret N)) : Prop :=
  match wlock k with
  | LWrite => prun p x = (flat (next (plain_call k) m), outcome (plain_call k) m)
  | LRead => quiet p x /\ snd (prun p x) = outcome (plain_call k) m
  | LNone => dims_only p /\ snd (prun p x) = outcome (plain_call k) m
  end.
Record sim (y : astate) m : Prop := MkSim {
  si_wf : wf m;
  si_kind : m_kind (a_mem y) = storage_of m;
  si_r : m_r (a_mem y) = m_r (flat m);
  si_c : m_c (a_mem y) = m_c (flat m);
  si_in : forall i g k p, nth_error (a_gs y) i = Some g -> ag_pc g = AIn k p -> body_ok m (a_mem y) k p;
  si_mem : (forall i g k p, nth_error (a_gs y) i = Some g -> ag_pc g = AIn k p -> wlock k <> LWrite) -> a_mem y = flat m;
  si_ok : forall i g k, nth_error (a_gs y) i = Some g -> List.In k (calls_of (ag_pc g) ++ ag_todo g) -> wok k;
}.

Lemma map_set {A B} (f : A -> B) l i a : map f (list_set l i a) = list_set (map f l) i (f a).
Proof. revert i. induction l as [|b l IH]; intros [|i]; cbn; auto. rewrite IH. reflexivity. Qed.
Lemma down_at (y : astate) i p todo out x l m m' :
  down (a_at y i p todo out x l) m' = at_pc (down y m) i (pcs p) (map plain_call todo) (map plain_out out) m' l.
Proof. unfold down, a_at, at_pc. cbn [a_mem a_rw a_gs s_gs]. rewrite map_set. reflexivity. Qed.
Lemma down_nth (y : astate) m i g : nth_error (a_gs y) i = Some g -> nth_error (s_gs (down y m)) i = Some (gs g).
Proof. intros H. cbn. rewrite nth_error_map, H. reflexivity. Qed.
(** a step inside a body is not seen above *)
Lemma down_stay (y : astate) i g k p q x m : nth_error (a_gs y) i = Some g -> ag_pc g = AIn k p ->
  down (a_at y i (AIn k q) (ag_todo g) (ag_out g) x (a_rw y)) m = down y m.
Proof.
  intros H Hp. rewrite (down_at y _ _ _ _ _ _ m m). unfold at_pc. transitivity (MkSt m (a_rw y) (s_gs (down y m))); [|reflexivity]. f_equal. apply list_set_same. rewrite (down_nth y m i g H). unfold gs. rewrite Hp. reflexivity.
Qed.

Lemma outcome_shape k m m' : zero_ok N -> wf m -> wf m' -> wok k -> wlock k = LNone -> storage_of m' = storage_of m ->
  m_r (flat m') = m_r (flat m) -> m_c (flat m') = m_c (flat m) -> outcome (plain_call k) m' = outcome (plain_call k) m.
Proof.
  intros Hz Hw Hw' [Hg Hr] L K Er Ec. pose proof (method_does m (true, true) k Hz Hw Hr) as D. pose proof (method_does m' (true, true) k Hz Hw' Hr) as D'.
  apply (f_equal snd) in D, D'. cbn [snd] in D, D'. rewrite <- D, <- D', K. apply dims_same; auto.
  apply method_dims; [exact L|]. left. intros ->. exact Hg.
Qed.
Lemma body_shape m m' (x : mem) k p : zero_ok N -> wf m -> wf m' -> wok k -> wlock k = LNone -> storage_of m' = storage_of m ->
  m_r (flat m') = m_r (flat m) -> m_c (flat m') = m_c (flat m) -> body_ok m x k p -> body_ok m' x k p.
Proof. intros Hz Hw Hw' Hk L K Er Ec. unfold body_ok. rewrite L. intros [B1 B2]. split; [exact B1|]. rewrite B2. symmetry. apply outcome_shape; auto. Qed.
Lemma outcome_body (k : mcall N) m : outcome k m = match body k m with Ok (v, _) => Ok v | Panic => Panic | Diverge => Diverge end.
Proof. unfold outcome. destruct (body k m) as [[v m']| |]; reflexivity. Qed.
Lemma next_kind k m : zero_ok N -> wf m -> wok k -> wf (next (plain_call k) m) /\ storage_of (next (plain_call k) m) = storage_of m /\
  m_r (flat (next (plain_call k) m)) = m_r (flat m) /\ m_c (flat (next (plain_call k) m)) = m_c (flat m).
Proof.
  intros Hz Hw [Hg Hr]. destruct (next_wf (plain_call k) m Hz Hw Hg) as [W (S1 & S2 & S3)]. split; [exact W|]. destruct (flat_dims m) as [-> ->], (flat_dims (next (plain_call k) m)) as [-> ->]. split; [|auto].
  destruct m, (next (plain_call k) _); cbn in S1 |- *; congruence.
Qed.

Section Run.
Variable m0 : mat.
Variable progs : list (list wcall).
Hypothesis Hz : zero_ok N.
Hypothesis Hw0 : wf m0.
Hypothesis Hok : Forall (Forall wok) progs.

Lemma sim_begin : sim (abegin m0 progs) m0.
Proof.
  assert (A : forall i g, nth_error (a_gs (abegin m0 progs)) i = Some g -> exists p, List.In p progs /\ g = MkAG AOut p []).
  { intros i g H. apply nth_error_In, in_map_iff in H as (p & <- & I). eauto. }
  constructor; cbn [abegin a_mem].
  - exact Hw0.
  - apply flat_kind.
  - reflexivity.
  - reflexivity.
  - intros i g k p H E. apply A in H as (q & _ & ->). discriminate.
  - reflexivity.
  - intros i g k H I. apply A in H as (q & Iq & ->). cbn in I. rewrite Forall_forall in Hok. specialize (Hok q Iq). rewrite Forall_forall in Hok. auto.
Qed.

(** the writer inside is alone *)
Lemma alone (y : astate) i g k j g' k' : lock_ok y -> nth_error (a_gs y) i = Some g -> acall (ag_pc g) = Some k -> wlock k = LWrite ->
  nth_error (a_gs y) j = Some g' -> acall (ag_pc g') = Some k' -> j <> i -> wlock k' = LNone.
Proof.
  intros K H C L H' C' D. pose proof (a_exclusion y i j k k' K ltac:(exists g; auto) ltac:(exists g'; auto) ltac:(congruence)) as E. rewrite L in E.
  destruct (wlock k'); cbn in E; tauto.
Qed.
Lemma no_writer_in (y : astate) : lock_ok y -> rw_writer (a_rw y) = false -> forall i g k p, nth_error (a_gs y) i = Some g -> ag_pc g = AIn k p -> wlock k <> LWrite.
Proof.
  intros K W i g k p H E L. pose proof (lk_writer _ K) as Lw. rewrite W in Lw. pose proof (sumf_ge a_wr _ _ _ H) as G. rewrite a_wr_at, E in G. unfold awrp, awinp in G. cbn [acall] in G. rewrite L in G. lia.
Qed.
Lemma ann_alone (y : astate) i g k : lock_ok y -> nth_error (a_gs y) i = Some g -> ag_pc g = AAnn k ->
  forall j g' k' p, nth_error (a_gs y) j = Some g' -> ag_pc g' = AIn k' p -> wlock k' <> LWrite.
Proof.
  intros K H E j g' k' p H' E' L. pose proof (lk_writer _ K) as Lw. destruct (Nat.eq_dec i j) as [-> |D]; [congruence|].
  pose proof (sumf_two a_wr _ _ _ _ _ H H' D) as G. rewrite !a_wr_at, E, E' in G. unfold awrp, awinp in G. cbn [acall] in G. rewrite L in G. destruct (rw_writer (a_rw y)); lia.
Qed.

(** entering a call *)
Lemma sim_enter (y : astate) m i g k room todo l : sim y m -> lock_ok y -> nth_error (a_gs y) i = Some g -> (forall k' p, ag_pc g <> AIn k' p) ->
  wok k -> (forall k', List.In k' todo -> wok k') -> (wlock k <> LNone -> a_mem y = flat m) ->
  sim (a_at y i (AIn k (method (m_kind (a_mem y)) room k)) todo (ag_out g) (a_mem y) l) m.
Proof.
  intros S K H Hn Hk Ht Hm. destruct S as [S1 S2 S3 S4 S5 S6 S7]. constructor; cbn [a_at a_mem a_gs]; auto.
  - intros j g' k' p E P. destruct (nth_set _ _ _ _ H j g' E) as [[-> ->]|[D E']]; [|eapply S5; eauto].
    cbn in P. inversion P; subst k' p. unfold body_ok. rewrite S2. destruct Hk as [Hg Hr]. pose proof (method_does m room k Hz S1 Hr) as Do. destruct (wlock k) eqn:L.
    + assert (Dm : dims_only (method (storage_of m) room k)) by (apply method_dims; [exact L|left; intros ->; exact Hg]). split; [exact Dm|].
      rewrite (dims_same _ (flat m) (a_mem y) Dm S3 S4), Do. reflexivity.
    + rewrite (Hm ltac:(discriminate)), Do. split; [|reflexivity]. apply method_quiet; auto. congruence.
    + rewrite (Hm ltac:(discriminate)). exact Do.
  - intros Q. destruct (wlock k) eqn:L; [|apply Hm; discriminate|apply Hm; discriminate]. apply S6.
    intros j g' k' p E P. destruct (Nat.eq_dec j i) as [-> |D]; [exfalso; apply (Hn k' p); congruence|]. apply (Q j g' k' p); [rewrite nth_error_list_set_neq by congruence; exact E|exact P].
  - intros j g' k' E I. destruct (nth_set _ _ _ _ H j g' E) as [[-> ->]|[D E']]; [|eapply S7; eauto].
    cbn in I. destruct I as [<- |I]; auto.
Qed.

(** another goroutine's body when the memory changes by writing *)
Lemma sim_inside (y : astate) m i g k p q (x : mem) : sim y m -> nth_error (a_gs y) i = Some g -> ag_pc g = AIn k p ->
  m_kind x = m_kind (a_mem y) /\ m_r x = m_r (a_mem y) /\ m_c x = m_c (a_mem y) ->
  body_ok m x k q -> (x = a_mem y \/ (wlock k = LWrite /\ lock_ok y)) ->
  sim (a_at y i (AIn k q) (ag_todo g) (ag_out g) x (a_rw y)) m.
Proof.
  intros S H Hp (K1 & K2 & K3) B X. destruct S as [S1 S2 S3 S4 S5 S6 S7]. constructor; cbn [a_at a_mem a_gs]; auto; try congruence.
  - intros j g' k' p' E P. destruct (nth_set _ _ _ _ H j g' E) as [[-> ->]|[D E']]; [cbn in P; inversion P; subst; exact B|].
    destruct X as [-> |[L K]]; [eapply S5; eauto|]. pose proof (S5 _ _ _ _ E' P) as B'.
    assert (L' : wlock k' = LNone) by (eapply (alone y i g k j g' k'); eauto; [rewrite Hp; reflexivity|rewrite P; reflexivity]).
    unfold body_ok in *. rewrite L' in *. destruct B' as [B1 B2]. split; [exact B1|]. rewrite <- B2. apply dims_same; auto.
  - intros Q. destruct X as [-> |[L K]].
    + apply S6. intros j g' k' p' E P. destruct (Nat.eq_dec j i) as [-> |D].
      * replace k' with k by congruence. apply (Q i (MkAG (AIn k q) (ag_todo g) (ag_out g)) k q); [apply nth_error_list_set_eq, nth_error_Some; congruence|reflexivity].
      * apply (Q j g' k' p'); [rewrite nth_error_list_set_neq by congruence; exact E|exact P].
    + exfalso. apply (Q i (MkAG (AIn k q) (ag_todo g) (ag_out g)) k q); [apply nth_error_list_set_eq, nth_error_Some; congruence|reflexivity|exact L].
  - intros j g' k' E I. destruct (nth_set _ _ _ _ H j g' E) as [[-> ->]|[D E']]; [|eapply S7; eauto]. cbn [ag_pc calls_of ag_todo] in I. apply (S7 i g k' H). rewrite Hp. exact I.
Qed.
(** the end of a body *)
Lemma sim_end (y : astate) m i g k p o : sim y m -> lock_ok y -> nth_error (a_gs y) i = Some g -> ag_pc g = AIn k p ->
  prun p (a_mem y) = (a_mem y, match o with Some v => Ok v | None => Panic end) ->
  sim (a_at y i (AFin k o) (ag_todo g) (ag_out g) (a_mem y) (a_rw y)) (next (plain_call k) m) /\
  exists v', body (plain_call k) m = v' /\ match o with Some v => v' = Ok (v, next (plain_call k) m) | None => v' = Panic end.
Proof.
  intros S K H Hp Hr. pose proof (si_in _ _ S i g k p H Hp) as B. pose proof (si_ok _ _ S i g k H ltac:(rewrite Hp; cbn; auto)) as Hk.
  destruct (next_kind k m Hz (si_wf _ _ S) Hk) as (W & Kd & Kr & Kc).
  assert (Hout : outcome (plain_call k) m = match o with Some v => Ok v | None => Panic end) by (unfold body_ok in B; rewrite Hr in B; destruct (wlock k); [destruct B; auto|destruct B; auto|congruence]).
  split.
  - assert (Hq : wlock k <> LWrite -> next (plain_call k) m = m).
    { intros L. apply next_read; auto; [apply (si_wf _ _ S)|apply Hk|rewrite plain_lock; exact L]. }
    constructor; cbn [a_at a_mem a_gs].
    + exact W.
    + rewrite Kd. apply (si_kind _ _ S).
    + rewrite Kr. apply (si_r _ _ S).
    + rewrite Kc. apply (si_c _ _ S).
    + intros j g' k' p' E P. destruct (nth_set _ _ _ _ H j g' E) as [[-> ->]|[D E']]; [discriminate P|].
      pose proof (si_in _ _ S j g' k' p' E' P) as B'. destruct (wlock k) eqn:L; [rewrite Hq by discriminate; exact B'..|].
      apply (body_shape m); auto; [apply (si_wf _ _ S)|apply (si_ok _ _ S j g' k' E'); rewrite P; cbn; auto|].
      eapply (alone y i g k j g' k'); eauto; [rewrite Hp; reflexivity|rewrite P; reflexivity].
    + intros Q. destruct (wlock k) eqn:L.
      1,2: rewrite Hq by discriminate; apply (si_mem _ _ S); intros j g' k' p' E P; (destruct (Nat.eq_dec j i) as [-> |D]; [congruence|]); apply (Q j g' k' p'); [rewrite nth_error_list_set_neq by congruence; exact E|exact P].
      unfold body_ok in B. rewrite L, Hr in B. congruence.
    + intros j g' k' E I. destruct (nth_set _ _ _ _ H j g' E) as [[-> ->]|[D E']]; [|eapply (si_ok _ _ S); eauto]. cbn [ag_pc calls_of ag_todo] in I. apply (si_ok _ _ S i g k' H). rewrite Hp. exact I.
  - eexists. split; [reflexivity|]. rewrite outcome_body in Hout. unfold next. destruct (body (plain_call k) m) as [[v m']| |]; destruct o; congruence.
Qed.

Lemma order_app tr tr' : order (tr ++ tr') = order tr ++ order tr'.
Proof. unfold order. rewrite map_app, concat_app. reflexivity. Qed.
Lemma stores_write k : wlock k = LWrite -> stores (plain_call k) = true.
Proof. destruct k; cbn; congruence. Qed.

Theorem simulates tr y : arun (abegin m0 progs) tr y ->
  exists m, sim y m /\ run (begin m0 (map (map plain_call) progs)) (map plain_order (order tr)) (down y m).
Proof.
  induction 1 as [|tr y e z R (m & S & Rm) St].
  - exists m0. split; [exact sim_begin|]. replace (down (abegin m0 progs) m0) with (begin m0 (map (map plain_call) progs)); [constructor|].
    unfold begin, down, abegin. cbn [a_rw a_gs]. f_equal. rewrite !map_map. reflexivity.
  - pose proof (lock_run _ _ _ _ R) as K.
    rewrite order_app, map_app.
    destruct St as [i g k rest room H Hp Ht L|i g k rest room l H Hp Ht L E|i g k rest l H Hp Ht L E|i g k room H Hp E|i g k l f v H Hp E|i g k l f v H Hp E|i g k u q x H Hp E|i g k p H Hp E|i g k v H Hp|i g k o H Hp];
      cbn [seen_of order map concat app]; rewrite ?app_nil_r; change (order []) with (@nil (nat * wcall)); cbn [map]; rewrite ?app_nil_r;
      pose proof (down_nth y m i g H) as Hd;
      assert (Hdp : g_pc (gs g) = pcs (ag_pc g)) by reflexivity; rewrite Hp in Hdp; cbn [pcs] in Hdp.
    + exists m. split.
      * apply sim_enter; auto; [rewrite Hp; discriminate|apply (si_ok _ _ S i g k H); rewrite Ht; apply in_app_iff; cbn; auto| |congruence].
        intros k' I. apply (si_ok _ _ S i g k' H). rewrite Ht. apply in_app_iff. cbn. auto.
      * eapply run_acq; [exact Rm|]. rewrite (down_at y _ _ _ _ _ _ m m). exact (st_none (down y m) i (gs g) (plain_call k) (map plain_call rest) Hd Hdp (f_equal (map plain_call) Ht) (eq_trans (plain_lock k) L)).
    + exists m. assert (W : rw_writer (a_rw y) = false) by (unfold rlock in E; destruct (rw_writer (a_rw y)); [discriminate|reflexivity]). split.
      * apply sim_enter; auto; [rewrite Hp; discriminate|apply (si_ok _ _ S i g k H); rewrite Ht; apply in_app_iff; cbn; auto| |].
        -- intros k' I. apply (si_ok _ _ S i g k' H). rewrite Ht. apply in_app_iff. cbn. auto.
        -- intros _. apply (si_mem _ _ S). apply no_writer_in; auto.
      * eapply run_acq; [exact Rm|]. rewrite (down_at y _ _ _ _ _ _ m m). exact (st_rlock (down y m) i (gs g) (plain_call k) (map plain_call rest) l Hd Hdp (f_equal (map plain_call) Ht) (eq_trans (plain_lock k) L) E).
    + exists m. split.
      * destruct S as [S1 S2 S3 S4 S5 S6 S7]. constructor; cbn [a_at a_mem a_gs]; auto.
        -- intros j g' k' p E' P. destruct (nth_set _ _ _ _ H j g' E') as [[-> ->]|[D E'']]; [discriminate P|eapply S5; eauto].
        -- intros Q. apply S6. intros j g' k' p E' P. destruct (Nat.eq_dec j i) as [-> |D]; [congruence|]. apply (Q j g' k' p); [rewrite nth_error_list_set_neq by congruence; exact E'|exact P].
        -- intros j g' k' E' I. destruct (nth_set _ _ _ _ H j g' E') as [[-> ->]|[D E'']]; [|eapply S7; eauto]. cbn [ag_pc calls_of ag_todo] in I. apply (S7 i g k' H). rewrite Hp, Ht. exact I.
      * eapply run_tau; [exact Rm|]. rewrite (down_at y _ _ _ _ _ _ m m). exact (st_announce (down y m) i (gs g) (plain_call k) (map plain_call rest) l Hd Hdp (f_equal (map plain_call) Ht) (eq_trans (plain_lock k) L) E).
    + exists m. split.
      * apply sim_enter; auto; [rewrite Hp; discriminate|apply (si_ok _ _ S i g k H); rewrite Hp; cbn; auto| |].
        -- intros k' I. apply (si_ok _ _ S i g k' H). apply in_app_iff. auto.
        -- intros _. apply (si_mem _ _ S). eapply ann_alone; eauto.
      * eapply run_acq; [exact Rm|]. rewrite (down_at y _ _ _ _ _ _ m m). exact (st_lock (down y m) i (gs g) (plain_call k) Hd Hdp E).
    + exists m. split; [|rewrite (down_stay y i g k _ _ _ m H Hp); exact Rm]. eapply sim_inside; eauto. pose proof (si_in _ _ S i g k _ H Hp) as B. unfold body_ok in *. cbn [prun quiet dims_only] in B. rewrite E in B.
      destruct (wlock k); [split; [apply B|apply B]|exact B|exact B].
    + exists m. split; [|rewrite (down_stay y i g k _ _ _ m H Hp); exact Rm]. eapply sim_inside; eauto. pose proof (si_in _ _ S i g k _ H Hp) as B. unfold body_ok in *. cbn [prun quiet dims_only] in B. rewrite E in B.
      destruct (wlock k); [tauto|exact B|exact B].
    + exists m. split; [|rewrite (down_stay y i g k _ _ _ m H Hp); exact Rm]. pose proof (si_in _ _ S i g k _ H Hp) as B. unfold body_ok in B. cbn [prun quiet dims_only] in B. rewrite E in B.
      eapply sim_inside; eauto; [eapply wr_fixed; eauto|unfold body_ok; destruct (wlock k) eqn:L; [tauto| |exact B]|].
      * destruct B as [[-> B1] B2]. auto.
      * destruct (wlock k) eqn:L; [tauto|left; apply B|right; auto].
    + assert (Hr : prun p (a_mem y) = (a_mem y, Panic)) by (destruct p; try contradiction; cbn; rewrite ?E; reflexivity).
      destruct (sim_end y m i g k p None S K H Hp Hr) as (S' & v' & Eb & Ev). rewrite Ev in Eb.
      exists (next (plain_call k) m). split; [exact S'|]. assert (Nm : next (plain_call k) m = m) by (unfold next; rewrite Eb; reflexivity). rewrite Nm.
      pose (x1 := at_pc (down y m) i (Got (plain_call k) m) (map plain_call (ag_todo g)) (map plain_out (ag_out g)) m (a_rw y)).
      assert (R1 : run (begin m0 (map (map plain_call) progs)) (map plain_order (order tr)) x1) by (eapply run_tau; [exact Rm|]; exact (st_read (down y m) i (gs g) (plain_call k) Hd Hdp)).
      assert (H1 : nth_error (s_gs x1) i = Some (MkGor (Got (plain_call k) m) (map plain_call (ag_todo g)) (map plain_out (ag_out g)))) by (apply nth_error_list_set_eq, nth_error_Some; congruence).
      eapply run_tau; [exact R1|]. pose proof (st_panic x1 i _ (plain_call k) m H1 eq_refl Eb) as P. rewrite (down_at y _ _ _ _ _ _ m m).
      unfold at_pc in P |- *. unfold x1 in P. cbn [at_pc s_gs s_mat s_rw g_todo g_out] in P. rewrite list_set_twice in P. exact P.
    + destruct (sim_end y m i g k (PRet v) (Some v) S K H Hp eq_refl) as (S' & v' & Eb & Ev). rewrite Ev in Eb.
      exists (next (plain_call k) m). split; [exact S'|].
      pose (x1 := at_pc (down y m) i (Got (plain_call k) m) (map plain_call (ag_todo g)) (map plain_out (ag_out g)) m (a_rw y)).
      assert (R1 : run (begin m0 (map (map plain_call) progs)) (map plain_order (order tr)) x1) by (eapply run_tau; [exact Rm|]; exact (st_read (down y m) i (gs g) (plain_call k) Hd Hdp)).
      assert (H1 : nth_error (s_gs x1) i = Some (MkGor (Got (plain_call k) m) (map plain_call (ag_todo g)) (map plain_out (ag_out g)))) by (apply nth_error_list_set_eq, nth_error_Some; congruence).
      eapply run_tau; [exact R1|]. pose proof (st_write x1 i _ (plain_call k) m v _ H1 eq_refl Eb) as P. rewrite (down_at y _ _ _ _ _ _ m _).
      replace (if stores (plain_call k) then next (plain_call k) m else s_mat x1) with (next (plain_call k) m) in P.
      2:{ destruct (stores (plain_call k)) eqn:Es; [reflexivity|]. apply next_read; auto; [apply (si_wf _ _ S)|apply (si_ok _ _ S i g k H); rewrite Hp; cbn; auto|rewrite plain_lock; intros L; apply stores_write in L; congruence]. }
      unfold at_pc in P |- *. unfold x1 in P. cbn [at_pc s_gs s_mat s_rw g_todo g_out] in P. rewrite list_set_twice in P. exact P.
    + exists m. split.
      * destruct S as [S1 S2 S3 S4 S5 S6 S7]. constructor; cbn [a_at a_mem a_gs]; auto.
        -- intros j g' k' p E' P. destruct (nth_set _ _ _ _ H j g' E') as [[-> ->]|[D E'']]; [discriminate P|eapply S5; eauto].
        -- intros Q. apply S6. intros j g' k' p E' P. destruct (Nat.eq_dec j i) as [-> |D]; [congruence|]. apply (Q j g' k' p); [rewrite nth_error_list_set_neq by congruence; exact E'|exact P].
        -- intros j g' k' E' I. destruct (nth_set _ _ _ _ H j g' E') as [[-> ->]|[D E'']]; [|eapply S7; eauto]. cbn [ag_pc calls_of ag_todo app] in I. apply (S7 i g k' H). apply in_app_iff. auto.
      * eapply run_tau; [exact Rm|]. rewrite (down_at y _ _ _ _ _ _ m m). pose proof (st_leave (down y m) i (gs g) (plain_call k) o Hd Hdp) as P.
        rewrite plain_lock in P. cbn [gs g_todo g_out down s_mat s_rw] in P. rewrite map_app. exact P.
Qed.
End Run.
End AccessSim.
