(** The theorems behind C69: access by access, every execution is a sequential one. *)
From Verif Require Import GoBase Num SparseVec Csr Csc DenseVec DenseMat Mat World Ops Api Mutex.
From Verif Require Import BaseProofs CsrProofs CscProofs DenseProofs SvProofs MatProofs Spec HeapProofs ReachProofs StoreProofs StoreThms MutexProofs MutexThms Access AccessProofs AccessConc AccessRace AccessClash AccessSim.
Open Scope Z_scope.

Section AccessThms.
Context {N : num}.
Notation V := (T N).
Notation mat := (mat N).
Notation wcall := (wcall (N := N)).
Notation prog := (prog (N := N)).
Implicit Types m : mat.
Implicit Types k : wcall.
Implicit Types w : world N.

(** the methods that keep the promise: all but Clear and Values; [WReads p]: [p] puts back what it finds *)
Definition locked_call k : Prop := match k with WClear | WValues => False | _ => True end /\ reads_only k.
Definition all_wcalls (P : wcall -> Prop) (progs : list (list wcall)) : Prop := forall p k, List.In p progs -> List.In k p -> P k.
(** nobody is inside a call *)
Definition a_idle (y : astate N) : Prop := forall i g, nth_error (a_gs y) i = Some g -> ag_pc g = AOut.
(** every program is over *)
Definition a_done (y : astate N) : Prop := forall i g, nth_error (a_gs y) i = Some g -> ag_pc g = AOut /\ ag_todo g = [].
(** what goroutine [i] has been given back *)
Definition a_results (y : astate N) (i : nat) : list (wcall * option (ret N)) :=
  match nth_error (a_gs y) i with Some g => ag_out g | None => [] end.
(** the calls of [h] made on [m] one after the other: the object left and the results *)
Fixpoint one_by_one (h : list (nat * wcall)) m : mat * list (nat * (wcall * option (ret N))) :=
  match h with
  | [] => (m, [])
  | (i, k) :: rest =>
      let '(mf, o) := one_by_one rest (next (plain_call k) m) in
      (mf, (i, (k, result (plain_call k) m)) :: o)
  end.
(** a call that comes to an end when made alone *)
Definition comes_to_end k : Prop := match k with WReads p => forall m, snd (prun p (flat m)) <> Diverge | _ => True end.

Lemma wok_locked k : locked_call k -> wok k.
Proof. intros [A B]. split; [|exact B]. destruct k; cbn in *; tauto. Qed.
Lemma one_by_one_plain h m : sequential (map plain_order h) m = (fst (one_by_one h m), map (fun q => (fst q, plain_out (snd q))) (snd (one_by_one h m))).
Proof.
  revert m. induction h as [|[i k] h IH]; intros m; [reflexivity|]. cbn [map plain_order fst snd sequential one_by_one].
  rewrite IH. destruct (one_by_one h (next (plain_call k) m)). reflexivity.
Qed.
Lemma of_goroutine_map {A B} (f : A -> B) i (l : list (nat * A)) : of_goroutine i (map (fun q => (fst q, f (snd q))) l) = map f (of_goroutine i l).
Proof. unfold of_goroutine. induction l as [|[j a] l IH]; [reflexivity|]. cbn. destruct (Nat.eqb j i); cbn; rewrite IH; reflexivity. Qed.
Lemma one_by_one_calls h m : map (fun q => (fst q, fst (snd q))) (snd (one_by_one h m)) = h.
Proof. revert m. induction h as [|[i k] h IH]; intros m; [reflexivity|]. cbn. specialize (IH (next (plain_call k) m)). destruct (one_by_one h (next (plain_call k) m)). cbn in *. congruence. Qed.
Lemma of_calls i (h : list (nat * wcall)) m : map fst (of_goroutine i (snd (one_by_one h m))) = of_goroutine i h.
Proof. rewrite <- (of_goroutine_map fst). rewrite one_by_one_calls. reflexivity. Qed.

(** what a goroutine has called, is calling and has to call is its program *)
Definition current (p : apc N) : list wcall := match p with AAnn _ | AOut => [] | AIn k _ | AFin k _ => [k] end.
Definition coming (p : apc N) : list wcall := match p with AAnn k => [k] | _ => [] end.
Lemma program_kept m progs tr y : arun (abegin m progs) tr y -> length (a_gs y) = length progs /\
  (forall i k, List.In (i, k) (order tr) -> (i < length progs)%nat) /\
  forall i g, nth_error (a_gs y) i = Some g ->
    of_goroutine i (order tr) = map fst (ag_out g) ++ current (ag_pc g) /\
    nth_error progs i = Some (of_goroutine i (order tr) ++ coming (ag_pc g) ++ ag_todo g).
Proof.
  assert (OA : forall i (a b : list (nat * wcall)), of_goroutine i (a ++ b) = of_goroutine i a ++ of_goroutine i b).
  { intros i a b. unfold of_goroutine. rewrite filter_app, map_app. reflexivity. }
  induction 1 as [|tr y e z R (L & B & P) S].
  - split; [cbn; apply map_length|]. split; [intros i k []|]. intros i g H. cbn in H. rewrite nth_error_map in H. destruct (nth_error progs i) as [p|]; inversion H; subst. split; reflexivity.
  - assert (Lz : length (a_gs z) = length progs) by (destruct S; cbn [a_at a_gs]; rewrite length_list_set; exact L). split; [exact Lz|].
    assert (Hi : forall i g, nth_error (a_gs y) i = Some g -> (i < length progs)%nat) by (intros i g H; rewrite <- L; apply nth_error_Some; congruence).
    rewrite order_app. split.
    + intros i k I. apply in_app_iff in I as [I|I]; [eapply B; eauto|]. destruct S; cbn in I; try tauto; destruct I as [I|[]]; inversion I; subst; eauto.
    + intros j g' E. destruct S as [i g k rest room H Hp Ht L'|i g k rest room l H Hp Ht L' E'|i g k rest l H Hp Ht L' E'|i g k room H Hp E'|i g k l f v H Hp E'|i g k l f v H Hp E'|i g k u q x H Hp E'|i g k p H Hp E'|i g k v H Hp|i g k o H Hp];
      destruct (nth_set _ _ _ _ H j g' E) as [[-> ->]|[D E'']]; cbn [seen_of order map concat app]; change (order []) with (@nil (nat * wcall)); rewrite ?OA, ?app_nil_r;
      try (destruct (P _ _ E'') as [P1 P2]; unfold of_goroutine at 2; cbn [filter fst]; rewrite ?(proj2 (Nat.eqb_neq i j)) by congruence; cbn [map app]; rewrite ?app_nil_r; split; [exact P1|];
           try (unfold of_goroutine at 2; cbn [filter fst]; rewrite ?(proj2 (Nat.eqb_neq i j)) by congruence; cbn [map app]; rewrite ?app_nil_r); exact P2);
      try (destruct (P _ _ H) as [P1 P2]; rewrite Hp in P1, P2; cbn [current coming] in P1, P2);
      cbn [ag_pc ag_todo ag_out current coming app]; try rewrite Ht in P2; rewrite ?app_nil_r in *; auto.
      * unfold of_goroutine at 2 4. cbn. rewrite Nat.eqb_refl. cbn. rewrite P1 in *. rewrite <- app_assoc. auto.
      * unfold of_goroutine at 2 4. cbn. rewrite Nat.eqb_refl. cbn. rewrite P1 in *. rewrite <- app_assoc. auto.
      * unfold of_goroutine at 2 4. cbn. rewrite Nat.eqb_refl. cbn. rewrite P1 in *. rewrite <- app_assoc. auto.
      * rewrite map_app. auto.
Qed.

Lemma split_pairs {A B} (l a : list (A * B)) r1 r2 : map fst l = map fst a ++ r1 -> map snd l = map snd a ++ r2 -> exists rest, l = a ++ rest /\ length rest = length r2.
Proof.
  revert l. induction a as [|[u v] a IH]; intros l H1 H2; cbn in *.
  - exists l. split; [reflexivity|]. rewrite <- H2, map_length. reflexivity.
  - destruct l as [|[u' v'] l]; [discriminate|]. cbn in *. inversion H1; subst. inversion H2; subst. destruct (IH l) as (rest & -> & L); auto. exists rest. split; [reflexivity|exact L].
Qed.
Lemma snd_plain (l : list (wcall * option (ret N))) : map snd (map plain_out l) = map snd l.
Proof. rewrite map_map. reflexivity. Qed.
Lemma all_wok progs : all_wcalls locked_call progs -> Forall (Forall wok) progs.
Proof. intros H. apply Forall_forall. intros p Ip. apply Forall_forall. intros k Ik. apply wok_locked. eauto. Qed.
Lemma all_guarded progs : all_wcalls locked_call progs -> all_calls guarded (map (map plain_call) progs).
Proof.
  intros H. apply Forall_forall. intros p Ip. apply in_map_iff in Ip as (q & <- & Iq). apply Forall_forall. intros k Ik. apply in_map_iff in Ik as (k' & <- & Ik).
  apply wok_locked. eauto.
Qed.

(** the results handed out so far are the sequential ones, whatever the others are doing *)
Lemma access_prefix w p m progs tr y : sane N -> reachable w -> obj w p m -> all_wcalls locked_call progs ->
  arun (abegin m progs) tr y ->
  forall i, exists rest, of_goroutine i (snd (one_by_one (order tr) m)) = a_results y i ++ rest /\ (length rest <= 1)%nat.
Proof.
  intros Hs Hr Ho Hg R i. pose proof (reach_good w p m Hs Hr Ho) as Hw.
  destruct (simulates m progs (proj1 Hs) Hw (all_wok _ Hg) tr y R) as (mm & S & Rm).
  destruct (program_kept _ _ _ _ R) as (L & B & P). unfold a_results. destruct (nth_error (a_gs y) i) as [g|] eqn:H.
  - destruct (P i g H) as [P1 _]. destruct (results_so_far m _ (proj1 Hs) (all_calls_in _ _ (all_guarded _ Hg)) Hw _ _ i _ Rm (down_nth y mm i g H)) as (rest & E & Lr & _).
    rewrite one_by_one_plain in E. cbn [snd] in E. rewrite of_goroutine_map in E. apply (f_equal (map snd)) in E. rewrite map_app in E. cbn [gs g_out] in E. rewrite !snd_plain in E.
    destruct (split_pairs (of_goroutine i (snd (one_by_one (order tr) m))) (ag_out g) (current (ag_pc g)) (map snd rest)) as (r & Er & Lr'); [rewrite of_calls; exact P1|exact E|].
    exists r. split; [exact Er|]. rewrite Lr', map_length. exact Lr.
  - exists []. split; [|cbn; lia]. cbn. apply nth_error_None in H. rewrite L in H. eapply of_range; [|exact H].
    intros j a I. apply (B j (fst a)). rewrite <- (one_by_one_calls (order tr) m). apply in_map_iff. exists (j, a). auto.
Qed.
(** when nobody is inside a call, everything is as if the calls had been made one after the other *)
Lemma access_sequential w p m progs tr y : sane N -> reachable w -> obj w p m -> all_wcalls locked_call progs ->
  arun (abegin m progs) tr y -> a_idle y ->
  a_mem y = flat (fst (one_by_one (order tr) m)) /\
  (forall i, a_results y i = of_goroutine i (snd (one_by_one (order tr) m))) /\
  (forall i g, nth_error (a_gs y) i = Some g -> nth i progs [] = of_goroutine i (order tr) ++ ag_todo g).
Proof.
  intros Hs Hr Ho Hg R Q. pose proof (reach_good w p m Hs Hr Ho) as Hw.
  destruct (simulates m progs (proj1 Hs) Hw (all_wok _ Hg) tr y R) as (mm & S & Rm).
  assert (Qd : forall i g, nth_error (s_gs (down y mm)) i = Some g -> g_pc g = Out).
  { intros i g H. cbn in H. rewrite nth_error_map in H. destruct (nth_error (a_gs y) i) as [g'|] eqn:E; inversion H; subst. cbn. rewrite (Q i g' E). reflexivity. }
  destruct (quiescent m _ (proj1 Hs) (all_calls_in _ _ (all_guarded _ Hg)) Hw _ _ Rm Qd) as [E F].
  rewrite one_by_one_plain in E. cbn [fst down s_mat] in E. destruct (program_kept _ _ _ _ R) as (L & B & P). split; [|split].
  - rewrite E. apply (si_mem _ _ S). intros i g k q H C. rewrite (Q i g H) in C. discriminate.
  - intros i. destruct (access_prefix w p m progs tr y Hs Hr Ho Hg R i) as (rest & Er & _). rewrite Er. assert (rest = []) as ->; [|rewrite app_nil_r; reflexivity].
    apply (f_equal (map fst)) in Er. rewrite of_calls, map_app in Er. unfold a_results in Er. destruct (nth_error (a_gs y) i) as [g|] eqn:H.
    + destruct (P i g H) as [P1 _]. rewrite (Q i g H) in P1. cbn in P1. rewrite app_nil_r in P1. rewrite P1 in Er. destruct rest; [reflexivity|]. apply (f_equal (@length _)) in Er. rewrite app_length, map_length in Er. cbn in Er. lia.
    + apply nth_error_None in H. rewrite L in H. rewrite (of_range _ (length progs)) in Er; [destruct rest; [reflexivity|discriminate]|exact B|exact H].
  - intros i g H. destruct (P i g H) as [_ P2]. rewrite (Q i g H) in P2. apply nth_error_nth. exact P2.
Qed.
(** when everything is over the order is an interleaving of the whole programs *)
Lemma access_complete m progs tr y : arun (abegin m progs) tr y -> a_done y -> interleaves (order tr) progs.
Proof.
  intros R D i. destruct (program_kept _ _ _ _ R) as (L & B & P). destruct (nth_error (a_gs y) i) as [g|] eqn:H.
  - destruct (P i g H) as [_ P2], (D i g H) as [D1 D2]. rewrite D1, D2 in P2. cbn in P2. rewrite app_nil_r in P2. symmetry. apply nth_error_nth. exact P2.
  - apply nth_error_None in H. rewrite L in H. rewrite nth_overflow by exact H. eapply of_range; [exact B|exact H].
Qed.
Lemma access_lock_free m progs tr y : arun (abegin m progs) tr y -> a_idle y -> a_rw y = MkRW 0 false.
Proof.
  intros R Q. pose proof (lock_run _ _ _ _ R) as K.
  assert (Z : forall f : agor N -> nat, (forall g, ag_pc g = AOut -> f g = 0%nat) -> sumf f (a_gs y) = 0%nat).
  { intros f Hf. assert (A : forall g, List.In g (a_gs y) -> f g = 0%nat) by (intros g I; apply In_nth_error in I as (i & H); apply Hf, (Q i g H)).
    revert A. clear. induction (a_gs y) as [|a l IH]; intros A; [reflexivity|]. cbn. rewrite A by (left; reflexivity). apply IH. intros g I. apply A. right. exact I. }
  pose proof (lk_readers _ K) as K1. pose proof (lk_writer _ K) as K2. rewrite Z in K1, K2 by (intros g H; rewrite ?a_rd_at, ?a_wr_at, H; reflexivity).
  destruct (a_rw y) as [n b]. cbn in *. destruct b; [discriminate|]. subst. reflexivity.
Qed.

(** nothing gets stuck, also after panics *)
Lemma prog_moves (p : prog (ret N)) (x : mem (N := N)) : snd (prun p x) <> Diverge -> p <> PHang /\
  match p with PRdZ l _ => rd_z x l <> Diverge | PRdV l _ => rd_v x l <> Diverge | PWr u _ => wr x u <> Diverge | _ => True end.
Proof.
  intros H. destruct p; cbn in *; split; try discriminate; auto; intros E; try rewrite E in H; apply H; reflexivity.
Qed.
Lemma access_no_deadlock w p m progs tr y : sane N -> reachable w -> obj w p m -> all_wcalls locked_call progs -> all_wcalls comes_to_end progs ->
  arun (abegin m progs) tr y -> a_done y \/ exists e z, astep y e z.
Proof.
  intros Hs Hr Ho Hg He R. pose proof (reach_good w p m Hs Hr Ho) as Hw.
  destruct (simulates m progs (proj1 Hs) Hw (all_wok _ Hg) tr y R) as (mm & S & Rm).
  assert (He' : all_calls ends (map (map plain_call) progs)).
  { apply Forall_forall. intros q Iq. apply in_map_iff in Iq as (q' & <- & Iq). apply Forall_forall. intros k Ik. apply in_map_iff in Ik as (k' & <- & Ik).
    pose proof (He q' k' Iq Ik) as C. destruct k'; cbn in C |- *; auto. }
  destruct (progress m _ (proj1 Hs) (all_calls_in _ _ (all_guarded _ Hg)) Hw (all_calls_in _ _ He') _ _ Rm) as [(lb & z & St)|F].
  2:{ left. intros i g H. pose proof (F i _ (down_nth y mm i g H)) as [F1 F2]. cbn in F1, F2. split; [destruct (ag_pc g); cbn in F1; congruence|]. destruct (ag_todo g); [reflexivity|discriminate]. }
  right.
  assert (Nth : forall i g, nth_error (s_gs (down y mm)) i = Some g -> exists g', nth_error (a_gs y) i = Some g' /\ g = gs g').
  { intros i g H. cbn in H. rewrite nth_error_map in H. destruct (nth_error (a_gs y) i) as [g'|]; inversion H. eauto. }
  destruct St as [i g k rest H Hp Ht L|i g k rest l H Hp Ht L E|i g k rest l H Hp Ht L E|i g k H Hp E|i g k H Hp|i g k mr v m' H Hp Eb|i g k mr H Hp Eb|i g k o H Hp];
    destruct (Nth _ _ H) as (g' & H' & ->); cbn in Hp; destruct (ag_pc g') as [|k'|k' q|k' o'] eqn:Pg; cbn in Hp; try discriminate;
    try (cbn in Ht; destruct (ag_todo g') as [|k' rest'] eqn:Tg; cbn in Ht; try discriminate; injection Ht as Hk Hrest; subst; rewrite plain_lock in L).
  - eexists _, _. exact (as_none y i g' k' rest' (true, true) H' Pg Tg L).
  - eexists _, _. exact (as_rlock y i g' k' rest' (true, true) l H' Pg Tg L E).
  - eexists _, _. exact (as_announce y i g' k' rest' l H' Pg Tg L E).
  - eexists _, _. exact (as_lock y i g' k' (true, true) H' Pg E).
  - pose proof (si_in _ _ S i g' k' q H' Pg) as Bo. pose proof (si_ok _ _ S i g' k' H' ltac:(rewrite Pg; cbn; auto)) as [Ok1 Ok2].
    assert (Ek : ends (plain_call k')).
    { destruct (program_kept _ _ _ _ R) as (_ & _ & P). destruct (P i g' H') as [P1 P2]. rewrite Pg in P1, P2. cbn in P1, P2.
      apply (all_calls_in _ _ He' (map plain_call (of_goroutine i (order tr) ++ ag_todo g')) (plain_call k')).
      - apply in_map. eapply nth_error_In. exact P2.
      - apply in_map. rewrite P1. apply in_app_iff. left. apply in_app_iff. right. left. reflexivity. }
    assert (Nd : snd (prun q (a_mem y)) <> Diverge).
    { pose proof (body_ends (plain_call k') mm (proj1 Hs) (si_wf _ _ S) Ok1 Ek) as Nb. assert (outcome (plain_call k') mm <> Diverge) by (rewrite outcome_body; destruct (body (plain_call k') mm) as [[? ?]| |]; congruence).
      unfold body_ok in Bo. destruct (wlock k'); [destruct Bo as [_ ->]; assumption|destruct Bo as [_ ->]; assumption|rewrite Bo; assumption]. }
    destruct (prog_moves _ _ Nd) as [Nh Nm]. destruct q as [a| | |l f|l f|u q].
    + eexists _, _. exact (as_ret y i g' k' a H' Pg).
    + eexists _, _. exact (as_fault y i g' k' PStop H' Pg Logic.I).
    + congruence.
    + destruct (rd_z (a_mem y) l) as [a| |] eqn:E; [|eexists _, _; exact (as_fault y i g' k' (PRdZ l f) H' Pg E)|congruence]. eexists _, _. exact (as_readz y i g' k' l f a H' Pg E).
    + destruct (rd_v (a_mem y) l) as [a| |] eqn:E; [|eexists _, _; exact (as_fault y i g' k' (PRdV l f) H' Pg E)|congruence]. eexists _, _. exact (as_readv y i g' k' l f a H' Pg E).
    + destruct (wr (a_mem y) u) as [a| |] eqn:E; [|eexists _, _; exact (as_fault y i g' k' (PWr u q) H' Pg E)|congruence]. eexists _, _. exact (as_write y i g' k' u q a H' Pg E).
  - eexists _, _. exact (as_leave y i g' k' o' H' Pg).
Qed.

(** every execution is finite *)
Inductive gstep : agor N -> agor N -> Prop :=
| gs_start : forall k p rest out, gstep (MkAG (AIn k p) rest out) (MkAG AOut (k :: rest) out)
| gs_ann : forall k rest out, gstep (MkAG (AAnn k) rest out) (MkAG AOut (k :: rest) out)
| gs_got : forall k p rest out, gstep (MkAG (AIn k p) rest out) (MkAG (AAnn k) rest out)
| gs_z : forall k l f z rest out, gstep (MkAG (AIn k (f z)) rest out) (MkAG (AIn k (PRdZ l f)) rest out)
| gs_v : forall k l f z rest out, gstep (MkAG (AIn k (f z)) rest out) (MkAG (AIn k (PRdV l f)) rest out)
| gs_w : forall k u q rest out, gstep (MkAG (AIn k q) rest out) (MkAG (AIn k (PWr u q)) rest out)
| gs_end : forall k p o rest out, gstep (MkAG (AFin k o) rest out) (MkAG (AIn k p) rest out)
| gs_leave : forall k o out' rest out, gstep (MkAG AOut rest out') (MkAG (AFin k o) rest out).
Lemma gstep_acc g : Acc gstep g.
Proof.
  assert (A : forall n todo, length todo = n -> forall out, Acc gstep (MkAG AOut todo out)).
  { induction n as [|n IH]; intros todo L out.
    - destruct todo; [|discriminate]. constructor. intros g' S. inversion S.
    - destruct todo as [|k rest]; [discriminate|]. cbn in L. injection L as L.
      assert (Af : forall k o out, Acc gstep (MkAG (AFin k o) rest out)) by (intros k' o' out'; constructor; intros g' S; inversion S; subst; apply IH; reflexivity).
      assert (Ai : forall k p out, Acc gstep (MkAG (AIn k p) rest out)) by (intros k' p; induction p; intros out'; constructor; intros g' S; inversion S; subst; auto).
      assert (An : forall k out, Acc gstep (MkAG (AAnn k) rest out)) by (intros k' out'; constructor; intros g' S; inversion S; subst; auto).
      constructor. intros g' S. inversion S; subst; auto. }
  destruct g as [p todo out].
  assert (Af : forall k o out, Acc gstep (MkAG (AFin k o) todo out)) by (intros k' o' out'; constructor; intros g' S; inversion S; subst; eapply A; reflexivity).
  assert (Ai : forall k p out, Acc gstep (MkAG (AIn k p) todo out)) by (intros k' q; induction q; intros out'; constructor; intros g' S; inversion S; subst; auto).
  destruct p; auto; [eapply A; reflexivity|constructor; intros g' S; inversion S; subst; auto].
Qed.
Inductive one_steps {A} (R : A -> A -> Prop) : list A -> list A -> Prop :=
| os_here : forall a b l, R a b -> one_steps R (a :: l) (b :: l)
| os_there : forall a l l', one_steps R l l' -> one_steps R (a :: l) (a :: l').
Lemma one_steps_acc {A} (R : A -> A -> Prop) (H : forall a, Acc R a) l : Acc (one_steps R) l.
Proof.
  induction l as [|a l IH]; [constructor; intros l' S; inversion S|]. revert l IH. induction (H a) as [a _ IHa]. intros l IHl. induction IHl as [l Hl IHl].
  constructor. intros l' S. inversion S; subst; [apply IHa; [assumption|constructor; exact Hl]|apply IHl; assumption].
Qed.
Lemma one_steps_set {A} (R : A -> A -> Prop) l i a b : nth_error l i = Some a -> R b a -> one_steps R (list_set l i b) l.
Proof. revert i. induction l as [|c l IH]; intros [|i] H S; cbn in *; try discriminate; [inversion H; subst; constructor; exact S|constructor; auto]. Qed.
Lemma astep_one x e y : astep x e y -> one_steps gstep (a_gs y) (a_gs x).
Proof.
  intros S. destruct S as [i g k rest room H Hp Ht L|i g k rest room l H Hp Ht L E|i g k rest l H Hp Ht L E|i g k room H Hp E|i g k l f v H Hp E|i g k l f v H Hp E|i g k u q z H Hp E|i g k p H Hp E|i g k v H Hp|i g k o H Hp];
    cbn [a_at a_gs]; apply (one_steps_set _ _ _ g); auto; destruct g as [p0 todo out]; cbn in *; subst; econstructor.
Qed.
Lemma access_finite (s : nat -> astate N) : ~ (forall n, exists e, astep (s n) e (s (Datatypes.S n))).
Proof.
  intros H. assert (A : forall l, Acc (one_steps gstep) l -> forall n, l = a_gs (s n) -> False).
  { induction 1 as [l _ IH]. intros n ->. destruct (H n) as [e S]. apply (IH _ (astep_one _ _ _ S) (Datatypes.S n) eq_refl). }
  apply (A _ (one_steps_acc gstep gstep_acc (a_gs (s 0%nat))) 0%nat eq_refl).
Qed.
End AccessThms.
