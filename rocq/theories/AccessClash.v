(** Calls of a [MutexMatrix] that do race. *)
From Verif Require Import GoBase Num SparseVec Csr Csc DenseVec DenseMat Mat World Mutex.
From Verif Require Import BaseProofs CsrProofs CscProofs DenseProofs SvProofs MatProofs Spec HeapProofs ReachProofs StoreProofs StoreThms MutexProofs Access AccessProofs AccessConc AccessRace.
Open Scope Z_scope.

Section AccessClash.
Context {N : num}.
Notation V := (T N).
Notation mat := (mat N).
Notation mem := (mem (N := N)).
Notation wcall := (wcall (N := N)).
Notation prog := (prog (N := N)).
Notation agor := (agor N).
Notation astate := (astate N).
Notation ev := (ev N).
Implicit Types m : mat.
Implicit Types k : wcall.
Implicit Types tr : list ev.

Lemma arun_trans (x y z : astate) tr tr' : arun x tr y -> arun y tr' z -> arun x (tr ++ tr') z.
Proof.
  intros A. induction 1 as [|tr' y' e z B IH S]; [rewrite app_nil_r; exact A|]. rewrite app_assoc. eapply ar_step; eauto.
Qed.
Lemma arun_one (x y : astate) e : astep x e y -> arun x (seen_of e) y.
Proof. intros S. apply (ar_step x [] x e y); [constructor|exact S]. Qed.

(** the accesses of a program run alone *)
Fixpoint accs {A} (p : prog A) (x : mem) : list (bool * loc) :=
  match p with
  | PRet _ | PStop | PHang => []
  | PRdZ l f => match rd_z x l with Ok z => (false, loc_z l) :: accs (f z) x | _ => [] end
  | PRdV l f => match rd_v x l with Ok v => (false, loc_v l) :: accs (f v) x | _ => [] end
  | PWr u q => match wr x u with Ok y => (true, loc_u u) :: accs q y | _ => [] end
  end.
Lemma accs_bind {A B} (p : prog A) (f : A -> prog B) x :
  accs (pbind p f) x = accs p x ++ (match prun p x with (y, Ok a) => accs (f a) y | _ => [] end).
Proof.
  revert x. induction p as [a| | |l g IH|l g IH|u q IH]; intros x; cbn [pbind accs prun]; auto.
  - destruct (rd_z x l); auto. rewrite IH. reflexivity.
  - destruct (rd_v x l); auto. rewrite IH. reflexivity.
  - destruct (wr x u); auto. rewrite IH. reflexivity.
Qed.
Lemma accs_later {A B} (p : prog A) (f : A -> prog B) x y a e : prun p x = (y, Ok a) -> List.In e (accs (f a) y) -> List.In e (accs (pbind p f) x).
Proof. intros E I. rewrite accs_bind, E. apply in_app_iff. auto. Qed.
Lemma accs_first {A B} (p : prog A) (f : A -> prog B) x e : List.In e (accs p x) -> List.In e (accs (pbind p f) x).
Proof. intros I. rewrite accs_bind. apply in_app_iff. auto. Qed.
(** the number of values changes only by writing the slice field *)
Lemma accs_len {A} (p : prog A) x : zlen (m_vals (fst (prun p x))) <> zlen (m_vals x) -> List.In (true, LVals) (accs p x).
Proof.
  revert x. induction p as [a| | |l g IH|l g IH|u q IH]; intros x; cbn [accs prun]; try (cbn; congruence).
  - destruct (rd_z x l); cbn; try congruence. auto.
  - destruct (rd_v x l); cbn; try congruence. auto.
  - destruct (wr x u) as [y| |] eqn:E; cbn; try congruence. intros H. destruct (Z.eq_dec (zlen (m_vals y)) (zlen (m_vals x))) as [E'|D]; [right; apply IH; congruence|].
    left. f_equal. clear - E D. destruct u; cbn in *; auto; exfalso; apply D;
      repeat match type of E with rbind ?r _ = _ => let E0 := fresh "E0" in destruct r eqn:E0; cbn [rbind] in E; try discriminate end; inversion E; subst; cbn; auto.
    unfold zset in E0. destruct ((i <? 0) || (zlen (m_vals x) <=? i)); inversion E0; subst. unfold zlen. rewrite length_list_set. reflexivity.
Qed.

Definition acc_ev (i : nat) k (wl : bool * loc) : ev := EAcc i k (fst wl) (snd wl).
(** the next step panics *)
Definition faults (p : prog (ret N)) (x : mem) : Prop :=
  match p with PRdZ l _ => rd_z x l = Panic | PRdV l _ => rd_v x l = Panic | PWr u _ => wr x u = Panic | PStop => True | _ => False end.
Definition ended (o : res (ret N)) (p : prog (ret N)) (x : mem) : Prop := match o with Ok v => p = PRet v | Panic => faults p x | Diverge => True end.
(** a goroutine runs the body of its call without being interrupted *)
Lemma run_body i k (p : prog (ret N)) : forall (x : astate) g, nth_error (a_gs x) i = Some g -> ag_pc g = AIn k p ->
  exists p', ended (snd (prun p (a_mem x))) p' (fst (prun p (a_mem x))) /\ arun x (map (acc_ev i k) (accs p (a_mem x))) (a_at x i (AIn k p') (ag_todo g) (ag_out g) (fst (prun p (a_mem x))) (a_rw x)).
Proof.
  assert (Stay : forall (x : astate) g q, nth_error (a_gs x) i = Some g -> ag_pc g = AIn k q -> arun x [] (a_at x i (AIn k q) (ag_todo g) (ag_out g) (a_mem x) (a_rw x))).
  { intros [M L G] [P T O] q H E. cbn in *. subst P. unfold a_at. cbn.
    replace (list_set G i (MkAG (AIn k q) T O)) with G; [constructor|]. clear - H. revert i H. induction G as [|a G IH]; intros [|i] H; cbn in *; try discriminate; [congruence|]. rewrite <- (IH i H). reflexivity. }
  induction p as [a| | |l f IH|l f IH|u q IH]; intros x g H Hp; cbn [accs prun fst snd].
  1-3: eexists; split; [|apply (Stay x g _ H Hp)]; exact Logic.I || reflexivity.
  - destruct (rd_z (a_mem x) l) as [z| |] eqn:E; try (eexists; split; [|apply (Stay x g _ H Hp)]; cbn; exact Logic.I || exact E).
    pose (x1 := a_at x i (AIn k (f z)) (ag_todo g) (ag_out g) (a_mem x) (a_rw x)).
    assert (H1 : nth_error (a_gs x1) i = Some (MkAG (AIn k (f z)) (ag_todo g) (ag_out g))) by (apply nth_error_list_set_eq, nth_error_Some; congruence).
    destruct (IH z x1 _ H1 eq_refl) as (p' & F & R). exists p'. split; [exact F|]. change (a_mem x1) with (a_mem x) in R.
    cbn [map]. change (acc_ev i k (false, loc_z l)) with (EAcc i k false (loc_z l)).
    apply (arun_trans x x1 _ [EAcc i k false (loc_z l)]); [apply (arun_one x x1 (Some _)), as_readz; auto|].
    unfold a_at in R |- *. cbn in R. rewrite list_set_twice in R. exact R.
  - destruct (rd_v (a_mem x) l) as [z| |] eqn:E; try (eexists; split; [|apply (Stay x g _ H Hp)]; cbn; exact Logic.I || exact E).
    pose (x1 := a_at x i (AIn k (f z)) (ag_todo g) (ag_out g) (a_mem x) (a_rw x)).
    assert (H1 : nth_error (a_gs x1) i = Some (MkAG (AIn k (f z)) (ag_todo g) (ag_out g))) by (apply nth_error_list_set_eq, nth_error_Some; congruence).
    destruct (IH z x1 _ H1 eq_refl) as (p' & F & R). exists p'. split; [exact F|]. change (a_mem x1) with (a_mem x) in R.
    cbn [map]. apply (arun_trans x x1 _ [EAcc i k false (loc_v l)]); [apply (arun_one x x1 (Some _)), as_readv; auto|].
    unfold a_at in R |- *. cbn in R. rewrite list_set_twice in R. exact R.
  - destruct (wr (a_mem x) u) as [y| |] eqn:E; try (eexists; split; [|apply (Stay x g _ H Hp)]; cbn; exact Logic.I || exact E).
    pose (x1 := a_at x i (AIn k q) (ag_todo g) (ag_out g) y (a_rw x)).
    assert (H1 : nth_error (a_gs x1) i = Some (MkAG (AIn k q) (ag_todo g) (ag_out g))) by (apply nth_error_list_set_eq, nth_error_Some; congruence).
    destruct (IH x1 _ H1 eq_refl) as (p' & F & R). exists p'. split; [exact F|]. change (a_mem x1) with y in R.
    cbn [map]. apply (arun_trans x x1 _ [EAcc i k true (loc_u u)]); [apply (arun_one x x1 (Some _)), as_write; auto|].
    unfold a_at in R |- *. cbn in R. rewrite list_set_twice in R. exact R.
Qed.

(** ... and leaves it *)
Lemma run_call i k (p : prog (ret N)) (x : astate) g o : nth_error (a_gs x) i = Some g -> ag_pc g = AIn k p ->
  snd (prun p (a_mem x)) = o -> o <> Diverge ->
  arun x (map (acc_ev i k) (accs p (a_mem x)) ++ [ERel i k])
    (a_at x i AOut (ag_todo g) (ag_out g ++ [(k, match o with Ok v => Some v | _ => None end)]) (fst (prun p (a_mem x)))
      (match wlock k with LNone => a_rw x | LRead => runlock (a_rw x) | LWrite => unlock (a_rw x) end)).
Proof.
  intros H Hp Ho Hd. destruct (run_body i k p x g H Hp) as (p' & F & R). rewrite Ho in F. eapply arun_trans; [exact R|].
  match type of R with arun _ _ ?s => set (x1 := s) in * end.
  assert (H1 : nth_error (a_gs x1) i = Some (MkAG (AIn k p') (ag_todo g) (ag_out g))) by (apply nth_error_list_set_eq, nth_error_Some; congruence).
  pose (x2 := a_at x1 i (AFin k (match o with Ok v => Some v | _ => None end)) (ag_todo g) (ag_out g) (a_mem x1) (a_rw x1)).
  assert (H2 : nth_error (a_gs x2) i = Some (MkAG (AFin k (match o with Ok v => Some v | _ => None end)) (ag_todo g) (ag_out g))).
  { unfold x2, x1, a_at. cbn [a_gs]. rewrite list_set_twice. apply nth_error_list_set_eq, nth_error_Some. congruence. }
  apply (arun_trans x1 x2 _ []).
  - apply (arun_one x1 x2 None). destruct o as [v| |]; [|exact (as_fault x1 i _ k p' H1 eq_refl F)|congruence]. cbn in F. subst p'. exact (as_ret x1 i _ k v H1 eq_refl).
  - pose proof (as_leave x2 i _ k _ H2 eq_refl) as L. apply arun_one in L. cbn [seen_of] in L.
    unfold a_at in L |- *. cbn [ag_todo ag_out a_mem a_rw] in L. unfold x2, x1, a_at in L. cbn [a_mem a_rw a_gs] in L. rewrite !list_set_twice in L.
    unfold x2, x1, a_at. cbn [a_mem a_rw a_gs]. rewrite !list_set_twice. exact L.
Qed.

(** two calls that may be inside together, one after the other *)
Definition can_race m k1 k2 : Prop := exists tr y a b, arun (abegin m [[k1]; [k2]]) tr y /\ race tr a b.
Lemma two_race m k1 k2 room1 room2 w1 w2 l : ~ syncs (wlock k1) (wlock k2) -> wlock k2 <> LWrite ->
  let p1 := method (storage_of m) room1 k1 in let p2 := method (storage_of m) room2 k2 in
  List.In (w1, l) (accs p1 (flat m)) -> List.In (w2, l) (accs p2 (fst (prun p1 (flat m)))) -> w1 || w2 = true ->
  can_race m k1 k2.
Proof.
  intros Sy L2 p1 p2 I1 I2 W.
  set (g1 := MkAG (N := N) (AIn k1 p1) [] []). set (g2 := MkAG (N := N) (AIn k2 p2) [] []).
  assert (En : exists r, arun (abegin m [[k1]; [k2]]) [EAcq 0 k1; EAcq 1 k2] (MkAS (flat m) r [g1; g2])).
  { assert (E1 : exists r, arun (abegin m [[k1]; [k2]]) [EAcq 0 k1] (MkAS (flat m) r [g1; MkAG AOut [k2] []]) /\ (wlock k2 = LRead -> rw_writer r = false)).
    { unfold g1, p1. rewrite <- (flat_kind m). destruct (wlock k1) eqn:L1.
      - exists (MkRW 0 false). split; [|reflexivity]. apply (arun_one _ _ (Some (EAcq 0 k1))).
        exact (as_none (abegin m [[k1]; [k2]]) 0 (MkAG AOut [k1] []) k1 [] room1 eq_refl eq_refl eq_refl L1).
      - exists (MkRW 1 false). split; [|reflexivity]. apply (arun_one _ _ (Some (EAcq 0 k1))).
        exact (as_rlock (abegin m [[k1]; [k2]]) 0 (MkAG AOut [k1] []) k1 [] room1 (MkRW 1 false) eq_refl eq_refl eq_refl L1 eq_refl).
      - exists (MkRW 0 true). split; [|intros L; rewrite L in Sy; cbn in Sy; tauto].
        apply (arun_trans _ (MkAS (flat m) (MkRW 0 true) [MkAG (AAnn k1) [] []; MkAG AOut [k2] []]) _ [] [EAcq 0 k1]).
        + apply (arun_one _ _ None). exact (as_announce (abegin m [[k1]; [k2]]) 0 (MkAG AOut [k1] []) k1 [] (MkRW 0 true) eq_refl eq_refl eq_refl L1 eq_refl).
        + apply (arun_one _ _ (Some (EAcq 0 k1))).
          exact (as_lock (MkAS (flat m) (MkRW 0 true) [MkAG (AAnn k1) [] []; MkAG AOut [k2] []]) 0 (MkAG (AAnn k1) [] []) k1 room1 eq_refl eq_refl eq_refl). }
    destruct E1 as (r & R1 & Hr). unfold g2, p2. rewrite <- (flat_kind m). destruct (wlock k2) eqn:E2; [| |congruence].
    - exists r. apply (arun_trans _ _ _ [EAcq 0 k1] [EAcq 1 k2] R1). apply (arun_one _ _ (Some (EAcq 1 k2))).
      exact (as_none (MkAS (flat m) r [g1; MkAG AOut [k2] []]) 1 (MkAG AOut [k2] []) k2 [] room2 eq_refl eq_refl eq_refl E2).
    - exists (MkRW (Datatypes.S (rw_readers r)) false). apply (arun_trans _ _ _ [EAcq 0 k1] [EAcq 1 k2] R1). apply (arun_one _ _ (Some (EAcq 1 k2))).
      refine (as_rlock (MkAS (flat m) r [g1; MkAG AOut [k2] []]) 1 (MkAG AOut [k2] []) k2 [] room2 _ eq_refl eq_refl eq_refl E2 _).
      cbn. unfold rlock. rewrite (Hr eq_refl). reflexivity. }
  destruct En as (r & R0).
  destruct (run_body 0 k1 p1 (MkAS (flat m) r [g1; g2]) g1 eq_refl eq_refl) as (q1 & _ & R1). cbn [a_mem] in R1.
  match type of R1 with arun _ _ ?s => set (s1 := s) in * end.
  destruct (run_body 1 k2 p2 s1 g2 eq_refl eq_refl) as (q2 & _ & R2). change (a_mem s1) with (fst (prun p1 (flat m))) in R2.
  match type of R2 with arun _ _ ?s => set (s2 := s) in * end.
  pose (tr := [EAcq 0 k1; EAcq 1 k2] ++ map (acc_ev 0 k1) (accs p1 (flat m)) ++ map (acc_ev 1 k2) (accs p2 (fst (prun p1 (flat m))))).
  assert (R : arun (abegin m [[k1]; [k2]]) tr s2) by (eapply arun_trans; [exact R0|]; eapply arun_trans; [exact R1|exact R2]).
  assert (NR : forall e, List.In e tr -> ~ is_rel e).
  { intros e I. unfold tr in I. rewrite !in_app_iff in I. destruct I as [[<- |[<- |[]]]|[I|I]]; cbn; try tauto; apply in_map_iff in I as (wl & <- & _); cbn; tauto. }
  assert (A1 : List.In (EAcc 0 k1 w1 l) tr) by (unfold tr; rewrite !in_app_iff; right; left; apply in_map_iff; exists (w1, l); auto).
  assert (A2 : List.In (EAcc 1 k2 w2 l) tr) by (unfold tr; rewrite !in_app_iff; right; right; apply in_map_iff; exists (w2, l); auto).
  apply In_nth_error in A1 as (a & Ha). apply In_nth_error in A2 as (b & Hb).
  exists tr, s2, a, b. split; [exact R|]. exists 0%nat, k1, w1, 1%nat, k2, w2, l. repeat split; auto.
  - intros H. apply hb_no_release in H as (e & e' & E & E' & Wh); [|exact NR]. rewrite Ha in E. rewrite Hb in E'. inversion E; inversion E'; subst. discriminate.
  - intros H. apply hb_no_release in H as (e & e' & E & E' & Wh); [|exact NR]. rewrite Hb in E. rewrite Ha in E'. inversion E; inversion E'; subst. discriminate.
Qed.

(** ** readers of a stored element of sparse storage write it back *)
Lemma writes_back room count x r c a b v : isz (n0 (n := N)) = true -> (forall v, List.In v (m_vals x) -> isz v = false) ->
  snd (prun (a_update room count r c a b f_at) x) = Ok (VVal v) -> isz v = false ->
  exists p, forall W room (f : V -> option (W * V)), (forall v, exists w, f v = Some (w, v)) -> List.In (true, LVal p) (accs (a_update room count r c a b f) x).
Proof.
  intros Hz Hv. unfold a_update. rewrite prun_bind. unfold pz at 1. cbn [prun rd_z].
  destruct ((r <? 0) || (r >=? m_r x)) eqn:B1; [discriminate|].
  rewrite prun_bind. unfold pz at 1. cbn [prun rd_z].
  destruct ((c <? 0) || (c >=? m_c x)) eqn:B2; [discriminate|].
  rewrite prun_bind, (proj2 (ra_index x a b)). destruct (index_of x a b) as [[ps pe]| |] eqn:E1; try discriminate.
  rewrite prun_bind, (proj2 (ra_hit x ps pe b)). destruct (hit_of x ps pe b) as [[|]| |] eqn:E2; try discriminate.
  - rewrite prun_bind, (proj2 (ra_val x ps)). destruct (zget (m_vals x) ps) as [v'| |] eqn:E3; try discriminate.
    intros _ _. exists ps. intros W room' f Hf. apply (accs_later _ _ x x (m_r x)); [reflexivity|]. cbn beta. rewrite B1. apply (accs_later _ _ x x (m_c x)); [reflexivity|]. cbn beta. rewrite B2.
    apply (accs_later _ _ x x (ps, pe)); [rewrite <- E1; apply ra_index|]. apply (accs_later _ _ x x true); [rewrite <- E2; apply ra_hit|]. cbn beta iota.
    apply (accs_later _ _ x x v'); [rewrite <- E3; apply ra_val|]. destruct (Hf v') as [w ->]. rewrite (Hv v' (zget_In _ _ _ E3)).
    apply accs_first. unfold set_elem. apply (accs_later _ _ x x (zlen (m_vals x))); [reflexivity|].
    destruct (zget_range _ _ _ E3) as [R1 R2]. replace ((ps <? 0) || (zlen (m_vals x) <=? ps)) with false by lia.
    unfold pw. cbn [accs wr]. rewrite (zset_same _ _ _ E3). cbn. auto.
  - unfold f_at. unfold a_insert. rewrite Hz. cbn. intros E Hn. inversion E; subst. congruence.
Qed.
Lemma sv_writes_back room (s : svec N) r c v : isz (n0 (n := N)) = true ->
  snd (prun (vec_update s_AtVec (s_SetVec room) r c f_at) (flat (MSV s))) = Ok (VVal v) -> isz v = false ->
  exists p, forall room, List.In (true, LVal p) (accs (vec_update s_AtVec (s_SetVec room) r c f_at) (flat (MSV s))).
Proof.
  intros Hz. unfold vec_update, in_range. rewrite prun_bind. unfold pz at 1. cbn [prun rd_z].
  destruct ((r <? 0) || (r >=? m_r (flat (MSV s)))) eqn:B1; [discriminate|]. destruct ((c <? 0) || (c >=? 1)) eqn:B2; [discriminate|].
  rewrite prun_bind, (proj2 (ra_s_AtVec s r)). destruct (sv_AtVec s r) as [v'| |] eqn:E; try discriminate.
  unfold f_at at 1. rewrite prun_bind. destruct (prun (s_SetVec room r v') (flat (MSV s))) as [y [[]| |]] eqn:E0; try discriminate. cbn [snd prun]. intros E1 Hn. inversion E1; subst v'.
  pose proof E as E'. unfold sv_AtVec in E'. change (sv_Length s) with (m_r (flat (MSV s))) in E'. rewrite B1 in E'.
  destruct (sv_index s r) as [[p n]| |] eqn:Ei; cbn [rbind] in E'; try discriminate. destruct (sv_hit s p n r) as [[|]| |] eqn:Eh; cbn [rbind] in E'; try discriminate; [|inversion E'; subst; congruence].
  exists p. intros room'. apply (accs_later _ _ (flat (MSV s)) (flat (MSV s)) (sv_l s)); [reflexivity|]. cbn beta. change (sv_l s) with (m_r (flat (MSV s))). rewrite B1.
  apply (accs_later _ _ (flat (MSV s)) (flat (MSV s)) v); [rewrite <- E; apply ra_s_AtVec|]. unfold f_at. apply accs_first. unfold s_SetVec, in_range.
  apply (accs_later _ _ (flat (MSV s)) (flat (MSV s)) (sv_l s)); [reflexivity|]. cbn beta. change (sv_l s) with (m_r (flat (MSV s))). rewrite B1.
  apply (accs_later _ _ (flat (MSV s)) (flat (MSV s)) (p, n)); [rewrite <- Ei; apply ra_s_index|].
  apply (accs_later _ _ (flat (MSV s)) (flat (MSV s)) true); [rewrite (proj2 (ra_hit _ _ _ _)); f_equal; exact Eh|]. cbn beta iota. rewrite Hn.
  unfold set_elem. apply (accs_later _ _ (flat (MSV s)) (flat (MSV s)) (zlen (sv_values s))); [reflexivity|].
  destruct (zget_range _ _ _ E') as [R1 R2]. replace ((p <? 0) || (zlen (sv_values s) <=? p)) with false by lia.
  unfold pw. cbn [accs wr]. change (m_vals (flat (MSV s))) with (sv_values s). rewrite (zset_same _ _ _ E'). cbn. auto.
Qed.

Lemma at_value m room r c : zero_ok N -> wf m -> inb m r c -> snd (prun (method (storage_of m) room (WAt r c)) (flat m)) = Ok (VVal (peek m r c)).
Proof.
  intros Hz Hw Hb. rewrite (method_does m room (WAt r c) Hz Hw Logic.I). cbn [snd plain_call outcome body]. unfold outcome, body. rewrite At_ok by auto. reflexivity.
Qed.
Definition reader_of (m : mat) k r c : Prop := k = WAt r c \/ (k = WElement r c /\ match m with MSV _ => False | _ => True end).
Lemma reader_writes m r c : zero_ok N -> wf m -> is_sp m = true -> inb m r c -> isz (peek m r c) = false ->
  exists p, forall room k, reader_of m k r c -> List.In (true, LVal p) (accs (method (storage_of m) room k) (flat m)).
Proof.
  intros Hz Hw Hs Hb Hv. pose proof (at_value m (true, true) r c Hz Hw Hb) as A. pose proof (stored_nz m Hw Hs) as Nz.
  assert (Hz0 : isz (n0 (n := N)) = true) by apply Hz.
  destruct m as [s|s|s|s|s]; cbn in Hs; try discriminate; cbn [method storage_of] in *.
  - destruct (writes_back _ _ _ _ _ _ _ _ Hz0 Nz A Hv) as (p & H). exists p. intros room k [-> |[-> _]]; apply H; intros v; eexists; reflexivity.
  - destruct (writes_back _ _ _ _ _ _ _ _ Hz0 Nz A Hv) as (p & H). exists p. intros room k [-> |[-> _]]; apply H; intros v; eexists; reflexivity.
  - destruct (sv_writes_back _ _ _ _ _ Hz0 A Hv) as (p & H). exists p. intros room k [-> |[_ []]]; apply H.
Qed.
Theorem readers_race m r c k1 k2 : zero_ok N -> wf m -> is_sp m = true -> inb m r c -> isz (peek m r c) = false ->
  reader_of m k1 r c -> reader_of m k2 r c -> can_race m k1 k2.
Proof.
  intros Hz Hw Hs Hb Hv H1 H2. destruct (reader_writes m r c Hz Hw Hs Hb Hv) as (p & H).
  assert (L : forall k, reader_of m k r c -> wlock k = LRead) by (intros k [-> |[-> _]]; reflexivity).
  apply (two_race m k1 k2 (true, true) (true, true) true true (LVal p)).
  - rewrite (L _ H1), (L _ H2). cbn. tauto.
  - rewrite (L _ H2). discriminate.
  - apply H, H1.
  - rewrite (quiet_same _ _ (method_quiet m (true, true) k1 Hz Hw ltac:(destruct H1 as [-> |[-> _]]; exact Logic.I) ltac:(destruct H1 as [-> |[-> _]]; exact Logic.I) ltac:(rewrite (L _ H1); discriminate))). apply H, H2.
  - reflexivity.
Qed.

(** ** Values and calls that change the number of entries *)
Lemma prun_fixed {A} (p : prog A) x : m_kind (fst (prun p x)) = m_kind x /\ m_r (fst (prun p x)) = m_r x /\ m_c (fst (prun p x)) = m_c x.
Proof.
  revert x. induction p as [a| | |l g IH|l g IH|u q IH]; intros x; cbn [prun]; auto.
  - destruct (rd_z x l); auto.
  - destruct (rd_v x l); auto.
  - destruct (wr x u) as [y| |] eqn:E; auto. destruct (IH y) as (A1 & A2 & A3). destruct (wr_fixed _ _ _ E) as (B1 & B2 & B3). repeat split; congruence.
Qed.
Theorem values_race m k : zero_ok N -> wf m -> is_sp m = true -> reads_only k -> mat_Values (next (plain_call k) m) <> mat_Values m -> can_race m k WValues.
Proof.
  intros Hz Hw Hs Hr Hn. pose proof (method_does m (true, true) k Hz Hw Hr) as D.
  pose proof (prun_fixed (method (storage_of m) (true, true) k) (flat m)) as (K & _). rewrite D in K. cbn [fst] in K. rewrite !flat_kind in K.
  assert (HV : forall m', storage_of m' = storage_of m -> mat_Values m' = zlen (m_vals (flat m'))).
  { intros m' K'. destruct m, m'; cbn in K', Hs; try discriminate; reflexivity. }
  apply (two_race m k WValues (true, true) (true, true) true false LVals); try reflexivity.
  - cbn. destruct (wlock k); tauto.
  - discriminate.
  - apply accs_len. rewrite D. cbn [fst]. rewrite <- !HV by auto. exact Hn.
  - rewrite D. cbn [fst]. destruct m; cbn in Hs; try discriminate; cbn; auto.
Qed.
(** ** Clear and Clear *)
Theorem clears_race m : wf m -> can_race m WClear WClear.
Proof.
  intros Hw. assert (Lk : ~ syncs (wlock (N := N) WClear) (wlock (N := N) WClear)) by (cbn; tauto). assert (Ln : wlock (N := N) WClear <> LWrite) by discriminate.
  destruct m as [s|s|s|s|s].
  - apply (two_race _ _ _ (true, true) (true, true) true true LVals Lk Ln); try reflexivity; cbn; auto.
  - apply (two_race _ _ _ (true, true) (true, true) true true LVals Lk Ln); try reflexivity; cbn; auto.
  - assert (I : forall x : mem, m_r x = dm_r s -> List.In (true, LData) (accs (method SDM (true, true) WClear) x)).
    { intros x E. cbn [method]. apply (accs_later _ _ x x (m_r x)); [reflexivity|]. rewrite E. rewrite make_slice_ok by (change (0 <= mat_Rows (MDM s)); apply (wf_dims _ Hw)).
      cbn. auto. }
    apply (two_race _ _ _ (true, true) (true, true) true true LData Lk Ln); try reflexivity; apply I; [reflexivity|]. apply prun_fixed.
  - assert (I : forall x : mem, m_r x = dv_l s -> List.In (true, LVals) (accs (method SDV (true, true) WClear) x)).
    { intros x E. cbn [method]. apply (accs_later _ _ x x (m_r x)); [reflexivity|]. rewrite E. rewrite make_slice_ok by (change (0 <= mat_Rows (MDV s)); apply (wf_dims _ Hw)).
      cbn. auto. }
    apply (two_race _ _ _ (true, true) (true, true) true true LVals Lk Ln); try reflexivity; apply I; [reflexivity|]. apply prun_fixed.
  - apply (two_race _ _ _ (true, true) (true, true) true true LVals Lk Ln); try reflexivity; cbn; auto.
Qed.

(** ** Clear seen half done *)

(** the struct after the first assignment of Clear *)
Definition half_cleared (m : mat) : mem :=
  match m with MDM s => wr_data (flat m) (repeat [] (Z.to_nat (dm_r s))) | MDV s => flat m | _ => wr_vals (flat m) [] end.
Lemma half_panics m room r c : zero_ok N -> wf m -> inb m r c -> match m with MDM _ => True | MDV _ => False | _ => isz (peek m r c) = false end ->
  snd (prun (method (storage_of m) room (WAt r c)) (half_cleared m)) = Panic.
Proof.
  intros Hz Hw Hb Hv. pose proof (at_value m room r c Hz Hw Hb) as A. assert (Hz0 : isz (n0 (n := N)) = true) by apply Hz.
  assert (Comp : forall count a b x, snd (prun (a_update room count r c a b f_at) x) = Ok (VVal (peek m r c)) -> isz (peek m r c) = false ->
    snd (prun (a_update room count r c a b f_at) (wr_vals x [])) = Panic).
  { clear - Hz0. intros count a b x. unfold a_update. rewrite !prun_bind. unfold pz. cbn [prun rd_z].
    change (m_r (wr_vals x [])) with (m_r x). change (m_c (wr_vals x [])) with (m_c x).
    destruct ((r <? 0) || (r >=? m_r x)) eqn:B1; [discriminate|]. rewrite !prun_bind. cbn [prun rd_z]. change (m_c (wr_vals x [])) with (m_c x).
    destruct ((c <? 0) || (c >=? m_c x)) eqn:B2; [discriminate|].
    rewrite !prun_bind, !(proj2 (ra_index _ a b)). change (index_of (wr_vals x []) a b) with (index_of x a b). destruct (index_of x a b) as [[ps pe]| |] eqn:E1; try discriminate.
    rewrite !prun_bind, !(proj2 (ra_hit _ ps pe b)). change (hit_of (wr_vals x []) ps pe b) with (hit_of x ps pe b). destruct (hit_of x ps pe b) as [[|]| |] eqn:E2; try discriminate.
    - intros _ _. rewrite prun_bind, (proj2 (ra_val _ ps)). cbn [m_vals wr_vals].
      rewrite out_get by (replace (zlen (@nil V)) with 0 by reflexivity; lia). reflexivity.
    - unfold f_at, a_insert. rewrite Hz0. cbn. intros E Hn. inversion E; subst. congruence. }
  destruct m as [s|s|s|s|s]; cbn [method storage_of half_cleared] in *; try contradiction.
  - apply Comp; auto.
  - apply Comp; auto.
  - destruct Hb as [Hr Hc]. cbn in Hr, Hc. unfold dm_Rows, dm_Columns in *. unfold both_in_range, in_range. rewrite prun_bind. unfold pz at 1. cbn [prun rd_z wr_data m_r flat].
    replace ((r <? 0) || (r >=? dm_r s)) with false by lia. rewrite prun_bind. unfold pz at 1. cbn [prun rd_z wr_data m_c flat].
    replace ((c <? 0) || (c >=? dm_c s)) with false by lia. rewrite prun_bind, (proj2 (ra_cell _ r c)). cbn [m_data wr_data].
    rewrite zget_repeat by lia. cbn [rbind]. rewrite out_get by (replace (zlen (@nil V)) with 0 by reflexivity; lia). reflexivity.
  - pose (s' := {| sv_l := sv_l s; sv_values := @nil V; sv_indices := sv_indices s |}). change (wr_vals (flat (MSV s)) []) with (flat (MSV s')).
    revert A. unfold vec_update, in_range. rewrite !prun_bind. unfold pz. cbn [prun rd_z].
    change (m_r (flat (MSV s'))) with (m_r (flat (MSV s))).
    destruct ((r <? 0) || (r >=? m_r (flat (MSV s)))) eqn:B1; [discriminate|]. destruct ((c <? 0) || (c >=? 1)) eqn:B2; [discriminate|].
    rewrite !prun_bind, !(proj2 (ra_s_AtVec _ r)). unfold sv_AtVec.
    change (sv_Length s') with (m_r (flat (MSV s))). change (sv_Length s) with (m_r (flat (MSV s))). rewrite B1.
    change (sv_index s' r) with (sv_index s r). destruct (sv_index s r) as [[p n]| |]; cbn [rbind]; try discriminate.
    change (sv_hit s' p n r) with (sv_hit s p n r). destruct (sv_hit s p n r) as [[|]| |]; cbn [rbind]; try discriminate.
    + intros _. change (sv_values s') with (@nil V). rewrite out_get by (replace (zlen (@nil V)) with 0 by reflexivity; lia). reflexivity.
    + unfold f_at at 1. rewrite prun_bind. destruct (prun (s_SetVec room r n0) (flat (MSV s))) as [y [[]| |]]; try discriminate. cbn [snd prun]. intros E. inversion E as [E']. congruence.
Qed.

(** the first assignment of Clear, run alone *)
Lemma first_step m (x : astate) g room : wf m -> match m with MDV _ => False | _ => True end ->
  nth_error (a_gs x) 0 = Some g -> a_mem x = flat m -> ag_pc g = AIn WClear (method (storage_of m) room WClear) ->
  exists tr p', arun x tr (a_at x 0 (AIn WClear p') (ag_todo g) (ag_out g) (half_cleared m) (a_rw x)).
Proof.
  intros Hw Hk H Hm Hp. destruct m as [s|s|s|s|s]; try contradiction.
  1,2,4: eexists _, _; eapply (arun_one x); eapply as_write; [exact H|exact Hp|rewrite Hm; reflexivity].
  assert (D : 0 <= dm_r s) by (change (0 <= mat_Rows (MDM s)); apply (wf_dims _ Hw)).
  cbn [storage_of method] in Hp. unfold pz at 1 in Hp. cbn [pbind] in Hp.
  pose proof (as_readz x 0 g _ _ _ (dm_r s) H Hp ltac:(rewrite Hm; reflexivity)) as S1. cbn beta in S1. rewrite make_slice_ok in S1 by lia. cbn [plift pbind] in S1. unfold pw at 1 in S1. cbn [pbind] in S1.
  match type of S1 with astep _ _ ?z => set (x1 := z) in * end.
  assert (L0 : (0 < length (a_gs x))%nat) by (apply nth_error_Some; congruence).
  match eval unfold x1 in x1 with a_at _ _ ?p _ _ _ _ =>
    pose proof (nth_error_list_set_eq (a_gs x) 0 (MkAG p (ag_todo g) (ag_out g)) L0 : nth_error (a_gs x1) 0 = _) as H1 end.
  pose proof (as_write x1 0 _ WClear _ _ (half_cleared (MDM s)) H1 eq_refl ltac:(change (a_mem x1) with (a_mem x); rewrite Hm; reflexivity)) as S2.
  cbn [ag_todo ag_out] in S2. unfold x1 at 2, a_at in S2. cbn [a_gs] in S2. rewrite list_set_twice in S2.
  eexists _, _. eapply (arun_trans x x1); [apply (arun_one _ _ _ S1)|]. exact (arun_one _ _ _ S2).
Qed.
Theorem clear_breaks_readers m r c : zero_ok N -> wf m -> inb m r c -> match m with MDM _ => True | MDV _ => False | _ => isz (peek m r c) = false end ->
  exists tr y g, arun (abegin m [[WClear]; [WAt r c]]) tr y /\ nth_error (a_gs y) 1 = Some g /\ ag_out g = [(WAt r c, None)].
Proof.
  intros Hz Hw Hb Hv. pose (room := (true, true)).
  pose (x1 := MkAS (flat m) (MkRW 1 false) [MkAG (AIn WClear (method (storage_of m) room WClear)) [] []; MkAG AOut [WAt r c] []]).
  pose (x2 := MkAS (flat m) (MkRW 2 false) [MkAG (AIn WClear (method (storage_of m) room WClear)) [] []; MkAG (AIn (WAt r c) (method (storage_of m) room (WAt r c))) [] []]).
  assert (S1 : astep (abegin m [[WClear]; [WAt r c]]) (Some (EAcq 0 WClear)) x1).
  { unfold x1. rewrite <- (flat_kind m). exact (as_rlock (abegin m [[WClear]; [WAt r c]]) 0 (MkAG AOut [WClear] []) WClear [] room (MkRW 1 false) eq_refl eq_refl eq_refl eq_refl eq_refl). }
  assert (S2 : astep x1 (Some (EAcq 1 (WAt r c))) x2).
  { unfold x2. rewrite <- (flat_kind m) at 2. exact (as_rlock x1 1 (MkAG AOut [WAt r c] []) (WAt r c) [] room (MkRW 2 false) eq_refl eq_refl eq_refl eq_refl eq_refl). }
  destruct (first_step m x2 (MkAG (AIn WClear (method (storage_of m) room WClear)) [] []) room Hw ltac:(destruct m; tauto) eq_refl eq_refl eq_refl) as (tr & p' & R3).
  match type of R3 with arun _ _ ?z => set (x3 := z) in * end.
  pose proof (run_call 1 (WAt r c) (method (storage_of m) room (WAt r c)) x3 (MkAG (AIn (WAt r c) (method (storage_of m) room (WAt r c))) [] []) Panic eq_refl eq_refl (half_panics m room r c Hz Hw Hb Hv) ltac:(discriminate)) as R4.
  eexists _, _, _. split; [|split].
  - eapply arun_trans; [eapply arun_trans; [eapply arun_trans; [apply (arun_one _ _ _ S1)|apply (arun_one _ _ _ S2)]|exact R3]|exact R4].
  - reflexivity.
  - reflexivity.
Qed.
End AccessClash.
