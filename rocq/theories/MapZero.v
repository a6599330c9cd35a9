(** [Map] loops whose function produces zeros (csrMatrix.go:392-401, cscMatrix.go:402-411,
    sparseVector.go:357-366): a zero takes the element out of the sparse object while the iterator runs over it. *)
From Coq Require Import String Sorting.Sorted.
From Verif Require Import GoBase Num SparseVec Csr Csc DenseVec DenseMat Mat World Ops.
From Verif Require Import BaseProofs AssocProofs CsrProofs SvProofs CsrIterProofs CscProofs DenseProofs MatProofs.
From Verif Require Import Spec HeapProofs Api MapLag ReachProofs StoreProofs LoopProofs.

Section MapZero.
Context {N : num}.
Notation V := (T N).
Notation mat := (mat N).
Notation ent := (Z * Z * V)%type.
Notation world := (world N).
Implicit Types w : world.
Implicit Types m : mat.

(** ** The loop *)

Definition kept (m : mat) (g : Z -> Z -> V -> V) (l : list ent) : list ent := flat_map (fun e => keep m (remap g e)) l.

(** zeros are produced only at ends of lines *)
Fixpoint tame (m : mat) (g : Z -> Z -> V -> V) (l rest : list ent) : Prop :=
  match l with
  | [] => True
  | (r, c, v) :: l' => (is_sp m = true -> isz (g r c v) = true -> ends m r c (l' ++ rest)) /\ tame m g l' rest
  end.

Lemma ends_shape m m' r c l : same_shape m m' -> ends m r c l -> ends m' r c l.
Proof. intros (Hk & _). destruct m, m'; try discriminate Hk; auto. Qed.
Lemma keep_shape m m' e : same_shape m m' -> keep m' e = keep m e.
Proof. intros Hs. unfold keep. rewrite (same_shape_sp _ _ Hs). reflexivity. Qed.

Lemma upd_upd w p m m' : upd (upd w p m) p m' = upd w p m'.
Proof. unfold upd. cbn [w_heap w_polls]. rewrite list_set_twice. reflexivity. Qed.

Lemma map_step_lag E stop p g w m it it' r c v m' fuel : e_ctx E = None -> obj w p m -> mat_HasNext it = true ->
  mat_next m it = Ok it' -> mat_cur m it' = Ok (r, c, v) -> mat_map_put m it' (g r c v) = Ok m' ->
  map_loop E stop (S fuel) p it (fun r c v => mret (g r c v)) w = map_loop E stop fuel p it' (fun r c v => mret (g r c v)) (upd w p m').
Proof.
  intros Hb Ho Hn H1 H2 H3. cbn [map_loop]. rewrite Hn. unfold poll at 1. rewrite Hb. unfold mbind at 1. cbv beta iota.
  assert (Hstep : map_step p it (fun r c v => mret (g r c v)) w = (upd w p m', Ok it')).
  { unfold map_step. rewrite (mbind_ok _ _ _ _ _ (load_ok _ _ _ Ho)), H1, mbind_lift, H2, mbind_lift, mbind_ret.
    rewrite (mbind_ok _ _ _ _ _ (load_ok _ _ _ Ho)), H3, mbind_lift. reflexivity. }
  rewrite (mbind_ok _ _ _ _ _ Hstep). reflexivity.
Qed.

Lemma map_prefix E stop p g w0 m0 : obj w0 p m0 -> e_ctx E = None ->
  forall l it dn rest m fuel, mrel m it dn (l ++ rest) -> same_shape m0 m -> tame m0 g l rest -> (length l <= fuel)%nat ->
  exists m' it', map_loop E stop fuel p it (fun r c v => mret (g r c v)) (upd w0 p m) = map_loop E stop (fuel - length l) p it' (fun r c v => mret (g r c v)) (upd w0 p m') /\
    mrel m' it' (dn ++ kept m0 g l) rest /\ same_shape m0 m'.
Proof.
  intros Ho Hb. induction l as [|[[r c] v] l IH]; intros it dn rest m fuel Hm Hs Ht Hf.
  - exists m, it. cbn [length kept flat_map app] in *. rewrite Nat.sub_0_r, app_nil_r. auto.
  - destruct fuel as [|fuel]; [cbn [length] in Hf; lia|]. destruct Ht as [Ht1 Ht2]. cbn [app] in Hm.
    destruct (mrel_step _ _ _ _ _ _ _ Hm) as (it' & H1 & H2 & Hp).
    destruct (Hp (g r c v)) as (m' & H3 & Hs' & Hm').
    { intros A B. apply (ends_shape m0); [exact Hs|]. apply Ht1; [|exact B]. rewrite <- (same_shape_sp _ _ Hs). exact A. }
    rewrite (map_step_lag E stop p g (upd w0 p m) m it it' r c v m' fuel); auto.
    + rewrite upd_upd. destruct (IH it' _ rest m' fuel Hm') as (m2 & it2 & Q1 & Q2 & Q3); auto.
      * eapply same_shape_trans; eauto.
      * cbn [length] in Hf. lia.
      * exists m2, it2. split; [exact Q1|]. split; [|exact Q3]. cbn [kept flat_map]. rewrite <- app_assoc in Q2. rewrite (keep_shape m0 m) in Q2 by exact Hs. exact Q2.
    + eapply obj_upd_eq; eauto.
    + rewrite (mrel_HasNext _ _ _ _ Hm). reflexivity.
Qed.

Lemma mrel_done m it dn : mrel m it dn [] -> wf m /\ entries m = dn.
Proof. intros (it0 & H & _). split; [eapply it_rel_wf; eauto|]. rewrite (it_rel_entries _ _ _ _ H). apply app_nil_r. Qed.

Lemma upd_obj w p m : obj w p m -> upd w p m = w.
Proof. intros H. unfold upd. rewrite (list_set_same _ _ _ H). destruct w; reflexivity. Qed.

Lemma map_tame E stop p g w m : e_ctx E = None -> obj w p m -> wf m -> mat_Values m <= Z.of_nat (e_fuel E) -> tame m g (entries m) [] ->
  exists m', map_over E stop p (fun r c v => mret (g r c v)) w = (upd w p m', Ok tt) /\ wf m' /\ same_shape m m' /\ entries m' = kept m g (entries m).
Proof.
  intros Hb Ho Hw Hf Ht. unfold map_over. rewrite (mbind_ok _ _ _ _ _ (load_ok _ _ _ Ho)).
  destruct (map_prefix E stop p g w m Ho Hb (entries m) (mat_iterator m) [] [] m (e_fuel E)) as (m' & it' & H1 & H2 & H3); auto.
  - rewrite app_nil_r. apply it_rel_mrel. apply entries_rel; auto.
  - apply same_shape_refl.
  - pose proof (zlen_entries m Hw) as Hz. unfold zlen in Hz. lia.
  - rewrite (upd_obj w p m Ho) in H1. destruct (mrel_done _ _ _ H2) as [Hw' He]. exists m'. split; [|auto]. rewrite H1.
    destruct (e_fuel E - length (entries m))%nat; cbn [map_loop]; rewrite (mrel_HasNext _ _ _ _ H2); reflexivity.
Qed.

(** the cells afterwards *)
Lemma kept_cells m m' g : zero_ok N -> good m -> wf m' -> same_shape m m' -> entries m' = kept m g (entries m) ->
  forall i j, inb m i j -> peek m' i j = if is_sp m && isz (peek m i j) then n0 else if is_sp m && isz (g i j (peek m i j)) then n0 else g i j (peek m i j).
Proof.
  intros Hz Hg Hw' Hs E i j Hb.
  assert (Hg' : good m') by (split; [auto|]; destruct Hs as [-> _]; apply Hg).
  assert (Hb' : inb m' i j) by (apply (same_shape_inb _ _ _ _ Hs); auto).
  assert (Hin' : forall x, In (i, j, x) (entries m') <-> exists v, In (i, j, v) (entries m) /\ x = g i j v /\ is_sp m && isz x = false).
  { intros x. rewrite E. unfold kept. rewrite in_flat_map. split.
    - intros ([[a b] v] & H1 & H2). unfold keep, remap in H2. cbn [fst snd] in H2. destruct (is_sp m && isz (g a b v)) eqn:Q; [contradiction|].
      destruct H2 as [H2|[]]. injection H2 as -> -> <-. exists v. auto.
    - intros (v & H1 & -> & H3). exists (i, j, v). split; [exact H1|]. unfold keep, remap. cbn [fst snd]. rewrite H3. left. reflexivity. }
  destruct (peek_entries m i j Hz Hg Hb) as [(v & Hin & Hp)|(Hsp & Hiz & Hno)].
  - assert (Hq : is_sp m && isz (peek m i j) = false).
    { rewrite Hp. destruct (is_sp m) eqn:Esp; [|reflexivity]. apply entries_spec in Hin; auto. destruct Hin as (_ & _ & Hnz). rewrite (Hnz Esp). reflexivity. }
    rewrite Hq, Hp. destruct (peek_entries m' i j Hz Hg' Hb') as [(x & Hx & Hpx)|(Hsp' & Hiz' & Hno')].
    + rewrite Hpx. apply Hin' in Hx. destruct Hx as (v' & Hv & -> & Hk).
      assert (v' = v) as -> by (eapply NoDup_pos_inj; [apply (entries_NoDup m); auto|exact Hv|exact Hin]). rewrite Hk. reflexivity.
    + rewrite (peek_zero m' i j) by auto. destruct (is_sp m && isz (g i j v)) eqn:Q; [reflexivity|]. exfalso. apply (Hno' (g i j v)). apply Hin'. exists v. auto.
  - rewrite Hsp, Hiz. cbn [andb].
    destruct (peek_entries m' i j Hz Hg' Hb') as [(x & Hx & Hpx)|(Hsp' & Hiz' & Hno')]; [|apply peek_zero; auto].
    exfalso. apply Hin' in Hx. destruct Hx as (v & Hv & _). apply (Hno v Hv).
Qed.

(** ** A zero before the end of the last row *)

Lemma past_panics E stop p g w0 m0 R C X Y : obj w0 p m0 -> e_ctx E = None -> forall n row i q fuel,
  past R C X row Y i q -> cri_pe i - cri_ps i <= Z.of_nat n -> (n <= fuel)%nat ->
  exists w', map_loop E stop fuel p (ICSR i) (fun r c v => mret (g r c v)) (upd w0 p (MCSR (mk_csr R C (X ++ row :: Y)))) = (w', Panic).
Proof.
  intros Ho Hb. induction n as [|n IH]; intros row i q fuel Hp Hn Hf; [destruct Hp as (_ & _ & _ & _ & H & _); lia|].
  destruct fuel as [|fuel]; [lia|]. set (s := mk_csr R C (X ++ row :: Y)).
  assert (Hob : obj (upd w0 p (MCSR s)) p (MCSR s)) by (eapply obj_upd_eq; eauto).
  destruct (past_next R C X row Y i q Hp) as [Q|(i' & c & v & t & Q1 & Q2 & Q3 & Q4)].
  - eexists. cbn [map_loop]. cbn [mat_HasNext]. rewrite (past_HasNext _ _ _ _ _ _ _ Hp). unfold poll at 1. rewrite Hb. unfold mbind at 1. cbv beta iota.
    unfold mbind at 1. unfold map_step. rewrite (mbind_ok _ _ _ _ _ (load_ok _ _ _ Hob)). cbn [mat_next]. fold s in Q. rewrite Q. reflexivity.
  - destruct (Q4 (g (zlen X) c v)) as (row' & Q5 & Q6 & Q7).
    rewrite (map_step_lag E stop p g (upd w0 p (MCSR s)) (MCSR s) (ICSR i) (ICSR i') (zlen X) c v (MCSR (mk_csr R C (X ++ row' :: Y))) fuel).
    + rewrite upd_upd. apply (IH row' i' (S q) fuel Q6); lia.
    + exact Hb.
    + exact Hob.
    + cbn [mat_HasNext]. eapply past_HasNext; eauto.
    + cbn [mat_next]. unfold s. rewrite Q1. reflexivity.
    + cbn [mat_cur]. exact Q3.
    + cbn [mat_map_put]. unfold s. rewrite Q5. reflexivity.
Qed.

End MapZero.
