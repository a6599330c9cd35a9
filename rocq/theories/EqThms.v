(** Equality, scalar multiplication and negation of every kind of object. *)
From Coq Require Import String Sorting.Sorted.
From Verif Require Import GoBase Num SparseVec Csr Csc DenseVec DenseMat Mat World Ops.
From Verif Require Import BaseProofs AssocProofs CsrProofs SvProofs CsrIterProofs CscProofs DenseProofs MatProofs.
From Verif Require Import Spec HeapProofs Api ReachProofs StoreProofs VecProofs LoopProofs StoreThms OpsProofs OpsThms MulThms EwThms.

Section Eq.
Context {N : num}.
Notation V := (T N).
Notation mat := (mat N).
Notation ent := (Z * Z * V)%type.
Notation row := (list (Z * V)).
Notation world := (world N).
Notation M := (M N).
Implicit Types w : world.
Implicit Types m S Mo O : mat.

(** ** Equal *)
Definition agrees (Oth : mat) (e : ent) : bool := neqb (snd e) (peek Oth (fst (fst e)) (snd (fst e))).

(** the verdict of a comparison that is not cancelled *)
Definition verdict (sps spm : bool) S Mo : bool :=
  if (mat_Columns S =? mat_Columns Mo) && (mat_Rows S =? mat_Rows Mo) then
    if Bool.eqb sps spm && negb (mat_Values S =? mat_Values Mo) then false
    else if sps then forallb (agrees Mo) (entries S) else forallb (agrees S) (entries Mo)
  else false.

Lemma Equal_run E w (s m : ptr) S Mo (sps spm : bool) :
  zero_ok N -> wfw w -> obj w s S -> obj w m Mo ->
  IsSparseMatrix (e_reg E) S = sps -> IsSparseMatrix (e_reg E) Mo = spm ->
  mat_Values (if sps then S else Mo) <= Z.of_nat (e_fuel E) ->
  exists w' b, Equal E (Some s) (Some m) w = (w', Ok b) /\ w_heap w' = w_heap w /\
    (e_ctx E = None -> b = verdict sps spm S Mo) /\
    b = verdict sps spm S Mo && in_time E w (Z.to_nat (mat_Values (if sps then S else Mo))).
Proof.
  intros Hz Hw Hs Hm Es Em Hfu. unfold Equal, verdict.
  rewrite (mbind_ok _ _ _ _ _ (p_Columns_ok _ _ _ Hs)), (mbind_ok _ _ _ _ _ (p_Columns_ok _ _ _ Hm)).
  destruct (mat_Columns S =? mat_Columns Mo) eqn:EC; cbn [negb andb]; [|exists w, false; auto].
  rewrite (mbind_ok _ _ _ _ _ (p_Rows_ok _ _ _ Hs)), (mbind_ok _ _ _ _ _ (p_Rows_ok _ _ _ Hm)).
  destruct (mat_Rows S =? mat_Rows Mo) eqn:ER; cbn [negb]; [|exists w, false; auto].
  rewrite (mbind_ok _ _ _ _ _ (p_IsSparse_ok E _ _ _ Hs)), Es, (mbind_ok _ _ _ _ _ (p_IsSparse_ok E _ _ _ Hm)), Em.
  rewrite (mbind_ok _ _ _ _ _ (p_Values_ok _ _ _ Hs)), (mbind_ok _ _ _ _ _ (p_Values_ok _ _ _ Hm)).
  replace (sps && spm || negb sps && negb spm) with (Bool.eqb sps spm) by (destruct sps, spm; reflexivity).
  destruct (Bool.eqb sps spm && negb (mat_Values S =? mat_Values Mo)); [exists w, false; auto|].
  set (src := if sps then s else m). set (other := if sps then m else s).
  set (Src := if sps then S else Mo) in *. set (Oth := if sps then Mo else S).
  replace (if sps then (s, m) else (m, s)) with (src, other) by (unfold src, other; destruct sps; reflexivity).
  assert (Hsrc : obj w src Src) by (unfold src, Src; destruct sps; auto).
  assert (Hoth : obj w other Oth) by (unfold other, Oth; destruct sps; auto).
  assert (Ws : wf Src) by (eapply Hw; eauto). assert (Wo : wf Oth) by (eapply Hw; eauto).
  assert (Hin : forall i j, inb Src i j -> inb Oth i j).
  { intros i j. unfold inb, Src, Oth. destruct sps; lia. }
  destruct (enumerate_polls E src false (fun r c v =>
        let! mV := p_At other r c in
        if negb (neqb v mV) then mret (Some false) else mret None) Src
      (fun d w1 => (w_heap w1 = w_heap w /\ forallb (agrees Oth) d = true) /\ running E w w1 (length d))
      (fun d w1 => (w_heap w1 = w_heap w /\ forallb (agrees Oth) d = true) /\ running E w w1 (Datatypes.S (length d)))
      (fun d e b w1 => w_heap w1 = w_heap w /\ b = false /\ agrees Oth e = false) w Ws Hfu Hsrc)
    as (w' & o & He & Hend).
  - intros d w1 w2 [[H1 H2] H3] Hp. destruct (poll_heap E w1) as (w2' & b & Hp' & Hh & _). rewrite Hp in Hp'. injection Hp' as <- _.
    split; [unfold obj in *; rewrite Hh, H1; exact Hsrc|]. split; [split; congruence|]. eapply running_go; eauto.
  - intros d r c v rest w1 Hd [[H1 H2] H3].
    assert (Hb : inb Oth r c).
    { apply Hin. apply (entries_inb Src r c v Hz Ws). rewrite Hd. apply in_or_app; right; left; reflexivity. }
    assert (Hoth1 : obj w1 other Oth) by (unfold obj in *; rewrite H1; exact Hoth).
    rewrite (mbind_ok _ _ _ _ _ (p_At_ok _ _ _ _ _ Hz Hoth1 Wo Hb)).
    destruct (neqb v (peek Oth r c)) eqn:E1; cbn [negb].
    + eexists _, _. split; [reflexivity|]. rewrite app_length, Nat.add_1_r. split; [|exact H3]. split; [exact H1|]. rewrite forallb_app, H2. cbn [forallb agrees fst snd andb].
      unfold agrees. cbn [fst snd]. rewrite E1. reflexivity.
    + eexists _, _. split; [reflexivity|]. split; [exact H1|]. split; [reflexivity|exact E1].
  - split; [split; reflexivity|apply running_start].
  - rewrite (mbind_ok _ _ _ _ _ He).
    assert (Ev : (if sps then forallb (agrees Mo) (entries S) else forallb (agrees S) (entries Mo)) = forallb (agrees Oth) (entries Src)).
    { unfold Oth, Src. destruct sps; reflexivity. }
    rewrite Ev. replace (Z.to_nat (mat_Values Src)) with (length (entries Src)) by (rewrite <- (zlen_entries Src Ws); unfold zlen; lia).
    destruct Hend as [(-> & [H1 H2] & H3)|[(-> & d & e & l & w1 & Hd & [[H1 H2] H3] & H4)|(d & e & l & b & -> & Hd & H1 & -> & H2)]].
    + exists w', true. do 2 (split; [auto|]). split; [auto|]. rewrite H2. cbn [andb]. unfold in_time, running in *.
      destruct (e_ctx E); [|reflexivity]. symmetry. apply Bool.orb_true_iff. rewrite Nat.eqb_eq, Nat.leb_le. lia.
    + destruct (poll_heap E w1) as (w2' & b & Hp' & Hh & Hbg). rewrite H4 in Hp'. injection Hp' as <- <-.
      exists w', false. split; [reflexivity|]. split; [congruence|]. split; [intros Hn; destruct (Hbg Hn); discriminate|].
      symmetry. apply Bool.andb_false_iff. right. unfold in_time, running, poll in *.
      destruct (e_ctx E) as [k|]; [|discriminate]. injection H4 as Hw' Hk. apply Nat.leb_le in Hk.
      rewrite Hd, app_length. cbn [length]. apply Bool.orb_false_iff. rewrite Nat.eqb_neq, Nat.leb_gt. lia.
    + assert (Hf : forallb (agrees Oth) (entries Src) = false).
      { rewrite Hd, forallb_app. cbn [forallb]. rewrite H2, Bool.andb_false_r. reflexivity. }
      exists w', false. split; [reflexivity|]. split; [exact H1|]. rewrite Hf. auto.
Qed.

(** what the loop checks: the stored cells of the enumerated object *)
Lemma agrees_cells Src Oth R C f g : zero_ok N -> good Src -> wf Oth -> denotes Src R C f -> denotes Oth R C g ->
  (forallb (agrees Oth) (entries Src) = true <->
   forall i j, 0 <= i < R -> 0 <= j < C -> stored Src (f i j) = true -> neqb (f i j) (g i j) = true).
Proof.
  intros Hz Hg Hw Ds Do. pose proof Ds as (SR & SC & _). pose proof Do as (OR & OC & _). rewrite forallb_forall. split.
  - intros H i j Hi Hj Hst. assert (Hb : inb Src i j) by (unfold inb; lia). assert (Hb' : inb Oth i j) by (unfold inb; lia).
    rewrite stored_is_sp in Hst. rewrite <- (denotes_peek _ _ _ _ _ _ Ds Hb) in Hst |- *.
    destruct (peek_entries Src i j Hz Hg Hb) as [(v & Hin & Hv)|(Hsp & Hiz & _)].
    + specialize (H _ Hin). unfold agrees in H. cbn [fst snd] in H. rewrite (denotes_peek _ _ _ _ _ _ Do Hb') in H. rewrite Hv. exact H.
    + rewrite Hsp, Hiz in Hst. discriminate.
  - intros H [[i j] v] Hin. unfold agrees. cbn [fst snd]. apply entries_spec in Hin; auto. destruct Hin as (Hb & Hv & Hnz).
    assert (Hb' : inb Oth i j) by (unfold inb in *; lia).
    rewrite (denotes_peek _ _ _ _ _ _ Do Hb'), <- Hv, (denotes_peek _ _ _ _ _ _ Ds Hb).
    unfold inb in Hb. apply H; [lia|lia|]. rewrite stored_is_sp, <- (denotes_peek _ _ _ _ _ _ Ds Hb), Hv.
    destruct (is_sp Src); [rewrite Hnz by auto|]; reflexivity.
Qed.

Lemma dense_values m R C f : zero_ok N -> wf m -> is_dense m -> denotes m R C f -> mat_Values m = R * C.
Proof.
  intros Hz Hw Hd Hden. pose proof Hden as (ER & EC & _).
  assert (Hg : good m) by (split; [auto|destruct m; try contradiction; discriminate]).
  assert (Hsp : is_sp m = false) by (destruct m; try contradiction; reflexivity).
  rewrite <- zlen_entries by auto. rewrite <- (zlen_map fst), entries_dense_pos, ER, EC by auto.
  pose proof (wf_dims m Hw). rewrite zlen_all_cells by lia. reflexivity.
Qed.

(** two objects of the same storage class *)
Definition all_equal (R C : Z) (f g : Z -> Z -> V) : Prop :=
  forall i j, 0 <= i < R -> 0 <= j < C -> neqb (f i j) (g i j) = true.

Lemma verdict_dense S Mo R C f g : zero_ok N -> cmp_ok N -> wf S -> wf Mo -> is_dense S -> is_dense Mo ->
  denotes S R C f -> denotes Mo R C g -> (verdict false false S Mo = true <-> all_equal R C f g).
Proof.
  intros Hz [Hsy _] Ws Wm Ps Pm Ds Dm. unfold verdict.
  pose proof Ds as (SR & SC & _). pose proof Dm as (MR & MC & _).
  rewrite SR, SC, MR, MC, !Z.eqb_refl. cbn [andb Bool.eqb].
  rewrite (dense_values S R C f), (dense_values Mo R C g), Z.eqb_refl by auto. cbn [negb].
  assert (Gm : good Mo) by (split; [auto|destruct Mo; try contradiction; discriminate]).
  rewrite (agrees_cells Mo S R C g f) by auto. unfold all_equal. split; intros H i j Hi Hj.
  - rewrite Hsy. apply H; auto. destruct Mo; try contradiction; reflexivity.
  - intros _. rewrite Hsy. apply H; auto.
Qed.

Lemma support_incl S Mo R C f g : zero_ok N -> cmp_ok N -> good S -> good Mo -> is_sp S = true -> is_sp Mo = true ->
  denotes S R C f -> denotes Mo R C g ->
  (forall i j, 0 <= i < R -> 0 <= j < C -> stored S (f i j) = true -> neqb (f i j) (g i j) = true) ->
  incl (map fst (entries S)) (map fst (entries Mo)).
Proof.
  intros Hz [Hsy Hze] Gs Gm Ps Pm Ds Dm H [i j] Hin. pose proof Ds as (SR & SC & _). pose proof Dm as (MR & MC & _).
  apply in_map_iff in Hin as ([[a b] v] & Ea & Hin). cbn [fst] in Ea. injection Ea as -> ->.
  apply entries_spec in Hin; auto. destruct Hin as (Hb & Hv & Hnz). specialize (Hnz Ps).
  assert (Hb' : inb Mo i j) by (unfold inb in *; lia).
  rewrite (denotes_peek _ _ _ _ _ _ Ds Hb) in Hv.
  assert (Heq : neqb (f i j) (g i j) = true).
  { unfold inb in Hb. apply H; [lia|lia|]. rewrite stored_is_sp, Hv, Ps, Hnz. reflexivity. }
  assert (Hg0 : isz (g i j) = false).
  { unfold isz in *. rewrite <- (Hze _ _ Heq), Hv. exact Hnz. }
  destruct (peek_entries Mo i j Hz Gm Hb') as [(u & Hu & _)|(_ & Hiz & _)].
  - apply (in_map fst) in Hu. exact Hu.
  - rewrite (denotes_peek _ _ _ _ _ _ Dm Hb') in Hiz. congruence.
Qed.

Lemma verdict_sparse sp S Mo R C f g : zero_ok N -> cmp_ok N -> good S -> good Mo -> is_sp S = true -> is_sp Mo = true ->
  denotes S R C f -> denotes Mo R C g -> (verdict sp sp S Mo = true <-> all_equal R C f g).
Proof.
  intros Hz Hc Gs Gm Ps Pm Ds Dm. pose proof Hc as [Hsy Hze]. unfold verdict.
  pose proof Ds as (SR & SC & _). pose proof Dm as (MR & MC & _).
  rewrite SR, SC, MR, MC, !Z.eqb_refl. cbn [andb]. rewrite Bool.eqb_reflx. cbn [andb].
  (* a one-sided check together with equal counts is a two-sided check *)
  assert (Key : forall (A B : mat) (fa fb : Z -> Z -> V), good A -> good B -> is_sp A = true -> is_sp B = true ->
    denotes A R C fa -> denotes B R C fb -> mat_Values A = mat_Values B ->
    (forall i j, 0 <= i < R -> 0 <= j < C -> stored A (fa i j) = true -> neqb (fa i j) (fb i j) = true) ->
    forall i j, 0 <= i < R -> 0 <= j < C -> neqb (fa i j) (fb i j) = true).
  { intros A B fa fb Ga Gb Pa Pb Da Db Hval H i j Hi Hj.
    assert (Hinc := support_incl A B R C fa fb Hz Hc Ga Gb Pa Pb Da Db H).
    assert (Hback : incl (map fst (entries B)) (map fst (entries A))).
    { apply NoDup_length_incl; [apply entries_NoDup; auto| |exact Hinc].
      rewrite <- !zlen_entries in Hval by (apply Ga || apply Gb). unfold zlen in Hval. rewrite !map_length. lia. }
    pose proof Da as (AR & AC & _). pose proof Db as (BR & BC & _).
    assert (Hba : inb A i j) by (unfold inb; lia). assert (Hbb : inb B i j) by (unfold inb; lia).
    destruct (stored A (fa i j)) eqn:Est; [apply H; auto|].
    rewrite stored_is_sp, Pa in Est. cbn [andb] in Est. apply Bool.negb_false_iff in Est.
    pose proof (peek_zero A i j Hz Ga Pa Hba) as Hpa. rewrite (denotes_peek _ _ _ _ _ _ Da Hba) in Hpa.
    rewrite (Hpa Est) in *.
    destruct (peek_entries B i j Hz Gb Hbb) as [(u & Hu & _)|(_ & Hiz & _)].
    - apply (in_map fst) in Hu. apply Hback in Hu. apply in_map_iff in Hu as ([[a b] v] & Ea & Hin). cbn [fst] in Ea. injection Ea as -> ->.
      apply entries_spec in Hin; auto. destruct Hin as (_ & Hv & Hnz). rewrite (denotes_peek _ _ _ _ _ _ Da Hba), (Hpa Est) in Hv.
      specialize (Hnz Pa). subst v. unfold zero_ok in Hz. unfold isz in Hnz. congruence.
    - pose proof (peek_zero B i j Hz Gb Pb Hbb Hiz) as Hpb. rewrite (denotes_peek _ _ _ _ _ _ Db Hbb) in Hpb.
      rewrite Hpb. exact Hz. }
  assert (Hcnt : all_equal R C f g -> mat_Values S = mat_Values Mo).
  { intros H. rewrite <- !zlen_entries by (apply Gs || apply Gm). rewrite <- (zlen_map fst (entries S)), <- (zlen_map fst (entries Mo)).
    unfold zlen. f_equal. apply Nat.le_antisymm; apply NoDup_incl_length; try (apply entries_NoDup; auto).
    - apply (support_incl S Mo R C f g); auto.
    - apply (support_incl Mo S R C g f); auto. intros i j Hi Hj _. rewrite Hsy. apply H; auto. }
  split.
  - destruct (mat_Values S =? mat_Values Mo) eqn:Ev; cbn [negb]; [|discriminate]. apply Z.eqb_eq in Ev. destruct sp.
    + rewrite (agrees_cells S Mo R C f g) by (auto; apply Gm). intros H i j Hi Hj. apply (Key S Mo f g); auto.
    + rewrite (agrees_cells Mo S R C g f) by (auto; apply Gs). intros H i j Hi Hj. rewrite Hsy. apply (Key Mo S g f); auto.
  - intros H. rewrite (Hcnt H), Z.eqb_refl. cbn [negb]. destruct sp.
    + rewrite (agrees_cells S Mo R C f g) by (auto; apply Gm). auto.
    + rewrite (agrees_cells Mo S R C g f) by (auto; apply Gs). intros i j Hi Hj _. rewrite Hsy. apply H; auto.
Qed.

(** a sparse object against a dense one: one direction only *)
Lemma verdict_mixed sps S Mo R C f g : zero_ok N -> cmp_ok N -> good S -> good Mo ->
  denotes S R C f -> denotes Mo R C g ->
  (verdict sps (negb sps) S Mo = true <->
   forall i j, 0 <= i < R -> 0 <= j < C -> stored (if sps then S else Mo) (if sps then f i j else g i j) = true -> neqb (f i j) (g i j) = true).
Proof.
  intros Hz [Hsy _] Gs Gm Ds Dm. unfold verdict.
  pose proof Ds as (SR & SC & _). pose proof Dm as (MR & MC & _).
  rewrite SR, SC, MR, MC, !Z.eqb_refl. cbn [andb].
  replace (Bool.eqb sps (negb sps)) with false by (destruct sps; reflexivity). cbn [andb].
  destruct sps.
  - apply agrees_cells; auto; apply Gm.
  - rewrite (agrees_cells Mo S R C g f) by (auto; apply Gs). split; intros H i j Hi Hj Hst; rewrite Hsy; apply H; auto.
Qed.

(** ** Remapping the values of any object *)
Lemma sv_read_map (ents : row) (g : Z -> V -> V) i l : zero_ok N -> ents_ok l ents -> 0 <= i < l ->
  (forall v, isz v = false -> In (i, v) ents -> isz (g i v) = false) ->
  sv_read (map (fun e => (fst e, g (fst e) (snd e))) ents) i =
  if isz (sv_read ents i) then n0 else g i (sv_read ents i).
Proof.
  intros Hz (H0 & H1 & H2) Hi Hnz. set (ents' := map _ ents).
  assert (Hfst : map fst ents' = map fst ents) by (unfold ents'; rewrite map_map; reflexivity).
  assert (Hsnd : zlen (map snd ents') = zlen (map snd ents)) by (unfold ents'; zl; reflexivity).
  pose proof (sv_AtVec_read l ents i Hi) as R1. pose proof (sv_AtVec_read l ents' i Hi) as R2.
  destruct (sv_probe l ents i) as [(lo & v & hi & He & Hx & Hh)|(lo & hi & He & Hx & Hh)].
  - assert (Hv : sv_AtVec (mk_sv l ents) i = Ok v).
    { unfold sv_AtVec, sv_Length. cbn [sv_l mk_sv]. destruct ((i <? 0) || (i >=? l)) eqn:E; [lia|].
      rewrite Hx. cbn [rbind]. rewrite Hh. cbn [rbind]. cbn [sv_values mk_sv].
      rewrite He, map_app. cbn [map snd]. apply zget_mid. zl. reflexivity. }
    rewrite Hv in R1. injection R1 as <-.
    assert (Hnv : isz v = false).
    { rewrite He in H2. apply Forall_app in H2 as [_ H2]. inversion H2; auto. }
    rewrite Hnv.
    assert (Hv' : sv_AtVec (mk_sv l ents') i = Ok (g i v)).
    { unfold sv_AtVec, sv_Length. cbn [sv_l mk_sv]. destruct ((i <? 0) || (i >=? l)) eqn:E; [lia|].
      unfold sv_index, sv_hit in *. cbn [sv_indices mk_sv] in *. rewrite Hfst. rewrite Hx. cbn [rbind]. rewrite Hh. cbn [rbind sv_values mk_sv].
      unfold ents'. rewrite He, !map_app. cbn [map snd fst]. apply zget_mid. zl. reflexivity. }
    congruence.
  - assert (Hv : sv_AtVec (mk_sv l ents) i = Ok n0).
    { unfold sv_AtVec, sv_Length. cbn [sv_l mk_sv]. destruct ((i <? 0) || (i >=? l)) eqn:E; [lia|].
      rewrite Hx. cbn [rbind]. rewrite Hh. reflexivity. }
    rewrite Hv in R1. injection R1 as <-. unfold isz. rewrite Hz.
    assert (Hv' : sv_AtVec (mk_sv l ents') i = Ok n0).
    { unfold sv_AtVec, sv_Length. cbn [sv_l mk_sv]. destruct ((i <? 0) || (i >=? l)) eqn:E; [lia|].
      unfold sv_index, sv_hit in *. cbn [sv_indices mk_sv] in *. rewrite Hfst. rewrite Hx. cbn [rbind]. rewrite Hh. reflexivity. }
    congruence.
Qed.

End Eq.
