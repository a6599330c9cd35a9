(** Sorted association lists (the abstract content of one compressed row), and
    correctness of the two binary-search loops. *)
From Coq Require Import Sorted.
From Verif Require Import GoBase Num BaseProofs SparseVec Csr.

Definition ksorted (l : list Z) : Prop := StronglySorted Z.lt l.

Lemma ksorted_nil : ksorted []. Proof. constructor. Qed.

Lemma ksorted_app l1 l2 :
  ksorted (l1 ++ l2) <->
  ksorted l1 /\ ksorted l2 /\ (forall x y, In x l1 -> In y l2 -> x < y).
Proof.
  induction l1 as [|a l1 IH]; simpl.
  - split; [intros H; repeat split; [constructor|exact H|tauto]|tauto].
  - split.
    + intros H. inversion H as [|? ? Hs Hf]; subst. apply IH in Hs as (H1 & H2 & H3).
      rewrite Forall_app in Hf. destruct Hf as [Hf1 Hf2].
      repeat split; [constructor; auto|auto|].
      intros x y [<-|Hx] Hy; [rewrite Forall_forall in Hf2; auto|auto].
    + intros (H1 & H2 & H3). inversion H1; subst. constructor.
      * apply IH. repeat split; auto.
      * apply Forall_app. split; [auto|]. apply Forall_forall. intros; apply H3; auto.
Qed.

Lemma ksorted_cons a l : ksorted (a :: l) <-> ksorted l /\ Forall (fun y => a < y) l.
Proof.
  split; [intros H; inversion H; auto|intros [H1 H2]; constructor; auto].
Qed.

Lemma ksorted_NoDup l : ksorted l -> NoDup l.
Proof.
  induction l as [|a l IH]; intros H; [constructor|].
  apply ksorted_cons in H as [H1 H2]. constructor; [|auto].
  rewrite Forall_forall in H2. intros Hin. specialize (H2 a Hin). lia.
Qed.

Section Assoc.
Context {N : num}.
Notation V := (T N).
Notation row := (list (Z * V)).

Fixpoint alookup (c : Z) (l : row) : option V :=
  match l with
  | [] => None
  | (k, v) :: t => if k =? c then Some v else alookup c t
  end.

Definition aval (c : Z) (l : row) : V :=
  match alookup c l with Some v => v | None => n0 end.

(** write [x] under key [c], deleting the key when [x] is zero *)
Definition aput (c : Z) (x : V) (l : row) : row :=
  filter (fun e => fst e <? c) l ++
  (if isz x then [] else [(c, x)]) ++
  filter (fun e => c <? fst e) l.

Definition klt (c : Z) (l : row) : Prop := Forall (fun e => fst e < c) l.
Definition kgt (c : Z) (l : row) : Prop := Forall (fun e => c < fst e) l.

Lemma row_split (l : row) c :
  ksorted (map fst l) ->
  (exists lo v hi, l = lo ++ (c, v) :: hi /\ klt c lo /\ kgt c hi) \/
  (exists lo hi, l = lo ++ hi /\ klt c lo /\ kgt c hi).
Proof.
  induction l as [|[k v] l IH]; intros Hs.
  - right. exists [], []. repeat split; constructor.
  - simpl in Hs. apply ksorted_cons in Hs as [Hs Hf].
    destruct (Z_lt_dec k c) as [Hk|Hk].
    + destruct (IH Hs) as [(lo & w & hi & -> & H1 & H2)|(lo & hi & -> & H1 & H2)].
      * left. exists ((k, v) :: lo), w, hi. repeat split; auto. constructor; auto.
      * right. exists ((k, v) :: lo), hi. repeat split; auto. constructor; auto.
    + assert (Hg : forall d, d <= k -> kgt d l).
      { intros d Hd. apply Forall_forall. intros e He. rewrite Forall_forall in Hf.
        specialize (Hf (fst e) (in_map fst l e He)). lia. }
      destruct (Z.eq_dec k c) as [->|Hne].
      * left. exists [], v, l. repeat split; [constructor|apply Hg; lia].
      * right. exists [], ((k, v) :: l). repeat split; [constructor|].
        constructor; [simpl; lia|apply Hg; lia].
Qed.

Lemma filter_lt_klt c l : klt c l -> filter (fun e : Z * V => fst e <? c) l = l.
Proof.
  induction 1 as [|e l He Hl IH]; simpl; [reflexivity|].
  destruct (fst e <? c) eqn:E; [f_equal; auto|lia].
Qed.
Lemma filter_lt_kgt c l : kgt c l -> filter (fun e : Z * V => fst e <? c) l = [].
Proof.
  induction 1 as [|e l He Hl IH]; simpl; [reflexivity|].
  destruct (fst e <? c) eqn:E; [lia|auto].
Qed.
Lemma filter_gt_kgt c l : kgt c l -> filter (fun e : Z * V => c <? fst e) l = l.
Proof.
  induction 1 as [|e l He Hl IH]; simpl; [reflexivity|].
  destruct (c <? fst e) eqn:E; [f_equal; auto|lia].
Qed.
Lemma filter_gt_klt c l : klt c l -> filter (fun e : Z * V => c <? fst e) l = [].
Proof.
  induction 1 as [|e l He Hl IH]; simpl; [reflexivity|].
  destruct (c <? fst e) eqn:E; [lia|auto].
Qed.

Lemma aput_hit c x v lo hi :
  klt c lo -> kgt c hi ->
  aput c x (lo ++ (c, v) :: hi) = lo ++ (if isz x then [] else [(c, x)]) ++ hi.
Proof.
  intros H1 H2. unfold aput. rewrite !filter_app. simpl. rewrite Z.ltb_irrefl.
  rewrite filter_lt_klt, filter_lt_kgt, filter_gt_klt, filter_gt_kgt by auto.
  rewrite app_nil_r. reflexivity.
Qed.

Lemma aput_miss c x lo hi :
  klt c lo -> kgt c hi ->
  aput c x (lo ++ hi) = lo ++ (if isz x then [] else [(c, x)]) ++ hi.
Proof.
  intros H1 H2. unfold aput. rewrite !filter_app.
  rewrite filter_lt_klt, filter_lt_kgt, filter_gt_klt, filter_gt_kgt by auto.
  rewrite app_nil_r. reflexivity.
Qed.

Lemma alookup_app c l1 l2 :
  alookup c (l1 ++ l2) = match alookup c l1 with Some v => Some v | None => alookup c l2 end.
Proof.
  induction l1 as [|[k v] l1 IH]; simpl; [reflexivity|]. destruct (k =? c); auto.
Qed.
Lemma alookup_notin c l : ~ In c (map fst l) -> alookup c l = None.
Proof.
  induction l as [|[k v] l IH]; simpl; intros H; [reflexivity|].
  destruct (k =? c) eqn:E; [exfalso; apply H; left; lia|apply IH; tauto].
Qed.
Lemma klt_notin c d l : klt c l -> c <= d -> ~ In d (map fst l).
Proof.
  intros H Hd Hin. apply in_map_iff in Hin as (e & <- & He).
  unfold klt in H. rewrite Forall_forall in H. specialize (H e He). lia.
Qed.
Lemma kgt_notin c d l : kgt c l -> d <= c -> ~ In d (map fst l).
Proof.
  intros H Hd Hin. apply in_map_iff in Hin as (e & <- & He).
  unfold kgt in H. rewrite Forall_forall in H. specialize (H e He). lia.
Qed.
Lemma alookup_in_iff (l : row) c v :
  ksorted (map fst l) -> (alookup c l = Some v <-> In (c, v) l).
Proof.
  intros Hs. split.
  - clear Hs. induction l as [|[k w] l IH]; simpl; [discriminate|].
    destruct (k =? c) eqn:E; intros H.
    + left. inversion H; subst. f_equal. lia.
    + right. auto.
  - induction l as [|[k w] l IH]; simpl in *; [tauto|].
    apply ksorted_cons in Hs as [Hs Hf]. intros [H|H].
    + inversion H; subst. rewrite Z.eqb_refl. reflexivity.
    + destruct (k =? c) eqn:E; [|auto].
      rewrite Forall_forall in Hf.
      specialize (Hf c (in_map fst l (c, v) H)). lia.
Qed.

Lemma alookup_hit c v lo hi :
  klt c lo -> alookup c (lo ++ (c, v) :: hi) = Some v.
Proof.
  intros H1. rewrite alookup_app, alookup_notin by (eapply klt_notin; eauto; lia).
  simpl. rewrite Z.eqb_refl. reflexivity.
Qed.
Lemma alookup_miss c lo hi :
  klt c lo -> kgt c hi -> alookup c (lo ++ hi) = None.
Proof.
  intros H1 H2. rewrite alookup_app.
  rewrite !alookup_notin; [reflexivity|eapply kgt_notin; eauto; lia|eapply klt_notin; eauto; lia].
Qed.

(** written values are normalised: anything that compares equal to zero is
    not stored and reads back as the zero value *)
Definition norm (x : V) : V := if isz x then n0 else x.

Lemma alookup_aput_same c x l : ksorted (map fst l) ->
  alookup c (aput c x l) = if isz x then None else Some x.
Proof.
  intros Hs.
  destruct (row_split l c Hs) as [(lo & v & hi & -> & H1 & H2)|(lo & hi & -> & H1 & H2)];
    [rewrite aput_hit by auto|rewrite aput_miss by auto];
    (destruct (isz x); simpl; [apply alookup_miss; auto|apply alookup_hit; auto]).
Qed.

Lemma alookup_aput_other c d x l : ksorted (map fst l) -> d <> c ->
  alookup d (aput c x l) = alookup d l.
Proof.
  intros Hs Hd.
  assert (Hx : forall hi, alookup d ((if isz x then [] else [(c, x)]) ++ hi) = alookup d hi).
  { intros hi. destruct (isz x); simpl; [reflexivity|].
    destruct (c =? d) eqn:E; [lia|reflexivity]. }
  destruct (row_split l c Hs) as [(lo & v & hi & -> & H1 & H2)|(lo & hi & -> & H1 & H2)];
    [rewrite aput_hit by auto|rewrite aput_miss by auto]; rewrite !(alookup_app d lo), Hx.
  - simpl. destruct (c =? d) eqn:E; [lia|reflexivity].
  - reflexivity.
Qed.

Lemma aval_aput c d x l : ksorted (map fst l) ->
  aval d (aput c x l) = if d =? c then norm x else aval d l.
Proof.
  intros Hs. unfold aval, norm. destruct (d =? c) eqn:E.
  - apply Z.eqb_eq in E as ->. rewrite alookup_aput_same by auto.
    destruct (isz x); reflexivity.
  - rewrite alookup_aput_other by (auto; lia). reflexivity.
Qed.

Lemma aput_sorted c x l : ksorted (map fst l) -> ksorted (map fst (aput c x l)).
Proof.
  intros Hs.
  assert (Hg : forall lo hi, ksorted (map fst lo) -> ksorted (map fst hi) ->
            klt c lo -> kgt c hi ->
            ksorted (map fst (lo ++ (if isz x then [] else [(c, x)]) ++ hi))).
  { intros lo hi S1 S2 H1 H2. rewrite !map_app. apply ksorted_app.
    assert (Hmid : ksorted (map fst ((if isz x then [] else [(c, x)]) ++ hi))).
    { destruct (isz x); simpl; [exact S2|]. apply ksorted_cons. split; [exact S2|].
      apply Forall_map. exact H2. }
    rewrite map_app in Hmid.
    repeat split; [exact S1|exact Hmid|].
    intros a b Ha Hb.
    assert (Hac : a < c) by (apply in_map_iff in Ha as (e & <- & He);
      unfold klt in H1; rewrite Forall_forall in H1; auto).
    assert (Hcb : c <= b); [|lia].
    apply in_app_or in Hb as [Hb|Hb].
    - destruct (isz x); simpl in Hb; [tauto|]. destruct Hb as [<-|[]]. lia.
    - apply in_map_iff in Hb as (e & <- & He). unfold kgt in H2.
      rewrite Forall_forall in H2. specialize (H2 e He). lia. }
  destruct (row_split l c Hs) as [(lo & v & hi & -> & H1 & H2)|(lo & hi & -> & H1 & H2)];
    [rewrite aput_hit by auto|rewrite aput_miss by auto];
    rewrite map_app in Hs; apply ksorted_app in Hs as (S1 & S2 & _).
  - simpl in S2. apply ksorted_cons in S2 as [S2 _]. auto.
  - auto.
Qed.

Lemma aput_Forall (P : Z * V -> Prop) c x l :
  Forall P l -> (isz x = false -> P (c, x)) -> Forall P (aput c x l).
Proof.
  intros H1 H2. unfold aput. rewrite !Forall_app. repeat split.
  - apply Forall_forall. intros e He. apply filter_In in He as [He _].
    rewrite Forall_forall in H1. auto.
  - destruct (isz x) eqn:E; constructor; auto.
  - apply Forall_forall. intros e He. apply filter_In in He as [He _].
    rewrite Forall_forall in H1. auto.
Qed.

(** rewriting an entry with the value it already has changes nothing *)
Lemma aput_same c l : ksorted (map fst l) -> Forall (fun e => isz (snd e) = false) l ->
  isz (@n0 N) = true -> aput c (aval c l) l = l.
Proof.
  intros Hs Hz H0.
  destruct (row_split l c Hs) as [(lo & v & hi & -> & H1 & H2)|(lo & hi & -> & H1 & H2)].
  - unfold aval. rewrite alookup_hit by auto. rewrite aput_hit by auto.
    apply Forall_app in Hz as [_ Hz]. inversion Hz as [|? ? Hv _]; subst. simpl in Hv.
    rewrite Hv. reflexivity.
  - unfold aval. rewrite alookup_miss by auto. rewrite aput_miss by auto.
    rewrite H0. reflexivity.
Qed.

End Assoc.

(** ** Binary search *)

Lemma search_mid {A} (K1 lo hi K2 : list A) p :
  zlen K1 <= p < zlen K1 + zlen lo + zlen hi ->
  (exists lo1 x lo2, lo = lo1 ++ x :: lo2 /\ p = zlen K1 + zlen lo1 /\
      zget (K1 ++ lo ++ hi ++ K2) p = Ok x) \/
  (exists hi1 x hi2, hi = hi1 ++ x :: hi2 /\ p = zlen K1 + zlen lo + zlen hi1 /\
      zget (K1 ++ lo ++ hi ++ K2) p = Ok x).
Proof.
  intros H. destruct (Z_lt_dec p (zlen K1 + zlen lo)) as [Hp|Hp].
  - left. destruct (list_split lo (p - zlen K1) ltac:(lia)) as (lo1 & x & lo2 & -> & Hl).
    exists lo1, x, lo2. repeat split; [lia|].
    rewrite zget_app2 by lia. rewrite <- app_assoc. simpl. apply zget_mid. lia.
  - right. destruct (list_split hi (p - zlen K1 - zlen lo) ltac:(lia)) as (hi1 & x & hi2 & -> & Hl).
    exists hi1, x, hi2. repeat split; [lia|].
    rewrite zget_app2 by lia. rewrite zget_app2 by lia.
    rewrite <- app_assoc. simpl. apply zget_mid. lia.
Qed.

Lemma quot2_mid s e : 0 <= s < e -> s <= Z.quot (s + e) 2 < e.
Proof.
  intros H. rewrite Z.quot_div_nonneg by lia.
  split; [apply Z.div_le_lower_bound; lia|apply Z.div_lt_upper_bound; lia].
Qed.

Lemma csr_search_spec fuel : forall K1 lo hi K2 c start end_,
  Forall (fun x => x < c) lo -> Forall (fun x => c <= x) hi -> ksorted hi ->
  start = zlen K1 -> end_ = zlen K1 + zlen lo + zlen hi ->
  (Z.to_nat (end_ - start) < fuel)%nat ->
  exists e, csr_search fuel (K1 ++ lo ++ hi ++ K2) c start end_ = Ok (zlen K1 + zlen lo, e) /\
    ((exists t, hi = c :: t) -> zlen K1 + zlen lo < e) /\
    (Forall (fun x => c < x) hi -> e = zlen K1 + zlen lo).
Proof.
  induction fuel as [|fuel IH]; intros K1 lo hi K2 c start end_ Hlo Hhi Hs -> -> Hf; [lia|].
  pose proof (zlen_nonneg K1); pose proof (zlen_nonneg lo); pose proof (zlen_nonneg hi).
  cbn [csr_search].
  destruct (zlen K1 <? zlen K1 + zlen lo + zlen hi) eqn:E.
  - set (p := Z.quot (zlen K1 + (zlen K1 + zlen lo + zlen hi)) 2).
    assert (Hp : zlen K1 <= p < zlen K1 + zlen lo + zlen hi) by (apply quot2_mid; lia).
    destruct (search_mid K1 lo hi K2 p Hp)
      as [(lo1 & x & lo2 & -> & Hp' & Hx)|(hi1 & x & hi2 & -> & Hp' & Hx)].
    + cbv zeta. fold p. rewrite Hx. cbn [rbind].
      apply Forall_app in Hlo as [Hlo1 Hlo2]. inversion Hlo2 as [|? ? Hxc Hlo2']; subst x0 l.
      destruct (x >? c) eqn:E1; [lia|]. destruct (x <? c) eqn:E2; [|lia].
      destruct (IH (K1 ++ lo1 ++ [x]) lo2 hi K2 c (p + 1) (zlen K1 + zlen (lo1 ++ x :: lo2) + zlen hi))
        as (e & He & Hhit & Hmiss); auto; try (zl; lia).
      exists e. rewrite <- !app_assoc in He. simpl in He.
      rewrite <- !app_assoc. simpl. zl.
      split; [|split].
      * rewrite He. f_equal. f_equal. lia.
      * intros Ht. specialize (Hhit Ht). lia.
      * intros Ht. specialize (Hmiss Ht). lia.
    + cbv zeta. fold p. rewrite Hx. cbn [rbind].
      apply Forall_app in Hhi as [Hhi1 Hhi2]. inversion Hhi2 as [|? ? Hxc Hhi2']; subst x0 l.
      apply ksorted_app in Hs as (S1 & S2 & S3).
      destruct (x >? c) eqn:E1.
      * destruct (IH K1 lo hi1 (x :: hi2 ++ K2) c (zlen K1) p)
          as (e & He & Hhit & Hmiss); auto; try (zl; lia).
        exists e. rewrite <- !app_assoc. simpl. rewrite He. split; [reflexivity|split].
        -- intros (t & Ht). apply Hhit. destruct hi1 as [|y hi1]; simpl in Ht.
           ++ inversion Ht; lia.
           ++ inversion Ht; subst. eauto.
        -- intros Ht. apply Hmiss. apply Forall_app in Ht as [Ht _]. exact Ht.
      * destruct (x <? c) eqn:E2; [lia|].
        assert (x = c) by lia; subst x.
        assert (hi1 = []) as ->.
        { destruct hi1 as [|y hi1]; [reflexivity|].
          inversion Hhi1; subst. specialize (S3 y c (or_introl eq_refl) (or_introl eq_refl)). lia. }
        rewrite zlen_nil, Z.add_0_r in Hp'. subst p. rewrite Hp'.
        eexists. split; [reflexivity|]. split; [intros _; zl; lia|].
        intros Ht. inversion Ht; lia.
  - assert (zlen lo = 0) by lia. assert (zlen hi = 0) by lia.
    apply zlen_0_nil in H2; apply zlen_0_nil in H3; subst lo hi.
    rewrite !zlen_nil, !Z.add_0_r. eexists. split; [reflexivity|].
    split; [intros (t & Ht); discriminate|intros _; reflexivity].
Qed.

Lemma sv_search_spec fuel : forall K1 lo hi K2 c start end_,
  Forall (fun x => x < c) lo -> Forall (fun x => c <= x) hi -> ksorted hi ->
  start = zlen K1 -> end_ = zlen K1 + zlen lo + zlen hi ->
  (Z.to_nat (end_ - start) < fuel)%nat ->
  sv_search fuel (K1 ++ lo ++ hi ++ K2) c start end_ = Ok (zlen K1 + zlen lo).
Proof.
  intros K1 lo hi K2 c start end_ Hlo Hhi Hs H1 H2 Hf.
  destruct (csr_search_spec fuel K1 lo hi K2 c start end_ Hlo Hhi Hs H1 H2 Hf) as (e & He & _).
  assert (Heq : forall fuel L c s e, sv_search fuel L c s e = rmap fst (csr_search fuel L c s e)).
  { clear. induction fuel; intros L c s e; simpl; [reflexivity|].
    destruct (s <? e); [|reflexivity].
    destruct (zget L (Z.quot (s + e) 2)); simpl; try reflexivity.
    destruct (a >? c); [apply IHfuel|]. destruct (a <? c); [apply IHfuel|]. reflexivity. }
  rewrite Heq, He. reflexivity.
Qed.
