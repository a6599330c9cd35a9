(** Sparse vectors as entry lists. *)
From Verif Require Import GoBase Num BaseProofs SparseVec Csr AssocProofs CsrProofs.

Section Sv.
Context {N : num}.
Notation V := (T N).
Notation row := (list (Z * V)).

(** the vector whose entry list (in storage order) is [ents] *)
Definition mk_sv (l : Z) (ents : row) : svec N := MkSV l (map snd ents) (map fst ents).

(** entries in range and non-zero; order and uniqueness are not required *)
Definition ents_ok (l : Z) (ents : row) : Prop :=
  0 <= l /\ Forall (fun e => 0 <= fst e < l) ents /\ Forall (fun e => isz (snd e) = false) ents.

Lemma row_ok_ents_ok l ents : 0 <= l -> row_ok l ents -> ents_ok l ents.
Proof. intros Hl (_ & H1 & H2). repeat split; auto. Qed.

(** ** Any entry order *)

Lemma sv_search_bounds fuel : forall L i s e,
  0 <= s <= e -> e <= zlen L -> (Z.to_nat (e - s) < fuel)%nat ->
  exists p, sv_search fuel L i s e = Ok p /\ s <= p <= e.
Proof.
  induction fuel as [|fuel IH]; intros L i s e Hs He Hf; [lia|]. cbn [sv_search].
  destruct (s <? e) eqn:E.
  - pose proof (quot2_mid s e ltac:(lia)) as Hq. cbv zeta.
    destruct (zget_ok L (Z.quot (s + e) 2) ltac:(lia)) as (x & ->). cbn [rbind].
    destruct (x >? i).
    + destruct (IH L i s (Z.quot (s + e) 2)) as (p & -> & Hp); try lia. exists p; split; [auto|lia].
    + destruct (x <? i).
      * destruct (IH L i (Z.quot (s + e) 2 + 1) e) as (p & -> & Hp); try lia. exists p; split; [auto|lia].
      * eexists; split; [reflexivity|lia].
  - eexists; split; [reflexivity|lia].
Qed.

Lemma sv_index_bounds l ents i :
  exists p, sv_index (mk_sv l ents) i = Ok (p, zlen ents) /\ 0 <= p <= zlen ents.
Proof.
  unfold sv_index. cbn [sv_indices mk_sv]. zl. pose proof (zlen_nonneg ents).
  destruct (i >? zlen ents) eqn:E; [eexists; split; [reflexivity|lia]|].
  destruct (sv_search_bounds (S (Z.to_nat (zlen ents))) (map fst ents) i 0 (zlen ents))
    as (p & -> & Hp); try (zl; lia).
  eexists; split; [reflexivity|lia].
Qed.

(** where the code looks for index [i]: either it finds an entry with that
    index, or it ends at an insertion point *)
Lemma sv_probe l ents i :
  (exists lo v hi, ents = lo ++ (i, v) :: hi /\
     sv_index (mk_sv l ents) i = Ok (zlen lo, zlen ents) /\
     sv_hit (mk_sv l ents) (zlen lo) (zlen ents) i = Ok true) \/
  (exists lo hi, ents = lo ++ hi /\
     sv_index (mk_sv l ents) i = Ok (zlen lo, zlen ents) /\
     sv_hit (mk_sv l ents) (zlen lo) (zlen ents) i = Ok false).
Proof.
  destruct (sv_index_bounds l ents i) as (p & Hp & Hb).
  destruct (Z_lt_dec p (zlen ents)) as [Hlt|Hge].
  - destruct (list_split ents p ltac:(lia)) as (lo & [k v] & hi & -> & Hlo). subst p.
    assert (Hh : sv_hit (mk_sv l (lo ++ (k, v) :: hi)) (zlen lo) (zlen (lo ++ (k, v) :: hi)) i
                 = Ok (k =? i)).
    { unfold sv_hit. destruct (zlen lo <? zlen (lo ++ (k, v) :: hi)) eqn:E; [|lia].
      cbn [sv_indices mk_sv]. rewrite map_app. cbn [map fst].
      rewrite zget_mid by (zl; lia). reflexivity. }
    destruct (k =? i) eqn:Ek.
    + apply Z.eqb_eq in Ek; subst k. left. exists lo, v, hi. auto.
    + right. exists lo, ((k, v) :: hi). auto.
  - right. exists ents, []. rewrite app_nil_r. replace p with (zlen ents) in Hp by lia.
    repeat split; auto. unfold sv_hit.
    destruct (zlen ents <? zlen ents) eqn:E; [lia|reflexivity].
Qed.

(** the value the code reads at [i] *)
Definition sv_read (ents : row) (i : Z) : V :=
  match sv_AtVec (mk_sv (i + 1) ents) i with Ok v => v | _ => n0 end.

Lemma sv_AtVec_probe l ents i :
  0 <= i < l ->
  (exists lo v hi, ents = lo ++ (i, v) :: hi /\ sv_AtVec (mk_sv l ents) i = Ok v) \/
  sv_AtVec (mk_sv l ents) i = Ok n0.
Proof.
  intros Hi. unfold sv_AtVec, sv_Length. cbn [sv_l mk_sv].
  destruct ((i <? 0) || (i >=? l)) eqn:E; [lia|].
  destruct (sv_probe l ents i) as [(lo & v & hi & -> & -> & H)|(lo & hi & -> & -> & H)].
  - left. cbn [rbind]. rewrite H. cbn [rbind]. exists lo, v, hi. split; [reflexivity|].
    cbn [sv_values mk_sv]. rewrite map_app. cbn [map snd]. apply zget_mid. zl; lia.
  - right. cbn [rbind]. rewrite H. reflexivity.
Qed.

Lemma sv_AtVec_len l l' ents i : 0 <= i < l -> 0 <= i < l' ->
  sv_AtVec (mk_sv l ents) i = sv_AtVec (mk_sv l' ents) i.
Proof.
  intros H1 H2. unfold sv_AtVec, sv_Length. cbn [sv_l mk_sv].
  destruct ((i <? 0) || (i >=? l)) eqn:E1; [lia|].
  destruct ((i <? 0) || (i >=? l')) eqn:E2; [lia|]. reflexivity.
Qed.

Lemma sv_AtVec_read l ents i : 0 <= i < l ->
  sv_AtVec (mk_sv l ents) i = Ok (sv_read ents i).
Proof.
  intros H. unfold sv_read. rewrite (sv_AtVec_len l (i + 1)) by lia.
  destruct (sv_AtVec_probe (i + 1) ents i ltac:(lia)) as [(lo & v & hi & _ & ->)| ->]; reflexivity.
Qed.

Lemma sv_AtVec_panic l ents i : ~ (0 <= i < l) -> sv_AtVec (mk_sv l ents) i = Panic.
Proof.
  intros H. unfold sv_AtVec, sv_Length. cbn [sv_l mk_sv].
  destruct ((i <? 0) || (i >=? l)) eqn:E; [reflexivity|lia].
Qed.

(** what [SetVec] does to the entry list, at whatever position the probe ends *)
Inductive sv_put (i : Z) (x : V) : row -> row -> Prop :=
| sv_put_replace lo v hi :
    sv_put i x (lo ++ (i, v) :: hi) (lo ++ (if isz x then [] else [(i, x)]) ++ hi)
| sv_put_insert lo hi :
    sv_put i x (lo ++ hi) (lo ++ (if isz x then [] else [(i, x)]) ++ hi).

Lemma sv_SetVec_put l ents i x : 0 <= i < l ->
  exists ents', sv_SetVec (mk_sv l ents) i x = Ok (mk_sv l ents') /\ sv_put i x ents ents'.
Proof.
  intros Hi. unfold sv_SetVec, sv_Length. cbn [sv_l mk_sv].
  destruct ((i <? 0) || (i >=? l)) eqn:E; [lia|].
  destruct (sv_probe l ents i) as [(lo & v & hi & -> & -> & H)|(lo & hi & -> & -> & H)];
    cbn [rbind]; rewrite H; cbn [rbind].
  - exists (lo ++ (if isz x then [] else [(i, x)]) ++ hi). split; [|constructor].
    destruct (isz x) eqn:Ex; simpl.
    + unfold sv_remove. cbn [sv_l sv_values sv_indices mk_sv]. rewrite !map_app. cbn [map fst snd].
      rewrite slice_to_app by (zl; lia). cbn [rbind].
      change (i :: map fst hi) with ([i] ++ map fst hi). rewrite (app_assoc _ [i]).
      rewrite slice_from_app by (zl; lia). cbn [rbind].
      rewrite slice_to_app by (zl; lia). cbn [rbind].
      change (v :: map snd hi) with ([v] ++ map snd hi). rewrite (app_assoc _ [v]).
      rewrite slice_from_app by (zl; lia). cbn [rbind].
      unfold mk_sv. rewrite !map_app. reflexivity.
    + cbn [sv_l sv_values sv_indices mk_sv]. rewrite !map_app. cbn [map fst snd].
      rewrite zset_mid by (zl; lia). cbn [rbind]. unfold mk_sv. rewrite !map_app. reflexivity.
  - exists (lo ++ (if isz x then [] else [(i, x)]) ++ hi). split; [|constructor].
    unfold sv_insert. destruct (isz x) eqn:Ex; simpl; [reflexivity|].
    cbn [sv_l sv_values sv_indices mk_sv]. rewrite !map_app.
    rewrite slice_to_app by (zl; lia). cbn [rbind].
    rewrite slice_from_app by (zl; lia). cbn [rbind].
    rewrite slice_to_app by (zl; lia). cbn [rbind].
    rewrite slice_from_app by (zl; lia). cbn [rbind].
    unfold mk_sv. rewrite !map_app. reflexivity.
Qed.

Lemma sv_put_ok l ents ents' i x : ents_ok l ents -> 0 <= i < l -> sv_put i x ents ents' -> ents_ok l ents'.
Proof.
  intros (H0 & H1 & H2) Hi Hp. split; [auto|].
  destruct Hp as [lo v hi|lo hi]; rewrite !Forall_app in *; [
    destruct H1 as [A1 A2]; destruct H2 as [B1 B2]; inversion A2; subst; inversion B2; subst
   |destruct H1 as [A1 A2]; destruct H2 as [B1 B2]];
  (destruct (isz x) eqn:Ex; repeat split; auto; constructor; auto).
Qed.

Lemma sv_SetVec_wf l ents i x : ents_ok l ents -> 0 <= i < l ->
  exists ents', sv_SetVec (mk_sv l ents) i x = Ok (mk_sv l ents') /\ ents_ok l ents'.
Proof.
  intros H Hi. destruct (sv_SetVec_put l ents i x Hi) as (ents' & Hs & Hp).
  exists ents'. split; [exact Hs|]. eapply sv_put_ok; eauto.
Qed.

(** writing back what was read changes nothing *)
Lemma sv_SetVec_read l ents i : zero_ok N -> ents_ok l ents -> 0 <= i < l ->
  sv_SetVec (mk_sv l ents) i (sv_read ents i) = Ok (mk_sv l ents).
Proof.
  intros Hz0 (H0 & H1 & H2) Hi.
  assert (Hr : sv_AtVec (mk_sv l ents) i = Ok (sv_read ents i)) by (apply sv_AtVec_read; auto).
  unfold sv_AtVec, sv_SetVec, sv_Length in *. cbn [sv_l mk_sv] in *.
  destruct ((i <? 0) || (i >=? l)) eqn:E; [lia|].
  destruct (sv_probe l ents i) as [(lo & v & hi & -> & Hix & H)|(lo & hi & -> & Hix & H)];
    rewrite Hix in Hr |- *; cbn [rbind] in Hr |- *; rewrite H in Hr |- *; cbn [rbind] in Hr |- *.
  - cbn [sv_values mk_sv] in *. rewrite map_app in Hr |- *. cbn [map snd] in *.
    rewrite zget_mid in Hr by (zl; lia). injection Hr as Hr'. rewrite <- Hr'.
    apply Forall_app in H2 as [_ H2]. inversion H2 as [|? ? Hv _]; subst. cbn [snd] in Hv.
    rewrite Hv. rewrite zset_mid by (zl; lia). cbn [rbind]. unfold mk_sv. rewrite !map_app. reflexivity.
  - injection Hr as Hr'. rewrite <- Hr'. unfold sv_insert. unfold zero_ok, isz in *. rewrite Hz0. reflexivity.
Qed.

Lemma sv_Update_ok {W} l ents r c (f : V -> W * V) : 0 <= r < l -> c = 0 ->
  sv_Update (mk_sv l ents) r c f =
  (let '(w, x) := f (sv_read ents r) in s' <- sv_SetVec (mk_sv l ents) r x ;; Ok (w, s')).
Proof.
  intros Hr ->. unfold sv_Update, sv_Rows, sv_Columns. cbn [sv_l mk_sv].
  destruct ((r <? 0) || (r >=? l)) eqn:E; [lia|]. simpl.
  fold (mk_sv l ents). rewrite sv_AtVec_read by auto. reflexivity.
Qed.

Lemma sv_At_ok l ents r c : zero_ok N -> ents_ok l ents -> 0 <= r < l -> c = 0 ->
  sv_At (mk_sv l ents) r c = Ok (sv_read ents r, mk_sv l ents).
Proof.
  intros Hz H Hr Hc. unfold sv_At. rewrite sv_Update_ok by auto. cbn [rbind].
  rewrite sv_SetVec_read by auto. reflexivity.
Qed.

(** ** Sorted entries *)

Lemma sv_index_sorted l lo c mid hi :
  klt c lo -> kgt c hi -> (mid = [] \/ exists v, mid = [(c, v)]) ->
  ksorted (map fst (lo ++ mid ++ hi)) ->
  c <= zlen (lo ++ mid ++ hi) ->
  sv_index (mk_sv l (lo ++ mid ++ hi)) c = Ok (zlen lo, zlen (lo ++ mid ++ hi)).
Proof.
  intros Hlo Hhi Hm Hs Hc. unfold sv_index. cbn [sv_indices mk_sv]. rewrite zlen_map.
  destruct (c >? zlen (lo ++ mid ++ hi)) eqn:E; [lia|].
  rewrite map_app in Hs. apply ksorted_app in Hs as (S1 & S2 & S3).
  pose proof (sv_search_spec (S (Z.to_nat (zlen (lo ++ mid ++ hi)))) [] (map fst lo)
    (map fst (mid ++ hi)) [] c 0 (zlen (lo ++ mid ++ hi))) as Hsp.
  rewrite !app_nil_r in Hsp. simpl app in Hsp. rewrite <- map_app in Hsp.
  rewrite Hsp; [cbn [rbind]; rewrite zlen_nil, zlen_map; reflexivity| | | | | |].
  - apply Forall_map. exact Hlo.
  - rewrite map_app. apply Forall_app. split.
    + destruct Hm as [->|(v & ->)]; constructor; [simpl; lia|constructor].
    + apply Forall_map. eapply Forall_impl; [|exact Hhi]. simpl; intros; lia.
  - exact S2.
  - reflexivity.
  - rewrite zlen_nil, !zlen_map. zl. lia.
  - lia.
Qed.

(** Reading a sorted vector: exact for indices up to the number of stored
    entries, zero beyond. *)
Lemma sv_read_sorted l ents i : row_ok l ents -> 0 <= i < l ->
  sv_read ents i = if i <=? zlen ents then aval i ents else n0.
Proof.
  intros (Hs & Hb & Hz) Hi.
  assert (Hr : sv_AtVec (mk_sv l ents) i = Ok (sv_read ents i)) by (apply sv_AtVec_read; auto).
  unfold sv_AtVec, sv_Length in Hr. cbn [sv_l mk_sv] in Hr.
  destruct ((i <? 0) || (i >=? l)) eqn:E; [lia|].
  destruct (i <=? zlen ents) eqn:Ei.
  - destruct (row_split ents i Hs) as [(lo & v & hi & -> & H1 & H2)|(lo & hi & -> & H1 & H2)].
    + change (lo ++ (i, v) :: hi) with (lo ++ [(i, v)] ++ hi) in Hr at 1.
      rewrite sv_index_sorted in Hr by (simpl; eauto; lia). cbn [rbind] in Hr. simpl app in Hr.
      unfold sv_hit in Hr.
      destruct (zlen lo <? zlen (lo ++ (i, v) :: hi)) eqn:E2;
        [|zl; pose proof (zlen_nonneg hi); lia].
      cbn [sv_indices sv_values mk_sv] in Hr. rewrite !map_app in Hr. cbn [map fst snd] in Hr.
      rewrite zget_mid in Hr by (zl; lia). cbn [rbind] in Hr. rewrite Z.eqb_refl in Hr.
      rewrite zget_mid in Hr by (zl; lia). unfold aval. rewrite alookup_hit by auto. congruence.
    + change (lo ++ hi) with (lo ++ [] ++ hi) in Hr at 1.
      rewrite sv_index_sorted in Hr by (simpl; eauto; lia). cbn [rbind] in Hr. simpl app in Hr.
      unfold aval. rewrite alookup_miss by auto.
      unfold sv_hit in Hr. destruct (zlen lo <? zlen (lo ++ hi)) eqn:E2.
      * destruct hi as [|[k v] hi]; [rewrite app_nil_r in E2; lia|].
        cbn [sv_indices mk_sv] in Hr. rewrite map_app in Hr. cbn [map fst] in Hr.
        rewrite zget_mid in Hr by (zl; lia). cbn [rbind] in Hr.
        inversion H2; subst. cbn [fst] in *. destruct (k =? i) eqn:Ek; [lia|]. congruence.
      * cbn [rbind] in Hr. congruence.
  - unfold sv_index in Hr. cbn [sv_indices mk_sv] in Hr. rewrite zlen_map in Hr.
    destruct (i >? zlen ents) eqn:E3; [|lia]. cbn [rbind] in Hr. unfold sv_hit in Hr.
    destruct (zlen ents <? zlen ents) eqn:E4; [lia|]. cbn [rbind] in Hr. congruence.
Qed.

(** Writing a sorted vector: exact for indices up to the number of stored
    entries; beyond, the entry is appended without looking. *)
Lemma sv_SetVec_sorted l ents i x : row_ok l ents -> 0 <= i < l -> i <= zlen ents ->
  sv_SetVec (mk_sv l ents) i x = Ok (mk_sv l (aput i x ents)).
Proof.
  intros (Hs & Hb & Hz) Hi Hle. unfold sv_SetVec, sv_Length. cbn [sv_l mk_sv].
  destruct ((i <? 0) || (i >=? l)) eqn:E; [lia|].
  destruct (row_split ents i Hs) as [(lo & v & hi & -> & H1 & H2)|(lo & hi & -> & H1 & H2)].
  - change (lo ++ (i, v) :: hi) with (lo ++ [(i, v)] ++ hi) at 1.
    rewrite sv_index_sorted by (simpl; eauto; lia). cbn [rbind]. simpl app.
    unfold sv_hit. destruct (zlen lo <? zlen (lo ++ (i, v) :: hi)) eqn:E2;
        [|zl; pose proof (zlen_nonneg hi); lia].
    cbn [sv_indices sv_values mk_sv]. rewrite !map_app. cbn [map fst snd].
    rewrite zget_mid by (zl; lia). cbn [rbind]. rewrite Z.eqb_refl. rewrite aput_hit by auto.
    destruct (isz x) eqn:Ex; simpl.
    + unfold sv_remove. cbn [sv_l sv_values sv_indices mk_sv]. rewrite !map_app. cbn [map fst snd].
      rewrite slice_to_app by (zl; lia). cbn [rbind].
      change (i :: map fst hi) with ([i] ++ map fst hi). rewrite (app_assoc _ [i]).
      rewrite slice_from_app by (zl; lia). cbn [rbind].
      rewrite slice_to_app by (zl; lia). cbn [rbind].
      change (v :: map snd hi) with ([v] ++ map snd hi). rewrite (app_assoc _ [v]).
      rewrite slice_from_app by (zl; lia). cbn [rbind].
      unfold mk_sv. rewrite !map_app. reflexivity.
    + rewrite zset_mid by (zl; lia). cbn [rbind]. unfold mk_sv. rewrite !map_app. reflexivity.
  - change (lo ++ hi) with (lo ++ [] ++ hi) at 1.
    rewrite sv_index_sorted by (simpl; eauto; lia). cbn [rbind]. simpl app.
    rewrite aput_miss by auto.
    assert (Hh : sv_hit (mk_sv l (lo ++ hi)) (zlen lo) (zlen (lo ++ hi)) i = Ok false).
    { unfold sv_hit. destruct (zlen lo <? zlen (lo ++ hi)) eqn:E2; [|reflexivity].
      destruct hi as [|[k v] hi]; [rewrite app_nil_r in E2; lia|].
      cbn [sv_indices mk_sv]. rewrite map_app. cbn [map fst].
      rewrite zget_mid by (zl; lia). cbn [rbind].
      inversion H2; subst. cbn [fst] in *. destruct (k =? i) eqn:Ek; [lia|]. reflexivity. }
    fold (mk_sv l (lo ++ hi)). rewrite Hh. cbn [rbind].
    unfold sv_insert. destruct (isz x) eqn:Ex; simpl; [reflexivity|].
    cbn [sv_l sv_values sv_indices mk_sv]. rewrite !map_app.
    rewrite slice_to_app by (zl; lia). cbn [rbind].
    rewrite slice_from_app by (zl; lia). cbn [rbind].
    rewrite slice_to_app by (zl; lia). cbn [rbind].
    rewrite slice_from_app by (zl; lia). cbn [rbind].
    unfold mk_sv. rewrite !map_app. reflexivity.
Qed.

Lemma sv_SetVec_beyond l ents i x : 0 <= i < l -> zlen ents < i ->
  sv_SetVec (mk_sv l ents) i x = Ok (mk_sv l (ents ++ (if isz x then [] else [(i, x)]))).
Proof.
  intros Hi Hlt. unfold sv_SetVec, sv_Length. cbn [sv_l mk_sv].
  destruct ((i <? 0) || (i >=? l)) eqn:E; [lia|].
  unfold sv_index. cbn [sv_indices mk_sv]. rewrite zlen_map.
  destruct (i >? zlen ents) eqn:E2; [|lia]. cbn [rbind]. unfold sv_hit.
  destruct (zlen ents <? zlen ents) eqn:E3; [lia|]. cbn [rbind].
  unfold sv_insert. destruct (isz x) eqn:Ex; [rewrite app_nil_r; reflexivity|].
  cbn [sv_l sv_values sv_indices mk_sv].
  rewrite <- (app_nil_r (map fst ents)), <- (app_nil_r (map snd ents)).
  rewrite slice_to_app by (zl; lia). cbn [rbind].
  rewrite slice_from_app by (zl; lia). cbn [rbind].
  rewrite slice_to_app by (zl; lia). cbn [rbind].
  rewrite slice_from_app by (zl; lia). cbn [rbind].
  unfold mk_sv. rewrite !map_app, !app_nil_r. reflexivity.
Qed.

(** Appending at an index above all stored ones works wherever it lies. *)
Lemma sv_SetVec_append l ents i x : row_ok l ents -> 0 <= i < l -> klt i ents ->
  sv_SetVec (mk_sv l ents) i x = Ok (mk_sv l (ents ++ (if isz x then [] else [(i, x)]))).
Proof.
  intros Hok Hi Hk. destruct (Z_le_dec i (zlen ents)) as [Hle|Hgt].
  - rewrite sv_SetVec_sorted by auto. do 2 f_equal.
    rewrite <- (app_nil_r ents) at 1. rewrite aput_miss by (auto; constructor).
    rewrite app_nil_r. reflexivity.
  - apply sv_SetVec_beyond; lia.
Qed.

Lemma row_ok_snoc l (ents : row) i (x : V) : row_ok l ents -> 0 <= i < l -> klt i ents -> isz x = false ->
  row_ok l (ents ++ [(i, x)]).
Proof.
  intros (Hs & Hb & Hz) Hi Hk Hx. repeat split.
  - rewrite map_app. apply ksorted_app. repeat split; [auto|repeat constructor|].
    intros a b Ha [<-|[]]. apply in_map_iff in Ha as (e & <- & He).
    unfold klt in Hk; rewrite Forall_forall in Hk; auto.
  - apply Forall_app; split; [auto|repeat constructor; simpl; lia].
  - apply Forall_app; split; [auto|repeat constructor; auto].
Qed.

Lemma NewSparseVector_spec l : NewSparseVector l = Ok (mk_sv l []).
Proof. reflexivity. Qed.

Lemma row_ok_nil C : @row_ok N C [].
Proof. repeat split; constructor. Qed.

(** [copy] *)
Lemma sv_copy_spec (s : svec N) : zlen (sv_indices s) = zlen (sv_values s) -> sv_copy s = Ok s.
Proof.
  intros Hl. unfold sv_copy, newSparseVector. pose proof (zlen_nonneg (sv_values s)).
  rewrite !make_slice_ok by lia. cbn [rbind].
  pose proof (copy_loop (sv_values s) (sv_indices s) n0 0 (@sv_values N) (@sv_indices N)
    (fun a b => MkSV (sv_l s) a b) ltac:(reflexivity) ltac:(reflexivity) Hl) as HC.
  replace (Z.to_nat (zlen (sv_indices s))) with (length (sv_values s)) by (unfold zlen in *; lia).
  assert (Hext : forall (b1 b2 : svec N -> Z -> res (svec N)) P l t,
    P t -> (forall t i, P t -> b1 t i = b2 t i) -> (forall t i t', P t -> b2 t i = Ok t' -> P t') ->
    rfold b1 t l = rfold b2 t l).
  { intros b1 b2 P l. induction l as [|i l IH]; intros t Ht He Hp; simpl; [reflexivity|].
    rewrite He by auto. destruct (b2 t i) eqn:E; simpl; auto. apply IH; eauto. }
  erewrite (Hext _ _ (fun t => sv_l t = sv_l s)); [rewrite HC; destruct s; reflexivity|reflexivity| |].
  - intros t i E1. rewrite E1. reflexivity.
  - intros t i t' _ Ht.
    apply rbind_ok in Ht as (? & _ & Ht). apply rbind_ok in Ht as (? & _ & Ht).
    apply rbind_ok in Ht as (? & _ & Ht). apply rbind_ok in Ht as (? & _ & Ht).
    inversion Ht; reflexivity.
Qed.

Lemma sv_copy_mk l ents : sv_copy (mk_sv l ents) = Ok (mk_sv l ents).
Proof. apply sv_copy_spec. cbn. zl. reflexivity. Qed.

(** ** The vectors built by row and column extraction *)

(** appending a sorted run of entries to a vector *)
Lemma sv_append_run l (base run : row) : row_ok l (base ++ run) ->
  rfold (fun v (e : Z * V) => sv_SetVec v (fst e) (snd e)) (mk_sv l base) run = Ok (mk_sv l (base ++ run)).
Proof.
  revert base; induction run as [|[k x] run IH]; intros base H; simpl.
  - rewrite app_nil_r. reflexivity.
  - assert (H' : row_ok l ((base ++ [(k, x)]) ++ run)) by (rewrite <- app_assoc; exact H).
    destruct H as (Hs & Hb & Hz).
    rewrite map_app in Hs. apply ksorted_app in Hs as (S1 & S2 & S3). simpl in S2, S3.
    apply Forall_app in Hb as [Hb1 Hb2]. apply Forall_app in Hz as [Hz1 Hz2].
    inversion Hb2 as [|? ? Hk Hb2']; subst. inversion Hz2 as [|? ? Hx Hz2']; subst.
    cbn [fst snd] in *.
    rewrite sv_SetVec_append; [|repeat split; auto|lia|].
    + rewrite Hx. cbn [rbind]. rewrite IH by exact H'. rewrite <- app_assoc. reflexivity.
    + apply Forall_forall. intros e He. apply S3; [apply in_map; auto|left; reflexivity].
Qed.

(** a loop over the array positions of a run of entries is a loop over the run *)
Lemma rfold_run {S A B} (f : S -> A -> B -> res S) (L : list (A * B)) : forall l pre post st a b,
  L = pre ++ l ++ post -> a = zlen pre -> b = zlen pre + zlen l ->
  rfold (fun s i => k <- zget (map fst L) i ;; v <- zget (map snd L) i ;; f s k v) st (zrange a b)
  = rfold (fun s e => f s (fst e) (snd e)) st l.
Proof.
  induction l as [|[k x] l IH]; intros pre post st a b HL -> ->.
  - rewrite zlen_nil, zrange_nil by lia. reflexivity.
  - rewrite zlen_cons. rewrite zrange_cons by (pose proof (zlen_nonneg l); lia). cbn [rfold fst snd].
    assert (H1 : zget (map fst L) (zlen pre) = Ok k).
    { rewrite HL, map_app. apply zget_mid. zl; reflexivity. }
    assert (H2 : zget (map snd L) (zlen pre) = Ok x).
    { rewrite HL, map_app. apply zget_mid. zl; reflexivity. }
    rewrite H1, H2. cbn [rbind]. destruct (f st k x) as [st'| |]; cbn [rbind]; try reflexivity.
    apply (IH (pre ++ [(k, x)]) post); [rewrite HL, <- app_assoc; reflexivity|zl; lia|zl; lia].
Qed.

Lemma csr_RowsAt_spec R C rows r : rows_ok R C rows -> 0 <= r < R ->
  csr_RowsAt (mk_csr R C rows) r = Ok (mk_sv C (rnth rows r)).
Proof.
  intros H Hr. unfold csr_RowsAt. cbn [csr_r csr_c csr_rowStart csr_cols csr_values mk_csr].
  destruct ((r <? 0) || (r >=? R)) eqn:E; [lia|].
  destruct (rows_split R C rows r H Hr) as (X & l & Y & -> & HX & Hok).
  rewrite NewSparseVector_spec. cbn [rbind]. rewrite <- HX.
  destruct (offsets_get 0 X l Y) as [-> ->]. cbn [rbind]. rewrite Z.add_0_l.
  rewrite rnth_mid by reflexivity.
  rewrite (rfold_run (fun s k v => sv_SetVec s k v) (concat (X ++ l :: Y)) l (concat X) (concat Y));
    [|rewrite concat_app; reflexivity|reflexivity|reflexivity].
  apply (sv_append_run C [] l). exact Hok.
Qed.

(** column [c] as entries indexed by row *)
Fixpoint col_ents (i : Z) (rows : list row) (c : Z) : row :=
  match rows with
  | [] => []
  | l :: rest =>
      match alookup c l with
      | Some v => (i, v) :: col_ents (i + 1) rest c
      | None => col_ents (i + 1) rest c
      end
  end.

Lemma col_ents_app i X Y c :
  col_ents i (X ++ Y) c = col_ents i X c ++ col_ents (i + zlen X) Y c.
Proof.
  revert i; induction X as [|l X IH]; intros i; simpl.
  - rewrite zlen_nil, Z.add_0_r. reflexivity.
  - zl. rewrite IH. replace (i + 1 + zlen X) with (i + (zlen X + 1)) by lia.
    destruct (alookup c l); reflexivity.
Qed.

Lemma col_ents_range i rows c : Forall (fun e => i <= fst e < i + zlen rows) (col_ents i rows c).
Proof.
  revert i; induction rows as [|l rows IH]; intros i; simpl; [constructor|]. zl.
  pose proof (zlen_nonneg rows).
  assert (Forall (fun e => i <= fst e < i + (zlen rows + 1)) (col_ents (i + 1) rows c)).
  { eapply Forall_impl; [|apply IH]. simpl; intros; lia. }
  destruct (alookup c l); [constructor; [simpl; lia|auto]|auto].
Qed.

Lemma col_ents_sorted i rows c : ksorted (map fst (col_ents i rows c)).
Proof.
  revert i; induction rows as [|l rows IH]; intros i; simpl; [constructor|].
  destruct (alookup c l); [|apply IH]. simpl. apply ksorted_cons. split; [apply IH|].
  apply Forall_map. eapply Forall_impl; [|apply (col_ents_range (i + 1) rows c)].
  simpl; intros; lia.
Qed.

Lemma alookup_In c (l : row) v : alookup c l = Some v -> In (c, v) l.
Proof.
  induction l as [|[k w] l IH]; simpl; [discriminate|].
  destruct (k =? c) eqn:E; intros H; [left|right; auto].
  inversion H; subst. f_equal. lia.
Qed.

Lemma col_ents_nz i rows c C : Forall (row_ok C) rows ->
  Forall (fun e => isz (snd e) = false) (col_ents i rows c).
Proof.
  intros H; revert i; induction H as [|l rows Hl Hr IH]; intros i; simpl; [constructor|].
  destruct (alookup c l) as [v|] eqn:E; [|apply IH]. constructor; [|apply IH]. simpl.
  apply alookup_In in E. destruct Hl as (_ & _ & Hz). rewrite Forall_forall in Hz.
  apply (Hz (c, v) E).
Qed.

Lemma col_ents_lookup i rows c k :
  alookup k (col_ents i rows c) =
  if (i <=? k) && (k <? i + zlen rows) then alookup c (rnth rows (k - i)) else None.
Proof.
  revert i; induction rows as [|l rows IH]; intros i; simpl.
  - rewrite zlen_nil. destruct (i <=? k) eqn:E1; destruct (k <? i + 0) eqn:E2; simpl; auto; lia.
  - pose proof (zlen_nonneg rows). zl.
    assert (Hrest : alookup k (col_ents (i + 1) rows c) =
       if (i + 1 <=? k) && (k <? i + 1 + zlen rows) then alookup c (rnth rows (k - (i + 1))) else None)
      by apply IH.
    destruct (Z.eq_dec k i) as [->|Hne].
    + assert (Hn : alookup i (col_ents (i + 1) rows c) = None).
      { rewrite Hrest. destruct (i + 1 <=? i) eqn:E; [lia|reflexivity]. }
      destruct (i <=? i) eqn:E1; [|lia]. destruct (i <? i + (zlen rows + 1)) eqn:E2; [|lia].
      simpl. rewrite Z.sub_diag. unfold rnth at 1. simpl.
      destruct (alookup c l) eqn:El; simpl; [rewrite Z.eqb_refl; reflexivity|exact Hn].
    + assert (Hd : alookup k (match alookup c l with
                 | Some v => (i, v) :: col_ents (i + 1) rows c
                 | None => col_ents (i + 1) rows c end) = alookup k (col_ents (i + 1) rows c)).
      { destruct (alookup c l); simpl; [|reflexivity]. destruct (i =? k) eqn:E; [lia|reflexivity]. }
      rewrite Hd, Hrest.
      destruct (i <=? k) eqn:E1; destruct (i + 1 <=? k) eqn:E3; simpl; try lia; try reflexivity.
      replace (i + 1 + zlen rows) with (i + (zlen rows + 1)) by lia.
      destruct (k <? i + (zlen rows + 1)); [|reflexivity].
      unfold rnth. replace (Z.to_nat (k - i)) with (S (Z.to_nat (k - (i + 1)))) by lia. reflexivity.
Qed.

Lemma csr_ColumnsAt_spec R C rows c : rows_ok R C rows -> 0 <= c < C ->
  csr_ColumnsAt (mk_csr R C rows) c = Ok (mk_sv R (col_ents 0 rows c)).
Proof.
  intros H Hc. unfold csr_ColumnsAt.
  replace (csr_c (mk_csr R C rows)) with C by reflexivity.
  replace (csr_r (mk_csr R C rows)) with R by reflexivity.
  destruct ((c <? 0) || (c >=? C)) eqn:E; [lia|].
  rewrite NewSparseVector_spec. cbn [rbind].
  pose proof H as (HR & HC & Hl & Hf).
  assert (Hst : slice_to (csr_rowStart (mk_csr R C rows)) R = Ok (starts 0 rows)).
  { cbn [csr_rowStart mk_csr]. rewrite <- (app_nil_r rows) at 1. rewrite offsets_app.
    apply slice_to_app. rewrite zlen_starts. lia. }
  rewrite Hst. cbn [rbind]. rewrite zlen_starts, Hl.
  destruct (rfold_range_inv
    (fun i v => v = mk_sv R (col_ents 0 (firstn (Z.to_nat i) rows) c))
    (fun columns r =>
      '(ps, pe) <- csr_columnIndex (mk_csr R C rows) r c ;;
      hit <- csr_hit (mk_csr R C rows) ps pe c ;;
      if hit then v <- zget (csr_values (mk_csr R C rows)) ps ;; sv_SetVec columns r v
      else Ok columns) 0 R (mk_sv R [])) as (v & -> & ->).
  - lia.
  - reflexivity.
  - intros i v Hi ->.
    destruct (rows_split R C rows i H ltac:(lia)) as (X & l & Y & -> & HX & (Hs & Hb & Hz)).
    assert (HfX : firstn (Z.to_nat i) (X ++ l :: Y) = X).
    { replace (Z.to_nat i) with (length X) by (unfold zlen in HX; lia).
      rewrite firstn_app, Nat.sub_diag, firstn_all. simpl. apply app_nil_r. }
    assert (HfX1 : firstn (Z.to_nat (i + 1)) (X ++ l :: Y) = X ++ [l]).
    { replace (Z.to_nat (i + 1)) with (length (X ++ [l])) by (rewrite app_length; simpl; unfold zlen in HX; lia).
      replace (X ++ l :: Y) with ((X ++ [l]) ++ Y) by (rewrite <- app_assoc; reflexivity).
      rewrite firstn_app, Nat.sub_diag, firstn_all. simpl. apply app_nil_r. }
    rewrite HfX, HfX1. rewrite col_ents_app. simpl col_ents. rewrite Z.add_0_l, HX.
    destruct (row_split l c Hs) as [(lo & v & hi & -> & H1 & H2)|(lo & hi & -> & H1 & H2)].
    + destruct (columnIndex_hit R C X lo c v hi Y i H1 H2 Hs ltac:(lia)) as (pe & Hci & Hhit).
      rewrite Hci. cbn [rbind]. rewrite Hhit. cbn [rbind].
      assert (Hv : csr_values (mk_csr R C (X ++ (lo ++ (c, v) :: hi) :: Y))
               = map snd (concat X ++ lo) ++ v :: map snd (hi ++ concat Y)).
      { cbn [csr_values mk_csr]. rewrite concat_mid, map_app. reflexivity. }
      rewrite Hv. rewrite zget_mid by (zl; lia). cbn [rbind].
      rewrite alookup_hit by auto.
      assert (Hx : isz v = false).
      { apply Forall_app in Hz as [_ Hz]. inversion Hz; auto. }
      rewrite sv_SetVec_append; [|repeat split|lia|].
      * rewrite Hx. eexists; split; reflexivity.
      * apply col_ents_sorted.
      * eapply Forall_impl; [|apply col_ents_range]. simpl; intros; lia.
      * apply Forall_app in Hf as [Hf _]. eapply col_ents_nz; eauto.
      * eapply Forall_impl; [|apply col_ents_range]. simpl; intros; lia.
    + destruct (columnIndex_miss R C X lo c hi Y i H1 H2 Hs ltac:(lia)) as (pe & Hci & Hhit).
      rewrite Hci. cbn [rbind]. rewrite Hhit. cbn [rbind].
      rewrite alookup_miss by auto. rewrite app_nil_r. eexists; split; reflexivity.
  - do 3 f_equal. apply firstn_all2. unfold zlen in Hl; lia.
Qed.

Lemma col_ents_ok R C (rows : list row) c : rows_ok R C rows -> row_ok R (col_ents 0 rows c).
Proof.
  intros (HR & HC & Hl & Hf). repeat split.
  - apply col_ents_sorted.
  - eapply Forall_impl; [|apply col_ents_range]. simpl; intros; lia.
  - eapply col_ents_nz; eauto.
Qed.

Lemma rnth_ok R C (rows : list row) r : rows_ok R C rows -> 0 <= r < R -> row_ok C (rnth rows r).
Proof.
  intros H Hr. destruct (rows_split R C rows r H Hr) as (X & l & Y & -> & HX & Hok).
  rewrite rnth_mid by lia. exact Hok.
Qed.

(** [RowsAtToArray] *)
Lemma csr_RowsAtToArray_spec R C rows r : rows_ok R C rows -> 0 <= r < R ->
  csr_RowsAtToArray (mk_csr R C rows) r = Ok (map (fun c => cell (N:=N) rows r c) (zrange 0 C)).
Proof.
  intros H Hr. unfold csr_RowsAtToArray, csr_Rows. cbn [csr_r csr_c csr_rowStart csr_cols csr_values mk_csr].
  destruct ((r <? 0) || (r >=? R)) eqn:E; [lia|].
  destruct (rows_split R C rows r H Hr) as (X & l & Y & -> & HX & (Hs & Hb & Hz)).
  pose proof H as (HR & HC & _ & _).
  rewrite make_slice_ok by lia. cbn [rbind]. rewrite <- HX.
  destruct (offsets_get 0 X l Y) as [-> ->]. cbn [rbind]. rewrite Z.add_0_l.
  rewrite concat_app. simpl concat. unfold cell. rewrite rnth_mid by reflexivity.
  destruct (rfold_range_inv
    (fun i arr => exists l1 l2, l = l1 ++ l2 /\ i = zlen (concat X) + zlen l1 /\
        arr = map (fun c => aval c l1) (zrange 0 C))
    (fun rows i =>
       k <- zget (map fst (concat X ++ l ++ concat Y)) i ;;
       v <- zget (map snd (concat X ++ l ++ concat Y)) i ;; zset rows k v)
    (zlen (concat X)) (zlen (concat X) + zlen l) (repeat n0 (Z.to_nat C)))
    as (arr & -> & l1 & l2 & E1 & E2 & ->).
  - pose proof (zlen_nonneg l); lia.
  - exists [], l. rewrite zlen_nil. repeat split; [lia|].
    apply zget_ext; [zl; rewrite zlen_zrange by lia; lia|].
    intros j Hj. rewrite zlen_repeat in Hj. rewrite zget_repeat by lia.
    rewrite zget_map, zget_zrange by lia. reflexivity.
  - intros i arr Hi (l1 & l2 & E1 & E2 & ->).
    destruct l2 as [|[k v] l2]; [rewrite app_nil_r in E1; subst; lia|].
    assert (Hgg : concat X ++ l ++ concat Y = (concat X ++ l1) ++ (k, v) :: (l2 ++ concat Y)).
    { rewrite E1. rewrite <- !app_assoc. reflexivity. }
    rewrite Hgg. rewrite (map_app fst), (map_app snd). cbn [map fst snd].
    rewrite !zget_mid by (zl; lia). cbn [rbind].
    assert (Hk : 0 <= k < C).
    { rewrite E1 in Hb. apply Forall_app in Hb as [_ Hb]. inversion Hb; auto. }
    rewrite zset_ok by (zl; rewrite zlen_zrange by lia; lia). eexists. split; [reflexivity|].
    exists (l1 ++ [(k, v)]), l2. rewrite <- app_assoc. zl. repeat split; [auto|lia|].
    apply zget_ext; [zl; reflexivity|]. intros j Hj. zl. rewrite zlen_zrange in Hj by lia.
    rewrite zget_list_set by (zl; rewrite zlen_zrange by lia; lia).
    rewrite !zget_map, zget_zrange by lia. simpl. rewrite Z.add_0_l.
    unfold aval. rewrite alookup_app. simpl.
    assert (Hnk : alookup k l1 = None).
    { apply alookup_notin. rewrite E1, map_app in Hs. apply ksorted_app in Hs as (_ & _ & S3).
      intros Hin. specialize (S3 k k Hin (or_introl eq_refl)). lia. }
    destruct (j =? k) eqn:Ejk.
    + apply Z.eqb_eq in Ejk; subst j. rewrite Hnk, Z.eqb_refl. reflexivity.
    + destruct (k =? j) eqn:Ekj; [lia|]. destruct (alookup j l1); reflexivity.
  - assert (zlen l2 = 0) by (subst l; zl; lia). apply zlen_0_nil in H0; subst l2.
    rewrite app_nil_r in E1. subst. reflexivity.
Qed.

End Sv.
