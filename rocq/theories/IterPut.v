(** What the write half of an iterator's [Map] does to the object as it is by then. *)
From Coq Require Import String Sorting.Sorted.
From Verif Require Import GoBase Num SparseVec Csr Csc DenseVec DenseMat Mat World Ops.
From Verif Require Import BaseProofs AssocProofs CsrProofs SvProofs CsrIterProofs CscProofs DenseProofs MatProofs.
From Verif Require Import Spec HeapProofs Api ReachProofs MapLag StoreProofs EwThms Iters IterKin IterProofs.

Section IterPut.
Context {N : num}.
Notation V := (T N).
Notation mat := (mat N).
Notation row := (list (Z * V)).
Notation ent := (Z * Z * V)%type.
Notation world := (world N).
Implicit Types w : world.
Implicit Types m : mat.

(** the number of the element that is written *)
Definition spot m (it : iter) : nat :=
  match m, it with
  | MCSR _, ICSR i => Z.to_nat (cri_index i)
  | MCSC _, ICSC i => Z.to_nat (cri_index (isw i))
  | MDM s, IDM i => Z.to_nat (dmi_r i * dm_c s + dmi_cOld i)
  | MDV _, IDV i => Z.to_nat (dvi_rOld i)
  | MSV _, ISV i => Z.to_nat (svi_old i)
  | _, _ => O
  end.
(** the iterator's line and a valid number *)
Definition on_spot m (it : iter) (ln : Z) : Prop :=
  match m, it with
  | MCSR _, ICSR i => 0 <= cri_index i /\ cri_r i = ln
  | MCSC _, ICSC i => 0 <= cri_index (isw i) /\ cri_r (isw i) = ln
  | MDM s, IDM i => 0 <= dmi_r i < dm_r s /\ 0 <= dmi_cOld i < dm_c s
  | MDV _, IDV i => 0 <= dvi_rOld i
  | MSV _, ISV i => 0 <= svi_old i
  | _, _ => False
  end.

Lemma on_spot_kin m m' it ln : kin m m' -> on_spot m it ln -> on_spot m' it ln.
Proof. destruct m as [s|s|s|s|s], m' as [s'|s'|s'|s'|s'], it as [i|i|i|i|i]; cbn [kin on_spot]; try tauto. intros [-> ->]. auto. Qed.
Lemma spot_kin m m' it : kin m m' -> spot m' it = spot m it.
Proof. destruct m as [s|s|s|s|s], m' as [s'|s'|s'|s'|s'], it as [i|i|i|i|i]; cbn [kin spot]; try tauto. intros [_ ->]. reflexivity. Qed.

Lemma csr_put_none R C (rows : list row) j x : zlen (rents 0 rows) <= cri_index j -> csr_map_put (mk_csr R C rows) j x = Panic.
Proof.
  intros H. rewrite zlen_rents in H. unfold csr_map_put. destruct (isz x); cbn [negb].
  - unfold csr_remove. cbn [csr_cols mk_csr]. unfold slice_to at 1. rewrite zlen_map. destruct ((cri_index j <? 0) || (zlen (concat rows) <? cri_index j)); [reflexivity|]. cbn [rbind].
    unfold slice_from at 1. rewrite zlen_map. destruct (Z.ltb_spec (zlen (concat rows)) (cri_index j + 1)); [|lia]. rewrite orb_true_r. reflexivity.
  - cbn [csr_values mk_csr]. rewrite zset_panic by (rewrite zlen_map; lia). reflexivity.
Qed.

Lemma nth_cells (f : Z -> Z -> V) R C r c : 0 <= r < R -> 0 <= c < C ->
  nth_error (map (fun p => (p, f (fst p) (snd p))) (all_cells R C)) (Z.to_nat (r * C + c)) = Some (r, c, f r c).
Proof.
  intros Hr Hc. assert (G : zget (all_cells R C) (r * C + c) = Ok (r, c)).
  { rewrite zget_all_cells by nia. f_equal. f_equal; [symmetry; apply Z.div_unique with c; lia|symmetry; apply Z.mod_unique with r; lia]. }
  unfold zget in G. destruct (Z.ltb_spec (r * C + c) 0); [discriminate|]. rewrite nth_error_map. destruct (nth_error (all_cells R C) (Z.to_nat (r * C + c))); [|discriminate]. injection G as ->. reflexivity.
Qed.

Lemma nodup_put {A} (f g : A -> ent) (l : list A) n a : (forall b, In b l -> b <> a -> g b = f b) -> NoDup l -> nth_error l n = Some a ->
  map g l = firstn n (map f l) ++ [g a] ++ skipn (S n) (map f l).
Proof.
  intros H Hn Ha. apply nth_error_split in Ha as (l1 & l2 & -> & <-).
  assert (N1 : ~ In a (l1 ++ l2)) by (apply NoDup_remove_2; exact Hn).
  rewrite !map_app. cbn [map]. rewrite firstn_app, map_length, Nat.sub_diag, firstn_all2 by (rewrite map_length; lia). cbn [firstn]. rewrite app_nil_r.
  rewrite skipn_app, map_length, skipn_all2 by (rewrite map_length; lia). replace (S (length l1) - length l1)%nat with 1%nat by lia. cbn [skipn app].
  f_equal; [apply map_ext_in; intros b Hb; apply H; [apply in_or_app; auto|]|f_equal; apply map_ext_in; intros b Hb; apply H; [apply in_or_app; right; right; auto|]];
    intros ->; apply N1; apply in_or_app; auto.
Qed.

Lemma put_spot m l it ln x : wf m -> enumerates m l -> on_spot m it ln ->
  match nth_error l (spot m it) with
  | Some z => isz x = false \/ lined m = false \/ line_of m (fst z) = ln ->
      exists m', mat_map_put m it x = Ok m' /\ wf m' /\ entries m' = put_at m l (spot m it) z x
  | None => mat_map_put m it x = Panic
  end.
Proof.
  intros Hw He Hs. apply enumerates_unique in He; [|exact Hw]. subst l.
  destruct m as [s|s|s|s|s], it as [i|i|i|i|i]; cbn [on_spot] in Hs; try contradiction; cbn [spot mat_map_put].
  - destruct Hw as (R & C & rows & -> & Hok). rewrite entries_csr by exact Hok. destruct Hs as [Hi Hr].
    destruct (nth_error (rents 0 rows) (Z.to_nat (cri_index i))) as [[[r c] v]|] eqn:En.
    + intros Hx. destruct (put_index R C rows i x _ r c v Hok En) as (rows' & Hp & Hok' & Er); [lia| |].
      { destruct Hx as [Hx|[Hx|Hx]]; [left; exact Hx|discriminate|right; cbn in Hx; congruence]. }
      rewrite Hp. eexists. split; [reflexivity|]. split; [exists R, C, rows'; auto|]. rewrite entries_csr by exact Hok'. exact Er.
    + rewrite csr_put_none; [reflexivity|]. apply nth_error_None in En. unfold zlen. lia.
  - destruct Hw as (R & C & cols & -> & Hok). rewrite entries_csc by exact Hok. destruct Hs as [Hi Hr]. rewrite csc_map_put_sw, sw_mk, nth_swap.
    destruct (nth_error (rents 0 cols) (Z.to_nat (cri_index (isw i)))) as [[[r c] v]|] eqn:En; cbn [option_map].
    + intros Hx. destruct (put_index C R cols (isw i) x _ r c v Hok En) as (cols' & Hp & Hok' & Er); [lia| |].
      { destruct Hx as [Hx|[Hx|Hx]]; [left; exact Hx|discriminate|right; cbn in Hx; congruence]. }
      rewrite Hp. eexists. split; [reflexivity|]. split; [exists R, C, cols'; auto|]. rewrite unsw_mk, entries_csc by exact Hok'. rewrite Er, swap_put. reflexivity.
    + rewrite csr_put_none; [reflexivity|]. apply nth_error_None in En. unfold zlen. lia.
  - destruct Hw as (R & C & f & -> & HR & HC & Hb). cbn [dm_r dm_c mk_dm] in *. destruct Hs as [Hr Hc]. rewrite entries_dm by auto. rewrite nth_cells by auto. intros _.
    unfold dm_map_put. rewrite dm_Set_spec by auto. eexists. split; [reflexivity|]. split; [exists R, C; eexists; eauto|]. rewrite entries_dm by auto. unfold put_at. cbn [sparse_obj andb fst].
    assert (Hn : nth_error (all_cells R C) (Z.to_nat (dmi_r i * C + dmi_cOld i)) = Some (dmi_r i, dmi_cOld i)).
    { pose proof (nth_cells f R C _ _ Hr Hc) as Q. rewrite nth_error_map in Q. destruct (nth_error (all_cells R C) (Z.to_nat (dmi_r i * C + dmi_cOld i))) as [q|]; [|discriminate]. cbn in Q. injection Q as Q _. rewrite Q. reflexivity. }
    rewrite (nodup_put (fun p => (p, f (fst p) (snd p))) (fun p => (p, upd2 f (dmi_r i) (dmi_cOld i) x (fst p) (snd p))) (all_cells R C) (Z.to_nat (dmi_r i * C + dmi_cOld i)) (dmi_r i, dmi_cOld i)).
    + cbn [fst snd]. unfold upd2 at 1. rewrite !Z.eqb_refl. reflexivity.
    + intros [a b] _ Hne. cbn [fst snd]. unfold upd2. destruct (Z.eqb_spec a (dmi_r i)), (Z.eqb_spec b (dmi_cOld i)); cbn; try reflexivity. congruence.
    + apply all_cells_NoDup.
    + exact Hn.
  - destruct Hw as (L & f & -> & HL). rewrite entries_dv by exact HL. unfold dv_map_put.
    destruct (Z_lt_dec (dvi_rOld i) L) as [Lq|Lq].
    + assert (Hn : nth_error (zrange 0 L) (Z.to_nat (dvi_rOld i)) = Some (dvi_rOld i)).
      { pose proof (zget_zrange 0 L (dvi_rOld i) ltac:(lia)) as G. unfold zget in G. destruct (Z.ltb_spec (dvi_rOld i) 0); [lia|]. destruct (nth_error (zrange 0 L) (Z.to_nat (dvi_rOld i))); [|discriminate]. injection G as ->. f_equal; lia. }
      rewrite nth_error_map, Hn. cbn [option_map]. intros _. rewrite dv_SetVec_spec by lia. eexists. split; [reflexivity|]. split; [exists L; eexists; eauto|].
      rewrite entries_dv by exact HL. unfold put_at. cbn [sparse_obj andb fst].
      rewrite (nodup_put (fun k => (k, 0, f k)) (fun k => (k, 0, upd1 f (dvi_rOld i) x k)) (zrange 0 L) (Z.to_nat (dvi_rOld i)) (dvi_rOld i)).
      * unfold upd1 at 1. rewrite Z.eqb_refl. reflexivity.
      * intros b _ Hne. unfold upd1. destruct (Z.eqb_spec b (dvi_rOld i)); [congruence|reflexivity].
      * apply NoDup_zrange.
      * exact Hn.
    + rewrite (proj2 (nth_error_None _ _)). { rewrite dv_SetVec_panic by lia. reflexivity. }
      pose proof (zlen_zrange 0 L ltac:(lia)) as Q. rewrite map_length. unfold zlen in Q. lia.
  - destruct Hw as (L & ents & -> & Hok). rewrite entries_sv by exact Hok. rewrite nth_error_map.
    destruct (nth_error ents (Z.to_nat (svi_old i))) as [[q u]|] eqn:En; cbn [option_map fst snd].
    + apply nth_error_split in En as (A & B & -> & LA). intros _. destruct Hok as (H0 & H1 & H2).
      apply Forall_app in H1 as [A1 A2]. apply Forall_app in H2 as [B1 B2]. apply Forall_cons_iff in A2 as [A2 A3]. apply Forall_cons_iff in B2 as [B2 B3].
      assert (Hok' : ents_ok L (A ++ (if isz x then [] else [(q, x)]) ++ B)).
      { destruct (isz x) eqn:Ex; cbn [app]; (split; [auto|]; split; apply Forall_app; auto). }
      exists (MSV (mk_sv L (A ++ (if isz x then [] else [(q, x)]) ++ B))). split; [|split; [exists L; eexists; eauto|]].
      * unfold sv_map_put. assert (EA : svi_old i = zlen A) by (unfold zlen; lia). rewrite EA. destruct (isz x) eqn:Ex; cbn [negb app].
        -- unfold sv_remove, mk_sv. cbn [sv_l sv_values sv_indices]. rewrite !map_app. cbn [map fst snd].
           change (q :: map fst B) with ([q] ++ map fst B). change (u :: map snd B) with ([u] ++ map snd B).
           rewrite slice_to_app by (zl; lia). cbn [rbind]. rewrite (app_assoc _ [q]). rewrite slice_from_app by (zl; lia). cbn [rbind].
           rewrite slice_to_app by (zl; lia). cbn [rbind]. rewrite (app_assoc _ [u]). rewrite slice_from_app by (zl; lia). reflexivity.
        -- unfold mk_sv. cbn [sv_values sv_l sv_indices]. rewrite !map_app. cbn [map fst snd]. rewrite zset_mid by (zl; lia). reflexivity.
      * rewrite entries_sv by exact Hok'. unfold put_at. cbn [sparse_obj andb fst]. rewrite <- LA, !map_app. cbn [map fst snd].
        rewrite firstn_app, map_length, Nat.sub_diag, firstn_all2 by (rewrite map_length; lia). cbn [firstn]. rewrite app_nil_r.
        rewrite skipn_app, map_length, skipn_all2 by (rewrite map_length; lia). replace (S (length A) - length A)%nat with 1%nat by lia. cbn [skipn app].
        unfold isz. destruct (neqb x n0); reflexivity.
    + apply nth_error_None in En. unfold sv_map_put. destruct (isz x); cbn [negb].
      * unfold sv_remove. cbn [sv_indices sv_values mk_sv].
        match goal with |- context [slice_to ?a ?b] => destruct (slice_to a b) as [?| |] eqn:E1; unfold slice_to in E1; destruct ((b <? 0) || (zlen a <? b)); try discriminate E1; try reflexivity end.
        cbn [rbind]. unfold slice_from at 1. rewrite zlen_map. destruct (Z.ltb_spec (zlen ents) (svi_old i + 1)); [|unfold zlen in *; lia]. rewrite orb_true_r. reflexivity.
      * cbn [sv_values mk_sv]. rewrite zset_panic by (rewrite zlen_map; unfold zlen; lia). reflexivity.
Qed.

(** ** Numbers of elements *)
Lemma SS_around {A} (Rl : A -> A -> Prop) a x b : StronglySorted Rl (a ++ x :: b) -> (forall y, In y a -> Rl y x) /\ (forall y, In y b -> Rl x y).
Proof.
  induction a as [|y a IH]; cbn [app]; intros H; apply StronglySorted_inv in H as [H F]; rewrite Forall_forall in F.
  - split; [intros z []|exact F].
  - destruct (IH H) as [H1 H2]. split; [|exact H2]. intros z [<-|Hz]; [apply F; apply in_or_app; right; left; reflexivity|auto].
Qed.

(** lines in order *)
Lemma sorted_lines m : wf m -> lined m = true -> StronglySorted (fun p q => line_of m p < line_of m q \/ line_of m p = line_of m q /\ pos_of m p < pos_of m q) (map fst (entries m)).
Proof. intros Hw Hl. destruct m; try discriminate; [apply entries_csr_sorted|apply entries_csc_sorted]; exact Hw. Qed.

Lemma number_nth m n e : wf m -> lined m = true -> nth_error (entries m) n = Some e -> length (filter (precedes m (fst e)) (entries m)) = n.
Proof.
  intros Hw Hl Hn. pose proof (sorted_lines m Hw Hl) as S. apply nth_error_split in Hn as (a & b & E & <-). rewrite E in *. rewrite map_app in S. cbn [map] in S. apply SS_around in S as [S1 S2].
  rewrite filter_app. cbn [filter]. rewrite filter_every, filter_none.
  - unfold precedes at 1. rewrite !Z.ltb_irrefl, andb_false_r. cbn [orb]. rewrite app_nil_r. reflexivity.
  - intros x Hx. apply (in_map fst), S2 in Hx. unfold precedes. lia.
  - intros x Hx. apply (in_map fst), S1 in Hx. unfold precedes. lia.
Qed.

(** the element shown, its number, and the iterator afterwards *)
Lemma tracks_spot m it cu l e it' : wf m -> enumerates m l -> tracks m it cu -> mat_Next m it = Ok (e, it') ->
  on_spot m it' (line_of m (fst e)) /\ spot m it' = number m (cu_place cu) l e /\ exists y, nth_error l (spot m it') = Some y /\ snd y = snd e /\ (settled m (cu_place cu) l -> y = e) /\
    match cu_place cu with Within _ _ before _ => spot m it' = Z.to_nat before | _ => y = e end.
Proof.
  intros Hw He Ht Hx. pose proof He as He'. apply enumerates_unique in He'; [|exact Hw]. pose proof (number_nth m) as NN. pose proof Hw as Hw0. pose proof (tracks_next m it cu l Hw He Ht) as T.
  destruct (shown m (cu_place cu) l) as [e0| |] eqn:Esh; [|congruence|congruence].
  destruct T as (it0 & H1 & H2 & H3 & H4). unfold mat_Next in Hx. rewrite H1 in Hx. cbn [rbind] in Hx. rewrite H2 in Hx. cbn [rbind] in Hx. injection Hx as -> ->.
  subst l. destruct m as [s|s|s|s|s], it as [i|i|i|i|i]; cbn [tracks] in Ht; try contradiction; cbn [mat_next] in H1.
  - destruct Hw as (R & C & rows & -> & Hok). rewrite entries_csr in * by exact Hok. cbn [csr_r mk_csr] in Ht.
    destruct (cu_place cu) as [ln|ln ps b mo|k] eqn:Epl; [| |destruct Ht as (_ & _ & Hp); rewrite Epl in Hp; contradiction]; cbn [shown] in Esh.
    + pose proof (lines_between R C rows i cu ln Hok Ht Epl) as H. change (in_later (MCSR (mk_csr R C rows)) ln) with (@lat N ln) in Esh.
      destruct (filter (lat ln) (rents 0 rows)) as [|[[r c] v] rest] eqn:E; [discriminate|]. injection Esh as <-.
      destruct H as (j & X & lo & hi & Y & G1 & G2 & G3 & HX & HX' & G4 & G5). rewrite G1 in H1. injection H1 as <-. cbn [on_spot spot line_of fst].
      pose proof (nth_rents X lo c v hi Y) as Hn. rewrite <- HX, HX' in Hn. pose proof (zlen_nonneg (concat X)). pose proof (zlen_nonneg lo). rewrite G5. split; [split; [lia|exact G4]|].
      split; [symmetry; exact (NN _ (r, c, v) Hw0 eq_refl Hn)|]. exists (r, c, v). auto.
    + pose proof (lines_within R C rows i cu ln ps b mo Hok Ht Epl) as H. pose proof Ht as (_ & _ & Hp). rewrite Epl in Hp. destruct Hp as (_ & _ & _ & _ & _ & _ & Hb).
      destruct (nth_error (rents 0 rows) (Z.to_nat b)) as [[[r c] v]|] eqn:En; [|discriminate]. cbn [pos_of fst snd] in *. destruct (Z.ltb_spec ps c) as [L|L]; [|discriminate]. injection Esh as <-.
      destruct H as (j & G1 & G2 & G3 & G4 & G5). rewrite G1 in H1. injection H1 as <-. cbn [on_spot spot line_of fst placed]. rewrite G5. split; [split; [lia|exact G4]|].
      split; [reflexivity|]. exists (r, c, v). split; [exact En|]. split; [reflexivity|]. split; [|reflexivity]. intros Hs.
      destruct (lines_calm R C rows i cu ln ps b mo Hok Ht Epl Hs) as (X & lo & c' & v' & hi & Y & HX & HX' & Eb & Hc & Hn & _). congruence.
  - destruct Hw as (R & C & cols & -> & Hok). rewrite entries_csc in * by exact Hok. cbn [csc_c mk_csc] in Ht. rewrite csc_next_sw, sw_mk in H1.
    destruct (cu_place cu) as [ln|ln ps b mo|k] eqn:Epl; [| |destruct Ht as (_ & _ & Hp); rewrite Epl in Hp; contradiction]; cbn [shown] in Esh.
    + pose proof (lines_between C R cols (isw i) cu ln Hok Ht Epl) as H. rewrite swap_lat in Esh.
      destruct (filter (lat ln) (rents 0 cols)) as [|[[r c] v] rest] eqn:E; [discriminate|]. cbn [map first] in Esh. injection Esh as <-.
      destruct H as (j & X & lo & hi & Y & G1 & G2 & G3 & HX & HX' & G4 & G5). rewrite G1 in H1. injection H1 as <-. cbn [on_spot spot]. rewrite isw_iunsw. cbn [line_of fst snd swap_ent].
      pose proof (nth_rents X lo c v hi Y) as Hn. rewrite <- HX, HX' in Hn. pose proof (zlen_nonneg (concat X)). pose proof (zlen_nonneg lo). rewrite G5. split; [split; [lia|exact G4]|].
      assert (Hn' : nth_error (map swap_ent (rents 0 cols)) (Z.to_nat (zlen (concat X) + zlen lo)) = Some (c, r, v)) by (rewrite nth_swap, Hn; reflexivity).
      split; [symmetry; exact (NN _ (c, r, v) Hw0 eq_refl Hn')|]. exists (c, r, v). auto.
    + pose proof (lines_within C R cols (isw i) cu ln ps b mo Hok Ht Epl) as H. pose proof Ht as (_ & _ & Hp). rewrite Epl in Hp. destruct Hp as (_ & _ & _ & _ & _ & _ & Hb).
      rewrite nth_swap in Esh. destruct (nth_error (rents 0 cols) (Z.to_nat b)) as [[[r c] v]|] eqn:En; cbn [option_map] in Esh; [|discriminate].
      cbn [pos_of swap_ent fst snd] in *. destruct (Z.ltb_spec ps c) as [L|L]; [|discriminate]. injection Esh as <-.
      destruct H as (j & G1 & G2 & G3 & G4 & G5). rewrite G1 in H1. injection H1 as <-. cbn [on_spot spot]. rewrite isw_iunsw. cbn [line_of fst snd placed]. rewrite G5. split; [split; [lia|exact G4]|].
      split; [reflexivity|]. exists (c, r, v). rewrite nth_swap, En. split; [reflexivity|]. split; [reflexivity|]. split; [|reflexivity]. intros Hs. cbn [settled] in Hs. rewrite swap_inl, swap_upto, !zlen_map in Hs.
      destruct (lines_calm C R cols (isw i) cu ln ps b mo Hok Ht Epl Hs) as (X & lo & c' & v' & hi & Y & HX & HX' & Eb & Hc & Hn & _). congruence.
  - destruct Hw as (R & C & f & -> & HR & HC & Hb). cbn [dm_r dm_c mk_dm] in Ht. destruct Ht as (k & Ep & Ek & Et & Hi). rewrite Ep in *. cbn [shown] in Esh. rewrite entries_dm in * by auto.
    destruct (skipn (Z.to_nat k) (map (fun p => (p, f (fst p) (snd p))) (all_cells R C))) as [|e1 rest] eqn:Esk; [discriminate|]. injection Esh as ->.
    apply nth_skipn in Esk. assert (Lk : k < R * C).
    { assert (Q : (Z.to_nat k < length (map (fun p => (p, f (fst p) (snd p))) (all_cells R C)))%nat) by (apply nth_error_Some; congruence). pose proof (zlen_all_cells R C HR HC) as Q2. rewrite map_length in Q. unfold zlen in Q2. lia. }
    assert (C0 : 0 < C) by (destruct Hi as (Hk & _); nia).
    destruct (dmi_next R C f i k Hi Lk C0) as (Hi' & Er & Ec). injection H1 as <-. cbn [on_spot spot dm_r dm_c mk_dm]. rewrite Er, Ec. destruct Hi as (Hk & _).
    replace (k / C * C + k mod C) with k by (rewrite (Z.div_mod k C) at 1 by lia; lia).
    split; [split; [split; [apply Z.div_pos; lia|apply Z.div_lt_upper_bound; lia]|apply Z.mod_pos_bound; lia]|]. split; [reflexivity|]. exists e. auto.
  - destruct Hw as (L & f & -> & HL). destruct Ht as (k & Ep & El & Es & Er & Hk). rewrite Ep in *. rewrite entries_dv in * by exact HL. cbn [shown] in Esh.
    assert (EL : zlen (map (fun k => (k, 0, f k)) (zrange 0 L)) = L) by (rewrite zlen_map, zlen_zrange; lia). rewrite EL in Esh.
    set (q := if k =? L then 0 else k).
    assert (EQ : first (skipn (Z.to_nat q) (map (fun k => (k, 0, f k)) (zrange 0 L))) = Ok e) by (rewrite <- Esh; unfold q; destruct (k =? L); reflexivity).
    assert (EN : dvi_rOld (dv_next (mk_dv L f) i) = q) by (unfold dv_next, dv_Rows; rewrite Er; cbn [dv_l mk_dv]; unfold q; destruct (k =? L); reflexivity).
    injection H1 as <-. cbn [on_spot spot]. rewrite EN. split; [unfold q; destruct (k =? L); lia|].
    destruct (skipn (Z.to_nat q) (map (fun k => (k, 0, f k)) (zrange 0 L))) as [|e1 rest] eqn:Esk; [discriminate|]. injection EQ as ->. apply nth_skipn in Esk. split; [|exists e; auto].
    cbn [number]. assert (Lq : 0 <= q < L).
    { assert (Q : (Z.to_nat q < length (map (fun k => (k, 0%Z, f k)) (zrange 0%Z L)))%nat) by (apply nth_error_Some; rewrite Esk; discriminate). unfold zlen in EL. split; [unfold q; destruct (k =? L); lia|]. unfold q in *. destruct (k =? L); lia. }
    pose proof (zget_zrange 0 L q ltac:(lia)) as G. rewrite nth_error_map in Esk. unfold zget in G. destruct (Z.ltb_spec q 0); [lia|].
    destruct (nth_error (zrange 0 L) (Z.to_nat q)) as [a|]; [|discriminate]. injection G as ->. cbn [option_map] in Esk. injection Esk as <-. cbn [fst]. f_equal; lia.
  - destruct Hw as (L & ents & -> & Hok). destruct Ht as (k & Ep & Ek & El & Es). rewrite Ep in *. rewrite entries_sv in * by exact Hok. cbn [shown] in Esh.
    destruct (skipn (Z.to_nat k) (map (fun e => (fst e, 0, snd e)) ents)) as [|e1 rest] eqn:Esk; [discriminate|]. injection Esh as ->. apply nth_skipn in Esk.
    injection H1 as <-. cbn [on_spot spot sv_next svi_old]. rewrite El. split; [pose proof (zlen_nonneg (cu_seen cu)); lia|]. split; [reflexivity|]. exists e. auto.
Qed.

End IterPut.
