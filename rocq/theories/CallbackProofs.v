(** [Update] and [Map] with functions that call the API. *)
From Coq Require Import String Sorting.Sorted.
From Verif Require Import GoBase Num SparseVec Csr Csc DenseVec DenseMat Mat World Ops.
From Verif Require Import BaseProofs AssocProofs CsrProofs SvProofs CsrIterProofs CscProofs DenseProofs MatProofs.
From Verif Require Import Spec HeapProofs Api ReachProofs MapLag StoreProofs EwThms Iters IterKin IterProofs IterPut IterThms Callbacks.

Section CallbackProofs.
Context {N : num}.
Notation V := (T N).
Notation mat := (mat N).
Notation row := (list (Z * V)).
Notation ent := (Z * Z * V)%type.
Notation world := (world N).
Notation M := (M N).
Implicit Types w : world.
Implicit Types m : mat.

(** ** [Update] is [mat_find], the function, [mat_finish] *)
Lemma update_parts m r c (f : V -> V) : mat_Update m r c f = rbind (mat_find m r c) (fun q => mat_finish m r c (fst q) (f (snd q))).
Proof.
  destruct m as [s|s|s|s|s]; cbn [mat_Update mat_find]; unfold csr_Update, csr_UpdateReturnPointer, csc_Update, csc_UpdateReturnPointer, dm_Update, dv_Update, sv_Update;
    repeat match goal with |- context [if ?b then Panic else _] => destruct b; [reflexivity|] end.
  - destruct (csr_columnIndex s r c) as [[ps pe]| |]; cbn [rbind rmap]; try reflexivity. destruct (csr_hit s ps pe c) as [[]| |]; cbn [rbind rmap]; try reflexivity.
    + destruct (zget (csr_values s) ps); cbn [rbind fst snd mat_finish]; try reflexivity. destruct (isz (f a)); [destruct (csr_remove s ps r)|destruct (zset (csr_values s) ps (f a))]; reflexivity.
    + cbn [fst snd mat_finish]. destruct (csr_insert s ps r c (f n0)) as [[]| |]; reflexivity.
  - destruct (csc_rowIndex s r c) as [[ps pe]| |]; cbn [rbind rmap]; try reflexivity. destruct (csc_hit s ps pe r) as [[]| |]; cbn [rbind rmap]; try reflexivity.
    + destruct (zget (csc_values s) ps); cbn [rbind fst snd mat_finish]; try reflexivity. destruct (isz (f a)); [destruct (csc_remove s ps c)|destruct (zset (csc_values s) ps (f a))]; reflexivity.
    + cbn [fst snd mat_finish]. destruct (csc_insert s ps r c (f n0)) as [[]| |]; reflexivity.
  - destruct (dm_read s r c); cbn [rbind rmap fst snd mat_finish]; try reflexivity. destruct (dm_write s r c (f a)); reflexivity.
  - destruct (dv_AtVec s r); cbn [rbind rmap fst snd mat_finish]; try reflexivity. destruct (dv_SetVec s r (f a)); reflexivity.
  - destruct (sv_AtVec s r); cbn [rbind rmap fst snd mat_finish]; try reflexivity. destruct (sv_SetVec s r (f a)); reflexivity.
Qed.

Lemma update_pure p r c (f : V -> V) w : p_UpdateM p r c (fun v => mret (f v)) w = p_Update p r c f w.
Proof.
  unfold p_UpdateM, p_Update, mbind, load. destruct (nth_error (w_heap w) p) as [m|] eqn:E; [|reflexivity]. rewrite update_parts.
  destruct (mat_find m r c) as [[fd v]| |]; cbn [mlift rbind fst snd mret]; try reflexivity. unfold mret. rewrite E. reflexivity.
Qed.

(** [Set] writes where [mat_find] finds the position *)
Lemma set_parts m r c x fd v : mat_find m r c = Ok (fd, v) -> mat_finish m r c fd x = mat_Set m r c x.
Proof.
  intros H. transitivity (mat_Update m r c (fun _ => x)); [rewrite update_parts, H; reflexivity|].
  destruct m as [s|s|s|s|s]; cbn [mat_Update mat_Set].
  - unfold csr_Set. destruct (csr_Update s r c (fun _ : V => (tt, x))) as [[? ?]| |]; reflexivity.
  - unfold csc_Set. destruct (csc_Update s r c (fun _ : V => (tt, x))) as [[? ?]| |]; reflexivity.
  - unfold dm_Set, dm_Update. cbn [mat_find] in H. repeat match type of H with context [if ?b then Panic else _] => destruct b; [discriminate|] end.
    destruct (dm_read s r c); cbn [rbind] in *; try discriminate. destruct (dm_write s r c x); reflexivity.
  - unfold dv_Set, dv_Update. cbn [mat_find] in H. repeat match type of H with context [if ?b then Panic else _] => destruct b; [discriminate|] end.
    destruct (dv_AtVec s r); cbn [rbind] in *; try discriminate. destruct (dv_SetVec s r x); reflexivity.
  - unfold sv_Set, sv_Update. cbn [mat_find] in H. repeat match type of H with context [if ?b then Panic else _] => destruct b; [discriminate|] end.
    destruct (sv_AtVec s r); cbn [rbind] in *; try discriminate. destruct (sv_SetVec s r x); reflexivity.
Qed.

(** the argument of the function is what [At] returns *)
Lemma find_value m r c fd v : mat_find m r c = Ok (fd, v) -> inb m r c -> wf m -> zero_ok N -> mat_At m r c = Ok (v, m).
Proof.
  intros H Hb Hw Hz. rewrite (At_ok m r c Hz Hw Hb). unfold peek. destruct (mat_At m r c) as [[v' m']| |] eqn:E; [|rewrite (At_ok m r c Hz Hw Hb) in E; discriminate..].
  f_equal. f_equal. destruct m as [s|s|s|s|s]; cbn [mat_At mat_find] in *.
  - unfold csr_At, csr_Update, csr_UpdateReturnPointer in E. repeat match type of H with context [if ?b then Panic else _] => destruct b; [discriminate|] end.
    destruct (csr_columnIndex s r c) as [[ps pe]| |]; cbn [rbind rmap] in *; try discriminate. destruct (csr_hit s ps pe c) as [[]| |]; cbn [rbind rmap] in *; try discriminate.
    + destruct (zget (csr_values s) ps); cbn [rbind] in *; try discriminate. injection H as <- <-.
      destruct (isz a); [destruct (csr_remove s ps r)|destruct (zset (csr_values s) ps a)]; cbn in E; try discriminate; congruence.
    + injection H as <- <-. destruct (csr_insert s ps r c n0) as [[]| |]; cbn in E; try discriminate; congruence.
  - unfold csc_At, csc_Update, csc_UpdateReturnPointer in E. repeat match type of H with context [if ?b then Panic else _] => destruct b; [discriminate|] end.
    destruct (csc_rowIndex s r c) as [[ps pe]| |]; cbn [rbind rmap] in *; try discriminate. destruct (csc_hit s ps pe r) as [[]| |]; cbn [rbind rmap] in *; try discriminate.
    + destruct (zget (csc_values s) ps); cbn [rbind] in *; try discriminate. injection H as <- <-.
      destruct (isz a); [destruct (csc_remove s ps c)|destruct (zset (csc_values s) ps a)]; cbn in E; try discriminate; congruence.
    + injection H as <- <-. destruct (csc_insert s ps r c n0) as [[]| |]; cbn in E; try discriminate; congruence.
  - unfold dm_At in E. repeat match type of H with context [if ?b then Panic else _] => destruct b; [discriminate|] end.
    destruct (dm_read s r c); cbn [rbind rmap] in *; try discriminate. congruence.
  - unfold dv_At in E. repeat match type of H with context [if ?b then Panic else _] => destruct b; [discriminate|] end.
    destruct (dv_AtVec s r); cbn [rbind rmap] in *; try discriminate. congruence.
  - unfold sv_At, sv_Update in E. repeat match type of H with context [if ?b then Panic else _] => destruct b; [discriminate|] end.
    destruct (sv_AtVec s r); cbn [rbind rmap] in *; try discriminate. injection H as <- <-. destruct (sv_SetVec s r a); cbn in E; try discriminate. congruence.
Qed.

Lemma find_panic m r c : wf m -> ~ inb m r c -> mat_find m r c = Panic.
Proof.
  intros Hw Hb. unfold inb in Hb. destruct m as [s|s|s|s|s]; cbn [mat_find mat_Rows mat_Columns] in *; unfold csr_Rows, csr_Columns, csc_Rows, csc_Columns in *;
  match goal with |- (if ?b then _ else _) = _ => destruct b eqn:E1; [reflexivity|] end;
  match goal with |- (if ?b then _ else _) = _ => destruct b eqn:E2; [reflexivity|] end; exfalso; apply Hb; lia.
Qed.

(** what is found in a matrix stored by lines *)
Definition kind_of (stored : bool) (n : Z) : found := if stored then FHit n else FMiss n.

Lemma prec_eq (s : csr N) ln c (e : ent) : precedes (MCSR s) (ln, c) e = upto ln (c - 1) e.
Proof. unfold precedes, upto, inl, lat. cbn [line_of pos_of fst snd]. destruct (fst (fst e) <? ln) eqn:E1, (fst (fst e) =? ln) eqn:E2, (snd (fst e) <? c) eqn:E3, (c - 1 <? snd (fst e)) eqn:E4, (ln <? fst (fst e)) eqn:E5; cbn; auto; lia. Qed.

Lemma In_row (X : list row) l Y c : In (zlen X, c) (map fst (rents 0 (X ++ l :: Y))) <-> In c (map fst l).
Proof.
  rewrite rents_app, Z.add_0_l. cbn [rents]. rewrite !map_app, !in_app_iff. split.
  - intros [H|[H|H]].
    + apply in_map_iff in H as (e & E & H). apply rents_line in H. rewrite E in H. cbn in H. lia.
    + apply in_map_iff in H as (e & E & H). unfold tag in H. apply in_map_iff in H as (y & <- & H). cbn in E. injection E as <-. apply in_map. exact H.
    + apply in_map_iff in H as (e & E & H). apply rents_line in H. rewrite E in H. cbn in H. lia.
  - intros H. right. left. apply in_map_iff in H as (y & <- & H). apply in_map_iff. exists (zlen X, fst y, snd y). split; [reflexivity|]. unfold tag. apply in_map_iff. exists y. auto.
Qed.

Lemma find_rows R C (rows : list row) r c : rows_ok R C rows -> 0 <= r < R -> 0 <= c < C ->
  exists b v pe, let ps := Z.of_nat (length (filter (upto r (c - 1)) (rents 0 rows))) in
    csr_columnIndex (mk_csr R C rows) r c = Ok (ps, pe) /\ csr_hit (mk_csr R C rows) ps pe c = Ok b /\
    (b = true -> zget (csr_values (mk_csr R C rows)) ps = Ok v) /\ (b = true <-> In (r, c) (map fst (rents 0 rows))).
Proof.
  intros Hok Hr Hc. destruct (rows_split R C rows r Hok Hr) as (X & l & Y & -> & EX & Hl). subst r. destruct Hl as (Hs & _).
  destruct (row_split l c Hs) as [(lo & v & hi & -> & Hlo & Hhi)|(lo & hi & -> & Hlo & Hhi)].
  - unfold klt, kgt in *. rewrite Forall_forall in Hlo, Hhi.
    rewrite (split_upto X lo ((c, v) :: hi) Y (c - 1)).
    2: { intros e He. apply Hlo in He. lia. } 2: { intros e [<-|He]; [cbn; lia|]. apply Hhi in He. lia. }
    assert (EZ : Z.of_nat (length (rents 0 X ++ tag (zlen X) lo)) = zlen (concat X) + zlen lo).
    { rewrite app_length, Nat2Z.inj_add. change (Z.of_nat (length ?q)) with (zlen q). rewrite <- (zlen_rents 0 X). f_equal. unfold zlen, tag. rewrite map_length. reflexivity. }
    rewrite EZ. destruct (columnIndex_hit R C X lo c v hi Y (zlen X)) as (pe & H1 & H2); auto; [apply Forall_forall; exact Hlo|apply Forall_forall; exact Hhi|].
    exists true, v, pe. cbv zeta. split; [exact H1|]. split; [exact H2|]. split; [|].
    + intros _. cbn [csr_values mk_csr]. rewrite concat_app. cbn [concat]. rewrite !map_app. cbn [map snd].
      rewrite <- !app_assoc. rewrite (app_assoc (map snd (concat X))). cbn [app]. apply zget_mid. zl. lia.
    + split; [intros _|reflexivity]. apply In_row. rewrite map_app. apply in_or_app. right. left. reflexivity.
  - unfold klt, kgt in *. rewrite Forall_forall in Hlo, Hhi.
    rewrite (split_upto X lo hi Y (c - 1)).
    2: { intros e He. apply Hlo in He. lia. } 2: { intros e He. apply Hhi in He. lia. }
    assert (EZ : Z.of_nat (length (rents 0 X ++ tag (zlen X) lo)) = zlen (concat X) + zlen lo).
    { rewrite app_length, Nat2Z.inj_add. change (Z.of_nat (length ?q)) with (zlen q). rewrite <- (zlen_rents 0 X). f_equal. unfold zlen, tag. rewrite map_length. reflexivity. }
    rewrite EZ. destruct (columnIndex_miss R C X lo c hi Y (zlen X)) as (pe & H1 & H2); auto; [apply Forall_forall; exact Hlo|apply Forall_forall; exact Hhi|].
    exists false, n0, pe. cbv zeta. split; [exact H1|]. split; [exact H2|]. split; [discriminate|].
    split; [discriminate|]. intros H. apply (In_row X (lo ++ hi) Y c) in H. rewrite map_app in H. apply in_app_or in H as [H|H]; apply in_map_iff in H as (e & <- & H); [apply Hlo in H|apply Hhi in H]; lia.
Qed.

Lemma find_lined m l r c : wf m -> enumerates m l -> lined m = true -> inb m r c ->
  exists b v, mat_find m r c = Ok (kind_of b (Z.of_nat (length (filter (precedes m (r, c)) l))), v) /\ (b = true <-> In (r, c) (map fst l)).
Proof.
  intros Hw He Hl [Hr Hc]. apply enumerates_unique in He; [|exact Hw]. subst l. destruct m as [s|s|s|s|s]; try discriminate.
  - destruct Hw as (R & C & rows & -> & Hok). cbn in Hr, Hc. unfold csr_Rows, csr_Columns in *. cbn in Hr, Hc. rewrite entries_csr by exact Hok.
    destruct (find_rows R C rows r c Hok Hr Hc) as (b & v & pe & H1 & H2 & H3 & H4).
    rewrite (filter_ext _ _ (prec_eq (mk_csr R C rows) r c)). cbn [mat_find]. change (csr_r (mk_csr R C rows)) with R. change (csr_c (mk_csr R C rows)) with C.
    destruct (Z.ltb_spec r 0); [lia|]. destruct (Z.geb_spec r R); [lia|]. destruct (Z.ltb_spec c 0); [lia|]. destruct (Z.geb_spec c C); [lia|]. cbn [orb].
    rewrite H1. cbn [rbind]. rewrite H2. cbn [rbind]. exists b. destruct b; [rewrite (H3 eq_refl); exists v|exists n0]; auto.
  - destruct Hw as (R & C & cols & -> & Hok). cbn in Hr, Hc. unfold csc_Rows, csc_Columns in *. cbn in Hr, Hc. rewrite entries_csc by exact Hok.
    destruct (find_rows C R cols c r Hok Hc Hr) as (b & v & pe & H1 & H2 & H3 & H4).
    assert (EF : length (filter (precedes (MCSC (mk_csc R C cols)) (r, c)) (map swap_ent (rents 0 cols))) = length (filter (upto c (r - 1)) (rents 0 cols))).
    { rewrite filter_map, map_length. f_equal. apply filter_ext. intros e. rewrite <- (prec_eq (mk_csr C R cols) c r). reflexivity. }
    rewrite EF. cbn [mat_find]. change (csc_r (mk_csc R C cols)) with R. change (csc_c (mk_csc R C cols)) with C.
    destruct (Z.ltb_spec r 0); [lia|]. destruct (Z.geb_spec r R); [lia|]. destruct (Z.ltb_spec c 0); [lia|]. destruct (Z.geb_spec c C); [lia|]. cbn [orb].
    rewrite rowIndex_sw, sw_mk, H1. cbn [rbind]. rewrite csc_hit_sw, sw_mk, H2. cbn [rbind].
    assert (HI : In (r, c) (map fst (map swap_ent (rents 0 cols))) <-> In (c, r) (map fst (rents 0 cols))).
    { rewrite map_map, !in_map_iff. split; intros ([[a b0] u] & E & H'); cbn in E; injection E as <- <-; eexists; split; try exact H'; reflexivity. }
    exists b. destruct b; [exists v|exists n0]; (split; [|rewrite HI; exact H4]); [|reflexivity].
    change (csc_values (mk_csc R C cols)) with (csr_values (mk_csr C R cols)). rewrite (H3 eq_refl). reflexivity.
Qed.

Lemma find_cell m r c : wf m -> lined m = false -> inb m r c -> exists v, mat_find m r c = Ok (FCell, v).
Proof.
  intros Hw Hl [Hr Hc]. destruct m as [s|s|s|s|s]; try discriminate; cbn [mat_find mat_Rows mat_Columns] in *.
  - destruct Hw as (R & C & f & -> & HR & HC & _). pose proof (dm_At_spec R C f r c) as Q. unfold dm_At in Q. unfold dm_Rows, dm_Columns in *. cbn [dm_r dm_c mk_dm] in *.
    destruct (Z.ltb_spec r 0); [lia|]. destruct (Z.geb_spec r R); [lia|]. destruct (Z.ltb_spec c 0); [lia|]. destruct (Z.geb_spec c C); [lia|]. cbn [orb] in *.
    rewrite Q by lia. eexists. reflexivity.
  - destruct Hw as (L & f & -> & HL). unfold dv_Rows, dv_Columns in *. cbn [dv_l mk_dv] in *.
    destruct (Z.ltb_spec r 0); [lia|]. destruct (Z.geb_spec r L); [lia|]. destruct (Z.ltb_spec c 0); [lia|]. destruct (Z.geb_spec c 1); [lia|]. cbn [orb].
    rewrite dv_AtVec_spec by lia. eexists. reflexivity.
  - destruct Hw as (L & ents & -> & Hok). unfold sv_Rows, sv_Columns in *. cbn [sv_l mk_sv] in *.
    destruct (Z.ltb_spec r 0); [lia|]. destruct (Z.geb_spec r L); [lia|]. destruct (Z.ltb_spec c 0); [lia|]. destruct (Z.geb_spec c 1); [lia|]. cbn [orb].
    rewrite sv_AtVec_read by lia. eexists. reflexivity.
Qed.

(** ** Worlds reached by the calls of a function *)
Lemma later_wfw (P : world -> Prop) w w1 : sane N -> later P w w1 -> wfw w -> wfw w1.
Proof. intros [Hz Hn] H Hw. induction H; auto. apply after_wfw; auto. Qed.
Lemma later_kin (P : world -> Prop) w w1 p m : later P w w1 -> obj w p m -> exists m1, obj w1 p m1 /\ kin m m1.
Proof.
  intros H Ho. induction H as [|w w1 c H IH Ha HP]; [exists m; split; [exact Ho|apply kin_refl]|]. destruct (IH Ho) as (m1 & Ho1 & K1).
  destruct (kin_call p c w1 m1 Ho1) as (m2 & Ho2 & K2). exists m2. split; [exact Ho2|]. eapply kin_trans; eauto.
Qed.
Lemma later_follows (P : world -> Prop) w w1 hs cs : later P w w1 -> follows P w hs cs -> follows P w1 hs cs.
Proof. intros H Hf. induction H; auto. apply fol_call; auto. Qed.

End CallbackProofs.
