(** What a [Map] loop does when its function produces zeros (csrMatrix.go:392-401, cscMatrix.go:402-411,
    sparseVector.go:357-366): the specification of where a zero is harmless, and the consequences of MapZero.v. *)
From Coq Require Import String Sorting.Sorted.
From Verif Require Import GoBase Num SparseVec Csr Csc DenseVec DenseMat Mat World Ops.
From Verif Require Import BaseProofs AssocProofs CsrProofs SvProofs CsrIterProofs CscProofs DenseProofs MatProofs.
From Verif Require Import Spec HeapProofs Api ReachProofs StoreProofs LoopProofs StoreThms OpsThms MethThms OpsProps MapLag MapZero.

(** ** Specification *)
Section MapZeroSpec.
Context {N : num}.
Notation V := (T N).
Notation mat := (mat N).

(** whenever [f] sends an element of the list to zero, no later element of the list or of [more] is in its line *)
Definition zeros_end_lines (m : mat) (f : Z -> Z -> V -> V) (l more : list (Z * Z * V)) : Prop :=
  forall l1 i j v l2, l = l1 ++ (i, j, v) :: l2 -> neqb (f i j v) n0 = true ->
  forall e, In e (l2 ++ more) -> ~ same_line m (i, j) (fst e).

(** the elements that stay: what [f] makes of each, without the zeros of a sparse object *)
Definition mapped (m : mat) (f : Z -> Z -> V -> V) (l : list (Z * Z * V)) : list (Z * Z * V) :=
  filter (fun '(_, _, x) => negb (sparse_obj m && neqb x n0)) (map (fun '(i, j, v) => (i, j, f i j v)) l).
End MapZeroSpec.

Section MapZeroThms.
Context {N : num}.
Notation V := (T N).
Notation mat := (mat N).
Notation ent := (Z * Z * V)%type.
Notation world := (world N).
Implicit Types w : world.
Implicit Types m : mat.

Lemma kept_mapped m f l : kept m f l = mapped m f l.
Proof.
  unfold mapped. rewrite sparse_is_sp. induction l as [|[[i j] v] l IH]; [reflexivity|]. change (kept m f ((i, j, v) :: l)) with (keep m (i, j, f i j v) ++ kept m f l).
  rewrite IH. cbn [map filter]. unfold keep. cbn [snd]. change (neqb (f i j v) n0) with (isz (f i j v)). destruct (is_sp m && isz (f i j v)); reflexivity.
Qed.

Lemma zeros_tame m f more : forall l, (sparse_obj m = true -> zeros_end_lines m f l more) -> tame m f l more.
Proof.
  rewrite sparse_is_sp. induction l as [|[[i j] v] l IH]; intros H; [exact I|]. split.
  - intros Hsp Hx. specialize (H Hsp [] i j v l eq_refl Hx). destruct m; cbn [ends]; try exact I.
    + intros e He Q. apply (H e He). cbn. congruence.
    + intros e He Q. apply (H e He). cbn. congruence.
    + destruct (l ++ more) as [|e L]; [reflexivity|]. exfalso. apply (H e); [left; reflexivity|exact I].
  - apply IH. intros Hsp l1 a b u l2 E Hu e He. apply (H Hsp ((i, j, v) :: l1) a b u l2); auto. cbn [app]. rewrite E. reflexivity.
Qed.

Lemma enumerates_eq m l : wf m -> enumerates m l -> l = entries m.
Proof. intros Hw H. specialize (H (Z.to_nat (mat_Values m)) ltac:(lia)). rewrite loop_Next_ok in H by (auto; lia). congruence. Qed.

(** ** Zeros at the ends of lines *)
Lemma map_zeros E w p m f l : sane N -> reachable w -> obj w p m -> enumerates m l -> mat_Values m <= Z.of_nat (e_fuel E) ->
  (sparse_obj m = true -> zeros_end_lines m f l []) ->
  exists w' m', user_Map E p f w = (w', Ok tt) /\ extends_but p w w' /\ obj w' p m' /\ same_storage m m' /\
    mat_Rows m' = mat_Rows m /\ mat_Columns m' = mat_Columns m /\ enumerates m' (mapped m f l) /\
    (forall R C h, (is_dense m \/ is_sparse_matrix m) -> denotes m R C h ->
       denotes m' R C (fun i j => if sparse_obj m && (neqb (h i j) n0 || neqb (f i j (h i j)) n0) then n0 else f i j (h i j))).
Proof.
  intros Hs Hr Ho He Hf Hz. pose proof (reach_good _ _ _ Hs Hr Ho) as Hw. assert (Hz0 := proj1 Hs).
  apply (enumerates_eq _ _ Hw) in He as ->. apply zeros_tame in Hz.
  destruct (map_tame (bg E) true p f w m eq_refl Ho Hw Hf Hz) as (m' & Hm & Hw' & Hsh & Hen).
  exists (upd w p m'), m'. split; [exact Hm|]. split; [eapply extends_but_upd; reflexivity|]. split; [eapply obj_upd_eq; eauto|].
  split; [apply storage_of; auto|]. split; [apply Hsh|]. split; [apply Hsh|]. split; [rewrite <- kept_mapped, <- Hen; apply enumerates_entries; exact Hw'|].
  intros R C h Hksv Hd. pose proof Hd as (ER & EC & _). assert (Hg : good m) by (split; [auto|destruct m; simpl in Hksv; try discriminate; tauto]).
  apply peek_denotes; auto; [destruct Hsh; lia|destruct Hsh as (_ & _ & ?); lia|].
  intros i j Hb. apply (same_shape_inb _ _ _ _ Hsh) in Hb. rewrite (kept_cells m m' f Hz0 Hg Hw' Hsh Hen i j Hb).
  rewrite (denotes_peek m R C h i j Hd Hb). pose proof (sparse_is_sp m) as Q. revert Q. unfold isz. generalize (sparse_obj m). intros b ->. destruct (is_sp m), (neqb (h i j) n0), (neqb (f i j (h i j)) n0); reflexivity.
Qed.

(** ** A zero that does not end the last line *)
Lemma loop_sw E stop p g w0 m0 : obj w0 p m0 -> e_ctx E = None -> forall fuel s i,
  snd (map_loop E stop fuel p (ICSC i) (fun r c v => mret (g r c v)) (upd w0 p (MCSC s))) =
  snd (map_loop E stop fuel p (ICSR (isw i)) (fun r c v => mret (g c r v)) (upd w0 p (MCSR (sw s)))).
Proof.
  intros Ho Hb. induction fuel as [|fuel IH]; intros s i; cbn [map_loop mat_HasNext]; rewrite csc_HasNext_sw; destruct (csr_HasNext (isw i)); try reflexivity.
  unfold poll. rewrite Hb. unfold mbind at 1. cbv beta iota. symmetry. unfold mbind at 1. cbv beta iota. symmetry.
  assert (O1 : obj (upd w0 p (MCSC s)) p (MCSC s)) by (eapply obj_upd_eq; eauto).
  assert (O2 : obj (upd w0 p (MCSR (sw s))) p (MCSR (sw s))) by (eapply obj_upd_eq; eauto).
  unfold map_step. unfold mbind at 1. rewrite (mbind_ok _ _ _ _ _ (load_ok _ _ _ O1)).
  symmetry. unfold mbind at 1. rewrite (mbind_ok _ _ _ _ _ (load_ok _ _ _ O2)). symmetry.
  cbn [mat_next]. rewrite csc_next_sw. destruct (csr_next (sw s) (isw i)) as [j| |]; try reflexivity.
  cbn [rmap rbind]. rewrite !mbind_lift. cbn [mat_cur]. rewrite csc_cur_sw, isw_iunsw. destruct (csr_cur (sw s) j) as [[[r c] v]| |]; try reflexivity.
  cbn [rmap rbind fst snd]. rewrite !mbind_lift, !mbind_ret. rewrite (mbind_ok _ _ _ _ _ (load_ok _ _ _ O1)).
  rewrite (mbind_ok _ _ _ _ _ (load_ok _ _ _ O2)). cbn [mat_map_put]. rewrite csc_map_put_sw, isw_iunsw.
  destruct (csr_map_put (sw s) j (g c r v)) as [t| |]; try reflexivity. cbn [rmap rbind]. rewrite !mbind_lift.
  specialize (IH (unsw t) (iunsw j)). rewrite isw_iunsw, sw_unsw in IH. rewrite <- (upd_upd w0 p (MCSC s)), <- (upd_upd w0 p (MCSR (sw s)) (MCSR t)) in IH. exact IH.
Qed.

Lemma split_at {A} (l : list A) i : 0 <= i < zlen l -> exists x y z, l = x ++ y :: z /\ i = zlen x.
Proof. intros H. destruct (zget_ok l i H) as (y & Hy). destruct (zget_split l i y Hy) as (x & z & E & L). exists x, y, z. auto. Qed.

Lemma sv_short E stop p g w0 m0 : obj w0 p m0 -> e_ctx E = None -> forall n s i fuel,
  zlen (sv_values s) = zlen (sv_indices s) -> zlen (sv_values s) < svi_size i -> 0 <= svi_last i < svi_size i -> svi_size i - svi_last i <= Z.of_nat n -> (n <= fuel)%nat ->
  snd (map_loop E stop fuel p (ISV i) (fun r c v => mret (g r c v)) (upd w0 p (MSV s))) = Panic.
Proof.
  intros Ho Hb. induction n as [|n IH]; intros s i fuel Hl Hlt Hi Hn Hf; [lia|]. destruct fuel as [|fuel]; [lia|].
  assert (O1 : obj (upd w0 p (MSV s)) p (MSV s)) by (eapply obj_upd_eq; eauto).
  assert (Hh : sv_HasNext i = true) by (unfold sv_HasNext; destruct (Z.geb_spec (svi_last i) (svi_size i)); [lia|reflexivity]).
  destruct (Z_le_gt_dec (zlen (sv_indices s)) (svi_last i)) as [Hle|Hgt].
  - cbn [map_loop mat_HasNext]. rewrite Hh. unfold poll at 1. rewrite Hb. unfold mbind at 1. cbv beta iota.
    unfold mbind at 1. unfold map_step. rewrite (mbind_ok _ _ _ _ _ (load_ok _ _ _ O1)). cbn [mat_next]. rewrite mbind_lift. cbn [mat_cur]. unfold sv_cur, sv_next.
    cbn [svi_old]. rewrite zget_big by lia. reflexivity.
  - assert (Hr : 0 <= svi_last i < zlen (sv_indices s)) by lia.
    destruct (zget_ok (sv_indices s) (svi_last i) Hr) as (a & Ha).
    destruct (zget_ok (sv_values s) (svi_last i)) as (v & Hv); [lia|].
    assert (Hc : mat_cur (MSV s) (ISV (sv_next i)) = Ok (a, 0, v)) by (cbn [mat_cur]; unfold sv_cur, sv_next; cbn [svi_old]; rewrite Ha; cbn [rbind]; rewrite Hv; reflexivity).
    assert (Hp : exists s', sv_map_put s (sv_next i) (g a 0 v) = Ok s' /\ zlen (sv_values s') = zlen (sv_indices s') /\ zlen (sv_values s') <= zlen (sv_values s)).
    { unfold sv_map_put, sv_next. cbn [svi_old]. destruct (isz (g a 0 v)).
      - cbn [negb]. unfold sv_remove.
        destruct (split_at (sv_indices s) (svi_last i) Hr) as (x1 & y1 & z1 & Ex1 & Hx). destruct (split_at (sv_values s) (svi_last i) ltac:(lia)) as (x2 & y2 & z2 & Ex2 & Hy). rewrite Ex1, Ex2 in *.
        rewrite slice_to_app by lia. cbn [rbind]. change (y1 :: z1) with ([y1] ++ z1). change (y2 :: z2) with ([y2] ++ z2). rewrite !app_assoc.
        rewrite slice_from_app by (zl; lia). cbn [rbind]. rewrite <- (app_assoc x2). rewrite slice_to_app by lia. cbn [rbind]. rewrite app_assoc.
        rewrite slice_from_app by (zl; lia). cbn [rbind]. eexists. split; [reflexivity|]. cbn [sv_values sv_indices]. revert Hl. zl. intros; lia.
      - cbn [negb]. destruct (split_at (sv_values s) (svi_last i) ltac:(lia)) as (x2 & y2 & z2 & Es & Hy). rewrite Es.
        rewrite zset_mid by lia. cbn [rbind]. eexists. split; [reflexivity|]. cbn [sv_values sv_indices]. rewrite Es in Hl. revert Hl. zl. intros. lia. }
    destruct Hp as (s' & Hp & Hl' & Hle).
    rewrite (map_step_lag E stop p g (upd w0 p (MSV s)) (MSV s) (ISV i) (ISV (sv_next i)) a 0 v (MSV s') fuel); auto.
    + rewrite upd_upd. destruct (Z.eq_dec (svi_last i + 1) (svi_size i)) as [Q|Q]; [|apply (IH s'); cbn [svi_size svi_last sv_next]; lia].
      exfalso. lia.
    + cbn [mat_map_put]. rewrite Hp. reflexivity.
Qed.

Lemma tail_panics_csr E stop p g w0 m0 (s : csr N) it dn r c v rest fuel : obj w0 p m0 -> e_ctx E = None -> mrel (MCSR s) it dn ((r, c, v) :: rest) -> rest <> [] ->
  (forall e, In e rest -> fst (fst e) = r) -> isz (g r c v) = true -> (S (length rest) <= fuel)%nat ->
  snd (map_loop E stop fuel p it (fun r c v => mret (g r c v)) (upd w0 p (MCSR s))) = Panic.
Proof.
  intros Ho Hb Hm Hne Hl Hx Hf. destruct fuel as [|fuel]; [lia|].
  destruct (past_start s it dn r c v rest (g r c v) Hm Hne Hl Hx) as (R & C & X & row & Y & i & q & Hp & Hd & H1 & H2 & H3).
  rewrite (map_step_lag E stop p g (upd w0 p (MCSR s)) (MCSR s) it (ICSR i) r c v _ fuel Hb (obj_upd_eq _ _ _ _ Ho) (mrel_HasNext _ _ _ _ Hm) H1 H2 H3).
  rewrite upd_upd. destruct (past_panics E stop p g w0 m0 R C X Y Ho Hb (length rest) row i q fuel Hp) as (w' & ->); [unfold zlen in Hd; lia|lia|reflexivity].
Qed.

Lemma tail_panics E stop p g w0 m0 m it dn r c v rest fuel : obj w0 p m0 -> e_ctx E = None -> mrel m it dn ((r, c, v) :: rest) -> is_sp m = true -> rest <> [] ->
  (forall e, In e rest -> same_line m (r, c) (fst e)) -> isz (g r c v) = true -> (S (length rest) <= fuel)%nat ->
  snd (map_loop E stop fuel p it (fun r c v => mret (g r c v)) (upd w0 p m)) = Panic.
Proof.
  intros Ho Hb Hm Hsp Hne Hl Hx Hf. destruct m as [s|s|s|s|s]; try discriminate Hsp.
  - eapply tail_panics_csr; eauto. intros e He. specialize (Hl e He). cbn in Hl. congruence.
  - pose proof Hm as (it0 & H0 & L). destruct it as [i|i|i|i|i], it0 as [i0|i0|i0|i0|i0]; cbn [lagging] in L; try contradiction; try (simpl in H0; contradiction).
    rewrite (loop_sw E stop p g w0 m0 Ho Hb). apply mrel_sw in Hm. cbn [map swap_ent fst snd] in Hm.
    eapply (tail_panics_csr E stop p (fun r c v => g c r v) w0 m0); eauto.
    + intros Q. apply map_eq_nil in Q. contradiction.
    + intros e He. apply in_map_iff in He as (e' & <- & He'). specialize (Hl e' He'). cbn in Hl |- *. congruence.
    + rewrite map_length. lia.
  - destruct (mrel_step _ _ _ _ _ _ _ Hm) as (it' & H1 & H2 & _). destruct fuel as [|fuel]; [lia|].
    destruct Hm as (it0 & H0 & L). pose proof H0 as H0'. destruct it as [i|i|i|i|i], it0 as [i0|i0|i0|i0|i0]; cbn [lagging] in L; try contradiction; try (simpl in H0; contradiction).
    destruct L as [->|[L _]]; [|discriminate]. cbn [mat_next] in H1. injection H1 as <-.
    destruct H0 as (l & ents & -> & Hok & E0 & E1 & E2). destruct (map_split _ _ _ _ E0) as (l1 & l2 & -> & Hd & Hre). destruct l2 as [|[q u] l2]; [discriminate|].
    cbn [map fst snd] in Hre. injection Hre as Q1 Q2 Q3 Hrest. subst q c u.
    assert (Hz : svi_last i0 = zlen l1) by (rewrite E1, Hd; zl; reflexivity).
    assert (Hlen : zlen rest = zlen l2) by (rewrite Hrest; zl; reflexivity).
    assert (H3 : mat_map_put (MSV (mk_sv l (l1 ++ (r, v) :: l2))) (ISV (sv_next i0)) (g r 0 v) = Ok (MSV (mk_sv l (l1 ++ l2)))).
    { cbn [mat_map_put]. unfold sv_map_put. rewrite Hx. cbn [negb]. unfold sv_remove. cbn [sv_l sv_values sv_indices mk_sv sv_next svi_old]. rewrite !map_app. cbn [map fst snd].
      rewrite slice_to_app by (zl; lia). cbn [rbind]. change (r :: map fst l2) with ([r] ++ map fst l2). change (v :: map snd l2) with ([v] ++ map snd l2). rewrite !app_assoc.
      rewrite slice_from_app by (zl; lia). cbn [rbind]. rewrite <- (app_assoc (map snd l1)). rewrite slice_to_app by (zl; lia). cbn [rbind]. rewrite app_assoc.
      rewrite slice_from_app by (zl; lia). cbn [rbind]. unfold mk_sv. rewrite !map_app. reflexivity. }
    rewrite (map_step_lag E stop p g _ (MSV (mk_sv l (l1 ++ (r, v) :: l2))) (ISV i0) (ISV (sv_next i0)) r 0 v (MSV (mk_sv l (l1 ++ l2))) fuel Hb (obj_upd_eq _ _ _ _ Ho)); [|exact (it_rel_HasNext _ _ _ _ H0')|reflexivity|exact H2|exact H3].
    rewrite upd_upd. apply (sv_short E stop p g w0 m0 Ho Hb (length rest)); cbn [sv_next svi_size svi_last mk_sv sv_values sv_indices]; rewrite ?E2; zl; unfold zlen in *; try lia.
    pose proof (app_length l1 l2). destruct rest; [contradiction|]. cbn [length] in *. lia.
Qed.

Lemma map_panics E w p m f l1 i j v l2 : sane N -> reachable w -> obj w p m -> sparse_obj m = true -> enumerates m (l1 ++ (i, j, v) :: l2) ->
  mat_Values m <= Z.of_nat (e_fuel E) -> zeros_end_lines m f l1 ((i, j, v) :: l2) ->
  neqb (f i j v) n0 = true -> l2 <> [] -> (forall e, In e l2 -> same_line m (i, j) (fst e)) ->
  snd (user_Map E p f w) = Panic.
Proof.
  intros Hs Hr Ho Hsp He Hf Hz Hx Hne Hl. pose proof (reach_good _ _ _ Hs Hr Ho) as Hw. apply (enumerates_eq _ _ Hw) in He.
  unfold user_Map, map_over. rewrite (mbind_ok _ _ _ _ _ (load_ok _ _ _ Ho)).
  assert (Hlen : (length l1 + S (length l2) <= e_fuel E)%nat).
  { pose proof (zlen_entries m Hw) as Q. rewrite <- He in Q. unfold zlen in Q. rewrite app_length in Q. cbn [length] in Q. lia. }
  destruct (map_prefix (bg E) true p f w m Ho eq_refl l1 (mat_iterator m) [] ((i, j, v) :: l2) m (e_fuel E)) as (m' & it' & H1 & H2 & H3).
  - rewrite He. apply it_rel_mrel. apply entries_rel; auto.
  - apply same_shape_refl.
  - apply zeros_tame. auto.
  - lia.
  - rewrite (upd_obj w p m Ho) in H1. cbn [e_fuel bg] in *. rewrite H1. eapply (tail_panics (bg E) true p f w m); eauto.
    + rewrite (same_shape_sp _ _ H3), <- sparse_is_sp. exact Hsp.
    + intros e Hin. specialize (Hl e Hin). destruct H3 as (Hk & _). destruct m, m'; try discriminate Hk; exact Hl.
    + lia.
Qed.

(** ** Sparse vectors: a zero before the last element always panics *)
Lemma first_zero (f : Z -> Z -> V -> V) : forall l : list ent, (exists l1 i j v l2, l = l1 ++ (i, j, v) :: l2 /\ isz (f i j v) = true /\ l2 <> []) ->
  exists l1 i j v l2, l = l1 ++ (i, j, v) :: l2 /\ isz (f i j v) = true /\ l2 <> [] /\ forall i j v, In (i, j, v) l1 -> isz (f i j v) = false.
Proof.
  induction l as [|[[i j] v] l IH]; intros (l1 & a & b & u & l2 & E & Hx & Hne); [destruct l1; discriminate|].
  destruct (isz (f i j v)) eqn:Ei.
  - exists [], i, j, v, l. split; [reflexivity|]. split; [exact Ei|]. split; [|intros ? ? ? []]. intros ->. destruct l1 as [|? [|? ?]]; try discriminate E. injection E as _ _ _ E. congruence.
  - destruct l1 as [|e l1]; [injection E as -> -> -> ->; congruence|]. injection E as <- ->.
    destruct (IH (ex_intro _ l1 (ex_intro _ a (ex_intro _ b (ex_intro _ u (ex_intro _ l2 (conj eq_refl (conj Hx Hne)))))))) as (k1 & a' & b' & u' & k2 & E' & Q1 & Q2 & Q3).
    exists ((i, j, v) :: k1), a', b', u', k2. split; [cbn [app]; rewrite <- E'; reflexivity|]. split; [exact Q1|]. split; [exact Q2|].
    intros x y z [H|H]; [injection H as <- <- <-; exact Ei|]. apply Q3. exact H.
Qed.

Lemma map_vector_panics E w p (s : svec N) f l1 i j v l2 : sane N -> reachable w -> obj w p (MSV s) -> enumerates (MSV s) (l1 ++ (i, j, v) :: l2) ->
  mat_Values (MSV s) <= Z.of_nat (e_fuel E) -> neqb (f i j v) n0 = true -> l2 <> [] -> snd (user_Map E p f w) = Panic.
Proof.
  intros Hs Hr Ho He Hf Hx Hne. destruct (first_zero f (l1 ++ (i, j, v) :: l2)) as (k1 & a & b & u & k2 & E1 & Q1 & Q2 & Q3); [exists l1, i, j, v, l2; auto|].
  rewrite E1 in He. apply (map_panics E w p (MSV s) f k1 a b u k2); auto.
  - intros k3 i' j' v' k4 Ek Hz'. unfold isz in Q3. rewrite (Q3 i' j' v') in Hz'; [discriminate|]. rewrite Ek. apply in_or_app. right. left. reflexivity.
  - intros e _. exact I.
Qed.

(** ** Scalar *)
Lemma scalar_zeros E w (s : ptr) S a l R C f : sane N -> reachable w -> obj w s S -> (is_dense S \/ is_sparse_matrix S) -> denotes S R C f -> e_ctx E = None -> enumerates S l ->
  mat_Values S <= Z.of_nat (e_fuel E) -> (sparse_obj S = true -> zeros_end_lines S (fun _ _ => nmul a) l []) ->
  exists w' t O', Scalar E s a w = (w', Ok t) /\ m_Scalar E s a w = (w', Ok t) /\
    (forall x, ~ obj w t x) /\ extends w w' /\ obj w' t O' /\ same_storage S O' /\ enumerates O' (mapped S (fun _ _ => nmul a) l) /\
    denotes O' R C (fun i j => if sparse_obj S && (neqb (f i j) n0 || neqb (nmul a (f i j)) n0) then n0 else nmul a (f i j)).
Proof.
  intros Hs Hr Ho Hk Hd Hc He Hf Hz. pose proof (reach_good _ _ _ Hs Hr Ho) as Hw. assert (Hz0 := proj1 Hs).
  apply (enumerates_eq _ _ Hw) in He as ->. apply zeros_tame in Hz.
  destruct (map_tame E false (length (w_heap w)) (fun _ _ => nmul a) (ext w S) S Hc (obj_ext_new w S) Hw Hf Hz) as (m' & Hm & Hw' & Hsh & Hen).
  assert (Hrun : Scalar E s a w = (ext w m', Ok (length (w_heap w)))).
  { unfold Scalar. rewrite (mbind_ok _ _ _ _ _ (p_Copy_ok _ _ _ Ho Hw)), (mbind_ok _ _ _ _ _ Hm). rewrite upd_ext. reflexivity. }
  exists (ext w m'), (length (w_heap w)), m'. split; [exact Hrun|].
  split; [unfold m_Scalar; replace (bg E) with E by (destruct E; cbn in *; subst; reflexivity); exact Hrun|].
  split; [intros x Hx; pose proof (obj_lt _ _ _ Hx); lia|]. split; [apply extends_ext|]. split; [apply obj_ext_new|]. split; [apply storage_of; auto|].
  split; [rewrite <- kept_mapped, <- Hen; apply enumerates_entries; exact Hw'|].
  pose proof Hd as (ER & EC & _). assert (Hg : good S) by (split; [auto|destruct S; simpl in Hk; try discriminate; tauto]).
  apply peek_denotes; auto; [destruct Hsh; lia|destruct Hsh as (_ & _ & ?); lia|].
  intros i j Hb. apply (same_shape_inb _ _ _ _ Hsh) in Hb. rewrite (kept_cells S m' _ Hz0 Hg Hw' Hsh Hen i j Hb).
  rewrite (denotes_peek S R C f i j Hd Hb). pose proof (sparse_is_sp S) as Q. revert Q. unfold isz. generalize (sparse_obj S). intros b ->.
  destruct (is_sp S), (neqb (f i j) n0), (neqb (nmul a (f i j)) n0); reflexivity.
Qed.

Lemma scalar_panics E w (s : ptr) S a l1 i j v l2 : sane N -> reachable w -> obj w s S -> sparse_obj S = true -> e_ctx E = None -> enumerates S (l1 ++ (i, j, v) :: l2) ->
  mat_Values S <= Z.of_nat (e_fuel E) -> zeros_end_lines S (fun _ _ => nmul a) l1 ((i, j, v) :: l2) ->
  neqb (nmul a v) n0 = true -> l2 <> [] -> (forall e, In e l2 -> same_line S (i, j) (fst e)) ->
  snd (Scalar E s a w) = Panic /\ snd (m_Scalar E s a w) = Panic.
Proof.
  intros Hs Hr Ho Hsp Hc He Hf Hz Hx Hne Hl. pose proof (reach_good _ _ _ Hs Hr Ho) as Hw. apply (enumerates_eq _ _ Hw) in He.
  assert (Hrun : snd (Scalar E s a w) = Panic).
  { unfold Scalar. rewrite (mbind_ok _ _ _ _ _ (p_Copy_ok _ _ _ Ho Hw)). unfold mbind at 1.
    pose proof (obj_ext_new w S) as Hn. remember (ext w S) as w1. remember (length (w_heap w)) as t.
    unfold map_over. rewrite (mbind_ok _ _ _ _ _ (load_ok _ _ _ Hn)).
    assert (Hlen : (length l1 + Datatypes.S (length l2) <= e_fuel E)%nat).
    { pose proof (zlen_entries S Hw) as Q. rewrite <- He in Q. unfold zlen in Q. rewrite app_length in Q. cbn [length] in Q. lia. }
    destruct (map_prefix E false t (fun _ _ => nmul a) w1 S Hn Hc l1 (mat_iterator S) [] ((i, j, v) :: l2) S (e_fuel E)) as (m' & it' & H1 & H2 & H3).
    - rewrite He. apply it_rel_mrel. apply entries_rel; auto.
    - apply same_shape_refl.
    - apply zeros_tame. auto.
    - lia.
    - rewrite (upd_obj w1 t S Hn) in H1.
      assert (Hp : snd (map_loop E false (e_fuel E) t (mat_iterator S) (fun _ _ value => mret (nmul a value)) w1) = Panic).
      { rewrite H1. eapply (tail_panics E false t (fun _ _ => nmul a) w1 S); eauto.
        + rewrite (same_shape_sp _ _ H3), <- sparse_is_sp. exact Hsp.
        + intros e Hin. specialize (Hl e Hin). destruct H3 as (Hk & _). destruct S, m'; try discriminate Hk; exact Hl.
        + lia. }
      destruct (map_loop E false (e_fuel E) t (mat_iterator S) (fun _ _ value => mret (nmul a value)) w1) as [w2 r2]. cbn [snd] in Hp. subst r2. reflexivity. }
  split; [exact Hrun|]. unfold m_Scalar. replace (bg E) with E by (destruct E; cbn in *; subst; reflexivity). exact Hrun.
Qed.
End MapZeroThms.
