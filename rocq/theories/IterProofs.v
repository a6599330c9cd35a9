(** What an open iterator shows while the objects change. *)
From Coq Require Import String Sorting.Sorted.
From Verif Require Import GoBase Num SparseVec Csr Csc DenseVec DenseMat Mat World Ops.
From Verif Require Import BaseProofs AssocProofs CsrProofs SvProofs CsrIterProofs CscProofs DenseProofs MatProofs.
From Verif Require Import Spec HeapProofs Api ReachProofs MapLag StoreProofs EwThms Iters IterKin.

Section IterProofs.
Context {N : num}.
Notation V := (T N).
Notation mat := (mat N).
Notation ent := (Z * Z * V)%type.
Notation row := (list (Z * V)).
Notation world := (world N).
Implicit Types w : world.
Implicit Types m : mat.

(** ** Filtering the elements of a matrix stored by lines *)

Lemma filter_none {A} (g : A -> bool) l : (forall x, In x l -> g x = false) -> filter g l = [].
Proof. induction l as [|a l IH]; intros H; cbn [filter]; [reflexivity|]. rewrite (H a (or_introl eq_refl)). apply IH. intros x Hx. apply H. right. exact Hx. Qed.
Lemma filter_every {A} (g : A -> bool) l : (forall x, In x l -> g x = true) -> filter g l = l.
Proof. induction l as [|a l IH]; intros H; cbn [filter]; [reflexivity|]. rewrite (H a (or_introl eq_refl)). f_equal. apply IH. intros x Hx. apply H. right. exact Hx. Qed.

Definition inl (ln ps : Z) (e : ent) : bool := (fst (fst e) =? ln) && (ps <? snd (fst e)).
Definition lat (ln : Z) (e : ent) : bool := ln <? fst (fst e).
Definition upto (ln ps : Z) (e : ent) : bool := negb (inl ln ps e || lat ln e).

Lemma rents_line (rows : list row) : forall k e, In e (rents k rows) -> k <= fst (fst e) < k + zlen rows.
Proof.
  induction rows as [|l rows IH]; intros k e He; cbn [rents] in He; [destruct He|]. apply in_app_or in He as [He|He].
  - unfold tag in He. apply in_map_iff in He as (x & <- & _). cbn [fst]. zl. pose proof (zlen_nonneg rows). lia.
  - apply IH in He. zl. lia.
Qed.

Lemma later_rows (X Y : list row) : filter (lat (zlen X - 1)) (rents 0 (X ++ Y)) = rents (zlen X) Y.
Proof.
  rewrite rents_app, filter_app, Z.add_0_l, filter_none, filter_every; [reflexivity| |].
  - intros e He. apply rents_line in He. unfold lat. lia.
  - intros e He. apply rents_line in He. unfold lat. lia.
Qed.

Section Split.
Variables (X : list row) (lo hi : row) (Y : list row) (ps : Z).
Hypothesis Hlo : forall e, In e lo -> fst e <= ps.
Hypothesis Hhi : forall e, In e hi -> ps < fst e.
Let ln := zlen X.
Let l := rents 0 (X ++ (lo ++ hi) :: Y).

Lemma l_eq : l = rents 0 X ++ (tag ln lo ++ tag ln hi) ++ rents (ln + 1) Y.
Proof. unfold l. rewrite rents_app, Z.add_0_l. cbn [rents]. unfold tag. rewrite map_app. reflexivity. Qed.
Lemma inX e : In e (rents 0 X) -> fst (fst e) < ln.
Proof. intros H. apply rents_line in H. unfold ln. lia. Qed.
Lemma inY e : In e (rents (ln + 1) Y) -> ln < fst (fst e).
Proof. intros H. apply rents_line in H. lia. Qed.
Lemma inlo e : In e (tag ln lo) -> fst (fst e) = ln /\ snd (fst e) <= ps.
Proof. unfold tag. intros H. apply in_map_iff in H as (x & <- & H). cbn. auto. Qed.
Lemma inhi e : In e (tag ln hi) -> fst (fst e) = ln /\ ps < snd (fst e).
Proof. unfold tag. intros H. apply in_map_iff in H as (x & <- & H). cbn. auto. Qed.

Lemma split_inl : filter (inl ln ps) l = tag ln hi.
Proof.
  rewrite l_eq, !filter_app. rewrite (filter_none _ (rents 0 X)), (filter_none _ (tag ln lo)), (filter_every _ (tag ln hi)), (filter_none _ (rents (ln + 1) Y)); [apply app_nil_r|..].
  - intros e He. apply inY in He. unfold inl. lia.
  - intros e He. apply inhi in He. unfold inl. lia.
  - intros e He. apply inlo in He. unfold inl. lia.
  - intros e He. apply inX in He. unfold inl. lia.
Qed.
Lemma split_ahead : filter (fun e => inl ln ps e || lat ln e) l = tag ln hi ++ rents (ln + 1) Y.
Proof.
  rewrite l_eq, !filter_app. rewrite (filter_none _ (rents 0 X)), (filter_none _ (tag ln lo)), (filter_every _ (tag ln hi)), (filter_every _ (rents (ln + 1) Y)); [reflexivity|..].
  - intros e He. apply inY in He. unfold inl, lat. lia.
  - intros e He. apply inhi in He. unfold inl, lat. lia.
  - intros e He. apply inlo in He. unfold inl, lat. lia.
  - intros e He. apply inX in He. unfold inl, lat. lia.
Qed.
Lemma split_upto : filter (upto ln ps) l = rents 0 X ++ tag ln lo.
Proof.
  rewrite l_eq, !filter_app. rewrite (filter_every _ (rents 0 X)), (filter_every _ (tag ln lo)), (filter_none _ (tag ln hi)), (filter_none _ (rents (ln + 1) Y)); [rewrite !app_nil_r; reflexivity|..].
  - intros e He. apply inY in He. unfold upto, inl, lat. lia.
  - intros e He. apply inhi in He. unfold upto, inl, lat. lia.
  - intros e He. apply inlo in He. unfold upto, inl, lat. lia.
  - intros e He. apply inX in He. unfold upto, inl, lat. lia.
Qed.
End Split.

Lemma cut_list {A} (l : list A) n : 0 <= n <= zlen l -> exists X Y, l = X ++ Y /\ zlen X = n.
Proof.
  intros H. exists (firstn (Z.to_nat n) l), (skipn (Z.to_nat n) l). rewrite firstn_skipn. split; [reflexivity|].
  unfold zlen in *. rewrite firstn_length_le by lia. lia.
Qed.
Lemma cut_row (l : row) ps : ksorted (map fst l) -> exists lo hi, l = lo ++ hi /\ (forall e, In e lo -> fst e <= ps) /\ (forall e, In e hi -> ps < fst e).
Proof.
  induction l as [|[c v] l IH]; intros H; [exists [], []; cbn; tauto|]. cbn [map fst] in H. apply ksorted_cons in H as [H F].
  destruct (Z_le_dec c ps) as [L|L].
  - destruct (IH H) as (lo & hi & -> & H1 & H2). exists ((c, v) :: lo), hi. split; [reflexivity|]. split; [|exact H2]. intros e [<-|He]; [exact L|auto].
  - exists [], ((c, v) :: l). split; [reflexivity|]. split; [intros e []|]. intros e [<-|He]; cbn [fst]; [lia|].
    rewrite Forall_forall in F. specialize (F (fst e) (in_map fst _ _ He)). lia.
Qed.

(** ** One step of an iterator over lines *)

(** the iterator is where the cursor says *)
Definition on_lines (R : Z) (i : csr_iter) (cu : cursor N) : Prop :=
  cri_last i = zlen (cu_seen cu) /\ cri_size i = cu_total cu /\
  match cu_place cu with
  | Between ln => cri_r i = ln /\ -1 <= ln < R /\ cri_ps i = cri_pe i
  | Within ln ps before more =>
      cri_r i = ln /\ 0 <= ln < R /\ cri_ps i = before /\ cri_pe i = before + more /\ cri_cIndex i = ps + 1 /\ 0 < more /\ 0 <= before
  | Index _ => False
  end.

(** place, elements ahead and settledness by first components *)
Definition ahead (pl : place) (l : list ent) : list ent :=
  match pl with
  | Between ln => filter (lat ln) l
  | Within ln ps _ _ => filter (fun e => inl ln ps e || lat ln e) l
  | Index _ => []
  end.
Definition calm (pl : place) (l : list ent) : Prop :=
  match pl with
  | Within ln ps before more => zlen (filter (upto ln ps) l) = before /\ zlen (filter (inl ln ps) l) = more
  | _ => True
  end.
Definition on_to (l : list ent) (e : ent) : place :=
  let ln := fst (fst e) in let ps := snd (fst e) in
  let more := zlen (filter (inl ln ps) l) in
  if more =? 0 then Between ln else Within ln ps (zlen (filter (upto ln ps) l)) more.

(** the second loop of [next] *)
Lemma col_step R C (X : list row) lo c v hi (Y : list row) i cu fuel :
  rows_ok R C (X ++ (lo ++ (c, v) :: hi) :: Y) -> cri_r i = zlen X -> cri_ps i = zlen (concat X) + zlen lo ->
  cri_pe i = zlen (concat X) + zlen (lo ++ (c, v) :: hi) -> cri_cIndex i <= c ->
  cri_last i = zlen (cu_seen cu) -> cri_size i = cu_total cu ->
  fuel = csr_col_fuel (mk_csr R C (X ++ (lo ++ (c, v) :: hi) :: Y)) i ->
  exists j, csr_next_col fuel (mk_csr R C (X ++ (lo ++ (c, v) :: hi) :: Y)) i = Ok j /\
    csr_cur (mk_csr R C (X ++ (lo ++ (c, v) :: hi) :: Y)) j = Ok (zlen X, c, v) /\
    on_lines R j (MkCursor (cu_seen cu ++ [(zlen X, c, v)]) (cu_total cu) (on_to (rents 0 (X ++ (lo ++ (c, v) :: hi) :: Y)) (zlen X, c, v)) 0) /\
    cri_r j = zlen X /\ cri_index j = zlen (concat X) + zlen lo.
Proof.
  intros Hok Er Eps Epe Hci El Es ->. set (rows := X ++ (lo ++ (c, v) :: hi) :: Y) in *. set (s := mk_csr R C rows).
  pose proof (zlen_nonneg hi) as Hhn. pose proof (zlen_nonneg lo) as Hln.
  assert (Ec : csr_cols s = (map fst (concat X) ++ map fst lo) ++ c :: (map fst hi ++ map fst (concat Y))).
  { unfold s, rows. cbn [csr_cols mk_csr]. rewrite concat_app. cbn [concat]. rewrite !map_app. cbn [map fst]. rewrite <- !app_assoc. reflexivity. }
  assert (Ev : csr_values s = (map snd (concat X) ++ map snd lo) ++ v :: (map snd hi ++ map snd (concat Y))).
  { unfold s, rows. cbn [csr_values mk_csr]. rewrite concat_app. cbn [concat]. rewrite !map_app. cbn [map snd]. rewrite <- !app_assoc. reflexivity. }
  assert (Hg : zget (csr_cols s) (cri_ps i) = Ok c) by (rewrite Ec; apply zget_mid; zl; lia).
  rewrite (csr_next_col_spec s c _ i Hg) by (first [zl; lia | unfold csr_col_fuel; rewrite Hg; lia]).
  eexists. split; [reflexivity|]. split.
  { unfold csr_cur. cbn [cri_index cri_r cri_c]. rewrite Ev, zget_mid by (zl; lia). cbn [rbind]. rewrite Er. reflexivity. }
  assert (Hrow : ksorted (map fst (lo ++ (c, v) :: hi))).
  { destruct Hok as (_ & _ & _ & Hf). unfold rows in Hf. apply Forall_app in Hf as [_ Hf]. apply Forall_cons_iff in Hf as [Hr _]. apply Hr. }
  rewrite map_app in Hrow. cbn [map fst] in Hrow. apply ksorted_app in Hrow as (_ & Hr1 & Hr2). apply ksorted_cons in Hr1 as [_ Hr1]. rewrite Forall_forall in Hr1.
  assert (Erows : rows = X ++ ((lo ++ [(c, v)]) ++ hi) :: Y) by (unfold rows; rewrite <- app_assoc; reflexivity).
  assert (A1 : forall e, In e (lo ++ [(c, v)]) -> fst e <= c).
  { intros e He. apply in_app_or in He as [He|[<-|[]]]; [|cbn; lia]. specialize (Hr2 (fst e) c (in_map fst _ _ He) (or_introl eq_refl)). lia. }
  assert (A2 : forall e, In e hi -> c < fst e) by (intros e He; apply Hr1; apply in_map; exact He).
  assert (HR : 0 <= zlen X < R).
  { destruct Hok as (_ & _ & Hl & _). unfold rows in Hl. revert Hl. zl. pose proof (zlen_nonneg X). pose proof (zlen_nonneg Y). lia. }
  split; [|split; [exact Er|cbn [cri_index]; lia]].
  split; [cbn [cri_last cu_seen]; zl; lia|]. split; [exact Es|]. cbn [cu_place]. unfold on_to. cbn [fst snd].
  rewrite Erows, (split_inl X (lo ++ [(c, v)]) hi Y c A1 A2), (split_upto X (lo ++ [(c, v)]) hi Y c A1 A2).
  assert (Z1 : zlen (tag (zlen X) hi) = zlen hi) by (unfold tag; zl; reflexivity).
  assert (Z2 : zlen (rents 0 X ++ tag (zlen X) (lo ++ [(c, v)])) = zlen (concat X) + zlen lo + 1) by (zl; rewrite zlen_rents; unfold tag; zl; lia).
  rewrite Z1, Z2. revert Epe. zl. intros Epe.
  pose proof (zlen_nonneg (concat X)). destruct (Z.eqb_spec (zlen hi) 0) as [E0|E0]; cbn [cri_r cri_ps cri_pe cri_cIndex]; repeat split; try lia.
Qed.

(** the first loop passes over empty lines *)
Lemma row_step R C c v hi (Y : list row) : forall Z (X : list row) i fuel, concat Z = [] ->
  cri_r i = zlen X - 1 -> cri_ps i = cri_pe i -> (length Z < fuel)%nat ->
  exists j, csr_next_row fuel (mk_csr R C (X ++ Z ++ ((c, v) :: hi) :: Y)) i = Ok j /\
    cri_last j = cri_last i /\ cri_size j = cri_size i /\ cri_r j = zlen X + zlen Z /\ cri_ps j = zlen (concat X) /\
    cri_pe j = zlen (concat X) + zlen ((c, v) :: hi) /\ cri_cIndex j = c.
Proof.
  induction Z as [|z Z IH]; intros X i fuel HZ Er Ep Hf; (destruct fuel as [|fuel]; [cbn in Hf; lia|]); cbn [csr_next_row]; rewrite Ep, Z.eqb_refl; cbv zeta;
    replace (cri_r i + 1) with (zlen X) by lia; cbn [csr_rowStart csr_cols mk_csr].
  - cbn [app]. destruct (offsets_get 0 X ((c, v) :: hi) Y) as [-> ->]. cbn [rbind].
    rewrite concat_app. cbn [concat]. rewrite !map_app. cbn [map fst app].
    rewrite zget_mid by (zl; lia). cbn [rbind]. destruct fuel; cbn [csr_next_row cri_ps cri_pe]; pose proof (zlen_nonneg hi);
      (destruct (Z.eqb_spec (0 + zlen (concat X)) (0 + zlen (concat X) + zlen ((c, v) :: hi))) as [E|E]; [revert E; zl; lia|]);
      eexists; (split; [reflexivity|]); cbn; zl; repeat split; lia.
  - cbn [concat] in HZ. apply app_eq_nil in HZ as [-> HZ].
    replace (X ++ ([] :: Z) ++ ((c, v) :: hi) :: Y) with (X ++ [] :: (Z ++ ((c, v) :: hi) :: Y)) by reflexivity.
    destruct (offsets_get 0 X [] (Z ++ ((c, v) :: hi) :: Y)) as [-> ->]. cbn [rbind].
    assert (E : exists x, zget (map fst (concat (X ++ [] :: (Z ++ ((c, v) :: hi) :: Y)))) (0 + zlen (concat X)) = Ok x).
    { exists c. rewrite concat_app. cbn [concat app]. rewrite concat_app, HZ. cbn [concat app]. rewrite !map_app. cbn [map fst app]. apply zget_mid. zl. lia. }
    destruct E as [x ->]. cbn [rbind].
    assert (ER : X ++ [] :: (Z ++ ((c, v) :: hi) :: Y) = (X ++ [[]]) ++ Z ++ ((c, v) :: hi) :: Y) by (rewrite <- app_assoc; reflexivity). rewrite ER.
    edestruct (IH (X ++ [[]])) as (j & Hj & H1 & H2 & H3 & H4 & H5 & H6); [exact HZ| | | |eexists; split; [exact Hj|]].
    + cbn [cri_r]. zl. lia.
    + cbn [cri_ps cri_pe]. zl. lia.
    + cbn in Hf. lia.
    + cbn [cri_last cri_size] in H1, H2. rewrite concat_app in H4, H5. cbn [concat app] in H4, H5. rewrite app_nil_r in H4, H5. revert H3. zl. intros H3. repeat split; auto; lia.
Qed.

Lemma rents_none k (X : list row) : rents k X = [] -> concat X = [].
Proof. intros H. pose proof (zlen_rents k X) as Q. rewrite H, zlen_nil in Q. destruct (concat X) as [|a T]; [reflexivity|]. revert Q. zl. pose proof (zlen_nonneg T). lia. Qed.

(** between lines *)
Lemma lines_between R C (rows : list row) i cu ln : rows_ok R C rows -> on_lines R i cu -> cu_place cu = Between ln ->
  match filter (lat ln) (rents 0 rows) with
  | [] => csr_next (mk_csr R C rows) i = Panic
  | (r, c, v) :: _ => exists j X lo hi Y, csr_next (mk_csr R C rows) i = Ok j /\ csr_cur (mk_csr R C rows) j = Ok (r, c, v) /\
      on_lines R j (MkCursor (cu_seen cu ++ [(r, c, v)]) (cu_total cu) (on_to (rents 0 rows) (r, c, v)) 0) /\
      rows = X ++ (lo ++ (c, v) :: hi) :: Y /\ zlen X = r /\ cri_r j = r /\ cri_index j = zlen (concat X) + zlen lo
  end.
Proof.
  intros Hok (El & Es & Hp) Epl. pose proof Hok as (HR & HC & Hlen & Hf). rewrite Epl in Hp.
    destruct Hp as (Er & Hln & Ep). destruct (cut_list rows (ln + 1)) as (X0 & Y0 & EX & EL); [lia|].
    replace ln with (zlen X0 - 1) by lia. rewrite EX, later_rows. rewrite <- EX.
    destruct (rents (zlen X0) Y0) as [|[[r c] v] rest] eqn:ER.
    + assert (HY : concat Y0 = []) by (eapply rents_none; eauto).
      unfold csr_next. cbn [csr_next_row]. rewrite Ep, Z.eqb_refl. cbv zeta. replace (cri_r i + 1) with (zlen X0) by lia. cbn [csr_rowStart csr_cols mk_csr].
      destruct Y0 as [|y Y0].
      * rewrite app_nil_r in EX. subst X0. rewrite (zget_big (offsets 0 rows) (zlen rows + 1)) by (rewrite zlen_offsets; lia).
        destruct (zget_ok (offsets 0 rows) (zlen rows)) as [x ->]; [rewrite zlen_offsets; pose proof (zlen_nonneg rows); lia|]. reflexivity.
      * rewrite EX. destruct (offsets_get 0 X0 y Y0) as [-> ->]. cbn [rbind].
        rewrite (zget_big (map fst (concat (X0 ++ y :: Y0)))); [reflexivity|]. rewrite concat_app, HY, app_nil_r. zl. lia.
    + destruct (rents_split Y0 (zlen X0) [] (r, c, v) rest ER) as (X' & lo & c' & v' & hi & Y' & EY & Ee & Ed & Erest).
      symmetry in Ed. apply app_eq_nil in Ed as [E1 E2]. apply rents_none in E1. apply map_eq_nil in E2. subst lo. injection Ee as -> <- <-. cbn [app] in EY.
      subst Y0. destruct (row_step R C c v hi Y' X' X0 i (S (length (csr_rowStart (mk_csr R C rows)))) E1) as (j1 & H1 & L1 & L2 & L3 & L4 & L5 & L6); [lia|exact Ep| |].
      { cbn [csr_rowStart mk_csr]. pose proof (zlen_offsets 0 rows) as Q. pose proof (f_equal zlen EX) as Q2. unfold zlen in Q, Q2. rewrite !app_length in Q2. cbn [length] in Q2. lia. }
      rewrite <- EX in H1. unfold csr_next. rewrite H1. cbn [rbind].
      assert (ER' : rows = (X0 ++ X') ++ ([] ++ (c, v) :: hi) :: Y') by (rewrite EX, <- app_assoc; reflexivity).
      assert (EC : zlen (concat (X0 ++ X')) = zlen (concat X0)) by (rewrite concat_app, E1, app_nil_r; reflexivity).
      destruct (col_step R C (X0 ++ X') [] c v hi Y' j1 cu (csr_col_fuel (mk_csr R C rows) j1)) as (j & J1 & J2 & J3 & J4 & J5).
      { rewrite <- ER'. exact Hok. } { zl. lia. } { rewrite EC. zl. lia. } { rewrite EC. cbn [app]. exact L5. } { lia. } { congruence. } { congruence. } { rewrite <- ER'. reflexivity. }
      rewrite <- ER' in J1, J2, J3. replace (zlen X0 + zlen X') with (zlen (X0 ++ X')) by (zl; lia).
      exists j, (X0 ++ X'), [], hi, Y'. repeat split; auto; apply J3.
Qed.

(** within a line *)
Lemma rents_cols k (rows : list row) : map (fun e => snd (fst e)) (rents k rows) = map fst (concat rows).
Proof. revert k; induction rows as [|l rows IH]; intros k; cbn [rents concat]; [reflexivity|]. rewrite !map_app, IH. f_equal. unfold tag. rewrite map_map. reflexivity. Qed.
Lemma zget_nth {A} (l : list A) b x : 0 <= b -> nth_error l (Z.to_nat b) = Some x -> zget l b = Ok x.
Proof. intros H E. unfold zget. destruct (Z.ltb_spec b 0); [lia|]. rewrite E. reflexivity. Qed.
Lemma zget_nth_map {A B} (f : A -> B) (l : list A) b x : 0 <= b -> nth_error l (Z.to_nat b) = Some x -> zget (map f l) b = Ok (f x).
Proof. intros H E. apply zget_nth; [exact H|]. apply map_nth_error. exact E. Qed.

Definition step_on (pl : place) (c : Z) : place :=
  match pl with Within ln _ b mo => if mo =? 1 then Between ln else Within ln c (b + 1) (mo - 1) | _ => pl end.

Lemma lines_within R C (rows : list row) i cu ln ps b mo : rows_ok R C rows -> on_lines R i cu -> cu_place cu = Within ln ps b mo ->
  match nth_error (rents 0 rows) (Z.to_nat b) with
  | None => csr_next (mk_csr R C rows) i = Panic
  | Some x =>
      if ps <? snd (fst x) then
        exists j, csr_next (mk_csr R C rows) i = Ok j /\ csr_cur (mk_csr R C rows) j = Ok (ln, snd (fst x), snd x) /\
          on_lines R j (MkCursor (cu_seen cu ++ [(ln, snd (fst x), snd x)]) (cu_total cu) (step_on (cu_place cu) (snd (fst x))) 0) /\
          cri_r j = ln /\ cri_index j = b
      else csr_next (mk_csr R C rows) i = Diverge
  end.
Proof.
  intros Hok (El & Es & Hp) Epl. rewrite Epl in *. destruct Hp as (Er & Hln & E1 & E2 & E3 & Hmo & Hb). cbn [step_on].
  unfold csr_next. cbn [csr_next_row]. rewrite E1, E2. destruct (Z.eqb_spec b (b + mo)); [lia|]. cbn [rbind].
  assert (Ec : csr_cols (mk_csr R C rows) = map (fun e => snd (fst e)) (rents 0 rows)) by (rewrite rents_cols; reflexivity).
  assert (Ev : csr_values (mk_csr R C rows) = map snd (rents 0 rows)) by (rewrite rents_vals; reflexivity).
  unfold csr_col_fuel. rewrite E1.
  destruct (nth_error (rents 0 rows) (Z.to_nat b)) as [[[r c] v]|] eqn:En.
  - assert (Hg : zget (csr_cols (mk_csr R C rows)) b = Ok c) by (rewrite Ec; apply (zget_nth_map (fun e : ent => snd (fst e)) (rents 0 rows) b (r, c, v) Hb En)).
    rewrite Hg. cbn [fst snd]. destruct (Z.ltb_spec ps c) as [Lc|Lc].
    + rewrite (csr_next_col_spec _ c) by (rewrite ?E1, ?E2; first [exact Hg|lia]). eexists. split; [reflexivity|]. split.
      { unfold csr_cur. cbn [cri_index cri_r cri_c]. rewrite E1, Ev, (zget_nth_map snd (rents 0 rows) b (r, c, v) Hb En). cbn [rbind snd]. rewrite Er. reflexivity. }
      split; [|cbn [cri_r cri_index]; auto]. split; [cbn [cri_last cu_seen]; zl; lia|]. split; [exact Es|]. cbn [cu_place cri_r cri_ps cri_pe cri_cIndex].
      destruct (Z.eqb_spec mo 1); repeat split; lia.
    + replace (Z.to_nat (c - cri_cIndex i)) with 0%nat by lia. cbn [csr_next_col]. rewrite E1, E2, Hg. cbn [rbind].
      destruct (Z.ltb_spec b (b + mo)); [|lia]. destruct (Z.eqb_spec c (cri_cIndex i)); [lia|reflexivity].
  - assert (Hg : zget (csr_cols (mk_csr R C rows)) b = Panic). { rewrite Ec. apply zget_big. rewrite zlen_map. apply nth_error_None in En. unfold zlen. lia. }
    rewrite Hg. cbn [csr_next_col]. rewrite E1, E2, Hg. destruct (Z.ltb_spec b (b + mo)); [reflexivity|lia].
Qed.

(** within a line where nothing was shifted *)
Lemma lines_calm R C (rows : list row) i cu ln ps b mo : rows_ok R C rows -> on_lines R i cu -> cu_place cu = Within ln ps b mo ->
  calm (Within ln ps b mo) (rents 0 rows) ->
  exists X lo c v hi Y, rows = X ++ (lo ++ (c, v) :: hi) :: Y /\ zlen X = ln /\ b = zlen (concat X) + zlen lo /\ ps < c /\
    nth_error (rents 0 rows) (Z.to_nat b) = Some (ln, c, v) /\
    ahead (Within ln ps b mo) (rents 0 rows) = (ln, c, v) :: tag ln hi ++ rents (ln + 1) Y /\
    on_to (rents 0 rows) (ln, c, v) = step_on (Within ln ps b mo) c.
Proof.
  intros Hok (El & Es & Hp) Epl Hc. pose proof Hok as (HR & HC & Hlen & Hf). rewrite Epl in Hp. destruct Hp as (Er & Hln & E1 & E2 & E3 & Hmo & Hb).
    destruct (cut_list rows ln) as (X & Y0 & EX & EL); [lia|].
    destruct Y0 as [|y Y]. { exfalso. subst rows. revert Hlen. zl. lia. }
    assert (Hy : row_ok C y). { rewrite EX in Hf. apply Forall_app in Hf as [_ Hf]. apply Forall_cons_iff in Hf as [Hf _]. exact Hf. }
    destruct (cut_row y ps (proj1 Hy)) as (lo & hi & -> & H1 & H2).
    cbn [calm ahead] in Hc |- *. rewrite EX, <- EL in Hc |- *. rewrite (split_upto X lo hi Y ps H1 H2), (split_inl X lo hi Y ps H1 H2) in Hc.
    rewrite (split_ahead X lo hi Y ps H1 H2). destruct Hc as [C1 C2]. unfold tag in C1, C2. revert C1 C2. zl. rewrite zlen_rents. intros C1 C2.
    destruct hi as [|[c v] hi]; [revert C2; zl; lia|].
    assert (Hcc : ps < c) by (apply (H2 (c, v)); left; reflexivity).
    exists X, lo, c, v, hi, Y. split; [reflexivity|]. split; [reflexivity|]. split; [lia|]. split; [exact Hcc|].
    assert (ER : rents 0 (X ++ (lo ++ (c, v) :: hi) :: Y) = (rents 0 X ++ tag (zlen X) lo) ++ (zlen X, c, v) :: tag (zlen X) hi ++ rents (zlen X + 1) Y).
    { rewrite rents_app, Z.add_0_l. cbn [rents]. unfold tag. rewrite map_app. cbn [map fst snd]. rewrite <- !app_assoc. reflexivity. }
    split; [rewrite ER; rewrite nth_error_app2 by (pose proof (zlen_rents 0 X); rewrite app_length; unfold tag, zlen in *; rewrite map_length; lia)|].
    { replace (Z.to_nat b - length (rents 0 X ++ tag (zlen X) lo))%nat with 0%nat; [reflexivity|]. pose proof (zlen_rents 0 X). rewrite app_length; unfold tag, zlen in *; rewrite map_length; lia. }
    split; [reflexivity|].
    assert (Hrow : ksorted (map fst (lo ++ (c, v) :: hi))) by apply Hy.
    rewrite map_app in Hrow. cbn [map fst] in Hrow. apply ksorted_app in Hrow as (_ & Hr1 & Hr2). apply ksorted_cons in Hr1 as [_ Hr1]. rewrite Forall_forall in Hr1.
    assert (A1 : forall e, In e (lo ++ [(c, v)]) -> fst e <= c).
    { intros e He. apply in_app_or in He as [He|[<-|[]]]; [|cbn; lia]. specialize (Hr2 (fst e) c (in_map fst _ _ He) (or_introl eq_refl)). lia. }
    assert (A2 : forall e, In e hi -> c < fst e) by (intros e He; apply Hr1; apply in_map; exact He).
    unfold on_to. cbn [fst snd step_on]. replace (X ++ (lo ++ (c, v) :: hi) :: Y) with (X ++ ((lo ++ [(c, v)]) ++ hi) :: Y) by (rewrite <- app_assoc; reflexivity).
    rewrite (split_inl X (lo ++ [(c, v)]) hi Y c A1 A2), (split_upto X (lo ++ [(c, v)]) hi Y c A1 A2).
    assert (Z1 : zlen (tag (zlen X) hi) = zlen hi) by (unfold tag; zl; reflexivity).
    assert (Z2 : zlen (rents 0 X ++ tag (zlen X) (lo ++ [(c, v)])) = zlen (concat X) + zlen lo + 1) by (zl; rewrite zlen_rents; unfold tag; zl; lia).
    rewrite Z1, Z2. revert C2. zl. intros C2. destruct (Z.eqb_spec (zlen hi) 0), (Z.eqb_spec mo 1); try lia; [reflexivity|]. f_equal; lia.
Qed.

(** the element found is removed, or replaced, leaving well-formed rows *)
Lemma put_index R C (rows : list row) j x n r c v : rows_ok R C rows -> nth_error (rents 0 rows) n = Some (r, c, v) ->
  cri_index j = Z.of_nat n -> isz x = false \/ cri_r j = r ->
  exists rows', csr_map_put (mk_csr R C rows) j x = Ok (mk_csr R C rows') /\ rows_ok R C rows' /\
    rents 0 rows' = firstn n (rents 0 rows) ++ (if isz x then [] else [(r, c, x)]) ++ skipn (S n) (rents 0 rows).
Proof.
  intros Hok Hn Hi Hx. apply nth_error_split in Hn as (l1 & l2 & E & Ln).
  assert (F1 : firstn n (rents 0 rows) = l1) by (rewrite E, firstn_app, <- Ln, Nat.sub_diag, firstn_all; apply app_nil_r).
  assert (F2 : skipn (S n) (rents 0 rows) = l2) by (rewrite E, skipn_app, skipn_all2, <- Ln by lia; replace (S (length l1) - length l1)%nat with 1%nat by lia; reflexivity).
  rewrite F1, F2. destruct (rents_split rows 0 l1 (r, c, v) l2 E) as (X & lo & c' & v' & hi & Y & EX & Ee & Ed & Er). injection Ee as -> <- <-. rewrite !Z.add_0_l in *.
  assert (Hix : cri_index j = zlen (concat X) + zlen lo).
  { rewrite Hi, <- Ln, Ed, app_length. pose proof (zlen_rents 0 X). unfold tag. rewrite map_length. unfold zlen in *. lia. }
  subst rows. destruct (isz x) eqn:Ex.
  - exists (X ++ (lo ++ hi) :: Y). unfold csr_map_put. rewrite Ex. cbn [negb]. rewrite Hix. destruct Hx as [Hx|Hr]; [discriminate|]. rewrite Hr.
    split; [apply csr_remove_spec; exact Hok|]. split.
    + destruct Hok as (HR & HC & Hl & Hf). apply Forall_app in Hf as [Hf1 Hf2]. inversion Hf2 as [|? ? H1 H2]; subst.
      split; [auto|]. split; [auto|]. split; [zl; lia|]. apply Forall_app; split; [auto|]. constructor; [|auto].
      destruct H1 as (Hs & Hb & Hz). rewrite map_app in Hs. cbn [map fst] in Hs.
      apply Forall_app in Hb as [Hb1 Hb2]. apply Forall_app in Hz as [Hz1 Hz2]. apply Forall_cons_iff in Hb2 as [_ Hb2]. apply Forall_cons_iff in Hz2 as [_ Hz2].
      split; [|split; [apply Forall_app; auto|apply Forall_app; auto]]. rewrite map_app. apply ksorted_app in Hs as (S1 & S2 & S3). apply ksorted_cons in S2 as [S2 _].
      apply ksorted_app. split; [auto|]. split; [auto|]. intros a b Ha Hb. apply S3; [auto|right; auto].
    + rewrite rents_app, Z.add_0_l. cbn [rents]. rewrite Ed, Er. unfold tag. rewrite map_app, <- !app_assoc. reflexivity.
  - eexists. split; [apply csr_put_spec; auto|]. split; [eapply rows_ok_replace; eauto|].
    rewrite rents_app, Z.add_0_l. cbn [rents]. rewrite Ed, Er. unfold tag. rewrite map_app. cbn [map fst snd]. rewrite <- !app_assoc. reflexivity.
Qed.

Lemma nth_rents (X : list row) lo c v hi (Y : list row) :
  nth_error (rents 0 (X ++ (lo ++ (c, v) :: hi) :: Y)) (Z.to_nat (zlen (concat X) + zlen lo)) = Some (zlen X, c, v).
Proof.
  assert (ER : rents 0 (X ++ (lo ++ (c, v) :: hi) :: Y) = (rents 0 X ++ tag (zlen X) lo) ++ (zlen X, c, v) :: tag (zlen X) hi ++ rents (zlen X + 1) Y).
  { rewrite rents_app, Z.add_0_l. cbn [rents]. unfold tag. rewrite map_app. cbn [map fst snd]. rewrite <- !app_assoc. reflexivity. }
  pose proof (zlen_rents 0 X) as Q. rewrite ER. rewrite nth_error_app2 by (rewrite app_length; unfold tag, zlen in *; rewrite map_length; lia).
  replace (Z.to_nat (zlen (concat X) + zlen lo) - length (rents 0 X ++ tag (zlen X) lo))%nat with 0%nat; [reflexivity|].
  rewrite app_length; unfold tag, zlen in *; rewrite map_length; lia.
Qed.

(** ** Any type *)

Definition tracks m (it : iter) (cu : cursor N) : Prop :=
  match m, it with
  | MCSR s, ICSR i => on_lines (csr_r s) i cu
  | MCSC s, ICSC i => on_lines (csc_c s) (isw i) cu
  | MDM s, IDM i => exists k, cu_place cu = Index k /\ k = zlen (cu_seen cu) /\ cu_total cu = dm_r s * dm_c s /\ dmi_inv (dm_r s) (dm_c s) i k
  | MDV s, IDV i => exists k, cu_place cu = Index k /\ dvi_last i = zlen (cu_seen cu) /\ dvi_size i = cu_total cu /\ dvi_r i = k /\ 0 <= k
  | MSV s, ISV i => exists k, cu_place cu = Index k /\ k = zlen (cu_seen cu) /\ svi_last i = k /\ svi_size i = cu_total cu
  | _, _ => False
  end.

Lemma tracks_kin m m' it cu : kin m m' -> tracks m it cu -> tracks m' it cu.
Proof.
  destruct m as [s|s|s|s|s], m' as [s'|s'|s'|s'|s'], it as [i|i|i|i|i]; cbn [kin tracks]; try tauto.
  - intros [-> _] H. exact H.
  - intros [_ ->] H. exact H.
  - intros [-> ->] H. exact H.
Qed.

Lemma tracks_HasNext m it cu : tracks m it cu -> mat_HasNext it = (zlen (cu_seen cu) <? cu_total cu).
Proof.
  assert (G : forall a b, (if a >=? b then false else true) = (a <? b)) by (intros a b; destruct (Z.geb_spec a b), (Z.ltb_spec a b); auto; lia).
  destruct m as [s|s|s|s|s], it as [i|i|i|i|i]; cbn [tracks mat_HasNext]; try tauto.
  - intros (<- & <- & _). apply G.
  - intros (E1 & E2 & _). rewrite <- E1, <- E2. apply G.
  - intros (k & _ & <- & -> & H). apply dmi_HasNext. exact H.
  - intros (k & _ & <- & <- & _). apply G.
  - intros (k & _ & <- & E & <-). unfold sv_HasNext. rewrite E. apply G.
Qed.

Lemma tracks_start m : wf m -> tracks m (mat_iterator m) (start m).
Proof.
  intros Hw. destruct m as [s|s|s|s|s]; cbn [tracks mat_iterator start lined].
  - destruct Hw as (R & C & rows & -> & HR & HC & Hl & Hf). repeat split; cbn; lia.
  - destruct Hw as (R & C & rows & -> & HR & HC & Hl & Hf). repeat split; cbn; lia.
  - destruct Hw as (R & C & f & -> & HR & HC & Hb). exists 0. split; [reflexivity|]. split; [reflexivity|]. split; [|apply dmi_init; auto].
    cbn. unfold dm_Values. cbn. apply wrap64_id. nia.
  - destruct Hw as (L & f & -> & HL). exists 0. repeat split; try reflexivity.
  - exists 0. repeat split.
Qed.

Lemma swap_inl s ln ps l : filter (in_line (MCSC s) ln ps) (map swap_ent l) = map swap_ent (filter (inl ln ps) l).
Proof. rewrite filter_map. reflexivity. Qed.
Lemma swap_lat s ln l : filter (in_later (MCSC s) ln) (map swap_ent l) = map swap_ent (filter (lat ln) l).
Proof. rewrite filter_map. reflexivity. Qed.
Lemma swap_ahead s ln ps l : filter (fun e => in_line (MCSC s) ln ps e || in_later (MCSC s) ln e) (map swap_ent l) = map swap_ent (filter (fun e => inl ln ps e || lat ln e) l).
Proof. rewrite filter_map. reflexivity. Qed.
Lemma swap_upto s ln ps l : filter (fun e => negb (in_line (MCSC s) ln ps e || in_later (MCSC s) ln e)) (map swap_ent l) = map swap_ent (filter (upto ln ps) l).
Proof. rewrite filter_map. reflexivity. Qed.

Lemma on_lines_swap R i cu (e : ent) pl sp sp' : on_lines R i (MkCursor (cu_seen cu ++ [e]) (cu_total cu) pl sp) -> on_lines R i (MkCursor (cu_seen cu ++ [swap_ent e]) (cu_total cu) pl sp').
Proof. intros (H1 & H2 & H3). split; [revert H1; cbn [cu_seen]; zl; auto|]. split; assumption. Qed.


Lemma nth_skipn {A} (l : list A) n x r : skipn n l = x :: r -> nth_error l n = Some x.
Proof. revert l; induction n as [|n IH]; intros [|y l] H; cbn in *; try discriminate; [injection H as -> _; reflexivity|auto]. Qed.
Lemma skipn_next {A} (l : list A) n x r : skipn n l = x :: r -> skipn (S n) l = r.
Proof. revert l; induction n as [|n IH]; intros [|y l] H; cbn in *; try discriminate; [injection H as _ ->; reflexivity|]. apply IH in H. exact H. Qed.
Lemma nth_swap (l : list ent) n : nth_error (map swap_ent l) n = option_map swap_ent (nth_error l n).
Proof. apply nth_error_map. Qed.

Lemma skipn_zrange (f : Z -> V) L q : 0 <= q < L ->
  skipn (Z.to_nat q) (map (fun k => (k, 0, f k)) (zrange 0 L)) = (q, 0, f q) :: skipn (S (Z.to_nat q)) (map (fun k => (k, 0, f k)) (zrange 0 L)).
Proof.
  intros Hq. rewrite (zrange_split 0 q L), map_app by lia. 
  replace (zrange q L) with (q :: zrange (q + 1) L) by (rewrite (zrange_cons q L) by lia; reflexivity). cbn [map].
  assert (Q : length (map (fun k => (k, 0, f k)) (zrange 0 q)) = Z.to_nat q) by (rewrite map_length; pose proof (zlen_zrange 0 q); unfold zlen in *; lia).
  rewrite !skipn_app, Q, Nat.sub_diag. replace (S (Z.to_nat q) - Z.to_nat q)%nat with 1%nat by lia.
  rewrite (skipn_all2 _ (n:=Z.to_nat q)), (skipn_all2 _ (n:=S (Z.to_nat q))) by lia. reflexivity.
Qed.

(** the object after [Map] *)
Definition put_done m (pl : place) (l : list ent) (e : ent) (x : V) (m' : mat) : Prop :=
  wf m' /\ mapped_to m pl l e x (entries m').

Lemma swap_put (l : list ent) n r c (x : V) (z : bool) : map swap_ent (firstn n l ++ (if z then [] else [(r, c, x)]) ++ skipn (S n) l) =
  firstn n (map swap_ent l) ++ (if z then [] else [(c, r, x)]) ++ skipn (S n) (map swap_ent l).
Proof. rewrite !map_app, firstn_map, skipn_map. destruct z; reflexivity. Qed.

Lemma tracks_next m it cu l : wf m -> enumerates m l -> tracks m it cu ->
  match shown m (cu_place cu) l with
  | Ok e => exists it', mat_next m it = Ok it' /\ mat_cur m it' = Ok e /\ tracks m it' (advance m cu l e) /\
      forall x, settled m (cu_place cu) l \/ isz x = false -> exists m', mat_map_put m it' x = Ok m' /\ put_done m (cu_place cu) l e x m'
  | Panic => mat_Next m it = Panic
  | Diverge => mat_Next m it = Diverge
  end.
Proof.
  intros Hw He Ht. apply enumerates_unique in He; [|exact Hw]. subst l. unfold mat_Next.
  destruct m as [s|s|s|s|s], it as [i|i|i|i|i]; cbn [tracks] in Ht; try contradiction.
  - destruct Hw as (R & C & rows & -> & Hok). rewrite entries_csr in * by exact Hok. cbn [csr_r mk_csr] in Ht. cbn [mat_next].
    destruct (cu_place cu) as [ln|ln ps b mo|k] eqn:Epl; [| |destruct Ht as (_ & _ & Hp); rewrite Epl in Hp; contradiction]; cbn [shown].
    + pose proof (lines_between R C rows i cu ln Hok Ht Epl) as H.
      change (in_later (MCSR (mk_csr R C rows)) ln) with (lat ln). destruct (filter (lat ln) (rents 0 rows)) as [|[[r c] v] rest] eqn:E; cbn [first].
      * rewrite H. reflexivity.
      * destruct H as (j & X & lo & hi & Y & H1 & H2 & H3 & HX & HX' & H4 & H5). rewrite H1. exists (ICSR j). split; [reflexivity|]. split; [exact H2|]. split.
        { cbn [tracks csr_r mk_csr]. unfold advance. rewrite Epl. exact H3. }
        intros x _. pose proof (nth_rents X lo c v hi Y) as Hn. rewrite <- HX, HX' in Hn. pose proof (zlen_nonneg (concat X)). pose proof (zlen_nonneg lo).
        destruct (put_index R C rows j x _ r c v Hok Hn) as (rows' & Hp & Hok' & Er); [lia|right; exact H4|].
        cbn [mat_map_put]. rewrite Hp. eexists. split; [reflexivity|]. split; [exists R, C, rows'; auto|].
        eexists _, (r, c, v). split; [exact Hn|]. split; [reflexivity|]. split; [auto|]. split; [reflexivity|]. rewrite entries_csr by exact Hok'. exact Er.
    + pose proof (lines_within R C rows i cu ln ps b mo Hok Ht Epl) as H. pose proof Ht as (_ & _ & Hp). rewrite Epl in Hp. destruct Hp as (_ & _ & _ & _ & _ & _ & Hb).
      destruct (nth_error (rents 0 rows) (Z.to_nat b)) as [[[r c] v]|] eqn:En; [|rewrite H; reflexivity]. cbn [pos_of fst snd] in *. destruct (Z.ltb_spec ps c) as [L|L]; [|rewrite H; reflexivity].
      destruct H as (j & H1 & H2 & H3 & H4 & H5). rewrite H1. exists (ICSR j). split; [reflexivity|]. split; [exact H2|]. split.
      { cbn [tracks csr_r mk_csr]. unfold advance. rewrite Epl in *. exact H3. }
      assert (Hse : settled (MCSR (mk_csr R C rows)) (Within ln ps b mo) (rents 0 rows) -> r = ln).
      { intros Hs. destruct (lines_calm R C rows i cu ln ps b mo Hok Ht Epl Hs) as (X & lo & c' & v' & hi & Y & HX & HX' & Eb & Hc & Hn & _). congruence. }
      intros x Hx. cbn [mat_map_put]. destruct (put_index R C rows j x _ r c v Hok En) as (rows' & Hp & Hok' & Er); [lia| |].
      { destruct Hx as [Hs|Hx]; [right; rewrite (Hse Hs); exact H4|left; exact Hx]. }
      rewrite Hp. eexists. split; [reflexivity|]. split; [exists R, C, rows'; auto|].
      eexists _, (r, c, v). split; [exact En|]. split; [reflexivity|]. split; [intros Hs; rewrite (Hse Hs); reflexivity|]. split; [reflexivity|]. rewrite entries_csr by exact Hok'. exact Er.
  - destruct Hw as (R & C & cols & -> & Hok). rewrite entries_csc in * by exact Hok. cbn [csc_c mk_csc] in Ht. cbn [mat_next]. rewrite csc_next_sw, sw_mk.
    destruct (cu_place cu) as [ln|ln ps b mo|k] eqn:Epl; [| |destruct Ht as (_ & _ & Hp); rewrite Epl in Hp; contradiction]; cbn [shown].
    + pose proof (lines_between C R cols (isw i) cu ln Hok Ht Epl) as H. rewrite swap_lat.
      destruct (filter (lat ln) (rents 0 cols)) as [|[[r c] v] rest] eqn:E; cbn [map first].
      * rewrite H. reflexivity.
      * destruct H as (j & X & lo & hi & Y & H1 & H2 & H3 & HX & HX' & H4 & H5). rewrite H1. exists (ICSC (iunsw j)). split; [reflexivity|]. split.
        { cbn [mat_cur]. rewrite csc_cur_sw, sw_mk, isw_iunsw, H2. reflexivity. } split.
        { cbn [tracks csc_c mk_csc]. rewrite isw_iunsw. unfold advance. rewrite Epl. cbn [moved]. rewrite swap_inl, swap_upto, !zlen_map. eapply on_lines_swap. exact H3. }
        intros x _. pose proof (nth_rents X lo c v hi Y) as Hn. rewrite <- HX, HX' in Hn. pose proof (zlen_nonneg (concat X)). pose proof (zlen_nonneg lo).
        destruct (put_index C R cols j x _ r c v Hok Hn) as (cols' & Hp & Hok' & Er); [lia|right; exact H4|].
        cbn [mat_map_put]. rewrite csc_map_put_sw, sw_mk, isw_iunsw, Hp. eexists. split; [reflexivity|]. split; [exists R, C, cols'; auto|].
        eexists _, (c, r, v). split; [rewrite nth_swap, Hn; reflexivity|]. split; [reflexivity|]. split; [auto|]. split; [reflexivity|].
        rewrite unsw_mk, entries_csc by exact Hok'. rewrite Er, swap_put. reflexivity.
    + pose proof (lines_within C R cols (isw i) cu ln ps b mo Hok Ht Epl) as H. pose proof Ht as (_ & _ & Hp). rewrite Epl in Hp. destruct Hp as (_ & _ & _ & _ & _ & _ & Hb).
      rewrite nth_swap. destruct (nth_error (rents 0 cols) (Z.to_nat b)) as [[[r c] v]|] eqn:En; cbn [option_map]; [|rewrite H; reflexivity].
      cbn [pos_of swap_ent fst snd] in *. destruct (Z.ltb_spec ps c) as [L|L]; [|rewrite H; reflexivity].
      destruct H as (j & H1 & H2 & H3 & H4 & H5). rewrite H1. exists (ICSC (iunsw j)). split; [reflexivity|]. split.
      { cbn [mat_cur]. rewrite csc_cur_sw, sw_mk, isw_iunsw, H2. reflexivity. } split.
      { cbn [tracks csc_c mk_csc]. rewrite isw_iunsw. unfold advance. rewrite Epl in *. apply (on_lines_swap _ _ _ _ _ _ 0) in H3. exact H3. }
      assert (Hse : settled (MCSC (mk_csc R C cols)) (Within ln ps b mo) (map swap_ent (rents 0 cols)) -> r = ln).
      { intros Hs. cbn [settled] in Hs. rewrite swap_inl, swap_upto, !zlen_map in Hs.
        destruct (lines_calm C R cols (isw i) cu ln ps b mo Hok Ht Epl Hs) as (X & lo & c' & v' & hi & Y & HX & HX' & Eb & Hc & Hn & _). congruence. }
      intros x Hx. cbn [mat_map_put]. rewrite csc_map_put_sw, sw_mk, isw_iunsw. destruct (put_index C R cols j x _ r c v Hok En) as (cols' & Hp & Hok' & Er); [lia| |].
      { destruct Hx as [Hs|Hx]; [right; rewrite (Hse Hs); exact H4|left; exact Hx]. }
      rewrite Hp. eexists. split; [reflexivity|]. split; [exists R, C, cols'; auto|].
      eexists _, (c, r, v). split; [rewrite nth_swap, En; reflexivity|]. split; [reflexivity|]. split; [intros Hs; rewrite (Hse Hs); reflexivity|]. split; [reflexivity|].
      rewrite unsw_mk, entries_csc by exact Hok'. rewrite Er, swap_put. reflexivity.
  - destruct Hw as (R & C & f & -> & HR & HC & Hb). cbn [dm_r dm_c mk_dm] in Ht. destruct Ht as (k & Ep & Ek & Et & Hi). rewrite Ep. cbn [shown].
    assert (EL : zlen (entries (MDM (mk_dm R C f))) = R * C) by (rewrite entries_dm, zlen_map, zlen_all_cells; auto).
    destruct (skipn (Z.to_nat k) (entries (MDM (mk_dm R C f)))) as [|[[r c] v] rest] eqn:Esk; cbn [first].
    + assert (Ekk : k = R * C). { destruct Hi as (Hk & _). assert (Q : zlen (skipn (Z.to_nat k) (entries (MDM (mk_dm R C f)))) = 0) by (rewrite Esk; reflexivity). unfold zlen in *. rewrite skipn_length in Q. lia. }
      cbn [mat_next mat_cur rbind]. unfold dm_cur, dm_next, dm_Columns. cbn [dm_c mk_dm].
      destruct Hi as (Hk & _ & _ & [(E0 & -> & ->)|(E0 & -> & ->)]).
      * destruct (Z.eqb_spec 0 C); cbn [dmi_r dmi_cOld]; rewrite dm_At_panic by nia; reflexivity.
      * assert (HC0 : 0 < C) by nia. assert (Em : (k - 1) mod C = C - 1) by (symmetry; apply Z.mod_unique with (R - 1); nia).
        rewrite Em. destruct (Z.eqb_spec (C - 1 + 1) C); [|lia]. cbn [dmi_r dmi_cOld].
        assert (Ed : (k - 1) / C = R - 1) by (symmetry; apply Z.div_unique with (C - 1); nia). rewrite Ed, dm_At_panic by lia. reflexivity.
    + assert (Hr : it_rel (MDM (mk_dm R C f)) (IDM i) (firstn (Z.to_nat k) (entries (MDM (mk_dm R C f)))) ((r, c, v) :: rest)).
      { exists R, C, f. do 4 (split; [auto|]). rewrite <- Esk, firstn_skipn. split; [rewrite entries_dm; auto|].
        replace (zlen (firstn (Z.to_nat k) (entries (MDM (mk_dm R C f))))) with k; [exact Hi|]. destruct Hi as (Hk & _). unfold zlen in *. rewrite firstn_length_le; lia. }
      destruct (it_rel_step _ _ _ _ _ _ _ Hr) as (it' & H1 & H2 & H3 & H4). exists it'. split; [exact H1|]. split; [exact H2|]. split.
      * destruct it' as [i'|i'|i'|i'|i']; try (cbn in H3; contradiction). cbn [tracks dm_r dm_c mk_dm]. exists (k + 1). unfold advance. cbn [cu_place cu_seen cu_total]. rewrite Ep. cbn [moved].
        split; [reflexivity|]. split; [zl; lia|]. split; [exact Et|]. destruct H3 as (R' & C' & f' & E' & _ & _ & _ & _ & H3).
        assert (R' = R /\ C' = C) as [-> ->] by (unfold mk_dm in E'; injection E'; auto).
        replace (k + 1) with (zlen (firstn (Z.to_nat k) (entries (MDM (mk_dm R C f))) ++ [(r, c, v)])); [exact H3|]. zl. destruct Hi as (Hk & _). unfold zlen in *. rewrite firstn_length_le; lia.
      * intros x _. destruct (H4 x) as (m' & Hm & _ & Hr'); [discriminate|]. exists m'. split; [exact Hm|]. split; [eapply it_rel_wf; exact Hr'|].
        exists (Z.to_nat k), (r, c, v). split; [apply nth_skipn with rest; exact Esk|]. split; [reflexivity|]. split; [auto|]. split; [reflexivity|].
        rewrite (it_rel_entries _ _ _ _ Hr'). unfold put_at. cbn [sparse_obj andb fst]. rewrite (skipn_next _ _ _ _ Esk), <- app_assoc. reflexivity.
  - destruct Hw as (L & f & -> & HL). destruct Ht as (k & Ep & El & Es & Er & Hk). rewrite Ep. rewrite entries_dv by exact HL. cbn [shown].
    assert (EL : zlen (map (fun k => (k, 0, f k)) (zrange 0 L)) = L) by (rewrite zlen_map, zlen_zrange; lia).
    rewrite EL. set (q := if k =? L then 0 else k).
    assert (EU : (if k =? L then first (map (fun k => (k, 0, f k)) (zrange 0 L)) else first (skipn (Z.to_nat k) (map (fun k => (k, 0, f k)) (zrange 0 L)))) = first (skipn (Z.to_nat q) (map (fun k => (k, 0, f k)) (zrange 0 L)))).
    { unfold q. destruct (k =? L); reflexivity. }
    rewrite EU. clear EU.
    assert (Hq : 0 <= q) by (unfold q; destruct (k =? L); lia).
    assert (EN : exists cc, dv_next (mk_dv L f) i = MkDVI (dvi_size i) (dvi_last i + 1) cc (q + 1) q).
    { unfold dv_next, dv_Rows. rewrite Er. cbn [dv_l mk_dv]. unfold q. destruct (k =? L); eexists; reflexivity. }
    destruct EN as [cc EN]. cbn [mat_next mat_cur rbind]. rewrite EN. unfold dv_cur. cbn [dvi_rOld].
    destruct (Z_lt_dec q L) as [Lq|Lq].
    + pose proof (skipn_zrange f L q ltac:(lia)) as Esk. set (lv := map (fun k => (k, 0, f k)) (zrange 0 L)) in *. rewrite Esk. cbn [first].
      eexists. split; [reflexivity|]. cbn [mat_cur]. unfold dv_cur. cbn [dvi_rOld]. rewrite dv_AtVec_spec by lia. split; [reflexivity|]. split.
      * exists (q + 1). unfold advance. cbn [cu_place cu_seen cu_total dvi_last dvi_size dvi_r]. rewrite Ep. cbn [moved fst]. repeat split; zl; lia.
      * intros x _.
        assert (Hr : it_rel (MDV (mk_dv L f)) (IDV (MkDVI L q 0 q 0)) (firstn (Z.to_nat q) lv) ((q, 0, f q) :: skipn (S (Z.to_nat q)) lv)).
        { exists L, f. split; [auto|]. split; [auto|]. rewrite <- Esk, firstn_skipn. split; [reflexivity|].
          replace (zlen (firstn (Z.to_nat q) lv)) with q; [repeat split; cbn; lia|]. unfold zlen in *. rewrite firstn_length_le; lia. }
        destruct (it_rel_step _ _ _ _ _ _ _ Hr) as (it' & H1 & H2 & H3 & H4). destruct (H4 x) as (m' & Hm & _ & Hr'); [discriminate|].
        cbn [mat_next] in H1. unfold dv_next, dv_Rows in H1. cbn [dvi_r dv_l mk_dv] in H1. destruct (Z.eqb_spec q L); [lia|]. injection H1 as <-.
        exists m'. split; [exact Hm|]. split; [eapply it_rel_wf; exact Hr'|].
        exists (Z.to_nat q), (q, 0, f q). split; [apply nth_skipn with (skipn (S (Z.to_nat q)) lv); exact Esk|]. split; [reflexivity|]. split; [auto|]. split; [reflexivity|].
        rewrite (it_rel_entries _ _ _ _ Hr'). unfold put_at. cbn [sparse_obj andb fst]. rewrite <- app_assoc. reflexivity.
    + rewrite skipn_all2 by (unfold zlen in EL; lia). rewrite dv_AtVec_panic by lia. reflexivity.
  - destruct Hw as (L & ents & -> & Hok). destruct Ht as (k & Ep & Ek & El & Es). rewrite Ep. rewrite entries_sv in * by exact Hok. cbn [shown mat_next rbind mat_cur].
    unfold sv_cur, sv_next. cbn [svi_old sv_indices sv_values mk_sv]. rewrite El.
    assert (Hk : 0 <= k) by (pose proof (zlen_nonneg (cu_seen cu)); lia).
    destruct (Z_lt_dec k (zlen ents)) as [Lk|Lk].
    + destruct (cut_list ents k) as (A & B & EA & LA); [lia|]. destruct B as [|[q u] B]. { exfalso. revert Lk. rewrite EA. zl. lia. }
      assert (ES : forall {W} (F : Z * V -> W), skipn (Z.to_nat k) (map F (A ++ (q, u) :: B)) = F (q, u) :: map F B).
      { intros W F. rewrite map_app, skipn_app, skipn_all2, map_length by (rewrite map_length; unfold zlen in LA; lia).
        replace (Z.to_nat k - length A)%nat with 0%nat by (unfold zlen in LA; lia). reflexivity. }
      assert (EF : forall {W} (F : Z * V -> W), firstn (Z.to_nat k) (map F (A ++ (q, u) :: B)) = map F A).
      { intros W F. rewrite map_app, firstn_app, firstn_all2, map_length by (rewrite map_length; unfold zlen in LA; lia).
        replace (Z.to_nat k - length A)%nat with 0%nat by (unfold zlen in LA; lia). apply app_nil_r. }
      rewrite EA, ES. cbn [first].
      eexists. split; [reflexivity|]. cbn [mat_cur]. unfold sv_cur. cbn [svi_old sv_indices sv_values]. rewrite (map_app fst), (map_app snd). cbn [map fst snd]. rewrite !zget_mid by (zl; lia). split; [reflexivity|]. split.
      * exists (k + 1). unfold advance. cbn [cu_place cu_seen cu_total svi_last svi_size]. rewrite Ep. cbn [moved]. repeat split; zl; lia.
      * intros x _. cbn [mat_map_put]. unfold sv_map_put. cbn [svi_old]. destruct Hok as (H0 & H1 & H2). rewrite EA in H1, H2.
        apply Forall_app in H1 as [A1 A2]. apply Forall_app in H2 as [B1 B2]. apply Forall_cons_iff in A2 as [A2 A3]. apply Forall_cons_iff in B2 as [B2 B3].
        assert (PD : forall ents', ents_ok L ents' -> ents' = A ++ (if isz x then [] else [(q, x)]) ++ B -> 
          put_done (MSV (mk_sv L (A ++ (q, u) :: B))) (Index k) (map (fun e => (fst e, 0, snd e)) (A ++ (q, u) :: B)) (q, 0, u) x (MSV (mk_sv L ents'))).
        { intros ents' Hok' E'. split; [exists L, ents'; auto|]. exists (Z.to_nat k), (q, 0, u). split; [apply nth_skipn with (map (fun e => (fst e, 0, snd e)) B); apply ES|]. split; [reflexivity|]. split; [auto|]. split; [reflexivity|].
          rewrite entries_sv by exact Hok'. rewrite E'. unfold put_at. cbn [sparse_obj andb fst]. rewrite EF, (skipn_next _ _ _ _ (ES _ (fun e => (fst e, 0, snd e)))), !map_app. unfold isz. destruct (neqb x n0); reflexivity. }
        exists (MSV (mk_sv L (A ++ (if isz x then [] else [(q, x)]) ++ B))). split.
        -- destruct (isz x) eqn:Ex; cbn [negb app].
           ++ unfold sv_remove, mk_sv. cbn [sv_l sv_values sv_indices]. rewrite !map_app. cbn [map fst snd].
              change (q :: map fst B) with ([q] ++ map fst B). change (u :: map snd B) with ([u] ++ map snd B).
              rewrite slice_to_app by (zl; lia). cbn [rbind]. rewrite (app_assoc _ [q]). rewrite slice_from_app by (zl; lia). cbn [rbind].
              rewrite slice_to_app by (zl; lia). cbn [rbind]. rewrite (app_assoc _ [u]). rewrite slice_from_app by (zl; lia). reflexivity.
           ++ unfold mk_sv. cbn [sv_values sv_l sv_indices]. rewrite !map_app. cbn [map fst snd]. rewrite zset_mid by (zl; lia). reflexivity.
        -- apply PD; [|reflexivity]. destruct (isz x) eqn:Ex; cbn [app]; (split; [auto|]; split; apply Forall_app; auto).
    + rewrite skipn_all2 by (rewrite map_length; unfold zlen in Lk; lia). cbn [first]. rewrite zget_big by (zl; lia). reflexivity.
Qed.

(** the place of [e], as it is found on arriving there *)
Definition arrived m (l : list ent) (e : ent) : place :=
  let ln := line_of m (fst e) in
  let ps := pos_of m (fst e) in
  let more := zlen (filter (in_line m ln ps) l) in
  if more =? 0 then Between ln
  else Within ln ps (zlen (filter (fun e => negb (in_line m ln ps e || in_later m ln e)) l)) more.

Lemma tracks_settled m it cu l : wf m -> enumerates m l -> tracks m it cu -> settled m (cu_place cu) l ->
  shown m (cu_place cu) l = first (upcoming m (cu_place cu) l) /\
  (lined m = true -> forall e, shown m (cu_place cu) l = Ok e -> moved m (cu_place cu) l e = arrived m l e).
Proof.
  intros Hw He Ht Hs. destruct (cu_place cu) as [ln|ln ps b mo|k] eqn:Epl.
  - split; [reflexivity|]. reflexivity.
  - apply enumerates_unique in He; [|exact Hw]. subst l. destruct m as [s|s|s|s|s], it as [i|i|i|i|i]; cbn [tracks] in Ht; try contradiction;
      try (destruct Ht as (k & Q & _); rewrite Epl in Q; discriminate).
    + destruct Hw as (R & C & rows & -> & Hok). rewrite entries_csr in * by exact Hok. cbn [csr_r mk_csr] in Ht.
      destruct (lines_calm R C rows i cu ln ps b mo Hok Ht Epl Hs) as (X & lo & c & v & hi & Y & HX & HX' & Eb & Hc & En & Ea & Eo).
      assert (E1 : shown (MCSR (mk_csr R C rows)) (Within ln ps b mo) (rents 0 rows) = Ok (ln, c, v)).
      { cbn [shown]. rewrite En. cbn [fst snd pos_of placed]. destruct (Z.ltb_spec ps c); [reflexivity|lia]. }
      split.
      * rewrite E1. change (upcoming (MCSR (mk_csr R C rows)) (Within ln ps b mo) (rents 0 rows)) with (ahead (Within ln ps b mo) (rents 0 rows)). rewrite Ea. reflexivity.
      * intros _ e Q. rewrite E1 in Q. injection Q as <-. symmetry. exact Eo.
    + destruct Hw as (R & C & cols & -> & Hok). rewrite entries_csc in * by exact Hok. cbn [csc_c mk_csc] in Ht.
      cbn [settled] in Hs. rewrite swap_inl, swap_upto, !zlen_map in Hs.
      destruct (lines_calm C R cols (isw i) cu ln ps b mo Hok Ht Epl Hs) as (X & lo & c & v & hi & Y & HX & HX' & Eb & Hc & En & Ea & Eo).
      assert (E1 : shown (MCSC (mk_csc R C cols)) (Within ln ps b mo) (map swap_ent (rents 0 cols)) = Ok (c, ln, v)).
      { cbn [shown]. rewrite nth_swap, En. cbn [option_map swap_ent fst snd pos_of placed]. destruct (Z.ltb_spec ps c); [reflexivity|lia]. }
      split.
      * rewrite E1. cbn [upcoming]. rewrite swap_ahead. cbn [ahead] in Ea. rewrite Ea. reflexivity.
      * intros _ e Q. rewrite E1 in Q. injection Q as <-. unfold arrived. cbv zeta. rewrite swap_inl, swap_upto, !zlen_map. symmetry. exact Eo.
  - split.
    + cbn [shown upcoming]. destruct m; try reflexivity. destruct (k =? zlen l); reflexivity.
    + intros Hl. destruct m as [s|s|s|s|s], it as [i|i|i|i|i]; cbn [tracks lined] in *; try contradiction; try discriminate;
        destruct Ht as (_ & _ & Hp); rewrite Epl in Hp; contradiction.
Qed.
End IterProofs.
