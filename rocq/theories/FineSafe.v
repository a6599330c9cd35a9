(** Trees of steps that do not panic, whatever other goroutines write meanwhile and whenever the context
    becomes done, as long as the objects keep their sizes; and the parts of Strassen's multiplication as
    such trees. *)
From Coq Require Import String.
From Verif Require Import GoBase Num SparseVec Csr Csc DenseVec DenseMat Mat World Ops MathOps Bfs Spec Api BaseProofs DenseProofs MatProofs StoreProofs Fine FineRel FineConc FineProofs FineStrassen.

Section FineSafe.
Context {N : num}.
Notation V := (T N).
Notation mat := (mat N).
Notation prog := (prog N).
Notation names := (ptr -> Prop).
(** what is known of the objects *)
Notation known := (ptr -> option (mat -> Prop)).

Definition more (D D' : known) : Prop := forall p P, D p = Some P -> D' p = Some P.
Definition moreo (O O' : names) : Prop := forall p, O p -> O' p.
Definition with_new (D : known) (p : ptr) (P : mat -> Prop) : known := fun q => if Nat.eqb q p then Some P else D q.

(** [D]: what the tree may look at; [O]: what it may write; [W]: where [At] may write back what it found;
    [Q]: of these and the result, at the end *)
Fixpoint safe {A} (W : names) (Q : known -> names -> A -> Prop) (D : known) (O : names) (x : prog A) : Prop :=
  match x with
  | Ret a => Q D O a
  | Stop => False
  | Hang => False
  | Poll E k => forall b, safe W Q D O (k b)
  | Load p k => exists P, D p = Some P /\ forall m, P m -> safe W Q D O (k m)
  | Store p m q => O p /\ (exists P, D p = Some P /\ P m) /\ safe W Q D O q
  | AtOp p r c k => exists P, D p = Some P /\ forall m, P m -> exists v, mat_At m r c = Ok (v, m) /\ (At_writes m = true -> W p) /\ safe W Q D O (k v)
  | ElemOp p r c k => exists P, D p = Some P /\ forall m, P m -> exists b, mat_Element m r c = Ok (b, m) /\ (Element_writes m = true -> W p) /\ safe W Q D O (k b)
  | Alloc m k => exists P, P m /\ forall p, D p = None -> safe W Q (with_new D p P) (fun q => O q \/ q = p) (k p)
  end.

Lemma more_refl D : more D D. Proof. intros p P H. exact H. Qed.
Lemma more_trans D1 D2 D3 : more D1 D2 -> more D2 D3 -> more D1 D3.
Proof. intros H1 H2 p P H. auto. Qed.
Lemma more_new (D : known) p P : D p = None -> more D (with_new D p P).
Proof. intros H q P' Hq. unfold with_new. destruct (Nat.eqb_spec q p) as [->|]; [congruence|exact Hq]. Qed.
Lemma new_at (D : known) p P : with_new D p P p = Some P.
Proof. unfold with_new. rewrite Nat.eqb_refl. reflexivity. Qed.

Lemma safe_bind {A B} W (Q : known -> names -> A -> Prop) (R : known -> names -> B -> Prop) D O x f :
  safe W Q D O x -> (forall D' O' a, more D D' -> moreo O O' -> Q D' O' a -> safe W R D' O' (f a)) -> safe W R D O (mbind x f).
Proof.
  revert D O. induction x as [a| | |E k IH|p k IH|p m q IH|p r c k IH|p r c k IH|m k IH]; intros D O H K; cbn [mbind safe] in *; auto.
  - apply K; [apply more_refl|intros p Hp; exact Hp|exact H].
  - destruct H as (P & H1 & H2). exists P. split; [exact H1|]. intros m Hm. apply IH; auto.
  - destruct H as (H1 & H2 & H3). split; [exact H1|]. split; [exact H2|]. apply IH; auto.
  - destruct H as (P & H1 & H2). exists P. split; [exact H1|]. intros m Hm. destruct (H2 m Hm) as (v & E1 & E2 & E3). exists v. auto.
  - destruct H as (P & H1 & H2). exists P. split; [exact H1|]. intros m Hm. destruct (H2 m Hm) as (v & E1 & E2 & E3). exists v. auto.
  - destruct H as (P & H1 & H2). exists P. split; [exact H1|]. intros p Hp. apply IH; [apply H2; exact Hp|].
    intros D' O' a M1 M2. apply K; [eapply more_trans; [apply more_new; exact Hp|exact M1]|]. intros q Hq. apply M2. left. exact Hq.
Qed.

(** a dense matrix with [R] rows and [C] columns *)
Definition dsh (R C : Z) (m : mat) : Prop := 0 <= R /\ 0 <= C /\ R * C < 2 ^ 63 /\ exists f, m = MDM (mk_dm R C f).
(** an object that has been looked at *)
Definition is (A m : mat) : Prop := m = A.

(** the result is [a], nothing is new *)
Definition gives {A} (a : A) : known -> names -> A -> Prop := fun _ _ b => b = a.
Definition fine {A} : known -> names -> A -> Prop := fun _ _ _ => True.
(** a new dense matrix *)
Definition fresh (R C : Z) : known -> names -> ptr -> Prop := fun D O p => D p = Some (dsh R C) /\ O p.

Lemma dsh_rows R C m : dsh R C m -> mat_Rows m = R. Proof. intros (_ & _ & _ & f & ->). reflexivity. Qed.
Lemma dsh_columns R C m : dsh R C m -> mat_Columns m = C. Proof. intros (_ & _ & _ & f & ->). reflexivity. Qed.

Section Ops.
Variable W : names.
Notation safe := (safe W).

Lemma safe_Rows (D : known) (O : names) p P R : D p = Some P -> (forall m, P m -> mat_Rows m = R) -> safe (gives R) D O (p_Rows p).
Proof. intros H K. exists P. split; [exact H|]. intros m Hm. exact (K m Hm). Qed.
Lemma safe_Columns (D : known) (O : names) p P C : D p = Some P -> (forall m, P m -> mat_Columns m = C) -> safe (gives C) D O (p_Columns p).
Proof. intros H K. exists P. split; [exact H|]. intros m Hm. exact (K m Hm). Qed.

Lemma safe_At (D : known) (O : names) p R C r c : D p = Some (dsh R C) -> 0 <= r < R -> 0 <= c < C -> safe fine D O (p_At p r c).
Proof.
  intros H Hr Hc. exists (dsh R C). split; [exact H|]. intros m (_ & _ & _ & f & ->). exists (f r c). cbn [mat_At].
  rewrite dm_At_spec by assumption. split; [reflexivity|]. split; [discriminate|exact Logic.I].
Qed.
Lemma safe_Set (D : known) (O : names) p R C r c v : D p = Some (dsh R C) -> O p -> 0 <= r < R -> 0 <= c < C -> safe fine D O (p_Set p r c v).
Proof.
  intros H Ho Hr Hc. exists (dsh R C). split; [exact H|]. intros m (A1 & A2 & A3 & f & ->). cbn [mbind mat_Set].
  rewrite dm_Set_spec by assumption. cbn [rmap rbind mlift mbind store FineSafe.safe]. split; [exact Ho|]. split; [|exact Logic.I]. exists (dsh R C). split; [exact H|].
  repeat split; try assumption. eexists. reflexivity.
Qed.
Lemma safe_Update (D : known) (O : names) p R C r c g : D p = Some (dsh R C) -> O p -> 0 <= r < R -> 0 <= c < C -> safe fine D O (p_Update p r c g).
Proof.
  intros H Ho Hr Hc. exists (dsh R C). split; [exact H|]. intros m (A1 & A2 & A3 & f & ->). cbn [mbind].
  assert (E : exists f', mat_Update (MDM (mk_dm R C f)) r c g = Ok (MDM (mk_dm R C f'))).
  { cbn [mat_Update]. rewrite dm_Update_spec by assumption. eexists. reflexivity. }
  destruct E as [f' ->]. cbn [mlift mbind store FineSafe.safe]. split; [exact Ho|]. split; [|exact Logic.I]. exists (dsh R C). split; [exact H|].
  repeat split; try assumption. eexists. reflexivity.
Qed.
Lemma safe_new (D : known) (O : names) R C : 0 <= R -> 0 <= C -> R * C < 2 ^ 63 -> safe (fresh R C) D O (new_dense R C).
Proof.
  intros A1 A2 A3. unfold new_dense. rewrite newMatrix_spec by assumption. cbn [mlift mbind alloc FineSafe.safe]. exists (dsh R C).
  split; [repeat split; try assumption; eexists; reflexivity|]. intros p Hp. split; [apply new_at|right; reflexivity].
Qed.
Lemma safe_Copy (D : known) (O : names) p R C : D p = Some (dsh R C) -> safe (fresh R C) D O (p_Copy p).
Proof.
  intros H. exists (dsh R C). split; [exact H|]. intros m (A1 & A2 & A3 & f & ->). cbn [mbind mat_Copy]. rewrite dm_Copy_spec by assumption.
  cbn [rmap rbind mlift mbind alloc FineSafe.safe]. exists (dsh R C).
  split; [repeat split; try assumption; eexists; reflexivity|]. intros q Hq. split; [apply new_at|right; reflexivity].
Qed.

(** loops; the body keeps [J] *)
Lemma safe_for {R I} (J : known -> names -> Prop) (l : list I) (body : I -> prog (option R)) : forall D O, J D O ->
  (forall D O i, J D O -> List.In i l -> safe (fun D' O' _ => J D' O') D O (body i)) ->
  safe (fun D' O' _ => J D' O') D O (for_list l body).
Proof.
  induction l as [|i l IH]; intros D O HJ H; [exact HJ|]. cbn [for_list].
  eapply safe_bind; [apply H; [exact HJ|left; reflexivity]|]. intros D' O' [o|] M1 M2 J'; [exact J'|].
  apply IH; [exact J'|]. intros D2 O2 i' J2 Hi. apply H; [exact J2|right; exact Hi].
Qed.
Lemma safe_weaken {A} (Q R : known -> names -> A -> Prop) D O x : safe Q D O x -> (forall D' O' a, more D D' -> moreo O O' -> Q D' O' a -> R D' O' a) -> safe R D O x.
Proof.
  revert D O. induction x as [a| | |E k IH|p k IH|p m q IH|p r c k IH|p r c k IH|m k IH]; intros D O H K; cbn [FineSafe.safe] in *; auto.
  - apply K; [apply more_refl|intros p Hp; exact Hp|exact H].
  - destruct H as (P & H1 & H2). exists P. split; [exact H1|]. intros m Hm. apply IH; auto.
  - destruct H as (H1 & H2 & H3). split; [exact H1|]. split; [exact H2|]. apply IH; auto.
  - destruct H as (P & H1 & H2). exists P. split; [exact H1|]. intros m Hm. destruct (H2 m Hm) as (v & E1 & E2 & E3). exists v. auto.
  - destruct H as (P & H1 & H2). exists P. split; [exact H1|]. intros m Hm. destruct (H2 m Hm) as (v & E1 & E2 & E3). exists v. auto.
  - destruct H as (P & H1 & H2). exists P. split; [exact H1|]. intros p Hp. apply IH; [apply H2; exact Hp|].
    intros D' O' a M1 M2. apply K; [eapply more_trans; [apply more_new; exact Hp|exact M1]|]. intros q Hq. apply M2. left. exact Hq.
Qed.

(** known or more *)
Definition from (D : known) (O : names) : known -> names -> Prop := fun D' O' => more D D' /\ moreo O O'.
Lemma from_refl (D : known) (O : names) : from D O D O. Proof. split; [apply more_refl|intros p Hp; exact Hp]. Qed.
Lemma from_trans (D : known) (O : names) D1 O1 D2 O2 : from D O D1 O1 -> more D1 D2 -> moreo O1 O2 -> from D O D2 O2.
Proof. intros [H1 H2] H3 H4. split; [eapply more_trans; eauto|]. intros p Hp. apply H4, H2, Hp. Qed.

Lemma safe_grid E rows columns body D O :
  (forall D' O' r c, from D O D' O' -> 0 <= r < rows -> 0 <= c < columns -> safe fine D' O' (body r c)) -> safe fine D O (grid E rows columns body).
Proof.
  intro H. unfold grid. eapply safe_bind; [|intros; exact Logic.I].
  apply (safe_for (from D O)); [apply from_refl|]. intros D1 O1 r J1 Hr. apply in_zrange in Hr.
  apply (safe_for (from D O)); [exact J1|]. intros D2 O2 c J2 Hc. apply in_zrange in Hc.
  cbn [poll mbind FineSafe.safe]. intros [].
  - cbn [mret mbind FineSafe.safe]. exact J2.
  - eapply safe_bind; [apply H; [exact J2|lia|lia]|]. intros D3 O3 [] M1 M2 _. cbn [mret FineSafe.safe]. eapply from_trans; eauto.
Qed.

(** enumerating a dense matrix *)
Lemma safe_enum {R} E fuel p (onC : R) body Rw Cl : forall it n (D : known) (O : names), D p = Some (dsh Rw Cl) -> 0 <= Rw -> 0 <= Cl -> Rw * Cl < 2 ^ 63 ->
  dmi_inv Rw Cl it n -> 0 <= n -> Rw * Cl - n <= Z.of_nat fuel ->
  (forall D' O' r c v, from D O D' O' -> 0 <= r < Rw -> 0 <= c < Cl -> safe fine D' O' (body r c v)) ->
  safe fine D O (enum_loop E fuel p (IDM it) onC body).
Proof.
  induction fuel as [|fuel IH]; intros it n D O H A1 A2 A3 I Hn Hf Hb; cbn [enum_loop mat_HasNext]; rewrite (dmi_HasNext Rw Cl it n I); destruct (Z.ltb_spec n (Rw * Cl)) as [Hl|Hl]; try exact Logic.I; [lia|].
  cbn [poll mbind FineSafe.safe]. intros []; [exact Logic.I|]. cbn [load mbind FineSafe.safe]. exists (dsh Rw Cl). split; [exact H|]. intros m (_ & _ & _ & f & ->).
  assert (HC : 0 < Cl) by nia. destruct (dmi_next Rw Cl f it n I Hl HC) as (I' & E1 & E2).
  pose proof (Z.mod_pos_bound n Cl HC) as Hm. assert (Hd : 0 <= n / Cl < Rw) by (split; [apply Z.div_pos; lia|apply Z.div_lt_upper_bound; nia]).
  unfold mat_Next. cbn [mat_next rbind mat_cur]. unfold dm_cur. rewrite E1, E2, dm_At_spec by lia. cbn [rbind mlift mbind FineSafe.safe].
  eapply safe_bind; [apply Hb; [apply from_refl|lia|lia]|]. intros D' O' [o|] M1 M2 _; [exact Logic.I|].
  apply (IH _ (n + 1)); try assumption; [apply M1; exact H|lia|lia|].
  intros D2 O2 r c v [F1 F2] Hr Hc. apply Hb; [|exact Hr|exact Hc]. split; [eapply more_trans; eauto|]. intros q Hq. apply F2, M2, Hq.
Qed.
Lemma safe_enumerate {R} E p (onC : R) body Rw Cl (D : known) (O : names) : D p = Some (dsh Rw Cl) -> 0 <= Rw * Cl <= Z.of_nat (e_fuel E) ->
  (forall D' O' r c v, from D O D' O' -> 0 <= r < Rw -> 0 <= c < Cl -> safe fine D' O' (body r c v)) ->
  safe fine D O (enumerate E p onC body).
Proof.
  intros H Hf Hb. unfold enumerate. cbn [load mbind FineSafe.safe]. exists (dsh Rw Cl). split; [exact H|]. intros m (A1 & A2 & A3 & f & ->). cbn [mat_iterator].
  apply (safe_enum _ _ _ _ _ Rw Cl _ 0); try assumption; [apply dmi_init; assumption|lia|lia].
Qed.

Lemma safe_check_sizes s m R C (D : known) (O : names) : D s = Some (dsh R C) -> D m = Some (dsh R C) -> safe fine D O (check_sizes s m).
Proof.
  intros Hs Hm. unfold check_sizes.
  eapply safe_bind; [apply (safe_Columns _ _ _ _ C Hs (dsh_columns R C))|]. intros D1 O1 ? M1 N1 Eq; unfold gives in Eq; rewrite Eq; clear Eq.
  eapply safe_bind; [apply (safe_Columns _ _ _ _ C (M1 _ _ Hm) (dsh_columns R C))|]. intros D2 O2 ? M2 N2 Eq; unfold gives in Eq; rewrite Eq; clear Eq. rewrite Z.eqb_refl. cbn [negb].
  eapply safe_bind; [apply (safe_Rows _ _ _ _ R (M2 _ _ (M1 _ _ Hs)) (dsh_rows R C))|]. intros D3 O3 ? M3 N3 Eq; unfold gives in Eq; rewrite Eq; clear Eq.
  eapply safe_bind; [apply (safe_Rows _ _ _ _ R (M3 _ _ (M2 _ _ (M1 _ _ Hm))) (dsh_rows R C))|]. intros D4 O4 ? M4 N4 Eq; unfold gives in Eq; rewrite Eq; clear Eq. rewrite Z.eqb_refl. exact Logic.I.
Qed.
Lemma safe_check_mask t R C (D : known) (O : names) : D t = Some (dsh R C) -> safe (gives (MEmpty R C)) D O (check_mask MNil t).
Proof.
  intros H. unfold check_mask.
  eapply safe_bind; [apply (safe_Rows _ _ _ _ R H (dsh_rows R C))|]. intros D1 O1 ? M1 N1 Eq; unfold gives in Eq; rewrite Eq; clear Eq.
  eapply safe_bind; [apply (safe_Columns _ _ _ _ C (M1 _ _ H) (dsh_columns R C))|]. intros D2 O2 ? M2 N2 Eq; unfold gives in Eq; rewrite Eq; clear Eq.
  cbn [mask_Rows mask_Columns mret mbind]. rewrite !Z.eqb_refl. reflexivity.
Qed.

Lemma safe_m_Add E s m R C (D : known) (O : names) : D s = Some (dsh R C) -> D m = Some (dsh R C) -> 0 <= R * C <= Z.of_nat (e_fuel E) ->
  safe (fresh R C) D O (m_Add E s m).
Proof.
  intros Hs Hm Hf. unfold m_Add. eapply safe_bind; [apply (safe_Copy _ _ _ R C Hs)|]. intros D1 O1 t M1 N1 [Ht Ot].
  eapply safe_bind with (Q := fine); [|intros D' O' [] M2 N2 _; split; [apply M2; exact Ht|apply N2; exact Ot]].
  unfold Add. eapply safe_bind; [apply (safe_check_sizes _ _ R C); apply M1; assumption|]. intros D2 O2 [] M2 N2 _.
  eapply safe_bind; [apply (safe_check_mask _ R C); apply M2; exact Ht|]. intros D3 O3 ? M3 N3 Eq; unfold gives in Eq; rewrite Eq; clear Eq.
  eapply safe_bind with (Q := fine). { cbn [p_IsSparse load mbind FineSafe.safe]. exists (dsh R C). split; [apply M3, M2, M1, Hs|]. intros; exact Logic.I. }
  intros D4 O4 sp M4 N4 _.
  assert (H4 : forall p, p = s \/ p = m -> D4 p = Some (dsh R C)) by (intros p [->| ->]; apply M4, M3, M2, M1; assumption).
  assert (Ht4 : D4 t = Some (dsh R C)) by (apply M4, M3, M2; exact Ht). assert (Ot4 : O4 t) by (apply N4, N3, N2; exact Ot).
  assert (G : forall src source, (src = s \/ src = m) -> (source = s \/ source = m) -> safe fine D4 O4 (let! _ := enumerate (bg E) src tt (fun r c v =>
    let! value := p_At source r c in
    let! e := mask_Element (MEmpty R C) r c in
    (if negb e then p_Set t r c (nadd value v) else mret tt) ;!; mret None) in mret tt)).
  { intros src source H1 H2. eapply safe_bind; [|intros; exact Logic.I]. apply (safe_enumerate _ _ _ _ R C); [apply H4; exact H1|exact Hf|].
    intros D5 O5 r c v [F1 F2] Hr Hc. eapply safe_bind; [apply (safe_At _ _ _ R C); [apply F1, H4; exact H2|exact Hr|exact Hc]|]. intros D6 O6 value M6 N6 _.
    cbn [mask_Element mret mbind negb]. eapply safe_bind; [apply (safe_Set _ _ _ R C); [apply M6, F1, Ht4|apply N6, F2, Ot4|exact Hr|exact Hc]|]. intros; exact Logic.I. }
  destruct sp; apply G; auto.
Qed.
Lemma safe_m_Subtract E s m R C (D : known) (O : names) : D s = Some (dsh R C) -> D m = Some (dsh R C) -> 0 <= R * C <= Z.of_nat (e_fuel E) ->
  safe (fresh R C) D O (m_Subtract E s m).
Proof.
  intros Hs Hm Hf. unfold m_Subtract. cbn [load mbind FineSafe.safe]. exists (dsh R C). split; [exact Hs|]. intros so (_ & _ & _ & f & ->).
  eapply safe_bind; [apply (safe_Copy _ _ _ R C Hm)|]. intros D1 O1 t M1 N1 [Ht Ot].
  eapply safe_bind with (Q := fine); [|intros D' O' [] M2 N2 _; split; [apply M2; exact Ht|apply N2; exact Ot]].
  unfold Subtract. eapply safe_bind; [apply (safe_check_sizes _ _ R C); apply M1; assumption|]. intros D2 O2 [] M2 N2 _.
  eapply safe_bind; [apply (safe_check_mask _ R C); apply M2; exact Ht|]. intros D3 O3 ? M3 N3 Eq; unfold gives in Eq; rewrite Eq; clear Eq.
  eapply safe_bind; [|intros; exact Logic.I]. apply (safe_enumerate _ _ _ _ R C); [apply M3, M2, M1, Hs|exact Hf|].
  intros D5 O5 r c v [F1 F2] Hr Hc. cbn [mask_Element mret mbind negb].
  eapply safe_bind; [apply (safe_Update _ _ _ R C); [apply F1, M3, M2, Ht|apply F2, N3, N2, Ot|exact Hr|exact Hc]|]. intros; exact Logic.I.
Qed.

(** what the direct product needs of its operands *)
Definition lined (R C : Z) (P : mat -> Prop) : Prop := forall m, P m -> mat_Rows m = R /\ mat_Columns m = C /\
  (forall r, 0 <= r < R -> exists v, mat_RowsAt m r = Ok v /\ mat_Length v = C /\ forall l, 0 <= l < C -> exists y, mat_AtVec v l = Ok y) /\
  (forall c, 0 <= c < C -> exists v, mat_ColumnsAt m c = Ok v /\ forall l, 0 <= l < R -> exists y, mat_AtVec v l = Ok y).
Lemma lined_dsh R C : lined R C (dsh R C).
Proof.
  intros m (A1 & A2 & A3 & f & ->). split; [reflexivity|]. split; [reflexivity|]. split.
  - intros r Hr. cbn [mat_RowsAt]. rewrite dm_RowsAt_spec by assumption. eexists. split; [reflexivity|]. split; [reflexivity|]. intros l Hl. cbn [mat_AtVec]. rewrite dv_AtVec_spec by assumption. eauto.
  - intros c Hc. cbn [mat_ColumnsAt]. rewrite dm_ColumnsAt_spec by assumption. eexists. split; [reflexivity|]. intros l Hl. cbn [mat_AtVec]. rewrite dv_AtVec_spec by assumption. eauto.
Qed.

Lemma safe_dot E rows column (ls : list Z) : forall sum (D : known) (O : names), (forall l, List.In l ls -> exists y, mat_AtVec rows l = Ok y) -> (forall l, List.In l ls -> exists y, mat_AtVec column l = Ok y) ->
  safe (fun D' O' _ => D' = D /\ O' = O) D O (dot_loop E rows column ls sum).
Proof.
  induction ls as [|l ls IH]; intros sum D O H1 H2; [split; reflexivity|]. cbn [dot_loop poll mbind FineSafe.safe]. intros []; [split; reflexivity|].
  destruct (H1 l (or_introl eq_refl)) as [y1 ->]. destruct (H2 l (or_introl eq_refl)) as [y2 ->]. cbn [mlift mbind].
  apply IH; intros l' Hl; [apply H1|apply H2]; right; exact Hl.
Qed.

Lemma safe_multiply E s m t P P' R K C (D : known) (O : names) : D s = Some P -> lined R K P -> D m = Some P' -> lined K C P' -> D t = Some (dsh R C) -> O t ->
  safe fine D O (MatrixMatrixMultiply E s m MNil t).
Proof.
  intros Hs Ls Hm Lm Ht Ot. unfold MatrixMatrixMultiply, multiply.
  eapply safe_bind; [apply (safe_Rows _ _ _ _ K Hm); intros y Hy; apply (Lm y Hy)|]. intros D1 O1 ? M1 N1 Eq; unfold gives in Eq; rewrite Eq; clear Eq.
  eapply safe_bind; [apply (safe_Columns _ _ _ _ K (M1 _ _ Hs)); intros y Hy; apply (Ls y Hy)|]. intros D2 O2 ? M2 N2 Eq; unfold gives in Eq; rewrite Eq; clear Eq. rewrite Z.eqb_refl. cbn [negb].
  eapply safe_bind; [apply (safe_check_mask _ R C); apply M2, M1, Ht|]. intros D3 O3 ? M3 N3 Eq; unfold gives in Eq; rewrite Eq; clear Eq.
  eapply safe_bind; [apply (safe_Rows _ _ _ _ R (M3 _ _ (M2 _ _ (M1 _ _ Hs)))); intros y Hy; apply (Ls y Hy)|]. intros D4 O4 ? M4 N4 Eq; unfold gives in Eq; rewrite Eq; clear Eq.
  eapply safe_bind; [apply (safe_Columns _ _ _ _ C (M4 _ _ (M3 _ _ (M2 _ _ (M1 _ _ Hm))))); intros y Hy; apply (Lm y Hy)|]. intros D5 O5 ? M5 N5 Eq; unfold gives in Eq; rewrite Eq; clear Eq.
  assert (Hs5 : D5 s = Some P) by (apply M5, M4, M3, M2, M1, Hs). assert (Hm5 : D5 m = Some P') by (apply M5, M4, M3, M2, M1, Hm).
  assert (Ht5 : D5 t = Some (dsh R C)) by (apply M5, M4, M3, M2, M1, Ht). assert (Ot5 : O5 t) by (apply N5, N4, N3, N2, N1, Ot).
  clear D D1 D2 D3 D4 O O1 O2 O3 O4 M1 M2 M3 M4 M5 N1 N2 N3 N4 N5 Hs Hm Ht Ot.
  eapply safe_bind; [|intros; exact Logic.I]. apply (safe_for (from D5 O5)); [apply from_refl|]. intros D1 O1 r [M1 N1] Hr. apply in_zrange in Hr.
  cbn [load mbind FineSafe.safe]. exists P. split; [apply M1, Hs5|]. intros so Hso. destruct (Ls so Hso) as (_ & _ & Lr & _).
  destruct (Lr r ltac:(lia)) as (v & -> & Lv & Av). cbn [mlift mbind]. rewrite Lv.
  apply (safe_for (from D5 O5)); [split; assumption|]. intros D2 O2 c [M2 N2] Hc. apply in_zrange in Hc.
  cbn [load mbind FineSafe.safe]. exists P'. split; [apply M2, Hm5|]. intros mo Hmo. destruct (Lm mo Hmo) as (_ & _ & _ & Lc).
  destruct (Lc c ltac:(lia)) as (u & -> & Au). cbn [mlift mbind].
  eapply safe_bind; [apply safe_dot; intros l Hl; apply in_zrange in Hl; [apply Av|apply Au]; lia|]. intros D3 O3 [sum|] _ _ [-> ->]; [|split; assumption].
  cbn [mask_Element mret mbind negb]. eapply safe_bind; [apply (safe_Set _ _ _ R C); [apply M2, Ht5|apply N2, Ot5|lia|lia]|]. intros D4 O4 [] M4 N4 _. cbn [FineSafe.safe].
  split; [eapply more_trans; eauto|]. intros q Hq. apply N4, N2, Hq.
Qed.

(** what dividing needs of its operands: cells *)
Definition celled (n : Z) (p : ptr) (P : mat -> Prop) : Prop := forall m, P m -> forall r c, 0 <= r < n -> 0 <= c < n -> exists v, mat_At m r c = Ok (v, m) /\ (At_writes m = true -> W p).
Lemma celled_dsh n p R C : n <= R -> n <= C -> celled n p (dsh R C).
Proof. intros H1 H2 m (A1 & A2 & A3 & f & ->) r c Hr Hc. exists (f r c). cbn [mat_At]. rewrite dm_At_spec by lia. split; [reflexivity|discriminate]. Qed.

Lemma safe_copy_cell dst src P n r c R C r' c' (D : known) (O : names) : D src = Some P -> celled n src P -> 0 <= r < n -> 0 <= c < n ->
  D dst = Some (dsh R C) -> O dst -> 0 <= r' < R -> 0 <= c' < C -> safe fine D O (copy_cell dst src r c r' c').
Proof.
  intros Hs Cs Hr Hc Hd Od Hr' Hc'. unfold copy_cell. eapply safe_bind with (Q := fine).
  - exists P. split; [exact Hs|]. intros m Hm. destruct (Cs m Hm r c Hr Hc) as (v & E1 & E2). exists v. split; [exact E1|]. split; [exact E2|exact Logic.I].
  - intros D1 O1 v M1 N1 _. apply (safe_Set _ _ _ R C); auto.
Qed.

(** eight quarters *)
Definition quarters (s : Z) (D : known) (bl : blocks) : Prop :=
  D (b_a11 bl) = Some (dsh s s) /\ D (b_a12 bl) = Some (dsh s s) /\ D (b_a21 bl) = Some (dsh s s) /\ D (b_a22 bl) = Some (dsh s s) /\
  D (b_b11 bl) = Some (dsh s s) /\ D (b_b12 bl) = Some (dsh s s) /\ D (b_b21 bl) = Some (dsh s s) /\ D (b_b22 bl) = Some (dsh s s).

Lemma safe_divide E a b P P' s (D : known) (O : names) : 0 <= s -> s * s < 2 ^ 63 -> D a = Some P -> D b = Some P' -> celled (2 * s) a P -> celled (2 * s) b P' ->
  safe (fun D' _ bl => quarters s D' bl) D O (divide E s a b).
Proof.
  intros H0 Hs Ha Hb Ca Cb. unfold divide.
  eapply safe_bind; [apply (safe_new _ _ s s); assumption|]. intros D1 O1 a11 M1 N1 [K1 L1].
  eapply safe_bind; [apply (safe_new _ _ s s); assumption|]. intros D2 O2 a12 M2 N2 [K2 L2].
  eapply safe_bind; [apply (safe_new _ _ s s); assumption|]. intros D3 O3 a21 M3 N3 [K3 L3].
  eapply safe_bind; [apply (safe_new _ _ s s); assumption|]. intros D4 O4 a22 M4 N4 [K4 L4].
  eapply safe_bind; [apply (safe_new _ _ s s); assumption|]. intros D5 O5 b11 M5 N5 [K5 L5].
  eapply safe_bind; [apply (safe_new _ _ s s); assumption|]. intros D6 O6 b12 M6 N6 [K6 L6].
  eapply safe_bind; [apply (safe_new _ _ s s); assumption|]. intros D7 O7 b21 M7 N7 [K7 L7].
  eapply safe_bind; [apply (safe_new _ _ s s); assumption|]. intros D8 O8 b22 M8 N8 [K8 L8].
  apply M1, M2, M3, M4, M5, M6, M7, M8 in Ha. apply M1, M2, M3, M4, M5, M6, M7, M8 in Hb.
  apply M2, M3, M4, M5, M6, M7, M8 in K1. apply M3, M4, M5, M6, M7, M8 in K2. apply M4, M5, M6, M7, M8 in K3. apply M5, M6, M7, M8 in K4. apply M6, M7, M8 in K5. apply M7, M8 in K6. apply M8 in K7.
  apply N2, N3, N4, N5, N6, N7, N8 in L1. apply N3, N4, N5, N6, N7, N8 in L2. apply N4, N5, N6, N7, N8 in L3. apply N5, N6, N7, N8 in L4. apply N6, N7, N8 in L5. apply N7, N8 in L6. apply N8 in L7.
  eapply safe_bind with (Q := fine).
  - apply safe_grid. intros D' O' r c [F1 F2] Hr Hc.
    assert (G : forall dst src P0 r0 c0 D1 O1, D8 src = Some P0 -> celled (2 * s) src P0 -> D8 dst = Some (dsh s s) -> O8 dst -> 0 <= r0 < 2 * s -> 0 <= c0 < 2 * s -> from D8 O8 D1 O1 -> safe fine D1 O1 (copy_cell dst src r0 c0 r c)).
    { intros dst src P0 r0 c0 D9 O9 X1 X2 X3 X4 X5 X6 [Y1 Y2]. apply (safe_copy_cell _ _ P0 (2 * s) _ _ s s); auto. }
    assert (F : from D8 O8 D' O') by (split; assumption).
    eapply safe_bind; [eapply G; try eassumption; lia|]. intros D11 O11 _ X1 Y1 _. pose proof (from_trans _ _ _ _ _ _ F X1 Y1) as F11.
    eapply safe_bind; [eapply G; try eassumption; lia|]. intros D12 O12 _ X2 Y2 _. pose proof (from_trans _ _ _ _ _ _ F11 X2 Y2) as F12.
    eapply safe_bind; [eapply G; try eassumption; lia|]. intros D13 O13 _ X3 Y3 _. pose proof (from_trans _ _ _ _ _ _ F12 X3 Y3) as F13.
    eapply safe_bind; [eapply G; try eassumption; lia|]. intros D14 O14 _ X4 Y4 _. pose proof (from_trans _ _ _ _ _ _ F13 X4 Y4) as F14.
    eapply safe_bind; [eapply G; try eassumption; lia|]. intros D15 O15 _ X5 Y5 _. pose proof (from_trans _ _ _ _ _ _ F14 X5 Y5) as F15.
    eapply safe_bind; [eapply G; try eassumption; lia|]. intros D16 O16 _ X6 Y6 _. pose proof (from_trans _ _ _ _ _ _ F15 X6 Y6) as F16.
    eapply safe_bind; [eapply G; try eassumption; lia|]. intros D17 O17 _ X7 Y7 _. pose proof (from_trans _ _ _ _ _ _ F16 X7 Y7) as F17.
    eapply G; try eassumption; lia.
  - intros D9 O9 [] M9 N9 _. cbn [mret FineSafe.safe]. unfold quarters. cbn [b_a11 b_a12 b_a21 b_a22 b_b11 b_b12 b_b21 b_b22]. repeat split; apply M9; assumption.
Qed.

(** the arguments of a sub-product *)
Definition pair_of (s : Z) : known -> names -> ptr * ptr -> Prop := fun D _ xy => D (fst xy) = Some (dsh s s) /\ D (snd xy) = Some (dsh s s).
Lemma safe_opnd E i bl s (D : known) (O : names) : quarters s D bl -> 0 <= s * s <= Z.of_nat (e_fuel E) -> safe (pair_of s) D O (opnd E i bl).
Proof.
  intros (A1 & A2 & A3 & A4 & B1 & B2 & B3 & B4) Hf. unfold opnd.
  repeat match goal with |- safe _ _ _ (if ?c then _ else _) => destruct c end;
  repeat (eapply safe_bind; [solve [apply (safe_m_Add _ _ _ s s); assumption|apply (safe_m_Subtract _ _ _ s s); assumption]|];
    let M := fresh "M" in intros ? ? ? M ? [? ?];
    repeat match goal with H : _ = Some (dsh s s) |- _ => match type of H with ?d _ = _ => match type of M with more d _ => apply M in H end end end);
  cbn [mret FineSafe.safe]; split; cbn [fst snd]; assumption.
Qed.

(** the products received *)
Definition all_there (r : Z) (D : known) (got : list (Z * ptr)) : Prop :=
  (forall i, List.In i seven -> exists p, List.In (i, p) got) /\ forall i p, List.In (i, p) got -> D p = Some (dsh r r).
Lemma safe_received r i got (D : known) (O : names) : all_there r D got -> List.In i seven ->
  exists p, received (N := N) i got = mret p /\ D p = Some (dsh r r).
Proof.
  intros [H1 H2] Hi. destruct (H1 i Hi) as [p Hp]. clear H1 Hi. induction got as [|[j q] got IH]; [destruct Hp|]. cbn [received].
  destruct (Z.eqb_spec j i) as [->|Ne].
  - exists q. split; [reflexivity|]. apply (H2 i). left. reflexivity.
  - apply IH; [|destruct Hp as [Hp|Hp]; [congruence|exact Hp]]. intros i' p' Hi'. apply (H2 i'). right. exact Hi'.
Qed.

Lemma safe_combine E got r (D : known) (O : names) : all_there r D got -> 0 <= r -> 2 * r * (2 * r) < 2 ^ 63 -> r * r <= Z.of_nat (e_fuel E) ->
  safe (fresh (2 * r) (2 * r)) D O (combine E got).
Proof.
  intros Hg H0 Hb Hf. unfold combine. assert (Hf' : 0 <= r * r <= Z.of_nat (e_fuel E)) by nia.
  destruct (safe_received r 1 got D O Hg ltac:(cbn; tauto)) as (m1 & -> & K1). destruct (safe_received r 2 got D O Hg ltac:(cbn; tauto)) as (m2 & -> & K2).
  destruct (safe_received r 3 got D O Hg ltac:(cbn; tauto)) as (m3 & -> & K3). destruct (safe_received r 4 got D O Hg ltac:(cbn; tauto)) as (m4 & -> & K4).
  destruct (safe_received r 5 got D O Hg ltac:(cbn; tauto)) as (m5 & -> & K5). destruct (safe_received r 6 got D O Hg ltac:(cbn; tauto)) as (m6 & -> & K6).
  destruct (safe_received r 7 got D O Hg ltac:(cbn; tauto)) as (m7 & -> & K7). cbn [mret mbind]. clear Hg.
  do 8 (eapply safe_bind; [solve [apply (safe_m_Add _ _ _ r r); assumption|apply (safe_m_Subtract _ _ _ r r); assumption]|];
    let M := fresh "M" in intros ? ? ? M ? [? ?];
    repeat match goal with H : _ = Some (dsh r r) |- _ => match type of H with ?d _ = _ => match type of M with more d _ => apply M in H end end end; clear M).
  eapply safe_bind; [eapply (safe_Rows _ _ _ _ r); [eassumption|apply dsh_rows]|]. intros D9 O9 ? M9 N9 Eq; unfold gives in Eq; rewrite Eq; clear Eq.
  repeat match goal with H : _ = Some (dsh r r) |- _ => match type of H with ?d _ = _ => match type of M9 with more d _ => apply M9 in H end end end.
  eapply safe_bind; [apply (safe_new _ _ (r * 2) (r * 2)); lia|]. intros D10 O10 t M10 N10 [Kt Lt].
  repeat match goal with H : _ = Some (dsh r r) |- _ => match type of H with ?d _ = _ => match type of M10 with more d _ => apply M10 in H end end end.
  eapply safe_bind; [eapply (safe_Columns _ _ _ _ r); [eassumption|apply dsh_columns]|]. intros D11 O11 ? M11 N11 Eq; unfold gives in Eq; rewrite Eq; clear Eq.
  repeat match goal with H : _ = Some (dsh r r) |- _ => match type of H with ?d _ = _ => match type of M11 with more d _ => apply M11 in H end end end.
  apply M11 in Kt. apply N11 in Lt.
  eapply safe_bind with (Q := fine); [|intros Dz Oz [] Mz Nz _; cbn [mret FineSafe.safe]; replace (2 * r) with (r * 2) by lia; split; [apply Mz; exact Kt|apply Nz; exact Lt]].
  apply safe_grid. intros Dy Oy i j F Hi Hj.
  assert (G : forall src r0 c0 D1 O1, D11 src = Some (dsh r r) -> 0 <= r0 < r * 2 -> 0 <= c0 < r * 2 -> from D11 O11 D1 O1 -> safe fine D1 O1 (copy_cell t src i j r0 c0)).
  { intros src r0 c0 D1 O1 X1 X2 X3 [Y1 Y2]. apply (safe_copy_cell _ _ (dsh r r) r _ _ (r * 2) (r * 2)); auto. apply celled_dsh; lia. }
  eapply safe_bind; [eapply G; try eassumption; lia|]. intros D12 O12 _ X2 Y2 _. pose proof (from_trans _ _ _ _ _ _ F X2 Y2) as F12.
  eapply safe_bind; [eapply G; try eassumption; lia|]. intros D13 O13 _ X3 Y3 _. pose proof (from_trans _ _ _ _ _ _ F12 X3 Y3) as F13.
  eapply safe_bind; [eapply G; try eassumption; lia|]. intros D14 O14 _ X4 Y4 _. pose proof (from_trans _ _ _ _ _ _ F13 X4 Y4) as F14.
  eapply G; try eassumption; lia.
Qed.
End Ops.
End FineSafe.
