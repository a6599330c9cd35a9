(** More operators with matrix types of the caller's: element-wise addition, transposition, Apply, multiplication and comparison. *)
From Coq Require Import String.
From Verif Require Import GoBase Num SparseVec Csr Csc DenseVec DenseMat Mat World Ops Spec Api.
From Verif Require Import BaseProofs MatProofs HeapProofs ReachProofs StoreProofs StoreThms VecProofs OpsProofs OpsThms EwThms OpsProps LoopProofs ApplyMem ApplyMemThms Foreign ForeignThms.
Import ListNotations.

Section ForeignOps.
Context {N : num}.
Notation V := (T N).
Notation mat := (mat N).
Notation ent := (Z * Z * V)%type.
Notation world := (world N).
Notation arg := (arg N).
Implicit Types w : world.
Implicit Types a : arg.

(** ** Element-wise addition *)
Definition add_op (i j : Z) (v x : V) : option V := if neqb v n0 then None else Some v.

Lemma ewa_part E w a t k O R C f h L : sane N -> reachable w -> (a = Lib t /\ L = [] \/ operand E w t a R C f L) -> obj w t O -> denotes O R C h ->
  mask_dims w k R C -> mask_not k t -> forall d0 w1, cells w t O (upto (covers w k) O add_op h d0) w1 ->
  exists w' o, (if negb (a_same a t) then ewa_loopF E a (mask_norm k (mat_Rows O) (mat_Columns O)) t else mret None) w1 = (w', Ok o) /\
    cells w t O (upto (covers w k) O add_op h (d0 ++ reached E w1 L)) w' /\
    (forall more, reached E w1 (L ++ more) = reached E w1 L ++ match o with None => reached E w' more | Some _ => [] end).
Proof.
  intros Hsn Hr Ha Ho Do Hk Hn d0 w1 H1. pose proof (sane_wfw w Hsn Hr) as Hw. pose proof (proj1 Hsn) as Hz. pose proof Do as (OR & OC & _).
  assert (Hmd : mask_dims w k (mat_Rows O) (mat_Columns O)) by (rewrite OR, OC; exact Hk). assert (Hmw : mask_wf w k) by (eapply mask_dims_wf; eauto).
  destruct Ha as [[-> ->]|Ha].
  - cbn [a_same]. rewrite Nat.eqb_refl. cbn [negb]. exists w1, None. rewrite reached_nil, app_nil_r. auto.
  - rewrite (operand_same _ _ _ _ _ _ _ _ Ha). cbn [negb]. unfold ewa_loopF. apply (write_loop E w t a O R C h (covers w k) add_op f L _ Hsn Hr Ha Ho Do); [|exact H1].
    intros d r c v w2 Hin Hb Hc. destruct (neqb v n0) eqn:Ev; cbn [negb].
    { exists w2. split; [reflexivity|]. split; [|reflexivity]. apply body_skip; auto. right. unfold add_op. rewrite Ev. reflexivity. }
    rewrite (mbind_ok _ _ _ _ _ (cells_mask _ _ _ _ _ _ _ _ Hz Hc Hmw Hmd Hn Hb)). destruct (covers w k r c) eqn:Ec; cbn [negb].
    + rewrite mbind_ret. exists w2. split; [reflexivity|]. split; [|reflexivity]. eapply body_skip; eauto.
    + destruct (body_set w t O (covers w k) add_op h d w2 r c v v Hz Ho Hc Hb Ec ltac:(unfold add_op; rewrite Ev; reflexivity)) as (w3 & E3 & Hc3).
      rewrite (mbind_ok _ _ _ _ _ E3). exists w3. split; [reflexivity|exact Hc3].
Qed.

Lemma ewaF E w (s m : arg) k t O R C f g h Ls Lm : sane N -> reachable w ->
  (s = Lib t /\ Ls = [] \/ operand E w t s R C f Ls) -> (m = Lib t /\ Lm = [] \/ operand E w t m R C g Lm) ->
  obj w t O -> not_sparse_vector O -> denotes O R C h -> mask_dims w k R C -> mask_not k t ->
  exists w' O', elementWiseAddF E s m k t w = (w', Ok tt) /\ extends_but t w w' /\ obj w' t O' /\ same_storage O O' /\
    denotes O' R C (fun i j => if covers w k i j then h i j else after O (fun v _ => if neqb v n0 then None else Some v) (shown_at (reached E w (Ls ++ Lm)) i j) (h i j)).
Proof.
  intros Hsn Hr Hs Hm Ho Po Do Hk Hn. pose proof (proj1 Hsn) as Hz. pose proof Do as (OR & OC & _).
  assert (Hmd : mask_dims w k (mat_Rows O) (mat_Columns O)) by (rewrite OR, OC; exact Hk).
  unfold elementWiseAddF. rewrite (mbind_ok _ _ _ _ _ (check_mask_ok _ _ _ _ Ho Hmd)).
  destruct (ewa_part E w s t k O R C f h Ls Hsn Hr Hs Ho Do Hk Hn [] w) as (w1 & o & E1 & Hc1 & M1); [eapply upto_start; eauto|]. cbn [app] in Hc1.
  rewrite (mbind_ok _ _ _ _ _ E1). rewrite (M1 Lm). destruct o as [[]|].
  - rewrite app_nil_r. destruct (cells_done _ _ _ _ _ R C Hz Ho OR OC Hc1) as (O' & H). exists w1, O'. split; [reflexivity|exact H].
  - destruct (ewa_part E w m t k O R C g h Lm Hsn Hr Hm Ho Do Hk Hn _ w1 Hc1) as (w2 & o & E2 & Hc2 & _). rewrite (mbind_ok _ _ _ _ _ E2).
    destruct (cells_done _ _ _ _ _ R C Hz Ho OR OC Hc2) as (O' & H). exists w2, O'. split; [reflexivity|exact H].
Qed.

(** ** Transposition and Apply *)
Definition flip (e : ent) : ent := (snd (fst e), fst (fst e), snd e).
Lemma shown_at_flip (L : list ent) i j : shown_at (map flip L) i j = shown_at L j i.
Proof.
  unfold shown_at. induction L as [|[[r c] v] L IH]; [reflexivity|]. cbn [map filter flip fst snd]. rewrite andb_comm. destruct ((r =? j) && (c =? i)); cbn [map snd]; rewrite IH; reflexivity.
Qed.
Lemma mirrored E w a k t O R C f h L (u : V -> V) : sane N -> reachable w -> operand E w t a R C f L -> obj w t O -> not_sparse_vector O -> denotes O C R h ->
  mask_dims w k C R -> mask_not k t -> (R = C \/ forall p, k <> MObj p) ->
  exists w' o O', a_enumerate E a tt (fun r c value =>
      let! e := mask_Element (mask_norm k (mat_Rows O) (mat_Columns O)) r c in
      (if negb e then p_Set t c r (u value) else mret tt) ;!; mret None) w = (w', Ok o) /\ extends_but t w w' /\ obj w' t O' /\ same_storage O O' /\
    denotes O' C R (fun i j => if covers w k j i then h i j else after O (fun v _ => Some (u v)) (shown_at (reached E w L) j i) (h i j)).
Proof.
  intros Hsn Hr Ha Ho Po Do Hk Hn Hsq. pose proof (sane_wfw w Hsn Hr) as Hw. pose proof (proj1 Hsn) as Hz. pose proof Do as (OR & OC & _).
  assert (Hmd : mask_dims w k (mat_Rows O) (mat_Columns O)) by (rewrite OR, OC; exact Hk). assert (Hmw : mask_wf w k) by (eapply mask_dims_wf; eauto).
  destruct (operand_lists _ _ _ _ _ _ _ _ Hz Hw Ha) as [Hl Hin]. set (cov := fun i j => covers w k j i). set (op := fun (i j : Z) (v x : V) => Some (u v)).
  destruct (a_steps E w t tt (fun r c value =>
      let! e := mask_Element (mask_norm k (mat_Rows O) (mat_Columns O)) r c in
      (if negb e then p_Set t c r (u value) else mret tt) ;!; mret None) (fun d w1 => cells w t O (upto cov O op h (map flip d)) w1) L) with (a := a) (w1 := w) as (w' & o & He & Hc & _); auto.
  - intros d w2 w3. apply cells_heap.
  - intros d w2. apply cells_only.
  - intros d r c v rest w1 HL Hc. assert (Hi : In (r, c, v) L) by (rewrite HL; apply in_or_app; right; left; reflexivity). destruct (Hin _ _ _ Hi) as [B1 B2].
    assert (Hb : inb O c r) by (unfold inb; lia). rewrite map_app. cbn [map flip fst snd].
    assert (Em : mask_Element (mask_norm k (mat_Rows O) (mat_Columns O)) r c w1 = (w1, Ok (covers w k r c))).
    { destruct Hsq as [Hsq|Hno]; [|apply mask_total; auto]. apply (cells_mask _ _ _ _ _ _ _ _ Hz Hc Hmw Hmd Hn). unfold inb; lia. }
    rewrite (mbind_ok _ _ _ _ _ Em). destruct (covers w k r c) eqn:Ec; cbn [negb].
    + rewrite mbind_ret. exists w1. split; [reflexivity|]. split; [|reflexivity]. apply body_skip; auto.
    + destruct (body_set w t O cov op h (map flip d) w1 c r v (u v) Hz Ho Hc Hb Ec eq_refl) as (w2 & E2 & Hc2). change (flip (r, c, v)) with (c, r, v). 
      rewrite (mbind_ok _ _ _ _ _ E2). exists w2. split; [reflexivity|exact Hc2].
  - cbn [map]. eapply upto_start; eauto.
  - destruct (cells_done _ _ _ _ _ C R Hz Ho OR OC Hc) as (O' & H1 & H2 & H3 & H4). exists w', o, O'. split; [exact He|]. do 3 (split; [auto|]).
    eapply denotes_ext; [|exact H4]. intros i j _ _. unfold upto. rewrite shown_at_flip. reflexivity.
Qed.
Lemma transposeF E w a k t O R C f h L : sane N -> reachable w -> operand E w t a R C f L -> obj w t O -> not_sparse_vector O -> denotes O C R h ->
  mask_dims w k C R -> mask_not k t -> (R = C \/ forall p, k <> MObj p) ->
  exists w' O', TransposeF E a k t w = (w', Ok tt) /\ extends_but t w w' /\ obj w' t O' /\ same_storage O O' /\
    denotes O' C R (fun i j => if covers w k j i then h i j else after O (fun v _ => Some v) (shown_at (reached E w L) j i) (h i j)).
Proof.
  intros Hsn Hr Ha Ho Po Do Hk Hn Hsq. pose proof Do as (OR & OC & _).
  assert (Hmd : mask_dims w k (mat_Rows O) (mat_Columns O)) by (rewrite OR, OC; exact Hk).
  destruct (mirrored E w a k t O R C f h L (fun v => v) Hsn Hr Ha Ho Po Do Hk Hn Hsq) as (w' & o & O' & He & H). exists w', O'. split; [|exact H].
  unfold TransposeF. rewrite (mbind_ok _ _ _ _ _ (check_mask_ok _ _ _ _ Ho Hmd)), (mbind_ok _ _ _ _ _ He). reflexivity.
Qed.
Lemma applyF E w x k u t O R C f h L : sane N -> reachable w -> presents E w (Own x) R C f L -> obj w t O -> not_sparse_vector O -> denotes O C R h ->
  mask_dims w k C R -> mask_not k t -> (R = C \/ forall p, k <> MObj p) ->
  exists w' O', ApplyF E x k u t w = (w', Ok tt) /\ extends_but t w w' /\ obj w' t O' /\ same_storage O O' /\
    denotes O' C R (fun i j => if covers w k j i then h i j else after O (fun v _ => Some (u v)) (shown_at (reached E w L) j i) (h i j)).
Proof.
  intros Hsn Hr Ha Ho Po Do Hk Hn Hsq. pose proof Do as (OR & OC & _).
  assert (Hmd : mask_dims w k (mat_Rows O) (mat_Columns O)) by (rewrite OR, OC; exact Hk).
  assert (Hop : operand E w t (Own x) R C f L) by (split; [discriminate|exact Ha]).
  destruct (mirrored E w (Own x) k t O R C f h L u Hsn Hr Hop Ho Po Do Hk Hn Hsq) as (w' & o & O' & He & H). exists w', O'. split; [|exact H].
  unfold ApplyF. rewrite (mbind_ok _ _ _ _ _ (check_mask_ok _ _ _ _ Ho Hmd)), (mbind_ok _ _ _ _ _ He). reflexivity.
Qed.

(** ** Comparison *)
Lemma compare_loop E w (other : Z -> Z -> V) body :
  forall L w1, w_heap w1 = w_heap w -> (forall r c v w1, In (r, c, v) L -> w_heap w1 = w_heap w -> body r c v w1 = (w1, Ok (if neqb v (other r c) then None else Some false))) ->
  exists w', own_loop E L false body w1 = (w', Ok (if forallb (fun e => neqb (snd e) (other (fst (fst e)) (snd (fst e)))) (reached E w1 L) && Nat.eqb (length (reached E w1 L)) (length L) then None else Some false))
    /\ w_heap w' = w_heap w.
Proof.
  induction L as [|[[r c] v] L IH]; intros w1 Hh Hb; cbn [own_loop].
  - exists w1. rewrite reached_nil. auto.
  - destruct (poll_heap E w1) as (w2 & b & Hp & Hw2 & _). rewrite (mbind_ok _ _ _ _ _ Hp). destruct b.
    + rewrite (reached_stop _ _ _ _ Hp). exists w2. split; [reflexivity|congruence].
    + rewrite (reached_go _ _ _ _ _ Hp). assert (H2 : w_heap w2 = w_heap w) by congruence.
      rewrite (mbind_ok _ _ _ _ _ (Hb r c v w2 (or_introl eq_refl) H2)). cbn [forallb fst snd length Nat.eqb]. destruct (neqb v (other r c)); cbn [andb].
      * apply IH; auto. intros; apply Hb; auto. right; assumption.
      * exists w2. auto.
Qed.
Lemma enum_compare E w p m (body : Z -> Z -> V -> M N (option bool)) : obj w p m ->
  (forall r c v w1, In (r, c, v) (entries m) -> w_heap w1 = w_heap w -> exists o, body r c v w1 = (w1, Ok o)) ->
  forall rest it d fuel, it_rel m it d rest -> (length rest <= fuel)%nat -> forall w1, w_heap w1 = w_heap w ->
  enum_loop E fuel p it false body w1 = own_loop E rest false body w1.
Proof.
  intros Hm Hb. induction rest as [|[[r c] v] rest IH]; intros it d fuel Hit Hf w1 Hh.
  - destruct fuel; cbn [enum_loop own_loop]; rewrite (it_rel_HasNext _ _ _ _ Hit); reflexivity.
  - destruct fuel as [|fuel]; [simpl in Hf; lia|]. cbn [enum_loop own_loop]. rewrite (it_rel_HasNext _ _ _ _ Hit).
    destruct (poll_heap E w1) as (w2 & b & Hp & Hw2 & _). rewrite !(mbind_ok _ _ _ _ _ Hp). destruct b; [reflexivity|].
    assert (H2 : w_heap w2 = w_heap w) by congruence. assert (Hm2 : obj w2 p m) by (unfold obj; rewrite H2; exact Hm).
    rewrite (mbind_ok _ _ _ _ _ (load_ok _ _ _ Hm2)). destruct (it_rel_step _ _ _ _ _ _ _ Hit) as (it' & Hx & Hcu & Hr & _).
    assert (En : mat_Next m it = Ok ((r, c, v), it')) by (unfold mat_Next; rewrite Hx; cbn [rbind]; rewrite Hcu; reflexivity).
    rewrite En, mbind_lift. cbv iota beta.
    assert (Hin : In (r, c, v) (entries m)) by (rewrite (it_rel_entries _ _ _ _ Hit); apply in_or_app; right; left; reflexivity).
    destruct (Hb r c v w2 Hin H2) as [o Eb]. rewrite !(mbind_ok _ _ _ _ _ Eb). destruct o; [reflexivity|]. apply (IH it' _ fuel Hr); [simpl in Hf; lia|exact H2].
Qed.

Lemma says_Values w a n : says w a n -> a_Values a w = (w, Ok n).
Proof. destruct a as [p|o]; cbn [says a_Values]; [intros (m & Hm & <-); apply p_Values_ok; exact Hm|intros <-; reflexivity]. Qed.

Lemma equalF E w (s m : arg) R C R' C' f g Ls Lm b b' n n' : sane N -> reachable w -> presents E w s R C f Ls -> presents E w m R' C' g Lm ->
  registered E w s b -> registered E w m b' -> says w s n -> says w m n' ->
  let L := if b : bool then Ls else Lm in let other := if b then g else f in
  exists w', EqualF E s m w = (w', Ok ((C =? C') && (R =? R') && (negb (Bool.eqb b b') || (n =? n')) &&
      forallb (fun e => neqb (snd e) (other (fst (fst e)) (snd (fst e)))) (reached E w L) && Nat.eqb (length (reached E w L)) (length L))) /\ w_heap w' = w_heap w.
Proof.
  intros Hsn Hr Hs Hm Rs Rm Cs Cm L other. pose proof (sane_wfw w Hsn Hr) as Hw. pose proof (proj1 Hsn) as Hz.
  pose proof (present_t _ _ _ _ _ _ _ Hs) as Os. pose proof (present_t _ _ _ _ _ _ _ Hm) as Om. pose proof (only_refl w (length (w_heap w))) as Hon.
  unfold EqualF. rewrite (mbind_ok _ _ _ _ _ (operand_Columns _ _ _ _ _ _ _ _ _ Os Hon)), (mbind_ok _ _ _ _ _ (operand_Columns _ _ _ _ _ _ _ _ _ Om Hon)).
  destruct (C =? C') eqn:EC; cbn [negb andb]; [|exists w; auto].
  rewrite (mbind_ok _ _ _ _ _ (operand_Rows _ _ _ _ _ _ _ _ _ Os Hon)), (mbind_ok _ _ _ _ _ (operand_Rows _ _ _ _ _ _ _ _ _ Om Hon)).
  destruct (R =? R') eqn:ER; cbn [negb andb]; [|exists w; auto].
  apply Z.eqb_eq in EC, ER. subst R' C'.
  rewrite (mbind_ok _ _ _ _ _ (registered_IsSparse _ _ _ _ Rs)), (mbind_ok _ _ _ _ _ (registered_IsSparse _ _ _ _ Rm)), (mbind_ok _ _ _ _ _ (says_Values _ _ _ Cs)), (mbind_ok _ _ _ _ _ (says_Values _ _ _ Cm)).
  replace (b && b' || negb b && negb b') with (Bool.eqb b b') by (destruct b, b'; reflexivity).
  replace (negb (Bool.eqb b b') || (n =? n')) with (negb (Bool.eqb b b' && negb (n =? n'))) by (destruct (Bool.eqb b b'), (n =? n'); reflexivity).
  destruct (Bool.eqb b b' && negb (n =? n')); cbn [negb andb]; [exists w; auto|].
  set (src := if b then s else m). set (matrix := if b then m else s).
  replace (if b then (s, m) else (m, s)) with (src, matrix) by (destruct b; reflexivity). cbv iota beta.
  set (t := length (w_heap w)) in *.
  assert (Hsrc : exists f1, operand E w t src R C f1 L) by (unfold src, L; destruct b; eauto). destruct Hsrc as [f1 Hsrc].
  assert (Hoth : exists L1, operand E w t matrix R C other L1) by (unfold matrix, other; destruct b; eauto). destruct Hoth as [L1 Hoth].
  destruct (operand_lists _ _ _ _ _ _ _ _ Hz Hw Hsrc) as [Hl Hin].
  set (body := fun r c v => let! mV := a_At matrix r c in if negb (neqb v mV) then mret (Some false) else mret None).
  assert (Hb : forall r c v w1, In (r, c, v) L -> w_heap w1 = w_heap w -> body r c v w1 = (w1, Ok (if neqb v (other r c) then None else Some false))).
  { intros r c v w1 Hi Hh. destruct (Hin _ _ _ Hi) as [B1 B2]. unfold body.
    assert (Ho1 : only w t w1) by (intros p x _ Hp; unfold obj; rewrite Hh; exact Hp).
    rewrite (mbind_ok _ _ _ _ _ (operand_At _ _ _ _ _ _ _ _ _ _ _ Hz Hw Hoth Ho1 B1 B2)). destruct (neqb v (other r c)); reflexivity. }
  destruct (compare_loop E w other body L w eq_refl Hb) as (w' & El & Hh').
  assert (Hen : a_enumerate E src false body w = own_loop E L false body w).
  { clear - Hl Hb. destruct src as [p|o]; cbn [a_enumerate lists] in *; [|rewrite Hl; reflexivity]. destruct Hl as (_ & x & Hx & Wx & He & Hf). unfold enumerate. rewrite (mbind_ok _ _ _ _ _ (load_ok _ _ _ Hx)).
    rewrite <- He in *. apply (enum_compare E w p x body Hx) with (d := []); auto.
    - intros r c v w1 Hi Hh. eexists. apply Hb; auto.
    - apply entries_rel. exact Wx.
    - pose proof (zlen_entries x Wx) as Hz. unfold zlen in Hz. lia. }
  rewrite (mbind_ok _ _ _ _ _ (eq_trans Hen El)). exists w'. split; [|exact Hh'].
  destruct (forallb _ _ && _); reflexivity.
Qed.

(** ** Multiplication *)
Lemma St_only w t O act val L w1 : St w t O act val L w1 -> only w t w1.
Proof. intros H p m Hn Hp. eapply St_other; eauto. Qed.
Lemma rows_size w t a R K n fr w1 : rows_show w t a R K n fr -> only w t w1 -> a_Rows a w1 = (w1, Ok R) /\ a_Columns a w1 = (w1, Ok K).
Proof.
  destruct a as [p|o]; cbn [rows_show a_Rows a_Columns].
  - intros (Hn & m & Hm & <- & <- & _) Ho. split; [apply p_Rows_ok|apply p_Columns_ok]; auto.
  - intros (<- & <- & _) _. auto.
Qed.
Lemma columns_size w t a K C n gc w1 : columns_show w t a K C n gc -> only w t w1 -> a_Rows a w1 = (w1, Ok K) /\ a_Columns a w1 = (w1, Ok C).
Proof.
  destruct a as [p|o]; cbn [columns_show a_Rows a_Columns].
  - intros (Hn & m & Hm & <- & <- & _) Ho. split; [apply p_Rows_ok|apply p_Columns_ok]; auto.
  - intros (<- & <- & _) _. auto.
Qed.
Lemma rows_run w t a R K n fr w1 r : rows_show w t a R K n fr -> only w t w1 -> 0 <= r < R ->
  exists v, a_RowsAt a r w1 = (w1, Ok v) /\ vec_Length v = n /\ forall l, 0 <= l < n -> vec_AtVec v l = Ok (fr r l).
Proof.
  destruct a as [p|o]; cbn [rows_show a_RowsAt].
  - intros (Hn & m & Hm & _ & _ & H) Ho Hr. destruct (H r Hr) as (v & Ev & Hl & Hv). exists (vec_of v). split; [|split; [exact Hl|exact Hv]].
    rewrite (mbind_ok _ _ _ _ _ (load_ok _ _ _ (Ho _ _ Hn Hm))), Ev, mbind_lift. reflexivity.
  - intros (_ & _ & H) _ Hr. destruct (H r Hr) as (v & Ev & Hl & Hv). exists v. rewrite Ev. auto.
Qed.
Lemma columns_run w t a K C n gc w1 c : columns_show w t a K C n gc -> only w t w1 -> 0 <= c < C ->
  exists v, a_ColumnsAt a c w1 = (w1, Ok v) /\ forall l, 0 <= l < n -> vec_AtVec v l = Ok (gc c l).
Proof.
  destruct a as [p|o]; cbn [columns_show a_ColumnsAt].
  - intros (Hn & m & Hm & _ & _ & H) Ho Hc. destruct (H c Hc) as (v & Ev & Hv). exists (vec_of v). split; [|exact Hv].
    rewrite (mbind_ok _ _ _ _ _ (load_ok _ _ _ (Ho _ _ Hn Hm))), Ev, mbind_lift. reflexivity.
  - intros (_ & _ & H) _ Hc. destruct (H c Hc) as (v & Ev & Hv). exists v. rewrite Ev. auto.
Qed.
Lemma a_dot_run E (rv cv : vec N) (a b : Z -> V) : forall ls acc w,
  (forall l, In l ls -> vec_AtVec rv l = Ok (a l) /\ vec_AtVec cv l = Ok (b l)) ->
  exists w' o, a_dot E rv cv ls acc w = (w', Ok o) /\ w_heap w' = w_heap w /\
    ((o = Some (fold_left (fun s l => nadd s (nmul (a l) (b l))) ls acc) /\
        forall w0 c, running E w0 w c -> running E w0 w' (c + length ls)) \/
     (o = None /\ e_ctx E <> None /\ forall n A w0 c (d rest : list A), running E w0 w c -> rest <> [] ->
        (n * length d <= c /\ c + length ls <= n * Datatypes.S (length d))%nat -> until_done n E w0 w' d rest)).
Proof.
  induction ls as [|l ls IH]; intros acc w H; cbn [a_dot fold_left].
  - exists w, (Some acc). split; [reflexivity|]. split; [reflexivity|]. left. split; [reflexivity|]. intros w0 c H0. cbn [length]. rewrite Nat.add_0_r. exact H0.
  - destruct (poll_heap E w) as (w1 & x & Hp & Hh & Hbg). rewrite (mbind_ok _ _ _ _ _ Hp). destruct x.
    + exists w1, None. split; [reflexivity|]. split; [exact Hh|]. right. split; [reflexivity|].
      split; [intros Hn; destruct (Hbg Hn); discriminate|]. intros n A w0 c d rest H0 Hr Hc.
      eapply running_stop; [exact H0|exact Hp|exact Hr|cbn [length] in Hc; lia].
    + destruct (H l (or_introl eq_refl)) as [Ha Hb]. rewrite Hb, mbind_lift, Ha, mbind_lift.
      destruct (IH (nadd acc (nmul (a l) (b l))) w1 ltac:(intros; apply H; right; auto)) as (w' & o & H1 & H2 & H3).
      exists w', o. split; [exact H1|]. split; [congruence|]. cbn [length]. destruct H3 as [[H3 H4]|(H3 & H4 & H5)]; [left|right].
      * split; [exact H3|]. intros w0 c H0. replace (c + Datatypes.S (length ls))%nat with (Datatypes.S c + length ls)%nat by lia.
        apply H4. eapply running_go; [exact H0|exact Hp].
      * split; [exact H3|]. split; [exact H4|]. intros n A w0 c d rest H0 Hr Hc.
        apply (H5 n A w0 (Datatypes.S c)); [eapply running_go; [exact H0|exact Hp]|exact Hr|lia].
Qed.

Lemma multiplyF_ok E w (s m : arg) k t O R K C n h (fr gc : Z -> Z -> V) :
  sane N -> reachable w -> rows_show w t s R K n fr -> columns_show w t m K C n gc ->
  obj w t O -> not_sparse_vector O -> denotes O R C h -> mask_dims w k R C ->
  exists w' O' L rest, multiplyF E s m k t w = (w', Ok tt) /\ extends_but t w w' /\ obj w' t O' /\ same_storage O O' /\
    positions R C = L ++ rest /\ until_done (Z.to_nat n) E w w' L rest /\
    denotes O' R C (fun i j => if visited L i j && negb (covers w k i j)
       then kept O (sum_from n0 (fun l => nmul (fr i l) (gc j l)) 0 n) else h i j).
Proof.
  intros Hsn Hrw Hs Hm Ho Po Do Hk. pose proof (sane_wfw w Hsn Hrw) as Hw. pose proof (proj1 Hsn) as Hz.
  pose proof Do as (OR & OC & _).
  assert (Go : good O) by (eapply plain_is_good; eauto).
  assert (Hmd : mask_dims w k (mat_Rows O) (mat_Columns O)) by (rewrite OR, OC; exact Hk).
  assert (Hmw : mask_wf w k) by (eapply mask_dims_wf; eauto).
  set (act := fun i j => negb (covers w k i j)).
  set (val := fun i j (_ : V) => sum_from n0 (fun l => nmul (fr i l) (gc j l)) 0 n).
  set (rowpos := fun r : Z => map (fun c => (r, c)) (zrange 0 C)).
  assert (Hbody : exists w' o, for_list (R := unit) (zrange 0 R) (fun r =>
      let! rows := a_RowsAt s r in
      for_list (zrange 0 C) (fun c =>
        let! column := a_ColumnsAt m c in
        let! o := a_dot E rows column (zrange 0 (vec_Length rows)) n0 in
        match o with
        | None => mret (Some tt)
        | Some sum =>
            let! e := mask_Element (mask_norm k (mat_Rows O) (mat_Columns O)) r c in
            (if negb e then p_Set t r c sum else mret tt) ;!;
            mret None
        end)) w = (w', Ok o) /\
      exists L rest, positions R C = L ++ rest /\ until_done (Z.to_nat n) E w w' L rest /\ St w t O act val L w').
  { destruct (for_list_inv (R := unit) (zrange 0 R) (fun r =>
      let! rows := a_RowsAt s r in
      for_list (zrange 0 C) (fun c =>
        let! column := a_ColumnsAt m c in
        let! o := a_dot E rows column (zrange 0 (vec_Length rows)) n0 in
        match o with
        | None => mret (Some tt)
        | Some sum =>
            let! e := mask_Element (mask_norm k (mat_Rows O) (mat_Columns O)) r c in
            (if negb e then p_Set t r c sum else mret tt) ;!;
            mret None
        end))
      (fun d w1 => St w t O act val (flat_map rowpos d) w1 /\ running E w w1 (Z.to_nat n * length (flat_map rowpos d)))
      (fun d r (_ : unit) w1 => exists L rest, positions R C = L ++ rest /\ until_done (Z.to_nat n) E w w1 L rest /\ St w t O act val L w1))
      with (w := w) as (w' & o & Hrun & Hend).
    - intros d r rest w1 El [HSt Hru].
      assert (Hr : 0 <= r < R).
      { apply in_zrange. rewrite El. apply in_or_app. right; left; auto. }
      assert (Hrd : ~ In r d) by (eapply zrange_split_notin; eauto).
      destruct (rows_run w t s R K n fr w1 r Hs (St_only _ _ _ _ _ _ _ HSt) Hr) as (rv & Erv & Hlen & Hat). rewrite (mbind_ok _ _ _ _ _ Erv).
      destruct (for_list_inv (R := unit) (zrange 0 C) (fun c =>
        let! column := a_ColumnsAt m c in
        let! o := a_dot E rv column (zrange 0 (vec_Length rv)) n0 in
        match o with
        | None => mret (Some tt)
        | Some sum =>
            let! e := mask_Element (mask_norm k (mat_Rows O) (mat_Columns O)) r c in
            (if negb e then p_Set t r c sum else mret tt) ;!;
            mret None
        end)
        (fun d' w1 => St w t O act val (flat_map rowpos d ++ map (fun c => (r, c)) d') w1 /\
           running E w w1 (Z.to_nat n * length (flat_map rowpos d ++ map (fun c => (r, c)) d')))
        (fun d' c (_ : unit) w1 => (forall rest : list (Z * Z), rest <> [] ->
             until_done (Z.to_nat n) E w w1 (flat_map rowpos d ++ map (fun c => (r, c)) d') rest) /\ St w t O act val (flat_map rowpos d ++ map (fun c => (r, c)) d') w1))
        with (w := w1) as (w2 & o & Hrun & Hend).
      + intros d' c rest' w2 El' [HSt2 Hru2].
        assert (Hc : 0 <= c < C).
        { apply in_zrange. rewrite El'. apply in_or_app. right; left; auto. }
        assert (Hcd : ~ In c d') by (eapply zrange_split_notin; eauto).
        destruct (columns_run w t m K C n gc w2 c Hm (St_only _ _ _ _ _ _ _ HSt2) Hc) as (cv & Ecv & Hatc). rewrite (mbind_ok _ _ _ _ _ Ecv).
        destruct (a_dot_run E rv cv (fr r) (gc c) (zrange 0 (vec_Length rv)) n0 w2) as (w3 & o & Hdot & Hh & Ho3).
        { intros l Hl. apply in_zrange in Hl. rewrite Hlen in Hl. split; [apply Hat|apply Hatc]; lia. }
        rewrite (mbind_ok _ _ _ _ _ Hdot). pose proof (St_heap _ _ _ _ _ _ _ w3 HSt2 Hh) as HSt3.
        assert (Hll : length (zrange 0 (vec_Length rv)) = Z.to_nat n).
        { rewrite Hlen, zrange_length, Z.sub_0_r. reflexivity. }
        rewrite Hll in Ho3.
        destruct Ho3 as [[-> Hru3] | (-> & _ & Hcx)].
        * rewrite Hlen.
          destruct (masked_set w t O val k (flat_map rowpos d ++ map (fun c => (r, c)) d') w3 r c
             (fold_left (fun s l => nadd s (nmul (fr r l) (gc c l))) (zrange 0 n) n0) Hz Ho Go Hmw Hmd HSt3) as (w4 & E4 & HSt4 & Hp4).
          -- unfold inb. lia.
          -- apply visited_notin. intros Hin. apply in_app_or in Hin as [Hin|Hin].
             ++ apply Hrd. apply visited_in in Hin. eapply visited_rows; eauto.
             ++ apply in_map_iff in Hin as (c' & Ec & Hin). injection Ec as ->. contradiction.
          -- reflexivity.
          -- eexists _, _. split; [exact E4|]. rewrite map_app, app_assoc. split; [exact HSt4|].
             eapply running_polls; [|exact Hp4]. rewrite (app_length _ (map _ [c])). cbn [map length].
             rewrite Nat.mul_add_distr_l, Nat.mul_1_r. apply Hru3. exact Hru2.
        * eexists _, _. split; [reflexivity|]. split; [|exact HSt3]. intros rest0 Hne.
          apply (Hcx (Z.to_nat n) _ w _ _ rest0 Hru2 Hne). lia.
      + rewrite app_nil_r. split; [exact HSt|exact Hru].
      + exists w2, o. split; [exact Hrun|]. destruct Hend as [[-> HS2]|(d' & c & r' & x & -> & El' & Hcx & HS2)].
        * rewrite flat_map_app. cbn [flat_map]. rewrite app_nil_r. exact HS2.
        * exists (flat_map rowpos d ++ map (fun c => (r, c)) d'), (map (fun c => (r, c)) (c :: r') ++ flat_map rowpos rest).
          split; [|split; [apply Hcx; discriminate|exact HS2]]. unfold positions. fold rowpos. rewrite El, flat_map_app. cbn [flat_map].
          replace (rowpos r) with (map (fun c => (r, c)) d' ++ map (fun c => (r, c)) (c :: r'))
            by (unfold rowpos; rewrite El', map_app; reflexivity).
          rewrite <- !app_assoc. reflexivity.
    - cbn [flat_map]. split; [apply St_start; auto|]. cbn [length]. rewrite Nat.mul_0_r. apply running_start.
    - exists w', o. split; [exact Hrun|]. destruct Hend as [[-> [HS Hru]]|(d & r & r' & x & -> & _ & L & rest & HL & Hcx & HS)].
      + exists (positions R C), []. rewrite app_nil_r. split; [reflexivity|]. split; [apply running_end; exact Hru|exact HS].
      + exists L, rest. split; [exact HL|]. split; [exact Hcx|exact HS]. }
  destruct Hbody as (w' & o & Hrun & L & rest & HL & Hrest & HSt).
  destruct (St_denotes _ _ _ _ _ _ _ _ _ _ Hz Ho Do HSt) as (O1 & Hext & Ho1 & Hs1 & Hw1 & Hd1).
  exists w', O1, L, rest. split.
  { pose proof (only_refl w t) as Hon. destruct (rows_size w t s R K n fr w Hs Hon) as [Er Ek]. destruct (columns_size w t m K C n gc w Hm Hon) as [Ek' Ec].
    unfold multiplyF. rewrite (mbind_ok _ _ _ _ _ Ek'), (mbind_ok _ _ _ _ _ Ek). 
    rewrite Z.eqb_refl. cbn [negb]. rewrite (mbind_ok _ _ _ _ _ (check_mask_ok _ _ _ _ Ho Hmd)).
    rewrite (mbind_ok _ _ _ _ _ Er), (mbind_ok _ _ _ _ _ Ec), (mbind_ok _ _ _ _ _ Hrun). reflexivity. }
  do 2 (split; [auto|]). split; [apply storage_of; exact Hs1|]. split; [exact HL|]. split; [exact Hrest|]. exact Hd1.
Qed.

(** ** Honest types *)
Lemma shown_at_none (L : list ent) i j : ~ In (i, j) (map fst L) -> shown_at L i j = [].
Proof.
  unfold shown_at. induction L as [|[[r c] v] L IH]; [reflexivity|]. cbn [map fst filter snd]. intros H.
  destruct ((r =? i) && (c =? j)) eqn:Eq; [|apply IH; intros X; apply H; right; exact X].
  exfalso. apply H. left. apply andb_prop in Eq as [H1 H2]. apply Z.eqb_eq in H1, H2. subst. reflexivity.
Qed.
Lemma shown_at_honest f (L : list ent) i j : honest f L -> shown_at L i j = if visited (map fst L) i j then [f i j] else [].
Proof.
  intros [Hn Hf]. destruct (visited (map fst L) i j) eqn:Ev.
  - apply visited_in in Ev. unfold shown_at. induction L as [|[[r c] v] L IH]; [destruct Ev|]. cbn [map fst snd filter] in *. inversion Hn; subst.
    destruct ((r =? i) && (c =? j)) eqn:Eq.
    + apply andb_prop in Eq as [H3 H4]. apply Z.eqb_eq in H3, H4. subst. cbn [map snd]. f_equal; [apply Hf; left; reflexivity|]. apply shown_at_none. assumption.
    + destruct Ev as [Ev|Ev]; [injection Ev as -> ->; rewrite !Z.eqb_refl in Eq; discriminate|]. apply IH; auto. intros; apply Hf; right; assumption.
  - apply visited_notin in Ev. apply shown_at_none. exact Ev.
Qed.
Lemma after_honest (O : mat) op f (L : list ent) i j x : honest f L ->
  after O op (shown_at L i j) x = if visited (map fst L) i j then match op (f i j) x with Some y => kept O y | None => x end else x.
Proof. intros H. rewrite (shown_at_honest _ _ _ _ H). destruct (visited _ _ _); reflexivity. Qed.
Lemma honest_reached E w f (L : list ent) : honest f L -> honest f (reached E w L).
Proof.
  intros [Hn Hf]. unfold reached. destruct (e_ctx E) as [n|]; [|split; assumption]. rewrite <- (firstn_skipn (n - w_polls w) L) in Hn, Hf. split.
  - rewrite map_app in Hn. revert Hn. generalize (map fst (firstn (n - w_polls w) L)), (map fst (skipn (n - w_polls w) L)). intros l1 l2. induction l1 as [|x l1 IH]; intros Hn; [constructor|]. inversion Hn; subst. constructor; [intros X; apply H1; apply in_or_app; left; exact X|apply IH; assumption].
  - intros r c v Hi. apply Hf. apply in_or_app. left. exact Hi.
Qed.

(** addition of two matrices of the caller's own, each showing some places, honestly, in the background *)
Lemma add_honest E w (s m : arg) k t O R C f g h Ls Lm b : sane N -> reachable w -> operand E w t s R C f Ls -> operand E w t m R C g Lm -> registered E w s b ->
  honest f Ls -> honest g Lm -> obj w t O -> not_sparse_vector O -> denotes O R C h -> mask_dims w k R C -> mask_not k t -> e_ctx E = None ->
  exists w' O', AddF E s m k t w = (w', Ok tt) /\ extends_but t w w' /\ obj w' t O' /\ same_storage O O' /\
    denotes O' R C (fun i j => if visited (map fst (if b : bool then Ls else Lm)) i j && negb (covers w k i j)
      then kept O (if b then nadd (g i j) (f i j) else nadd (f i j) (g i j)) else h i j).
Proof.
  intros Hsn Hr Hs Hm Hreg Hf Hg Ho Po Do Hk Hn Hc. destruct (addF E w s m k t O R C f g h Ls Lm b Hsn Hr Hs Hm Hreg Ho Po Do Hk Hn) as (w' & O' & H1 & H2 & H3 & H4 & H5).
  exists w', O'. do 4 (split; [auto|]). eapply denotes_ext; [|exact H5]. intros i j _ _. cbv beta. unfold reached. rewrite Hc.
  assert (Hh : honest (if b then f else g) (if b then Ls else Lm)) by (destruct b; assumption).
  rewrite (after_honest O _ _ _ i j (h i j) Hh). destruct (covers w k i j), (visited _ i j), b; reflexivity.
Qed.
Lemma subtract_honest E w (s m : arg) k t O R C f g h Ls Lm : sane N -> reachable w -> operand E w t s R C f Ls -> presents E w m R C g Lm -> honest f Ls ->
  obj w t O -> not_sparse_vector O -> denotes O R C h -> mask_dims w k R C -> mask_not k t -> e_ctx E = None ->
  exists w' O', SubtractF E s m k t w = (w', Ok tt) /\ extends_but t w w' /\ obj w' t O' /\ same_storage O O' /\
    denotes O' R C (fun i j => if visited (map fst Ls) i j && negb (covers w k i j) then kept O (nsub (f i j) (h i j)) else h i j).
Proof.
  intros Hsn Hr Hs Hm Hf Ho Po Do Hk Hn Hc. destruct (subtractF E w s m k t O R C f g h Ls Lm Hsn Hr Hs Hm Ho Po Do Hk Hn) as (w' & O' & H1 & H2 & H3 & H4 & H5).
  exists w', O'. do 4 (split; [auto|]). eapply denotes_ext; [|exact H5]. intros i j _ _. cbv beta. unfold reached. rewrite Hc.
  rewrite (after_honest O _ _ _ i j (h i j) Hf). destruct (covers w k i j), (visited _ i j); reflexivity.
Qed.

(** comparison of two matrices that show every cell *)
Lemma equal_honest E w (s m : arg) R C f g Ls Lm b b' n : sane N -> reachable w -> presents E w s R C f Ls -> presents E w m R C g Lm ->
  registered E w s b -> registered E w m b' -> says w s n -> says w m n -> honest f Ls -> honest g Lm ->
  (forall i j, 0 <= i < R -> 0 <= j < C -> In (i, j) (map fst Ls) /\ In (i, j) (map fst Lm)) -> e_ctx E = None ->
  exists w' x, EqualF E s m w = (w', Ok x) /\ w_heap w' = w_heap w /\
    (x = true <-> forall i j, 0 <= i < R -> 0 <= j < C -> neqb (if b : bool then f i j else g i j) (if b then g i j else f i j) = true).
Proof.
  intros Hsn Hr Hs Hm Rs Rm Cs Cm Hf Hg Hall Hc. destruct (equalF E w s m R C R C f g Ls Lm b b' n n Hsn Hr Hs Hm Rs Rm Cs Cm) as (w' & Ee & Hh).
  exists w'. eexists. split; [exact Ee|]. split; [exact Hh|]. unfold reached. rewrite Hc, !Z.eqb_refl, orb_true_r, Nat.eqb_refl, andb_true_r. cbn [andb].
  pose proof (proj1 Hsn) as Hz. pose proof (sane_wfw w Hsn Hr) as Hw.
  destruct (operand_lists _ _ _ _ _ _ _ _ Hz Hw (present_t _ _ _ _ _ _ _ Hs)) as [_ Is]. destruct (operand_lists _ _ _ _ _ _ _ _ Hz Hw (present_t _ _ _ _ _ _ _ Hm)) as [_ Im].
  rewrite forallb_forall. split.
  - intros H i j Hi Hj. destruct (Hall i j Hi Hj) as [A1 A2]. destruct b.
    + apply in_map_iff in A1 as ([[r c] v] & Er & Hin). cbn [fst] in Er. injection Er as -> ->. specialize (H _ Hin). cbn [fst snd] in H. rewrite (proj2 Hf _ _ _ Hin) in H. exact H.
    + apply in_map_iff in A2 as ([[r c] v] & Er & Hin). cbn [fst] in Er. injection Er as -> ->. specialize (H _ Hin). cbn [fst snd] in H. rewrite (proj2 Hg _ _ _ Hin) in H. exact H.
  - intros H [[r c] v] Hin. cbn [fst snd]. destruct b.
    + destruct (Is _ _ _ Hin) as [B1 B2]. rewrite (proj2 Hf _ _ _ Hin). apply (H r c B1 B2).
    + destruct (Im _ _ _ Hin) as [B1 B2]. rewrite (proj2 Hg _ _ _ Hin). apply (H r c B1 B2).
Qed.

(** ** Operands of the library *)
Lemma dot_same E (rv cv : mat) : forall ls acc w, a_dot E (vec_of rv) (vec_of cv) ls acc w = dot_loop E rv cv ls acc w.
Proof.
  induction ls as [|l ls IH]; intros acc w; cbn [a_dot dot_loop]; [reflexivity|]. unfold mbind. destruct (poll E w) as [w1 [[]| |]]; try reflexivity.
  cbn [vec_AtVec vec_of]. unfold mlift. destruct (mat_AtVec cv l) as [x| |]; try reflexivity. destruct (mat_AtVec rv l) as [y| |]; try reflexivity. apply IH.
Qed.
Lemma for_list_same {A R} (l : list A) (f g : A -> M N (option R)) : (forall x w, f x w = g x w) -> forall w, for_list l f w = for_list l g w.
Proof.
  intros H. induction l as [|x l IH]; intros w; cbn [for_list]; [reflexivity|]. unfold mbind. rewrite H. destruct (g x w) as [w1 [[y|]| |]]; try reflexivity. apply IH.
Qed.
Lemma bind_same {A B} (x : M N A) (f g : A -> M N B) w : (forall y w, f y w = g y w) -> mbind x f w = mbind x g w.
Proof. intros H. unfold mbind. destruct (x w) as [w1 [y| |]]; auto. Qed.
Lemma lib_same E (s m t : ptr) k w :
  AddF E (Lib s) (Lib m) k t w = Add E s m k t w /\ SubtractF E (Lib s) (Lib m) k t w = Subtract E s m k t w /\
  elementWiseMultiplyF E (Lib s) (Lib m) k t w = elementWiseMultiply E s m k t w /\ elementWiseAddF E (Lib s) (Lib m) k t w = elementWiseAdd E s m k t w /\
  TransposeF E (Lib s) k t w = Transpose E s k t w /\ multiplyF E (Lib s) (Lib m) k t w = multiply E s m k t w /\
  EqualF E (Lib s) (Lib m) w = Equal E (Some s) (Some m) w.
Proof.
  split. { unfold AddF, Add. apply bind_same. intros [] w1. apply bind_same. intros k1 w2. apply bind_same. intros [] w3; reflexivity. }
  split; [reflexivity|]. split.
  { unfold elementWiseMultiplyF, elementWiseMultiply. cbn [a_same a_IsSparse]. apply bind_same. intros k1 w1. apply bind_same. intros b w2.
    destruct (Nat.eqb_spec m t) as [->|]; [reflexivity|]. destruct (Nat.eqb_spec s t) as [->|]; reflexivity. }
  split; [reflexivity|]. split; [reflexivity|]. split.
  - unfold multiplyF, multiply. cbn [a_Rows a_Columns a_RowsAt a_ColumnsAt]. apply bind_same. intros mr w1. apply bind_same. intros sc w2. destruct (negb (mr =? sc)); [reflexivity|].
    apply bind_same. intros k1 w3. apply bind_same. intros sr w4. apply bind_same. intros mc w5.
    assert (F : forall w, for_list (R := unit) (zrange 0 sr) (fun r => let! rows := (let! so := load s in let! v := mlift (mat_RowsAt so r) in mret (vec_of v)) in
      for_list (zrange 0 mc) (fun c => let! column := (let! mo := load m in let! v := mlift (mat_ColumnsAt mo c) in mret (vec_of v)) in
        let! o := a_dot E rows column (zrange 0 (vec_Length rows)) n0 in
        match o with None => mret (Some tt) | Some sum => let! e := mask_Element k1 r c in (if negb e then p_Set t r c sum else mret tt) ;!; mret None end)) w =
      for_list (zrange 0 sr) (fun r => let! so := load s in let! rows := mlift (mat_RowsAt so r) in
      for_list (zrange 0 mc) (fun c => let! mo := load m in let! column := mlift (mat_ColumnsAt mo c) in
        let! o := dot_loop E rows column (zrange 0 (mat_Length rows)) n0 in
        match o with None => mret (Some tt) | Some sum => let! e := mask_Element k1 r c in (if negb e then p_Set t r c sum else mret tt) ;!; mret None end)) w).
    { apply for_list_same. intros r w6. rewrite mbind_mbind. apply bind_same. intros so w7. rewrite mbind_mbind. apply bind_same. intros rv w8. rewrite mbind_ret.
      apply for_list_same. intros c w9. rewrite mbind_mbind. apply bind_same. intros mo w10. rewrite mbind_mbind. apply bind_same. intros cv w11. rewrite mbind_ret.
      cbn [vec_Length vec_of]. unfold mbind at 1 3. rewrite dot_same. reflexivity. }
    unfold mbind at 1 8. rewrite F. reflexivity.
  - unfold EqualF, Equal. cbn [a_Columns a_Rows a_IsSparse a_Values]. apply bind_same. intros sc w1. apply bind_same. intros mc w2. destruct (negb (sc =? mc)); [reflexivity|].
    apply bind_same. intros sr w3. apply bind_same. intros mr w4. destruct (negb (sr =? mr)); [reflexivity|]. apply bind_same. intros b w5. apply bind_same. intros b' w6.
    apply bind_same. intros sv w7. apply bind_same. intros mv w8. destruct (_ && _); [reflexivity|]. destruct b; reflexivity.
Qed.
End ForeignOps.
