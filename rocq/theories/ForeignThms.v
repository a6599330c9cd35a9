(** The operators with matrix types of the caller's. *)
From Coq Require Import String.
From Verif Require Import GoBase Num SparseVec Csr Csc DenseVec DenseMat Mat World Ops Spec Api.
From Verif Require Import BaseProofs MatProofs HeapProofs ReachProofs StoreProofs StoreThms VecProofs OpsProofs OpsThms EwThms OpsProps LoopProofs ApplyMem ApplyMemThms Foreign.
Import ListNotations.

Section ForeignThms.
Context {N : num}.
Notation V := (T N).
Notation mat := (mat N).
Notation ent := (Z * Z * V)%type.
Notation world := (world N).
Notation arg := (arg N).
Implicit Types w : world.
Implicit Types m : mat.
Implicit Types a : arg.

(** ** The loop *)

(** [a] shows [L] as long as only [t] is written *)
Definition lists (E : env) w (t : ptr) a (L : list ent) : Prop :=
  match a with
  | Lib p => p <> t /\ exists m, obj w p m /\ wf m /\ entries m = L /\ mat_Values m <= Z.of_nat (e_fuel E)
  | Own o => own_shows o = L
  end.
Definition only w (t : ptr) w1 : Prop := forall p m, p <> t -> obj w p m -> obj w1 p m.

Section Loop.
Context {R : Type}.
Variables (E : env) (w : world) (t : ptr) (onC : R) (body : Z -> Z -> V -> M N (option R)) (Inv : list ent -> world -> Prop) (L : list ent).
Hypothesis Hh : forall d w1 w2, Inv d w1 -> w_heap w2 = w_heap w1 -> Inv d w2.
Hypothesis Hon : forall d w1, Inv d w1 -> only w t w1.
Hypothesis Hstep : forall d r c v rest w1, L = d ++ (r, c, v) :: rest -> Inv d w1 ->
  exists w2, body r c v w1 = (w2, Ok None) /\ Inv (d ++ [(r, c, v)]) w2 /\ w_polls w2 = w_polls w1.

Lemma own_steps : forall rest d w1, L = d ++ rest -> Inv d w1 ->
  exists w' o, own_loop E rest onC body w1 = (w', Ok o) /\ Inv (d ++ reached E w1 rest) w' /\
    (forall more, reached E w1 (rest ++ more) = reached E w1 rest ++ match o with None => reached E w' more | Some _ => [] end).
Proof.
  induction rest as [|[[r c] v] rest IH]; intros d w1 HL Hi; cbn [own_loop].
  - rewrite reached_nil. rewrite app_nil_r. exists w1, None. auto.
  - destruct (poll_heap E w1) as (w2 & b & Hp & Hw2 & _). rewrite (mbind_ok _ _ _ _ _ Hp). destruct b.
    + rewrite (reached_stop _ _ _ _ Hp), app_nil_r. exists w2, (Some onC). split; [reflexivity|]. split; [eapply Hh; eauto|]. intros more. apply (reached_stop _ _ _ _ Hp).
    + rewrite (reached_go _ _ _ _ _ Hp). destruct (Hstep d r c v rest w2 HL (Hh _ _ _ Hi Hw2)) as (w3 & Eb & Hi3 & Hp3).
      rewrite (mbind_ok _ _ _ _ _ Eb). destruct (IH (d ++ [(r, c, v)]) w3) as (w' & o & E1 & E2 & E4); [rewrite <- app_assoc; exact HL|exact Hi3|].
      rewrite (reached_polls E w2 w3 rest Hp3), <- app_assoc in E2. exists w', o. split; [exact E1|]. split; [exact E2|].
      intros more. cbn [app]. rewrite (reached_go _ _ _ _ _ Hp), <- (reached_polls E w2 w3 _ Hp3), E4, (reached_polls E w2 w3 _ Hp3). reflexivity.
Qed.

(** the loop over an object of the library does the same as the loop over the list of its elements *)
Lemma enum_as_list p m : obj w p m -> p <> t ->
  forall rest it d0 d fuel, it_rel m it d0 rest -> (length rest <= fuel)%nat -> forall w1, L = d ++ rest -> Inv d w1 ->
  enum_loop E fuel p it onC body w1 = own_loop E rest onC body w1.
Proof.
  intros Hm Hn. induction rest as [|[[r c] v] rest IH]; intros it d0 d fuel Hit Hf w1 HL Hi.
  - destruct fuel; cbn [enum_loop own_loop]; rewrite (it_rel_HasNext _ _ _ _ Hit); reflexivity.
  - destruct fuel as [|fuel]; [simpl in Hf; lia|]. cbn [enum_loop own_loop]. rewrite (it_rel_HasNext _ _ _ _ Hit).
    destruct (poll_heap E w1) as (w2 & b & Hp & Hw2 & _). rewrite !(mbind_ok _ _ _ _ _ Hp). destruct b; [reflexivity|].
    pose proof (Hh _ _ _ Hi Hw2) as Hi2. rewrite (mbind_ok _ _ _ _ _ (load_ok _ _ _ (Hon _ _ Hi2 _ _ Hn Hm))).
    destruct (it_rel_step _ _ _ _ _ _ _ Hit) as (it' & Hx & Hcu & Hr & _).
    assert (En : mat_Next m it = Ok ((r, c, v), it')) by (unfold mat_Next; rewrite Hx; cbn [rbind]; rewrite Hcu; reflexivity).
    rewrite En, mbind_lift. cbv iota beta. destruct (Hstep d r c v rest w2 HL Hi2) as (w3 & Eb & Hi3 & _). rewrite !(mbind_ok _ _ _ _ _ Eb).
    apply (IH it' _ (d ++ [(r, c, v)]) fuel Hr); [simpl in Hf; lia|rewrite <- app_assoc; exact HL|exact Hi3].
Qed.

Lemma a_steps a : lists E w t a L -> forall w1, Inv [] w1 ->
  exists w' o, a_enumerate E a onC body w1 = (w', Ok o) /\ Inv (reached E w1 L) w' /\
    (forall more, reached E w1 (L ++ more) = reached E w1 L ++ match o with None => reached E w' more | Some _ => [] end).
Proof.
  intros Hl w1 Hi. destruct (own_steps L [] w1 eq_refl Hi) as (w' & o & E1 & E2).
  exists w', o. split; [|exact E2]. rewrite <- E1. destruct a as [p|x]; cbn [lists a_enumerate] in *; [|rewrite Hl; reflexivity].
  destruct Hl as (Hn & m & Hm & Hw & He & Hf). unfold enumerate. rewrite (mbind_ok _ _ _ _ _ (load_ok _ _ _ (Hon _ _ Hi _ _ Hn Hm))).
  apply (enum_as_list p m Hm Hn L _ [] [] (e_fuel E)); auto.
  - rewrite <- He. apply entries_rel. exact Hw.
  - pose proof (zlen_entries m Hw) as Hz. rewrite He in Hz. unfold zlen in Hz. lia.
Qed.
End Loop.

(** ** The output *)
Definition cells w (t : ptr) (O : mat) (F : Z -> Z -> V) w1 : Prop :=
  exists O1, w_heap w1 = list_set (w_heap w) t O1 /\ good O1 /\ same_shape O O1 /\ forall i j, inb O i j -> peek O1 i j = F i j.
Lemma cells_obj w t O F w1 : obj w t O -> cells w t O F w1 -> exists O1, obj w1 t O1 /\ w_heap w1 = list_set (w_heap w) t O1 /\ good O1 /\ same_shape O O1 /\
    forall i j, inb O i j -> peek O1 i j = F i j.
Proof.
  intros Ho (O1 & H & Hr). exists O1. split; [|auto]. unfold obj. rewrite H. apply nth_error_list_set_eq. eapply obj_lt; eauto.
Qed.
Lemma cells_heap w t O F w1 w2 : cells w t O F w1 -> w_heap w2 = w_heap w1 -> cells w t O F w2.
Proof. intros (O1 & H & Hr) E. exists O1. rewrite E. auto. Qed.
Lemma cells_ext w t O F G w1 : (forall i j, inb O i j -> F i j = G i j) -> cells w t O F w1 -> cells w t O G w1.
Proof. intros He (O1 & H & H1 & H2 & H3). exists O1. do 3 (split; [auto|]). intros i j Hij. rewrite H3, He by exact Hij. reflexivity. Qed.
Lemma cells_only w t O F w1 : cells w t O F w1 -> only w t w1.
Proof. intros (O1 & H & _) p m Hn Hp. unfold obj. rewrite H, nth_error_list_set_neq; auto. Qed.
Lemma cells_start w t O : obj w t O -> good O -> cells w t O (peek O) w.
Proof. intros Ho Go. exists O. split; [symmetry; apply list_set_same; exact Ho|]. split; [exact Go|]. split; [apply same_shape_refl|reflexivity]. Qed.
Lemma cells_set w t O F w1 r c x : zero_ok N -> obj w t O -> cells w t O F w1 -> inb O r c ->
  exists w2, p_Set t r c x w1 = (w2, Ok tt) /\ cells w t O (fun i j => if (i =? r) && (j =? c) then clean O x else F i j) w2 /\ w_polls w2 = w_polls w1.
Proof.
  intros Hz Ho Hg Hb. destruct (cells_obj _ _ _ _ _ Ho Hg) as (O1 & Ho1 & Hh & G1 & S1 & P1).
  destruct (p_Set_ok t w1 O1 r c x Hz Ho1 G1) as (O2 & E2 & G2 & S2 & P2); [apply (same_shape_inb _ _ _ _ S1); exact Hb|].
  exists (upd w1 t O2). split; [exact E2|]. split; [|reflexivity]. exists O2. split; [unfold upd; cbn [w_heap]; rewrite Hh, list_set_twice; reflexivity|]. split; [exact G2|].
  split; [eapply same_shape_trans; eauto|]. intros i j Hij. rewrite P2 by (apply (same_shape_inb _ _ _ _ S1); exact Hij).
  destruct ((i =? r) && (j =? c)); [|apply P1; exact Hij]. unfold clean. rewrite (same_shape_sp _ _ S1). reflexivity.
Qed.
Lemma cells_update w t O F w1 r c g : zero_ok N -> obj w t O -> cells w t O F w1 -> inb O r c ->
  exists w2, p_Update t r c g w1 = (w2, Ok tt) /\ cells w t O (fun i j => if (i =? r) && (j =? c) then clean O (g (F r c)) else F i j) w2 /\ w_polls w2 = w_polls w1.
Proof.
  intros Hz Ho Hg Hb. destruct (cells_obj _ _ _ _ _ Ho Hg) as (O1 & Ho1 & Hh & G1 & S1 & P1).
  destruct (p_Update_ok t w1 O1 r c g Hz Ho1 G1) as (O2 & E2 & G2 & S2 & P2); [apply (same_shape_inb _ _ _ _ S1); exact Hb|].
  exists (upd w1 t O2). split; [exact E2|]. split; [|reflexivity]. exists O2. split; [unfold upd; cbn [w_heap]; rewrite Hh, list_set_twice; reflexivity|]. split; [exact G2|].
  split; [eapply same_shape_trans; eauto|]. intros i j Hij. rewrite P2 by (apply (same_shape_inb _ _ _ _ S1); exact Hij).
  rewrite <- P1 by exact Hb. destruct ((i =? r) && (j =? c)); [|apply P1; exact Hij]. unfold clean. rewrite (same_shape_sp _ _ S1). reflexivity.
Qed.
Lemma cells_mask w t O F w1 k r c : zero_ok N -> cells w t O F w1 -> mask_wf w k -> mask_dims w k (mat_Rows O) (mat_Columns O) -> mask_not k t ->
  inb O r c -> mask_Element (mask_norm k (mat_Rows O) (mat_Columns O)) r c w1 = (w1, Ok (covers w k r c)).
Proof.
  intros Hz (O1 & H1 & Hg1 & Hs & _) Hmw Hd Hn Hb. assert (E : w_heap w1 = w_heap (upd w t O1)) by (rewrite H1; reflexivity).
  rewrite mask_Element_ok; [|exact Hz| | |apply Hb|apply Hb].
  - rewrite (covers_heap k (upd w t O1) w1) by auto. rewrite covers_upd by auto. reflexivity.
  - apply (mask_wf_heap k (upd w t O1)); auto. apply mask_wf_upd; auto.
  - apply (mask_dims_heap k (upd w t O1)); auto. apply mask_dims_upd; auto.
Qed.
Lemma clean_kept (O : mat) v : clean O v = kept O v.
Proof. destruct O; reflexivity. Qed.
Lemma cells_done w t O F w1 R C : zero_ok N -> obj w t O -> mat_Rows O = R -> mat_Columns O = C -> cells w t O F w1 ->
  exists O', extends_but t w w1 /\ obj w1 t O' /\ same_storage O O' /\ denotes O' R C F.
Proof.
  intros Hz Ho OR OC Hc. destruct (cells_obj _ _ _ _ _ Ho Hc) as (O' & Ho' & Hh & Gd & Sh & Pk). exists O'.
  split. { intros p x Hne Hp. unfold obj. rewrite Hh, nth_error_list_set_neq; auto. }
  split; [exact Ho'|]. split; [apply storage_of; exact Sh|].
  apply peek_denotes; [exact Hz|apply Gd|destruct Sh as (_ & ? & _); lia|destruct Sh as (_ & _ & ?); lia|].
  intros i j Hij. apply Pk, (same_shape_inb _ _ _ _ Sh). exact Hij.
Qed.

Lemma shown_at_snoc (L : list ent) r c v i j : shown_at (L ++ [(r, c, v)]) i j = shown_at L i j ++ if (i =? r) && (j =? c) then [v] else [].
Proof.
  unfold shown_at. rewrite filter_app, map_app. cbn [filter fst snd]. rewrite (Z.eqb_sym r i), (Z.eqb_sym c j). destruct ((i =? r) && (j =? c)); reflexivity.
Qed.
Lemma after_snoc (O : mat) op vs v x : after O op (vs ++ [v]) x = match op v (after O op vs x) with Some y => kept O y | None => after O op vs x end.
Proof. unfold after. rewrite fold_left_app. reflexivity. Qed.

Lemma operand_lists E w t a R C f L : zero_ok N -> wfw w -> operand E w t a R C f L -> lists E w t a L /\ forall r c v, In (r, c, v) L -> 0 <= r < R /\ 0 <= c < C.
Proof.
  intros Hz Hw. destruct a as [p|o]; unfold operand, presents; cbn [lists].
  - intros (Hnt & m & Hm & (HR & HC & _) & HL & Hf). assert (Hn : p <> t) by congruence. pose proof (Hw _ _ Hm) as Wm. rewrite (enumerates_unique m L Wm HL). split; [split; [exact Hn|]; exists m; auto|].
    intros r c v Hin. destruct (entries_inb m r c v Hz Wm Hin) as [[H1 H2] _]. rewrite HR, HC in *. auto.
  - intros (_ & _ & _ & _ & HL & Hr). auto.
Qed.
Lemma operand_At E w t a R C f L w1 r c : zero_ok N -> wfw w -> operand E w t a R C f L -> only w t w1 -> 0 <= r < R -> 0 <= c < C -> a_At a r c w1 = (w1, Ok (f r c)).
Proof.
  intros Hz Hw. destruct a as [p|o]; unfold operand, presents; cbn [a_At].
  - intros (Hnt & m & Hm & Hd & _) Ho Hr Hc. assert (Hn : p <> t) by congruence. pose proof Hd as (HR & HC & _). pose proof (Hw _ _ Hm) as Wm.
    assert (Hb : inb m r c) by (unfold inb; lia). rewrite (p_At_ok p w1 m r c Hz (Ho _ _ Hn Hm) Wm Hb), (denotes_peek _ _ _ _ _ _ Hd Hb). reflexivity.
  - intros (_ & _ & _ & H & _) _ Hr Hc. rewrite H by assumption. reflexivity.
Qed.
Lemma operand_Rows E w t a R C f L w1 : operand E w t a R C f L -> only w t w1 -> a_Rows a w1 = (w1, Ok R).
Proof.
  destruct a as [p|o]; unfold operand, presents; cbn [a_Rows].
  - intros (Hnt & m & Hm & (HR & HC & _) & _) Ho. assert (Hn : p <> t) by congruence. rewrite (p_Rows_ok _ _ _ (Ho _ _ Hn Hm)), HR. reflexivity.
  - intros (_ & <- & _) _. reflexivity.
Qed.
Lemma operand_Columns E w t a R C f L w1 : operand E w t a R C f L -> only w t w1 -> a_Columns a w1 = (w1, Ok C).
Proof.
  destruct a as [p|o]; unfold operand, presents; cbn [a_Columns].
  - intros (Hnt & m & Hm & (HR & HC & _) & _) Ho. assert (Hn : p <> t) by congruence. rewrite (p_Columns_ok _ _ _ (Ho _ _ Hn Hm)), HC. reflexivity.
  - intros (_ & _ & <- & _) _. reflexivity.
Qed.
Lemma registered_IsSparse E w a b : registered E w a b -> a_IsSparse E a w = (w, Ok b).
Proof.
  destruct a as [p|o]; cbn [registered a_IsSparse].
  - intros (m & Hm & <-). apply p_IsSparse_ok. exact Hm.
  - intros H. unfold mret. do 2 f_equal. destruct b.
    + apply existsb_exists. exists (own_type o). split; [exact H|apply String.eqb_refl].
    + destruct (existsb _ _) eqn:Ex; [|reflexivity]. exfalso. apply H. apply existsb_exists in Ex as (x & Hx & He). apply String.eqb_eq in He. subst x. exact Hx.
Qed.
Lemma operand_same E w t a R C f L : operand E w t a R C f L -> a_same a t = false.
Proof. destruct a as [p|o]; unfold operand; cbn [a_same]; [|reflexivity]. intros [H _]. apply Nat.eqb_neq. congruence. Qed.
Lemma only_refl w t : only w t w. Proof. intros p m _ H. exact H. Qed.
Lemma present_t E w a R C f L : presents E w a R C f L -> operand E w (length (w_heap w)) a R C f L.
Proof.
  intros H. split; [|exact H]. destruct a as [p|o]; [|discriminate]. destruct H as (m & Hm & _). apply obj_lt in Hm. intros X. injection X as X. lia.
Qed.
Lemma check_sizes_ok E w (s m : arg) R C f g Ls Lm : presents E w s R C f Ls -> presents E w m R C g Lm -> a_check_sizes s m w = (w, Ok tt).
Proof.
  intros Hs Hm. apply present_t in Hs, Hm. unfold a_check_sizes. pose proof (only_refl w (length (w_heap w))) as Ho.
  rewrite (mbind_ok _ _ _ _ _ (operand_Columns _ _ _ _ _ _ _ _ _ Hs Ho)), (mbind_ok _ _ _ _ _ (operand_Columns _ _ _ _ _ _ _ _ _ Hm Ho)), Z.eqb_refl. cbn [negb].
  rewrite (mbind_ok _ _ _ _ _ (operand_Rows _ _ _ _ _ _ _ _ _ Hs Ho)), (mbind_ok _ _ _ _ _ (operand_Rows _ _ _ _ _ _ _ _ _ Hm Ho)), Z.eqb_refl. reflexivity.
Qed.

(** ** A loop that writes *)
Definition upto (cov : Z -> Z -> bool) (O : mat) (op : Z -> Z -> V -> V -> option V) (h : Z -> Z -> V) (d : list ent) (i j : Z) : V :=
  if cov i j then h i j else after O (op i j) (shown_at d i j) (h i j).
Lemma upto_snoc cov O op h d r c v i j : upto cov O op h (d ++ [(r, c, v)]) i j =
  if (i =? r) && (j =? c) then (if cov r c then h r c else match op r c v (upto cov O op h d r c) with Some y => kept O y | None => upto cov O op h d r c end) else upto cov O op h d i j.
Proof.
  unfold upto. rewrite shown_at_snoc. destruct ((i =? r) && (j =? c)) eqn:Eq.
  - apply andb_prop in Eq as [H1 H2]. apply Z.eqb_eq in H1, H2. subst i j. destruct (cov r c); [reflexivity|]. apply after_snoc.
  - rewrite app_nil_r. reflexivity.
Qed.
Lemma upto_nil cov O op (h : Z -> Z -> V) i j : upto cov O op h [] i j = h i j.
Proof. unfold upto. destruct (cov i j); reflexivity. Qed.

(** what one pass through a loop body may do: a write, or nothing, according to [op] *)
Lemma body_skip w t O cov op h d w1 r c v : cells w t O (upto cov O op h d) w1 -> (cov r c = true \/ op r c v (upto cov O op h d r c) = None) ->
  cells w t O (upto cov O op h (d ++ [(r, c, v)])) w1.
Proof.
  intros Hc H. eapply cells_ext; [|exact Hc]. intros i j _. rewrite upto_snoc. destruct ((i =? r) && (j =? c)) eqn:Eq; [|reflexivity].
  apply andb_prop in Eq as [H1 H2]. apply Z.eqb_eq in H1, H2. subst i j. destruct H as [H|H]; rewrite H; [unfold upto; rewrite H; reflexivity|].
  unfold upto. destruct (cov r c); reflexivity.
Qed.
Lemma body_set w t O cov op h d w1 r c v x : zero_ok N -> obj w t O -> cells w t O (upto cov O op h d) w1 -> inb O r c -> cov r c = false ->
  op r c v (upto cov O op h d r c) = Some x ->
  exists w2, p_Set t r c x w1 = (w2, Ok tt) /\ cells w t O (upto cov O op h (d ++ [(r, c, v)])) w2 /\ w_polls w2 = w_polls w1.
Proof.
  intros Hz Ho Hc Hb Hk Hop. destruct (cells_set w t O _ w1 r c x Hz Ho Hc Hb) as (w2 & E2 & Hc2 & Hp). exists w2. split; [exact E2|]. split; [|exact Hp].
  eapply cells_ext; [|exact Hc2]. intros i j _. rewrite upto_snoc, Hk, Hop, clean_kept. reflexivity.
Qed.
Lemma body_update w t O cov op h d w1 r c v g : zero_ok N -> obj w t O -> cells w t O (upto cov O op h d) w1 -> inb O r c -> cov r c = false ->
  op r c v (upto cov O op h d r c) = Some (g (upto cov O op h d r c)) ->
  exists w2, p_Update t r c g w1 = (w2, Ok tt) /\ cells w t O (upto cov O op h (d ++ [(r, c, v)])) w2 /\ w_polls w2 = w_polls w1.
Proof.
  intros Hz Ho Hc Hb Hk Hop. destruct (cells_update w t O _ w1 r c g Hz Ho Hc Hb) as (w2 & E2 & Hc2 & Hp). exists w2. split; [exact E2|]. split; [|exact Hp].
  eapply cells_ext; [|exact Hc2]. intros i j _. rewrite upto_snoc, Hk, Hop, clean_kept. reflexivity.
Qed.

Lemma write_loop E w t a O R C h cov op f L body : sane N -> reachable w -> operand E w t a R C f L -> obj w t O -> denotes O R C h ->
  (forall d r c v w1, In (r, c, v) L -> inb O r c -> cells w t O (upto cov O op h d) w1 ->
    exists w2, body r c v w1 = (w2, Ok None) /\ cells w t O (upto cov O op h (d ++ [(r, c, v)])) w2 /\ w_polls w2 = w_polls w1) ->
  forall d0 w1, cells w t O (upto cov O op h d0) w1 ->
  exists w' o, a_enumerate E a tt body w1 = (w', Ok o) /\ cells w t O (upto cov O op h (d0 ++ reached E w1 L)) w' /\
    (forall more, reached E w1 (L ++ more) = reached E w1 L ++ match o with None => reached E w' more | Some _ => [] end).
Proof.
  intros Hsn Hr Ha Ho Do Hb d0 w1 H1. pose proof (sane_wfw w Hsn Hr) as Hw. pose proof (proj1 Hsn) as Hz.
  pose proof Do as (OR & OC & _). destruct (operand_lists _ _ _ _ _ _ _ _ Hz Hw Ha) as [Hl Hin].
  apply (a_steps E w t tt body (fun d w1 => cells w t O (upto cov O op h (d0 ++ d)) w1) L); auto.
  - intros d w2 w3. apply cells_heap.
  - intros d w2. apply cells_only.
  - intros d r c v rest w2 HL Hc. assert (Hi : In (r, c, v) L) by (rewrite HL; apply in_or_app; right; left; reflexivity).
    rewrite app_assoc. apply Hb; auto. destruct (Hin _ _ _ Hi). unfold inb. lia.
  - rewrite app_nil_r. exact H1.
Qed.
Lemma upto_start w t O R C h cov op : sane N -> reachable w -> obj w t O -> not_sparse_vector O -> denotes O R C h -> cells w t O (upto cov O op h []) w.
Proof.
  intros Hsn Hr Ho Po Do. assert (Go : good O) by (eapply plain_is_good; eauto using sane_wfw).
  eapply cells_ext; [|apply cells_start; eauto]. intros i j Hij. rewrite upto_nil. apply (denotes_peek _ _ _ _ _ _ Do Hij).
Qed.

(** ** The operators *)
Lemma addF E w (s m : arg) k t O R C f g h Ls Lm b : sane N -> reachable w -> operand E w t s R C f Ls -> operand E w t m R C g Lm -> registered E w s b ->
  obj w t O -> not_sparse_vector O -> denotes O R C h -> mask_dims w k R C -> mask_not k t ->
  let L := if b : bool then Ls else Lm in let other := if b then g else f in
  exists w' O', AddF E s m k t w = (w', Ok tt) /\ extends_but t w w' /\ obj w' t O' /\ same_storage O O' /\
    denotes O' R C (fun i j => if covers w k i j then h i j else after O (fun v _ => Some (nadd (other i j) v)) (shown_at (reached E w L) i j) (h i j)).
Proof.
  intros Hsn Hr Hs Hm Hreg Ho Po Do Hk Hn L other. pose proof (sane_wfw w Hsn Hr) as Hw. pose proof (proj1 Hsn) as Hz. pose proof Do as (OR & OC & _).
  assert (Hmd : mask_dims w k (mat_Rows O) (mat_Columns O)) by (rewrite OR, OC; exact Hk). assert (Hmw : mask_wf w k) by (eapply mask_dims_wf; eauto).
  unfold AddF. rewrite (mbind_ok _ _ _ _ _ (check_sizes_ok _ _ _ _ _ _ _ _ _ _ (proj2 Hs) (proj2 Hm))), (mbind_ok _ _ _ _ _ (check_mask_ok _ _ _ _ Ho Hmd)), (mbind_ok _ _ _ _ _ (registered_IsSparse _ _ _ _ Hreg)).
  set (src := if b then s else m). set (source := if b then m else s).
  replace (if b then (s, m) else (m, s)) with (src, source) by (destruct b; reflexivity). cbv iota beta.
  assert (Hsrc : exists f1, operand E w t src R C f1 L) by (unfold src, L; destruct b; eauto). destruct Hsrc as [f1 Hsrc].
  assert (Hoth : exists L1, operand E w t source R C other L1) by (unfold source, other; destruct b; eauto). destruct Hoth as [L1 Hoth].
  destruct (write_loop E w t src O R C h (covers w k) (fun i j v _ => Some (nadd (other i j) v)) f1 L (fun r c v =>
    let! value := a_At source r c in
    let! e := mask_Element (mask_norm k (mat_Rows O) (mat_Columns O)) r c in
    (if negb e then p_Set t r c (nadd value v) else mret tt) ;!; mret None) Hsn Hr Hsrc Ho Do) with (d0 := @nil ent) (w1 := w) as (w' & o & He & Hc & _).
  { intros d r c v w1 Hin Hb Hc. assert (Hb' : 0 <= r < R /\ 0 <= c < C) by (unfold inb in Hb; lia).
    rewrite (mbind_ok _ _ _ _ _ (operand_At _ _ _ _ _ _ _ _ _ _ _ Hz Hw Hoth (cells_only _ _ _ _ _ Hc) (proj1 Hb') (proj2 Hb'))).
    rewrite (mbind_ok _ _ _ _ _ (cells_mask _ _ _ _ _ _ _ _ Hz Hc Hmw Hmd Hn Hb)). destruct (covers w k r c) eqn:Ec; cbn [negb].
    - rewrite mbind_ret. exists w1. split; [reflexivity|]. split; [|reflexivity]. eapply body_skip; eauto.
    - destruct (body_set w t O (covers w k) _ h d w1 r c v _ Hz Ho Hc Hb Ec eq_refl) as (w2 & E2 & Hc2). rewrite (mbind_ok _ _ _ _ _ E2). exists w2. split; [reflexivity|exact Hc2]. }
  { eapply upto_start; eauto. }
  rewrite (mbind_ok _ _ _ _ _ He). destruct (cells_done _ _ _ _ _ R C Hz Ho OR OC Hc) as (O' & H). exists w', O'. split; [reflexivity|exact H].
Qed.

Lemma subtractF E w (s m : arg) k t O R C f g h Ls Lm : sane N -> reachable w -> operand E w t s R C f Ls -> presents E w m R C g Lm ->
  obj w t O -> not_sparse_vector O -> denotes O R C h -> mask_dims w k R C -> mask_not k t ->
  exists w' O', SubtractF E s m k t w = (w', Ok tt) /\ extends_but t w w' /\ obj w' t O' /\ same_storage O O' /\
    denotes O' R C (fun i j => if covers w k i j then h i j else after O (fun v x => Some (nsub v x)) (shown_at (reached E w Ls) i j) (h i j)).
Proof.
  intros Hsn Hr Hs Hm Ho Po Do Hk Hn. pose proof (sane_wfw w Hsn Hr) as Hw. pose proof (proj1 Hsn) as Hz. pose proof Do as (OR & OC & _).
  assert (Hmd : mask_dims w k (mat_Rows O) (mat_Columns O)) by (rewrite OR, OC; exact Hk). assert (Hmw : mask_wf w k) by (eapply mask_dims_wf; eauto).
  unfold SubtractF. rewrite (mbind_ok _ _ _ _ _ (check_sizes_ok _ _ _ _ _ _ _ _ _ _ (proj2 Hs) Hm)), (mbind_ok _ _ _ _ _ (check_mask_ok _ _ _ _ Ho Hmd)).
  destruct (write_loop E w t s O R C h (covers w k) (fun i j v x => Some (nsub v x)) f Ls (fun r c value =>
    let! e := mask_Element (mask_norm k (mat_Rows O) (mat_Columns O)) r c in
    (if negb e then p_Update t r c (fun v => nsub value v) else mret tt) ;!; mret None) Hsn Hr Hs Ho Do) with (d0 := @nil ent) (w1 := w) as (w' & o & He & Hc & _).
  { intros d r c v w1 Hin Hb Hc. rewrite (mbind_ok _ _ _ _ _ (cells_mask _ _ _ _ _ _ _ _ Hz Hc Hmw Hmd Hn Hb)). destruct (covers w k r c) eqn:Ec; cbn [negb].
    - rewrite mbind_ret. exists w1. split; [reflexivity|]. split; [|reflexivity]. eapply body_skip; eauto.
    - destruct (body_update w t O (covers w k) (fun i j v x => Some (nsub v x)) h d w1 r c v (fun x => nsub v x) Hz Ho Hc Hb Ec eq_refl) as (w2 & E2 & Hc2). rewrite (mbind_ok _ _ _ _ _ E2). exists w2. split; [reflexivity|exact Hc2]. }
  { eapply upto_start; eauto. }
  rewrite (mbind_ok _ _ _ _ _ He). destruct (cells_done _ _ _ _ _ R C Hz Ho OR OC Hc) as (O' & H). exists w', O'. split; [reflexivity|exact H].
Qed.

Lemma ewmF E w (s m : arg) k t O R C f g h Ls Lm b : sane N -> reachable w -> operand E w t s R C f Ls -> operand E w t m R C g Lm -> registered E w s b ->
  obj w t O -> not_sparse_vector O -> denotes O R C h -> mask_dims w k R C -> mask_not k t ->
  let L := if b : bool then Ls else Lm in let other := if b then g else f in
  exists w' O', elementWiseMultiplyF E s m k t w = (w', Ok tt) /\ extends_but t w w' /\ obj w' t O' /\ same_storage O O' /\
    denotes O' R C (fun i j => if covers w k i j then h i j else after O (fun v _ => if neqb v (other i j) then Some v else None) (shown_at (reached E w L) i j) (h i j)).
Proof.
  intros Hsn Hr Hs Hm Hreg Ho Po Do Hk Hn L other. pose proof (sane_wfw w Hsn Hr) as Hw. pose proof (proj1 Hsn) as Hz. pose proof Do as (OR & OC & _).
  assert (Hmd : mask_dims w k (mat_Rows O) (mat_Columns O)) by (rewrite OR, OC; exact Hk). assert (Hmw : mask_wf w k) by (eapply mask_dims_wf; eauto).
  set (target := fun (source : arg) (r c : Z) (value : V) =>
    let! v := a_At source r c in
    if neqb value v then
      let! e := mask_Element (mask_norm k (mat_Rows O) (mat_Columns O)) r c in
      (if negb e then p_Set t r c value else mret tt) ;!; mret (@None unit)
    else mret None).
  set (src := if b then s else m). set (source := if b then m else s).
  assert (Hsrc : exists f1, operand E w t src R C f1 L) by (unfold src, L; destruct b; eauto). destruct Hsrc as [f1 Hsrc].
  assert (Hoth : exists L1, operand E w t source R C other L1) by (unfold source, other; destruct b; eauto). destruct Hoth as [L1 Hoth].
  assert (Start : elementWiseMultiplyF E s m k t w = (let! _ := a_enumerate E src tt (target source) in mret tt) w).
  { unfold elementWiseMultiplyF. rewrite (mbind_ok _ _ _ _ _ (check_mask_ok _ _ _ _ Ho Hmd)), (mbind_ok _ _ _ _ _ (registered_IsSparse _ _ _ _ Hreg)).
    rewrite (operand_same _ _ _ _ _ _ _ _ Hm), (operand_same _ _ _ _ _ _ _ _ Hs). unfold src, source, target. destruct b; reflexivity. }
  rewrite Start. clear Start.
  destruct (write_loop E w t src O R C h (covers w k) (fun i j v _ => if neqb v (other i j) then Some v else None) f1 L (target source) Hsn Hr Hsrc Ho Do) with (d0 := @nil ent) (w1 := w) as (w' & o & He & Hc & _).
  { intros d r c v w1 Hin Hb Hc. unfold target. assert (Hb' : 0 <= r < R /\ 0 <= c < C) by (unfold inb in Hb; lia).
    rewrite (mbind_ok _ _ _ _ _ (operand_At _ _ _ _ _ _ _ _ _ _ _ Hz Hw Hoth (cells_only _ _ _ _ _ Hc) (proj1 Hb') (proj2 Hb'))).
    destruct (neqb v (other r c)) eqn:Eq.
    2: { exists w1. split; [reflexivity|]. split; [|reflexivity]. apply body_skip; auto. right. rewrite Eq. reflexivity. }
    rewrite (mbind_ok _ _ _ _ _ (cells_mask _ _ _ _ _ _ _ _ Hz Hc Hmw Hmd Hn Hb)). destruct (covers w k r c) eqn:Ec; cbn [negb].
    - rewrite mbind_ret. exists w1. split; [reflexivity|]. split; [|reflexivity]. eapply body_skip; eauto.
    - destruct (body_set w t O (covers w k) (fun i j v _ => if neqb v (other i j) then Some v else None) h d w1 r c v v Hz Ho Hc Hb Ec ltac:(cbv beta; rewrite Eq; reflexivity)) as (w2 & E2 & Hc2).
      rewrite (mbind_ok _ _ _ _ _ E2). exists w2. split; [reflexivity|exact Hc2]. }
  { eapply upto_start; eauto. }
  rewrite (mbind_ok _ _ _ _ _ He). destruct (cells_done _ _ _ _ _ R C Hz Ho OR OC Hc) as (O' & H). exists w', O'. split; [reflexivity|exact H].
Qed.

(** one operand is the output *)
Lemma ewm_in_placeF E w a first k t O R C f h L b : sane N -> reachable w -> operand E w t a R C f L -> registered E w (if first : bool then Lib t else a) b ->
  obj w t O -> not_sparse_vector O -> denotes O R C h -> mask_dims w k R C -> mask_not k t ->
  exists w' O', (if first then elementWiseMultiplyF E (Lib t) a k t else elementWiseMultiplyF E a (Lib t) k t) w = (w', Ok tt) /\
    extends_but t w w' /\ obj w' t O' /\ same_storage O O' /\
    denotes O' R C (fun i j => if covers w k i j then h i j else after O (fun v x => Some (if neqb v x then x else n0)) (shown_at (reached E w L) i j) (h i j)).
Proof.
  intros Hsn Hr Ha Hreg Ho Po Do Hk Hn. pose proof (sane_wfw w Hsn Hr) as Hw. pose proof (proj1 Hsn) as Hz. pose proof Do as (OR & OC & _).
  assert (Hmd : mask_dims w k (mat_Rows O) (mat_Columns O)) by (rewrite OR, OC; exact Hk). assert (Hmw : mask_wf w k) by (eapply mask_dims_wf; eauto).
  destruct (write_loop E w t a O R C h (covers w k) (fun i j v x => Some (if neqb v x then x else n0)) f L (fun r c value =>
    let! e := mask_Element (mask_norm k (mat_Rows O) (mat_Columns O)) r c in
    (if negb e then p_Update t r c (fun v => if negb (neqb value v) then n0 else v) else mret tt) ;!; mret None) Hsn Hr Ha Ho Do) with (d0 := @nil ent) (w1 := w) as (w' & o & He & Hc & _).
  { intros d r c v w1 Hin Hb Hc. rewrite (mbind_ok _ _ _ _ _ (cells_mask _ _ _ _ _ _ _ _ Hz Hc Hmw Hmd Hn Hb)). destruct (covers w k r c) eqn:Ec; cbn [negb].
    - rewrite mbind_ret. exists w1. split; [reflexivity|]. split; [|reflexivity]. eapply body_skip; eauto.
    - destruct (body_update w t O (covers w k) (fun i j v x => Some (if neqb v x then x else n0)) h d w1 r c v (fun x => if negb (neqb v x) then n0 else x) Hz Ho Hc Hb Ec) as (w2 & E2 & Hc2).
      { destruct (neqb v _); reflexivity. }
      rewrite (mbind_ok _ _ _ _ _ E2). exists w2. split; [reflexivity|exact Hc2]. }
  { eapply upto_start; eauto. }
  destruct (cells_done _ _ _ _ _ R C Hz Ho OR OC Hc) as (O' & H). exists w', O'. split; [|exact H].
  destruct first; unfold elementWiseMultiplyF; rewrite (mbind_ok _ _ _ _ _ (check_mask_ok _ _ _ _ Ho Hmd)), (mbind_ok _ _ _ _ _ (registered_IsSparse _ _ _ _ Hreg)).
  - rewrite (operand_same _ _ _ _ _ _ _ _ Ha). cbn [a_same]. rewrite Nat.eqb_refl, (mbind_ok _ _ _ _ _ He). reflexivity.
  - cbn [a_same]. rewrite Nat.eqb_refl, (mbind_ok _ _ _ _ _ He). reflexivity.
Qed.
End ForeignThms.
