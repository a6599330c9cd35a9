(** Compare is the lexicographic order; bubble sort sorts. *)
From Coq Require Import Permutation.
From Verif Require Import GoBase Num SparseVec Csr Csc DenseVec DenseMat Mat World Ops Spec Api SortModel.
From Verif Require Import BaseProofs DenseProofs MatProofs HeapProofs ReachProofs NumProofs StoreProofs StoreThms OpsProps EqThms Steps BfsProofs RrefProofs ReduceWitness.
Open Scope Z_scope.

(** ** Specification *)

(** a Unicode code point that has a UTF-8 encoding *)
Definition valid_rune (r : Z) : Prop := 0 <= r <= 1114111 /\ ~ (55296 <= r <= 57343).

(** [u] comes before [v] in the lexicographic order of sequences of numbers *)
Definition precedes (u v : list Z) : Prop :=
  (exists p x y s t, u = p ++ x :: s /\ v = p ++ y :: t /\ x < y) \/
  (exists y t, v = u ++ y :: t).

(** the code points of a sequence of runes *)
Definition codes (l : list (T num_rune)) : list Z := map code l.
(** the elements [f 0], ..., [f (n-1)] *)
Definition line (f : Z -> T num_rune) (n : Z) : list (T num_rune) := map f (zrange 0 n).
(** the cells of a matrix, row by row *)
Definition row_major (R C : Z) (f : Z -> Z -> T num_rune) : list (T num_rune) := flat_map (fun i => line (f i) C) (zrange 0 R).

(** ** Strings *)
Lemma str_ltb_app p a b : str_ltb (p ++ a) (p ++ b) = str_ltb a b.
Proof. induction p as [|x p IH]; [reflexivity|]. cbn. rewrite Z.ltb_irrefl. exact IH. Qed.
Lemma str_ltb_precedes a : forall b, str_ltb a b = true <-> precedes a b.
Proof.
  induction a as [|x a IH]; intros [|y b].
  - split; [discriminate|]. intros [(p & x & y & s & t & E & _)|(y & t & E)]; [destruct p; discriminate|discriminate].
  - split; [|reflexivity]. intros _. right. exists y, b. reflexivity.
  - split; [discriminate|]. intros [(p & x' & y & s & t & _ & E & _)|(y & t & E)]; [destruct p; discriminate|discriminate].
  - cbn [str_ltb]. destruct (x <? y) eqn:E1; [|destruct (y <? x) eqn:E2].
    + split; [|reflexivity]. intros _. left. exists [], x, y, a, b. repeat split. lia.
    + split; [discriminate|]. intros [(p & x' & y' & s & t & A & B & H)|(y' & t & A)].
      * destruct p; cbn in A, B; injection A as -> ->; injection B as -> ->; lia.
      * cbn in A. injection A as -> ->. lia.
    + assert (x = y) by lia. subst y. rewrite IH. split.
      * intros [(p & x' & y' & s & t & -> & -> & H)|(y' & t & ->)]; [left|right].
        -- exists (x :: p), x', y', s, t. auto.
        -- exists y', t. reflexivity.
      * intros [(p & x' & y' & s & t & A & B & H)|(y' & t & A)].
        -- destruct p; cbn in A, B; injection A as -> ->; injection B; intros; subst; [lia|]. left. exists p, x', y', s, t. auto.
        -- cbn in A. injection A as ->. right. exists y', t. reflexivity.
Qed.
Lemma str_ltb_irrefl a : str_ltb a a = false.
Proof. induction a as [|x a IH]; [reflexivity|]. cbn. rewrite Z.ltb_irrefl. exact IH. Qed.
Lemma str_ltb_total a : forall b, str_ltb a b = false -> str_ltb b a = false -> a = b.
Proof.
  induction a as [|x a IH]; intros [|y b]; cbn; try discriminate; [reflexivity|].
  destruct (x <? y) eqn:E1; [discriminate|]. destruct (y <? x) eqn:E2; [discriminate|]. intros H1 H2. f_equal; [lia|auto].
Qed.
Lemma str_ltb_trans a : forall b c, str_ltb a b = true -> str_ltb b c = true -> str_ltb a c = true.
Proof.
  induction a as [|x a IH]; intros [|y b] [|z c]; cbn; try discriminate; try reflexivity.
  destruct (x <? y) eqn:E1.
  - intros _. destruct (y <? z) eqn:E2; [|destruct (z <? y) eqn:E3; [discriminate|]]; intros _; destruct (x <? z) eqn:E4; auto; lia.
  - destruct (y <? x) eqn:E5; [discriminate|]. intros H1. destruct (y <? z) eqn:E2; [|destruct (z <? y) eqn:E3; [discriminate|]].
    + intros _. destruct (x <? z) eqn:E4; auto; lia.
    + intros H2. destruct (x <? z) eqn:E4; [reflexivity|]. destruct (z <? x) eqn:E6; [lia|]. eauto.
Qed.

Lemma precedes_irrefl a : ~ precedes a a.
Proof. rewrite <- str_ltb_precedes, str_ltb_irrefl. discriminate. Qed.
Lemma precedes_trans a b c : precedes a b -> precedes b c -> precedes a c.
Proof. rewrite <- !str_ltb_precedes. apply str_ltb_trans. Qed.
Lemma precedes_total a b : precedes a b \/ a = b \/ precedes b a.
Proof.
  rewrite <- !str_ltb_precedes. destruct (str_ltb a b) eqn:E1; [auto|]. destruct (str_ltb b a) eqn:E2; [auto|].
  right; left. apply str_ltb_total; auto.
Qed.
Lemma precedes_asym a b : precedes a b -> ~ precedes b a.
Proof. intros H H'. apply (precedes_irrefl a). eapply precedes_trans; eauto. Qed.
(** not after *)
Lemma npre_trans a b c : ~ precedes b a -> ~ precedes c b -> ~ precedes c a.
Proof.
  intros H1 H2 H. destruct (precedes_total a b) as [K|[->|K]]; [|tauto|tauto]. apply H2. eapply precedes_trans; eauto.
Qed.

(** ** UTF-8 keeps the order *)
Lemma utf8_lt x y a b : valid_rune x -> valid_rune y -> x < y -> str_ltb (utf8 x ++ a) (utf8 y ++ b) = true.
Proof.
  intros [Vx Sx] [Vy Sy] H. unfold utf8.
  replace (x / 4096) with (x / 64 / 64) by (rewrite Z.div_div by lia; reflexivity).
  replace (y / 4096) with (y / 64 / 64) by (rewrite Z.div_div by lia; reflexivity).
  replace (x / 262144) with (x / 64 / 64 / 64) by (rewrite !Z.div_div by lia; reflexivity).
  replace (y / 262144) with (y / 64 / 64 / 64) by (rewrite !Z.div_div by lia; reflexivity).
  pose proof (Z.div_mod x 64 ltac:(lia)) as X0. pose proof (Z.mod_pos_bound x 64 ltac:(lia)) as X0'.
  pose proof (Z.div_mod y 64 ltac:(lia)) as Y0. pose proof (Z.mod_pos_bound y 64 ltac:(lia)) as Y0'.
  set (x1 := x / 64) in *. set (y1 := y / 64) in *. set (xr := x mod 64) in *. set (yr := y mod 64) in *.
  pose proof (Z.div_mod x1 64 ltac:(lia)) as X1. pose proof (Z.mod_pos_bound x1 64 ltac:(lia)) as X1'.
  pose proof (Z.div_mod y1 64 ltac:(lia)) as Y1. pose proof (Z.mod_pos_bound y1 64 ltac:(lia)) as Y1'.
  set (x2 := x1 / 64) in *. set (y2 := y1 / 64) in *. set (x1r := x1 mod 64) in *. set (y1r := y1 mod 64) in *.
  pose proof (Z.div_mod x2 64 ltac:(lia)) as X2. pose proof (Z.mod_pos_bound x2 64 ltac:(lia)) as X2'.
  pose proof (Z.div_mod y2 64 ltac:(lia)) as Y2. pose proof (Z.mod_pos_bound y2 64 ltac:(lia)) as Y2'.
  set (x3 := x2 / 64) in *. set (y3 := y2 / 64) in *. set (x2r := x2 mod 64) in *. set (y2r := y2 mod 64) in *.
  clearbody x1 y1 xr yr x2 y2 x1r y1r x3 y3 x2r y2r.
  replace ((0 <=? x)) with true by lia. replace ((0 <=? y)) with true by lia. cbn [andb].
  replace ((x <? 0) || (1114111 <? x) || ((55296 <=? x) && (x <=? 57343))) with false by lia.
  replace ((y <? 0) || (1114111 <? y) || ((55296 <=? y) && (y <=? 57343))) with false by lia.
  destruct (x <=? 127) eqn:A1; [|destruct (x <=? 2047) eqn:A2; [|destruct (x <=? 65535) eqn:A3]];
  (destruct (y <=? 127) eqn:B1; [|destruct (y <=? 2047) eqn:B2; [|destruct (y <=? 65535) eqn:B3]]);
  cbn [app str_ltb];
  repeat match goal with |- context [?p <? ?q] => destruct (p <? q) eqn:?; try reflexivity; try (exfalso; lia) end.
Qed.
Lemma utf8_nonempty r : exists b l, utf8 r = b :: l.
Proof. unfold utf8. repeat match goal with |- context [if ?c then _ else _] => destruct c end; eexists _, _; reflexivity. Qed.

Definition bytes (l : list Z) : list Z := flat_map utf8 l.
Lemma bytes_order u : forall v, Forall valid_rune u -> Forall valid_rune v -> str_ltb (bytes u) (bytes v) = str_ltb u v.
Proof.
  induction u as [|x u IH]; intros [|y v] Hu Hv.
  - reflexivity.
  - cbn [bytes flat_map]. destruct (utf8_nonempty y) as (b & l & ->). reflexivity.
  - cbn [bytes flat_map]. destruct (utf8_nonempty x) as (b & l & ->). reflexivity.
  - inversion Hu; subst. inversion Hv; subst. cbn [bytes flat_map]. fold (bytes u). fold (bytes v). cbn [str_ltb].
    destruct (x <? y) eqn:E1; [apply utf8_lt; auto; lia|]. destruct (y <? x) eqn:E2.
    + destruct (str_ltb (utf8 x ++ bytes u) (utf8 y ++ bytes v)) eqn:E; [|reflexivity].
      pose proof (utf8_lt y x (bytes v) (bytes u) ltac:(auto) ltac:(auto) ltac:(lia)) as E'.
      pose proof (str_ltb_trans _ _ _ E E') as E''. rewrite str_ltb_irrefl in E''. discriminate.
    + assert (x = y) by lia. subst y. rewrite str_ltb_app. auto.
Qed.

(** ** Runes *)
Local Notation V := (T num_rune).
Local Notation mat := (mat num_rune).
Local Notation world := (world num_rune).
Local Notation ent := (Z * Z * V)%type.
Implicit Types w : world.
Implicit Types m : mat.

Lemma rune_zero : zero_ok num_rune.
Proof. reflexivity. Qed.
Lemma rune_in : In num_rune go_ints.
Proof. unfold go_ints. cbn. auto. Qed.
Lemma rune_sane : sane num_rune.
Proof. apply go_ints_sane, rune_in. Qed.
Lemma rune_cmp : cmp_ok num_rune.
Proof. apply go_types_cmp. right. right. apply rune_in. Qed.
Lemma code_inj (a b : V) : code a = code b -> a = b.
Proof. apply wint_ext. Qed.
Lemma codes_inj (a b : list V) : codes a = codes b -> a = b.
Proof.
  revert b. induction a as [|x a IH]; intros [|y b]; cbn; intros H; try discriminate; [reflexivity|].
  injection H as H1 H2. f_equal; [apply code_inj; exact H1|auto].
Qed.
Lemma rune_eqb (a b : V) : neqb a b = true <-> a = b.
Proof.
  change (neqb a b) with (code a =? code b). rewrite Z.eqb_eq. split; [apply code_inj|intros ->; reflexivity].
Qed.

(** ** String *)
Definition text (l : list ent) : list Z := bytes (codes (map snd l)).

Lemma string_loop_run E m : forall rest it done w fuel acc p, it_rel m it done rest -> obj w p m -> (length rest <= fuel)%nat ->
  exists w' l l', string_loop E fuel p it acc w = (w', Ok (acc ++ text l)) /\ w_heap w' = w_heap w /\ rest = l ++ l' /\
    (e_ctx E = None -> l' = []).
Proof.
  induction rest as [|[[r c] v] rest IH]; intros it done w fuel acc p Hit Ho Hf.
  - exists w, [], []. split; [|auto]. cbn [text map bytes flat_map codes]. rewrite app_nil_r.
    destruct fuel; simpl; rewrite (it_rel_HasNext _ _ _ _ Hit); reflexivity.
  - destruct fuel as [|fuel]; [simpl in Hf; lia|]. cbn [string_loop]. rewrite (it_rel_HasNext _ _ _ _ Hit).
    destruct (poll_heap E w) as (w1 & b & Hp & Hh & Hbg). rewrite (mbind_ok _ _ _ _ _ Hp). destruct b.
    + exists w1, [], ((r, c, v) :: rest). cbn [text map bytes flat_map codes]. rewrite app_nil_r. split; [reflexivity|]. split; [exact Hh|].
      split; [reflexivity|]. intros Hn. destruct (Hbg Hn). discriminate.
    + assert (Ho1 : obj w1 p m) by (unfold obj in *; rewrite Hh; exact Ho).
      rewrite (mbind_ok _ _ _ _ _ (load_ok _ _ _ Ho1)).
      destruct (it_rel_step _ _ _ _ _ _ _ Hit) as (it' & Hn & Hc & Hr & _).
      unfold mat_Next. rewrite Hn. cbn [rbind]. rewrite Hc. cbn [rbind]. rewrite mbind_lift.
      destruct (IH it' _ w1 fuel (acc ++ utf8 (code v)) p Hr Ho1 (le_S_n _ _ Hf)) as (w2 & l & l' & E2 & H2 & El & Hl).
      exists w2, ((r, c, v) :: l), l'. split; [rewrite E2; cbn [text map bytes flat_map codes snd]; rewrite <- app_assoc; reflexivity|].
      split; [congruence|]. split; [rewrite El; reflexivity|exact Hl].
Qed.

Lemma dense_size m : wf m -> is_dense m -> 0 <= mat_Size m.
Proof.
  intros H D. replace (mat_Size m) with (mat_Values m) by (destruct m; try contradiction; reflexivity).
  rewrite <- zlen_entries by auto. apply zlen_nonneg.
Qed.

Lemma entries_dense m R C f : wf m -> is_dense m -> denotes m R C f -> entries m = map (fun q => (q, f (fst q) (snd q))) (positions R C).
Proof.
  intros Hw Hd Hden. pose proof Hden as (ER & EC & _).
  assert (Hg : good m) by (split; [auto|destruct m; try contradiction; discriminate]).
  assert (Hsp : is_sp m = false) by (destruct m; try contradiction; reflexivity).
  assert (Hp : map fst (entries m) = positions R C) by (rewrite entries_dense_pos by auto; rewrite ER, EC; reflexivity).
  rewrite <- Hp, map_map. rewrite <- (map_id (entries m)) at 1. apply map_ext_in. intros [[i j] v] Hin. cbn [fst snd].
  apply (entries_spec m) in Hin; [|apply rune_zero|auto]. destruct Hin as (Hb & Hv & _).
  rewrite <- Hv. f_equal. eapply denotes_peek; eauto.
Qed.
Lemma map_positions R C f : map (fun q => f (fst q) (snd q)) (positions R C) = row_major R C f.
Proof.
  unfold positions, row_major. induction (zrange 0 R) as [|i l IH]; [reflexivity|]. cbn [flat_map]. rewrite map_app, IH. f_equal.
  unfold line. rewrite map_map. reflexivity.
Qed.

Lemma String_run E w s m R C f : wfw w -> obj w s m -> is_dense m -> denotes m R C f -> R * C <= Z.of_nat (e_fuel E) ->
  exists w' l l', RuneString E s w = (w', Ok (bytes (codes l))) /\ w_heap w' = w_heap w /\ row_major R C f = l ++ l' /\ (e_ctx E = None -> l' = []).
Proof.
  intros Hw Ho Hd Hden Hf. assert (W := Hw _ _ Ho). unfold RuneString.
  assert (Es : p_Size s w = (w, Ok (mat_Size m))) by (unfold p_Size; rewrite (mbind_ok _ _ _ _ _ (load_ok _ _ _ Ho)); reflexivity).
  rewrite (mbind_ok _ _ _ _ _ Es). pose proof (dense_size m W Hd). replace (mat_Size m <? 0) with false by lia.
  rewrite (mbind_ok _ _ _ _ _ (load_ok _ _ _ Ho)).
  pose proof (zlen_entries m W) as Hl. pose proof (dense_values m R C f rune_zero W Hd Hden) as Hv.
  destruct (string_loop_run E m (entries m) (mat_iterator m) [] w (e_fuel E) [] s (entries_rel m W) Ho) as (w' & l & l' & E1 & H1 & H2 & H3).
  { unfold zlen in Hl. lia. }
  exists w', (map snd l), (map snd l'). split; [exact E1|]. split; [exact H1|]. split.
  - rewrite <- map_positions, <- map_app, <- H2, (entries_dense m R C f W Hd Hden), map_map. reflexivity.
  - intros Hc. rewrite H3 by auto. reflexivity.
Qed.

(** ** Equal and Compare *)
Lemma verdict_same sps spm (S Mo : mat) R C R' C' f g : wf S -> wf Mo -> is_dense S -> is_dense Mo ->
  denotes S R C f -> denotes Mo R' C' g ->
  (verdict sps spm S Mo = true <-> R = R' /\ C = C' /\ forall i j, 0 <= i < R -> 0 <= j < C -> f i j = g i j).
Proof.
  intros Ws Wm Ps Pm Ds Dm. pose proof Ds as (SR & SC & _). pose proof Dm as (MR & MC & _).
  assert (Gs : good S) by (split; [auto|destruct S; try contradiction; discriminate]).
  assert (Gm : good Mo) by (split; [auto|destruct Mo; try contradiction; discriminate]).
  assert (Ts : forall v, stored S v = true) by (intros; destruct S; try contradiction; reflexivity).
  assert (Tm : forall v, stored Mo v = true) by (intros; destruct Mo; try contradiction; reflexivity).
  assert (Key : R = R' -> C = C' -> (verdict sps spm S Mo = true <-> all_equal R C f g)).
  { intros <- <-. destruct (Bool.bool_dec spm (negb sps)) as [->|N].
    - rewrite (verdict_mixed sps S Mo R C f g rune_zero rune_cmp Gs Gm Ds Dm). unfold all_equal. split; intros H i j Hi Hj.
      + apply H; auto. destruct sps; [apply Ts|apply Tm].
      + intros _. apply H; auto.
    - assert (spm = sps) as -> by (destruct spm, sps; auto; contradiction N; reflexivity).
      destruct sps; [|apply (verdict_dense S Mo R C f g rune_zero rune_cmp); auto].
      unfold verdict. rewrite SR, SC, MR, MC, !Z.eqb_refl. cbn [andb Bool.eqb].
      rewrite (dense_values S R C f rune_zero), (dense_values Mo R C g rune_zero), Z.eqb_refl by auto. cbn [negb].
      rewrite (agrees_cells S Mo R C f g rune_zero) by auto. unfold all_equal. split; intros H i j Hi Hj; [apply H; auto|intros _; apply H; auto]. }
  split.
  - intros H. destruct (verdict_shape _ _ _ _ H) as [E1 E2]. assert (ER : R = R') by congruence. assert (EC : C = C') by congruence.
    split; [exact ER|]. split; [exact EC|]. intros i j Hi Hj. apply rune_eqb. apply (proj1 (Key ER EC) H); auto.
  - intros (ER & EC & H). apply Key; auto. intros i j Hi Hj. apply rune_eqb. apply H; auto.
Qed.

Lemma Equal_same E w (s m : ptr) S Mo R C R' C' f g : wfw w -> obj w s S -> obj w m Mo -> is_dense S -> is_dense Mo ->
  denotes S R C f -> denotes Mo R' C' g -> R * C <= Z.of_nat (e_fuel E) -> R' * C' <= Z.of_nat (e_fuel E) ->
  exists w' b, m_Equal E s (Some m) w = (w', Ok b) /\ w_heap w' = w_heap w /\
    (b = true <-> R = R' /\ C = C' /\ forall i j, 0 <= i < R -> 0 <= j < C -> f i j = g i j).
Proof.
  intros Hw Hs Hm Ps Pm Ds Dm F1 F2. assert (Ws := Hw _ _ Hs). assert (Wm := Hw _ _ Hm).
  destruct (Equal_run (bg E) w s m S Mo _ _ rune_zero Hw Hs Hm eq_refl eq_refl) as (w' & b & E1 & H1 & Hb & _).
  { cbn [e_fuel bg]. destruct (IsSparseMatrix _ S).
    - rewrite (dense_values S R C f rune_zero Ws Ps Ds). exact F1.
    - rewrite (dense_values Mo R' C' g rune_zero Wm Pm Dm). exact F2. }
  exists w', b. split; [exact E1|]. split; [exact H1|]. rewrite (Hb eq_refl). apply verdict_same; auto.
Qed.

Lemma Forall_app_l {A} (P : A -> Prop) a b : Forall P (a ++ b) -> Forall P a.
Proof. rewrite Forall_app. tauto. Qed.

Lemma Less_run E w (s m : ptr) S Mo R C R' C' f g : wfw w -> obj w s S -> obj w m Mo -> is_dense S -> is_dense Mo ->
  denotes S R C f -> denotes Mo R' C' g -> R * C <= Z.of_nat (e_fuel E) -> R' * C' <= Z.of_nat (e_fuel E) ->
  exists w' b b', Less E s m w = (w', Ok b) /\ Greater E s m w = (w', Ok b') /\ w_heap w' = w_heap w /\
    (e_ctx E = None -> Forall valid_rune (codes (row_major R C f)) -> Forall valid_rune (codes (row_major R' C' g)) ->
     (b = true <-> precedes (codes (row_major R C f)) (codes (row_major R' C' g))) /\
     (b' = true <-> precedes (codes (row_major R' C' g)) (codes (row_major R C f)))).
Proof.
  intros Hw Hs Hm Ps Pm Ds Dm F1 F2. unfold Less, Greater.
  destruct (String_run E w s S R C f Hw Hs Ps Ds F1) as (w1 & l1 & k1 & E1 & H1 & X1 & Y1).
  rewrite (mbind_ok _ _ _ _ _ E1). rewrite (mbind_ok _ _ _ _ _ E1). assert (Hm1 : obj w1 m Mo) by (unfold obj in *; rewrite H1; exact Hm).
  destruct (String_run E w1 m Mo R' C' g (wfw_heap _ _ H1 Hw) Hm1 Pm Dm F2) as (w2 & l2 & k2 & E2 & H2 & X2 & Y2).
  rewrite !(mbind_ok _ _ _ _ _ E2). eexists w2, _, _. split; [reflexivity|]. split; [reflexivity|]. split; [congruence|].
  intros Hc V1 V2. specialize (Y1 Hc). specialize (Y2 Hc). subst k1 k2. rewrite app_nil_r in X1, X2. subst l1 l2.
  rewrite !bytes_order by auto. split; apply str_ltb_precedes.
Qed.

Lemma row_major_cells R C f g : (forall i j, 0 <= i < R -> 0 <= j < C -> f i j = g i j) -> row_major R C f = row_major R C g.
Proof.
  intros H. unfold row_major. rewrite !flat_map_concat_map. f_equal. apply map_ext_in. intros i Hi. apply in_zrange in Hi.
  unfold line. apply map_ext_in. intros j Hj. apply in_zrange in Hj. auto.
Qed.

Lemma Compare_run E w (s m : ptr) S Mo R C R' C' f g : wfw w -> obj w s S -> obj w m Mo -> is_dense S -> is_dense Mo ->
  denotes S R C f -> denotes Mo R' C' g -> R * C <= Z.of_nat (e_fuel E) -> R' * C' <= Z.of_nat (e_fuel E) ->
  exists w' z, Compare E s m w = (w', Ok z) /\ w_heap w' = w_heap w /\ (z = 0 \/ z = -1 \/ z = 1) /\
    (e_ctx E = None -> Forall valid_rune (codes (row_major R C f)) -> Forall valid_rune (codes (row_major R' C' g)) ->
     (z = 0 <-> R = R' /\ C = C' /\ forall i j, 0 <= i < R -> 0 <= j < C -> f i j = g i j) /\
     (z = -1 <-> precedes (codes (row_major R C f)) (codes (row_major R' C' g)))).
Proof.
  intros Hw Hs Hm Ps Pm Ds Dm F1 F2. unfold Compare.
  destruct (poll_heap E w) as (w1 & b1 & E1 & H1 & B1). rewrite (mbind_ok _ _ _ _ _ E1). destruct b1.
  { exists w1, 0. split; [reflexivity|]. split; [exact H1|]. split; [auto|]. intros Hc. destruct (B1 Hc). discriminate. }
  assert (Hs1 : obj w1 s S) by (unfold obj in *; rewrite H1; exact Hs). assert (Hm1 : obj w1 m Mo) by (unfold obj in *; rewrite H1; exact Hm).
  assert (Hw1 := wfw_heap _ _ H1 Hw).
  destruct (Equal_same E w1 s m S Mo R C R' C' f g Hw1 Hs1 Hm1 Ps Pm Ds Dm F1 F2) as (w2 & b2 & E2 & H2 & B2).
  rewrite (mbind_ok _ _ _ _ _ E2). destruct b2.
  { exists w2, 0. split; [reflexivity|]. split; [congruence|]. split; [auto|]. intros Hc _ _. split; [tauto|]. split; [discriminate|].
    destruct (proj1 B2 eq_refl) as (<- & <- & K). rewrite (row_major_cells R C f g K). intros H. destruct (precedes_irrefl _ H). }
  assert (Hs2 : obj w2 s S) by (unfold obj in *; rewrite H2; exact Hs1). assert (Hm2 : obj w2 m Mo) by (unfold obj in *; rewrite H2; exact Hm1).
  assert (Hw2 := wfw_heap _ _ H2 Hw1).
  destruct (poll_heap E w2) as (w3 & b3 & E3 & H3 & B3). rewrite (mbind_ok _ _ _ _ _ E3). destruct b3.
  { exists w3, 0. split; [reflexivity|]. split; [congruence|]. split; [auto|]. intros Hc. destruct (B3 Hc). discriminate. }
  assert (Hs3 : obj w3 s S) by (unfold obj in *; rewrite H3; exact Hs2). assert (Hm3 : obj w3 m Mo) by (unfold obj in *; rewrite H3; exact Hm2).
  assert (Hw3 := wfw_heap _ _ H3 Hw2).
  destruct (Less_run E w3 s m S Mo R C R' C' f g Hw3 Hs3 Hm3 Ps Pm Ds Dm F1 F2) as (w4 & b4 & b5 & E4 & _ & H4 & B4).
  rewrite (mbind_ok _ _ _ _ _ E4). exists w4, (if b4 then -1 else 1). split; [destruct b4; reflexivity|]. split; [congruence|].
  split; [destruct b4; auto|]. intros Hc V1 V2. destruct (B4 Hc V1 V2) as [B4' _]. split.
  - rewrite <- B2. destruct b4; split; discriminate.
  - rewrite <- B4'. destruct b4; split; congruence.
Qed.

(** ** Lines *)

(** write the sequence [u] over line [k] *)
Definition set_line (h : Z -> Z -> V) (k : Z) (u : Z -> V) : Z -> Z -> V := fun k' c => if k' =? k then u c else h k' c.
Definition swap (h : Z -> Z -> V) (j i : Z) : Z -> Z -> V := set_line (set_line h j (h i)) i (h j).
Definition lines (h : Z -> Z -> V) (K L : Z) : list (list V) := map (fun k => line (h k) L) (zrange 0 K).

Lemma lines_swap h K L j i : 0 <= j < i -> i < K -> Permutation (lines (swap h j i) K L) (lines h K L).
Proof.
  intros Hj Hi. unfold lines. rewrite (zrange_split 0 j K), (zrange_cons j K), (zrange_split (j + 1) i K), (zrange_cons i K) by lia.
  rewrite !map_app. cbn [map]. rewrite !map_app. cbn [map].
  assert (Same : forall a b, (forall k, a <= k < b -> k <> i /\ k <> j) -> map (fun k => line (swap h j i k) L) (zrange a b) = map (fun k => line (h k) L) (zrange a b)).
  { intros a b H. apply map_ext_in. intros k Hk. apply in_zrange in Hk. destruct (H k Hk). unfold swap, set_line.
    unfold line. apply map_ext. intros c. replace (k =? i) with false by lia. replace (k =? j) with false by lia. reflexivity. }
  rewrite !Same by lia.
  assert (Ej : line (swap h j i j) L = line (h i) L).
  { unfold line, swap, set_line. apply map_ext. intros c. replace (j =? i) with false by lia. rewrite Z.eqb_refl. reflexivity. }
  assert (Ei : line (swap h j i i) L = line (h j) L).
  { unfold line, swap, set_line. apply map_ext. intros c. rewrite Z.eqb_refl. reflexivity. }
  rewrite Ej, Ei. apply Permutation_app_head.
  transitivity (line (h i) L :: line (h j) L :: map (fun k => line (h k) L) (zrange (j + 1) i) ++ map (fun k => line (h k) L) (zrange (i + 1) K)).
  - constructor. symmetry. apply Permutation_middle.
  - transitivity (line (h j) L :: line (h i) L :: map (fun k => line (h k) L) (zrange (j + 1) i) ++ map (fun k => line (h k) L) (zrange (i + 1) K)).
    + apply perm_swap.
    + constructor. apply Permutation_middle.
Qed.

(** the order of sequences of runes by code point; [after u v] is strict *)
Definition after_line (u v : Z -> V) (L : Z) : Prop := precedes (codes (line v L)) (codes (line u L)).

Lemma line_ext u v L : (forall c, 0 <= c < L -> u c = v c) -> line u L = line v L.
Proof. intros H. unfold line. apply map_ext_in. intros c Hc. apply in_zrange in Hc. auto. Qed.
Lemma line_inj u v L : line u L = line v L -> forall c, 0 <= c < L -> u c = v c.
Proof.
  intros H c Hc. unfold line in H.
  assert (In c (zrange 0 L)) as Hin by (apply in_zrange; auto).
  revert H Hin. generalize (zrange 0 L) as l. induction l as [|a l IH]; intros H Hin; [destruct Hin|].
  cbn [map] in H. injection H as H1 H2. destruct Hin as [<-|Hin]; [exact H1|auto].
Qed.
Lemma row_major_vec L u : row_major L 1 (fun i _ => u i) = line u L.
Proof.
  unfold row_major, line. rewrite (zrange_cons 0 1), (zrange_nil (0 + 1) 1) by lia.
  induction (zrange 0 L) as [|i l IH]; [reflexivity|]. cbn [flat_map map app] in *. rewrite <- IH; reflexivity.
Qed.

(** ** Lines as vectors *)
Lemma filter_length_le {A} (p : A -> bool) l : (length (filter p l) <= length l)%nat.
Proof. induction l as [|a l IH]; cbn; [lia|]. destruct (p a); cbn; lia. Qed.

(** the vector [X] shows the kept positions of [u] when enumerated; read by [At],
    a sparse vector may show zero instead *)
Definition shows (sp : bool) (keep : Z -> bool) (L : Z) (X : mat) (u : Z -> V) : Prop :=
  wf X /\ (match X with MDV _ => sp = false | MSV _ => sp = true | _ => False end) /\ mat_Rows X = L /\
  entries X = map (fun k => (k, 0, u k)) (filter keep (zrange 0 L)) /\
  (forall k, 0 <= k < L -> keep k = true -> peek X k 0 = u k \/ (peek X k 0 = n0 /\ u k <> n0)).

Lemma shows_string E w x sp keep L X u : wfw w -> obj w x X -> shows sp keep L X u -> L <= Z.of_nat (e_fuel E) ->
  exists w' l l', RuneString E x w = (w', Ok (bytes (codes l))) /\ w_heap w' = w_heap w /\ map u (filter keep (zrange 0 L)) = l ++ l' /\
    (e_ctx E = None -> l' = []).
Proof.
  intros Hw Ho (W & Hc & HR & He & _) Hf. unfold RuneString.
  assert (HL : 0 <= L) by (pose proof (wf_dims X W); lia).
  assert (Es : p_Size x w = (w, Ok L)).
  { unfold p_Size. rewrite (mbind_ok _ _ _ _ _ (load_ok _ _ _ Ho)). rewrite <- HR. destruct X; try contradiction; reflexivity. }
  rewrite (mbind_ok _ _ _ _ _ Es). replace (L <? 0) with false by lia. rewrite (mbind_ok _ _ _ _ _ (load_ok _ _ _ Ho)).
  destruct (string_loop_run E X (entries X) (mat_iterator X) [] w (e_fuel E) [] x (entries_rel X W) Ho) as (w' & l & l' & E1 & H1 & H2 & H3).
  { rewrite He, map_length. pose proof (filter_length_le keep (zrange 0 L)) as K. rewrite zrange_length in K. lia. }
  exists w', (map snd l), (map snd l'). split; [exact E1|]. split; [exact H1|]. split.
  - rewrite <- map_app, <- H2, He, map_map. reflexivity.
  - intros Hn. rewrite H3 by auto. reflexivity.
Qed.

Lemma kept_order (keep : Z -> bool) (u v : Z -> V) : forall l, (forall k, In k l -> keep k = false -> u k = v k) ->
  str_ltb (codes (map u (filter keep l))) (codes (map v (filter keep l))) = str_ltb (codes (map u l)) (codes (map v l)).
Proof.
  induction l as [|k l IH]; intros H; [reflexivity|]. cbn [filter]. destruct (keep k) eqn:Ek; cbn [map codes str_ltb]; fold (codes (map u l)); fold (codes (map v l)).
  - fold (codes (map u (filter keep l))). fold (codes (map v (filter keep l))). rewrite IH by (intros k' Hk'; apply H; right; exact Hk'). reflexivity.
  - rewrite IH by (intros k' Hk'; apply H; right; exact Hk'). rewrite (H k) by (auto; left; reflexivity). rewrite Z.ltb_irrefl. reflexivity.
Qed.

Lemma Forall_filter_map (P : Z -> Prop) (u : Z -> V) keep l : Forall P (codes (map u l)) -> Forall P (codes (map u (filter keep l))).
Proof.
  unfold codes. rewrite !map_map, !Forall_forall. intros H x Hx. apply in_map_iff in Hx. destruct Hx as (k & <- & Hk).
  apply filter_In in Hk. apply H. apply in_map_iff. exists k. tauto.
Qed.

Lemma Compare_lines E w x y sp keep L X Y u v : wfw w -> obj w x X -> obj w y Y -> shows sp keep L X u -> shows sp keep L Y v ->
  0 <= L <= Z.of_nat (e_fuel E) ->
  (forall k, 0 <= k < L -> keep k = false -> u k = n0 /\ v k = n0) ->
  (forall k, 0 <= k < L -> keep k = true -> sp = true -> u k <> n0 /\ v k <> n0) ->
  (sp = false -> forall k, 0 <= k < L -> keep k = true -> peek X k 0 = u k /\ peek Y k 0 = v k) ->
  exists w' z, Compare E x y w = (w', Ok z) /\ w_heap w' = w_heap w /\
    (e_ctx E = None -> Forall valid_rune (codes (line u L)) -> Forall valid_rune (codes (line v L)) ->
     (0 < z -> ~ after_line v u L) /\ (z <= 0 -> ~ after_line u v L)).
Proof.
  intros Hw Hx Hy Sx Sy HL Hkn Hks Hkd. unfold Compare.
  destruct (poll_heap E w) as (w1 & b1 & E1 & H1 & B1). rewrite (mbind_ok _ _ _ _ _ E1). destruct b1.
  { exists w1, 0. split; [reflexivity|]. split; [exact H1|]. intros Hc. destruct (B1 Hc). discriminate. }
  assert (Hx1 : obj w1 x X) by (unfold obj in *; rewrite H1; exact Hx). assert (Hy1 : obj w1 y Y) by (unfold obj in *; rewrite H1; exact Hy).
  assert (Hw1 := wfw_heap _ _ H1 Hw).
  pose proof Sx as (Wx & Cx & Rx & Ex & Px). pose proof Sy as (Wy & Cy & Ry & Ey & Py).
  assert (Vx : mat_Values X = zlen (filter keep (zrange 0 L))) by (rewrite <- zlen_entries, Ex, zlen_map by auto; reflexivity).
  assert (Vy : mat_Values Y = zlen (filter keep (zrange 0 L))) by (rewrite <- zlen_entries, Ey, zlen_map by auto; reflexivity).
  assert (VL : zlen (filter keep (zrange 0 L)) <= L).
  { unfold zlen. pose proof (filter_length_le keep (zrange 0 L)) as K. rewrite zrange_length in K. lia. }
  assert (Same : IsSparseMatrix (e_reg E) X = IsSparseMatrix (e_reg E) Y).
  { apply same_storage_name. destruct X, Y; try contradiction; cbn; auto; congruence. }
  destruct (Equal_run (bg E) w1 x y X Y _ _ rune_zero Hw1 Hx1 Hy1 eq_refl eq_refl) as (w2 & b2 & E2 & H2 & B2 & _).
  { cbn [e_fuel bg]. destruct (IsSparseMatrix _ X); lia. }
  unfold m_Equal. rewrite (mbind_ok _ _ _ _ _ E2). specialize (B2 eq_refl). cbn [e_reg bg] in B2. rewrite <- Same in B2.
  assert (Hpk : forall (A : mat) (ua : Z -> V) k (c : V), 0 <= k < L -> keep k = true -> c <> n0 \/ sp = false ->
     (peek A k 0 = ua k \/ (peek A k 0 = n0 /\ ua k <> n0)) -> (sp = false -> peek A k 0 = ua k) -> neqb c (peek A k 0) = true -> c = ua k).
  { intros A ua k c Hk Hkk Hc Hpa Hpd Hn. apply rune_eqb in Hn. destruct sp.
    - destruct Hpa as [Hz|[Hz Hnz]]; [congruence|]. destruct Hc as [Hc|]; [congruence|discriminate].
    - rewrite Hpd in Hn by reflexivity. exact Hn. }
  assert (Heq : b2 = true -> forall k, 0 <= k < L -> u k = v k).
  { intros -> k Hk. destruct (keep k) eqn:Ek.
    2:{ destruct (Hkn k Hk Ek) as [-> ->]. reflexivity. }
    assert (Hin : forall ua : Z -> V, In (k, 0, ua k) (map (fun k => (k, 0, ua k)) (filter keep (zrange 0 L)))).
    { intros ua. apply in_map_iff. exists k. split; [reflexivity|]. apply filter_In. split; [apply in_zrange; exact Hk|exact Ek]. }
    symmetry in B2. unfold verdict in B2. destruct ((_ =? _) && (_ =? _)); [|discriminate]. rewrite Vx, Vy, Z.eqb_refl, Bool.eqb_reflx in B2. cbn [negb andb] in B2.
    destruct (IsSparseMatrix (e_reg E) X); rewrite forallb_forall in B2.
    - rewrite Ex in B2. specialize (B2 _ (Hin u)). unfold agrees in B2. cbn [fst snd] in B2.
      apply (Hpk Y v k (u k)); auto; [|intros Hsp; apply Hkd; auto]. destruct sp; [left; apply (Hks k); auto|right; reflexivity].
    - rewrite Ey in B2. specialize (B2 _ (Hin v)). unfold agrees in B2. cbn [fst snd] in B2. symmetry.
      apply (Hpk X u k (v k)); auto; [|intros Hsp; apply Hkd; auto]. destruct sp; [left; apply (Hks k); auto|right; reflexivity]. }
  destruct b2.
  { exists w2, 0. split; [reflexivity|]. split; [congruence|]. intros Hc _ _. unfold after_line.
    rewrite (line_ext u v L (Heq eq_refl)). split; intros _; apply precedes_irrefl. }
  assert (Hx2 : obj w2 x X) by (unfold obj in *; rewrite H2; exact Hx1). assert (Hy2 : obj w2 y Y) by (unfold obj in *; rewrite H2; exact Hy1).
  assert (Hw2 := wfw_heap _ _ H2 Hw1).
  destruct (poll_heap E w2) as (w3 & b3 & E3 & H3 & B3). rewrite (mbind_ok _ _ _ _ _ E3). destruct b3.
  { exists w3, 0. split; [reflexivity|]. split; [congruence|]. intros Hc. destruct (B3 Hc). discriminate. }
  assert (Hx3 : obj w3 x X) by (unfold obj in *; rewrite H3; exact Hx2). assert (Hy3 : obj w3 y Y) by (unfold obj in *; rewrite H3; exact Hy2).
  assert (Hw3 := wfw_heap _ _ H3 Hw2).
  destruct (shows_string E w3 x sp keep L X u Hw3 Hx3 Sx ltac:(lia)) as (w4 & l4 & k4 & E4 & H4 & X4 & Y4).
  assert (Hy4 : obj w4 y Y) by (unfold obj in *; rewrite H4; exact Hy3).
  destruct (shows_string E w4 y sp keep L Y v (wfw_heap _ _ H4 Hw3) Hy4 Sy ltac:(lia)) as (w5 & l5 & k5 & E5 & H5 & X5 & Y5).
  assert (E6 : Less E x y w3 = (w5, Ok (str_ltb (bytes (codes l4)) (bytes (codes l5))))).
  { unfold Less. rewrite (mbind_ok _ _ _ _ _ E4), (mbind_ok _ _ _ _ _ E5). reflexivity. }
  rewrite (mbind_ok _ _ _ _ _ E6).
  exists w5, (if str_ltb (bytes (codes l4)) (bytes (codes l5)) then -1 else 1).
  split; [destruct (str_ltb _ _); reflexivity|]. split; [congruence|]. intros Hc V1 V2.
  specialize (Y4 Hc). specialize (Y5 Hc). subst k4 k5. rewrite app_nil_r in X4, X5. subst l4 l5.
  rewrite bytes_order by (apply Forall_filter_map; assumption).
  rewrite kept_order by (intros k Hk Ek; apply in_zrange in Hk; destruct (Hkn k Hk Ek) as [-> ->]; reflexivity).
  unfold after_line. rewrite <- !str_ltb_precedes. fold (line u L) (line v L). destruct (str_ltb (codes (line u L)) (codes (line v L))) eqn:Es.
  - split; [lia|]. intros _ H. pose proof (str_ltb_trans _ _ _ Es H) as K. rewrite str_ltb_irrefl in K. discriminate.
  - split; [intros _ K; discriminate|lia].
Qed.

(** ** The sort, for lines read by [get] and written by [put] *)
Section Bubble.
Variables (E : env) (res : ptr) (K L : Z) (sp : bool) (keep : Z -> bool).
Variable get : Z -> M num_rune ptr.
Variable put : Z -> Z -> V -> M num_rune unit.
Variable den : mat -> (Z -> Z -> V) -> Prop.
(** dense lines keep every position; sparse lines keep the non-zero ones, which are
    the same in every line *)
Definition fits (h : Z -> Z -> V) : Prop :=
  if sp then forall k c, 0 <= k < K -> 0 <= c < L -> (keep c = true <-> h k c <> n0)
  else forall c, 0 <= c < L -> keep c = true.
Definition class (O : mat) : Prop := if sp then is_sparse_matrix O else is_dense O.
Hypothesis HL : 0 <= L <= Z.of_nat (e_fuel E).
Hypothesis Hden : forall O h h', den O h -> (forall k c, 0 <= k < K -> 0 <= c < L -> h k c = h' k c) -> den O h'.
Hypothesis Hget : forall w O h k, wfw w -> obj w res O -> class O -> den O h -> fits h -> 0 <= k < K ->
  exists X, get k w = (ext w X, Ok (length (w_heap w))) /\ shows sp keep L X (h k) /\
    (sp = false -> forall c, 0 <= c < L -> peek X c 0 = h k c).
Hypothesis Hput : forall w O h k c v, wfw w -> obj w res O -> class O -> den O h -> 0 <= k < K -> 0 <= c < L ->
  exists w' O', put k c v w = (w', Ok tt) /\ wfw w' /\ extends_but res w w' /\ obj w' res O' /\ same_storage O O' /\
    den O' (fun k' c' => if (k' =? k) && (c' =? c) then v else h k' c').

Definition st (w0 : world) (O0 : mat) (h : Z -> Z -> V) w : Prop :=
  wfw w /\ extends_but res w0 w /\ exists O, obj w res O /\ same_storage O0 O /\ den O h.

Lemma class_same A B : same_storage A B -> class A -> class B.
Proof. unfold class. destruct sp, A, B; simpl; tauto. Qed.

(** is the position among those already written? *)
Definition mem (c : Z) (done : list ent) : bool := existsb (fun e => fst (fst e) =? c) done.
Lemma mem_app c a b : mem c (a ++ b) = mem c a || mem c b.
Proof. unfold mem. apply existsb_app. Qed.
Lemma mem_all c (u : Z -> V) : 0 <= c < L -> mem c (map (fun k => (k, 0, u k)) (filter keep (zrange 0 L))) = keep c.
Proof.
  intros Hc. unfold mem. apply Bool.eq_true_iff_eq. rewrite existsb_exists. split.
  - intros (e & He & Hec). apply in_map_iff in He. destruct He as (k & <- & Hk). apply filter_In in Hk. cbn in Hec.
    replace c with k by lia. tauto.
  - intros Hk. exists (c, 0, u c). split; [apply in_map_iff; exists c; split; [reflexivity|]; apply filter_In; split; [apply in_zrange; exact Hc|exact Hk]|cbn; lia].
Qed.

Lemma write_line_run w O h k v X u : wfw w -> obj w res O -> class O -> den O h -> 0 <= k < K -> v <> res -> obj w v X -> shows sp keep L X u ->
  (forall c, 0 <= c < L -> keep c = false -> h k c = u c) ->
  exists w', write_line E v (fun c x => put k c x) w = (w', Ok tt) /\ st w O (set_line h k u) w'.
Proof.
  intros Hw Ho Hd Dn Hk Nv Hv Sv Hkn. unfold write_line. destruct Sv as (Wv & Cv & Rv & Ev & _).
  set (Inv := fun (done : list ent) w' => st w O (fun k' c => if (k' =? k) && mem c done then u c else h k' c) w').
  destruct (enumerate_inv (bg E) v tt (fun c _ x => put k c x ;!; mret None) X Inv (fun _ _ _ _ => False) w) as (w' & o & E1 & HQ).
  - exact Wv.
  - cbn [e_fuel bg]. rewrite <- zlen_entries, Ev, zlen_map by auto. unfold zlen.
    pose proof (filter_length_le keep (zrange 0 L)) as Kf. rewrite zrange_length in Kf. lia.
  - intros done w' (_ & Xt & _). apply Xt; auto.
  - intros done w1 w2 (A & B & O' & C1 & C2 & C3) Hh. split; [eapply wfw_heap; eauto|]. split.
    + intros p x Np Hp. unfold obj. rewrite Hh. apply B; auto.
    + exists O'. split; [unfold obj; rewrite Hh; exact C1|auto].
  - intros done r c x rest w1 He (A & B & O' & C1 & C2 & C3).
    assert (Hr : x = u r /\ 0 <= r < L).
    { assert (Hin : In (r, c, x) (entries X)) by (rewrite He; apply in_or_app; right; left; reflexivity).
      rewrite Ev in Hin. apply in_map_iff in Hin. destruct Hin as (r' & Er & Hr'). injection Er as <- _ <-.
      apply filter_In in Hr'. destruct Hr' as [Hr' _]. apply in_zrange in Hr'. auto. }
    destruct Hr as (Ex & Hr).
    destruct (Hput w1 O' _ k r x A C1 (class_same _ _ C2 Hd) C3 Hk Hr) as (w2 & O2 & E2 & W2 & X2 & P2 & S2 & D2).
    exists w2, None. split; [rewrite (mbind_ok _ _ _ _ _ E2); reflexivity|]. split; [exact W2|]. split.
    + intros p y Np Hp. apply X2; auto.
    + exists O2. split; [exact P2|]. split; [eapply same_storage_trans; eauto|]. eapply Hden; [exact D2|]. intros k' c' Hk' Hc'. cbn beta.
      destruct (k' =? k) eqn:Ek; cbn [andb]; [|reflexivity]. rewrite mem_app. unfold mem at 3. cbn [existsb fst]. rewrite Bool.orb_false_r.
      rewrite (Z.eqb_sym r c'). destruct (c' =? r) eqn:Ec.
      * rewrite Bool.orb_true_r. subst x. f_equal. lia.
      * rewrite Bool.orb_false_r. reflexivity.
  - split; [exact Hw|]. split; [intros p x _ Hp; exact Hp|]. exists O. split; [exact Ho|]. split; [apply same_storage_refl|].
    eapply Hden; [exact Dn|]. intros k' c' Hk' Hc'. cbn [mem existsb]. rewrite Bool.andb_false_r. reflexivity.
  - rewrite (mbind_ok _ _ _ _ _ E1). exists w'. split; [reflexivity|].
    destruct HQ as [[-> (A & B & O' & C1 & C2 & C3)]|[(_ & Hc & _)|(d & e & l & x & _ & _ & [])]]; [|contradiction Hc; reflexivity].
    split; [exact A|]. split; [exact B|]. exists O'. split; [exact C1|]. split; [exact C2|]. eapply Hden; [exact C3|].
    intros k' c' Hk' Hc'. cbn beta. unfold set_line. rewrite Ev, mem_all by auto.
    destruct (k' =? k) eqn:Ek; [|reflexivity]. cbn [andb]. destruct (keep c') eqn:Ekc; [reflexivity|].
    replace k' with k by lia. apply Hkn; auto.
Qed.

Definition all_valid (h : Z -> Z -> V) : Prop := forall k, 0 <= k < K -> Forall valid_rune (codes (line (h k) L)).

Lemma fits_zero h k c : fits h -> 0 <= k < K -> 0 <= c < L -> keep c = false -> sp = true /\ h k c = n0.
Proof.
  unfold fits. destruct sp; intros Hf Hk Hc Hkc.
  - split; [reflexivity|]. destruct (neqb (h k c) n0) eqn:En; [apply rune_eqb; exact En|]. exfalso.
    assert (keep c = true); [|congruence]. apply (Hf k c); auto. intros Hz. rewrite Hz in En. discriminate.
  - rewrite Hf in Hkc by auto. discriminate.
Qed.
Lemma fits_swap h j i : 0 <= j < K -> 0 <= i < K -> fits h -> fits (swap h j i).
Proof.
  intros Hj Hi. unfold fits. destruct sp; [|auto]. intros Hf k c Hk Hc. unfold swap, set_line.
  destruct (k =? i); [apply Hf; auto|]. destruct (k =? j); apply Hf; auto.
Qed.

(** one comparison of the inner loop *)
Lemma bubble_step w0 O0 h w j i : class O0 -> st w0 O0 h w -> fits h -> 0 <= j < i -> i < K ->
  exists w' (b : bool),
    (let! vj := get j in
     let! vi := get i in
     let! o := Compare E vj vi in
     if 0 <? o then
       write_line E vi (fun c v => put j c v) ;!;
       write_line E vj (fun c v => put i c v) ;!;
       mret (@None unit)
     else mret None) w = (w', Ok None) /\
    st w0 O0 (if b then swap h j i else h) w' /\
    (e_ctx E = None -> all_valid h -> (b = true -> ~ after_line (h i) (h j) L) /\ (b = false -> ~ after_line (h j) (h i) L)).
Proof.
  intros HO (Hw & Hx & O & Ho & Hs & Hd) Hft Hj Hi. assert (DO := class_same _ _ Hs HO).
  destruct (Hget w O h j Hw Ho DO Hd Hft ltac:(lia)) as (Xj & Ej & Sj & Pj). rewrite (mbind_ok _ _ _ _ _ Ej).
  set (w1 := ext w Xj).
  assert (W1 : wfw w1) by (apply wfw_ext; [exact Hw|apply Sj]).
  assert (O1 : obj w1 res O) by (apply obj_ext_old; exact Ho).
  destruct (Hget w1 O h i W1 O1 DO Hd Hft ltac:(lia)) as (Xi & Ei & Si & Pi). rewrite (mbind_ok _ _ _ _ _ Ei).
  set (w2 := ext w1 Xi).
  assert (W2 : wfw w2) by (apply wfw_ext; [exact W1|apply Si]).
  assert (O2 : obj w2 res O) by (apply obj_ext_old; exact O1).
  set (vj := length (w_heap w)). set (vi := length (w_heap w1)).
  assert (Oj : obj w2 vj Xj) by (apply obj_ext_old; apply obj_ext_new).
  assert (Oi : obj w2 vi Xi) by (apply obj_ext_new).
  assert (Lt : (res < vj)%nat) by (unfold vj; eapply obj_lt; exact Ho).
  assert (Lt' : (vj < vi)%nat) by (unfold vi, vj; unfold w1, ext; cbn; rewrite app_length; cbn; lia).
  destruct (Compare_lines E w2 vj vi sp keep L Xj Xi (h j) (h i) W2 Oj Oi Sj Si HL) as (w3 & z & E3 & H3 & Z3).
  { intros k Hk Hkk. split; eapply fits_zero; eauto; lia. }
  { intros k Hk Hkk Hsp. unfold fits in Hft. rewrite Hsp in Hft. split; apply Hft; auto; lia. }
  { intros Hsp k Hk Hkk. auto. }
  rewrite (mbind_ok _ _ _ _ _ E3).
  assert (W3 : wfw w3) by (eapply wfw_heap; eauto).
  assert (Tr : forall p x, obj w2 p x -> obj w3 p x) by (intros p x Hp; unfold obj; rewrite H3; exact Hp).
  assert (Up : forall p x, obj w p x -> obj w3 p x) by (intros p x Hp; apply Tr; apply obj_ext_old; apply obj_ext_old; exact Hp).
  assert (Hcmp : e_ctx E = None -> all_valid h -> (0 < z -> ~ after_line (h i) (h j) L) /\ (z <= 0 -> ~ after_line (h j) (h i) L)).
  { intros Hc Hv. apply Z3; auto; apply Hv; lia. }
  destruct (0 <? z) eqn:Ez.
  - destruct (write_line_run w3 O h j vi Xi (h i) W3 (Tr _ _ O2) DO Hd ltac:(lia) ltac:(lia) (Tr _ _ Oi) Si) as (w4 & E4 & W4 & X4 & O4 & P4 & S4 & D4).
    { intros c Hc Hkc. destruct (fits_zero h j c Hft ltac:(lia) Hc Hkc) as [_ ->]. destruct (fits_zero h i c Hft ltac:(lia) Hc Hkc) as [_ ->]. reflexivity. }
    rewrite (mbind_ok _ _ _ _ _ E4).
    destruct (write_line_run w4 O4 _ i vj Xj (h j) W4 P4 (class_same _ _ S4 DO) D4 ltac:(lia) ltac:(lia)) as (w5 & E5 & W5 & X5 & O5 & P5 & S5 & D5).
    { apply X4; [lia|apply Tr; exact Oj]. }
    { exact Sj. }
    { intros c Hc Hkc. unfold set_line. destruct (i =? j); destruct (fits_zero h j c Hft ltac:(lia) Hc Hkc) as [_ ->]; destruct (fits_zero h i c Hft ltac:(lia) Hc Hkc) as [_ ->]; reflexivity. }
    rewrite (mbind_ok _ _ _ _ _ E5). exists w5, true. split; [reflexivity|]. split.
    2:{ intros Hc Hv. split; [intros _; apply (Hcmp Hc Hv); lia|discriminate]. }
    split; [exact W5|]. split; [intros p x Np Hp; apply X5; auto; apply X4; auto|].
    exists O5. split; [exact P5|]. split; [eapply same_storage_trans; [|exact S5]; eapply same_storage_trans; [|exact S4]; exact Hs|exact D5].
  - exists w3, false. split; [reflexivity|]. split.
    2:{ intros Hc Hv. split; [discriminate|intros _; apply (Hcmp Hc Hv); lia]. }
    split; [exact W3|]. split; [intros p x Np Hp; apply Up; apply Hx; auto|]. exists O. split; [apply Tr; exact O2|auto].
Qed.

Definition le (h : Z -> Z -> V) (a b : Z) : Prop := ~ after_line (h a) (h b) L.

Lemma swap_at h j i k : swap h j i k = (if k =? i then h j else if k =? j then h i else h k).
Proof. unfold swap, set_line. destruct (k =? i), (k =? j); reflexivity. Qed.
Lemma in_lines h k : 0 <= k < K -> In (line (h k) L) (lines h K L).
Proof. intros H. unfold lines. apply in_map_iff. exists k. split; [reflexivity|apply in_zrange; exact H]. Qed.
Lemma perm_valid h f : Permutation (lines h K L) (lines f K L) -> all_valid f -> all_valid h.
Proof.
  intros P Hf k Hk. pose proof (Permutation_in _ P (in_lines h k Hk)) as Hin. unfold lines in Hin. apply in_map_iff in Hin.
  destruct Hin as (k' & E1 & Hk'). apply in_zrange in Hk'. rewrite <- E1. apply Hf, Hk'.
Qed.

Lemma bubble_run w O f : wfw w -> obj w res O -> class O -> den O f -> fits f ->
  exists w' O' h, bubble E K get put w = (w', Ok tt) /\ wfw w' /\ extends_but res w w' /\ obj w' res O' /\ same_storage O O' /\ den O' h /\
    Permutation (lines h K L) (lines f K L) /\
    (e_ctx E = None -> all_valid f -> forall a b, 0 <= a < b -> b < K -> le h a b).
Proof.
  intros Hw Ho HO Hd Hft. unfold bubble.
  set (Inv := fun j w' => exists h, st w O h w' /\ fits h /\ Permutation (lines h K L) (lines f K L) /\
    (e_ctx E = None -> all_valid f -> forall a b, 0 <= a < j -> a < b < K -> le h a b)).
  assert (H0 : Inv 0 w).
  { exists f. split; [split; [exact Hw|]; split; [intros p x _ Hp; exact Hp|]; exists O; split; [exact Ho|]; split; [apply same_storage_refl|exact Hd]|].
    split; [exact Hft|]. split; [apply Permutation_refl|]. intros _ _ a b Ha. lia. }
  assert (Fin : forall n w', K - 1 <= n -> Inv n w' -> exists O' h, wfw w' /\ extends_but res w w' /\ obj w' res O' /\ same_storage O O' /\ den O' h /\
    Permutation (lines h K L) (lines f K L) /\ (e_ctx E = None -> all_valid f -> forall a b, 0 <= a < b -> b < K -> le h a b)).
  { intros n w' Hn (h & (A & B & O' & C1 & C2 & C3) & _ & P & S). exists O', h. do 6 (split; [assumption|]). intros Hc Hv a b Hab Hb. apply S; auto; lia. }
  destruct (Z_le_gt_dec 0 (K - 1)) as [HK|HK].
  2:{ rewrite zrange_nil by lia. destruct (Fin 0 w ltac:(lia) H0) as (O' & h & R1). exists w, O', h. split; [reflexivity|exact R1]. }
  destruct (for_range (N := num_rune) (R := unit) 0 (K - 1) (fun j => for_list (R := unit) (zrange (j + 1) K) (fun i =>
      let! vj := get j in
      let! vi := get i in
      let! o := Compare E vj vi in
      if 0 <? o then
        write_line E vi (fun c v => put j c v) ;!;
        write_line E vj (fun c v => put i c v) ;!;
        mret None
      else mret None)) Inv HK) with (w := w) as (w' & E1 & R1); [|exact H0|].
  2:{ rewrite (mbind_ok _ _ _ _ _ E1). destruct (Fin (K - 1) w' ltac:(lia) R1) as (O' & h & R2). exists w', O', h. split; [reflexivity|exact R2]. }
  intros j w1 Hj (h1 & Hst & F1 & P1 & S1).
  set (In2 := fun i w' => exists h, st w O h w' /\ fits h /\ Permutation (lines h K L) (lines f K L) /\
    (e_ctx E = None -> all_valid f -> (forall a b, 0 <= a < j -> a < b < K -> le h a b) /\ forall b, j < b < i -> le h j b)).
  destruct (for_range (N := num_rune) (R := unit) (j + 1) K (fun i =>
      let! vj := get j in
      let! vi := get i in
      let! o := Compare E vj vi in
      if 0 <? o then
        write_line E vi (fun c v => put j c v) ;!;
        write_line E vj (fun c v => put i c v) ;!;
        mret None
      else mret None) In2 ltac:(lia)) with (w := w1) as (w2 & E2 & R2).
  2:{ exists h1. split; [exact Hst|]. split; [exact F1|]. split; [exact P1|]. intros Hc Hv. split; [apply S1; auto|]. intros b Hb. lia. }
  2:{ exists w2. split; [exact E2|]. destruct R2 as (h & A & F & P & S). exists h. split; [exact A|]. split; [exact F|]. split; [exact P|].
      intros Hc Hv a b Ha Hb. destruct (S Hc Hv) as [S2 S3]. destruct (Z.eq_dec a j) as [->|N]; [apply S3; lia|apply S2; lia]. }
  intros i w2 Hi (h & Hs2 & F2 & P & S).
  destruct (bubble_step w O h w2 j i HO Hs2 F2 ltac:(lia) ltac:(lia)) as (w3 & b & E3 & Hs3 & Hb).
  exists w3. split; [exact E3|]. exists (if b then swap h j i else h). split; [exact Hs3|].
  split; [destruct b; [apply fits_swap; auto; lia|exact F2]|].
  split; [destruct b; [etransitivity; [apply lines_swap; lia|exact P]|exact P]|].
  intros Hc Hv. destruct (S Hc Hv) as [S2 S3]. specialize (Hb Hc (perm_valid h f P Hv)). destruct b.
  - assert (Aft : ~ after_line (h i) (h j) L) by (apply Hb; reflexivity). split.
    + intros a b Ha Hab. unfold le. rewrite !swap_at. replace (a =? i) with false by lia. replace (a =? j) with false by lia.
      destruct (b =? i) eqn:E4; [exact (S2 a j ltac:(lia) ltac:(lia))|]. destruct (b =? j) eqn:E5; [exact (S2 a i ltac:(lia) ltac:(lia))|exact (S2 a b ltac:(lia) ltac:(lia))].
    + intros b Hbi. unfold le. rewrite !swap_at. replace (j =? i) with false by lia. rewrite Z.eqb_refl.
      replace (b =? j) with false by lia. unfold after_line in *. destruct (b =? i) eqn:E4.
      * exact Aft.
      * apply (npre_trans _ (codes (line (h j) L))); [exact Aft|]. apply S3. lia.
  - split; [exact S2|]. intros b Hbi. destruct (Z.eq_dec b i) as [->|N]; [|apply S3; lia].
    apply Hb. reflexivity.
Qed.
End Bubble.
