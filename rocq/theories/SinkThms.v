(** The calls the operators make on an output of the caller's. *)
From Coq Require Import String.
From Verif Require Import GoBase Num SparseVec Csr Csc DenseVec DenseMat Mat World Ops Spec Api.
From Verif Require Import BaseProofs MatProofs HeapProofs ReachProofs StoreProofs StoreThms VecProofs OpsProofs OpsThms EwThms OpsProps LoopProofs ApplyMem ApplyMemThms MaskMem Foreign ForeignThms ForeignOps Sink.
Import ListNotations.

Section SinkThms.
Context {N : num} {St : Type}.
Notation V := (T N).
Notation mat := (mat N).
Notation ent := (Z * Z * V)%type.
Notation world := (world N).
Notation arg := (arg N).
Notation sink := (sink N St).
Notation wr := (wr N).
Notation MS := (@MS N St).
Implicit Types w : world.
Implicit Types m : mat.
Implicit Types a : arg.

(** ** [reached_n] and [perform] *)
Lemma reached_1 E w (l : list ent) : reached E w l = reached_n 1 E w l.
Proof. unfold reached, reached_n. destruct (e_ctx E); [|reflexivity]. cbn [Nat.eqb]. rewrite Nat.div_1_r. reflexivity. Qed.
Lemma reached_n_nil {I} n E w : reached_n n E w (@nil I) = [].
Proof. unfold reached_n. destruct (e_ctx E); [|reflexivity]. destruct (Nat.eqb n 0); [reflexivity|apply firstn_nil]. Qed.
Lemma reached_n_app {I} n E w (x y : list I) : exists z, reached_n n E w (x ++ y) = reached_n n E w x ++ z.
Proof.
  unfold reached_n. destruct (e_ctx E); [|eauto]. destruct (Nat.eqb n 0); [eauto|]. rewrite firstn_app. eauto.
Qed.
Lemma perform_app (out : sink) : forall x st y, perform out st (x ++ y) =
  match snd (perform out st x) with Ok _ => perform out (fst (perform out st x)) y | _ => perform out st x end.
Proof.
  induction x as [|e x IH]; intros st y; cbn [app perform]; [reflexivity|].
  destruct (match e with WSet r c v => so_Set out st r c v | WUpdate r c f => so_Update out st r c f end) as [st' [ | | ]]; try reflexivity. apply IH.
Qed.
Lemma flat_map_map {A B} (f : A -> B) l : flat_map (fun x => [f x]) l = map f l.
Proof. induction l as [|x l IH]; [reflexivity|]. cbn. rewrite IH. reflexivity. Qed.
Lemma flat_map_filter {A B} (p : A -> bool) (f : A -> B) l : flat_map (fun x => if p x then [f x] else []) l = map f (filter p l).
Proof. induction l as [|x l IH]; [reflexivity|]. cbn. destruct (p x); cbn; rewrite IH; reflexivity. Qed.

(** ** The calls of a piece of code *)
Section Does.
Context {I : Type}.
Variables (out : sink) (E : env) (n : nat) (w : world) (ws : I -> list wr).

Definition does (X : MS (option unit)) (l : list I) : Prop := forall st w1, w_heap w1 = w_heap w ->
  exists w' o, X st w1 = (fst (perform out st (flat_map ws (reached_n n E w1 l))), w', o) /\ w_heap w' = w_heap w /\
    match snd (perform out st (flat_map ws (reached_n n E w1 l))) with
    | Ok _ => exists x, o = Ok x /\ forall more, reached_n n E w1 (l ++ more) = reached_n n E w1 l ++ match x with None => reached_n n E w' more | Some _ => [] end
    | Panic => o = Panic
    | Diverge => o = Diverge
    end.

Lemma does_ext X Y l : does X l -> (forall st w1, w_heap w1 = w_heap w -> Y st w1 = X st w1) -> does Y l.
Proof. intros H He st w1 Hw. rewrite (He st w1 Hw). apply H. exact Hw. Qed.
Lemma does_nil : does (sret None) [].
Proof.
  intros st w1 Hw. rewrite reached_n_nil. cbn [flat_map perform fst snd]. exists w1, (Ok None). split; [reflexivity|]. split; [exact Hw|].
  exists None. split; [reflexivity|]. intros more. reflexivity.
Qed.
Lemma does_seq X Y (a b : list I) : does X a -> does Y b -> does (let$ o := X in match o with Some r => sret (Some r) | None => Y end) (a ++ b).
Proof.
  intros HX HY st w1 Hw. destruct (HX st w1 Hw) as (w2 & o & EX & H2 & Ho). unfold sbind at 1. rewrite EX.
  destruct (reached_n_app n E w1 a b) as [z Ez]. rewrite Ez, flat_map_app, perform_app.
  destruct (snd (perform out st (flat_map ws (reached_n n E w1 a)))) as [u| |] eqn:Es.
  - destruct Ho as (x & -> & Hm). pose proof (Hm b) as Hb. rewrite Ez in Hb. apply app_inv_head in Hb.
    destruct x as [x|]; subst z.
    + cbn [flat_map perform fst snd]. exists w2, (Ok (Some x)). split; [reflexivity|]. split; [exact H2|]. exists (Some x). split; [reflexivity|].
      intros more. rewrite <- app_assoc, !Hm, ?app_nil_r. reflexivity.
    + destruct (HY (fst (perform out st (flat_map ws (reached_n n E w1 a)))) w2 H2) as (w3 & o & EY & H3 & Ho). exists w3, o. split; [exact EY|]. split; [exact H3|].
      destruct (snd (perform out (fst (perform out st (flat_map ws (reached_n n E w1 a)))) (flat_map ws (reached_n n E w2 b)))) as [u'| |]; auto.
      destruct Ho as (x & -> & Hy). exists x. split; [reflexivity|]. intros more. rewrite <- app_assoc, !Hm, Hy, ?app_assoc. reflexivity.
  - subst o. exists w2, Panic. rewrite Es. split; [reflexivity|]. split; [exact H2|reflexivity].
  - subst o. exists w2, Diverge. rewrite Es. split; [reflexivity|]. split; [exact H2|reflexivity].
Qed.
(** one round: the context is asked [n] times, then the calls are made *)
Lemma does_one X i : (forall st w1, w_heap w1 = w_heap w -> exists w', w_heap w' = w_heap w /\
    ((X st w1 = (st, w', Ok (Some tt)) /\ exists k, e_ctx E = Some k /\ (k - w_polls w1 < n)%nat) \/
     (X st w1 = (fst (perform out st (ws i)), w', match snd (perform out st (ws i)) with Ok _ => Ok None | Panic => Panic | Diverge => Diverge end) /\
      match e_ctx E with None => True | Some k => n = 0%nat \/ (w_polls w' = w_polls w1 + n /\ n <= k - w_polls w1)%nat end))) ->
  does X [i].
Proof.
  intros H st w1 Hw. destruct (H st w1 Hw) as (w' & Hw' & [(EX & k & Ek & Hk)|(EX & Hk)]).
  - assert (Er : forall l : list I, reached_n n E w1 l = []).
    { intros l. unfold reached_n. rewrite Ek. destruct (Nat.eqb n 0) eqn:E0; [apply Nat.eqb_eq in E0; lia|]. rewrite Nat.div_small by lia. reflexivity. }
    rewrite !Er. cbn [flat_map perform fst snd]. exists w', (Ok (Some tt)). split; [exact EX|]. split; [exact Hw'|]. exists (Some tt). split; [reflexivity|].
    intros more. rewrite Er. reflexivity.
  - assert (Er : forall l : list I, reached_n n E w1 (i :: l) = i :: reached_n n E w' l).
    { intros l. unfold reached_n. destruct (e_ctx E) as [k|]; [|reflexivity]. destruct (Nat.eqb n 0) eqn:E0; [reflexivity|]. apply Nat.eqb_neq in E0.
      destruct Hk as [Hk|[Hp Hk]]; [lia|]. rewrite Hp. replace (k - w_polls w1)%nat with ((k - (w_polls w1 + n)) + 1 * n)%nat by lia.
      rewrite Nat.div_add by lia. rewrite Nat.add_1_r. reflexivity. }
    rewrite Er, reached_n_nil. cbn [flat_map]. rewrite app_nil_r. exists w', (match snd (perform out st (ws i)) with Ok _ => Ok None | Panic => Panic | Diverge => Diverge end).
    split; [exact EX|]. split; [exact Hw'|]. destruct (snd (perform out st (ws i))); auto. exists None. split; [reflexivity|]. intros more. apply Er.
Qed.
Lemma does_for {J} (X : J -> MS (option unit)) (pl : J -> list I) : forall l, (forall j, In j l -> does (X j) (pl j)) -> does (s_for_list l X) (flat_map pl l).
Proof.
  induction l as [|j l IH]; intros H; cbn [s_for_list flat_map]; [apply does_nil|]. apply does_seq; [apply H; left; reflexivity|].
  apply IH. intros j' Hj. apply H. right. exact Hj.
Qed.
End Does.

(** ** The loop over an operand *)
Section Loop.
Variables (out : sink) (E : env) (w : world) (ws : ent -> list wr) (body : Z -> Z -> V -> MS (option unit)) (L : list ent).
Hypothesis Hbody : forall r c v, In (r, c, v) L -> forall st w1, w_heap w1 = w_heap w ->
  body r c v st w1 = (fst (perform out st (ws (r, c, v))), w1, match snd (perform out st (ws (r, c, v))) with Ok _ => Ok None | Panic => Panic | Diverge => Diverge end).

Lemma own_does : forall rest, incl rest L -> does out E 1 w ws (o_own_loop E rest tt body) rest.
Proof.
  induction rest as [|[[r c] v] rest IH]; intros Hi; cbn [o_own_loop]; [apply does_nil|].
  change ((r, c, v) :: rest) with ([(r, c, v)] ++ rest).
  eapply does_ext; [apply (does_seq out E 1 w ws (let$ d := slift (poll E) in if d : bool then sret (Some tt) else body r c v) (o_own_loop E rest tt body))|].
  - apply does_one. intros st w1 Hw. destruct (poll_heap E w1) as (w2 & b & Hp & Hw2 & _). exists w2. split; [congruence|]. rewrite (sbind_lift _ _ _ _ _ _ Hp).
    unfold poll in Hp. destruct (e_ctx E) as [k|] eqn:Ek.
    + injection Hp as <- Hb. destruct b.
      * left. split; [reflexivity|]. exists k. split; [reflexivity|]. apply Nat.leb_le in Hb. lia.
      * right. split; [apply Hbody; [apply Hi; left; reflexivity|exact Hw]|]. apply Nat.leb_gt in Hb. right. cbn [w_polls]. lia.
    + injection Hp as <- <-. right. split; [apply Hbody; [apply Hi; left; reflexivity|exact Hw]|exact Logic.I].
  - apply IH. intros e He. apply Hi. right. exact He.
  - intros st w1 _. unfold sbind. destruct (slift (poll E) st w1) as [[st1 w2] [[]| |]]; try reflexivity.
Qed.
Lemma enum_own p m : obj w p m ->
  forall rest it d0 fuel, it_rel m it d0 rest -> (length rest <= fuel)%nat -> incl rest L -> forall st w1, w_heap w1 = w_heap w ->
  s_enum_loop E fuel p it tt body st w1 = o_own_loop E rest tt body st w1.
Proof.
  intros Hm. induction rest as [|[[r c] v] rest IH]; intros it d0 fuel Hit Hf Hi st w1 Hw.
  - destruct fuel; cbn [s_enum_loop o_own_loop]; rewrite (it_rel_HasNext _ _ _ _ Hit); reflexivity.
  - destruct fuel as [|fuel]; [simpl in Hf; lia|]. cbn [s_enum_loop o_own_loop]. rewrite (it_rel_HasNext _ _ _ _ Hit).
    destruct (poll_heap E w1) as (w2 & b & Hp & Hw2 & _). rewrite !(sbind_lift _ _ _ _ _ _ Hp). destruct b; [reflexivity|].
    assert (Hm2 : obj w2 p m) by (unfold obj; rewrite Hw2, Hw; exact Hm). rewrite (sbind_lift _ _ _ _ _ _ (load_ok _ _ _ Hm2)).
    destruct (it_rel_step _ _ _ _ _ _ _ Hit) as (it' & Hx & Hcu & Hr & _).
    assert (En : mlift (mat_Next m it) w2 = (w2, Ok ((r, c, v), it'))) by (unfold mlift, mat_Next; rewrite Hx; cbn [rbind]; rewrite Hcu; reflexivity).
    rewrite (sbind_lift _ _ _ _ _ _ En). cbv iota beta. unfold sbind. rewrite (Hbody r c v (Hi _ (or_introl eq_refl)) st w2 ltac:(congruence)).
    destruct (snd (perform out st (ws (r, c, v)))); try reflexivity.
    apply (IH it' _ fuel Hr); [simpl in Hf; lia|intros e He; apply Hi; right; exact He|congruence].
Qed.
Lemma arg_does a R C f : zero_ok N -> wfw w -> presents E w a R C f L -> does out E 1 w ws (o_enumerate E a tt body) L.
Proof.
  intros Hz Hwf Ha. destruct (operand_lists _ _ _ _ _ _ _ _ Hz Hwf (present_t _ _ _ _ _ _ _ Ha)) as [Hl _].
  destruct a as [p|x]; cbn [lists o_enumerate] in *.
  - destruct Hl as (_ & m & Hm & Wm & He & Hf). eapply does_ext; [apply own_does; apply incl_refl|]. intros st w1 Hw. unfold s_enumerate.
    assert (Hm1 : obj w1 p m) by (unfold obj; rewrite Hw; exact Hm). rewrite (sbind_lift _ _ _ _ _ _ (load_ok _ _ _ Hm1)).
    apply (enum_own p m Hm L _ [] (e_fuel E)); auto using incl_refl.
    + rewrite <- He. apply entries_rel. exact Wm.
    + pose proof (zlen_entries m Wm) as Hz'. rewrite He in Hz'. unfold zlen in Hz'. lia.
  - rewrite Hl. apply own_does. apply incl_refl.
Qed.
End Loop.

(** ** The operators *)
Lemma does_makes {I} out E n w (ws : I -> list wr) X l (op : MS unit) : does out E n w ws X l ->
  (forall st, op st w = (let$ _ := X in sret tt) st w) -> forall st, makes out op st w (flat_map ws (reached_n n E w l)).
Proof.
  intros H Hop st. destruct (H st w eq_refl) as (w' & o & EX & Hw & Ho). exists w'. split; [|exact Hw]. rewrite Hop. unfold sbind. rewrite EX.
  destruct (snd (perform out st (flat_map ws (reached_n n E w l)))) as [[]| |]; [destruct Ho as (x & -> & _)|subst o|subst o]; reflexivity.
Qed.
Lemma makes_eq out (op : MS unit) st w l l' : makes out op st w l -> l = l' -> makes out op st w l'.
Proof. intros H <-. exact H. Qed.
Lemma o_check_ok k (out : sink) w R C : mask_fits w k out R C -> o_check k out w = (w, Ok (mask_norm k (so_Rows out) (so_Columns out))).
Proof.
  intros [Hd _]. unfold o_check. destruct k as [|r c|p|r c f]; cbn [mask_dims] in Hd; cbn [mask_Rows mask_Columns mask_norm].
  - rewrite mbind_ret, Z.eqb_refl. cbn [negb]. rewrite mbind_ret, Z.eqb_refl. reflexivity.
  - destruct Hd as [-> ->]. rewrite mbind_ret, Z.eqb_refl. cbn [negb]. rewrite mbind_ret, Z.eqb_refl. reflexivity.
  - destruct Hd as (m & Hm & <- & <-). rewrite (mbind_ok _ _ _ _ _ (p_Rows_ok _ _ _ Hm)), Z.eqb_refl. cbn [negb].
    rewrite (mbind_ok _ _ _ _ _ (p_Columns_ok _ _ _ Hm)), Z.eqb_refl. reflexivity.
  - destruct Hd as [-> ->]. rewrite mbind_ret, Z.eqb_refl. cbn [negb]. rewrite mbind_ret, Z.eqb_refl. reflexivity.
Qed.
Lemma covers_heap w w1 k r c : w_heap w1 = w_heap w -> covers w1 k r c = covers w k r c.
Proof. intros H. destruct k; try reflexivity. cbn [covers]. rewrite H. reflexivity. Qed.
Lemma o_mask k (out : sink) w R C w1 r c : zero_ok N -> wfw w -> mask_fits w k out R C -> w_heap w1 = w_heap w -> 0 <= r < R -> 0 <= c < C ->
  mask_Element (mask_norm k (so_Rows out) (so_Columns out)) r c w1 = (w1, Ok (covers w k r c)).
Proof.
  intros Hz Hwf [Hd Hb] Hw Hr Hc. destruct Hb as [Hb|[B1 B2]]; [apply mask_total; exact Hb|].
  rewrite <- (covers_heap w w1 k r c Hw). apply mask_Element_ok; auto; try lia.
  - destruct k; cbn [mask_wf mask_dims] in *; auto. destruct Hd as (m & Hm & _). exists m. split; [unfold obj; rewrite Hw; exact Hm|eapply Hwf; eauto].
  - destruct k; cbn [mask_dims] in *; auto. destruct Hd as (m & Hm & H). exists m. split; [unfold obj; rewrite Hw; exact Hm|exact H].
Qed.
(** a masked call *)
Lemma masked (out : sink) (x : wr) (b : bool) (w1 : world) (st : St) (e : M N bool) : e w1 = (w1, Ok b) ->
  (let$ e := slift e in
   let$ _ := (if negb e then match x with WSet r c v => o_Set out r c v | WUpdate r c f => o_Update out r c f end else sret tt) in
   sret (None : option unit)) st w1 =
  (fst (perform out st (if negb b then [x] else [])), w1, match snd (perform out st (if negb b then [x] else [])) with Ok _ => Ok None | Panic => Panic | Diverge => Diverge end).
Proof.
  intros He. rewrite (sbind_lift _ _ _ _ _ _ He). destruct b; cbn [negb]; [reflexivity|]. cbn [perform]. unfold sbind, o_Set, o_Update.
  destruct x; [destruct (so_Set out st r c v) as [st' [[]| |]]|destruct (so_Update out st r c f) as [st' [[]| |]]]; reflexivity.
Qed.
Lemma only_heap w w1 t : w_heap w1 = w_heap w -> only w t w1.
Proof. intros H p m _ Hp. unfold obj. rewrite H. exact Hp. Qed.

Lemma addO E w (s m : arg) k (out : sink) R C f g Ls Lm b st : sane N -> reachable w -> presents E w s R C f Ls -> presents E w m R C g Lm -> registered E w s b ->
  mask_fits w k out R C ->
  makes out (AddO E s m k out) st w
    (map (fun e : ent => WSet (row_of e) (col_of e) (nadd ((if b then g else f) (row_of e) (col_of e)) (snd e))) (left_by w k (reached E w (if b then Ls else Lm)))).
Proof.
  intros Hsn Hr Hs Hm Hb Hk. pose proof (sane_wfw w Hsn Hr) as Hw. pose proof (proj1 Hsn) as Hz.
  set (src := if b then s else m). set (source := if b then m else s). set (L := if b then Ls else Lm). set (F := if b then f else g). set (G := if b then g else f).
  assert (Hsrc : presents E w src R C F L) by (destruct b; assumption). assert (Hso : presents E w source R C G (if b then Lm else Ls)) by (destruct b; assumption).
  destruct (operand_lists _ _ _ _ _ _ _ _ Hz Hw (present_t _ _ _ _ _ _ _ Hsrc)) as [_ Hin].
  set (wr1 := fun e : ent => WSet (row_of e) (col_of e) (nadd (G (row_of e) (col_of e)) (snd e))).
  eapply makes_eq; [eapply (does_makes out E 1 w (fun e : ent => if negb (covers w k (fst (fst e)) (snd (fst e))) then [wr1 e] else []));
    [eapply (arg_does out E w _ (fun r c v =>
    let$ value := slift (a_At source r c) in
    let$ e := slift (mask_Element (mask_norm k (so_Rows out) (so_Columns out)) r c) in
    let$ _ := (if negb e then o_Set out r c (nadd value v) else sret tt) in
    sret None) L) with (a := src); [|exact Hz|exact Hw|exact Hsrc]|]|].
  - intros r c v Hi st1 w1 Hw1. destruct (Hin _ _ _ Hi) as [B1 B2].
    etransitivity; [|apply (masked out (wr1 (r, c, v)) (covers w k r c) w1 st1 _ (o_mask k out w R C w1 r c Hz Hw Hk Hw1 B1 B2))].
    rewrite (sbind_lift _ _ _ _ _ _ (operand_At _ _ _ source _ _ _ _ w1 r c Hz Hw (present_t _ _ _ _ _ _ _ Hso) (only_heap _ _ _ Hw1) B1 B2)). reflexivity.
  - intros st1. unfold AddO. rewrite (sbind_lift _ _ _ _ _ _ (check_sizes_ok _ _ _ _ _ _ _ _ _ _ Hs Hm)), (sbind_lift _ _ _ _ _ _ (o_check_ok _ _ _ _ _ Hk)),
      (sbind_lift _ _ _ _ _ _ (registered_IsSparse _ _ _ _ Hb)). subst src source. destruct b; reflexivity.
  - rewrite <- reached_1. apply flat_map_filter.
Qed.
Lemma subtractO E w (s m : arg) k (out : sink) R C f g Ls Lm st : sane N -> reachable w -> presents E w s R C f Ls -> presents E w m R C g Lm ->
  mask_fits w k out R C ->
  makes out (SubtractO E s m k out) st w
    (map (fun e : ent => WUpdate (row_of e) (col_of e) (fun x => nsub (snd e) x)) (left_by w k (reached E w Ls))).
Proof.
  intros Hsn Hr Hs Hm Hk. pose proof (sane_wfw w Hsn Hr) as Hw. pose proof (proj1 Hsn) as Hz.
  destruct (operand_lists _ _ _ _ _ _ _ _ Hz Hw (present_t _ _ _ _ _ _ _ Hs)) as [_ Hin].
  set (wr1 := fun e : ent => WUpdate (row_of e) (col_of e) (fun x => nsub (snd e) x)).
  eapply makes_eq; [eapply (does_makes out E 1 w (fun e : ent => if negb (covers w k (fst (fst e)) (snd (fst e))) then [wr1 e] else []));
    [eapply (arg_does out E w _ (fun r c value =>
    let$ e := slift (mask_Element (mask_norm k (so_Rows out) (so_Columns out)) r c) in
    let$ _ := (if negb e then o_Update out r c (fun v => nsub value v) else sret tt) in
    sret None) Ls) with (a := s); [|exact Hz|exact Hw|exact Hs]|]|].
  - intros r c v Hi st1 w1 Hw1. destruct (Hin _ _ _ Hi) as [B1 B2].
    apply (masked out (wr1 (r, c, v)) (covers w k r c) w1 st1 _ (o_mask k out w R C w1 r c Hz Hw Hk Hw1 B1 B2)).
  - intros st1. unfold SubtractO. rewrite (sbind_lift _ _ _ _ _ _ (check_sizes_ok _ _ _ _ _ _ _ _ _ _ Hs Hm)), (sbind_lift _ _ _ _ _ _ (o_check_ok _ _ _ _ _ Hk)). reflexivity.
  - rewrite <- reached_1. apply flat_map_filter.
Qed.
Lemma ewmO E w (s m : arg) k (out : sink) R C f g Ls Lm b st : sane N -> reachable w -> presents E w s R C f Ls -> presents E w m R C g Lm -> registered E w s b ->
  mask_fits w k out R C ->
  makes out (elementWiseMultiplyO E s m k out) st w
    (map (fun e : ent => WSet (row_of e) (col_of e) (snd e))
      (left_by w k (filter (fun e : ent => neqb (snd e) ((if b then g else f) (row_of e) (col_of e))) (reached E w (if b then Ls else Lm))))).
Proof.
  intros Hsn Hr Hs Hm Hb Hk. pose proof (sane_wfw w Hsn Hr) as Hw. pose proof (proj1 Hsn) as Hz.
  set (src := if b then s else m). set (source := if b then m else s). set (L := if b then Ls else Lm). set (F := if b then f else g). set (G := if b then g else f).
  assert (Hsrc : presents E w src R C F L) by (destruct b; assumption). assert (Hso : presents E w source R C G (if b then Lm else Ls)) by (destruct b; assumption).
  destruct (operand_lists _ _ _ _ _ _ _ _ Hz Hw (present_t _ _ _ _ _ _ _ Hsrc)) as [_ Hin].
  set (wr1 := fun e : ent => WSet (row_of e) (col_of e) (snd e)).
  eapply makes_eq; [eapply (does_makes out E 1 w (fun e : ent => if neqb (snd e) (G (row_of e) (col_of e)) then if negb (covers w k (fst (fst e)) (snd (fst e))) then [wr1 e] else [] else []));
    [eapply (arg_does out E w _ (fun r c value =>
    let$ v := slift (a_At source r c) in
    if neqb value v then
      let$ e := slift (mask_Element (mask_norm k (so_Rows out) (so_Columns out)) r c) in
      let$ _ := (if negb e then o_Set out r c value else sret tt) in sret None
    else sret None) L) with (a := src); [|exact Hz|exact Hw|exact Hsrc]|]|].
  - intros r c v Hi st1 w1 Hw1. destruct (Hin _ _ _ Hi) as [B1 B2]. cbn [row_of col_of fst snd].
    rewrite (sbind_lift _ _ _ _ _ _ (operand_At _ _ _ source _ _ _ _ w1 r c Hz Hw (present_t _ _ _ _ _ _ _ Hso) (only_heap _ _ _ Hw1) B1 B2)).
    unfold row_of, col_of. cbn [fst snd]. destruct (neqb v (G r c)); [|reflexivity].
    apply (masked out (wr1 (r, c, v)) (covers w k r c) w1 st1 _ (o_mask k out w R C w1 r c Hz Hw Hk Hw1 B1 B2)).
  - intros st1. unfold elementWiseMultiplyO. rewrite (sbind_lift _ _ _ _ _ _ (o_check_ok _ _ _ _ _ Hk)),
      (sbind_lift _ _ _ _ _ _ (registered_IsSparse _ _ _ _ Hb)). subst src source. destruct b; reflexivity.
  - rewrite <- reached_1. unfold left_by. induction (reached E w L) as [|e l IH]; [reflexivity|]. cbn [flat_map filter].
    destruct (neqb (snd e) (G (row_of e) (col_of e))); cbn [filter map app]; [|exact IH].
    destruct (covers w k (fst (fst e)) (snd (fst e))); cbn [negb app map]; rewrite IH; reflexivity.
Qed.
Lemma ewa_does E w a k (out : sink) R C f L : sane N -> reachable w -> presents E w a R C f L -> mask_fits w k out R C ->
  does out E 1 w (fun e : ent => if negb (neqb (snd e) n0) then if negb (covers w k (fst (fst e)) (snd (fst e))) then [WSet (row_of e) (col_of e) (snd e)] else [] else [])
    (ewa_loopO E a (mask_norm k (so_Rows out) (so_Columns out)) out) L.
Proof.
  intros Hsn Hr Ha Hk. pose proof (sane_wfw w Hsn Hr) as Hw. pose proof (proj1 Hsn) as Hz.
  destruct (operand_lists _ _ _ _ _ _ _ _ Hz Hw (present_t _ _ _ _ _ _ _ Ha)) as [_ Hin].
  eapply (arg_does out E w _ _ L) with (a := a); [|exact Hz|exact Hw|exact Ha].
  intros r c v Hi st1 w1 Hw1. destruct (Hin _ _ _ Hi) as [B1 B2]. cbn [row_of col_of fst snd]. destruct (neqb v n0); cbn [negb]; [reflexivity|].
  apply (masked out (WSet r c v) (covers w k r c) w1 st1 _ (o_mask k out w R C w1 r c Hz Hw Hk Hw1 B1 B2)).
Qed.
Lemma ewaO E w (s m : arg) k (out : sink) R C f g Ls Lm st : sane N -> reachable w -> presents E w s R C f Ls -> presents E w m R C g Lm ->
  mask_fits w k out R C ->
  makes out (elementWiseAddO E s m k out) st w
    (map (fun e : ent => WSet (row_of e) (col_of e) (snd e)) (left_by w k (filter (fun e : ent => negb (neqb (snd e) n0)) (reached E w (Ls ++ Lm))))).
Proof.
  intros Hsn Hr Hs Hm Hk.
  eapply makes_eq; [eapply does_makes; [eapply does_seq; eapply ewa_does; [exact Hsn|exact Hr|exact Hs|exact Hk|exact Hsn|exact Hr|exact Hm|exact Hk]|]|].
  - intros st1. unfold elementWiseAddO. rewrite (sbind_lift _ _ _ _ _ _ (o_check_ok _ _ _ _ _ Hk)). unfold sbind.
    destruct (ewa_loopO E s (mask_norm k (so_Rows out) (so_Columns out)) out st1 w) as [[st2 w2] [[[]|]| |]]; reflexivity.
  - rewrite <- reached_1. unfold left_by. induction (reached E w (Ls ++ Lm)) as [|e l IH]; [reflexivity|]. cbn [flat_map filter].
    destruct (neqb (snd e) n0); cbn [negb filter map app]; [exact IH|].
    destruct (covers w k (fst (fst e)) (snd (fst e))); cbn [negb app map]; rewrite IH; reflexivity.
Qed.
Lemma mirrorO E w a k (out : sink) R C f L u : sane N -> reachable w -> presents E w a R C f L -> mask_fits w k out R C ->
  does out E 1 w (fun e : ent => if negb (covers w k (fst (fst e)) (snd (fst e))) then [WSet (col_of e) (row_of e) (u (snd e))] else [])
    (o_enumerate E a tt (fun r c value =>
      let$ e := slift (mask_Element (mask_norm k (so_Rows out) (so_Columns out)) r c) in
      let$ _ := (if negb e then o_Set out c r (u value) else sret tt) in sret None)) L.
Proof.
  intros Hsn Hr Ha Hk. pose proof (sane_wfw w Hsn Hr) as Hw. pose proof (proj1 Hsn) as Hz.
  destruct (operand_lists _ _ _ _ _ _ _ _ Hz Hw (present_t _ _ _ _ _ _ _ Ha)) as [_ Hin].
  eapply (arg_does out E w _ _ L) with (a := a); [|exact Hz|exact Hw|exact Ha].
  intros r c v Hi st1 w1 Hw1. destruct (Hin _ _ _ Hi) as [B1 B2].
  apply (masked out (WSet c r (u v)) (covers w k r c) w1 st1 _ (o_mask k out w R C w1 r c Hz Hw Hk Hw1 B1 B2)).
Qed.
Lemma applyO E w a k u (out : sink) R C f L st : sane N -> reachable w -> presents E w a R C f L -> mask_fits w k out R C ->
  makes out (ApplyO E a k u out) st w (map (fun e : ent => WSet (col_of e) (row_of e) (u (snd e))) (left_by w k (reached E w L))).
Proof.
  intros Hsn Hr Ha Hk. eapply makes_eq; [eapply does_makes; [eapply mirrorO; eauto|]|].
  - intros st1. unfold ApplyO. rewrite (sbind_lift _ _ _ _ _ _ (o_check_ok _ _ _ _ _ Hk)). reflexivity.
  - rewrite <- reached_1. apply flat_map_filter.
Qed.
Lemma transposeO E w a k (out : sink) R C f L st : sane N -> reachable w -> presents E w a R C f L -> mask_fits w k out R C ->
  makes out (TransposeO E a k out) st w (map (fun e : ent => WSet (col_of e) (row_of e) (snd e)) (left_by w k (reached E w L))).
Proof.
  intros Hsn Hr Ha Hk. eapply makes_eq; [eapply does_makes; [eapply (mirrorO E w a k out R C f L (fun v => v)); eauto|]|].
  - intros st1. unfold TransposeO. rewrite (sbind_lift _ _ _ _ _ _ (o_check_ok _ _ _ _ _ Hk)). reflexivity.
  - rewrite <- reached_1. apply flat_map_filter.
Qed.

(** ** Multiplication *)
Lemma dot_polls E (rv cv : vec N) (x y : Z -> V) : forall ls acc w1,
  (forall l, In l ls -> vec_AtVec rv l = Ok (x l) /\ vec_AtVec cv l = Ok (y l)) ->
  exists w', w_heap w' = w_heap w1 /\
    ((a_dot E rv cv ls acc w1 = (w', Ok None) /\ exists k, e_ctx E = Some k /\ (k - w_polls w1 < length ls)%nat) \/
     (a_dot E rv cv ls acc w1 = (w', Ok (Some (fold_left (fun s l => nadd s (nmul (x l) (y l))) ls acc))) /\
      match e_ctx E with None => True | Some k => length ls = 0%nat \/ (w_polls w' = w_polls w1 + length ls /\ length ls <= k - w_polls w1)%nat end)).
Proof.
  induction ls as [|l ls IH]; intros acc w1 H; cbn [a_dot fold_left].
  - exists w1. split; [reflexivity|]. right. split; [reflexivity|]. destruct (e_ctx E); auto.
  - destruct (poll_heap E w1) as (w2 & b & Hp & Hh & _). rewrite (mbind_ok _ _ _ _ _ Hp). destruct b.
    + exists w2. split; [exact Hh|]. left. split; [reflexivity|]. unfold poll in Hp. destruct (e_ctx E) as [k|]; [|discriminate]. injection Hp as <- Hb.
      apply Nat.leb_le in Hb. exists k. split; [reflexivity|]. cbn [length]. lia.
    + destruct (H l (or_introl eq_refl)) as [Ha Hb]. rewrite Hb, mbind_lift, Ha, mbind_lift.
      destruct (IH (nadd acc (nmul (x l) (y l))) w2 ltac:(intros; apply H; right; auto)) as (w' & H1 & H2). exists w'. split; [congruence|].
      unfold poll in Hp. destruct (e_ctx E) as [k|] eqn:Ek.
      * injection Hp as <- Hle. apply Nat.leb_gt in Hle. cbn [w_polls length] in *. destruct H2 as [(H2 & k' & [= <-] & Hk)|(H2 & Hk)]; [left|right]; (split; [exact H2|]).
        -- exists k. split; [reflexivity|]. lia.
        -- right. destruct Hk as [Hk|Hk]; [|lia]. destruct ls; [|discriminate]. cbn [length a_dot] in *. injection H2 as <-. cbn [w_polls]. lia.
      * injection Hp as <-. destruct H2 as [(_ & k' & [=] & _)|(H2 & _)]. right. auto.
Qed.
Lemma multiplyO_ok E w (s m : arg) k (out : sink) R K C n (fr gc : Z -> Z -> V) st : sane N -> reachable w ->
  rows_show w (length (w_heap w)) s R K n fr -> columns_show w (length (w_heap w)) m K C n gc -> mask_fits w k out R C ->
  makes out (multiplyO E s m k out) st w
    (map (fun p : Z * Z => WSet (fst p) (snd p) (sum_from n0 (fun l => nmul (fr (fst p) l) (gc (snd p) l)) 0 n))
      (filter (fun p : Z * Z => negb (covers w k (fst p) (snd p))) (reached_n (Z.to_nat n) E w (positions R C)))).
Proof.
  intros Hsn Hr Hs Hm Hk. pose proof (sane_wfw w Hsn Hr) as Hw. pose proof (proj1 Hsn) as Hz. set (t := length (w_heap w)) in *.
  set (wr1 := fun p : Z * Z => WSet (fst p) (snd p) (sum_from n0 (fun l => nmul (fr (fst p) l) (gc (snd p) l)) 0 n)).
  set (k1 := mask_norm k (so_Rows out) (so_Columns out)).
  eapply makes_eq; [eapply (does_makes out E (Z.to_nat n) w (fun p : Z * Z => if negb (covers w k (fst p) (snd p)) then [wr1 p] else []) (s_for_list (R := unit) (zrange 0 R) (fun r =>
      let$ rows := slift (a_RowsAt s r) in
      s_for_list (zrange 0 C) (fun c =>
        let$ column := slift (a_ColumnsAt m c) in
        let$ o := slift (a_dot E rows column (zrange 0 (vec_Length rows)) n0) in
        match o with
        | None => sret (Some tt)
        | Some sum =>
            let$ e := slift (mask_Element k1 r c) in
            let$ _ := (if negb e then o_Set out r c sum else sret tt) in
            sret None
        end))) (positions R C))|].
  - unfold positions. apply does_for. intros r Hir. apply in_zrange in Hir.
    destruct (rows_run w t s R K n fr w r Hs (only_refl w t) Hir) as (rv & _ & Hlen & Hat).
    assert (Erv : forall w1, w_heap w1 = w_heap w -> exists rv, a_RowsAt s r w1 = (w1, Ok rv) /\ vec_Length rv = n /\ forall l, 0 <= l < n -> vec_AtVec rv l = Ok (fr r l)).
    { intros w1 H1. apply (rows_run w t s R K n fr w1 r Hs (only_heap _ _ _ H1) Hir). }
    intros st1 w1 Hw1. destruct (Erv w1 Hw1) as (rv1 & E1 & Hl1 & Ha1). rewrite (sbind_lift _ _ _ _ _ _ E1). revert st1 w1 Hw1 E1.
    assert (G : does out E (Z.to_nat n) w (fun p : Z * Z => if negb (covers w k (fst p) (snd p)) then [wr1 p] else [])
      (s_for_list (R := unit) (zrange 0 C) (fun c =>
        let$ column := slift (a_ColumnsAt m c) in
        let$ o := slift (a_dot E rv1 column (zrange 0 (vec_Length rv1)) n0) in
        match o with
        | None => sret (Some tt)
        | Some sum =>
            let$ e := slift (mask_Element k1 r c) in
            let$ _ := (if negb e then o_Set out r c sum else sret tt) in
            sret None
        end)) (map (fun c => (r, c)) (zrange 0 C))).
    { rewrite <- flat_map_map. apply does_for. intros c Hic. apply in_zrange in Hic. apply does_one. intros st1 w1 Hw1.
      destruct (columns_run w t m K C n gc w1 c Hm (only_heap _ _ _ Hw1) Hic) as (cv & Ecv & Hcv). rewrite (sbind_lift _ _ _ _ _ _ Ecv).
      destruct (dot_polls E rv1 cv (fr r) (gc c) (zrange 0 (vec_Length rv1)) n0 w1) as (w2 & Hw2 & Hd).
      { intros l Hl. apply in_zrange in Hl. rewrite Hl1 in Hl. split; [apply Ha1|apply Hcv]; lia. }
      assert (Hll : length (zrange 0 (vec_Length rv1)) = Z.to_nat n) by (rewrite Hl1, zrange_length, Z.sub_0_r; reflexivity). rewrite Hll in Hd.
      exists w2. split; [congruence|]. destruct Hd as [(Ed & Hk')|(Ed & Hk')]; [left|right]; (split; [|exact Hk']); rewrite (sbind_lift _ _ _ _ _ _ Ed); [reflexivity|].
      etransitivity; [apply (masked out (WSet r c (fold_left (fun s l => nadd s (nmul (fr r l) (gc c l))) (zrange 0 (vec_Length rv1)) n0)) (covers w k r c) w2 st1 _
        (o_mask k out w R C w2 r c Hz Hw Hk ltac:(congruence) Hir Hic))|]. rewrite Hl1. reflexivity. }
    intros st1 w1 Hw1 _. apply G. exact Hw1.
  - intros st1. pose proof (only_refl w t) as Hon. destruct (rows_size w t s R K n fr w Hs Hon) as [Er Ek]. destruct (columns_size w t m K C n gc w Hm Hon) as [Ek' Ec].
    unfold multiplyO. rewrite (sbind_lift _ _ _ _ _ _ Ek'), (sbind_lift _ _ _ _ _ _ Ek), Z.eqb_refl. cbn [negb].
    rewrite (sbind_lift _ _ _ _ _ _ (o_check_ok _ _ _ _ _ Hk)), (sbind_lift _ _ _ _ _ _ Er), (sbind_lift _ _ _ _ _ _ Ec). reflexivity.
  - apply flat_map_filter.
Qed.
End SinkThms.
