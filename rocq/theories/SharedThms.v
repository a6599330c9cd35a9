(** What the operators do with masks and outputs that share memory. *)
From Coq Require Import String.
From Verif Require Import GoBase Num SparseVec Csr Csc DenseVec DenseMat Mat World Ops Spec Api.
From Verif Require Import BaseProofs MatProofs HeapProofs ReachProofs StoreProofs StoreThms VecProofs OpsProofs OpsThms EwThms OpsProps LoopProofs ApplyMem ApplyMemThms MaskMem Foreign ForeignThms ForeignOps Sink SinkThms Shared.
Import ListNotations.

Section SharedThms.
Context {N : num} {St : Type}.
Notation V := (T N).
Notation mat := (mat N).
Notation ent := (Z * Z * V)%type.
Notation world := (world N).
Notation arg := (arg N).
Notation sink := (sink N St).
Notation smask := (smask St).
Notation thing := (thing St).
Notation MS := (@MS N St).
Implicit Types w : world.
Implicit Types m : mat.
Implicit Types a : arg.

Lemma all_app : forall (x y : list thing) st, all_of (x ++ y) st = andthen (all_of x st) (fun _ => all_of y).
Proof.
  induction x as [|e x IH]; intros y st; cbn [app all_of]; [reflexivity|]. unfold andthen at 1 3. destruct (e st) as [st' [u| |]]; try reflexivity. apply IH.
Qed.
Lemma all_one (x : thing) st : all_of [x] st = x st.
Proof. cbn [all_of]. unfold andthen. destruct (x st) as [st' [[]| |]]; reflexivity. Qed.
Lemma all_filter {I} (p : I -> bool) (f : I -> thing) l st : all_of (flat_map (fun i => if p i then [f i] else []) l) st = all_of (map f (filter p l)) st.
Proof. rewrite flat_map_filter. reflexivity. Qed.

(** ** What a piece of code does *)
Section Does.
Context {I : Type}.
Variables (E : env) (n : nat) (w : world) (ts : I -> list thing).

Definition did (X : MS (option unit)) (l : list I) : Prop := forall st w1, w_heap w1 = w_heap w ->
  exists w' o, X st w1 = (fst (all_of (flat_map ts (reached_n n E w1 l)) st), w', o) /\ w_heap w' = w_heap w /\
    match snd (all_of (flat_map ts (reached_n n E w1 l)) st) with
    | Ok _ => exists x, o = Ok x /\ forall more, reached_n n E w1 (l ++ more) = reached_n n E w1 l ++ match x with None => reached_n n E w' more | Some _ => [] end
    | Panic => o = Panic
    | Diverge => o = Diverge
    end.

Lemma did_ext X Y l : did X l -> (forall st w1, w_heap w1 = w_heap w -> Y st w1 = X st w1) -> did Y l.
Proof. intros H He st w1 Hw. rewrite (He st w1 Hw). apply H. exact Hw. Qed.
Lemma did_nil : did (sret None) [].
Proof.
  intros st w1 Hw. rewrite reached_n_nil. cbn [flat_map all_of fst snd]. exists w1, (Ok None). split; [reflexivity|]. split; [exact Hw|].
  exists None. split; [reflexivity|]. intros more. reflexivity.
Qed.
Lemma did_seq X Y (a b : list I) : did X a -> did Y b -> did (let$ o := X in match o with Some r => sret (Some r) | None => Y end) (a ++ b).
Proof.
  intros HX HY st w1 Hw. destruct (HX st w1 Hw) as (w2 & o & EX & H2 & Ho). unfold sbind at 1. rewrite EX.
  destruct (reached_n_app n E w1 a b) as [z Ez]. rewrite Ez, flat_map_app, all_app.
  destruct (all_of (flat_map ts (reached_n n E w1 a)) st) as [st2 r2] eqn:Es. cbn [fst snd andthen] in *. destruct r2 as [u| |].
  - destruct Ho as (x & -> & Hm). pose proof (Hm b) as Hb. rewrite Ez in Hb. apply app_inv_head in Hb.
    destruct x as [x|]; subst z.
    + cbn [flat_map all_of fst snd]. exists w2, (Ok (Some x)). split; [reflexivity|]. split; [exact H2|]. exists (Some x). split; [reflexivity|].
      intros more. rewrite <- app_assoc, !Hm, ?app_nil_r. reflexivity.
    + destruct (HY st2 w2 H2) as (w3 & o & EY & H3 & Ho). exists w3, o. split; [exact EY|]. split; [exact H3|].
      destruct (snd (all_of (flat_map ts (reached_n n E w2 b)) st2)) as [u'| |]; auto.
      destruct Ho as (x & -> & Hy). exists x. split; [reflexivity|]. intros more. rewrite <- app_assoc, !Hm, Hy, ?app_assoc. reflexivity.
  - subst o. exists w2, Panic. split; [reflexivity|]. split; [exact H2|reflexivity].
  - subst o. exists w2, Diverge. split; [reflexivity|]. split; [exact H2|reflexivity].
Qed.
(** one round: the context is asked [n] times, then the rest is done *)
Lemma did_one X i : (forall st w1, w_heap w1 = w_heap w -> exists w', w_heap w' = w_heap w /\
    ((X st w1 = (st, w', Ok (Some tt)) /\ exists k, e_ctx E = Some k /\ (k - w_polls w1 < n)%nat) \/
     (X st w1 = (fst (all_of (ts i) st), w', match snd (all_of (ts i) st) with Ok _ => Ok None | Panic => Panic | Diverge => Diverge end) /\
      match e_ctx E with None => True | Some k => n = 0%nat \/ (w_polls w' = w_polls w1 + n /\ n <= k - w_polls w1)%nat end))) ->
  did X [i].
Proof.
  intros H st w1 Hw. destruct (H st w1 Hw) as (w' & Hw' & [(EX & k & Ek & Hk)|(EX & Hk)]).
  - assert (Er : forall l : list I, reached_n n E w1 l = []).
    { intros l. unfold reached_n. rewrite Ek. destruct (Nat.eqb n 0) eqn:E0; [apply Nat.eqb_eq in E0; lia|]. rewrite Nat.div_small by lia. reflexivity. }
    rewrite !Er. cbn [flat_map all_of fst snd]. exists w', (Ok (Some tt)). split; [exact EX|]. split; [exact Hw'|]. exists (Some tt). split; [reflexivity|].
    intros more. rewrite Er. reflexivity.
  - assert (Er : forall l : list I, reached_n n E w1 (i :: l) = i :: reached_n n E w' l).
    { intros l. unfold reached_n. destruct (e_ctx E) as [k|]; [|reflexivity]. destruct (Nat.eqb n 0) eqn:E0; [reflexivity|]. apply Nat.eqb_neq in E0.
      destruct Hk as [Hk|[Hp Hk]]; [lia|]. rewrite Hp. replace (k - w_polls w1)%nat with ((k - (w_polls w1 + n)) + 1 * n)%nat by lia.
      rewrite Nat.div_add by lia. rewrite Nat.add_1_r. reflexivity. }
    rewrite Er, reached_n_nil. cbn [flat_map]. rewrite app_nil_r. exists w', (match snd (all_of (ts i) st) with Ok _ => Ok None | Panic => Panic | Diverge => Diverge end).
    split; [exact EX|]. split; [exact Hw'|]. destruct (snd (all_of (ts i) st)); auto. exists None. split; [reflexivity|]. intros more. apply Er.
Qed.
Lemma did_for {J} (X : J -> MS (option unit)) (pl : J -> list I) : forall l, (forall j, In j l -> did (X j) (pl j)) -> did (s_for_list l X) (flat_map pl l).
Proof.
  induction l as [|j l IH]; intros H; cbn [s_for_list flat_map]; [apply did_nil|]. apply did_seq; [apply H; left; reflexivity|].
  apply IH. intros j' Hj. apply H. right. exact Hj.
Qed.
End Does.

(** ** The loop over an operand *)
Section Loop.
Variables (E : env) (w : world) (ts : ent -> list thing) (body : Z -> Z -> V -> MS (option unit)) (L : list ent).
Hypothesis Hbody : forall r c v, In (r, c, v) L -> forall st w1, w_heap w1 = w_heap w ->
  body r c v st w1 = (fst (all_of (ts (r, c, v)) st), w1, match snd (all_of (ts (r, c, v)) st) with Ok _ => Ok None | Panic => Panic | Diverge => Diverge end).

Lemma own_did : forall rest, incl rest L -> did E 1 w ts (o_own_loop E rest tt body) rest.
Proof.
  induction rest as [|[[r c] v] rest IH]; intros Hi; cbn [o_own_loop]; [apply did_nil|].
  change ((r, c, v) :: rest) with ([(r, c, v)] ++ rest).
  eapply did_ext; [apply (did_seq E 1 w ts (let$ d := slift (poll E) in if d : bool then sret (Some tt) else body r c v) (o_own_loop E rest tt body))|].
  - apply did_one. intros st w1 Hw. destruct (poll_heap E w1) as (w2 & b & Hp & Hw2 & _). exists w2. split; [congruence|]. rewrite (sbind_lift _ _ _ _ _ _ Hp).
    unfold poll in Hp. destruct (e_ctx E) as [k|] eqn:Ek.
    + injection Hp as <- Hb. destruct b.
      * left. split; [reflexivity|]. exists k. split; [reflexivity|]. apply Nat.leb_le in Hb. lia.
      * right. split; [apply Hbody; [apply Hi; left; reflexivity|exact Hw]|]. apply Nat.leb_gt in Hb. right. cbn [w_polls]. lia.
    + injection Hp as <- <-. right. split; [apply Hbody; [apply Hi; left; reflexivity|exact Hw]|exact Logic.I].
  - apply IH. intros e He. apply Hi. right. exact He.
  - intros st w1 _. unfold sbind. destruct (slift (poll E) st w1) as [[st1 w2] [[]| |]]; try reflexivity.
Qed.
Lemma enum_own_did p m : obj w p m ->
  forall rest it d0 fuel, it_rel m it d0 rest -> (length rest <= fuel)%nat -> incl rest L -> forall st w1, w_heap w1 = w_heap w ->
  s_enum_loop E fuel p it tt body st w1 = o_own_loop E rest tt body st w1.
Proof.
  intros Hm. induction rest as [|[[r c] v] rest IH]; intros it d0 fuel Hit Hf Hi st w1 Hw.
  - destruct fuel; cbn [s_enum_loop o_own_loop]; rewrite (it_rel_HasNext _ _ _ _ Hit); reflexivity.
  - destruct fuel as [|fuel]; [simpl in Hf; lia|]. cbn [s_enum_loop o_own_loop]. rewrite (it_rel_HasNext _ _ _ _ Hit).
    destruct (poll_heap E w1) as (w2 & b & Hp & Hw2 & _). rewrite !(sbind_lift _ _ _ _ _ _ Hp). destruct b; [reflexivity|].
    assert (Hm2 : obj w2 p m) by (unfold obj; rewrite Hw2, Hw; exact Hm). rewrite (sbind_lift _ _ _ _ _ _ (load_ok _ _ _ Hm2)).
    destruct (it_rel_step _ _ _ _ _ _ _ Hit) as (it' & Hx & Hcu & Hr & _).
    assert (En : mlift (mat_Next m it) w2 = (w2, Ok ((r, c, v), it'))) by (unfold mlift, mat_Next; rewrite Hx; cbn [rbind]; rewrite Hcu; reflexivity).
    rewrite (sbind_lift _ _ _ _ _ _ En). cbv iota beta. unfold sbind. rewrite (Hbody r c v (Hi _ (or_introl eq_refl)) st w2 ltac:(congruence)).
    destruct (snd (all_of (ts (r, c, v)) st)); try reflexivity.
    apply (IH it' _ fuel Hr); [simpl in Hf; lia|intros e He; apply Hi; right; exact He|congruence].
Qed.
Lemma arg_did a R C f : zero_ok N -> wfw w -> presents E w a R C f L -> did E 1 w ts (o_enumerate E a tt body) L.
Proof.
  intros Hz Hwf Ha. destruct (operand_lists _ _ _ _ _ _ _ _ Hz Hwf (present_t _ _ _ _ _ _ _ Ha)) as [Hl _].
  destruct a as [p|x]; cbn [lists o_enumerate] in *.
  - destruct Hl as (_ & m & Hm & Wm & He & Hf). eapply did_ext; [apply own_did; apply incl_refl|]. intros st w1 Hw. unfold s_enumerate.
    assert (Hm1 : obj w1 p m) by (unfold obj; rewrite Hw; exact Hm). rewrite (sbind_lift _ _ _ _ _ _ (load_ok _ _ _ Hm1)).
    apply (enum_own_did p m Hm L _ [] (e_fuel E)); auto using incl_refl.
    + rewrite <- He. apply entries_rel. exact Wm.
    + pose proof (zlen_entries m Wm) as Hz'. rewrite He in Hz'. unfold zlen in Hz'. lia.
  - rewrite Hl. apply own_did. apply incl_refl.
Qed.
End Loop.

(** ** The operators *)
Lemma did_amounts {I} E n w (ts : I -> list thing) X l (op : MS unit) ts' : did E n w ts X l ->
  (forall st, op st w = (let$ _ := X in sret tt) st w) -> flat_map ts (reached_n n E w l) = ts' -> forall st, amounts_to op st w ts'.
Proof.
  intros H Hop <- st. destruct (H st w eq_refl) as (w' & o & EX & Hw & Ho). exists w'. split; [|exact Hw]. rewrite Hop. unfold sbind. rewrite EX.
  destruct (snd (all_of (flat_map ts (reached_n n E w l)) st)) as [[]| |]; [destruct Ho as (x & -> & _)|subst o|subst o]; reflexivity.
Qed.
Lemma b_check_ok q (out : sink) st w : fits q out -> b_check q out st w = (st, w, Ok tt).
Proof. intros [E1 E2]. unfold b_check. rewrite E1, E2, !Z.eqb_refl. reflexivity. Qed.
Lemma b_check_bind {A} q (out : sink) (F : unit -> MS A) st w : fits q out -> sbind (b_check q out) F st w = F tt st w.
Proof. intros H. unfold sbind. rewrite b_check_ok by exact H. reflexivity. Qed.
(** a masked call *)
Lemma unless_runs (q : smask) (r c : Z) (X : MS unit) (x : thing) (w1 : world) (st : St) : (forall st, X st w1 = (fst (x st), w1, snd (x st))) ->
  (let$ e := s_Element q r c in
   let$ _ := (if negb e then X else sret tt) in
   sret (None : option unit)) st w1 =
  (fst (all_of [unless q r c x] st), w1, match snd (all_of [unless q r c x] st) with Ok _ => Ok None | Panic => Panic | Diverge => Diverge end).
Proof.
  intros HX. rewrite all_one. unfold unless, andthen, sbind, s_Element. destruct (sm_Element q st r c) as [st1 [b| |]]; try reflexivity.
  destruct b; cbn [negb]; [reflexivity|]. rewrite HX. destruct (x st1) as [st2 [[]| |]]; reflexivity.
Qed.
Lemma set_runs (out : sink) r c v w1 st : o_Set out r c v st w1 = (fst (set_at out r c v st), w1, snd (set_at out r c v st)).
Proof. unfold o_Set, set_at. destruct (so_Set out st r c v). reflexivity. Qed.
Lemma update_runs (out : sink) r c f w1 st : o_Update out r c f st w1 = (fst (update_at out r c f st), w1, snd (update_at out r c f st)).
Proof. unfold o_Update, update_at. destruct (so_Update out st r c f). reflexivity. Qed.
Lemma image_runs (out : sink) u r c v w1 st : (let$ x := u_Apply u v in o_Set out r c x) st w1 = (fst (set_image out u r c v st), w1, snd (set_image out u r c v st)).
Proof.
  unfold sbind, u_Apply, set_image, andthen. destruct (u st v) as [st1 [x| |]]; try reflexivity. apply set_runs.
Qed.

Lemma addB E w (s m : arg) (q : smask) (out : sink) R C f g Ls Lm b st : sane N -> reachable w -> presents E w s R C f Ls -> presents E w m R C g Lm -> registered E w s b ->
  fits q out ->
  amounts_to (AddB E s m q out) st w
    (map (fun e : ent => unless q (row_of e) (col_of e) (set_at out (row_of e) (col_of e) (nadd ((if b then g else f) (row_of e) (col_of e)) (snd e)))) (reached E w (if b then Ls else Lm))).
Proof.
  intros Hsn Hr Hs Hm Hb Hk. pose proof (sane_wfw w Hsn Hr) as Hw. pose proof (proj1 Hsn) as Hz.
  set (src := if b then s else m). set (source := if b then m else s). set (L := if b then Ls else Lm). set (F := if b then f else g). set (G := if b then g else f).
  assert (Hsrc : presents E w src R C F L) by (destruct b; assumption). assert (Hso : presents E w source R C G (if b then Lm else Ls)) by (destruct b; assumption).
  destruct (operand_lists _ _ _ _ _ _ _ _ Hz Hw (present_t _ _ _ _ _ _ _ Hsrc)) as [_ Hin].
  set (th := fun e : ent => unless q (row_of e) (col_of e) (set_at out (row_of e) (col_of e) (nadd (G (row_of e) (col_of e)) (snd e)))).
  eapply (did_amounts E 1 w (fun e : ent => [th e]));
    [eapply (arg_did E w _ (fun r c v =>
    let$ value := slift (a_At source r c) in
    let$ e := s_Element q r c in
    let$ _ := (if negb e then o_Set out r c (nadd value v) else sret tt) in
    sret None) L) with (a := src); [|exact Hz|exact Hw|exact Hsrc]| |].
  - intros r c v Hi st1 w1 Hw1. destruct (Hin _ _ _ Hi) as [B1 B2].
    rewrite (sbind_lift _ _ _ _ _ _ (operand_At _ _ _ source _ _ _ _ w1 r c Hz Hw (present_t _ _ _ _ _ _ _ Hso) (only_heap _ _ _ Hw1) B1 B2)).
    apply (unless_runs q r c (o_Set out r c (nadd (G r c) v)) (set_at out r c (nadd (G r c) v))). intros st2. apply set_runs.
  - intros st1. unfold AddB. rewrite (sbind_lift _ _ _ _ _ _ (check_sizes_ok _ _ _ _ _ _ _ _ _ _ Hs Hm)), b_check_bind by exact Hk.
    rewrite (sbind_lift _ _ _ _ _ _ (registered_IsSparse _ _ _ _ Hb)). subst src source. destruct b; reflexivity.
  - rewrite <- reached_1. apply flat_map_map.
Qed.
Lemma subtractB E w (s m : arg) (q : smask) (out : sink) R C f g Ls Lm st : sane N -> reachable w -> presents E w s R C f Ls -> presents E w m R C g Lm ->
  fits q out ->
  amounts_to (SubtractB E s m q out) st w
    (map (fun e : ent => unless q (row_of e) (col_of e) (update_at out (row_of e) (col_of e) (fun x => nsub (snd e) x))) (reached E w Ls)).
Proof.
  intros Hsn Hr Hs Hm Hk. pose proof (sane_wfw w Hsn Hr) as Hw. pose proof (proj1 Hsn) as Hz.
  eapply (did_amounts E 1 w (fun e : ent => [unless q (row_of e) (col_of e) (update_at out (row_of e) (col_of e) (fun x => nsub (snd e) x))]));
    [eapply (arg_did E w _ (fun r c value =>
    let$ e := s_Element q r c in
    let$ _ := (if negb e then o_Update out r c (fun v => nsub value v) else sret tt) in
    sret None) Ls) with (a := s); [|exact Hz|exact Hw|exact Hs]| |].
  - intros r c v Hi st1 w1 Hw1.
    apply (unless_runs q r c (o_Update out r c (fun x => nsub v x)) (update_at out r c (fun x => nsub v x))). intros st2. apply update_runs.
  - intros st1. unfold SubtractB. rewrite (sbind_lift _ _ _ _ _ _ (check_sizes_ok _ _ _ _ _ _ _ _ _ _ Hs Hm)), b_check_bind by exact Hk. reflexivity.
  - rewrite <- reached_1. apply flat_map_map.
Qed.
Lemma ewmB E w (s m : arg) (q : smask) (out : sink) R C f g Ls Lm b st : sane N -> reachable w -> presents E w s R C f Ls -> presents E w m R C g Lm -> registered E w s b ->
  fits q out ->
  amounts_to (elementWiseMultiplyB E s m q out) st w
    (map (fun e : ent => unless q (row_of e) (col_of e) (set_at out (row_of e) (col_of e) (snd e)))
      (filter (fun e : ent => neqb (snd e) ((if b then g else f) (row_of e) (col_of e))) (reached E w (if b then Ls else Lm)))).
Proof.
  intros Hsn Hr Hs Hm Hb Hk. pose proof (sane_wfw w Hsn Hr) as Hw. pose proof (proj1 Hsn) as Hz.
  set (src := if b then s else m). set (source := if b then m else s). set (L := if b then Ls else Lm). set (F := if b then f else g). set (G := if b then g else f).
  assert (Hsrc : presents E w src R C F L) by (destruct b; assumption). assert (Hso : presents E w source R C G (if b then Lm else Ls)) by (destruct b; assumption).
  destruct (operand_lists _ _ _ _ _ _ _ _ Hz Hw (present_t _ _ _ _ _ _ _ Hsrc)) as [_ Hin].
  eapply (did_amounts E 1 w (fun e : ent => if neqb (snd e) (G (row_of e) (col_of e)) then [unless q (row_of e) (col_of e) (set_at out (row_of e) (col_of e) (snd e))] else []));
    [eapply (arg_did E w _ (fun r c value =>
    let$ v := slift (a_At source r c) in
    if neqb value v then
      let$ e := s_Element q r c in
      let$ _ := (if negb e then o_Set out r c value else sret tt) in sret None
    else sret None) L) with (a := src); [|exact Hz|exact Hw|exact Hsrc]| |].
  - intros r c v Hi st1 w1 Hw1. destruct (Hin _ _ _ Hi) as [B1 B2].
    rewrite (sbind_lift _ _ _ _ _ _ (operand_At _ _ _ source _ _ _ _ w1 r c Hz Hw (present_t _ _ _ _ _ _ _ Hso) (only_heap _ _ _ Hw1) B1 B2)).
    unfold row_of, col_of. cbn [fst snd]. destruct (neqb v (G r c)); [|reflexivity].
    apply (unless_runs q r c (o_Set out r c v) (set_at out r c v)). intros st2. apply set_runs.
  - intros st1. unfold elementWiseMultiplyB. rewrite b_check_bind by exact Hk.
    rewrite (sbind_lift _ _ _ _ _ _ (registered_IsSparse _ _ _ _ Hb)). subst src source. destruct b; reflexivity.
  - rewrite <- reached_1. apply flat_map_filter.
Qed.
Lemma ewa_did E w a (q : smask) (out : sink) R C f L : sane N -> reachable w -> presents E w a R C f L ->
  did E 1 w (fun e : ent => if negb (neqb (snd e) n0) then [unless q (row_of e) (col_of e) (set_at out (row_of e) (col_of e) (snd e))] else [])
    (ewa_loopB E a q out) L.
Proof.
  intros Hsn Hr Ha. pose proof (sane_wfw w Hsn Hr) as Hw. pose proof (proj1 Hsn) as Hz.
  eapply (arg_did E w _ _ L) with (a := a); [|exact Hz|exact Hw|exact Ha].
  intros r c v Hi st1 w1 Hw1. cbn [snd]. destruct (neqb v n0); cbn [negb]; [reflexivity|].
  apply (unless_runs q r c (o_Set out r c v) (set_at out r c v)). intros st2. apply set_runs.
Qed.
Lemma ewaB E w (s m : arg) (q : smask) (out : sink) R C f g Ls Lm st : sane N -> reachable w -> presents E w s R C f Ls -> presents E w m R C g Lm ->
  fits q out ->
  amounts_to (elementWiseAddB E s m q out) st w
    (map (fun e : ent => unless q (row_of e) (col_of e) (set_at out (row_of e) (col_of e) (snd e))) (filter (fun e : ent => negb (neqb (snd e) n0)) (reached E w (Ls ++ Lm)))).
Proof.
  intros Hsn Hr Hs Hm Hk.
  eapply did_amounts; [eapply did_seq; [exact (ewa_did E w s q out R C f Ls Hsn Hr Hs)|exact (ewa_did E w m q out R C g Lm Hsn Hr Hm)]| |].
  - intros st1. unfold elementWiseAddB. rewrite b_check_bind by exact Hk. unfold sbind.
    destruct (ewa_loopB E s q out st1 w) as [[st2 w2] [[[]|]| |]]; reflexivity.
  - rewrite <- reached_1. apply flat_map_filter.
Qed.
Lemma applyB E w a (q : smask) (u : @unary N St) (out : sink) R C f L st : sane N -> reachable w -> presents E w a R C f L -> fits q out ->
  amounts_to (ApplyB E a q u out) st w (map (fun e : ent => unless q (row_of e) (col_of e) (set_image out u (col_of e) (row_of e) (snd e))) (reached E w L)).
Proof.
  intros Hsn Hr Ha Hk. pose proof (sane_wfw w Hsn Hr) as Hw. pose proof (proj1 Hsn) as Hz.
  eapply (did_amounts E 1 w (fun e : ent => [unless q (row_of e) (col_of e) (set_image out u (col_of e) (row_of e) (snd e))])); [eapply (arg_did E w _ (fun r c value =>
    let$ e := s_Element q r c in
    let$ _ := (if negb e then let$ x := u_Apply u value in o_Set out c r x else sret tt) in sret None) L) with (a := a); [|exact Hz|exact Hw|exact Ha]| |].
  - intros r c v Hi st1 w1 Hw1. apply (unless_runs q r c (let$ x := u_Apply u v in o_Set out c r x) (set_image out u c r v)). intros st2. apply image_runs.
  - intros st1. unfold ApplyB. rewrite b_check_bind by exact Hk. reflexivity.
  - rewrite <- reached_1. apply flat_map_map.
Qed.
Lemma transposeB E w a (q : smask) (out : sink) R C f L st : sane N -> reachable w -> presents E w a R C f L -> fits q out ->
  amounts_to (TransposeB E a q out) st w (map (fun e : ent => unless q (row_of e) (col_of e) (set_at out (col_of e) (row_of e) (snd e))) (reached E w L)).
Proof.
  intros Hsn Hr Ha Hk. pose proof (sane_wfw w Hsn Hr) as Hw. pose proof (proj1 Hsn) as Hz.
  eapply (did_amounts E 1 w (fun e : ent => [unless q (row_of e) (col_of e) (set_at out (col_of e) (row_of e) (snd e))])); [eapply (arg_did E w _ (fun r c value =>
    let$ e := s_Element q r c in
    let$ _ := (if negb e then o_Set out c r value else sret tt) in sret None) L) with (a := a); [|exact Hz|exact Hw|exact Ha]| |].
  - intros r c v Hi st1 w1 Hw1. apply (unless_runs q r c (o_Set out c r v) (set_at out c r v)). intros st2. apply set_runs.
  - intros st1. unfold TransposeB. rewrite b_check_bind by exact Hk. reflexivity.
  - rewrite <- reached_1. apply flat_map_map.
Qed.
Lemma multiplyB_ok E w (s m : arg) (q : smask) (out : sink) R K C n (fr gc : Z -> Z -> V) st : sane N -> reachable w ->
  rows_show w (length (w_heap w)) s R K n fr -> columns_show w (length (w_heap w)) m K C n gc -> fits q out ->
  amounts_to (multiplyB E s m q out) st w
    (map (fun p : Z * Z => unless q (fst p) (snd p) (set_at out (fst p) (snd p) (sum_from n0 (fun l => nmul (fr (fst p) l) (gc (snd p) l)) 0 n)))
      (reached_n (Z.to_nat n) E w (positions R C))).
Proof.
  intros Hsn Hr Hs Hm Hk. set (t := length (w_heap w)) in *.
  set (th := fun p : Z * Z => unless q (fst p) (snd p) (set_at out (fst p) (snd p) (sum_from n0 (fun l => nmul (fr (fst p) l) (gc (snd p) l)) 0 n))).
  eapply (did_amounts E (Z.to_nat n) w (fun p : Z * Z => [th p]) (s_for_list (R := unit) (zrange 0 R) (fun r =>
      let$ rows := slift (a_RowsAt s r) in
      s_for_list (zrange 0 C) (fun c =>
        let$ column := slift (a_ColumnsAt m c) in
        let$ o := slift (a_dot E rows column (zrange 0 (vec_Length rows)) n0) in
        match o with
        | None => sret (Some tt)
        | Some sum =>
            let$ e := s_Element q r c in
            let$ _ := (if negb e then o_Set out r c sum else sret tt) in
            sret None
        end))) (positions R C)).
  - unfold positions. apply did_for. intros r Hir. apply in_zrange in Hir.
    intros st1 w1 Hw1. destruct (rows_run w t s R K n fr w1 r Hs (only_heap _ _ _ Hw1) Hir) as (rv1 & E1 & Hl1 & Ha1). rewrite (sbind_lift _ _ _ _ _ _ E1).
    assert (G : did E (Z.to_nat n) w (fun p : Z * Z => [th p])
      (s_for_list (R := unit) (zrange 0 C) (fun c =>
        let$ column := slift (a_ColumnsAt m c) in
        let$ o := slift (a_dot E rv1 column (zrange 0 (vec_Length rv1)) n0) in
        match o with
        | None => sret (Some tt)
        | Some sum =>
            let$ e := s_Element q r c in
            let$ _ := (if negb e then o_Set out r c sum else sret tt) in
            sret None
        end)) (map (fun c => (r, c)) (zrange 0 C))).
    { rewrite <- flat_map_map. apply did_for. intros c Hic. apply in_zrange in Hic. apply did_one. intros st2 w2 Hw2.
      destruct (columns_run w t m K C n gc w2 c Hm (only_heap _ _ _ Hw2) Hic) as (cv & Ecv & Hcv). rewrite (sbind_lift _ _ _ _ _ _ Ecv).
      destruct (dot_polls E rv1 cv (fr r) (gc c) (zrange 0 (vec_Length rv1)) n0 w2) as (w3 & Hw3 & Hd).
      { intros l Hl. apply in_zrange in Hl. rewrite Hl1 in Hl. split; [apply Ha1|apply Hcv]; lia. }
      assert (Hll : length (zrange 0 (vec_Length rv1)) = Z.to_nat n) by (rewrite Hl1, zrange_length, Z.sub_0_r; reflexivity). rewrite Hll in Hd.
      exists w3. split; [congruence|]. destruct Hd as [(Ed & Hk')|(Ed & Hk')]; [left|right]; (split; [|exact Hk']); rewrite (sbind_lift _ _ _ _ _ _ Ed); [reflexivity|].
      rewrite Hl1. apply (unless_runs q r c (o_Set out r c (sum_from n0 (fun l => nmul (fr r l) (gc c l)) 0 n)) (set_at out r c (sum_from n0 (fun l => nmul (fr r l) (gc c l)) 0 n))).
      intros st3. apply set_runs. }
    apply G. exact Hw1.
  - intros st1. pose proof (only_refl w t) as Hon. destruct (rows_size w t s R K n fr w Hs Hon) as [Er Ek]. destruct (columns_size w t m K C n gc w Hm Hon) as [Ek' Ec].
    unfold multiplyB. rewrite (sbind_lift _ _ _ _ _ _ Ek'), (sbind_lift _ _ _ _ _ _ Ek), Z.eqb_refl. cbn [negb].
    rewrite b_check_bind by exact Hk. rewrite (sbind_lift _ _ _ _ _ _ Er), (sbind_lift _ _ _ _ _ _ Ec). reflexivity.
  - apply flat_map_map.
Qed.
End SharedThms.
