(** What the operators do with operands that refuse. *)
From Coq Require Import String.
From Verif Require Import GoBase Num SparseVec Csr Csc DenseVec DenseMat Mat World Ops Spec Api.
From Verif Require Import BaseProofs MatProofs HeapProofs ReachProofs StoreProofs StoreThms VecProofs OpsProofs OpsThms EwThms OpsProps LoopProofs ApplyMem ApplyMemThms MaskMem Foreign ForeignThms ForeignOps Sink SinkThms SinkLib Shared SharedThms SharedLib Refuse.
Import ListNotations.

Section RefuseThms.
Context {N : num} {St : Type}.
Notation V := (T N).
Notation mat := (mat N).
Notation ent := (Z * Z * V)%type.
Notation world := (world N).
Notation arg := (arg N).
Notation sink := (sink N St).
Notation smask := (smask St).
Notation thing := (thing St).
Notation MS := (@MS N St).
Implicit Types w : world.
Implicit Types a : arg.

(** ** Reading an operand: only the heap matters *)
Lemma load_heap p w w1 : w_heap w1 = w_heap w -> load p w1 = (w1, snd (load p w)).
Proof. intros H. unfold load. rewrite H. destruct (nth_error (w_heap w) p); reflexivity. Qed.
Lemma At_heap a r c g w w1 : w_heap w1 = w_heap w -> a_At a r c w = (w, g) -> a_At a r c w1 = (w1, g).
Proof.
  destruct a as [p|o]; [|intros _; cbn [a_At]; unfold mlift; congruence].
  intros Hh H. cbn [a_At] in *. unfold p_At, mbind in *. rewrite (load_heap _ _ _ Hh). unfold load in *. destruct (nth_error (w_heap w) p) as [y|]; cbn [snd] in *; [|congruence].
  unfold mlift in *. destruct (mat_At y r c) as [[v m']| |]; [|congruence..]. unfold store, mret in *.
  assert (Es : list_set (w_heap w) p m' = w_heap w) by (apply (f_equal fst) in H; cbn [fst] in H; apply (f_equal w_heap) in H; exact H).
  assert (Eg : g = Ok v) by congruence. rewrite Eg, Hh, Es, <- Hh. destruct w1. reflexivity.
Qed.
Lemma RowsAt_heap a r g w w1 : w_heap w1 = w_heap w -> a_RowsAt a r w = (w, g) -> a_RowsAt a r w1 = (w1, g).
Proof.
  destruct a as [p|o]; [|intros _; cbn [a_RowsAt]; unfold mlift; congruence].
  intros Hh H. cbn [a_RowsAt] in *. unfold mbind in *. rewrite (load_heap _ _ _ Hh). unfold load in *. destruct (nth_error (w_heap w) p) as [y|]; cbn [snd] in *; [|congruence].
  unfold mlift, mret in *. cbv beta iota in *. destruct (mat_RowsAt y r); congruence.
Qed.
Lemma ColumnsAt_heap a r g w w1 : w_heap w1 = w_heap w -> a_ColumnsAt a r w = (w, g) -> a_ColumnsAt a r w1 = (w1, g).
Proof.
  destruct a as [p|o]; [|intros _; cbn [a_ColumnsAt]; unfold mlift; congruence].
  intros Hh H. cbn [a_ColumnsAt] in *. unfold mbind in *. rewrite (load_heap _ _ _ Hh). unfold load in *. destruct (nth_error (w_heap w) p) as [y|]; cbn [snd] in *; [|congruence].
  unfold mlift, mret in *. cbv beta iota in *. destruct (mat_ColumnsAt y r); congruence.
Qed.
Lemma sized_check w (s m : arg) R C : sized w s R C -> sized w m R C -> a_check_sizes s m w = (w, Ok tt).
Proof.
  intros [E1 E2] [E3 E4]. unfold a_check_sizes. rewrite (mbind_ok _ _ _ _ _ E2), (mbind_ok _ _ _ _ _ E4), Z.eqb_refl. cbn [negb].
  rewrite (mbind_ok _ _ _ _ _ E1), (mbind_ok _ _ _ _ _ E3), Z.eqb_refl. reflexivity.
Qed.

(** ** Loops over an iterator *)
Lemma walk_did E w (ts : ent -> list thing) body L a : sane N -> reachable w -> walks E w a L ->
  (forall r c v, In (r, c, v) L -> forall st w1, w_heap w1 = w_heap w ->
    body r c v st w1 = (fst (all_of (ts (r, c, v)) st), w1, match snd (all_of (ts (r, c, v)) st) with Ok _ => Ok None | Panic => Panic | Diverge => Diverge end)) ->
  did E 1 w ts (o_enumerate E a tt body) L.
Proof.
  intros Hsn Hr Ha Hb. destruct a as [p|x]; cbn [walks o_enumerate] in *.
  - destruct Ha as (m & Hm & HL & Hf). pose proof (sane_wfw w Hsn Hr _ _ Hm) as Wm. pose proof (enumerates_unique m L Wm HL) as He.
    eapply did_ext; [eapply (own_did E w ts body L); [exact Hb|apply incl_refl]|]. intros st w1 Hw. unfold s_enumerate.
    assert (Hm1 : obj w1 p m) by (unfold obj; rewrite Hw; exact Hm). rewrite (sbind_lift _ _ _ _ _ _ (load_ok _ _ _ Hm1)).
    apply (enum_own_did E w ts body L Hb p m Hm L _ [] (e_fuel E)); auto using incl_refl.
    + rewrite He. apply entries_rel. exact Wm.
    + pose proof (zlen_entries m Wm) as Hz'. rewrite <- He in Hz'. unfold zlen in Hz'. lia.
  - subst L. eapply (own_did E w ts body); [exact Hb|apply incl_refl].
Qed.
Lemma answer_runs {A} (x : res A) (X : A -> MS (option unit)) (f : A -> thing) st w1 :
  (forall y, x = Ok y -> X y st w1 = (fst (all_of [f y] st), w1, match snd (all_of [f y] st) with Ok _ => Ok None | Panic => Panic | Diverge => Diverge end)) ->
  match x with Ok y => X y st w1 | Panic => (st, w1, Panic) | Diverge => (st, w1, Diverge) end =
  (fst (all_of [with_answer x f] st), w1, match snd (all_of [with_answer x f] st) with Ok _ => Ok None | Panic => Panic | Diverge => Diverge end).
Proof. intros H. destruct x as [y| |]; [|reflexivity..]. rewrite (H y eq_refl). rewrite !all_one. reflexivity. Qed.
Lemma at_bind {B} a r c g (F : V -> MS B) st w w1 : w_heap w1 = w_heap w -> a_At a r c w = (w, g) ->
  sbind (slift (a_At a r c)) F st w1 = match g with Ok y => F y st w1 | Panic => (st, w1, Panic) | Diverge => (st, w1, Diverge) end.
Proof. intros Hh H. unfold sbind, slift. rewrite (At_heap _ _ _ _ _ _ Hh H). destruct g; reflexivity. Qed.

Lemma refuse_add E w (s m : arg) (q : smask) (out : sink) R C g L b st : sane N -> reachable w -> sized w s R C -> sized w m R C -> registered E w s b ->
  walks E w (if b then s else m) L -> at_gives w (if b then m else s) g -> fits q out ->
  amounts_to (AddB E s m q out) st w
    (map (fun e : ent => with_answer (g (row_of e) (col_of e)) (fun x => unless q (row_of e) (col_of e) (set_at out (row_of e) (col_of e) (nadd x (snd e))))) (reached E w L)).
Proof.
  intros Hsn Hr Hs Hm Hb Hw Hg Hk.
  eapply (did_amounts E 1 w (fun e : ent => [with_answer (g (row_of e) (col_of e)) (fun x => unless q (row_of e) (col_of e) (set_at out (row_of e) (col_of e) (nadd x (snd e))))]));
    [apply (walk_did E w _ (fun r c v =>
    let$ value := slift (a_At (if b then m else s) r c) in
    let$ e := s_Element q r c in
    let$ _ := (if negb e then o_Set out r c (nadd value v) else sret tt) in
    sret None) L (if b then s else m) Hsn Hr Hw)| |].
  - intros r c v Hi st1 w1 Hw1. rewrite (at_bind _ _ _ _ _ _ _ _ Hw1 (Hg r c)).
    apply (answer_runs (g r c) (fun value => let$ e := s_Element q r c in let$ _ := (if negb e then o_Set out r c (nadd value v) else sret tt) in sret None)
      (fun x => unless q r c (set_at out r c (nadd x v)))).
    intros y _. apply (unless_runs q r c (o_Set out r c (nadd y v)) (set_at out r c (nadd y v))). intros st2. apply set_runs.
  - intros st1. unfold AddB. rewrite (sbind_lift _ _ _ _ _ _ (sized_check _ _ _ _ _ Hs Hm)), b_check_bind by exact Hk.
    rewrite (sbind_lift _ _ _ _ _ _ (registered_IsSparse _ _ _ _ Hb)). destruct b; reflexivity.
  - rewrite <- reached_1. apply flat_map_map.
Qed.
Lemma refuse_ewm E w (s m : arg) (q : smask) (out : sink) g L b st : sane N -> reachable w -> registered E w s b ->
  walks E w (if b then s else m) L -> at_gives w (if b then m else s) g -> fits q out ->
  amounts_to (elementWiseMultiplyB E s m q out) st w
    (map (fun e : ent => with_answer (g (row_of e) (col_of e)) (fun x => if neqb (snd e) x then unless q (row_of e) (col_of e) (set_at out (row_of e) (col_of e) (snd e)) else nothing)) (reached E w L)).
Proof.
  intros Hsn Hr Hb Hw Hg Hk.
  eapply (did_amounts E 1 w (fun e : ent => [with_answer (g (row_of e) (col_of e)) (fun x => if neqb (snd e) x then unless q (row_of e) (col_of e) (set_at out (row_of e) (col_of e) (snd e)) else nothing)]));
    [apply (walk_did E w _ (fun r c value =>
    let$ v := slift (a_At (if b then m else s) r c) in
    if neqb value v then
      let$ e := s_Element q r c in
      let$ _ := (if negb e then o_Set out r c value else sret tt) in sret None
    else sret None) L (if b then s else m) Hsn Hr Hw)| |].
  - intros r c v Hi st1 w1 Hw1. rewrite (at_bind _ _ _ _ _ _ _ _ Hw1 (Hg r c)).
    apply (answer_runs (g r c) (fun x => if neqb v x then let$ e := s_Element q r c in let$ _ := (if negb e then o_Set out r c v else sret tt) in sret None else sret None)
      (fun x => if neqb v x then unless q r c (set_at out r c v) else nothing)).
    intros y _. destruct (neqb v y); [|reflexivity]. apply (unless_runs q r c (o_Set out r c v) (set_at out r c v)). intros st2. apply set_runs.
  - intros st1. unfold elementWiseMultiplyB. rewrite b_check_bind by exact Hk.
    rewrite (sbind_lift _ _ _ _ _ _ (registered_IsSparse _ _ _ _ Hb)). destruct b; reflexivity.
  - rewrite <- reached_1. apply flat_map_map.
Qed.
Lemma refuse_subtract E w (s m : arg) (q : smask) (out : sink) R C L st : sane N -> reachable w -> sized w s R C -> sized w m R C ->
  walks E w s L -> fits q out ->
  amounts_to (SubtractB E s m q out) st w
    (map (fun e : ent => unless q (row_of e) (col_of e) (update_at out (row_of e) (col_of e) (fun x => nsub (snd e) x))) (reached E w L)).
Proof.
  intros Hsn Hr Hs Hm Hw Hk.
  eapply (did_amounts E 1 w (fun e : ent => [unless q (row_of e) (col_of e) (update_at out (row_of e) (col_of e) (fun x => nsub (snd e) x))]));
    [apply (walk_did E w _ (fun r c value =>
    let$ e := s_Element q r c in
    let$ _ := (if negb e then o_Update out r c (fun v => nsub value v) else sret tt) in
    sret None) L s Hsn Hr Hw)| |].
  - intros r c v Hi st1 w1 Hw1. apply (unless_runs q r c (o_Update out r c (fun x => nsub v x)) (update_at out r c (fun x => nsub v x))). intros st2. apply update_runs.
  - intros st1. unfold SubtractB. rewrite (sbind_lift _ _ _ _ _ _ (sized_check _ _ _ _ _ Hs Hm)), b_check_bind by exact Hk. reflexivity.
  - rewrite <- reached_1. apply flat_map_map.
Qed.
Lemma refuse_ewa_did E w a (q : smask) (out : sink) L : sane N -> reachable w -> walks E w a L ->
  did E 1 w (fun e : ent => if negb (neqb (snd e) n0) then [unless q (row_of e) (col_of e) (set_at out (row_of e) (col_of e) (snd e))] else []) (ewa_loopB E a q out) L.
Proof.
  intros Hsn Hr Ha. apply (walk_did E w _ _ L a Hsn Hr Ha).
  intros r c v Hi st1 w1 Hw1. cbn [snd]. destruct (neqb v n0); cbn [negb]; [reflexivity|].
  apply (unless_runs q r c (o_Set out r c v) (set_at out r c v)). intros st2. apply set_runs.
Qed.
Lemma refuse_ewa E w (s m : arg) (q : smask) (out : sink) Ls Lm st : sane N -> reachable w -> walks E w s Ls -> walks E w m Lm -> fits q out ->
  amounts_to (elementWiseAddB E s m q out) st w
    (map (fun e : ent => unless q (row_of e) (col_of e) (set_at out (row_of e) (col_of e) (snd e))) (filter (fun e : ent => negb (neqb (snd e) n0)) (reached E w (Ls ++ Lm)))).
Proof.
  intros Hsn Hr Hs Hm Hk.
  eapply did_amounts; [eapply did_seq; [exact (refuse_ewa_did E w s q out Ls Hsn Hr Hs)|exact (refuse_ewa_did E w m q out Lm Hsn Hr Hm)]| |].
  - intros st1. unfold elementWiseAddB. rewrite b_check_bind by exact Hk. unfold sbind.
    destruct (ewa_loopB E s q out st1 w) as [[st2 w2] [[[]|]| |]]; reflexivity.
  - rewrite <- reached_1. apply flat_map_filter.
Qed.
Lemma refuse_apply E w a (q : smask) (u : @unary N St) (out : sink) L st : sane N -> reachable w -> walks E w a L -> fits q out ->
  amounts_to (ApplyB E a q u out) st w (map (fun e : ent => unless q (row_of e) (col_of e) (set_image out u (col_of e) (row_of e) (snd e))) (reached E w L)).
Proof.
  intros Hsn Hr Ha Hk.
  eapply (did_amounts E 1 w (fun e : ent => [unless q (row_of e) (col_of e) (set_image out u (col_of e) (row_of e) (snd e))])); [apply (walk_did E w _ (fun r c value =>
    let$ e := s_Element q r c in
    let$ _ := (if negb e then let$ x := u_Apply u value in o_Set out c r x else sret tt) in sret None) L a Hsn Hr Ha)| |].
  - intros r c v Hi st1 w1 Hw1. apply (unless_runs q r c (let$ x := u_Apply u v in o_Set out c r x) (set_image out u c r v)). intros st2. apply image_runs.
  - intros st1. unfold ApplyB. rewrite b_check_bind by exact Hk. reflexivity.
  - rewrite <- reached_1. apply flat_map_map.
Qed.
Lemma refuse_transpose E w a (q : smask) (out : sink) L st : sane N -> reachable w -> walks E w a L -> fits q out ->
  amounts_to (TransposeB E a q out) st w (map (fun e : ent => unless q (row_of e) (col_of e) (set_at out (col_of e) (row_of e) (snd e))) (reached E w L)).
Proof.
  intros Hsn Hr Ha Hk.
  eapply (did_amounts E 1 w (fun e : ent => [unless q (row_of e) (col_of e) (set_at out (col_of e) (row_of e) (snd e))])); [apply (walk_did E w _ (fun r c value =>
    let$ e := s_Element q r c in
    let$ _ := (if negb e then o_Set out c r value else sret tt) in sret None) L a Hsn Hr Ha)| |].
  - intros r c v Hi st1 w1 Hw1. apply (unless_runs q r c (o_Set out c r v) (set_at out c r v)). intros st2. apply set_runs.
  - intros st1. unfold TransposeB. rewrite b_check_bind by exact Hk. reflexivity.
  - rewrite <- reached_1. apply flat_map_map.
Qed.

(** ** Multiplication: pieces that ask the context different numbers of times *)
Notation timed := (nat * thing)%type.
Section Timed.
Variables (E : env) (w : world).
Lemma afford_app : forall (x y : list timed) k, exists z, afford k (x ++ y) = afford k x ++ z.
Proof.
  induction x as [|[n e] x IH]; intros y k; cbn [app afford]; [exists (afford k y); reflexivity|]. destruct (Nat.leb n k); [|exists []; reflexivity].
  destruct (IH y (k - n)%nat) as [z Hz]. exists z. rewrite Hz. reflexivity.
Qed.
Lemma in_time_app w1 (x y : list timed) : exists z, in_time E w1 (x ++ y) = in_time E w1 x ++ z.
Proof. unfold in_time. destruct (e_ctx E); [apply afford_app|exists (map snd y); apply map_app]. Qed.
Definition timely (X : MS (option unit)) (l : list timed) : Prop := forall st w1, w_heap w1 = w_heap w ->
  exists w' o, X st w1 = (fst (all_of (in_time E w1 l) st), w', o) /\ w_heap w' = w_heap w /\
    match snd (all_of (in_time E w1 l) st) with
    | Ok _ => exists x, o = Ok x /\ forall more, in_time E w1 (l ++ more) = in_time E w1 l ++ match x with None => in_time E w' more | Some _ => [] end
    | Panic => o = Panic
    | Diverge => o = Diverge
    end.
Lemma timely_nil : timely (sret None) [].
Proof.
  intros st w1 Hw. assert (En : in_time E w1 ([] : list timed) = []) by (unfold in_time; destruct (e_ctx E); reflexivity). rewrite En. cbn [all_of fst snd].
  exists w1, (Ok None). split; [reflexivity|]. split; [exact Hw|]. exists None. split; [reflexivity|]. intros more. reflexivity.
Qed.
Lemma timely_ext X Y l : timely X l -> (forall st w1, w_heap w1 = w_heap w -> Y st w1 = X st w1) -> timely Y l.
Proof. intros H He st w1 Hw. rewrite (He st w1 Hw). apply H. exact Hw. Qed.
Lemma timely_seq X Y (a b : list timed) : timely X a -> timely Y b -> timely (let$ o := X in match o with Some r => sret (Some r) | None => Y end) (a ++ b).
Proof.
  intros HX HY st w1 Hw. destruct (HX st w1 Hw) as (w2 & o & EX & H2 & Ho). unfold sbind at 1. rewrite EX.
  destruct (in_time_app w1 a b) as [z Ez]. rewrite Ez, all_app.
  destruct (all_of (in_time E w1 a) st) as [st2 r2] eqn:Es. cbn [fst snd andthen] in *. destruct r2 as [u| |].
  - destruct Ho as (x & -> & Hm). pose proof (Hm b) as Hb. rewrite Ez in Hb. apply app_inv_head in Hb.
    destruct x as [x|]; subst z.
    + cbn [all_of fst snd]. exists w2, (Ok (Some x)). split; [reflexivity|]. split; [exact H2|]. exists (Some x). split; [reflexivity|].
      intros more. rewrite <- app_assoc, !Hm, ?app_nil_r. reflexivity.
    + destruct (HY st2 w2 H2) as (w3 & o & EY & H3 & Ho). exists w3, o. split; [exact EY|]. split; [exact H3|].
      destruct (snd (all_of (in_time E w2 b) st2)) as [u'| |]; auto.
      destruct Ho as (x & -> & Hy). exists x. split; [reflexivity|]. intros more. rewrite <- app_assoc, !Hm, Hy, ?app_assoc. reflexivity.
  - subst o. exists w2, Panic. split; [reflexivity|]. split; [exact H2|reflexivity].
  - subst o. exists w2, Diverge. split; [reflexivity|]. split; [exact H2|reflexivity].
Qed.
(** one piece: [n] questions, then [x] *)
Lemma timely_one X n (x : thing) : (forall st w1, w_heap w1 = w_heap w -> exists w', w_heap w' = w_heap w /\
    ((X st w1 = (st, w', Ok (Some tt)) /\ exists k, e_ctx E = Some k /\ (k - w_polls w1 < n)%nat) \/
     (X st w1 = (fst (x st), w', match snd (x st) with Ok _ => Ok None | Panic => Panic | Diverge => Diverge end) /\
      match e_ctx E with None => True | Some k => (w_polls w' = w_polls w1 + n /\ n <= k - w_polls w1)%nat end))) ->
  timely X [(n, x)].
Proof.
  intros H st w1 Hw. destruct (H st w1 Hw) as (w' & Hw' & [(EX & k & Ek & Hk)|(EX & Hk)]).
  - assert (Er : forall l : list timed, in_time E w1 ((n, x) :: l) = []).
    { intros l. unfold in_time. rewrite Ek. cbn [afford]. replace (Nat.leb n (k - w_polls w1)) with false by (symmetry; apply Nat.leb_gt; exact Hk). reflexivity. }
    rewrite Er. cbn [all_of fst snd]. exists w', (Ok (Some tt)). split; [exact EX|]. split; [exact Hw'|]. exists (Some tt). split; [reflexivity|].
    intros more. cbn [app]. rewrite !Er. reflexivity.
  - assert (Er : forall l : list timed, in_time E w1 ((n, x) :: l) = x :: in_time E w' l).
    { intros l. unfold in_time. destruct (e_ctx E) as [k|]; [|reflexivity]. destruct Hk as [Hp Hk]. cbn [afford].
      replace (Nat.leb n (k - w_polls w1)) with true by (symmetry; apply Nat.leb_le; exact Hk). f_equal. f_equal. lia. }
    assert (En : in_time E w' ([] : list timed) = []) by (unfold in_time; destruct (e_ctx E); reflexivity).
    rewrite Er, En, all_one. exists w', (match snd (x st) with Ok _ => Ok None | Panic => Panic | Diverge => Diverge end).
    split; [exact EX|]. split; [exact Hw'|]. destruct (snd (x st)); auto. exists None. split; [reflexivity|]. intros more. cbn [app]. rewrite !Er. reflexivity.
Qed.
Lemma timely_for {J} (X : J -> MS (option unit)) (pl : J -> list timed) : forall l, (forall j, In j l -> timely (X j) (pl j)) -> timely (s_for_list l X) (flat_map pl l).
Proof.
  induction l as [|j l IH]; intros H; cbn [s_for_list flat_map]; [apply timely_nil|]. apply timely_seq; [apply H; left; reflexivity|].
  apply IH. intros j' Hj. apply H. right. exact Hj.
Qed.
(** a read, then the rest; nothing is left of the rest if the read does not return *)
Lemma timely_read {A} (x : res A) F (l : list timed) (X : World.M N A) :
  (forall w1, w_heap w1 = w_heap w -> X w1 = (w1, x)) -> (forall v, x = Ok v -> timely (F v) l) ->
  timely (let$ v := slift X in F v) ((0%nat, with_answer x (fun _ => nothing)) :: l).
Proof.
  intros HX HF st w1 Hw.
  assert (Er : forall l' : list timed, in_time E w1 ((0%nat, with_answer x (fun _ => nothing)) :: l') = with_answer x (fun _ => nothing) :: in_time E w1 l').
  { intros l'. unfold in_time. destruct (e_ctx E); [|reflexivity]. cbn [afford Nat.leb]. rewrite Nat.sub_0_r. reflexivity. }
  set (T0 := with_answer x (fun _ => nothing)) in *.
  assert (ET : T0 st = (st, match x with Ok _ => Ok tt | Panic => Panic | Diverge => Diverge end)) by (unfold T0, with_answer; destruct x; reflexivity).
  unfold sbind, slift. rewrite (HX w1 Hw), Er. cbn [all_of]. rewrite ET. unfold andthen. destruct x as [v| |]; cbv beta iota; cbn [fst snd].
  - destruct (HF v eq_refl st w1 Hw) as (w' & o & EX & Hw' & Ho). exists w', o. split; [exact EX|]. split; [exact Hw'|].
    destruct (snd (all_of (in_time E w1 l) st)); auto. destruct Ho as (z & -> & Hz). exists z. split; [reflexivity|]. intros more. cbn [app]. rewrite !Er, Hz. reflexivity.
  - exists w1, Panic. auto.
  - exists w1, Diverge. auto.
Qed.
End Timed.

Lemma dot_products E (rv cv : vec N) : forall ls acc w1, let '(n, o) := products acc (map (fun l => (vec_AtVec cv l, vec_AtVec rv l)) ls) in
  exists w', w_heap w' = w_heap w1 /\
    ((a_dot E rv cv ls acc w1 = (w', Ok None) /\ exists k, e_ctx E = Some k /\ (k - w_polls w1 < n)%nat) \/
     (a_dot E rv cv ls acc w1 = (w', match o with Ok x => Ok (Some x) | Panic => Panic | Diverge => Diverge end) /\
      match e_ctx E with None => True | Some k => (w_polls w' = w_polls w1 + n /\ n <= k - w_polls w1)%nat end)).
Proof.
  induction ls as [|l ls IH]; intros acc w1; cbn [a_dot map products].
  - exists w1. split; [reflexivity|]. right. split; [reflexivity|]. destruct (e_ctx E); [lia|auto].
  - destruct (poll_heap E w1) as (w2 & b & Hp & Hh & _).
    assert (Hk : match e_ctx E with None => b = false | Some k => (w_polls w2 = S (w_polls w1) /\ if b then k - w_polls w1 < 1 else 1 <= k - w_polls w1)%nat end).
    { unfold poll in Hp. destruct (e_ctx E) as [k|]; [|congruence]. injection Hp as <- <-. cbn [w_polls]. split; [lia|]. destruct (Nat.leb k (w_polls w1)) eqn:El;
        [apply Nat.leb_le in El; lia|apply Nat.leb_gt in El; lia]. }
    assert (Hgo : a_dot E rv cv (l :: ls) acc w1 = (if b then mret None else let! vC := mlift (vec_AtVec cv l) in let! vR := mlift (vec_AtVec rv l) in a_dot E rv cv ls (nadd acc (nmul vR vC))) w2).
    { cbn [a_dot]. rewrite (mbind_ok _ _ _ _ _ Hp). reflexivity. }
    cbn [a_dot] in Hgo. rewrite Hgo. clear Hgo. destruct b.
    + destruct (match vec_AtVec cv l with Ok y => match vec_AtVec rv l with Ok x => let '(n, o) := products (nadd acc (nmul x y)) (map (fun l => (vec_AtVec cv l, vec_AtVec rv l)) ls) in (S n, o)
          | Panic => (1%nat, Panic) | Diverge => (1%nat, Diverge) end | Panic => (1%nat, Panic) | Diverge => (1%nat, Diverge) end) as [n o] eqn:En.
      exists w2. split; [exact Hh|]. left. split; [reflexivity|]. destruct (e_ctx E) as [k|]; [|discriminate]. exists k. split; [reflexivity|].
      assert (1 <= n)%nat; [|lia]. destruct (vec_AtVec cv l); [destruct (vec_AtVec rv l); [destruct (products _ _)|..]|..]; injection En as <- _; lia.
    + destruct (vec_AtVec cv l) as [y| |]; [rewrite mbind_lift; destruct (vec_AtVec rv l) as [x| |]|..].
      * rewrite mbind_lift. specialize (IH (nadd acc (nmul x y)) w2). destruct (products (nadd acc (nmul x y)) _) as [n o]. destruct IH as (w' & Hw' & Hd). exists w'. split; [congruence|].
        destruct (e_ctx E) as [k|].
        -- destruct Hd as [(Ed & k' & Ek & Hd)|(Ed & Hd)]; [left|right]; (split; [exact Ed|]); [exists k; injection Ek as <-; split; [reflexivity|]|]; lia.
        -- destruct Hd as [(_ & k' & Ek & _)|(Ed & _)]; [discriminate|]. right. split; [exact Ed|exact Logic.I].
      * exists w2. split; [exact Hh|]. right. split; [reflexivity|]. destruct (e_ctx E); [lia|exact Logic.I].
      * exists w2. split; [exact Hh|]. right. split; [reflexivity|]. destruct (e_ctx E); [lia|exact Logic.I].
      * exists w2. split; [exact Hh|]. right. split; [reflexivity|]. destruct (e_ctx E); [lia|exact Logic.I].
      * exists w2. split; [exact Hh|]. right. split; [reflexivity|]. destruct (e_ctx E); [lia|exact Logic.I].
Qed.
(** ** Every operand answers somehow *)
Lemma operands_answer w a : sane N -> reachable w -> (exists g, at_gives w a g) /\ (exists g, rows_give w a g) /\ (exists g, columns_give w a g).
Proof.
  intros Hsn Hr. split; [|split].
  - exists (fun r c => snd (a_At a r c w)). intros r c. destruct a as [p|o]; [|reflexivity]. cbn [a_At]. unfold p_At, mbind, load. destruct (nth_error (w_heap w) p) as [y|] eqn:Ey; [|reflexivity].
    unfold mlift. destruct (mat_At y r c) as [[v m']| |] eqn:Ea; [|reflexivity..]. pose proof (sane_wfw w Hsn Hr p y Ey) as Wy.
    rewrite (At_same y r c v m' (proj1 Hsn) Wy Ea). unfold store, mret. cbn [snd]. rewrite (list_set_same _ _ _ Ey). destruct w. reflexivity.
  - exists (fun r => snd (a_RowsAt a r w)). intros r. destruct a as [p|o]; [|reflexivity]. cbn [a_RowsAt]. unfold mbind, load. destruct (nth_error (w_heap w) p) as [y|]; [|reflexivity].
    unfold mlift. destruct (mat_RowsAt y r); reflexivity.
  - exists (fun r => snd (a_ColumnsAt a r w)). intros r. destruct a as [p|o]; [|reflexivity]. cbn [a_ColumnsAt]. unfold mbind, load. destruct (nth_error (w_heap w) p) as [y|]; [|reflexivity].
    unfold mlift. destruct (mat_ColumnsAt y r); reflexivity.
Qed.
Lemma presents_walks E w a R C f L : presents E w a R C f L -> walks E w a L.
Proof. destruct a as [p|o]; cbn [presents walks]; [intros (m & Hm & _ & H); exists m; auto|intros (_ & _ & _ & H & _); exact H]. Qed.

Lemma refuse_multiply E w (s m : arg) (q : smask) (out : sink) R K C rows columns st : sane N -> reachable w -> sized w s R K -> sized w m K C ->
  rows_give w s rows -> columns_give w m columns -> fits q out ->
  amounts_to (multiplyB E s m q out) st w (in_time E w (all_cells q out R C rows columns)).
Proof.
  intros Hsn Hr [Er Ek] [Ek' Ec] Hrow Hcol Hf.
  set (X := s_for_list (R := unit) (zrange 0 R) (fun r =>
      let$ rows := slift (a_RowsAt s r) in
      s_for_list (zrange 0 C) (fun c =>
        let$ column := slift (a_ColumnsAt m c) in
        let$ o := slift (a_dot E rows column (zrange 0 (vec_Length rows)) n0) in
        match o with
        | None => sret (Some tt)
        | Some sum =>
            let$ e := s_Element q r c in
            let$ _ := (if negb e then o_Set out r c sum else sret tt) in
            sret None
        end))).
  assert (HX : timely E w X (all_cells q out R C rows columns)).
  { apply timely_for. intros r _. apply (timely_read E w (rows r)); [intros w1 Hw1; apply (RowsAt_heap _ _ _ _ _ Hw1 (Hrow r))|].
    intros rv Erv. rewrite <- flat_map_map. apply timely_for. intros c _. unfold cell. rewrite Erv.
    destruct (columns c) as [cv| |] eqn:Ecv.
    - unfold answers. destruct (products n0 (map (fun l => (vec_AtVec cv l, vec_AtVec rv l)) (zrange 0 (vec_Length rv)))) as [n o] eqn:Ep.
      apply timely_one. intros st1 w1 Hw1. pose proof (Hcol c) as Hc. rewrite Ecv in Hc. rewrite (sbind_lift _ _ _ _ _ _ (ColumnsAt_heap _ _ _ _ _ Hw1 Hc)).
      pose proof (dot_products E rv cv (zrange 0 (vec_Length rv)) n0 w1) as Hd. rewrite Ep in Hd. destruct Hd as (w' & Hw' & Hd). exists w'. split; [congruence|].
      destruct Hd as [(Ed & Hk)|(Ed & Hk)]; [left|right]; (split; [|exact Hk]).
      + rewrite (sbind_lift _ _ _ _ _ _ Ed). reflexivity.
      + unfold sbind at 1, slift. rewrite Ed. destruct o as [sum| |]; [|reflexivity..]. unfold with_answer, andthen.
        rewrite (unless_runs q r c (o_Set out r c sum) (set_at out r c sum)); [rewrite all_one; reflexivity|intros st2; apply set_runs].
    - apply timely_one. intros st1 w1 Hw1. pose proof (Hcol c) as Hc. rewrite Ecv in Hc. exists w1. split; [exact Hw1|]. right. split; [|destruct (e_ctx E); [lia|exact Logic.I]].
      unfold sbind, slift. rewrite (ColumnsAt_heap _ _ _ _ _ Hw1 Hc). reflexivity.
    - apply timely_one. intros st1 w1 Hw1. pose proof (Hcol c) as Hc. rewrite Ecv in Hc. exists w1. split; [exact Hw1|]. right. split; [|destruct (e_ctx E); [lia|exact Logic.I]].
      unfold sbind, slift. rewrite (ColumnsAt_heap _ _ _ _ _ Hw1 Hc). reflexivity. }
  destruct (HX st w eq_refl) as (w' & o & EX & Hw & Ho). exists w'. split; [|exact Hw].
  unfold multiplyB. rewrite (sbind_lift _ _ _ _ _ _ Ek'), (sbind_lift _ _ _ _ _ _ Ek), Z.eqb_refl. cbn [negb].
  rewrite b_check_bind by exact Hf. rewrite (sbind_lift _ _ _ _ _ _ Er), (sbind_lift _ _ _ _ _ _ Ec). fold X. unfold sbind. rewrite EX.
  destruct (snd (all_of (in_time E w (all_cells q out R C rows columns)) st)) as [[]| |]; [destruct Ho as (x & -> & _)|subst o|subst o]; reflexivity.
Qed.
End RefuseThms.
