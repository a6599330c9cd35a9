(** Reasoning about the heap monad: single method calls, masks and loops. *)
From Coq Require Import String.
From Verif Require Import GoBase Num BaseProofs SparseVec Csr Csc DenseVec DenseMat Mat World
  AssocProofs CsrProofs SvProofs CsrIterProofs CscProofs DenseProofs MatProofs Spec.

Section Heap.
Context {N : num}.
Notation V := (T N).
Notation mat := (mat N).
Notation ent := (Z * Z * V)%type.
Notation world := (world N).
Notation M := (M N).
Implicit Types w : world.
Implicit Types m O : mat.

Lemma mbind_ok {A B} (m : M A) (k : A -> M B) w w' a : m w = (w', Ok a) -> mbind m k w = k a w'.
Proof. intros H. unfold mbind. rewrite H. reflexivity. Qed.
Lemma mbind_panic {A B} (m : M A) (k : A -> M B) w w' : m w = (w', Panic) -> mbind m k w = (w', Panic).
Proof. intros H. unfold mbind. rewrite H. reflexivity. Qed.
Lemma mbind_div {A B} (m : M A) (k : A -> M B) w w' : m w = (w', Diverge) -> mbind m k w = (w', Diverge).
Proof. intros H. unfold mbind. rewrite H. reflexivity. Qed.
Lemma mbind_ret {A B} (a : A) (k : A -> M B) w : mbind (mret a) k w = k a w.
Proof. reflexivity. Qed.
Lemma mbind_lift {A B} (a : A) (k : A -> M B) w : mbind (mlift (Ok a)) k w = k a w.
Proof. reflexivity. Qed.

Definition mkw (h : list mat) (n : nat) : world := MkWorld h n.

(** the world with object [p] replaced *)
Definition upd (w : world) (p : ptr) (m : mat) : world :=
  MkWorld (list_set (w_heap w) p m) (w_polls w).

Lemma upd_same w p m : obj w p m -> upd w p m = w.
Proof. intros H. destruct w as [h n]. unfold upd, obj in *. simpl in *. rewrite list_set_same; auto. Qed.
Lemma upd_twice w p m1 m2 : upd (upd w p m1) p m2 = upd w p m2.
Proof. unfold upd. simpl. rewrite list_set_twice. reflexivity. Qed.
Lemma obj_upd_eq w p m m0 : obj w p m0 -> obj (upd w p m) p m.
Proof.
  unfold obj, upd; simpl. intros H. apply nth_error_list_set_eq. apply nth_error_Some. congruence.
Qed.
Lemma obj_upd_neq w p q m m' : q <> p -> obj w q m' -> obj (upd w p m) q m'.
Proof. unfold obj, upd; simpl. intros H H1. rewrite nth_error_list_set_neq; auto. Qed.
Lemma obj_upd_neq_iff w p q m m' : q <> p -> (obj (upd w p m) q m' <-> obj w q m').
Proof. unfold obj, upd; simpl. intros H. rewrite nth_error_list_set_neq; auto. tauto. Qed.
Lemma obj_inj w p m m' : obj w p m -> obj w p m' -> m = m'.
Proof. unfold obj. congruence. Qed.

Lemma obj_lt w p m : obj w p m -> (p < length (w_heap w))%nat.
Proof. unfold obj. intros H. apply nth_error_Some. congruence. Qed.

(** allocation *)
Definition ext (w : world) (m : mat) : world := MkWorld (w_heap w ++ [m]) (w_polls w).
Lemma alloc_ok m w : alloc m w = (ext w m, Ok (length (w_heap w))).
Proof. reflexivity. Qed.
Lemma obj_ext_new w m : obj (ext w m) (length (w_heap w)) m.
Proof. unfold obj, ext; simpl. rewrite nth_error_app2, Nat.sub_diag by lia. reflexivity. Qed.
Lemma obj_ext_old w m p m' : obj w p m' -> obj (ext w m) p m'.
Proof. intros H. pose proof (obj_lt _ _ _ H). unfold obj, ext in *; simpl. rewrite nth_error_app1; auto. Qed.
Lemma extends_ext w m : extends w (ext w m).
Proof. intros p m' H. apply obj_ext_old; auto. Qed.
Lemma extends_refl w : extends w w. Proof. intros p m H; auto. Qed.
Lemma extends_trans w1 w2 w3 : extends w1 w2 -> extends w2 w3 -> extends w1 w3.
Proof. intros H1 H2 p m H. auto. Qed.

(** the poll counter does not matter to objects *)
Definition same_heap (w w' : world) : Prop := w_heap w' = w_heap w.

(** ** Single calls *)

Lemma load_ok p w m : obj w p m -> load p w = (w, Ok m).
Proof. unfold load, obj. intros H. rewrite H. reflexivity. Qed.
Lemma load_nil p w : nth_error (w_heap w) p = None -> load p w = (w, Panic).
Proof. unfold load. intros H. rewrite H. reflexivity. Qed.
Lemma store_ok p m w : store p m w = (upd w p m, Ok tt).
Proof. reflexivity. Qed.

Lemma p_Rows_ok p w m : obj w p m -> p_Rows p w = (w, Ok (mat_Rows m)).
Proof. intros H. unfold p_Rows. rewrite (mbind_ok _ _ _ _ _ (load_ok _ _ _ H)). reflexivity. Qed.
Lemma p_Columns_ok p w m : obj w p m -> p_Columns p w = (w, Ok (mat_Columns m)).
Proof. intros H. unfold p_Columns. rewrite (mbind_ok _ _ _ _ _ (load_ok _ _ _ H)). reflexivity. Qed.
Lemma p_Values_ok p w m : obj w p m -> p_Values p w = (w, Ok (mat_Values m)).
Proof. intros H. unfold p_Values. rewrite (mbind_ok _ _ _ _ _ (load_ok _ _ _ H)). reflexivity. Qed.
Lemma p_IsSparse_ok E p w m : obj w p m -> p_IsSparse E p w = (w, Ok (IsSparseMatrix (e_reg E) m)).
Proof. intros H. unfold p_IsSparse. rewrite (mbind_ok _ _ _ _ _ (load_ok _ _ _ H)). reflexivity. Qed.

Lemma p_At_ok p w m r c : zero_ok N -> obj w p m -> wf m -> inb m r c ->
  p_At p r c w = (w, Ok (peek m r c)).
Proof.
  intros Hz H Hw Hb. unfold p_At. rewrite (mbind_ok _ _ _ _ _ (load_ok _ _ _ H)).
  rewrite At_ok by auto. rewrite mbind_lift.
  rewrite (mbind_ok _ _ _ _ _ (store_ok _ _ _)). rewrite upd_same by auto. reflexivity.
Qed.

Lemma p_Set_ok p w m r c v : zero_ok N -> obj w p m -> good m -> inb m r c ->
  exists m', p_Set p r c v w = (upd w p m', Ok tt) /\ good m' /\ same_shape m m' /\
    forall i j, inb m i j -> peek m' i j = if (i =? r) && (j =? c) then clean m v else peek m i j.
Proof.
  intros Hz H Hg Hb. destruct (Set_ok m r c v Hz Hg Hb) as (m' & Hs & Hrest).
  exists m'. split; [|exact Hrest]. unfold p_Set.
  rewrite (mbind_ok _ _ _ _ _ (load_ok _ _ _ H)), Hs, mbind_lift. reflexivity.
Qed.

Lemma p_Update_ok p w m r c g : zero_ok N -> obj w p m -> good m -> inb m r c ->
  exists m', p_Update p r c g w = (upd w p m', Ok tt) /\ good m' /\ same_shape m m' /\
    forall i j, inb m i j -> peek m' i j = if (i =? r) && (j =? c) then clean m (g (peek m r c)) else peek m i j.
Proof.
  intros Hz H Hg Hb. destruct (Update_ok m r c g Hz Hg Hb) as (m' & Hs & Hrest).
  exists m'. split; [|exact Hrest]. unfold p_Update.
  rewrite (mbind_ok _ _ _ _ _ (load_ok _ _ _ H)), Hs, mbind_lift. reflexivity.
Qed.

Lemma p_Copy_ok p w m : obj w p m -> wf m ->
  p_Copy p w = (ext w m, Ok (length (w_heap w))).
Proof.
  intros H Hw. unfold p_Copy. rewrite (mbind_ok _ _ _ _ _ (load_ok _ _ _ H)), Copy_ok, mbind_lift by auto.
  reflexivity.
Qed.

(** ** Masks *)

(** objects used as masks are well formed *)
Definition mask_wf (w : world) (k : mask) : Prop :=
  match k with MObj p => exists m, obj w p m /\ wf m | _ => True end.

Definition mask_norm (k : mask) (R C : Z) : mask := match k with MNil => MEmpty R C | _ => k end.

Lemma check_mask_ok k t w O : obj w t O -> mask_dims w k (mat_Rows O) (mat_Columns O) ->
  check_mask k t w = (w, Ok (mask_norm k (mat_Rows O) (mat_Columns O))).
Proof.
  intros Ho Hd. unfold check_mask.
  rewrite (mbind_ok _ _ _ _ _ (p_Rows_ok _ _ _ Ho)), (mbind_ok _ _ _ _ _ (p_Columns_ok _ _ _ Ho)).
  destruct k as [|r c|p|r c f]; simpl in Hd.
  - cbn [mask_Rows mask_Columns mask_norm]. rewrite mbind_ret, Z.eqb_refl. cbn [negb].
    rewrite mbind_ret, Z.eqb_refl. reflexivity.
  - destruct Hd as [-> ->]. cbn [mask_Rows mask_Columns mask_norm]. rewrite mbind_ret, Z.eqb_refl. cbn [negb].
    rewrite mbind_ret, Z.eqb_refl. reflexivity.
  - destruct Hd as (m & Hm & E1 & E2). cbn [mask_Rows mask_Columns mask_norm].
    rewrite (mbind_ok _ _ _ _ _ (p_Rows_ok _ _ _ Hm)), E1, Z.eqb_refl. cbn [negb].
    rewrite (mbind_ok _ _ _ _ _ (p_Columns_ok _ _ _ Hm)), E2, Z.eqb_refl. reflexivity.
  - destruct Hd as [-> ->]. cbn [mask_Rows mask_Columns mask_norm]. rewrite mbind_ret, Z.eqb_refl. cbn [negb].
    rewrite mbind_ret, Z.eqb_refl. reflexivity.
Qed.

(** a mask of other dimensions (or a dangling one) panics *)
Lemma check_mask_panic k t w O : obj w t O -> ~ mask_dims w k (mat_Rows O) (mat_Columns O) ->
  check_mask k t w = (w, Panic).
Proof.
  intros Ho Hd. unfold check_mask.
  rewrite (mbind_ok _ _ _ _ _ (p_Rows_ok _ _ _ Ho)), (mbind_ok _ _ _ _ _ (p_Columns_ok _ _ _ Ho)).
  destruct k as [|r c|p|r c f]; simpl in Hd.
  - tauto.
  - cbn [mask_Rows mask_Columns]. rewrite mbind_ret.
    destruct (r =? mat_Rows O) eqn:E1; cbn [negb]; [|reflexivity].
    rewrite mbind_ret. destruct (c =? mat_Columns O) eqn:E2; cbn [negb]; [|reflexivity]. exfalso; apply Hd; lia.
  - cbn [mask_Rows mask_Columns]. destruct (nth_error (w_heap w) p) as [m|] eqn:Ep.
    + rewrite (mbind_ok _ _ _ _ _ (p_Rows_ok _ _ _ Ep)).
      destruct (mat_Rows m =? mat_Rows O) eqn:E1; cbn [negb]; [|reflexivity].
      rewrite (mbind_ok _ _ _ _ _ (p_Columns_ok _ _ _ Ep)).
      destruct (mat_Columns m =? mat_Columns O) eqn:E2; cbn [negb]; [|reflexivity].
      exfalso; apply Hd. exists m. split; [exact Ep|lia].
    + rewrite (mbind_panic _ _ w w); [reflexivity|]. unfold p_Rows. apply mbind_panic. apply load_nil; auto.
  - cbn [mask_Rows mask_Columns]. rewrite mbind_ret.
    destruct (r =? mat_Rows O) eqn:E1; cbn [negb]; [|reflexivity].
    rewrite mbind_ret. destruct (c =? mat_Columns O) eqn:E2; cbn [negb]; [|reflexivity]. exfalso; apply Hd; lia.
Qed.

Lemma peek_At m r c v : zero_ok N -> wf m -> inb m r c ->
  match mat_At m r c with Ok (v, _) => v | _ => v end = peek m r c.
Proof. intros. rewrite At_ok by auto. reflexivity. Qed.

Lemma mask_Element_ok k w R C r c : zero_ok N -> mask_wf w k -> mask_dims w k R C ->
  0 <= r < R -> 0 <= c < C ->
  mask_Element (mask_norm k R C) r c w = (w, Ok (covers w k r c)).
Proof.
  intros Hz Hw Hd Hr Hc. destruct k as [|r' c'|p|r' c' f]; cbn [mask_norm mask_Element covers]; try reflexivity.
  destruct Hw as (m & Hm & Hwf). destruct Hd as (m' & Hm' & E1 & E2).
  rewrite (obj_inj _ _ _ _ Hm' Hm) in *.
  assert (Hb : inb m r c) by (unfold inb; rewrite E1, E2; auto).
  rewrite (mbind_ok _ _ _ _ _ (load_ok _ _ _ Hm)), Element_ok, mbind_lift by auto.
  rewrite (mbind_ok _ _ _ _ _ (store_ok _ _ _)), upd_same by auto.
  unfold obj in Hm. rewrite Hm, At_ok by auto. reflexivity.
Qed.

(** a mask is not affected by writes to another object *)
Lemma covers_upd k t w O' r c : mask_not k t -> covers (upd w t O') k r c = covers w k r c.
Proof.
  intros Hn. destruct k as [|r' c'|p|r' c' f]; try reflexivity. cbn [covers].
  assert (p <> t) by (intros ->; apply Hn; reflexivity).
  unfold upd; simpl. rewrite nth_error_list_set_neq by auto. reflexivity.
Qed.
Lemma mask_wf_upd k t w O' : mask_not k t -> mask_wf w k -> mask_wf (upd w t O') k.
Proof.
  intros Hn. destruct k as [|r' c'|p|r' c' f]; auto. cbn [mask_wf]. intros (m & Hm & Hw).
  assert (p <> t) by (intros ->; apply Hn; reflexivity).
  exists m. split; [apply obj_upd_neq; auto|auto].
Qed.
Lemma mask_dims_upd k t w O' R C : mask_not k t -> mask_dims w k R C -> mask_dims (upd w t O') k R C.
Proof.
  intros Hn. destruct k as [|r' c'|p|r' c' f]; auto. cbn [mask_dims]. intros (m & Hm & Hw).
  assert (p <> t) by (intros ->; apply Hn; reflexivity).
  exists m. split; [apply obj_upd_neq; auto|auto].
Qed.
(** nor by the poll counter *)
Lemma covers_heap k w w' r c : w_heap w' = w_heap w -> covers w' k r c = covers w k r c.
Proof. intros H. destruct k; simpl; rewrite ?H; reflexivity. Qed.
Lemma mask_wf_heap k w w' : w_heap w' = w_heap w -> mask_wf w k -> mask_wf w' k.
Proof. intros H. destruct k; simpl; auto. unfold obj. rewrite H. auto. Qed.
Lemma mask_dims_heap k w w' R C : w_heap w' = w_heap w -> mask_dims w k R C -> mask_dims w' k R C.
Proof. intros H. destruct k; simpl; auto. unfold obj. rewrite H. auto. Qed.
Lemma mask_wf_ext k w m : mask_wf w k -> mask_wf (ext w m) k.
Proof. destruct k; simpl; auto. intros (x & Hx & Hw). exists x. split; [apply obj_ext_old|]; auto. Qed.
Lemma covers_ext k w m r c : mask_wf w k -> covers (ext w m) k r c = covers w k r c.
Proof.
  destruct k; simpl; auto. intros (x & Hx & Hw). pose proof (obj_ext_old w m _ _ Hx) as Hx'.
  unfold obj, ext in *. simpl in Hx'. rewrite Hx, Hx'. reflexivity.
Qed.
Lemma mask_dims_ext k w m R C : mask_dims w k R C -> mask_dims (ext w m) k R C.
Proof. destruct k; simpl; auto. intros (x & Hx & Hw). exists x. split; [apply obj_ext_old|]; auto. Qed.

(** ** Loops *)

Lemma poll_heap E w : exists w' b, poll E w = (w', Ok b) /\ w_heap w' = w_heap w /\ (e_ctx E = None -> b = false /\ w' = w).
Proof.
  unfold poll. destruct (e_ctx E) as [k|].
  - eexists _, _. split; [reflexivity|]. split; [reflexivity|discriminate].
  - exists w, false. auto.
Qed.

(** Counting the questions: [c] have been asked since [w], all answered "not yet". *)
Definition running (E : env) (w w1 : world) (c : nat) : Prop :=
  match e_ctx E with
  | None => w_polls w1 = w_polls w
  | Some k => (w_polls w1 = w_polls w + c /\ (c = 0 \/ w_polls w1 <= k))%nat
  end.
Lemma running_start E w : running E w w 0.
Proof. unfold running. destruct (e_ctx E); lia. Qed.
Lemma running_polls E w w1 w2 c : running E w w1 c -> w_polls w2 = w_polls w1 -> running E w w2 c.
Proof. unfold running. intros H ->. exact H. Qed.
Lemma running_go E w w1 w2 c : running E w w1 c -> poll E w1 = (w2, Ok false) -> running E w w2 (S c).
Proof.
  unfold running, poll. destruct (e_ctx E) as [k|]; intros H Hp; injection Hp as <-; [|exact H].
  cbn [w_polls]. match goal with H : _ = false |- _ => apply Nat.leb_gt in H end. lia.
Qed.
Lemma running_stop {A} n E w w1 w2 c (d rest : list A) : running E w w1 c -> poll E w1 = (w2, Ok true) ->
  rest <> [] -> (n * length d <= c < n * S (length d))%nat -> until_done n E w w2 d rest.
Proof.
  unfold running, poll, until_done. destruct (e_ctx E) as [k|]; intros H Hp; [|discriminate]. injection Hp as <-. intros Hr Hc.
  cbn [w_polls]. match goal with H : _ = true |- _ => apply Nat.leb_le in H end. right. split; [exact Hr|]. lia.
Qed.
Lemma running_end {A} n E w w1 (d : list A) : running E w w1 (n * length d) -> until_done n E w w1 d [].
Proof.
  unfold running, until_done. destruct (e_ctx E) as [k|]; [|auto]. intros [H1 H2]. left. split; [reflexivity|]. split; assumption.
Qed.
Lemma until_step {A} E w w1 w2 w' (x : A) d rest : poll E w = (w1, Ok false) -> w_polls w2 = w_polls w1 ->
  until_done 1 E w2 w' d rest -> until_done 1 E w w' (x :: d) rest.
Proof.
  unfold until_done, poll. destruct (e_ctx E) as [k|]; intros Hp H2 H; injection Hp as <-; [|rewrite <- H2; exact H].
  cbn [w_polls length] in *. match goal with H : _ = false |- _ => apply Nat.leb_gt in H end. rewrite H2 in H.
  destruct H as [(H3 & H4 & H5)|(H3 & H4 & H5)]; [left|right]; (split; [exact H3|]); lia.
Qed.
Lemma until_none {A} n E w w' (d rest : list A) : until_done n E w w' d rest -> e_ctx E = None -> rest = [].
Proof. unfold until_done. intros H Hn. rewrite Hn in H. apply H. Qed.
Lemma until_map {A B} n E w w' (d rest : list A) (d' rest' : list B) :
  until_done n E w w' d rest -> length d' = length d -> (rest = [] <-> rest' = []) -> until_done n E w w' d' rest'.
Proof.
  unfold until_done. intros H -> Hr. destruct (e_ctx E) as [k|]; [|tauto].
  destruct H as [H|H]; [left|right]; tauto.
Qed.
Lemma until_app {A} n E w w1 w2 (d d' rest : list A) : until_done n E w w1 d [] ->
  until_done n E w1 w2 d' rest -> until_done n E w w2 (d ++ d') rest.
Proof.
  unfold until_done. rewrite app_length. destruct (e_ctx E) as [k|].
  - intros [(_ & H1 & H2)|[H _]]; [|congruence]. rewrite H1. intros [(H3 & H4 & H5)|(H3 & H4 & H5)]; [left|right]; (split; [exact H3|]); lia.
  - intros (_ & H1) (H2 & H3). split; [exact H2|congruence].
Qed.
Lemma until_running {A} n E w w' (d : list A) : until_done n E w w' d [] -> running E w w' (n * length d).
Proof.
  unfold until_done, running. destruct (e_ctx E) as [k|]; [|tauto]. intros [(_ & H1 & H2)|[H _]]; [auto|congruence].
Qed.

(** Enumeration loops.  [Inv done w] holds before the question asked for the element
    after [done], [Ask done w] once it has been answered "not yet"; both must imply
    that the enumerated object is still [m]. *)
Lemma enum_loop_polls {R} (E : env) (p : ptr) (onCancel : R) body (m : mat)
    (Inv Ask : list ent -> world -> Prop) (Q : list ent -> ent -> R -> world -> Prop) :
  (forall done w w', Inv done w -> poll E w = (w', Ok false) -> obj w' p m /\ Ask done w') ->
  (forall done r c v rest w, entries m = done ++ (r, c, v) :: rest -> Ask done w ->
     exists w' o, body r c v w = (w', Ok o) /\
       match o with None => Inv (done ++ [(r, c, v)]) w' | Some x => Q done (r, c, v) x w' end) ->
  forall rest it done w fuel, it_rel m it done rest -> Inv done w -> (length rest <= fuel)%nat ->
  exists w' o, enum_loop E fuel p it onCancel body w = (w', Ok o) /\
    ((o = None /\ Inv (entries m) w') \/
     (o = Some onCancel /\ exists d e l w1, entries m = d ++ e :: l /\ Inv d w1 /\ poll E w1 = (w', Ok true)) \/
     (exists d e l x, o = Some x /\ entries m = d ++ e :: l /\ Q d e x w')).
Proof.
  intros Hask Hbody. induction rest as [|[[r c] v] rest IH]; intros it done w fuel Hit Hinv Hf.
  - exists w, None. split.
    + destruct fuel; simpl; rewrite (it_rel_HasNext _ _ _ _ Hit); reflexivity.
    + left. split; [reflexivity|]. rewrite (it_rel_entries _ _ _ _ Hit), app_nil_r. exact Hinv.
  - destruct fuel as [|fuel]; [simpl in Hf; lia|]. cbn [enum_loop].
    rewrite (it_rel_HasNext _ _ _ _ Hit).
    pose proof (it_rel_entries _ _ _ _ Hit) as He.
    destruct (poll_heap E w) as (w1 & b & Hp & Hh & Hbg).
    rewrite (mbind_ok _ _ _ _ _ Hp). destruct b.
    + exists w1, (Some onCancel). split; [reflexivity|]. right; left. split; [reflexivity|].
      exists done, (r, c, v), rest, w. auto.
    + destruct (Hask _ _ _ Hinv Hp) as [Hob Hinv1].
      rewrite (mbind_ok _ _ _ _ _ (load_ok _ _ _ Hob)).
      destruct (it_rel_step _ _ _ _ _ _ _ Hit) as (it' & Hn & Hc & Hr & _).
      unfold mat_Next. rewrite Hn. cbn [rbind]. rewrite Hc. cbn [rbind]. rewrite mbind_lift.
      destruct (Hbody _ _ _ _ _ _ He Hinv1) as (w2 & o & Hb & Ho).
      rewrite (mbind_ok _ _ _ _ _ Hb). destruct o as [x|].
      * exists w2, (Some x). split; [reflexivity|]. right; right. exists done, (r, c, v), rest, x. auto.
      * eapply IH; eauto. simpl in Hf; lia.
Qed.

Lemma enumerate_polls {R} (E : env) (p : ptr) (onCancel : R) body (m : mat)
    (Inv Ask : list ent -> world -> Prop) (Q : list ent -> ent -> R -> world -> Prop) w :
  wf m -> mat_Values m <= Z.of_nat (e_fuel E) -> obj w p m ->
  (forall done w w', Inv done w -> poll E w = (w', Ok false) -> obj w' p m /\ Ask done w') ->
  (forall done r c v rest w, entries m = done ++ (r, c, v) :: rest -> Ask done w ->
     exists w' o, body r c v w = (w', Ok o) /\
       match o with None => Inv (done ++ [(r, c, v)]) w' | Some x => Q done (r, c, v) x w' end) ->
  Inv [] w ->
  exists w' o, enumerate E p onCancel body w = (w', Ok o) /\
    ((o = None /\ Inv (entries m) w') \/
     (o = Some onCancel /\ exists d e l w1, entries m = d ++ e :: l /\ Inv d w1 /\ poll E w1 = (w', Ok true)) \/
     (exists d e l x, o = Some x /\ entries m = d ++ e :: l /\ Q d e x w')).
Proof.
  intros Hw Hf Hobj Hask Hbody Hinv. unfold enumerate. rewrite (mbind_ok _ _ _ _ _ (load_ok _ _ _ Hobj)).
  eapply enum_loop_polls; eauto.
  - apply entries_rel; auto.
  - pose proof (zlen_entries m Hw) as Hz. unfold zlen in Hz. lia.
Qed.

(** the same when only the heap matters *)
Lemma enumerate_inv {R} (E : env) (p : ptr) (onCancel : R) body (m : mat)
    (Inv : list ent -> world -> Prop) (Q : list ent -> ent -> R -> world -> Prop) w :
  wf m -> mat_Values m <= Z.of_nat (e_fuel E) ->
  (forall done w, Inv done w -> obj w p m) ->
  (forall done w w', Inv done w -> w_heap w' = w_heap w -> Inv done w') ->
  (forall done r c v rest w, entries m = done ++ (r, c, v) :: rest -> Inv done w ->
     exists w' o, body r c v w = (w', Ok o) /\
       match o with None => Inv (done ++ [(r, c, v)]) w' | Some x => Q done (r, c, v) x w' end) ->
  Inv [] w ->
  exists w' o, enumerate E p onCancel body w = (w', Ok o) /\
    ((o = None /\ Inv (entries m) w') \/
     (o = Some onCancel /\ e_ctx E <> None /\ exists d e l, entries m = d ++ e :: l /\ Inv d w') \/
     (exists d e l x, o = Some x /\ entries m = d ++ e :: l /\ Q d e x w')).
Proof.
  intros Hw Hf Hobj Hheap Hbody Hinv.
  destruct (enumerate_polls E p onCancel body m Inv Inv Q w Hw Hf (Hobj _ _ Hinv)) as (w' & o & He & Ho); auto.
  - intros d w1 w2 Hi Hp. destruct (poll_heap E w1) as (w2' & b & Hp' & Hh & _). rewrite Hp in Hp'. injection Hp' as <- _.
    pose proof (Hheap _ _ _ Hi Hh) as Hi'. split; [eapply Hobj; exact Hi'|exact Hi'].
  - exists w', o. split; [exact He|]. destruct Ho as [Ho|[(Ho & d & e & l & w1 & H1 & H2 & H3)|Ho]]; [left; exact Ho| |right; right; exact Ho].
    right; left. destruct (poll_heap E w1) as (w2' & b & Hp' & Hh & Hbg). rewrite H3 in Hp'. injection Hp' as <- <-.
    split; [exact Ho|]. split; [intros Hn; destruct (Hbg Hn); discriminate|]. exists d, e, l. split; [exact H1|]. eapply Hheap; eauto.
Qed.

(** counted loops *)
Lemma for_list_inv {R I} (l : list I) (body : I -> M (option R))
    (Inv : list I -> world -> Prop) (Q : list I -> I -> R -> world -> Prop) :
  (forall done i rest w, l = done ++ i :: rest -> Inv done w ->
     exists w' o, body i w = (w', Ok o) /\
       match o with None => Inv (done ++ [i]) w' | Some x => Q done i x w' end) ->
  forall w, Inv [] w ->
  exists w' o, for_list l body w = (w', Ok o) /\
    ((o = None /\ Inv l w') \/
     (exists d i r x, o = Some x /\ l = d ++ i :: r /\ Q d i x w')).
Proof.
  intros Hbody.
  assert (H : forall rest done w, l = done ++ rest -> Inv done w ->
    exists w' o, for_list rest body w = (w', Ok o) /\
    ((o = None /\ Inv l w') \/ (exists d i r x, o = Some x /\ l = d ++ i :: r /\ Q d i x w'))).
  { induction rest as [|i rest IH]; intros done w El Hinv.
    - exists w, None. split; [reflexivity|]. left. rewrite app_nil_r in El. subst. auto.
    - cbn [for_list]. destruct (Hbody _ _ _ _ El Hinv) as (w1 & o & Hb & Ho).
      rewrite (mbind_ok _ _ _ _ _ Hb). destruct o as [x|].
      + exists w1, (Some x). split; [reflexivity|]. right. exists done, i, rest, x. auto.
      + apply (IH (done ++ [i])); auto. rewrite <- app_assoc. exact El. }
  intros w Hinv. apply (H l []); auto.
Qed.

End Heap.
