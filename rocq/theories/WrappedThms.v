(** What the operators do with a wrapped matrix for an operand or an output. *)
From Coq Require Import String Sorting.Sorted.
From Verif Require Import GoBase Num SparseVec Csr Csc DenseVec DenseMat Mat World Ops Api Wrapped.
From Verif Require Import BaseProofs MatProofs DenseProofs Spec HeapProofs ReachProofs StoreProofs VecProofs LoopProofs StoreThms OpsProofs OpsThms EwThms MethThms MulThms EqThms OpsProps ReduceFormat Steps InPlace.
Import ListNotations.

Section WrappedThms.
Context {N : num}.
Notation V := (T N).
Notation mat := (mat N).
Notation world := (world N).
Notation M := (M N).
Notation ent := (Z * Z * V)%type.
Implicit Types w : world.
Implicit Types S Mo O : mat.

(** the comparison of [a] and [b] says whether they reach the same matrix *)
Definition told (a b : handle) : Prop := h_same a b = Nat.eqb (h_ptr a) (h_ptr b).
(** the value is a pointer *)
Definition by_pointer (h : handle) : Prop := match h with ByValue _ _ => False | _ => True end.
(** [h] is looked up in the registry with the answer of the matrix inside *)
Definition classed (E : env) (h : handle) : Prop :=
  by_pointer h /\ forall m : mat, h_sparse (e_reg E) h m = IsSparseMatrix (e_reg E) m.
(** no type of this name is registered as sparse *)
Definition unregistered (E : env) (ty : string) : Prop := ~ In ty (e_reg E).

Lemma h_sparse_wrapped E l ty h (m : mat) : unregistered E ty -> h_sparse (e_reg E) (Wrapped l ty h) m = false.
Proof.
  intros H. cbn [h_sparse]. destruct (existsb _ _) eqn:X; [|reflexivity]. exfalso. apply H.
  apply existsb_exists in X as (x & Hin & Hx). apply String.eqb_eq in Hx. subst x. exact Hin.
Qed.
Lemma h_IsSparse_ok E h w m : by_pointer h -> obj w (h_ptr h) m -> h_IsSparse E h w = (w, Ok (h_sparse (e_reg E) h m)).
Proof. intros P H. unfold h_IsSparse. destruct h; [| |contradiction]; rewrite (mbind_ok _ _ _ _ _ (load_ok _ _ _ H)); reflexivity. Qed.
Lemma h_IsSparse_same E h w : classed E h -> h_IsSparse E h w = p_IsSparse E (h_ptr h) w.
Proof.
  intros [P H]. unfold h_IsSparse, p_IsSparse, mbind.
  destruct h; [| |contradiction]; destruct (load _ w) as [w' [m| |]]; try reflexivity; rewrite H; reflexivity.
Qed.
Lemma mbind_same {A B} (a a' : M A) (f f' : A -> M B) w : a w = a' w -> (forall x w', f x w' = f' x w') -> mbind a f w = mbind a' f' w.
Proof. intros H G. unfold mbind. rewrite H. destruct (a' w) as [w' [x| |]]; auto. Qed.

(** ** Operators that cannot tell *)
Lemma ewm_transparent E s m k t w : classed E s -> told s t -> told m t ->
  hElementWiseMatrixMultiply E s m k t w = ElementWiseMatrixMultiply E (h_ptr s) (h_ptr m) k (h_ptr t) w.
Proof.
  intros C1 T1 T2. unfold hElementWiseMatrixMultiply, ElementWiseMatrixMultiply. apply mbind_same; [reflexivity|intros mr w1].
  apply mbind_same; [reflexivity|intros sc w2]. destruct (negb (mr =? sc)); [reflexivity|].
  unfold hElementWiseMultiply, elementWiseMultiply. apply mbind_same; [reflexivity|intros k' w3].
  apply mbind_same; [apply h_IsSparse_same; exact C1|intros sp w4]. rewrite T1, T2. reflexivity.
Qed.
Lemma add_transparent E s m k t w : classed E s -> hAdd E s m k t w = Add E (h_ptr s) (h_ptr m) k (h_ptr t) w.
Proof.
  intros C1. unfold hAdd, Add. apply mbind_same; [reflexivity|intros _ w1]. apply mbind_same; [reflexivity|intros k' w2].
  apply mbind_same; [apply h_IsSparse_same; exact C1|intros sp w4]. reflexivity.
Qed.
Lemma ewa_transparent E s m k t w : told s t -> told m t ->
  hElementWiseMatrixAdd E s m k t w = ElementWiseMatrixAdd E (h_ptr s) (h_ptr m) k (h_ptr t) w.
Proof.
  intros T1 T2. unfold hElementWiseMatrixAdd, ElementWiseMatrixAdd, hElementWiseAdd, elementWiseAdd. rewrite T1, T2. reflexivity.
Qed.
Lemma apply_transparent E s k u t w : told s t -> hApply E s k u t w = Apply E (h_ptr s) k u (h_ptr t) w.
Proof. intros T1. unfold hApply, Apply. rewrite T1. reflexivity. Qed.
Lemma equal_transparent E s m w : classed E s -> classed E m ->
  hEqual E (Some s) (Some m) w = Equal E (Some (h_ptr s)) (Some (h_ptr m)) w.
Proof.
  intros C1 C2. unfold hEqual, Equal.
  apply mbind_same; [reflexivity|intros sc w1]. apply mbind_same; [reflexivity|intros mc w2]. destruct (negb (sc =? mc)); [reflexivity|].
  apply mbind_same; [reflexivity|intros sr w3]. apply mbind_same; [reflexivity|intros mr w4]. destruct (negb (sr =? mr)); [reflexivity|].
  apply mbind_same; [apply h_IsSparse_same; exact C1|intros sps w5]. apply mbind_same; [apply h_IsSparse_same; exact C2|intros spm w6].
  reflexivity.
Qed.

(** comparison tells whether two variables reach the same matrix if they do not, or are the
    same wrapper, or neither is wrapped *)
Lemma told_plain p q : told (Plain p) (Plain q).
Proof. reflexivity. Qed.
(** one wrapper holds one matrix *)
Inductive inside : handle -> handle -> Prop :=
| in_here h : inside h h
| in_value h ty h' : inside h h' -> inside h (ByValue ty h').
Definition coherent (a b : handle) : Prop := forall l ty ty' h h', inside (Wrapped l ty h) a -> inside (Wrapped l ty' h') b -> h_ptr h = h_ptr h'.
Lemma h_same_ptr a : forall b, coherent a b -> h_same a b = true -> h_ptr a = h_ptr b.
Proof.
  induction a as [p|l ty h IH|ty h IH]; intros [q|l' ty' h'|ty' h'] Hl H; cbn [h_same h_ptr] in *; try discriminate.
  - apply Nat.eqb_eq. exact H.
  - apply Nat.eqb_eq in H. subst l'. apply (Hl l ty ty'); left.
  - apply andb_prop in H as [_ H]. apply IH; [|exact H]. intros l t1 t2 h1 h2 A B. apply (Hl l t1 t2); right; assumption.
Qed.
Lemma told_apart a b : h_ptr a <> h_ptr b -> coherent a b -> told a b.
Proof.
  intros Hn Hl. unfold told. replace (Nat.eqb (h_ptr a) (h_ptr b)) with false by (symmetry; apply Nat.eqb_neq; exact Hn).
  destruct (h_same a b) eqn:E; [|reflexivity]. exfalso. apply Hn. apply h_same_ptr; assumption.
Qed.
Lemma h_same_refl h : h_same h h = true.
Proof. induction h; cbn [h_same]; [apply Nat.eqb_refl|apply Nat.eqb_refl|]. rewrite String.eqb_refl. exact IHh. Qed.
Lemma told_self h : told h h.
Proof. unfold told. rewrite Nat.eqb_refl. apply h_same_refl. Qed.
(** wrappers used by value are told as well as what they hold *)
Lemma told_value ty a b : told a b -> told (ByValue ty a) (ByValue ty b).
Proof. unfold told. cbn [h_same h_ptr]. rewrite String.eqb_refl. auto. Qed.

Lemma transparent E w :
  (forall s m k t, classed E s -> told s t -> told m t ->
     hElementWiseMatrixMultiply E s m k t w = ElementWiseMatrixMultiply E (h_ptr s) (h_ptr m) k (h_ptr t) w) /\
  (forall s m k t, classed E s -> hAdd E s m k t w = Add E (h_ptr s) (h_ptr m) k (h_ptr t) w) /\
  (forall s m k t, told s t -> told m t ->
     hElementWiseMatrixAdd E s m k t w = ElementWiseMatrixAdd E (h_ptr s) (h_ptr m) k (h_ptr t) w) /\
  (forall s k u t, told s t -> hApply E s k u t w = Apply E (h_ptr s) k u (h_ptr t) w) /\
  (forall s m, classed E s -> classed E m ->
     hEqual E (Some s) (Some m) w = Equal E (Some (h_ptr s)) (Some (h_ptr m)) w).
Proof.
  split; [intros; apply ewm_transparent; auto|]. split; [intros; apply add_transparent; auto|].
  split; [intros; apply ewa_transparent; auto|]. split; [intros; apply apply_transparent; auto|intros; apply equal_transparent; auto].
Qed.

(** ** Equal *)
Lemma hEqual_run E w (s m : handle) S Mo (sps spm : bool) :
  zero_ok N -> wfw w -> by_pointer s -> by_pointer m -> obj w (h_ptr s) S -> obj w (h_ptr m) Mo ->
  h_sparse (e_reg E) s S = sps -> h_sparse (e_reg E) m Mo = spm ->
  mat_Values (if sps then S else Mo) <= Z.of_nat (e_fuel E) -> e_ctx E = None ->
  exists w', hEqual E (Some s) (Some m) w = (w', Ok (verdict sps spm S Mo)) /\ w_heap w' = w_heap w.
Proof.
  intros Hz Hw Bs Bm Hs Hm Es Em Hfu Hbg.
  (* an environment in which the two storages have these answers, or one of Ops.v's branches *)
  unfold hEqual, verdict.
  rewrite (mbind_ok _ _ _ _ _ (p_Columns_ok _ _ _ Hs)), (mbind_ok _ _ _ _ _ (p_Columns_ok _ _ _ Hm)).
  destruct (mat_Columns S =? mat_Columns Mo) eqn:EC; cbn [negb andb]; [|exists w; auto].
  rewrite (mbind_ok _ _ _ _ _ (p_Rows_ok _ _ _ Hs)), (mbind_ok _ _ _ _ _ (p_Rows_ok _ _ _ Hm)).
  destruct (mat_Rows S =? mat_Rows Mo) eqn:ER; cbn [negb]; [|exists w; auto].
  rewrite (mbind_ok _ _ _ _ _ (h_IsSparse_ok E _ _ _ Bs Hs)), Es, (mbind_ok _ _ _ _ _ (h_IsSparse_ok E _ _ _ Bm Hm)), Em.
  rewrite (mbind_ok _ _ _ _ _ (p_Values_ok _ _ _ Hs)), (mbind_ok _ _ _ _ _ (p_Values_ok _ _ _ Hm)).
  replace (sps && spm || negb sps && negb spm) with (Bool.eqb sps spm) by (destruct sps, spm; reflexivity).
  destruct (Bool.eqb sps spm && negb (mat_Values S =? mat_Values Mo)); [exists w; auto|].
  set (src := if sps then h_ptr s else h_ptr m). set (other := if sps then h_ptr m else h_ptr s).
  set (Src := if sps then S else Mo) in *. set (Oth := if sps then Mo else S).
  replace (if sps then (h_ptr s, h_ptr m) else (h_ptr m, h_ptr s)) with (src, other) by (unfold src, other; destruct sps; reflexivity).
  assert (Hsrc : obj w src Src) by (unfold src, Src; destruct sps; auto).
  assert (Hoth : obj w other Oth) by (unfold other, Oth; destruct sps; auto).
  assert (Ws : wf Src) by (eapply Hw; eauto). assert (Wo : wf Oth) by (eapply Hw; eauto).
  assert (Hin : forall i j, inb Src i j -> inb Oth i j).
  { intros i j. unfold inb, Src, Oth. destruct sps; lia. }
  destruct (enumerate_polls E src false (fun r c v =>
        let! mV := p_At other r c in
        if negb (neqb v mV) then mret (Some false) else mret None) Src
      (fun d w1 => w_heap w1 = w_heap w /\ forallb (agrees Oth) d = true)
      (fun d w1 => w_heap w1 = w_heap w /\ forallb (agrees Oth) d = true)
      (fun d e b w1 => w_heap w1 = w_heap w /\ b = false /\ agrees Oth e = false) w Ws Hfu Hsrc)
    as (w' & o & He & Hend).
  - intros d w1 w2 [H1 H2] Hp. destruct (poll_heap E w1) as (w2' & b & Hp' & Hh & _). rewrite Hp in Hp'. injection Hp' as <- _.
    split; [unfold obj in *; rewrite Hh, H1; exact Hsrc|]. split; congruence.
  - intros d r c v rest w1 Hd [H1 H2].
    assert (Hb : inb Oth r c).
    { apply Hin. apply (entries_inb Src r c v Hz Ws). rewrite Hd. apply in_or_app; right; left; reflexivity. }
    assert (Hoth1 : obj w1 other Oth) by (unfold obj in *; rewrite H1; exact Hoth).
    rewrite (mbind_ok _ _ _ _ _ (p_At_ok _ _ _ _ _ Hz Hoth1 Wo Hb)).
    destruct (neqb v (peek Oth r c)) eqn:E1; cbn [negb].
    + eexists _, _. split; [reflexivity|]. split; [exact H1|]. rewrite forallb_app, H2. cbn [forallb andb].
      unfold agrees. cbn [fst snd]. rewrite E1. reflexivity.
    + eexists _, _. split; [reflexivity|]. split; [exact H1|]. split; [reflexivity|exact E1].
  - split; reflexivity.
  - rewrite (mbind_ok _ _ _ _ _ He).
    assert (Ev : (if sps then forallb (agrees Mo) (entries S) else forallb (agrees S) (entries Mo)) = forallb (agrees Oth) (entries Src)).
    { unfold Oth, Src. destruct sps; reflexivity. }
    rewrite Ev. exists w'.
    destruct Hend as [(-> & H1 & H2)|[(-> & d & e & l & w1 & Hd & [H1 H2] & H4)|(d & e & l & b & -> & Hd & H1 & -> & H2)]].
    + rewrite H2. auto.
    + exfalso. unfold poll in H4. rewrite Hbg in H4. discriminate H4.
    + split; [|exact H1]. rewrite Hd, forallb_app. cbn [forallb]. rewrite H2, Bool.andb_false_r. reflexivity.
Qed.

Lemma equal_handles E w (s m : handle) S Mo R C f g :
  sane N -> cmp_ok N -> reachable w -> by_pointer s -> by_pointer m -> obj w (h_ptr s) S -> obj w (h_ptr m) Mo -> not_sparse_vector S -> not_sparse_vector Mo ->
  denotes S R C f -> denotes Mo R C g ->
  mat_Values S <= Z.of_nat (e_fuel E) -> mat_Values Mo <= Z.of_nat (e_fuel E) -> e_ctx E = None ->
  exists w' b, hEqual E (Some s) (Some m) w = (w', Ok b) /\ w_heap w' = w_heap w /\
    (h_sparse (e_reg E) s S = true -> h_sparse (e_reg E) m Mo = false ->
      (b = true <-> forall i j, 0 <= i < R -> 0 <= j < C -> stored S (f i j) = true -> neqb (f i j) (g i j) = true)) /\
    (h_sparse (e_reg E) s S = false -> h_sparse (e_reg E) m Mo = true ->
      (b = true <-> forall i j, 0 <= i < R -> 0 <= j < C -> stored Mo (g i j) = true -> neqb (f i j) (g i j) = true)) /\
    (h_sparse (e_reg E) s S = h_sparse (e_reg E) m Mo ->
      (b = true <-> mat_Values S = mat_Values Mo /\ forall i j, 0 <= i < R -> 0 <= j < C ->
        (if h_sparse (e_reg E) s S then stored S (f i j) else stored Mo (g i j)) = true -> neqb (f i j) (g i j) = true)) /\
    (h_sparse (e_reg E) s S = h_sparse (e_reg E) m Mo -> is_sparse_matrix S -> is_sparse_matrix Mo ->
      (b = true <-> forall i j, 0 <= i < R -> 0 <= j < C -> neqb (f i j) (g i j) = true)).
Proof.
  intros Hs Hcmp Hr Bs Bm H1 H2 Ps Pm Ds Dm Hf1 Hf2 Hc. pose proof (sane_wfw w Hs Hr) as Hw. destruct Hs as [Hz _].
  pose proof (plain_is_good w _ S Hw H1 Ps) as Gs. pose proof (plain_is_good w _ Mo Hw H2 Pm) as Gm.
  destruct (hEqual_run E w s m S Mo _ _ Hz Hw Bs Bm H1 H2 eq_refl eq_refl ltac:(destruct (h_sparse _ s S); auto) Hc) as (w' & He & Hh).
  exists w', (verdict (h_sparse (e_reg E) s S) (h_sparse (e_reg E) m Mo) S Mo). split; [exact He|]. split; [exact Hh|]. clear He.
  destruct (h_sparse (e_reg E) s S) eqn:E1, (h_sparse (e_reg E) m Mo) eqn:E2; (split; [|split; [|split]]); intros; try discriminate.
  all: try (apply verdict_sparse; auto; [destruct (sparse_good S (proj1 Gs) ltac:(assumption)); auto|destruct (sparse_good Mo (proj1 Gm) ltac:(assumption)); auto]; fail).
  - pose proof Ds as (SR & SC & _). pose proof Dm as (MR & MC & _). unfold verdict. rewrite SR, SC, MR, MC, !Z.eqb_refl. cbn [andb Bool.eqb].
    rewrite <- (agrees_cells S Mo R C f g Hz Gs (proj1 Gm) Ds Dm). destruct (Z.eqb_spec (mat_Values S) (mat_Values Mo)); cbn [negb]; [tauto|].
    split; [discriminate|tauto].
  - apply (verdict_mixed true S Mo R C f g); auto.
  - apply (verdict_mixed false S Mo R C f g); auto.
  - pose proof Ds as (SR & SC & _). pose proof Dm as (MR & MC & _). unfold verdict. rewrite SR, SC, MR, MC, !Z.eqb_refl. cbn [andb Bool.eqb].
    assert (A : forallb (agrees S) (entries Mo) = true <-> forall i j, 0 <= i < R -> 0 <= j < C -> stored Mo (g i j) = true -> neqb (f i j) (g i j) = true).
    { rewrite (agrees_cells Mo S R C g f Hz Gm (proj1 Gs) Dm Ds). pose proof Hcmp as [Hsy _].
      split; intros Hq i j Hi Hj Hst; rewrite Hsy; auto. }
    rewrite <- A. destruct (Z.eqb_spec (mat_Values S) (mat_Values Mo)); cbn [negb]; [tauto|].
    split; [discriminate|tauto].
Qed.

(** ** Add *)
Definition with_reg (E : env) (reg : list string) : env := {| e_ctx := e_ctx E; e_reg := reg; e_fuel := e_fuel E |}.
Lemma enum_loop_reg {A} E reg p (x : A) body : forall fuel it w,
  enum_loop (with_reg E reg) fuel p it x body w = enum_loop E fuel p it x body w.
Proof.
  induction fuel as [|fuel IH]; intros it w; cbn [enum_loop]; [reflexivity|]. destruct (mat_HasNext it); [|reflexivity].
  apply mbind_same; [reflexivity|intros d w1]. destruct d; [reflexivity|]. apply mbind_same; [reflexivity|intros m w2].
  apply mbind_same; [reflexivity|intros [[[r c] v] it'] w3]. apply mbind_same; [reflexivity|intros o w4]. destruct o; [reflexivity|apply IH].
Qed.
Lemma enumerate_reg {A} E reg p (x : A) body w : enumerate (with_reg E reg) p x body w = enumerate E p x body w.
Proof. unfold enumerate. apply mbind_same; [reflexivity|]. intros m w1. apply enum_loop_reg. Qed.
Lemma hAdd_as E w s m k t S : by_pointer s -> obj w (h_ptr s) S ->
  hAdd E s m k t w = Add (with_reg E (if h_sparse (e_reg E) s S then [mat_name S] else [])) (h_ptr s) (h_ptr m) k (h_ptr t) w.
Proof.
  intros Bs H. unfold hAdd, Add.
  assert (W : forall A (a : M A) w0 (f f' : A -> M unit), fst (a w0) = w0 -> (forall x, f x w0 = f' x w0) -> mbind a f w0 = mbind a f' w0).
  { intros A a w0 f f' G1 G2. unfold mbind. destruct (a w0) as [w1 [x| |]]; cbn [fst] in G1; subst w1; auto. }
  assert (L : forall A p (f : mat -> A), fst ((let! x := load p in mret (f x)) w) = w).
  { intros A p f. unfold mbind, load. destruct (nth_error (w_heap w) p); reflexivity. }
  assert (B : forall A B0 (a : M A) (f : A -> M B0), fst (a w) = w -> (forall x, fst (f x w) = w) -> fst (mbind a f w) = w).
  { intros A B0 a f G1 G2. unfold mbind. destruct (a w) as [w1 [x| |]]; cbn [fst] in *; subst; auto. }
  apply W.
  { unfold check_sizes. apply B; [apply L|intros]. apply B; [apply L|intros]. destruct (negb _); [reflexivity|].
    apply B; [apply L|intros]. apply B; [apply L|intros]. destruct (negb _); reflexivity. }
  intros _. apply W.
  { unfold check_mask. apply B; [apply L|intros r]. apply B; [apply L|intros c].
    assert (D : forall k0, fst (mask_Rows (N := N) k0 w) = w /\ fst (mask_Columns (N := N) k0 w) = w) by (intros [| | |]; split; try reflexivity; apply L).
    apply B; [apply D|intros]. destruct (negb _); [reflexivity|]. apply B; [apply D|intros]. destruct (negb _); reflexivity. }
  intros k'. rewrite (mbind_ok _ _ _ _ _ (h_IsSparse_ok E _ _ _ Bs H)), (mbind_ok _ _ _ _ _ (p_IsSparse_ok _ _ _ _ H)).
  replace (IsSparseMatrix (e_reg (with_reg E (if h_sparse (e_reg E) s S then [mat_name S] else []))) S) with (h_sparse (e_reg E) s S).
  - destruct (h_sparse (e_reg E) s S); (apply mbind_same; [symmetry; apply enumerate_reg|reflexivity]).
  - unfold IsSparseMatrix, with_reg. cbn [e_reg]. destruct (h_sparse (e_reg E) s S); cbn [existsb]; [|reflexivity]. rewrite String.eqb_refl. reflexivity.
Qed.

Lemma add_handles E w (s m t : handle) k S Mo O R C f g h :
  sane N -> reachable w -> by_pointer s -> obj w (h_ptr s) S -> obj w (h_ptr m) Mo -> obj w (h_ptr t) O ->
  not_sparse_vector S -> not_sparse_vector Mo -> not_sparse_vector O ->
  denotes S R C f -> denotes Mo R C g -> denotes O R C h -> mask_dims w k R C ->
  (h_ptr s <> h_ptr t /\ h_ptr m <> h_ptr t \/ is_dense O) ->
  mat_Values S <= Z.of_nat (e_fuel E) -> mat_Values Mo <= Z.of_nat (e_fuel E) -> e_ctx E = None ->
  exists w' O', hAdd E s m k t w = (w', Ok tt) /\ extends_but (h_ptr t) w w' /\ obj w' (h_ptr t) O' /\ same_storage O O' /\
    denotes O' R C (fun i j =>
      if covers w k i j then h i j
      else if h_sparse (e_reg E) s S
      then if stored S (f i j) then kept O (nadd (g i j) (f i j)) else h i j
      else if stored Mo (g i j) then kept O (nadd (f i j) (g i j)) else h i j).
Proof.
  intros Hs Hr Bs H1 H2 H3 Ps Pm Po Ds Dm Do Hk Hal Hf1 Hf2 Hc. pose proof (sane_wfw w Hs Hr) as Hw. destruct Hs as [Hz _].
  rewrite (hAdd_as E w s m k t S Bs H1). set (sp := h_sparse (e_reg E) s S). set (E' := with_reg E _).
  destruct (Add_run E' w (h_ptr s) (h_ptr m) k (h_ptr t) S Mo O R C f g h sp Hz Hw H1 H2 H3 Ps Pm Po Ds Dm Do Hk)
    as (w' & O' & d & rest & A1 & A2 & A3 & A4 & A5 & A6 & A7 & A8).
  - unfold IsSparseMatrix, E', with_reg. cbn [e_reg]. destruct sp; cbn [existsb]; [|reflexivity]. rewrite String.eqb_refl. reflexivity.
  - destruct sp; tauto.
  - destruct sp; auto.
  - exists w', O'. do 3 (split; [auto|]). split; [apply storage_of; auto|].
    apply until_none in A7; [|exact Hc]. subst rest. rewrite app_nil_r in A6.
    eapply denotes_ext; [|exact A8]. intros i j Hi Hj. cbn beta.
    destruct sp.
    + rewrite (visited_stored S R C f d i j Hz (plain_is_good _ _ _ Hw H1 Ps) Ds A6 Hi Hj). destruct (stored S _), (covers w k i j); reflexivity.
    + rewrite (visited_stored Mo R C g d i j Hz (plain_is_good _ _ _ Hw H2 Pm) Dm A6 Hi Hj). destruct (stored Mo _), (covers w k i j); reflexivity.
Qed.

(** ** An output that reaches an operand but is not told *)

(** nothing shows yet *)
Notation same w t O := (St w t O (fun _ _ => true) (fun _ _ x => x) []).
Lemma same_set w t O w1 r c x : zero_ok N -> obj w t O -> is_dense O -> same w t O w1 -> inb O r c -> x = peek O r c ->
  exists w2, p_Set t r c x w1 = (w2, Ok tt) /\ same w t O w2.
Proof.
  intros Hz Ho Hd HS Hb ->. destruct HS as (O1 & Hh & Hg1 & Hs1 & Hp1).
  assert (Ho1 : obj w1 t O1) by (unfold obj; rewrite Hh; apply nth_error_list_set_eq; eapply obj_lt; eauto).
  destruct (p_Set_ok t w1 O1 r c (peek O r c) Hz Ho1 Hg1) as (O2 & E2 & Hg2 & Hs2 & Hp2).
  { apply (same_shape_inb _ _ _ _ Hs1); auto. }
  eexists. split; [exact E2|]. exists O2. split; [unfold upd; cbn [w_heap]; rewrite Hh; apply list_set_twice|].
  split; [exact Hg2|]. split; [eapply same_shape_trans; eauto|]. intros i j Hi. cbn [visited existsb andb].
  rewrite Hp2 by (apply (same_shape_inb _ _ _ _ Hs1); auto). specialize (Hp1 i j Hi). cbn [visited existsb andb] in Hp1. rewrite Hp1.
  destruct ((i =? r) && (j =? c)) eqn:Eq; [|reflexivity]. assert (i = r /\ j = c) as [-> ->] by lia.
  rewrite <- OpsThms.kept_clean. apply dense_kept. eapply dense_same; eauto.
Qed.
Lemma same_obj w t O w1 : obj w t O -> same w t O w1 -> exists O1, obj w1 t O1 /\ wf O1 /\ same_shape O O1 /\
  forall i j, inb O i j -> peek O1 i j = peek O i j.
Proof.
  intros Ho HS. destruct (St_final _ _ _ _ _ Ho _ _ HS) as (O1 & _ & A & B & C & D). exists O1. split; [exact A|]. split; [apply B|]. split; [exact C|exact D].
Qed.
Lemma same_denotes w t O w1 R C h : zero_ok N -> obj w t O -> denotes O R C h -> same w t O w1 ->
  exists O1, extends_but t w w1 /\ obj w1 t O1 /\ same_storage O O1 /\ denotes O1 R C h.
Proof.
  intros Hz Ho Do HS. destruct (St_denotes _ _ _ _ _ _ _ _ _ _ Hz Ho Do HS) as (O1 & A & B & C1 & _ & D).
  exists O1. split; [exact A|]. split; [exact B|]. split; [apply Steps.same_storage_shape; exact C1|]. exact D.
Qed.

(** element-wise multiplication: the output keeps its cells *)
Lemma ewm_untold E w (s m t : handle) k S Mo O R f g h :
  sane N -> eq_ok N -> reachable w -> by_pointer s -> obj w (h_ptr s) S -> obj w (h_ptr m) Mo -> obj w (h_ptr t) O ->
  is_dense S -> is_dense Mo -> is_dense O -> denotes S R R f -> denotes Mo R R g -> denotes O R R h ->
  mask_dims w k R R -> mask_not k (h_ptr t) ->
  h_same s t = false -> h_same m t = false -> h_ptr s = h_ptr t \/ h_ptr m = h_ptr t -> h_sparse (e_reg E) s S = false ->
  R * R <= Z.of_nat (e_fuel E) -> e_ctx E = None ->
  exists w' O', hElementWiseMatrixMultiply E s m k t w = (w', Ok tt) /\ extends_but (h_ptr t) w w' /\ obj w' (h_ptr t) O' /\
    same_storage O O' /\ denotes O' R R h.
Proof.
  intros Hs He Hr Bs H1 H2 H3 P1 P2 P3 D1 D2 D3 Hk Hkt T1 T2 Hal Hsp Hfu Hc. pose proof (sane_wfw w Hs Hr) as Hw. pose proof (proj1 Hs) as Hz.
  pose proof D1 as (SR & SC & _). pose proof D2 as (MR & MC & _). pose proof D3 as (OR & OC & _).
  assert (Hmd : mask_dims w k (mat_Rows O) (mat_Columns O)) by (rewrite OR, OC; exact Hk).
  assert (Hmw : mask_wf w k) by (eapply mask_dims_wf; eauto).
  assert (Go : good O) by (split; [eapply Hw; eauto|destruct O; try contradiction; discriminate]).
  assert (HV : mat_Values Mo <= Z.of_nat (e_fuel E)) by (pose proof (values_bound w _ Mo R R g Hs Hr H2 (dense_nsv _ P2) D2); lia).
  unfold hElementWiseMatrixMultiply. rewrite (mbind_ok _ _ _ _ _ (p_Rows_ok _ _ _ H2)), (mbind_ok _ _ _ _ _ (p_Columns_ok _ _ _ H1)).
  rewrite MR, SC, Z.eqb_refl. cbn [negb]. unfold hElementWiseMultiply.
  rewrite (mbind_ok _ _ _ _ _ (check_mask_ok _ _ _ _ H3 Hmd)), (mbind_ok _ _ _ _ _ (h_IsSparse_ok E _ _ _ Bs H1)), T1, T2, Hsp.
  assert (Hobj : forall q x, obj w q x -> wf x -> (forall a b, inb x a b <-> inb O a b) -> forall w1, same w (h_ptr t) O w1 ->
      exists x1, obj w1 q x1 /\ wf x1 /\ same_shape x x1 /\ forall a b, inb x a b -> peek x1 a b = peek x a b).
  { intros q x Hq Wx Hin w1 HS. destruct (Nat.eq_dec q (h_ptr t)) as [->|Hn].
    - rewrite (obj_inj _ _ _ _ Hq H3). eapply same_obj; eauto.
    - exists x. split; [eapply St_other; eauto|]. split; [exact Wx|]. split; [apply same_shape_refl|reflexivity]. }
  assert (Hin : forall X a b, mat_Rows X = R -> mat_Columns X = R -> inb (N := N) X a b <-> inb O a b) by (intros X a b E1 E2; unfold inb; rewrite E1, E2, OR, OC; tauto).
  destruct (enum_live E (h_ptr m) w Mo (fun r c value =>
      let! v := p_At (h_ptr s) r c in
      if neqb value v then
        let! e := mask_Element (mask_norm k (mat_Rows O) (mat_Columns O)) r c in
        (if negb e then p_Set (h_ptr t) r c value else mret tt) ;!; mret None
      else mret None) (fun _ w1 => same w (h_ptr t) O w1) Hz H2 (Hw _ _ H2) P2 Hc HV) as (w' & Hrun & HSt).
  - intros _ w1 HS. destruct (Hobj _ _ H2 (Hw _ _ H2) (fun a b => Hin Mo a b MR MC) w1 HS) as (x1 & A & B & C & _). exists x1. auto.
  - intros d r c rest w1 m1 Hp HS Hm1. rewrite MR, MC in Hp.
    assert (Hrc : 0 <= r < R /\ 0 <= c < R) by (apply in_positions_iff; rewrite Hp; apply in_or_app; right; left; reflexivity).
    assert (Hbo : inb O r c) by (unfold inb; lia). assert (Hbm : inb Mo r c) by (unfold inb; lia). assert (Hbs : inb S r c) by (unfold inb; lia).
    destruct (Hobj _ _ H2 (Hw _ _ H2) (fun a b => Hin Mo a b MR MC) w1 HS) as (m1' & A1 & A2 & A3 & A4). rewrite (obj_inj _ _ _ _ Hm1 A1), (A4 _ _ Hbm).
    destruct (Hobj _ _ H1 (Hw _ _ H1) (fun a b => Hin S a b SR SC) w1 HS) as (s1 & B1 & B2 & B3 & B4).
    rewrite (mbind_ok _ _ _ _ _ (p_At_ok _ _ _ _ _ Hz B1 B2 ltac:(apply (same_shape_inb _ _ _ _ B3); exact Hbs))), (B4 _ _ Hbs).
    destruct (neqb (peek Mo r c) (peek S r c)) eqn:Eq; [|exists w1; split; [reflexivity|exact HS]].
    assert (Hme : mask_Element (mask_norm k (mat_Rows O) (mat_Columns O)) r c w1 = (w1, Ok (covers w k r c))).
    { apply (St_mask w (h_ptr t) O _ _ Hz H3 Go _ _ _ _ _ HS Hmw Hmd Hbo). intros ->. contradiction. }
    rewrite (mbind_ok _ _ _ _ _ Hme). destruct (covers w k r c); cbn [negb]; [rewrite mbind_ret; exists w1; split; [reflexivity|exact HS]|].
    destruct (same_set w (h_ptr t) O w1 r c (peek Mo r c) Hz H3 P3 HS Hbo) as (w2 & E2 & HS2).
    { destruct Hal as [Ha|Ha].
      - rewrite Ha in H1. rewrite (obj_inj _ _ _ _ H3 H1). apply He. exact Eq.
      - rewrite Ha in H2. rewrite (obj_inj _ _ _ _ H3 H2). reflexivity. }
    rewrite (mbind_ok _ _ _ _ _ E2). exists w2. split; [reflexivity|exact HS2].
  - apply St_start; auto.
  - destruct (same_denotes w (h_ptr t) O w' R R h Hz H3 D3 HSt) as (O1 & A & B & C1 & D). exists w', O1.
    split; [|auto]. rewrite (mbind_ok _ _ _ _ _ Hrun). reflexivity.
Qed.

(** Apply: the mirror image, with the operator used twice above the diagonal *)
Definition applied_back (w : world) (k : mask) (u : V -> V) (f : Z -> Z -> V) (i j : Z) : V :=
  if covers w k j i then f i j else if j <=? i then u (f j i) else if covers w k i j then u (f j i) else u (u (f i j)).
Lemma apply_untold E w (s t : handle) k u S R f :
  sane N -> reachable w -> obj w (h_ptr s) S -> is_dense S -> denotes S R R f -> mask_dims w k R R -> mask_not k (h_ptr s) ->
  h_same s t = false -> h_ptr s = h_ptr t -> e_ctx E = None -> R * R <= Z.of_nat (e_fuel E) ->
  exists w' S', hApply E s k u t w = (w', Ok tt) /\ extends_but (h_ptr s) w w' /\ obj w' (h_ptr s) S' /\ same_storage S S' /\
    denotes S' R R (applied_back w k u f).
Proof.
  intros Hs Hr Ho Hd F Hk Hkn T1 Ha Hbg Hfu. unfold hApply. rewrite T1, <- Ha. clear Ha. generalize dependent (h_ptr s). clear s t T1. intros s Ho Hkn.
  pose proof (sane_wfw w Hs Hr) as Hw. assert (Hz := proj1 Hs). pose proof F as (ER & EC & _).
  assert (Hmd : mask_dims w k (mat_Rows S) (mat_Columns S)) by (rewrite ER, EC; exact Hk).
  assert (Hmw : mask_wf w k) by (eapply mask_dims_wf; eauto).
  assert (Gs : good S) by (split; [eapply Hw; eauto|destruct S; try contradiction; discriminate]).
  set (act := fun i j => negb (covers w k j i)).
  set (val := fun i j (_ : V) => if j <=? i then u (f j i) else if covers w k i j then u (f j i) else u (u (f i j))).
  assert (HV : mat_Values S <= Z.of_nat (e_fuel E)) by (pose proof (values_bound w s S R R f Hs Hr Ho (dense_nsv _ Hd) F); lia).
  destruct (enum_live E s w S (fun r c value =>
      let! e := mask_Element (mask_norm k (mat_Rows S) (mat_Columns S)) r c in
      (if negb e then p_Set s c r (u value) else mret tt) ;!; mret None)
    (fun d w1 => St w s S act val (map OpsThms.swap d) w1) Hz Ho (proj1 Gs) Hd Hbg HV) as (w' & Hrun & HSt).
  - intros d w1 HSt. destruct (St_obj _ _ _ _ _ Ho _ _ HSt) as (O1 & A & B & C & _). exists O1. split; [exact A|]. split; [apply B|exact C].
  - intros d r c rest w1 m1 Hp HSt Ho1. rewrite ER, EC in Hp.
    assert (Hin : 0 <= r < R /\ 0 <= c < R) by (apply in_positions_iff; rewrite Hp; apply in_or_app; right; left; reflexivity).
    assert (Hnd : visited d r c = false).
    { apply visited_notin. intros Hin'. pose proof (NoDup_positions R R) as Hn. rewrite Hp in Hn. apply NoDup_remove_2 in Hn. apply Hn, in_or_app. left; exact Hin'. }
    assert (Hbs : inb S r c) by (unfold inb; lia). assert (Hbs' : inb S c r) by (unfold inb; lia).
    assert (Hme : mask_Element (mask_norm k (mat_Rows S) (mat_Columns S)) r c w1 = (w1, Ok (covers w k r c))).
    { apply (St_mask w s S act val Hz Ho Gs _ _ _ _ _ HSt Hmw Hmd Hbs). intros ->. contradiction. }
    rewrite (mbind_ok _ _ _ _ _ Hme).
    assert (Hpk : covers w k r c = false -> u (peek m1 r c) = val c r (peek S c r)).
    { intros Hcv. destruct (St_final _ _ _ _ _ Ho _ _ HSt) as (O1 & _ & Ho1' & _ & _ & Hpk).
      rewrite (obj_inj _ _ _ _ Ho1 Ho1'), Hpk by exact Hbs. rewrite visited_swap. unfold val, act.
      rewrite (denotes_peek _ _ _ _ _ _ F Hbs). rewrite <- OpsThms.kept_clean.
      assert (Hvis : visited d c r = (c <? r)).
      { rewrite (pos_before R R d r c rest c r Hp) by lia. lia. }
      rewrite Hvis. destruct (r <=? c) eqn:E1.
      - replace (c <? r) with false by lia. reflexivity.
      - replace (c <? r) with true by lia. replace (r <=? c) with false by lia.
        destruct (covers w k c r) eqn:E2; cbn [andb negb]; [reflexivity|].
        replace (c <=? r) with true by lia. f_equal. apply dense_kept. exact Hd. }
    destruct (covers w k r c) eqn:Ec; cbn [negb].
    + rewrite mbind_ret. exists w1. split; [reflexivity|]. rewrite map_app. apply St_skip; [exact HSt|]. unfold act. cbn [fst snd]. rewrite Ec. reflexivity.
    + rewrite Hpk by reflexivity.
      destruct (St_set w s S act val Hz Ho (map OpsThms.swap d) w1 c r (val c r (peek S c r)) HSt) as (w2 & E2 & HSt2 & _); auto.
      * rewrite visited_swap. exact Hnd.
      * unfold act. rewrite Ec. reflexivity.
      * rewrite (mbind_ok _ _ _ _ _ E2). exists w2. split; [reflexivity|]. rewrite map_app. exact HSt2.
  - apply St_start; auto.
  - destruct (St_denotes _ _ _ _ _ _ _ _ _ _ Hz Ho F HSt) as (O1 & Hext & Ho1 & Hs1 & Hw1 & Hd1).
    exists w', O1. split.
    { rewrite (mbind_ok _ _ _ _ _ (check_mask_ok _ _ _ _ Ho Hmd)), (mbind_ok _ _ _ _ _ Hrun). reflexivity. }
    split; [exact Hext|]. split; [exact Ho1|]. split; [apply Steps.same_storage_shape; exact Hs1|].
    eapply denotes_ext; [|exact Hd1]. intros i j Hi Hj. cbn beta. rewrite visited_swap, ER, EC, MethThms.visited_positions by auto.
    unfold act, val, applied_back. rewrite dense_kept by exact Hd. destruct (covers w k j i); reflexivity.
Qed.

(** element-wise addition: copying a matrix onto itself does no harm *)
Lemma ewa_self E w t k O R C h : zero_ok N -> wfw w -> obj w t O -> is_dense O -> denotes O R C h -> mask_dims w k R C -> mask_not k t ->
  mat_Values O <= Z.of_nat (e_fuel E) -> e_ctx E = None ->
  exists w' O', ewa_loop E t (mask_norm k (mat_Rows O) (mat_Columns O)) t w = (w', Ok None) /\
    w_heap w' = list_set (w_heap w) t O' /\ same_shape O O' /\ wf O' /\ denotes O' R C h.
Proof.
  intros Hz Hw Ho Hd D3 Hk Hkt HV Hc. pose proof D3 as (OR & OC & _).
  assert (Hmd : mask_dims w k (mat_Rows O) (mat_Columns O)) by (rewrite OR, OC; exact Hk).
  assert (Hmw : mask_wf w k) by (eapply mask_dims_wf; eauto).
  assert (Go : good O) by (split; [eapply Hw; eauto|destruct O; try contradiction; discriminate]).
  destruct (enum_live E t w O (fun r c value =>
      if negb (neqb value n0) then
        let! e := mask_Element (mask_norm k (mat_Rows O) (mat_Columns O)) r c in
        (if negb e then p_Set t r c value else mret tt) ;!; mret None
      else mret None) (fun _ w1 => same w t O w1) Hz Ho (proj1 Go) Hd Hc HV) as (w' & Hrun & HSt).
  - intros _ w1 HS. destruct (same_obj w t O w1 Ho HS) as (x1 & A & B & C0 & _). exists x1. auto.
  - intros d r c rest w1 m1 Hp HS Hm1. rewrite OR, OC in Hp.
    assert (Hrc : 0 <= r < R /\ 0 <= c < C) by (apply in_positions_iff; rewrite Hp; apply in_or_app; right; left; reflexivity).
    assert (Hbo : inb O r c) by (unfold inb; lia).
    destruct (same_obj w t O w1 Ho HS) as (m1' & A1 & A2 & A3 & A4). rewrite (obj_inj _ _ _ _ Hm1 A1), (A4 _ _ Hbo).
    destruct (negb (neqb (peek O r c) n0)); [|exists w1; split; [reflexivity|exact HS]].
    assert (Hme : mask_Element (mask_norm k (mat_Rows O) (mat_Columns O)) r c w1 = (w1, Ok (covers w k r c))).
    { apply (St_mask w t O _ _ Hz Ho Go _ _ _ _ _ HS Hmw Hmd Hbo). intros ->. contradiction. }
    rewrite (mbind_ok _ _ _ _ _ Hme). destruct (covers w k r c); cbn [negb]; [rewrite mbind_ret; exists w1; split; [reflexivity|exact HS]|].
    destruct (same_set w t O w1 r c (peek O r c) Hz Ho Hd HS Hbo eq_refl) as (w2 & E2 & HS2).
    rewrite (mbind_ok _ _ _ _ _ E2). exists w2. split; [reflexivity|exact HS2].
  - apply St_start; auto.
  - destruct HSt as (O1 & A & B & C1 & D). exists w', O1. split; [exact Hrun|]. split; [exact A|]. split; [exact C1|]. split; [apply B|].
    destruct (St_denotes w t O (fun _ _ => true) (fun _ _ x => x) [] w' R C h Hz Ho D3) as (O2 & _ & Ho2 & _ & _ & D2).
    { exists O1. auto. }
    replace O1 with O2; [exact D2|]. eapply obj_inj; [exact Ho2|]. unfold obj. rewrite A. apply nth_error_list_set_eq. eapply obj_lt; eauto.
Qed.

(** one of the two loops of the element-wise addition *)
Lemma ewa_half E w (s t : handle) k S O R C f h :
  zero_ok N -> wfw w -> obj w (h_ptr t) O -> is_dense O -> (h_ptr s <> h_ptr t -> obj w (h_ptr s) S) ->
  not_sparse_vector S -> denotes S R C f -> denotes O R C h -> mask_dims w k R C -> mask_not k (h_ptr t) ->
  (h_same s t = true -> h_ptr s = h_ptr t) ->
  mat_Values S <= Z.of_nat (e_fuel E) -> mat_Values O <= Z.of_nat (e_fuel E) -> e_ctx E = None ->
  exists w' O', (if negb (h_same s t) then ewa_loop E (h_ptr s) (mask_norm k (mat_Rows O) (mat_Columns O)) (h_ptr t) else mret None) w = (w', Ok None) /\
    w_heap w' = list_set (w_heap w) (h_ptr t) O' /\ same_shape O O' /\ wf O' /\
    denotes O' R C (fun i j => if negb (neqb (f i j) n0) && negb (Nat.eqb (h_ptr s) (h_ptr t)) && negb (covers w k i j) then f i j else h i j).
Proof.
  intros Hz Hw Ho Po Hs Ps Ds Do Hk Hkt Hsm Hf1 Hf2 Hc.
  destruct (Nat.eqb_spec (h_ptr s) (h_ptr t)) as [Ea|Ea]; cbn [negb].
  - assert (X : denotes O R C (fun i j => if negb (neqb (f i j) n0) && false && negb (covers w k i j) then f i j else h i j)).
    { eapply denotes_ext; [|exact Do]. intros i j _ _. cbn beta. rewrite Bool.andb_false_r. reflexivity. }
    destruct (h_same s t); cbn [negb].
    + exists w, O. split; [reflexivity|]. split; [symmetry; apply list_set_same; exact Ho|]. split; [apply same_shape_refl|]. split; [eapply Hw; eauto|exact X].
    + rewrite Ea. apply ewa_self; auto.
  - destruct (h_same s t); [exfalso; apply Ea, Hsm; reflexivity|]. cbn [negb].
    destruct (ewa_loop_run E w (h_ptr s) k (h_ptr t) S O R C f h Hz Hw (Hs Ea) Ho Ps (dense_nsv _ Po) Ds Do Hk Ea Hf1)
      as (w1 & O1 & o & d & r & A1 & A2 & A3 & A4 & A5 & A8 & A6 & A7).
    apply until_none in A8; [|exact Hc]. subst r. rewrite app_nil_r in A5. destruct A6 as [[-> _]|[_ X]]; [|contradiction].
    exists w1, O1. do 4 (split; [auto|]). eapply denotes_ext; [|exact A7]. intros i j Hi Hj. cbn beta.
    rewrite (visited_stored S R C f d i j Hz (plain_is_good _ _ _ Hw (Hs Ea) Ps) Ds A5 Hi Hj), dense_kept by exact Po.
    rewrite Bool.andb_assoc, stored_or, Bool.andb_true_r. reflexivity.
Qed.

Lemma ewa_handles E w (s m t : handle) k S Mo O R f g h :
  sane N -> reachable w -> obj w (h_ptr s) S -> obj w (h_ptr m) Mo -> obj w (h_ptr t) O ->
  not_sparse_vector S -> not_sparse_vector Mo -> is_dense O -> denotes S R R f -> denotes Mo R R g -> denotes O R R h ->
  mask_dims w k R R -> mask_not k (h_ptr t) ->
  (h_same s t = true -> h_ptr s = h_ptr t) -> (h_same m t = true -> h_ptr m = h_ptr t) ->
  R * R <= Z.of_nat (e_fuel E) -> e_ctx E = None ->
  exists w' O', hElementWiseMatrixAdd E s m k t w = (w', Ok tt) /\ extends_but (h_ptr t) w w' /\ obj w' (h_ptr t) O' /\
    same_storage O O' /\
    denotes O' R R (fun i j =>
      if covers w k i j then h i j
      else if negb (neqb (g i j) n0) && negb (Nat.eqb (h_ptr m) (h_ptr t)) then g i j
      else if negb (neqb (f i j) n0) && negb (Nat.eqb (h_ptr s) (h_ptr t)) then f i j
      else h i j).
Proof.
  intros Hs Hr H1 H2 H3 P1 P2 P3 D1 D2 D3 Hk Hkt T1 T2 Hfu Hc. pose proof (sane_wfw w Hs Hr) as Hw. pose proof (proj1 Hs) as Hz.
  pose proof D1 as (SR & SC & _). pose proof D2 as (MR & MC & _). pose proof D3 as (OR & OC & _).
  assert (Hmd : mask_dims w k (mat_Rows O) (mat_Columns O)) by (rewrite OR, OC; exact Hk).
  pose proof (values_bound w _ S R R f Hs Hr H1 P1 D1) as V1. pose proof (values_bound w _ Mo R R g Hs Hr H2 P2 D2) as V2.
  pose proof (values_bound w _ O R R h Hs Hr H3 (dense_nsv _ P3) D3) as V3.
  unfold hElementWiseMatrixAdd. rewrite (mbind_ok _ _ _ _ _ (p_Rows_ok _ _ _ H2)), (mbind_ok _ _ _ _ _ (p_Columns_ok _ _ _ H1)).
  rewrite MR, SC, Z.eqb_refl. cbn [negb]. unfold hElementWiseAdd. rewrite (mbind_ok _ _ _ _ _ (check_mask_ok _ _ _ _ H3 Hmd)).
  destruct (ewa_half E w s t k S O R R f h Hz Hw H3 P3 (fun _ => H1) P1 D1 D3 Hk Hkt T1 ltac:(lia) ltac:(lia) Hc) as (w1 & O1 & A1 & A2 & A3 & A4 & A5).
  rewrite (mbind_ok _ _ _ _ _ A1).
  assert (Ho1 : obj w1 (h_ptr t) O1) by (unfold obj; rewrite A2; apply nth_error_list_set_eq; eapply obj_lt; eauto).
  assert (Eu : w_heap w1 = w_heap (upd w (h_ptr t) O1)) by (rewrite A2; reflexivity).
  assert (Hxt : extends_but (h_ptr t) w w1) by (intros q x Hn Hq; unfold obj; rewrite A2, nth_error_list_set_neq; auto).
  assert (Hw1 : wfw w1) by (apply (wfw_heap (upd w (h_ptr t) O1)); [auto|]; apply wfw_upd; auto).
  assert (Hk1 : mask_dims w1 k R R) by (apply (mask_dims_heap k (upd w (h_ptr t) O1)); auto; apply mask_dims_upd; auto).
  assert (Hcov : forall i j, covers w1 k i j = covers w k i j).
  { intros i j. rewrite (covers_heap k (upd w (h_ptr t) O1) w1) by auto. apply covers_upd; auto. }
  assert (P31 : is_dense O1) by (eapply dense_same; eauto).
  assert (V31 : mat_Values O1 <= Z.of_nat (e_fuel E)) by (rewrite (dense_values O1 R R _ Hz A4 P31 A5); lia).
  destruct (ewa_half E w1 m t k Mo O1 R R g _ Hz Hw1 Ho1 P31 (fun Hn => Hxt _ _ Hn H2) P2 D2 A5 Hk1 Hkt T2 ltac:(lia) V31 Hc) as (w2 & O2 & B1 & B2 & B3 & B4 & B5).
  replace (mat_Rows O1) with (mat_Rows O) in B1 by (symmetry; apply A3).
  replace (mat_Columns O1) with (mat_Columns O) in B1 by (symmetry; apply A3).
  rewrite (mbind_ok _ _ _ _ _ B1). exists w2, O2. split; [reflexivity|].
  split; [intros q x Hn Hq; unfold obj; rewrite B2, nth_error_list_set_neq by auto; apply Hxt; auto|].
  split; [unfold obj; rewrite B2; apply nth_error_list_set_eq; eapply obj_lt; eauto|].
  split; [apply Steps.same_storage_shape; eapply same_shape_trans; eauto|].
  eapply denotes_ext; [|exact B5]. intros i j _ _. cbn beta. rewrite Hcov.
  destruct (neqb (g i j) n0), (Nat.eqb (h_ptr m) (h_ptr t)), (covers w k i j), (neqb (f i j) n0), (Nat.eqb (h_ptr s) (h_ptr t)); reflexivity.
Qed.

(** ** Read with a wrapped operand *)
Lemma add_wrapped E w l ty (a m t : handle) k S Mo O R C f g h :
  sane N -> reachable w -> unregistered E ty -> obj w (h_ptr a) S -> obj w (h_ptr m) Mo -> obj w (h_ptr t) O ->
  not_sparse_vector S -> is_dense Mo -> not_sparse_vector O ->
  denotes S R C f -> denotes Mo R C g -> denotes O R C h -> mask_dims w k R C ->
  (h_ptr a <> h_ptr t /\ h_ptr m <> h_ptr t \/ is_dense O) ->
  R * C <= Z.of_nat (e_fuel E) -> e_ctx E = None ->
  exists w' O', hAdd E (Wrapped l ty a) m k t w = (w', Ok tt) /\ extends_but (h_ptr t) w w' /\ obj w' (h_ptr t) O' /\ same_storage O O' /\
    denotes O' R C (fun i j => if covers w k i j then h i j else kept O (nadd (f i j) (g i j))).
Proof.
  intros Hs Hr Hm H1 H2 H3 P1 P2 P3 D1 D2 D3 Hk Hal Hfu Hc.
  pose proof (values_bound w _ S R C f Hs Hr H1 P1 D1) as V1. pose proof (values_bound w _ Mo R C g Hs Hr H2 (dense_nsv _ P2) D2) as V2.
  destruct (add_handles E w (Wrapped l ty a) m t k S Mo O R C f g h Hs Hr I H1 H2 H3 P1 (dense_nsv _ P2) P3 D1 D2 D3 Hk Hal ltac:(lia) ltac:(lia) Hc)
    as (w' & O' & A1 & A2 & A3 & A4 & A5).
  exists w', O'. do 4 (split; [auto|]). eapply denotes_ext; [|exact A5]. intros i j _ _. cbn beta.
  rewrite h_sparse_wrapped by exact Hm. rewrite dense_stored by exact P2. reflexivity.
Qed.
Lemma equal_wrapped E w l ty l' ty' (a b : handle) S Mo R C f g :
  sane N -> cmp_ok N -> reachable w -> unregistered E ty -> obj w (h_ptr a) S -> obj w (h_ptr b) Mo ->
  is_sparse_matrix S -> is_sparse_matrix Mo -> denotes S R C f -> denotes Mo R C g ->
  R * C <= Z.of_nat (e_fuel E) -> e_ctx E = None ->
  (unregistered E ty' -> exists w' v, hEqual E (Some (Wrapped l ty a)) (Some (Wrapped l' ty' b)) w = (w', Ok v) /\ w_heap w' = w_heap w /\
     (v = true <-> forall i j, 0 <= i < R -> 0 <= j < C -> neqb (f i j) (g i j) = true)) /\
  (h_sparse (e_reg E) b Mo = true ->
   (exists w' v, hEqual E (Some (Wrapped l ty a)) (Some b) w = (w', Ok v) /\ w_heap w' = w_heap w /\
     (v = true <-> forall i j, 0 <= i < R -> 0 <= j < C -> neqb (g i j) n0 = false -> neqb (f i j) (g i j) = true)) /\
   (exists w' v, hEqual E (Some b) (Some (Wrapped l ty a)) w = (w', Ok v) /\ w_heap w' = w_heap w /\
     (v = true <-> forall i j, 0 <= i < R -> 0 <= j < C -> neqb (g i j) n0 = false -> neqb (f i j) (g i j) = true))).
Proof.
  intros Hs Hcmp Hr Hm H1 H2 P1 P2 D1 D2 Hfu Hc.
  pose proof (values_bound w _ S R C f Hs Hr H1 (sparse_plain _ P1) D1) as V1. pose proof (values_bound w _ Mo R C g Hs Hr H2 (sparse_plain _ P2) D2) as V2.
  assert (St : forall v, stored Mo v = true <-> neqb v n0 = false).
  { intros v. destruct Mo; try contradiction; cbn; destruct (neqb v n0); intuition discriminate. }
  split; [intros Hm'|intros Hb; assert (Bb : by_pointer b) by (destruct b; [exact I|exact I|discriminate Hb]); split].
  - destruct (equal_handles E w (Wrapped l ty a) (Wrapped l' ty' b) S Mo R C f g Hs Hcmp Hr I I H1 H2 (sparse_plain _ P1) (sparse_plain _ P2) D1 D2 ltac:(lia) ltac:(lia) Hc)
      as (w' & v & A1 & A2 & _ & _ & _ & A3). rewrite !h_sparse_wrapped in A3 by assumption. exists w', v. auto.
  - destruct (equal_handles E w (Wrapped l ty a) b S Mo R C f g Hs Hcmp Hr I Bb H1 H2 (sparse_plain _ P1) (sparse_plain _ P2) D1 D2 ltac:(lia) ltac:(lia) Hc)
      as (w' & v & A1 & A2 & _ & A3 & _ & _). rewrite !h_sparse_wrapped in A3 by assumption. exists w', v. split; [exact A1|]. split; [exact A2|].
    rewrite (A3 eq_refl Hb). split; intros H i j Hi Hj Hx; apply H; auto; apply St; exact Hx.
  - destruct (equal_handles E w b (Wrapped l ty a) Mo S R C g f Hs Hcmp Hr Bb I H2 H1 (sparse_plain _ P2) (sparse_plain _ P1) D2 D1 ltac:(lia) ltac:(lia) Hc)
      as (w' & v & A1 & A2 & A3 & _ & _ & _). rewrite !h_sparse_wrapped in A3 by assumption. exists w', v. split; [exact A1|]. split; [exact A2|].
    rewrite (A3 Hb eq_refl). pose proof Hcmp as [Hsy _]. split; intros H i j Hi Hj Hx; rewrite Hsy; apply H; auto; apply St; exact Hx.
Qed.

(** ** A wrapper used by value *)
Lemma load_world p w : fst (load (N := N) p w) = w.
Proof. unfold load. destruct (nth_error (w_heap w) p); reflexivity. Qed.
Lemma look_world {A} p (f : mat -> A) w : fst ((let! x := load p in mret (f x)) w) = w.
Proof. unfold mbind, load. destruct (nth_error (w_heap w) p); reflexivity. Qed.
(** [a] changes nothing and does not go on for ever *)
Definition quiet {A} (a : M A) w : Prop := fst (a w) = w /\ snd (a w) <> Diverge.
Lemma quiet_look {A} p (f : mat -> A) w : quiet (let! x := load p in mret (f x)) w.
Proof. unfold quiet, mbind, load. destruct (nth_error (w_heap w) p); split; try reflexivity; discriminate. Qed.
Lemma quiet_bind {A B} (a : M A) (f : A -> M B) w : quiet a w -> (forall x, quiet (f x) w) -> quiet (mbind a f) w.
Proof. intros [H1 H2] H. unfold quiet, mbind in *. destruct (a w) as [w1 [x| |]]; cbn [fst snd] in *; subst; [apply H|split; [reflexivity|discriminate]|contradiction]. Qed.
Lemma quiet_ret {A} (x : A) w : quiet (mret x) w.
Proof. split; [reflexivity|discriminate]. Qed.
Lemma quiet_panic {A} w : quiet (mpanic (A := A)) w.
Proof. split; [reflexivity|discriminate]. Qed.
Lemma quiet_mask_rows k w : quiet (mask_Rows (N := N) k) w.
Proof. destruct k; try apply quiet_ret; try apply quiet_look; apply quiet_panic. Qed.
Lemma quiet_mask_columns k w : quiet (mask_Columns (N := N) k) w.
Proof. destruct k; try apply quiet_ret; try apply quiet_look; apply quiet_panic. Qed.
Lemma quiet_check_mask k p w : quiet (check_mask (N := N) k p) w.
Proof.
  unfold check_mask. apply quiet_bind; [apply quiet_look|intros r]. apply quiet_bind; [apply quiet_look|intros c].
  apply quiet_bind; [apply quiet_mask_rows|intros]. destruct (negb _); [apply quiet_panic|].
  apply quiet_bind; [apply quiet_mask_columns|intros]. destruct (negb _); [apply quiet_panic|apply quiet_ret].
Qed.
Lemma quiet_check_sizes p q w : quiet (check_sizes (N := N) p q) w.
Proof.
  unfold check_sizes. apply quiet_bind; [apply quiet_look|intros]. apply quiet_bind; [apply quiet_look|intros]. destruct (negb _); [apply quiet_panic|].
  apply quiet_bind; [apply quiet_look|intros]. apply quiet_bind; [apply quiet_look|intros]. destruct (negb _); [apply quiet_panic|apply quiet_ret].
Qed.
Lemma panic_after {A B} (a : M A) (f : A -> M B) w : quiet a w -> (forall x, f x w = (w, Panic)) -> mbind a f w = (w, Panic).
Proof. intros [H1 H2] H. unfold mbind. destruct (a w) as [w1 [x| |]]; cbn [fst snd] in *; subst; [apply H|reflexivity|contradiction]. Qed.

Lemma by_value E w :
  (forall ty a m k t, hAdd E (ByValue ty a) m k t w = (w, Panic)) /\
  (forall ty a m k t, hElementWiseMatrixMultiply E (ByValue ty a) m k t w = (w, Panic)) /\
  (forall s m S Mo, ~ (by_pointer s /\ by_pointer m) -> obj w (h_ptr s) S -> obj w (h_ptr m) Mo ->
     hEqual E (Some s) (Some m) w =
       (w, if (mat_Columns S =? mat_Columns Mo) && (mat_Rows S =? mat_Rows Mo) then Panic else Ok false)).
Proof.
  split; [|split].
  - intros ty a m k t. unfold hAdd. apply panic_after; [apply quiet_check_sizes|intros _]. apply panic_after; [apply quiet_check_mask|intros k'].
    reflexivity.
  - intros ty a m k t. unfold hElementWiseMatrixMultiply. apply panic_after; [apply quiet_look|intros]. apply panic_after; [apply quiet_look|intros].
    destruct (negb _); [reflexivity|]. unfold hElementWiseMultiply. apply panic_after; [apply quiet_check_mask|intros k']. reflexivity.
  - intros s m S Mo Hn Hs Hm. unfold hEqual.
    rewrite (mbind_ok _ _ _ _ _ (p_Columns_ok _ _ _ Hs)), (mbind_ok _ _ _ _ _ (p_Columns_ok _ _ _ Hm)).
    destruct (mat_Columns S =? mat_Columns Mo); cbn [negb andb]; [|reflexivity].
    rewrite (mbind_ok _ _ _ _ _ (p_Rows_ok _ _ _ Hs)), (mbind_ok _ _ _ _ _ (p_Rows_ok _ _ _ Hm)).
    destruct (mat_Rows S =? mat_Rows Mo); cbn [negb]; [|reflexivity].
    destruct s as [p|l ty a|ty a]; [rewrite (mbind_ok _ _ _ _ _ (h_IsSparse_ok E (Plain p) _ _ I Hs))|
      rewrite (mbind_ok _ _ _ _ _ (h_IsSparse_ok E (Wrapped l ty a) _ _ I Hs))|reflexivity];
      (destruct m as [q|l' ty' b|ty' b]; [exfalso; apply Hn; split; exact I|exfalso; apply Hn; split; exact I|reflexivity]).
Qed.

Lemma methods_pass E w :
  (forall s m, hm_Add E s m w = m_Add E (h_ptr s) (h_ptr m) w) /\
  (forall s m, hm_Equal E s (Some (Plain m)) w = m_Equal E (h_ptr s) (Some m) w).
Proof.
  split; intros s m.
  - unfold hm_Add, m_Add. apply mbind_same; [reflexivity|intros t w1]. apply mbind_same; [|reflexivity].
    rewrite add_transparent; [reflexivity|]. split; [exact I|reflexivity].
  - unfold hm_Equal, m_Equal. rewrite equal_transparent; [reflexivity| |]; (split; [exact I|reflexivity]).
Qed.
End WrappedThms.
