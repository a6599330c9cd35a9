(** Framing: a call changes no object besides the one it is meant to write. *)
From Coq Require Import String.
From Verif Require Import GoBase Num SparseVec Csr Csc DenseVec DenseMat Mat World Ops.
From Verif Require Import BaseProofs AssocProofs CsrProofs SvProofs CsrIterProofs CscProofs DenseProofs MatProofs.
From Verif Require Import Spec HeapProofs Api ReachProofs.

Section Frame.
Context {N : num}.
Notation V := (T N).
Notation mat := (mat N).
Notation world := (world N).
Notation M := (M N).
Implicit Types w : world.
Implicit Types m : mat.

(** [x] leaves the (well-formed) object [q] alone *)
Definition frame {A} (q : ptr) (x : M A) : Prop :=
  forall w m, wf m -> obj w q m -> obj (fst (x w)) q m.

Lemma fr_ret {A} q (a : A) : frame q (mret a). Proof. intros w m _ H; exact H. Qed.
Lemma fr_panic {A} q : frame q (mpanic (A:=A)). Proof. intros w m _ H; exact H. Qed.
Lemma fr_diverge {A} q : frame q (mdiverge (A:=A)). Proof. intros w m _ H; exact H. Qed.
Lemma fr_lift {A} q (x : res A) : frame q (mlift x). Proof. intros w m _ H; exact H. Qed.
Lemma fr_bind {A B} q (x : M A) (k : A -> M B) : frame q x -> (forall a, frame q (k a)) -> frame q (mbind x k).
Proof.
  intros Hx Hk w m Hw H. unfold mbind. specialize (Hx w m Hw H). destruct (x w) as [w' [a| |]]; cbn [fst] in *; auto.
  apply Hk; auto.
Qed.
Lemma fr_if {A} q (b : bool) (x y : M A) : frame q x -> frame q y -> frame q (if b then x else y).
Proof. destruct b; auto. Qed.
Lemma fr_load q p : frame q (load (N:=N) p).
Proof. intros w m _ H. unfold load. destruct (nth_error _ p); exact H. Qed.
Lemma fr_poll q E : frame q (poll (N:=N) E).
Proof. intros w m _ H. unfold poll. destruct (e_ctx E); exact H. Qed.
Lemma fr_store q p m : p <> q -> frame q (store p m).
Proof. intros Hn w m' _ H. cbn [store fst]. apply (obj_upd_neq w p q m m'); auto. Qed.
Lemma fr_alloc q m : frame q (alloc m).
Proof. intros w m' _ H. apply (obj_ext_old w m q m' H). Qed.

Create HintDb fr.
Hint Resolve fr_ret fr_panic fr_diverge fr_lift fr_load fr_poll fr_store fr_alloc fr_if : fr.
Ltac fr := repeat first
  [ progress auto with fr
  | match goal with
    | |- frame _ (mbind _ _) => apply fr_bind; [|intros]
    | |- frame _ (if _ then _ else _) => apply fr_if
    | |- frame _ (match ?x with _ => _ end) => destruct x
    | |- frame _ (let '_ := ?x in _) => destruct x
    end ].

(** reading at the object itself does not change it *)
Lemma fr_At q p r c : zero_ok N -> frame q (p_At (N:=N) p r c).
Proof.
  intros Hz. destruct (Nat.eq_dec p q) as [->|Hn].
  - intros w m Hw H. unfold p_At. rewrite (mbind_ok _ _ _ _ _ (load_ok _ _ _ H)).
    destruct (mat_At m r c) as [[v m']| |] eqn:E; [|exact H|exact H].
    rewrite mbind_lift. rewrite (At_same _ _ _ _ _ Hz Hw E).
    rewrite (mbind_ok _ _ _ _ _ (store_ok _ _ _)). rewrite upd_same by auto. exact H.
  - unfold p_At. fr.
Qed.
Lemma fr_Element q k r c : zero_ok N -> frame q (mask_Element (N:=N) k r c).
Proof.
  intros Hz. destruct k as [|a b|p|a b f]; cbn [mask_Element]; auto with fr.
  destruct (Nat.eq_dec p q) as [->|Hn].
  - intros w m Hw H. rewrite (mbind_ok _ _ _ _ _ (load_ok _ _ _ H)).
    destruct (mat_Element m r c) as [[v m']| |] eqn:E; [|exact H|exact H].
    rewrite mbind_lift. rewrite (Element_same _ _ _ _ _ Hz Hw E).
    rewrite (mbind_ok _ _ _ _ _ (store_ok _ _ _)). rewrite upd_same by auto. exact H.
  - fr.
Qed.
Hint Resolve fr_At fr_Element : fr.

Lemma fr_Set q p r c v : p <> q -> frame q (p_Set (N:=N) p r c v).
Proof. intros. unfold p_Set. fr. Qed.
Lemma fr_Update q p r c f : p <> q -> frame q (p_Update (N:=N) p r c f).
Proof. intros. unfold p_Update. fr. Qed.
Lemma fr_SetVec q p i v : p <> q -> frame q (p_SetVec (N:=N) p i v).
Proof. intros. unfold p_SetVec. fr. Qed.
Lemma fr_Clear q p : p <> q -> frame q (p_Clear (N:=N) p).
Proof. intros. unfold p_Clear. fr. Qed.
Lemma fr_Copy q p : frame q (p_Copy (N:=N) p). Proof. unfold p_Copy. fr. Qed.
Lemma fr_RowsAt q p r : frame q (p_RowsAt (N:=N) p r). Proof. unfold p_RowsAt. fr. Qed.
Lemma fr_ColumnsAt q p r : frame q (p_ColumnsAt (N:=N) p r). Proof. unfold p_ColumnsAt. fr. Qed.
Lemma fr_Rows q p : frame q (p_Rows (N:=N) p). Proof. unfold p_Rows. fr. Qed.
Lemma fr_Columns q p : frame q (p_Columns (N:=N) p). Proof. unfold p_Columns. fr. Qed.
Lemma fr_Values q p : frame q (p_Values (N:=N) p). Proof. unfold p_Values. fr. Qed.
Lemma fr_IsSparse q E p : frame q (p_IsSparse (N:=N) E p). Proof. unfold p_IsSparse. fr. Qed.
Lemma fr_ReSize q p n : p <> q -> frame q (p_ReSize (N:=N) p n).
Proof. intros. unfold p_ReSize. fr. Qed.
Hint Resolve fr_Set fr_Update fr_SetVec fr_Clear fr_Copy fr_RowsAt fr_ColumnsAt fr_Rows fr_Columns fr_Values fr_IsSparse fr_ReSize : fr.
Lemma fr_mask_Rows q k : frame q (mask_Rows (N:=N) k). Proof. destruct k; cbn [mask_Rows]; fr. Qed.
Lemma fr_mask_Columns q k : frame q (mask_Columns (N:=N) k). Proof. destruct k; cbn [mask_Columns]; fr. Qed.
Hint Resolve fr_mask_Rows fr_mask_Columns : fr.
Lemma fr_check_mask q k t : frame q (check_mask (N:=N) k t).
Proof. unfold check_mask. apply fr_bind; [fr|intros r]. apply fr_bind; [fr|intros c]. cbv zeta. fr. Qed.
Hint Resolve fr_check_mask : fr.

Lemma fr_for_list {R I} q (l : list I) (body : I -> M (option R)) : (forall i, frame q (body i)) -> frame q (for_list l body).
Proof. intros H. induction l as [|i l IH]; cbn [for_list]; fr. Qed.
Lemma fr_enum_loop {R} q E p (x : R) body : (forall r c v, frame q (body r c v)) ->
  forall fuel it, frame q (enum_loop E fuel p it x body).
Proof.
  intros H. induction fuel as [|fuel IH]; intros it; cbn [enum_loop]; destruct (mat_HasNext it); fr.
Qed.
Lemma fr_enumerate {R} q E p (x : R) body : (forall r c v, frame q (body r c v)) -> frame q (enumerate E p x body).
Proof. intros H. unfold enumerate. fr; (apply fr_enum_loop; auto). Qed.
Lemma fr_map_step q p it f : p <> q -> (forall r c v, frame q (f r c v)) -> frame q (map_step (N:=N) p it f).
Proof. intros Hn H. unfold map_step. fr. Qed.
Lemma fr_map_loop q E stop p f : p <> q -> (forall r c v, frame q (f r c v)) ->
  forall fuel it, frame q (map_loop (N:=N) E stop fuel p it f).
Proof.
  intros Hn H. induction fuel as [|fuel IH]; intros it; cbn [map_loop]; destruct (mat_HasNext it); fr.
  all: apply fr_map_step; auto.
Qed.
Lemma fr_map_over q E stop p f : p <> q -> (forall r c v, frame q (f r c v)) -> frame q (map_over (N:=N) E stop p f).
Proof. intros Hn H. unfold map_over. fr; (apply fr_map_loop; auto). Qed.
Hint Resolve fr_for_list fr_enumerate fr_map_over : fr.

Lemma fr_dot q E a b ls : forall s, frame q (dot_loop (N:=N) E a b ls s).
Proof. induction ls as [|l ls IH]; intros s; cbn [dot_loop]; fr. Qed.
Hint Resolve fr_dot : fr.

Lemma fr_multiply q E (s m : ptr) k (t : ptr) : zero_ok N -> t <> q -> frame q (multiply (N:=N) E s m k t).
Proof.
  intros Hz Hn. unfold multiply. fr; (apply fr_for_list; intros r; fr). apply fr_for_list. intros c. fr.
Qed.
Lemma fr_ewm q E (s m : ptr) k (t : ptr) : zero_ok N -> t <> q -> frame q (elementWiseMultiply (N:=N) E s m k t).
Proof.
  intros Hz Hn. unfold elementWiseMultiply. apply fr_bind; [fr|intros k']. cbv zeta.
  apply fr_bind; [fr|intros sp]. apply fr_bind; [|fr].
  destruct (Nat.eqb m t) eqn:E1; [apply Nat.eqb_eq in E1; subst|].
  { apply fr_enumerate. intros. fr. }
  destruct (Nat.eqb s t) eqn:E2; [apply Nat.eqb_eq in E2; subst|].
  { apply fr_enumerate. intros. fr. }
  destruct sp; apply fr_enumerate; intros; fr.
Qed.
Lemma fr_check_sizes q (s m : ptr) : frame q (check_sizes (N:=N) s m).
Proof. unfold check_sizes. fr. Qed.
Hint Resolve fr_check_sizes : fr.
Lemma fr_Add q E (s m : ptr) k (t : ptr) : zero_ok N -> t <> q -> frame q (Add (N:=N) E s m k t).
Proof.
  intros Hz Hn. unfold Add. do 3 (apply fr_bind; [fr|intros]).
  match goal with |- frame _ (let '(_, _) := (if ?b then _ else _) in _) => destruct b end.
  all: apply fr_bind; [|fr]; apply fr_enumerate; intros; fr.
Qed.
Lemma fr_ewa q E (s m : ptr) k (t : ptr) : zero_ok N -> t <> q -> frame q (elementWiseAdd (N:=N) E s m k t).
Proof.
  intros Hz Hn.
  assert (H : forall src k, frame q (ewa_loop (N:=N) E src k t)).
  { intros. unfold ewa_loop. apply fr_enumerate. intros. fr. }
  unfold elementWiseAdd. fr.
Qed.
Lemma fr_Subtract q E (s m : ptr) k (t : ptr) : zero_ok N -> t <> q -> frame q (Subtract (N:=N) E s m k t).
Proof. intros Hz Hn. unfold Subtract. fr; (apply fr_enumerate; intros; fr). Qed.
Lemma fr_Transpose q E (s : ptr) k (t : ptr) : zero_ok N -> t <> q -> frame q (Transpose (N:=N) E s k t).
Proof. intros Hz Hn. unfold Transpose. fr; (apply fr_enumerate; intros; fr). Qed.
Lemma fr_Apply q E (s : ptr) k u (t : ptr) : zero_ok N -> t <> q -> frame q (Apply (N:=N) E s k u t).
Proof.
  intros Hz Hn. unfold Apply. apply fr_bind; [fr|intros k'].
  destruct (Nat.eqb s t) eqn:E1; [apply Nat.eqb_eq in E1; subst|].
  - apply fr_map_over; auto. intros. fr.
  - apply fr_bind; [|fr]. apply fr_enumerate. intros. fr.
Qed.
Lemma fr_Negative q E (s : ptr) k (t : ptr) : zero_ok N -> t <> q -> frame q (Negative (N:=N) E s k t).
Proof. intros Hz Hn. unfold Negative. fr; (apply fr_map_over; auto; intros; fr). Qed.
Lemma fr_Equal q E (s m : option ptr) : zero_ok N -> frame q (Equal (N:=N) E s m).
Proof.
  intros Hz. unfold Equal. destruct s as [s|], m as [m|]; fr.
  all: apply fr_enumerate; intros; fr.
Qed.
Lemma fr_reduce_loop q E p k op : zero_ok N -> forall fuel it acc, frame q (reduce_loop (N:=N) E fuel p it k op acc).
Proof.
  intros Hz. induction fuel as [|fuel IH]; intros it acc; cbn [reduce_loop]; destruct (mat_HasNext it); fr.
Qed.
Lemma fr_Reduce q E s mo k : zero_ok N -> frame q (ReduceMatrixToScalarWithMonoID (N:=N) E s mo k).
Proof. intros Hz. unfold ReduceMatrixToScalarWithMonoID. fr; (apply fr_reduce_loop; auto). Qed.
Hint Resolve fr_multiply fr_ewm fr_Add fr_ewa fr_Subtract fr_Transpose fr_Apply fr_Negative fr_Equal fr_Reduce : fr.

(** code working on an object allocated on the way *)
Lemma fr_alloc_then {B} q m (k : ptr -> M B) :
  (forall p, p <> q -> frame q (k p)) -> frame q (mbind (alloc m) k).
Proof.
  intros Hk w m' Hw H. rewrite (mbind_ok _ _ _ _ _ (alloc_ok m w)).
  apply Hk; auto.
  - pose proof (obj_lt _ _ _ H). lia.
  - apply obj_ext_old; auto.
Qed.
Lemma fr_copy_then {B} q p (k : ptr -> M B) :
  (forall p, p <> q -> frame q (k p)) -> frame q (mbind (p_Copy p) k).
Proof.
  intros Hk w m' Hw H. unfold p_Copy. unfold mbind at 2.
  destruct (load_cases p w) as [(m & Hm & Hl)|Hl]; unfold mbind at 1.
  - rewrite Hl. unfold mbind at 1, mlift. destruct (mat_Copy m) as [m''| |]; [|exact H|exact H].
    rewrite alloc_ok. apply Hk; auto.
    + pose proof (obj_lt _ _ _ H). lia.
    + apply obj_ext_old; auto.
  - rewrite Hl. exact H.
Qed.

Ltac fr2 := repeat first
  [ progress auto with fr
  | match goal with
    | |- frame _ (mbind (alloc _) _) => apply fr_alloc_then; intros
    | |- frame _ (mbind (p_Copy _) _) => apply fr_copy_then; intros
    | |- frame _ (mbind _ _) => apply fr_bind; [|intros]
    | |- frame _ (if _ then _ else _) => apply fr_if
    | |- frame _ (for_list _ _) => apply fr_for_list; intros
    | |- frame _ (match ?x with _ => _ end) => destruct x
    end ].

Lemma fr_ReduceVec q E s mo k : zero_ok N -> frame q (ReduceMatrixToVectorWithMonoID (N:=N) E s mo k).
Proof. intros. unfold ReduceMatrixToVectorWithMonoID. fr2. Qed.
Lemma fr_Scalar q E s a : frame q (Scalar (N:=N) E s a).
Proof. intros. unfold Scalar. fr2. Qed.
Lemma fr_TransposeToCSR q E s : zero_ok N -> frame q (TransposeToCSR (N:=N) E s).
Proof. intros. unfold TransposeToCSR. fr2. Qed.
Lemma fr_TransposeToCSC q E s : zero_ok N -> frame q (TransposeToCSC (N:=N) E s).
Proof. intros. unfold TransposeToCSC. fr2. Qed.
Lemma fr_mMultiply q E (s m : ptr) : zero_ok N -> frame q (m_Multiply (N:=N) E s m).
Proof. intros. unfold m_Multiply. fr2. Qed.
Lemma fr_mAdd q E (s m : ptr) : zero_ok N -> frame q (m_Add (N:=N) E s m).
Proof. intros. unfold m_Add. fr2. Qed.
Lemma fr_mSubtract q E (s m : ptr) : zero_ok N -> frame q (m_Subtract (N:=N) E s m).
Proof. intros. unfold m_Subtract. apply fr_bind; [fr|intros so]. destruct so; fr2. Qed.
Lemma fr_mNegative q E (s : ptr) : zero_ok N -> frame q (m_Negative (N:=N) E s).
Proof. intros. unfold m_Negative. fr2. Qed.
Lemma fr_mTranspose q E (s : ptr) : zero_ok N -> frame q (m_Transpose (N:=N) E s).
Proof. intros. unfold m_Transpose. fr2. Qed.

Lemma fr_drop {A} q (x : M A) : frame q x -> frame q (drop x).
Proof. intros H. unfold drop. fr. Qed.
Lemma fr_new q (x : res mat) : frame q (new x). Proof. unfold new. fr. Qed.
Hint Resolve fr_ReduceVec fr_Scalar fr_TransposeToCSR fr_TransposeToCSC fr_mMultiply fr_mAdd fr_mSubtract fr_mNegative
  fr_mTranspose fr_drop fr_new : fr.

Theorem frame_call q (k : call N) : zero_ok N -> ~ In q (writes k) -> frame q (perform k).
Proof.
  intros Hz Hn. destruct k; cbn [writes In] in Hn; cbn [perform];
    try (assert (p <> q) by tauto); try (assert (t <> q) by tauto);
    unfold MatrixMatrixMultiply, VectorMatrixMultiply, ElementWiseMatrixMultiply, ElementWiseVectorMultiply,
      ElementWiseMatrixAdd, ElementWiseVectorAdd, NotEqual, user_Map; fr.
  all: try (apply fr_drop; fr; fail).
  all: try (apply fr_map_over; auto; intros; fr).
Qed.

Lemma frame_calls q (ks : list (call N)) w m : zero_ok N -> (forall k, In k ks -> ~ In q (writes k)) ->
  wf m -> obj w q m -> obj (after_all ks w) q m.
Proof.
  intros Hz. revert w. induction ks as [|k ks IH]; intros w Hk Hw H; cbn [after_all]; auto.
  apply IH; auto; [intros; apply Hk; right; auto|].
  apply frame_call; auto. apply Hk. left. reflexivity.
Qed.

End Frame.
