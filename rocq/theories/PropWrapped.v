(** Property C77: a matrix type of the caller's that passes all methods on, given to the operators.

    [Plain p]: a pointer to the library's matrix [p]; [Wrapped l ty h]: a pointer to the wrapper [l], of the caller's
    type [ty], which holds [h]; [ByValue ty h]: such a wrapper by value.  [h_ptr h]: the matrix reached in the end.
    [by_pointer h]: [h] is not [ByValue].  [h_same a b]: [a == b]; [h_sparse reg h m]: what IsSparseMatrix answers for
    the pointer [h] when it reaches [m].  [told a b]: [a == b] says whether [a] and [b] reach the same matrix.
    [classed E h]: IsSparseMatrix answers for [h] as for the matrix inside.  [unregistered E ty]: the name [ty] is not in
    the registry.  [coherent a b]: one wrapper holds one matrix.  [hAdd], [hEqual], [hApply],
    [hElementWiseMatrixMultiply], [hElementWiseMatrixAdd]: the operators (Wrapped.v); [hm_Add], [hm_Equal]: the
    methods.  [reads]: a cell of the output after the call. *)
From Coq Require Import String.
From Verif Require Import GoBase Num SparseVec Csr Csc DenseVec DenseMat Mat World Ops Spec Api.
From Verif Require Import NumProofs OpsProps Witness StoreWitness OpsWitness Wrapped WrappedThms WrappedWitness.
Import ListNotations.

(** ** Where nothing can tell, the operators and methods are those of the matrices inside *)

Theorem C77_transparent : forall N E (w : world N),
  (forall s m k t, classed (N := N) E s -> told s t -> told m t ->
     hElementWiseMatrixMultiply E s m k t w = ElementWiseMatrixMultiply E (h_ptr s) (h_ptr m) k (h_ptr t) w) /\
  (forall s m k t, classed (N := N) E s -> hAdd E s m k t w = Add E (h_ptr s) (h_ptr m) k (h_ptr t) w) /\
  (forall s m k t, told s t -> told m t ->
     hElementWiseMatrixAdd E s m k t w = ElementWiseMatrixAdd E (h_ptr s) (h_ptr m) k (h_ptr t) w) /\
  (forall s k u t, told s t -> hApply E s k u t w = Apply E (h_ptr s) k u (h_ptr t) w) /\
  (forall s m, classed (N := N) E s -> classed (N := N) E m ->
     hEqual E (Some s) (Some m) w = Equal E (Some (h_ptr s)) (Some (h_ptr m)) w).
Proof. exact @transparent. Qed.
Print Assumptions C77_transparent.

Theorem C77_methods_pass_on : forall N E (w : world N),
  (forall s m, hm_Add E s m w = m_Add E (h_ptr s) (h_ptr m) w) /\
  (forall s m, hm_Equal E s (Some (Plain m)) w = m_Equal E (h_ptr s) (Some m) w).
Proof. exact @methods_pass. Qed.
Print Assumptions C77_methods_pass_on.

Theorem C77_told_apart : forall a b,
  h_ptr a <> h_ptr b -> coherent a b -> told a b.
Proof. exact @told_apart. Qed.
Print Assumptions C77_told_apart.

Example C77_transparent_case : reachable yw /\ obj yw 0 yo0 /\ obj yw 1 yo1 /\
  classed (N := num_goint) E0 (Wrapped 0 "Named" (Plain 0)) /\ told (Wrapped 0 "Named" (Plain 0)) (Plain 1) /\ told (Wrapped 1 "Named" (Wrapped 2 "Named" (Plain 1))) (Wrapped 1 "Named" (Wrapped 2 "Named" (Plain 1))) /\
  ~ told (Plain 0) (Wrapped 0 "Named" (Plain 0)) /\ told (ByValue "Named" (Plain 0)) (ByValue "Named" (Plain 0)) /\
  cells2 (hElementWiseMatrixMultiply E0 (Wrapped 0 "Named" (Plain 0)) (Wrapped 1 "Named" (Plain 1)) MNil (Wrapped 1 "Named" (Plain 1))) 1 yw = map (fun x => Ok (gi x)) [1; 0; 3; 0].
Proof. exact transparent_case. Qed.

(** ** A wrapper by value cannot be looked up *)

Theorem C77_by_value_panics : forall N E (w : world N),
  (forall ty a m k t, hAdd E (ByValue ty a) m k t w = (w, Panic)) /\
  (forall ty a m k t, hElementWiseMatrixMultiply E (ByValue ty a) m k t w = (w, Panic)) /\
  (forall s m S Mo, ~ (by_pointer s /\ by_pointer m) -> obj w (h_ptr s) S -> obj w (h_ptr m) Mo ->
     hEqual E (Some s) (Some m) w =
       (w, if (mat_Columns S =? mat_Columns Mo) && (mat_Rows S =? mat_Rows Mo) then Panic else Ok false)).
Proof. exact @by_value. Qed.
Print Assumptions C77_by_value_panics.

(** ** Equal *)

Theorem C77_equal : forall N E (w : world N) (s m : handle) S Mo R C f g,
  sane N -> cmp_ok N -> reachable w -> by_pointer s -> by_pointer m -> obj w (h_ptr s) S -> obj w (h_ptr m) Mo -> not_sparse_vector S -> not_sparse_vector Mo ->
  denotes S R C f -> denotes Mo R C g ->
  mat_Values S <= Z.of_nat (e_fuel E) -> mat_Values Mo <= Z.of_nat (e_fuel E) -> e_ctx E = None ->
  exists w' b, hEqual E (Some s) (Some m) w = (w', Ok b) /\ w_heap w' = w_heap w /\
    (h_sparse (e_reg E) s S = true -> h_sparse (e_reg E) m Mo = false ->
      (b = true <-> forall i j, 0 <= i < R -> 0 <= j < C -> stored S (f i j) = true -> neqb (f i j) (g i j) = true)) /\
    (h_sparse (e_reg E) s S = false -> h_sparse (e_reg E) m Mo = true ->
      (b = true <-> forall i j, 0 <= i < R -> 0 <= j < C -> stored Mo (g i j) = true -> neqb (f i j) (g i j) = true)) /\
    (h_sparse (e_reg E) s S = h_sparse (e_reg E) m Mo ->
      (b = true <-> mat_Values S = mat_Values Mo /\ forall i j, 0 <= i < R -> 0 <= j < C ->
        (if h_sparse (e_reg E) s S then stored S (f i j) else stored Mo (g i j)) = true -> neqb (f i j) (g i j) = true)) /\
    (h_sparse (e_reg E) s S = h_sparse (e_reg E) m Mo -> is_sparse_matrix S -> is_sparse_matrix Mo ->
      (b = true <-> forall i j, 0 <= i < R -> 0 <= j < C -> neqb (f i j) (g i j) = true)).
Proof. exact @equal_handles. Qed.
Print Assumptions C77_equal.

Theorem C77_equal_sparse : forall N E (w : world N) l ty l' ty' (a b : handle) S Mo R C f g,
  sane N -> cmp_ok N -> reachable w -> unregistered E ty -> obj w (h_ptr a) S -> obj w (h_ptr b) Mo ->
  is_sparse_matrix S -> is_sparse_matrix Mo -> denotes S R C f -> denotes Mo R C g ->
  R * C <= Z.of_nat (e_fuel E) -> e_ctx E = None ->
  (unregistered E ty' -> exists w' v, hEqual E (Some (Wrapped l ty a)) (Some (Wrapped l' ty' b)) w = (w', Ok v) /\ w_heap w' = w_heap w /\
     (v = true <-> forall i j, 0 <= i < R -> 0 <= j < C -> neqb (f i j) (g i j) = true)) /\
  (h_sparse (e_reg E) b Mo = true ->
   (exists w' v, hEqual E (Some (Wrapped l ty a)) (Some b) w = (w', Ok v) /\ w_heap w' = w_heap w /\
     (v = true <-> forall i j, 0 <= i < R -> 0 <= j < C -> neqb (g i j) n0 = false -> neqb (f i j) (g i j) = true)) /\
   (exists w' v, hEqual E (Some b) (Some (Wrapped l ty a)) w = (w', Ok v) /\ w_heap w' = w_heap w /\
     (v = true <-> forall i j, 0 <= i < R -> 0 <= j < C -> neqb (g i j) n0 = false -> neqb (f i j) (g i j) = true))).
Proof. exact @equal_wrapped. Qed.
Print Assumptions C77_equal_sparse.

Example C77_equal_case : reachable xw /\ unregistered E0 "Named" /\ obj xw 0 xo0 /\ obj xw 1 xo1 /\ obj xw 2 xo2 /\
  denotes xo0 2 2 (cell_of xA) /\ denotes xo1 2 2 (cell_of xB) /\ denotes xo2 2 2 (cell_of xA) /\
  map (fun q => snd (hEqual E0 (Some (fst q)) (Some (snd q)) xw))
    [(Plain 0, Plain 1); (Wrapped 0 "Named" (Plain 0), Plain 1); (Plain 1, Wrapped 0 "Named" (Plain 0)); (Wrapped 0 "Named" (Plain 0), Wrapped 1 "Named" (Plain 1));
     (Plain 1, Plain 0); (Wrapped 1 "Named" (Plain 1), Plain 0); (Plain 0, Plain 2); (Wrapped 0 "Named" (Plain 0), Plain 2)] =
    map Ok [false; true; true; false; false; false; true; false] /\
  snd (hm_Equal E0 (Wrapped 0 "Named" (Plain 0)) (Some (Plain 1)) xw) = Ok false /\
  snd (hEqual E0 (Some (ByValue "Named" (Plain 0))) (Some (Plain 1)) xw) = Panic.
Proof. exact equal_case. Qed.

Theorem C77_equal_refuted :
  ~ (forall N E (w : world N) (s m : handle) S Mo R C f g,
      sane N -> cmp_ok N -> reachable w -> by_pointer s -> by_pointer m -> obj w (h_ptr s) S -> obj w (h_ptr m) Mo ->
      is_sparse_matrix S -> is_sparse_matrix Mo -> denotes S R C f -> denotes Mo R C g ->
      mat_Values S <= Z.of_nat (e_fuel E) -> mat_Values Mo <= Z.of_nat (e_fuel E) -> e_ctx E = None ->
      exists w' b, hEqual E (Some s) (Some m) w = (w', Ok b) /\
        (b = true <-> forall i j, 0 <= i < R -> 0 <= j < C -> neqb (f i j) (g i j) = true)).
Proof. exact hequal_no. Qed.
Print Assumptions C77_equal_refuted.

(** ** Add: with a wrapped matrix on the left and a dense matrix on the right the sum is right *)

Theorem C77_add : forall N E (w : world N) (s m t : handle) k S Mo O R C f g h,
  sane N -> reachable w -> by_pointer s -> obj w (h_ptr s) S -> obj w (h_ptr m) Mo -> obj w (h_ptr t) O ->
  not_sparse_vector S -> not_sparse_vector Mo -> not_sparse_vector O ->
  denotes S R C f -> denotes Mo R C g -> denotes O R C h -> mask_dims w k R C ->
  (h_ptr s <> h_ptr t /\ h_ptr m <> h_ptr t \/ is_dense O) ->
  mat_Values S <= Z.of_nat (e_fuel E) -> mat_Values Mo <= Z.of_nat (e_fuel E) -> e_ctx E = None ->
  exists w' O', hAdd E s m k t w = (w', Ok tt) /\ extends_but (h_ptr t) w w' /\ obj w' (h_ptr t) O' /\ same_storage O O' /\
    denotes O' R C (fun i j =>
      if covers w k i j then h i j
      else if h_sparse (e_reg E) s S
      then if stored S (f i j) then kept O (nadd (g i j) (f i j)) else h i j
      else if stored Mo (g i j) then kept O (nadd (f i j) (g i j)) else h i j).
Proof. exact @add_handles. Qed.
Print Assumptions C77_add.

Theorem C77_add_wrapped : forall N E (w : world N) l ty (a m t : handle) k S Mo O R C f g h,
  sane N -> reachable w -> unregistered E ty -> obj w (h_ptr a) S -> obj w (h_ptr m) Mo -> obj w (h_ptr t) O ->
  not_sparse_vector S -> is_dense Mo -> not_sparse_vector O ->
  denotes S R C f -> denotes Mo R C g -> denotes O R C h -> mask_dims w k R C ->
  (h_ptr a <> h_ptr t /\ h_ptr m <> h_ptr t \/ is_dense O) ->
  R * C <= Z.of_nat (e_fuel E) -> e_ctx E = None ->
  exists w' O', hAdd E (Wrapped l ty a) m k t w = (w', Ok tt) /\ extends_but (h_ptr t) w w' /\ obj w' (h_ptr t) O' /\ same_storage O O' /\
    denotes O' R C (fun i j => if covers w k i j then h i j else kept O (nadd (f i j) (g i j))).
Proof. exact @add_wrapped. Qed.
Print Assumptions C77_add_wrapped.

Example C77_add_case : reachable xw /\ obj xw 1 xo1 /\ obj xw 2 xo2 /\ obj xw 3 xo3 /\
  denotes xo1 2 2 (cell_of xB) /\ denotes xo2 2 2 (cell_of xA) /\ denotes xo3 2 2 (fun _ _ => fl 0) /\
  cells2 (hAdd E0 (Plain 1) (Plain 2) MNil (Plain 3)) 3 xw = map Ok [fl 2; fl 0; fl 0; fl 6] /\
  cells2 (hAdd E0 (Wrapped 0 "Named" (Plain 1)) (Plain 2) MNil (Plain 3)) 3 xw = map Ok [fl 2; fl 2; fl 0; fl 6].
Proof. exact add_case. Qed.

Theorem C77_add_refuted :
  ~ (forall N E (w : world N) (s m t : handle) r c, reachable w -> reads (hAdd E s m MNil t) (h_ptr t) r c w =
      reads (Add E (h_ptr s) (h_ptr m) MNil (h_ptr t)) (h_ptr t) r c w).
Proof. exact hadd_no. Qed.
Print Assumptions C77_add_refuted.

(** ** An output that reaches an operand *)

Theorem C77_element_wise_add : forall N E (w : world N) (s m t : handle) k S Mo O R f g h,
  sane N -> reachable w -> obj w (h_ptr s) S -> obj w (h_ptr m) Mo -> obj w (h_ptr t) O ->
  not_sparse_vector S -> not_sparse_vector Mo -> is_dense O -> denotes S R R f -> denotes Mo R R g -> denotes O R R h ->
  mask_dims w k R R -> mask_not k (h_ptr t) ->
  (h_same s t = true -> h_ptr s = h_ptr t) -> (h_same m t = true -> h_ptr m = h_ptr t) ->
  R * R <= Z.of_nat (e_fuel E) -> e_ctx E = None ->
  exists w' O', hElementWiseMatrixAdd E s m k t w = (w', Ok tt) /\ extends_but (h_ptr t) w w' /\ obj w' (h_ptr t) O' /\
    same_storage O O' /\
    denotes O' R R (fun i j =>
      if covers w k i j then h i j
      else if negb (neqb (g i j) n0) && negb (Nat.eqb (h_ptr m) (h_ptr t)) then g i j
      else if negb (neqb (f i j) n0) && negb (Nat.eqb (h_ptr s) (h_ptr t)) then f i j
      else h i j).
Proof. exact @ewa_handles. Qed.
Print Assumptions C77_element_wise_add.

Theorem C77_element_wise_multiply_does_nothing : forall N E (w : world N) (s m t : handle) k S Mo O R f g h,
  sane N -> eq_ok N -> reachable w -> by_pointer s -> obj w (h_ptr s) S -> obj w (h_ptr m) Mo -> obj w (h_ptr t) O ->
  is_dense S -> is_dense Mo -> is_dense O -> denotes S R R f -> denotes Mo R R g -> denotes O R R h ->
  mask_dims w k R R -> mask_not k (h_ptr t) ->
  h_same s t = false -> h_same m t = false -> h_ptr s = h_ptr t \/ h_ptr m = h_ptr t -> h_sparse (e_reg E) s S = false ->
  R * R <= Z.of_nat (e_fuel E) -> e_ctx E = None ->
  exists w' O', hElementWiseMatrixMultiply E s m k t w = (w', Ok tt) /\ extends_but (h_ptr t) w w' /\ obj w' (h_ptr t) O' /\
    same_storage O O' /\ denotes O' R R h.
Proof. exact @ewm_untold. Qed.
Print Assumptions C77_element_wise_multiply_does_nothing.

Theorem C77_apply_mirrors : forall N E (w : world N) (s t : handle) k u S R f,
  sane N -> reachable w -> obj w (h_ptr s) S -> is_dense S -> denotes S R R f -> mask_dims w k R R -> mask_not k (h_ptr s) ->
  h_same s t = false -> h_ptr s = h_ptr t -> e_ctx E = None -> R * R <= Z.of_nat (e_fuel E) ->
  exists w' S', hApply E s k u t w = (w', Ok tt) /\ extends_but (h_ptr s) w w' /\ obj w' (h_ptr s) S' /\ same_storage S S' /\
    denotes S' R R (applied_back w k u f).
Proof. exact @apply_untold. Qed.
Print Assumptions C77_apply_mirrors.

Example C77_output_case : reachable yw /\ obj yw 0 yo0 /\ obj yw 1 yo1 /\ denotes yo0 2 2 (cell_of yA) /\ denotes yo1 2 2 (cell_of yB) /\
  h_same (Plain 0) (Wrapped 0 "Named" (Plain 0)) = false /\ h_same (Wrapped 1 "Named" (Plain 0)) (Wrapped 0 "Named" (Plain 0)) = false /\
  cells2 (hElementWiseMatrixMultiply E0 (Plain 0) (Plain 1) MNil (Plain 0)) 0 yw = map (fun x => Ok (gi x)) [1; 0; 3; 0] /\
  cells2 (hElementWiseMatrixMultiply E0 (Plain 0) (Plain 1) MNil (Wrapped 0 "Named" (Plain 0))) 0 yw = map (fun x => Ok (gi x)) [1; 2; 3; 4] /\
  cells2 (hElementWiseMatrixAdd E0 (Plain 0) (Plain 1) MNil (Plain 0)) 0 yw = map (fun x => Ok (gi x)) [1; 5; 3; 4] /\
  cells2 (hElementWiseMatrixAdd E0 (Plain 0) (Plain 1) MNil (Wrapped 0 "Named" (Plain 0))) 0 yw = map (fun x => Ok (gi x)) [1; 5; 3; 4] /\
  cells2 (hApply E0 (Plain 0) MNil (fun x => nadd x (gi 10)) (Plain 0)) 0 yw = map (fun x => Ok (gi x)) [1; 2; 3; 4] /\
  cells2 (hApply E0 (Plain 0) MNil (fun x => nadd x (gi 10)) (Wrapped 0 "Named" (Plain 0))) 0 yw = map (fun x => Ok (gi x)) [11; 22; 12; 14].
Proof. exact output_case. Qed.

Theorem C77_element_wise_multiply_refuted :
  ~ (forall N E (w : world N) (s m t : handle) r c, reachable w -> reads (hElementWiseMatrixMultiply E s m MNil t) (h_ptr t) r c w =
      reads (ElementWiseMatrixMultiply E (h_ptr s) (h_ptr m) MNil (h_ptr t)) (h_ptr t) r c w).
Proof. exact hewm_no. Qed.
Print Assumptions C77_element_wise_multiply_refuted.

Theorem C77_apply_refuted :
  ~ (forall N E (w : world N) (s t : handle) u r c, reachable w -> reads (hApply E s MNil u t) (h_ptr t) r c w =
      reads (Apply E (h_ptr s) MNil u (h_ptr t)) (h_ptr t) r c w).
Proof. exact happly_no. Qed.
Print Assumptions C77_apply_refuted.
