(** Expressions of dense matrices and the laws of matrix algebra: C66.

    [expr]: an expression built from Multiply, Add, Subtract, Negative, Transpose,
    Scalar and Copy; [eval E e]: the method calls, left operand first.  [means w B e
    R C f]: the matrix the expression stands for ([R] rows, [C] columns, cells [f]),
    no matrix in it having more than [B] cells.  [agree E w e1 e2]: running both
    returns, changes no object, and Equal answers true for the two results.
    [setting E w B]: the element type is a ring (all Go integer types, [C66_integer_types]),
    dense matrices are not registered as sparse, [B] cells can be counted in an int. *)
From Coq Require Import String.
From Verif Require Import GoBase Num SparseVec Csr Csc DenseVec DenseMat Mat World Ops Spec Api MathOps.
From Verif Require Import OpsProps Witness StoreWitness OpsWitness NumProofs Steps StrassenProofs MathThms Laws.
Import ListNotations.

Theorem C66_expressions : forall N E (w : world N) B e R C f,
  sane N -> dense_unregistered N E -> reachable w -> means w B e R C f ->
  B < 2 ^ 63 -> B <= Z.of_nat (e_fuel E) ->
  exists w' t, eval E e w = (w', Ok t) /\ reachable w' /\ extends w w' /\ dm w' t R C f.
Proof. exact @eval_ok. Qed.
Print Assumptions C66_expressions.

Theorem C66_same_meaning : forall N E (w : world N) B e1 e2 R C f g,
  sane N -> cmp_ok N -> dense_unregistered N E -> reachable w ->
  B < 2 ^ 63 -> B <= Z.of_nat (e_fuel E) ->
  means w B e1 R C f -> means w B e2 R C g ->
  (forall i j, 0 <= i < R -> 0 <= j < C -> neqb (f i j) (g i j) = true) -> agree E w e1 e2.
Proof. exact @agree_ok. Qed.
Print Assumptions C66_same_meaning.

Theorem C66_integer_types : forall N E (w : world N) B,
  In N go_ints -> e_reg E = reg0 -> reachable w -> B < 2 ^ 63 -> B <= Z.of_nat (e_fuel E) -> setting E w B.
Proof. exact @ints_setting. Qed.
Print Assumptions C66_integer_types.

Theorem C66_multiply_associative : forall N E (w : world N) B a b c R K L C f g h,
  setting E w B -> means w B a R K f -> means w B b K L g -> means w B c L C h ->
  R * L <= B -> K * C <= B -> R * C <= B -> agree E w (EMul (EMul a b) c) (EMul a (EMul b c)).
Proof. exact @law_assoc. Qed.
Print Assumptions C66_multiply_associative.

Theorem C66_multiply_over_add_left : forall N E (w : world N) B a b c R K C f g h,
  setting E w B -> means w B a R K f -> means w B b K C g -> means w B c K C h ->
  R * C <= B -> agree E w (EMul a (EAdd b c)) (EAdd (EMul a b) (EMul a c)).
Proof. exact @law_distr_l. Qed.
Print Assumptions C66_multiply_over_add_left.

Theorem C66_multiply_over_add_right : forall N E (w : world N) B a b c R K C f g h,
  setting E w B -> means w B a R K f -> means w B b R K g -> means w B c K C h ->
  R * C <= B -> agree E w (EMul (EAdd a b) c) (EAdd (EMul a c) (EMul b c)).
Proof. exact @law_distr_r. Qed.
Print Assumptions C66_multiply_over_add_right.

Theorem C66_multiply_over_subtract : forall N E (w : world N) B a b c R K C f g h,
  setting E w B -> means w B a R K f -> means w B b K C g -> means w B c K C h ->
  R * C <= B -> agree E w (EMul a (ESub b c)) (ESub (EMul a b) (EMul a c)).
Proof. exact @law_distr_sub. Qed.
Print Assumptions C66_multiply_over_subtract.

Theorem C66_transpose_of_product : forall N E (w : world N) B a b R K C f g,
  setting E w B -> means w B a R K f -> means w B b K C g ->
  R * C <= B -> agree E w (ETr (EMul a b)) (EMul (ETr b) (ETr a)).
Proof. exact @law_tr_mul. Qed.
Print Assumptions C66_transpose_of_product.

Theorem C66_scalar_of_product_left : forall N E (w : world N) B k a b R K C f g,
  setting E w B -> means w B a R K f -> means w B b K C g ->
  R * C <= B -> agree E w (EScale k (EMul a b)) (EMul (EScale k a) b).
Proof. exact @law_scale_mul. Qed.
Print Assumptions C66_scalar_of_product_left.

Theorem C66_scalar_of_product_right : forall N E (w : world N) B k a b R K C f g,
  setting E w B -> means w B a R K f -> means w B b K C g ->
  R * C <= B -> agree E w (EScale k (EMul a b)) (EMul a (EScale k b)).
Proof. exact @law_mul_scale. Qed.
Print Assumptions C66_scalar_of_product_right.

Theorem C66_negative_of_product : forall N E (w : world N) B a b R K C f g,
  setting E w B -> means w B a R K f -> means w B b K C g ->
  R * C <= B -> agree E w (ENeg (EMul a b)) (EMul (ENeg a) b).
Proof. exact @law_neg_mul. Qed.
Print Assumptions C66_negative_of_product.

Theorem C66_transpose_twice : forall N E (w : world N) B a R C f,
  setting E w B -> means w B a R C f -> agree E w (ETr (ETr a)) a.
Proof. exact @law_tr_tr. Qed.
Print Assumptions C66_transpose_twice.

Theorem C66_transpose_of_sum : forall N E (w : world N) B a b R C f g,
  setting E w B -> means w B a R C f -> means w B b R C g -> agree E w (ETr (EAdd a b)) (EAdd (ETr a) (ETr b)).
Proof. exact @law_tr_add. Qed.
Print Assumptions C66_transpose_of_sum.

Theorem C66_add_commutative : forall N E (w : world N) B a b R C f g,
  setting E w B -> means w B a R C f -> means w B b R C g -> agree E w (EAdd a b) (EAdd b a).
Proof. exact @law_add_comm. Qed.
Print Assumptions C66_add_commutative.

Theorem C66_add_associative : forall N E (w : world N) B a b c R C f g h,
  setting E w B -> means w B a R C f -> means w B b R C g -> means w B c R C h ->
  agree E w (EAdd (EAdd a b) c) (EAdd a (EAdd b c)).
Proof. exact @law_add_assoc. Qed.
Print Assumptions C66_add_associative.

Theorem C66_subtract_adds_negative : forall N E (w : world N) B a b R C f g,
  setting E w B -> means w B a R C f -> means w B b R C g -> agree E w (ESub a b) (EAdd a (ENeg b)).
Proof. exact @law_sub_neg. Qed.
Print Assumptions C66_subtract_adds_negative.

Theorem C66_subtract_then_add : forall N E (w : world N) B a b R C f g,
  setting E w B -> means w B a R C f -> means w B b R C g -> agree E w (EAdd (ESub a b) b) a.
Proof. exact @law_sub_add. Qed.
Print Assumptions C66_subtract_then_add.

Theorem C66_negative_twice : forall N E (w : world N) B a R C f,
  setting E w B -> means w B a R C f -> agree E w (ENeg (ENeg a)) a.
Proof. exact @law_neg_neg. Qed.
Print Assumptions C66_negative_twice.

Theorem C66_scalar_of_sum : forall N E (w : world N) B k a b R C f g,
  setting E w B -> means w B a R C f -> means w B b R C g ->
  agree E w (EScale k (EAdd a b)) (EAdd (EScale k a) (EScale k b)).
Proof. exact @law_scale_add. Qed.
Print Assumptions C66_scalar_of_sum.

Theorem C66_scalar_twice : forall N E (w : world N) B k k' a R C f,
  setting E w B -> means w B a R C f -> agree E w (EScale k (EScale k' a)) (EScale (nmul k k') a).
Proof. exact @law_scale_scale. Qed.
Print Assumptions C66_scalar_twice.

Theorem C66_scalar_of_scalar_sum : forall N E (w : world N) B k k' a R C f,
  setting E w B -> means w B a R C f -> agree E w (EScale (nadd k k') a) (EAdd (EScale k a) (EScale k' a)).
Proof. exact @law_scale_plus. Qed.
Print Assumptions C66_scalar_of_scalar_sum.

Theorem C66_scalar_one : forall N E (w : world N) B a R C f,
  setting E w B -> means w B a R C f -> agree E w (EScale n1 a) a.
Proof. exact @law_scale_one. Qed.
Print Assumptions C66_scalar_one.

(** rounding: the sum of float64 matrices is not associative *)

Theorem C66_not_for_floats :
  ~ (forall E (w : world num_float64) B a b c R C f g h,
      e_reg E = reg0 -> reachable w -> B < 2 ^ 63 -> B <= Z.of_nat (e_fuel E) ->
      means w B a R C f -> means w B b R C g -> means w B c R C h ->
      agree E w (EAdd (EAdd a b) c) (EAdd a (EAdd b c))).
Proof. exact float_laws_no. Qed.
Print Assumptions C66_not_for_floats.

Example C66_case : setting E0 mathw 16 /\ means mathw 16 (EObj 2) 4 4 (cell_of d4) /\ means mathw 16 (EObj 3) 4 4 (cell_of d4') /\
  compared E0 mathw (EMul (EMul (EObj 2) (EObj 3)) (EObj 2)) (EMul (EObj 2) (EMul (EObj 3) (EObj 2))) = Ok true /\
  compared E0 mathw (ETr (EMul (EObj 2) (EObj 3))) (EMul (ETr (EObj 3)) (ETr (EObj 2))) = Ok true /\
  compared E0 mathw (EMul (EObj 2) (EObj 3)) (EMul (EObj 3) (EObj 2)) = Ok false.
Proof.
  split; [exact mathw_setting|]. split; [exact mathw_means2|]. split; [exact mathw_means3|]. repeat split; vm_compute; reflexivity.
Qed.
