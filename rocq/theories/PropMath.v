(** Properties of the math packages (math/symmetric, math/skewsymmetric,
    math/strassen, math/reduced): C37-C42.

    [comparable E m]: dense storage, or a sparse matrix.  [arrivals sched]: every
    (recursive) call of the Strassen product receives its seven sub-products in some
    order.  [is_rref R C g]: reduced row echelon form.  [row_equiv R C f g]: [g]
    comes from [f] by elementary row operations.  [solves R C f x]: [x] solves the
    homogeneous system with the rows of [f].  *)
From Coq Require Import String.
From Verif Require Import GoBase Num SparseVec Csr Csc DenseVec DenseMat Mat World Ops Spec Api MathOps.
From Verif Require Import OpsProps Witness StoreWitness OpsWitness NumProofs Steps RrefProofs StrassenProofs MathThms.
Import ListNotations.

(** ** C37: the symmetry test *)

Theorem C37_symmetric : forall N E (w : world N) (s : ptr) S R C f,
  In N go_types -> reachable w -> obj w s S -> comparable E S -> denotes S R C f ->
  R * C <= Z.of_nat (e_fuel E) -> (is_vector S -> R < 2 ^ 63) ->
  exists w' b, Symmetric E s w = (w', Ok b) /\ extends w w' /\
    (b = true <-> R = C /\ forall i j, 0 <= i < R -> 0 <= j < C -> neqb (f i j) (f j i) = true).
Proof. exact @symmetric_go. Qed.
Print Assumptions C37_symmetric.

Example C37_case : reachable mathw /\ obj mathw 0 oSym /\ comparable E0 oSym /\ denotes oSym 3 3 (cell_of dSym) /\
  snd (Symmetric E0 0 mathw) = Ok true /\ snd (Symmetric E0 5 mathw) = Ok true /\
  snd (Symmetric E0 1 mathw) = Ok false /\ snd (Symmetric E0 6 mathw) = Ok false.
Proof.
  split; [exact mathw_reachable|]. split; [exact k0|]. split; [left; split; [exact I|exact (goint_unregistered E0 eq_refl)]|]. split; [exact z0|].
  repeat split; vm_compute; reflexivity.
Qed.

(** ** C38: the skew-symmetry test *)

Theorem C38_skew_symmetric : forall N E (w : world N) (s : ptr) S R C f,
  In N go_types -> reachable w -> obj w s S -> comparable E S -> denotes S R C f ->
  R * C <= Z.of_nat (e_fuel E) -> (is_vector S -> R < 2 ^ 63) ->
  exists w' b, SkewSymmetric E s w = (w', Ok b) /\ extends w w' /\
    (b = true <-> R = C /\ forall i j, 0 <= i < R -> 0 <= j < C -> neqb (nneg (f i j)) (f j i) = true).
Proof. exact @skew_go. Qed.
Print Assumptions C38_skew_symmetric.

Example C38_case : reachable mathw /\ obj mathw 1 oSkew /\ comparable E0 oSkew /\ denotes oSkew 3 3 (cell_of dSkew) /\
  snd (SkewSymmetric E0 1 mathw) = Ok true /\ snd (SkewSymmetric E0 0 mathw) = Ok false /\ snd (SkewSymmetric E0 6 mathw) = Ok false.
Proof.
  split; [exact mathw_reachable|]. split; [exact k1|]. split; [left; split; [exact I|exact (goint_unregistered E0 eq_refl)]|]. split; [exact z1|].
  repeat split; vm_compute; reflexivity.
Qed.

(** ** C39: the Strassen product where halving loses nothing *)

Theorem C39_product : forall N E (w : world N) sched crossover (a b : ptr) A B m k f g,
  let n := m * 2 ^ Z.of_nat k in
  ring_ok N -> sane N -> arrivals sched -> e_ctx E = None -> dense_unregistered N E ->
  0 <= m <= crossover -> n * n < 2 ^ 63 -> n * n <= Z.of_nat (e_fuel E) ->
  reachable w -> obj w a A -> obj w b B -> denotes A n n f -> denotes B n n g -> (is_dense A /\ is_dense B \/ crossover < n) ->
  exists w' t O, MultiplyCrossoverPoint E sched a b crossover w = (w', Ok t) /\ extends w w' /\ (forall x, ~ obj w t x) /\ obj w' t O /\ is_dense O /\
    denotes O n n (fun i j => sum_from n0 (fun l => nmul (f i l) (g l j)) 0 n).
Proof. exact @strassen_ring. Qed.
Print Assumptions C39_product.

Theorem C39_integer_types : forall N E (w : world N) sched (a b : ptr) A B m k f g,
  let n := m * 2 ^ Z.of_nat k in
  In N go_ints -> arrivals sched -> e_ctx E = None -> dense_unregistered N E ->
  0 <= m <= 64 -> n * n < 2 ^ 63 -> n * n <= Z.of_nat (e_fuel E) ->
  reachable w -> obj w a A -> obj w b B -> is_dense A -> is_dense B -> denotes A n n f -> denotes B n n g ->
  exists w' t O, strassen_Multiply E sched a b w = (w', Ok t) /\ extends w w' /\ (forall x, ~ obj w t x) /\ obj w' t O /\ is_dense O /\
    denotes O n n (fun i j => sum_from n0 (fun l => nmul (f i l) (g l j)) 0 n).
Proof. exact @strassen_ints. Qed.
Print Assumptions C39_integer_types.

Example C39_case : ring_ok num_goint /\ arrivals mixed /\ dense_unregistered num_goint E0 /\ reachable mathw /\
  obj mathw 2 o4 /\ obj mathw 3 o4' /\ denotes o4 4 4 (cell_of d4) /\ denotes o4' 4 4 (cell_of d4') /\
  match snd (MultiplyCrossoverPoint E0 mixed 2 3 1 mathw) with
  | Ok t => cells (fst (MultiplyCrossoverPoint E0 mixed 2 3 1 mathw)) t 4 4
  | _ => []
  end = map (fun z => Ok (gi z)) [17; 27; 32; 41; 41; 59; 68; 85; 3; 1; 2; 1; 7; 21; 24; 35].
Proof.
  split; [exact goint_ring|]. split; [exact mixed_arrivals|]. split; [exact (goint_unregistered E0 eq_refl)|]. split; [exact mathw_reachable|].
  split; [exact k2|]. split; [exact k3|]. split; [exact z2|]. split; [exact z3|]. vm_compute. reflexivity.
Qed.

(** ** C40: false of the code.  For every size above the crossover the result is the
    product over the indices that survive the halving ([survivors]); operands too
    small for the blocks panic; a negative crossover never returns. *)

Theorem C40_surviving_indices_partial : forall N E (w : world N) sched crossover (a b : ptr) A B R n C f g,
  ring_ok N -> sane N -> arrivals sched -> e_ctx E = None -> dense_unregistered N E ->
  0 <= crossover < n -> n * n < 2 ^ 63 -> n * n <= Z.of_nat (e_fuel E) ->
  reachable w -> obj w a A -> obj w b B -> denotes A R n f -> denotes B n C g -> 2 * (n / 2) <= R -> 2 * (n / 2) <= C ->
  exists w' t O, MultiplyCrossoverPoint E sched a b crossover w = (w', Ok t) /\ extends w w' /\ (forall x, ~ obj w t x) /\ obj w' t O /\ is_dense O /\
    let l := survivors (Z.to_nat n) crossover n in denotes O (zlen l) (zlen l) (product_over l f g).
Proof. exact @strassen_every_size. Qed.
Print Assumptions C40_surviving_indices_partial.

Theorem C40_mismatch_panics_partial : forall N E (w : world N) sched crossover (a b : ptr) A B R n n' C f g,
  obj w a A -> obj w b B -> denotes A R n f -> denotes B n' C g -> n <> n' ->
  MultiplyCrossoverPoint E sched a b crossover w = (w, Panic).
Proof. exact @strassen_no_fit. Qed.
Print Assumptions C40_mismatch_panics_partial.

Theorem C40_not_square_panics_refuted : forall N E (w : world N) sched crossover (a b : ptr) A B R n C f g,
  sane N -> e_ctx E = None -> 2 <= n -> crossover < n -> n * n < 2 ^ 63 -> n * n <= Z.of_nat (e_fuel E) ->
  reachable w -> obj w a A -> obj w b B -> denotes A R n f -> denotes B n C g -> ~ is_vector A -> ~ is_vector B ->
  R < 2 * (n / 2) \/ C < 2 * (n / 2) -> exists w', MultiplyCrossoverPoint E sched a b crossover w = (w', Panic).
Proof. exact @strassen_too_small. Qed.
Print Assumptions C40_not_square_panics_refuted.

Theorem C40_negative_crossover_refuted : forall N E (w : world N) sched crossover (a b : ptr) A B R n C f g,
  sane N -> arrivals sched -> e_ctx E = None -> dense_unregistered N E ->
  crossover < 0 -> n * n < 2 ^ 63 -> n * n <= Z.of_nat (e_fuel E) ->
  reachable w -> obj w a A -> obj w b B -> denotes A R n f -> denotes B n C g -> 2 * (n / 2) <= R -> 2 * (n / 2) <= C ->
  exists w', MultiplyCrossoverPoint E sched a b crossover w = (w', Diverge).
Proof. exact @strassen_endless. Qed.
Print Assumptions C40_negative_crossover_refuted.

Theorem C40_every_size_refuted :
  ~ (forall N E (w : world N) sched crossover (a b : ptr) A B n f g,
      In N go_ints -> arrivals sched -> e_ctx E = None -> dense_unregistered N E -> 0 <= crossover ->
      n * n < 2 ^ 63 -> n * n <= Z.of_nat (e_fuel E) ->
      reachable w -> obj w a A -> obj w b B -> is_dense A -> is_dense B -> denotes A n n f -> denotes B n n g ->
      exists w' t O, MultiplyCrossoverPoint E sched a b crossover w = (w', Ok t) /\ obj w' t O /\
        denotes O n n (fun i j => sum_from n0 (fun l => nmul (f i l) (g l j)) 0 n)).
Proof. exact strassen_no. Qed.
Print Assumptions C40_every_size_refuted.

Example C40_case : survivors 7 1 7 = [0; 1; 3; 4] /\ survivors 12 3 12 = zrange 0 12 /\
  snd (MultiplyCrossoverPoint E0 mixed 0 4 1 mathw) = Panic /\ snd (MultiplyCrossoverPoint E0 mixed 6 0 1 mathw) <> Panic /\
  snd (MultiplyCrossoverPoint E0 mixed 2 3 (-1) mathw) = Diverge.
Proof. repeat split; try (vm_compute; reflexivity). vm_compute. discriminate. Qed.

(** ** C41: reduced row echelon form over a field *)

Theorem C41_reduced : forall N E (w : world N) (s : ptr) S R C f,
  field_ok N -> reachable w -> obj w s S -> not_sparse_vector S -> denotes S R C f ->
  R * C <= Z.of_nat (e_fuel E) ->
  exists w' t O g, Reduced E s w = (w', Ok t) /\ extends w w' /\ (forall x, ~ obj w t x) /\ obj w' t O /\ same_storage S O /\
    denotes O R C g /\ is_rref R C g /\ row_equiv R C f g /\ (forall x, solves R C f x <-> solves R C g x).
Proof. exact @reduced_field. Qed.
Print Assumptions C41_reduced.

Example C41_case : field_ok num_Qc /\ reachable qcw /\ obj qcw 0 oQc /\ denotes oQc 2 3 (cell_of dQc) /\
  snd (Reduced E0 0 qcw) = Ok 2%nat /\ matches (cells (fst (Reduced E0 0 qcw)) 2 2 3) [1; 0; -3; 0; 1; 2] = true /\
  matches (cells (fst (Reduced E0 1 qcw)) 2 2 3) [1; 0; -3; 0; 1; 2] = true.
Proof.
  split; [exact num_Qc_field|]. split; [exact qcw_reachable|]. split; [exact kQc|]. split; [exact zQc|]. repeat split; vm_compute; reflexivity.
Qed.

(** ** C42: false of the code, for integers (1/x truncates) and for floats (rounding).
    For every Go type the call returns a matrix of the same shape; an integer matrix
    already in reduced row echelon form is returned as it is. *)

Theorem C42_always_returns_partial : forall N E (w : world N) (s : ptr) S R C f,
  In N go_types -> reachable w -> obj w s S -> not_sparse_vector S -> denotes S R C f ->
  R * C <= Z.of_nat (e_fuel E) ->
  exists w' t O g, Reduced E s w = (w', Ok t) /\ extends w w' /\ (forall x, ~ obj w t x) /\ obj w' t O /\ same_storage S O /\ denotes O R C g.
Proof. exact @reduced_go. Qed.
Print Assumptions C42_always_returns_partial.

Theorem C42_fixed_point_partial : forall N E (w : world N) (s : ptr) S R C f,
  In N go_ints -> reachable w -> obj w s S -> not_sparse_vector S -> denotes S R C f ->
  R * C <= Z.of_nat (e_fuel E) -> is_rref R C f ->
  exists w' t O, Reduced E s w = (w', Ok t) /\ extends w w' /\ (forall x, ~ obj w t x) /\ obj w' t O /\ same_storage S O /\ denotes O R C f.
Proof. exact @reduced_ints_fixed. Qed.
Print Assumptions C42_fixed_point_partial.

Theorem C42_integers_refuted :
  ~ (forall N E (w : world N) (s : ptr) S R C f,
      In N go_ints -> reachable w -> obj w s S -> is_dense S -> denotes S R C f -> R * C <= Z.of_nat (e_fuel E) ->
      exists w' t O g, Reduced E s w = (w', Ok t) /\ obj w' t O /\ denotes O R C g /\ is_rref R C g).
Proof. exact reduced_int_no. Qed.
Print Assumptions C42_integers_refuted.

Theorem C42_floats_refuted :
  ~ (forall E (w : world num_float64) (s : ptr) S R C f,
      reachable w -> obj w s S -> is_dense S -> denotes S R C f -> R * C <= Z.of_nat (e_fuel E) ->
      exists w' t O g, Reduced E s w = (w', Ok t) /\ obj w' t O /\ denotes O R C g /\ is_rref R C g).
Proof. exact reduced_float_no. Qed.
Print Assumptions C42_floats_refuted.

Example C42_case : reachable mathw /\ obj mathw 6 cRref /\ denotes cRref 2 3 (cell_of dRref) /\ is_rref 2 3 (cell_of dRref) /\
  cells (fst (Reduced E0 6 mathw)) 8 2 3 = map (fun z => Ok (gi z)) [1; 7; 0; 0; 0; 1] /\
  cells (fst (Reduced E0 4 mathw)) 8 2 2 = map (fun z => Ok (gi z)) [0; 0; 0; 1].
Proof.
  split; [exact mathw_reachable|]. split; [exact k6|]. split; [exact z6|]. split; [exact cRref_form|]. split; vm_compute; reflexivity.
Qed.
