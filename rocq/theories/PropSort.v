(** Properties of the string and sort packages (dense and sparse rune matrices): C45-C48.

    [lines h K L]: the first [K] lines of [h], each with its first [L] cells.
    [precedes a b]: the list of code points [a] comes before [b] in lexicographic order.
    [sorted K L h]: no later line precedes an earlier one.  [across f]: the transpose.
    [valid_runes]: every cell is a Unicode code point that is not a surrogate.
    [same_zeros K L f]: all lines of [f] are zero at the same positions. *)
From Coq Require Import String Permutation.
From Verif Require Import GoBase Num SparseVec Csr Csc DenseVec DenseMat Mat World Ops Spec Api SortModel.
From Verif Require Import OpsProps Witness StoreWitness OpsWitness MathThms NumProofs SortProofs SortThms.
Import ListNotations.

(** ** C45: dense matrices are sorted *)

Theorem C45_rows : forall E (w : world num_rune) a S R C f,
  reachable w -> obj w a S -> denotes S R C f -> is_dense S -> C <= Z.of_nat (e_fuel E) ->
  e_ctx E = None -> valid_runes R C f ->
  exists w' q O h, BubbleRow E a w = (w', Ok q) /\ (forall x, ~ obj w q x) /\ extends w w' /\ obj w' q O /\ same_storage S O /\ denotes O R C h /\
    Permutation (lines h R C) (lines f R C) /\ sorted R C h.
Proof. exact @sort_rows. Qed.
Print Assumptions C45_rows.

Theorem C45_columns : forall E (w : world num_rune) a S R C f,
  reachable w -> obj w a S -> denotes S R C f -> is_dense S -> R <= Z.of_nat (e_fuel E) ->
  e_ctx E = None -> valid_runes R C f ->
  exists w' q O h, BubbleColumns E a w = (w', Ok q) /\ (forall x, ~ obj w q x) /\ extends w w' /\ obj w' q O /\ same_storage S O /\ denotes O R C h /\
    Permutation (lines (across h) C R) (lines (across f) C R) /\ sorted C R (across h).
Proof. exact @sort_columns. Qed.
Print Assumptions C45_columns.

Theorem C45_order_determines_result : forall K L,
  forall h g, sorted K L h -> sorted K L g -> Permutation (lines h K L) (lines g K L) -> lines h K L = lines g K L.
Proof. exact @sorted_unique. Qed.
Print Assumptions C45_order_determines_result.

Example C45_case : reachable sortw /\ obj sortw 0 oWords /\ denotes oWords 4 2 (cell_of dWords) /\
  show 4 2 (BubbleRow E0 0 sortw) = [[90; 122]; [122; 65]; [122; 233]; [1114111; 65535]] /\
  show 4 2 (BubbleColumns E0 0 sortw) = [[122; 233]; [90; 122]; [1114111; 65535]; [122; 65]].
Proof.
  split; [exact sortw_reachable|]. split; [exact s0|]. split; [exact d0|]. split; vm_compute; reflexivity.
Qed.
Example C45_case_valid : valid_runes 4 2 (cell_of dWords).
Proof. exact words_valid. Qed.

(** ** C46: a permutation at every cancellation instant and for every cell value *)

Theorem C46_rows : forall E (w : world num_rune) a S R C f,
  reachable w -> obj w a S -> denotes S R C f -> is_dense S -> C <= Z.of_nat (e_fuel E) ->
  exists w' q O h, BubbleRow E a w = (w', Ok q) /\ (forall x, ~ obj w q x) /\ extends w w' /\ obj w' q O /\ same_storage S O /\ denotes O R C h /\
    Permutation (lines h R C) (lines f R C).
Proof. exact @permute_rows. Qed.
Print Assumptions C46_rows.

Theorem C46_columns : forall E (w : world num_rune) a S R C f,
  reachable w -> obj w a S -> denotes S R C f -> is_dense S -> R <= Z.of_nat (e_fuel E) ->
  exists w' q O h, BubbleColumns E a w = (w', Ok q) /\ (forall x, ~ obj w q x) /\ extends w w' /\ obj w' q O /\ same_storage S O /\ denotes O R C h /\
    Permutation (lines (across h) C R) (lines (across f) C R).
Proof. exact @permute_columns. Qed.
Print Assumptions C46_columns.

Example C46_case : reachable sortw /\ obj sortw 0 oWords /\
  show 4 2 (BubbleRow (MkEnv (Some 0%nat) (e_reg E0) (e_fuel E0)) 0 sortw) = [[122; 233]; [90; 122]; [1114111; 65535]; [122; 65]] /\
  show 4 2 (BubbleRow (MkEnv (Some 9%nat) (e_reg E0) (e_fuel E0)) 0 sortw) = [[1114111; 65535]; [122; 233]; [90; 122]; [122; 65]].
Proof. split; [exact sortw_reachable|]. split; [exact s0|]. split; vm_compute; reflexivity. Qed.

(** ** C47: false of the code.  Swapping two lines of sparse storage writes only the
    non-zero cells, so it is right if all lines are zero at the same positions. *)

Theorem C47_rows_partial : forall E (w : world num_rune) a S R C f,
  reachable w -> obj w a S -> denotes S R C f -> is_sparse_matrix S -> same_zeros R C f -> C <= Z.of_nat (e_fuel E) ->
  exists w' q O h, BubbleRow E a w = (w', Ok q) /\ (forall x, ~ obj w q x) /\ extends w w' /\ obj w' q O /\ same_storage S O /\ denotes O R C h /\
    Permutation (lines h R C) (lines f R C) /\ (e_ctx E = None -> valid_runes R C f -> sorted R C h).
Proof. exact @sparse_rows. Qed.
Print Assumptions C47_rows_partial.

Theorem C47_columns_partial : forall E (w : world num_rune) a S R C f,
  reachable w -> obj w a S -> denotes S R C f -> is_sparse_matrix S -> same_zeros C R (across f) -> R <= Z.of_nat (e_fuel E) ->
  exists w' q O h, BubbleColumns E a w = (w', Ok q) /\ (forall x, ~ obj w q x) /\ extends w w' /\ obj w' q O /\ same_storage S O /\ denotes O R C h /\
    Permutation (lines (across h) C R) (lines (across f) C R) /\ (e_ctx E = None -> valid_runes R C f -> sorted C R (across h)).
Proof. exact @sparse_columns. Qed.
Print Assumptions C47_columns_partial.

Theorem C47_sparse_refuted :
  ~ sparse_permutes.
Proof. exact bubble_sparse_no. Qed.
Print Assumptions C47_sparse_refuted.

Example C47_case : reachable sortw /\ obj sortw 2 oAligned /\ denotes oAligned 3 3 (cell_of dAligned) /\
  same_zeros 3 3 (cell_of dAligned) /\
  show 3 3 (BubbleRow E0 2 sortw) = [[97; 0; 98]; [97; 0; 99]; [98; 0; 99]].
Proof.
  split; [exact sortw_reachable|]. split; [exact s2|]. split; [exact d2|]. split; [exact aligned_zeros|]. vm_compute; reflexivity.
Qed.

(** ** C48: the order on dense matrices *)

Theorem C48_compare : forall E (w : world num_rune) (s m : ptr) S Mo R C R' C' f g,
  reachable w -> obj w s S -> obj w m Mo -> is_dense S -> is_dense Mo ->
  denotes S R C f -> denotes Mo R' C' g -> R * C <= Z.of_nat (e_fuel E) -> R' * C' <= Z.of_nat (e_fuel E) ->
  e_ctx E = None -> valid_runes R C f -> valid_runes R' C' g ->
  exists w' z, Compare E s m w = (w', Ok z) /\ w_heap w' = w_heap w /\ (z = 0 \/ z = -1 \/ z = 1) /\
    (z = 0 <-> R = R' /\ C = C' /\ forall i j, 0 <= i < R -> 0 <= j < C -> f i j = g i j) /\
    (z = -1 <-> precedes (codes (row_major R C f)) (codes (row_major R' C' g))).
Proof. exact @compare_order. Qed.
Print Assumptions C48_compare.

Theorem C48_antisymmetric : forall E (w : world num_rune) (s m : ptr) S Mo R C f g,
  reachable w -> obj w s S -> obj w m Mo -> is_dense S -> is_dense Mo ->
  denotes S R C f -> denotes Mo R C g -> R * C <= Z.of_nat (e_fuel E) -> e_ctx E = None -> valid_runes R C f -> valid_runes R C g ->
  exists w1 w2 z, Compare E s m w = (w1, Ok z) /\ Compare E m s w = (w2, Ok (- z)) /\
    (z = 1 <-> precedes (codes (row_major R C g)) (codes (row_major R C f))).
Proof. exact @compare_antisym. Qed.
Print Assumptions C48_antisymmetric.

Theorem C48_transitive : forall E (w : world num_rune) (s m t : ptr) S Mo T R C f g h,
  reachable w -> obj w s S -> obj w m Mo -> obj w t T -> is_dense S -> is_dense Mo -> is_dense T ->
  denotes S R C f -> denotes Mo R C g -> denotes T R C h -> R * C <= Z.of_nat (e_fuel E) -> e_ctx E = None ->
  valid_runes R C f -> valid_runes R C g -> valid_runes R C h ->
  exists w1 w2 w3 x y z, Compare E s m w = (w1, Ok x) /\ Compare E m t w = (w2, Ok y) /\ Compare E s t w = (w3, Ok z) /\
    (x <= 0 -> y <= 0 -> z <= 0 /\ (z = 0 -> x = 0 /\ y = 0)).
Proof. exact @compare_trans. Qed.
Print Assumptions C48_transitive.

Theorem C48_less_greater : forall E (w : world num_rune) (s m : ptr) S Mo R C R' C' f g,
  reachable w -> obj w s S -> obj w m Mo -> is_dense S -> is_dense Mo ->
  denotes S R C f -> denotes Mo R' C' g -> R * C <= Z.of_nat (e_fuel E) -> R' * C' <= Z.of_nat (e_fuel E) ->
  e_ctx E = None -> valid_runes R C f -> valid_runes R' C' g ->
  exists w' b b', Less E s m w = (w', Ok b) /\ Greater E s m w = (w', Ok b') /\ w_heap w' = w_heap w /\
    (b = true <-> precedes (codes (row_major R C f)) (codes (row_major R' C' g))) /\
    (b' = true <-> precedes (codes (row_major R' C' g)) (codes (row_major R C f))).
Proof. exact @less_greater. Qed.
Print Assumptions C48_less_greater.

Example C48_case : reachable sortw /\ obj sortw 3 (MDM (MkDense 2 1 dWide)) /\ obj sortw 4 (MDM (MkDense 1 2 dTall)) /\
  snd (Compare E0 3 4 sortw) = Ok 1 /\ snd (Compare E0 4 3 sortw) = Ok 1 /\ snd (Compare E0 0 3 sortw) = Ok 1 /\ snd (Compare E0 3 0 sortw) = Ok (-1) /\
  snd (Compare E0 0 0 sortw) = Ok 0 /\ snd (Less E0 3 0 sortw) = Ok true /\ snd (Greater E0 3 0 sortw) = Ok false.
Proof.
  split; [exact sortw_reachable|]. split; [at_obj|]. split; [at_obj|]. repeat split; vm_compute; reflexivity.
Qed.
