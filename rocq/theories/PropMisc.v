(** Properties of resizing, the registry, contexts and the built-in operators:
    C51-C54, C61.

    [registered ts]: the registry after the package's [init] functions, when the types
    [ts] have been offered to RegisterMatrix, panics being recovered from.  [names ts]:
    the names of all these types.  [dyn_type m]: the dynamic type of one of the library's
    matrices.  [derived a c]: the context [c] was made from [a].  [split_reduce op u ls]:
    reduce every chunk of [ls], then reduce the results. *)
From Coq Require Import String Permutation.
From Verif Require Import GoBase Num SparseVec Csr Csc DenseVec DenseMat Mat World Ops Spec Api ReduceConc Registry Ctx Operators.
From Verif Require Import OpsProps MaskThms NumProofs Witness StoreWitness OpsWitness MiscProofs ReduceFormat.
Import ListNotations.

(** ** C51: false of the code: shrinking keeps the wrong number of entries *)

Theorem C51_exact_partial : forall N (w : world N) (p : ptr) (s : dvec N) L g n,
  sane N -> reachable w -> obj w p (MDV s) -> vdenotes (MDV s) L g -> 0 <= n ->
  exists w' s', let K := if n <? L then L - n else n in
    p_ReSize p n w = (w', Ok K) /\ obj w' p (MDV s') /\ extends_but p w w' /\
    vdenotes (MDV s') K (fun i => if i <? L then g i else n0).
Proof. exact @resize_exact. Qed.
Print Assumptions C51_exact_partial.

Theorem C51_when_right_partial : forall N (w : world N) (p : ptr) (s : dvec N) L g n,
  sane N -> reachable w -> obj w p (MDV s) -> vdenotes (MDV s) L g -> 0 <= n ->
  (L <= n \/ L = 2 * n) <->
  exists w' s', p_ReSize p n w = (w', Ok n) /\ obj w' p (MDV s') /\ extends_but p w w' /\
    vdenotes (MDV s') n (fun i => if i <? L then g i else n0).
Proof. exact @resize_right. Qed.
Print Assumptions C51_when_right_partial.

Theorem C51_resize_refuted :
  ~ (forall N w (p : ptr) (s : dvec N) L g n, sane N -> reachable w -> obj w p (MDV s) -> vdenotes (MDV s) L g -> 0 <= n ->
      exists w' s', p_ReSize p n w = (w', Ok n) /\ obj w' p (MDV s') /\ extends_but p w w' /\
        vdenotes (MDV s') n (fun i => if i <? L then g i else n0)).
Proof. exact resize_no. Qed.
Print Assumptions C51_resize_refuted.

Example C51_case : reachable resw /\ obj resw 0 (MDV res3) /\ vdenotes (MDV res3) 3 res_g /\
  snd (p_ReSize 0 5 resw) = Ok 5 /\ cells (fst (p_ReSize 0 5 resw)) 0 5 1 = [Ok (gi 4); Ok (gi 5); Ok (gi 6); Ok (gi 0); Ok (gi 0)] /\
  snd (p_ReSize 0 1 resw) = Ok 2 /\ cells (fst (p_ReSize 0 1 resw)) 0 2 1 = [Ok (gi 4); Ok (gi 5)].
Proof. split; [exact resw_reachable|]. split; [exact resw_obj|]. split; [exact resw_den|]. repeat split; vm_compute; reflexivity. Qed.

(** ** C52: false of the code: only float64 instances are registered, and types are told
    apart by their names alone *)

Theorem C52_is_sparse_partial : forall ts t,
  match type_Elem t with
  | Ok e => exists b, IsSparse (registered ts) (Some t) = Ok b /\ (b = true <-> In (type_Name e) (names ts))
  | _ => IsSparse (registered ts) (Some t) = Panic
  end.
Proof. exact @is_sparse_exact. Qed.
Print Assumptions C52_is_sparse_partial.

Theorem C52_register_partial : forall ts t,
  (In (type_Name t) (names ts) -> Register (registered ts) t = Panic /\ registered (ts ++ [t]) = registered ts) /\
  (~ In (type_Name t) (names ts) -> Register (registered ts) t = Ok (registered (ts ++ [t]))).
Proof. exact @register_exact. Qed.
Print Assumptions C52_register_partial.

Theorem C52_twice_panics : forall ts t us,
  Register (registered (ts ++ t :: us)) t = Panic.
Proof. exact @register_twice. Qed.
Print Assumptions C52_twice_panics.

Theorem C52_distinct_names_partial : forall ts e t,
  type_Elem t = Ok e ->
  (forall a, In a (init_types ++ ts) -> type_Name a = type_Name e -> a = e) ->
  exists b, IsSparse (registered ts) (Some t) = Ok b /\ (b = true <-> In e (init_types ++ ts)).
Proof. exact @is_sparse_distinct. Qed.
Print Assumptions C52_distinct_names_partial.

Theorem C52_go_types_partial : forall N (m : mat N),
  In N go_types ->
  exists b, IsSparse (registered []) (Some (dyn_type m)) = Ok b /\ (b = true <-> sparse_storage m /\ num_name N = "float64"%string).
Proof. exact @is_sparse_go_types. Qed.
Print Assumptions C52_go_types_partial.

Theorem C52_every_element_type_refuted :
  ~ (forall N (m : mat N), In N go_types ->
  exists b, IsSparse (registered []) (Some (dyn_type m)) = Ok b /\ (b = true <-> sparse_storage m)).
Proof. exact is_sparse_all_types_no. Qed.
Print Assumptions C52_every_element_type_refuted.

Theorem C52_distinct_types_refuted :
  ~ (forall ts t e, type_Elem t = Ok e -> exists b, IsSparse (registered ts) (Some t) = Ok b /\ (b = true <-> In e (init_types ++ ts))).
Proof. exact same_name_no. Qed.
Print Assumptions C52_distinct_types_refuted.

Theorem C52_register_distinct_refuted :
  ~ (forall ts t, ~ In t (init_types ++ ts) -> exists reg, Register (registered ts) t = Ok reg).
Proof. exact distinct_no. Qed.
Print Assumptions C52_register_distinct_refuted.

(** the registry used by the operators (Mat.v) is this one *)

Theorem C52_operators_see_it : forall N (m : mat N) reg,
  IsSparse reg (Some (dyn_type m)) = Ok (IsSparseMatrix (map fst reg) m).
Proof. exact @is_sparse_link. Qed.
Print Assumptions C52_operators_see_it.

Example C52_case : IsSparse (registered [instance "CSRMatrix"%string "int"%string]) (Some (dyn_type (MCSR demo0))) = Ok true /\
  IsSparse (registered []) (Some (dyn_type (MCSR demo0))) = Ok false /\ IsSparse (registered []) (Some (dyn_type (MSV (MkSV 0 [] []) : mat num_float64))) = Ok true /\
  IsSparse (registered []) None = Panic.
Proof. repeat split; reflexivity. Qed.

(** ** C53 *)

Theorem C53_new_context : forall c m,
  BlockingMode (NewContext c m) = (m, true).
Proof. exact @mode_new. Qed.
Print Assumptions C53_new_context.

Theorem C53_other_contexts : forall c m ok,
  BlockingMode c = (m, ok) ->
  (ok = true <-> exists p, c = NewContext p m) /\ ((forall p m', c <> NewContext p m') -> m = Blocking /\ ok = false).
Proof. exact @mode_exact. Qed.
Print Assumptions C53_other_contexts.

Theorem C53_cancellation : forall fired c,
  (derived CNil c /\ done fired c = Panic) \/
  (derived CBackground c /\ exists b, done fired c = Ok b /\ (b = true <-> exists id, listens c id /\ fired id = true)).
Proof. exact @done_exact. Qed.
Print Assumptions C53_cancellation.

Theorem C53_cancelled_parent : forall fired a c b,
  derived a c -> done fired c = Ok b ->
  exists b0, done fired a = Ok b0 /\ (b0 = true -> b = true).
Proof. exact @done_derived. Qed.
Print Assumptions C53_cancelled_parent.

Theorem C53_derived_contexts_lose_the_mode : forall c m id,
  BlockingMode (CCancel id (NewContext c m)) = (Blocking, false) /\ BlockingMode (CValue (NewContext c m)) = (Blocking, false) /\
  (forall m', BlockingMode (NewContext (NewContext c m) m') = (m', true)).
Proof. exact @mode_lost. Qed.
Print Assumptions C53_derived_contexts_lose_the_mode.

Example C53_case : let c := CCancel 3 (CValue (NewContext (CCancel 5 CBackground) NonBlocking)) in
  BlockingMode c = (Blocking, false) /\ done (fun i => Nat.eqb i 5) c = Ok true /\ done (fun i => Nat.eqb i 4) c = Ok false /\
  BlockingMode (NewContext c NonBlocking) = (NonBlocking, true).
Proof. repeat split. Qed.

(** ** C54: the laws hold.  The last claim fails for SecondArgument, which has no unit, when
    a chunk is empty. *)

Theorem C54_integer_operators : forall N,
  In N go_ints ->
  comm_monoid (@Addition N) n0 /\ comm_monoid (@Multiplication N) n1 /\
  (associative (@Minimum N) /\ commutative (@Minimum N) /\ idempotent (@Minimum N)) /\
  (associative (@Maximum N) /\ commutative (@Maximum N) /\ idempotent (@Maximum N)) /\
  associative (@FirstArgument N) /\ associative (@SecondArgument N).
Proof. exact @int_operators. Qed.
Print Assumptions C54_integer_operators.

Theorem C54_boolean_operators :
  comm_monoid LOR false /\ comm_monoid LAND true /\ comm_monoid LXOR false.
Proof. exact bool_operators. Qed.
Print Assumptions C54_boolean_operators.

Theorem C54_splitting_partial : forall N (chunks : list (list (T N) )) u,
  In N go_ints ->
  split_reduce Addition n0 chunks = Reduce Addition n0 (concat chunks) /\
  split_reduce Multiplication n1 chunks = Reduce Multiplication n1 (concat chunks) /\
  split_reduce Minimum u chunks = Reduce Minimum u (concat chunks) /\
  split_reduce Maximum u chunks = Reduce Maximum u (concat chunks) /\
  split_reduce FirstArgument u chunks = Reduce FirstArgument u (concat chunks) /\
  ((forall l, In l chunks -> l <> []) -> split_reduce SecondArgument u chunks = Reduce SecondArgument u (concat chunks)).
Proof. exact @int_reduce_split. Qed.
Print Assumptions C54_splitting_partial.

Theorem C54_boolean_splitting : forall (chunks : list (list bool) ),
  split_reduce LOR false chunks = Reduce LOR false (concat chunks) /\
  split_reduce LAND true chunks = Reduce LAND true (concat chunks) /\
  split_reduce LXOR false chunks = Reduce LXOR false (concat chunks).
Proof. exact @bool_reduce_split. Qed.
Print Assumptions C54_boolean_splitting.

Theorem C54_order : forall N (l l' : list (T N) ) u,
  In N go_ints -> Permutation l l' ->
  Reduce Addition u l = Reduce Addition u l' /\ Reduce Multiplication u l = Reduce Multiplication u l' /\
  Reduce Minimum u l = Reduce Minimum u l' /\ Reduce Maximum u l = Reduce Maximum u l'.
Proof. exact @int_reduce_order. Qed.
Print Assumptions C54_order.

Theorem C54_reductions : forall name sg bits (u : T (num_int name sg bits) ) l,
  0 < bits ->
  wval (Reduce Addition u l) = wrap sg bits (wval u + fold_right Z.add 0 (map wval l)) /\
  wval (Reduce Multiplication u l) = wrap sg bits (wval u * fold_right Z.mul 1 (map wval l)) /\
  wval (Reduce Minimum u l) = fold_right Z.min (wval u) (map wval l) /\
  wval (Reduce Maximum u l) = fold_right Z.max (wval u) (map wval l) /\
  Reduce FirstArgument u l = u /\ Reduce SecondArgument u l = last l u.
Proof. exact @int_reductions. Qed.
Print Assumptions C54_reductions.

Theorem C54_boolean_reductions : forall u l,
  Reduce LOR u l = (u || existsb (fun x => x) l)%bool /\ Reduce LAND u l = (u && forallb (fun x => x) l)%bool /\
  Reduce LXOR u l = xorb u (Nat.odd (count_occ Bool.bool_dec l true)).
Proof. exact @bool_reductions. Qed.
Print Assumptions C54_boolean_reductions.

Theorem C54_comparisons : forall name sg bits (x y : T (num_int name sg bits) ),
  (OpEqual x y = true <-> wval x = wval y) /\ (OpNotEqual x y = true <-> wval x <> wval y) /\
  (OpGreaterThan x y = true <-> wval x > wval y) /\ (OpLessThan x y = true <-> wval x < wval y) /\
  (OpGreaterThanOrEqual x y = true <-> wval x >= wval y) /\ (OpLessThanOrEqual x y = true <-> wval x <= wval y) /\
  wval (Subtraction x y) = wrap sg bits (wval x - wval y) /\
  (Division x y = Panic <-> wval y = 0) /\
  (forall z, Division x y = Ok z -> wval z = wrap sg bits (Z.quot (wval x) (wval y))).
Proof. exact @int_comparisons. Qed.
Print Assumptions C54_comparisons.

Theorem C54_float_comparisons : forall (x y : T num_float64),
  OpNotEqual x y = negb (OpEqual x y) /\ OpGreaterThan x y = OpLessThan y x /\ OpGreaterThanOrEqual x y = OpLessThanOrEqual y x /\
  (x = SpecFloat.S754_nan -> OpEqual x y = false /\ OpLessThanOrEqual x y = false /\ OpGreaterThanOrEqual x y = false).
Proof. exact @float_comparisons. Qed.
Print Assumptions C54_float_comparisons.

Theorem C54_splitting_refuted :
  ~ (forall N (chunks : list (list (T N))) u, In N go_ints -> split_reduce SecondArgument u chunks = Reduce SecondArgument u (concat chunks)).
Proof. exact second_split_no. Qed.
Print Assumptions C54_splitting_refuted.

Example C54_case : In num_int8 go_ints /\
  split_reduce (@Addition num_int8) n0 [[of_Z 100; of_Z 100]; []; [of_Z (-3)]] = of_Z (-59) /\
  split_reduce (@Minimum num_int8) (of_Z 7) [[of_Z 9; of_Z 8]; [of_Z (-3)]] = of_Z (-3).
Proof. split; [cbn; auto|]. split; vm_compute; reflexivity. Qed.

(** ** C61: holds for the integer types and, in general, for commutative monoids with unit zero; not for floats *)

Theorem C61_contents : forall N E (w : world N) (s : ptr) m op k R C f,
  sane N -> eq_ok N -> comm_monoid op n0 -> reachable w -> obj w s m -> not_sparse_vector m ->
  denotes m R C f -> mask_dims w k R C -> e_ctx E = None -> R * C <= Z.of_nat (e_fuel E) ->
  ReduceMatrixToScalarWithMonoID E s (NewMonoID n0 op) k w = (w, Ok (Reduce op n0 (uncovered_cells w k R C f))).
Proof. exact @reduce_contents. Qed.
Print Assumptions C61_contents.

Theorem C61_every_schedule : forall N (w : world N) (s : ptr) m op k R C f,
  sane N -> eq_ok N -> comm_monoid op n0 -> reachable w -> obj w s m -> not_sparse_vector m ->
  denotes m R C f -> mask_dims w k R C ->
  forall can n y v, steps s (NewMonoID n0 op) k can n (start w) y -> st_caller y = CReturned v -> v = Reduce op n0 (uncovered_cells w k R C f).
Proof. exact @reduce_contents_schedules. Qed.
Print Assumptions C61_every_schedule.

Theorem C61_integer_sum : forall N E (w : world N) (s : ptr) m k R C f,
  In N go_ints -> reachable w -> obj w s m -> not_sparse_vector m ->
  denotes m R C f -> mask_dims w k R C -> e_ctx E = None -> R * C <= Z.of_nat (e_fuel E) ->
  ReduceMatrixToScalar E s k w = (w, Ok (Reduce Addition n0 (uncovered_cells w k R C f))).
Proof. exact @sum_ints. Qed.
Print Assumptions C61_integer_sum.

Theorem C61_formats_agree_partial : forall N E E' (w w' : world N) (s s' : ptr) m m' R C f,
  In N go_ints -> reachable w -> reachable w' -> obj w s m -> obj w' s' m' ->
  not_sparse_vector m -> not_sparse_vector m' -> denotes m R C f -> denotes m' R C f ->
  e_ctx E = None -> e_ctx E' = None -> R * C <= Z.of_nat (e_fuel E) -> R * C <= Z.of_nat (e_fuel E') ->
  exists v, snd (ReduceMatrixToScalar E s MNil w) = Ok v /\ snd (ReduceMatrixToScalar E' s' MNil w') = Ok v.
Proof. exact @sum_format. Qed.
Print Assumptions C61_formats_agree_partial.

Theorem C61_float_refuted :
  ~ (forall N E (w : world N) (s s' : ptr) m m' R C f, sane N -> reachable w -> obj w s m -> obj w s' m' ->
      not_sparse_vector m -> not_sparse_vector m' -> denotes m R C f -> denotes m' R C f ->
      e_ctx E = None -> R * C <= Z.of_nat (e_fuel E) ->
      exists v, snd (ReduceMatrixToScalar E s MNil w) = Ok v /\ snd (ReduceMatrixToScalar E s' MNil w) = Ok v).
Proof. exact float_format_no. Qed.
Print Assumptions C61_float_refuted.

Example C61_case : reachable sumw /\ obj sumw 0 sum0 /\ obj sumw 1 sum1 /\ denotes sum0 2 2 (cell_of dsum) /\ denotes sum1 2 2 (cell_of dsum) /\
  snd (ReduceMatrixToScalar E0 0 MNil sumw) = Ok (gi (-2)) /\ snd (ReduceMatrixToScalar E0 1 MNil sumw) = Ok (gi (-2)).
Proof. split; [exact sumw_reachable|]. split; [exact hsum0|]. split; [exact hsum1|]. split; [exact tsum0|]. split; [exact tsum1|]. split; vm_compute; reflexivity. Qed.
