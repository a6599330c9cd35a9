(** Properties of goroutines that call the library at the same time, without locks: C70, C71,
    and of the goroutines of Strassen's multiplication: C72.

    [moves (w_heap w, start (w_polls w) xs) (h, gs)]: goroutines that run the step trees [xs] start on the
    objects of the world [w]; in some interleaving of their steps they get to the states [gs] with the
    objects [h].  [outcome g]: how goroutine [g] ended ([None]: it is still running).
    [performs ks]: the steps of the calls [ks] one after the other; [calls ks w]: what these calls do with
    nobody else around.  [uses k]: the objects a call is given; [writes k]: those it may modify.
    [separate progs]: an object modified by one program is given to no other one.
    [job_steps j], [job_alone j]: the steps, and the effect alone, of a function that returns a new object;
    [ask_steps q], [ask_alone q]: of a function that returns a value.
    [racing gs]: two goroutines are about to access one object, one of them writing.

    [tsteps E x (w_heap w, begin E x a b) (h, t)]: a call of MultiplyCrossoverPoint with operands [a], [b] and
    crossover [x] starts on the objects of [w] and, its goroutines and theirs taking turns in some way, gets to
    the state [t] with the objects [h].  [finished t]: what it returned.  [broken t]: a goroutine has panicked
    or does not end.  [clash t]: two of its goroutines are about to access one object, one of them writing.
    [csteps E x (false, (w_heap w, begin E x a b)) (d, (h, t))]: the same with a context that may become done at
    any moment; [d]: whether it has. *)
From Coq Require Import Permutation.
From Verif Require Import GoBase Num SparseVec Csr Csc DenseVec DenseMat Mat World Ops MathOps Bfs Spec Api.
From Verif Require Import NumProofs Witness StoreWitness Fine FineProofs FineRel FineConc FineThms FineWitness.
From Verif Require Import StrassenProofs MathThms FineStrassen FineStrassenThms FineStrassenWitness FineCancel FineCancelThms FineCells FineCancelWitness.
Import ListNotations.

(** ** C70: goroutines that share only what they do not modify end as they end alone *)

Theorem C70_steps_are_the_call : forall N (k : call N) (w : World.world N),
  interp (perform k) w = Api.perform k w.
Proof. exact @perform_steps. Qed.
Print Assumptions C70_steps_are_the_call.

Theorem C70_as_alone : forall N (w : world N) (progs : list (list (call N) )) (h : list (mat N)) gs,
  sane N -> reachable w ->
  (forall ks p, List.In ks progs -> List.In p (flat_map uses ks) -> exists m, obj w p m) -> separate progs ->
  moves (w_heap w, start (w_polls w) (map performs progs)) (h, gs) ->
  (forall i ks g o, nth_error progs i = Some ks -> nth_error gs i = Some g -> outcome g = Some o ->
     exists w', calls ks w = (w', o) /\ forall p, List.In p (flat_map uses ks) -> nth_error h p = nth_error (w_heap w') p) /\
  (forall p m, obj w p m -> (forall ks, List.In ks progs -> ~ List.In p (flat_map writes ks)) -> nth_error h p = Some m).
Proof. exact @separate_calls. Qed.
Print Assumptions C70_as_alone.

Theorem C70_new_objects : forall N (w : world N) (jobs : list (job (N := N))) (h : list (mat N)) gs,
  sane N -> reachable w -> (forall j p, List.In j jobs -> List.In p (job_uses j) -> exists m, obj w p m) ->
  moves (w_heap w, start (w_polls w) (map job_steps jobs)) (h, gs) ->
  (forall i j g o, nth_error jobs i = Some j -> nth_error gs i = Some g -> outcome g = Some o ->
     match o with
     | Ok p => exists w' q m, job_alone j w = (w', Ok q) /\ obj w' q m /\ nth_error h p = Some m
     | Panic => exists w', job_alone j w = (w', Panic)
     | Diverge => exists w', job_alone j w = (w', Diverge)
     end) /\
  (forall p m, obj w p m -> nth_error h p = Some m) /\
  (forall i i' g g' p, i <> i' -> nth_error gs i = Some g -> nth_error gs i' = Some g' -> outcome g = Some (Ok p) -> outcome g' = Some (Ok p) -> False).
Proof. exact @jobs_alone. Qed.
Print Assumptions C70_new_objects.

Theorem C70_values : forall N (w : world N) (asks : list (ask (N := N))) (h : list (mat N)) gs,
  sane N -> reachable w -> (forall q p, List.In q asks -> List.In p (ask_uses q) -> exists m, obj w p m) ->
  moves (w_heap w, start (w_polls w) (map ask_steps asks)) (h, gs) ->
  (forall i q g o, nth_error asks i = Some q -> nth_error gs i = Some g -> outcome g = Some o -> snd (ask_alone q w) = o) /\
  (forall p m, obj w p m -> nth_error h p = Some m).
Proof. exact @asks_alone. Qed.
Print Assumptions C70_values.

Theorem C70_finite : forall N {A} (f : nat -> list (mat N) * list (FineConc.gor (N := N) A)),
  ~ (forall n, move (f n) (f (Datatypes.S n))).
Proof. exact @moves_finite. Qed.
Print Assumptions C70_finite.

Theorem C70_goes_on : forall N {A} (h : list (mat N)) (gs : list (FineConc.gor (N := N) A)),
  (exists y, move (h, gs) y) \/ (forall i g, nth_error gs i = Some g -> outcome g <> None).
Proof. exact @goes_on. Qed.
Print Assumptions C70_goes_on.

(** Without the separation it is false: an update can be lost. *)

Theorem C70_separation_needed :
  ~ (forall N (w : world N) (progs : list (list (call N))) h gs, sane N -> reachable w ->
       (forall ks p, List.In ks progs -> List.In p (flat_map uses ks) -> exists m, obj w p m) ->
       moves (w_heap w, start (w_polls w) (map performs progs)) (h, gs) -> returned gs = true ->
       exists ks, Permutation.Permutation ks (concat progs) /\ forall p m, obj w p m -> nth_error h p = nth_error (w_heap (fst (calls ks w))) p).
Proof. exact lost_update. Qed.
Print Assumptions C70_separation_needed.

Example C70_case : sane num_goint /\ reachable w70 /\ (forall ks p, List.In ks progs70 -> List.In p (flat_map uses ks) -> exists m, obj w70 p m) /\ separate progs70 /\
  exists h gs, moves (w_heap w70, start (w_polls w70) (map performs progs70)) (h, gs) /\ returned gs = true /\
  viewed h 2 = Some (2%nat, (2, 2), [[gi 24; gi 10]; [gi 48; gi 30]], ([], [])) /\
  viewed h 3 = Some (0%nat, (2, 2), [[gi 7; gi 9]], ([1; 0], [0; 1; 2])) /\
  viewed h 4 = Some (1%nat, (2, 2), [[gi 15; gi 6; gi 20; gi 12]], ([0; 1; 0; 1], [0; 2; 4])).
Proof. split; [exact goint_sane|]. split; [exact w70_reachable|]. split; [exact progs70_used|]. split; [exact progs70_separate|exact run70]. Qed.
Example C70_jobs_case : exists h gs, moves (w_heap w70, start (w_polls w70) (map job_steps jobs70)) (h, gs) /\ returned gs = true /\
  viewed h 5 = Some (0%nat, (2, 2), [[gi 6; gi 5]], ([1; 0], [0; 1; 2])).
Proof. exact run70_jobs. Qed.

(** ** C71: false of the code.  At and Element of the sparse types write the value they find back, so
    operators that only share a sparse operand or mask race.  With dense shared operands they do not. *)

Theorem C71_sparse_operand_refuted :
  ~ (forall N (w : world N) (progs : list (list (call N))) h gs, sane N -> reachable w ->
       (forall ks p, List.In ks progs -> List.In p (flat_map uses ks) -> exists m, obj w p m) -> separate progs ->
       moves (w_heap w, start (w_polls w) (map performs progs)) (h, gs) -> ~ racing gs).
Proof. exact sparse_operand_race. Qed.
Print Assumptions C71_sparse_operand_refuted.

Theorem C71_dense_operands_partial : forall N (w : world N) (progs : list (list (call N) )) (h : list (mat N)) gs,
  sane N -> reachable w ->
  (forall ks p, List.In ks progs -> List.In p (flat_map uses ks) -> exists m, obj w p m) -> separate progs ->
  (forall ks p m, List.In ks progs -> List.In p (flat_map uses ks) -> obj w p m -> ~ List.In p (flat_map writes ks) -> sparse_obj m = false) ->
  moves (w_heap w, start (w_polls w) (map performs progs)) (h, gs) -> ~ racing gs.
Proof. exact @dense_calls_no_race. Qed.
Print Assumptions C71_dense_operands_partial.

Example C71_case : reachable w71 /\ (forall ks p, List.In ks progs71d -> List.In p (flat_map uses ks) -> exists m, obj w71 p m) /\ separate progs71d /\
  (forall ks p m, List.In ks progs71d -> List.In p (flat_map uses ks) -> obj w71 p m -> ~ List.In p (flat_map writes ks) -> sparse_obj m = false) /\
  exists h gs, moves (w_heap w71, start (w_polls w71) (map performs progs71d)) (h, gs) /\ returned gs = true /\
  viewed h 1 = Some (2%nat, (2, 2), [[gi 7; gi 10]; [gi 15; gi 22]], ([], [])).
Proof. split; [exact w71_reachable|]. split; [exact progs71d_used|]. split; [exact progs71d_separate|]. split; [exact progs71d_dense|exact run71d]. Qed.

(** ** C72: the goroutines of Strassen's multiplication *)

Theorem C72_as_alone : forall N E x (w : world N) a b (A B : mat N) (h : list (mat N)) t p,
  sane N -> reachable w -> obj w a A -> obj w b B -> e_ctx E = None \/ e_ctx E = Some 0%nat ->
  tsteps E x (w_heap w, begin E x a b) (h, t) -> finished t = Some p ->
  exists w' q m, MultiplyCrossoverPoint E (fun _ => seven) a b x w = (w', Ok q) /\ obj w' q m /\ nth_error h p = Some m /\ (forall y, ~ obj w p y).
Proof. exact @strassen_as_alone. Qed.
Print Assumptions C72_as_alone.

Theorem C72_goes_on : forall N E x (w : world N) a b (A B : mat N) (h : list (mat N)) t w' q,
  sane N -> reachable w -> obj w a A -> obj w b B -> e_ctx E = None \/ e_ctx E = Some 0%nat ->
  tsteps E x (w_heap w, begin E x a b) (h, t) -> MultiplyCrossoverPoint E (fun _ => seven) a b x w = (w', Ok q) ->
  ~ broken t /\ ((exists p, finished t = Some p) \/ (exists c, tstep E x (h, t) c)).
Proof. exact @strassen_goes_on. Qed.
Print Assumptions C72_goes_on.

Theorem C72_fails : forall N E x (w : world N) a b (A B : mat N) (h : list (mat N)) t w',
  sane N -> reachable w -> obj w a A -> obj w b B -> e_ctx E = None \/ e_ctx E = Some 0%nat ->
  tsteps E x (w_heap w, begin E x a b) (h, t) -> MultiplyCrossoverPoint E (fun _ => seven) a b x w = (w', Panic) \/ MultiplyCrossoverPoint E (fun _ => seven) a b x w = (w', Diverge) ->
  finished t = None /\ (broken t \/ exists c, tstep E x (h, t) c).
Proof. exact @strassen_fails. Qed.
Print Assumptions C72_fails.

Theorem C72_finite : forall N E x (f : nat -> list (mat N) * task (N := N)),
  ~ (forall n, tstep E x (f n) (f (Datatypes.S n))).
Proof. exact @strassen_finite. Qed.
Print Assumptions C72_finite.

Theorem C72_no_race : forall N E x (w : world N) a b (A B : mat N) (h : list (mat N)) t,
  sane N -> reachable w -> obj w a A -> obj w b B -> e_ctx E = None \/ e_ctx E = Some 0%nat ->
  tsteps E x (w_heap w, begin E x a b) (h, t) -> ~ clash t /\ (forall p m, obj w p m -> nth_error h p = Some m).
Proof. exact @strassen_no_race. Qed.
Print Assumptions C72_no_race.

Theorem C72_product : forall N E (w : world N) crossover (a b : ptr) A B m k f g h t,
  let n := m * 2 ^ Z.of_nat k in
  ring_ok N -> sane N -> e_ctx E = None -> dense_unregistered N E ->
  0 <= m <= crossover -> n * n < 2 ^ 63 -> n * n <= Z.of_nat (e_fuel E) ->
  reachable w -> obj w a A -> obj w b B -> denotes A n n f -> denotes B n n g -> (is_dense A /\ is_dense B \/ crossover < n) ->
  tsteps E crossover (w_heap w, begin E crossover a b) (h, t) ->
  ~ broken t /\ ~ clash t /\ ((exists p, finished t = Some p) \/ (exists c, tstep E crossover (h, t) c)) /\
  forall p, finished t = Some p -> exists O, nth_error h p = Some O /\ is_dense O /\ denotes O n n (fun i j => sum_from n0 (fun l => nmul (f i l) (g l j)) 0 n).
Proof. exact @strassen_any_order. Qed.
Print Assumptions C72_product.

Example C72_case : sane num_goint /\ ring_ok num_goint /\ dense_unregistered num_goint E0 /\ reachable mathw /\ obj mathw 2 o4 /\ obj mathw 3 o4' /\
  denotes o4 4 4 (cell_of d4) /\ denotes o4' 4 4 (cell_of d4') /\
  (exists h t, tsteps E0 1 (w_heap mathw, begin E0 1 2 3) (h, t) /\ crowd t = 34%nat) /\
  (exists h t p, tsteps E0 1 (w_heap mathw, begin E0 1 2 3) (h, t) /\ finished t = Some p /\
    viewed h p = Some (2%nat, (4, 4), [[gi 17; gi 27; gi 32; gi 41]; [gi 41; gi 59; gi 68; gi 85]; [gi 3; gi 1; gi 2; gi 1]; [gi 7; gi 21; gi 24; gi 35]], ([], []))) /\
  (exists h t, tsteps E0 1 (w_heap mathw, begin E0 1 0 4) (h, t) /\ broken t /\ snd (MultiplyCrossoverPoint E0 (fun _ => seven) 0 4 1 mathw) = Panic).
Proof.
  split; [exact goint_sane|]. split; [exact goint_ring|]. split; [exact (goint_unregistered E0 eq_refl)|]. split; [exact mathw_reachable|].
  split; [exact k2|]. split; [exact k3|]. split; [exact z2|]. split; [exact z3|]. split; [exact crowd72|]. split; [exact run72|exact fail72].
Qed.

(** ** C73: Strassen's multiplication whose context becomes done at some moment *)

Theorem C73_any_moment : forall N E x (w : world N) a b (A B : mat N) R n C f g d (h : list (mat N)) t,
  sane N -> reachable w -> obj w a A -> obj w b B -> denotes A R n f -> denotes B n C g ->
  0 <= x -> n * n < 2 ^ 63 -> n * n <= Z.of_nat (e_fuel E) -> (n <= x -> R * C < 2 ^ 63) -> (x < n -> 2 * (n / 2) <= R /\ 2 * (n / 2) <= C) ->
  csteps E x (false, (w_heap w, begin E x a b)) (d, (h, t)) ->
  ~ broken t /\ ((exists p, finished t = Some p) \/ exists c, cstep E x (d, (h, t)) (d, c)) /\ ~ clash t /\ (forall p m, obj w p m -> nth_error h p = Some m) /\
  forall p, finished t = Some p -> (forall y, ~ obj w p y) /\ exists O k, nth_error h p = Some O /\ is_dense O /\
    let l := survivors (Z.to_nat n) x n in denotes O (if n <=? x then R else zlen l) (if n <=? x then C else zlen l) k.
Proof. exact @strassen_any_moment. Qed.
Print Assumptions C73_any_moment.

Theorem C73_finite : forall N E x (f : nat -> bool * (list (mat N) * task (N := N)) ),
  ~ (forall n, cstep E x (f n) (f (Datatypes.S n))).
Proof. exact @cancel_finite. Qed.
Print Assumptions C73_finite.

Theorem C73_cells : forall N E x (w : world N) a b (A B : mat N) R n C f g d (h : list (mat N)) t p,
  sane N -> reachable w -> obj w a A -> obj w b B -> denotes A R n f -> denotes B n C g ->
  0 <= x -> n * n < 2 ^ 63 -> n * n <= Z.of_nat (e_fuel E) -> (n <= x -> R * C < 2 ^ 63) -> (x < n -> 2 * (n / 2) <= R /\ 2 * (n / 2) <= C) -> e_ctx E <> None ->
  csteps E x (false, (w_heap w, begin E x a b)) (d, (h, t)) -> finished t = Some p ->
  let l := survivors (Z.to_nat n) x n in let R' := if n <=? x then R else zlen l in let C' := if n <=? x then C else zlen l in
  exists w' q M O F k, MultiplyCrossoverPoint (bg E) (fun _ => seven) a b x w = (w', Ok q) /\ obj w' q M /\ denotes M R' C' F /\
    nth_error h p = Some O /\ is_dense O /\ denotes O R' C' k /\ (forall i j, 0 <= i < R' -> 0 <= j < C' -> k i j = n0 \/ k i j = F i j) /\ (d = false -> O = M).
Proof. exact @strassen_cells. Qed.
Print Assumptions C73_cells.

Theorem C73_product : forall N E (w : world N) crossover (a b : ptr) A B m k f g d h t p,
  let n := m * 2 ^ Z.of_nat k in
  ring_ok N -> sane N -> e_ctx E <> None -> dense_unregistered N E ->
  0 <= m <= crossover -> n * n < 2 ^ 63 -> n * n <= Z.of_nat (e_fuel E) ->
  reachable w -> obj w a A -> obj w b B -> denotes A n n f -> denotes B n n g -> (is_dense A /\ is_dense B \/ crossover < n) ->
  csteps E crossover (false, (w_heap w, begin E crossover a b)) (d, (h, t)) -> finished t = Some p ->
  exists O c, nth_error h p = Some O /\ is_dense O /\ denotes O n n c /\
    (forall i j, 0 <= i < n -> 0 <= j < n -> c i j = n0 \/ c i j = sum_from n0 (fun l => nmul (f i l) (g l j)) 0 n) /\
    (d = false -> forall i j, 0 <= i < n -> 0 <= j < n -> c i j = sum_from n0 (fun l => nmul (f i l) (g l j)) 0 n).
Proof. exact @strassen_cells_product. Qed.
Print Assumptions C73_product.

Example C73_case : sane num_goint /\ ring_ok num_goint /\ dense_unregistered num_goint E73 /\ e_ctx E73 <> None /\ reachable mathw /\ obj mathw 2 o4 /\ obj mathw 3 o4' /\
  denotes o4 4 4 (cell_of d4) /\ denotes o4' 4 4 (cell_of d4') /\
  (exists h t p, csteps E73 1 (false, (w_heap mathw, begin E73 1 2 3)) (true, (h, t)) /\ finished t = Some p /\
    viewed h p = Some (2%nat, (4, 4), [[gi 17; gi 27; gi 32; gi 41]; [gi 0; gi 0; gi 0; gi 0]; [gi 3; gi 1; gi 2; gi 1]; [gi 0; gi 0; gi 0; gi 0]], ([], []))) /\
  (exists h t p, csteps E73 1 (false, (w_heap mathw, begin E73 1 2 3)) (true, (h, t)) /\ finished t = Some p /\
    viewed h p = Some (2%nat, (4, 4), [[gi 0; gi 0; gi 0; gi 0]; [gi 0; gi 0; gi 0; gi 0]; [gi 0; gi 0; gi 0; gi 0]; [gi 0; gi 0; gi 0; gi 0]], ([], []))).
Proof.
  split; [exact goint_sane|]. split; [exact goint_ring|]. split; [exact (goint_unregistered E73 eq_refl)|]. split; [discriminate|]. split; [exact mathw_reachable|].
  split; [exact k2|]. split; [exact k3|]. split; [exact z2|]. split; [exact z3|]. split; [exact run73|exact zero73].
Qed.
