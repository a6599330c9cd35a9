(** Properties of the arrays behind the matrices and vectors: C62-C64.

    Here an object holds slices of arrays, and a program is a list of calls and of the
    caller's own reads and writes of slices (Slices.v).  [run sp p] runs the program [p] from
    nothing; [sp] says how much spare room Go's [append] leaves in the arrays it allocates,
    and what lies there.  [see st x]: what the object or slice [x] shows.  [target a]: the
    object or slice that the step [a] is called on, if it may change it.  [groups p]: which
    objects and slices share arrays, read off the program text alone.  [touches gs a j]: the
    step [a] is called on something in the group of [j].  [l_run p]: the same program when
    every object and slice is a list of its own. *)
From Verif Require Import GoBase Num SparseVec Csr Csc DenseVec DenseMat Mat World Ops Api Witness Slices SlicesProofs SlicesThms SlicesRoom SlicesWitness.
Import ListNotations.

(** ** C62 *)

Theorem C62_changes_nothing_else : forall N (sp : nat -> spare N) p st ts sp' a st' ts' t j,
  run sp p = Ok (st, ts) -> do sp' st ts a = Ok (st', ts') ->
  (exists o, nth_error ts t = Some (TObj o) /\ sparse_thing (TObj o) = true) -> target a = Some t ->
  (j < length ts)%nat -> j <> t -> nth_error (map (see st') ts') j = nth_error (map (see st) ts) j.
Proof. exact @changing_a_sparse_object_changes_nothing_else. Qed.
Print Assumptions C62_changes_nothing_else.

Theorem C62_changed_by_nothing_else : forall N (sp : nat -> spare N) p st ts sp' a st' ts' j,
  run sp p = Ok (st, ts) -> do sp' st ts a = Ok (st', ts') ->
  (exists o, nth_error ts j = Some (TObj o) /\ sparse_thing (TObj o) = true) -> target a <> Some j ->
  nth_error (map (see st') ts') j = nth_error (map (see st) ts) j.
Proof. exact @sparse_objects_change_alone. Qed.
Print Assumptions C62_changed_by_nothing_else.

Example C62_case : let seen p := shown_all (rmap (fun r => map (see (fst r)) (snd r)) (run (fun _ => no_spare) p)) in
  seen (firstn 4 prog) = [[[gi 9; gi 0]; [gi 2; gi 3]]; [[gi 1; gi 2; gi 3]]; [[gi 1; gi 2; gi 3]]] /\
  seen (firstn 5 prog) = [[[gi 9; gi 0]; [gi 2; gi 3]]; [[gi 1; gi 7; gi 2; gi 3]]; [[gi 1; gi 2; gi 3]]].
Proof. split; vm_compute; reflexivity. Qed.

(** ** C63: false of the code: dense matrices and vectors keep the caller's slices, and
    RawMatrix gives theirs away.  A change stays within the group of objects and slices that
    share arrays; and those do show the same elements, until Clear or ReSize. *)

Theorem C63_independence_refuted :
  ~ (forall N (sp : nat -> spare N) p st ts sp' a st' ts' t j,
  run sp p = Ok (st, ts) -> do sp' st ts a = Ok (st', ts') -> target a = Some t -> (j < length ts)%nat -> j <> t ->
  nth_error (map (see st') ts') j = nth_error (map (see st) ts) j).
Proof. exact dense_alone_no. Qed.
Print Assumptions C63_independence_refuted.

Theorem C63_changes_stay_in_group_partial : forall N (sp : nat -> spare N) p st ts sp' a st' ts' j,
  run sp p = Ok (st, ts) -> do sp' st ts a = Ok (st', ts') -> (j < length ts)%nat -> ~ touches (groups p) a j ->
  nth_error (map (see st') ts') j = nth_error (map (see st) ts) j.
Proof. exact @changes_stay_in_group. Qed.
Print Assumptions C63_changes_stay_in_group_partial.

Theorem C63_changed_as_a_list_partial : forall N (sp : nat -> spare N) p st ts sp' a,
  run sp p = Ok (st, ts) -> exact_act a ->
  sim (fun r ls => forall j, (touches (groups p) a j -> target a = Some j) ->
                     nth_error (map (see (fst r)) (snd r)) j = nth_error ls j)
      (do sp' st ts a) (l_step (map (see st) ts) a).
Proof. exact @targets_follow_the_lists. Qed.
Print Assumptions C63_changed_as_a_list_partial.

Theorem C63_vector_and_slice_stay_one : forall N (sp : nat -> spare N) p st ts sp1 t st1 ts1 (sp2 : nat -> spare N) q st2 ts2,
  run sp p = Ok (st, ts) -> do sp1 st ts (AFrom FDV t) = Ok (st1, ts1) -> do_all sp2 st1 ts1 q = Ok (st2, ts2) ->
  Forall (fun a => ~ leaves (length ts) a) q ->
  exists xs, nth_error (map (see st2) ts2) t = Some (LArr xs) /\
             nth_error (map (see st2) ts2) (length ts) = Some (LObj (MDV (MkDV (zlen xs) xs))).
Proof. exact @vector_and_slice_stay_one. Qed.
Print Assumptions C63_vector_and_slice_stay_one.

Theorem C63_matrix_and_slices_stay_one : forall N (sp : nat -> spare N) p st ts sp1 t st1 ts1 (sp2 : nat -> spare N) q st2 ts2,
  run sp p = Ok (st, ts) -> do sp1 st ts (AFrom FDM t) = Ok (st1, ts1) -> do_all sp2 st1 ts1 q = Ok (st2, ts2) ->
  Forall (fun a => ~ leaves (length ts) a) q ->
  exists c xss, nth_error (map (see st2) ts2) t = Some (LArr2 xss) /\
             nth_error (map (see st2) ts2) (length ts) = Some (LObj (MDM (MkDense c (zlen xss) xss))).
Proof. exact @matrix_and_slices_stay_one. Qed.
Print Assumptions C63_matrix_and_slices_stay_one.

Theorem C63_matrix_and_raw_stay_one : forall N (sp : nat -> spare N) p st ts sp1 t st1 ts1 (sp2 : nat -> spare N) q st2 ts2,
  run sp p = Ok (st, ts) -> do sp1 st ts (ARaw t) = Ok (st1, ts1) -> do_all sp2 st1 ts1 q = Ok (st2, ts2) ->
  Forall (fun a => ~ leaves t a) q ->
  exists c r xss, nth_error (map (see st2) ts2) t = Some (LObj (MDM (MkDense c r xss))) /\
                  nth_error (map (see st2) ts2) (length ts) = Some (LArr2 xss).
Proof. exact @matrix_and_raw_stay_one. Qed.
Print Assumptions C63_matrix_and_raw_stay_one.

(** a vector changes the slice it was made from; a slice of rows changes the matrix; growing a vector overwrites the rest of the slice *)

Theorem C63_vector_writes_through : forall N (x y : T N) (sp : nat -> spare N),
  rmap (fun r => map (see (fst r)) (snd r)) (run sp [AMake [x] []; AFrom FDV 0; ASet 1 0 0 y]) =
  Ok [LArr [y]; LObj (MDV (MkDV 1 [y]))].
Proof. exact @vector_writes_through. Qed.
Print Assumptions C63_vector_writes_through.

Theorem C63_slice_writes_through : forall N (x y : T N) (sp : nat -> spare N),
  rmap (fun r => map (see (fst r)) (snd r)) (run sp [AMake2 [[x]]; AFrom FDM 0; APoke2 0 0 0 y]) =
  Ok [LArr2 [[y]]; LObj (MDM (MkDense 1 1 [[y]]))].
Proof. exact @slice_writes_through. Qed.
Print Assumptions C63_slice_writes_through.

Theorem C63_raw_writes_through : forall N (y : T N) (sp : nat -> spare N),
  rmap (fun r => map (see (fst r)) (snd r)) (run sp [ANew FDM 1 1; ARaw 0; APoke2 1 0 0 y]) =
  Ok [LObj (MDM (MkDense 1 1 [[y]])); LArr2 [[y]]].
Proof. exact @raw_writes_through. Qed.
Print Assumptions C63_raw_writes_through.

Theorem C63_growing_writes_through : forall N (x y : T N) (sp : nat -> spare N),
  rmap (fun r => map (see (fst r)) (snd r)) (run sp [AMake [x; y] []; ASub 0 0 1; AFrom FDV 1; AReSize 2 2]) =
  Ok [LArr [x; n0]; LArr [x]; LObj (MDV (MkDV 2 [x; n0]))].
Proof. exact @growing_writes_through. Qed.
Print Assumptions C63_growing_writes_through.

Example C63_case : let p := [AMake [gi 1; gi 2; gi 3] []; ASub 0 1 3; AFrom FDV 1; AFrom FSV 0; ASet 2 0 0 (gi 8); AClear 2] in
  groups p = [0; 0; 5; 3]%nat /\ groups (firstn 5 p) = [0; 0; 0; 3]%nat /\ 
  shown_all (rmap (fun r => map (see (fst r)) (snd r)) (run (fun _ => no_spare) p)) = [[[gi 1; gi 8; gi 3]]; [[gi 8; gi 3]]; [[gi 0; gi 0]]; [[gi 1; gi 2; gi 3]]].
Proof. split; [reflexivity|]. split; [reflexivity|]. vm_compute. reflexivity. Qed.

(** ** C64: every program that resizes to sizes >= 0 only ([sized]), whatever it shares;
    without sharing it behaves as the list model of the other files.  Resizing to a negative
    size does show the spare room. *)

Theorem C64_spare_room_unseen : forall N (sp sp' : nat -> spare N) p,
  Forall sized p ->
  rmap (fun r => map (see (fst r)) (snd r)) (run sp p) = rmap (fun r => map (see (fst r)) (snd r)) (run sp' p).
Proof. exact @spare_room_unseen_always. Qed.
Print Assumptions C64_spare_room_unseen.

Theorem C64_as_lists : forall N (sp : nat -> spare N) p,
  Forall exact_act p -> Forall unshared p ->
  rmap (fun r => map (see (fst r)) (snd r)) (run sp p) = l_run p.
Proof. exact @unshared_programs_follow_the_lists. Qed.
Print Assumptions C64_as_lists.

Theorem C64_not_for_negative_sizes :
  ~ (forall N (sp sp' : nat -> spare N) p,
  rmap (fun r => map (see (fst r)) (snd r)) (run sp p) = rmap (fun r => map (see (fst r)) (snd r)) (run sp' p)).
Proof. exact spare_room_unseen_no. Qed.
Print Assumptions C64_not_for_negative_sizes.

Theorem C64_negative_size : forall (N : num),
  let p := [ANew (N := N) FDV 1 0; AReSize 0 2; AReSize 0 (-1)] in
  run (fun _ => no_spare) p = Panic /\
  rmap (fun r => map (see (fst r)) (snd r)) (run (fun _ => MkSpare [n0] [] [] []) p) = Ok [LObj (MDV (MkDV 3 [n0; n0; n0]))].
Proof. exact @negative_size. Qed.
Print Assumptions C64_negative_size.

Example C64_case : Forall exact_act prog /\ Forall unshared prog /\
  shown_all (l_run prog) = [[[gi 9; gi 0]; [gi 2; gi 3]]; [[gi 4]]; [[gi 1; gi 3]]; [[gi 1; gi 7]]].
Proof. destruct prog_unshared as [H1 H2]. split; [exact H1|]. split; [exact H2|]. exact prog_shows. Qed.

(** the program of [prog_sharing] grows a vector within the caller's array, where the others
    see it, and then out of it *)
Example C64_sharing_case : Forall sized prog_sharing /\
  shown_all (rmap (fun r => map (see (fst r)) (snd r)) (run (fun _ => MkSpare [gi 4; gi 4] [] [] []) prog_sharing)) =
    [[[gi 5; gi 7; gi 0]]; [[gi 5; gi 7]]; [[gi 9; gi 6; gi 0; gi 0; gi 0; gi 0]]; [[gi 5; gi 7]]].
Proof. split; [repeat constructor; discriminate|]. vm_compute. reflexivity. Qed.
