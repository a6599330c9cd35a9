(** Property C74: iterators kept open while the program goes on.

    [follows P w hs cs]: a history that reached the world [w] with the open iterators [hs]; [cs] holds for each what it
    has shown and where it is; [P] was true all along (Iters.v).  [shown m pl l]: what an iterator at the place [pl]
    shows when the elements of the object are [l].  [settled]: there are still as many elements before it, and after it
    in its line, as when it came there.  [upcoming]: the elements ahead. *)
From Coq Require Import String.
From Verif Require Import GoBase Num SparseVec Csr Csc DenseVec DenseMat Mat World Ops Spec Api.
From Verif Require Import StoreProofs StoreThms OpsProps Witness StoreWitness OpsWitness Iters IterThms IterWitness.
Import ListNotations.

(** ** As long as no position is added or removed, the positions are shown in order, each once, each with the value it has then *)

Theorem C74_values_may_change_while_iterating : forall N p ps (w : world N) hs cs k it p' cu m l,
  sane N -> follows (keeps p ps) w hs cs ->
  nth_error hs k = Some (p, it) -> nth_error cs k = Some (p', cu) -> obj w p m -> enumerates m l ->
  zlen (cu_seen cu) <= zlen ps ->
  map fst l = ps /\ settled m (cu_place cu) l /\
  exists done rest, l = done ++ rest /\ map fst (cu_seen cu) = map fst done /\
    match rest with
    | [] => mat_HasNext it = false
    | e :: _ => mat_HasNext it = true /\ (exists it', mat_Next m it = Ok (e, it')) /\ forall f, exists m' it' n, mat_MapNext m it f = Ok (e, m', it') /\
        nth_error l n = Some e /\ enumerates m' (put_at m l n e (f (fst (fst e)) (snd (fst e)) (snd e)))
    end.
Proof. exact @steady_iterator. Qed.
Print Assumptions C74_values_may_change_while_iterating.

Example C74_values_case : exists (w : world num_goint) hs cs it cu (m : mat num_goint) l, follows (keeps 0 ps0) w hs cs /\ nth_error hs 0 = Some (0%nat, it) /\ nth_error cs 0 = Some (0%nat, cu) /\
  obj w 0 m /\ enumerates m l /\ zlen (cu_seen cu) <= zlen ps0 /\
  cu_seen cu = [(0, 0, gi 5); (2, 1, gi 7)] /\ l = [(0, 0, gi 5); (2, 1, gi 14); (2, 3, gi 8)] /\ rmap fst (mat_Next m it) = Ok (2, 3, gi 8).
Proof. exact steady_case. Qed.

(** ** In general: exactly what [HasNext], [Next] and [Map] do *)

Theorem C74_open_iterator_exact : forall N (P : world N -> Prop) (w : world N) hs cs k p it p' cu m l,
  sane N -> follows P w hs cs ->
  nth_error hs k = Some (p, it) -> nth_error cs k = Some (p', cu) -> obj w p m -> enumerates m l ->
  p' = p /\ mat_HasNext it = (zlen (cu_seen cu) <? cu_total cu) /\
  match shown m (cu_place cu) l with
  | Ok e => (exists it', mat_Next m it = Ok (e, it')) /\
      (forall f, settled m (cu_place cu) l \/ neqb (f (fst (fst e)) (snd (fst e)) (snd e)) n0 = false ->
        exists m' it' l', mat_MapNext m it f = Ok (e, m', it') /\ enumerates m' l' /\
          mapped_to m (cu_place cu) l e (f (fst (fst e)) (snd (fst e)) (snd e)) l')
  | Panic => mat_Next m it = Panic
  | Diverge => mat_Next m it = Diverge
  end.
Proof. exact @open_iterator. Qed.
Print Assumptions C74_open_iterator_exact.

Example C74_exact_case : exists (w : world num_goint) hs cs it cu (m : mat num_goint) l, follows (fun _ => True) w hs cs /\ nth_error hs 0 = Some (0%nat, it) /\ nth_error cs 0 = Some (0%nat, cu) /\ obj w 0 m /\ enumerates m l /\
  ~ settled m (cu_place cu) l /\ shown m (cu_place cu) l = Ok (1, 2, gi 7).
Proof. exact exact_case. Qed.

(** ... and where nothing was shifted, that is the first element ahead *)

Theorem C74_open_iterator_settled : forall N (P : world N -> Prop) (w : world N) hs cs k p it p' cu m l,
  sane N -> follows P w hs cs ->
  nth_error hs k = Some (p, it) -> nth_error cs k = Some (p', cu) -> obj w p m -> enumerates m l -> settled m (cu_place cu) l ->
  match upcoming m (cu_place cu) l with
  | [] => mat_Next m it = Panic
  | e :: _ => (exists it', mat_Next m it = Ok (e, it')) /\ (forall f, exists m' it' n, mat_MapNext m it f = Ok (e, m', it') /\
      nth_error l n = Some e /\ enumerates m' (put_at m l n e (f (fst (fst e)) (snd (fst e)) (snd e))))
  end.
Proof. exact @settled_iterator. Qed.
Print Assumptions C74_open_iterator_settled.

Example C74_settled_case : exists (w : world num_goint) hs cs it cu (m : mat num_goint) l, follows (fun _ => True) w hs cs /\ nth_error hs 0 = Some (0%nat, it) /\ nth_error cs 0 = Some (0%nat, cu) /\ obj w 0 m /\ enumerates m l /\
  settled m (cu_place cu) l /\ upcoming m (cu_place cu) l = [(1, 0, gi 2); (1, 1, gi 3)] /\ cu_seen cu = [(0, 0, gi 1)] /\ cu_total cu = 2.
Proof. exact settled_case. Qed.

(** ** Hence an element stored all the time may not be shown (one was set ahead) ... *)

Theorem C74_every_element_shown_refuted :
  ~ (forall N (w : world N) hs cs k p it cu q, sane N ->
  follows (fun w => exists m l, obj w p m /\ enumerates m l /\ In q (map fst l)) w hs cs ->
  nth_error hs k = Some (p, it) -> nth_error cs k = Some (p, cu) -> mat_HasNext it = false -> In q (map fst (cu_seen cu))).
Proof. exact shows_all_no. Qed.
Print Assumptions C74_every_element_shown_refuted.

(** ... [Next] may panic though [HasNext] is true (one was removed ahead) ... *)

Theorem C74_next_does_not_panic_refuted :
  ~ (forall N (w : world N) hs cs k p it cu m, sane N -> follows (fun _ => True) w hs cs ->
  nth_error hs k = Some (p, it) -> nth_error cs k = Some (p, cu) -> obj w p m -> mat_HasNext it = true -> mat_Next m it <> Panic).
Proof. exact next_panics_no. Qed.
Print Assumptions C74_next_does_not_panic_refuted.

(** ... or not return (one was set before it, in the same line or an earlier one) ... *)

Theorem C74_next_returns_refuted :
  ~ (forall N (w : world N) hs cs k p it cu m, sane N -> follows (fun _ => True) w hs cs ->
  nth_error hs k = Some (p, it) -> nth_error cs k = Some (p, cu) -> obj w p m -> mat_HasNext it = true -> mat_Next m it <> Diverge).
Proof. exact next_returns_no. Qed.
Print Assumptions C74_next_returns_refuted.

(** ... or show an element that is not there ... *)

Theorem C74_shows_what_is_there_refuted :
  ~ (forall N (w : world N) hs cs k p it cu m l e it', sane N -> follows (fun _ => True) w hs cs ->
  nth_error hs k = Some (p, it) -> nth_error cs k = Some (p, cu) -> obj w p m -> enumerates m l ->
  mat_HasNext it = true -> mat_Next m it = Ok (e, it') -> In e l).
Proof. exact shows_stored_no. Qed.
Print Assumptions C74_shows_what_is_there_refuted.

(** ... and an element of a dense vector may be shown twice (it was shortened) *)

Theorem C74_shown_once_refuted :
  ~ (forall N (w : world N) hs cs k p it cu, sane N -> follows (fun _ => True) w hs cs ->
  nth_error hs k = Some (p, it) -> nth_error cs k = Some (p, cu) -> zlen (cu_seen cu) <= cu_total cu -> NoDup (map fst (cu_seen cu))).
Proof. exact shows_once_no. Qed.
Print Assumptions C74_shown_once_refuted.
