(** Concrete functions that call the API (csrMatrix.go:73-96, 393-401, denseVector.go:118-129). *)
From Coq Require Import String.
From Verif Require Import GoBase Num SparseVec Csr Csc DenseVec DenseMat Mat World Ops Spec Api.
From Verif Require Import StoreProofs StoreThms Witness StoreWitness OpsWitness Iters IterThms IterWitness Callbacks CallbackThms.

(** both sides are computed and compared *)
Ltac vmeq := match goal with |- _ = ?b => vm_cast_no_check (@eq_refl _ b) end.

Definition always (w : world num_goint) : Prop := True.

(** sets element (i,j) of object 0 to [v], then returns its argument plus one *)
Definition meddle (i j : Z) (v : T num_goint) (x : T num_goint) : M num_goint (T num_goint) := p_Set 0 i j v ;!; mret (nadd x (gi 1)).
(** ... and then panics *)
Definition meddle_panic (i j : Z) (v : T num_goint) (x : T num_goint) : M num_goint (T num_goint) := p_Set 0 i j v ;!; mpanic.

(** ** The place is left alone: demo has (0,0) = 5, (2,1) = 7, (2,3) = -1 *)
Lemma undisturbed_case : exists (w w1 : world num_goint) f m l v x m1 l1, reachable w /\ obj w 0 m /\ enumerates m l /\ mat_At m 2 1 = Ok (v, m) /\
  f v w = (w1, Ok x) /\ later always w w1 /\ obj w1 0 m1 /\ enumerates m1 l1 /\ same_slot m l l1 (2, 1) /\ v = gi 7 /\ x = gi 8 /\
  l = [(0, 0, gi 5); (2, 1, gi 7); (2, 3, gi (-1))] /\ l1 = [(0, 0, gi 5); (2, 1, gi 7); (2, 3, gi 8)].
Proof.
  exists demo, w1, (meddle 2 3 (gi 8)), (MCSR demo0), l0, (gi 7), (gi 8), m1, l1. split; [apply demo_reachable|]. split; [exact demo_obj0|]. split; [exact en0|].
  split; [vmeq|]. split; [vmeq|]. split; [apply later_call with (w1 := demo); [constructor|exact I|exact I]|].
  split; [exact ob1|]. split; [exact en1|]. split; [|auto]. intros _. split; [reflexivity|]. cbn. tauto.
Qed.

Lemma panics_case : exists (w w1 : world num_goint) (f : T num_goint -> M num_goint (T num_goint)) m v, reachable w /\ obj w 0 m /\ mat_At m 2 1 = Ok (v, m) /\ f v w = (w1, Panic) /\ p_At 0 2 3 w1 = (w1, Ok (gi 8)).
Proof.
  exists demo, w1, (meddle_panic 2 3 (gi 8)), (MCSR demo0), (gi 7). split; [apply demo_reachable|]. split; [exact demo_obj0|]. split; [vmeq|]. split; vmeq.
Qed.

(** ** One element, (0,2) = 1, in a 1 x 3 CSR matrix; the function sets (0,0) *)
Definition tw : world num_goint := after_all [KNewCSR 1 3; KSet 0 0 2 (gi 1)] empty_world.
Definition tm : mat num_goint := MCSR (MkCSR 1 3 [gi 1] [2] [0; 1]).
Definition tl0 : list (Z * Z * T num_goint) := [(0, 2, gi 1)].
Definition tw1 : world num_goint := after (KSet 0 0 0 (gi 9)) tw.
Definition tm1 : mat num_goint := MCSR (MkCSR 1 3 [gi 9; gi 1] [0; 2] [0; 2]).
Definition tl1 : list (Z * Z * T num_goint) := [(0, 0, gi 9); (0, 2, gi 1)].
Lemma twr : reachable tw. Proof. unfold tw. reach_calls. Qed.
Lemma two : obj tw 0 tm. Proof. at_obj. Qed.
Lemma twe : enumerates tm tl0. Proof. enum_n. Qed.
Lemma two1 : obj tw1 0 tm1. Proof. at_obj. Qed.
Lemma twe1 : enumerates tm1 tl1. Proof. enum_n. Qed.
Lemma tlater : later always tw tw1.
Proof. apply later_call with (w1 := tw); [constructor|exact I|exact I]. Qed.

Lemma shifted_case : exists (w w1 : world num_goint) f m l v x m1 l1, reachable w /\ obj w 0 m /\ enumerates m l /\ mat_At m 0 2 = Ok (v, m) /\
  f v w = (w1, Ok x) /\ later always w w1 /\ obj w1 0 m1 /\ enumerates m1 l1 /\ lined m = true /\ In (0, 2) (map fst l) /\
  nth_error l1 (length (filter (precedes m (0, 2)) l)) = Some (0, 0, gi 9) /\ x = gi 2.
Proof.
  exists tw, tw1, (meddle 0 0 (gi 9)), tm, tl0, (gi 1), (gi 2), tm1, tl1. split; [exact twr|]. split; [exact two|]. split; [exact twe|].
  split; [vmeq|]. split; [vmeq|]. split; [exact tlater|]. split; [exact two1|]. split; [exact twe1|]. split; [reflexivity|]. split; [left; reflexivity|]. split; reflexivity.
Qed.

Lemma update_is_set_no : ~ (forall N (P : world N -> Prop) p r c (f : T N -> M N (T N)) (w : world N) m v w1 x, sane N -> reachable w -> obj w p m ->
  0 <= r < mat_Rows m -> 0 <= c < mat_Columns m -> mat_At m r c = Ok (v, m) -> f v w = (w1, Ok x) -> later P w w1 ->
  p_UpdateM p r c f w = p_Set p r c x w1).
Proof.
  intros H. specialize (H num_goint always 0%nat 0 2 (meddle 0 0 (gi 9)) tw tm (gi 1) tw1 (gi 2) goint_sane twr two).
  assert (Q : p_UpdateM 0 0 2 (meddle 0 0 (gi 9)) tw = p_Set 0 0 2 (gi 2) tw1) by (apply H; [cbn; lia|cbn; lia|vmeq|vmeq|exact tlater]).
  apply (f_equal (fun q => snd (p_At 0 0 0 (fst q)))) in Q. vm_compute in Q. discriminate.
Qed.

(** nothing stored at (0,2): the function's element (0,0) is lost *)
Definition uw : world num_goint := after_all [KNewCSR 1 3] empty_world.
Definition um : mat num_goint := MCSR (MkCSR 1 3 [] [] [0; 0]).
Definition uw1 : world num_goint := after (KSet 0 0 0 (gi 9)) uw.
Definition um1 : mat num_goint := MCSR (MkCSR 1 3 [gi 9] [0] [0; 1]).
Lemma uwr : reachable uw. Proof. unfold uw. reach_calls. Qed.
Lemma uwo : obj uw 0 um. Proof. at_obj. Qed.
Lemma uwo1 : obj uw1 0 um1. Proof. at_obj. Qed.
Lemma ulater : later always uw uw1.
Proof. apply later_call with (w1 := uw); [constructor|exact I|exact I]. Qed.
Lemma update_reads_back_no : ~ (forall N (P : world N -> Prop) p r c (f : T N -> M N (T N)) (w : world N) m v w1 x w2, sane N -> reachable w -> obj w p m ->
  0 <= r < mat_Rows m -> 0 <= c < mat_Columns m -> mat_At m r c = Ok (v, m) -> f v w = (w1, Ok x) -> later P w w1 ->
  p_UpdateM p r c f w = (w2, Ok tt) -> snd (p_At p r c w2) = Ok x).
Proof.
  intros H. specialize (H num_goint always 0%nat 0 2 (meddle 0 0 (gi 9)) uw um (gi 0) uw1 (gi 1) (fst (p_UpdateM 0 0 2 (meddle 0 0 (gi 9)) uw)) goint_sane uwr uwo).
  assert (Q : snd (p_At 0 0 2 (fst (p_UpdateM 0 0 2 (meddle 0 0 (gi 9)) uw))) = Ok (gi 1)).
  { apply H; [cbn; lia|cbn; lia|vmeq|vmeq|exact ulater|]. apply run_ok. vm_compute. reflexivity. }
  vm_compute in Q. discriminate.
Qed.

(** ** [Map] *)
Definition meddle3 (i j : Z) (v : T num_goint) (a b : Z) (x : T num_goint) : M num_goint (T num_goint) := meddle i j v x.

Lemma values_case : exists (w w1 : world num_goint) hs cs it cu m l (f : Z -> Z -> T num_goint -> M num_goint (T num_goint)) x e m1 l1,
  follows (keeps 0 ps0) w hs cs /\ nth_error hs 0 = Some (0%nat, it) /\ nth_error cs 0 = Some (0%nat, cu) /\ obj w 0 m /\ enumerates m l /\
  zlen (cu_seen cu) < zlen ps0 /\ nth_error l (length (cu_seen cu)) = Some e /\ f (fst (fst e)) (snd (fst e)) (snd e) w = (w1, Ok x) /\
  later (keeps 0 ps0) w w1 /\ obj w1 0 m1 /\ enumerates m1 l1 /\ e = (2, 1, gi 7) /\ x = gi 8.
Proof.
  assert (K0 : keeps 0 ps0 demo) by (exists (MCSR demo0), l0; split; [exact demo_obj0|]; split; [exact en0|reflexivity]).
  assert (F0 : follows (keeps 0 ps0) demo [] []) by (apply fol_start; [apply demo_reachable|exact K0]).
  assert (F1 : follows (keeps 0 ps0) demo [(0%nat, i0)] [(0%nat, c0)]) by exact (fol_open _ _ _ _ _ _ F0 demo_obj0).
  assert (F2 : follows (keeps 0 ps0) demo [(0%nat, i1)] [(0%nat, c1)]) by exact (fol_next _ _ _ _ 0 _ _ _ _ _ (0, 0, gi 5) i1 F1 eq_refl eq_refl demo_obj0 en0 eq_refl).
  exists demo, w1, [(0%nat, i1)], [(0%nat, c1)], i1, c1, (MCSR demo0), l0, (meddle3 2 3 (gi 8)), (gi 8), (2, 1, gi 7), m1, l1.
  split; [exact F2|]. split; [reflexivity|]. split; [reflexivity|]. split; [exact demo_obj0|]. split; [exact en0|]. split; [vm_compute; reflexivity|]. split; [reflexivity|]. split; [vmeq|].
  split; [apply later_call with (w1 := demo); [constructor|exact I|]|].
  - exists m1, l1. split; [exact ob1|]. split; [exact en1|reflexivity].
  - split; [exact ob1|]. split; [exact en1|]. auto.
Qed.

Lemma t_open : follows always tw [(0%nat, mat_iterator tm)] [(0%nat, start tm)].
Proof. apply (fol_open _ tw [] [] 0%nat tm); [|exact two]. apply fol_start; [exact twr|exact I]. Qed.
Lemma calls_case : exists (w w1 : world num_goint) hs cs it cu m l (f : Z -> Z -> T num_goint -> M num_goint (T num_goint)) x e m1 l1,
  follows always w hs cs /\ nth_error hs 0 = Some (0%nat, it) /\ nth_error cs 0 = Some (0%nat, cu) /\ obj w 0 m /\ enumerates m l /\
  shown m (cu_place cu) l = Ok e /\ f (fst (fst e)) (snd (fst e)) (snd e) w = (w1, Ok x) /\ later always w w1 /\ obj w1 0 m1 /\ enumerates m1 l1 /\
  e = (0, 2, gi 1) /\ nth_error l1 (number m (cu_place cu) l e) = Some (0, 0, gi 9) /\ neqb x n0 = false.
Proof.
  exists tw, tw1, [(0%nat, mat_iterator tm)], [(0%nat, start tm)], (mat_iterator tm), (start tm), tm, tl0, (meddle3 0 0 (gi 9)), (gi 2), (0, 2, gi 1), tm1, tl1.
  split; [exact t_open|]. split; [reflexivity|]. split; [reflexivity|]. split; [exact two|]. split; [exact twe|]. split; [reflexivity|]. split; [vmeq|]. split; [exact tlater|]. split; [exact two1|]. split; [exact twe1|]. auto.
Qed.

(** two iterators: within the function of the first, the second is moved and (0,0) is set *)
Lemma back_case : exists (w : world num_goint) hs cs it cu m l seen e, follows always w hs cs /\ nth_error hs 0 = Some (0%nat, it) /\ nth_error cs 0 = Some (0%nat, cu) /\ obj w 0 m /\ enumerates m l /\
  cu_seen cu = seen ++ [e] /\ nth_error l (cu_spot cu) = Some (0, 0, gi 9) /\ e = (0, 2, gi 1) /\ length hs = 2%nat.
Proof.
  assert (F1 : follows always tw [(0%nat, mat_iterator tm); (0%nat, mat_iterator tm)] [(0%nat, start tm); (0%nat, start tm)]) by exact (fol_open _ _ _ _ _ _ t_open two).
  pose proof (fol_next _ _ _ _ 0 _ _ _ _ _ (0, 2, gi 1) (next_it tm (mat_iterator tm)) F1 eq_refl eq_refl two twe eq_refl) as F2.
  pose proof (fol_next _ _ _ _ 1 _ _ _ _ _ (0, 2, gi 1) (next_it tm (mat_iterator tm)) F2 eq_refl eq_refl two twe eq_refl) as F3.
  pose proof (fol_call _ _ _ _ (KSet 0 0 0 (gi 9)) F3 I I) as F4. do 9 eexists. split; [exact F4|]. split; [reflexivity|]. split; [reflexivity|]. split; [exact two1|]. split; [exact twe1|].
  split; [|split; [reflexivity|split; reflexivity]]. instantiate (1 := []). reflexivity.
Qed.

Definition res_world {N} (q : world N * iter * res unit) : world N := fst (fst q).

(** (0,0) is set while (0,2) is mapped: (0,0) is overwritten and (0,2) is not *)
Lemma map_writes_shown_no : ~ (forall N (P : world N -> Prop) p (f : Z -> Z -> T N -> M N (T N)) (w : world N) m it1 i j v w1 x w2 it2, sane N -> reachable w -> obj w p m ->
  mat_Next m (mat_iterator m) = Ok (i, j, v, it1) -> f i j v w = (w1, Ok x) -> later P w w1 -> neqb x n0 = false ->
  p_MapM p (mat_iterator m) f w = (w2, it2, Ok tt) -> snd (p_At p i j w2) = Ok x).
Proof.
  intros H. specialize (H num_goint always 0%nat (meddle3 0 0 (gi 9)) tw tm (next_it tm (mat_iterator tm)) 0 2 (gi 1) tw1 (gi 2)
    (res_world (p_MapM 0 (mat_iterator tm) (meddle3 0 0 (gi 9)) tw)) (next_it tm (mat_iterator tm)) goint_sane twr two).
  assert (Q : snd (p_At 0 0 2 (res_world (p_MapM 0 (mat_iterator tm) (meddle3 0 0 (gi 9)) tw))) = Ok (gi 2)).
  { apply H; [vmeq|vmeq|exact tlater|reflexivity|vmeq]. }
  vm_compute in Q. discriminate.
Qed.

(** (1,0) is to become zero and the function sets (0,1): an element appears at (0,0) *)
Definition zw : world num_goint := after_all [KNewCSR 2 2; KSet 0 1 0 (gi 1)] empty_world.
Definition zm : mat num_goint := MCSR (MkCSR 2 2 [gi 1] [0] [0; 0; 1]).
Definition zw1 : world num_goint := after (KSet 0 0 1 (gi 9)) zw.
Definition meddle0 (i j : Z) (v : T num_goint) (a b : Z) (x : T num_goint) : M num_goint (T num_goint) := p_Set 0 i j v ;!; mret (gi 0).
Lemma zwr : reachable zw. Proof. unfold zw. reach_calls. Qed.
Lemma zwo : obj zw 0 zm. Proof. at_obj. Qed.
Lemma zlater : later always zw zw1.
Proof. apply later_call with (w1 := zw); [constructor|exact I|exact I]. Qed.
Lemma map_elsewhere_no : ~ (forall N (P : world N -> Prop) p (f : Z -> Z -> T N -> M N (T N)) (w : world N) m it1 i j v w1 x w2 it2 i' j', sane N -> reachable w -> obj w p m ->
  mat_Next m (mat_iterator m) = Ok (i, j, v, it1) -> f i j v w = (w1, Ok x) -> later P w w1 ->
  p_MapM p (mat_iterator m) f w = (w2, it2, Ok tt) -> snd (p_At p i' j' w1) = Ok n0 -> snd (p_At p i' j' w2) = Ok n0).
Proof.
  intros H. specialize (H num_goint always 0%nat (meddle0 0 1 (gi 9)) zw zm (next_it zm (mat_iterator zm)) 1 0 (gi 1) zw1 (gi 0)
    (res_world (p_MapM 0 (mat_iterator zm) (meddle0 0 1 (gi 9)) zw)) (next_it zm (mat_iterator zm)) 0 0 goint_sane zwr zwo).
  assert (Q : snd (p_At 0 0 0 (res_world (p_MapM 0 (mat_iterator zm) (meddle0 0 1 (gi 9)) zw))) = Ok (gi 0)).
  { apply H; [vmeq|vmeq|exact zlater|vmeq|vmeq]. }
  vm_compute in Q. discriminate.
Qed.

(** the function removes the element: [Map] panics *)
Definition rw1 : world num_goint := after (KSet 0 0 2 (gi 0)) tw.
Lemma rlater : later always tw rw1.
Proof. apply later_call with (w1 := tw); [constructor|exact I|exact I]. Qed.
Lemma map_panics_no : ~ (forall N (P : world N -> Prop) p (f : Z -> Z -> T N -> M N (T N)) (w : world N) m it1 i j v w1 x, sane N -> reachable w -> obj w p m ->
  mat_Next m (mat_iterator m) = Ok (i, j, v, it1) -> f i j v w = (w1, Ok x) -> later P w w1 ->
  snd (p_MapM p (mat_iterator m) f w) = Ok tt).
Proof.
  intros H. specialize (H num_goint always 0%nat (meddle3 0 2 (gi 0)) tw tm (next_it tm (mat_iterator tm)) 0 2 (gi 1) rw1 (gi 2) goint_sane twr two).
  assert (Q : snd (p_MapM 0 (mat_iterator tm) (meddle3 0 2 (gi 0)) tw) = Ok tt) by (apply H; [vmeq|vmeq|exact rlater]).
  vm_compute in Q. discriminate.
Qed.

(** ** A loop that panics at the second of three elements *)
Definition until7 (a b : Z) (x : T num_goint) : res (T num_goint) := if neqb x (gi 7) then Panic else Ok (nadd x (gi 1)).
Definition until7M (a b : Z) (x : T num_goint) : M num_goint (T num_goint) := fun w => (w, until7 a b x).
Lemma loop_case : exists (w : world num_goint) m l (f : Z -> Z -> T num_goint -> M num_goint (T num_goint)) g, reachable w /\ obj w 0 m /\ enumerates m l /\ (forall i j v w, f i j v w = (w, g i j v)) /\
  (forall e x, In e l -> g (fst (fst e)) (snd (fst e)) (snd e) = Ok x -> sparse_obj m = false \/ neqb x n0 = false) /\
  mapped_until g l = ([(0, 0, gi 6); (2, 1, gi 7); (2, 3, gi 8)], Panic).
Proof.
  exists w1, m1, l1, until7M, until7. split; [apply reach_call; [apply demo_reachable|exact I]|]. split; [exact ob1|]. split; [exact en1|]. split; [reflexivity|]. split; [|vmeq].
  intros e x Hin Hg. right. cbn in Hin. destruct Hin as [<-|[<-|[<-|[]]]]; vm_compute in Hg; try discriminate; injection Hg as <-; reflexivity.
Qed.
