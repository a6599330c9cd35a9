(** Concrete histories with open iterators (csrMatrix.go:313-401, cscMatrix.go:328-411, denseVector.go:282-350). *)
From Coq Require Import String.
From Verif Require Import GoBase Num SparseVec Csr Csc DenseVec DenseMat Mat World Ops Spec Api.
From Verif Require Import StoreProofs StoreThms Witness StoreWitness OpsWitness Iters IterThms.

Definition next_it {N} (m : mat N) (it : iter) : iter := match mat_Next m it with Ok (_, i) => i | _ => it end.
Definition map_it {N} (m : mat N) (it : iter) f : iter := match mat_MapNext m it f with Ok (_, _, i) => i | _ => it end.
Ltac enum_n := let fuel := fresh "fuel" in let Hf := fresh in intros fuel Hf; match type of Hf with ?a <= _ => let b := eval vm_compute in a in change a with b in Hf end;
  repeat (destruct fuel as [|fuel]; [exfalso; lia|]); destruct fuel; reflexivity.

(** ** Values change, positions do not: the matrix has (0,0) = 5, (2,1) = 7, (2,3) = -1.  After the first element the
    program sets (2,3) to 8; the second one it doubles. *)
Definition ps0 : list (Z * Z) := [(0, 0); (2, 1); (2, 3)].
Definition w1 : world num_goint := after (KSet 0 2 3 (gi 8)) demo.
Definition m1 : mat num_goint := MCSR (MkCSR 3 4 [gi 5; gi 7; gi 8] [0; 1; 3] [0; 1; 1; 3]).
Definition m2 : mat num_goint := MCSR (MkCSR 3 4 [gi 5; gi 14; gi 8] [0; 1; 3] [0; 1; 1; 3]).
Definition dbl (i j : Z) (v : T num_goint) := nadd v v.
Definition l0 : list (Z * Z * T num_goint) := [(0, 0, gi 5); (2, 1, gi 7); (2, 3, gi (-1))].
Definition l1 : list (Z * Z * T num_goint) := [(0, 0, gi 5); (2, 1, gi 7); (2, 3, gi 8)].
Definition l2 : list (Z * Z * T num_goint) := [(0, 0, gi 5); (2, 1, gi 14); (2, 3, gi 8)].
Lemma en0 : enumerates (MCSR demo0) l0. Proof. enum_n. Qed.
Lemma en1 : enumerates m1 l1. Proof. enum_n. Qed.
Lemma en2 : enumerates m2 l2. Proof. enum_n. Qed.
Lemma ob1 : obj w1 0 m1. Proof. at_obj. Qed.
Lemma ob2 : obj (fst (store 0%nat m2 w1)) 0 m2. Proof. at_obj. Qed.

Definition i0 : iter := mat_iterator (MCSR demo0).
Definition i1 : iter := next_it (MCSR demo0) i0.
Definition i2 : iter := next_it m1 i1.
Definition c0 : cursor num_goint := start (MCSR demo0).
Definition c1 : cursor num_goint := advance (MCSR demo0) c0 l0 (0, 0, gi 5).
Definition c2 : cursor num_goint := advance m1 c1 l1 (2, 1, gi 7).

Lemma steady_case : exists (w : world num_goint) hs cs it cu (m : mat num_goint) l, follows (keeps 0 ps0) w hs cs /\ nth_error hs 0 = Some (0%nat, it) /\ nth_error cs 0 = Some (0%nat, cu) /\
  obj w 0 m /\ enumerates m l /\ zlen (cu_seen cu) <= zlen ps0 /\
  cu_seen cu = [(0, 0, gi 5); (2, 1, gi 7)] /\ l = [(0, 0, gi 5); (2, 1, gi 14); (2, 3, gi 8)] /\ rmap fst (mat_Next m it) = Ok (2, 3, gi 8).
Proof.
  assert (F0 : follows (keeps 0 ps0) demo [] []).
  { apply fol_start; [apply demo_reachable|]. exists (MCSR demo0), l0. split; [exact demo_obj0|]. split; [exact en0|reflexivity]. }
  assert (F1 : follows (keeps 0 ps0) demo [(0%nat, i0)] [(0%nat, c0)]) by exact (fol_open _ _ _ _ _ _ F0 demo_obj0).
  assert (F2 : follows (keeps 0 ps0) demo [(0%nat, i1)] [(0%nat, c1)]) by exact (fol_next _ _ _ _ 0 _ _ _ _ _ (0, 0, gi 5) i1 F1 eq_refl eq_refl demo_obj0 en0 eq_refl).
  assert (F3 : follows (keeps 0 ps0) w1 [(0%nat, i1)] [(0%nat, c1)]).
  { apply fol_call; [exact F2|exact I|]. exists m1, l1. split; [exact ob1|]. split; [exact en1|reflexivity]. }
  assert (F4 : follows (keeps 0 ps0) (fst (store 0%nat m2 w1)) [(0%nat, i2)] [(0%nat, c2)]).
  { refine (fol_map _ _ _ _ 0 _ _ _ _ _ dbl (2, 1, gi 7) m2 i2 goint_sane F3 eq_refl eq_refl ob1 en1 eq_refl _ _); [right; reflexivity|]. exists m2, l2. split; [exact ob2|]. split; [exact en2|reflexivity]. }
  exists (fst (store 0%nat m2 w1)), [(0%nat, i2)], [(0%nat, c2)], i2, c2, m2, l2. split; [exact F4|]. split; [reflexivity|]. split; [reflexivity|]. split; [exact ob2|]. split; [exact en2|].
  split; [vm_compute; discriminate|]. split; [reflexivity|]. split; [reflexivity|]. vm_compute. reflexivity.
Qed.

(** ** A diagonal: one element is shown, then the matrix changes further on *)
Definition dw : world num_goint := after_all [KNewCSR 2 2; KSet 0 0 0 (gi 1); KSet 0 1 1 (gi 3)] empty_world.
Definition dm : mat num_goint := MCSR (MkCSR 2 2 [gi 1; gi 3] [0; 1] [0; 1; 2]).
Definition dl : list (Z * Z * T num_goint) := [(0, 0, gi 1); (1, 1, gi 3)].
Lemma dwr : reachable dw. Proof. unfold dw. reach_calls. Qed.
Lemma dwo : obj dw 0 dm. Proof. at_obj. Qed.
Lemma dwe : enumerates dm dl. Proof. enum_n. Qed.
Definition di0 : iter := mat_iterator dm.
Definition di1 : iter := next_it dm di0.
Definition dc0 : cursor num_goint := start dm.
Definition dc1 : cursor num_goint := advance dm dc0 dl (0, 0, gi 1).

Lemma d_first (P : world num_goint -> Prop) : P dw -> follows P dw [(0%nat, di1)] [(0%nat, dc1)].
Proof.
  intros HP. assert (F0 : follows P dw [] []) by (apply fol_start; [exact dwr|exact HP]).
  assert (F1 : follows P dw [(0%nat, di0)] [(0%nat, dc0)]) by exact (fol_open _ _ _ _ _ _ F0 dwo).
  exact (fol_next _ _ _ _ 0 _ _ _ _ _ (0, 0, gi 1) di1 F1 eq_refl eq_refl dwo dwe eq_refl).
Qed.

(** (1,0) is set: the iterator stops before (1,1) *)
Definition has (p : ptr) (q : Z * Z) (w : world num_goint) : Prop := exists m l, obj w p m /\ enumerates m l /\ In q (map fst l).
Definition iw : world num_goint := after (KSet 0 1 0 (gi 2)) dw.
Definition im : mat num_goint := MCSR (MkCSR 2 2 [gi 1; gi 2; gi 3] [0; 0; 1] [0; 1; 3]).
Definition il : list (Z * Z * T num_goint) := [(0, 0, gi 1); (1, 0, gi 2); (1, 1, gi 3)].
Lemma iwo : obj iw 0 im. Proof. at_obj. Qed.
Lemma iwe : enumerates im il. Proof. enum_n. Qed.
Lemma insertion_ahead : exists (w : world num_goint) hs cs it cu, follows (has 0 (1, 1)) w hs cs /\ nth_error hs 0 = Some (0%nat, it) /\ nth_error cs 0 = Some (0%nat, cu) /\
  mat_HasNext it = false /\ map fst (cu_seen cu) = [(0, 0); (1, 0)].
Proof.
  assert (F2 : follows (has 0 (1, 1)) iw [(0%nat, di1)] [(0%nat, dc1)]).
  { apply fol_call; [apply d_first; exists dm, dl; split; [exact dwo|]; split; [exact dwe|right; left; reflexivity]|exact I|].
    exists im, il. split; [exact iwo|]. split; [exact iwe|right; right; left; reflexivity]. }
  pose proof (fol_next _ _ _ _ 0 _ _ _ _ _ (1, 0, gi 2) (next_it im di1) F2 eq_refl eq_refl iwo iwe eq_refl) as F3.
  do 5 eexists. split; [exact F3|]. split; [reflexivity|]. split; [reflexivity|]. split; vm_compute; reflexivity.
Qed.

(** (1,1) is set to zero: there is said to be a next element, but [Next] panics *)
Definition rw : world num_goint := after (KSet 0 1 1 (gi 0)) dw.
Definition rm : mat num_goint := MCSR (MkCSR 2 2 [gi 1] [0] [0; 1; 1]).
Lemma removal_ahead : exists (w : world num_goint) hs cs it cu (m : mat num_goint), follows (fun _ => True) w hs cs /\ nth_error hs 0 = Some (0%nat, it) /\ nth_error cs 0 = Some (0%nat, cu) /\ obj w 0 m /\
  mat_HasNext it = true /\ mat_Next m it = Panic.
Proof.
  assert (F2 : follows (fun _ => True) rw [(0%nat, di1)] [(0%nat, dc1)]) by (apply fol_call; [apply d_first; exact I|exact I|exact I]).
  do 5 eexists. exists rm. split; [exact F2|]. split; [reflexivity|]. split; [reflexivity|]. split; [at_obj|]. split; vm_compute; reflexivity.
Qed.

(** ** One line: (1,0) is shown, (1,1) is next, then row 0 is filled *)
Definition bw : world num_goint := after_all [KNewCSR 2 3; KSet 0 1 0 (gi 1); KSet 0 1 1 (gi 2)] empty_world.
Definition bm : mat num_goint := MCSR (MkCSR 2 3 [gi 1; gi 2] [0; 1] [0; 0; 2]).
Definition bl : list (Z * Z * T num_goint) := [(1, 0, gi 1); (1, 1, gi 2)].
Lemma bwr : reachable bw. Proof. unfold bw. reach_calls. Qed.
Lemma bwo : obj bw 0 bm. Proof. at_obj. Qed.
Lemma bwe : enumerates bm bl. Proof. enum_n. Qed.
Definition bi0 : iter := mat_iterator bm.
Definition bi1 : iter := next_it bm bi0.
Definition bc1 : cursor num_goint := advance bm (start bm) bl (1, 0, gi 1).
Lemma b_first : follows (fun _ => True) bw [(0%nat, bi1)] [(0%nat, bc1)].
Proof.
  assert (F0 : follows (fun _ => True) bw [] []) by (apply fol_start; [exact bwr|exact I]).
  assert (F1 : follows (fun _ => True) bw [(0%nat, bi0)] [(0%nat, start bm)]) by exact (fol_open _ _ _ _ _ _ F0 bwo).
  exact (fol_next _ _ _ _ 0 _ _ _ _ _ (1, 0, gi 1) bi1 F1 eq_refl eq_refl bwo bwe eq_refl).
Qed.

(** one element is set before it: [Next] does not return *)
Definition hw : world num_goint := after (KSet 0 0 2 (gi 7)) bw.
Definition hm : mat num_goint := MCSR (MkCSR 2 3 [gi 7; gi 1; gi 2] [2; 0; 1] [0; 1; 3]).
Lemma insertion_behind_hangs : exists (w : world num_goint) hs cs it cu (m : mat num_goint), follows (fun _ => True) w hs cs /\ nth_error hs 0 = Some (0%nat, it) /\ nth_error cs 0 = Some (0%nat, cu) /\ obj w 0 m /\
  mat_HasNext it = true /\ mat_Next m it = Diverge.
Proof.
  assert (F2 : follows (fun _ => True) hw [(0%nat, bi1)] [(0%nat, bc1)]) by (apply fol_call; [exact b_first|exact I|exact I]).
  do 5 eexists. exists hm. split; [exact F2|]. split; [reflexivity|]. split; [reflexivity|]. split; [at_obj|]. split; vm_compute; reflexivity.
Qed.

(** two elements are set before it: [Next] shows an element that is not there *)
Definition gw : world num_goint := after (KSet 0 0 0 (gi 9)) hw.
Definition gm : mat num_goint := MCSR (MkCSR 2 3 [gi 9; gi 7; gi 1; gi 2] [0; 2; 0; 1] [0; 2; 4]).
Definition gl : list (Z * Z * T num_goint) := [(0, 0, gi 9); (0, 2, gi 7); (1, 0, gi 1); (1, 1, gi 2)].
Lemma gwo : obj gw 0 gm. Proof. at_obj. Qed.
Lemma gwe : enumerates gm gl. Proof. enum_n. Qed.
Lemma ghost : exists (w : world num_goint) hs cs it cu (m : mat num_goint) l it', follows (fun _ => True) w hs cs /\ nth_error hs 0 = Some (0%nat, it) /\ nth_error cs 0 = Some (0%nat, cu) /\ obj w 0 m /\
  enumerates m l /\ mat_HasNext it = true /\ mat_Next m it = Ok ((1, 2, gi 7), it') /\ ~ In (1, 2) (map fst l).
Proof.
  assert (F2 : follows (fun _ => True) gw [(0%nat, bi1)] [(0%nat, bc1)]) by (apply fol_call; [apply fol_call; [exact b_first|exact I|exact I]|exact I|exact I]).
  do 5 eexists. exists gm, gl, (next_it gm bi1). split; [exact F2|]. split; [reflexivity|]. split; [reflexivity|]. split; [exact gwo|]. split; [exact gwe|].
  split; [vm_compute; reflexivity|]. split; [vm_compute; reflexivity|]. cbn. intuition discriminate.
Qed.

(** ** A dense vector that is made as short as the iterator has come *)
Definition vw : world num_goint := after_all [KNewDV 3; KSetVec 0 1 (gi 9)] empty_world.
Definition vm : mat num_goint := MDV (MkDV 3 [gi 0; gi 9; gi 0]).
Definition vl : list (Z * Z * T num_goint) := [(0, 0, gi 0); (1, 0, gi 9); (2, 0, gi 0)].
Definition vw' : world num_goint := after (KReSize 0 1) vw.
Definition vm' : mat num_goint := MDV (MkDV 2 [gi 0; gi 9]).
Lemma vwr : reachable vw. Proof. unfold vw. reach_calls. Qed.
Lemma vwo : obj vw 0 vm. Proof. at_obj. Qed.
Lemma vwe : enumerates vm vl. Proof. enum_n. Qed.
Lemma vwo' : obj vw' 0 vm'. Proof. at_obj. Qed.
Lemma vwe' : enumerates vm' [(0, 0, gi 0); (1, 0, gi 9)]. Proof. enum_n. Qed.
Lemma restart : exists (w : world num_goint) hs cs it cu, follows (fun _ => True) w hs cs /\ nth_error hs 0 = Some (0%nat, it) /\ nth_error cs 0 = Some (0%nat, cu) /\
  zlen (cu_seen cu) <= cu_total cu /\ map fst (cu_seen cu) = [(0, 0); (1, 0); (0, 0)].
Proof.
  assert (F0 : follows (fun _ => True) vw [] []) by (apply fol_start; [exact vwr|exact I]).
  pose proof (fol_open _ _ _ _ _ _ F0 vwo) as F1.
  pose proof (fol_next _ _ _ _ 0 _ _ _ _ _ (0, 0, gi 0) (next_it vm (mat_iterator vm)) F1 eq_refl eq_refl vwo vwe eq_refl) as F2.
  pose proof (fol_next _ _ _ _ 0 _ _ _ _ _ (1, 0, gi 9) (next_it vm (next_it vm (mat_iterator vm))) F2 eq_refl eq_refl vwo vwe eq_refl) as F3.
  assert (Ha : allowed vw (KReSize 0 1)) by (cbn [allowed]; lia).
  pose proof (fol_call _ _ _ _ (KReSize 0 1) F3 Ha I) as F4.
  pose proof (fol_next _ _ _ _ 0 _ _ _ _ _ (0, 0, gi 0) (next_it vm' (next_it vm (next_it vm (mat_iterator vm)))) F4 eq_refl eq_refl vwo' vwe' eq_refl) as F5.
  do 5 eexists. split; [exact F5|]. split; [reflexivity|]. split; [reflexivity|]. split; vm_compute; [discriminate|reflexivity].
Qed.

(** ** The claims that fail *)
Lemma shows_all_no : ~ (forall N (w : world N) hs cs k p it cu q, sane N ->
  follows (fun w => exists m l, obj w p m /\ enumerates m l /\ In q (map fst l)) w hs cs ->
  nth_error hs k = Some (p, it) -> nth_error cs k = Some (p, cu) -> mat_HasNext it = false -> In q (map fst (cu_seen cu))).
Proof.
  intros H. destruct insertion_ahead as (w & hs & cs & it & cu & F & E1 & E2 & E3 & E4).
  specialize (H num_goint w hs cs 0%nat 0%nat it cu (1, 1) goint_sane F E1 E2 E3). rewrite E4 in H. cbn in H. intuition discriminate.
Qed.
Lemma next_panics_no : ~ (forall N (w : world N) hs cs k p it cu m, sane N -> follows (fun _ => True) w hs cs ->
  nth_error hs k = Some (p, it) -> nth_error cs k = Some (p, cu) -> obj w p m -> mat_HasNext it = true -> mat_Next m it <> Panic).
Proof.
  intros H. destruct removal_ahead as (w & hs & cs & it & cu & m & F & E1 & E2 & Ho & E3 & E4).
  exact (H num_goint w hs cs 0%nat 0%nat it cu m goint_sane F E1 E2 Ho E3 E4).
Qed.
Lemma next_returns_no : ~ (forall N (w : world N) hs cs k p it cu m, sane N -> follows (fun _ => True) w hs cs ->
  nth_error hs k = Some (p, it) -> nth_error cs k = Some (p, cu) -> obj w p m -> mat_HasNext it = true -> mat_Next m it <> Diverge).
Proof.
  intros H. destruct insertion_behind_hangs as (w & hs & cs & it & cu & m & F & E1 & E2 & Ho & E3 & E4).
  exact (H num_goint w hs cs 0%nat 0%nat it cu m goint_sane F E1 E2 Ho E3 E4).
Qed.
Lemma shows_stored_no : ~ (forall N (w : world N) hs cs k p it cu m l e it', sane N -> follows (fun _ => True) w hs cs ->
  nth_error hs k = Some (p, it) -> nth_error cs k = Some (p, cu) -> obj w p m -> enumerates m l ->
  mat_HasNext it = true -> mat_Next m it = Ok (e, it') -> In e l).
Proof.
  intros H. destruct ghost as (w & hs & cs & it & cu & m & l & it' & F & E1 & E2 & Ho & He & E3 & E4 & E5).
  apply E5. apply (in_map fst _ ((1, 2, gi 7) : Z * Z * T num_goint)). exact (H num_goint w hs cs 0%nat 0%nat it cu m l _ it' goint_sane F E1 E2 Ho He E3 E4).
Qed.
Lemma shows_once_no : ~ (forall N (w : world N) hs cs k p it cu, sane N -> follows (fun _ => True) w hs cs ->
  nth_error hs k = Some (p, it) -> nth_error cs k = Some (p, cu) -> zlen (cu_seen cu) <= cu_total cu -> NoDup (map fst (cu_seen cu))).
Proof.
  intros H. destruct restart as (w & hs & cs & it & cu & F & E1 & E2 & E3 & E4).
  specialize (H num_goint w hs cs 0%nat 0%nat it cu goint_sane F E1 E2 E3). rewrite E4 in H. inversion H as [|? ? H1 _]. apply H1. right. left. reflexivity.
Qed.

(** the same histories are cases of the exact description *)
Lemma exact_case : exists (w : world num_goint) hs cs it cu (m : mat num_goint) l, follows (fun _ => True) w hs cs /\ nth_error hs 0 = Some (0%nat, it) /\ nth_error cs 0 = Some (0%nat, cu) /\ obj w 0 m /\ enumerates m l /\
  ~ settled m (cu_place cu) l /\ shown m (cu_place cu) l = Ok (1, 2, gi 7).
Proof.
  assert (F2 : follows (fun _ => True) gw [(0%nat, bi1)] [(0%nat, bc1)]) by (apply fol_call; [apply fol_call; [exact b_first|exact I|exact I]|exact I|exact I]).
  do 5 eexists. exists gm, gl. split; [exact F2|]. split; [reflexivity|]. split; [reflexivity|]. split; [exact gwo|]. split; [exact gwe|].
  split; [|vm_compute; reflexivity]. intros [H _]. vm_compute in H. discriminate.
Qed.
Lemma settled_case : exists (w : world num_goint) hs cs it cu (m : mat num_goint) l, follows (fun _ => True) w hs cs /\ nth_error hs 0 = Some (0%nat, it) /\ nth_error cs 0 = Some (0%nat, cu) /\ obj w 0 m /\ enumerates m l /\
  settled m (cu_place cu) l /\ upcoming m (cu_place cu) l = [(1, 0, gi 2); (1, 1, gi 3)] /\ cu_seen cu = [(0, 0, gi 1)] /\ cu_total cu = 2.
Proof.
  assert (F2 : follows (fun _ => True) iw [(0%nat, di1)] [(0%nat, dc1)]) by (apply fol_call; [apply d_first; exact I|exact I|exact I]).
  do 5 eexists. exists im, il. split; [exact F2|]. split; [reflexivity|]. split; [reflexivity|]. split; [exact iwo|]. split; [exact iwe|].
  split; [exact I|]. split; [vm_compute; reflexivity|]. split; reflexivity.
Qed.
