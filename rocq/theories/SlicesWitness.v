(** Refutations of the claims on sharing, and programs to run. *)
From Verif Require Import GoBase BaseProofs Num SparseVec Csr Csc DenseVec DenseMat Mat World Ops Api Witness Slices SlicesProofs SlicesThms.
Import ListNotations.

Lemma dense_alone_no : ~ (forall N (sp : nat -> spare N) p st ts sp' a st' ts' t j,
  run sp p = Ok (st, ts) -> do sp' st ts a = Ok (st', ts') -> target a = Some t -> (j < length ts)%nat -> j <> t ->
  nth_error (map (see st') ts') j = nth_error (map (see st) ts) j).
Proof.
  intros H.
  specialize (H num_goint (fun _ => no_spare) [AMake [gi 1] []; AFrom FDV 0] _ _ no_spare (ASet 1 0 0 (gi 2)) _ _ 1%nat 0%nat eq_refl eq_refl eq_refl).
  cbn in H. assert (E : Some (LArr [gi 2]) = Some (LArr [gi 1])) by (apply H; [lia|discriminate]).
  injection E as E. discriminate E.
Qed.

Lemma spare_room_unseen_no : ~ (forall N (sp sp' : nat -> spare N) p,
  rmap (fun r => map (see (fst r)) (snd r)) (run sp p) = rmap (fun r => map (see (fst r)) (snd r)) (run sp' p)).
Proof.
  intros H. specialize (H num_goint (fun _ => no_spare) (fun _ => MkSpare [n0] [] [] []) [ANew FDV 1 0; AReSize 0 2; AReSize 0 (-1)]).
  destruct (@negative_size_depends_on_room num_goint) as [E1 E2]. cbv zeta in E1, E2. rewrite E2, E1 in H. discriminate H.
Qed.

(** the contents of a thing, row by row *)
Definition shown {N : num} (l : lthing N) : list (list (T N)) :=
  match l with
  | LArr xs => [xs]
  | LArr2 xss => xss
  | LObj (MCSR m) => [csr_values m]
  | LObj (MCSC m) => [csc_values m]
  | LObj (MSV v) => [sv_values v]
  | LObj (MDV v) => [dv_values v]
  | LObj (MDM m) => dm_data m
  end.
Definition shown_all {N : num} (r : res (list (lthing N))) : list (list (list (T N))) :=
  match r with Ok ls => map shown ls | _ => [] end.

(** a sparse matrix from rows, a copy, changes to both and to the rows, a row, a clearing *)
Definition prog : list (act num_goint) :=
  [AMake2 [[gi 1; gi 0]; [gi 2; gi 3]]; AFrom FCSR 0; ACopy 1; APoke2 0 0 0 (gi 9); ASet 1 0 1 (gi 7); ASet 2 1 0 (gi 0);
   ARow 1 0; AUpdate 3 1 0 (fun x => x); AClear 1; ASet 1 1 1 (gi 4)].
Lemma prog_unshared : Forall exact_act prog /\ Forall unshared prog.
Proof. split; repeat constructor. Qed.
Lemma prog_shows : shown_all (l_run prog) = [[[gi 9; gi 0]; [gi 2; gi 3]]; [[gi 4]]; [[gi 1; gi 3]]; [[gi 1; gi 7]]].
Proof. vm_compute. reflexivity. Qed.

Lemma negative_size (N : num) : let p := [ANew (N := N) FDV 1 0; AReSize 0 2; AReSize 0 (-1)] in
  run (fun _ => no_spare) p = Panic /\
  rmap (fun r => map (see (fst r)) (snd r)) (run (fun _ => MkSpare [n0] [] [] []) p) = Ok [LObj (MDV (MkDV 3 [n0; n0; n0]))].
Proof. exact negative_size_depends_on_room. Qed.

(** a slice with room for one more, two vectors on parts of it, growing within the room and
    beyond it, and writes through all of them *)
Definition prog_sharing : list (act num_goint) :=
  [AMake [gi 1; gi 2; gi 3] [gi 0]; ASub 0 0 2; AFrom FDV 1; AFrom FDV 0; AReSize 2 3; ASet 3 0 0 (gi 5); ASet 2 1 0 (gi 6);
   AReSize 2 5; ASet 2 0 0 (gi 9); AReSize 2 6; APoke 0 1 (gi 7); AReSize 3 1].
