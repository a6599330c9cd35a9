(** Concrete reachable heaps used by the examples and refutations. *)
From Coq Require Import String.
From Verif Require Import GoBase Num SparseVec Csr Csc DenseVec DenseMat Mat World Ops Spec Api.

(** Go [int] and [float64] literals *)
Definition gi (z : Z) : T num_goint := of_Z z.
Definition fl (z : Z) : T num_float64 := f64_of_Z z.
Definition negative_zero : T num_float64 := SpecFloat.S754_zero true.
Definition not_a_number : T num_float64 := SpecFloat.S754_nan.

(** an environment whose context is never cancelled *)
Definition E0 : env := MkEnv None reg0 50.
(** a context found cancelled from the [k]-th test on *)
Definition Ecancel (k : nat) : env := MkEnv (Some k) reg0 50.

(** ** Reading concrete objects

    [vm_compute] must not meet the type [mat num_goint], whose normal form expands
    the arithmetic of the element type; so objects are compared through a plain
    tuple: tag, dimensions, values, positions. *)
Section View.
Context {N : num}.
Definition view : Type := nat * (Z * Z) * list (list (T N)) * (list Z * list Z).
Definition view_of (m : mat N) : view :=
  match m with
  | MCSR s => (0%nat, (csr_r s, csr_c s), [csr_values s], (csr_cols s, csr_rowStart s))
  | MCSC s => (1%nat, (csc_r s, csc_c s), [csc_values s], (csc_rows s, csc_colStart s))
  | MDM s => (2%nat, (dm_r s, dm_c s), dm_data s, ([], []))
  | MDV s => (3%nat, (dv_l s, 1), [dv_values s], ([], []))
  | MSV s => (4%nat, (sv_l s, 1), [sv_values s], (sv_indices s, []))
  end.
Definition seen (w : world N) (p : ptr) : option view := option_map view_of (nth_error (w_heap w) p).

Lemma seen_obj w p m : seen w p = Some (view_of m) -> obj w p m.
Proof.
  unfold seen, obj. destruct (nth_error (w_heap w) p) as [m'|]; [|discriminate].
  cbn. intros E. injection E as E. f_equal.
  destruct m' as [s|s|s|s|s], m as [t|t|t|t|t]; cbn in E; try discriminate; destruct s, t; cbn in E; congruence.
Qed.
Lemma obj_seen w p m : obj w p m -> seen w p = Some (view_of m).
Proof. unfold seen, obj. intros ->. reflexivity. Qed.
(** the storage class alone *)
Definition tag (m : mat N) : nat := match m with MCSR _ => 0 | MCSC _ => 1 | MDM _ => 2 | MDV _ => 3 | MSV _ => 4 end.
Lemma obj_tag w p m : obj w p m -> option_map tag (nth_error (w_heap w) p) = Some (tag m).
Proof. unfold obj. intros ->. reflexivity. Qed.
End View.
Arguments view : clear implicits.

Ltac at_obj := apply seen_obj; vm_compute; reflexivity.

(** discharge [reachable (after_all ks empty_world)] *)
Ltac reach_calls :=
  cbn [after_all];
  repeat (apply reach_call; [|first
    [ exact I
    | cbn [allowed]; lia
    | cbn [allowed]; split; [intros a b Ha Hb; cbn [In] in Ha, Hb; intuition (subst; reflexivity)
                            |intros a Ha; cbn [In] in Ha; intuition (subst; reflexivity)] ]]);
  apply reach_start.

(** 0: CSR 3x4, 1: CSC 3x4, 2: dense 3x4, 3: dense vector, 4: sparse vector *)
Definition demo_calls : list (call num_goint) :=
  [KNewCSR 3 4; KNewCSC 3 4; KNewDense 3 4; KNewDV 3; KNewSV 5;
   KSet 0 2 1 (gi 7); KSet 0 0 3 (gi 2); KSet 0 0 0 (gi 5); KSet 0 2 3 (gi (-1)); KSet 0 0 3 (gi 0);
   KSet 1 2 1 (gi 7); KSet 1 0 3 (gi 2); KSet 1 0 0 (gi 5); KSet 1 2 3 (gi (-1));
   KSet 2 2 1 (gi 7); KSet 2 0 3 (gi 2); KSet 2 0 0 (gi 5);
   KSetVec 3 1 (gi 9); KSetVec 4 0 (gi 4); KSetVec 4 1 (gi 6)].
Definition demo : world num_goint := after_all demo_calls empty_world.

Lemma demo_reachable : reachable demo.
Proof. unfold demo, demo_calls. reach_calls. Qed.
