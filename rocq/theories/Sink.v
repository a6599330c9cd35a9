(** Outputs of the caller's own matrix types.

    The output of an operator is a [Matrix] too (matrix.go:65-91), so a program can give the operators a type of its own to
    write to: one that logs, that adds up what is set, or that refuses.  Such an output has memory of its own, and its Set and
    Update may panic or not return.  Simplifications: it does not call the library, its Rows and Columns are constants, and
    it is not one of the operands.  Operands are as in Foreign.v, masks as in Ops.v. *)
From Coq Require Import String.
From Verif Require Import GoBase Num SparseVec Csr Csc DenseVec DenseMat Mat World Ops Spec Api ApplyMem MaskMem Foreign.
Import ListNotations.

(** the methods the operators call on an output (matrix.go:11-63): Rows, Columns, Set and Update *)
Record sink (N : num) (St : Type) : Type := MkSink {
  so_Rows : Z;
  so_Columns : Z;
  so_Set : St -> Z -> Z -> T N -> St * res unit;
  so_Update : St -> Z -> Z -> (T N -> T N) -> St * res unit
}.
Arguments MkSink {N St}.
Arguments so_Rows {N St}.
Arguments so_Columns {N St}.
Arguments so_Set {N St}.
Arguments so_Update {N St}.

Section Sink.
Context {N : num} {St : Type}.
Notation V := (T N).
Notation M := (M N).
Notation MS := (@MS N St).
Notation arg := (arg N).
Notation sink := (sink N St).
Notation ent := (Z * Z * V)%type.

(** ** The program: the functions of Foreign.v with such an output; the code lines are cited there as well *)

(** matrix.go:11-63, Set *)
Definition o_Set (out : sink) (r c : Z) (v : V) : MS unit := fun st w => let '(st', x) := so_Set out st r c v in (st', w, x).
(** matrix.go:11-63, Update *)
Definition o_Update (out : sink) (r c : Z) (f : V -> V) : MS unit := fun st w => let '(st', x) := so_Update out st r c f in (st', w, x).

(** the prologue, e.g. operators.go:24-34; see [check_mask] (World.v) *)
Definition o_check (k : mask) (out : sink) : M mask :=
  let r := so_Rows out in
  let c := so_Columns out in
  let k := match k with MNil => MEmpty r c | _ => k end in
  let! kr := mask_Rows k in
  if negb (kr =? r) then mpanic
  else
    let! kc := mask_Columns k in
    if negb (kc =? c) then mpanic else mret k.

(** the loops over an iterator of a caller's operand, e.g. operators.go:134-144; see [own_loop] (Foreign.v) *)
Fixpoint o_own_loop {R} (E : env) (l : list ent) (onCancel : R) (body : Z -> Z -> V -> MS (option R)) : MS (option R) :=
  match l with
  | [] => sret None
  | (r, c, v) :: rest =>
      let$ d := slift (poll E) in
      if d : bool then sret (Some onCancel)
      else
        let$ o := body r c v in
        match o with
        | Some x => sret (Some x)
        | None => o_own_loop E rest onCancel body
        end
  end.
(** the same for any operand, e.g. operators.go:134-144 *)
Definition o_enumerate {R} (E : env) (a : arg) (onCancel : R) (body : Z -> Z -> V -> MS (option R)) : MS (option R) :=
  match a with Lib p => s_enumerate E p onCancel body | Own o => o_own_loop E (own_shows o) onCancel body end.

(** operators.go:19-60 [multiply] *)
Definition multiplyO (E : env) (s m : arg) (k : mask) (out : sink) : MS unit :=
  let$ mr := slift (a_Rows m) in
  let$ sc := slift (a_Columns s) in
  if negb (mr =? sc) then slift mpanic
  else
    let$ k := slift (o_check k out) in
    let$ sr := slift (a_Rows s) in
    let$ mc := slift (a_Columns m) in
    let$ _ := s_for_list (R := unit) (zrange 0 sr) (fun r =>
      let$ rows := slift (a_RowsAt s r) in
      s_for_list (zrange 0 mc) (fun c =>
        let$ column := slift (a_ColumnsAt m c) in
        let$ o := slift (a_dot E rows column (zrange 0 (vec_Length rows)) n0) in
        match o with
        | None => sret (Some tt)
        | Some sum =>
            let$ e := slift (mask_Element k r c) in
            let$ _ := (if negb e then o_Set out r c sum else sret tt) in
            sret None
        end)) in
    sret tt.

(** operators.go:83-145 [elementWiseMultiply] *)
Definition elementWiseMultiplyO (E : env) (s m : arg) (k : mask) (out : sink) : MS unit :=
  let$ k := slift (o_check k out) in
  let target (source : arg) r c value : MS (option unit) :=
    let$ v := slift (a_At source r c) in
    if neqb value v then
      let$ e := slift (mask_Element k r c) in
      let$ _ := (if negb e then o_Set out r c value else sret tt) in sret None
    else sret None in
  let$ sp := slift (a_IsSparse E s) in
  let$ _ := (if sp : bool then o_enumerate E s tt (target m) else o_enumerate E m tt (target s)) in
  sret tt.

(** operators.go:170-213 [Add] *)
Definition AddO (E : env) (s m : arg) (k : mask) (out : sink) : MS unit :=
  let$ _ := slift (a_check_sizes s m) in
  let$ k := slift (o_check k out) in
  let$ sp := slift (a_IsSparse E s) in
  let '(src, source) := if sp : bool then (s, m) else (m, s) in
  let$ _ := o_enumerate E src tt (fun r c v =>
    let$ value := slift (a_At source r c) in
    let$ e := slift (mask_Element k r c) in
    let$ _ := (if negb e then o_Set out r c (nadd value v) else sret tt) in
    sret None) in
  sret tt.

(** operators.go:229-241 and 245-257 *)
Definition ewa_loopO (E : env) (src : arg) (k : mask) (out : sink) : MS (option unit) :=
  o_enumerate E src tt (fun r c value =>
    if negb (neqb value n0) then
      let$ e := slift (mask_Element k r c) in
      let$ _ := (if negb e then o_Set out r c value else sret tt) in sret None
    else sret None).

(** operators.go:215-259 [elementWiseAdd] *)
Definition elementWiseAddO (E : env) (s m : arg) (k : mask) (out : sink) : MS unit :=
  let$ k := slift (o_check k out) in
  let$ o := ewa_loopO E s k out in
  match o with
  | Some _ => sret tt
  | None => let$ _ := ewa_loopO E m k out in sret tt
  end.

(** operators.go:284-318 [Subtract] *)
Definition SubtractO (E : env) (s m : arg) (k : mask) (out : sink) : MS unit :=
  let$ _ := slift (a_check_sizes s m) in
  let$ k := slift (o_check k out) in
  let$ _ := o_enumerate E s tt (fun r c value =>
    let$ e := slift (mask_Element k r c) in
    let$ _ := (if negb e then o_Update out r c (fun v => nsub value v) else sret tt) in
    sret None) in
  sret tt.

(** operators.go:323-366 [Apply], with an input that is not the output *)
Definition ApplyO (E : env) (in_ : arg) (k : mask) (u : V -> V) (out : sink) : MS unit :=
  let$ k := slift (o_check k out) in
  let$ _ := o_enumerate E in_ tt (fun r c value =>
    let$ e := slift (mask_Element k r c) in
    let$ _ := (if negb e then o_Set out c r (u value) else sret tt) in sret None) in
  sret tt.

(** operators.go:401-426 [Transpose] *)
Definition TransposeO (E : env) (s : arg) (k : mask) (out : sink) : MS unit :=
  let$ k := slift (o_check k out) in
  let$ _ := o_enumerate E s tt (fun r c value =>
    let$ e := slift (mask_Element k r c) in
    let$ _ := (if negb e then o_Set out c r value else sret tt) in sret None) in
  sret tt.

(** ** Specification *)

(** a call of Set or Update *)
Inductive wr : Type := WSet (r c : Z) (v : V) | WUpdate (r c : Z) (f : V -> V).

(** making the calls one after the other until one does not return: the memory afterwards and how the last one ended *)
Fixpoint perform (out : sink) (st : St) (ws : list wr) : St * res unit :=
  match ws with
  | [] => (st, Ok tt)
  | x :: rest =>
      match (match x with WSet r c v => so_Set out st r c v | WUpdate r c f => so_Update out st r c f end) with
      | (st', Ok _) => perform out st' rest
      | (st', Panic) => (st', Panic)
      | (st', Diverge) => (st', Diverge)
      end
  end.

(** the operator makes exactly the calls [ws], in this order, and leaves the library's objects alone *)
Definition makes (out : sink) (op : MS unit) (st : St) (w : world N) (ws : list wr) : Prop :=
  exists w', op st w = (fst (perform out st ws), w', snd (perform out st ws)) /\ w_heap w' = w_heap w.

(** the elements whose places the mask leaves *)
Definition left_by (w : world N) (k : mask) (l : list ent) : list ent :=
  filter (fun e => negb (covers w k (fst (fst e)) (snd (fst e)))) l.
Definition row_of (e : ent) : Z := fst (fst e).
Definition col_of (e : ent) : Z := snd (fst e).

(** what a loop over [l] gets to, if it asks the context [n] times before the write for each; [reached] (ApplyMem.v) is the case of one *)
Definition reached_n {I} (n : nat) (E : env) (w : world N) (l : list I) : list I :=
  match e_ctx E with
  | None => l
  | Some k => if Nat.eqb n 0 then l else firstn ((k - w_polls w) / n) l
  end.

(** the mask has the size of the output, and no object of the library is asked, as a mask, for places it does not have *)
Definition mask_fits (w : world N) (k : mask) (out : sink) (R C : Z) : Prop :=
  mask_dims w k (so_Rows out) (so_Columns out) /\ ((forall p, k <> MObj p) \/ R <= so_Rows out /\ C <= so_Columns out).
End Sink.

(** an object of the library as an output: its memory is the matrix (see [mat_Set] and [mat_Update], Mat.v) *)
Definition lib_out {N : num} (m : mat N) : sink N (mat N) :=
  MkSink (mat_Rows m) (mat_Columns m)
    (fun st r c v => match mat_Set st r c v with Ok m' => (m', Ok tt) | Panic => (st, Panic) | Diverge => (st, Diverge) end)
    (fun st r c f => match mat_Update st r c f with Ok m' => (m', Ok tt) | Panic => (st, Panic) | Diverge => (st, Diverge) end).

(** with [O] in the heap as object [t], and with [O] as the memory of such an output: the same end and the same objects *)
Definition same_run {N : num} (t : ptr) (O : mat N) (X : @MS N (mat N) unit) (Y : M N unit) (w : world N) : Prop :=
  let '(O', w', o) := X O w in Y w = (MkWorld (list_set (w_heap w') t O') (w_polls w'), o).

(** the operator ends as the calls [ws] on [O] end, and has changed nothing but the object [t], which is as the calls leave it *)
Definition written {N : num} (t : ptr) (O : mat N) (op : M N unit) (w : world N) (ws : list (@wr N)) : Prop :=
  exists w', op w = (w', snd (perform (lib_out O) O ws)) /\ w_heap w' = list_set (w_heap w) t (fst (perform (lib_out O) O ws)).
Arguments wr : clear implicits.
