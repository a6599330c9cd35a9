(** Masks and outputs of the caller's that share memory.

    A program may hand an operator a mask and an output that know of each other: a mask that covers what has been written, an
    output that counts the questions put to the mask, a function for Apply that looks at both.  [St] is the memory they all use;
    see MaskMem.v for masks with memory, Sink.v for outputs of the caller's, ApplyMem.v for functions with memory.
    Simplifications as there. *)
From Coq Require Import String.
From Verif Require Import GoBase Num SparseVec Csr Csc DenseVec DenseMat Mat World Ops Spec Api ApplyMem MaskMem Foreign Sink.
Import ListNotations.

Section Shared.
Context {N : num} {St : Type}.
Notation V := (T N).
Notation M := (M N).
Notation MS := (@MS N St).
Notation arg := (arg N).
Notation sink := (sink N St).
Notation smask := (smask St).
Notation unary := (@unary N St).
Notation ent := (Z * Z * V)%type.

(** ** The program: the functions of Sink.v with such a mask; the code lines are cited there as well *)

(** the prologue, e.g. operators.go:24-34; see [o_check] (Sink.v), [s_check] (MaskMem.v) *)
Definition b_check (q : smask) (out : sink) : MS unit :=
  if negb (sm_Rows q =? so_Rows out) then slift mpanic
  else if negb (sm_Columns q =? so_Columns out) then slift mpanic else sret tt.

(** operators.go:19-60 [multiply] *)
Definition multiplyB (E : env) (s m : arg) (q : smask) (out : sink) : MS unit :=
  let$ mr := slift (a_Rows m) in
  let$ sc := slift (a_Columns s) in
  if negb (mr =? sc) then slift mpanic
  else
    let$ _ := b_check q out in
    let$ sr := slift (a_Rows s) in
    let$ mc := slift (a_Columns m) in
    let$ _ := s_for_list (R := unit) (zrange 0 sr) (fun r =>
      let$ rows := slift (a_RowsAt s r) in
      s_for_list (zrange 0 mc) (fun c =>
        let$ column := slift (a_ColumnsAt m c) in
        let$ o := slift (a_dot E rows column (zrange 0 (vec_Length rows)) n0) in
        match o with
        | None => sret (Some tt)
        | Some sum =>
            let$ e := s_Element q r c in
            let$ _ := (if negb e then o_Set out r c sum else sret tt) in
            sret None
        end)) in
    sret tt.

(** operators.go:83-145 [elementWiseMultiply] *)
Definition elementWiseMultiplyB (E : env) (s m : arg) (q : smask) (out : sink) : MS unit :=
  let$ _ := b_check q out in
  let target (source : arg) r c value : MS (option unit) :=
    let$ v := slift (a_At source r c) in
    if neqb value v then
      let$ e := s_Element q r c in
      let$ _ := (if negb e then o_Set out r c value else sret tt) in sret None
    else sret None in
  let$ sp := slift (a_IsSparse E s) in
  let$ _ := (if sp : bool then o_enumerate E s tt (target m) else o_enumerate E m tt (target s)) in
  sret tt.

(** operators.go:170-213 [Add] *)
Definition AddB (E : env) (s m : arg) (q : smask) (out : sink) : MS unit :=
  let$ _ := slift (a_check_sizes s m) in
  let$ _ := b_check q out in
  let$ sp := slift (a_IsSparse E s) in
  let '(src, source) := if sp : bool then (s, m) else (m, s) in
  let$ _ := o_enumerate E src tt (fun r c v =>
    let$ value := slift (a_At source r c) in
    let$ e := s_Element q r c in
    let$ _ := (if negb e then o_Set out r c (nadd value v) else sret tt) in
    sret None) in
  sret tt.

(** operators.go:229-241 and 245-257 *)
Definition ewa_loopB (E : env) (src : arg) (q : smask) (out : sink) : MS (option unit) :=
  o_enumerate E src tt (fun r c value =>
    if negb (neqb value n0) then
      let$ e := s_Element q r c in
      let$ _ := (if negb e then o_Set out r c value else sret tt) in sret None
    else sret None).

(** operators.go:215-259 [elementWiseAdd] *)
Definition elementWiseAddB (E : env) (s m : arg) (q : smask) (out : sink) : MS unit :=
  let$ _ := b_check q out in
  let$ o := ewa_loopB E s q out in
  match o with
  | Some _ => sret tt
  | None => let$ _ := ewa_loopB E m q out in sret tt
  end.

(** operators.go:284-318 [Subtract] *)
Definition SubtractB (E : env) (s m : arg) (q : smask) (out : sink) : MS unit :=
  let$ _ := slift (a_check_sizes s m) in
  let$ _ := b_check q out in
  let$ _ := o_enumerate E s tt (fun r c value =>
    let$ e := s_Element q r c in
    let$ _ := (if negb e then o_Update out r c (fun v => nsub value v) else sret tt) in
    sret None) in
  sret tt.

(** operators.go:323-366 [Apply], with an input that is not the output *)
Definition ApplyB (E : env) (in_ : arg) (q : smask) (u : unary) (out : sink) : MS unit :=
  let$ _ := b_check q out in
  let$ _ := o_enumerate E in_ tt (fun r c value =>
    let$ e := s_Element q r c in
    let$ _ := (if negb e then let$ x := u_Apply u value in o_Set out c r x else sret tt) in sret None) in
  sret tt.

(** operators.go:401-426 [Transpose] *)
Definition TransposeB (E : env) (s : arg) (q : smask) (out : sink) : MS unit :=
  let$ _ := b_check q out in
  let$ _ := o_enumerate E s tt (fun r c value =>
    let$ e := s_Element q r c in
    let$ _ := (if negb e then o_Set out c r value else sret tt) in sret None) in
  sret tt.

(** ** Specification *)

(** one thing after the other on the shared memory, until one does not return *)
Definition thing : Type := St -> St * res unit.
Definition andthen {A} (x : St * res A) (f : A -> thing) : St * res unit :=
  match x with (st, Ok a) => f a st | (st, Panic) => (st, Panic) | (st, Diverge) => (st, Diverge) end.
Fixpoint all_of (l : list thing) (st : St) : St * res unit :=
  match l with [] => (st, Ok tt) | x :: rest => andthen (x st) (fun _ => all_of rest) end.

(** asking the mask about (r, c) and, if it does not cover it, doing [x] *)
Definition unless (q : smask) (r c : Z) (x : thing) : thing := fun st =>
  andthen (sm_Element q st r c) (fun b => if b then fun st => (st, Ok tt) else x).
Definition set_at (out : sink) (r c : Z) (v : V) : thing := fun st => so_Set out st r c v.
Definition update_at (out : sink) (r c : Z) (f : V -> V) : thing := fun st => so_Update out st r c f.
Definition set_image (out : sink) (u : unary) (r c : Z) (v : V) : thing := fun st => andthen (u st v) (set_at out r c).

(** the operator does exactly [l] with the shared memory, and leaves the library's objects alone *)
Definition amounts_to (op : MS unit) (st : St) (w : world N) (l : list thing) : Prop :=
  exists w', op st w = (fst (all_of l st), w', snd (all_of l st)) /\ w_heap w' = w_heap w.

(** mask and output have one size *)
Definition fits (q : smask) (out : sink) : Prop := sm_Rows q = so_Rows out /\ sm_Columns q = so_Columns out.
End Shared.
Arguments thing : clear implicits.

(** a mask whose memory is the first part, and an object of the library as an output whose memory is the second *)
Definition on_first {St A : Type} (q : smask St) : smask (St * A) :=
  MkSMask (sm_Rows q) (sm_Columns q) (fun st r c => let '(x, b) := sm_Element q (fst st) r c in ((x, snd st), b)).
Definition on_second {N : num} {St : Type} (O : mat N) : sink N (St * mat N) :=
  MkSink (mat_Rows O) (mat_Columns O)
    (fun st r c v => match mat_Set (snd st) r c v with Ok m' => ((fst st, m'), Ok tt) | Panic => (st, Panic) | Diverge => (st, Diverge) end)
    (fun st r c f => match mat_Update (snd st) r c f with Ok m' => ((fst st, m'), Ok tt) | Panic => (st, Panic) | Diverge => (st, Diverge) end).

(** with [O] in the heap as object [t] the operator does to it, and to the mask's memory, exactly [l] does, and nothing else *)
Definition comes_to {N : num} {St : Type} (t : ptr) (O : mat N) (op : @MS N St unit) (st : St) (w : world N) (l : list (thing (St * mat N))) : Prop :=
  exists w', op st w = (fst (fst (all_of l (st, O))), w', snd (all_of l (st, O))) /\ w_heap w' = list_set (w_heap w) t (snd (fst (all_of l (st, O)))).
