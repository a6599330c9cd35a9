(** The operators with a mask written by the caller that is not pure: its Element may keep memory from one call to the next,
    may answer the same question differently the second time, and may panic or not return.  In Ops.v a caller's mask is a
    predicate.  Rows and Columns of the mask stay constants. *)
From Coq Require Import String.
From Verif Require Import GoBase Num SparseVec Csr Csc DenseVec DenseMat Mat World Ops Spec Api ApplyMem.

Notation "'let$' x ':=' a 'in' b" := (sbind a (fun x => b)) (at level 200, x name, a at level 100, b at level 200).
Notation "'let$' ' x ':=' a 'in' b" := (sbind a (fun x => b)) (at level 200, x pattern, a at level 100, b at level 200).

(** mask.go:19-24 [Mask], a caller's type; [St] is its memory *)
Record smask (St : Type) : Type := MkSMask { sm_Rows : Z; sm_Columns : Z; sm_Element : St -> Z -> Z -> St * res bool }.
Arguments MkSMask {St}.
Arguments sm_Rows {St}.
Arguments sm_Columns {St}.
Arguments sm_Element {St}.

Section MaskMem.
Context {N : num} {St : Type}.
Notation V := (T N).
Notation M := (M N).
Notation MS := (@MS N St).
Notation smask := (smask St).

(** ** The program: the functions of World.v and Ops.v with such a mask; the code lines are cited there as well *)

(** mask.go:24 *)
Definition s_Element (q : smask) (r c : Z) : MS bool := fun st w => let '(st', b) := sm_Element q st r c in (st', w, b).

(** the prologue, e.g. operators.go:24-34; [check_mask] (World.v) asks a caller's mask for its sizes only *)
Definition s_check (q : smask) (out : ptr) : MS unit :=
  let$ _ := slift (check_mask (MUser (sm_Rows q) (sm_Columns q) (fun _ _ => false)) out) in sret tt.

(** see [for_list], World.v (e.g. operators.go:36-58) *)
Fixpoint s_for_list {R I} (is_ : list I) (body : I -> MS (option R)) : MS (option R) :=
  match is_ with
  | [] => sret None
  | i :: rest =>
      let$ o := body i in
      match o with
      | Some r => sret (Some r)
      | None => s_for_list rest body
      end
  end.

(** see [enum_loop], World.v (e.g. operators.go:305-317) *)
Fixpoint s_enum_loop {R} (E : env) (fuel : nat) (p : ptr) (it : iter) (onCancel : R)
    (body : Z -> Z -> V -> MS (option R)) : MS (option R) :=
  if mat_HasNext it then
    match fuel with
    | O => slift mdiverge
    | S fuel' =>
        let$ d := slift (poll E) in
        if d : bool then sret (Some onCancel)
        else
          let$ m := slift (load p) in
          let$ '(r, c, v, it') := slift (mlift (mat_Next m it)) in
          let$ o := body r c v in
          match o with
          | Some x => sret (Some x)
          | None => s_enum_loop E fuel' p it' onCancel body
          end
    end
  else sret None.

(** see [enumerate], World.v (e.g. operators.go:305-317) *)
Definition s_enumerate {R} (E : env) (p : ptr) (onCancel : R) (body : Z -> Z -> V -> MS (option R)) : MS (option R) :=
  let$ m := slift (load p) in
  s_enum_loop E (e_fuel E) p (mat_iterator m) onCancel body.

(** see [map_step], World.v (e.g. csrMatrix.go:392-401) *)
Definition s_map_step (p : ptr) (it : iter) (f : Z -> Z -> V -> MS V) : MS iter :=
  let$ m := slift (load p) in
  let$ it' := slift (mlift (mat_next m it)) in
  let$ '(r, c, v) := slift (mlift (mat_cur m it')) in
  let$ v' := f r c v in
  let$ m := slift (load p) in
  let$ m' := slift (mlift (mat_map_put m it' v')) in
  let$ _ := slift (store p m') in sret it'.

(** see [map_loop], World.v; the loops of Apply and Negative return when the context is done (operators.go:339-341, 387-389) *)
Fixpoint s_map_loop (E : env) (fuel : nat) (p : ptr) (it : iter) (f : Z -> Z -> V -> MS V) : MS unit :=
  if mat_HasNext it then
    match fuel with
    | O => slift mdiverge
    | S fuel' =>
        let$ d := slift (poll E) in
        if d : bool then sret tt
        else
          let$ it' := s_map_step p it f in
          s_map_loop E fuel' p it' f
    end
  else sret tt.

(** see [map_over], World.v *)
Definition s_map_over (E : env) (p : ptr) (f : Z -> Z -> V -> MS V) : MS unit :=
  let$ m := slift (load p) in
  s_map_loop E (e_fuel E) p (mat_iterator m) f.

(** operators.go:19-60 [multiply], 65-67 [MatrixMatrixMultiply], 79-81 [MatrixVectorMultiply]; 72-74
    [VectorMatrixMultiply] with the operands swapped *)
Definition multiplyS (E : env) (s m : ptr) (q : smask) (matrix : ptr) : MS unit :=
  let$ mr := slift (p_Rows m) in
  let$ sc := slift (p_Columns s) in
  if negb (mr =? sc) then slift mpanic
  else
    let$ _ := s_check q matrix in
    let$ sr := slift (p_Rows s) in
    let$ mc := slift (p_Columns m) in
    let$ _ := s_for_list (R := unit) (zrange 0 sr) (fun r =>
      let$ so := slift (load s) in
      let$ rows := slift (mlift (mat_RowsAt so r)) in
      s_for_list (zrange 0 mc) (fun c =>
        let$ mo := slift (load m) in
        let$ column := slift (mlift (mat_ColumnsAt mo c)) in
        let$ o := slift (dot_loop E rows column (zrange 0 (mat_Length rows)) n0) in
        match o with
        | None => sret (Some tt)
        | Some sum =>
            let$ e := s_Element q r c in
            let$ _ := (if negb e then slift (p_Set matrix r c sum) else sret tt) in
            sret None
        end)) in
    sret tt.

(** operators.go:83-145 [elementWiseMultiply] *)
Definition elementWiseMultiplyS (E : env) (s m : ptr) (q : smask) (matrix : ptr) : MS unit :=
  let$ _ := s_check q matrix in
  (* operators.go:99-106 *)
  let target source r c value : MS (option unit) :=
    let$ v := slift (p_At source r c) in
    if neqb value v then
      let$ e := s_Element q r c in
      let$ _ := (if negb e then slift (p_Set matrix r c value) else sret tt) in sret None
    else sret None in
  (* operators.go:109-118 *)
  let setSource source r c value : MS (option unit) :=
    let$ e := s_Element q r c in
    let$ _ := (if negb e then slift (p_Update source r c (fun v => if negb (neqb value v) then n0 else v)) else sret tt) in
    sret None in
  let$ sp := slift (p_IsSparse E s) in
  let$ _ :=
    (if Nat.eqb m matrix then s_enumerate E s tt (setSource m)
     else if Nat.eqb s matrix then s_enumerate E m tt (setSource s)
     else if sp : bool then s_enumerate E s tt (target m)
     else s_enumerate E m tt (target s)) in
  sret tt.

(** operators.go:150-156 [ElementWiseMatrixMultiply] *)
Definition ElementWiseMatrixMultiplyS (E : env) (s m : ptr) (q : smask) (matrix : ptr) : MS unit :=
  let$ mr := slift (p_Rows m) in
  let$ sc := slift (p_Columns s) in
  if negb (mr =? sc) then slift mpanic else elementWiseMultiplyS E s m q matrix.

(** operators.go:161-167 [ElementWiseVectorMultiply] *)
Definition ElementWiseVectorMultiplyS (E : env) (s m : ptr) (q : smask) (vector : ptr) : MS unit :=
  let$ mr := slift (p_Rows m) in
  let$ sr := slift (p_Rows s) in
  if negb (mr =? sr) then slift mpanic else elementWiseMultiplyS E s m q vector.

(** operators.go:170-213 [Add] *)
Definition AddS (E : env) (s m : ptr) (q : smask) (matrix : ptr) : MS unit :=
  let$ _ := slift (check_sizes s m) in
  let$ _ := s_check q matrix in
  let$ sp := slift (p_IsSparse E s) in
  let '(src, source) := if sp : bool then (s, m) else (m, s) in
  let$ _ := s_enumerate E src tt (fun r c v =>
    let$ value := slift (p_At source r c) in
    let$ e := s_Element q r c in
    let$ _ := (if negb e then slift (p_Set matrix r c (nadd value v)) else sret tt) in
    sret None) in
  sret tt.

(** operators.go:229-241 and 245-257 *)
Definition ewa_loopS (E : env) (src : ptr) (q : smask) (matrix : ptr) : MS (option unit) :=
  s_enumerate E src tt (fun r c value =>
    if negb (neqb value n0) then
      let$ e := s_Element q r c in
      let$ _ := (if negb e then slift (p_Set matrix r c value) else sret tt) in sret None
    else sret None).

(** operators.go:215-259 [elementWiseAdd] *)
Definition elementWiseAddS (E : env) (s m : ptr) (q : smask) (matrix : ptr) : MS unit :=
  let$ _ := s_check q matrix in
  let$ o := (if negb (Nat.eqb s matrix) then ewa_loopS E s q matrix else sret None) in
  match o with
  | Some _ => sret tt
  | None =>
      let$ _ := (if negb (Nat.eqb m matrix) then ewa_loopS E m q matrix else sret None) in
      sret tt
  end.

(** operators.go:264-270 [ElementWiseMatrixAdd] *)
Definition ElementWiseMatrixAddS (E : env) (s m : ptr) (q : smask) (matrix : ptr) : MS unit :=
  let$ mr := slift (p_Rows m) in
  let$ sc := slift (p_Columns s) in
  if negb (mr =? sc) then slift mpanic else elementWiseAddS E s m q matrix.

(** operators.go:275-281 [ElementWiseVectorAdd] *)
Definition ElementWiseVectorAddS (E : env) (s m : ptr) (q : smask) (vector : ptr) : MS unit :=
  let$ mr := slift (p_Rows m) in
  let$ sr := slift (p_Rows s) in
  if negb (mr =? sr) then slift mpanic else elementWiseAddS E s m q vector.

(** operators.go:284-318 [Subtract] *)
Definition SubtractS (E : env) (s m : ptr) (q : smask) (matrix : ptr) : MS unit :=
  let$ _ := slift (check_sizes s m) in
  let$ _ := s_check q matrix in
  let$ _ := s_enumerate E s tt (fun r c value =>
    let$ e := s_Element q r c in
    let$ _ := (if negb e then slift (p_Update matrix r c (fun v => nsub value v)) else sret tt) in
    sret None) in
  sret tt.

(** operators.go:323-366 [Apply], with a pure function *)
Definition ApplyQ (E : env) (in_ : ptr) (q : smask) (u : V -> V) (matrix : ptr) : MS unit :=
  let$ _ := s_check q matrix in
  if Nat.eqb in_ matrix then
    s_map_over E in_ (fun r c value =>
      let$ e := s_Element q r c in
      sret (if e : bool then u value else value))
  else
    let$ _ := s_enumerate E in_ tt (fun r c value =>
      let$ e := s_Element q r c in
      let$ _ := (if negb e then slift (p_Set matrix c r (u value)) else sret tt) in sret None) in
    sret tt.

(** operators.go:369-396 [Negative] *)
Definition NegativeS (E : env) (s : ptr) (q : smask) (matrix : ptr) : MS unit :=
  let$ _ := s_check q matrix in
  s_map_over E matrix (fun r c value =>
    let$ e := s_Element q r c in
    sret (if negb e then nneg value else value)).

(** operators.go:401-426 [Transpose] *)
Definition TransposeS (E : env) (s : ptr) (q : smask) (matrix : ptr) : MS unit :=
  let$ _ := s_check q matrix in
  let$ _ := s_enumerate E s tt (fun r c value =>
    let$ e := s_Element q r c in
    let$ _ := (if negb e then slift (p_Set matrix c r value) else sret tt) in sret None) in
  sret tt.
End MaskMem.

(** ** Specification *)

(** a question with its answer *)
Notation qa := (Z * Z * res bool)%type.

Section MaskSpec.
Context {St : Type}.

(** the mask [q], writing down every question and what came of it *)
Definition noting (q : smask St) : smask (St * list qa) :=
  MkSMask (sm_Rows q) (sm_Columns q) (fun '(st, l) r c => let '(st', b) := sm_Element q st r c in ((st', l ++ [(r, c, b)]), b)).

(** the predicate [f] gives the answers in the log *)
Definition gives (f : Z -> Z -> bool) (l : list qa) : Prop := forall r c b, In (r, c, b) l -> b = Ok (f r c).

(** [x] is a program with the mask [noting q], [y] the same with [q], [z f] the same with the predicate [f]: writing down
    changes nothing, and any predicate that gives the answers that were given has the same effect *)
Definition follows {N : num} {A} (x : @MS N (St * list qa) A) (y : @MS N St A) (z : (Z -> Z -> bool) -> M N A) : Prop :=
  forall st w, exists l st' w' o, x (st, []) w = ((st', l), w', o) /\ y st w = (st', w', o) /\ forall f, gives f l -> z f w = (w', o).

(** asking about one place after the other until a call does not return *)
Fixpoint ask (q : smask St) (st : St) (ps : list (Z * Z)) : St * list qa :=
  match ps with
  | [] => (st, [])
  | (r, c) :: rest =>
      match sm_Element q st r c with
      | (st', Ok b) => let '(st2, l) := ask q st' rest in (st2, (r, c, Ok b) :: l)
      | (st', x) => (st', [(r, c, x)])
      end
  end.
End MaskSpec.

(** how the questions ended: [x] unless a call failed *)
Fixpoint ending {A} (l : list qa) (x : A) : res A :=
  match l with
  | [] => Ok x
  | (_, _, Ok _) :: rest => ending rest x
  | (_, _, Panic) :: _ => Panic
  | (_, _, Diverge) :: _ => Diverge
  end.

(** the recorded answer; [true] where there is none *)
Fixpoint recorded (l : list qa) (r c : Z) : bool :=
  match l with
  | [] => true
  | (a, b, x) :: rest => if (a =? r) && (b =? c) then match x with Ok e => e | _ => true end else recorded rest r c
  end.

(** the answer for a place, if there is one *)
Fixpoint replied (l : list qa) (r c : Z) : option bool :=
  match l with
  | [] => None
  | (a, b, x) :: rest => if (a =? r) && (b =? c) then match x with Ok e => Some e | _ => None end else replied rest r c
  end.

(** the elements whose questions were answered with [false] *)
Fixpoint granted {V} (es : list (Z * Z * V)) (l : list qa) : list (Z * Z * V) :=
  match es, l with
  | e :: es', (_, x) :: l' => match x with Ok false => e :: granted es' l' | _ => granted es' l' end
  | _, _ => []
  end.
