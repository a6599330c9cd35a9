(** Matrix types of the caller's own as operands of the operators of operators.go.

    The operators take the interface [Matrix] (matrix.go:65-91), so a program can give them a type
    with methods of its own: an identity matrix that stores nothing, a table computed on the fly,
    a view of a file.  Wrapped.v has types that pass every method on to a matrix of the library;
    here the methods may answer anything.  Simplifications: the methods of such an operand are pure
    (they neither change anything nor look at the library's objects), and HasNext and Next of its
    iterator do not panic.  The output is an object of the library. *)
From Coq Require Import String.
From Verif Require Import GoBase Num SparseVec Csr Csc DenseVec DenseMat Mat World Ops Spec Api ApplyMem.
Import ListNotations.

(** the answers of a caller's vector (vector.go:11-31): Length and AtVec *)
Record vec (N : num) : Type := MkVec { vec_Length : Z; vec_AtVec : Z -> res (T N) }.
Arguments MkVec {N}.
Arguments vec_Length {N}.
Arguments vec_AtVec {N}.

(** the answers of a caller's matrix (matrix.go:65-91, 11-63): the name of its type, Columns, Rows, Values, At, RowsAt, ColumnsAt, and
    what Enumerate's iterator shows *)
Record own (N : num) : Type := MkOwn {
  own_type : string;
  own_Rows : Z;
  own_Columns : Z;
  own_Values : Z;
  own_At : Z -> Z -> res (T N);
  own_RowsAt : Z -> res (vec N);
  own_ColumnsAt : Z -> res (vec N);
  own_shows : list (Z * Z * T N)
}.
Arguments MkOwn {N}.
Arguments own_type {N}.
Arguments own_Rows {N}.
Arguments own_Columns {N}.
Arguments own_Values {N}.
Arguments own_At {N}.
Arguments own_RowsAt {N}.
Arguments own_ColumnsAt {N}.
Arguments own_shows {N}.

Section Foreign.
Context {N : num}.
Notation V := (T N).
Notation M := (M N).

(** what an operand is: a pointer to an object of the library, or a pointer to a matrix of the caller's *)
Inductive arg : Type := Lib (p : ptr) | Own (o : own N).

(** the methods, dispatched (matrix.go:65-91) *)
Definition a_Rows (a : arg) : M Z := match a with Lib p => p_Rows p | Own o => mret (own_Rows o) end.
(** matrix.go:65-91 *)
Definition a_Columns (a : arg) : M Z := match a with Lib p => p_Columns p | Own o => mret (own_Columns o) end.
(** matrix.go:65-91 *)
Definition a_Values (a : arg) : M Z := match a with Lib p => p_Values p | Own o => mret (own_Values o) end.
(** matrix.go:65-91 *)
Definition a_At (a : arg) (r c : Z) : M V := match a with Lib p => p_At p r c | Own o => mlift (own_At o r c) end.
(** a vector of the library's, as seen through Length and AtVec *)
Definition vec_of (v : mat N) : vec N := MkVec (mat_Length v) (mat_AtVec v).
(** matrix.go:65-91 *)
Definition a_RowsAt (a : arg) (r : Z) : M (vec N) :=
  match a with
  | Lib p => let! m := load p in let! v := mlift (mat_RowsAt m r) in mret (vec_of v)
  | Own o => mlift (own_RowsAt o r)
  end.
(** matrix.go:65-91 *)
Definition a_ColumnsAt (a : arg) (c : Z) : M (vec N) :=
  match a with
  | Lib p => let! m := load p in let! v := mlift (mat_ColumnsAt m c) in mret (vec_of v)
  | Own o => mlift (own_ColumnsAt o c)
  end.
(** matrixRegistry.go:27-31 [IsSparseMatrix]: the name of the type is looked up *)
Definition a_IsSparse (E : env) (a : arg) : M bool :=
  match a with Lib p => p_IsSparse E p | Own o => mret (existsb (String.eqb (own_type o)) (e_reg E)) end.
(** [==] of an operand and the output, an object of the library (e.g. operators.go:120) *)
Definition a_same (a : arg) (t : ptr) : bool := match a with Lib p => Nat.eqb p t | Own _ => false end.

(** the loops over an iterator, e.g. operators.go:134-144; see [enum_loop] (World.v) *)
Fixpoint own_loop {R} (E : env) (l : list (Z * Z * V)) (onCancel : R) (body : Z -> Z -> V -> M (option R)) : M (option R) :=
  match l with
  | [] => mret None
  | (r, c, v) :: rest =>
      let! d := poll E in
      if d : bool then mret (Some onCancel)
      else
        let! o := body r c v in
        match o with
        | Some x => mret (Some x)
        | None => own_loop E rest onCancel body
        end
  end.
(** the same for any operand *)
Definition a_enumerate {R} (E : env) (a : arg) (onCancel : R) (body : Z -> Z -> V -> M (option R)) : M (option R) :=
  match a with Lib p => enumerate E p onCancel body | Own o => own_loop E (own_shows o) onCancel body end.

(** operators.go:42-53, the inner loop of [multiply] *)
Fixpoint a_dot (E : env) (rows column : vec N) (ls : list Z) (sum : V) : M (option V) :=
  match ls with
  | [] => mret (Some sum)
  | l :: rest =>
      let! d := poll E in
      if d : bool then mret None
      else
        let! vC := mlift (vec_AtVec column l) in
        let! vR := mlift (vec_AtVec rows l) in
        a_dot E rows column rest (nadd sum (nmul vR vC))
  end.

(** operators.go:19-60 [multiply] *)
Definition multiplyF (E : env) (s m : arg) (k : mask) (matrix : ptr) : M unit :=
  let! mr := a_Rows m in
  let! sc := a_Columns s in
  if negb (mr =? sc) then mpanic
  else
    let! k := check_mask k matrix in
    let! sr := a_Rows s in
    let! mc := a_Columns m in
    let! _ := for_list (R := unit) (zrange 0 sr) (fun r =>
      let! rows := a_RowsAt s r in
      for_list (zrange 0 mc) (fun c =>
        let! column := a_ColumnsAt m c in
        let! o := a_dot E rows column (zrange 0 (vec_Length rows)) n0 in
        match o with
        | None => mret (Some tt)
        | Some sum =>
            let! e := mask_Element k r c in
            (if negb e then p_Set matrix r c sum else mret tt) ;!;
            mret None
        end)) in
    mret tt.

(** operators.go:83-145 [elementWiseMultiply] *)
Definition elementWiseMultiplyF (E : env) (s m : arg) (k : mask) (matrix : ptr) : M unit :=
  let! k := check_mask k matrix in
  (* operators.go:99-106 *)
  let target source r c value : M (option unit) :=
    let! v := a_At source r c in
    if neqb value v then
      let! e := mask_Element k r c in
      (if negb e then p_Set matrix r c value else mret tt) ;!; mret None
    else mret None in
  (* operators.go:109-118; [source] is the output *)
  let setSource r c value : M (option unit) :=
    let! e := mask_Element k r c in
    (if negb e then
       p_Update matrix r c (fun v => if negb (neqb value v) then n0 else v)
     else mret tt) ;!; mret None in
  let! sp := a_IsSparse E s in
  let! _ :=
    (if a_same m matrix then a_enumerate E s tt setSource
     else if a_same s matrix then a_enumerate E m tt setSource
     else if sp : bool then a_enumerate E s tt (target m)
     else a_enumerate E m tt (target s)) in
  mret tt.

(** the size checks of Add and Subtract (operators.go:171-177, 285-291) *)
Definition a_check_sizes (s m : arg) : M unit :=
  let! sc := a_Columns s in
  let! mc := a_Columns m in
  if negb (sc =? mc) then mpanic
  else
    let! sr := a_Rows s in
    let! mr := a_Rows m in
    if negb (sr =? mr) then mpanic else mret tt.

(** operators.go:170-213 [Add] *)
Definition AddF (E : env) (s m : arg) (k : mask) (matrix : ptr) : M unit :=
  a_check_sizes s m ;!;
  let! k := check_mask k matrix in
  let! sp := a_IsSparse E s in
  let '(src, source) := if sp : bool then (s, m) else (m, s) in
  let! _ := a_enumerate E src tt (fun r c v =>
    let! value := a_At source r c in
    let! e := mask_Element k r c in
    (if negb e then p_Set matrix r c (nadd value v) else mret tt) ;!;
    mret None) in
  mret tt.

(** operators.go:229-241 and 245-257 *)
Definition ewa_loopF (E : env) (src : arg) (k : mask) (matrix : ptr) : M (option unit) :=
  a_enumerate E src tt (fun r c value =>
    if negb (neqb value n0) then
      let! e := mask_Element k r c in
      (if negb e then p_Set matrix r c value else mret tt) ;!; mret None
    else mret None).

(** operators.go:215-259 [elementWiseAdd] *)
Definition elementWiseAddF (E : env) (s m : arg) (k : mask) (matrix : ptr) : M unit :=
  let! k := check_mask k matrix in
  let! o := (if negb (a_same s matrix) then ewa_loopF E s k matrix else mret None) in
  match o with
  | Some _ => mret tt
  | None =>
      let! _ := (if negb (a_same m matrix) then ewa_loopF E m k matrix else mret None) in
      mret tt
  end.

(** operators.go:284-318 [Subtract] *)
Definition SubtractF (E : env) (s m : arg) (k : mask) (matrix : ptr) : M unit :=
  a_check_sizes s m ;!;
  let! k := check_mask k matrix in
  let! _ := a_enumerate E s tt (fun r c value =>
    let! e := mask_Element k r c in
    (if negb e then p_Update matrix r c (fun v => nsub value v) else mret tt) ;!;
    mret None) in
  mret tt.

(** operators.go:323-366 [Apply], with an input that is not the output *)
Definition ApplyF (E : env) (in_ : own N) (k : mask) (u : V -> V) (matrix : ptr) : M unit :=
  let! k := check_mask k matrix in
  let! _ := a_enumerate E (Own in_) tt (fun r c value =>
    let! e := mask_Element k r c in
    (if negb e then p_Set matrix c r (u value) else mret tt) ;!; mret None) in
  mret tt.

(** operators.go:401-426 [Transpose] *)
Definition TransposeF (E : env) (s : arg) (k : mask) (matrix : ptr) : M unit :=
  let! k := check_mask k matrix in
  let! _ := a_enumerate E s tt (fun r c value =>
    let! e := mask_Element k r c in
    (if negb e then p_Set matrix c r value else mret tt) ;!; mret None) in
  mret tt.

(** operators.go:492-549 [Equal] of two operands that are not nil *)
Definition EqualF (E : env) (s m : arg) : M bool :=
  let! sc := a_Columns s in
  let! mc := a_Columns m in
  if negb (sc =? mc) then mret false
  else
  let! sr := a_Rows s in
  let! mr := a_Rows m in
  if negb (sr =? mr) then mret false
  else
  let! sps := a_IsSparse E s in
  let! spm := a_IsSparse E m in
  let! sv := a_Values s in
  let! mv := a_Values m in
  if ((sps && spm) || (negb sps && negb spm)) && negb (sv =? mv) then mret false
  else
  let '(src, matrix) := if sps : bool then (s, m) else (m, s) in
  let! o := a_enumerate E src false (fun r c v =>
    let! mV := a_At matrix r c in
    if negb (neqb v mV) then mret (Some false) else mret None) in
  match o with
  | Some b => mret b
  | None => mret true
  end.
(** ** Specification *)

(** [a] has size R x C, At gives [f], and Enumerate shows [L].  For a caller's
    matrix [L] need not agree with [f]: it may leave places out, repeat them or show other values. *)
Definition presents (E : env) (w : world N) (a : arg) (R C : Z) (f : Z -> Z -> V) (L : list (Z * Z * V)) : Prop :=
  match a with
  | Lib p => exists m, obj w p m /\ denotes m R C f /\ enumerates m L /\ mat_Values m <= Z.of_nat (e_fuel E)
  | Own o => own_Rows o = R /\ own_Columns o = C /\ (forall r c, 0 <= r < R -> 0 <= c < C -> own_At o r c = Ok (f r c)) /\
      own_shows o = L /\ forall r c v, In (r, c, v) L -> 0 <= r < R /\ 0 <= c < C
  end.

(** the same for an operand that is not the output [t] *)
Definition operand (E : env) (w : world N) (t : ptr) (a : arg) (R C : Z) (f : Z -> Z -> V) (L : list (Z * Z * V)) : Prop :=
  a <> Lib t /\ presents E w a R C f L.

(** what Values answers *)
Definition says (w : world N) (a : arg) (n : Z) : Prop :=
  match a with Lib p => exists m, obj w p m /\ mat_Values m = n | Own o => own_Values o = n end.

(** whether the type of the operand is registered *)
Definition registered (E : env) (w : world N) (a : arg) (b : bool) : Prop :=
  match a with
  | Lib p => exists m, obj w p m /\ IsSparseMatrix (e_reg E) m = b
  | Own o => if b then In (own_type o) (e_reg E) else ~ In (own_type o) (e_reg E)
  end.

(** the rows of [a] have length [n] and show [fr]; the columns of [a] show [gc] *)
Definition rows_show (w : world N) (t : ptr) (a : arg) (R K n : Z) (fr : Z -> Z -> V) : Prop :=
  match a with
  | Lib p => p <> t /\ exists m, obj w p m /\ mat_Rows m = R /\ mat_Columns m = K /\
      forall r, 0 <= r < R -> exists v, mat_RowsAt m r = Ok v /\ mat_Length v = n /\ forall l, 0 <= l < n -> mat_AtVec v l = Ok (fr r l)
  | Own o => own_Rows o = R /\ own_Columns o = K /\
      forall r, 0 <= r < R -> exists v, own_RowsAt o r = Ok v /\ vec_Length v = n /\ forall l, 0 <= l < n -> vec_AtVec v l = Ok (fr r l)
  end.
Definition columns_show (w : world N) (t : ptr) (a : arg) (K C n : Z) (gc : Z -> Z -> V) : Prop :=
  match a with
  | Lib p => p <> t /\ exists m, obj w p m /\ mat_Rows m = K /\ mat_Columns m = C /\
      forall c, 0 <= c < C -> exists v, mat_ColumnsAt m c = Ok v /\ forall l, 0 <= l < n -> mat_AtVec v l = Ok (gc c l)
  | Own o => own_Rows o = K /\ own_Columns o = C /\
      forall c, 0 <= c < C -> exists v, own_ColumnsAt o c = Ok v /\ forall l, 0 <= l < n -> vec_AtVec v l = Ok (gc c l)
  end.

(** the values shown for a place, in order *)
Definition shown_at (L : list (Z * Z * V)) (i j : Z) : list V :=
  map snd (filter (fun e => (fst (fst e) =? i) && (snd (fst e) =? j)) L).

(** a cell of [O] holding [x] after one write [op v x] for each of the values [vs]; [None] is no write *)
Definition after (O : mat N) (op : V -> V -> option V) (vs : list V) (x : V) : V :=
  fold_left (fun x v => match op v x with Some y => kept O y | None => x end) vs x.

(** [L] shows each place at most once, with the value At gives there *)
Definition honest (f : Z -> Z -> V) (L : list (Z * Z * V)) : Prop :=
  NoDup (map fst L) /\ forall r c v, In (r, c, v) L -> v = f r c.
End Foreign.
Arguments arg : clear implicits.
