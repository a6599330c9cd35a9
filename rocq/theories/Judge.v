(** Comparison (operators.go:445-554) of matrices of the caller's own types, whose At may panic or not return, whose iterator
    may show places outside, and whose Size and Equal answer anything.  [EqualF] is in Foreign.v. *)
From Coq Require Import String.
From Verif Require Import GoBase Num SparseVec Csr Csc DenseVec DenseMat Mat World Ops Spec Api SortModel ApplyMem MaskMem Foreign Sink Shared Refuse.
Import ListNotations.

(** an operand of [String], [Less], [Greater] and [Compare] (matrix.go:11-63): an object of the library, or a matrix of the
    caller's with the answer of its Size and that of its Equal when it is asked about the other operand *)
Inductive text : Type := TLib (p : ptr) | TOwn (o : own num_rune) (size : Z) (same : res bool).
(** the operand as in Foreign.v *)
Definition t_arg (a : text) : arg num_rune := match a with TLib p => Lib p | TOwn o _ _ => Own o end.

Section Judge.
Notation M := (M num_rune).

(** matrix.go:48 *)
Definition t_Size (a : text) : M Z := match a with TLib p => p_Size p | TOwn _ n _ => mret n end.
(** [s.Equal(m)] (operators.go:450); the library's methods call [Equal] with the background context, e.g. csrMatrix.go:288-290 *)
Definition t_Equal (E : env) (s m : text) : M bool :=
  match s with TLib p => EqualF (bg E) (Lib p) (t_arg m) | TOwn _ _ b => mlift b end.

(** operators.go:478-487, the loop of [String], over the iterator of a caller's matrix *)
Fixpoint own_string (E : env) (l : list (Z * Z * T num_rune)) (acc : list Z) : M (list Z) :=
  match l with
  | [] => mret acc
  | (_, _, v) :: rest =>
      let! d := poll E in
      if d : bool then mret acc else own_string E rest (acc ++ utf8 (code v))
  end.
(** operators.go:473-490 [String]; see [RuneString] (SortModel.v) *)
Definition StringF (E : env) (a : text) : M (list Z) :=
  match a with
  | TLib p => RuneString E p
  | TOwn o _ _ => let! n := t_Size a in if n <? 0 then mpanic else own_string E (own_shows o) []
  end.
(** operators.go:465-467 [Less] *)
Definition LessF (E : env) (s m : text) : M bool :=
  let! a := StringF E s in
  let! b := StringF E m in
  mret (str_ltb a b).
(** operators.go:469-471 [Greater] *)
Definition GreaterF (E : env) (s m : text) : M bool :=
  let! a := StringF E s in
  let! b := StringF E m in
  mret (str_ltb b a).
(** operators.go:445-463 [Compare] *)
Definition CompareF (E : env) (s m : text) : M Z :=
  let! d := poll E in
  if d : bool then mret 0
  else
    let! e := t_Equal E s m in
    if e : bool then mret 0
    else
      let! d := poll E in
      if d : bool then mret 0
      else
        let! l := LessF E s m in
        if l : bool then mret (-1) else mret 1.
End Judge.

(** ** Specification *)

(** how many questions the context answers with "not done" ([None]: all of them); what is left after some questions *)
Definition quota {N : num} (E : env) (w : world N) : option nat := option_map (fun k => (k - w_polls w)%nat) (e_ctx E).
Definition spent (q : option nat) (n : nat) : option nat := option_map (fun k => (k - n)%nat) q.
Definition over (q : option nat) : bool := match q with Some O => true | _ => false end.
Definition within {A} (q : option nat) (l : list A) : list A := match q with None => l | Some n => firstn n l end.

(** the element differs from what At of the other operand gives, or At gives nothing *)
Definition objects {N : num} (g : Z -> Z -> res (T N)) (e : Z * Z * T N) : bool :=
  match g (row_of e) (col_of e) with Ok x => negb (neqb (snd e) x) | _ => true end.
(** the first such element decides; if there is none, the elements are equal unless the context was done before the last *)
Definition ruling {N : num} (g : Z -> Z -> res (T N)) (q : option nat) (L : list (Z * Z * T N)) : res bool :=
  match find (objects g) (within q L) with
  | Some e => match g (row_of e) (col_of e) with Ok _ => Ok false | Panic => Panic | Diverge => Diverge end
  | None => Ok (Nat.eqb (length (within q L)) (length L))
  end.

(** the text of some elements *)
Definition spelled (L : list (Z * Z * T num_rune)) : list Z := flat_map (fun e => utf8 (code (snd e))) L.
(** [a] says its size is [n], and its iterator shows [L] *)
Definition reads (E : env) (w : world num_rune) (a : text) (n : Z) (L : list (Z * Z * T num_rune)) : Prop :=
  t_Size a w = (w, Ok n) /\ walks E w (t_arg a) L.
(** whether the first text is before the second one *)
Definition earlier (q : option nat) (n n' : Z) (L L' : list (Z * Z * T num_rune)) : res bool :=
  if (n <? 0) || (n' <? 0) then Panic else Ok (str_ltb (spelled (within q L)) (spelled (within (spent q (length L)) L'))).
(** what comes of [s.Equal(m)] while the objects of the library are as in [w] *)
Definition finds (E : env) (w : world num_rune) (s m : text) (x : res bool) : Prop :=
  forall w1, w_heap w1 = w_heap w -> t_Equal E s m w1 = (w1, x).
