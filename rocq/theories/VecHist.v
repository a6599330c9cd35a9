(** A specification of sparse vectors that says what histories of calls show although the
    shortcut in [index] (sparseVector.go:191) misses entries. *)
From Verif Require Import GoBase Num Mat Spec.

Section VecHist.
Context {N : num}.
Notation V := (T N).
Notation out := (out V).

(** how many of the [L] positions are not zero *)
Definition support (L : Z) (g : Z -> V) : Z := zlen (filter (fun i => negb (neqb (g i) n0)) (zrange 0 L)).

(** reading: positions beyond the number of non-zero entries read as zero *)
Definition windowed (L : Z) (g : Z -> V) (i : Z) : V := if i <=? support L g then g i else n0.

(** writing: beyond that number, a zero is not written *)
Definition windowed_write (L : Z) (g : Z -> V) (i : Z) (v : V) : Z -> V :=
  if (support L g <? i) && neqb v n0 then g else vwrote zeroed g i v.

(** the vector with these ways of reading and writing *)
Definition win_vop (L : Z) (g : Z -> V) (o : vop) : (Z -> V) * out :=
  let ok i := (0 <=? i) && (i <? L) in
  match o with
  | VSetVec i v => if ok i then (windowed_write L g i v, Done) else (g, Panics)
  | VAtVec i => if ok i then (g, Value (windowed L g i)) else (g, Panics)
  | VSet r c v => if ok r && (c =? 0) then (windowed_write L g r v, Done) else (g, Panics)
  | VUpdate r c f => if ok r && (c =? 0) then (windowed_write L g r (f (windowed L g r)), Done) else (g, Panics)
  | VAt r c => if ok r && (c =? 0) then (g, Value (windowed L g r)) else (g, Panics)
  | VElement r c => if ok r then (g, Flag (ngtb (windowed L g r) n0)) else (g, Panics)
  | VClear => ((fun _ => n0), Done)
  end.

Fixpoint win_vops (L : Z) (g : Z -> V) (os : list vop) : (Z -> V) * list out :=
  match os with
  | [] => (g, [])
  | o :: rest =>
      let '(g1, x) := win_vop L g o in
      let '(g2, xs) := win_vops L g1 rest in
      (g2, x :: xs)
  end.

(** what an operation writes at which position *)
Definition writes_at (L : Z) (g : Z -> V) (o : @vop N) : option (Z * V) :=
  match o with
  | VSetVec i v => Some (i, v)
  | VSet r _ v => Some (r, v)
  | VUpdate r _ f => Some (r, f (windowed L g r))
  | _ => None
  end.

(** a non-zero value is written beyond the number of non-zero entries only if everything
    from there on is zero *)
Definition in_order (L : Z) (g : Z -> V) (o : vop) : Prop :=
  match writes_at L g o with
  | Some (i, v) => neqb v n0 = false -> support L g < i -> forall j, i <= j < L -> neqb (g j) n0 = true
  | None => True
  end.

Fixpoint orderly (L : Z) (g : Z -> V) (os : list vop) : Prop :=
  match os with
  | [] => True
  | o :: rest => in_order L g o /\ orderly L (fst (win_vop L g o)) rest
  end.

(** the values that can have been made at position [i] by the operations [os] at [i] *)
Inductive made (os : list (@vop N)) (i : Z) : V -> Prop :=
| made_zero : made os i n0
| made_SetVec v : In (VSetVec i v) os -> made os i v
| made_Set c v : In (VSet i c v) os -> made os i v
| made_Update c f v : In (VUpdate i c f) os -> made os i v -> made os i (f v).

End VecHist.
