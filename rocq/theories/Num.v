(** Go numeric element types ([constraints.Number], constraints/number.go:7-10).

    A [num] is a Go numeric type: its values and the operators the library
    applies to them.  Theorems quantify over an arbitrary [num] wherever no
    algebraic law is needed; laws are separate predicates proved for concrete
    types. *)
From Coq Require Import String.
From Coq Require Import SpecFloat.
From Coq Require Import Eqdep_dec.
From Coq Require Import QArith Qcanon.
From Verif Require Import GoBase.

Record num : Type := {
  T : Type;
  num_name : string;                (* the name reflect reports for the type *)
  n0 : T;                           (* *new(T): default.go:8-18 *)
  n1 : T;                           (* the untyped constant 1 converted to T *)
  nadd : T -> T -> T;
  nsub : T -> T -> T;
  nmul : T -> T -> T;
  ndiv : T -> T -> res T;           (* x / y; integer division by zero panics *)
  nneg : T -> T;                    (* unary minus *)
  neqb : T -> T -> bool;            (* x == y *)
  nltb : T -> T -> bool;            (* x < y *)
}.
Arguments n0 {n}. Arguments n1 {n}.
Arguments nadd {n}. Arguments nsub {n}. Arguments nmul {n}. Arguments ndiv {n}.
Arguments nneg {n}. Arguments neqb {n}. Arguments nltb {n}.

(** [x > y] *)
Definition ngtb {N : num} (x y : T N) : bool := nltb y x.

(** [IsZero(v)], [v == Default[T]()]: default.go:12-14 *)
Definition isz {N : num} (x : T N) : bool := neqb x n0.

(** ** Laws *)

(** The zero value compares equal to itself (true of every Go number type). *)
Definition zero_ok (N : num) : Prop := neqb (n := N) n0 n0 = true.

(** [==] is identity (integers; false for floats because of NaN and -0). *)
Definition eq_ok (N : num) : Prop := forall x y : T N, neqb x y = true <-> x = y.

(** [==] is symmetric and tells zero from non-zero (also true for floats). *)
Definition cmp_ok (N : num) : Prop :=
  (forall x y : T N, neqb x y = neqb y x) /\
  (forall x y : T N, neqb x y = true -> neqb x n0 = neqb y n0).

(** The values form a commutative ring (all integer types, with wrap-around). *)
Definition ring_ok (N : num) : Prop :=
  ring_theory (n0 (n := N)) n1 nadd nmul nsub nneg eq.

(** The values form a field with exact division. *)
Definition field_ok (N : num) : Prop :=
  ring_ok N /\ eq_ok N /\ n1 <> (n0 (n := N)) /\
  (forall x : T N, x <> n0 -> exists y, ndiv n1 x = Ok y /\ nmul y x = n1).

(** ** Fixed-width integers with wrap-around *)

(** The value obtained by keeping the low [bits] bits of [z] and reading them
    as a signed or unsigned integer (Go specification, "Integer overflow"). *)
Definition wrap (signed : bool) (bits : Z) (z : Z) : Z :=
  if signed then (z + 2 ^ (bits - 1)) mod 2 ^ bits - 2 ^ (bits - 1)
  else z mod 2 ^ bits.

Record wint (signed : bool) (bits : Z) : Type := MkW {
  wval : Z;
  wok : (wrap signed bits wval =? wval) = true;
}.
Arguments MkW {signed bits}. Arguments wval {signed bits}. Arguments wok {signed bits}.

Lemma wrap_idem sg bits z : wrap sg bits (wrap sg bits z) = wrap sg bits z.
Proof.
  unfold wrap; destruct sg.
  - rewrite Z.sub_add.
    destruct (Z_le_gt_dec 0 bits) as [Hb|Hb].
    + rewrite Z.mod_mod by (apply Z.pow_nonzero; lia). reflexivity.
    + replace (2 ^ bits) with 0 by (symmetry; apply Z.pow_neg_r; lia).
      rewrite !Zmod_0_r. reflexivity.
  - destruct (Z_le_gt_dec 0 bits) as [Hb|Hb].
    + rewrite Z.mod_mod by (apply Z.pow_nonzero; lia). reflexivity.
    + replace (2 ^ bits) with 0 by (symmetry; apply Z.pow_neg_r; lia).
      rewrite !Zmod_0_r. reflexivity.
Qed.

Lemma wrap_ok sg bits z : (wrap sg bits (wrap sg bits z) =? wrap sg bits z) = true.
Proof. apply Z.eqb_eq, wrap_idem. Qed.

(** any proof of [b = true], made to compute to [eq_refl] for a concrete [b] *)
Definition canon (b : bool) : b = true -> b = true :=
  match b with true => fun _ => eq_refl | false => fun H => H end.

Definition of_Z {sg bits} (z : Z) : wint sg bits := MkW (wrap sg bits z) (canon _ (wrap_ok sg bits z)).

(** Go integer types.  Division truncates toward zero ([Z.quot]). *)
Definition num_int (name : string) (sg : bool) (bits : Z) : num := {|
  T := wint sg bits;
  num_name := name;
  n0 := of_Z 0;
  n1 := of_Z 1;
  nadd := fun x y => of_Z (wval x + wval y);
  nsub := fun x y => of_Z (wval x - wval y);
  nmul := fun x y => of_Z (wval x * wval y);
  ndiv := fun x y => if wval y =? 0 then Panic else Ok (of_Z (Z.quot (wval x) (wval y)));
  nneg := fun x => of_Z (- wval x);
  neqb := fun x y => wval x =? wval y;
  nltb := fun x y => wval x <? wval y;
|}.

Definition num_int8 := num_int "int8" true 8.
Definition num_int16 := num_int "int16" true 16.
Definition num_int32 := num_int "int32" true 32.
Definition num_int64 := num_int "int64" true 64.
Definition num_goint := num_int "int" true 64.
Definition num_uint8 := num_int "uint8" false 8.
Definition num_uint16 := num_int "uint16" false 16.
Definition num_uint32 := num_int "uint32" false 32.
Definition num_uint64 := num_int "uint64" false 64.
Definition num_uint := num_int "uint" false 64.
Definition num_uintptr := num_int "uintptr" false 64.

(** the Go integer types (constraints/number.go:7-10, on a 64-bit platform) *)
Definition go_ints : list num :=
  [num_int8; num_int16; num_int32; num_int64; num_goint;
   num_uint8; num_uint16; num_uint32; num_uint64; num_uint; num_uintptr].

(** ** float64: IEEE-754 binary64, round to nearest even, as specified by the
    standard library's [SpecFloat] (pure Gallina, no axioms). *)
Definition f64 := spec_float.
Definition f64_add : f64 -> f64 -> f64 := SFadd 53 1024.
Definition f64_sub : f64 -> f64 -> f64 := SFsub 53 1024.
Definition f64_mul : f64 -> f64 -> f64 := SFmul 53 1024.
Definition f64_div : f64 -> f64 -> f64 := SFdiv 53 1024.
(** the float64 nearest to an integer *)
Definition f64_of_Z (z : Z) : f64 := binary_normalize 53 1024 z 0 false.

Definition num_float64 : num := {|
  T := f64;
  num_name := "float64";
  n0 := S754_zero false;
  n1 := f64_of_Z 1;
  nadd := f64_add;
  nsub := f64_sub;
  nmul := f64_mul;
  ndiv := fun x y => Ok (f64_div x y);
  nneg := SFopp;
  neqb := SFeqb;
  nltb := SFltb;
|}.

(** float32: IEEE-754 binary32 *)
Definition num_float32 : num := {|
  T := spec_float;
  num_name := "float32";
  n0 := S754_zero false;
  n1 := binary_normalize 24 128 1 0 false;
  nadd := SFadd 24 128;
  nsub := SFsub 24 128;
  nmul := SFmul 24 128;
  ndiv := fun x y => Ok (SFdiv 24 128 x y);
  nneg := SFopp;
  neqb := SFeqb;
  nltb := SFltb;
|}.

(** all element types the library accepts *)
Definition go_types : list num := num_float32 :: num_float64 :: go_ints.

(** ** Exact integers and exact rationals (idealised types, used to state
    results that exclude overflow and rounding). *)
Definition num_Z : num := {|
  T := Z; num_name := "exact integer"; n0 := 0; n1 := 1;
  nadd := Z.add; nsub := Z.sub; nmul := Z.mul;
  ndiv := fun x y => if y =? 0 then Panic else Ok (Z.quot x y);
  nneg := Z.opp; neqb := Z.eqb; nltb := Z.ltb;
|}.

Definition Qc_ltb (x y : Qc) : bool := match (x ?= y)%Qc with Lt => true | _ => false end.

Definition num_Qc : num := {|
  T := Qc; num_name := "exact rational"; n0 := 0%Qc; n1 := 1%Qc;
  nadd := Qcplus; nsub := Qcminus; nmul := Qcmult;
  ndiv := fun x y => Ok (Qcdiv x y);
  nneg := Qcopp; neqb := Qc_eq_bool; nltb := Qc_ltb;
|}.
