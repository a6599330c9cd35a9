(** Comparison of rune matrices (operators.go) and the sort package (sort/bubble.go). *)
From Verif Require Import GoBase Num SparseVec Csr Csc DenseVec DenseMat Mat World Ops.

(** [rune] is [int32] (matrix.go:61-63: the method set of [MatrixRune] is that
    of [MatrixLogical[rune]]) *)
Definition num_rune : num := num_int32.
(** the value of a rune *)
Definition code (v : T num_rune) : Z := wval (v : wint true 32).

(** [utf8.EncodeRune], which [strings.Builder.WriteRune] appends: the bytes of
    [r].  Negative values, values above U+10FFFF and surrogate halves are written
    as U+FFFD.  (Go's standard library, unicode/utf8/utf8.go; the shifts and masks
    are written as division and remainder.) *)
Definition utf8 (r : Z) : list Z :=
  if (0 <=? r) && (r <=? 127) then [r]
  else if (0 <=? r) && (r <=? 2047) then [192 + r / 64; 128 + r mod 64]
  else if (r <? 0) || (1114111 <? r) || ((55296 <=? r) && (r <=? 57343)) then [239; 191; 189]
  else if r <=? 65535 then [224 + r / 4096; 128 + r / 64 mod 64; 128 + r mod 64]
  else [240 + r / 262144; 128 + r / 4096 mod 64; 128 + r / 64 mod 64; 128 + r mod 64].

(** Go's [<] on strings compares bytes lexicographically (operators.go:445-463) *)
Fixpoint str_ltb (a b : list Z) : bool :=
  match a, b with
  | _, [] => false
  | [], _ :: _ => true
  | x :: a', y :: b' => if x <? y then true else if y <? x then false else str_ltb a' b'
  end.

Section Sort.
Notation M := (M num_rune).

(** operators.go:478-487: the loop of [String]; [acc] is the builder's content *)
Fixpoint string_loop (E : env) (fuel : nat) (p : ptr) (it : iter) (acc : list Z) : M (list Z) :=
  if mat_HasNext it then
    match fuel with
    | O => mdiverge
    | S fuel' =>
        let! d := poll E in
        if d then mret acc
        else
          let! m := load (N := num_rune) p in
          let! '(r, c, v, it') := mlift (mat_Next m it) in
          string_loop E fuel' p it' (acc ++ utf8 (code v))
    end
  else mret acc.

(** operators.go:473-490 [String], here [RuneString]: a Go string is the list of its bytes;
    [b.Grow] panics on a negative size.  (It also panics if the memory cannot be
    had, which is not modelled.) *)
Definition RuneString (E : env) (s : ptr) : M (list Z) :=
  let! n := p_Size s in
  if n <? 0 then mpanic
  else
    let! m := load s in
    string_loop E (e_fuel E) s (mat_iterator m) [].

(** operators.go:465-467 [Less] *)
Definition Less (E : env) (s m : ptr) : M bool :=
  let! a := RuneString E s in
  let! b := RuneString E m in
  mret (str_ltb a b).

(** operators.go:469-471 [Greater] *)
Definition Greater (E : env) (s m : ptr) : M bool :=
  let! a := RuneString E s in
  let! b := RuneString E m in
  mret (str_ltb b a).

(** operators.go:445-463 [Compare]; [s.Equal(m)] runs with the background context *)
Definition Compare (E : env) (s m : ptr) : M Z :=
  let! d := poll E in
  if d then mret 0
  else
    let! e := m_Equal E s (Some m) in
    if e then mret 0
    else
      let! d := poll E in
      if d then mret 0
      else
        let! l := Less E s m in
        if l then mret (-1) else mret 1.

(** sort/bubble.go:18-22, 24-28, 44-48, 50-54: every element of the vector [v] is
    written to the result, by [put] at its index.  These loops do not look at the
    context. *)
Definition write_line (E : env) (v : ptr) (put : Z -> T num_rune -> M unit) : M unit :=
  let! _ := enumerate (R := unit) (bg E) v tt (fun c _ x => put c x ;!; mret None) in
  mret tt.

(** sort/bubble.go:12-30 and 38-56, which differ only in how a line (a row or a
    column) is read ([get]) and written ([put]) *)
Definition bubble (E : env) (size : Z) (get : Z -> M ptr) (put : Z -> Z -> T num_rune -> M unit) : M unit :=
  let! _ := for_list (R := unit) (zrange 0 (size - 1)) (fun j =>
    for_list (R := unit) (zrange (j + 1) size) (fun i =>
      let! vj := get j in
      let! vi := get i in
      let! o := Compare E vj vi in
      if 0 <? o then
        write_line E vi (fun c v => put j c v) ;!;
        write_line E vj (fun c v => put i c v) ;!;
        mret None
      else mret None)) in
  mret tt.

(** sort/bubble.go:9-33 [BubbleRow] *)
Definition BubbleRow (E : env) (a : ptr) : M ptr :=
  let! size := p_Rows a in
  let! result := p_Copy a in
  bubble E size (fun k => p_RowsAt result k) (fun k c v => p_Set result k c v) ;!;
  mret result.

(** sort/bubble.go:35-59 [BubbleColumns] *)
Definition BubbleColumns (E : env) (a : ptr) : M ptr :=
  let! size := p_Columns a in
  let! result := p_Copy a in
  bubble E size (fun k => p_ColumnsAt result k) (fun k c v => p_Set result c k v) ;!;
  mret result.
End Sort.
