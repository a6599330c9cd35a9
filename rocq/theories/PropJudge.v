(** Property C84: comparisons of matrices of the caller's own types (Judge.v).

    [sized], [walks], [at_gives]: see PropRefuse.v; [registered], [says]: see PropForeign.v.  [quota E w]: how many questions the
    context answers with "not done"; [spent q n]: what is left of them after n; [over q]: none; [within q L]: the elements of [L] reached.
    [ruling g q L]: the first element that is not equal to the answer [g] of At, or for which there is no answer, decides; if
    there is none, the elements are equal unless the context was done before the last.  [TOwn o n x]: the matrix [o] of the
    caller's, whose Size is [n] and whose Equal says [x].  [reads E w a n L]: [a] says its size is [n], and shows [L].
    [spelled L]: the text of the elements.  [earlier q n n' L L']: whether the first text is before the second.
    [finds E w s m x]: what comes of [s.Equal(m)]. *)
From Coq Require Import String.
From Verif Require Import GoBase Num SparseVec Csr Csc DenseVec DenseMat Mat World Ops Spec Api SortModel ApplyMem MaskMem Foreign Sink Shared Refuse Judge.
From Verif Require Import OpsProps SortProofs SortThms JudgeThms Witness StoreWitness OpsWitness JudgeWitness.
Import ListNotations.

Theorem C84_equal : forall N E (w : world N) (s m : arg N) R C R' C' g L b b' n n',
  sane N -> reachable w -> sized w s R C -> sized w m R' C' ->
  registered E w s b -> registered E w m b' -> says w s n -> says w m n' ->
  walks E w (if b then s else m) L -> at_gives w (if b then m else s) g ->
  exists w', EqualF E s m w = (w', if (C =? C') && (R =? R') && (negb (Bool.eqb b b') || (n =? n')) then ruling g (quota E w) L else Ok false) /\ w_heap w' = w_heap w.
Proof. exact @equal_run. Qed.
Print Assumptions C84_equal.

Theorem C84_equal_method : forall N E (w : world N) w1 (s m : arg N) R C R' C' g L b b' n n',
  sane N -> reachable w -> w_heap w1 = w_heap w -> sized w s R C -> sized w m R' C' ->
  registered E w s b -> registered E w m b' -> says w s n -> says w m n' ->
  walks E w (if b then s else m) L -> at_gives w (if b then m else s) g ->
  EqualF (bg E) s m w1 = (w1, if (C =? C') && (R =? R') && (negb (Bool.eqb b b') || (n =? n')) then ruling g None L else Ok false).
Proof. exact @equal_method. Qed.
Print Assumptions C84_equal_method.

Theorem C84_panics_where_shown : forall N E (w : world N) (s m : arg N) R C R' C' g L b b' n n',
  sane N -> reachable w -> sized w s R C -> sized w m R' C' ->
  registered E w s b -> registered E w m b' -> says w s n -> says w m n' ->
  walks E w (if b then s else m) L -> at_gives w (if b then m else s) g ->
  snd (EqualF E s m w) = Panic -> exists r c v, In (r, c, v) L /\ g r c = Panic.
Proof. exact @equal_panics. Qed.
Print Assumptions C84_panics_where_shown.

Theorem C84_string : forall E (w : world num_rune) a n L,
  reachable w -> reads E w a n L ->
  exists w', StringF E a w = (w', if n <? 0 then Panic else Ok (spelled (within (quota E w) L))) /\ w_heap w' = w_heap w.
Proof. exact @string_run. Qed.
Print Assumptions C84_string.

Theorem C84_less_greater : forall E (w : world num_rune) s m n n' L L',
  reachable w -> reads E w s n L -> reads E w m n' L' ->
  (exists w', LessF E s m w = (w', earlier (quota E w) n n' L L') /\ w_heap w' = w_heap w) /\
  (exists w', GreaterF E s m w = (w', if (n <? 0) || (n' <? 0) then Panic else Ok (str_ltb (spelled (within (spent (quota E w) (length L)) L')) (spelled (within (quota E w) L)))) /\ w_heap w' = w_heap w).
Proof. exact @less_run. Qed.
Print Assumptions C84_less_greater.

Theorem C84_compare : forall E (w : world num_rune) s m n n' L L' x,
  reachable w -> reads E w s n L -> reads E w m n' L' -> finds E w s m x ->
  exists w', CompareF E s m w = (w',
    if over (quota E w) then Ok 0 else
    match x with
    | Ok true => Ok 0
    | Ok false => if over (spent (quota E w) 1) then Ok 0 else
        match earlier (spent (quota E w) 2) n n' L L' with Ok true => Ok (-1) | Ok false => Ok 1 | Panic => Panic | Diverge => Diverge end
    | Panic => Panic
    | Diverge => Diverge
    end) /\ w_heap w' = w_heap w.
Proof. exact @compare_run. Qed.
Print Assumptions C84_compare.

Theorem C84_compare_own : forall E (w : world num_rune) o x m n n' L L',
  reachable w -> reads E w (TOwn o n x) n L -> reads E w m n' L' ->
  e_ctx E = None -> 0 <= n -> 0 <= n' ->
  exists w', CompareF E (TOwn o n x) m w = (w', match x with
    | Ok true => Ok 0
    | Ok false => Ok (if str_ltb (spelled L) (spelled L') then -1 else 1)
    | Panic => Panic
    | Diverge => Diverge
    end) /\ w_heap w' = w_heap w.
Proof. exact @compare_own. Qed.
Print Assumptions C84_compare_own.

Theorem C84_library_equal : forall E (w : world num_rune) p m R C R' C' g L b b' n n',
  reachable w -> sized w (Lib p) R C -> sized w (t_arg m) R' C' ->
  registered E w (Lib p) b -> registered E w (t_arg m) b' -> says w (Lib p) n -> says w (t_arg m) n' ->
  walks E w (if b then Lib p else t_arg m) L -> at_gives w (if b then t_arg m else Lib p) g ->
  finds E w (TLib p) m (if (C =? C') && (R =? R') && (negb (Bool.eqb b b') || (n =? n')) then ruling g None L else Ok false).
Proof. exact @library_finds. Qed.
Print Assumptions C84_library_equal.

Theorem C84_operands_of_the_library : forall E s m (w : world num_rune),
  StringF E (TLib s) w = RuneString E s w /\ LessF E (TLib s) (TLib m) w = Less E s m w /\
  GreaterF E (TLib s) (TLib m) w = Greater E s m w /\ CompareF E (TLib s) (TLib m) w = Compare E s m w.
Proof. exact @library_texts. Qed.
Print Assumptions C84_operands_of_the_library.

Example C84_case : reachable sortw /\ obj sortw 3 oWide /\ (forall n x, sized sortw (Own riddle) 1 2 /\ sized sortw (Lib 3) 1 2 /\ registered E0 sortw (Own riddle) false /\ registered E0 sortw (Lib 3) false /\
  says sortw (Own riddle) 2 /\ says sortw (Lib 3) 2 /\ at_gives sortw (Own riddle) riddle_at /\
  reads E0 sortw (TOwn riddle n x) n [(0, 0, ru 97); (0, 9, ru 99)] /\ reads E0 sortw (TLib 3) 2 [(0, 0, ru 97); (0, 1, ru 98)]) /\
  snd (EqualF E0 (Own riddle) (Lib 3) sortw) = Panic /\ snd (EqualF (Ecancel 1) (Own riddle) (Lib 3) sortw) = Ok false /\
  snd (EqualF E0 (Lib 3) (Own riddle) sortw) = Panic /\
  snd (StringF E0 (TOwn riddle 2 (Ok false)) sortw) = Ok [97; 99] /\ snd (StringF E0 (TOwn riddle (-1) (Ok false)) sortw) = Panic /\
  snd (LessF E0 (TLib 3) (TOwn riddle 2 Panic) sortw) = Ok true /\ snd (LessF (Ecancel 3) (TLib 3) (TOwn riddle 2 Panic) sortw) = Ok false /\
  snd (GreaterF (Ecancel 3) (TLib 3) (TOwn riddle 2 Panic) sortw) = Ok true /\
  snd (CompareF E0 (TOwn riddle 2 (Ok false)) (TLib 3) sortw) = Ok 1 /\ snd (CompareF E0 (TOwn riddle 2 (Ok true)) (TLib 3) sortw) = Ok 0 /\
  snd (CompareF E0 (TOwn riddle 2 Diverge) (TLib 3) sortw) = Diverge /\ snd (CompareF (Ecancel 0) (TOwn riddle 2 Diverge) (TLib 3) sortw) = Ok 0 /\
  snd (CompareF (Ecancel 1) (TOwn riddle (-1) (Ok false)) (TLib 3) sortw) = Ok 0 /\ snd (CompareF E0 (TOwn riddle (-1) (Ok false)) (TLib 3) sortw) = Panic /\
  snd (CompareF E0 (TLib 3) (TOwn riddle 2 (Ok false)) sortw) = Panic.
Proof. split; [exact sortw_reachable|]. split; [exact s3|]. split; [exact riddle_meets|]. exact judge_case. Qed.
