(** Concrete cases for comparisons of the caller's matrices. *)
From Coq Require Import String.
From Verif Require Import GoBase Num SparseVec Csr Csc DenseVec DenseMat Mat World Ops Spec Api SortModel.
From Verif Require Import Witness StoreWitness OpsWitness ApplyMem ApplyMemWitness MaskMem Foreign Sink Shared Refuse SortProofs SortThms Judge.
From Verif Require Import MatProofs HeapProofs ReachProofs StoreProofs StoreThms OpsProps OpsThms.
Import ListNotations.

(** has no answer for the place (0, 1), and shows "ac" with a place outside *)
Definition riddle_at (r c : Z) : res (T num_rune) := if c =? 1 then Panic else Ok (ru 97).
Definition riddle : own num_rune := MkOwn "Riddle" 1 2 2 riddle_at (fun _ => Panic) (fun _ => Panic) [(0, 0, ru 97); (0, 9, ru 99)].
Definition oWide : mat num_rune := MDM (MkDense 2 1 dWide).

Lemma s3 : obj sortw 3 oWide. Proof. at_obj. Qed.
Lemma wide_enumerates : enumerates oWide [(0, 0, ru 97); (0, 1, ru 98)].
Proof.
  assert (Hw : wf oWide) by exact (sane_wfw _ rune_sane sortw_reachable _ _ s3).
  replace [(0, 0, ru 97); (0, 1, ru 98)] with (entries oWide) by (vm_compute; reflexivity). apply enumerates_entries. exact Hw.
Qed.
Lemma riddle_meets n x : sized sortw (Own riddle) 1 2 /\ sized sortw (Lib 3) 1 2 /\ registered E0 sortw (Own riddle) false /\ registered E0 sortw (Lib 3) false /\
  says sortw (Own riddle) 2 /\ says sortw (Lib 3) 2 /\ at_gives sortw (Own riddle) riddle_at /\
  reads E0 sortw (TOwn riddle n x) n [(0, 0, ru 97); (0, 9, ru 99)] /\ reads E0 sortw (TLib 3) 2 [(0, 0, ru 97); (0, 1, ru 98)].
Proof.
  split; [split; reflexivity|]. split; [split; [exact (p_Rows_ok _ _ _ s3)|exact (p_Columns_ok _ _ _ s3)]|].
  split; [cbn; intros H; repeat (destruct H as [H|H]; [discriminate|]); exact H|]. split; [exists oWide; split; [exact s3|reflexivity]|].
  split; [reflexivity|]. split; [exists oWide; split; [exact s3|reflexivity]|]. split; [intros r c; reflexivity|].
  split; [split; reflexivity|]. split; [unfold t_Size, p_Size; rewrite (mbind_ok _ _ _ _ _ (load_ok _ _ _ s3)); reflexivity|]. exists oWide. split; [exact s3|]. split; [exact wide_enumerates|vm_compute; discriminate].
Qed.
Lemma judge_case :
  snd (EqualF E0 (Own riddle) (Lib 3) sortw) = Panic /\ snd (EqualF (Ecancel 1) (Own riddle) (Lib 3) sortw) = Ok false /\
  snd (EqualF E0 (Lib 3) (Own riddle) sortw) = Panic /\
  snd (StringF E0 (TOwn riddle 2 (Ok false)) sortw) = Ok [97; 99] /\ snd (StringF E0 (TOwn riddle (-1) (Ok false)) sortw) = Panic /\
  snd (LessF E0 (TLib 3) (TOwn riddle 2 Panic) sortw) = Ok true /\ snd (LessF (Ecancel 3) (TLib 3) (TOwn riddle 2 Panic) sortw) = Ok false /\
  snd (GreaterF (Ecancel 3) (TLib 3) (TOwn riddle 2 Panic) sortw) = Ok true /\
  snd (CompareF E0 (TOwn riddle 2 (Ok false)) (TLib 3) sortw) = Ok 1 /\ snd (CompareF E0 (TOwn riddle 2 (Ok true)) (TLib 3) sortw) = Ok 0 /\
  snd (CompareF E0 (TOwn riddle 2 Diverge) (TLib 3) sortw) = Diverge /\ snd (CompareF (Ecancel 0) (TOwn riddle 2 Diverge) (TLib 3) sortw) = Ok 0 /\
  snd (CompareF (Ecancel 1) (TOwn riddle (-1) (Ok false)) (TLib 3) sortw) = Ok 0 /\ snd (CompareF E0 (TOwn riddle (-1) (Ok false)) (TLib 3) sortw) = Panic /\
  snd (CompareF E0 (TLib 3) (TOwn riddle 2 (Ok false)) sortw) = Panic.
Proof. vm_compute. repeat split. Qed.
