(** The theorems behind C68 about objects made through the API, and concrete executions for C68 and C69. *)
From Verif Require Import GoBase Num SparseVec Csr Csc DenseVec DenseMat Mat World Ops Api Mutex.
From Verif Require Import BaseProofs CsrProofs CscProofs DenseProofs SvProofs MatProofs Spec HeapProofs ReachProofs StoreProofs StoreThms Witness NumProofs StoreWitness MutexProofs MutexThms Access AccessProofs AccessConc AccessRace AccessClash AccessSim AccessThms.
Open Scope Z_scope.

Section Race.
Context {N : num}.
Notation wcall := (wcall (N := N)).
Implicit Types m : mat N.
Implicit Types k : wcall.
Implicit Types w : world N.

(** CSR, CSC and sparse vectors *)
Definition sparse m : Prop := match m with MCSR _ | MCSC _ | MSV _ => True | _ => False end.
Lemma At_in m r c v m' : wf m -> kind m <> KDV -> mat_At m r c = Ok (v, m') -> inb m r c.
Proof.
  intros Hw K H. destruct (inb_dec m r c) as [?|D]; [assumption|]. exfalso. rewrite (At_panic m r c Hw K D) in H. discriminate.
Qed.
Lemma no_race m progs tr x a b : arun (abegin m progs) tr x -> all_wcalls (race_safe (storage_of m)) progs -> ~ race tr a b.
Proof.
  intros R Sf Rc. pose proof Rc as (i & k & c & j & k' & c' & l & Ha & Hb & _). apply (race_blame _ _ _ _ _ _ _ _ _ _ _ _ _ _ R Rc Ha Hb).
  assert (P : forall i k (c : bool) l, List.In (EAcc i k c l) tr -> race_safe (storage_of m) k).
  { clear - R Sf.
    assert (Q : (forall i k (c : bool) l, List.In (EAcc i k c l) tr -> race_safe (storage_of m) k) /\ forall i g, nth_error (a_gs x) i = Some g -> forall k, List.In k (calls_of (ag_pc g) ++ ag_todo g) -> race_safe (storage_of m) k).
    { induction R as [|tr x e y R [IH1 IH2] S].
      - split; [intros ? ? ? ? []|]. intros i g H k I. cbn in H. rewrite nth_error_map in H. destruct (nth_error progs i) as [p|] eqn:E; inversion H; subst. cbn in I. eapply Sf; [eapply nth_error_In; exact E|exact I].
      - destruct S as [i g k rest room H Hp Ht L|i g k rest room l H Hp Ht L E|i g k rest l H Hp Ht L E|i g k room H Hp E|i g k l f v H Hp E|i g k l f v H Hp E|i g k u q z H Hp E|i g k p H Hp E|i g k v H Hp|i g k o H Hp];
          pose proof (IH2 i g H) as Hg; rewrite Hp in Hg; try rewrite Ht in Hg; cbn [calls_of app] in Hg.
        all: split;
          [intros i1 k1 w1 l1 I; apply in_app_iff in I as [I|I]; [eapply IH1; eauto|]; cbn in I; try tauto; destruct I as [I|[]]; inversion I; subst; apply Hg; cbn; auto
          |intros j g' E' k1 I; destruct (nth_set _ _ _ _ H j g' E') as [[-> ->]|[D E'']]; [cbn in I; apply Hg; cbn; tauto|eapply IH2; eauto]]. }
    apply Q. }
  split; [eapply P; eapply nth_error_In; exact Ha|eapply P; eapply nth_error_In; exact Hb].
Qed.
Lemma dense_no_race m progs tr x a b : match m with MDM _ | MDV _ => True | _ => False end ->
  arun (abegin m progs) tr x -> all_wcalls (fun k => k <> WClear /\ match k with WReads p => nowrite p | _ => True end) progs -> ~ race tr a b.
Proof.
  intros D R H. apply (no_race m progs tr x a b R). intros p k Ip Ik. destruct (H p k Ip Ik) as [Hc Hn]. destruct m; cbn in D; try tauto; destruct k; cbn in *; tauto.
Qed.
Lemma readers_race_at w p m r c v m' k1 k2 : sane N -> reachable w -> obj w p m -> sparse m -> mat_At m r c = Ok (v, m') -> isz v = false ->
  reader_of m k1 r c -> reader_of m k2 r c -> can_race m k1 k2.
Proof.
  intros Hs Hr Ho Sp At Hv H1 H2. pose proof (reach_good w p m Hs Hr Ho) as Hw. assert (Hb : inb m r c) by (apply (At_in m r c v m'); auto; destruct m; cbn in *; try discriminate; tauto).
  apply (readers_race m r c k1 k2 (proj1 Hs) Hw); auto; [destruct m; cbn in *; tauto|]. rewrite (At_ok m r c (proj1 Hs) Hw Hb) in At. inversion At; subst. exact Hv.
Qed.
Lemma values_race_at w p m r c v m' : sane N -> reachable w -> obj w p m -> sparse m -> mat_Set m r c v = Ok m' -> mat_Values m' <> mat_Values m ->
  can_race m (WSet r c v) WValues.
Proof.
  intros Hs Hr Ho Sp E Hn. pose proof (reach_good w p m Hs Hr Ho) as Hw. apply values_race; auto; [apply Hs|destruct m; cbn in *; tauto|exact Logic.I|].
  unfold next. cbn [plain_call body]. rewrite E. exact Hn.
Qed.
Lemma clears_race_at w p m : sane N -> reachable w -> obj w p m -> can_race m WClear WClear.
Proof. intros Hs Hr Ho. apply clears_race. exact (reach_good w p m Hs Hr Ho). Qed.
Lemma clear_breaks_at w p m r c v m' : sane N -> reachable w -> obj w p m -> mat_At m r c = Ok (v, m') ->
  match m with MDM _ => True | MDV _ => False | _ => isz v = false end ->
  exists tr y, arun (abegin m [[WClear]; [WAt r c]]) tr y /\ a_results y 1 = [(WAt r c, None)].
Proof.
  intros Hs Hr Ho At Hv. pose proof (reach_good w p m Hs Hr Ho) as Hw. assert (Hb : inb m r c) by (apply (At_in m r c v m'); auto; destruct m; cbn in *; try discriminate; tauto).
  destruct (clear_breaks_readers m r c (proj1 Hs) Hw Hb) as (tr & y & g & R & H & E).
  - rewrite (At_ok m r c (proj1 Hs) Hw Hb) in At. inversion At; subst. destruct m'; auto.
  - exists tr, y. split; [exact R|]. unfold a_results. rewrite H. exact E.
Qed.
End Race.

(** ** Running a schedule *)
Section Replay.
Context {N : num}.
Notation astate := (astate N).
Implicit Types x y : astate.
Definition room0 := (true, true).
(** goroutine [i] takes its next step, if it can *)
Definition afire x (i : nat) : option (option (ev N) * astate) :=
  match nth_error (a_gs x) i with
  | None => None
  | Some g =>
      match ag_pc g with
      | AOut =>
          match ag_todo g with
          | [] => None
          | k :: rest =>
              let p := AIn k (method (m_kind (a_mem x)) room0 k) in
              match wlock k with
              | LNone => Some (Some (EAcq i k), a_at x i p rest (ag_out g) (a_mem x) (a_rw x))
              | LRead => match rlock (a_rw x) with Some l => Some (Some (EAcq i k), a_at x i p rest (ag_out g) (a_mem x) l) | None => None end
              | LWrite => match announce (a_rw x) with Some l => Some (None, a_at x i (AAnn k) rest (ag_out g) (a_mem x) l) | None => None end
              end
          end
      | AAnn k => if no_readers (a_rw x) then Some (Some (EAcq i k), a_at x i (AIn k (method (m_kind (a_mem x)) room0 k)) (ag_todo g) (ag_out g) (a_mem x) (a_rw x)) else None
      | AIn k p =>
          let stop := Some (None, a_at x i (AFin k None) (ag_todo g) (ag_out g) (a_mem x) (a_rw x)) in
          match p with
          | PRet v => Some (None, a_at x i (AFin k (Some v)) (ag_todo g) (ag_out g) (a_mem x) (a_rw x))
          | PStop => stop
          | PHang => None
          | PRdZ l f => match rd_z (a_mem x) l with Ok z => Some (Some (EAcc i k false (loc_z l)), a_at x i (AIn k (f z)) (ag_todo g) (ag_out g) (a_mem x) (a_rw x)) | Panic => stop | Diverge => None end
          | PRdV l f => match rd_v (a_mem x) l with Ok z => Some (Some (EAcc i k false (loc_v l)), a_at x i (AIn k (f z)) (ag_todo g) (ag_out g) (a_mem x) (a_rw x)) | Panic => stop | Diverge => None end
          | PWr u q => match wr (a_mem x) u with Ok z => Some (Some (EAcc i k true (loc_u u)), a_at x i (AIn k q) (ag_todo g) (ag_out g) z (a_rw x)) | Panic => stop | Diverge => None end
          end
      | AFin k o => Some (Some (ERel i k), a_at x i AOut (ag_todo g) (ag_out g ++ [(k, o)]) (a_mem x)
          (match wlock k with LNone => a_rw x | LRead => runlock (a_rw x) | LWrite => unlock (a_rw x) end))
      end
  end.
Lemma afire_step x i e y : afire x i = Some (e, y) -> astep x e y.
Proof.
  unfold afire. destruct (nth_error (a_gs x) i) as [g|] eqn:H; [|discriminate]. destruct (ag_pc g) as [|k|k p|k o] eqn:P.
  - destruct (ag_todo g) as [|k rest] eqn:T; [discriminate|]. destruct (wlock k) eqn:L.
    + intros E; injection E as <- <-. exact (as_none x i g k rest room0 H P T L).
    + destruct (rlock (a_rw x)) eqn:R; [|discriminate]. intros E; injection E as <- <-. exact (as_rlock x i g k rest room0 _ H P T L R).
    + destruct (announce (a_rw x)) eqn:R; [|discriminate]. intros E; injection E as <- <-. exact (as_announce x i g k rest _ H P T L R).
  - destruct (no_readers (a_rw x)) eqn:R; [|discriminate]. intros E; injection E as <- <-. exact (as_lock x i g k room0 H P R).
  - destruct p as [a| | |l f|l f|u q].
    + intros E; injection E as <- <-. exact (as_ret x i g k a H P).
    + intros E; injection E as <- <-. exact (as_fault x i g k PStop H P Logic.I).
    + discriminate.
    + destruct (rd_z (a_mem x) l) as [z| |] eqn:R; [| |discriminate]; intros E; injection E as <- <-; [exact (as_readz x i g k l f z H P R)|exact (as_fault x i g k (PRdZ l f) H P R)].
    + destruct (rd_v (a_mem x) l) as [z| |] eqn:R; [| |discriminate]; intros E; injection E as <- <-; [exact (as_readv x i g k l f z H P R)|exact (as_fault x i g k (PRdV l f) H P R)].
    + destruct (wr (a_mem x) u) as [z| |] eqn:R; [| |discriminate]; intros E; injection E as <- <-; [exact (as_write x i g k u q z H P R)|exact (as_fault x i g k (PWr u q) H P R)].
  - intros E; injection E as <- <-. exact (as_leave x i g k o H P).
Qed.
(** [rounds]: every goroutine in turn takes a step if it can *)
Fixpoint areplay x (sched : list nat) (tr : list (ev N)) : list (ev N) * astate :=
  match sched with
  | [] => (tr, x)
  | i :: rest => match afire x i with Some (e, y) => areplay y rest (tr ++ seen_of e) | None => areplay x rest tr end
  end.
Lemma areplay_run x0 x sched tr0 tr y : arun x0 tr0 x -> areplay x sched tr0 = (tr, y) -> arun x0 tr y.
Proof.
  revert x tr0. induction sched as [|i sched IH]; intros x tr0 R E; cbn in E; [inversion E; subst; exact R|].
  destruct (afire x i) as [[e z]|] eqn:F; [|eapply IH; eauto]. apply afire_step in F. eapply IH; [|exact E]. eapply ar_step; eauto.
Qed.
Definition aplain_ret (o : option (ret N)) : (T N) + bool := match o with Some (VVal v) => inl v | Some _ => inr true | None => inr false end.
Definition aover x : bool := forallb (fun g => match ag_pc g, ag_todo g with AOut, [] => true | _, _ => false end) (a_gs x).
(** are all programs over, the stored numbers, how many accesses were made, in which order
    the goroutines got their locks, and the values returned ([inr true]: nothing; [inr false]: panic) *)
Definition asummary (p : list (ev N) * astate) : bool * list (T N) * nat * list nat * list (list (T N + bool)) :=
  (aover (snd p), m_vals (a_mem (snd p)), length (filter (fun e => match e with EAcc _ _ _ _ => true | _ => false end) (fst p)), map fst (order (fst p)),
   map (fun g => map (fun q => aplain_ret (snd q)) (ag_out g)) (a_gs (snd p))).
Lemma areplayed m progs sched S : asummary (areplay (abegin m progs) sched []) = S -> exists tr y, arun (abegin m progs) tr y /\ asummary (tr, y) = S.
Proof.
  intros H. destruct (areplay (abegin m progs) sched []) as [tr y] eqn:E. exists tr, y. split; [|exact H]. eapply areplay_run; [apply ar_nil|exact E].
Qed.
End Replay.

(** three goroutines taking turns after every access on a CSR matrix with entries 7 and -1 in
    row 2; the Set outside the matrix and the second callback panic *)
Definition progs69 : list (list (wcall (N := num_goint))) :=
  [[WUpdate 2 1 (fun v => Some (nadd v (gi 1))); WAt 2 1; WRows]; [WAt 2 1; WSet 5 0 (gi 1)]; [WUpdate 2 1 (fun _ => None); WSet 2 1 (gi 40); WAt 2 3]].
Lemma progs69_ok : all_wcalls locked_call progs69 /\ all_wcalls comes_to_end progs69.
Proof. split; intros p k Ip Ik; cbn in Ip; repeat (destruct Ip as [<- |Ip]; [cbn in Ik; repeat (destruct Ik as [<- |Ik]; [solve [cbn; auto | split; exact Logic.I]|]); destruct Ik|]); destruct Ip. Qed.
Definition sched69 : list nat := concat (repeat [1; 0; 2]%nat 180).
Lemma run69 : exists tr y, arun (abegin (MCSR demo0) progs69) tr y /\
  asummary (tr, y) = (true, [gi 5; gi 40; gi (-1)], 106%nat, [1; 0; 2; 1; 0; 2; 0; 2]%nat, [[inr true; inl (gi 8); inr true]; [inl (gi 7); inr false]; [inr false; inr true; inl (gi (-1))]]).
Proof. apply (areplayed _ _ sched69). vm_compute. reflexivity. Qed.

(** ** C68 on the same matrix *)
Lemma demo_stored : exists m', mat_At (MCSR demo0) 2 1 = Ok (gi 7, m').
Proof.
  assert (E : rmap fst (mat_At (MCSR demo0) 2 1) = Ok (gi 7)) by (vm_compute; reflexivity).
  destruct (mat_At (MCSR demo0) 2 1) as [[v m']| |]; inversion E; subst. eauto.
Qed.
Lemma demo_set_values : exists m', mat_Set (MCSR demo0) 2 1 (gi 0) = Ok m' /\ mat_Values m' <> mat_Values (MCSR demo0).
Proof.
  assert (E : rmap mat_Values (mat_Set (MCSR demo0) 2 1 (gi 0)) = Ok 2) by (vm_compute; reflexivity).
  destruct (mat_Set (MCSR demo0) 2 1 (gi 0)) as [m'| |]; inversion E. exists m'. split; [reflexivity|]. rewrite H0. vm_compute. discriminate.
Qed.
Lemma case68 : can_race (MCSR demo0) (WAt 2 1) (WElement 2 1) /\ can_race (MCSR demo0) (WSet 2 1 (gi 0)) WValues /\ can_race (MCSR demo0) WClear WClear.
Proof.
  split; [|split].
  - destruct demo_stored as (m' & E). apply (readers_race_at demo 0%nat (MCSR demo0) 2 1 (gi 7) m'); auto using goint_sane, demo_reachable, demo_obj0; [exact Logic.I|left; reflexivity|right; split; [reflexivity|exact Logic.I]].
  - destruct demo_set_values as (m' & E & D). apply (values_race_at demo 0%nat (MCSR demo0) 2 1 (gi 0) m'); auto using goint_sane, demo_reachable, demo_obj0. exact Logic.I.
  - apply (clears_race_at demo 0%nat); auto using goint_sane, demo_reachable, demo_obj0.
Qed.
(** the claim of C68 *)
Lemma not_race_free : ~ (forall N (w : world N) p (m : mat N) progs tr x a b, sane N -> reachable w -> obj w p m ->
  (forall q k, List.In q progs -> List.In k q -> exists r c, k = WAt r c) -> arun (abegin m progs) tr x -> ~ race tr a b).
Proof.
  intros H. destruct demo_stored as (m' & E).
  destruct (readers_race_at demo 0%nat (MCSR demo0) 2 1 (gi 7) m' (WAt 2 1) (WAt 2 1)) as (tr & y & a & b & R & Rc); auto using goint_sane, demo_reachable, demo_obj0; try exact Logic.I; try (left; reflexivity).
  apply (H num_goint demo 0%nat (MCSR demo0) [[WAt 2 1]; [WAt 2 1]] tr y a b goint_sane demo_reachable demo_obj0); auto.
  intros q k [<- |[<- |[]]] [<- |[]]; eauto.
Qed.
