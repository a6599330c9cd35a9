(** A concrete execution of Strassen's multiplication with all its goroutines (C72). *)
From Coq Require Import String.
From Verif Require Import GoBase Num SparseVec Csr Csc DenseVec DenseMat Mat World Ops MathOps Bfs Spec Api.
From Verif Require Import BaseProofs StoreThms Witness NumProofs StoreWitness OpsWitness MathThms Fine FineRel FineConc FineThms FineWitness FineStrassen FineStrassenThms.
Open Scope Z_scope.

Section Replay.
Context {N : num}.
Notation task := (task (N := N)).
Notation config := (list (mat N) * task)%type.
Variable st : forall A, list (mat N) -> gor (N := N) A -> option (list (mat N) * gor (N := N) A).
Variable E : env.
Variable x : Z.
Notation step := (turn st E x).

(** the first goroutine that waits to send *)
Fixpoint sent (pre l : list (Z * task)) : option (list (Z * task) * (Z * ptr)) :=
  match l with
  | [] => None
  | (j, t) :: l => match finished t with Some p => Some (pre ++ l, (j, p)) | None => sent (pre ++ [(j, t)]) l end
  end.

(** a step of the goroutine that the number [n] points at: at a call with [k] goroutines and its own, [n mod (k+1)] is the one *)
Fixpoint poke (h : list (mat N)) (t : task) (n : nat) {struct t} : option config :=
  let kid := fix kid (pre l : list (Z * task)) (i n : nat) : option (list (mat N) * list (Z * task)) :=
    match l with
    | [] => None
    | (j, t) :: l => match i with
                     | O => option_map (fun y => (fst y, pre ++ (j, snd y) :: l)) (poke h t n)
                     | S i => kid (pre ++ [(j, t)]) l i n
                     end
    end in
  match t with
  | THead f g => match st _ h g with
                 | Some (h', g') => Some (h', THead f g')
                 | None => match outcome g, f with
                           | Some (Ok (Div bl)), S f => Some (h, TSpawn f bl 1 [2; 3; 4; 5; 6; 7] (go (opnd E 1 bl)) [])
                           | _, _ => None
                           end
                 end
  | TSpawn f bl i rest g ks =>
      let own := match st _ h g with
                 | Some (h', g') => Some (h', TSpawn f bl i rest g' ks)
                 | None => match outcome g with
                           | Some (Ok (a, b)) => Some (h, spawned E f bl rest (ks ++ [(i, THead f (go (head E x f a b)))]))
                           | _ => None
                           end
                 end in
      match Nat.modulo n (S (length ks)) with
      | O => own
      | S c => match kid [] ks c (Nat.div n (S (length ks))) with Some (h', ks') => Some (h', TSpawn f bl i rest g ks') | None => own end
      end
  | TRecv f ks got => match kid [] ks (Nat.modulo n (length ks)) (Nat.div n (length ks)) with
                      | Some (h', ks') => Some (h', TRecv f ks' got)
                      | None => match ks with
                                | [] => Some (h, TComb (go (combine E got)))
                                | _ :: _ => match sent [] ks with Some (ks', jp) => Some (h, TRecv f ks' (got ++ [jp])) | None => None end
                                end
                      end
  | TComb g => match st _ h g with Some (h', g') => Some (h', TComb g') | None => None end
  end.

Lemma poke_step t : forall h n c, poke h t n = Some c -> step (h, t) c.
Proof.
  induction t as [f g|f bl i rest g cs IH|f cs got IH|g] using FineStrassenInv.task_ind2; intros h n [h' t'] H; cbn [poke] in H.
  - destruct (st _ h g) as [[h1 g1]|] eqn:S; [injection H as <- <-; apply st_head; exact S|].
    destruct (outcome g) as [[[p|bl]| |]|] eqn:O; try discriminate. destruct f as [|f]; [discriminate|]. injection H as <- <-. apply st_divided. exact O.
  - match type of H with context [match ?k [] cs _ _ with _ => _ end] => set (kid := k) in H end.
    assert (Kd : forall l pre i n h1 l1, Forall (fun c => forall h n c', poke h (snd c) n = Some c' -> step (h, snd c) c') l -> kid pre l i n = Some (h1, l1) ->
      exists k1 j t t1 k2, pre ++ l = k1 ++ (j, t) :: k2 /\ l1 = k1 ++ (j, t1) :: k2 /\ step (h, t) (h1, t1)).
    { induction l as [|[j t] l IHl]; intros pre i0 n0 h1 l1 Fa Hk; cbn in Hk; [discriminate|]. inversion Fa as [|? ? F1 F2]; subst. destruct i0 as [|i0].
      - destruct (poke h t n0) as [[h2 t2]|] eqn:Pk; [|discriminate]. cbn in Hk. injection Hk as <- <-. exists pre, j, t, t2, l. repeat split. exact (F1 _ _ _ Pk).
      - destruct (IHl _ _ _ _ _ F2 Hk) as (k1 & j' & t0 & t1 & k2 & A1 & A2 & A3). exists k1, j', t0, t1, k2. rewrite <- app_assoc in A1. auto. }
    assert (Own : forall y, match st _ h g with
                 | Some (h', g') => Some (h', TSpawn f bl i rest g' cs)
                 | None => match outcome g with
                           | Some (Ok (a, b)) => Some (h, spawned E f bl rest (cs ++ [(i, THead f (go (head E x f a b)))]))
                           | _ => None
                           end
                 end = Some y -> step (h, TSpawn f bl i rest g cs) y).
    { intros y Hy. destruct (st _ h g) as [[h1 g1]|] eqn:S; [injection Hy as <-; apply st_operands; exact S|].
      destruct (outcome g) as [[[a b]| |]|] eqn:O; try discriminate. injection Hy as <-. apply st_go. exact O. }
    destruct (Nat.modulo n (Datatypes.S (length cs))) as [|c]; [exact (Own _ H)|].
    destruct (kid [] cs c (Nat.div n (Datatypes.S (length cs)))) as [[h1 ks1]|] eqn:Ek; [|exact (Own _ H)]. injection H as <- <-.
    destruct (Kd _ _ _ _ _ _ IH Ek) as (k1 & j & t & t1 & k2 & A1 & -> & A3). cbn [app] in A1. rewrite A1. apply st_kid_spawn. exact A3.
  - match type of H with context [match ?k [] cs _ _ with _ => _ end] => set (kid := k) in H end.
    assert (Kd : forall l pre i n h1 l1, Forall (fun c => forall h n c', poke h (snd c) n = Some c' -> step (h, snd c) c') l -> kid pre l i n = Some (h1, l1) ->
      exists k1 j t t1 k2, pre ++ l = k1 ++ (j, t) :: k2 /\ l1 = k1 ++ (j, t1) :: k2 /\ step (h, t) (h1, t1)).
    { induction l as [|[j t] l IHl]; intros pre i0 n0 h1 l1 Fa Hk; cbn in Hk; [discriminate|]. inversion Fa as [|? ? F1 F2]; subst. destruct i0 as [|i0].
      - destruct (poke h t n0) as [[h2 t2]|] eqn:Pk; [|discriminate]. cbn in Hk. injection Hk as <- <-. exists pre, j, t, t2, l. repeat split. exact (F1 _ _ _ Pk).
      - destruct (IHl _ _ _ _ _ F2 Hk) as (k1 & j' & t0 & t1 & k2 & A1 & A2 & A3). exists k1, j', t0, t1, k2. rewrite <- app_assoc in A1. auto. }
    assert (Sn : forall l pre l1 jp, sent pre l = Some (l1, jp) -> exists k1 t k2, pre ++ l = k1 ++ (fst jp, t) :: k2 /\ l1 = k1 ++ k2 /\ finished t = Some (snd jp)).
    { induction l as [|[j t] l IHl]; intros pre l1 jp Hk; cbn [sent] in Hk; [discriminate|]. destruct (finished t) as [p|] eqn:Fi.
      - injection Hk as <- <-. exists pre, t, l. auto.
      - destruct (IHl _ _ _ Hk) as (k1 & t0 & k2 & A1 & A2 & A3). exists k1, t0, k2. rewrite <- app_assoc in A1. auto. }
    destruct (kid [] cs (Nat.modulo n (length cs)) (Nat.div n (length cs))) as [[h1 ks1]|] eqn:Ek.
    + injection H as <- <-. destruct (Kd _ _ _ _ _ _ IH Ek) as (k1 & j & t & t1 & k2 & A1 & -> & A3). cbn [app] in A1. rewrite A1. apply st_kid_recv. exact A3.
    + destruct cs as [|c0 cs0]; [injection H as <- <-; apply st_received|].
      destruct (sent [] (c0 :: cs0)) as [[ks1 [j p]]|] eqn:Es; [|discriminate]. injection H as <- <-.
      destruct (Sn _ _ _ _ Es) as (k1 & t & k2 & A1 & -> & A3). cbn [app fst snd] in A1, A3. rewrite A1. apply st_receive. exact A3.
  - destruct (st _ h g) as [[h1 g1]|] eqn:S; [|discriminate]. injection H as <- <-. apply st_combine. exact S.
Qed.

End Replay.

Section Replays.
Context {N : num}.
Notation task := (task (N := N)).
Notation config := (list (mat N) * task)%type.
Variable E : env.
Variable x : Z.

(** [k] steps, the goroutines picked by numbers that jump about *)
Fixpoint drive (k : nat) (n : nat) (c : config) : config :=
  match k with
  | O => c
  | S k => match poke (@gstep N) E x (fst c) (snd c) n with Some c' => drive k (Nat.modulo (n * 17 + 5) 1009) c' | None => c end
  end.
Lemma tsteps_trans (a b c : config) : tsteps E x a b -> tsteps E x b c -> tsteps E x a c.
Proof. intros H1 H2. induction H2 as [|b b1 c H IH S]; [exact H1|]. eapply ts_more; [apply IH; exact H1|exact S]. Qed.
Lemma drive_steps k : forall n c, tsteps E x c (drive k n c).
Proof.
  induction k as [|k IH]; intros n [h t]; cbn [drive fst snd]; [constructor|]. destruct (poke (@gstep N) E x h t n) as [c'|] eqn:P; [|constructor].
  eapply tsteps_trans; [|apply IH]. eapply ts_more; [constructor|]. eapply poke_step. exact P.
Qed.
End Replays.

(** how many goroutines a call has *)
Fixpoint crowd {N : num} (t : task (N := N)) : nat :=
  let all := fix all (l : list (Z * task (N := N))) : nat := match l with [] => O | (_, t) :: l => (crowd t + all l)%nat end in
  match t with TSpawn _ _ _ _ _ ks | TRecv _ ks _ => S (all ks) | _ => 1%nat end.

(** two 4 x 4 matrices down to 1 x 1: after 2000 steps 34 goroutines are running, 4000 steps are enough *)
Lemma run72 : exists h t p, tsteps E0 1 (w_heap mathw, begin E0 1 2 3) (h, t) /\ finished t = Some p /\
  viewed h p = Some (2%nat, (4, 4), [[gi 17; gi 27; gi 32; gi 41]; [gi 41; gi 59; gi 68; gi 85]; [gi 3; gi 1; gi 2; gi 1]; [gi 7; gi 21; gi 24; gi 35]], ([], [])).
Proof.
  set (z := drive E0 1 (40 * 100) 1 (w_heap mathw, begin E0 1 2 3)). exists (fst z), (snd z), 272%nat.
  split; [rewrite <- (surjective_pairing z); apply drive_steps|]. split; subst z; vm_compute; reflexivity.
Qed.
Lemma crowd72 : exists h t, tsteps E0 1 (w_heap mathw, begin E0 1 2 3) (h, t) /\ crowd t = 34%nat.
Proof.
  set (z := drive E0 1 (20 * 100) 1 (w_heap mathw, begin E0 1 2 3)). exists (fst z), (snd z).
  split; [rewrite <- (surjective_pairing z); apply drive_steps|subst z; vm_compute; reflexivity].
Qed.
Definition crashed {N : num} (t : task (N := N)) : bool := match t with THead _ g => match outcome g with Some Panic => true | _ => false end | _ => false end.
Lemma crashed_broken {N : num} (t : task (N := N)) : crashed t = true -> broken t.
Proof. destruct t as [f g| | |]; cbn [crashed broken]; try discriminate. destruct (outcome g) as [[| |]|]; try discriminate. auto. Qed.
(** a call whose operands do not fit: the first goroutine panics *)
Lemma fail72 : exists h t, tsteps E0 1 (w_heap mathw, begin E0 1 0 4) (h, t) /\ broken t /\ snd (MultiplyCrossoverPoint E0 (fun _ => seven) 0 4 1 mathw) = Panic.
Proof.
  set (z := drive E0 1 100 1 (w_heap mathw, begin E0 1 0 4)). exists (fst z), (snd z).
  split; [rewrite <- (surjective_pairing z); apply drive_steps|]. split; [apply crashed_broken; subst z; vm_compute; reflexivity|vm_compute; reflexivity].
Qed.
