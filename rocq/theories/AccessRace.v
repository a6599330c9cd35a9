(** Which calls of a [MutexMatrix] can race. *)
From Verif Require Import GoBase Num SparseVec Csr Csc DenseVec DenseMat Mat World Mutex.
From Verif Require Import BaseProofs CsrProofs CscProofs DenseProofs SvProofs MatProofs Spec MutexProofs Access AccessProofs AccessConc.
Open Scope Z_scope.

Section AccessRace.
Context {N : num}.
Notation V := (T N).
Notation mat := (mat N).
Notation mem := (mem (N := N)).
Notation wcall := (wcall (N := N)).
Notation prog := (prog (N := N)).
Notation agor := (agor N).
Notation astate := (astate N).
Notation ev := (ev N).
Implicit Types m : mat.
Implicit Types k : wcall.
Implicit Types x y z : astate.
Implicit Types g : agor.
Implicit Types tr : list ev.

(** ** happens-before *)
Lemma hb_lt tr a b : hb tr a b -> (a < b)%nat.
Proof. induction 1; lia. Qed.
Lemma nth_app_l {A} (l l' : list A) a e : nth_error l a = Some e -> nth_error (l ++ l') a = Some e.
Proof. intros H. rewrite nth_error_app1; [exact H|]. apply nth_error_Some. congruence. Qed.
Lemma hb_app tr tr' a b : hb tr a b -> hb (tr ++ tr') a b.
Proof.
  induction 1; [eapply hb_program; eauto using nth_app_l|eapply hb_sync; eauto using nth_app_l|eapply hb_trans; eauto].
Qed.
(** without releases nothing is ordered between goroutines *)
Definition is_rel (e : ev) : Prop := match e with ERel _ _ => True | _ => False end.
Lemma hb_no_release tr a b : (forall e, List.In e tr -> ~ is_rel e) -> hb tr a b ->
  exists e e', nth_error tr a = Some e /\ nth_error tr b = Some e' /\ who e = who e'.
Proof.
  intros H. induction 1 as [a b e e' L Ea Eb W|a b i k j k' L Ea Eb S|a b c A IHA B IHB].
  - eauto.
  - exfalso. apply (H _ (nth_error_In _ _ Ea)). exact Logic.I.
  - destruct IHA as (e1 & e2 & E1 & E2 & W1). destruct IHB as (e3 & e4 & E3 & E4 & W2). exists e1, e4. repeat split; auto. congruence.
Qed.

(** ** the lock *)
Definition acall (p : apc N) : option wcall := match p with AIn k _ | AFin k _ => Some k | _ => None end.
Definition ardp (p : apc N) : nat := match acall p with Some k => match wlock k with LRead => 1%nat | _ => 0%nat end | None => 0%nat end.
Definition awinp (p : apc N) : nat := match acall p with Some k => match wlock k with LWrite => 1%nat | _ => 0%nat end | None => 0%nat end.
Definition awrp (p : apc N) : nat := match p with AAnn _ => 1%nat | _ => awinp p end.
Definition a_rd g : nat := ardp (ag_pc g).
Definition a_win g : nat := awinp (ag_pc g).
Definition a_wr g : nat := awrp (ag_pc g).
Lemma a_rd_at g : a_rd g = ardp (ag_pc g). Proof. reflexivity. Qed.
Lemma a_win_at g : a_win g = awinp (ag_pc g). Proof. reflexivity. Qed.
Lemma a_wr_at g : a_wr g = awrp (ag_pc g). Proof. reflexivity. Qed.
Fixpoint sumf {A} (f : A -> nat) (l : list A) : nat := match l with [] => 0%nat | a :: rest => (f a + sumf f rest)%nat end.
Lemma sumf_set {A} (f : A -> nat) l i a b : nth_error l i = Some a -> (sumf f (list_set l i b) + f a = sumf f l + f b)%nat.
Proof.
  revert i. induction l as [|c l IH]; intros [|i] H; cbn in *; try discriminate.
  - inversion H; subst. lia.
  - specialize (IH i H). lia.
Qed.
Lemma sumf_ge {A} (f : A -> nat) l i a : nth_error l i = Some a -> (f a <= sumf f l)%nat.
Proof. revert i. induction l as [|c l IH]; intros [|i] H; cbn in *; try discriminate; [inversion H; subst; lia|specialize (IH i H); lia]. Qed.
Lemma sumf_two {A} (f : A -> nat) l i j a b : nth_error l i = Some a -> nth_error l j = Some b -> i <> j -> (f a + f b <= sumf f l)%nat.
Proof.
  revert i j. induction l as [|c l IH]; intros [|i] [|j] H H' D; cbn in *; try discriminate; try congruence.
  - inversion H; subst. pose proof (sumf_ge f l j b H'). lia.
  - inversion H'; subst. pose proof (sumf_ge f l i a H). lia.
  - specialize (IH i j H H' ltac:(congruence)). lia.
Qed.
Lemma sumf_le {A} (f h : A -> nat) l : (forall a, f a <= h a)%nat -> (sumf f l <= sumf h l)%nat.
Proof. intros H. induction l as [|a l IH]; cbn; [lia|]. specialize (H a). lia. Qed.
Lemma win_le g : (a_win g <= a_wr g)%nat.
Proof. unfold a_wr, a_win, awrp. destruct (ag_pc g); cbn; lia. Qed.

Record lock_ok x : Prop := MkLockOk {
  lk_readers : rw_readers (a_rw x) = sumf a_rd (a_gs x);
  lk_writer : (if rw_writer (a_rw x) then 1 else 0)%nat = sumf a_wr (a_gs x);
  lk_excl : (sumf a_win (a_gs x) > 0)%nat -> sumf a_rd (a_gs x) = 0%nat;
  lk_ann : forall i g k, nth_error (a_gs x) i = Some g -> ag_pc g = AAnn k -> wlock k = LWrite;
}.
Lemma lock_begin m progs : lock_ok (abegin m progs).
Proof.
  assert (forall f, (forall p, f (MkAG AOut p []) = 0%nat) -> sumf f (map (fun p => MkAG (N := N) AOut p []) progs) = 0%nat) as Z.
  { intros f F. induction progs as [|p l IH]; cbn; [reflexivity|]. rewrite F, IH. reflexivity. }
  constructor; cbn.
  - symmetry. apply Z. reflexivity.
  - symmetry. apply Z. reflexivity.
  - intros _. apply Z. reflexivity.
  - intros i g k H E. apply nth_error_In, in_map_iff in H as (p & <- & _). discriminate.
Qed.
Ltac sums H g' Hp Hl :=
  let Er := fresh "Er" in let Ew := fresh "Ew" in let Ea := fresh "Ea" in
  let Gr := fresh "Gr" in let Gw := fresh "Gw" in let Ga := fresh "Ga" in
  pose proof (sumf_set a_rd _ _ _ g' H) as Er; pose proof (sumf_set a_win _ _ _ g' H) as Ew; pose proof (sumf_set a_wr _ _ _ g' H) as Ea;
  pose proof (sumf_ge a_rd _ _ _ H) as Gr; pose proof (sumf_ge a_win _ _ _ H) as Gw; pose proof (sumf_ge a_wr _ _ _ H) as Ga;
  rewrite !a_rd_at in Er; rewrite !a_win_at in Ew; rewrite !a_wr_at in Ea; rewrite a_rd_at in Gr; rewrite a_win_at in Gw; rewrite a_wr_at in Ga;
  cbn [ag_pc] in Er, Ew, Ea, Gr, Gw, Ga; rewrite Hp in Er, Ew, Ea, Gr, Gw, Ga; unfold awrp, awinp, ardp in Er, Ew, Ea, Gr, Gw, Ga; cbn [acall] in Er, Ew, Ea, Gr, Gw, Ga;
  rewrite ?Hl in Er; rewrite ?Hl in Ew; rewrite ?Hl in Ea; rewrite ?Hl in Gr; rewrite ?Hl in Gw; rewrite ?Hl in Ga.
Lemma ann_set x i g p todo out (Q : wcall -> Prop) : nth_error (a_gs x) i = Some g ->
  (forall j g' k, nth_error (a_gs x) j = Some g' -> ag_pc g' = AAnn k -> Q k) -> (forall k, p = AAnn k -> Q k) ->
  forall j g' k, nth_error (list_set (a_gs x) i (MkAG p todo out)) j = Some g' -> ag_pc g' = AAnn k -> Q k.
Proof. intros H A B j g' k E P. destruct (nth_set _ _ _ _ H j g' E) as [[-> ->]|[D E']]; [apply B; exact P|eapply A; eauto]. Qed.
Lemma lock_step x e y : lock_ok x -> astep x e y -> lock_ok y.
Proof.
  intros [R W X A] S.
  assert (sumf a_win (a_gs x) <= sumf a_wr (a_gs x))%nat as Le by (apply sumf_le, win_le).
  destruct S as [i g k rest room H Hp Ht L|i g k rest room l H Hp Ht L E|i g k rest l H Hp Ht L E|i g k room H Hp E|i g k l f v H Hp E|i g k l f v H Hp E|i g k u q y H Hp E|i g k p H Hp E|i g k v H Hp|i g k o H Hp];
    constructor; cbn [a_at a_rw a_gs a_mem];
    try (eapply ann_set; [exact H|exact A|]; intros k' E'; inversion E'; subst; auto; fail).
  all: try (sums H (MkAG (AIn k (method (m_kind (a_mem x)) room k)) rest (ag_out g)) Hp L).
  all: try (unfold rlock in E; destruct (rw_writer (a_rw x)); [discriminate|]; inversion E; subst l; cbn; lia).
  all: try lia.
  all: try (unfold announce in E; destruct (rw_writer (a_rw x)); [discriminate|]; inversion E; subst l; sums H (MkAG (AAnn k) rest (ag_out g)) Hp L; cbn; lia).
  all: try (pose proof (A i g k H Hp) as L; apply Nat.eqb_eq in E; sums H (MkAG (AIn k (method (m_kind (a_mem x)) room k)) (ag_todo g) (ag_out g)) Hp L; lia).
  all: try (sums H (MkAG (AIn k (f v)) (ag_todo g) (ag_out g)) Hp Hp; lia).
  all: try (sums H (MkAG (AIn k q) (ag_todo g) (ag_out g)) Hp Hp; lia).
  all: try (sums H (MkAG (AFin k None) (ag_todo g) (ag_out g)) Hp Hp; lia).
  all: try (sums H (MkAG (AFin k (Some v)) (ag_todo g) (ag_out g)) Hp Hp; lia).
  all: destruct (wlock k) eqn:L; sums H (MkAG AOut (ag_todo g) (ag_out g ++ [(k, o)])) Hp L; cbn; try lia; destruct (rw_writer (a_rw x)); lia.
Qed.
Lemma lock_run m progs tr x : arun (abegin m progs) tr x -> lock_ok x.
Proof. induction 1 as [|tr y e z R IH S]; [apply lock_begin|]. eapply lock_step; eauto. Qed.

(** [i] is inside call [k] *)
Definition ainside x i k : Prop := exists g, nth_error (a_gs x) i = Some g /\ acall (ag_pc g) = Some k.
(** no goroutine inside holds a lock that conflicts with another's *)
Lemma a_exclusion x i j k k' : lock_ok x -> ainside x i k -> ainside x j k' -> i <> j -> ~ syncs (wlock k) (wlock k').
Proof.
  intros [R W X A] (g & H & C) (g' & H' & C') D S.
  pose proof (sumf_two a_win _ _ _ _ _ H H' D) as T1. pose proof (sumf_ge a_rd _ _ _ H) as T2. pose proof (sumf_ge a_rd _ _ _ H') as T3.
  assert (sumf a_win (a_gs x) <= sumf a_wr (a_gs x))%nat as Le by (apply sumf_le, win_le).
  rewrite !a_win_at in T1. rewrite a_rd_at in T2, T3. unfold awinp, ardp in T1, T2, T3. rewrite C in T1, T2. rewrite C' in T1, T3.
  destruct (wlock k), (wlock k'); cbn in S; try tauto; destruct (rw_writer (a_rw x)); lia.
Qed.

(** ** accesses are ordered by the lock *)
Definition released tr i k a c : Prop := exists d, (a < d)%nat /\ (d < c)%nat /\ nth_error tr d = Some (ERel i k).
Record ordered tr x : Prop := MkOrdered {
  o_left : forall a i k w l, nth_error tr a = Some (EAcc i k w l) -> ainside x i k \/ released tr i k a (length tr);
  o_in : forall j k', ainside x j k' -> wlock k' <> LNone -> exists c, nth_error tr c = Some (EAcq j k') /\
    forall a i k w l, nth_error tr a = Some (EAcc i k w l) -> i <> j -> syncs (wlock k) (wlock k') -> released tr i k a c;
  o_hb : forall a b i k w l j k' w' l', nth_error tr a = Some (EAcc i k w l) -> nth_error tr b = Some (EAcc j k' w' l') ->
    (a < b)%nat -> i <> j -> syncs (wlock k) (wlock k') -> hb tr a b;
}.
Lemma released_app tr tr' i k a c c' : released tr i k a c -> (c <= c')%nat -> released (tr ++ tr') i k a c'.
Proof. intros (d & D1 & D2 & D3) L. exists d. split; [exact D1|]. split; [lia|]. apply nth_app_l. exact D3. Qed.
Lemma nth_snoc {A} (l : list A) e a e' : nth_error (l ++ [e]) a = Some e' -> nth_error l a = Some e' \/ (a = length l /\ e' = e).
Proof.
  intros H. destruct (Nat.lt_ge_cases a (length l)) as [L|L]; [left; rewrite nth_error_app1 in H; auto|].
  rewrite nth_error_app2 in H by exact L. destruct (a - length l)%nat eqn:E; [|destruct n; discriminate]. right. split; [lia|]. cbn in H. congruence.
Qed.
Lemma inside_set x i g p todo out (y : mem) l j k : nth_error (a_gs x) i = Some g -> ainside (a_at x i p todo out y l) j k <-> (j = i /\ acall p = Some k) \/ (j <> i /\ ainside x j k).
Proof.
  intros H. unfold ainside. cbn [a_at a_gs]. split.
  - intros (g' & E & C). destruct (nth_set _ _ _ _ H j g' E) as [[-> ->]|[D E']]; [left; auto|right; split; [exact D|eauto]].
  - intros [[-> C]|[D (g' & E & C)]].
    + eexists. split; [apply nth_error_list_set_eq, nth_error_Some; congruence|exact C].
    + exists g'. split; [rewrite nth_error_list_set_neq by congruence; exact E|exact C].
Qed.
Lemma inside_pc x i g k k' : nth_error (a_gs x) i = Some g -> acall (ag_pc g) = Some k -> ainside x i k' -> k' = k.
Proof. intros H C (g' & H' & C'). congruence. Qed.
Lemma inside_here x i g k : nth_error (a_gs x) i = Some g -> acall (ag_pc g) = Some k -> ainside x i k.
Proof. intros H C. exists g. auto. Qed.

(** steps in which nobody enters or leaves, seen or not *)
Lemma ordered_stay tr x y : ordered tr x -> (forall j k, ainside y j k <-> ainside x j k) -> ordered tr y.
Proof.
  intros [O1 O2 O3] E. constructor.
  - intros a i k w l H. rewrite E. eauto.
  - intros j k' I. apply O2, E, I.
  - exact O3.
Qed.
Lemma ordered_access tr x y i k w l : lock_ok x -> ordered tr x -> (forall j k, ainside y j k <-> ainside x j k) -> ainside x i k ->
  ordered (tr ++ [EAcc i k w l]) y.
Proof.
  intros K [O1 O2 O3] E I. constructor.
  - intros a i' k' w' l' H. rewrite E. apply nth_snoc in H as [H|[-> H]].
    + destruct (O1 _ _ _ _ _ H) as [?|?]; [auto|]. right. eapply released_app; [eassumption|]. rewrite app_length; lia.
    + inversion H; subst. auto.
  - intros j k' Ij L. apply E in Ij. destruct (O2 j k' Ij L) as (c & Hc & Q). exists c. split; [apply nth_app_l, Hc|].
    intros a i' k0 w0 l0 H D S. apply nth_snoc in H as [H|[-> H]].
    + eapply released_app; [eapply Q; eauto|lia].
    + inversion H; subst i' k0 w0 l0. exfalso. exact (a_exclusion x i j k k' K I Ij D S).
  - intros a b i1 k1 w1 l1 j k' w' l' Ha Hb L D S. apply nth_snoc in Hb as [Hb|[-> Hb]].
    + apply nth_snoc in Ha as [Ha|[-> Ha]]; [apply hb_app; eapply O3; eauto|]. assert (b < length tr)%nat by (apply nth_error_Some; congruence). lia.
    + inversion Hb; subst j k' w' l'. apply nth_snoc in Ha as [Ha|[-> Ha]]; [|lia].
      assert (wlock k <> LNone) as Nn by (destruct (wlock k1), (wlock k); cbn in S; congruence || tauto).
      destruct (O2 i k I Nn) as (c & Hc & Q). destruct (Q _ _ _ _ _ Ha D S) as (d & D1 & D2 & D3).
      eapply hb_trans; [eapply hb_program with (b := d); [exact D1|apply nth_app_l, Ha|apply nth_app_l, D3|reflexivity]|].
      eapply hb_trans; [eapply hb_sync with (b := c); [exact D2|apply nth_app_l, D3|apply nth_app_l, Hc|exact S]|].
      eapply hb_program; [|apply nth_app_l, Hc|rewrite nth_error_app2, Nat.sub_diag by lia; reflexivity|reflexivity].
      apply nth_error_Some. congruence.
Qed.
Lemma ordered_enter tr x i g k p todo out (y : mem) l : ordered tr x -> nth_error (a_gs x) i = Some g -> acall (ag_pc g) = None -> acall p = Some k ->
  lock_ok (a_at x i p todo out y l) -> ordered (tr ++ [EAcq i k]) (a_at x i p todo out y l).
Proof.
  intros [O1 O2 O3] H C C' K.
  assert (Old : forall j k', ainside x j k' -> j <> i) by (intros j k' (g' & H' & C0) ->; congruence).
  constructor.
  - intros a i' k' w' l' Ha. apply nth_snoc in Ha as [Ha|[-> Ha]]; [|discriminate]. rewrite (inside_set x i g) by exact H.
    destruct (O1 _ _ _ _ _ Ha) as [I|R]; [left; right; split; [eapply Old; eauto|exact I]|]. right. eapply released_app; [eassumption|]. rewrite app_length; lia.
  - intros j k' Ij L. pose proof Ij as Ij0. apply (inside_set x i g) in Ij; [|exact H]. destruct Ij as [[-> E]|[D Ij]].
    + rewrite C' in E. inversion E; subst k'. exists (length tr). split; [rewrite nth_error_app2, Nat.sub_diag by lia; reflexivity|].
      intros a i' k0 w0 l0 Ha Dn S. apply nth_snoc in Ha as [Ha|[-> Ha]]; [|discriminate].
      destruct (O1 _ _ _ _ _ Ha) as [I|R]; [|eapply released_app; [eassumption|lia]]. exfalso.
      refine (a_exclusion (a_at x i p todo out y l) i' i k0 k K _ Ij0 Dn S). apply (inside_set x i g); [exact H|]. right. split; [exact Dn|exact I].
    + destruct (O2 j k' Ij L) as (c & Hc & Q). exists c. split; [apply nth_app_l, Hc|]. intros a i' k0 w0 l0 Ha Dn S.
      apply nth_snoc in Ha as [Ha|[-> Ha]]; [|discriminate]. eapply released_app; [eapply Q; eauto|lia].
  - intros a b i1 k1 w1 l1 j k' w' l' Ha Hb L D S. apply nth_snoc in Ha as [Ha|[-> Ha]]; [|discriminate]. apply nth_snoc in Hb as [Hb|[-> Hb]]; [|discriminate].
    apply hb_app; eapply O3; eauto.
Qed.
Lemma ordered_leave tr x i g k todo out (y : mem) l : ordered tr x -> nth_error (a_gs x) i = Some g -> acall (ag_pc g) = Some k ->
  ordered (tr ++ [ERel i k]) (a_at x i AOut todo out y l).
Proof.
  intros [O1 O2 O3] H C. constructor.
  - intros a i' k' w' l' Ha. apply nth_snoc in Ha as [Ha|[-> Ha]]; [|discriminate]. rewrite (inside_set x i g) by exact H. cbn [acall].
    assert (a < length tr)%nat by (apply nth_error_Some; congruence). rewrite app_length. cbn [length].
    destruct (O1 _ _ _ _ _ Ha) as [I|R]; [|right; eapply released_app; [eassumption|lia]].
    destruct (Nat.eq_dec i' i) as [-> |D]; [|left; right; auto]. right. rewrite (inside_pc _ _ _ _ _ H C I). exists (length tr). repeat split; [lia|lia|].
    rewrite nth_error_app2, Nat.sub_diag by lia. reflexivity.
  - intros j k' Ij L. apply (inside_set x i g) in Ij; [|exact H]. destruct Ij as [[-> E]|[D Ij]]; [discriminate|].
    destruct (O2 j k' Ij L) as (c & Hc & Q). exists c. split; [apply nth_app_l, Hc|]. intros a i' k0 w0 l0 Ha Dn S.
    apply nth_snoc in Ha as [Ha|[-> Ha]]; [|discriminate]. eapply released_app; [eapply Q; eauto|lia].
  - intros a b i1 k1 w1 l1 j k' w' l' Ha Hb L D S. apply nth_snoc in Ha as [Ha|[-> Ha]]; [|discriminate]. apply nth_snoc in Hb as [Hb|[-> Hb]]; [|discriminate].
    apply hb_app; eapply O3; eauto.
Qed.
Lemma same_call x i g p todo out (y : mem) l : nth_error (a_gs x) i = Some g -> acall p = acall (ag_pc g) ->
  forall j k, ainside (a_at x i p todo out y l) j k <-> ainside x j k.
Proof.
  intros H C j k. rewrite (inside_set x i g) by exact H. split.
  - intros [[-> E]|[D I]]; [|exact I]. eapply inside_here; eauto. congruence.
  - intros I. destruct (Nat.eq_dec j i) as [-> |D]; [|auto]. left. split; [reflexivity|]. rewrite C. destruct I as (g' & H' & C'). congruence.
Qed.
Lemma ordered_run m progs tr x : arun (abegin m progs) tr x -> ordered tr x.
Proof.
  induction 1 as [|tr x e y R IH S].
  - constructor.
    + intros [|a] ? ? ? ? Ha; discriminate.
    + intros j k' (g & Hg & C). apply nth_error_In, in_map_iff in Hg as (p & <- & _). discriminate.
    + intros [|a] b ? ? ? ? ? ? ? ? Ha; discriminate.
  - pose proof (lock_run _ _ _ _ R) as K. pose proof (lock_step _ _ _ K S) as K'.
    destruct S as [i g k rest room H Hp Ht L|i g k rest room l H Hp Ht L E|i g k rest l H Hp Ht L E|i g k room H Hp E|i g k l f v H Hp E|i g k l f v H Hp E|i g k u q y H Hp E|i g k p H Hp E|i g k v H Hp|i g k o H Hp];
      cbn [seen_of]; rewrite ?app_nil_r.
    + (eapply ordered_enter; [exact IH|exact H|rewrite Hp; reflexivity|reflexivity|exact K']).
    + (eapply ordered_enter; [exact IH|exact H|rewrite Hp; reflexivity|reflexivity|exact K']).
    + apply (ordered_stay tr x); [exact IH|]. eapply same_call; [exact H|]. rewrite Hp. reflexivity.
    + (eapply ordered_enter; [exact IH|exact H|rewrite Hp; reflexivity|reflexivity|exact K']).
    + apply (ordered_access tr x); [exact K|exact IH|eapply same_call; [exact H|rewrite Hp; reflexivity]|eapply inside_here; [exact H|rewrite Hp; reflexivity]].
    + apply (ordered_access tr x); [exact K|exact IH|eapply same_call; [exact H|rewrite Hp; reflexivity]|eapply inside_here; [exact H|rewrite Hp; reflexivity]].
    + apply (ordered_access tr x); [exact K|exact IH|eapply same_call; [exact H|rewrite Hp; reflexivity]|eapply inside_here; [exact H|rewrite Hp; reflexivity]].
    + apply (ordered_stay tr x); [exact IH|]. eapply same_call; [exact H|]. rewrite Hp. reflexivity.
    + apply (ordered_stay tr x); [exact IH|]. eapply same_call; [exact H|]. rewrite Hp. reflexivity.
    + eapply ordered_leave; eauto. rewrite Hp. reflexivity.
Qed.

(** ** what the calls access *)

(** calls that take a lock that excludes what they do *)
Definition race_safe (s : storage) (k : wcall) : Prop :=
  match s with
  | SCSR | SCSC => match k with WAt _ _ | WElement _ _ | WClear | WValues => False | WReads p => nowrite p | _ => True end
  | SSV => match k with WAt _ _ | WClear | WValues => False | WReads p => nowrite p | _ => True end
  | SDM | SDV => match k with WClear => False | WReads p => nowrite p | _ => True end
  end.
Definition fits (k : wcall) (p : prog (ret N)) : Prop :=
  match wlock k with LNone => dims_only p | LRead => nowrite p | LWrite => True end.
Lemma safe_fits s room k : race_safe s k -> fits k (method s room k).
Proof.
  intros Sf. unfold fits. destruct (wlock k) eqn:L; [apply method_dims|apply method_nowrite|exact Logic.I].
  - exact L.
  - destruct k; cbn in L; try discriminate; try (left; discriminate). destruct s; cbn in Sf; try tauto; auto.
  - exact L.
  - destruct k; cbn in L; try discriminate; destruct s; cbn in Sf |- *; tauto.
Qed.
Lemma wr_fixed (x : mem) u (y : mem) : wr x u = Ok y -> m_kind y = m_kind x /\ m_r y = m_r x /\ m_c y = m_c x.
Proof.
  destruct u; cbn; repeat match goal with |- context [rbind ?r _] => destruct r; cbn; try discriminate end; intros H; inversion H; subst; auto.
Qed.
Lemma wr_not_dims (u : upd (N := N)) : loc_u u <> LR /\ loc_u u <> LC. Proof. destruct u; cbn; split; discriminate. Qed.
(** what a safe call's access can be *)
Definition access_ok (s : storage) (e : ev) : Prop :=
  match e with
  | EAcc i k w l => (w = true -> l <> LR /\ l <> LC) /\
      (race_safe s k -> match wlock k with LNone => w = false /\ (l = LR \/ l = LC) | LRead => w = false | LWrite => True end)
  | _ => True
  end.
Lemma kind_step x e y : astep x e y -> m_kind (a_mem y) = m_kind (a_mem x) /\ m_r (a_mem y) = m_r (a_mem x) /\ m_c (a_mem y) = m_c (a_mem x).
Proof. intros S; destruct S; cbn; auto. eapply wr_fixed; eauto. Qed.
Lemma safe_run m progs tr x : arun (abegin m progs) tr x ->
  m_kind (a_mem x) = storage_of m /\
  (forall i g k p, nth_error (a_gs x) i = Some g -> ag_pc g = AIn k p -> race_safe (storage_of m) k -> fits k p) /\
  (forall e, List.In e tr -> access_ok (storage_of m) e).
Proof.
  induction 1 as [|tr x e y R (K & F & T) S].
  - split; [apply flat_kind|]. split; [|intros e []]. intros i g k p H E. apply nth_error_In, in_map_iff in H as (q & <- & _). discriminate.
  - split; [rewrite (proj1 (kind_step _ _ _ S)); exact K|].
    assert (Fset : forall i g p todo out w l, nth_error (a_gs x) i = Some g ->
      (forall k q, p = AIn k q -> race_safe (storage_of m) k -> fits k q) ->
      forall j g' k q, nth_error (a_gs (a_at x i p todo out w l)) j = Some g' -> ag_pc g' = AIn k q -> race_safe (storage_of m) k -> fits k q).
    { intros i g p todo out w l H Q j g' k q E P. destruct (nth_set _ _ _ _ H j g' E) as [[-> ->]|[D E']]; [apply Q; exact P|eapply F; eauto]. }
    assert (Tset : forall e', access_ok (storage_of m) e' -> forall e, List.In e (tr ++ [e']) -> access_ok (storage_of m) e).
    { intros e' A e0 I. apply in_app_iff in I as [I|[<-|[]]]; auto. }
    destruct S as [i g k rest room H Hp Ht L|i g k rest room l H Hp Ht L E|i g k rest l H Hp Ht L E|i g k room H Hp E|i g k l f v H Hp E|i g k l f v H Hp E|i g k u q y H Hp E|i g k p H Hp E|i g k v H Hp|i g k o H Hp];
      cbn [seen_of]; rewrite ?app_nil_r; (split; [eapply Fset; [exact H|]; intros k0 q0 E0; inversion E0; subst|try exact T; apply Tset; cbn; auto]).
    + rewrite K. apply safe_fits.
    + rewrite K. apply safe_fits.
    + rewrite K. apply safe_fits.
    + intros Sf. pose proof (F _ _ _ _ H Hp Sf) as G. unfold fits in *. destruct (wlock k0); cbn in G; auto. apply G.
    + split; [discriminate|]. intros Sf. pose proof (F _ _ _ _ H Hp Sf) as G. unfold fits in G. destruct (wlock k); auto. split; [reflexivity|]. cbn in G. destruct G as [[-> | ->] _]; auto.
    + intros Sf. pose proof (F _ _ _ _ H Hp Sf) as G. unfold fits in *. destruct (wlock k0); cbn in G; auto. tauto.
    + split; [discriminate|]. intros Sf. pose proof (F _ _ _ _ H Hp Sf) as G. unfold fits in G. destruct (wlock k); auto. cbn in G. tauto.
    + intros Sf. pose proof (F _ _ _ _ H Hp Sf) as G. unfold fits in *. destruct (wlock k0); cbn in G; tauto.
    + split; [intros _; apply wr_not_dims|]. intros Sf. pose proof (F _ _ _ _ H Hp Sf) as G. unfold fits in G. destruct (wlock k); cbn in G; tauto.
Qed.

(** a race involves a call that is not safe *)
Theorem race_blame m progs tr x a b i k w l j k' w' l' : arun (abegin m progs) tr x -> race tr a b ->
  nth_error tr a = Some (EAcc i k w l) -> nth_error tr b = Some (EAcc j k' w' l') ->
  ~ (race_safe (storage_of m) k /\ race_safe (storage_of m) k').
Proof.
  intros R (i0 & k0 & w0 & j0 & k0' & w0' & l0 & Ha & Hb & D & W & H1 & H2) Ea Eb [S S'].
  rewrite Ha in Ea. inversion Ea; subst i0 k0 w0 l0. rewrite Hb in Eb. inversion Eb; subst j0 k0' w0' l'. clear Ea Eb.
  destruct (safe_run _ _ _ _ R) as (_ & _ & T). destruct (T _ (nth_error_In _ _ Ha)) as [Wa Sa]. destruct (T _ (nth_error_In _ _ Hb)) as [Wb Sb].
  specialize (Sa S). specialize (Sb S').
  assert (Sy : syncs (wlock k) (wlock k') /\ syncs (wlock k') (wlock k)).
  { clear - W Wa Wb Sa Sb. destruct w, w'; cbn in W; try discriminate; repeat match goal with H : true = true -> _ |- _ => specialize (H eq_refl) end;
      destruct (wlock k), (wlock k'); cbn; auto; exfalso; repeat match goal with H : _ /\ _ |- _ => destruct H end; try discriminate;
      repeat match goal with H : _ \/ _ |- _ => destruct H end; congruence. }
  pose proof (ordered_run _ _ _ _ R) as [_ _ O]. destruct (Nat.lt_trichotomy a b) as [L|[L|L]].
  - apply H1. eapply O; eauto. apply Sy.
  - subst b. rewrite Ha in Hb. inversion Hb; congruence.
  - apply H2. eapply O; eauto. apply Sy.
Qed.
End AccessRace.
