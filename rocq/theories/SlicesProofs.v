(** Proofs about slices with shared arrays: what a step of a program changes, and when the
    models that give every object its own lists are exact. *)
From Verif Require Import GoBase BaseProofs Num SparseVec Csr Csc DenseVec DenseMat Mat Slices.

(** two computations end alike, with related results *)
Definition sim {A B} (R : A -> B -> Prop) (x : res A) (y : res B) : Prop :=
  match x, y with
  | Ok a, Ok b => R a b
  | Panic, Panic => True
  | Diverge, Diverge => True
  | _, _ => False
  end.

Lemma sim_bind {A B C D} (R : A -> B -> Prop) (Q : C -> D -> Prop) x y k k' :
  sim R x y -> (forall a b, R a b -> sim Q (k a) (k' b)) -> sim Q (rbind x k) (rbind y k').
Proof. destruct x, y; cbn; auto; try tauto. Qed.

Lemma sim_impl {A B} (R Q : A -> B -> Prop) x y : (forall a b, R a b -> Q a b) -> sim R x y -> sim Q x y.
Proof. destruct x, y; cbn; auto. Qed.

Lemma sim_refl {A} (x : res A) : sim eq x x.
Proof. destruct x; cbn; auto. Qed.

Section SliceLemmas.
Context {A : Type}.
Implicit Types (m : mem A) (s : slice) (l xs : list A).

Definition valid m s : Prop :=
  (s_arr s < length m)%nat /\ (s_len s <= s_cap s)%nat /\ (s_off s + s_cap s <= length (array m (s_arr s)))%nat.

(** the arrays of [m] are still there with their length, and unchanged outside [L] *)
Definition keeps (L : list nat) m (m' : mem A) : Prop :=
  (length m <= length m')%nat /\
  forall a, (a < length m)%nat ->
    length (array m' a) = length (array m a) /\ (~ In a L -> array m' a = array m a).

Lemma keeps_refl L m : keeps L m m.
Proof. split; auto. Qed.

Lemma keeps_trans L L' m m1 m2 : keeps L m m1 -> keeps L' m1 m2 ->
  (forall a, In a L' -> In a L \/ (length m <= a)%nat) -> keeps L m m2.
Proof.
  intros [H1 H2] [H3 H4] H5. split; [lia|]. intros a Ha.
  destruct (H2 a Ha) as [E1 E2]. destruct (H4 a) as [E3 E4]; [lia|].
  split; [congruence|]. intros Hn. rewrite E4, E2; auto.
  intros Hin. destruct (H5 a Hin); [auto|lia].
Qed.

Lemma keeps_weaken L L' m m' : keeps L m m' -> (forall a, In a L -> In a L') -> keeps L' m m'.
Proof. intros [H1 H2] H. split; auto. intros a Ha. destruct (H2 a Ha). split; auto. Qed.

Lemma valid_keep L m m' s : keeps L m m' -> valid m s -> valid m' s.
Proof. intros [H1 H2] (V1 & V2 & V3). destruct (H2 _ V1) as [E _]. repeat split; auto; lia. Qed.

Lemma contents_keep L m m' s : keeps L m m' -> valid m s -> ~ In (s_arr s) L -> contents m' s = contents m s.
Proof. intros [H1 H2] (V1 & V2 & V3) Hn. unfold contents. rewrite (proj2 (H2 _ V1) Hn). reflexivity. Qed.

Lemma length_contents m s : valid m s -> length (contents m s) = s_len s.
Proof. intros (V1 & V2 & V3). unfold contents. rewrite firstn_length, skipn_length. lia. Qed.

Lemma zlen_contents m s : valid m s -> zlen (contents m s) = Z.of_nat (s_len s).
Proof. intros H. unfold zlen. rewrite length_contents; auto. Qed.

Lemma array_app m m' a : (a < length m)%nat -> array (m ++ m') a = array m a.
Proof. intros H. unfold array. apply app_nth1; auto. Qed.

Lemma array_new m l : array (m ++ [l]) (length m) = l.
Proof. unfold array. rewrite app_nth2, Nat.sub_diag; auto. Qed.

Lemma keeps_app L m m' : keeps L m (m ++ m').
Proof. split; [rewrite app_length; lia|]. intros a Ha. rewrite array_app; auto. Qed.

Lemma nth_list_set {B} (l : list B) n k x d : (n < length l)%nat -> nth k (list_set l n x) d = if Nat.eqb k n then x else nth k l d.
Proof.
  revert n k. induction l as [|y l IH]; intros [|n] [|k]; cbn; intros H; try lia; auto.
  apply IH. lia.
Qed.

Lemma length_list_set_any {B} (l : list B) n x : length (list_set l n x) = length l.
Proof. revert n. induction l as [|y l IH]; intros [|n]; cbn; auto. Qed.

Lemma array_set m a l b : (a < length m)%nat -> array (list_set m a l) b = if Nat.eqb b a then l else array m b.
Proof. intros H. apply (nth_list_set m a b l []). auto. Qed.

Lemma keeps_set m a l : (a < length m)%nat -> length l = length (array m a) -> keeps [a] m (list_set m a l).
Proof.
  intros H Hl. split; [rewrite length_list_set_any; lia|]. intros b Hb. rewrite array_set by auto.
  destruct (Nat.eqb_spec b a) as [->|N]; split; auto. cbn. tauto.
Qed.

Lemma firstn_list_set (l : list A) n k x : (k < n)%nat -> firstn n (list_set l k x) = list_set (firstn n l) k x.
Proof.
  revert n k. induction l as [|y l IH]; intros [|n] [|k] H; cbn; try lia; auto. f_equal. apply IH. lia.
Qed.

Lemma skipn_list_set (l : list A) n k x : skipn n (list_set l (n + k) x) = list_set (skipn n l) k x.
Proof. revert n. induction l as [|y l IH]; intros [|n]; cbn; auto. Qed.

Lemma sset_sim m s i x : valid m s ->
  sim (fun m' l => keeps [s_arr s] m m' /\ contents m' s = l) (sset m s i x) (zset (contents m s) i x).
Proof.
  intros Hv. unfold sset, zset. rewrite (zlen_contents _ _ Hv).
  destruct (Z.ltb_spec i 0); cbn [orb]; [exact I|].
  destruct (Z.leb_spec (Z.of_nat (s_len s)) i); cbn; [exact I|].
  destruct Hv as (V1 & V2 & V3). split.
  - apply keeps_set; auto. apply length_list_set_any.
  - unfold contents. rewrite array_set by auto. rewrite Nat.eqb_refl.
    rewrite skipn_list_set. apply firstn_list_set. lia.
Qed.

(** a slice that has been replaced *)
Definition renewed m s m' (s' : slice) l : Prop :=
  keeps [s_arr s] m m' /\ valid m' s' /\ contents m' s' = l /\ (s_arr s' = s_arr s \/ (length m <= s_arr s')%nat).

Lemma fresh_spec slack m xs m' s' : fresh slack m xs = (m', s') ->
  keeps [] m m' /\ valid m' s' /\ contents m' s' = xs /\ s_arr s' = length m /\ length m' = Datatypes.S (length m).
Proof.
  intros [= <- <-]. split; [apply keeps_app|]. split; [|split; [|split]]; cbn.
  - repeat split; cbn; [rewrite app_length; cbn; lia|lia|]. rewrite array_new, app_length. lia.
  - unfold contents. cbn. rewrite array_new. rewrite firstn_app, Nat.sub_diag, firstn_all. cbn. apply app_nil_r.
  - reflexivity.
  - rewrite app_length. cbn. lia.
Qed.

Lemma length_write_at l k xs : (k + length xs <= length l)%nat -> length (write_at l k xs) = length l.
Proof. intros H. unfold write_at. rewrite !app_length, firstn_length, skipn_length. lia. Qed.

Lemma firstn_skipn_write (l : list A) off n xs :
  (off + n + length xs <= length l)%nat ->
  firstn (n + length xs) (skipn off (write_at l (off + n) xs)) = firstn n (skipn off l) ++ xs.
Proof.
  intros H. unfold write_at. rewrite skipn_app, firstn_length, skipn_firstn_comm.
  replace (off - Nat.min (off + n) (length l))%nat with 0%nat by lia.
  replace (off + n - off)%nat with n by lia. cbn [skipn].
  rewrite firstn_app. rewrite firstn_all2 by (rewrite firstn_length; lia).
  f_equal. rewrite firstn_length, skipn_length.
  replace (n + length xs - Nat.min n (length l - off))%nat with (length xs + 0)%nat by lia.
  rewrite firstn_app_2. cbn. apply app_nil_r.
Qed.

(** [append], when the elements appended have been read beforehand *)
Lemma append_spec slack m s xs m' s' : valid m s -> append slack m s xs = (m', s') -> renewed m s m' s' (contents m s ++ xs).
Proof.
  intros Hv. unfold append. destruct (Nat.leb_spec (s_len s + length xs) (s_cap s)).
  - intros [= <- <-]. destruct Hv as (V1 & V2 & V3). unfold renewed. cbn. split; [|split; [|split]].
    + apply keeps_set; auto. apply length_write_at. lia.
    + repeat split; cbn; [rewrite length_list_set_any; auto|lia|].
      rewrite array_set, Nat.eqb_refl by auto. rewrite length_write_at; lia.
    + unfold contents at 1. cbn. rewrite array_set, Nat.eqb_refl by auto. apply firstn_skipn_write. lia.
    + auto.
  - intros E. destruct (fresh_spec _ _ _ _ _ E) as (K & V & C & Ha & _). unfold renewed.
    split; [apply (keeps_weaken []); auto; cbn; tauto|]. split; [auto|]. split; [auto|]. right. lia.
Qed.

Lemma valid_to m s p s1 : valid m s -> to s p = Ok s1 -> valid m s1.
Proof.
  intros (V1 & V2 & V3). unfold to. destruct (Z.ltb_spec p 0); [discriminate|].
  destruct (Z.ltb_spec (Z.of_nat (s_cap s)) p); [discriminate|]. cbn. intros [= <-]. repeat split; cbn; lia.
Qed.

Lemma valid_from m s p s1 : valid m s -> from s p = Ok s1 -> valid m s1.
Proof.
  intros (V1 & V2 & V3). unfold from. destruct (Z.ltb_spec p 0); [discriminate|].
  destruct (Z.ltb_spec (Z.of_nat (s_len s)) p); [discriminate|]. cbn. intros [= <-]. repeat split; cbn; lia.
Qed.

Lemma contents_to m s p s1 : valid m s -> to s p = Ok s1 -> p <= Z.of_nat (s_len s) ->
  contents m s1 = firstn (Z.to_nat p) (contents m s) /\ s_arr s1 = s_arr s.
Proof.
  intros (V1 & V2 & V3). unfold to. destruct (Z.ltb_spec p 0); [discriminate|].
  destruct (Z.ltb_spec (Z.of_nat (s_cap s)) p); [discriminate|]. cbn. intros [= <-] Hp. split; [|reflexivity].
  unfold contents. cbn. rewrite firstn_firstn. f_equal. lia.
Qed.

Lemma skipn_skipn' (l : list A) a b : skipn a (skipn b l) = skipn (b + a) l.
Proof. revert l. induction b as [|b IH]; intros l; cbn; auto. destruct l; cbn; auto. apply skipn_nil. Qed.

Lemma contents_from m s p s1 : valid m s -> from s p = Ok s1 ->
  contents m s1 = skipn (Z.to_nat p) (contents m s) /\ s_arr s1 = s_arr s.
Proof.
  intros (V1 & V2 & V3). unfold from. destruct (Z.ltb_spec p 0); [discriminate|].
  destruct (Z.ltb_spec (Z.of_nat (s_len s)) p); [discriminate|]. cbn. intros [= <-]. split; [|reflexivity].
  unfold contents. cbn. rewrite skipn_firstn_comm, skipn_skipn'. reflexivity.
Qed.

Lemma to_ok s p : 0 <= p <= Z.of_nat (s_len s) -> (s_len s <= s_cap s)%nat -> exists s1, to s p = Ok s1.
Proof.
  intros H1 H2. unfold to. replace (p <? 0) with false by lia. replace (Z.of_nat (s_cap s) <? p) with false by lia. cbn. eauto.
Qed.

Lemma insert_sim sl1 sl2 m s p x : valid m s ->
  sim (fun r l => renewed m s (fst r) (snd r) l) (insert sl1 sl2 m s p x)
      (l1 <- slice_to (contents m s) p ;; l2 <- slice_from (contents m s) p ;; Ok (l1 ++ [x] ++ l2)).
Proof.
  intros Hv. unfold insert, slice_to, slice_from. rewrite (zlen_contents _ _ Hv).
  destruct (Z.ltb_spec p 0) as [Hp|Hp]; cbn [orb].
  { unfold to. replace (p <? 0) with true by lia. exact I. }
  destruct (Z.ltb_spec (Z.of_nat (s_len s)) p) as [Hq|Hq].
  { unfold from. replace (p <? 0) with false by lia. replace (Z.of_nat (s_len s) <? p) with true by lia.
    destruct (to s p) eqn:E; cbn; auto. unfold to in E. destruct ((p <? 0) || _); discriminate. }
  cbn [rbind].
  destruct (to_ok s p ltac:(lia) (proj1 (proj2 Hv))) as [s1 E1]. rewrite E1. cbn [rbind].
  destruct (contents_to _ _ _ _ Hv E1 Hq) as [C1 A1].
  assert (E2 : exists s2, from s p = Ok s2).
  { unfold from. replace (p <? 0) with false by lia. replace (Z.of_nat (s_len s) <? p) with false by lia. cbn. eauto. }
  destruct E2 as [s2 E2]. rewrite E2. cbn [rbind].
  destruct (contents_from _ _ _ _ Hv E2) as [C2 A2].
  destruct (fresh [] m [x]) as [m1 f] eqn:Ef. destruct (fresh_spec _ _ _ _ _ Ef) as (K1 & V1 & F1 & Hf & L1).
  destruct (append sl1 m1 f (contents m1 s2)) as [m2 g] eqn:Eg.
  destruct (append_spec _ _ _ _ _ _ V1 Eg) as (K2 & V2 & G2 & Hg).
  destruct (append sl2 m2 s1 (contents m2 g)) as [m3 h] eqn:Eh.
  assert (Hv2 : valid m2 s1).
  { apply (valid_keep [s_arr f] m1 m2); auto. apply (valid_keep [] m m1); auto. apply (valid_to m s p); auto. }
  assert (Hs : (s_arr s < length m)%nat) by apply Hv.
  destruct (append_spec _ _ _ _ _ _ Hv2 Eh) as (K3 & V3 & G3 & Hh).
  cbn [sim fst snd]. split; [|split; [auto|split]].
  - apply (keeps_trans _ [s_arr s1] _ m2); [|exact K3|intros a [<-|[]]; left; rewrite A1; left; reflexivity].
    apply (keeps_trans _ [s_arr f] _ m1); [|exact K2|intros a [<-|[]]; right; lia].
    apply (keeps_weaken []); auto. cbn; tauto.
  - rewrite G3, G2, F1. f_equal; [|f_equal].
    + rewrite <- C1. rewrite (contents_keep [s_arr f] m1 m2); auto.
      * apply (contents_keep [] m m1); auto. apply (valid_to m s p); auto.
      * apply (valid_keep [] m m1); auto. apply (valid_to m s p); auto.
      * intros [E|[]]. lia.
    + rewrite <- C2. apply (contents_keep [] m m1); auto. apply (valid_from m s p); auto.
  - destruct Hh as [->|Hh]; [left; auto|right]. destruct K1, K2. lia.
Qed.

Lemma remove_sim sl m s p : valid m s ->
  sim (fun r l => renewed m s (fst r) (snd r) l) (remove sl m s p)
      (l1 <- slice_to (contents m s) p ;; l2 <- slice_from (contents m s) (p + 1) ;; Ok (l1 ++ l2)).
Proof.
  intros Hv. unfold remove, slice_to, slice_from. rewrite (zlen_contents _ _ Hv).
  destruct (Z.ltb_spec p 0) as [Hp|Hp]; cbn [orb].
  { unfold to. replace (p <? 0) with true by lia. exact I. }
  destruct (Z.ltb_spec (Z.of_nat (s_len s)) p) as [Hq|Hq].
  { unfold from. replace (p + 1 <? 0) with false by lia. replace (Z.of_nat (s_len s) <? p + 1) with true by lia.
    destruct (to s p) eqn:E; cbn; auto. unfold to in E. destruct ((p <? 0) || _); discriminate. }
  cbn [rbind].
  destruct (to_ok s p ltac:(lia) (proj1 (proj2 Hv))) as [s1 E1]. rewrite E1. cbn [rbind].
  destruct (contents_to _ _ _ _ Hv E1 Hq) as [C1 A1].
  destruct (Z.ltb_spec (Z.of_nat (s_len s)) (p + 1)) as [Hr|Hr].
  { unfold from. replace (p + 1 <? 0) with false by lia. replace (Z.of_nat (s_len s) <? p + 1) with true by lia. exact I. }
  assert (E2 : exists s2, from s (p + 1) = Ok s2).
  { unfold from. replace (p + 1 <? 0) with false by lia. replace (Z.of_nat (s_len s) <? p + 1) with false by lia. cbn. eauto. }
  destruct E2 as [s2 E2]. rewrite E2. replace (p + 1 <? 0) with false by lia. cbn [rbind orb].
  destruct (contents_from _ _ _ _ Hv E2) as [C2 A2].
  destruct (append sl m s1 (contents m s2)) as [m3 h] eqn:Eh.
  destruct (append_spec _ _ _ _ _ _ (valid_to _ _ _ _ Hv E1) Eh) as (K3 & V3 & G3 & Hh).
  cbn [sim fst snd]. unfold renewed. rewrite <- A1, <- C1, <- C2. auto.
Qed.

Lemma renewed_same m s m' l : valid m s -> keeps [s_arr s] m m' -> contents m' s = l -> renewed m s m' s l.
Proof. intros Hv K C. split; [auto|]. split; [apply (valid_keep [s_arr s] m m'); auto|]. auto. Qed.
End SliceLemmas.

Section Shift.
Lemma shift_sim d m s lo hi : valid m s ->
  sim (fun m' l => keeps [s_arr s] m m' /\ contents m' s = l) (s_shift d m s lo hi) (csr_shift d (contents m s) lo hi).
Proof.
  unfold s_shift, csr_shift. generalize (zrange (lo + 1) (hi + 1)) as is_. intros is_. revert m.
  induction is_ as [|i is_ IH]; intros m Hv; cbn [rfold].
  { cbn. split; [apply keeps_refl|reflexivity]. }
  apply (sim_bind (fun m' l => keeps [s_arr s] m m' /\ contents m' s = l)).
  - unfold sget. apply (sim_bind eq); [apply sim_refl|]. intros a ? <-. apply sset_sim. auto.
  - intros m' l [K <-]. eapply sim_impl; [|apply IH; apply (valid_keep [s_arr s] m m'); auto].
    intros m2 l [K2 E]. split; [|auto]. apply (keeps_trans _ [s_arr s] _ m'); auto.
Qed.
End Shift.

Section Objects.
Context {N : num}.
Implicit Types (st : store N) (o : sobj).

(** the arrays of an object *)
Definition fv st o : list nat :=
  match o with
  | SCSR _ _ v _ _ | SCSC _ _ v _ _ | SSV _ v _ | SDV _ v => [s_arr v]
  | SDM _ _ d => map s_arr (rows_of st d)
  end.
Definition fz o : list nat :=
  match o with
  | SCSR _ _ _ k s | SCSC _ _ _ k s => [s_arr k; s_arr s]
  | SSV _ _ k => [s_arr k]
  | _ => []
  end.
Definition fo o : list nat := match o with SDM _ _ d => [s_arr d] | _ => [] end.

(** the slices of an object are real and the object does not overlap itself *)
Definition owned st o : Prop :=
  match o with
  | SCSR _ _ v k s | SCSC _ _ v k s =>
      valid (st_v st) v /\ valid (st_z st) k /\ valid (st_z st) s /\ s_arr k <> s_arr s
  | SSV _ v k => valid (st_v st) v /\ valid (st_z st) k
  | SDV l v => valid (st_v st) v /\ l = Z.of_nat (s_len v)
  | SDM _ _ d =>
      valid (st_o st) d /\ Forall (valid (st_v st)) (rows_of st d) /\ NoDup (map s_arr (rows_of st d))
  end.

(** what a step does to the arrays: only those in [Lv], [Lz] change, none of [st_o] *)
Definition kept Lv Lz st st' : Prop :=
  keeps Lv (st_v st) (st_v st') /\ keeps Lz (st_z st) (st_z st') /\ keeps [] (st_o st) (st_o st').

Lemma kept_refl Lv Lz st : kept Lv Lz st st.
Proof. repeat split; auto. Qed.

Lemma kept_weaken Lv Lz Lv' Lz' st st' : kept Lv Lz st st' ->
  (forall a, In a Lv -> In a Lv') -> (forall a, In a Lz -> In a Lz') -> kept Lv' Lz' st st'.
Proof. intros (A & B & C) H1 H2. split; [|split]; auto; eapply keeps_weaken; eauto. Qed.

Lemma rows_keep Lv Lz st st' d : kept Lv Lz st st' -> valid (st_o st) d -> rows_of st' d = rows_of st d.
Proof. intros (_ & _ & K) H. unfold rows_of. apply (contents_keep [] _ _ d K); auto. Qed.

(** an object apart from the arrays that change keeps its content *)
Lemma view_keep Lv Lz st st' o : kept Lv Lz st st' -> owned st o ->
  (forall a, In a (fv st o) -> ~ In a Lv) -> (forall a, In a (fz o) -> ~ In a Lz) -> view st' o = view st o.
Proof.
  intros K Ho Hv Hz. pose proof K as (Kv & Kz & Ko). destruct o as [r c v k s|r c v k s|l v k|l v|c r d]; cbn in *.
  1,2: destruct Ho as (V1 & V2 & V3 & _);
    rewrite (contents_keep Lv _ _ v Kv V1), (contents_keep Lz _ _ k Kz V2), (contents_keep Lz _ _ s Kz V3); auto 6.
  - destruct Ho as (V1 & V2). rewrite (contents_keep Lv _ _ v Kv V1), (contents_keep Lz _ _ k Kz V2); auto.
  - destruct Ho as (V1 & V2). rewrite (contents_keep Lv _ _ v Kv V1); auto.
  - destruct Ho as (V1 & V2 & V3). rewrite (rows_keep _ _ _ _ _ K V1). do 2 f_equal.
    apply map_ext_in. intros s Hs. rewrite Forall_forall in V2. apply (contents_keep Lv _ _ s Kv); auto.
    apply Hv. apply in_map. auto.
Qed.

Lemma owned_keep Lv Lz st st' o : kept Lv Lz st st' -> owned st o -> owned st' o.
Proof.
  intros K Ho. pose proof K as (Kv & Kz & Ko). destruct o as [r c v k s|r c v k s|l v k|l v|c r d]; cbn in *.
  1,2: destruct Ho as (V1 & V2 & V3 & V4); eauto 10 using valid_keep.
  - destruct Ho as (V1 & V2); eauto 10 using valid_keep.
  - destruct Ho as (V1 & V2); eauto 10 using valid_keep.
  - destruct Ho as (V1 & V2 & V3). rewrite (rows_keep _ _ _ _ _ K V1). split; [eauto using valid_keep|]. split; auto.
    eapply Forall_impl; [|exact V2]. intros s. apply valid_keep with (L := Lv). auto.
Qed.

Lemma fv_keep Lv Lz st st' o : kept Lv Lz st st' -> owned st o -> fv st' o = fv st o.
Proof.
  intros K Ho. destruct o; cbn in *; auto. destruct Ho as (V & _). rewrite (rows_keep _ _ _ _ _ K V). reflexivity.
Qed.

(** an object [o] has become [o'] *)
Definition moved st o st' o' : Prop :=
  kept (fv st o) (fz o) st st' /\ owned st' o' /\
  (forall a, In a (fv st' o') -> In a (fv st o) \/ (length (st_v st) <= a)%nat) /\
  (forall a, In a (fz o') -> In a (fz o) \/ (length (st_z st) <= a)%nat).

Lemma moved_refl st o : owned st o -> moved st o st o.
Proof. intros H. split; [apply kept_refl|]. auto. Qed.

(** the list model of the two [insert]s and [remove]s *)
Definition lists_insert (v : list (T N)) (k s : list Z) (pointer line lines x : Z) (value : T N) : res (list (T N) * list Z * list Z) :=
  if isz value then Ok (v, k, s)
  else
    c1 <- slice_to k pointer ;; c2 <- slice_from k pointer ;;
    v1 <- slice_to v pointer ;; v2 <- slice_from v pointer ;;
    rs <- csr_shift 1 s line lines ;;
    Ok (v1 ++ ([value] ++ v2), c1 ++ ([x] ++ c2), rs).
Definition lists_remove (v : list (T N)) (k s : list Z) (pointer line lines : Z) : res (list (T N) * list Z * list Z) :=
  c1 <- slice_to k pointer ;; c2 <- slice_from k (pointer + 1) ;;
  v1 <- slice_to v pointer ;; v2 <- slice_from v (pointer + 1) ;;
  rs <- csr_shift (-1) s line lines ;;
  Ok (v1 ++ v2, c1 ++ c2, rs).

Definition renewed3 st (v k s : slice) (p : store N * (slice * slice)) (q : list (T N) * list Z * list Z) : Prop :=
  let '(st', (v', k')) := p in
  let '(lv, lk, ls) := q in
  st_o st' = st_o st /\ renewed (st_v st) v (st_v st') v' lv /\
  keeps [s_arr k; s_arr s] (st_z st) (st_z st') /\
  valid (st_z st') k' /\ contents (st_z st') k' = lk /\ (s_arr k' = s_arr k \/ (length (st_z st) <= s_arr k')%nat) /\
  valid (st_z st') s /\ contents (st_z st') s = ls.

Lemma renewed3_intro st v k s z1 k' lk v1 v' lv d lo hi :
  valid (st_v st) v -> valid (st_z st) k -> valid (st_z st) s -> s_arr k <> s_arr s ->
  renewed (st_z st) k z1 k' lk -> renewed (st_v st) v v1 v' lv ->
  sim (fun z l => renewed3 st v k s (MkStore v1 z (st_o st), (v', k')) (lv, lk, l))
      (s_shift d z1 s lo hi) (csr_shift d (contents (st_z st) s) lo hi).
Proof.
  intros V1 V2 V3 Hne (K1 & W1 & C1 & A1) S2.
  assert (V3' : valid z1 s) by (apply (valid_keep [s_arr k] (st_z st)); auto).
  assert (Es : contents z1 s = contents (st_z st) s).
  { apply (contents_keep [s_arr k]); auto. intros [E|[]]; auto. }
  rewrite <- Es. eapply sim_impl; [|apply (shift_sim d z1 s lo hi V3')].
  intros z2 ls [K3 C3]. cbn.
  assert (Hk' : s_arr k' <> s_arr s).
  { destruct A1 as [->|A1]; auto. destruct V3 as (Q & _). lia. }
  split; [reflexivity|]. split; [exact S2|]. split; [|split; [|split; [|split; [|split]]]]; auto.
  - apply (keeps_trans _ [s_arr s] _ z1); [|auto|intros a [<-|[]]; left; cbn; auto].
    eapply keeps_weaken; [exact K1|]. cbn; tauto.
  - apply (valid_keep [s_arr s] z1); auto.
  - rewrite <- C1. apply (contents_keep [s_arr s]); auto. intros [E|[]]; auto.
  - apply (valid_keep [s_arr s] z1); auto.
Qed.

Lemma s_insert_sim sp st v k s pointer line lines x value :
  valid (st_v st) v -> valid (st_z st) k -> valid (st_z st) s -> s_arr k <> s_arr s ->
  sim (renewed3 st v k s) (s_insert sp st v k s pointer line lines x value)
      (lists_insert (contents (st_v st) v) (contents (st_z st) k) (contents (st_z st) s) pointer line lines x value).
Proof.
  intros V1 V2 V3 Hne. unfold s_insert, lists_insert. destruct (isz value).
  { cbn. split; [reflexivity|]. split; [apply renewed_same; auto using keeps_refl|]. auto 10 using keeps_refl. }
  pose proof (insert_sim (sp_z1 sp) (sp_z2 sp) (st_z st) k pointer x V2) as S1.
  pose proof (insert_sim (sp_v1 sp) (sp_v2 sp) (st_v st) v pointer value V1) as S2.
  destruct (insert _ _ (st_z st) k pointer x) as [[z1 k']| |] eqn:E1; cbn [rbind];
  destruct (slice_to (contents (st_z st) k) pointer) as [c1| |]; cbn [rbind] in *; try (destruct S1; fail); auto;
  destruct (slice_from (contents (st_z st) k) pointer) as [c2| |]; cbn [rbind] in *; try (destruct S1; fail); auto.
  destruct (insert _ _ (st_v st) v pointer value) as [[v1 v']| |] eqn:E2; cbn [rbind];
  destruct (slice_to (contents (st_v st) v) pointer) as [d1| |]; cbn [rbind] in *; try (destruct S2; fail); auto;
  destruct (slice_from (contents (st_v st) v) pointer) as [d2| |]; cbn [rbind] in *; try (destruct S2; fail); auto.
  cbn [sim fst snd] in S1, S2.
  eapply sim_bind; [apply (renewed3_intro st v k s z1 k' _ v1 v' _ 1 line lines V1 V2 V3 Hne S1 S2)|].
  intros z2 ls R. exact R.
Qed.

Lemma s_remove_sim sp st v k s pointer line lines :
  valid (st_v st) v -> valid (st_z st) k -> valid (st_z st) s -> s_arr k <> s_arr s ->
  sim (renewed3 st v k s) (s_remove sp st v k s pointer line lines)
      (lists_remove (contents (st_v st) v) (contents (st_z st) k) (contents (st_z st) s) pointer line lines).
Proof.
  intros V1 V2 V3 Hne. unfold s_remove, lists_remove.
  pose proof (remove_sim (sp_z1 sp) (st_z st) k pointer V2) as S1.
  pose proof (remove_sim (sp_v1 sp) (st_v st) v pointer V1) as S2.
  destruct (remove _ (st_z st) k pointer) as [[z1 k']| |] eqn:E1; cbn [rbind];
  destruct (slice_to (contents (st_z st) k) pointer) as [c1| |]; cbn [rbind] in *; try (destruct S1; fail); auto;
  destruct (slice_from (contents (st_z st) k) (pointer + 1)) as [c2| |]; cbn [rbind] in *; try (destruct S1; fail); auto.
  destruct (remove _ (st_v st) v pointer) as [[v1 v']| |] eqn:E2; cbn [rbind];
  destruct (slice_to (contents (st_v st) v) pointer) as [d1| |]; cbn [rbind] in *; try (destruct S2; fail); auto;
  destruct (slice_from (contents (st_v st) v) (pointer + 1)) as [d2| |]; cbn [rbind] in *; try (destruct S2; fail); auto.
  cbn [sim fst snd] in S1, S2.
  eapply sim_bind; [apply (renewed3_intro st v k s z1 k' _ v1 v' _ (-1) line lines V1 V2 V3 Hne S1 S2)|].
  intros z2 ls R. exact R.
Qed.

(** the result of a step beside the result in the list model *)
Definition same_obj {W} st o (p : W * store N * sobj) (q : W * mat N) : Prop :=
  let '(w, st', o') := p in w = fst q /\ view st' o' = snd q /\ moved st o st' o'.
Definition same_obj' st o (p : store N * sobj) (M : mat N) : Prop :=
  view (fst p) (snd p) = M /\ moved st o (fst p) (snd p).

Lemma csr_moved st r c v k s st' v' k' lv lk ls :
  s_arr k <> s_arr s -> valid (st_z st) s -> renewed3 st v k s (st', (v', k')) (lv, lk, ls) ->
  view st' (SCSR r c v' k' s) = MCSR (MkCSR r c lv lk ls) /\ moved st (SCSR r c v k s) st' (SCSR r c v' k' s).
Proof.
  intros Hne V3 (Eo & (Kv & Wv & Cv & Av) & Kz & Wk & Ck & Ak & Ws & Cs).
  split; [cbn; congruence|]. split; [|split; [|split]].
  - split; [exact Kv|]. split; [exact Kz|]. rewrite Eo. apply keeps_refl.
  - cbn. repeat (split; auto). destruct Ak as [->|Ak]; auto. destruct V3 as (Q & _). lia.
  - cbn. intros a [<-|[]]. destruct Av; auto.
  - cbn. intros a [<-|[<-|[]]]; auto. destruct Ak; auto.
Qed.

Lemma csc_moved st r c v k s st' v' k' lv lk ls :
  s_arr k <> s_arr s -> valid (st_z st) s -> renewed3 st v k s (st', (v', k')) (lv, lk, ls) ->
  view st' (SCSC r c v' k' s) = MCSC (MkCSC r c lv lk ls) /\ moved st (SCSC r c v k s) st' (SCSC r c v' k' s).
Proof.
  intros Hne V3 (Eo & (Kv & Wv & Cv & Av) & Kz & Wk & Ck & Ak & Ws & Cs).
  split; [cbn; congruence|]. split; [|split; [|split]].
  - split; [exact Kv|]. split; [exact Kz|]. rewrite Eo. apply keeps_refl.
  - cbn. repeat (split; auto). destruct Ak as [->|Ak]; auto. destruct V3 as (Q & _). lia.
  - cbn. intros a [<-|[]]. destruct Av; auto.
  - cbn. intros a [<-|[<-|[]]]; auto. destruct Ak; auto.
Qed.

Lemma renewed3_set st v k s m lv : valid (st_v st) v -> valid (st_z st) k -> valid (st_z st) s ->
  keeps [s_arr v] (st_v st) m -> contents m v = lv ->
  renewed3 st v k s (MkStore m (st_z st) (st_o st), (v, k)) (lv, contents (st_z st) k, contents (st_z st) s).
Proof.
  intros V1 V2 V3 K C. cbn. split; [reflexivity|]. split; [apply renewed_same; auto|]. auto 10 using keeps_refl.
Qed.

(** the functions of Csr.v and Csc.v in terms of the lists *)
Lemma csr_insert_lists a pointer line x (value : T N) :
  csr_insert a pointer line x value =
  ('(lv, lk, ls) <- lists_insert (csr_values a) (csr_cols a) (csr_rowStart a) pointer line (csr_r a) x value ;;
   Ok (if isz value then 0 else csr_r a, MkCSR (csr_r a) (csr_c a) lv lk ls)).
Proof.
  unfold csr_insert, lists_insert. destruct (isz value); [destruct a; reflexivity|].
  repeat (match goal with |- context [rbind ?x _] => destruct x; cbn [rbind]; try reflexivity end).
Qed.
Lemma csr_remove_lists (a : csr N) pointer line :
  csr_remove a pointer line =
  ('(lv, lk, ls) <- lists_remove (csr_values a) (csr_cols a) (csr_rowStart a) pointer line (csr_r a) ;;
   Ok (MkCSR (csr_r a) (csr_c a) lv lk ls)).
Proof.
  unfold csr_remove, lists_remove.
  repeat (match goal with |- context [rbind ?x _] => destruct x; cbn [rbind]; try reflexivity end).
Qed.
Lemma csc_insert_lists a pointer line x (value : T N) :
  csc_insert a pointer x line value =
  ('(lv, lk, ls) <- lists_insert (csc_values a) (csc_rows a) (csc_colStart a) pointer line (csc_c a) x value ;;
   Ok (if isz value then 0 else csc_c a, MkCSC (csc_r a) (csc_c a) lv lk ls)).
Proof.
  unfold csc_insert, lists_insert, csc_shift, csr_shift. destruct (isz value); [destruct a; reflexivity|].
  repeat (match goal with |- context [rbind ?x _] => destruct x; cbn [rbind]; try reflexivity end).
Qed.
Lemma csc_remove_lists (a : csc N) pointer line :
  csc_remove a pointer line =
  ('(lv, lk, ls) <- lists_remove (csc_values a) (csc_rows a) (csc_colStart a) pointer line (csc_c a) ;;
   Ok (MkCSC (csc_r a) (csc_c a) lv lk ls)).
Proof.
  unfold csc_remove, lists_remove, csc_shift, csr_shift.
  repeat (match goal with |- context [rbind ?x _] => destruct x; cbn [rbind]; try reflexivity end).
Qed.

Lemma csr_Update_sim {W} sp st r c v k s i j (f : T N -> W * T N) :
  owned st (SCSR r c v k s) ->
  sim (same_obj st (SCSR r c v k s)) (s_csr_Update sp st r c v k s i j f)
      (rmap (fun p => (fst p, MCSR (snd p))) (csr_Update (MkCSR r c (contents (st_v st) v) (contents (st_z st) k) (contents (st_z st) s)) i j f)).
Proof.
  intros (V1 & V2 & V3 & Hne). unfold s_csr_Update, csr_Update, csr_UpdateReturnPointer. cbn [csr_r csr_c].
  destruct ((i <? 0) || _); [exact I|]. destruct ((j <? 0) || _); [exact I|].
  destruct (csr_columnIndex _ i j) as [[ps pe]| |]; cbn [rbind]; try exact I.
  destruct (csr_hit _ ps pe j) as [hit| |]; cbn [rbind]; try exact I.
  destruct hit.
  - unfold sget. cbn [csr_values]. destruct (zget _ ps) as [x| |]; cbn [rbind]; try exact I.
    destruct (f x) as [w value]. destruct (isz value).
    + rewrite csr_remove_lists. cbn [csr_values csr_cols csr_rowStart csr_r csr_c].
      pose proof (s_remove_sim sp st v k s ps i r V1 V2 V3 Hne) as S.
      destruct (s_remove _ _ _ _ _ _ _ _) as [[st' [v' k']]| |], (lists_remove _ _ _ _ _ _) as [[[lv lk] ls]| |];
        cbn in S |- *; auto; try (destruct S; fail).
      split; [reflexivity|]. apply csr_moved; auto.
    + pose proof (sset_sim (st_v st) v ps value V1) as S.
      destruct (sset _ _ _ _) as [m| |], (zset _ _ _) as [lv| |]; cbn in S |- *; auto; try (destruct S; fail).
      split; [reflexivity|]. destruct S as [K C].
      apply (csr_moved st r c v k s (MkStore m (st_z st) (st_o st))); auto. apply renewed3_set; auto.
  - destruct (f n0) as [w value]. rewrite csr_insert_lists. cbn [csr_values csr_cols csr_rowStart csr_r csr_c].
    pose proof (s_insert_sim sp st v k s ps i r j value V1 V2 V3 Hne) as S.
    destruct (s_insert _ _ _ _ _ _ _ _ _ _) as [[st' [v' k']]| |], (lists_insert _ _ _ _ _ _ _ _) as [[[lv lk] ls]| |];
      cbn in S |- *; auto; try (destruct S; fail).
    split; [reflexivity|]. apply csr_moved; auto.
Qed.

Lemma csc_Update_sim {W} sp st r c v k s i j (f : T N -> W * T N) :
  owned st (SCSC r c v k s) ->
  sim (same_obj st (SCSC r c v k s)) (s_csc_Update sp st r c v k s i j f)
      (rmap (fun p => (fst p, MCSC (snd p))) (csc_Update (MkCSC r c (contents (st_v st) v) (contents (st_z st) k) (contents (st_z st) s)) i j f)).
Proof.
  intros (V1 & V2 & V3 & Hne). unfold s_csc_Update, csc_Update, csc_UpdateReturnPointer. cbn [csc_r csc_c].
  destruct ((i <? 0) || _); [exact I|]. destruct ((j <? 0) || _); [exact I|].
  destruct (csc_rowIndex _ i j) as [[ps pe]| |]; cbn [rbind]; try exact I.
  destruct (csc_hit _ ps pe i) as [hit| |]; cbn [rbind]; try exact I.
  destruct hit.
  - unfold sget. cbn [csc_values]. destruct (zget _ ps) as [x| |]; cbn [rbind]; try exact I.
    destruct (f x) as [w value]. destruct (isz value).
    + rewrite csc_remove_lists. cbn [csc_values csc_rows csc_colStart csc_r csc_c].
      pose proof (s_remove_sim sp st v k s ps j c V1 V2 V3 Hne) as S.
      destruct (s_remove _ _ _ _ _ _ _ _) as [[st' [v' k']]| |], (lists_remove _ _ _ _ _ _) as [[[lv lk] ls]| |];
        cbn in S |- *; auto; try (destruct S; fail).
      split; [reflexivity|]. apply csc_moved; auto.
    + pose proof (sset_sim (st_v st) v ps value V1) as S.
      destruct (sset _ _ _ _) as [m| |], (zset _ _ _) as [lv| |]; cbn in S |- *; auto; try (destruct S; fail).
      split; [reflexivity|]. destruct S as [K C].
      apply (csc_moved st r c v k s (MkStore m (st_z st) (st_o st))); auto. apply renewed3_set; auto.
  - destruct (f n0) as [w value]. rewrite csc_insert_lists. cbn [csc_values csc_rows csc_colStart csc_r csc_c].
    pose proof (s_insert_sim sp st v k s ps j c i value V1 V2 V3 Hne) as S.
    destruct (s_insert _ _ _ _ _ _ _ _ _ _) as [[st' [v' k']]| |], (lists_insert _ _ _ _ _ _ _ _) as [[[lv lk] ls]| |];
      cbn in S |- *; auto; try (destruct S; fail).
    split; [reflexivity|]. apply csc_moved; auto.
Qed.

Lemma sv_moved st l v k m z v' k' lv lk :
  renewed (st_v st) v m v' lv -> renewed (st_z st) k z k' lk ->
  same_obj' st (SSV l v k) (MkStore m z (st_o st), SSV l v' k') (MSV (MkSV l lv lk)).
Proof.
  intros (Kv & Wv & Cv & Av) (Kz & Wk & Ck & Ak). split; [cbn; congruence|]. split; [|split; [|split]].
  - split; [exact Kv|]. split; [exact Kz|]. apply keeps_refl.
  - cbn. auto.
  - cbn. intros a [<-|[]]. destruct Av; auto.
  - cbn. intros a [<-|[]]. destruct Ak; auto.
Qed.

Lemma sv_remove_sim sp st l v k p : owned st (SSV l v k) ->
  sim (same_obj' st (SSV l v k))
      ('(z, k') <- remove (sp_z1 sp) (st_z st) k p ;;
       '(m, v') <- remove (sp_v1 sp) (st_v st) v p ;;
       Ok (MkStore m z (st_o st), SSV l v' k'))
      (rmap MSV (sv_remove (MkSV l (contents (st_v st) v) (contents (st_z st) k)) p)).
Proof.
  intros (V1 & V2). unfold sv_remove. cbn [sv_values sv_indices sv_l].
  pose proof (remove_sim (sp_z1 sp) (st_z st) k p V2) as S1.
  pose proof (remove_sim (sp_v1 sp) (st_v st) v p V1) as S2.
  destruct (remove _ (st_z st) k p) as [[z1 k']| |] eqn:E1; cbn [rbind];
  destruct (slice_to (contents (st_z st) k) p) as [c1| |]; cbn [rbind] in *; try (destruct S1; fail); auto;
  destruct (slice_from (contents (st_z st) k) (p + 1)) as [c2| |]; cbn [rbind] in *; try (destruct S1; fail); auto.
  destruct (remove _ (st_v st) v p) as [[v1 v']| |] eqn:E2; cbn [rbind];
  destruct (slice_to (contents (st_v st) v) p) as [d1| |]; cbn [rbind] in *; try (destruct S2; fail); auto;
  destruct (slice_from (contents (st_v st) v) (p + 1)) as [d2| |]; cbn [rbind] in *; try (destruct S2; fail); auto.
  cbn. apply sv_moved; auto.
Qed.

Lemma sv_set_sim st l v k p x : owned st (SSV l v k) ->
  sim (same_obj' st (SSV l v k))
      (m <- sset (st_v st) v p x ;; Ok (MkStore m (st_z st) (st_o st), SSV l v k))
      (rmap MSV (vs <- zset (contents (st_v st) v) p x ;; Ok (MkSV l vs (contents (st_z st) k)))).
Proof.
  intros (V1 & V2). pose proof (sset_sim (st_v st) v p x V1) as S.
  destruct (sset _ _ _ _) as [m| |], (zset _ _ _) as [lv| |]; cbn in S |- *; auto; try (destruct S; fail).
  destruct S as [K C]. apply sv_moved; apply renewed_same; auto using keeps_refl.
Qed.

Lemma sv_SetVec_sim sp st l v k i x : owned st (SSV l v k) ->
  sim (same_obj' st (SSV l v k)) (s_sv_SetVec sp st l v k i x)
      (rmap MSV (sv_SetVec (MkSV l (contents (st_v st) v) (contents (st_z st) k)) i x)).
Proof.
  intros Ho. pose proof Ho as (V1 & V2). unfold s_sv_SetVec, sv_SetVec, sv_Length. cbn [sv_l].
  destruct ((i <? 0) || _); [exact I|].
  destruct (sv_index _ i) as [[p n]| |]; cbn [rbind]; try exact I.
  destruct (sv_hit _ p n i) as [hit| |]; cbn [rbind]; try exact I.
  destruct hit; [destruct (isz x)|].
  - apply sv_remove_sim; auto.
  - apply sv_set_sim; auto.
  - unfold sv_insert. destruct (isz x).
    { cbn. split; [reflexivity|]. apply moved_refl. auto. }
    cbn [sv_values sv_indices sv_l].
    pose proof (insert_sim (sp_z1 sp) (sp_z2 sp) (st_z st) k p i V2) as S1.
    pose proof (insert_sim (sp_v1 sp) (sp_v2 sp) (st_v st) v p x V1) as S2.
    destruct (insert _ _ (st_z st) k p i) as [[z1 k']| |] eqn:E1; cbn [rbind];
    destruct (slice_to (contents (st_z st) k) p) as [c1| |]; cbn [rbind] in *; try (destruct S1; fail); auto;
    destruct (slice_from (contents (st_z st) k) p) as [c2| |]; cbn [rbind] in *; try (destruct S1; fail); auto.
    destruct (insert _ _ (st_v st) v p x) as [[v1 v']| |] eqn:E2; cbn [rbind];
    destruct (slice_to (contents (st_v st) v) p) as [d1| |]; cbn [rbind] in *; try (destruct S2; fail); auto;
    destruct (slice_from (contents (st_v st) v) p) as [d2| |]; cbn [rbind] in *; try (destruct S2; fail); auto.
    cbn. apply sv_moved; auto.
Qed.

Lemma sv_Update_sim {W} sp st l v k i j (f : T N -> W * T N) : owned st (SSV l v k) ->
  sim (same_obj st (SSV l v k)) (s_sv_Update sp st l v k i j f)
      (rmap (fun p => (fst p, MSV (snd p))) (sv_Update (MkSV l (contents (st_v st) v) (contents (st_z st) k)) i j f)).
Proof.
  intros Ho. unfold s_sv_Update, sv_Update, sv_Rows, sv_Columns. cbn [sv_l].
  destruct ((i <? 0) || _); [exact I|]. destruct ((j <? 0) || _); [exact I|].
  destruct (sv_AtVec _ i) as [x| |]; cbn [rbind]; try exact I. destruct (f x) as [w x'].
  pose proof (sv_SetVec_sim sp st l v k i x' Ho) as S.
  destruct (s_sv_SetVec _ _ _ _ _ _ _) as [[st' o']| |], (sv_SetVec _ _ _) as [s'| |]; cbn in S |- *; auto; try (destruct S; fail).
Qed.

Lemma dv_moved st l v m lv : owned st (SDV l v) -> keeps [s_arr v] (st_v st) m -> contents m v = lv ->
  same_obj' st (SDV l v) (MkStore m (st_z st) (st_o st), SDV l v) (MDV (MkDV l lv)).
Proof.
  intros (V1 & V2) K C. split; [cbn; congruence|]. split; [|split; [|split]].
  - split; [exact K|]. split; apply keeps_refl.
  - cbn. split; auto. apply (valid_keep [s_arr v] (st_v st)); auto.
  - cbn. auto.
  - cbn. auto.
Qed.

Lemma dv_SetVec_sim st l v i x : owned st (SDV l v) ->
  sim (same_obj' st (SDV l v))
      (m <- sset (st_v st) v i x ;; Ok (MkStore m (st_z st) (st_o st), SDV l v))
      (rmap MDV (vs <- zset (contents (st_v st) v) i x ;; Ok (MkDV l vs))).
Proof.
  intros Ho. pose proof (sset_sim (st_v st) v i x (proj1 Ho)) as S.
  destruct (sset _ _ _ _) as [m| |], (zset _ _ _) as [lv| |]; cbn in S |- *; auto; try (destruct S; fail).
  destruct S. apply dv_moved; auto.
Qed.

Lemma dv_Update_sim {W} st l v i j (f : T N -> W * T N) : owned st (SDV l v) ->
  sim (same_obj st (SDV l v)) (s_dv_Update st l v i j f)
      (rmap (fun p => (fst p, MDV (snd p))) (dv_Update (MkDV l (contents (st_v st) v)) i j f)).
Proof.
  intros Ho. unfold s_dv_Update, dv_Update, dv_Rows, dv_Columns, dv_AtVec, dv_SetVec, dv_Length. cbn [dv_l dv_values].
  destruct ((i <? 0) || (i >=? l)) eqn:E; [exact I|]. destruct ((j <? 0) || _); [exact I|]. unfold sget.
  destruct (zget _ i) as [x| |]; cbn [rbind]; try exact I. destruct (f x) as [w x'].
  pose proof (dv_SetVec_sim st l v i x' Ho) as S.
  destruct (sset _ _ _ _) as [m| |], (zset _ _ _) as [lv| |]; cbn in S |- *; auto; try (destruct S; fail).
Qed.
Lemma zget_map {A B} (g : A -> B) l i : zget (map g l) i = rmap g (zget l i).
Proof. unfold zget. destruct (i <? 0); [reflexivity|]. rewrite nth_error_map. destruct (nth_error l _); reflexivity. Qed.

Lemma zget_nth {A} (l : list A) i x : zget l i = Ok x -> 0 <= i /\ nth_error l (Z.to_nat i) = Some x.
Proof.
  unfold zget. destruct (Z.ltb_spec i 0); [discriminate|]. destruct (nth_error l _) eqn:E; [|discriminate]. intros [= <-]. auto.
Qed.

Lemma dm_moved st c r d m lv : owned st (SDM c r d) -> keeps (map s_arr (rows_of st d)) (st_v st) m ->
  map (contents m) (rows_of st d) = lv ->
  same_obj' st (SDM c r d) (MkStore m (st_z st) (st_o st), SDM c r d) (MDM (MkDense c r lv)).
Proof.
  intros (V1 & V2 & V3) K C. split; [cbn; f_equal; f_equal; exact C|]. split; [|split; [|split]].
  - split; [exact K|]. split; apply keeps_refl.
  - cbn. split; auto. split; auto. eapply Forall_impl; [|exact V2]. intros s. apply valid_keep with (1 := K).
  - cbn. auto.
  - cbn. auto.
Qed.

Lemma map_nth_set {A B} (g h : A -> B) l i x : nth_error l i = Some x ->
  (forall j y, nth_error l j = Some y -> j <> i -> h y = g y) -> map h l = list_set (map g l) i (h x).
Proof.
  revert i. induction l as [|a l IH]; intros [|i]; cbn; try discriminate.
  - intros [= <-] H. f_equal. apply map_ext_in. intros y Hy. apply In_nth_error in Hy as [j Hj].
    apply (H (Datatypes.S j)); auto.
  - intros E H. f_equal; [apply (H O); auto|]. apply IH; auto. intros j y Hj Hn. apply (H (Datatypes.S j)); auto.
Qed.

Lemma dm_write_sim st c r d i j x : owned st (SDM c r d) ->
  sim (same_obj' st (SDM c r d))
      (row <- sget (st_o st) d i ;; m <- sset (st_v st) row j x ;; Ok (MkStore m (st_z st) (st_o st), SDM c r d))
      (rmap MDM (dm_write (MkDense c r (map (contents (st_v st)) (rows_of st d))) i j x)).
Proof.
  intros Ho. pose proof Ho as (V1 & V2 & V3). unfold dm_write. cbn [dm_data dm_c dm_r].
  rewrite zget_map. unfold sget. fold (rows_of st d). destruct (zget (rows_of st d) i) as [row| |] eqn:E; cbn [rbind rmap]; try exact I.
  apply zget_nth in E as [Hi E].
  assert (Vr : valid (st_v st) row) by (rewrite Forall_forall in V2; apply V2; eapply nth_error_In; eauto).
  pose proof (sset_sim (st_v st) row j x Vr) as S.
  destruct (sset _ _ _ _) as [m| |], (zset (contents (st_v st) row) j x) as [lv| |]; cbn in S |- *; auto; try (destruct S; fail).
  destruct S as [K C]. unfold zset.
  assert (Hl : (Z.to_nat i < length (rows_of st d))%nat) by (apply nth_error_Some; congruence).
  replace (i <? 0) with false by lia. unfold zlen. rewrite map_length.
  replace (Z.of_nat (length (rows_of st d)) <=? i) with false by lia. cbn.
  apply dm_moved; auto.
  - eapply keeps_weaken; [exact K|]. intros a [<-|[]]. apply in_map. eapply nth_error_In; eauto.
  - rewrite <- C. apply map_nth_set with (1 := E). intros k y Hk Hn.
    apply (contents_keep [s_arr row]); auto.
    + rewrite Forall_forall in V2. apply V2. eapply nth_error_In; eauto.
    + intros [Ea|[]]. apply Hn. rewrite NoDup_nth_error in V3. apply V3.
      * rewrite map_length. apply nth_error_Some. congruence.
      * rewrite !nth_error_map, E, Hk. cbn. congruence.
Qed.

Lemma dm_Update_sim {W} st c r d i j (f : T N -> W * T N) : owned st (SDM c r d) ->
  sim (same_obj st (SDM c r d)) (s_dm_Update st c r d i j f)
      (rmap (fun p => (fst p, MDM (snd p))) (dm_Update (MkDense c r (map (contents (st_v st)) (rows_of st d))) i j f)).
Proof.
  intros Ho. unfold s_dm_Update, dm_Update, dm_Rows, dm_Columns, dm_read. cbn [dm_r dm_c dm_data].
  destruct ((i <? 0) || _); [exact I|]. destruct ((j <? 0) || _); [exact I|].
  unfold sget. fold (rows_of st d). rewrite zget_map.
  destruct (zget (rows_of st d) i) as [row| |] eqn:E; cbn [rbind rmap]; try exact I.
  destruct (zget (contents (st_v st) row) j) as [x| |]; cbn [rbind]; try exact I.
  destruct (f x) as [w x']. pose proof (dm_write_sim st c r d i j x' Ho) as S.
  unfold sget in S. fold (rows_of st d) in S. rewrite E in S. cbn [rbind] in S.
  destruct (sset _ _ _ _) as [m| |], (dm_write _ _ _ _) as [lv| |]; cbn in S |- *; auto; try (destruct S; fail).
Qed.

(** ** All types together *)
Definition mat_UpdateW {W} (M : mat N) (i j : Z) (g : T N -> W * T N) : res (W * mat N) :=
  match M with
  | MCSR s => rmap (fun p => (fst p, MCSR (snd p))) (csr_Update s i j g)
  | MCSC s => rmap (fun p => (fst p, MCSC (snd p))) (csc_Update s i j g)
  | MDM s => rmap (fun p => (fst p, MDM (snd p))) (dm_Update s i j g)
  | MDV s => rmap (fun p => (fst p, MDV (snd p))) (dv_Update s i j g)
  | MSV s => rmap (fun p => (fst p, MSV (snd p))) (sv_Update s i j g)
  end.

Lemma Update_sim {W} sp st o i j (f : T N -> W * T N) : owned st o ->
  sim (same_obj st o) (s_Update sp st o i j f) (mat_UpdateW (view st o) i j f).
Proof.
  destruct o; cbn [s_Update view mat_UpdateW]; intros Ho.
  - apply csr_Update_sim; auto.
  - apply csc_Update_sim; auto.
  - apply sv_Update_sim; auto.
  - apply dv_Update_sim; auto.
  - apply dm_Update_sim; auto.
Qed.

Lemma mat_Update_W M i j (f : T N -> T N) : mat_Update M i j f = ('(_, M') <- mat_UpdateW M i j (fun v => (tt, f v)) ;; Ok M').
Proof. destruct M; cbn; destruct (_ : res (unit * _)); reflexivity. Qed.

Lemma SetVec_sim sp st o i x : owned st o -> sim (same_obj' st o) (s_SetVec sp st o i x) (mat_SetVec (view st o) i x).
Proof.
  destruct o; cbn [s_SetVec view mat_SetVec]; intros Ho; try exact I.
  - apply sv_SetVec_sim; auto.
  - unfold dv_SetVec, dv_Length. cbn [dv_l dv_values]. destruct ((i <? 0) || _); [exact I|]. apply dv_SetVec_sim. auto.
Qed.

Lemma Set_sim sp st o i j x : owned st o -> sim (same_obj' st o) (s_Set sp st o i j x) (mat_Set (view st o) i j x).
Proof.
  intros Ho. destruct o as [r c v k s|r c v k s|l v k|l v|c r d].
  - pose proof (Update_sim sp st _ i j (fun _ => (tt, x)) Ho) as S. cbn in S |- *. unfold csr_Set.
    destruct (s_csr_Update _ _ _ _ _ _ _ _ _ _) as [[[w st'] o']| |], (csr_Update _ _ _ _) as [[w' s']| |]; cbn in S |- *; try contradiction; auto. apply S.
  - pose proof (Update_sim sp st _ i j (fun _ => (tt, x)) Ho) as S. cbn in S |- *. unfold csc_Set.
    destruct (s_csc_Update _ _ _ _ _ _ _ _ _ _) as [[[w st'] o']| |], (csc_Update _ _ _ _) as [[w' s']| |]; cbn in S |- *; try contradiction; auto. apply S.
  - pose proof (SetVec_sim sp st _ i x Ho) as S. cbn in S |- *. unfold sv_Set, sv_Rows, sv_Columns. cbn [sv_l].
    destruct ((i <? 0) || _); [exact I|]. destruct ((j <? 0) || _); [exact I|]. exact S.
  - pose proof (SetVec_sim sp st _ i x Ho) as S. cbn in S |- *. unfold dv_Set, dv_Rows, dv_Columns. cbn [dv_l].
    destruct ((i <? 0) || (i >=? l)) eqn:E; [exact I|]. destruct ((j <? 0) || _); [exact I|]. try rewrite E in S. exact S.
  - cbn. unfold dm_Set, dm_Rows, dm_Columns. cbn [dm_r dm_c].
    destruct ((i <? 0) || _); [exact I|]. destruct ((j <? 0) || _); [exact I|]. apply dm_write_sim. auto.
Qed.

Lemma At_sim sp st o i j : owned st o -> sim (same_obj st o) (s_At sp st o i j) (mat_At (view st o) i j).
Proof.
  intros Ho. destruct o as [r c v k s|r c v k s|l v k|l v|c r d].
  - apply (Update_sim sp st _ i j (fun v => (v, v)) Ho).
  - apply (Update_sim sp st _ i j (fun v => (v, v)) Ho).
  - apply (Update_sim sp st _ i j (fun v => (v, v)) Ho).
  - cbn. unfold rmap. destruct (dv_At _ i j) as [x| |]; cbn; auto. split; [reflexivity|]. split; [reflexivity|]. apply moved_refl; auto.
  - cbn. unfold rmap. destruct (dm_At _ i j) as [x| |]; cbn; auto. split; [reflexivity|]. split; [reflexivity|]. apply moved_refl; auto.
Qed.

Lemma csr_put_sim st r c v k s p x : owned st (SCSR r c v k s) ->
  sim (same_obj' st (SCSR r c v k s))
      (m <- sset (st_v st) v p x ;; Ok (MkStore m (st_z st) (st_o st), SCSR r c v k s))
      (rmap MCSR (vs <- zset (contents (st_v st) v) p x ;; Ok (MkCSR r c vs (contents (st_z st) k) (contents (st_z st) s)))).
Proof.
  intros (V1 & V2 & V3 & Hne). pose proof (sset_sim (st_v st) v p x V1) as S.
  destruct (sset _ _ _ _) as [m| |], (zset _ _ _) as [lv| |]; cbn in S |- *; auto; try (destruct S; fail).
  destruct S as [K C]. apply (csr_moved st r c v k s (MkStore m (st_z st) (st_o st))); auto. apply renewed3_set; auto.
Qed.
Lemma csc_put_sim st r c v k s p x : owned st (SCSC r c v k s) ->
  sim (same_obj' st (SCSC r c v k s))
      (m <- sset (st_v st) v p x ;; Ok (MkStore m (st_z st) (st_o st), SCSC r c v k s))
      (rmap MCSC (vs <- zset (contents (st_v st) v) p x ;; Ok (MkCSC r c vs (contents (st_z st) k) (contents (st_z st) s)))).
Proof.
  intros (V1 & V2 & V3 & Hne). pose proof (sset_sim (st_v st) v p x V1) as S.
  destruct (sset _ _ _ _) as [m| |], (zset _ _ _) as [lv| |]; cbn in S |- *; auto; try (destruct S; fail).
  destruct S as [K C]. apply (csc_moved st r c v k s (MkStore m (st_z st) (st_o st))); auto. apply renewed3_set; auto.
Qed.

Lemma put_sim sp st o it x : owned st o -> sim (same_obj' st o) (s_put sp st o it x) (mat_map_put (view st o) it x).
Proof.
  intros Ho. destruct o as [r c v k s|r c v k s|l v k|l v|c r d], it; try exact I; cbn [s_put view mat_map_put].
  - unfold csr_map_put. cbn [csr_values csr_cols csr_rowStart csr_r csr_c]. destruct (negb (isz x)).
    + apply csr_put_sim; auto.
    + rewrite csr_remove_lists. cbn [csr_values csr_cols csr_rowStart csr_r csr_c]. destruct Ho as (V1 & V2 & V3 & Hne).
      pose proof (s_remove_sim sp st v k s (cri_index i) (cri_r i) r V1 V2 V3 Hne) as S.
      destruct (s_remove _ _ _ _ _ _ _ _) as [[st' [v' k']]| |], (lists_remove _ _ _ _ _ _) as [[[lv lk] ls]| |];
        cbn in S |- *; auto; try (destruct S; fail). apply csr_moved; auto.
  - unfold csc_map_put. cbn [csc_values csc_rows csc_colStart csc_r csc_c]. destruct (negb (isz x)).
    + apply csc_put_sim; auto.
    + rewrite csc_remove_lists. cbn [csc_values csc_rows csc_colStart csc_r csc_c]. destruct Ho as (V1 & V2 & V3 & Hne).
      pose proof (s_remove_sim sp st v k s (cci_index i) (cci_c i) c V1 V2 V3 Hne) as S.
      destruct (s_remove _ _ _ _ _ _ _ _) as [[st' [v' k']]| |], (lists_remove _ _ _ _ _ _) as [[[lv lk] ls]| |];
        cbn in S |- *; auto; try (destruct S; fail). apply csc_moved; auto.
  - unfold sv_map_put. cbn [sv_values sv_indices sv_l]. destruct (negb (isz x)).
    + apply sv_set_sim; auto.
    + apply sv_remove_sim; auto.
  - unfold dv_map_put. apply (SetVec_sim sp st (SDV l v)); auto.
  - unfold dm_map_put. apply (Set_sim sp st (SDM c r d)); auto.
Qed.

Definition l_ReSize (M : mat N) (size : Z) : res (mat N) :=
  match M with MDV s => '(_, s') <- dv_ReSize s size ;; Ok (MDV s') | _ => Panic end.

Lemma ReSize_sim sp st o size : owned st o -> 0 <= size -> sim (same_obj' st o) (s_ReSize sp st o size) (l_ReSize (view st o) size).
Proof.
  intros Ho Hs. destruct o as [r c v k s|r c v k s|l v k|l v|c r d]; try exact I. destruct Ho as [V1 V2].
  cbn [s_ReSize view l_ReSize]. unfold dv_ReSize. cbn [dv_l dv_values].
  assert (fin : forall m v' lv, renewed (st_v st) v m v' lv ->
     same_obj' st (SDV l v) (MkStore m (st_z st) (st_o st), SDV (Z.of_nat (s_len v')) v') (MDV (MkDV (zlen lv) lv))).
  { intros m v' lv (K & W & C & A). split; [cbn; rewrite <- C; do 2 f_equal; rewrite zlen_contents; auto|].
    split; [|split; [|split]]; cbn.
    - split; [exact K|]. split; apply keeps_refl.
    - auto.
    - intros a [<-|[]]. destruct A; auto.
    - auto. }
  destruct (Z.gtb_spec size l); [|destruct (Z.ltb_spec size l)].
  - destruct (make_slice n0 (size - l)) as [arr| |]; cbn [rbind]; try exact I.
    destruct (append (sp_v1 sp) (st_v st) v arr) as [m v'] eqn:E. cbn. apply fin. eapply append_spec; eauto.
  - destruct (to_ok v (l - size) ltac:(lia) (proj1 (proj2 V1))) as [w E]. rewrite E. cbn [rbind].
    destruct (contents_to _ _ _ _ V1 E ltac:(lia)) as [C _].
    unfold slice_to. rewrite zlen_contents by auto. replace (l - size <? 0) with false by lia.
    replace (Z.of_nat (s_len v) <? l - size) with false by lia. cbn [orb rbind].
    destruct (fresh (sp_v1 sp) (st_v st) (contents (st_v st) w)) as [m v'] eqn:Ef.
    destruct (fresh_spec _ _ _ _ _ Ef) as (K & W & Cf & Af & _). cbn. apply fin. rewrite <- C.
    split; [apply (keeps_weaken []); auto; cbn; tauto|]. split; [auto|]. split; [auto|]. right. lia.
  - cbn. apply fin. apply renewed_same; auto using keeps_refl.
Qed.

(** ** New objects *)
Lemma fresh_rows_spec rows : forall m m' ss, fresh_rows (N := N) m rows = (m', ss) ->
  keeps [] m m' /\ Forall (valid m') ss /\ map (contents m') ss = rows /\
  Forall (fun s => (length m <= s_arr s < length m')%nat) ss /\ NoDup (map s_arr ss).
Proof.
  induction rows as [|row rows IH]; intros m m' ss; cbn.
  - intros [= <- <-]. repeat split; auto using keeps_refl. constructor.
  - destruct (fresh_rows (m ++ [row ++ []]) rows) as [m2 rest] eqn:E. intros [= <- <-].
    destruct (IH _ _ _ E) as (K & V & C & R & D).
    pose proof (fresh_spec [] m row _ _ eq_refl) as (K1 & V1 & C1 & A1 & L1).
    split; [|split; [|split; [|split]]].
    + apply (keeps_trans _ [] _ _ _ K1 K). cbn. tauto.
    + constructor; auto. apply (valid_keep [] _ _ _ K). auto.
    + cbn [map]. f_equal; [|exact C]. etransitivity; [apply (contents_keep [] _ _ _ K); [exact V1|cbn; tauto]|exact C1].
    + constructor; cbn.
      * destruct K as [K _]. lia.
      * eapply Forall_impl; [|exact R]. cbn. intros s. lia.
    + cbn. constructor; auto. intros Hin. apply in_map_iff in Hin as (s & Es & Hs).
      rewrite Forall_forall in R. specialize (R s Hs). lia.
Qed.

(** the vector's length field agrees with its list *)
Definition lens_ok (M : mat N) : Prop := match M with MDV a => dv_l a = zlen (dv_values a) | _ => True end.

Definition made st st' o : Prop :=
  kept [] [] st st' /\ owned st' o /\
  (forall a, In a (fv st' o) -> (length (st_v st) <= a)%nat) /\ (forall a, In a (fz o) -> (length (st_z st) <= a)%nat).

Lemma build_spec sp st M st' o : lens_ok M -> build sp st M = (st', o) -> view st' o = M /\ made st st' o.
Proof.
  destruct M as [a|a|a|a|a]; cbn [build lens_ok]; intros Hl.
  - destruct (fresh _ (st_v st) (csr_values a)) as [m v] eqn:E1. destruct (fresh _ (st_z st) (csr_cols a)) as [z1 k] eqn:E2.
    destruct (fresh _ z1 (csr_rowStart a)) as [z2 s] eqn:E3. intros [= <- <-].
    destruct (fresh_spec _ _ _ _ _ E1) as (K1 & V1 & C1 & A1 & L1).
    destruct (fresh_spec _ _ _ _ _ E2) as (K2 & V2 & C2 & A2 & L2).
    destruct (fresh_spec _ _ _ _ _ E3) as (K3 & V3 & C3 & A3 & L3).
    assert (C2' : contents z2 k = csr_cols a) by (rewrite (contents_keep [] z1 z2); auto).
    split; [cbn; rewrite C1, C2', C3; destruct a; reflexivity|]. split; [|split; [|split]]; cbn.
    + split; [auto|]. split; [|apply keeps_refl]. apply (keeps_trans _ [] _ _ _ K2 K3). cbn; tauto.
    + split; [auto|]. split; [apply (valid_keep [] z1); auto|]. split; auto. lia.
    + intros x [<-|[]]. lia.
    + intros x [<-|[<-|[]]]; lia.
  - destruct (fresh _ (st_v st) (csc_values a)) as [m v] eqn:E1. destruct (fresh _ (st_z st) (csc_rows a)) as [z1 k] eqn:E2.
    destruct (fresh _ z1 (csc_colStart a)) as [z2 s] eqn:E3. intros [= <- <-].
    destruct (fresh_spec _ _ _ _ _ E1) as (K1 & V1 & C1 & A1 & L1).
    destruct (fresh_spec _ _ _ _ _ E2) as (K2 & V2 & C2 & A2 & L2).
    destruct (fresh_spec _ _ _ _ _ E3) as (K3 & V3 & C3 & A3 & L3).
    assert (C2' : contents z2 k = csc_rows a) by (rewrite (contents_keep [] z1 z2); auto).
    split; [cbn; rewrite C1, C2', C3; destruct a; reflexivity|]. split; [|split; [|split]]; cbn.
    + split; [auto|]. split; [|apply keeps_refl]. apply (keeps_trans _ [] _ _ _ K2 K3). cbn; tauto.
    + split; [auto|]. split; [apply (valid_keep [] z1); auto|]. split; auto. lia.
    + intros x [<-|[]]. lia.
    + intros x [<-|[<-|[]]]; lia.
  - destruct (fresh_rows (st_v st) (dm_data a)) as [m rows] eqn:E1. destruct (fresh [] (st_o st) rows) as [om d] eqn:E2.
    intros [= <- <-]. destruct (fresh_rows_spec _ _ _ _ E1) as (K1 & V1 & C1 & R1 & D1).
    destruct (fresh_spec _ _ _ _ _ E2) as (K2 & V2 & C2 & A2 & L2). unfold made, kept.
    cbn. unfold rows_of. cbn. rewrite C2, C1. split; [destruct a; reflexivity|]. split; [|split; [|split]]; auto.
    + split; [auto|]. split; [apply keeps_refl|auto].
    + intros x Hx. apply in_map_iff in Hx as (s & <- & Hs). rewrite Forall_forall in R1. apply R1; auto.
    + tauto.
  - destruct (fresh [] (st_v st) (dv_values a)) as [m v] eqn:E1. intros [= <- <-].
    destruct (fresh_spec _ _ _ _ _ E1) as (K1 & V1 & C1 & A1 & L1).
    split; [cbn; rewrite C1; destruct a; reflexivity|]. split; [|split; [|split]]; cbn.
    + split; [auto|]. split; apply keeps_refl.
    + split; auto. rewrite Hl, <- C1. apply zlen_contents. auto.
    + intros x [<-|[]]. lia.
    + tauto.
  - destruct (fresh _ (st_v st) (sv_values a)) as [m v] eqn:E1. destruct (fresh _ (st_z st) (sv_indices a)) as [z1 k] eqn:E2.
    intros [= <- <-].
    destruct (fresh_spec _ _ _ _ _ E1) as (K1 & V1 & C1 & A1 & L1).
    destruct (fresh_spec _ _ _ _ _ E2) as (K2 & V2 & C2 & A2 & L2).
    split; [cbn; rewrite C1, C2; destruct a; reflexivity|]. split; [|split; [|split]]; cbn.
    + split; [auto|]. split; [auto|apply keeps_refl].
    + auto.
    + intros x [<-|[]]. lia.
    + intros x [<-|[]]. lia.
Qed.
End Objects.
