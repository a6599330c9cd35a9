(** Lemmas about GoBase. *)
From Coq Require Import FinFun.
From Verif Require Import GoBase.

#[global] Arguments Z.add : simpl never.
#[global] Arguments Z.sub : simpl never.
#[global] Arguments Z.mul : simpl never.
#[global] Arguments Z.opp : simpl never.
#[global] Arguments Z.of_nat : simpl never.
#[global] Arguments Z.to_nat : simpl never.
#[global] Arguments zlen : simpl never.
#[global] Arguments zget : simpl never.
#[global] Arguments zset : simpl never.
#[global] Arguments slice_to : simpl never.
#[global] Arguments slice_from : simpl never.
#[global] Arguments make_slice : simpl never.
#[global] Arguments zrange : simpl never.

(** ** zlen *)
Lemma zlen_nil {A} : zlen (@nil A) = 0. Proof. reflexivity. Qed.
Lemma zlen_cons {A} (x : A) l : zlen (x :: l) = zlen l + 1.
Proof. unfold zlen; simpl length; lia. Qed.
Lemma zlen_app {A} (l1 l2 : list A) : zlen (l1 ++ l2) = zlen l1 + zlen l2.
Proof. unfold zlen; rewrite app_length; lia. Qed.
Lemma zlen_nonneg {A} (l : list A) : 0 <= zlen l.
Proof. unfold zlen; lia. Qed.
Lemma zlen_map {A B} (f : A -> B) l : zlen (map f l) = zlen l.
Proof. unfold zlen; rewrite map_length; reflexivity. Qed.
Lemma zlen_repeat {A} (x : A) n : zlen (repeat x n) = Z.of_nat n.
Proof. unfold zlen; rewrite repeat_length; reflexivity. Qed.
Lemma zlen_0_nil {A} (l : list A) : zlen l = 0 -> l = [].
Proof. destruct l; [reflexivity|rewrite zlen_cons; pose proof (zlen_nonneg l); lia]. Qed.
Lemma zlen_list_set {A} (l : list A) n x : zlen (list_set l n x) = zlen l.
Proof.
  unfold zlen; f_equal. revert n; induction l; intros [|n]; simpl; auto.
Qed.
Lemma length_list_set {A} (l : list A) n x : length (list_set l n x) = length l.
Proof. revert n; induction l; intros [|n]; simpl; auto. Qed.

#[export] Hint Rewrite @zlen_nil @zlen_cons @zlen_app @zlen_map @zlen_repeat @zlen_list_set : zl.

Ltac zl := autorewrite with zl in *.

(** ** zget *)
Lemma zget_neg {A} (l : list A) i : i < 0 -> zget l i = Panic.
Proof. intros; unfold zget. destruct (i <? 0) eqn:E; [reflexivity|lia]. Qed.

Lemma zget_big {A} (l : list A) i : zlen l <= i -> zget l i = Panic.
Proof.
  intros H; unfold zget. destruct (i <? 0) eqn:E; [reflexivity|].
  replace (nth_error l (Z.to_nat i)) with (@None A); auto.
  symmetry; apply nth_error_None. unfold zlen in H; lia.
Qed.

Lemma zget_ok {A} (l : list A) i : 0 <= i < zlen l -> exists x, zget l i = Ok x.
Proof.
  intros H; unfold zget. destruct (i <? 0) eqn:E; [lia|].
  destruct (nth_error l (Z.to_nat i)) eqn:En; [eauto|].
  apply nth_error_None in En. unfold zlen in H; lia.
Qed.

Lemma zget_range {A} (l : list A) i x : zget l i = Ok x -> 0 <= i < zlen l.
Proof.
  intros H. destruct (Z_lt_dec i 0); [rewrite zget_neg in H by lia; discriminate|].
  destruct (Z_le_dec (zlen l) i); [rewrite zget_big in H by lia; discriminate|]. lia.
Qed.

Lemma zget_nth {A} (l : list A) i x :
  zget l i = Ok x <-> 0 <= i /\ nth_error l (Z.to_nat i) = Some x.
Proof.
  unfold zget. destruct (i <? 0) eqn:E.
  - split; [discriminate|intros [H _]; lia].
  - destruct (nth_error l (Z.to_nat i)) eqn:En; split; intros H; try discriminate.
    + inversion H; subst. split; [lia|reflexivity].
    + destruct H as [_ H]. inversion H; reflexivity.
    + destruct H as [_ H]; discriminate.
Qed.

Lemma zget_not_diverge {A} (l : list A) i : zget l i <> Diverge.
Proof.
  unfold zget. destruct (i <? 0); [discriminate|].
  destruct (nth_error l (Z.to_nat i)); discriminate.
Qed.

Lemma zget_In {A} (l : list A) i x : zget l i = Ok x -> In x l.
Proof. intros H; apply zget_nth in H as [_ H]. eapply nth_error_In; eauto. Qed.

Lemma In_zget {A} (l : list A) x : In x l -> exists i, zget l i = Ok x.
Proof.
  intros H. apply In_nth_error in H as [n Hn].
  exists (Z.of_nat n). apply zget_nth. rewrite Nat2Z.id. split; [lia|auto].
Qed.

Lemma zget_app1 {A} (l1 l2 : list A) i : i < zlen l1 -> zget (l1 ++ l2) i = zget l1 i.
Proof.
  intros H. unfold zget. destruct (i <? 0) eqn:E; [reflexivity|].
  rewrite nth_error_app1; [reflexivity|unfold zlen in H; lia].
Qed.

Lemma zget_app2 {A} (l1 l2 : list A) i : zlen l1 <= i -> zget (l1 ++ l2) i = zget l2 (i - zlen l1).
Proof.
  intros H. pose proof (zlen_nonneg l1). unfold zget.
  destruct (i <? 0) eqn:E; [lia|]. destruct (i - zlen l1 <? 0) eqn:E2; [lia|].
  rewrite nth_error_app2 by (unfold zlen in *; lia).
  replace (Z.to_nat i - length l1)%nat with (Z.to_nat (i - zlen l1)); [reflexivity|].
  unfold zlen in *; lia.
Qed.

Lemma zget_mid {A} (l1 l2 : list A) x i : i = zlen l1 -> zget (l1 ++ x :: l2) i = Ok x.
Proof.
  intros ->. rewrite zget_app2 by lia. rewrite Z.sub_diag. reflexivity.
Qed.

Lemma zget_0 {A} (x : A) l : zget (x :: l) 0 = Ok x.
Proof. reflexivity. Qed.

Lemma zget_cons {A} (x : A) l i : 0 < i -> zget (x :: l) i = zget l (i - 1).
Proof. intros H. apply (zget_app2 [x] l i). unfold zlen; simpl; lia. Qed.

Lemma zget_map {A B} (f : A -> B) l i : zget (map f l) i = rmap f (zget l i).
Proof.
  unfold zget. destruct (i <? 0); [reflexivity|].
  rewrite nth_error_map. destruct (nth_error l (Z.to_nat i)); reflexivity.
Qed.

Lemma zget_repeat {A} (x : A) n i : 0 <= i < Z.of_nat n -> zget (repeat x n) i = Ok x.
Proof.
  intros H. apply zget_nth. split; [lia|]. apply nth_error_repeat. lia.
Qed.

Lemma zget_split {A} (l : list A) i x :
  zget l i = Ok x -> exists l1 l2, l = l1 ++ x :: l2 /\ zlen l1 = i.
Proof.
  intros H. apply zget_nth in H as [Hi H].
  apply nth_error_split in H as (l1 & l2 & -> & Hl).
  exists l1, l2. split; [reflexivity|unfold zlen; lia].
Qed.

Lemma list_split {A} (l : list A) i :
  0 <= i < zlen l -> exists l1 x l2, l = l1 ++ x :: l2 /\ zlen l1 = i.
Proof.
  intros H. destruct (zget_ok l i H) as [x Hx].
  apply zget_split in Hx as (l1 & l2 & H1 & H2). eauto 6.
Qed.

Lemma list_split_at {A} (l : list A) i :
  0 <= i <= zlen l -> exists l1 l2, l = l1 ++ l2 /\ zlen l1 = i.
Proof.
  intros H. exists (firstn (Z.to_nat i) l), (skipn (Z.to_nat i) l).
  rewrite firstn_skipn. split; [reflexivity|].
  unfold zlen in *. rewrite firstn_length. lia.
Qed.

Lemma zget_ext {A} (l1 l2 : list A) :
  zlen l1 = zlen l2 -> (forall i, 0 <= i < zlen l1 -> zget l1 i = zget l2 i) -> l1 = l2.
Proof.
  revert l2; induction l1 as [|x l1 IH]; intros [|y l2] Hl H; zl; try reflexivity.
  - pose proof (zlen_nonneg l2); lia.
  - pose proof (zlen_nonneg l1); lia.
  - pose proof (zlen_nonneg l1). f_equal.
    + assert (E : zget (x :: l1) 0 = zget (y :: l2) 0) by (apply H; lia).
      rewrite !zget_0 in E. congruence.
    + apply IH; [lia|]. intros i Hi.
      specialize (H (i + 1) ltac:(lia)).
      rewrite !zget_cons in H by lia. rewrite Z.add_simpl_r in H. exact H.
Qed.

(** ** list_set / zset *)
Lemma list_set_mid {A} (l1 l2 : list A) x y n :
  n = length l1 -> list_set (l1 ++ x :: l2) n y = l1 ++ y :: l2.
Proof.
  intros ->. induction l1; simpl; [reflexivity|]. f_equal; auto.
Qed.

Lemma list_set_same {A} (l : list A) n x : nth_error l n = Some x -> list_set l n x = l.
Proof.
  revert n; induction l; intros [|n] H; simpl in *; try discriminate.
  - inversion H; reflexivity.
  - f_equal; auto.
Qed.

Lemma nth_error_list_set {A} (l : list A) n m x :
  nth_error (list_set l n x) m =
  if Nat.eqb n m then (match nth_error l m with Some _ => Some x | None => None end)
  else nth_error l m.
Proof.
  revert n m; induction l; intros [|n] [|m]; simpl; auto.
  - destruct (Nat.eqb n m); auto.
Qed.

Lemma nth_error_list_set_eq {A} (l : list A) n x :
  (n < length l)%nat -> nth_error (list_set l n x) n = Some x.
Proof.
  intros H. rewrite nth_error_list_set, Nat.eqb_refl.
  destruct (nth_error l n) eqn:E; [reflexivity|]. apply nth_error_None in E; lia.
Qed.

Lemma nth_error_list_set_neq {A} (l : list A) n m x :
  n <> m -> nth_error (list_set l n x) m = nth_error l m.
Proof.
  intros H. rewrite nth_error_list_set.
  destruct (Nat.eqb n m) eqn:E; [apply Nat.eqb_eq in E; contradiction|reflexivity].
Qed.

Lemma list_set_twice {A} (l : list A) n x y : list_set (list_set l n x) n y = list_set l n y.
Proof. revert n; induction l; intros [|n]; simpl; auto. f_equal; auto. Qed.

Lemma list_set_comm {A} (l : list A) n m x y :
  n <> m -> list_set (list_set l n x) m y = list_set (list_set l m y) n x.
Proof.
  revert n m; induction l; intros [|n] [|m] H; simpl; auto; try contradiction.
  f_equal. apply IHl. congruence.
Qed.

Lemma zset_ok {A} (l : list A) i x :
  0 <= i < zlen l -> zset l i x = Ok (list_set l (Z.to_nat i) x).
Proof.
  intros H; unfold zset. destruct (i <? 0) eqn:E1; [lia|].
  destruct (zlen l <=? i) eqn:E2; [lia|]. reflexivity.
Qed.

Lemma zset_panic {A} (l : list A) i x : ~ (0 <= i < zlen l) -> zset l i x = Panic.
Proof.
  intros H; unfold zset. destruct (i <? 0) eqn:E1; [reflexivity|].
  destruct (zlen l <=? i) eqn:E2; [reflexivity|lia].
Qed.

Lemma zset_mid {A} (l1 l2 : list A) x y i :
  i = zlen l1 -> zset (l1 ++ x :: l2) i y = Ok (l1 ++ y :: l2).
Proof.
  intros ->. pose proof (zlen_nonneg l1). pose proof (zlen_nonneg l2).
  rewrite zset_ok by (zl; lia). f_equal. apply list_set_mid. unfold zlen; lia.
Qed.

Lemma zset_same {A} (l : list A) i x : zget l i = Ok x -> zset l i x = Ok l.
Proof.
  intros H. apply zget_split in H as (l1 & l2 & -> & <-). apply zset_mid; reflexivity.
Qed.

Lemma zset_inv {A} (l : list A) i x l' :
  zset l i x = Ok l' -> 0 <= i < zlen l /\ l' = list_set l (Z.to_nat i) x.
Proof.
  unfold zset. destruct (i <? 0) eqn:E1; [discriminate|].
  destruct (zlen l <=? i) eqn:E2; [discriminate|]. simpl. intros H; inversion H.
  split; [lia|reflexivity].
Qed.

Lemma zget_list_set {A} (l : list A) i j x :
  0 <= i < zlen l ->
  zget (list_set l (Z.to_nat i) x) j = if j =? i then Ok x else zget l j.
Proof.
  intros H. unfold zget. destruct (j <? 0) eqn:E.
  - destruct (j =? i) eqn:E2; [lia|reflexivity].
  - rewrite nth_error_list_set. destruct (j =? i) eqn:E2.
    + replace (Z.to_nat j) with (Z.to_nat i) by (f_equal; lia). rewrite Nat.eqb_refl.
      destruct (nth_error l (Z.to_nat i)) eqn:En; [reflexivity|].
      apply nth_error_None in En. unfold zlen in H; lia.
    + destruct (Nat.eqb (Z.to_nat i) (Z.to_nat j)) eqn:E3; [|reflexivity].
      apply Nat.eqb_eq in E3. lia.
Qed.

(** ** slices *)
Lemma slice_to_app {A} (l1 l2 : list A) p : p = zlen l1 -> slice_to (l1 ++ l2) p = Ok l1.
Proof.
  intros ->. unfold slice_to. pose proof (zlen_nonneg l1). pose proof (zlen_nonneg l2).
  destruct (zlen l1 <? 0) eqn:E1; [lia|]. rewrite zlen_app.
  destruct (zlen l1 + zlen l2 <? zlen l1) eqn:E2; [lia|]. simpl. f_equal.
  unfold zlen; rewrite Nat2Z.id. rewrite firstn_app, Nat.sub_diag, firstn_all. simpl. apply app_nil_r.
Qed.

Lemma slice_from_app {A} (l1 l2 : list A) p : p = zlen l1 -> slice_from (l1 ++ l2) p = Ok l2.
Proof.
  intros ->. unfold slice_from. pose proof (zlen_nonneg l1). pose proof (zlen_nonneg l2).
  destruct (zlen l1 <? 0) eqn:E1; [lia|]. rewrite zlen_app.
  destruct (zlen l1 + zlen l2 <? zlen l1) eqn:E2; [lia|]. simpl. f_equal.
  unfold zlen; rewrite Nat2Z.id. rewrite skipn_app, Nat.sub_diag, skipn_all. reflexivity.
Qed.

Lemma make_slice_ok {A} (x : A) n : 0 <= n -> make_slice x n = Ok (repeat x (Z.to_nat n)).
Proof. intros; unfold make_slice. destruct (n <? 0) eqn:E; [lia|reflexivity]. Qed.

(** ** zrange and rfold *)
Lemma zrange_nil a b : b <= a -> zrange a b = [].
Proof. intros H; unfold zrange. replace (Z.to_nat (b - a)) with O by lia. reflexivity. Qed.

Lemma zrange_cons a b : a < b -> zrange a b = a :: zrange (a + 1) b.
Proof.
  intros H; unfold zrange.
  replace (Z.to_nat (b - a)) with (S (Z.to_nat (b - (a + 1)))) by lia.
  simpl. rewrite Z.add_0_r. f_equal. rewrite <- seq_shift, map_map. apply map_ext. intros; lia.
Qed.

Lemma zrange_snoc a b : a <= b -> zrange a (b + 1) = zrange a b ++ [b].
Proof.
  intros H; unfold zrange.
  replace (Z.to_nat (b + 1 - a)) with (S (Z.to_nat (b - a))) by lia.
  rewrite seq_S, map_app. simpl. f_equal. f_equal. lia.
Qed.

Lemma zrange_split a b c : a <= b <= c -> zrange a c = zrange a b ++ zrange b c.
Proof.
  intros H; unfold zrange.
  replace (Z.to_nat (c - a)) with (Z.to_nat (b - a) + Z.to_nat (c - b))%nat by lia.
  rewrite seq_app, map_app. f_equal. simpl.
  replace (Z.to_nat (b - a)) with (Z.to_nat (b - a) + 0)%nat at 1 by lia.
  generalize (Z.to_nat (c - b)) as m. intros m. 
  assert (forall k, map (fun k0 => a + Z.of_nat k0) (seq (Z.to_nat (b - a) + k) m)
                  = map (fun k0 => b + Z.of_nat k0) (seq k m)) as Hk.
  { induction m; intros k; simpl; [reflexivity|]. f_equal; [lia|].
    rewrite <- IHm. f_equal. f_equal. lia. }
  apply Hk.
Qed.

Lemma zrange_length a b : length (zrange a b) = Z.to_nat (b - a).
Proof. unfold zrange. rewrite map_length, seq_length. reflexivity. Qed.

Lemma zlen_zrange a b : a <= b -> zlen (zrange a b) = b - a.
Proof. intros. unfold zlen. rewrite zrange_length. lia. Qed.

Lemma in_zrange a b i : In i (zrange a b) <-> a <= i < b.
Proof.
  unfold zrange. rewrite in_map_iff. split.
  - intros (k & <- & Hk). apply in_seq in Hk. lia.
  - intros H. exists (Z.to_nat (i - a)). split; [lia|]. apply in_seq. lia.
Qed.

Lemma NoDup_zrange a b : NoDup (zrange a b).
Proof.
  unfold zrange. apply FinFun.Injective_map_NoDup; [intros x y; lia|apply seq_NoDup].
Qed.

Lemma zget_zrange a b i : 0 <= i < b - a -> zget (zrange a b) i = Ok (a + i).
Proof.
  intros H. unfold zrange. rewrite zget_map.
  replace (zget (seq 0 (Z.to_nat (b - a))) i) with (Ok (Z.to_nat i)); [simpl; f_equal; lia|].
  symmetry. apply zget_nth. split; [lia|].
  rewrite (nth_error_nth' _ O) by (rewrite seq_length; lia).
  rewrite seq_nth by lia. reflexivity.
Qed.

Lemma rfold_app {S I} (body : S -> I -> res S) s l1 l2 :
  rfold body s (l1 ++ l2) = (s' <- rfold body s l1 ;; rfold body s' l2).
Proof.
  revert s; induction l1; intros s; simpl; [reflexivity|].
  destruct (body s a); simpl; auto.
Qed.

Lemma rfold_range_inv {S} (P : Z -> S -> Prop) (body : S -> Z -> res S) a b s :
  a <= b -> P a s ->
  (forall i s, a <= i < b -> P i s -> exists s', body s i = Ok s' /\ P (i + 1) s') ->
  exists s', rfold body s (zrange a b) = Ok s' /\ P b s'.
Proof.
  intros Hab HP Hstep.
  assert (forall n i s, a <= i -> i + Z.of_nat n = b -> P i s ->
            exists s', rfold body s (zrange i b) = Ok s' /\ P b s') as Hgen.
  { induction n; intros i t Hi Hn Ht.
    - rewrite zrange_nil by lia. simpl. exists t. split; [reflexivity|].
      replace b with i by lia. exact Ht.
    - rewrite zrange_cons by lia. simpl.
      destruct (Hstep i t ltac:(lia) Ht) as (t' & -> & Ht'). simpl.
      apply IHn; [lia|lia|exact Ht']. }
  apply (Hgen (Z.to_nat (b - a)) a s); [lia|lia|exact HP].
Qed.

Lemma rfold_list_inv {S I} (P : list I -> S -> Prop) (body : S -> I -> res S) l s :
  P [] s ->
  (forall l1 i l2 s, l = l1 ++ i :: l2 -> P l1 s -> exists s', body s i = Ok s' /\ P (l1 ++ [i]) s') ->
  exists s', rfold body s l = Ok s' /\ P l s'.
Proof.
  intros H0 Hstep.
  assert (forall l2 l1 s, l = l1 ++ l2 -> P l1 s ->
            exists s', rfold body s l2 = Ok s' /\ P l s') as Hgen.
  { induction l2; intros l1 t Hl Ht; simpl.
    - exists t. rewrite app_nil_r in Hl. subst. auto.
    - destruct (Hstep l1 a l2 t Hl Ht) as (t' & -> & Ht'). simpl.
      apply (IHl2 (l1 ++ [a])); [rewrite Hl, <- app_assoc; reflexivity|exact Ht']. }
  apply (Hgen l []); auto.
Qed.

Lemma rbind_ok {A B} (m : res A) (k : A -> res B) b :
  rbind m k = Ok b -> exists a, m = Ok a /\ k a = Ok b.
Proof. destruct m; simpl; intros; try discriminate; eauto. Qed.

Lemma rmap_ok {A B} (f : A -> B) m b : rmap f m = Ok b -> exists a, m = Ok a /\ b = f a.
Proof. unfold rmap; destruct m; simpl; intros H; inversion H; eauto. Qed.

Lemma rmap_Ok {A B} (f : A -> B) a : rmap f (Ok a) = Ok (f a).
Proof. reflexivity. Qed.
