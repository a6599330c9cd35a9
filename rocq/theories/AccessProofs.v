(** The methods as sequences of accesses, run alone, do what Csr.v, Csc.v, DenseMat.v,
    DenseVec.v and SparseVec.v say. *)
From Verif Require Import GoBase Num SparseVec Csr Csc DenseVec DenseMat Mat World Mutex.
From Verif Require Import BaseProofs CsrProofs CscProofs DenseProofs SvProofs MatProofs Spec HeapProofs ReachProofs StoreProofs StoreThms MutexProofs.
From Verif Require Import Access.
Open Scope Z_scope.

Notation "x <~ m ;; k" := (pbind m (fun x => k)) (at level 61, m at next level, right associativity).
Notation "' p <~ m ;; k" := (pbind m (fun p => k)) (at level 61, p pattern, m at next level, right associativity).

Section AccessProofs.
Context {N : num}.
Notation V := (T N).
Notation mat := (mat N).
Notation mem := (mem (N := N)).
Notation prog := (prog (N := N)).
Implicit Types x y : mem.
Implicit Types m : mat.

(** ** running programs *)
Lemma prun_bind {A B} (p : prog A) (k : A -> prog B) x :
  prun (pbind p k) x = match prun p x with (y, Ok a) => prun (k a) y | (y, Panic) => (y, Panic) | (y, Diverge) => (y, Diverge) end.
Proof.
  revert x. induction p as [a| | |l f IH|l f IH|u q IH]; intros x; cbn [pbind prun]; try reflexivity.
  - destruct (rd_z x l); [apply IH|reflexivity|reflexivity].
  - destruct (rd_v x l); [apply IH|reflexivity|reflexivity].
  - destruct (wr x u); [apply IH|reflexivity|reflexivity].
Qed.
Lemma run_then {A B} (p : prog A) (k : A -> prog B) x y a z : prun p x = (y, Ok a) -> prun (k a) y = z -> prun (pbind p k) x = z.
Proof. intros E <-. rewrite prun_bind, E. reflexivity. Qed.
Lemma run_stop {A B} (p : prog A) (k : A -> prog B) x y : prun p x = (y, Panic) -> prun (pbind p k) x = (y, Panic).
Proof. intros E. rewrite prun_bind, E. reflexivity. Qed.

(** no write changes the memory *)
Fixpoint quiet {A} (p : prog A) (x : mem) : Prop :=
  match p with
  | PRet _ | PStop | PHang => True
  | PRdZ l k => match rd_z x l with Ok z => quiet (k z) x | _ => True end
  | PRdV l k => match rd_v x l with Ok v => quiet (k v) x | _ => True end
  | PWr u q => match wr x u with Ok y => y = x /\ quiet q x | _ => True end
  end.
Lemma quiet_bind {A B} (p : prog A) (k : A -> prog B) x : quiet p x -> (forall a, prun p x = (x, Ok a) -> quiet (k a) x) -> quiet (pbind p k) x.
Proof.
  induction p as [a| | |l f IH|l f IH|u q IH]; cbn [quiet pbind prun]; intros Q H; auto.
  - destruct (rd_z x l); auto.
  - destruct (rd_v x l); auto.
  - destruct (wr x u) as [y| |]; auto. destruct Q as [-> Q]. auto.
Qed.
Lemma quiet_same {A} (p : prog A) x : quiet p x -> fst (prun p x) = x.
Proof.
  induction p as [a| | |l f IH|l f IH|u q IH]; cbn [quiet prun]; intros Q; auto.
  - destruct (rd_z x l); auto.
  - destruct (rd_v x l); auto.
  - destruct (wr x u) as [y| |]; auto. destruct Q as [-> Q]. auto.
Qed.

(** a program that leaves the memory as it is throughout and computes [r] *)
Definition reads_as {A} (p : prog A) x (r : res A) : Prop := quiet p x /\ prun p x = (x, r).

Lemma ra_ret {A} (a : A) x : reads_as (PRet a) x (Ok a). Proof. split; reflexivity. Qed.
Lemma ra_stop {A} x : reads_as (A := A) PStop x Panic. Proof. split; reflexivity. Qed.
Lemma ra_lift {A} (r : res A) x : reads_as (plift r) x r. Proof. destruct r; split; reflexivity. Qed.
Lemma ra_bind {A B} (p : prog A) (k : A -> prog B) x r rk : reads_as p x r -> (forall a, r = Ok a -> reads_as (k a) x (rk a)) ->
  reads_as (pbind p k) x (rbind r rk).
Proof.
  intros [Q E] H. split.
  - apply quiet_bind; [exact Q|]. intros a E'. rewrite E in E'. inversion E'; subst. apply (H a eq_refl).
  - rewrite prun_bind, E. destruct r as [a| |]; [apply (H a eq_refl)|reflexivity|reflexivity].
Qed.
Lemma ra_eq {A} (p : prog A) x r r' : reads_as p x r -> r = r' -> reads_as p x r'.
Proof. intros H <-. exact H. Qed.
Lemma ra_fold {S I} (body : S -> I -> prog S) body' x l s : (forall s i, List.In i l -> reads_as (body s i) x (body' s i)) ->
  reads_as (pfold body s l) x (rfold body' s l).
Proof.
  revert s. induction l as [|i l IH]; intros s H; [apply ra_ret|]. cbn [pfold rfold]. apply ra_bind; [apply H; left; reflexivity|].
  intros a _. apply IH. intros s' j Hj. apply H. right. exact Hj.
Qed.
Lemma ra_if {A} (b : bool) (p q : prog A) x rp rq : (b = true -> reads_as p x rp) -> (b = false -> reads_as q x rq) -> reads_as (if b then p else q) x (if b then rp else rq).
Proof. destruct b; auto. Qed.
Lemma ra_pz x l z : rd_z x l = Ok z -> reads_as (pz l) x (Ok z).
Proof. intros E. unfold reads_as, pz. cbn [quiet prun]. rewrite E. auto. Qed.
Lemma ra_pz_bind {B} x l z (k : Z -> prog B) r : rd_z x l = Ok z -> reads_as (k z) x r -> reads_as (pbind (pz l) k) x r.
Proof. intros E H. unfold reads_as, pz in *. cbn [pbind quiet prun]. rewrite E. exact H. Qed.

Lemma out_get {A} (l : list A) i : (i <? 0) || (zlen l <=? i) = true -> zget l i = Panic.
Proof.
  intros H. apply orb_prop in H. destruct H as [H|H]; [apply zget_neg; lia|apply zget_big; lia].
Qed.
Lemma ra_val x i : reads_as (val i) x (zget (m_vals x) i).
Proof.
  unfold val, elem. apply (ra_pz_bind _ _ (zlen (m_vals x))); [reflexivity|].
  destruct ((i <? 0) || (zlen (m_vals x) <=? i)) eqn:E; [rewrite (out_get _ _ E); apply ra_stop|].
  unfold reads_as, pv. cbn [quiet prun rd_v]. destruct (zget (m_vals x) i) eqn:G; auto.
Qed.
Lemma ra_idx x i : reads_as (idx i) x (zget (m_idxs x) i).
Proof.
  unfold idx, elem. apply (ra_pz_bind _ _ (zlen (m_idxs x))); [reflexivity|].
  destruct ((i <? 0) || (zlen (m_idxs x) <=? i)) eqn:E; [rewrite (out_get _ _ E); apply ra_stop|].
  unfold reads_as, pz. cbn [quiet prun rd_z]. destruct (zget (m_idxs x) i) eqn:G; auto.
Qed.
Lemma ra_start x i : reads_as (start i) x (zget (m_starts x) i).
Proof.
  unfold start, elem. apply (ra_pz_bind _ _ (zlen (m_starts x))); [reflexivity|].
  destruct ((i <? 0) || (zlen (m_starts x) <=? i)) eqn:E; [rewrite (out_get _ _ E); apply ra_stop|].
  unfold reads_as, pz. cbn [quiet prun rd_z]. destruct (zget (m_starts x) i) eqn:G; auto.
Qed.
Lemma ra_cell x i j : reads_as (cell i j) x (row <- zget (m_data x) i ;; zget row j).
Proof.
  unfold cell, elem. apply (ra_pz_bind _ _ (zlen (m_data x))); [reflexivity|].
  destruct ((i <? 0) || (zlen (m_data x) <=? i)) eqn:E; [rewrite (out_get _ _ E); apply ra_stop|].
  destruct (zget_ok (m_data x) i ltac:(lia)) as (row & G). rewrite G. cbn [rbind].
  apply (ra_pz_bind _ _ (zlen row)); [cbn [rd_z]; rewrite G; reflexivity|].
  destruct ((j <? 0) || (zlen row <=? j)) eqn:E'; [rewrite (out_get _ _ E'); apply ra_stop|].
  unfold reads_as, pv. cbn [quiet prun rd_v]. rewrite G. cbn [rbind]. destruct (zget row j) eqn:G'; auto.
Qed.

(** a write to an element *)
Lemma run_set_val x i v : prun (set_elem ZVals (UVal i v) i) x =
  match zset (m_vals x) i v with Ok l => (wr_vals x l, Ok tt) | Panic => (x, Panic) | Diverge => (x, Diverge) end.
Proof.
  unfold set_elem, pz, pw. cbn [pbind prun rd_z]. unfold zset. destruct ((i <? 0) || (zlen (m_vals x) <=? i)) eqn:E; [reflexivity|].
  cbn [prun wr]. unfold zset. rewrite E. reflexivity.
Qed.
Lemma run_set_start x i z : prun (set_elem ZStarts (UStart i z) i) x =
  match zset (m_starts x) i z with Ok l => (wr_starts x l, Ok tt) | Panic => (x, Panic) | Diverge => (x, Diverge) end.
Proof.
  unfold set_elem, pz, pw. cbn [pbind prun rd_z]. unfold zset. destruct ((i <? 0) || (zlen (m_starts x) <=? i)) eqn:E; [reflexivity|].
  cbn [prun wr]. unfold zset. rewrite E. reflexivity.
Qed.

(** ** inserting into a slice and taking out *)
Section Slice.
Context {A : Type} (hdr : zloc) (get : Z -> prog A) (put : Z -> A -> upd (N := N)) (to_ : Z -> upd (N := N)) (push : A -> upd (N := N)) (fresh : list A -> upd (N := N)).
Context (fld : mem -> list A) (wrf : mem -> list A -> mem).
Hypothesis Hhdr : forall x, rd_z x hdr = Ok (zlen (fld x)).
Hypothesis Hget : forall x i, 0 <= i < zlen (fld x) -> prun (get i) x = (x, zget (fld x) i).
Hypothesis Hput : forall x i a, wr x (put i a) = (l <- zset (fld x) i a ;; Ok (wrf x l)).
Hypothesis Hto : forall x n, wr x (to_ n) = (l <- slice_to (fld x) n ;; Ok (wrf x l)).
Hypothesis Hpush : forall x a, wr x (push a) = Ok (wrf x (fld x ++ [a])).
Hypothesis Hfresh : forall x l, wr x (fresh l) = Ok (wrf x l).
Hypothesis Hfld : forall x l, fld (wrf x l) = l.
Hypothesis Hwrf : forall x l l', wrf (wrf x l) l' = wrf x l'.
Hypothesis Hself : forall x, wrf x (fld x) = x.

Lemma run_reads x l1 l2 l3 : fld x = l1 ++ l2 ++ l3 -> prun (reads get (zrange (zlen l1) (zlen l1 + zlen l2))) x = (x, Ok l2).
Proof.
  intros E. unfold reads.
  assert (G : forall l2 l1 acc, fld x = l1 ++ l2 ++ l3 ->
    prun (pfold (fun l i => a <~ get i ;; PRet (l ++ [a])) acc (zrange (zlen l1) (zlen l1 + zlen l2))) x = (x, Ok (acc ++ l2))).
  { clear E l1 l2. induction l2 as [|a l2 IH]; intros l1 acc E.
    - rewrite zlen_nil, Z.add_0_r, zrange_nil by lia. cbn [pfold]. rewrite app_nil_r. reflexivity.
    - rewrite zlen_cons. pose proof (zlen_nonneg l2). rewrite zrange_cons by lia. cbn [pfold].
      rewrite prun_bind, prun_bind.
      rewrite (Hget x (zlen l1)) by (rewrite E, !zlen_app, zlen_cons; pose proof (zlen_nonneg l1); pose proof (zlen_nonneg l3); lia).
      rewrite E. cbn [app]. rewrite (zget_mid l1 (l2 ++ l3) a _ eq_refl). cbn [prun].
      specialize (IH (l1 ++ [a]) (acc ++ [a])). rewrite zlen_app, zlen_cons, zlen_nil in IH.
      replace (zlen l1 + (0 + 1)) with (zlen l1 + 1) in IH by lia. replace (zlen l1 + 1 + zlen l2) with (zlen l1 + (zlen l2 + 1)) in IH by lia.
      rewrite <- !app_assoc in IH. cbn [app] in IH. apply IH. exact E. }
  apply (G l2 l1 [] E).
Qed.
Lemma run_writes l2' : forall x l1 l2 l3, fld x = l1 ++ l2 ++ l3 -> zlen l2' = zlen l2 ->
  prun (writes put (zlen l1) l2') x = (wrf x (l1 ++ l2' ++ l3), Ok tt).
Proof.
  unfold writes. induction l2' as [|a l2' IH]; intros x l1 l2 l3 E Hl.
  - rewrite zlen_nil in Hl. destruct l2; [|rewrite zlen_cons in Hl; pose proof (zlen_nonneg l2); lia].
    rewrite zlen_nil, Z.add_0_r, zrange_nil by lia. cbn [combine pfold prun]. cbn [app] in *. rewrite <- E, Hself. reflexivity.
  - destruct l2 as [|b l2]; [rewrite zlen_cons, zlen_nil in Hl; pose proof (zlen_nonneg l2'); lia|]. rewrite !zlen_cons in Hl.
    rewrite zlen_cons. pose proof (zlen_nonneg l2'). rewrite zrange_cons by lia. cbn [combine pfold fst snd]. rewrite prun_bind.
    unfold pw. cbn [prun]. rewrite Hput, E. cbn [app]. rewrite (zset_mid l1 (l2 ++ l3) b a _ eq_refl). cbn [rbind prun].
    specialize (IH (wrf x (l1 ++ a :: l2 ++ l3)) (l1 ++ [a]) l2 l3). rewrite Hfld, <- app_assoc in IH. specialize (IH eq_refl ltac:(lia)).
    rewrite zlen_app, zlen_cons, zlen_nil in IH. replace (zlen l1 + (0 + 1)) with (zlen l1 + 1) in IH by lia.
    replace (zlen l1 + 1 + zlen l2') with (zlen l1 + (zlen l2' + 1)) in IH by lia. etransitivity; [exact IH|]. rewrite Hwrf, <- app_assoc. reflexivity.
Qed.
Lemma removelast_last a (tail : list A) : removelast (a :: tail) ++ [last tail a] = a :: tail.
Proof.
  assert (G : last (a :: tail) a = last tail a) by (destruct tail; reflexivity). rewrite <- G.
  symmetry. apply app_removelast_last. discriminate.
Qed.
Lemma run_put_in room x l1 l2 a : fld x = l1 ++ l2 ->
  prun (put_in hdr get put push fresh room (zlen l1) a) x = (wrf x (l1 ++ a :: l2), Ok tt).
Proof.
  intros E. unfold put_in. pose proof (zlen_nonneg l1). pose proof (zlen_nonneg l2).
  unfold pz. cbn [pbind prun]. rewrite Hhdr, E, zlen_app. replace ((zlen l1 <? 0) || (zlen l1 + zlen l2 <? zlen l1)) with false by lia.
  rewrite prun_bind. pose proof (run_reads x l1 l2 []) as R.  rewrite app_nil_r in R. rewrite (R E).
  destruct room.
  - rewrite prun_bind. pose proof (removelast_last a l2) as L.
    assert (Hl : zlen (removelast (a :: l2)) = zlen l2) by (apply (f_equal zlen) in L; rewrite zlen_app, !zlen_cons, zlen_nil in L; lia).
    pose proof (run_writes (removelast (a :: l2)) x l1 l2 []) as W. rewrite !app_nil_r in W. rewrite (W E Hl). unfold pw. cbn [prun].
    rewrite Hpush, Hfld. cbn [prun]. rewrite <- app_assoc, L, Hwrf. reflexivity.
  - rewrite prun_bind. pose proof (run_reads x [] l1 l2) as R0.  cbn [app] in R0. rewrite zlen_nil, Z.add_0_l in R0. rewrite (R0 E).
    unfold pw. cbn [prun]. rewrite Hfresh. reflexivity.
Qed.
Lemma run_take_out x l1 b l2 : fld x = l1 ++ b :: l2 ->
  prun (take_out hdr get put to_ (zlen l1)) x = (wrf x (l1 ++ l2), Ok tt).
Proof.
  intros E. unfold take_out. pose proof (zlen_nonneg l1). pose proof (zlen_nonneg l2).
  unfold pz. cbn [pbind prun]. rewrite Hhdr, E, zlen_app, zlen_cons. replace ((zlen l1 <? 0) || (zlen l1 + (zlen l2 + 1) <? zlen l1 + 1)) with false by lia.
  rewrite prun_bind. pose proof (run_reads x (l1 ++ [b]) l2 []) as R.  rewrite app_nil_r, <- app_assoc, zlen_app, zlen_cons, zlen_nil in R.
  replace (zlen l1 + (0 + 1)) with (zlen l1 + 1) in R by lia. replace (zlen l1 + 1 + zlen l2) with (zlen l1 + (zlen l2 + 1)) in R by lia. rewrite (R E).
  destruct (exists_last (l := b :: l2) ltac:(discriminate)) as (l2' & c & E2).
  assert (Hl : zlen l2 = zlen l2') by (apply (f_equal zlen) in E2; rewrite zlen_cons, zlen_app, zlen_cons, zlen_nil in E2; lia).
  rewrite prun_bind. pose proof (run_writes l2 x l1 l2' [c]) as W. rewrite E, E2 in W. rewrite (W eq_refl Hl).
  unfold pw. cbn [prun]. rewrite Hto, Hfld, app_assoc, slice_to_app by (rewrite zlen_app; lia). cbn [rbind]. rewrite Hwrf. reflexivity.
Qed.
End Slice.

Lemma run_put_idx room x l1 l2 a p : p = zlen l1 -> m_idxs x = l1 ++ l2 -> prun (put_idx room p a) x = (wr_idxs x (l1 ++ a :: l2), Ok tt).
Proof.
  intros -> E. unfold put_idx. apply (run_put_in ZIdxs (fun i => pz (ZIdx i)) UIdx UIdxsPush UIdxs m_idxs wr_idxs); try reflexivity; auto.
  - intros y i Hi. unfold pz. cbn [prun rd_z]. destruct (zget_ok (m_idxs y) i Hi) as (z & ->). reflexivity.
  - intros y. destruct y; reflexivity.
Qed.
Lemma run_put_val room x l1 l2 a p : p = zlen l1 -> m_vals x = l1 ++ l2 -> prun (put_val room p a) x = (wr_vals x (l1 ++ a :: l2), Ok tt).
Proof.
  intros -> E. unfold put_val. apply (run_put_in ZVals (fun i => pv (VAtVal i)) UVal UValsPush UVals m_vals wr_vals); try reflexivity; auto.
  - intros y i Hi. unfold pv. cbn [prun rd_v]. destruct (zget_ok (m_vals y) i Hi) as (z & ->). reflexivity.
  - intros y. destruct y; reflexivity.
Qed.
Lemma run_out_idx x l1 b l2 p : p = zlen l1 -> m_idxs x = l1 ++ b :: l2 -> prun (out_idx p) x = (wr_idxs x (l1 ++ l2), Ok tt).
Proof.
  intros -> E. unfold out_idx. apply (run_take_out ZIdxs (fun i => pz (ZIdx i)) UIdx UIdxsTo m_idxs wr_idxs) with (b := b); try reflexivity; auto.
  - intros y i Hi. unfold pz. cbn [prun rd_z]. destruct (zget_ok (m_idxs y) i Hi) as (z & ->). reflexivity.
  - intros y. destruct y; reflexivity.
Qed.
Lemma run_out_val x l1 b l2 p : p = zlen l1 -> m_vals x = l1 ++ b :: l2 -> prun (out_val p) x = (wr_vals x (l1 ++ l2), Ok tt).
Proof.
  intros -> E. unfold out_val. apply (run_take_out ZVals (fun i => pv (VAtVal i)) UVal UValsTo m_vals wr_vals) with (b := b); try reflexivity; auto.
  - intros y i Hi. unfold pv. cbn [prun rd_v]. destruct (zget_ok (m_vals y) i Hi) as (z & ->). reflexivity.
  - intros y. destruct y; reflexivity.
Qed.

(** ** compressed matrices *)
(** the checks and the searches *)
Lemma ra_search x b fuel : forall s e, reads_as (a_search fuel b s e) x (csr_search fuel (m_idxs x) b s e).
Proof.
  induction fuel as [|fuel IH]; intros s e; cbn [a_search csr_search]; [split; reflexivity|].
  apply ra_if; intros _; [|apply ra_ret]. apply ra_bind; [apply ra_idx|]. intros y _. apply ra_if; intros _; [apply IH|]. apply ra_if; intros _; [apply IH|apply ra_ret].
Qed.
Definition index_of x (a b : Z) : res (Z * Z) :=
  s <- zget (m_starts x) a ;;
  e <- zget (m_starts x) (a + 1) ;;
  if s - e =? 0 then Ok (s, e)
  else y <- zget (m_idxs x) (e - 1) ;; if b >? y then Ok (e, e) else csr_search (S (Z.to_nat (e - s))) (m_idxs x) b s e.
Lemma ra_index x a b : reads_as (a_index a b) x (index_of x a b).
Proof.
  unfold a_index, index_of. apply ra_bind; [apply ra_start|]. intros s _. apply ra_bind; [apply ra_start|]. intros e _.
  apply ra_if; intros _; [apply ra_ret|]. apply ra_bind; [apply ra_idx|]. intros y _. apply ra_if; intros _; [apply ra_ret|apply ra_search].
Qed.
Definition hit_of x (ps pe b : Z) : res bool := if ps <? pe then y <- zget (m_idxs x) ps ;; Ok (y =? b) else Ok false.
Lemma ra_hit x ps pe b : reads_as (a_hit ps pe b) x (hit_of x ps pe b).
Proof. unfold a_hit, hit_of. apply ra_if; intros _; [|apply ra_ret]. apply ra_bind; [apply ra_idx|]. intros y _. apply ra_ret. Qed.
Lemma ra_range {A} x count n i (p : prog A) r : rd_z x count = Ok n -> reads_as p x r ->
  reads_as (in_range count i p) x (if (i <? 0) || (i >=? n) then Panic else r).
Proof. intros E H. unfold in_range. apply (ra_pz_bind _ _ n _ _ E). apply ra_if; intros _; [apply ra_stop|exact H]. Qed.

(** shifting the starts *)
Lemma run_shift d a count x n L : rd_z x count = Ok n -> csr_shift d (m_starts x) a n = Ok L -> prun (a_shift d a count) x = (wr_starts x L, Ok tt).
Proof.
  intros E. unfold a_shift, csr_shift, pz. cbn [pbind prun]. rewrite E.
  assert (G : forall l x L, rfold (fun rs i => x <- zget rs i ;; zset rs i (x + d)) (m_starts x) l = Ok L ->
    prun (pfold (fun _ i => x <~ start i ;; set_elem ZStarts (UStart i (x + d)) i) tt l) x = (wr_starts x L, Ok tt)).
  { clear. induction l as [|i l IH]; intros x L H; cbn [rfold pfold] in *.
    - inversion H; subst. destruct x; reflexivity.
    - rewrite prun_bind, prun_bind. rewrite (proj2 (ra_start x i)). destruct (zget (m_starts x) i) as [z| |]; cbn [rbind] in H; try discriminate.
      rewrite run_set_start. destruct (zset (m_starts x) i (z + d)) as [L1| |]; cbn [rbind] in H; try discriminate.
      rewrite (IH (wr_starts x L1) L H). destruct x; reflexivity. }
  apply G.
Qed.
Lemma cut {A} (l l1 l2 : list A) p : slice_to l p = Ok l1 -> slice_from l p = Ok l2 -> l = l1 ++ l2 /\ p = zlen l1.
Proof.
  unfold slice_to, slice_from. destruct ((p <? 0) || (zlen l <? p)) eqn:E; try discriminate. intros H1 H2. inversion H1; inversion H2; subst.
  split; [symmetry; apply firstn_skipn|]. unfold zlen in *. rewrite firstn_length. lia.
Qed.
Lemma skipn_one {A} n (l : list A) : skipn (S n) l = skipn 1 (skipn n l).
Proof. revert l. induction n as [|n IH]; intros [|a l]; try reflexivity. exact (IH l). Qed.
Lemma cut1 {A} (l l1 l2 : list A) p : slice_to l p = Ok l1 -> slice_from l (p + 1) = Ok l2 -> exists b, l = l1 ++ b :: l2 /\ p = zlen l1.
Proof.
  unfold slice_to, slice_from. destruct ((p <? 0) || (zlen l <? p)) eqn:E; try discriminate. destruct ((p + 1 <? 0) || (zlen l <? p + 1)) eqn:E'; try discriminate.
  intros H1 H2. inversion H1; inversion H2; subst. unfold zlen in *.
  destruct (skipn (Z.to_nat p) l) as [|b l2] eqn:Sk.
  - apply (f_equal (@length A)) in Sk. rewrite skipn_length in Sk. cbn in Sk. lia.
  - exists b. replace (Z.to_nat (p + 1)) with (S (Z.to_nat p)) by lia. split; [|rewrite firstn_length; lia].
    rewrite <- (firstn_skipn (Z.to_nat p) l) at 1. rewrite Sk. f_equal. f_equal.
    rewrite skipn_one, Sk. reflexivity.
Qed.


(** a number that writes do not touch *)
Definition fixed x (count : zloc) (n : Z) : Prop := (count = ZR /\ n = m_r x) \/ (count = ZC /\ n = m_c x).
Lemma fixed_rd x y count n : fixed x count n -> m_r y = m_r x -> m_c y = m_c x -> rd_z y count = Ok n.
Proof. intros [[-> ->]|[-> ->]] Er Ec; cbn; congruence. Qed.

Lemma run_insert room count x n p a b v i1 i2 v1 v2 L : fixed x count n -> isz v = false ->
  slice_to (m_idxs x) p = Ok i1 -> slice_from (m_idxs x) p = Ok i2 -> slice_to (m_vals x) p = Ok v1 -> slice_from (m_vals x) p = Ok v2 ->
  csr_shift 1 (m_starts x) a n = Ok L ->
  prun (a_insert room count p a b v) x = (MkMem (m_kind x) (m_r x) (m_c x) (v1 ++ [v] ++ v2) (i1 ++ [b] ++ i2) L (m_data x), Ok tt).
Proof.
  intros F Hv A1 A2 A3 A4 A5. unfold a_insert. rewrite Hv. destruct (cut _ _ _ _ A1 A2) as [E1 P1]. destruct (cut _ _ _ _ A3 A4) as [E2 P2].
  rewrite prun_bind, (run_put_idx (fst room) x i1 i2 b p P1 E1), prun_bind.
  rewrite (run_put_val (snd room) (wr_idxs x (i1 ++ b :: i2)) v1 v2 v p P2 E2).
  rewrite (run_shift 1 a count _ n L); [reflexivity|apply (fixed_rd x); auto|exact A5].
Qed.
Lemma run_remove count x n p a i1 i2 v1 v2 L : fixed x count n ->
  slice_to (m_idxs x) p = Ok i1 -> slice_from (m_idxs x) (p + 1) = Ok i2 -> slice_to (m_vals x) p = Ok v1 -> slice_from (m_vals x) (p + 1) = Ok v2 ->
  csr_shift (-1) (m_starts x) a n = Ok L ->
  prun (a_remove count p a) x = (MkMem (m_kind x) (m_r x) (m_c x) (v1 ++ v2) (i1 ++ i2) L (m_data x), Ok tt).
Proof.
  intros F A1 A2 A3 A4 A5. unfold a_remove. destruct (cut1 _ _ _ _ A1 A2) as (b1 & E1 & P1). destruct (cut1 _ _ _ _ A3 A4) as (b2 & E2 & P2).
  rewrite prun_bind, (run_out_idx x i1 b1 i2 p P1 E1), prun_bind.
  rewrite (run_out_val (wr_idxs x (i1 ++ i2)) v1 b2 v2 p P2 E2).
  rewrite (run_shift (-1) a count _ n L); [reflexivity|apply (fixed_rd x); auto|exact A5].
Qed.

(** [f] is [h] with the captured result seen through [phi] *)
Definition seen {X W} (h : V -> X * V) (phi : X -> option W) (f : V -> option (W * V)) : Prop :=
  forall v, f v = match phi (fst (h v)) with Some w => Some (w, snd (h v)) | None => None end.
Lemma run_csr {X W} room (s s' : csr N) r c (h : V -> X * V) (phi : X -> option W) f o : seen h phi f -> csr_Update s r c h = Ok (o, s') ->
  prun (a_update room ZR r c r c f) (flat (MCSR s)) = match phi o with Some w => (flat (MCSR s'), Ok w) | None => (flat (MCSR s), Panic) end.
Proof.
  intros Hs. unfold csr_Update, csr_UpdateReturnPointer, a_update. unfold pz at 1 2. cbn [pbind prun rd_z flat m_r].
  destruct ((r <? 0) || (r >=? csr_r s)); [discriminate|]. cbn [pbind prun rd_z m_c]. destruct ((c <? 0) || (c >=? csr_c s)); [discriminate|].
  rewrite prun_bind. fold (flat (MCSR s)). rewrite (proj2 (ra_index (flat (MCSR s)) r c)). change (index_of (flat (MCSR s)) r c) with (csr_columnIndex s r c).
  destruct (csr_columnIndex s r c) as [[ps pe]| |]; cbn [rbind]; try discriminate.
  rewrite prun_bind, (proj2 (ra_hit (flat (MCSR s)) ps pe c)). change (hit_of (flat (MCSR s)) ps pe c) with (csr_hit s ps pe c).
  destruct (csr_hit s ps pe c) as [[|]| |]; cbn [rbind]; try discriminate.
  - rewrite prun_bind, (proj2 (ra_val (flat (MCSR s)) ps)). change (m_vals (flat (MCSR s))) with (csr_values s).
    destruct (zget (csr_values s) ps) as [v| |]; cbn [rbind]; try discriminate.
    rewrite Hs. destruct (h v) as [w0 v']. cbn [fst snd]. destruct (isz v') eqn:Z0.
    + unfold csr_remove. destruct (slice_to (csr_cols s) ps) as [c1| |] eqn:E1; cbn [rbind]; try discriminate.
      destruct (slice_from (csr_cols s) (ps + 1)) as [c2| |] eqn:E2; cbn [rbind]; try discriminate.
      destruct (slice_to (csr_values s) ps) as [v1| |] eqn:E3; cbn [rbind]; try discriminate.
      destruct (slice_from (csr_values s) (ps + 1)) as [v2| |] eqn:E4; cbn [rbind]; try discriminate.
      destruct (csr_shift (-1) (csr_rowStart s) r (csr_r s)) as [L| |] eqn:E5; cbn [rbind]; try discriminate.
      intros H; inversion H; subst. destruct (phi o) as [w|]; [|reflexivity]. rewrite Z0.
      rewrite prun_bind, (run_remove ZR (flat (MCSR s)) (csr_r s) ps r c1 c2 v1 v2 L) by (try (left; split; reflexivity); assumption). reflexivity.
    + destruct (zset (csr_values s) ps v') as [vs| |] eqn:E1; cbn [rbind]; try discriminate. intros H; inversion H; subst.
      destruct (phi o) as [w|]; [|reflexivity]. rewrite Z0, prun_bind, run_set_val. change (m_vals (flat (MCSR s))) with (csr_values s). rewrite E1. reflexivity.
  - rewrite Hs. destruct (h n0) as [w0 v']. cbn [fst snd]. unfold csr_insert. destruct (isz v') eqn:Z0; cbn [rbind].
    + intros H; inversion H; subst. destruct (phi o); [|reflexivity]. unfold a_insert. rewrite Z0. reflexivity.
    + destruct (slice_to (csr_cols s) ps) as [c1| |] eqn:E1; cbn [rbind]; try discriminate.
      destruct (slice_from (csr_cols s) ps) as [c2| |] eqn:E2; cbn [rbind]; try discriminate.
      destruct (slice_to (csr_values s) ps) as [v1| |] eqn:E3; cbn [rbind]; try discriminate.
      destruct (slice_from (csr_values s) ps) as [v2| |] eqn:E4; cbn [rbind]; try discriminate.
      destruct (csr_shift 1 (csr_rowStart s) r (csr_r s)) as [L| |] eqn:E5; cbn [rbind]; try discriminate.
      intros H; inversion H; subst. destruct (phi o) as [w|]; [|reflexivity].
      rewrite prun_bind, (run_insert room ZR (flat (MCSR s)) (csr_r s) ps r c v' c1 c2 v1 v2 L) by (try (left; split; reflexivity); assumption). reflexivity.
Qed.
Lemma run_csc {X W} room (s s' : csc N) r c (h : V -> X * V) (phi : X -> option W) f o : seen h phi f -> csc_Update s r c h = Ok (o, s') ->
  prun (a_update room ZC r c c r f) (flat (MCSC s)) = match phi o with Some w => (flat (MCSC s'), Ok w) | None => (flat (MCSC s), Panic) end.
Proof.
  intros Hs. unfold csc_Update, csc_UpdateReturnPointer, a_update. unfold pz at 1 2. cbn [pbind prun rd_z flat m_r].
  destruct ((r <? 0) || (r >=? csc_r s)); [discriminate|]. cbn [pbind prun rd_z m_c]. destruct ((c <? 0) || (c >=? csc_c s)); [discriminate|].
  rewrite prun_bind. fold (flat (MCSC s)). rewrite (proj2 (ra_index (flat (MCSC s)) c r)). change (index_of (flat (MCSC s)) c r) with (csc_rowIndex s r c).
  destruct (csc_rowIndex s r c) as [[ps pe]| |]; cbn [rbind]; try discriminate.
  rewrite prun_bind, (proj2 (ra_hit (flat (MCSC s)) ps pe r)). change (hit_of (flat (MCSC s)) ps pe r) with (csc_hit s ps pe r).
  destruct (csc_hit s ps pe r) as [[|]| |]; cbn [rbind]; try discriminate.
  - rewrite prun_bind, (proj2 (ra_val (flat (MCSC s)) ps)). change (m_vals (flat (MCSC s))) with (csc_values s).
    destruct (zget (csc_values s) ps) as [v| |]; cbn [rbind]; try discriminate.
    rewrite Hs. destruct (h v) as [w0 v']. cbn [fst snd]. destruct (isz v') eqn:Z0.
    + unfold csc_remove. destruct (slice_to (csc_rows s) ps) as [c1| |] eqn:E1; cbn [rbind]; try discriminate.
      destruct (slice_from (csc_rows s) (ps + 1)) as [c2| |] eqn:E2; cbn [rbind]; try discriminate.
      destruct (slice_to (csc_values s) ps) as [v1| |] eqn:E3; cbn [rbind]; try discriminate.
      destruct (slice_from (csc_values s) (ps + 1)) as [v2| |] eqn:E4; cbn [rbind]; try discriminate.
      destruct (csc_shift (-1) (csc_colStart s) c (csc_c s)) as [L| |] eqn:E5; cbn [rbind]; try discriminate.
      intros H; inversion H; subst. destruct (phi o) as [w|]; [|reflexivity]. rewrite Z0.
      rewrite prun_bind, (run_remove ZC (flat (MCSC s)) (csc_c s) ps c c1 c2 v1 v2 L) by (try (right; split; reflexivity); assumption). reflexivity.
    + destruct (zset (csc_values s) ps v') as [vs| |] eqn:E1; cbn [rbind]; try discriminate. intros H; inversion H; subst.
      destruct (phi o) as [w|]; [|reflexivity]. rewrite Z0, prun_bind, run_set_val. change (m_vals (flat (MCSC s))) with (csc_values s). rewrite E1. reflexivity.
  - rewrite Hs. destruct (h n0) as [w0 v']. cbn [fst snd]. unfold csc_insert. destruct (isz v') eqn:Z0; cbn [rbind].
    + intros H; inversion H; subst. destruct (phi o); [|reflexivity]. unfold a_insert. rewrite Z0. reflexivity.
    + destruct (slice_to (csc_rows s) ps) as [c1| |] eqn:E1; cbn [rbind]; try discriminate.
      destruct (slice_from (csc_rows s) ps) as [c2| |] eqn:E2; cbn [rbind]; try discriminate.
      destruct (slice_to (csc_values s) ps) as [v1| |] eqn:E3; cbn [rbind]; try discriminate.
      destruct (slice_from (csc_values s) ps) as [v2| |] eqn:E4; cbn [rbind]; try discriminate.
      destruct (csc_shift 1 (csc_colStart s) c (csc_c s)) as [L| |] eqn:E5; cbn [rbind]; try discriminate.
      intros H; inversion H; subst. destruct (phi o) as [w|]; [|reflexivity].
      rewrite prun_bind, (run_insert room ZC (flat (MCSC s)) (csc_c s) ps c r v' c1 c2 v1 v2 L) by (try (right; split; reflexivity); assumption). reflexivity.
Qed.
(** outside the matrix *)
Lemma run_outside {W} room count x r c a b (f : V -> option (W * V)) : ~ (0 <= r < m_r x /\ 0 <= c < m_c x) ->
  reads_as (a_update room count r c a b f) x Panic.
Proof.
  intros H. unfold a_update. apply ra_pz_bind with (z := m_r x); [reflexivity|]. destruct ((r <? 0) || (r >=? m_r x)) eqn:E1; [apply ra_stop|].
  apply ra_pz_bind with (z := m_c x); [reflexivity|]. destruct ((c <? 0) || (c >=? m_c x)) eqn:E2; [apply ra_stop|]. exfalso. apply H. lia.
Qed.
(** storing back what was found *)
Lemma quiet_update {W} room count x r c a b (f : V -> option (W * V)) : isz (n0 (n := N)) = true -> (forall v, List.In v (m_vals x) -> isz v = false) ->
  (forall v, exists w, f v = Some (w, v)) -> quiet (a_update room count r c a b f) x.
Proof.
  intros Hz Hv Hf. unfold a_update. apply quiet_bind; [cbn; auto|]. intros nr _. destruct ((r <? 0) || (r >=? nr)); [exact Logic.I|].
  apply quiet_bind; [cbn; auto|]. intros nc _. destruct ((c <? 0) || (c >=? nc)); [exact Logic.I|].
  apply quiet_bind; [apply ra_index|]. intros [ps pe] _. apply quiet_bind; [apply ra_hit|]. intros [|] _.
  - apply quiet_bind; [apply ra_val|]. intros v E. rewrite (proj2 (ra_val x ps)) in E. inversion E as [E'].
    destruct (Hf v) as [w ->]. rewrite (Hv v (zget_In _ _ _ E')). apply quiet_bind; [|intros; exact Logic.I].
    unfold set_elem. apply quiet_bind; [cbn; auto|]. intros n _. destruct ((ps <? 0) || (n <=? ps)); [exact Logic.I|]. unfold pw. cbn [quiet wr].
    rewrite (zset_same _ _ _ E'). cbn [rbind]. destruct x; auto.
  - destruct (Hf n0) as [w ->]. unfold a_insert. rewrite Hz. exact Logic.I.
Qed.


(** one row of a CSR or column of a CSC matrix, and one search in each *)
Lemma ra_along {S} x a (add : S -> Z -> V -> res S) init : reads_as (a_along a add init) x
  (t <- init ;; s <- zget (m_starts x) a ;; e <- zget (m_starts x) (a + 1) ;;
   rfold (fun t i => k <- zget (m_idxs x) i ;; v <- zget (m_vals x) i ;; add t k v) t (zrange s e)).
Proof.
  unfold a_along. apply ra_bind; [apply ra_lift|]. intros t _. apply ra_bind; [apply ra_start|]. intros s _. apply ra_bind; [apply ra_start|]. intros e _.
  apply ra_fold. intros t' i _. apply ra_bind; [apply ra_idx|]. intros k _. apply ra_bind; [apply ra_val|]. intros v _. apply ra_lift.
Qed.
Lemma ra_across {S} x count n b (add : S -> Z -> V -> res S) init : rd_z x count = Ok n -> reads_as (a_across count b add init) x
  (t <- init ;; l <- slice_to (m_starts x) n ;;
   rfold (fun t a => '(ps, pe) <- index_of x a b ;; hit <- hit_of x ps pe b ;; if hit then v <- zget (m_vals x) ps ;; add t a v else Ok t) t (zrange 0 (zlen l))).
Proof.
  intros E. unfold a_across. apply ra_bind; [apply ra_lift|]. intros t _. apply (ra_pz_bind x count n _ _ E). apply ra_pz_bind with (z := zlen (m_starts x)); [reflexivity|].
  unfold slice_to. destruct ((n <? 0) || (zlen (m_starts x) <? n)) eqn:B; [apply ra_stop|]. cbn [rbind].
  replace (zlen (firstn (Z.to_nat n) (m_starts x))) with n by (unfold zlen in *; rewrite firstn_length; lia).
  apply ra_fold. intros t' a _. apply ra_bind; [apply ra_index|]. intros [ps pe] _. apply ra_bind; [apply ra_hit|]. intros [|] _; [|apply ra_ret].
  apply ra_bind; [apply ra_val|]. intros v _. apply ra_lift.
Qed.
Lemma ra_copy {S} x (init : Z -> Z -> Z -> res S) put2 put3 : reads_as (a_copy init put2 put3) x
  (t <- init (m_r x) (m_c x) (zlen (m_vals x)) ;;
   t <- rfold (fun t i => v <- zget (m_vals x) i ;; k <- zget (m_idxs x) i ;; put2 t i v k) t (zrange 0 (zlen (m_vals x))) ;;
   rfold (fun t i => z <- zget (m_starts x) i ;; put3 t i z) t (zrange 0 (zlen (m_starts x)))).
Proof.
  unfold a_copy. apply ra_pz_bind with (z := m_r x); [reflexivity|]. apply ra_pz_bind with (z := m_c x); [reflexivity|]. apply ra_pz_bind with (z := zlen (m_vals x)); [reflexivity|].
  apply ra_bind; [apply ra_lift|]. intros t _. apply ra_bind.
  - apply ra_fold. intros t' i _. apply ra_bind; [apply ra_val|]. intros v _. apply ra_bind; [apply ra_idx|]. intros k _. apply ra_lift.
  - intros t' _. apply ra_pz_bind with (z := zlen (m_starts x)); [reflexivity|]. apply ra_fold. intros t'' i _. apply ra_bind; [apply ra_start|]. intros z _. apply ra_lift.
Qed.
Lemma rfold_ext {S I} (f g : S -> I -> res S) l s : (forall s i, f s i = g s i) -> rfold f s l = rfold g s l.
Proof. intros H. revert s. induction l as [|i l IH]; intros s; cbn [rfold]; [reflexivity|]. rewrite H. destruct (g s i); cbn; auto. Qed.
(** no element access hangs *)
Lemma zget_res {A} (l : list A) i : zget l i <> Diverge.
Proof. unfold zget. destruct (i <? 0); [discriminate|]. destruct (nth_error l (Z.to_nat i)); discriminate. Qed.
Lemma zset_res {A} (l : list A) i a : zset l i a <> Diverge.
Proof. unfold zset. destruct ((i <? 0) || (zlen l <=? i)); discriminate. Qed.
Lemma swap_panic {A B C} (p : res A) (q : res B) (k : A -> B -> res C) : p <> Diverge -> q <> Diverge ->
  (a <- p ;; b <- q ;; k a b) = (b <- q ;; a <- p ;; k a b).
Proof. destruct p, q; cbn; congruence. Qed.

(** ** sparse vectors *)
Lemma ra_s_search x i fuel : forall s e, reads_as (s_search fuel i s e) x (sv_search fuel (m_idxs x) i s e).
Proof.
  induction fuel as [|fuel IH]; intros s e; cbn [s_search sv_search]; [split; reflexivity|].
  apply ra_if; intros _; [|apply ra_ret]. apply ra_bind; [apply ra_idx|]. intros y _. apply ra_if; intros _; [apply IH|]. apply ra_if; intros _; [apply IH|apply ra_ret].
Qed.
Lemma ra_s_index (s : svec N) i : reads_as (s_index i) (flat (MSV s)) (sv_index s i).
Proof.
  unfold s_index, sv_index. apply ra_pz_bind with (z := zlen (sv_indices s)); [reflexivity|]. apply ra_if; intros _; [apply ra_ret|].
  apply ra_bind; [apply ra_s_search|]. intros p _. apply ra_ret.
Qed.
Lemma ra_s_AtVec (s : svec N) i : reads_as (s_AtVec i) (flat (MSV s)) (sv_AtVec s i).
Proof.
  unfold s_AtVec, sv_AtVec. apply (ra_range _ ZR (sv_l s)); [reflexivity|]. apply ra_bind; [apply ra_s_index|]. intros [p n] _.
  apply ra_bind; [apply ra_hit|]. intros [|] _; [apply ra_val|apply ra_ret].
Qed.
Lemma run_s_SetVec room (s s' : svec N) i v : sv_SetVec s i v = Ok s' -> prun (s_SetVec room i v) (flat (MSV s)) = (flat (MSV s'), Ok tt).
Proof.
  unfold sv_SetVec, s_SetVec, in_range, sv_Length. unfold pz at 1. cbn [pbind prun rd_z flat m_r]. fold (flat (MSV s)).
  destruct ((i <? 0) || (i >=? sv_l s)); [discriminate|]. rewrite prun_bind, (proj2 (ra_s_index s i)).
  destruct (sv_index s i) as [[p n]| |]; cbn [rbind]; try discriminate. rewrite prun_bind, (proj2 (ra_hit (flat (MSV s)) p n i)).
  change (hit_of (flat (MSV s)) p n i) with (sv_hit s p n i). destruct (sv_hit s p n i) as [[|]| |]; cbn [rbind]; try discriminate.
  - destruct (isz v).
    + unfold sv_remove. destruct (slice_to (sv_indices s) p) as [i1| |] eqn:E1; cbn [rbind]; try discriminate.
      destruct (slice_from (sv_indices s) (p + 1)) as [i2| |] eqn:E2; cbn [rbind]; try discriminate.
      destruct (slice_to (sv_values s) p) as [v1| |] eqn:E3; cbn [rbind]; try discriminate.
      destruct (slice_from (sv_values s) (p + 1)) as [v2| |] eqn:E4; cbn [rbind]; try discriminate. intros H; inversion H; subst.
      destruct (cut1 _ _ _ _ E1 E2) as (b1 & F1 & P1). destruct (cut1 _ _ _ _ E3 E4) as (b2 & F2 & P2).
      rewrite prun_bind, (run_out_idx (flat (MSV s)) i1 b1 i2 p P1 F1), (run_out_val (wr_idxs (flat (MSV s)) (i1 ++ i2)) v1 b2 v2 p P2 F2). reflexivity.
    + destruct (zset (sv_values s) p v) as [vs| |] eqn:E1; cbn [rbind]; try discriminate. intros H; inversion H; subst.
      rewrite run_set_val. change (m_vals (flat (MSV s))) with (sv_values s). rewrite E1. reflexivity.
  - unfold sv_insert. destruct (isz v); [intros H; inversion H; subst; reflexivity|].
    destruct (slice_to (sv_indices s) p) as [i1| |] eqn:E1; cbn [rbind]; try discriminate.
    destruct (slice_from (sv_indices s) p) as [i2| |] eqn:E2; cbn [rbind]; try discriminate.
    destruct (slice_to (sv_values s) p) as [v1| |] eqn:E3; cbn [rbind]; try discriminate.
    destruct (slice_from (sv_values s) p) as [v2| |] eqn:E4; cbn [rbind]; try discriminate. intros H; inversion H; subst.
    destruct (cut _ _ _ _ E1 E2) as (F1 & P1). destruct (cut _ _ _ _ E3 E4) as (F2 & P2).
    rewrite prun_bind, (run_put_idx (fst room) (flat (MSV s)) i1 i2 i p P1 F1), (run_put_val (snd room) (wr_idxs (flat (MSV s)) (i1 ++ i :: i2)) v1 v2 v p P2 F2). reflexivity.
Qed.
Lemma run_sv {X W} room (s s' : svec N) r c (h : V -> X * V) (phi : X -> option W) f o : seen h phi f -> sv_Update s r c h = Ok (o, s') ->
  prun (vec_update s_AtVec (s_SetVec room) r c f) (flat (MSV s)) = match phi o with Some w => (flat (MSV s'), Ok w) | None => (flat (MSV s), Panic) end.
Proof.
  intros Hs. unfold sv_Update, vec_update, in_range, sv_Rows, sv_Columns. unfold pz at 1. cbn [pbind prun rd_z flat m_r]. fold (flat (MSV s)).
  destruct ((r <? 0) || (r >=? sv_l s)); [discriminate|]. destruct ((c <? 0) || (c >=? 1)); [discriminate|].
  rewrite prun_bind, (proj2 (ra_s_AtVec s r)). destruct (sv_AtVec s r) as [v| |]; cbn [rbind]; try discriminate.
  rewrite Hs. destruct (h v) as [w0 v']. cbn [fst snd]. destruct (sv_SetVec s r v') as [s1| |] eqn:E; cbn [rbind]; try discriminate.
  intros H; inversion H; subst. destruct (phi o) as [w|]; [|reflexivity]. rewrite prun_bind, (run_s_SetVec room s s' r v' E). reflexivity.
Qed.
Lemma quiet_sv {W} room (s : svec N) r c (f : V -> option (W * V)) : isz (n0 (n := N)) = true -> (forall v, List.In v (sv_values s) -> isz v = false) ->
  (forall v, exists w, f v = Some (w, v)) -> quiet (vec_update s_AtVec (s_SetVec room) r c f) (flat (MSV s)).
Proof.
  intros Hz Hv Hf. unfold vec_update, in_range. apply quiet_bind; [cbn; auto|]. intros n _. destruct ((r <? 0) || (r >=? n)); [exact Logic.I|].
  destruct ((c <? 0) || (c >=? 1)); [exact Logic.I|]. apply quiet_bind; [apply ra_s_AtVec|]. intros v E. rewrite (proj2 (ra_s_AtVec s r)) in E. inversion E as [E'].
  destruct (Hf v) as [w ->]. apply quiet_bind; [|intros; exact Logic.I]. revert E'. unfold sv_AtVec, s_SetVec, in_range.
  destruct ((r <? 0) || (r >=? sv_Length s)); [discriminate|]. intros E'.
  apply quiet_bind; [cbn; auto|]. intros n' _. destruct ((r <? 0) || (r >=? n')); [exact Logic.I|].
  apply quiet_bind; [apply ra_s_index|]. intros [p l] E1. rewrite (proj2 (ra_s_index s r)) in E1. inversion E1 as [E2]. rewrite E2 in E'. cbn [rbind] in E'.
  apply quiet_bind; [apply ra_hit|]. intros hit E3. rewrite (proj2 (ra_hit (flat (MSV s)) p l r)) in E3. pose proof (f_equal snd E3 : sv_hit s p l r = Ok hit) as E4.
  rewrite E4 in E'. cbn [rbind] in E'. destruct hit.
  - rewrite (Hv v (zget_In _ _ _ E')). unfold set_elem. apply quiet_bind; [cbn; auto|]. intros k _. destruct ((p <? 0) || (k <=? p)); [exact Logic.I|].
    unfold pw. cbn [quiet wr]. change (m_vals (flat (MSV s))) with (sv_values s). rewrite (zset_same _ _ _ E'). cbn [rbind]. auto.
  - inversion E'; subst. rewrite Hz. exact Logic.I.
Qed.
Lemma ra_s_copy (s : svec N) : reads_as s_copy (flat (MSV s)) (sv_copy s).
Proof.
  unfold s_copy, sv_copy. apply ra_pz_bind with (z := sv_l s); [reflexivity|]. apply ra_pz_bind with (z := zlen (sv_indices s)); [reflexivity|].
  apply ra_bind; [apply ra_lift|]. intros t _. apply ra_pz_bind with (z := zlen (sv_values s)); [reflexivity|]. apply ra_fold. intros t' i _.
  apply ra_bind; [apply ra_val|]. intros v _. eapply ra_eq; [apply ra_bind; [apply ra_idx|]; intros z _; apply ra_lift|].
  cbn beta. change (m_idxs (flat (MSV s))) with (sv_indices s). rewrite swap_panic by (apply zget_res || apply zset_res). reflexivity.
Qed.

(** ** dense storage *)
Lemma ra_d_AtVec (s : dvec N) i : reads_as (d_AtVec i) (flat (MDV s)) (dv_AtVec s i).
Proof. unfold d_AtVec, dv_AtVec. apply (ra_range _ ZR (dv_l s)); [reflexivity|apply ra_val]. Qed.
Lemma run_d_SetVec (s s' : dvec N) i v : dv_SetVec s i v = Ok s' -> prun (d_SetVec i v) (flat (MDV s)) = (flat (MDV s'), Ok tt).
Proof.
  unfold dv_SetVec, d_SetVec, in_range, dv_Length. unfold pz at 1. cbn [pbind prun rd_z flat m_r]. fold (flat (MDV s)).
  destruct ((i <? 0) || (i >=? dv_l s)); [discriminate|]. rewrite run_set_val. change (m_vals (flat (MDV s))) with (dv_values s).
  destruct (zset (dv_values s) i v); cbn [rbind]; try discriminate. intros H; inversion H; subst. reflexivity.
Qed.
Lemma run_dv {X W} (s s' : dvec N) r c (h : V -> X * V) (phi : X -> option W) f o : seen h phi f -> dv_Update s r c h = Ok (o, s') ->
  prun (vec_update d_AtVec d_SetVec r c f) (flat (MDV s)) = match phi o with Some w => (flat (MDV s'), Ok w) | None => (flat (MDV s), Panic) end.
Proof.
  intros Hs. unfold dv_Update, vec_update, in_range, dv_Rows, dv_Columns. unfold pz at 1. cbn [pbind prun rd_z flat m_r]. fold (flat (MDV s)).
  destruct ((r <? 0) || (r >=? dv_l s)); [discriminate|]. destruct ((c <? 0) || (c >=? 1)); [discriminate|].
  rewrite prun_bind, (proj2 (ra_d_AtVec s r)). destruct (dv_AtVec s r) as [v| |]; cbn [rbind]; try discriminate.
  rewrite Hs. destruct (h v) as [w0 v']. cbn [fst snd]. destruct (dv_SetVec s r v') as [s1| |] eqn:E; cbn [rbind]; try discriminate.
  intros H; inversion H; subst. destruct (phi o) as [w|]; [|reflexivity]. rewrite prun_bind, (run_d_SetVec s s' r v' E). reflexivity.
Qed.
Lemma ra_d_copy (s : dvec N) : reads_as d_copy (flat (MDV s)) (dv_copy s).
Proof.
  unfold d_copy, dv_copy. apply ra_pz_bind with (z := dv_l s); [reflexivity|]. apply ra_bind; [apply ra_lift|]. intros t _.
  apply ra_pz_bind with (z := zlen (dv_values s)); [reflexivity|]. apply ra_fold. intros t' i _. apply ra_bind; [apply ra_val|]. intros v _. apply ra_lift.
Qed.
Lemma run_set_cell (s s' : dense N) r c v : dm_write s r c v = Ok s' -> prun (set_cell r c v) (flat (MDM s)) = (flat (MDM s'), Ok tt).
Proof.
  unfold dm_write, set_cell, set_elem, pw. unfold pz at 1. cbn [pbind prun rd_z flat m_data].
  destruct (zget (dm_data s) r) as [row| |] eqn:E; cbn [rbind]; try discriminate. pose proof (zget_range _ _ _ E) as B.
  replace ((r <? 0) || (zlen (dm_data s) <=? r)) with false by lia. unfold pz. cbn [pbind prun rd_z m_data]. rewrite E. cbn [rbind].
  destruct (zset row c v) as [row'| |] eqn:E1; cbn [rbind]; try discriminate.
  assert (B' : (c <? 0) || (zlen row <=? c) = false) by (unfold zset in E1; destruct ((c <? 0) || (zlen row <=? c)); [discriminate|reflexivity]). rewrite B'.
  cbn [prun wr m_data]. rewrite E. cbn [rbind]. rewrite E1. cbn [rbind]. destruct (zset (dm_data s) r row') as [d| |]; cbn [rbind]; try discriminate.
  intros H; inversion H; subst. reflexivity.
Qed.
Lemma ra_dm_copy (s : dense N) : reads_as dm_copy (flat (MDM s)) (dm_Copy s).
Proof.
  unfold dm_copy, dm_Copy, newMatrixInit. apply ra_pz_bind with (z := dm_r s); [reflexivity|]. apply ra_pz_bind with (z := dm_c s); [reflexivity|].
  apply ra_bind; [apply ra_lift|]. intros t _. apply ra_bind; [|intros t' _; apply ra_ret]. apply ra_fold. intros t' i _.
  apply ra_bind; [apply ra_lift|]. intros row _. apply ra_pz_bind with (z := dm_c s); [reflexivity|]. apply ra_bind; [|intros row' _; apply ra_lift].
  apply ra_fold. intros row' j _. apply ra_bind; [apply ra_cell|]. intros v _. apply ra_lift.
Qed.


Lemma run_dm {X W} (s s' : dense N) r c (h : V -> X * V) (phi : X -> option W) f o : seen h phi f -> dm_Update s r c h = Ok (o, s') ->
  prun (dm_update r c f) (flat (MDM s)) = match phi o with Some w => (flat (MDM s'), Ok w) | None => (flat (MDM s), Panic) end.
Proof.
  intros Hs. unfold dm_Update, dm_update, both_in_range, in_range, dm_Rows, dm_Columns. unfold pz at 1 2. cbn [pbind prun rd_z flat m_r].
  destruct ((r <? 0) || (r >=? dm_r s)); [discriminate|]. cbn [pbind prun rd_z m_c]. destruct ((c <? 0) || (c >=? dm_c s)); [discriminate|]. fold (flat (MDM s)).
  rewrite prun_bind, (proj2 (ra_cell (flat (MDM s)) r c)). change (row <- zget (m_data (flat (MDM s))) r ;; zget row c) with (dm_read s r c).
  destruct (dm_read s r c) as [v| |]; cbn [rbind]; try discriminate.
  rewrite Hs. destruct (h v) as [w0 v']. cbn [fst snd]. destruct (dm_write s r c v') as [s1| |] eqn:E; cbn [rbind]; try discriminate.
  intros H; inversion H; subst. destruct (phi o) as [w|]; [|reflexivity]. rewrite prun_bind, (run_set_cell s s' r c v' E). reflexivity.
Qed.

(** ** the wrapped methods *)
Definition storage_of (m : mat) : storage :=
  match m with MCSR _ => SCSR | MCSC _ => SCSC | MDM _ => SDM | MDV _ => SDV | MSV _ => SSV end.
Lemma flat_kind m : m_kind (flat m) = storage_of m. Proof. destruct m; reflexivity. Qed.
Lemma flat_dims m : m_r (flat m) = mat_Rows m /\ m_c (flat m) = mat_Columns m. Proof. destruct m; split; reflexivity. Qed.
Lemma flat_inj m m' : flat m = flat m' -> m = m'.
Proof. destruct m as [[]|[]|[]|[]|[]], m' as [[]|[]|[]|[]|[]]; cbn; intros H; inversion H; subst; reflexivity. Qed.

(** no write at all *)
Fixpoint nowrite {A} (p : prog A) : Prop :=
  match p with
  | PRet _ | PStop | PHang => True
  | PRdZ _ k => forall z, nowrite (k z)
  | PRdV _ k => forall v, nowrite (k v)
  | PWr _ _ => False
  end.
Lemma nowrite_quiet {A} (p : prog A) x : nowrite p -> quiet p x.
Proof.
  induction p as [a| | |l f IH|l f IH|u q IH]; cbn; intros H; auto; try tauto.
  - destruct (rd_z x l); auto.
  - destruct (rd_v x l); auto.
Qed.

(** a call of Access.v and the call of Mutex.v it is *)
Definition plain_call (k : wcall (N := N)) : mcall N :=
  match k with
  | WAt r c => MAt r c | WElement r c => MElement r c | WColumnsAt c => MColumnsAt c | WRowsAt r => MRowsAt r
  | WRowsAtToArray r => MRowsAtToArray r | WCopy => MCopy
  | WReads p => MRead (fun m => snd (prun p (flat m)))
  | WSet r c v => MSet r c v | WUpdate r c f => MUpdate r c f
  | WRows => MRows | WColumns => MColumns | WSize => MSize | WClear => MClear | WValues => MValues
  end.
Lemma plain_lock k : lock_of (plain_call k) = wlock k. Proof. destruct k; reflexivity. Qed.
Definition outcome (k : mcall N) (m : mat) : res (ret N) := rmap fst (body k m).
(** what [WReads] stands for does not write *)
Definition reads_only (k : wcall (N := N)) : Prop := match k with WReads p => forall m, wf m -> quiet p (flat m) | _ => True end.

(** [Update] with a captured result *)
Definition upd_of {X} (m : mat) r c (h : V -> X * V) : res (X * mat) :=
  match m with
  | MCSR s => rmap (fun p => (fst p, MCSR (snd p))) (csr_Update s r c h)
  | MCSC s => rmap (fun p => (fst p, MCSC (snd p))) (csc_Update s r c h)
  | MDM s => rmap (fun p => (fst p, MDM (snd p))) (dm_Update s r c h)
  | MDV s => rmap (fun p => (fst p, MDV (snd p))) (dv_Update s r c h)
  | MSV s => rmap (fun p => (fst p, MSV (snd p))) (sv_Update s r c h)
  end.
Definition upd_prog {W} (s : storage) room r c (f : V -> option (W * V)) : prog W :=
  match s with
  | SCSR => a_update room ZR r c r c f
  | SCSC => a_update room ZC r c c r f
  | SDM => dm_update r c f
  | SDV => vec_update d_AtVec d_SetVec r c f
  | SSV => vec_update s_AtVec (s_SetVec room) r c f
  end.
Lemma upd_inb {X} m r c (h : V -> X * V) : zero_ok N -> wf m -> inb m r c -> exists o m', upd_of m r c h = Ok (o, m').
Proof.
  intros Hz H [Hr Hc]. destruct m as [s|s|s|s|s]; cbn in H, Hr, Hc.
  - destruct H as (R & C & rows & -> & H). cbn in *. rewrite csr_Update_spec by auto. cbn. eauto.
  - destruct H as (R & C & rows & -> & H). cbn in *. rewrite csc_Update_spec by auto. cbn. eauto.
  - destruct H as (R & C & g & -> & H). cbn in *. rewrite dm_Update_spec by auto. cbn. eauto.
  - destruct H as (L & g & -> & H). unfold dv_Columns in Hc. assert (c = 0) as -> by lia.
    pose proof (dv_Update_agrees (mk_dv L g) r 0 h) as A. destruct (Update_wf (MDV (mk_dv L g)) r 0 (fun v => snd (h v)) Hz) as (m' & E & _); [cbn; eauto|split; cbn; [exact Hr|unfold dv_Columns; lia]|].
    cbn in E. cbn. destruct (dv_Update (mk_dv L g) r 0 (fun v => (tt, snd (h v)))) as [[[] s']| |]; cbn in E; try discriminate. destruct A as (w & ->). cbn. eauto.
  - destruct H as (l & ents & -> & H). unfold sv_Columns in Hc. assert (c = 0) as -> by lia.
    pose proof (sv_Update_agrees (mk_sv l ents) r 0 h) as A. destruct (Update_wf (MSV (mk_sv l ents)) r 0 (fun v => snd (h v)) Hz) as (m' & E & _); [cbn; eauto|split; cbn; [exact Hr|unfold sv_Columns; lia]|].
    cbn in E. cbn. destruct (sv_Update (mk_sv l ents) r 0 (fun v => (tt, snd (h v)))) as [[[] s']| |]; cbn in E; try discriminate. destruct A as (w & ->). cbn. eauto.
Qed.
Lemma upd_out {X W} m room r c (h : V -> X * V) (f : V -> option (W * V)) : ~ inb m r c -> upd_of m r c h = Panic /\ prun (upd_prog (storage_of m) room r c f) (flat m) = (flat m, Panic).
Proof.
  intros H. unfold inb in H. destruct m as [s|s|s|s|s]; cbn in H; cbn [upd_of storage_of upd_prog].
  - split; [|apply (run_outside room ZR (flat (MCSR s))); exact H]. unfold csr_Update, csr_UpdateReturnPointer.
    unfold csr_Rows, csr_Columns in H. destruct ((r <? 0) || (r >=? csr_r s)) eqn:E1; [reflexivity|]. destruct ((c <? 0) || (c >=? csr_c s)) eqn:E2; [reflexivity|]. exfalso. apply H. lia.
  - split; [|apply (run_outside room ZC (flat (MCSC s))); exact H]. unfold csc_Update, csc_UpdateReturnPointer.
    unfold csc_Rows, csc_Columns in H. destruct ((r <? 0) || (r >=? csc_r s)) eqn:E1; [reflexivity|]. destruct ((c <? 0) || (c >=? csc_c s)) eqn:E2; [reflexivity|]. exfalso. apply H. lia.
  - unfold dm_Update, dm_update, both_in_range, in_range. unfold dm_Rows, dm_Columns in *. unfold pz at 1 2. cbn [pbind prun rd_z flat m_r].
    destruct ((r <? 0) || (r >=? dm_r s)) eqn:E1; [split; reflexivity|]. cbn [pbind prun rd_z flat m_c]. destruct ((c <? 0) || (c >=? dm_c s)) eqn:E2; [split; reflexivity|]. exfalso. apply H. lia.
  - unfold dv_Update, vec_update, in_range. unfold dv_Rows, dv_Columns in *. unfold pz at 1. cbn [pbind prun rd_z flat m_r].
    destruct ((r <? 0) || (r >=? dv_l s)) eqn:E1; [split; reflexivity|]. destruct ((c <? 0) || (c >=? 1)) eqn:E2; [split; reflexivity|]. exfalso. apply H. lia.
  - unfold sv_Update, vec_update, in_range. unfold sv_Rows, sv_Columns in *. unfold pz at 1. cbn [pbind prun rd_z flat m_r].
    destruct ((r <? 0) || (r >=? sv_l s)) eqn:E1; [split; reflexivity|]. destruct ((c <? 0) || (c >=? 1)) eqn:E2; [split; reflexivity|]. exfalso. apply H. lia.
Qed.
Lemma upd_run {X W} m m' room r c (h : V -> X * V) (phi : X -> option W) f o : seen h phi f -> upd_of m r c h = Ok (o, m') ->
  prun (upd_prog (storage_of m) room r c f) (flat m) = match phi o with Some w => (flat m', Ok w) | None => (flat m, Panic) end.
Proof.
  intros Hs. destruct m as [s|s|s|s|s]; cbn [upd_of storage_of upd_prog].
  - destruct (csr_Update s r c h) as [[o' s']| |] eqn:E; cbn; intros H; inversion H; subst. apply (run_csr room s s' r c h phi f o Hs E).
  - destruct (csc_Update s r c h) as [[o' s']| |] eqn:E; cbn; intros H; inversion H; subst. apply (run_csc room s s' r c h phi f o Hs E).
  - destruct (dm_Update s r c h) as [[o' s']| |] eqn:E; cbn; intros H; inversion H; subst. apply (run_dm s s' r c h phi f o Hs E).
  - destruct (dv_Update s r c h) as [[o' s']| |] eqn:E; cbn; intros H; inversion H; subst. apply (run_dv s s' r c h phi f o Hs E).
  - destruct (sv_Update s r c h) as [[o' s']| |] eqn:E; cbn; intros H; inversion H; subst. apply (run_sv room s s' r c h phi f o Hs E).
Qed.
(** a call that is an [Update] *)
Lemma upd_call {X} m room r c (h : V -> X * V) (phi : X -> option (ret N)) f k : zero_ok N -> wf m -> seen h phi f ->
  body k m = (p <- upd_of m r c h ;; match phi (fst p) with Some w => Ok (w, snd p) | None => Panic end) ->
  prun (upd_prog (storage_of m) room r c f) (flat m) = (flat (next k m), outcome k m).
Proof.
  intros Hz Hw Hs Hb. unfold next, outcome. rewrite Hb. destruct (inb_dec m r c) as [B|B].
  - destruct (upd_inb m r c h Hz Hw B) as (o & m' & E). rewrite (upd_run m m' room r c h phi f o Hs E), E. cbn [rbind fst snd].
    destruct (phi o); reflexivity.
  - destruct (upd_out m room r c h f B) as [E1 E2]. rewrite E1, E2. reflexivity.
Qed.


Lemma rmap_rmap {A B C} (f : A -> B) (g : B -> C) (r : res A) : rmap g (rmap f r) = rmap (fun a => g (f a)) r.
Proof. destruct r; reflexivity. Qed.
Lemma out_value {A} (f : A -> ret N) (r : res A) m : rmap fst (a <- r ;; Ok (f a, m)) = rmap f r.
Proof. destruct r; reflexivity. Qed.
Lemma ra_rmap {A B} (p : prog A) x r (f : A -> B) : reads_as p x r -> reads_as (a <~ p ;; PRet (f a)) x (rmap f r).
Proof. intros H. apply (ra_bind p _ x r (fun a => Ok (f a)) H). intros a _. apply ra_ret. Qed.

(** the calls that read without going through [Update] *)
Lemma ra_ColumnsAt m room c : reads_as (method (storage_of m) room (WColumnsAt c)) (flat m) (outcome (MColumnsAt c) m).
Proof.
  unfold outcome. cbn [body]. rewrite (out_value VMat). destruct m as [s|s|s|s|s]; cbn [mat_ColumnsAt storage_of method]; rewrite rmap_rmap.
  - unfold csr_ColumnsAt, csr_Columns. eapply ra_eq; [apply (ra_range _ ZC (csr_c s)); [reflexivity|]; apply ra_pz_bind with (z := csr_r s); [reflexivity|]; apply ra_rmap; apply (ra_across _ ZR (csr_r s)); reflexivity|].
    destruct ((c <? 0) || (c >=? csr_c s)); reflexivity.
  - unfold csc_ColumnsAt, csc_Columns. eapply ra_eq; [apply (ra_range _ ZC (csc_c s)); [reflexivity|]; apply ra_pz_bind with (z := csc_r s); [reflexivity|]; apply ra_rmap; apply ra_along|].
    destruct ((c <? 0) || (c >=? csc_c s)); reflexivity.
  - unfold dm_ColumnsAt, dm_Columns. eapply ra_eq; [apply (ra_range _ ZC (dm_c s)); [reflexivity|]; apply ra_pz_bind with (z := dm_r s); [reflexivity|]|].
    + apply ra_bind; [apply ra_lift|]. intros t _. apply ra_rmap. apply ra_fold. intros t' i _. apply ra_bind; [apply ra_cell|]. intros v _. apply ra_lift.
    + cbn beta. destruct ((c <? 0) || (c >=? dm_c s)); [reflexivity|]. destruct (newDenseVector (dm_r s)); reflexivity.
  - unfold dv_ColumnsAt, dv_Columns. destruct ((c <? 0) || (c >=? 1)); [apply ra_stop|]. apply ra_rmap, ra_d_copy.
  - unfold sv_ColumnsAt, sv_Columns. destruct ((c <? 0) || (c >=? 1)); [apply ra_stop|]. apply ra_rmap, ra_s_copy.
Qed.
Lemma ra_RowsAt m room r : reads_as (method (storage_of m) room (WRowsAt r)) (flat m) (outcome (MRowsAt r) m).
Proof.
  unfold outcome. cbn [body]. rewrite (out_value VMat). destruct m as [s|s|s|s|s]; cbn [mat_RowsAt storage_of method]; rewrite rmap_rmap.
  - unfold csr_RowsAt. eapply ra_eq; [apply (ra_range _ ZR (csr_r s)); [reflexivity|]; apply ra_pz_bind with (z := csr_c s); [reflexivity|]; apply ra_rmap; apply ra_along|].
    destruct ((r <? 0) || (r >=? csr_r s)); reflexivity.
  - unfold csc_RowsAt. eapply ra_eq; [apply (ra_range _ ZR (csc_r s)); [reflexivity|]; apply ra_pz_bind with (z := csc_c s); [reflexivity|]; apply ra_rmap; apply (ra_across _ ZC (csc_c s)); reflexivity|].
    destruct ((r <? 0) || (r >=? csc_r s)); reflexivity.
  - unfold dm_RowsAt, dm_Rows. eapply ra_eq; [apply (ra_range _ ZR (dm_r s)); [reflexivity|]; apply ra_pz_bind with (z := dm_c s); [reflexivity|]|].
    + apply ra_bind; [apply ra_lift|]. intros t _. apply ra_rmap. apply ra_fold. intros t' i _. apply ra_bind; [apply ra_cell|]. intros v _. apply ra_lift.
    + cbn beta. destruct ((r <? 0) || (r >=? dm_r s)); [reflexivity|]. destruct (newDenseVector (dm_c s)); reflexivity.
  - unfold dv_RowsAt, dv_Rows. eapply ra_eq; [apply (ra_range _ ZR (dv_l s)); [reflexivity|]|].
    + apply ra_bind; [apply ra_lift|]. intros t _. apply ra_bind; [apply ra_d_AtVec|]. intros v _. apply ra_rmap. apply ra_lift.
    + cbn beta. destruct ((r <? 0) || (r >=? dv_l s)); [reflexivity|]. destruct (newDenseVector 1); [|reflexivity..]. cbn [rbind]. destruct (dv_AtVec s r); reflexivity.
  - unfold sv_RowsAt, sv_Rows. eapply ra_eq; [apply (ra_range _ ZR (sv_l s)); [reflexivity|]|].
    + apply ra_bind; [apply ra_lift|]. intros t _. apply ra_bind; [apply ra_s_AtVec|]. intros v _. apply ra_rmap. apply ra_lift.
    + cbn beta. destruct ((r <? 0) || (r >=? sv_l s)); [reflexivity|]. destruct (NewSparseVector 1); [|reflexivity..]. cbn [rbind]. destruct (sv_AtVec s r); reflexivity.
Qed.
Lemma ra_RowsAtToArray m room r : reads_as (method (storage_of m) room (WRowsAtToArray r)) (flat m) (outcome (MRowsAtToArray r) m).
Proof.
  unfold outcome. cbn [body]. rewrite (out_value VArr). destruct m as [s|s|s|s|s]; cbn [mat_RowsAtToArray storage_of method].
  - unfold csr_RowsAtToArray, csr_Rows. eapply ra_eq; [apply (ra_range _ ZR (csr_r s)); [reflexivity|]; apply ra_pz_bind with (z := csr_c s); [reflexivity|]; apply ra_rmap; apply ra_along|].
    destruct ((r <? 0) || (r >=? csr_r s)); reflexivity.
  - unfold csc_RowsAtToArray, csc_Rows. eapply ra_eq; [apply (ra_range _ ZR (csc_r s)); [reflexivity|]; apply ra_pz_bind with (z := csc_c s); [reflexivity|]; apply ra_rmap; apply (ra_across _ ZC (csc_c s)); reflexivity|].
    destruct ((r <? 0) || (r >=? csc_r s)); reflexivity.
  - unfold dm_RowsAtToArray, dm_Rows. eapply ra_eq; [apply (ra_range _ ZR (dm_r s)); [reflexivity|]; apply ra_pz_bind with (z := dm_c s); [reflexivity|]|].
    + apply ra_bind; [apply ra_lift|]. intros t _. apply ra_rmap. apply ra_fold. intros t' i _. apply ra_bind; [apply ra_cell|]. intros v _. apply ra_lift.
    + cbn beta. destruct ((r <? 0) || (r >=? dm_r s)); [reflexivity|]. destruct (make_slice n0 (dm_c s)); reflexivity.
  - unfold dv_RowsAtToArray, dv_Rows. eapply ra_eq; [apply (ra_range _ ZR (dv_l s)); [reflexivity|]|].
    + apply ra_bind; [apply ra_lift|]. intros t _. apply ra_bind; [apply ra_d_AtVec|]. intros v _. apply ra_rmap. apply ra_lift.
    + cbn beta. destruct ((r <? 0) || (r >=? dv_l s)); [reflexivity|]. destruct (make_slice n0 1); [|reflexivity..]. cbn [rbind]. destruct (dv_AtVec s r); reflexivity.
  - unfold sv_RowsAtToArray, sv_Rows. eapply ra_eq; [apply (ra_range _ ZR (sv_l s)); [reflexivity|]|].
    + apply ra_bind; [apply ra_lift|]. intros t _. apply ra_bind; [apply ra_s_AtVec|]. intros v _. apply ra_rmap. apply ra_lift.
    + cbn beta. destruct ((r <? 0) || (r >=? sv_l s)); [reflexivity|]. destruct (make_slice n0 1); [|reflexivity..]. cbn [rbind]. destruct (sv_AtVec s r); reflexivity.
Qed.
Lemma ra_Copy m room : reads_as (method (storage_of m) room WCopy) (flat m) (outcome MCopy m).
Proof.
  unfold outcome. cbn [body]. rewrite (out_value VMat). destruct m as [s|s|s|s|s]; cbn [mat_Copy storage_of method]; rewrite rmap_rmap.
  - apply ra_rmap. eapply ra_eq; [apply ra_copy|]. unfold csr_Copy. cbn [flat m_r m_c m_vals m_idxs m_starts]. destruct (newCSRMatrix (csr_r s) (csr_c s) (zlen (csr_values s))); [|reflexivity..]. cbn [rbind].
    erewrite rfold_ext; [reflexivity|]. intros t i. cbn beta. destruct (zget (csr_values s) i); [|reflexivity..]. cbn [rbind]. rewrite swap_panic by (apply zget_res || apply zset_res). reflexivity.
  - apply ra_rmap. eapply ra_eq; [apply ra_copy|]. unfold csc_Copy. cbn [flat m_r m_c m_vals m_idxs m_starts]. destruct (newCSCMatrix (csc_r s) (csc_c s) (zlen (csc_values s))); [|reflexivity..]. cbn [rbind].
    erewrite rfold_ext; [reflexivity|]. intros t i. cbn beta. destruct (zget (csc_values s) i); [|reflexivity..]. cbn [rbind]. rewrite swap_panic by (apply zget_res || apply zset_res). reflexivity.
  - apply ra_rmap, ra_dm_copy.
  - apply ra_rmap, ra_d_copy.
  - apply ra_rmap, ra_s_copy.
Qed.
Lemma ra_dims m room k : wlock k = LNone -> k <> WValues -> reads_as (method (storage_of m) room k) (flat m) (outcome (plain_call k) m).
Proof. intros L D. destruct k; cbn in L; try discriminate; try congruence; destruct m; split; cbn; auto. Qed.

(** stored numbers are not zero *)
Lemma stored_nz m : wf m -> is_sp m = true -> forall v, List.In v (m_vals (flat m)) -> isz v = false.
Proof.
  intros Hw Hs v. destruct m as [s|s|s|s|s]; cbn in Hs; try discriminate; cbn in Hw |- *.
  - destruct Hw as (R & C & rows & -> & (_ & _ & _ & F)). cbn. intros I. apply in_map_iff in I as (e & <- & I). apply in_concat in I as (l & Il & Ie).
    rewrite Forall_forall in F. destruct (F l Il) as (_ & _ & G). rewrite Forall_forall in G. apply G. exact Ie.
  - destruct Hw as (R & C & rows & -> & (_ & _ & _ & F)). cbn. intros I. apply in_map_iff in I as (e & <- & I). apply in_concat in I as (l & Il & Ie).
    rewrite Forall_forall in F. destruct (F l Il) as (_ & _ & G). rewrite Forall_forall in G. apply G. exact Ie.
  - destruct Hw as (l & ents & -> & (_ & _ & G)). cbn. intros I. apply in_map_iff in I as (e & <- & I). rewrite Forall_forall in G. apply G. exact I.
Qed.
Lemma rb_if {A B} (b : bool) (p : res A) (k : A -> res B) : rbind (if b then Panic else p) k = if b then Panic else rbind p k.
Proof. destruct b; reflexivity. Qed.

(** ** Each method does what its model does *)
Theorem method_does m room k : zero_ok N -> wf m -> reads_only k ->
  prun (method (storage_of m) room k) (flat m) = (flat (next (plain_call k) m), outcome (plain_call k) m).
Proof.
  intros Hz Hw Hr.
  assert (RA : forall k, guarded (plain_call k) -> wlock k <> LWrite -> reads_as (method (storage_of m) room k) (flat m) (outcome (plain_call k) m) ->
    prun (method (storage_of m) room k) (flat m) = (flat (next (plain_call k) m), outcome (plain_call k) m)).
  { intros k' G L [_ E]. rewrite E, next_read by (rewrite ?plain_lock; auto). reflexivity. }
  assert (AT : forall s r c, reads_as (both_in_range r c (v <~ cell r c ;; PRet (VVal v))) (flat (MDM s)) (outcome (MAt r c) (MDM s))).
  { intros s r c. unfold both_in_range. eapply ra_eq; [apply (ra_range _ ZR (dm_r s)); [reflexivity|]; apply (ra_range _ ZC (dm_c s)); [reflexivity|]; eapply (ra_rmap (cell r c) _ _ VVal); apply ra_cell|].
    unfold outcome. cbn [body mat_At]. unfold dm_At, dm_Rows, dm_Columns. destruct ((r <? 0) || (r >=? dm_r s)); [reflexivity|]. destruct ((c <? 0) || (c >=? dm_c s)); [reflexivity|].
    change (row <- zget (m_data (flat (MDM s))) r ;; zget row c) with (dm_read s r c). destruct (dm_read s r c); reflexivity. }
  assert (EL : forall s r c, reads_as (both_in_range r c (v <~ cell r c ;; PRet (VBool (ngtb v n0)))) (flat (MDM s)) (outcome (MElement r c) (MDM s))).
  { intros s r c. unfold both_in_range. eapply ra_eq; [apply (ra_range _ ZR (dm_r s)); [reflexivity|]; apply (ra_range _ ZC (dm_c s)); [reflexivity|]; eapply (ra_rmap (cell r c) _ _ (fun v => VBool (ngtb v n0))); apply ra_cell|].
    unfold outcome. cbn [body mat_Element]. unfold dm_Element, dm_At, dm_Rows, dm_Columns. destruct ((r <? 0) || (r >=? dm_r s)); [reflexivity|]. destruct ((c <? 0) || (c >=? dm_c s)); [reflexivity|].
    change (row <- zget (m_data (flat (MDM s))) r ;; zget row c) with (dm_read s r c). destruct (dm_read s r c); reflexivity. }
  destruct k; cbn [plain_call].
  - (* At *) destruct m as [s|s|s|s|s].
    1,2: apply (upd_call _ room r c (fun v => (v, v)) (fun v => Some (VVal v)) f_at (MAt r c) Hz Hw); [intros v; reflexivity|reflexivity].
    + apply (RA (WAt r c)); [exact Logic.I|discriminate|]. apply AT.
    + apply (RA (WAt r c)); [exact Logic.I|discriminate|]. cbn [method storage_of plain_call]. eapply ra_eq; [eapply (ra_rmap (d_AtVec r) _ _ VVal); apply ra_d_AtVec|].
      unfold outcome. cbn [body mat_At]. unfold dv_At. destruct (dv_AtVec s r); reflexivity.
    + apply (upd_call _ room r c (fun v => (v, v)) (fun v => Some (VVal v)) f_at (MAt r c) Hz Hw); [intros v; reflexivity|reflexivity].
  - (* Element *) destruct m as [s|s|s|s|s].
    1,2: apply (upd_call _ room r c (fun v => (ngtb v n0, v)) (fun b => Some (VBool b)) f_element (MElement r c) Hz Hw); [intros v; reflexivity|reflexivity].
    + apply (RA (WElement r c)); [exact Logic.I|discriminate|]. apply EL.
    + apply (RA (WElement r c)); [exact Logic.I|discriminate|]. cbn [method storage_of plain_call]. eapply ra_eq; [eapply (ra_rmap (d_AtVec r) _ _ (fun v => VBool (ngtb v n0))); apply ra_d_AtVec|].
      unfold outcome. cbn [body mat_Element]. unfold dv_Element. destruct (dv_AtVec s r); reflexivity.
    + apply (RA (WElement r c)); [exact Logic.I|discriminate|]. cbn [method storage_of plain_call]. eapply ra_eq; [eapply (ra_rmap (s_AtVec r) _ _ (fun v => VBool (ngtb v n0))); apply ra_s_AtVec|].
      unfold outcome. cbn [body mat_Element]. unfold sv_Element. destruct (sv_AtVec s r); reflexivity.
  - apply (RA (WColumnsAt c)); [exact Logic.I|discriminate|apply ra_ColumnsAt].
  - apply (RA (WRowsAt r)); [exact Logic.I|discriminate|apply ra_RowsAt].
  - apply (RA (WRowsAtToArray r)); [exact Logic.I|discriminate|apply ra_RowsAtToArray].
  - apply (RA WCopy); [exact Logic.I|discriminate|apply ra_Copy].
  - (* WReads *) pose proof (Hr m Hw) as Q.
    apply (RA (WReads p)); [exact Logic.I|discriminate|]. replace (method (storage_of m) room (WReads p)) with p by (destruct m; reflexivity).
    split; [exact Q|]. unfold outcome. cbn [plain_call body]. rewrite (out_value (fun t : ret N => t)). pose proof (quiet_same p (flat m) Q) as E. destruct (prun p (flat m)) as [y [a| |]]; cbn in *; subst; reflexivity.
  - (* Set *) destruct m as [s|s|s|s|s].
    1: apply (upd_call _ room r c (fun _ => (tt, v)) (fun _ => Some VUnit) (f_set v) (MSet r c v) Hz Hw); [intros y; reflexivity|];
       cbn; unfold csr_Set; destruct (csr_Update s r c (fun _ => (tt, v))) as [[? ?]| |]; reflexivity.
    1: apply (upd_call _ room r c (fun _ => (tt, v)) (fun _ => Some VUnit) (f_set v) (MSet r c v) Hz Hw); [intros y; reflexivity|];
       cbn; unfold csc_Set; destruct (csc_Update s r c (fun _ => (tt, v))) as [[? ?]| |]; reflexivity.
    + cbn [method storage_of]. unfold both_in_range, in_range. unfold pz at 1 2. cbn [pbind prun rd_z flat m_r].
      unfold next, outcome. cbn [body mat_Set]. destruct (inb_dec (MDM s) r c) as [B|B].
      * destruct (Set_wf _ r c v Hz Hw B) as (m' & E & _). cbn [mat_Set] in E. destruct B as [B1 B2]. cbn in B1, B2. unfold dm_Rows, dm_Columns in *.
        replace ((r <? 0) || (r >=? dm_r s)) with false by lia. cbn [pbind prun rd_z m_c]. replace ((c <? 0) || (c >=? dm_c s)) with false by lia.
        rewrite E. cbn [rbind rmap fst]. unfold dm_Set, dm_Rows, dm_Columns in E. replace ((r <? 0) || (r >=? dm_r s)) with false in E by lia. replace ((c <? 0) || (c >=? dm_c s)) with false in E by lia.
        destruct (dm_write s r c v) as [s'| |] eqn:E1; cbn in E; inversion E; subst. fold (flat (MDM s)). rewrite prun_bind, (run_set_cell s s' r c v E1). reflexivity.
      * pose proof (Set_panic _ r c v Hw B) as E. cbn [mat_Set] in E. rewrite E. unfold inb in B. cbn in B. unfold dm_Rows, dm_Columns in *.
        destruct ((r <? 0) || (r >=? dm_r s)) eqn:E1; [reflexivity|]. cbn [pbind prun rd_z m_c]. destruct ((c <? 0) || (c >=? dm_c s)) eqn:E2; [reflexivity|]. exfalso. apply B. lia.
    + cbn [method storage_of]. unfold vec_set, in_range. unfold pz at 1. cbn [pbind prun rd_z flat m_r]. fold (flat (MDV s)).
      unfold next, outcome. cbn [body mat_Set]. destruct (inb_dec (MDV s) r c) as [B|B].
      * destruct (Set_wf _ r c v Hz Hw B) as (m' & E & _). cbn [mat_Set] in E. destruct B as [B1 B2]. cbn in B1, B2. unfold dv_Rows, dv_Columns in *.
        replace ((r <? 0) || (r >=? dv_l s)) with false by lia. replace ((c <? 0) || (c >=? 1)) with false by lia.
        rewrite E. cbn [rbind rmap fst]. unfold dv_Set, dv_Rows, dv_Columns in E. replace ((r <? 0) || (r >=? dv_l s)) with false in E by lia. replace ((c <? 0) || (c >=? 1)) with false in E by lia.
        destruct (dv_SetVec s r v) as [s'| |] eqn:E1; cbn in E; inversion E; subst. rewrite prun_bind, (run_d_SetVec s s' r v E1). reflexivity.
      * pose proof (Set_panic _ r c v Hw B) as E. cbn [mat_Set] in E. rewrite E. unfold inb in B. cbn in B. unfold dv_Rows, dv_Columns in *.
        destruct ((r <? 0) || (r >=? dv_l s)) eqn:E1; [reflexivity|]. destruct ((c <? 0) || (c >=? 1)) eqn:E2; [reflexivity|]. exfalso. apply B. lia.
    + cbn [method storage_of]. unfold vec_set, in_range. unfold pz at 1. cbn [pbind prun rd_z flat m_r]. fold (flat (MSV s)).
      unfold next, outcome. cbn [body mat_Set]. destruct (inb_dec (MSV s) r c) as [B|B].
      * destruct (Set_wf _ r c v Hz Hw B) as (m' & E & _). cbn [mat_Set] in E. destruct B as [B1 B2]. cbn in B1, B2. unfold sv_Rows, sv_Columns in *.
        replace ((r <? 0) || (r >=? sv_l s)) with false by lia. replace ((c <? 0) || (c >=? 1)) with false by lia.
        rewrite E. cbn [rbind rmap fst]. unfold sv_Set, sv_Rows, sv_Columns in E. replace ((r <? 0) || (r >=? sv_l s)) with false in E by lia. replace ((c <? 0) || (c >=? 1)) with false in E by lia.
        destruct (sv_SetVec s r v) as [s'| |] eqn:E1; cbn in E; inversion E; subst. rewrite prun_bind, (run_s_SetVec room s s' r v E1). reflexivity.
      * pose proof (Set_panic _ r c v Hw B) as E. cbn [mat_Set] in E. rewrite E. unfold inb in B. cbn in B. unfold sv_Rows, sv_Columns in *.
        destruct ((r <? 0) || (r >=? sv_l s)) eqn:E1; [reflexivity|]. destruct ((c <? 0) || (c >=? 1)) eqn:E2; [reflexivity|]. exfalso. apply B. lia.
  - (* Update *)
    assert (S : seen (fun v => match f v with Some v' => (true, v') | None => (false, v) end) (fun b : bool => if b then Some VUnit else None) (f_update f)).
    { intros v. unfold f_update. destruct (f v); reflexivity. }
    replace (method (storage_of m) room (WUpdate r c f)) with (upd_prog (storage_of m) room r c (f_update f)) by (destruct m; reflexivity).
    apply (upd_call m room r c _ _ (f_update f) (MUpdate r c f) Hz Hw S). cbn [body]. unfold mat_UpdateP. destruct m as [s|s|s|s|s]; cbn [upd_of].
    + destruct (csr_Update s r c _) as [[[|] ?]| |]; reflexivity.
    + destruct (csc_Update s r c _) as [[[|] ?]| |]; reflexivity.
    + destruct (dm_Update s r c _) as [[[|] ?]| |]; reflexivity.
    + destruct (dv_Update s r c _) as [[[|] ?]| |]; reflexivity.
    + destruct (sv_Update s r c _) as [[[|] ?]| |]; reflexivity.
  - apply (RA WRows); [exact Logic.I|discriminate|apply ra_dims; [reflexivity|discriminate]].
  - apply (RA WColumns); [exact Logic.I|discriminate|apply ra_dims; [reflexivity|discriminate]].
  - apply (RA WSize); [exact Logic.I|discriminate|apply ra_dims; [reflexivity|discriminate]].
  - (* Clear *) pose proof (wf_dims m Hw) as [D1 D2]. unfold next, outcome. cbn [body]. destruct m as [s|s|s|s|s]; cbn [method storage_of mat_Clear mat_Rows mat_Columns] in *.
    + unfold csr_Clear. unfold csr_Rows in D1. cbn -[make_slice]. unfold make_slice. replace (csr_r s + 1 <? 0) with false by lia. reflexivity.
    + unfold csc_Clear. unfold csc_Columns in D2. cbn -[make_slice]. unfold make_slice. replace (csc_c s + 1 <? 0) with false by lia. reflexivity.
    + unfold dm_Clear. unfold dm_Rows in D1. unfold dm_Columns in D2. unfold pz at 1. cbn [pbind prun rd_z flat m_r]. rewrite !(make_slice_ok [] (dm_r s)) by lia. cbn [plift pbind rbind].
      rewrite prun_bind. unfold pw at 1. cbn [prun wr]. rewrite prun_bind.
      assert (G : forall l (d : list (list V)), (forall i, List.In i l -> 0 <= i < zlen d) -> exists d', rfold (fun data i => row <- make_slice (n0 (n := N)) (dm_c s) ;; zset data i row) d l = Ok d' /\
        prun (pfold (fun _ i => mm <~ pz ZC ;; row <~ plift (make_slice n0 mm) ;; set_elem ZData (URow i row) i) tt l) (MkMem SDM (dm_r s) (dm_c s) [] [] [] d) = (MkMem SDM (dm_r s) (dm_c s) [] [] [] d', Ok tt)).
      { rewrite (make_slice_ok n0 (dm_c s)) by lia. cbn [rbind]. induction l as [|i l IH]; intros d Hl; cbn [rfold pfold]; [exists d; split; reflexivity|]. rewrite prun_bind.
        unfold pz at 1. cbn [pbind prun rd_z m_c]. rewrite (make_slice_ok n0 (dm_c s)) by lia. cbn [plift pbind rbind].
        unfold set_elem at 1, pz at 1, pw at 1. cbn [pbind prun rd_z m_data]. specialize (Hl i (or_introl eq_refl)) as Hi.
        replace ((i <? 0) || (zlen d <=? i)) with false by lia. cbn [prun wr m_data]. rewrite (zset_ok d i (repeat n0 (Z.to_nat (dm_c s))) Hi). cbn [rbind].
        unfold wr_data. cbn [m_kind m_r m_c m_vals m_idxs m_starts]. apply IH. intros j Hj. unfold zlen. rewrite length_list_set. apply Hl. right. exact Hj. }
      destruct (G (zrange 0 (dm_r s)) (repeat [] (Z.to_nat (dm_r s)))) as (d' & E1 & E2).
      { intros i Hi. apply in_zrange in Hi. unfold zlen. rewrite repeat_length. lia. }
      unfold wr_data. cbn [m_kind m_r m_c m_vals m_idxs m_starts]. cbn [rmap]. rewrite E1, E2. reflexivity.
    + unfold dv_Clear. unfold dv_Rows in D1. cbn -[make_slice]. unfold make_slice. replace (dv_l s <? 0) with false by lia. reflexivity.
    + reflexivity.
  - (* Values *) destruct m; reflexivity.
Qed.


(** a read-locked call other than Clear never changes the memory, not even for a moment *)
Theorem method_quiet m room k : zero_ok N -> wf m -> reads_only k -> guarded (plain_call k) -> wlock k <> LWrite ->
  quiet (method (storage_of m) room k) (flat m).
Proof.
  intros Hz Hw Hr Hg Hl. destruct k; cbn in Hl, Hg; try tauto; try congruence.
  - destruct m as [s|s|s|s|s]; cbn [method storage_of].
    1,2: apply quiet_update; [apply Hz|apply (stored_nz _ Hw eq_refl)|intros v; eexists; reflexivity].
    + unfold both_in_range, in_range. do 2 (apply quiet_bind; [cbn; auto|]; intros ? _; match goal with |- quiet (if ?b then _ else _) _ => destruct b; [exact Logic.I|] end).
      apply quiet_bind; [apply ra_cell|intros; exact Logic.I].
    + apply quiet_bind; [apply ra_d_AtVec|intros; exact Logic.I].
    + apply quiet_sv; [apply Hz|apply (stored_nz _ Hw eq_refl)|intros v; eexists; reflexivity].
  - destruct m as [s|s|s|s|s]; cbn [method storage_of].
    1,2: apply quiet_update; [apply Hz|apply (stored_nz _ Hw eq_refl)|intros v; eexists; reflexivity].
    + unfold both_in_range, in_range. do 2 (apply quiet_bind; [cbn; auto|]; intros ? _; match goal with |- quiet (if ?b then _ else _) _ => destruct b; [exact Logic.I|] end).
      apply quiet_bind; [apply ra_cell|intros; exact Logic.I].
    + apply quiet_bind; [apply ra_d_AtVec|intros; exact Logic.I].
    + apply quiet_bind; [apply ra_s_AtVec|intros; exact Logic.I].
  - apply ra_ColumnsAt.
  - apply ra_RowsAt.
  - apply ra_RowsAtToArray.
  - apply ra_Copy.
  - replace (method (storage_of m) room (WReads p)) with p by (destruct m; reflexivity). exact (Hr m Hw).
  - apply ra_dims; [reflexivity|discriminate].
  - apply ra_dims; [reflexivity|discriminate].
  - apply ra_dims; [reflexivity|discriminate].
Qed.

(** only the two dimensions are read *)
Fixpoint dims_only {A} (p : prog A) : Prop :=
  match p with
  | PRet _ | PStop | PHang => True
  | PRdZ l k => (l = ZR \/ l = ZC) /\ forall z, dims_only (k z)
  | PRdV _ _ | PWr _ _ => False
  end.
Lemma dims_nowrite {A} (p : prog A) : dims_only p -> nowrite p.
Proof. induction p as [a| | |l f IH|l f IH|u q IH]; cbn; try tauto. intros [_ H] z. auto. Qed.
Lemma dims_same {A} (p : prog A) x y : dims_only p -> m_r y = m_r x -> m_c y = m_c x -> snd (prun p y) = snd (prun p x).
Proof.
  intros H Er Ec. induction p as [a| | |l f IH|l f IH|u q IH]; cbn in *; try tauto; try reflexivity.
  destruct H as [[-> | ->] H]; cbn; [rewrite Er|rewrite Ec]; auto.
Qed.
Lemma method_dims s room k : wlock k = LNone -> k <> WValues \/ s = SDM \/ s = SDV -> dims_only (method (N := N) s room k).
Proof. intros L D. destruct k; cbn in L; try discriminate; destruct s; cbn; repeat split; auto; destruct D as [D|[D|D]]; congruence. Qed.

(** which programs write nowhere *)
Lemma nw_bind {A B} (p : prog A) (k : A -> prog B) : nowrite p -> (forall a, nowrite (k a)) -> nowrite (pbind p k).
Proof. induction p as [a| | |l f IH|l f IH|u q IH]; cbn; intros H K; auto; try tauto. Qed.
Lemma nw_if {A} (b : bool) (p q : prog A) : nowrite p -> nowrite q -> nowrite (if b then p else q).
Proof. destruct b; auto. Qed.
Lemma nw_lift {A} (r : res A) : nowrite (plift r). Proof. destruct r; exact Logic.I. Qed.
Lemma nw_fold {S I} (body : S -> I -> prog S) s l : (forall s i, nowrite (body s i)) -> nowrite (pfold body s l).
Proof. intros H. revert s. induction l as [|i l IH]; intros s; [exact Logic.I|]. cbn [pfold]. apply nw_bind; auto. Qed.
Lemma nw_elem {A} hdr (p : prog A) i : nowrite p -> nowrite (elem hdr p i).
Proof. intros H. unfold elem. apply nw_bind; [cbn; auto|]. intros n. apply nw_if; [exact Logic.I|exact H]. Qed.
Lemma nw_val i : nowrite (val i). Proof. apply nw_elem; cbn; auto. Qed.
Lemma nw_idx i : nowrite (idx i). Proof. apply nw_elem; cbn; auto. Qed.
Lemma nw_start i : nowrite (start i). Proof. apply nw_elem; cbn; auto. Qed.
Lemma nw_cell i j : nowrite (cell i j). Proof. apply nw_elem, nw_elem. cbn. auto. Qed.
Lemma nw_search fuel : forall b s e, nowrite (a_search fuel b s e).
Proof.
  induction fuel as [|fuel IH]; intros b s e; cbn [a_search]; [exact Logic.I|]. apply nw_if; [|exact Logic.I]. apply nw_bind; [apply nw_idx|]. intros y.
  apply nw_if; [apply IH|apply nw_if; [apply IH|exact Logic.I]].
Qed.
Lemma nw_s_search fuel : forall b s e, nowrite (s_search fuel b s e).
Proof.
  induction fuel as [|fuel IH]; intros b s e; cbn [s_search]; [exact Logic.I|]. apply nw_if; [|exact Logic.I]. apply nw_bind; [apply nw_idx|]. intros y.
  apply nw_if; [apply IH|apply nw_if; [apply IH|exact Logic.I]].
Qed.
Ltac nw := repeat first [exact Logic.I | apply nw_val | apply nw_idx | apply nw_start | apply nw_cell | apply nw_lift | apply nw_search | apply nw_s_search
  | apply nw_fold; intros | apply nw_if | apply nw_bind; [|intros] | progress (cbn; intros; exact Logic.I) | match goal with a : (_ * _)%type |- _ => destruct a end ].
Lemma nw_index a b : nowrite (a_index a b). Proof. unfold a_index. nw. Qed.
Lemma nw_hit ps pe b : nowrite (a_hit ps pe b). Proof. unfold a_hit. nw. Qed.
Lemma nw_s_AtVec i : nowrite (s_AtVec i).
Proof. unfold s_AtVec, in_range, s_index, a_hit. nw. Qed.
Lemma nw_d_AtVec i : nowrite (d_AtVec i).
Proof. unfold d_AtVec, in_range. nw. Qed.

(** the read-locked calls that write nowhere: all but Clear, and but At and Element where they go through Update *)
Definition reads_nothing_back (s : storage) (k : wcall (N := N)) : Prop :=
  match k, s with
  | WAt _ _, (SCSR | SCSC | SSV) | WElement _ _, (SCSR | SCSC) | WClear, _ => False
  | WReads p, _ => nowrite p
  | _, _ => True
  end.
Lemma method_nowrite s room k : wlock k = LRead -> reads_nothing_back s k -> nowrite (method s room k).
Proof.
  intros L H. destruct k; cbn in L; try discriminate; destruct s; cbn in H; try tauto; cbn [method]; try exact H;
    unfold both_in_range, in_range, a_across, a_along, a_copy, s_copy, d_copy, dm_copy; nw; try apply nw_index; try apply nw_hit; try apply nw_s_AtVec; try apply nw_d_AtVec.
Qed.

End AccessProofs.
