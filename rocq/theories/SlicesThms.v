(** Programs over shared arrays: what a step changes, and when objects are independent. *)
From Verif Require Import GoBase BaseProofs Num SparseVec Csr Csc DenseVec DenseMat Mat Slices SlicesProofs DenseProofs.

Section Groups.
Context {N : num}.
Implicit Types (st : store N) (o : sobj) (x y : thing) (a : act N) (ts : list thing).

(** Sharing groups, from the program text alone.  Whatever is new is alone in a group named
    by the number of the step; a dense vector or matrix made from a slice, a part of a slice
    and the result of [RawMatrix] join the group they are taken from; [Clear] leaves it. *)
Definition regroup (n : nat) (gs : list nat) a : list nat :=
  match a with
  | AFrom FDV t | AFrom FDM t | ASub t _ _ | ARaw t => gs ++ [nth t gs O]
  | AMake _ _ | AMake2 _ | ANew _ _ _ | AFrom _ _ | ACopy _ | ARow _ _ | ACol _ _ | ARowArr _ _ => gs ++ [n]
  | AClear t => list_set gs t n
  | _ => gs
  end.
Fixpoint group_all (n : nat) (gs : list nat) (p : list (act N)) : list nat :=
  match p with [] => gs | a :: p' => group_all (Datatypes.S n) (regroup n gs a) p' end.
Definition groups (p : list (act N)) : list nat := group_all O [] p.

(** what the step may change: the group of what it writes to *)
Definition touches (gs : list nat) a (j : nat) : Prop :=
  match a with
  | APoke t _ _ | APoke2 t _ _ _ | AUpdate t _ _ _ | ASet t _ _ _ | AAt t _ _ | ASetVec t _ _ | APut t _ _ | AReSize t _ =>
      nth j gs O = nth t gs O
  | AClear t => j = t
  | _ => False
  end.
Definition target a : option nat :=
  match a with
  | APoke t _ _ | APoke2 t _ _ _ | AUpdate t _ _ _ | ASet t _ _ _ | AAt t _ _ | ASetVec t _ _ | APut t _ _ | AReSize t _
  | AClear t => Some t
  | _ => None
  end.

(** a slice as an object *)
Definition tobj x : sobj :=
  match x with TObj o => o | TArr s => SDV (Z.of_nat (s_len s)) s | TArr2 d => SDM 0 0 d end.

Lemma see_view st st' x : view st' (tobj x) = view st (tobj x) -> see st' x = see st x.
Proof.
  destruct x; cbn; intros H; [congruence| |]; injection H as H; f_equal; exact H.
Qed.

Definition apart (l l' : list nat) : Prop := forall k, In k l -> ~ In k l'.

Record inv (n : nat) st ts (gs : list nat) : Prop := MkInv {
  inv_len : length gs = length ts;
  inv_tag : forall i, (i < length ts)%nat -> (nth i gs O < n)%nat;
  inv_own : forall i x, nth_error ts i = Some x -> owned st (tobj x);
  inv_sep : forall i j x y, nth_error ts i = Some x -> nth_error ts j = Some y -> nth i gs O <> nth j gs O ->
    apart (fv st (tobj x)) (fv st (tobj y)) /\ apart (fz (tobj x)) (fz (tobj y)) }.

Lemma fv_bound st o k : owned st o -> In k (fv st o) -> (k < length (st_v st))%nat.
Proof.
  destruct o as [r c v s e|r c v s e|l v s|l v|c r d]; cbn; intros H Hk.
  1,2,3,4: destruct Hk as [<-|[]]; apply H.
  apply in_map_iff in Hk as (s & <- & Hs). destruct H as (_ & H & _). rewrite Forall_forall in H. apply (H s Hs).
Qed.
Lemma fz_bound st o k : owned st o -> In k (fz o) -> (k < length (st_z st))%nat.
Proof.
  destruct o as [r c v s e|r c v s e|l v s|l v|c r d]; cbn; intros H Hk; try tauto.
  - destruct Hk as [<-|[<-|[]]]; apply H.
  - destruct Hk as [<-|[<-|[]]]; apply H.
  - destruct Hk as [<-|[]]; apply H.
Qed.

Lemma nth_app_l (l l' : list nat) i : (i < length l)%nat -> nth i (l ++ l') O = nth i l O.
Proof. intros. apply app_nth1. auto. Qed.
Lemma nth_app_last (l : list nat) (x : nat) : nth (length l) (l ++ [x]) O = x.
Proof. rewrite app_nth2, Nat.sub_diag; auto. Qed.

Lemma nth_error_add {A} (l : list A) (x : A) i (y : A) : nth_error (l ++ [x]) i = Some y ->
  (nth_error l i = Some y /\ (i < length l)%nat) \/ (i = length l /\ y = x).
Proof.
  intros H. destruct (Nat.lt_ge_cases i (length l)) as [L|L].
  - left. rewrite nth_error_app1 in H; auto.
  - right. rewrite nth_error_app2 in H by auto. destruct (i - length l)%nat as [|k] eqn:E; cbn in H.
    + injection H as <-. split; [lia|auto].
    + destruct k; discriminate.
Qed.

(** a step that writes to no array in use *)
Lemma inv_new n st ts gs st' x : inv n st ts gs -> made st st' (tobj x) ->
  inv (Datatypes.S n) st' (ts ++ [x]) (gs ++ [n]) /\ map (see st') ts = map (see st) ts.
Proof.
  intros I (K & Ho & Hv & Hz). pose proof (inv_len _ _ _ _ I) as Hl.
  assert (Hown : forall i y, nth_error ts i = Some y -> owned st' (tobj y)).
  { intros i y Hi. apply (owned_keep [] [] st); auto. eapply inv_own; eauto. }
  assert (Hfv : forall i y, nth_error ts i = Some y -> fv st' (tobj y) = fv st (tobj y)).
  { intros i y Hi. apply (fv_keep [] []); auto. eapply inv_own; eauto. }
  assert (Hap : forall i y, nth_error ts i = Some y ->
     apart (fv st' (tobj y)) (fv st' (tobj x)) /\ apart (fz (tobj y)) (fz (tobj x)) /\
     apart (fv st' (tobj x)) (fv st' (tobj y)) /\ apart (fz (tobj x)) (fz (tobj y))).
  { intros i y Hi. rewrite (Hfv i y Hi).
    pose proof (fv_bound st (tobj y)) as B1. pose proof (fz_bound st (tobj y)) as B2.
    assert (O : owned st (tobj y)) by (eapply inv_own; eauto).
    repeat split; intros k H1 H2; [specialize (B1 k O H1); specialize (Hv k H2)|specialize (B2 k O H1); specialize (Hz k H2)
      |specialize (B1 k O H2); specialize (Hv k H1)|specialize (B2 k O H2); specialize (Hz k H1)]; lia. }
  split.
  - constructor.
    + rewrite !app_length. cbn. lia.
    + intros i Hi. rewrite app_length in Hi. cbn in Hi. destruct (Nat.eq_dec i (length ts)) as [->|].
      * rewrite <- Hl, nth_app_last. lia.
      * rewrite nth_app_l by lia. pose proof (inv_tag _ _ _ _ I i). lia.
    + intros i y Hi. apply nth_error_add in Hi as [[Hi _]|[-> ->]]; eauto.
    + intros i j y z Hi Hj Hg.
      apply nth_error_add in Hi as [[Hi Li]|[-> ->]]; apply nth_error_add in Hj as [[Hj Lj]|[-> ->]].
      * rewrite (Hfv i y Hi), (Hfv j z Hj). rewrite !nth_app_l in Hg by lia. eapply inv_sep; eauto.
      * destruct (Hap i y Hi) as (A & B & _). auto.
      * destruct (Hap j z Hj) as (_ & _ & A & B). auto.
      * congruence.
  - apply map_ext_in. intros y Hy. apply In_nth_error in Hy as [i Hi]. apply see_view.
    apply (view_keep [] [] st); auto. eapply inv_own; eauto.
Qed.

Lemma inv_share n st ts gs t x y : inv n st ts gs -> nth_error ts t = Some y -> owned st (tobj x) ->
  (forall k, In k (fv st (tobj x)) -> In k (fv st (tobj y))) -> (forall k, In k (fz (tobj x)) -> In k (fz (tobj y))) ->
  inv (Datatypes.S n) st (ts ++ [x]) (gs ++ [nth t gs O]).
Proof.
  intros I Ht Ho Hv Hz. pose proof (inv_len _ _ _ _ I) as Hl.
  assert (Lt : (t < length ts)%nat) by (apply nth_error_Some; congruence).
  constructor.
  - rewrite !app_length. cbn. lia.
  - intros i Hi. rewrite app_length in Hi. cbn in Hi. destruct (Nat.eq_dec i (length ts)) as [->|].
    + rewrite <- Hl, nth_app_last. pose proof (inv_tag _ _ _ _ I t Lt). lia.
    + rewrite nth_app_l by lia. pose proof (inv_tag _ _ _ _ I i). lia.
  - intros i z Hi. apply nth_error_add in Hi as [[Hi _]|[-> ->]]; auto. eapply inv_own; eauto.
  - intros i j u z Hi Hj Hg.
    apply nth_error_add in Hi as [[Hi Li]|[-> ->]]; apply nth_error_add in Hj as [[Hj Lj]|[-> ->]].
    + rewrite !nth_app_l in Hg by lia. eapply inv_sep; eauto.
    + rewrite nth_app_l in Hg by lia. rewrite <- Hl, nth_app_last in Hg.
      destruct (inv_sep _ _ _ _ I i t u y Hi Ht Hg) as [A B].
      split; intros k H1 H2; [apply (A k H1)|apply (B k H1)]; auto.
    + rewrite (nth_app_l _ _ j) in Hg by lia. rewrite <- Hl, nth_app_last in Hg.
      destruct (inv_sep _ _ _ _ I t j y z Ht Hj Hg) as [A B].
      split; intros k H1 H2; [apply (A k)|apply (B k)]; auto.
    + congruence.
Qed.

Lemma nth_error_put {A} (l : list A) t (x : A) i (y : A) : nth_error (list_set l t x) i = Some y ->
  (i <> t /\ nth_error l i = Some y) \/ (i = t /\ y = x /\ (t < length l)%nat).
Proof.
  intros H. assert (Hi : (i < length (list_set l t x))%nat) by (apply nth_error_Some; congruence).
  rewrite length_list_set_any in Hi.
  destruct (Nat.eq_dec i t) as [->|Hn].
  - right. rewrite nth_error_list_set_eq in H by auto. injection H as <-. auto.
  - left. rewrite nth_error_list_set_neq in H by auto. auto.
Qed.

(** a step that replaces something by what it has moved to *)
Lemma inv_put n st ts gs st' t x x' : inv n st ts gs -> nth_error ts t = Some x -> moved st (tobj x) st' (tobj x') ->
  inv (Datatypes.S n) st' (list_set ts t x') gs /\
  (forall j y, nth_error ts j = Some y -> nth j gs O <> nth t gs O -> see st' y = see st y).
Proof.
  intros I Ht (K & Ho & Hv & Hz). pose proof (inv_len _ _ _ _ I) as Hl.
  assert (Hown : forall i y, nth_error ts i = Some y -> owned st' (tobj y)).
  { intros i y Hi. eapply owned_keep; eauto. eapply inv_own; eauto. }
  assert (Hfv : forall i y, nth_error ts i = Some y -> fv st' (tobj y) = fv st (tobj y)).
  { intros i y Hi. eapply fv_keep; eauto. eapply inv_own; eauto. }
  split.
  - constructor.
    + rewrite length_list_set_any. auto.
    + rewrite length_list_set_any. intros i Hi. pose proof (inv_tag _ _ _ _ I i Hi). lia.
    + intros i y Hi. apply nth_error_put in Hi as [[_ Hi]|(-> & -> & _)]; eauto.
    + assert (Hap : forall i y, nth_error ts i = Some y -> nth i gs O <> nth t gs O ->
         (forall k, In k (fv st' (tobj y)) -> In k (fv st' (tobj x')) -> False) /\
         (forall k, In k (fz (tobj y)) -> In k (fz (tobj x')) -> False)).
      { intros i y Hi Hg. rewrite (Hfv i y Hi). destruct (inv_sep _ _ _ _ I i t y x Hi Ht Hg) as [A B].
        assert (O : owned st (tobj y)) by (eapply inv_own; eauto). split; intros k H1 H2.
        - destruct (Hv k H2); [apply (A k); auto|]. pose proof (fv_bound st (tobj y) k O H1). lia.
        - destruct (Hz k H2); [apply (B k); auto|]. pose proof (fz_bound st (tobj y) k O H1). lia. }
      intros i j y z Hi Hj Hg.
      apply nth_error_put in Hi as [[Ni Hi]|(-> & -> & _)]; apply nth_error_put in Hj as [[Nj Hj]|(-> & -> & _)].
      * rewrite (Hfv i y Hi), (Hfv j z Hj). eapply inv_sep; eauto.
      * destruct (Hap i y Hi Hg) as [A B]. split; intros k H1 H2; eauto.
      * destruct (Hap j z Hj (not_eq_sym Hg)) as [A B]. split; intros k H1 H2; eauto.
      * congruence.
  - intros j y Hj Hg. apply see_view. destruct (inv_sep _ _ _ _ I j t y x Hj Ht Hg) as [A B].
    eapply view_keep; eauto. eapply inv_own; eauto.
Qed.

(** a step that replaces something by something new *)
Lemma inv_clear n st ts gs st' t x' : inv n st ts gs -> made st st' (tobj x') ->
  inv (Datatypes.S n) st' (list_set ts t x') (list_set gs t n) /\ map (see st') ts = map (see st) ts.
Proof.
  intros I M. pose proof (inv_len _ _ _ _ I) as Hl. destruct (inv_new _ _ _ _ _ _ I M) as [J E]. split; [|exact E].
  assert (Hnth : forall i, (i < length ts)%nat -> (t < length ts)%nat -> nth i (list_set gs t n) O = if Nat.eqb i t then n else nth i gs O).
  { intros i Hi Ht. apply nth_list_set. lia. }
  assert (Hold : forall i y, nth_error ts i = Some y -> nth_error (ts ++ [x']) i = Some y).
  { intros i y Hi. rewrite nth_error_app1; auto. apply nth_error_Some. congruence. }
  assert (Hnew : nth_error (ts ++ [x']) (length ts) = Some x').
  { rewrite nth_error_app2, Nat.sub_diag; auto. }
  assert (Ltn : forall i y, nth_error ts i = Some y -> (i < length ts)%nat) by (intros; apply nth_error_Some; congruence).
  constructor.
  - rewrite !length_list_set_any. auto.
  - rewrite length_list_set_any. intros i Hi. pose proof (inv_tag _ _ _ _ I i Hi).
    destruct (Nat.lt_ge_cases t (length ts)) as [Lt|Lt].
    + rewrite Hnth by auto. destruct (Nat.eqb i t); lia.
    + replace (list_set gs t n) with gs; [lia|]. symmetry. clear -Lt Hl. rewrite <- Hl in Lt. clear Hl.
      revert t Lt. induction gs; intros [|t]; cbn; intros; auto; try lia. f_equal. apply IHgs. lia.
  - intros i y Hi. apply nth_error_put in Hi as [[_ Hi]|(-> & -> & _)].
    + eapply (inv_own _ _ _ _ J); eauto.
    + eapply (inv_own _ _ _ _ J); eauto.
  - intros i j y z Hi Hj Hg.
    apply nth_error_put in Hi as [[Ni Hi]|(-> & -> & Li)]; apply nth_error_put in Hj as [[Nj Hj]|(-> & -> & Lj)].
    + eapply (inv_sep _ _ _ _ J i j); eauto. rewrite !nth_app_l by (rewrite Hl; eauto).
      destruct (Nat.lt_ge_cases t (length ts)) as [Lt|Lt].
      * rewrite !Hnth in Hg by eauto. apply Nat.eqb_neq in Ni, Nj. rewrite Ni, Nj in Hg. auto.
      * replace (list_set gs t n) with gs in Hg; [auto|]. symmetry. clear -Lt Hl. rewrite <- Hl in Lt. clear Hl.
        revert t Lt. induction gs; intros [|t]; cbn; intros; auto; try lia. f_equal. apply IHgs. lia.
    + eapply (inv_sep _ _ _ _ J i (length ts)); eauto. rewrite nth_app_l by (rewrite Hl; eauto).
      rewrite <- Hl, nth_app_last. pose proof (inv_tag _ _ _ _ I i (Ltn _ _ Hi)). lia.
    + eapply (inv_sep _ _ _ _ J (length ts) j); eauto. rewrite (nth_app_l _ _ j) by (rewrite Hl; eauto).
      rewrite <- Hl, nth_app_last. pose proof (inv_tag _ _ _ _ I j (Ltn _ _ Hj)). lia.
    + congruence.
Qed.
(** ** The length field of the dense vectors that the functions make *)
Lemma rfold_inv {S A} (P : S -> Prop) (f : S -> A -> res S) l : (forall s e s', P s -> f s e = Ok s' -> P s') ->
  forall s s', P s -> rfold f s l = Ok s' -> P s'.
Proof.
  intros H. induction l as [|a l IH]; cbn; intros s s' Hs E; [congruence|].
  destruct (f s a) as [s1| |] eqn:E1; cbn in E; try discriminate. eauto.
Qed.
Definition dvl (v : dvec N) : Prop := dv_l v = zlen (dv_values v).
Lemma dvl_new l v : newDenseVector l = Ok v -> dvl v.
Proof.
  unfold newDenseVector, make_slice. destruct (Z.ltb_spec l 0); cbn; [discriminate|]. intros [= <-].
  unfold dvl, zlen. cbn. rewrite repeat_length. lia.
Qed.
Lemma dvl_set v i z v' : dvl v -> dv_SetVec v i z = Ok v' -> dvl v'.
Proof.
  unfold dvl, dv_SetVec, zset. destruct (_ || _); [discriminate|]. destruct (_ || _); cbn; [discriminate|].
  intros H [= <-]. cbn. unfold zlen in *. rewrite length_list_set_any. auto.
Qed.
Lemma dvl_copy v v' : dv_copy v = Ok v' -> dvl v'.
Proof.
  unfold dv_copy. destruct (newDenseVector _) as [t| |] eqn:E; cbn; try discriminate.
  apply (rfold_inv dvl); [|eapply dvl_new; eauto]. intros s k s' Hs. destruct (zget _ k); cbn; try discriminate.
  apply dvl_set; auto.
Qed.
Lemma lens_new k r c M : new_mat k r c = Ok M -> lens_ok (N := N) M.
Proof.
  destruct k; cbn; unfold rmap.
  1,2,3,5: match goal with |- context [rbind ?x _] => destruct x end; cbn; try discriminate; intros [= <-]; exact I.
  destruct (newDenseVector r) as [v| |] eqn:E; cbn; try discriminate. intros [= <-]. cbn. eapply dvl_new; eauto.
Qed.
Lemma lens_copy (A : mat N) M : mat_Copy A = Ok M -> lens_ok M.
Proof.
  destruct A; cbn; unfold rmap.
  1,2,3,5: match goal with |- context [rbind ?x _] => destruct x end; cbn; try discriminate; intros [= <-]; exact I.
  destruct (dv_copy s) as [v| |] eqn:E; cbn; try discriminate. intros [= <-]. cbn. eapply dvl_copy; eauto.
Qed.
Lemma lens_clear (A : mat N) M : mat_Clear A = Ok M -> lens_ok M.
Proof.
  destruct A as [s|s|s|s|s]; cbn; unfold rmap.
  1,2,3: match goal with |- context [rbind ?x _] => destruct x end; cbn; try discriminate; intros [= <-]; exact I.
  - unfold dv_Clear, make_slice. destruct (Z.ltb_spec (dv_l s) 0); cbn; [discriminate|]. intros [= <-]. cbn.
    unfold zlen. rewrite repeat_length. lia.
  - intros [= <-]. exact I.
Qed.
Lemma lens_row (A : mat N) r M : mat_RowsAt A r = Ok M -> lens_ok M.
Proof.
  destruct A as [s|s|s|s|s]; cbn; unfold rmap.
  1,2,5: match goal with |- context [rbind ?x _] => destruct x end; cbn; try discriminate; intros [= <-]; exact I.
  - destruct (dm_RowsAt s r) as [v| |] eqn:E; cbn; try discriminate. intros [= <-]. cbn. revert E. unfold dm_RowsAt.
    destruct (_ || _); [discriminate|]. destruct (newDenseVector _) as [u| |] eqn:E; cbn; try discriminate.
    apply (rfold_inv dvl); [|eapply dvl_new; eauto]. intros a k a' Ha. destruct (dm_read _ _ _); cbn; try discriminate. apply dvl_set; auto.
  - destruct (dv_RowsAt s r) as [v| |] eqn:E; cbn; try discriminate. intros [= <-]. cbn. revert E. unfold dv_RowsAt.
    destruct (_ || _); [discriminate|]. destruct (newDenseVector _) as [u| |] eqn:E; cbn; try discriminate.
    destruct (dv_AtVec _ _); cbn; try discriminate. apply dvl_set. eapply dvl_new; eauto.
Qed.
Lemma lens_col (A : mat N) c M : mat_ColumnsAt A c = Ok M -> lens_ok M.
Proof.
  destruct A as [s|s|s|s|s]; cbn; unfold rmap.
  1,2,5: match goal with |- context [rbind ?x _] => destruct x end; cbn; try discriminate; intros [= <-]; exact I.
  - destruct (dm_ColumnsAt s c) as [v| |] eqn:E; cbn; try discriminate. intros [= <-]. cbn. revert E. unfold dm_ColumnsAt.
    destruct (_ || _); [discriminate|]. destruct (newDenseVector _) as [u| |] eqn:E; cbn; try discriminate.
    apply (rfold_inv dvl); [|eapply dvl_new; eauto]. intros a k a' Ha. destruct (dm_read _ _ _); cbn; try discriminate. apply dvl_set; auto.
  - destruct (dv_ColumnsAt s c) as [v| |] eqn:E; cbn; try discriminate. intros [= <-]. cbn. revert E. unfold dv_ColumnsAt.
    destruct (_ || _); [discriminate|]. apply dvl_copy.
Qed.

(** ** One step beside the step over values *)
Definition exact_act a : Prop :=
  match a with ASub _ _ _ => False | AReSize _ size => 0 <= size | _ => True end.

Definition rel n st ts gs a (p : store N * list thing) (ls : list (lthing N)) : Prop :=
  inv (Datatypes.S n) (fst p) (snd p) (regroup n gs a) /\ length (snd p) = length ls /\
  forall j, (touches gs a j -> target a = Some j) -> nth_error (map (see (fst p)) (snd p)) j = nth_error ls j.

Lemma the_obj_sim st ts t :
  sim (fun o M => nth_error ts t = Some (TObj o) /\ M = view st o) (the_obj ts t) (l_obj (map (see st) ts) t).
Proof. unfold the_obj, l_obj. rewrite nth_error_map. destruct (nth_error ts t) as [[o|s|d]|]; cbn; auto. Qed.
Lemma the_arr_sim st ts t :
  sim (fun s l => nth_error ts t = Some (TArr s) /\ l = contents (st_v st) s) (the_arr ts t) (l_arr (map (see st) ts) t).
Proof. unfold the_arr, l_arr. rewrite nth_error_map. destruct (nth_error ts t) as [[o|s|d]|]; cbn; auto. Qed.
Lemma the_arr2_sim st ts t :
  sim (fun d l => nth_error ts t = Some (TArr2 d) /\ l = grid st d) (the_arr2 ts t) (l_arr2 (map (see st) ts) t).
Proof. unfold the_arr2, l_arr2. rewrite nth_error_map. destruct (nth_error ts t) as [[o|s|d]|]; cbn; auto. Qed.

Lemma list_set_map {A B} (g : A -> B) l n z : map g (list_set l n z) = list_set (map g l) n (g z).
Proof. revert n. induction l; intros [|n]; cbn; auto. f_equal. auto. Qed.

(** the step has made [x], which shows [l] *)
Lemma rel_new n st ts gs a st' x l : inv n st ts gs -> made st st' (tobj x) -> see st' x = l ->
  regroup n gs a = gs ++ [n] -> rel n st ts gs a (st', ts ++ [x]) (map (see st) ts ++ [l]).
Proof.
  intros I M E G. destruct (inv_new _ _ _ _ _ _ I M) as [J Em]. unfold rel. rewrite G. cbn [fst snd].
  split; [exact J|]. rewrite !app_length, map_length. split; [reflexivity|]. intros j _.
  rewrite map_app, Em. cbn [map]. rewrite E. reflexivity.
Qed.
Lemma rel_build sp n st ts gs a M : inv n st ts gs -> lens_ok M -> regroup n gs a = gs ++ [n] ->
  rel n st ts gs a (add ts (build sp st M)) (map (see st) ts ++ [LObj M]).
Proof.
  intros I L G. destruct (build sp st M) as [st' o] eqn:E. destruct (build_spec sp st M st' o L E) as [V Md].
  apply (rel_new n st ts gs a st' (TObj o)); auto. cbn. congruence.
Qed.
Lemma rel_share n st ts gs a t y x l : inv n st ts gs -> nth_error ts t = Some y -> owned st (tobj x) ->
  (forall k, In k (fv st (tobj x)) -> In k (fv st (tobj y))) -> (forall k, In k (fz (tobj x)) -> In k (fz (tobj y))) ->
  see st x = l -> regroup n gs a = gs ++ [nth t gs O] -> rel n st ts gs a (st, ts ++ [x]) (map (see st) ts ++ [l]).
Proof.
  intros I Ht Ho Hv Hz E G. pose proof (inv_share _ _ _ _ _ _ _ I Ht Ho Hv Hz) as J. unfold rel. rewrite G. cbn [fst snd].
  split; [exact J|]. rewrite !app_length, map_length. split; [reflexivity|]. intros j _.
  rewrite map_app. cbn [map]. rewrite E. reflexivity.
Qed.
Lemma rel_put n st ts gs a t x st' x' l : inv n st ts gs -> nth_error ts t = Some x -> moved st (tobj x) st' (tobj x') ->
  see st' x' = l -> regroup n gs a = gs -> target a = Some t -> (forall j, touches gs a j <-> nth j gs O = nth t gs O) ->
  rel n st ts gs a (st', list_set ts t x') (list_set (map (see st) ts) t l).
Proof.
  intros I Ht Mv E G T H. destruct (inv_put _ _ _ _ _ _ _ _ I Ht Mv) as [J F]. unfold rel. rewrite G. cbn [fst snd].
  split; [exact J|]. rewrite !length_list_set_any, map_length. split; [reflexivity|]. intros j Hj.
  rewrite list_set_map, E. rewrite !nth_error_list_set. destruct (Nat.eqb_spec t j) as [->|Hn].
  - rewrite !nth_error_map, Ht. reflexivity.
  - rewrite !nth_error_map. destruct (nth_error ts j) as [y|] eqn:Ey; [|reflexivity]. cbn. f_equal.
    apply (F j y Ey). intros Hg. apply H in Hg. specialize (Hj Hg). congruence.
Qed.
Lemma list_set_same' {A} (l : list A) n z : nth_error l n = Some z -> list_set l n z = l.
Proof. revert n. induction l; intros [|n]; cbn; try discriminate; [intros [= <-]; auto|]. intros H. f_equal. auto. Qed.

Lemma do_sim sp n st ts gs a : inv n st ts gs -> exact_act a ->
  sim (rel n st ts gs a) (do sp st ts a) (l_step (map (see st) ts) a).
Proof.
  intros J Hx. destruct a as [xs extra|xss|t lo hi|t i x|t i j x|k r c|k t|t|t r|t c|t r|t|t i j f|t i j x|t i j|t i x|t it x|t|t size];
    cbn [do l_step].
  - destruct (fresh extra (st_v st) xs) as [m s] eqn:E. destruct (fresh_spec _ _ _ _ _ E) as (K & V & C & A & L). cbn [sim].
    apply rel_new with (1 := J); [|cbn; congruence|reflexivity].
    split; [|split; [|split]]; cbn.
    + split; [exact K|]. split; apply keeps_refl.
    + auto.
    + intros q [<-|[]]. lia.
    + tauto.
  - destruct (build sp st (MDM (MkDense 0 0 xss))) as [st' o] eqn:E. pose proof E as E'. cbn in E.
    destruct (fresh_rows (st_v st) xss) as [m rows] eqn:E1. injection E as <- <-.
    destruct (build_spec sp st (MDM (MkDense 0 0 xss)) _ _ I E') as [V M].
    cbn [sim fresh]. apply rel_new with (1 := J); [exact M| |reflexivity].
    cbn in V |- *. injection V as V. f_equal. exact V.
  - destruct Hx.
  - (* APoke *)
    eapply sim_bind; [apply the_arr_sim|]. intros s l [Ht ->].
    pose proof (inv_own _ _ _ _ J t _ Ht) as Ho.
    pose proof (dv_SetVec_sim st _ s i x Ho) as S.
    destruct (sset _ _ _ _) as [m| |], (zset _ _ _) as [lv| |]; cbn [sim rbind rmap] in S |- *; auto; try (destruct S; fail).
    destruct S as [S1 S2]. cbn in S1. injection S1 as S1.
    replace ts with (list_set ts t (TArr s)) at 2 by (apply list_set_same'; auto).
    apply rel_put with (1 := J) (2 := Ht); auto; [cbn; congruence|]. intros q. cbn. tauto.
  - (* APoke2 *)
    eapply sim_bind; [apply the_arr2_sim|]. intros d l [Ht ->].
    pose proof (inv_own _ _ _ _ J t _ Ht) as Ho.
    pose proof (dm_write_sim st _ _ d i j x Ho) as S. unfold dm_write in S. cbn [dm_data] in S. fold (grid st d) in S.
    assert (Eg : zget (grid st d) i = rmap (contents (st_v st)) (sget (st_o st) d i)) by apply zget_map.
    rewrite Eg in S |- *. destruct (sget (st_o st) d i) as [row| |]; cbn [rbind rmap] in S |- *; auto.
    clear Eg; generalize dependent (contents (st_v st) row). intros row1 S.
    destruct (sset _ _ _ _) as [m| |], (zset row1 j x) as [q| |]; cbn [rbind] in S |- *; auto;
      try (destruct (zset (grid st d) i q)); cbn in S |- *; auto; try (destruct S; fail).
    destruct S as [S1 S2]. cbn in S1. injection S1 as S1.
    replace ts with (list_set ts t (TArr2 d)) at 2 by (apply list_set_same'; auto).
    apply rel_put with (1 := J) (2 := Ht); auto; [cbn; f_equal; exact S1|]. intros u. cbn. tauto.
  - (* ANew *)
    destruct (new_mat k r c) as [M| |] eqn:E; cbn; auto. apply rel_build; auto. eapply lens_new; eauto.
  - (* AFrom *)
    destruct k.
    + eapply sim_bind; [apply the_arr2_sim|]. intros d l [Ht ->].
      destruct (NewCSRMatrixFromArray (grid st d)) as [M| |] eqn:E; cbn [rbind sim]; auto. apply rel_build; auto; exact I.
    + eapply sim_bind; [apply the_arr2_sim|]. intros d l [Ht ->].
      destruct (NewCSCMatrixFromArray (grid st d)) as [M| |] eqn:E; cbn [rbind sim]; auto. apply rel_build; auto; exact I.
    + eapply sim_bind; [apply the_arr2_sim|]. intros d l [Ht ->].
      pose proof (inv_own _ _ _ _ J t _ Ht) as Ho. pose proof Ho as (V1 & V2 & V3).
      unfold NewDenseMatrixFromArray, grid. rewrite zget_map. unfold sget. fold (rows_of st d).
      destruct (zget (rows_of st d) 0) as [row0| |] eqn:E; cbn [rbind rmap]; try exact I.
      assert (Vr : valid (st_v st) row0).
      { apply zget_nth in E as [_ E]. rewrite Forall_forall in V2. apply V2. eapply nth_error_In; eauto. }
      rewrite newMatrix_spec by (unfold zlen; lia). cbn [rbind sim].
      apply rel_share with (1 := J) (2 := Ht); auto. cbn. rewrite zlen_contents by auto.
      unfold zlen. rewrite map_length. do 3 f_equal. unfold rows_of. rewrite length_contents; auto.
    + eapply sim_bind; [apply the_arr_sim|]. intros s l [Ht ->].
      pose proof (inv_own _ _ _ _ J t _ Ht) as Ho. unfold NewDenseVectorFromArray.
      rewrite newDenseVector_spec by (unfold zlen; lia). cbn [rbind sim].
      apply rel_share with (1 := J) (2 := Ht); auto. cbn. do 3 f_equal. rewrite zlen_contents; auto. apply Ho.
    + eapply sim_bind; [apply the_arr_sim|]. intros s l [Ht ->].
      destruct (NewSparseVectorFromArray _) as [M| |] eqn:E; cbn [rbind sim]; auto. apply rel_build; auto; exact I.
  - (* ACopy *)
    eapply sim_bind; [apply the_obj_sim|]. intros o M0 [Ht ->].
    destruct (mat_Copy _) as [M| |] eqn:E; cbn [rbind sim]; auto. apply rel_build; auto. eapply lens_copy; eauto.
  - eapply sim_bind; [apply the_obj_sim|]. intros o M0 [Ht ->].
    destruct (mat_RowsAt _ _) as [M| |] eqn:E; cbn [rbind sim]; auto. apply rel_build; auto. eapply lens_row; eauto.
  - eapply sim_bind; [apply the_obj_sim|]. intros o M0 [Ht ->].
    destruct (mat_ColumnsAt _ _) as [M| |] eqn:E; cbn [rbind sim]; auto. apply rel_build; auto. eapply lens_col; eauto.
  - eapply sim_bind; [apply the_obj_sim|]. intros o M0 [Ht ->].
    destruct (mat_RowsAtToArray _ _) as [xs| |] eqn:E; cbn [rbind sim]; auto.
    destruct (fresh [] (st_v st) xs) as [m s] eqn:Ef. destruct (fresh_spec _ _ _ _ _ Ef) as (K & V & C & A & L). cbn [sim].
    apply rel_new with (1 := J); [|cbn; congruence|reflexivity].
    split; [|split; [|split]]; cbn.
    + split; [exact K|]. split; apply keeps_refl.
    + auto.
    + intros q [<-|[]]. lia.
    + tauto.
  - (* ARaw *)
    eapply sim_bind; [apply the_obj_sim|]. intros o M0 [Ht ->].
    destruct o as [r c v s e|r c v s e|l v s|l v|c r d]; cbn; auto.
    apply rel_share with (1 := J) (2 := Ht); auto. apply (inv_own _ _ _ _ J t _ Ht).
  - (* AUpdate *)
    eapply sim_bind; [apply the_obj_sim|]. intros o M0 [Ht ->].
    rewrite mat_Update_W. pose proof (Update_sim sp st o i j (fun v => (tt, f v)) (inv_own _ _ _ _ J t _ Ht)) as S. 
    destruct (s_Update _ _ _ _ _ _) as [[[w st'] o']| |], (mat_UpdateW _ _ _ _) as [[w' M']| |]; cbn [rbind sim] in S |- *; auto; try (destruct S; fail).
    destruct S as (_ & E & Mv). cbn [snd] in E. apply rel_put with (1 := J) (2 := Ht); auto; [cbn; congruence|]. intros u. cbn. tauto.
  - (* ASet *)
    eapply sim_bind; [apply the_obj_sim|]. intros o M0 [Ht ->].
    eapply sim_bind; [apply (Set_sim sp st o i j x (inv_own _ _ _ _ J t _ Ht))|]. intros [st' o'] M' [E Mv]. cbn [fst snd] in *.
    apply rel_put with (1 := J) (2 := Ht); auto; [cbn; congruence|]. intros u. cbn. tauto.
  - (* AAt *)
    eapply sim_bind; [apply the_obj_sim|]. intros o M0 [Ht ->].
    eapply sim_bind; [apply (At_sim sp st o i j (inv_own _ _ _ _ J t _ Ht))|]. intros [[w st'] o'] [w' M'] (_ & E & Mv). cbn [fst snd] in *.
    apply rel_put with (1 := J) (2 := Ht); auto; [cbn; congruence|]. intros u. cbn. tauto.
  - (* ASetVec *)
    eapply sim_bind; [apply the_obj_sim|]. intros o M0 [Ht ->].
    eapply sim_bind; [apply (SetVec_sim sp st o i x (inv_own _ _ _ _ J t _ Ht))|]. intros [st' o'] M' [E Mv]. cbn [fst snd] in *.
    apply rel_put with (1 := J) (2 := Ht); auto; [cbn; congruence|]. intros u. cbn. tauto.
  - (* APut *)
    eapply sim_bind; [apply the_obj_sim|]. intros o M0 [Ht ->].
    eapply sim_bind; [apply (put_sim sp st o it x (inv_own _ _ _ _ J t _ Ht))|]. intros [st' o'] M' [E Mv]. cbn [fst snd] in *.
    apply rel_put with (1 := J) (2 := Ht); auto; [cbn; congruence|]. intros u. cbn. tauto.
  - (* AClear *)
    eapply sim_bind; [apply the_obj_sim|]. intros o M0 [Ht ->].
    destruct (mat_Clear (view st o)) as [M| |] eqn:E; cbn [rbind sim]; auto.
    destruct (build sp st M) as [st' o'] eqn:Eb. destruct (build_spec sp st M st' o' (lens_clear _ _ E) Eb) as [V Md].
    destruct (inv_clear _ _ _ _ _ t (TObj o') J Md) as [J' Em].
    unfold rel, put. cbn [fst snd regroup]. split; [exact J'|]. rewrite !length_list_set_any, map_length. split; [reflexivity|].
    intros j _. rewrite list_set_map, Em. cbn [see]. rewrite V. reflexivity.
  - (* AReSize *)
    eapply sim_bind; [apply the_obj_sim|]. intros o M0 [Ht ->].
    pose proof (ReSize_sim sp st o size (inv_own _ _ _ _ J t _ Ht) Hx) as S. unfold l_ReSize in S.
    destruct (s_ReSize sp st o size) as [[st' o']| |], (view st o) as [a|a|a|a|a]; cbn [rbind sim] in S |- *; auto; try (destruct S; fail);
      destruct (dv_ReSize a size) as [[l v]| |]; cbn [rbind sim] in S |- *; auto; try (destruct S; fail).
    destruct S as [E Mv]. cbn [fst snd] in *.
    apply rel_put with (1 := J) (2 := Ht); auto; [cbn; congruence|]. intros u. cbn. tauto.
Qed.
(** ** Every step keeps the invariant and changes only what it touches *)
Lemma ReSize_moved sp st o size st' o' : owned st o -> s_ReSize sp st o size = Ok (st', o') -> moved st o st' o'.
Proof.
  intros Ho. destruct o as [r c v k s|r c v k s|l v k|l v|c r d]; try discriminate. destruct Ho as [V1 V2]. cbn [s_ReSize].
  assert (fin : forall m v' lv, renewed (st_v st) v m v' lv ->
     moved st (SDV l v) (MkStore m (st_z st) (st_o st)) (SDV (Z.of_nat (s_len v')) v')).
  { intros m v' lv (K & W & C & A). split; [|split; [|split]]; cbn.
    - split; [exact K|]. split; apply keeps_refl.
    - auto.
    - intros a [<-|[]]. destruct A; auto.
    - auto. }
  destruct (size >? l); [|destruct (size <? l)].
  - destruct (make_slice n0 (size - l)) as [arr| |]; cbn [rbind]; try discriminate.
    destruct (append (sp_v1 sp) (st_v st) v arr) as [m v'] eqn:E. cbn. intros [= <- <-]. eapply fin, append_spec; eauto.
  - destruct (to v (l - size)) as [w| |] eqn:E; cbn [rbind]; try discriminate.
    destruct (fresh (sp_v1 sp) (st_v st) (contents (st_v st) w)) as [m v'] eqn:Ef.
    destruct (fresh_spec _ _ _ _ _ Ef) as (K & W & Cf & Af & _). cbn. intros [= <- <-]. eapply fin.
    split; [apply (keeps_weaken []); auto; cbn; tauto|]. split; [auto|]. split; [exact Cf|]. right. lia.
  - cbn. intros [= <- <-]. eapply fin. apply renewed_same; auto using keeps_refl.
Qed.

Lemma length_list_set_l {A} (l : list A) k (z : A) j : j <> k -> nth_error (list_set l k z) j = nth_error l j.
Proof. intros H. apply nth_error_list_set_neq. auto. Qed.

Lemma l_frame (ls ls' : list (lthing N)) a j : l_step ls a = Ok ls' -> (j < length ls)%nat -> target a <> Some j ->
  nth_error ls' j = nth_error ls j.
Proof.
  intros E Hj Ht.
  assert (Add : forall z, nth_error (ls ++ [z]) j = nth_error ls j) by (intros; apply nth_error_app1; auto).
  assert (Put : forall t (z : lthing N), target a = Some t -> nth_error (list_set ls t z) j = nth_error ls j).
  { intros t z T. apply length_list_set_l. congruence. }
  destruct a as [xs extra|xss|t lo hi|t i x|t i k x|k r c|k t|t|t r|t c|t r|t|t i k f|t i k x|t i k|t i x|t it x|t|t size]; cbn [l_step] in E;
    try (injection E as <-; auto; fail);
    try (destruct k);
    repeat (match type of E with
            | rbind ?m _ = _ => destruct m; cbn [rbind] in E; try discriminate
            | (let '(_, _) := ?m in _) = _ => destruct m
            | match ?m with _ => _ end = _ => destruct m; try discriminate
            end);
    injection E as <-; auto.
Qed.

Lemma do_inv sp n st ts gs a st' ts' : inv n st ts gs -> do sp st ts a = Ok (st', ts') ->
  inv (Datatypes.S n) st' ts' (regroup n gs a) /\ (length ts <= length ts')%nat /\
  forall j, (j < length ts)%nat -> ~ touches gs a j -> nth_error (map (see st') ts') j = nth_error (map (see st) ts) j.
Proof.
  intros J E.
  assert (main : exact_act a -> inv (Datatypes.S n) st' ts' (regroup n gs a) /\ (length ts <= length ts')%nat /\
    forall j, (j < length ts)%nat -> ~ touches gs a j -> nth_error (map (see st') ts') j = nth_error (map (see st) ts) j).
  { intros Hx. pose proof (do_sim sp n st ts gs a J Hx) as S. rewrite E in S.
    destruct (l_step (map (see st) ts) a) as [ls| |] eqn:El; cbn in S; try contradiction.
    destruct S as (J' & Hl & Hs). cbn [fst snd] in *. split; [exact J'|].
    assert (Hlen : (length ts <= length ls)%nat).
    { rewrite <- (map_length (see st)). clear -El. revert El. generalize (map (see st) ts). intros l0 El.
      destruct (Nat.le_gt_cases (length l0) (length ls)) as [|L]; auto. exfalso.
      destruct a as [xs extra|xss|t lo hi|t i x|t i k x|k r c|k t|t|t r|t c|t r|t|t i k f|t i k x|t i k|t i x|t it x|t|t size]; cbn [l_step] in El;
      try (destruct k);
      repeat (match type of El with
            | rbind ?m _ = _ => destruct m; cbn [rbind] in El; try discriminate
            | (let '(_, _) := ?m in _) = _ => destruct m
            | match ?m with _ => _ end = _ => destruct m; try discriminate
            end);
      injection El as <-; rewrite ?app_length, ?length_list_set_any in L; cbn in L; lia. }
    split; [lia|]. intros j Hj Ht. rewrite Hs by (intros; contradiction).
    apply (l_frame _ _ a); [auto|rewrite map_length; auto|].
    intros T. apply Ht. destruct a; cbn in T |- *; try discriminate; injection T as <-; reflexivity. }
  destruct a as [xs extra|xss|t lo hi|t i x|t i k x|k r c|k t|t|t r|t c|t r|t|t i k f|t i k x|t i k|t i x|t it x|t|t size]; try (apply main; exact I).
  - (* ASub *)
    cbn [do] in E. unfold the_arr in E. destruct (nth_error ts t) as [[o|s|d]|] eqn:Ht; cbn [rbind] in E; try discriminate.
    destruct (to s hi) as [s1| |] eqn:E1; cbn [rbind] in E; try discriminate.
    destruct (from s1 lo) as [s2| |] eqn:E2; cbn [rbind] in E; try discriminate. injection E as <- <-.
    pose proof (inv_own _ _ _ _ J t _ Ht) as [V _]. cbn in V.
    pose proof (valid_to _ _ _ _ V E1) as V1. pose proof (valid_from _ _ _ _ V1 E2) as V2.
    assert (A : s_arr s2 = s_arr s).
    { unfold from in E2. destruct (_ || _); [discriminate|]. injection E2 as <-. cbn.
      unfold to in E1. destruct (_ || _); [discriminate|]. injection E1 as <-. reflexivity. }
    split; [|split].
    + cbn [regroup]. apply (inv_share n st ts gs t (TArr s2) (TArr s) J Ht); cbn; auto. intros k. rewrite A. auto.
    + rewrite app_length. lia.
    + intros j Hj _. rewrite map_app. apply nth_error_app1. rewrite map_length. auto.
  - (* AReSize *)
    cbn [do] in E. unfold the_obj in E. destruct (nth_error ts t) as [[o|s|d]|] eqn:Ht; cbn [rbind] in E; try discriminate.
    destruct (s_ReSize sp st o size) as [[st1 o1]| |] eqn:E1; cbn [rbind] in E; try discriminate. injection E as <- <-.
    pose proof (ReSize_moved sp st o size st1 o1 (inv_own _ _ _ _ J t _ Ht) E1) as Mv.
    destruct (inv_put n st ts gs st1 t (TObj o) (TObj o1) J Ht Mv) as [J' F]. split; [exact J'|]. split.
    + rewrite length_list_set_any. lia.
    + intros j Hj Hn. cbn in Hn. rewrite list_set_map. rewrite nth_error_list_set_neq by (intros <-; auto).
      rewrite !nth_error_map. destruct (nth_error ts j) as [y|] eqn:Ey; [|reflexivity]. cbn. f_equal. apply (F j y Ey Hn).
Qed.

Lemma inv_empty : inv O (MkStore (N := N) [] [] []) [] [].
Proof.
  constructor; cbn; auto.
  - intros i Hi. lia.
  - intros [|i]; discriminate.
  - intros [|i]; discriminate.
Qed.

Lemma run_inv_from p : forall sp n st ts gs st' ts', inv n st ts gs -> do_all sp st ts p = Ok (st', ts') ->
  inv (n + length p) st' ts' (group_all n gs p).
Proof.
  induction p as [|a p IH]; cbn; intros sp n st ts gs st' ts' J E.
  - injection E as <- <-. rewrite Nat.add_0_r. auto.
  - destruct (do (sp O) st ts a) as [[st1 ts1]| |] eqn:E1; cbn in E; try discriminate.
    destruct (do_inv _ _ _ _ _ _ _ _ J E1) as (J1 & _). rewrite Nat.add_succ_r. apply (IH _ _ _ _ _ _ _ J1 E).
Qed.

Lemma run_inv sp p st ts : run sp p = Ok (st, ts) -> inv (length p) st ts (groups p).
Proof. apply (run_inv_from p sp O _ _ [] st ts inv_empty). Qed.

(** In every program, a step changes nothing outside the sharing group of what it writes
    to, whatever the spare room of the arrays. *)
Theorem changes_stay_in_group sp p st ts sp' a st' ts' j :
  run sp p = Ok (st, ts) -> do sp' st ts a = Ok (st', ts') -> (j < length ts)%nat -> ~ touches (groups p) a j ->
  nth_error (map (see st') ts') j = nth_error (map (see st) ts) j.
Proof. intros R E Hj Ht. apply (do_inv sp' _ _ _ _ _ _ _ (run_inv _ _ _ _ R) E); auto. Qed.

(** In every program, a step does to what it writes to, and to what it makes, exactly what
    the models over lists say. *)
Theorem targets_follow_the_lists sp p st ts sp' a :
  run sp p = Ok (st, ts) -> exact_act a ->
  sim (fun r ls => forall j, (touches (groups p) a j -> target a = Some j) ->
                     nth_error (map (see (fst r)) (snd r)) j = nth_error ls j)
      (do sp' st ts a) (l_step (map (see st) ts) a).
Proof.
  intros R Hx. eapply sim_impl; [|apply (do_sim sp' _ st ts _ a (run_inv _ _ _ _ R) Hx)]. intros r ls (_ & _ & H). exact H.
Qed.

(** ** Programs that share nothing *)
Definition unshared a : Prop := match a with AFrom FDV _ | AFrom FDM _ | ASub _ _ _ | ARaw _ => False | _ => True end.

Definition solo (n : nat) (gs : list nat) : Prop := NoDup gs /\ forall g, In g gs -> (g < n)%nat.

Lemma in_list_set (l : list nat) t (z g : nat) : In g (list_set l t z) -> In g l \/ g = z.
Proof.
  revert t. induction l as [|h l IH]; intros [|t]; cbn; try tauto; intros [H|H]; auto.
  destruct (IH t H); auto.
Qed.

Lemma nth_error_ext' {A} (l l' : list A) : length l = length l' ->
  (forall j, (j < length l)%nat -> nth_error l j = nth_error l' j) -> l = l'.
Proof.
  revert l'. induction l as [|a l IH]; intros [|b l']; cbn; try discriminate; auto. intros E H.
  pose proof (H O ltac:(lia)) as H0. cbn in H0. injection H0 as ->. f_equal. apply IH; [lia|].
  intros j Hj. apply (H (Datatypes.S j)). lia.
Qed.

Lemma solo_regroup n gs a : unshared a -> solo n gs -> solo (Datatypes.S n) (regroup n gs a).
Proof.
  intros U [D B].
  assert (A : solo (Datatypes.S n) (gs ++ [n])).
  { split.
    - apply NoDup_rev in D. rewrite <- (rev_involutive (gs ++ [n])). apply NoDup_rev. rewrite rev_app_distr. cbn. constructor; auto.
      intros H. apply in_rev in H. specialize (B n H). lia.
    - intros g Hg. apply in_app_or in Hg as [Hg|[<-|[]]]; [specialize (B g Hg)|]; lia. }
  assert (K : solo (Datatypes.S n) gs) by (split; [auto|]; intros g Hg; specialize (B g Hg); lia).
  assert (C : forall t, solo (Datatypes.S n) (list_set gs t n)).
  { intros t. split.
    - revert t. assert (G : ~ In n gs) by (intros H; specialize (B n H); lia). clear -D G.
      induction D as [|g gs H D IH]; intros [|t]; cbn; constructor; auto; cbn in G; try tauto.
      + intros Hin. apply in_list_set in Hin as [Hin|Hin]; auto.
      + apply IH. tauto.
    - intros g Hg. apply in_list_set in Hg as [H| ->]; [specialize (B g H)|]; lia. }
  destruct a as [xs extra|xss|t lo hi|t i x|t i k x|k r c|k t|t|t r|t c|t r|t|t i k f|t i k x|t i k|t i x|t it x|t|t size]; cbn in *; auto; try tauto.
  destruct k; try tauto; auto.
Qed.

Lemma solo_touch n gs a j : solo n gs -> (j < length gs)%nat -> (match target a with Some t => t < length gs | None => True end)%nat ->
  touches gs a j -> target a = Some j.
Proof.
  intros [D _] Hj Ht H.
  assert (U : forall t, (t < length gs)%nat -> nth j gs O = nth t gs O -> t = j).
  { intros t Lt E. rewrite NoDup_nth with (d := O) in D. symmetry. apply D; auto. }
  destruct a; cbn in *; try contradiction; f_equal; auto.
Qed.

Lemma run_exact_from p : forall sp n st ts gs, inv n st ts gs -> solo n gs -> Forall exact_act p -> Forall unshared p ->
  rmap (fun r => map (see (fst r)) (snd r)) (do_all sp st ts p) = rfold l_step (map (see st) ts) p.
Proof.
  induction p as [|a p IH]; intros sp n st ts gs J Hs He Hu; cbn [do_all rfold]; [reflexivity|].
  inversion He; inversion Hu; subst. pose proof (do_sim (sp O) n st ts gs a J ltac:(auto)) as S.
  destruct (do (sp O) st ts a) as [[st1 ts1]| |] eqn:E1, (l_step (map (see st) ts) a) as [ls| |] eqn:E2; cbn in S |- *; auto; try (destruct S; fail).
  destruct S as (J1 & Hl & Hn). cbn [fst snd] in *.
  assert (Eq : map (see st1) ts1 = ls).
  { apply nth_error_ext'; [rewrite map_length; auto|]. intros j Hj. rewrite map_length in Hj. apply Hn. intros Ht.
    destruct (Nat.lt_ge_cases j (length ts)) as [Lj|Lj].
    - apply (solo_touch n gs); auto; [rewrite (inv_len _ _ _ _ J); auto|].
      destruct (target a) as [t|] eqn:T; auto. rewrite (inv_len _ _ _ _ J).
      destruct (Nat.lt_ge_cases t (length ts)) as [|Lt]; auto. exfalso.
      assert (Nn : nth_error ts t = None) by (apply nth_error_None; auto).
      destruct a; cbn in T; try discriminate; injection T as ->; cbn [do] in E1; unfold the_obj, the_arr, the_arr2 in E1; rewrite Nn in E1; discriminate.
    - exfalso. assert (length ts1 = length ts \/ target a = None) as [EL|EN].
      + destruct a; cbn in *; auto; left;
        repeat (match type of E1 with
            | rbind ?m _ = _ => destruct m as [?| |]; cbn [rbind] in E1; try discriminate
            | (let '(_, _) := ?m in _) = _ => destruct m
            | (let (_, _) := ?m in _) = _ => destruct m
            end); injection E1 as _ <-; try reflexivity; try apply length_list_set_any.
      + lia.
      + destruct a; cbn in *; try discriminate; contradiction. }
  rewrite <- Eq. apply (IH _ (Datatypes.S n) st1 ts1 (regroup n gs a)); auto. apply solo_regroup; auto.
Qed.

Theorem unshared_programs_follow_the_lists sp p : Forall exact_act p -> Forall unshared p ->
  rmap (fun r => map (see (fst r)) (snd r)) (run sp p) = l_run p.
Proof.
  intros He Hu. apply (run_exact_from p sp O _ [] [] inv_empty); auto. split; [constructor|]. intros g [].
Qed.
(** ** Sparse objects never share *)
Definition sparse_thing x : bool :=
  match x with TObj (SCSR _ _ _ _ _) | TObj (SCSC _ _ _ _ _) | TObj (SSV _ _ _) => true | _ => false end.

Ltac follow :=
  repeat (match goal with
  | E : Ok _ = Ok _ |- _ => injection E; clear E; intros; subst
  | E : Panic = Ok _ |- _ => discriminate E
  | E : Diverge = Ok _ |- _ => discriminate E
  | E : rbind ?m _ = Ok _ |- _ => let F := fresh in destruct m as [?| |] eqn:F; cbn [rbind] in E
  | E : (let (_, _) := ?m in _) = Ok _ |- _ => destruct m
  | E : match ?m with _ => _ end = Ok _ |- _ => destruct m
  end).

Lemma kind_Update {W} sp st o i j (f : T N -> W * T N) w st' o' : s_Update sp st o i j f = Ok (w, st', o') ->
  sparse_thing (TObj o') = sparse_thing (TObj o) /\ (sparse_thing (TObj o) = false -> o' = o).
Proof.
  destruct o; cbn; unfold s_csr_Update, s_csc_Update, s_sv_Update, s_sv_SetVec, s_dv_Update, s_dm_Update; intros E;
    follow; auto; try (split; [reflexivity|discriminate]).
Qed.
Lemma kind_SetVec sp st o i (z : T N) st' o' : s_SetVec sp st o i z = Ok (st', o') ->
  sparse_thing (TObj o') = sparse_thing (TObj o) /\ (sparse_thing (TObj o) = false -> o' = o).
Proof.
  destruct o; cbn; unfold s_sv_SetVec; intros E; follow; auto; try (split; [reflexivity|discriminate]).
Qed.
Lemma kind_Set sp st o i j (z : T N) st' o' : s_Set sp st o i j z = Ok (st', o') ->
  sparse_thing (TObj o') = sparse_thing (TObj o) /\ (sparse_thing (TObj o) = false -> o' = o).
Proof.
  destruct o; cbn; unfold s_csr_Update, s_csc_Update, s_sv_SetVec; intros E; follow; auto; try (split; [reflexivity|discriminate]).
Qed.
Lemma kind_At sp st o i j w st' o' : s_At (N := N) sp st o i j = Ok (w, st', o') ->
  sparse_thing (TObj o') = sparse_thing (TObj o) /\ (sparse_thing (TObj o) = false -> o' = o).
Proof.
  destruct o; intros E; [exact (kind_Update sp st _ i j _ _ _ _ E)|exact (kind_Update sp st _ i j _ _ _ _ E)|exact (kind_Update sp st _ i j _ _ _ _ E)| |];
    cbn in E; follow; auto.
Qed.
Lemma kind_put sp st o it (z : T N) st' o' : s_put sp st o it z = Ok (st', o') ->
  sparse_thing (TObj o') = sparse_thing (TObj o) /\ (sparse_thing (TObj o) = false -> o' = o).
Proof.
  destruct o, it; cbn [s_put]; intros E; try discriminate.
  1,2,3: follow; auto; try (split; [reflexivity|discriminate]).
  - apply kind_SetVec in E. exact E.
  - apply kind_Set in E. exact E.
Qed.
Lemma kind_ReSize sp st o size st' o' : s_ReSize (N := N) sp st o size = Ok (st', o') ->
  sparse_thing (TObj o') = sparse_thing (TObj o).
Proof. destruct o; cbn; intros E; follow; auto. Qed.

(** what a step does to the things themselves *)
Inductive shape (n : nat) ts (gs : list nat) a : list thing -> list nat -> Prop :=
| ShNew x : shape n ts gs a (ts ++ [x]) (gs ++ [n])
| ShShare t x y : nth_error ts t = Some y -> sparse_thing y = false -> sparse_thing x = false ->
    shape n ts gs a (ts ++ [x]) (gs ++ [nth t gs O])
| ShPut t x y : nth_error ts t = Some y -> sparse_thing x = sparse_thing y -> target a = Some t ->
    (sparse_thing y = false -> x = y \/ exists size, a = AReSize t size) -> shape n ts gs a (list_set ts t x) gs
| ShClear t x : a = AClear t -> shape n ts gs a (list_set ts t x) (list_set gs t n)
| ShSame : shape n ts gs a ts gs.

Lemma do_shape sp n st ts gs a st' ts' : do sp st ts a = Ok (st', ts') -> shape n ts gs a ts' (regroup n gs a).
Proof.
  intros E. destruct a as [xs extra|xss|t lo hi|t i x|t i k x|k r c|k t|t|t r|t c|t r|t|t i k f|t i k x|t i k|t i x|t it x|t|t size]; cbn [do regroup] in *.
  - destruct (fresh _ _ _). injection E as _ <-. constructor.
  - destruct (fresh_rows _ _). destruct (fresh _ _ _). injection E as _ <-. constructor.
  - unfold the_arr in E. destruct (nth_error ts t) as [[o|s|d]|] eqn:Ht; cbn [rbind] in E; try discriminate.
    destruct (to s hi); cbn [rbind] in E; try discriminate. destruct (from _ lo); cbn [rbind] in E; try discriminate.
    injection E as _ <-. eapply ShShare; eauto.
  - destruct (the_arr ts t); cbn [rbind] in E; try discriminate. destruct (sset _ _ _ _); cbn [rbind] in E; try discriminate.
    injection E as _ <-. constructor.
  - destruct (the_arr2 ts t); cbn [rbind] in E; try discriminate. destruct (sget _ _ _); cbn [rbind] in E; try discriminate.
    destruct (sset _ _ _ _); cbn [rbind] in E; try discriminate. injection E as _ <-. constructor.
  - destruct (new_mat k r c); cbn [rbind] in E; try discriminate. injection E as _ <-. constructor.
  - destruct k; cbn [regroup].
    + destruct (the_arr2 ts t); cbn [rbind] in E; try discriminate. destruct (NewCSRMatrixFromArray _); cbn [rbind] in E; try discriminate.
      injection E as _ <-. constructor.
    + destruct (the_arr2 ts t); cbn [rbind] in E; try discriminate. destruct (NewCSCMatrixFromArray _); cbn [rbind] in E; try discriminate.
      injection E as _ <-. constructor.
    + unfold the_arr2 in E. destruct (nth_error ts t) as [[o|s|d]|] eqn:Ht; cbn [rbind] in E; try discriminate.
      destruct (sget _ _ _); cbn [rbind] in E; try discriminate. injection E as _ <-. eapply ShShare; eauto.
    + unfold the_arr in E. destruct (nth_error ts t) as [[o|s|d]|] eqn:Ht; cbn [rbind] in E; try discriminate.
      injection E as _ <-. eapply ShShare; eauto.
    + destruct (the_arr ts t); cbn [rbind] in E; try discriminate. destruct (NewSparseVectorFromArray _); cbn [rbind] in E; try discriminate.
      injection E as _ <-. constructor.
  - destruct (the_obj ts t); cbn [rbind] in E; try discriminate. destruct (mat_Copy _); cbn [rbind] in E; try discriminate.
    injection E as _ <-. constructor.
  - destruct (the_obj ts t); cbn [rbind] in E; try discriminate. destruct (mat_RowsAt _ _); cbn [rbind] in E; try discriminate.
    injection E as _ <-. constructor.
  - destruct (the_obj ts t); cbn [rbind] in E; try discriminate. destruct (mat_ColumnsAt _ _); cbn [rbind] in E; try discriminate.
    injection E as _ <-. constructor.
  - destruct (the_obj ts t); cbn [rbind] in E; try discriminate. destruct (mat_RowsAtToArray _ _); cbn [rbind] in E; try discriminate.
    destruct (fresh _ _ _). injection E as _ <-. constructor.
  - unfold the_obj in E. destruct (nth_error ts t) as [[o|s|d]|] eqn:Ht; cbn [rbind] in E; try discriminate.
    destruct o; try discriminate. injection E as _ <-. eapply ShShare; eauto.
  - unfold the_obj in E. destruct (nth_error ts t) as [[o|s|d]|] eqn:Ht; cbn [rbind] in E; try discriminate.
    destruct (s_Update _ _ _ _ _ _) as [[[w st1] o1]| |] eqn:E1; cbn [rbind] in E; try discriminate. injection E as _ <-.
    apply kind_Update in E1 as [K1 K2]. eapply ShPut; eauto. intros H. left. f_equal. auto.
  - unfold the_obj in E. destruct (nth_error ts t) as [[o|s|d]|] eqn:Ht; cbn [rbind] in E; try discriminate.
    destruct (s_Set _ _ _ _ _ _) as [[st1 o1]| |] eqn:E1; cbn [rbind] in E; try discriminate. injection E as _ <-.
    apply kind_Set in E1 as [K1 K2]. eapply ShPut; eauto. intros H. left. cbn. f_equal. auto.
  - unfold the_obj in E. destruct (nth_error ts t) as [[o|s|d]|] eqn:Ht; cbn [rbind] in E; try discriminate.
    destruct (s_At _ _ _ _ _) as [[[w st1] o1]| |] eqn:E1; cbn [rbind] in E; try discriminate. injection E as _ <-.
    apply kind_At in E1 as [K1 K2]. eapply ShPut; eauto. intros H. left. cbn. f_equal. auto.
  - unfold the_obj in E. destruct (nth_error ts t) as [[o|s|d]|] eqn:Ht; cbn [rbind] in E; try discriminate.
    destruct (s_SetVec _ _ _ _ _) as [[st1 o1]| |] eqn:E1; cbn [rbind] in E; try discriminate. injection E as _ <-.
    apply kind_SetVec in E1 as [K1 K2]. eapply ShPut; eauto. intros H. left. cbn. f_equal. auto.
  - unfold the_obj in E. destruct (nth_error ts t) as [[o|s|d]|] eqn:Ht; cbn [rbind] in E; try discriminate.
    destruct (s_put _ _ _ _ _) as [[st1 o1]| |] eqn:E1; cbn [rbind] in E; try discriminate. injection E as _ <-.
    apply kind_put in E1 as [K1 K2]. eapply ShPut; eauto. intros H. left. cbn. f_equal. auto.
  - destruct (the_obj ts t); cbn [rbind] in E; try discriminate. destruct (mat_Clear _); cbn [rbind] in E; try discriminate.
    injection E as _ <-. constructor. reflexivity.
  - unfold the_obj in E. destruct (nth_error ts t) as [[o|s|d]|] eqn:Ht; cbn [rbind] in E; try discriminate.
    destruct (s_ReSize _ _ _ _) as [[st1 o1]| |] eqn:E1; cbn [rbind] in E; try discriminate. injection E as _ <-.
    apply kind_ReSize in E1. eapply ShPut; eauto.
Qed.

Definition lone ts (gs : list nat) : Prop :=
  forall i j x, nth_error ts j = Some x -> sparse_thing x = true -> (i < length ts)%nat -> nth i gs O = nth j gs O -> i = j.

Lemma lone_step n st ts gs a ts' gs' : inv n st ts gs -> lone ts gs -> shape n ts gs a ts' gs' -> lone ts' gs'.
Proof.
  intros J L S. pose proof (inv_len _ _ _ _ J) as Hl. pose proof (inv_tag _ _ _ _ J) as Ht.
  assert (Lt : forall i y, nth_error ts i = Some y -> (i < length ts)%nat) by (intros; apply nth_error_Some; congruence).
  destruct S as [x|t x y Hy Sy Sx|t x y Hy Sx T _|t x ->|]; intros i j z Hz Sz Hi E.
  - rewrite app_length in Hi. cbn in Hi.
    apply nth_error_add in Hz as [[Hz Lj]|[-> ->]]; destruct (Nat.eq_dec i (length ts)) as [->|Ni]; auto.
    + rewrite <- Hl, nth_app_last, nth_app_l in E by lia. specialize (Ht j Lj). lia.
    + rewrite !nth_app_l in E by lia. apply (L i j z); auto; lia.
    + rewrite nth_app_l in E by lia. rewrite <- Hl, nth_app_last in E. specialize (Ht i ltac:(lia)). lia.
  - rewrite app_length in Hi. cbn in Hi.
    apply nth_error_add in Hz as [[Hz Lj]|[-> ->]]; [|congruence]. destruct (Nat.eq_dec i (length ts)) as [->|Ni].
    + rewrite <- Hl, nth_app_last, nth_app_l in E by lia. specialize (L t j z Hz Sz (Lt _ _ Hy) E). subst t. congruence.
    + rewrite !nth_app_l in E by lia. apply (L i j z); auto; lia.
  - rewrite length_list_set_any in Hi. apply nth_error_put in Hz as [[Nj Hz]|(-> & -> & Lj)].
    + apply (L i j z); auto.
    + apply (L i t y); auto. congruence.
  - rewrite length_list_set_any in Hi.
    destruct (Nat.lt_ge_cases t (length ts)) as [Ltt|Ltt].
    + assert (Lj : (j < length ts)%nat) by (rewrite <- (length_list_set_any ts t x); apply nth_error_Some; congruence).
      rewrite !nth_list_set in E by lia.
      apply nth_error_put in Hz as [[Nj Hz]|(-> & -> & _)].
      * apply Nat.eqb_neq in Nj. rewrite Nj in E. destruct (Nat.eqb i t).
        -- specialize (Ht j Lj). lia.
        -- apply (L i j z); auto.
      * rewrite Nat.eqb_refl in E. destruct (Nat.eqb_spec i t); auto. specialize (Ht i Hi). lia.
    + assert (Id : forall {A} (l : list A) (e : A), (length l <= t)%nat -> list_set l t e = l).
      { intros A l e. clear. revert t. induction l; intros [|t]; cbn; intros; auto; try lia. f_equal. apply IHl. lia. }
      rewrite Id in Hz, E by lia. rewrite ?Id in E by lia. apply (L i j z); auto.
  - apply (L i j z); auto.
Qed.

Lemma lone_from p : forall sp n st ts gs st' ts', inv n st ts gs -> lone ts gs -> do_all sp st ts p = Ok (st', ts') ->
  lone ts' (group_all n gs p).
Proof.
  induction p as [|a p IH]; cbn; intros sp n st ts gs st' ts' J L E.
  - injection E as <- <-. auto.
  - destruct (do (sp O) st ts a) as [[st1 ts1]| |] eqn:E1; cbn in E; try discriminate.
    destruct (do_inv _ _ _ _ _ _ _ _ J E1) as (J1 & _).
    apply (IH _ _ _ _ _ _ _ J1 (lone_step _ _ _ _ _ _ _ J L (do_shape _ n _ _ gs _ _ _ E1)) E).
Qed.

(** a step of any program that changes a sparse object is a call on this object *)
Theorem sparse_objects_change_alone sp p st ts sp' a st' ts' j :
  run sp p = Ok (st, ts) -> do sp' st ts a = Ok (st', ts') ->
  (exists o, nth_error ts j = Some (TObj o) /\ sparse_thing (TObj o) = true) -> target a <> Some j ->
  nth_error (map (see st') ts') j = nth_error (map (see st) ts) j.
Proof.
  intros R E (o & Ho & So) T. assert (Lj : (j < length ts)%nat) by (apply nth_error_Some; congruence).
  apply (changes_stay_in_group sp p st ts sp' a st' ts' j R E Lj). intros Ht.
  assert (L : lone ts (groups p)) by (apply (lone_from p sp O _ _ [] st ts inv_empty); [intros i k x; destruct k; discriminate|exact R]).
  apply T. assert (Lt : forall t, target a = Some t -> (t < length ts)%nat).
  { intros t Ta. destruct (Nat.lt_ge_cases t (length ts)) as [|Lt]; auto. exfalso.
    assert (Nn : nth_error ts t = None) by (apply nth_error_None; auto).
    destruct a; cbn in Ta; try discriminate; injection Ta as ->; cbn [do] in E; unfold the_obj, the_arr, the_arr2 in E; rewrite Nn in E; discriminate. }
  assert (G : forall t, target a = Some t -> nth j (groups p) O = nth t (groups p) O -> Some t = Some j).
  { intros t Ta Eg. f_equal. apply (L t j (TObj o)); auto. }
  destruct a; cbn in Ht, G |- *; try contradiction; try (apply G; auto; fail). congruence.
Qed.

(** ... and changing a sparse object changes nothing else *)
Theorem changing_a_sparse_object_changes_nothing_else sp p st ts sp' a st' ts' t j :
  run sp p = Ok (st, ts) -> do sp' st ts a = Ok (st', ts') ->
  (exists o, nth_error ts t = Some (TObj o) /\ sparse_thing (TObj o) = true) -> target a = Some t ->
  (j < length ts)%nat -> j <> t -> nth_error (map (see st') ts') j = nth_error (map (see st) ts) j.
Proof.
  intros R E (o & Ho & So) T Lj Hn.
  apply (changes_stay_in_group sp p st ts sp' a st' ts' j R E Lj). intros Ht.
  assert (L : lone ts (groups p)) by (apply (lone_from p sp O _ _ [] st ts inv_empty); [intros i k x; destruct k; discriminate|exact R]).
  apply Hn. destruct a; cbn in T, Ht; try discriminate; injection T as ->; auto; apply (L j t (TObj o)); auto.
Qed.

(** ** What is shared stays shared *)
Definition leaves (j : nat) a : Prop := match a with AClear t | AReSize t _ => t = j | _ => False end.

Lemma stays_step sp st ts a st' ts' j x : do sp st ts a = Ok (st', ts') -> nth_error ts j = Some x ->
  sparse_thing x = false -> ~ leaves j a -> nth_error ts' j = Some x.
Proof.
  intros E Hj Hs Hl. assert (Lj : (j < length ts)%nat) by (apply nth_error_Some; congruence).
  destruct (do_shape sp O st ts [] a st' ts' E) as [z|t z y Hy Sy Sx|t z y Hy Sx T C|t z ->|].
  - rewrite nth_error_app1; auto.
  - rewrite nth_error_app1; auto.
  - destruct (Nat.eq_dec j t) as [->|Hn].
    + assert (y = x) by congruence. subst y. destruct (C Hs) as [->|[size ->]].
      * rewrite nth_error_list_set_eq; auto.
      * exfalso. apply Hl. reflexivity.
    + rewrite nth_error_list_set_neq; auto.
  - cbn in Hl. rewrite nth_error_list_set_neq; auto.
  - auto.
Qed.

Lemma stays p : forall sp st ts st' ts' j x, do_all sp st ts p = Ok (st', ts') -> nth_error ts j = Some x ->
  sparse_thing x = false -> Forall (fun a => ~ leaves j a) p -> nth_error ts' j = Some x.
Proof.
  induction p as [|a p IH]; cbn; intros sp st ts st' ts' j x E Hj Hs Hl.
  - injection E as <- <-. auto.
  - inversion Hl; subst. destruct (do (sp O) st ts a) as [[st1 ts1]| |] eqn:E1; cbn in E; try discriminate.
    eapply (IH _ st1 ts1); eauto. eapply stays_step; eauto.
Qed.

Lemma arrays_stay p sp st ts st' ts' j x : do_all sp st ts p = Ok (st', ts') -> nth_error ts j = Some x ->
  (forall o, x <> TObj o) -> nth_error ts' j = Some x.
Proof.
  revert sp st ts. induction p as [|a p IH]; cbn; intros sp st ts E Hj Hs.
  - injection E as <- <-. auto.
  - destruct (do (sp O) st ts a) as [[st1 ts1]| |] eqn:E1; cbn in E; try discriminate.
    apply (IH (fun n => sp (Datatypes.S n)) st1 ts1); auto. assert (Lj : (j < length ts)%nat) by (apply nth_error_Some; congruence).
    destruct a as [xs extra|xss|t lo hi|t i z|t i k z|k r c|k t|t|t r|t c|t r|t|t i k f|t i k z|t i k|t i z|t it z|t|t size]; cbn [do] in E1;
      try (destruct k); unfold the_obj in E1;
      repeat (match type of E1 with
      | rbind (match nth_error ts ?t with _ => _ end) _ = _ => destruct (nth_error ts t) as [[?|?|?]|] eqn:Ht; cbn [rbind] in E1
      | Panic = _ => discriminate E1
      | rbind ?m _ = _ => destruct m as [?| |]; cbn [rbind] in E1; try discriminate
      | (let (_, _) := ?m in _) = _ => destruct m
      | match ?m with _ => _ end = _ => destruct m
      end); try discriminate; injection E1 as _ <-; cbn [add put fst snd];
      try (rewrite nth_error_app1; auto; fail); auto;
      (destruct (Nat.eq_dec j t) as [->|Hn]; [exfalso; eapply Hs; rewrite Ht in Hj; injection Hj as <-; reflexivity|rewrite nth_error_list_set_neq; auto]).
Qed.

(** A dense vector made from a slice and the slice show the same elements, whatever is done
    afterwards, until the vector is cleared or resized. *)
Theorem vector_and_slice_stay_one sp p st ts sp1 t st1 ts1 sp2 q st2 ts2 :
  run sp p = Ok (st, ts) -> do sp1 st ts (AFrom FDV t) = Ok (st1, ts1) -> do_all sp2 st1 ts1 q = Ok (st2, ts2) ->
  Forall (fun a => ~ leaves (length ts) a) q ->
  exists xs, nth_error (map (see st2) ts2) t = Some (LArr xs) /\
             nth_error (map (see st2) ts2) (length ts) = Some (LObj (MDV (MkDV (zlen xs) xs))).
Proof.
  intros R E Q Hl. pose proof (run_inv _ _ _ _ R) as J. destruct (do_inv _ _ _ _ _ _ _ _ J E) as (J1 & _).
  pose proof (run_inv_from q sp2 _ _ _ _ _ _ J1 Q) as J2.
  cbn [do] in E. unfold the_arr in E. destruct (nth_error ts t) as [[o|s|d]|] eqn:Ht; cbn [rbind] in E; try discriminate.
  injection E as <- <-.
  assert (Lt : (t < length ts)%nat) by (apply nth_error_Some; congruence).
  assert (H1 : nth_error ts2 t = Some (TArr s)).
  { eapply arrays_stay; eauto; [rewrite nth_error_app1; eauto|discriminate]. }
  assert (H2 : nth_error ts2 (length ts) = Some (TObj (SDV (Z.of_nat (s_len s)) s))).
  { eapply stays; eauto. rewrite nth_error_app2, Nat.sub_diag; auto. }
  exists (contents (st_v st2) s). rewrite !nth_error_map, H1, H2. cbn. split; [reflexivity|]. do 4 f_equal.
  symmetry. apply zlen_contents. apply (inv_own _ _ _ _ J2 t _ H1).
Qed.

(** The same for a dense matrix and the slice of rows it is made from, and for a dense
    matrix and the result of [RawMatrix]. *)
Theorem matrix_and_slices_stay_one sp p st ts sp1 t st1 ts1 sp2 q st2 ts2 :
  run sp p = Ok (st, ts) -> do sp1 st ts (AFrom FDM t) = Ok (st1, ts1) -> do_all sp2 st1 ts1 q = Ok (st2, ts2) ->
  Forall (fun a => ~ leaves (length ts) a) q ->
  exists c xss, nth_error (map (see st2) ts2) t = Some (LArr2 xss) /\
             nth_error (map (see st2) ts2) (length ts) = Some (LObj (MDM (MkDense c (zlen xss) xss))).
Proof.
  intros R E Q Hl. pose proof (run_inv _ _ _ _ R) as J. destruct (do_inv _ _ _ _ _ _ _ _ J E) as (J1 & _).
  pose proof (run_inv_from q sp2 _ _ _ _ _ _ J1 Q) as J2.
  cbn [do] in E. unfold the_arr2 in E. destruct (nth_error ts t) as [[o|s|d]|] eqn:Ht; cbn [rbind] in E; try discriminate.
  destruct (sget (st_o st) d 0) as [row0| |]; cbn [rbind] in E; try discriminate. injection E as <- <-.
  assert (Lt : (t < length ts)%nat) by (apply nth_error_Some; congruence).
  assert (H1 : nth_error ts2 t = Some (TArr2 d)).
  { eapply arrays_stay; eauto; [rewrite nth_error_app1; eauto|discriminate]. }
  assert (H2 : nth_error ts2 (length ts) = Some (TObj (SDM (Z.of_nat (s_len row0)) (Z.of_nat (s_len d)) d))).
  { eapply stays; eauto. rewrite nth_error_app2, Nat.sub_diag; auto. }
  exists (Z.of_nat (s_len row0)), (grid st2 d). rewrite !nth_error_map, H1, H2. cbn. split; [reflexivity|]. do 4 f_equal.
  symmetry. unfold grid, zlen. rewrite map_length. f_equal. apply length_contents. apply (inv_own _ _ _ _ J2 t _ H1).
Qed.

Theorem matrix_and_raw_stay_one sp p st ts sp1 t st1 ts1 sp2 q st2 ts2 :
  run sp p = Ok (st, ts) -> do sp1 st ts (ARaw t) = Ok (st1, ts1) -> do_all sp2 st1 ts1 q = Ok (st2, ts2) ->
  Forall (fun a => ~ leaves t a) q ->
  exists c r xss, nth_error (map (see st2) ts2) t = Some (LObj (MDM (MkDense c r xss))) /\
                  nth_error (map (see st2) ts2) (length ts) = Some (LArr2 xss).
Proof.
  intros R E Q Hl. cbn [do] in E. unfold the_obj in E. destruct (nth_error ts t) as [[o|s|d]|] eqn:Ht; cbn [rbind] in E; try discriminate.
  destruct o as [r c v k s|r c v k s|l v k|l v|c r d]; try discriminate. injection E as <- <-.
  assert (Lt : (t < length ts)%nat) by (apply nth_error_Some; congruence).
  assert (H1 : nth_error ts2 t = Some (TObj (SDM c r d))).
  { eapply stays; eauto. rewrite nth_error_app1; eauto. }
  assert (H2 : nth_error ts2 (length ts) = Some (TArr2 d)).
  { eapply arrays_stay; eauto; [rewrite nth_error_app2, Nat.sub_diag by auto; reflexivity|discriminate]. }
  exists c, r, (grid st2 d). rewrite !nth_error_map, H1, H2. auto.
Qed.
End Groups.

(** ** The cases *)
Section Cases.
Context {N : num}.
Definition no_spare : spare N := MkSpare [] [] [] [].

(** a caller's slice changes when the vector made from it is set, and back *)
Lemma vector_writes_through (x y : T N) (sp : nat -> spare N) :
  rmap (fun r => map (see (fst r)) (snd r)) (run sp [AMake [x] []; AFrom FDV 0; ASet 1 0 0 y]) =
  Ok [LArr [y]; LObj (MDV (MkDV 1 [y]))].
Proof. reflexivity. Qed.
Lemma slice_writes_through (x y : T N) (sp : nat -> spare N) :
  rmap (fun r => map (see (fst r)) (snd r)) (run sp [AMake2 [[x]]; AFrom FDM 0; APoke2 0 0 0 y]) =
  Ok [LArr2 [[y]]; LObj (MDM (MkDense 1 1 [[y]]))].
Proof. reflexivity. Qed.
Lemma raw_writes_through (y : T N) (sp : nat -> spare N) :
  rmap (fun r => map (see (fst r)) (snd r)) (run sp [ANew FDM 1 1; ARaw 0; APoke2 1 0 0 y]) =
  Ok [LObj (MDM (MkDense 1 1 [[y]])); LArr2 [[y]]].
Proof. reflexivity. Qed.
(** growing a vector made from the start of a slice writes zeros into the rest of it *)
Lemma growing_writes_through (x y : T N) (sp : nat -> spare N) :
  rmap (fun r => map (see (fst r)) (snd r)) (run sp [AMake [x; y] []; ASub 0 0 1; AFrom FDV 1; AReSize 2 2]) =
  Ok [LArr [x; n0]; LArr [x]; LObj (MDV (MkDV 2 [x; n0]))].
Proof. reflexivity. Qed.

(** resizing to a negative size: what happens depends on the spare room of the array *)
Lemma negative_size_depends_on_room :
  let p := [ANew (N := N) FDV 1 0; AReSize 0 2; AReSize 0 (-1)] in
  run (fun _ => no_spare) p = Panic /\
  rmap (fun r => map (see (fst r)) (snd r)) (run (fun _ => MkSpare [n0] [] [] []) p) = Ok [LObj (MDV (MkDV 3 [n0; n0; n0]))].
Proof. split; reflexivity. Qed.
End Cases.
