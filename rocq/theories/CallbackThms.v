(** [Update] and [Map] with functions that call the API or panic: theorems. *)
From Coq Require Import String Sorting.Sorted.
From Verif Require Import GoBase Num SparseVec Csr Csc DenseVec DenseMat Mat World Ops.
From Verif Require Import BaseProofs AssocProofs CsrProofs SvProofs CsrIterProofs CscProofs DenseProofs MatProofs.
From Verif Require Import Spec HeapProofs Api ReachProofs MapLag StoreProofs EwThms Iters IterKin IterProofs IterPut IterThms Callbacks CallbackProofs.

Section CallbackThms.
Context {N : num}.
Notation V := (T N).
Notation mat := (mat N).
Notation ent := (Z * Z * V)%type.
Notation world := (world N).
Notation M := (M N).
Implicit Types w : world.
Implicit Types m : mat.

(** ** [Update] *)

(** outside: the function is not called *)
Lemma update_outside p r c (f : V -> M V) w m : sane N -> reachable w -> obj w p m ->
  ~ (0 <= r < mat_Rows m /\ 0 <= c < mat_Columns m) -> p_UpdateM p r c f w = (w, Panic).
Proof.
  intros [Hz Hn] Hr Ho Hb. pose proof (reach_wfw w Hz Hn Hr p m Ho) as Hw. unfold p_UpdateM, mbind, load. unfold obj in Ho. rewrite Ho.
  rewrite (find_panic m r c Hw Hb). reflexivity.
Qed.

Lemma find_ok m r c : wf m -> inb m r c -> exists fd v, mat_find m r c = Ok (fd, v).
Proof.
  intros Hw Hb. destruct (lined m) eqn:El; [|destruct (find_cell m r c Hw El Hb) as (v & H); eauto].
  destruct (find_lined m (entries m) r c Hw (OpsThms.enumerates_entries m Hw) El Hb) as (b & v & H & _). eauto.
Qed.
Lemma find_at m r c v : zero_ok N -> wf m -> inb m r c -> mat_At m r c = Ok (v, m) -> exists fd, mat_find m r c = Ok (fd, v).
Proof.
  intros Hz Hw Hb Ha. destruct (find_ok m r c Hw Hb) as (fd & v' & H). exists fd. rewrite H. pose proof (find_value m r c fd v' H Hb Hw Hz) as Q. congruence.
Qed.

Lemma update_unfold p r c (f : V -> M V) w m fd v : obj w p m -> mat_find m r c = Ok (fd, v) ->
  p_UpdateM p r c f w =
  match f v w with
  | (w1, Ok x) => match nth_error (w_heap w1) p with
                  | Some m1 => match mat_finish m1 r c fd x with Ok m2 => store p m2 w1 | Panic => (w1, Panic) | Diverge => (w1, Diverge) end
                  | None => (w1, Panic)
                  end
  | (w1, Panic) => (w1, Panic)
  | (w1, Diverge) => (w1, Diverge)
  end.
Proof.
  intros Ho H. unfold p_UpdateM, mbind, load. unfold obj in Ho. rewrite Ho, H. cbn [mlift]. unfold mret. destruct (f v w) as [w1 [x| |]]; try reflexivity.
  destruct (nth_error (w_heap w1) p) as [m1|]; [|reflexivity]. destruct (mat_finish m1 r c fd x); reflexivity.
Qed.

(** the function panics: what it has done stays, [Update] writes nothing *)
Lemma update_panics p r c (f : V -> M V) w m v w1 : sane N -> reachable w -> obj w p m ->
  0 <= r < mat_Rows m -> 0 <= c < mat_Columns m -> mat_At m r c = Ok (v, m) ->
  f v w = (w1, Panic) -> p_UpdateM p r c f w = (w1, Panic).
Proof.
  intros [Hz Hn] Hr Ho Hr1 Hc1 Ha Hf. pose proof (reach_wfw w Hz Hn Hr p m Ho) as Hw. destruct (find_at m r c v Hz Hw (conj Hr1 Hc1) Ha) as [fd H].
  rewrite (update_unfold p r c f w m fd v Ho H), Hf. reflexivity.
Qed.

Lemma kin_lined m m' : kin m m' -> lined m' = lined m.
Proof. destruct m, m'; cbn; try tauto; intros _; reflexivity. Qed.
Lemma kin_precedes m m' q : kin m m' -> precedes m' q = precedes m q.
Proof. destruct m, m'; cbn; try tauto; intros _; reflexivity. Qed.
Lemma kin_inb m m' r c : kin m m' -> lined m = true -> inb m r c -> inb m' r c.
Proof. unfold inb. destruct m, m'; cbn; try tauto; try discriminate; unfold csr_Rows, csr_Columns, csc_Rows, csc_Columns; intros [-> ->]; auto. Qed.
Lemma kin_put m m' l n z x : kin m m' -> put_at m' l n z x = put_at m l n z x.
Proof. destruct m, m'; cbn; try tauto; intros _; reflexivity. Qed.

Lemma finish_cell m m1 r c x : wf m -> wf m1 -> kin m m1 -> lined m = false -> inb m r c -> mat_finish m1 r c FCell x = mat_Set m1 r c x.
Proof.
  intros Hw Hw1 K Hl [Hr Hc]. destruct m as [s|s|s|s|s]; try discriminate; destruct m1 as [s1|s1|s1|s1|s1]; cbn [kin] in K; try contradiction; cbn [mat_finish mat_Set mat_Rows mat_Columns] in *.
  - unfold dm_Set. destruct K as [E1 E2]. unfold dm_Rows, dm_Columns in *. rewrite E1, E2.
    destruct (Z.ltb_spec r 0); [lia|]. destruct (Z.geb_spec r (dm_r s)); [lia|]. destruct (Z.ltb_spec c 0); [lia|]. destruct (Z.geb_spec c (dm_c s)); [lia|]. reflexivity.
  - unfold dv_Set, dv_Rows, dv_Columns in *. destruct ((r <? 0) || (r >=? dv_l s1)) eqn:E.
    + unfold dv_SetVec, dv_Length. rewrite E. reflexivity.
    + destruct (Z.ltb_spec c 0); [lia|]. destruct (Z.geb_spec c 1); [lia|]. reflexivity.
  - unfold sv_Set, sv_Rows, sv_Columns in *. rewrite K.
    destruct (Z.ltb_spec r 0); [lia|]. destruct (Z.geb_spec r (sv_l s)); [lia|]. destruct (Z.ltb_spec c 0); [lia|]. destruct (Z.geb_spec c 1); [lia|]. reflexivity.
Qed.

(** the function leaves the place alone: [Update] is the function, then [Set] *)
Lemma update_undisturbed (P : world -> Prop) p r c (f : V -> M V) w m l v w1 x m1 l1 : sane N -> reachable w -> obj w p m -> enumerates m l ->
  0 <= r < mat_Rows m -> 0 <= c < mat_Columns m -> mat_At m r c = Ok (v, m) ->
  f v w = (w1, Ok x) -> later P w w1 -> obj w1 p m1 -> enumerates m1 l1 -> same_slot m l l1 (r, c) ->
  p_UpdateM p r c f w = p_Set p r c x w1.
Proof.
  intros Hs Hr Ho He Hr1 Hc1 Ha Hf Hl Ho1 He1 Hslot. pose proof Hs as [Hz Hn]. pose proof (reach_wfw w Hz Hn Hr) as Hww. pose proof (Hww p m Ho) as Hw.
  pose proof (later_wfw P w w1 Hs Hl Hww p m1 Ho1) as Hw1. destruct (later_kin P w w1 p m Hl Ho) as (m0 & Ho0 & K). pose proof (obj_fun _ _ _ _ Ho1 Ho0) as ->.
  destruct (find_at m r c v Hz Hw (conj Hr1 Hc1) Ha) as [fd H]. rewrite (update_unfold p r c f w m fd v Ho H), Hf. unfold p_Set, mbind, load. unfold obj in Ho1. rewrite Ho1.
  assert (E : mat_finish m1 r c fd x = mat_Set m1 r c x).
  { destruct (lined m) eqn:El.
    - destruct (find_lined m l r c Hw He El (conj Hr1 Hc1)) as (b & u & E1 & E2). rewrite E1 in H. injection H as <- ->.
      destruct (find_lined m1 l1 r c Hw1 He1) as (b1 & u1 & F1 & F2); [rewrite (kin_lined m m1 K); exact El|apply (kin_inb m m1 r c K El); split; assumption|].
      rewrite (kin_precedes m m1 (r, c) K) in F1. destruct (Hslot El) as [S1 S2]. rewrite S1 in F1.
      replace b1 with b in F1; [apply (set_parts m1 r c x _ _ F1)|]. destruct b, b1; auto; exfalso; intuition discriminate.
    - destruct (find_cell m r c Hw El (conj Hr1 Hc1)) as (u & E1). rewrite E1 in H. injection H as <- _. apply (finish_cell m); auto. split; assumption. }
  rewrite E. destruct (mat_Set m1 r c x); reflexivity.
Qed.

(** the write of [Update] is that of [Map] *)
Definition at_index m (r c n : Z) : iter :=
  match m with
  | MCSC _ => ICSC (MkCSCI 0 0 c 0 0 n 0 0)
  | _ => ICSR (MkCSRI 0 0 0 r 0 n 0 0)
  end.
Lemma finish_hit m r c n x : lined m = true -> mat_finish m r c (FHit n) x = mat_map_put m (at_index m r c n) x.
Proof.
  destruct m as [s|s|s|s|s]; try discriminate; intros _; cbn [mat_finish at_index mat_map_put].
  - unfold csr_map_put. cbn [cri_index cri_r]. destruct (isz x); cbn [negb]; [reflexivity|]. destruct (zset (csr_values s) n x); reflexivity.
  - unfold csc_map_put. cbn [cci_index cci_c]. destruct (isz x); cbn [negb]; [reflexivity|]. destruct (zset (csc_values s) n x); reflexivity.
Qed.

(** the function shifts elements of a CSR or CSC matrix: the element that has now the number of the one found is written *)
Lemma update_shifted (P : world -> Prop) p r c (f : V -> M V) w m l v w1 x m1 l1 : sane N -> reachable w -> obj w p m -> enumerates m l ->
  0 <= r < mat_Rows m -> 0 <= c < mat_Columns m -> mat_At m r c = Ok (v, m) ->
  f v w = (w1, Ok x) -> later P w w1 -> obj w1 p m1 -> enumerates m1 l1 -> lined m = true ->
  (In (r, c) (map fst l) ->
    let n := length (filter (precedes m (r, c)) l) in
    match nth_error l1 n with
    | Some z => neqb x n0 = false \/ line_of m (fst z) = line_of m (r, c) ->
        exists m2, p_UpdateM p r c f w = (fst (store p m2 w1), Ok tt) /\ enumerates m2 (put_at m l1 n z x)
    | None => p_UpdateM p r c f w = (w1, Panic)
    end) /\
  (~ In (r, c) (map fst l) -> neqb x n0 = true -> exists w2, p_UpdateM p r c f w = (w2, Ok tt) /\ forall q mq, obj w2 q mq <-> obj w1 q mq).
Proof.
  intros Hs Hr Ho He Hr1 Hc1 Ha Hf Hl Ho1 He1 El. pose proof Hs as [Hz Hn]. pose proof (reach_wfw w Hz Hn Hr) as Hww. pose proof (Hww p m Ho) as Hw.
  pose proof (later_wfw P w w1 Hs Hl Hww p m1 Ho1) as Hw1. destruct (later_kin P w w1 p m Hl Ho) as (m0 & Ho0 & K). pose proof (obj_fun _ _ _ _ Ho1 Ho0) as ->.
  destruct (find_at m r c v Hz Hw (conj Hr1 Hc1) Ha) as [fd H]. rewrite (update_unfold p r c f w m fd v Ho H), Hf. unfold obj in Ho1. rewrite Ho1.
  destruct (find_lined m l r c Hw He El (conj Hr1 Hc1)) as (b & u & E1 & E2). rewrite E1 in H. injection H as <- ->. split.
  - intros Hin. cbv zeta. apply E2 in Hin. subst b. cbn [kind_of]. rewrite finish_hit by (rewrite (kin_lined m m1 K); exact El).
    set (n := length (filter (precedes m (r, c)) l)).
    assert (Q : on_spot m1 (at_index m1 r c (Z.of_nat n)) (line_of m (r, c)) /\ spot m1 (at_index m1 r c (Z.of_nat n)) = n).
    { destruct m, m1; cbn [kin] in K; try contradiction; try discriminate; cbn [on_spot spot at_index isw cri_index cri_r cci_index cci_c line_of fst snd]; repeat split; try lia. }
    destruct Q as [Q1 Q2]. pose proof (put_spot m1 l1 (at_index m1 r c (Z.of_nat n)) _ x Hw1 He1 Q1) as T. rewrite Q2 in T.
    destruct (nth_error l1 n) as [z|]; [|rewrite T; reflexivity]. intros Hx. destruct T as (m2 & T1 & T2 & T3).
    { rewrite (kin_line m m1) by exact K. tauto. }
    exists m2. rewrite T1. split; [rewrite store_ok; reflexivity|]. rewrite <- (kin_put m m1) by exact K. rewrite <- T3. apply OpsThms.enumerates_entries. exact T2.
  - intros Hin Hx. assert (b = false) by (destruct b; [exfalso; apply Hin, E2; reflexivity|reflexivity]). subst b. cbn [kind_of].
    assert (EF : mat_finish m1 r c (FMiss (Z.of_nat (length (filter (precedes m (r, c)) l)))) x = Ok m1).
    { pose proof (kin_lined m m1 K) as El1. rewrite El in El1. destruct m1; try discriminate; cbn [mat_finish]; unfold csr_insert, csc_insert, isz; rewrite Hx; reflexivity. }
    rewrite EF, store_ok. eexists. split; [reflexivity|]. intros q mq. destruct (Nat.eq_dec q p) as [->|Hq].
    + split; intros Hq; [|apply (obj_fun _ _ _ _ Ho1) in Hq; subst mq; eapply obj_upd_eq; exact Ho1].
      pose proof (obj_upd_eq w1 p m1 m1 Ho1) as Q. pose proof (obj_fun _ _ _ _ Hq Q) as ->. exact Ho1.
    + split; intros H; [apply obj_upd_neq_iff in H; auto|apply obj_upd_neq; auto].
Qed.

(** ** [Map] *)

Lemma map_unfold p it (f : Z -> Z -> V -> M V) w m e it' : obj w p m -> mat_Next m it = Ok (e, it') ->
  p_MapM p it f w =
  match f (fst (fst e)) (snd (fst e)) (snd e) w with
  | (w1, Ok x) => match nth_error (w_heap w1) p with
                  | Some m1 => match mat_map_put m1 it' x with Ok m2 => (fst (store p m2 w1), it', snd (store p m2 w1)) | Panic => (w1, it', Panic) | Diverge => (w1, it', Diverge) end
                  | None => (w1, it', Panic)
                  end
  | (w1, Panic) => (w1, it', Panic)
  | (w1, Diverge) => (w1, it', Diverge)
  end.
Proof.
  intros Ho H. unfold p_MapM. unfold obj in Ho. rewrite Ho, H. unfold mbind, load. destruct (f (fst (fst e)) (snd (fst e)) (snd e) w) as [w1 [x| |]]; try reflexivity.
  destruct (nth_error (w_heap w1) p) as [m1|]; [|reflexivity]. destruct (mat_map_put m1 it' x) as [m2| |]; reflexivity.
Qed.

(** whatever has happened before, and whatever the function does *)
Lemma map_calls (P : world -> Prop) w hs cs k p it cu m l (f : Z -> Z -> V -> M V) : sane N -> follows P w hs cs ->
  nth_error hs k = Some (p, it) -> nth_error cs k = Some (p, cu) -> obj w p m -> enumerates m l ->
  match shown m (cu_place cu) l with
  | Panic => p_MapM p it f w = (w, it, Panic)
  | Diverge => p_MapM p it f w = (w, it, Diverge)
  | Ok e => exists it', forall w1 out, f (fst (fst e)) (snd (fst e)) (snd e) w = (w1, out) -> later P w w1 ->
      follows P w1 (set_nth k (p, it') hs) (set_nth k (p, advance m cu l e) cs) /\
      match out with
      | Panic => p_MapM p it f w = (w1, it', Panic)
      | Diverge => p_MapM p it f w = (w1, it', Diverge)
      | Ok x => forall m1 l1, obj w1 p m1 -> enumerates m1 l1 ->
          match nth_error l1 (number m (cu_place cu) l e) with
          | None => p_MapM p it f w = (w1, it', Panic)
          | Some z => neqb x n0 = false \/ lined m = false \/ line_of m (fst z) = line_of m (fst e) ->
              exists m2, p_MapM p it f w = (fst (store p m2 w1), it', Ok tt) /\
                enumerates m2 (put_at m l1 (number m (cu_place cu) l e) z x) /\
                (P (fst (store p m2 w1)) -> follows P (fst (store p m2 w1)) (set_nth k (p, it') hs) (set_nth k (p, advance m cu l e) cs))
          end
      end
  end.
Proof.
  intros Hs H Hk Hc Ho He. destruct (open_iterator P w hs cs k p it p cu m l Hs H Hk Hc Ho He) as (_ & _ & T). destruct (shown m (cu_place cu) l) as [e| |].
  - destruct T as [[it' Hx] _]. exists it'. intros w1 out Hf Hl.
    pose proof (fol_next P w hs cs k p it cu m l e it' H Hk Hc Ho He Hx) as H1. pose proof (later_follows P w w1 _ _ Hl H1) as H2. split; [exact H2|].
    rewrite (map_unfold p it f w m e it' Ho Hx), Hf. destruct out as [x| |]; [|reflexivity|reflexivity]. intros m1 l1 Ho1 He1.
    destruct (follows_inv P w1 _ _ Hs H2) as (Hw & _ & Hi). destruct (Hi _ _ _ _ _ (set_nth_same _ _ _ _ Hk) (set_nth_same _ _ _ _ Hc)) as (_ & m0 & Ho0 & Hh).
    pose proof (obj_fun _ _ _ _ Ho1 Ho0) as ->. pose proof (held_put m1 it' _ l1 (cu_seen cu) e x (Hw _ _ Ho1) He1 Hh eq_refl) as T.
    destruct (later_kin P w w1 p m Hl Ho) as (m0 & Ho2 & K). pose proof (obj_fun _ _ _ _ Ho1 Ho2) as ->.
    unfold obj in Ho1. rewrite Ho1. unfold advance in T at 1. cbn [cu_spot] in T.
    destruct (nth_error l1 (number m (cu_place cu) l e)) as [z|] eqn:En; [|rewrite T; reflexivity]. intros Hc1.
    destruct T as (m2 & T1 & T2 & T3). { rewrite (kin_lined m m1 K), (kin_line m m1 _ K), (kin_line m m1 _ K). exact Hc1. }
    exists m2. rewrite T1. split; [rewrite store_ok; reflexivity|]. unfold advance in T3. cbn [cu_spot] in T3. rewrite (kin_put m m1) in T3 by exact K.
    split; [rewrite <- T3; apply OpsThms.enumerates_entries; exact T2|]. intros HP.
    apply (fol_put P w1 _ _ k p it' (advance m cu l e) m1 l1 x m2 H2 (set_nth_same _ _ _ _ Hk) (set_nth_same _ _ _ _ Hc)); auto.
    + unfold advance. cbn [cu_seen]. destruct (cu_seen cu); discriminate.
    + destruct Hc1 as [Hc1|[Hc1|Hc1]]; [left; exact Hc1|right; left; rewrite (kin_lined m m1 K); exact Hc1|]. right. right. exists z, (cu_seen cu), e.
      unfold advance. cbn [cu_seen cu_spot]. rewrite !(kin_line m m1 _ K). auto.
  - unfold p_MapM. unfold obj in Ho. rewrite Ho, T. reflexivity.
  - unfold p_MapM. unfold obj in Ho. rewrite Ho, T. reflexivity.
Qed.

(** the same at the moment the function returns, whatever it has done in between with other iterators too *)
Lemma write_back (P : world -> Prop) w hs cs k p it cu m l seen e x : sane N -> follows P w hs cs ->
  nth_error hs k = Some (p, it) -> nth_error cs k = Some (p, cu) -> obj w p m -> enumerates m l -> cu_seen cu = seen ++ [e] ->
  match nth_error l (cu_spot cu) with
  | None => mat_map_put m it x = Panic
  | Some z => neqb x n0 = false \/ lined m = false \/ line_of m (fst z) = line_of m (fst e) ->
      exists m', mat_map_put m it x = Ok m' /\ enumerates m' (put_at m l (cu_spot cu) z x) /\
        (P (fst (store p m' w)) -> follows P (fst (store p m' w)) hs cs)
  end.
Proof.
  intros Hs H Hk Hc Ho He Es. destruct (follows_inv P w hs cs Hs H) as (Hw & _ & Hi). destruct (Hi _ _ _ _ _ Hk Hc) as (_ & m0 & Ho0 & Hh). pose proof (obj_fun _ _ _ _ Ho Ho0) as ->.
  pose proof (held_put m it cu l seen e x (Hw _ _ Ho) He Hh Es) as T. destruct (nth_error l (cu_spot cu)) as [z|] eqn:En; [|exact T]. intros Hx.
  destruct (T Hx) as (m' & T1 & T2 & T3). exists m'. split; [exact T1|]. split; [rewrite <- T3; apply OpsThms.enumerates_entries; exact T2|]. intros HP.
  apply (fol_put P w hs cs k p it cu m l x m' H Hk Hc); auto; [rewrite Es; destruct seen; discriminate|].
  destruct Hx as [Hx|[Hx|Hx]]; [left; exact Hx|right; left; exact Hx|]. right. right. exists z, seen, e. auto.
Qed.

(** the function changes values only: [Map] writes the element it has shown *)
Lemma nth_fst {A B} (l : list (A * B)) n e : nth_error l n = Some e -> nth_error (map fst l) n = Some (fst e).
Proof. intros H. apply map_nth_error. exact H. Qed.

Lemma dv_nth m n e : wf m -> is_dv m = true -> nth_error (entries m) n = Some e -> fst (fst e) = Z.of_nat n.
Proof.
  intros Hw Hd Hn. pose proof (nth_fst _ _ _ Hn) as Q. rewrite (dv_positions m Hw Hd) in Q. rewrite nth_error_map in Q.
  assert (L : (n < length (entries m))%nat) by (apply nth_error_Some; congruence).
  pose proof (zget_zrange 0 (zlen (entries m)) (Z.of_nat n)) as G. unfold zget in G. unfold zlen in *. destruct (Z.ltb_spec (Z.of_nat n) 0); [lia|]. rewrite Nat2Z.id in G.
  destruct (nth_error (zrange 0 (Z.of_nat (length (entries m)))) n) as [a|]; [|specialize (G ltac:(lia)); discriminate]. injection (G ltac:(lia)) as ->. cbn in Q. injection Q as Q. rewrite <- Q. cbn. lia.
Qed.

Lemma steady_number p ps w hs cs k it cu m l e : sane N -> follows (keeps p ps) w hs cs ->
  nth_error hs k = Some (p, it) -> nth_error cs k = Some (p, cu) -> obj w p m -> enumerates m l ->
  zlen (cu_seen cu) < zlen ps -> shown m (cu_place cu) l = Ok e ->
  number m (cu_place cu) l e = length (cu_seen cu) /\ nth_error l (length (cu_seen cu)) = Some e.
Proof.
  intros Hs H Hk Hc Ho He L Hsh. destruct (follows_inv _ _ _ _ Hs H) as (Hw & _ & Hi). destruct (Hi _ _ _ _ _ Hk Hc) as (_ & m0 & Ho0 & Ht & _). pose proof (obj_fun _ _ _ _ Ho Ho0) as ->.
  pose proof (keeps_pos p ps w m (Hw) (follows_P _ _ _ _ H) Ho) as Ep. pose proof (enumerates_unique m l (Hw _ _ Ho) He) as El. rewrite <- El in Ep.
  pose proof (keeps_course p ps w hs cs Hs H k it cu m Hk Hc Ho) as Co. rewrite <- Ep in Co, L. rewrite zlen_map in L.
  pose proof (course_settled m cu l Co ltac:(lia)) as Hset. destruct (tracks_settled m it cu l (Hw _ _ Ho) He Ht Hset) as [Hup _]. rewrite Hsh, (course_upcoming m cu l Co L) in Hup.
  destruct (skipn (length (cu_seen cu)) l) as [|e0 rest] eqn:Es; [discriminate|]. injection Hup as <-. apply nth_skipn in Es. split; [|exact Es].
  destruct (open_iterator _ _ _ _ _ _ _ _ _ _ _ Hs H Hk Hc Ho He) as (_ & _ & T). rewrite Hsh in T. destruct T as [[it' Hx] _].
  destruct (tracks_spot m it cu l e it' (Hw _ _ Ho) He Ht Hx) as (_ & Q & y & Q1 & _ & Q2 & _). rewrite Q in Q1. rewrite (Q2 Hset) in Q1. rewrite El in *.
  destruct (lined m) eqn:Elm.
  - rewrite <- (number_nth m _ e (Hw _ _ Ho) Elm Q1), (number_nth m _ e (Hw _ _ Ho) Elm Es) at 1. reflexivity.
  - destruct (Co ltac:(rewrite zlen_map; lia)) as (_ & D & U & _ & E2 & E3). rewrite Elm in E3. rewrite E3. cbn [number].
    assert (ED : Z.to_nat (zlen D) = length (cu_seen cu)) by (rewrite <- E2; unfold zlen; rewrite map_length; lia).
    destruct m as [s|s|s|s|s]; try discriminate; auto. rewrite (dv_nth (MDV s) _ e (Hw _ _ Ho) eq_refl Es). lia.
Qed.

Lemma map_changes_values p ps w hs cs k it cu m l (f : Z -> Z -> V -> M V) w1 x e m1 l1 : sane N -> follows (keeps p ps) w hs cs ->
  nth_error hs k = Some (p, it) -> nth_error cs k = Some (p, cu) -> obj w p m -> enumerates m l -> zlen (cu_seen cu) < zlen ps ->
  nth_error l (length (cu_seen cu)) = Some e ->
  f (fst (fst e)) (snd (fst e)) (snd e) w = (w1, Ok x) -> later (keeps p ps) w w1 -> obj w1 p m1 -> enumerates m1 l1 ->
  exists v1 m2 it', nth_error l1 (length (cu_seen cu)) = Some (fst e, v1) /\ p_MapM p it f w = (fst (store p m2 w1), it', Ok tt) /\
    enumerates m2 (put_at m l1 (length (cu_seen cu)) (fst e, v1) x).
Proof.
  intros Hs H Hk Hc Ho He L Hn Hf Hl Ho1 He1.
  pose proof (map_calls _ w hs cs k p it cu m l f Hs H Hk Hc Ho He) as T.
  destruct (steady_iterator p ps w hs cs k it p cu m l Hs H Hk Hc Ho He ltac:(lia)) as (Ep & Hset & done & rest & El & Ed & Hr).
  assert (EL : length (cu_seen cu) = length done) by (rewrite <- (map_length fst (cu_seen cu)), Ed, map_length; reflexivity).
  destruct rest as [|e0 rest]. { exfalso. rewrite app_nil_r in El. subst done. rewrite <- Ep in L. rewrite zlen_map in L. unfold zlen in L. lia. }
  rewrite El, EL, nth_error_app2, Nat.sub_diag in Hn by lia. cbn in Hn. injection Hn as ->.
  assert (Hsh : shown m (cu_place cu) l = Ok e).
  { destruct (open_iterator _ _ _ _ _ _ _ _ _ _ _ Hs H Hk Hc Ho He) as (_ & _ & T2). destruct Hr as (_ & [it' Hx] & _).
    destruct (shown m (cu_place cu) l) as [e1| |]; [destruct T2 as [[it2 T2] _]|..]; congruence. }
  rewrite Hsh in T. destruct T as [it' T]. destruct (T w1 (Ok x) Hf Hl) as [H1 T']. specialize (T' m1 l1 Ho1 He1).
  destruct (steady_number p ps w hs cs k it cu m l e Hs H Hk Hc Ho He L Hsh) as [En Hn2]. rewrite En in T'.
  destruct (follows_inv _ _ _ _ Hs H1) as (Hw1 & _ & _). pose proof (keeps_pos p ps w1 m1 Hw1 (follows_P _ _ _ _ H1) Ho1) as Ep1.
  rewrite <- (enumerates_unique m1 l1 (Hw1 _ _ Ho1) He1) in Ep1.
  assert (Q : nth_error (map fst l1) (length (cu_seen cu)) = Some (fst e)) by (rewrite Ep1, <- Ep; apply nth_fst; exact Hn2).
  rewrite nth_error_map in Q. destruct (nth_error l1 (length (cu_seen cu))) as [[q v1]|]; [|discriminate]. injection Q as Q. cbn [fst] in *. subst q.
  destruct T' as (m2 & T1 & T2 & _); [right; right; reflexivity|]. exists v1, m2, it'. auto.
Qed.

(** ** A loop whose function may panic *)
Lemma app_same_length {A} (a b c d : list A) : length a = length b -> a ++ c = b ++ d -> a = b /\ c = d.
Proof. revert b; induction a as [|x a IH]; intros [|y b] L E; cbn in *; try discriminate; [auto|]. injection L as L. injection E as <- E. destruct (IH b L E) as [-> ->]. auto. Qed.

(** the elements after the loop, and its outcome: the element at which the function panics and those after it stay *)
Fixpoint mapped_until (g : Z -> Z -> V -> res V) (l : list ent) : list ent * res unit :=
  match l with
  | [] => ([], Ok tt)
  | e :: rest =>
      match g (fst (fst e)) (snd (fst e)) (snd e) with
      | Ok x => let '(l', o) := mapped_until g rest in ((fst e, x) :: l', o)
      | Panic => (l, Panic)
      | Diverge => (l, Diverge)
      end
  end.

Lemma loop_from p g (f : Z -> Z -> V -> M V) : sane N -> (forall i j v w, f i j v w = (w, g i j v)) -> forall rest done w it cu m,
  follows (keeps p (map fst (done ++ rest))) w [(p, it)] [(p, cu)] -> obj w p m -> enumerates m (done ++ rest) -> map fst (cu_seen cu) = map fst done ->
  (forall e x, In e rest -> g (fst (fst e)) (snd (fst e)) (snd e) = Ok x -> sparse_obj m && neqb x n0 = false) ->
  forall fuel, (length rest <= fuel)%nat ->
  exists w' m', p_MapAllM fuel p it f w = (w', snd (mapped_until g rest)) /\ obj w' p m' /\ enumerates m' (done ++ fst (mapped_until g rest)) /\ extends_but p w w'.
Proof.
  intros Hs Hf rest. induction rest as [|e rest IH]; intros done w it cu m H Ho He Es Hnz fuel Hfuel.
  - destruct (steady_iterator _ _ w _ _ 0 it p cu m _ Hs H eq_refl eq_refl Ho He) as (_ & _ & d & r & E & Ed & Hr).
    { rewrite zlen_map, app_nil_r. rewrite <- (zlen_map fst (cu_seen cu)), Es, zlen_map. lia. }
    assert (r = []). { apply (f_equal (map fst)) in E. rewrite app_nil_r, map_app, <- Ed, Es in E. apply (f_equal (@length _)) in E. rewrite app_length, !map_length in E. destruct r; [reflexivity|cbn in E; lia]. }
    subst r. exists w, m. cbn [mapped_until fst snd]. split; [destruct fuel; cbn [p_MapAllM]; rewrite Hr; reflexivity|]. split; [exact Ho|]. split; [exact He|]. intros q mq _ Hq. exact Hq.
  - assert (ES : length (cu_seen cu) = length done) by (rewrite <- (map_length fst (cu_seen cu)), Es, map_length; reflexivity).
    assert (L : zlen (cu_seen cu) < zlen (map fst (done ++ e :: rest))) by (rewrite zlen_map; zl; pose proof (zlen_nonneg rest); unfold zlen in *; lia).
    destruct (steady_iterator _ _ w _ _ 0 it p cu m _ Hs H eq_refl eq_refl Ho He) as (_ & Hset & d & r & E & Ed & Hr); [lia|].
    assert (ED : d = done /\ r = e :: rest). { apply app_same_length in E; [destruct E; auto|]. rewrite <- (map_length fst d), <- Ed, map_length. lia. }
    destruct ED as [-> ->]. destruct Hr as (Hh & [it' Hx] & Hm). destruct fuel as [|fuel]; [cbn in Hfuel; lia|]. cbn [p_MapAllM mapped_until]. rewrite Hh.
    rewrite (map_unfold p it f w m e it' Ho Hx), Hf. destruct (g (fst (fst e)) (snd (fst e)) (snd e)) as [x| |] eqn:Eg.
    + destruct (Hm (fun _ _ _ => x)) as (m' & it2 & n & M1 & M2 & M3). pose proof M1 as M1'. apply MapNext_inv in M1' as [Hx2 Hput]. rewrite Hx in Hx2. injection Hx2 as <-. unfold obj in Ho. rewrite Ho, Hput. fold (obj w p m) in Ho.
      assert (Hnx : sparse_obj m && neqb x n0 = false) by (apply (Hnz e); [left; reflexivity|exact Eg]).
      assert (Hsh : shown m (cu_place cu) (done ++ e :: rest) = Ok e).
      { destruct (open_iterator _ _ _ _ 0 _ _ _ _ _ _ Hs H eq_refl eq_refl Ho He) as (_ & _ & T2). destruct (shown m (cu_place cu) (done ++ e :: rest)) as [e1| |]; [destruct T2 as [[it3 T2] _]|..]; congruence. }
      destruct (steady_number _ _ w _ _ 0 it cu m _ e Hs H eq_refl eq_refl Ho He L Hsh) as [En _].
      assert (Hent : enumerates m' ((done ++ [(fst e, x)]) ++ rest)).
      { destruct (follows_inv _ _ _ _ Hs H) as (Hw & _ & Hi). destruct (Hi 0%nat _ _ _ _ eq_refl eq_refl) as (_ & m0 & Ho0 & Ht & _). pose proof (obj_fun _ _ _ _ Ho Ho0) as ->.
        destruct (tracks_spot m it cu _ e it' (Hw _ _ Ho) He Ht Hx) as (Q1 & Q2 & _). pose proof (put_spot m _ it' _ x (Hw _ _ Ho) He Q1) as T. rewrite Q2, En, ES in T.
        rewrite nth_error_app2, Nat.sub_diag in T by lia. cbn [nth_error] in T. destruct T as (m3 & T1 & T2 & T3); [auto|]. rewrite Hput in T1. injection T1 as <-.
        apply OpsThms.enumerates_entries in T2. rewrite T3 in T2. unfold put_at in T2. rewrite Hnx in T2.
        rewrite firstn_app, firstn_all, Nat.sub_diag in T2. cbn [firstn] in T2. rewrite app_nil_r, skipn_app, skipn_all2 in T2 by lia. replace (S (length done) - length done)%nat with 1%nat in T2 by lia. cbn [skipn app] in T2.
        rewrite <- app_assoc. exact T2. }
      rewrite store_ok. cbn [fst snd].
      assert (Ho' : obj (upd w p m') p m') by (eapply obj_upd_eq; exact Ho).
      assert (Hpos : map fst ((done ++ [(fst e, x)]) ++ rest) = map fst (done ++ e :: rest)) by (rewrite <- app_assoc, !map_app; reflexivity).
      assert (H' : follows (keeps p (map fst ((done ++ [(fst e, x)]) ++ rest))) (upd w p m') [(p, it')] [(p, advance m cu (done ++ e :: rest) e)]).
      { rewrite Hpos. apply (fol_map _ w [(p, it)] [(p, cu)] 0 p it cu m (done ++ e :: rest) (fun _ _ _ => x) e m' it' Hs H eq_refl eq_refl Ho He M1); [left; exact Hset|].
        exists m', ((done ++ [(fst e, x)]) ++ rest). split; [exact Ho'|]. split; [exact Hent|exact Hpos]. }
      destruct (IH (done ++ [(fst e, x)]) (upd w p m') it' _ m' H' Ho' Hent) with (fuel := fuel) as (w' & m2 & R1 & R2 & R3 & R4).
      { unfold advance. cbn [cu_seen]. rewrite !map_app, Es. reflexivity. }
      { intros e1 x1 Hin Hg. pose proof (put_kin _ _ _ _ Hput) as K. replace (sparse_obj m') with (sparse_obj m); [apply (Hnz e1); [right; exact Hin|exact Hg]|]. destruct m, m'; cbn in K; try contradiction; reflexivity. }
      { cbn in Hfuel. lia. }
      rewrite R1. destruct (mapped_until g rest) as [l' o]. cbn [fst snd] in *. exists w', m2. split; [destruct o; reflexivity|]. split; [exact R2|]. split; [rewrite <- app_assoc in R3; exact R3|].
      intros q mq Hq Hoq. apply R4; [exact Hq|]. apply obj_upd_neq; auto.
    + exists w, m. cbn [fst snd]. split; [reflexivity|]. split; [exact Ho|]. split; [exact He|]. intros q mq _ Hq. exact Hq.
    + exists w, m. cbn [fst snd]. split; [reflexivity|]. split; [exact Ho|]. split; [exact He|]. intros q mq _ Hq. exact Hq.
Qed.

Lemma map_loop_until p g (f : Z -> Z -> V -> M V) w m l fuel : sane N -> reachable w -> obj w p m -> enumerates m l ->
  (forall i j v w, f i j v w = (w, g i j v)) ->
  (forall e x, In e l -> g (fst (fst e)) (snd (fst e)) (snd e) = Ok x -> sparse_obj m = false \/ neqb x n0 = false) ->
  (length l <= fuel)%nat ->
  exists w' m', p_MapAllM fuel p (mat_iterator m) f w = (w', snd (mapped_until g l)) /\ obj w' p m' /\ enumerates m' (fst (mapped_until g l)) /\ extends_but p w w'.
Proof.
  intros Hs Hr Ho He Hf Hnz Hfuel.
  apply (loop_from p g f Hs Hf l [] w (mat_iterator m) (start m) m); auto.
  - apply (fol_open _ w [] [] p m); [|exact Ho]. apply fol_start; [exact Hr|]. exists m, l. auto.
  - intros e x Hin Hg. destruct (Hnz e x Hin Hg) as [-> | ->]; [reflexivity|apply andb_false_r].
Qed.

End CallbackThms.
