(** Proofs about resizing, the registry, contexts and the built-in operators. *)
From Coq Require Import String Permutation Ring_theory.
From Verif Require Import GoBase Num SparseVec Csr Csc DenseVec DenseMat Mat World Ops Spec Api Registry Ctx Operators.
From Verif Require Import BaseProofs MatProofs HeapProofs ReachProofs NumProofs DenseProofs StoreProofs StoreThms OpsProps MaskThms Witness StoreWitness OpsWitness ReduceWitness.
Import ListNotations.

(** ** ReSize *)
Section ReSize.
Context {N : num}.
Notation V := (T N).
Implicit Types w : world N.

Lemma dv_AtVec_zget (s : dvec N) i : 0 <= i < dv_l s -> mat_AtVec (MDV s) i = zget (dv_values s) i.
Proof. intros H. cbn. unfold dv_AtVec, dv_Length. replace ((i <? 0) || (i >=? dv_l s)) with false by lia. reflexivity. Qed.

Lemma zget_firstn {A} (l : list A) n i : 0 <= i < Z.of_nat n -> zget (firstn n l) i = zget l i.
Proof.
  intros H. unfold zget. destruct (i <? 0) eqn:E; [reflexivity|].
  replace (nth_error (firstn n l) (Z.to_nat i)) with (nth_error l (Z.to_nat i)); [reflexivity|].
  rewrite <- (firstn_skipn n l) at 1. destruct (Nat.lt_ge_cases (Z.to_nat i) (length (firstn n l))) as [Hl|Hl].
  - apply nth_error_app1. exact Hl.
  - rewrite firstn_length in Hl. assert (length l <= Z.to_nat i)%nat by lia.
    rewrite firstn_skipn. rewrite (proj2 (nth_error_None l _)) by lia. symmetry. apply nth_error_None. rewrite firstn_length. lia.
Qed.

Lemma dv_ReSize_run (s : dvec N) n : zlen (dv_values s) = dv_l s -> 0 <= n ->
  exists s', dv_ReSize s n = Ok (dv_l s', s') /\ dv_l s' = (if n <? dv_l s then dv_l s - n else n) /\
    forall i, 0 <= i < dv_l s' -> mat_AtVec (MDV s') i = if i <? dv_l s then mat_AtVec (MDV s) i else Ok n0.
Proof.
  intros Hl Hn. pose proof (zlen_nonneg (dv_values s)) as H0. unfold dv_ReSize. destruct (n >? dv_l s) eqn:E1.
  - unfold make_slice. replace (n - dv_l s <? 0) with false by lia. cbn [rbind].
    eexists (MkDV _ _). split; [reflexivity|]. cbn [dv_l]. rewrite zlen_app, zlen_repeat.
    split; [replace (n <? dv_l s) with false by lia; lia|].
    intros i Hi. rewrite dv_AtVec_zget by (cbn [dv_l]; rewrite ?zlen_app, ?zlen_repeat; lia). cbn [dv_values].
    destruct (i <? dv_l s) eqn:Ei.
    + rewrite zget_app1 by lia. rewrite dv_AtVec_zget by lia. reflexivity.
    + rewrite zget_app2 by lia. apply zget_repeat. lia.
  - destruct (n <? dv_l s) eqn:E2.
    + unfold slice_to. replace ((dv_l s - n <? 0) || (zlen (dv_values s) <? dv_l s - n)) with false by lia. cbn [rbind].
      assert (Hz : zlen (firstn (Z.to_nat (dv_l s - n)) (dv_values s)) = dv_l s - n) by (unfold zlen in *; rewrite firstn_length; lia).
      eexists (MkDV _ _). split; [reflexivity|]. cbn [dv_l]. rewrite Hz. split; [reflexivity|].
      intros i Hi. rewrite dv_AtVec_zget by (cbn [dv_l]; lia). cbn [dv_values]. rewrite zget_firstn by lia.
      replace (i <? dv_l s) with true by lia. rewrite dv_AtVec_zget by lia. reflexivity.
    + cbn [rbind]. eexists (MkDV _ _). split; [reflexivity|]. cbn [dv_l]. split; [lia|].
      intros i Hi. replace (i <? dv_l s) with true by lia. rewrite !dv_AtVec_zget by (cbn [dv_l]; lia). reflexivity.
Qed.

(** what the call does: the length becomes [n] if the vector grows, [L - n] if it shrinks *)
Lemma resize_exact w (p : ptr) (s : dvec N) L g n : sane N -> reachable w -> obj w p (MDV s) -> vdenotes (MDV s) L g -> 0 <= n ->
  exists w' s', let K := if n <? L then L - n else n in
    p_ReSize p n w = (w', Ok K) /\ obj w' p (MDV s') /\ extends_but p w w' /\
    vdenotes (MDV s') K (fun i => if i <? L then g i else n0).
Proof.
  intros Hsn Hr Ho (HL & _ & Hd) Hn. assert (Hl : dv_l s = L) by exact HL.
  assert (Hv : zlen (dv_values s) = dv_l s).
  { destruct (sane_wfw _ Hsn Hr _ _ Ho) as (L' & f & -> & HL'). cbn [mk_dv dv_values dv_l]. rewrite zlen_tab; lia. }
  destruct (dv_ReSize_run s n Hv Hn) as (s' & E & EK & Hat). rewrite Hl in *.
  exists (upd w p (MDV s')), s'. cbv zeta. split; [|split; [|split; [|split; [|split]]]].
  - unfold p_ReSize. rewrite (mbind_ok _ _ _ _ _ (load_ok _ _ _ Ho)). rewrite E, <- EK. reflexivity.
  - eapply obj_upd_eq, Ho.
  - intros q x Hq. apply obj_upd_neq. exact Hq.
  - exact EK.
  - reflexivity.
  - intros i Hi. rewrite <- EK in Hi. rewrite (Hat i Hi). destruct (i <? L) eqn:Ei; [|reflexivity]. apply Hd. lia.
Qed.

(** the length is right when the vector does not shrink (or is halved), and only then *)
Lemma resize_right w (p : ptr) (s : dvec N) L g n : sane N -> reachable w -> obj w p (MDV s) -> vdenotes (MDV s) L g -> 0 <= n ->
  (L <= n \/ L = 2 * n) <->
  exists w' s', p_ReSize p n w = (w', Ok n) /\ obj w' p (MDV s') /\ extends_but p w w' /\
    vdenotes (MDV s') n (fun i => if i <? L then g i else n0).
Proof.
  intros Hsn Hr Ho Hd Hn. destruct (resize_exact w p s L g n Hsn Hr Ho Hd Hn) as (w' & s' & E & H1 & H2 & H3). cbv zeta in *.
  split.
  - intros H. replace (if n <? L then L - n else n) with n in E, H3 by (destruct (n <? L) eqn:En; lia). exists w', s'. auto.
  - intros (w2 & s2 & E2 & _). rewrite E2 in E. injection E as _ E. destruct (n <? L) eqn:En; lia.
Qed.
End ReSize.

(** a shrinking vector ends up with the wrong length *)
Definition resw : world num_goint := after_all [KDVFrom [gi 4; gi 5; gi 6]] empty_world.
Lemma resw_reachable : reachable resw.
Proof. unfold resw. reach_ops. Qed.
Definition res3 : dvec num_goint := MkDV 3 [gi 4; gi 5; gi 6].
Lemma resw_obj : obj resw 0 (MDV res3). Proof. at_obj. Qed.
Definition res_g (i : Z) : T num_goint := if i =? 0 then gi 4 else if i =? 1 then gi 5 else gi 6.
Lemma resw_den : vdenotes (MDV res3) 3 res_g.
Proof.
  split; [reflexivity|]. split; [reflexivity|]. intros i Hi.
  assert (i = 0 \/ i = 1 \/ i = 2) as [-> | [-> | ->]] by lia; reflexivity.
Qed.
Lemma resize_no :
  ~ (forall N w (p : ptr) (s : dvec N) L g n, sane N -> reachable w -> obj w p (MDV s) -> vdenotes (MDV s) L g -> 0 <= n ->
      exists w' s', p_ReSize p n w = (w', Ok n) /\ obj w' p (MDV s') /\ extends_but p w w' /\
        vdenotes (MDV s') n (fun i => if i <? L then g i else n0)).
Proof.
  intros H. specialize (H _ resw 0%nat res3 3 res_g 1 goint_sane resw_reachable resw_obj resw_den ltac:(lia)).
  apply (resize_right resw 0 res3 3 res_g 1 goint_sane resw_reachable resw_obj resw_den) in H; lia.
Qed.

(** ** The registry *)
Local Open Scope string_scope.

(** the names of the types offered so far *)
Definition names (ts : list gotype) : list string := map type_Name (init_types ++ ts).

Lemma found_in reg x : found reg x = true <-> In x (map fst reg).
Proof.
  unfold found. rewrite existsb_exists. split.
  - intros ([n t] & Hin & E). apply String.eqb_eq in E. cbn in E. subst. apply in_map_iff. exists (x, t). auto.
  - intros H. apply in_map_iff in H. destruct H as ([n t] & E & Hin). cbn in E. subst. exists (x, t). split; [auto|apply String.eqb_refl].
Qed.
Lemma attempt_keys reg t x : In x (map fst (attempt reg t)) <-> x = type_Name t \/ In x (map fst reg).
Proof.
  unfold attempt, Register. destruct (found reg (type_Name t)) eqn:E.
  - apply found_in in E. split; [auto|]. intros [->|H]; auto.
  - cbn. intuition auto.
Qed.
Lemma history_keys ts : forall reg x, In x (map fst (history ts reg)) <-> In x (map type_Name ts) \/ In x (map fst reg).
Proof.
  induction ts as [|t ts IH]; intros reg x; cbn [history fold_left map In]; [tauto|].
  change (fold_left attempt ts (attempt reg t)) with (history ts (attempt reg t)). rewrite IH, attempt_keys. split; intuition auto.
Qed.
Lemma registered_keys ts x : In x (map fst (registered ts)) <-> In x (names ts).
Proof. unfold registered, names. rewrite !history_keys, map_app, in_app_iff. cbn [map In]. tauto. Qed.

(** IsSparseMatrix looks at the name of the type pointed to *)
Lemma is_sparse_exact ts t : match type_Elem t with
  | Ok e => exists b, IsSparse (registered ts) (Some t) = Ok b /\ (b = true <-> In (type_Name e) (names ts))
  | _ => IsSparse (registered ts) (Some t) = Panic
  end.
Proof.
  unfold IsSparse. destruct (type_Elem t) as [e| |] eqn:E; [|reflexivity|destruct t as [? ? [?|]|[?|]]; discriminate]. cbn [rbind].
  eexists. split; [reflexivity|]. rewrite found_in. apply registered_keys.
Qed.

(** RegisterMatrix panics exactly for a name offered before, otherwise it adds the type *)
Lemma register_exact ts t :
  (In (type_Name t) (names ts) -> Register (registered ts) t = Panic /\ registered (ts ++ [t]) = registered ts) /\
  (~ In (type_Name t) (names ts) -> Register (registered ts) t = Ok (registered (ts ++ [t]))).
Proof.
  assert (E : registered (ts ++ [t]) = attempt (registered ts) t) by (unfold registered, history; rewrite (fold_left_app attempt ts [t]); reflexivity).
  split; intros H; rewrite E; unfold attempt, Register.
  - rewrite (proj2 (found_in _ _)) by (apply registered_keys; exact H). auto.
  - destruct (found (registered ts) (type_Name t)) eqn:F; [|reflexivity].
    apply found_in, registered_keys in F. contradiction.
Qed.
Lemma register_twice ts t us : Register (registered (ts ++ t :: us)) t = Panic.
Proof.
  apply register_exact. unfold names. rewrite !map_app. apply in_or_app. right. apply in_or_app. right. left. reflexivity.
Qed.

(** among types with different names, exactly the registered ones are sparse *)
Lemma is_sparse_distinct ts e t : type_Elem t = Ok e ->
  (forall a, In a (init_types ++ ts) -> type_Name a = type_Name e -> a = e) ->
  exists b, IsSparse (registered ts) (Some t) = Ok b /\ (b = true <-> In e (init_types ++ ts)).
Proof.
  intros Ht Hinj. pose proof (is_sparse_exact ts t) as H. rewrite Ht in H. destruct H as (b & Hb & Hiff).
  exists b. split; [exact Hb|]. rewrite Hiff. unfold names. rewrite in_map_iff. split.
  - intros (a & Ha & Hin). rewrite <- (Hinj a Hin Ha). exact Hin.
  - intros Hin. exists e. auto.
Qed.

(** two packages may each define a type of the same name *)
Definition other_type : gotype := TNamed "example.org/other" "CSRMatrix[float64]" None.
Lemma same_name_no :
  ~ (forall ts t e, type_Elem t = Ok e -> exists b, IsSparse (registered ts) (Some t) = Ok b /\ (b = true <-> In e (init_types ++ ts))).
Proof.
  intros H. destruct (H [] (TLit (Some other_type)) other_type eq_refl) as (b & Hb & Hiff).
  assert (b = true) as -> by (vm_compute in Hb; congruence).
  destruct (proj1 Hiff eq_refl) as [E|[E|[E|[]]]]; discriminate E.
Qed.
Lemma distinct_no : ~ (forall ts t, ~ In t (init_types ++ ts) -> exists reg, Register (registered ts) t = Ok reg).
Proof.
  intros H. destruct (H [] other_type) as (reg & E); [|vm_compute in E; discriminate].
  intros [E|[E|[E|[]]]]; discriminate E.
Qed.

(** the library's own types *)
Definition sparse_storage {N} (m : mat N) : Prop := match m with MCSR _ | MCSC _ | MSV _ => True | _ => False end.

Lemma dyn_name N (m : mat N) : type_Name (instance (generic_name m) (num_name N)) = mat_name m.
Proof. unfold mat_name. destruct m; reflexivity. Qed.
Lemma existsb_sym (l : list string) x : existsb (String.eqb x) l = existsb (fun y => String.eqb y x) l.
Proof. induction l as [|y l IH]; [reflexivity|]. cbn. rewrite IH, String.eqb_sym. reflexivity. Qed.
Lemma is_sparse_link N (m : mat N) reg : IsSparse reg (Some (dyn_type m)) = Ok (IsSparseMatrix (map fst reg) m).
Proof.
  unfold IsSparse, dyn_type, IsSparseMatrix. cbn [type_Elem rbind]. rewrite dyn_name, existsb_sym. f_equal. unfold found.
  induction reg as [|[n t] reg IH]; [reflexivity|]. cbn [map existsb fst]. rewrite IH. reflexivity.
Qed.
Lemma register_link reg t : rmap (map fst) (Register reg t) = RegisterMatrix (map fst reg) (type_Name t).
Proof.
  unfold Register, RegisterMatrix. rewrite existsb_sym.
  replace (existsb (fun y => String.eqb y (type_Name t)) (map fst reg)) with (found reg (type_Name t)).
  - destruct (found reg (type_Name t)); reflexivity.
  - unfold found. induction reg as [|[n u] reg IH]; [reflexivity|]. cbn. rewrite IH. reflexivity.
Qed.
Lemma reg0_link : map fst (registered []) = reg0.
Proof. reflexivity. Qed.

Lemma is_sparse_go_types N (m : mat N) : In N go_types ->
  exists b, IsSparse (registered []) (Some (dyn_type m)) = Ok b /\ (b = true <-> sparse_storage m /\ num_name N = "float64"%string).
Proof.
  intros H. rewrite is_sparse_link, reg0_link. eexists. split; [reflexivity|]. unfold IsSparseMatrix, mat_name.
  cbn [go_types go_ints In] in H.
  repeat (destruct H as [<-|H]; [destruct m; cbn; intuition (auto; discriminate)|]). contradiction.
Qed.
Lemma is_sparse_all_types_no : ~ (forall N (m : mat N), In N go_types ->
  exists b, IsSparse (registered []) (Some (dyn_type m)) = Ok b /\ (b = true <-> sparse_storage m)).
Proof.
  intros H. assert (Hin : In num_goint go_types) by (cbn; auto 20).
  destruct (H _ (MCSR demo0) Hin) as (b & Hb & Hiff).
  assert (Ok b = Ok false) as E by (rewrite <- Hb, is_sparse_link, reg0_link; reflexivity).
  injection E as ->. pose proof (proj2 Hiff I). discriminate.
Qed.
Local Close Scope string_scope.

(** ** Contexts *)

(** [c] was made from [a] by any number of derivations *)
Inductive derived (a : ctx) : ctx -> Prop :=
| d_refl : derived a a
| d_cancel id c : derived a c -> derived a (CCancel id c)
| d_value c : derived a c -> derived a (CValue c)
| d_other c : derived a c -> derived a (COther c)
| d_graph c mode : derived a c -> derived a (NewContext c mode).

Lemma mode_exact c m ok : BlockingMode c = (m, ok) ->
  (ok = true <-> exists p, c = NewContext p m) /\ ((forall p m', c <> NewContext p m') -> m = Blocking /\ ok = false).
Proof.
  destruct c; cbn [BlockingMode]; intros [= <- <-]; (split; [split; [intros H|intros (p & H)]|intros H]);
    try discriminate; try (split; reflexivity); try reflexivity.
  - eexists. reflexivity.
  - destruct (H c mode). reflexivity.
Qed.
Lemma mode_new c m : BlockingMode (NewContext c m) = (m, true).
Proof. reflexivity. Qed.
Lemma done_derived fired a c b : derived a c -> done fired c = Ok b ->
  exists b0, done fired a = Ok b0 /\ (b0 = true -> b = true).
Proof.
  intros H. revert b. induction H as [|id c H IH|c H IH|c H IH|c mode H IH]; intros b E; cbn [done NewContext] in E; auto.
  - eauto.
  - destruct (done fired c) as [d| |]; try discriminate. cbn [rbind] in E. injection E as <-.
    destruct (IH d eq_refl) as (b0 & E0 & Hb). exists b0. split; [exact E0|]. intros Hb0. rewrite (Hb Hb0). apply Bool.orb_true_r.
Qed.
(** the signals a context reacts to *)
Inductive listens : ctx -> nat -> Prop :=
| l_here id c : listens (CCancel id c) id
| l_cancel id id' c : listens c id -> listens (CCancel id' c) id
| l_value id c : listens c id -> listens (CValue c) id
| l_other id c : listens c id -> listens (COther c) id
| l_graph id c mode : listens c id -> listens (NewContext c mode) id.
Lemma done_exact fired c : (derived CNil c /\ done fired c = Panic) \/
  (derived CBackground c /\ exists b, done fired c = Ok b /\ (b = true <-> exists id, listens c id /\ fired id = true)).
Proof.
  induction c as [| |id c IH|c IH|c IH mode|c IH]; cbn [done].
  - left. split; [constructor|reflexivity].
  - right. split; [constructor|]. exists false. split; [reflexivity|]. split; [discriminate|]. intros (id & H & _). inversion H.
  - destruct IH as [[H E]|(H & b & E & Hb)]; [left; split; [constructor; exact H|rewrite E; reflexivity]|right].
    split; [constructor; exact H|]. rewrite E. cbn [rbind]. eexists. split; [reflexivity|].
    rewrite Bool.orb_true_iff, Hb. split.
    + intros [F|(i & L & F)]; [exists id; split; [constructor|exact F]|exists i; split; [constructor; exact L|exact F]].
    + intros (i & L & F). inversion L; subst; [left; exact F|right; exists i; auto].
  - destruct IH as [[H E]|(H & b & E & Hb)]; [left; split; [constructor; exact H|exact E]|right].
    split; [constructor; exact H|]. exists b. split; [exact E|]. rewrite Hb. split; intros (i & L & F); exists i; (split; [|exact F]).
    + constructor; exact L.
    + inversion L; subst; assumption.
  - destruct IH as [[H E]|(H & b & E & Hb)]; [left; split; [apply d_graph; exact H|exact E]|right].
    split; [apply d_graph; exact H|]. exists b. split; [exact E|]. rewrite Hb. split; intros (i & L & F); exists i; (split; [|exact F]).
    + apply l_graph; exact L.
    + inversion L; subst; assumption.
  - destruct IH as [[H E]|(H & b & E & Hb)]; [left; split; [constructor; exact H|exact E]|right].
    split; [constructor; exact H|]. exists b. split; [exact E|]. rewrite Hb. split; intros (i & L & F); exists i; (split; [|exact F]).
    + constructor; exact L.
    + inversion L; subst; assumption.
Qed.
(** deriving a context from one made by NewContext loses the mode *)
Lemma mode_lost c m id : BlockingMode (CCancel id (NewContext c m)) = (Blocking, false) /\ BlockingMode (CValue (NewContext c m)) = (Blocking, false) /\
  (forall m', BlockingMode (NewContext (NewContext c m) m') = (m', true)).
Proof. repeat split. Qed.

(** ** Operators *)
Section Laws.
Context {A : Type}.
Implicit Types op : A -> A -> A.

Definition associative op : Prop := forall x y z, op (op x y) z = op x (op y z).
Definition commutative op : Prop := forall x y, op x y = op y x.
Definition idempotent op : Prop := forall x, op x x = x.
Definition comm_monoid op (e : A) : Prop := associative op /\ commutative op /\ forall x, op e x = x.

(** a sequence cut into chunks which are reduced first *)
Definition split_reduce op (u : A) (chunks : list (list A)) : A := Reduce op u (map (Reduce op u) chunks).

Lemma reduce_from op u l : associative op -> (forall x, op u x = x) -> forall a, fold_left op l a = op a (fold_left op l u) \/ l = [].
Proof.
  intros Ha Hu a. destruct l as [|x l]; [auto|left]. cbn [fold_left]. rewrite Hu.
  revert a x. induction l as [|y l IH]; intros a x; cbn [fold_left]; [reflexivity|]. rewrite Ha. apply IH.
Qed.
Lemma reduce_from_unit op u l : comm_monoid op u -> forall a, fold_left op l a = op a (fold_left op l u).
Proof.
  intros (Ha & Hc & Hu) a. destruct (reduce_from op u l Ha Hu a) as [H| ->]; [exact H|]. cbn. rewrite Hc. symmetry. apply Hu.
Qed.
Lemma split_monoid op u chunks : comm_monoid op u -> split_reduce op u chunks = Reduce op u (concat chunks).
Proof.
  intros H. unfold split_reduce, Reduce. assert (G : forall a, fold_left op (map (fun l => fold_left op l u) chunks) a = fold_left op (concat chunks) a).
  { induction chunks as [|l ls IH]; intros a; cbn [map concat fold_left]; [reflexivity|]. rewrite fold_left_app, IH. f_equal. symmetry. apply reduce_from_unit. exact H. }
  apply G.
Qed.
Lemma reduce_perm op u l l' : associative op -> commutative op -> Permutation l l' -> Reduce op u l = Reduce op u l'.
Proof.
  intros Ha Hc H. unfold Reduce. revert u. induction H as [|x l l' H IH|x y l|l l' l'' H1 IH1 H2 IH2]; intros u; cbn [fold_left]; auto.
  - rewrite !Ha, (Hc y x). reflexivity.
  - rewrite IH1. apply IH2.
Qed.
Lemma reduce_absorb op l : associative op -> commutative op -> idempotent op -> forall u a, fold_left op l (op u a) = op u (fold_left op l (op u a)).
Proof.
  intros Ha Hc Hi u. induction l as [|x l IH]; intros a; cbn [fold_left]; [rewrite <- Ha, Hi; reflexivity|].
  rewrite Ha. apply IH.
Qed.
Lemma reduce_idem op l : associative op -> commutative op -> idempotent op -> forall u a, fold_left op l (op u a) = op a (fold_left op l u).
Proof.
  intros Ha Hc Hi. induction l as [|x l IH]; intros u a; cbn [fold_left]; [apply Hc|].
  rewrite !Ha, (Hc a x), <- !Ha. apply IH.
Qed.
Lemma split_idempotent op u chunks : associative op -> commutative op -> idempotent op ->
  split_reduce op u chunks = Reduce op u (concat chunks).
Proof.
  intros Ha Hc Hi. unfold split_reduce, Reduce.
  assert (G : forall a, op u a = a -> fold_left op (map (fun l => fold_left op l u) chunks) a = fold_left op (concat chunks) a).
  { induction chunks as [|l ls IH]; intros a Hua; cbn [map concat fold_left]; [reflexivity|]. rewrite fold_left_app.
    assert (E : op a (fold_left op l u) = fold_left op l a) by (rewrite <- Hua at 2; symmetry; apply reduce_idem; assumption).
    rewrite E. apply IH. rewrite <- Hua at 1 2. rewrite <- reduce_absorb; auto. }
  apply G, Hi.
Qed.
Lemma split_nonempty op u chunks : associative op -> (forall x, op u x = x) -> (forall l, In l chunks -> l <> []) ->
  split_reduce op u chunks = Reduce op u (concat chunks).
Proof.
  intros Ha Hu Hne. unfold split_reduce, Reduce. assert (G : forall a, fold_left op (map (fun l => fold_left op l u) chunks) a = fold_left op (concat chunks) a).
  { induction chunks as [|l ls IH]; intros a; cbn [map concat fold_left]; [reflexivity|]. rewrite fold_left_app, IH by (intros; apply Hne; right; assumption).
    f_equal. destruct (reduce_from op u l Ha Hu a) as [H|H]; [symmetry; exact H|]. destruct (Hne l (or_introl eq_refl) H). }
  apply G.
Qed.
End Laws.

Section IntLaws.
Context {N : num}.
Hypothesis HN : In N go_ints.

Lemma addition_monoid : comm_monoid (@Addition N) n0.
Proof.
  destruct (go_ints_ring N HN) as [R0 R1 R2 _ _ _ _ _ _]. split; [|split]; unfold Addition; intros x; [intros y z|intros y|]; auto.
Qed.
Lemma multiplication_monoid : comm_monoid (@Multiplication N) n1.
Proof.
  destruct (go_ints_ring N HN) as [_ _ _ R0 R1 R2 _ _ _]. split; [|split]; unfold Multiplication; intros x; [intros y z|intros y|]; auto.
Qed.
End IntLaws.

Section OrderLaws.
Context {N : num}.
Hypothesis HO : order_ok N.

Lemma ltb_irr (x : T N) : nltb x x = false.
Proof. destruct HO as (O1 & _ & _). destruct (nltb x x) eqn:E; [|reflexivity]. rewrite <- E. apply O1. exact E. Qed.
Lemma ltb_trans (x y z : T N) : nltb x y = true -> nltb y z = true -> nltb x z = true.
Proof.
  destruct HO as (O1 & O2 & O3). intros H1 H2. destruct (nltb x z) eqn:E; [reflexivity|].
  pose proof (O1 _ _ H2) as H3. pose proof (O2 _ _ _ E H3). congruence.
Qed.
Lemma minimum_laws : associative (@Minimum N) /\ commutative (@Minimum N) /\ idempotent (@Minimum N).
Proof.
  pose proof HO as (O1 & O2 & O3). split; [|split].
  - intros x y z. unfold Minimum. destruct (nltb x y) eqn:Exy, (nltb y z) eqn:Eyz; rewrite ?Exy, ?Eyz; try reflexivity.
    + rewrite (ltb_trans _ _ _ Exy Eyz). reflexivity.
    + rewrite (O2 _ _ _ Exy Eyz). reflexivity.
  - intros x y. unfold Minimum. destruct (nltb x y) eqn:Exy, (nltb y x) eqn:Eyx; try reflexivity.
    + rewrite (O1 _ _ Exy) in Eyx. discriminate.
    + symmetry. apply O3; assumption.
  - intros x. unfold Minimum. rewrite ltb_irr. reflexivity.
Qed.
Lemma maximum_laws : associative (@Maximum N) /\ commutative (@Maximum N) /\ idempotent (@Maximum N).
Proof.
  pose proof HO as (O1 & O2 & O3). split; [|split].
  - intros x y z. unfold Maximum, ngtb. destruct (nltb y x) eqn:Exy, (nltb z y) eqn:Eyz; rewrite ?Exy, ?Eyz; try reflexivity.
    + rewrite (ltb_trans _ _ _ Eyz Exy). reflexivity.
    + rewrite (O2 _ _ _ Eyz Exy). reflexivity.
  - intros x y. unfold Maximum, ngtb. destruct (nltb y x) eqn:Exy, (nltb x y) eqn:Eyx; try reflexivity.
    + rewrite (O1 _ _ Exy) in Eyx. discriminate.
    + apply O3; assumption.
  - intros x. unfold Maximum, ngtb. rewrite ltb_irr. reflexivity.
Qed.
End OrderLaws.

(** ** the laws, for every Go integer type *)
Lemma int_operators N : In N go_ints ->
  comm_monoid (@Addition N) n0 /\ comm_monoid (@Multiplication N) n1 /\
  (associative (@Minimum N) /\ commutative (@Minimum N) /\ idempotent (@Minimum N)) /\
  (associative (@Maximum N) /\ commutative (@Maximum N) /\ idempotent (@Maximum N)) /\
  associative (@FirstArgument N) /\ associative (@SecondArgument N).
Proof.
  intros HN. split; [apply addition_monoid; exact HN|]. split; [apply multiplication_monoid; exact HN|].
  split; [apply minimum_laws, go_ints_order, HN|]. split; [apply maximum_laws, go_ints_order, HN|]. split; intros x y z; reflexivity.
Qed.
Lemma bool_operators : comm_monoid LOR false /\ comm_monoid LAND true /\ comm_monoid LXOR false.
Proof.
  split; [|split]; (split; [|split]); intros x; try (intros y); try (intros z); destruct x; try destruct y; try destruct z; reflexivity.
Qed.

(** what the reductions deliver, in terms of the integers the elements stand for *)
Lemma int_reductions name sg bits (u : T (num_int name sg bits)) l : 0 < bits ->
  wval (Reduce Addition u l) = wrap sg bits (wval u + fold_right Z.add 0 (map wval l)) /\
  wval (Reduce Multiplication u l) = wrap sg bits (wval u * fold_right Z.mul 1 (map wval l)) /\
  wval (Reduce Minimum u l) = fold_right Z.min (wval u) (map wval l) /\
  wval (Reduce Maximum u l) = fold_right Z.max (wval u) (map wval l) /\
  Reduce FirstArgument u l = u /\ Reduce SecondArgument u l = last l u.
Proof.
  intros Hb. unfold Reduce.
  assert (W : forall x : wint sg bits, wrap sg bits (wval x) = wval x) by (intros x; apply Z.eqb_eq, wok).
  repeat split; revert u; induction l as [|x l IH]; intros u; cbn [fold_left map fold_right].
  - rewrite Z.add_0_r, W. reflexivity.
  - rewrite IH. change (wval (Addition u x)) with (wrap sg bits (wval u + wval x)).
    pose proof (f_equal wval (of_Z_add sg bits Hb (wval u + wval x) (fold_right Z.add 0 (map wval l)))) as G. cbn [wval of_Z] in G. rewrite G. f_equal. ring.
  - rewrite Z.mul_1_r, W. reflexivity.
  - rewrite IH. change (wval (Multiplication u x)) with (wrap sg bits (wval u * wval x)).
    pose proof (f_equal wval (of_Z_mul sg bits Hb (wval u * wval x) (fold_right Z.mul 1 (map wval l)))) as G. cbn [wval of_Z] in G. rewrite G. f_equal. ring.
  - reflexivity.
  - rewrite IH. assert (G : forall a b m, fold_right Z.min (Z.min a b) m = Z.min b (fold_right Z.min a m)) by (intros a b m; induction m; cbn [fold_right]; lia).
    rewrite <- G. f_equal. unfold Minimum. cbn [nltb num_int]. destruct (Z.ltb_spec (wval u) (wval x)); lia.
  - reflexivity.
  - rewrite IH. assert (G : forall a b m, fold_right Z.max (Z.max a b) m = Z.max b (fold_right Z.max a m)) by (intros a b m; induction m; cbn [fold_right]; lia).
    rewrite <- G. f_equal. unfold Maximum, ngtb. cbn [nltb num_int]. destruct (Z.ltb_spec (wval x) (wval u)); lia.
  - reflexivity.
  - apply IH.
  - reflexivity.
  - rewrite IH. unfold SecondArgument. destruct l as [|y l]; [reflexivity|]. cbn [last]. clear. revert y. induction l as [|z l IH]; intros y; [reflexivity|]. apply (IH z).
Qed.
Lemma bool_reductions u l :
  Reduce LOR u l = (u || existsb (fun x => x) l)%bool /\ Reduce LAND u l = (u && forallb (fun x => x) l)%bool /\
  Reduce LXOR u l = xorb u (Nat.odd (count_occ Bool.bool_dec l true)).
Proof.
  unfold Reduce. repeat split; revert u; induction l as [|x l IH]; intros u; cbn [fold_left existsb forallb].
  - destruct u; reflexivity.
  - rewrite IH. unfold LOR. destruct u, x; reflexivity.
  - destruct u; reflexivity.
  - rewrite IH. unfold LAND. destruct u, x; reflexivity.
  - destruct u; reflexivity.
  - rewrite IH. cbn [count_occ]. destruct (Bool.bool_dec x true) as [->|H].
    + rewrite Nat.odd_succ, <- Nat.negb_odd. destruct u, (Nat.odd _); reflexivity.
    + destruct x; [congruence|]. destruct u; reflexivity.
Qed.

(** comparisons, difference and quotient *)
Lemma int_comparisons name sg bits (x y : T (num_int name sg bits)) :
  (OpEqual x y = true <-> wval x = wval y) /\ (OpNotEqual x y = true <-> wval x <> wval y) /\
  (OpGreaterThan x y = true <-> wval x > wval y) /\ (OpLessThan x y = true <-> wval x < wval y) /\
  (OpGreaterThanOrEqual x y = true <-> wval x >= wval y) /\ (OpLessThanOrEqual x y = true <-> wval x <= wval y) /\
  wval (Subtraction x y) = wrap sg bits (wval x - wval y) /\
  (Division x y = Panic <-> wval y = 0) /\
  (forall z, Division x y = Ok z -> wval z = wrap sg bits (Z.quot (wval x) (wval y))).
Proof.
  unfold OpEqual, OpNotEqual, OpGreaterThan, OpLessThan, OpGreaterThanOrEqual, OpLessThanOrEqual, Subtraction, Division, ngtb.
  cbn [neqb nltb nsub ndiv num_int of_Z wval].
  repeat match goal with |- _ /\ _ => split end; try lia; try reflexivity.
  - destruct (Z.eqb_spec (wval y) 0); split; intros H; try discriminate; try reflexivity; lia.
  - intros z. destruct (wval y =? 0); [discriminate|]. intros [= <-]. reflexivity.
Qed.
(** with NaN no comparison but [!=] holds, the other comparisons being those of the order *)
Lemma float_comparisons (x y : T num_float64) :
  OpNotEqual x y = negb (OpEqual x y) /\ OpGreaterThan x y = OpLessThan y x /\ OpGreaterThanOrEqual x y = OpLessThanOrEqual y x /\
  (x = SpecFloat.S754_nan -> OpEqual x y = false /\ OpLessThanOrEqual x y = false /\ OpGreaterThanOrEqual x y = false).
Proof.
  split; [reflexivity|]. split; [reflexivity|]. split.
  - unfold OpGreaterThanOrEqual, OpLessThanOrEqual, ngtb. f_equal. apply (go_types_cmp num_float64). cbn; auto.
  - intros ->. destruct y; repeat split; reflexivity.
Qed.

(** splitting does not matter *)
Lemma int_reduce_split N (chunks : list (list (T N))) u : In N go_ints ->
  split_reduce Addition n0 chunks = Reduce Addition n0 (concat chunks) /\
  split_reduce Multiplication n1 chunks = Reduce Multiplication n1 (concat chunks) /\
  split_reduce Minimum u chunks = Reduce Minimum u (concat chunks) /\
  split_reduce Maximum u chunks = Reduce Maximum u (concat chunks) /\
  split_reduce FirstArgument u chunks = Reduce FirstArgument u (concat chunks) /\
  ((forall l, In l chunks -> l <> []) -> split_reduce SecondArgument u chunks = Reduce SecondArgument u (concat chunks)).
Proof.
  intros HN. destruct (int_operators N HN) as (A & M & (n1 & n2 & n3) & (x1 & x2 & x3) & F & S).
  split; [apply split_monoid, A|]. split; [apply split_monoid, M|]. split; [apply split_idempotent; assumption|].
  split; [apply split_idempotent; assumption|]. split.
  - unfold split_reduce, Reduce. assert (G : forall l (a : T N), fold_left FirstArgument l a = a) by (intros l; induction l; intros; cbn; auto).
    rewrite !G. reflexivity.
  - intros Hne. apply split_nonempty; [exact S|reflexivity|exact Hne].
Qed.
Lemma bool_reduce_split (chunks : list (list bool)) :
  split_reduce LOR false chunks = Reduce LOR false (concat chunks) /\
  split_reduce LAND true chunks = Reduce LAND true (concat chunks) /\
  split_reduce LXOR false chunks = Reduce LXOR false (concat chunks).
Proof. destruct bool_operators as (A & B & C). split; [|split]; apply split_monoid; assumption. Qed.
Lemma int_reduce_order N (l l' : list (T N)) u : In N go_ints -> Permutation l l' ->
  Reduce Addition u l = Reduce Addition u l' /\ Reduce Multiplication u l = Reduce Multiplication u l' /\
  Reduce Minimum u l = Reduce Minimum u l' /\ Reduce Maximum u l = Reduce Maximum u l'.
Proof.
  intros HN HP. destruct (int_operators N HN) as ((A1 & A2 & _) & (M1 & M2 & _) & (n1 & n2 & _) & (x1 & x2 & _) & _).
  split; [|split; [|split]]; apply reduce_perm; assumption.
Qed.
(** a chunk that is empty makes a difference for SecondArgument *)
Lemma second_split_no : ~ (forall N (chunks : list (list (T N))) u, In N go_ints -> split_reduce SecondArgument u chunks = Reduce SecondArgument u (concat chunks)).
Proof.
  intros H. specialize (H num_goint [[gi 5]; []] (gi 0) ltac:(cbn; auto 20)).
  apply (f_equal wval) in H. revert H. vm_compute. discriminate.
Qed.
(** in floating point the grouping matters *)
Lemma float_add_no : ~ associative (@Addition num_float64).
Proof.
  intros H. specialize (H (f64_of_Z 9007199254740992) (f64_of_Z 1) (f64_of_Z 1)).
  revert H. vm_compute. discriminate.
Qed.
(** the monoids of default.go *)
Lemma default_monoids N : DefaultMonoIDAddition = NewMonoID (N := N) n0 Addition /\ DefaultMonoIDMaximum = NewMonoID (N := N) n0 Maximum.
Proof. split; reflexivity. Qed.
