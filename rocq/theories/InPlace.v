(** Operators whose output is one of their operands. *)
From Coq Require Import String Sorting.Sorted.
From Verif Require Import GoBase Num SparseVec Csr Csc DenseVec DenseMat Mat World Ops Api.
From Verif Require Import BaseProofs MatProofs DenseProofs Spec HeapProofs ReachProofs StoreProofs VecProofs StoreThms OpsProofs OpsThms EwThms MethThms MulThms OpsProps ReduceFormat Steps.

Section InPlace.
Context {N : num}.
Notation V := (T N).
Notation mat := (mat N).
Notation world := (world N).
Notation ent := (Z * Z * V)%type.
Implicit Types w : world.
Implicit Types S Mo O : mat.

Lemma zrange_prefix n d : forall a r, zrange a n = d ++ r -> forall x, In x d <-> a <= x < a + zlen d.
Proof.
  induction d as [|y d IH]; intros a r E x.
  - change (zlen (@nil Z)) with 0. cbn. lia.
  - assert (Ha : a < n).
    { destruct (Z_lt_le_dec a n) as [H|H]; [exact H|]. rewrite zrange_nil in E by lia. discriminate E. }
    rewrite zrange_cons in E by lia. cbn [app] in E. injection E as <- E. rewrite zlen_cons. cbn [In]. rewrite (IH _ _ E x).
    pose proof (zlen_nonneg d). lia.
Qed.

Lemma pos_before R C d r c rest i j : positions R C = d ++ (r, c) :: rest -> 0 <= i < R -> 0 <= j < C ->
  visited d i j = (i <? r) || (i =? r) && (j <? c).
Proof.
  intros E Hi Hj. pose proof (all_cells_sorted R C) as Hs. change (all_cells R C) with (positions R C) in Hs.
  assert (Hin : In (i, j) (positions R C)) by (apply in_positions_iff; auto). rewrite E in Hs, Hin. clear E.
  assert (A : forall x, In x d -> lex x (r, c)).
  { clear Hin. revert Hs. induction d as [|y d IH]; intros Hs x Hx; [destruct Hx|]. cbn [app] in Hs. apply StronglySorted_inv in Hs as [Hs Hf].
    destruct Hx as [<-|Hx]; [|apply IH; auto]. rewrite Forall_forall in Hf. apply Hf. apply in_or_app. right; left; reflexivity. }
  assert (B : forall x, In x rest -> lex (r, c) x).
  { clear Hin A. induction d as [|y d IH]; intros x Hx; cbn [app] in Hs; apply StronglySorted_inv in Hs as [Hs Hf]; [|apply IH; auto].
    rewrite Forall_forall in Hf. apply Hf. exact Hx. }
  apply eq_true_iff_eq. rewrite visited_in. split.
  - intros H. apply A in H. unfold lex in H. cbn [fst snd] in H. lia.
  - intros H. apply in_app_or in Hin as [Hin|[Hin|Hin]]; [exact Hin|injection Hin as -> ->; lia|].
    apply B in Hin. unfold lex in Hin. cbn [fst snd] in Hin. lia.
Qed.
Lemma enumerates_visited (m : mat) d R C f i j : zero_ok N -> wf m -> is_dense m -> denotes m R C f -> enumerates m d -> 0 <= i < R -> 0 <= j < C ->
  visited (map fst d) i j = true.
Proof.
  intros Hz Hw Hd (ER & EC & _) He Hi Hj. apply EwThms.enumerates_unique in He; [|exact Hw]. subst d.
  assert (Hg : good m) by (split; [exact Hw|destruct m; try contradiction; discriminate]).
  rewrite visited_entries; auto; [|unfold inb; lia]. destruct m; try contradiction; reflexivity.
Qed.

(** ** Multiplication, whatever rows and columns are seen on the way *)
Lemma multiply_live E w (s m : ptr) k t S Mo O R C n h (fr : Z -> Z -> V) (gc : Z -> Z -> Z -> V) :
  let act := fun i j => negb (covers w k i j) in
  let val := fun i j (_ : V) => sum_from n0 (fun l => nmul (fr i l) (gc i j l)) 0 n in
  zero_ok N -> wfw w -> obj w s S -> obj w m Mo -> obj w t O -> not_sparse_vector O -> e_ctx E = None ->
  mat_Rows S = R -> mat_Columns Mo = C -> mat_Rows Mo = mat_Columns S ->
  (forall r L w1, 0 <= r < R -> St w t O act val L w1 -> (forall i j, visited L i j = true -> i < r) ->
     exists so rv, obj w1 s so /\ mat_RowsAt so r = Ok rv /\ mat_Rows rv = n /\ forall l, 0 <= l < n -> mat_AtVec rv l = Ok (fr r l)) ->
  (forall r c L w1, 0 <= r < R -> 0 <= c < C -> St w t O act val L w1 ->
     (forall i j, 0 <= i < R -> 0 <= j < C -> visited L i j = (i <? r) || (i =? r) && (j <? c)) ->
     exists mo cv, obj w1 m mo /\ mat_ColumnsAt mo c = Ok cv /\ forall l, 0 <= l < n -> mat_AtVec cv l = Ok (gc r c l)) ->
  denotes O R C h -> mask_dims w k R C ->
  exists w' O', multiply E s m k t w = (w', Ok tt) /\ extends_but t w w' /\ obj w' t O' /\ same_shape O O' /\ wf O' /\
    denotes O' R C (fun i j => if covers w k i j then h i j else kept O (sum_from n0 (fun l => nmul (fr i l) (gc i j l)) 0 n)).
Proof.
  intros act val Hz Hw Hs Hm Ho Po Hbg SR MC Hdim Hrow Hcol Do Hk.
  pose proof Do as (OR & OC & _).
  assert (Go : good O) by (eapply plain_is_good; eauto).
  assert (Hmd : mask_dims w k (mat_Rows O) (mat_Columns O)) by (rewrite OR, OC; exact Hk).
  assert (Hmw : mask_wf w k) by (eapply mask_dims_wf; eauto).
  set (rowpos := fun r : Z => map (fun c => (r, c)) (zrange 0 C)).
  assert (Vis : forall n d r, zrange 0 n = d ++ r -> forall x, In x d <-> 0 <= x < zlen d).
  { intros n' d r' E0 x. rewrite (zrange_prefix n' d 0 r' E0 x). lia. }
  assert (Vrows : forall d i j, 0 <= j < C -> visited (flat_map rowpos d) i j = existsb (Z.eqb i) d).
  { intros d i j Hj. apply eq_true_iff_eq. rewrite visited_in, in_flat_map, existsb_exists. split.
    - intros (r & Hr & Hin). apply in_map_iff in Hin as (c & E1 & _). injection E1 as -> ->. exists i. split; [exact Hr|lia].
    - intros (r & Hr & Er). assert (r = i) by lia. subst r. exists i. split; [exact Hr|]. apply in_map_iff. exists j. split; [reflexivity|apply in_zrange; lia]. }
  assert (Hbody : exists w' o, for_list (R := unit) (zrange 0 R) (fun r =>
      let! so := load s in
      let! rows := mlift (mat_RowsAt so r) in
      for_list (zrange 0 C) (fun c =>
        let! mo := load m in
        let! column := mlift (mat_ColumnsAt mo c) in
        let! o := dot_loop E rows column (zrange 0 (mat_Length rows)) n0 in
        match o with
        | None => mret (Some tt)
        | Some sum =>
            let! e := mask_Element (mask_norm k (mat_Rows O) (mat_Columns O)) r c in
            (if negb e then p_Set t r c sum else mret tt) ;!;
            mret None
        end)) w = (w', Ok o) /\ St w t O act val (positions R C) w').
  { destruct (for_list_inv (R := unit) (zrange 0 R) (fun r =>
      let! so := load s in
      let! rows := mlift (mat_RowsAt so r) in
      for_list (zrange 0 C) (fun c =>
        let! mo := load m in
        let! column := mlift (mat_ColumnsAt mo c) in
        let! o := dot_loop E rows column (zrange 0 (mat_Length rows)) n0 in
        match o with
        | None => mret (Some tt)
        | Some sum =>
            let! e := mask_Element (mask_norm k (mat_Rows O) (mat_Columns O)) r c in
            (if negb e then p_Set t r c sum else mret tt) ;!;
            mret None
        end))
      (fun d w1 => St w t O act val (flat_map rowpos d) w1)
      (fun d r (_ : unit) w1 => False))
      with (w := w) as (w' & o & Hrun & Hend).
    - intros d r rest w1 El HSt.
      assert (Hr : 0 <= r < R).
      { apply in_zrange. rewrite El. apply in_or_app. right; left; auto. }
      assert (Hrd : ~ In r d) by (eapply zrange_split_notin; eauto).
      pose proof (Vis _ _ _ El) as Vd.
      assert (Hrz : zlen d = r).
      { pose proof (Vis R (d ++ [r]) rest ltac:(rewrite El, <- app_assoc; reflexivity) r) as [V1 _].
        specialize (V1 ltac:(apply in_or_app; right; left; auto)). rewrite zlen_app in V1. change (zlen [r]) with 1 in V1.
        pose proof (Vd r) as [_ V2]. destruct (Z_lt_le_dec r (zlen d)); [exfalso; apply Hrd, V2; lia|lia]. }
      destruct (Hrow r _ w1 Hr HSt) as (so & rv & Hso & Erv & Hlen & Hat).
      { intros i j Hv. apply visited_rows in Hv. apply Vd in Hv. lia. }
      rewrite (mbind_ok _ _ _ _ _ (load_ok _ _ _ Hso)), Erv, mbind_lift.
      destruct (for_list_inv (R := unit) (zrange 0 C) (fun c =>
        let! mo := load m in
        let! column := mlift (mat_ColumnsAt mo c) in
        let! o := dot_loop E rv column (zrange 0 (mat_Length rv)) n0 in
        match o with
        | None => mret (Some tt)
        | Some sum =>
            let! e := mask_Element (mask_norm k (mat_Rows O) (mat_Columns O)) r c in
            (if negb e then p_Set t r c sum else mret tt) ;!;
            mret None
        end)
        (fun d' w1 => St w t O act val (flat_map rowpos d ++ map (fun c => (r, c)) d') w1)
        (fun d' c (_ : unit) w1 => False))
        with (w := w1) as (w2 & o & Hrun & Hend).
      + intros d' c rest' w2 El' HSt2.
        assert (Hc : 0 <= c < C).
        { apply in_zrange. rewrite El'. apply in_or_app. right; left; auto. }
        assert (Hcd : ~ In c d') by (eapply zrange_split_notin; eauto).
        pose proof (Vis _ _ _ El') as Vd'.
        assert (Hcz : zlen d' = c).
        { pose proof (Vis C (d' ++ [c]) rest' ltac:(rewrite El', <- app_assoc; reflexivity) c) as [V1 _].
          specialize (V1 ltac:(apply in_or_app; right; left; auto)). rewrite zlen_app in V1. change (zlen [c]) with 1 in V1.
          pose proof (Vd' c) as [_ V2]. destruct (Z_lt_le_dec c (zlen d')); [exfalso; apply Hcd, V2; lia|lia]. }
        destruct (Hcol r c _ w2 Hr Hc HSt2) as (mo & cv & Hmo & Ecv & Hatc).
        { intros i j Hi Hj. rewrite visited_app, Vrows by lia. f_equal.
          - apply eq_true_iff_eq. rewrite existsb_exists. split; [intros (x & Hx & Ex); apply Vd in Hx; lia|].
            intros Hl. exists i. split; [apply Vd; lia|lia].
          - apply eq_true_iff_eq. rewrite visited_in, in_map_iff. split.
            + intros (x & Ex & Hx). injection Ex as -> ->. apply Vd' in Hx. lia.
            + intros Hl. exists j. split; [f_equal; lia|apply Vd'; lia]. }
        rewrite (mbind_ok _ _ _ _ _ (load_ok _ _ _ Hmo)), Ecv, mbind_lift.
        destruct (dot_loop_run E rv cv (fr r) (gc r c) (zrange 0 (mat_Length rv)) n0 w2) as (w3 & o & Hdot & Hh & Ho3).
        { intros l Hl. apply in_zrange in Hl. unfold mat_Length in Hl. rewrite Hlen in Hl. split; [apply Hat|apply Hatc]; lia. }
        rewrite (mbind_ok _ _ _ _ _ Hdot). pose proof (St_heap _ _ _ _ _ _ _ w3 HSt2 Hh) as HSt3.
        destruct Ho3 as [[-> _] | (-> & Hcx & _)]; [|congruence].
        unfold mat_Length. rewrite Hlen.
        destruct (masked_set w t O val k (flat_map rowpos d ++ map (fun c => (r, c)) d') w3 r c
           (fold_left (fun s l => nadd s (nmul (fr r l) (gc r c l))) (zrange 0 n) n0) Hz Ho Go Hmw Hmd HSt3) as (w4 & E4 & HSt4 & Hp4).
        * unfold inb. lia.
        * apply visited_notin. intros Hin. apply in_app_or in Hin as [Hin|Hin].
          -- apply Hrd. apply visited_in in Hin. eapply visited_rows; eauto.
          -- apply in_map_iff in Hin as (c' & Ec & Hin). injection Ec as ->. contradiction.
        * reflexivity.
        * eexists _, _. split; [exact E4|]. cbn beta iota. rewrite map_app, app_assoc. exact HSt4.
      + rewrite app_nil_r. exact HSt.
      + exists w2, o. split; [exact Hrun|]. destruct Hend as [[-> HS2]|(d' & c & r' & x & -> & El' & [])].
        rewrite flat_map_app. cbn [flat_map]. rewrite app_nil_r. exact HS2.
    - apply St_start; auto.
    - exists w', o. split; [exact Hrun|]. destruct Hend as [[-> HS]|(d & r & r' & x & -> & _ & [])]. exact HS. }
  destruct Hbody as (w' & o & Hrun & HSt).
  destruct (St_denotes _ _ _ _ _ _ _ _ _ _ Hz Ho Do HSt) as (O1 & Hext & Ho1 & Hs1 & Hw1 & Hd1).
  exists w', O1. split.
  { unfold multiply. rewrite (mbind_ok _ _ _ _ _ (p_Rows_ok _ _ _ Hm)), (mbind_ok _ _ _ _ _ (p_Columns_ok _ _ _ Hs)).
    rewrite Hdim, Z.eqb_refl. cbn [negb]. rewrite (mbind_ok _ _ _ _ _ (check_mask_ok _ _ _ _ Ho Hmd)).
    rewrite (mbind_ok _ _ _ _ _ (p_Rows_ok _ _ _ Hs)), (mbind_ok _ _ _ _ _ (p_Columns_ok _ _ _ Hm)).
    rewrite SR, MC. rewrite (mbind_ok _ _ _ _ _ Hrun). reflexivity. }
  do 4 (split; [auto|]). eapply denotes_ext; [|exact Hd1]. intros i j Hi Hj. cbn beta. unfold act.
  rewrite MethThms.visited_positions by auto. destruct (covers w k i j); reflexivity.
Qed.

Lemma dense_same O O1 : same_shape O O1 -> is_dense O -> is_dense O1.
Proof. intros (H & _). destruct O, O1; simpl in *; try contradiction; try discriminate; auto. Qed.
Lemma dense_row (m : mat) R C f r : zero_ok N -> wf m -> is_dense m -> denotes m R C f -> 0 <= r < R ->
  exists rv, mat_RowsAt m r = Ok rv /\ mat_Rows rv = C /\ forall l, 0 <= l < C -> mat_AtVec rv l = Ok (f r l).
Proof.
  intros Hz Hw Hd D Hr. destruct (row_view m R C f r Hz Hw D Hr) as (rv & A & B & H). exists rv. split; [exact A|]. split; [exact B|].
  intros l Hl. rewrite H by exact Hl. destruct m; try contradiction; reflexivity.
Qed.
Lemma dense_col (m : mat) R C f c : zero_ok N -> wf m -> is_dense m -> denotes m R C f -> 0 <= c < C ->
  exists cv, mat_ColumnsAt m c = Ok cv /\ forall l, 0 <= l < R -> mat_AtVec cv l = Ok (f l c).
Proof.
  intros Hz Hw Hd D Hr. destruct (col_view m R C f c Hz Hw D Hr) as (rv & A & H). exists rv. split; [exact A|].
  intros l Hl. rewrite H by exact Hl. destruct m; try contradiction; reflexivity.
Qed.
Lemma dense_nsv (m : mat) : is_dense m -> not_sparse_vector m.
Proof. destruct m; simpl; tauto. Qed.
Lemma dense_kept (m : mat) v : is_dense m -> kept m v = v.
Proof. destruct m; simpl; tauto. Qed.

(** into the left operand: right *)
Lemma mul_into_left E w (s m : ptr) k S Mo R K f g :
  sane N -> reachable w -> obj w s S -> obj w m Mo -> is_dense S -> is_dense Mo ->
  denotes S R K f -> denotes Mo K K g -> mask_dims w k R K -> s <> m -> e_ctx E = None ->
  exists w' S', MatrixMatrixMultiply E s m k s w = (w', Ok tt) /\ MatrixVectorMultiply E s m k s w = (w', Ok tt) /\
    extends_but s w w' /\ obj w' s S' /\ same_storage S S' /\
    denotes S' R K (fun i j => if covers w k i j then f i j else sum_from n0 (fun l => nmul (f i l) (g l j)) 0 K).
Proof.
  intros Hs Hr Ho1 Ho2 D1 D2 F1 F2 Hk Hne Hbg. pose proof (sane_wfw w Hs Hr) as Hw. assert (Hz := proj1 Hs).
  pose proof F1 as (ER & EC & _). pose proof F2 as (ER2 & EC2 & _).
  destruct (multiply_live E w s m k s S Mo S R K K f f (fun _ j l => g l j) Hz Hw Ho1 Ho2 Ho1 (dense_nsv _ D1) Hbg ER EC2 ltac:(congruence))
    as (w' & S' & H1 & H2 & H3 & H4 & H5 & H6); [| |exact F1|exact Hk|].
  - intros r L w1 Hr1 HSt Hv. destruct (St_denotes _ _ _ _ _ _ _ _ _ _ Hz Ho1 F1 HSt) as (O1 & _ & Hob & Hsh & Hw1 & Hd1).
    destruct (dense_row O1 R K _ r Hz Hw1 (dense_same _ _ Hsh D1) Hd1 Hr1) as (rv & A & B & Hat).
    exists O1, rv. split; [exact Hob|]. split; [exact A|]. split; [exact B|]. intros l Hl. rewrite Hat by exact Hl. do 2 f_equal. cbn beta.
    destruct (visited L r l) eqn:Ev; [apply Hv in Ev; lia|reflexivity].
  - intros r c L w1 Hr1 Hc1 HSt Hv. destruct (dense_col Mo K K g c Hz (Hw _ _ Ho2) D2 F2 Hc1) as (cv & A & Hat).
    exists Mo, cv. split; [eapply St_other; eauto|]. split; [exact A|exact Hat].
  - exists w', S'. split; [exact H1|]. split; [exact H1|]. split; [exact H2|]. split; [exact H3|]. split; [apply Steps.same_storage_shape; exact H4|].
    eapply denotes_ext; [|exact H6]. intros i j Hi Hj. cbn beta. rewrite dense_kept by exact D1. reflexivity.
Qed.

(** into the right operand (also when it is the left one too): row [i] is computed
    from the rows above it already replaced *)
Fixpoint replaced (w : world) (k : mask) (K : Z) (f g : Z -> Z -> V) (n : nat) (i j : Z) : V :=
  match n with
  | O => g i j
  | Datatypes.S n' => if covers w k i j then g i j else sum_from n0 (fun l => nmul (f i l) (if l <? i then replaced w k K f g n' l j else g l j)) 0 K
  end.
Lemma replaced_more w k K f g n : forall i n' j, 0 <= i -> (Z.to_nat i < n)%nat -> (Z.to_nat i < n')%nat ->
  replaced w k K f g n i j = replaced w k K f g n' i j.
Proof.
  induction n as [|n IH]; intros i n' j Hi Hn Hn'; [lia|]. destruct n' as [|n']; [lia|]. cbn [replaced].
  destruct (covers w k i j); [reflexivity|]. apply sum_from_ext. intros l Hl. f_equal.
  destruct (l <? i) eqn:E; [|reflexivity]. apply IH; lia.
Qed.

Lemma mul_into_right E w (s m : ptr) k S Mo K C f g :
  sane N -> reachable w -> obj w s S -> obj w m Mo -> is_dense S -> is_dense Mo ->
  denotes S K K f -> denotes Mo K C g -> mask_dims w k K C -> e_ctx E = None ->
  exists w' M' h, MatrixMatrixMultiply E s m k m w = (w', Ok tt) /\ MatrixVectorMultiply E s m k m w = (w', Ok tt) /\
    extends_but m w w' /\ obj w' m M' /\ same_storage Mo M' /\ denotes M' K C h /\
    forall i j, 0 <= i < K -> 0 <= j < C ->
      h i j = if covers w k i j then g i j else sum_from n0 (fun l => nmul (f i l) (if l <? i then h l j else g l j)) 0 K.
Proof.
  intros Hs Hr Ho1 Ho2 D1 D2 F1 F2 Hk Hbg. pose proof (sane_wfw w Hs Hr) as Hw. assert (Hz := proj1 Hs).
  pose proof F1 as (ER & EC & _). pose proof F2 as (ER2 & EC2 & _).
  set (h := fun i j => replaced w k K f g (Datatypes.S (Z.to_nat i)) i j).
  assert (Hh : forall i j, 0 <= i -> h i j = if covers w k i j then g i j else sum_from n0 (fun l => nmul (f i l) (if l <? i then h l j else g l j)) 0 K).
  { intros i j Hi. unfold h at 1. cbn [replaced]. destruct (covers w k i j); [reflexivity|]. apply sum_from_ext. intros l Hl. f_equal.
    destruct (l <? i) eqn:E1; [|reflexivity]. apply replaced_more; lia. }
  destruct (multiply_live E w s m k m S Mo Mo K C K g f (fun i j l => if l <? i then h l j else g l j) Hz Hw Ho1 Ho2 Ho2 (dense_nsv _ D2) Hbg ER EC2 ltac:(congruence))
    as (w' & S' & H1 & H2 & H3 & H4 & H5 & H6); [| |exact F2|exact Hk|].
  - intros r L w1 Hr1 HSt Hv. destruct (Nat.eq_dec s m) as [->|Hne].
    + pose proof (obj_inj _ _ _ _ Ho1 Ho2) as ->.
      destruct (St_denotes _ _ _ _ _ _ _ _ _ _ Hz Ho2 F1 HSt) as (O1 & _ & Hob & Hsh & Hw1 & Hd1).
      destruct (dense_row O1 K K _ r Hz Hw1 (dense_same _ _ Hsh D1) Hd1 Hr1) as (rv & A & B & Hat).
      exists O1, rv. split; [exact Hob|]. split; [exact A|]. split; [exact B|]. intros l Hl. rewrite Hat by exact Hl. do 2 f_equal. cbn beta.
      destruct (visited L r l) eqn:Ev; [apply Hv in Ev; lia|reflexivity].
    + destruct (dense_row S K K f r Hz (Hw _ _ Ho1) D1 F1 Hr1) as (rv & A & B & Hat).
      exists S, rv. split; [eapply St_other; eauto|]. split; [exact A|]. split; [exact B|]. exact Hat.
  - intros r c L w1 Hr1 Hc1 HSt Hv. destruct (St_denotes _ _ _ _ _ _ _ _ _ _ Hz Ho2 F2 HSt) as (O1 & _ & Hob & Hsh & Hw1 & Hd1).
    destruct (dense_col O1 K C _ c Hz Hw1 (dense_same _ _ Hsh D2) Hd1 Hc1) as (cv & A & Hat).
    exists O1, cv. split; [exact Hob|]. split; [exact A|]. intros l Hl. rewrite Hat by exact Hl. f_equal.
    rewrite Hv by lia. replace ((l <? r) || (l =? r) && (c <? c)) with (l <? r) by lia.
    destruct (l <? r) eqn:E1; cbn [andb]; [|reflexivity]. rewrite Hh by lia. rewrite dense_kept by exact D2.
    destruct (covers w k l c); reflexivity.
  - exists w', S', h. split; [exact H1|]. split; [exact H1|]. split; [exact H2|]. split; [exact H3|]. split; [apply Steps.same_storage_shape; exact H4|].
    split; [|intros; apply Hh; lia]. eapply denotes_ext; [|exact H6]. intros i j Hi Hj. cbn beta. rewrite Hh by lia. rewrite dense_kept by exact D2. reflexivity.
Qed.

(** ** Enumerating a dense object that changes on the way *)
Lemma it_rel_live (m m' : mat) it done rest : is_dense m -> wf m' -> same_shape m m' -> it_rel m it done rest ->
  exists done' rest', it_rel m' it done' rest' /\ map fst done' = map fst done /\ map fst rest' = map fst rest.
Proof.
  intros Hd Hw (Hk & HR & HC) H. destruct m; try contradiction; destruct m'; try discriminate Hk; destruct it; try contradiction.
  - destruct H as (R & C & f & -> & H1 & H2 & H3 & H4 & H5). destruct Hw as (R' & C' & f' & -> & H6 & H7 & H8).
    cbn in HR, HC. subst R' C'. apply (f_equal (map fst)) in H4. rewrite map_map, map_app in H4. cbn [fst] in H4. rewrite map_id in H4.
    assert (Hl : zlen (map (fun p => (p, f' (fst p) (snd p))) (map fst done)) = zlen done) by (rewrite !zlen_map; reflexivity).
    exists (map (fun p => (p, f' (fst p) (snd p))) (map fst done)), (map (fun p => (p, f' (fst p) (snd p))) (map fst rest)).
    split; [|rewrite !(map_map _ fst); split; cbn [fst]; rewrite map_id; reflexivity].
    exists R, C, f'. do 4 (split; [auto|]). rewrite Hl. split; [|exact H5]. rewrite <- map_app, <- H4. reflexivity.
  - destruct H as (L & f & -> & H1 & H4 & H5). destruct Hw as (L' & f' & -> & H6).
    cbn in HR. subst L'. apply (f_equal (map fst)) in H4. rewrite map_map, map_app in H4. cbn [fst] in H4.
    set (F := fun p : Z * Z => (p, f' (fst p))).
    assert (Hl : zlen (map F (map fst done)) = zlen done) by (rewrite !zlen_map; reflexivity).
    exists (map F (map fst done)), (map F (map fst rest)).
    split; [|unfold F; rewrite !(map_map _ fst); split; cbn [fst]; rewrite map_id; reflexivity].
    exists L, f'. split; [reflexivity|]. split; [exact H1|]. rewrite Hl. split; [|exact H5]. rewrite <- map_app, <- H4, map_map. reflexivity.
Qed.

Lemma dense_positions (m : mat) : zero_ok N -> wf m -> is_dense m -> map fst (entries m) = positions (mat_Rows m) (mat_Columns m).
Proof. intros Hz Hw Hd. apply entries_dense_pos; [split; [exact Hw|]|]; destruct m; try contradiction; try discriminate; reflexivity. Qed.

Lemma enum_live E (p : ptr) w (m : mat) body (Inv : list (Z * Z) -> world -> Prop) :
  zero_ok N -> obj w p m -> wf m -> is_dense m -> e_ctx E = None -> mat_Values m <= Z.of_nat (e_fuel E) ->
  (forall d w1, Inv d w1 -> exists m1, obj w1 p m1 /\ wf m1 /\ same_shape m m1) ->
  (forall d r c rest w1 m1, positions (mat_Rows m) (mat_Columns m) = d ++ (r, c) :: rest -> Inv d w1 -> obj w1 p m1 ->
     exists w2, body r c (peek m1 r c) w1 = (w2, Ok None) /\ Inv (d ++ [(r, c)]) w2) ->
  Inv [] w ->
  exists w', enumerate (R := unit) E p tt body w = (w', Ok None) /\ Inv (positions (mat_Rows m) (mat_Columns m)) w'.
Proof.
  intros Hz Ho Hw Hd Hbg Hfu Hob Hbody H0. unfold enumerate. rewrite (mbind_ok _ _ _ _ _ (load_ok _ _ _ Ho)).
  assert (G : forall l it m0 done rest w1 fuel, it_rel m0 it done rest -> is_dense m0 -> same_shape m m0 -> map fst rest = l ->
    Inv (map fst done) w1 -> (length rest <= fuel)%nat ->
    exists w', enum_loop (R := unit) E fuel p it tt body w1 = (w', Ok None) /\ Inv (positions (mat_Rows m) (mat_Columns m)) w').
  { induction l as [|q l IH]; intros it m0 done rest w1 fuel Hit Hd0 Hsh Hl Hi Hf.
    - destruct rest; [|discriminate Hl]. exists w1. split; [destruct fuel; cbn [enum_loop]; rewrite (it_rel_HasNext _ _ _ _ Hit); reflexivity|].
      pose proof (it_rel_entries _ _ _ _ Hit) as He. rewrite app_nil_r in He. destruct Hsh as (_ & E1 & E2).
      rewrite <- E1, <- E2, <- dense_positions, He; auto. eapply it_rel_wf; eauto.
    - destruct (Hob _ _ Hi) as (m1 & Ho1 & Hw1 & Hs1).
      assert (Hs01 : same_shape m0 m1) by (destruct Hsh as (A1 & A2 & A3), Hs1 as (B1 & B2 & B3); repeat split; congruence).
      destruct (it_rel_live m0 m1 it done rest Hd0 Hw1 Hs01 Hit) as (done' & rest' & Hit' & Ed & Er).
      assert (Hlen : length rest' = length rest) by (apply (f_equal (@length _)) in Er; rewrite !map_length in Er; exact Er).
      assert (Hd1 : is_dense m1) by (eapply dense_same; eauto).
      rewrite <- Er in Hl. destruct rest' as [|[[r c] v] rest']; [discriminate Hl|]. cbn [map fst] in Hl. injection Hl as <- Hl.
      destruct fuel as [|fuel]; [simpl in Hlen; lia|]. cbn [enum_loop]. rewrite (it_rel_HasNext _ _ _ _ Hit').
      assert (Hpo : poll E w1 = (w1, Ok false)) by (unfold poll; rewrite Hbg; reflexivity).
      rewrite (mbind_ok _ _ _ _ _ Hpo), (mbind_ok _ _ _ _ _ (load_ok _ _ _ Ho1)).
      destruct (it_rel_step _ _ _ _ _ _ _ Hit') as (it' & Hn & Hc & Hr & _).
      unfold mat_Next. rewrite Hn. cbn [rbind]. rewrite Hc. cbn [rbind]. rewrite mbind_lift.
      pose proof (it_rel_entries _ _ _ _ Hit') as He.
      assert (Hin : In (r, c, v) (entries m1)) by (rewrite He; apply in_or_app; right; left; reflexivity).
      assert (Hg1 : good m1) by (split; [exact Hw1|destruct m1; try contradiction; discriminate]).
      apply entries_spec in Hin; auto. destruct Hin as (Hb & Hv & _). subst v.
      destruct (Hbody (map fst done) r c (map fst rest') w1 m1) as (w2 & E2 & Hi2); [|exact Hi|exact Ho1|].
      { destruct Hs1 as (_ & F1 & F2). rewrite <- F1, <- F2, <- dense_positions, He, map_app, Ed by auto. reflexivity. }
      rewrite (mbind_ok _ _ _ _ _ E2). apply (IH it' m1 (done' ++ [(r, c, peek m1 r c)]) rest'); auto.
      + rewrite map_app, Ed. exact Hi2.
      + simpl in Hlen. lia. }
  apply (G (map fst (entries m)) _ m [] (entries m)); auto.
  - apply entries_rel. exact Hw.
  - apply same_shape_refl.
  - pose proof (zlen_entries m Hw) as Hl. unfold zlen in Hl. lia.
Qed.

(** ** Transposing a square dense matrix into itself: what is above the diagonal is
    copied below it, and back *)
Definition mirrored (w : world) (k : mask) (f : Z -> Z -> V) (i j : Z) : V :=
  if covers w k j i then f i j else if j <=? i then f j i else if covers w k i j then f j i else f i j.

Lemma transpose_into_itself E w (s : ptr) k S R f :
  sane N -> reachable w -> obj w s S -> is_dense S -> denotes S R R f -> mask_dims w k R R -> mask_not k s -> e_ctx E = None ->
  R * R <= Z.of_nat (e_fuel E) ->
  exists w' S', Transpose E s k s w = (w', Ok tt) /\ extends_but s w w' /\ obj w' s S' /\ same_storage S S' /\
    denotes S' R R (mirrored w k f).
Proof.
  intros Hs Hr Ho Hd F Hk Hkn Hbg Hfu. pose proof (sane_wfw w Hs Hr) as Hw. assert (Hz := proj1 Hs). pose proof F as (ER & EC & _).
  assert (Hmd : mask_dims w k (mat_Rows S) (mat_Columns S)) by (rewrite ER, EC; exact Hk).
  assert (Hmw : mask_wf w k) by (eapply mask_dims_wf; eauto).
  assert (Gs : good S) by (split; [eapply Hw; eauto|destruct S; try contradiction; discriminate]).
  set (act := fun i j => negb (covers w k j i)).
  set (val := fun i j (_ : V) => if j <=? i then f j i else if covers w k i j then f j i else f i j).
  assert (HV : mat_Values S <= Z.of_nat (e_fuel E)) by (pose proof (values_bound w s S R R f Hs Hr Ho (dense_nsv _ Hd) F); lia).
  destruct (enum_live E s w S (fun r c value =>
      let! e := mask_Element (mask_norm k (mat_Rows S) (mat_Columns S)) r c in
      (if negb e then p_Set s c r value else mret tt) ;!; mret None)
    (fun d w1 => St w s S act val (map OpsThms.swap d) w1) Hz Ho (proj1 Gs) Hd Hbg HV) as (w' & Hrun & HSt).
  - intros d w1 HSt. destruct (St_obj _ _ _ _ _ Ho _ _ HSt) as (O1 & A & B & C & _). exists O1. split; [exact A|]. split; [apply B|exact C].
  - intros d r c rest w1 m1 Hp HSt Ho1. rewrite ER, EC in Hp.
    assert (Hin : 0 <= r < R /\ 0 <= c < R) by (apply in_positions_iff; rewrite Hp; apply in_or_app; right; left; reflexivity).
    assert (Hnd : visited d r c = false).
    { apply visited_notin. intros Hin'. pose proof (NoDup_positions R R) as Hn. rewrite Hp in Hn. apply NoDup_remove_2 in Hn. apply Hn, in_or_app. left; exact Hin'. }
    assert (Hbs : inb S r c) by (unfold inb; lia). assert (Hbs' : inb S c r) by (unfold inb; lia).
    assert (Hme : mask_Element (mask_norm k (mat_Rows S) (mat_Columns S)) r c w1 = (w1, Ok (covers w k r c))).
    { apply (St_mask w s S act val Hz Ho Gs _ _ _ _ _ HSt Hmw Hmd Hbs). intros ->. contradiction. }
    rewrite (mbind_ok _ _ _ _ _ Hme).
    assert (Hpk : covers w k r c = false -> peek m1 r c = val c r (peek S c r)).
    { intros Hcv. destruct (St_final _ _ _ _ _ Ho _ _ HSt) as (O1 & _ & Ho1' & _ & _ & Hpk).
      rewrite (obj_inj _ _ _ _ Ho1 Ho1'), Hpk by exact Hbs. rewrite visited_swap. unfold val, act.
      rewrite (denotes_peek _ _ _ _ _ _ F Hbs). rewrite <- OpsThms.kept_clean.
      assert (Hvis : visited d c r = (c <? r)).
      { rewrite (pos_before R R d r c rest c r Hp) by lia. lia. }
      rewrite Hvis. destruct (r <=? c) eqn:E1.
      - replace (c <? r) with false by lia. reflexivity.
      - replace (c <? r) with true by lia. replace (r <=? c) with false by lia.
        destruct (covers w k c r) eqn:E2; cbn [andb negb]; [reflexivity|].
        replace (c <=? r) with true by lia. apply dense_kept. exact Hd. }
    destruct (covers w k r c) eqn:Ec; cbn [negb].
    + rewrite mbind_ret. exists w1. split; [reflexivity|]. rewrite map_app. apply St_skip; [exact HSt|]. unfold act. cbn [fst snd]. rewrite Ec. reflexivity.
    + rewrite Hpk by reflexivity.
      destruct (St_set w s S act val Hz Ho (map OpsThms.swap d) w1 c r (val c r (peek S c r)) HSt) as (w2 & E2 & HSt2 & _); auto.
      * rewrite visited_swap. exact Hnd.
      * unfold act. rewrite Ec. reflexivity.
      * rewrite (mbind_ok _ _ _ _ _ E2). exists w2. split; [reflexivity|]. rewrite map_app. exact HSt2.
  - apply St_start; auto.
  - destruct (St_denotes _ _ _ _ _ _ _ _ _ _ Hz Ho F HSt) as (O1 & Hext & Ho1 & Hs1 & Hw1 & Hd1).
    exists w', O1. split.
    { unfold Transpose. rewrite (mbind_ok _ _ _ _ _ (check_mask_ok _ _ _ _ Ho Hmd)), (mbind_ok _ _ _ _ _ Hrun). reflexivity. }
    split; [exact Hext|]. split; [exact Ho1|]. split; [apply Steps.same_storage_shape; exact Hs1|].
    eapply denotes_ext; [|exact Hd1]. intros i j Hi Hj. cbn beta. rewrite visited_swap, ER, EC, MethThms.visited_positions by auto.
    unfold act, val, mirrored. rewrite dense_kept by exact Hd. destruct (covers w k j i); reflexivity.
Qed.

(** ** Addition and subtraction, whatever objects coincide *)
Lemma add_operator E w (s m : ptr) k t S Mo O R C f g h :
  sane N -> reachable w -> obj w s S -> obj w m Mo -> obj w t O -> is_dense S -> is_dense Mo -> is_dense O ->
  denotes S R C f -> denotes Mo R C g -> denotes O R C h -> mask_dims w k R C -> IsSparseMatrix (e_reg E) S = false -> e_ctx E = None ->
  R * C <= Z.of_nat (e_fuel E) ->
  exists w' O', Add E s m k t w = (w', Ok tt) /\ extends_but t w w' /\ obj w' t O' /\ same_storage O O' /\
    denotes O' R C (fun i j => if covers w k i j then h i j else nadd (f i j) (g i j)).
Proof.
  intros Hs Hr H1 H2 H3 D1 D2 D3 F1 F2 F3 Hk Hsp Hbg Hfu. pose proof (sane_wfw w Hs Hr) as Hw. assert (Hz := proj1 Hs).
  destruct (Add_run E w s m k t S Mo O R C f g h false Hz Hw H1 H2 H3 (dense_nsv _ D1) (dense_nsv _ D2) (dense_nsv _ D3) F1 F2 F3 Hk Hsp)
    as (w' & O' & d & rest & A1 & A2 & A3 & A4 & A5 & A6 & A7 & A8); [right; exact D3| |].
  { cbn. pose proof (values_bound w m Mo R C g Hs Hr H2 (dense_nsv _ D2) F2). lia. }
  exists w', O'. split; [exact A1|]. split; [exact A2|]. split; [exact A3|]. split; [apply Steps.same_storage_shape; exact A4|].
  apply until_none in A7; [|exact Hbg]. subst rest. rewrite app_nil_r in A6. 
  eapply denotes_ext; [|exact A8]. intros i j Hi Hj. cbn beta. rewrite dense_kept by exact D3.
  rewrite (enumerates_visited Mo d R C g i j); eauto. destruct (covers w k i j); reflexivity.
Qed.

Lemma sub_operator E w (s m : ptr) k t S Mo O R C f g h :
  sane N -> reachable w -> obj w s S -> obj w m Mo -> obj w t O -> is_dense S -> is_dense Mo -> is_dense O ->
  denotes S R C f -> denotes Mo R C g -> denotes O R C h -> mask_dims w k R C -> e_ctx E = None ->
  R * C <= Z.of_nat (e_fuel E) ->
  exists w' O', Subtract E s m k t w = (w', Ok tt) /\ extends_but t w w' /\ obj w' t O' /\ same_storage O O' /\
    denotes O' R C (fun i j => if covers w k i j then h i j else nsub (f i j) (h i j)).
Proof.
  intros Hs Hr H1 H2 H3 D1 D2 D3 F1 F2 F3 Hk Hbg Hfu. pose proof (sane_wfw w Hs Hr) as Hw. assert (Hz := proj1 Hs).
  pose proof F2 as (MR & MC & _).
  destruct (Subtract_run E w s m k t S Mo O R C f h Hz Hw H1 H2 H3 (dense_nsv _ D1) (dense_nsv _ D3) F1 MR MC F3 Hk)
    as (w' & O' & d & rest & A1 & A2 & A3 & A4 & A5 & A6 & A7 & A8); [right; exact D3| |].
  { pose proof (values_bound w s S R C f Hs Hr H1 (dense_nsv _ D1) F1). lia. }
  exists w', O'. split; [exact A1|]. split; [exact A2|]. split; [exact A3|]. split; [apply Steps.same_storage_shape; exact A4|].
  apply until_none in A7; [|exact Hbg]. subst rest. rewrite app_nil_r in A6.
  eapply denotes_ext; [|exact A8]. intros i j Hi Hj. cbn beta. rewrite dense_kept by exact D3.
  rewrite (enumerates_visited S d R C f i j); eauto. destruct (covers w k i j); reflexivity.
Qed.
End InPlace.
