(** Laws of the Go element types. *)
From Coq Require Import String SpecFloat Eqdep_dec QArith Qcanon.
From Verif Require Import GoBase Num.
#[local] Open Scope Z_scope.

Lemma wint_ext sg bits (x y : wint sg bits) : wval x = wval y -> x = y.
Proof.
  destruct x as [x Hx], y as [y Hy]; simpl. intros ->. f_equal.
  apply UIP_dec. apply bool_dec.
Qed.

Section Wrap.
Variables (sg : bool) (bits : Z).
Hypothesis Hb : 0 < bits.
Let P := 2 ^ bits.

Lemma P_pos : 0 < P. Proof. apply Z.pow_pos_nonneg; lia. Qed.
Lemma P_half : P = 2 * 2 ^ (bits - 1).
Proof. unfold P. replace bits with (Z.succ (bits - 1)) at 1 by lia. rewrite Z.pow_succ_r by lia. reflexivity. Qed.

Lemma wrap_mod z : wrap sg bits z mod P = z mod P.
Proof.
  pose proof P_pos. unfold wrap. fold P. destruct sg.
  - rewrite Zminus_mod, Zmod_mod, <- Zminus_mod. f_equal. lia.
  - apply Zmod_mod.
Qed.
Lemma wrap_inj a b : a mod P = b mod P -> wrap sg bits a = wrap sg bits b.
Proof.
  intros H. unfold wrap. fold P. destruct sg; [|exact H].
  rewrite (Zplus_mod a), H, <- Zplus_mod. reflexivity.
Qed.
Lemma of_Z_eq a b : a mod P = b mod P -> @of_Z sg bits a = of_Z b.
Proof. intros H. apply wint_ext. simpl. apply wrap_inj; auto. Qed.
Lemma of_Z_val (x : wint sg bits) : of_Z (wval x) = x.
Proof. apply wint_ext. simpl. apply Z.eqb_eq. apply wok. Qed.
Lemma val_mod (x : wint sg bits) z : x = of_Z z -> wval x mod P = z mod P.
Proof. intros ->. simpl. apply wrap_mod. Qed.

Lemma of_Z_add a b : @of_Z sg bits (wrap sg bits a + b) = of_Z (a + b).
Proof. apply of_Z_eq. rewrite Zplus_mod, wrap_mod, <- Zplus_mod. reflexivity. Qed.
Lemma of_Z_add_r a b : @of_Z sg bits (a + wrap sg bits b) = of_Z (a + b).
Proof. rewrite Z.add_comm, of_Z_add, Z.add_comm. reflexivity. Qed.
Lemma of_Z_mul a b : @of_Z sg bits (wrap sg bits a * b) = of_Z (a * b).
Proof. apply of_Z_eq. rewrite Zmult_mod, wrap_mod, <- Zmult_mod. reflexivity. Qed.
Lemma of_Z_mul_r a b : @of_Z sg bits (a * wrap sg bits b) = of_Z (a * b).
Proof. rewrite Z.mul_comm, of_Z_mul, Z.mul_comm. reflexivity. Qed.

Lemma num_int_ring name : ring_ok (num_int name sg bits).
Proof.
  unfold ring_ok. constructor; cbn [T n0 n1 nadd nmul nsub nneg num_int]; intros; cbn [wval of_Z].
  - change (wrap sg bits 0) with (wval (@of_Z sg bits 0)). cbn [wval of_Z]. rewrite of_Z_add. apply of_Z_val.
  - f_equal. lia.
  - rewrite of_Z_add, of_Z_add_r. f_equal. lia.
  - rewrite of_Z_mul. rewrite Z.mul_1_l. apply of_Z_val.
  - f_equal. lia.
  - rewrite of_Z_mul, of_Z_mul_r. f_equal. lia.
  - rewrite of_Z_add, of_Z_add_r, of_Z_mul. f_equal. lia.
  - rewrite of_Z_add_r. f_equal. 
  - rewrite of_Z_add_r. f_equal. lia.
Qed.

Lemma num_int_eq name : eq_ok (num_int name sg bits).
Proof.
  intros x y. cbn [neqb num_int]. split.
  - intros H. apply wint_ext. lia.
  - intros ->. lia.
Qed.

Lemma num_int_zero name : zero_ok (num_int name sg bits).
Proof. unfold zero_ok. cbn. apply Z.eqb_refl. Qed.

Lemma wrap_0 : wrap sg bits 0 = 0.
Proof.
  unfold wrap. pose proof P_half as Hh. pose proof P_pos as Hp. fold P. destruct sg; [|apply Zmod_0_l].
  rewrite Z.mod_small; lia.
Qed.

Lemma num_int_neg name (x : T (num_int name sg bits)) :
  neqb x n0 = false -> neqb (nneg x) n0 = false.
Proof.
  cbn [neqb nneg n0 num_int T wval of_Z] in *. intros H. destruct (wrap sg bits (- wval x) =? wrap sg bits 0) eqn:E; auto.
  exfalso. assert (Hm : (- wval x) mod P = 0 mod P) by (rewrite <- wrap_mod, <- (wrap_mod 0); f_equal; lia).
  assert (Hx : wval x mod P = 0 mod P).
  { rewrite <- (Z.opp_involutive (wval x)). rewrite <- (Z.sub_0_l (- wval x)), Zminus_mod, Hm, <- Zminus_mod. reflexivity. }
  apply wrap_inj in Hx. pose proof (wok x) as Hk. lia.
Qed.
End Wrap.

Lemma go_ints_form N : In N go_ints -> exists name sg bits, 0 < bits /\ N = num_int name sg bits.
Proof.
  unfold go_ints. simpl. intros H.
  repeat (destruct H as [<-|H]; [eexists _, _, _; split; [|reflexivity]; lia|]). tauto.
Qed.

Lemma go_ints_ring N : In N go_ints -> ring_ok N.
Proof. intros H. destruct (go_ints_form N H) as (nm & sg & b & Hb & ->). apply num_int_ring; auto. Qed.
Lemma go_ints_eq N : In N go_ints -> eq_ok N.
Proof. intros H. destruct (go_ints_form N H) as (nm & sg & b & Hb & ->). apply num_int_eq; auto. Qed.

Lemma go_types_zero N : In N go_types -> zero_ok N.
Proof.
  intros [<-|[<-|H]]; try reflexivity.
  destruct (go_ints_form N H) as (nm & sg & b & Hb & ->). apply num_int_zero; auto.
Qed.

Lemma SFeqb_sym x y : SFeqb x y = SFeqb y x.
Proof.
  destruct x as [s|s| |s m e], y as [s'|s'| |s' m' e']; try (destruct s; destruct s'; reflexivity); try reflexivity;
    try (destruct s; reflexivity); try (destruct s'; reflexivity).
  unfold SFeqb, SFcompare. destruct s, s'; try reflexivity;
    rewrite (Z.compare_antisym e e'); destruct (e ?= e'); cbn; try reflexivity;
    change (Pos.compare_cont Eq m m') with (m ?= m')%positive; change (Pos.compare_cont Eq m' m) with (m' ?= m)%positive;
    rewrite (Pos.compare_antisym m m'); destruct (m ?= m')%positive; reflexivity.
Qed.
Lemma SFeqb_zero x y : SFeqb x y = true -> SFeqb x (S754_zero false) = SFeqb y (S754_zero false).
Proof.
  destruct x as [s|s| |s m e], y as [s'|s'| |s' m' e']; try destruct s; try destruct s'; cbn; intros H; try reflexivity; try discriminate H.
Qed.

Lemma eq_cmp N : eq_ok N -> cmp_ok N.
Proof.
  intros H. split.
  - intros x y. destruct (neqb x y) eqn:E; symmetry.
    + apply H in E. subst. apply H. reflexivity.
    + destruct (neqb y x) eqn:E'; [|reflexivity]. apply H in E'. subst. rewrite <- E. symmetry. apply H. reflexivity.
  - intros x y E. apply H in E. subst. reflexivity.
Qed.

Lemma go_types_cmp N : In N go_types -> cmp_ok N.
Proof.
  intros [<-|[<-|H]].
  - split; [apply SFeqb_sym|apply SFeqb_zero].
  - split; [apply SFeqb_sym|apply SFeqb_zero].
  - apply eq_cmp, go_ints_eq, H.
Qed.

Lemma SFopp_nz x : SFeqb x (S754_zero false) = false -> SFeqb (SFopp x) (S754_zero false) = false.
Proof. destruct x as [s|s| |s m e]; try destruct s; simpl; auto. Qed.

Lemma go_types_neg N : In N go_types -> forall x : T N, neqb x n0 = false -> neqb (nneg x) n0 = false.
Proof.
  intros [<-|[<-|H]].
  - intros x. apply SFopp_nz.
  - intros x. apply SFopp_nz.
  - destruct (go_ints_form N H) as (nm & sg & b & Hb & ->). intros x. apply num_int_neg; auto.
Qed.

Lemma num_Z_zero : zero_ok num_Z. Proof. reflexivity. Qed.
Lemma num_Z_eq : eq_ok num_Z. Proof. intros x y. apply Z.eqb_eq. Qed.
Lemma num_Z_neg (x : T num_Z) : neqb x n0 = false -> neqb (nneg x) n0 = false.
Proof. simpl. lia. Qed.
Lemma num_Z_ring : ring_ok num_Z.
Proof. exact Zth. Qed.

Lemma num_Qc_zero : zero_ok num_Qc. Proof. reflexivity. Qed.
Lemma num_Qc_eq : eq_ok num_Qc.
Proof.
  intros x y. split; [apply Qc_eq_bool_correct|]. intros ->. simpl. unfold Qc_eq_bool.
  destruct (Qc_eq_dec y y); congruence.
Qed.
Lemma num_Qc_ring : ring_ok num_Qc. Proof. exact Qcrt. Qed.
Lemma num_Qc_field : field_ok num_Qc.
Proof.
  split; [exact num_Qc_ring|]. split; [exact num_Qc_eq|]. split.
  - simpl. intros H. discriminate H.
  - simpl. intros x Hx. exists (1 / x)%Qc. split; [reflexivity|].
    unfold Qcdiv. rewrite Qcmult_1_l. apply Qcmult_inv_l. exact Hx.
Qed.
