(** Strassen's multiplication as a program of goroutines (math/strassen/strassen.go).

    MathOps.v runs the seven goroutines of a call one after the other, each in one step.  Here a
    call is a tree of calls that run at the same time: the caller computes the operands of a
    sub-product, starts a goroutine for it, and goes on to the next while that goroutine runs; then
    it receives the seven results from an unbuffered channel, in the order in which the goroutines
    come to send them; then it puts them together.  The steps are those of Fine.v, a scheduler picks
    whose turn it is.

    A goroutine counts how often it has tested its context by itself (FineConc.v); what is proved
    (FineStrassenThms.v) is for a context that is never done and for one that is done from the
    start, for which the count does not matter.  FineCancel.v has a context that becomes done while the
    goroutines run. *)
From Coq Require Import String.
From Verif Require Import GoBase Num SparseVec Csr Csc DenseVec DenseMat Mat World Ops MathOps Bfs Spec Api BaseProofs Fine FineRel FineConc FineProofs.

(** strassen.go:37-45: the quarters of the operands *)
Record blocks : Type := MkBlocks { b_a11 : ptr; b_a12 : ptr; b_a21 : ptr; b_a22 : ptr; b_b11 : ptr; b_b12 : ptr; b_b21 : ptr; b_b22 : ptr }.

(** what comes of the first part of a call, strassen.go:24-65: the product, or quarters *)
Inductive next : Type := Fin (p : ptr) | Div (bl : blocks).

(** strassen.go:69-75: the numbers of the sub-products *)
Definition seven : list Z := [1; 2; 3; 4; 5; 6; 7].

Section FineStrassen.
Context {N : num}.
Notation V := (T N).
Notation mat := (mat N).
Notation M := (prog N).
Notation gor := (gor (N := N)).

(** strassen.go:35-65: dividing the operands *)
Definition divide (E : env) (size : Z) (a b : ptr) : M blocks :=
  let! a11 := new_dense size size in
  let! a12 := new_dense size size in
  let! a21 := new_dense size size in
  let! a22 := new_dense size size in
  let! b11 := new_dense size size in
  let! b12 := new_dense size size in
  let! b21 := new_dense size size in
  let! b22 := new_dense size size in
  grid E size size (fun r c =>
    copy_cell a11 a r c r c ;!;
    copy_cell a12 a r (c + size) r c ;!;
    copy_cell a21 a (r + size) c r c ;!;
    copy_cell a22 a (r + size) (c + size) r c ;!;
    copy_cell b11 b r c r c ;!;
    copy_cell b12 b r (c + size) r c ;!;
    copy_cell b21 b (r + size) c r c ;!;
    copy_cell b22 b (r + size) (c + size) r c) ;!;
  mret (MkBlocks a11 a12 a21 a22 b11 b12 b21 b22).

(** strassen.go:24-65: the sizes, the direct product, the quarters; the recursion is given [fuel] levels *)
Definition head (E : env) (crossover : Z) (fuel : nat) (a b : ptr) : M next :=
  let! ac := p_Columns a in
  let! br := p_Rows b in
  if negb (ac =? br) then mpanic
  else
    let! n := p_Rows b in
    if n <=? crossover then
      let! ar := p_Rows a in
      let! bc := p_Columns b in
      let! matrix := new_dense ar bc in
      MatrixMatrixMultiply E a b MNil matrix ;!;
      mret (Fin matrix)
    else
      match fuel with
      | O => mdiverge
      | S _ => let! bl := divide E (Z.quot n 2) a b in mret (Div bl)
      end.

(** strassen.go:69-75: the arguments of the i-th [go] statement, which the caller computes *)
Definition opnd (E : env) (i : Z) (bl : blocks) : M (ptr * ptr) :=
  if i =? 1 then
    let! x := m_Add E (b_a11 bl) (b_a22 bl) in
    let! y := m_Add E (b_b11 bl) (b_b22 bl) in
    mret (x, y)
  else if i =? 2 then
    let! x := m_Add E (b_a21 bl) (b_a22 bl) in
    mret (x, b_b11 bl)
  else if i =? 3 then
    let! y := m_Subtract E (b_b12 bl) (b_b22 bl) in
    mret (b_a11 bl, y)
  else if i =? 4 then
    let! y := m_Subtract E (b_b21 bl) (b_b11 bl) in
    mret (b_a22 bl, y)
  else if i =? 5 then
    let! x := m_Add E (b_a11 bl) (b_a12 bl) in
    mret (x, b_b22 bl)
  else if i =? 6 then
    let! x := m_Subtract E (b_a21 bl) (b_a11 bl) in
    let! y := m_Add E (b_b11 bl) (b_b12 bl) in
    mret (x, y)
  else
    let! x := m_Subtract E (b_a12 bl) (b_a22 bl) in
    let! y := m_Add E (b_b21 bl) (b_b22 bl) in
    mret (x, y).

(** a goroutine that is about to run [x] *)
Definition go {A} (x : M A) : gor A := MkGor x None 0.

(** A call and the goroutines it has started, strassen.go:23-107: before the quarters are there;
    computing the arguments of the [go] statement [i], with those of [rest] to come and the
    goroutines [kids] running; receiving, with [got] received; combining.  A sub-product's
    goroutine (strassen.go:109-114) is the call it makes; when that has ended it waits to send. *)
Inductive task : Type :=
| THead (f : nat) (g : gor next)
| TSpawn (f : nat) (bl : blocks) (i : Z) (rest : list Z) (g : gor (ptr * ptr)) (kids : list (Z * task))
| TRecv (f : nat) (kids : list (Z * task)) (got : list (Z * ptr))
| TComb (g : gor ptr).

(** the product, once the call has ended *)
Definition finished (t : task) : option ptr :=
  match t with
  | THead _ g => match outcome g with Some (Ok (Fin p)) => Some p | _ => None end
  | TComb g => match outcome g with Some (Ok p) => Some p | _ => None end
  | _ => None
  end.

(** after the [go] statement of a sub-product: the next one, or receiving, strassen.go:69-81 *)
Definition spawned (E : env) (f : nat) (bl : blocks) (rest : list Z) (kids : list (Z * task)) : task :=
  match rest with
  | [] => TRecv f kids []
  | j :: rest' => TSpawn f bl j rest' (go (opnd E j bl)) kids
  end.

(** one step of the program; [st]: the steps of a goroutine *)
Inductive turn (st : forall A, list mat -> gor A -> option (list mat * gor A)) (E : env) (x : Z) : list mat * task -> list mat * task -> Prop :=
| st_head : forall f h g h' g', st _ h g = Some (h', g') -> turn st E x (h, THead f g) (h', THead f g')
| st_divided : forall f h g bl, outcome g = Some (Ok (Div bl)) ->
    turn st E x (h, THead (S f) g) (h, TSpawn f bl 1 [2; 3; 4; 5; 6; 7] (go (opnd E 1 bl)) [])
| st_operands : forall f bl i rest ks h g h' g', st _ h g = Some (h', g') ->
    turn st E x (h, TSpawn f bl i rest g ks) (h', TSpawn f bl i rest g' ks)
| st_go : forall f bl i rest ks h g a b, outcome g = Some (Ok (a, b)) ->
    turn st E x (h, TSpawn f bl i rest g ks) (h, spawned E f bl rest (ks ++ [(i, THead f (go (head E x f a b)))]))
| st_kid_spawn : forall f bl i rest g h h' k1 j t t' k2, turn st E x (h, t) (h', t') ->
    turn st E x (h, TSpawn f bl i rest g (k1 ++ (j, t) :: k2)) (h', TSpawn f bl i rest g (k1 ++ (j, t') :: k2))
| st_kid_recv : forall f got h h' k1 j t t' k2, turn st E x (h, t) (h', t') ->
    turn st E x (h, TRecv f (k1 ++ (j, t) :: k2) got) (h', TRecv f (k1 ++ (j, t') :: k2) got)
| st_receive : forall f got h k1 j t k2 p, finished t = Some p ->
    turn st E x (h, TRecv f (k1 ++ (j, t) :: k2) got) (h, TRecv f (k1 ++ k2) (got ++ [(j, p)]))
| st_received : forall f got h, turn st E x (h, TRecv f [] got) (h, TComb (go (combine E got)))
| st_combine : forall h g h' g', st _ h g = Some (h', g') -> turn st E x (h, TComb g) (h', TComb g').
(** the steps of goroutines are those of FineConc.v *)
Notation tstep := (turn (@gstep N)).

(** any number of steps *)
Inductive tsteps (E : env) (x : Z) : list mat * task -> list mat * task -> Prop :=
| ts_none : forall c, tsteps E x c c
| ts_more : forall a b c, tsteps E x a b -> tstep E x b c -> tsteps E x a c.

(** strassen.go:23: a call of MultiplyCrossoverPoint that is about to start *)
Definition begin (E : env) (x : Z) (a b : ptr) : task := THead (e_fuel E) (go (head E x (e_fuel E) a b)).

(** some goroutine has panicked (which ends a Go program) or does not end *)
Fixpoint broken (t : task) : Prop :=
  let bad A (g : gor A) := outcome g = Some Panic \/ outcome g = Some Diverge in
  let any := fix any (l : list (Z * task)) : Prop := match l with [] => False | (_, t) :: l => broken t \/ any l end in
  match t with
  | THead _ g => bad _ g
  | TSpawn _ _ _ _ g ks => bad _ g \/ any ks
  | TRecv _ ks _ => any ks
  | TComb g => bad _ g
  end.

(** ** One after the other *)

(** all operands first, then the products one by one in order, as MathOps.v has it *)
Fixpoint opsT (E : env) (todo : list Z) (bl : blocks) : M (list (Z * (ptr * ptr))) :=
  match todo with
  | [] => mret []
  | i :: rest => let! xy := opnd E i bl in let! l := opsT E rest bl in mret ((i, xy) :: l)
  end.
(** see opsT *)
Fixpoint gatherT (run : ptr -> ptr -> M ptr) (os : list (Z * (ptr * ptr))) : M (list (Z * ptr)) :=
  match os with
  | [] => mret []
  | (i, (a, b)) :: rest => let! p := run a b in let! l := gatherT run rest in mret ((i, p) :: l)
  end.
(** see opsT *)
Definition cont (E : env) (run : ptr -> ptr -> M ptr) (bl : blocks) (os : list (Z * (ptr * ptr))) (todo : list Z) : M ptr :=
  let! l := opsT E todo bl in
  let! ms := gatherT run (os ++ l) in
  combine E ms.
(** see opsT *)
Fixpoint tree (E : env) (x : Z) (fuel : nat) (a b : ptr) {struct fuel} : M ptr :=
  let! nx := head E x fuel a b in
  match nx with
  | Fin p => mret p
  | Div bl => match fuel with
              | O => mdiverge
              | S f => cont E (tree E x f) bl [] seven
              end
  end.

Lemma wbind_ext {A B} (x x' : World.M N A) (f f' : A -> World.M N B) w : (forall w, x w = x' w) -> (forall a w, f a w = f' a w) -> World.mbind x f w = World.mbind x' f' w.
Proof. intros H1 H2. unfold World.mbind. rewrite H1. destruct (x' w) as [w' [a| |]]; auto. Qed.
Lemma wbind_assoc {A B C} (x : World.M N A) (f : A -> World.M N B) (g : B -> World.M N C) w :
  World.mbind (World.mbind x f) g w = World.mbind x (fun a => World.mbind (f a) g) w.
Proof. unfold World.mbind. destruct (x w) as [w' [a| |]]; reflexivity. Qed.

Lemma mbind_assoc {A B C} (x : M A) (f : A -> M B) (g : B -> M C) w :
  interp (mbind (mbind x f) g) w = interp (mbind x (fun a => mbind (f a) g)) w.
Proof.
  rewrite !interp_bind. rewrite (wbind_ext _ (World.mbind (interp x) (fun a => interp (f a))) _ (fun a => interp (g a))); [|apply interp_bind|reflexivity].
  rewrite wbind_assoc. apply wbind_ext; [reflexivity|]. intros a w'. symmetry. apply interp_bind.
Qed.
Lemma mbind_ext {A B} (x : M A) (f g : A -> M B) w : (forall a w, interp (f a) w = interp (g a) w) -> interp (mbind x f) w = interp (mbind x g) w.
Proof. intro H. rewrite !interp_bind. apply wbind_ext; auto. Qed.

Lemma tree_eqv E x fuel path a b : eqv (tree E x fuel a b) (MathOps.strassen fuel E (fun _ => seven) path a b x).
Proof.
  revert path a b. induction fuel as [|f IH]; intros path a b w.
  - cbn [tree MathOps.strassen]. unfold head. rewrite mbind_assoc, interp_bind. apply wbind_ext; [intro; apply p_Columns_eqv|]. clear w. intros ac w.
    rewrite mbind_assoc, interp_bind. apply wbind_ext; [intro; apply p_Rows_eqv|]. clear w. intros br w.
    destruct (negb (ac =? br)); [reflexivity|].
    rewrite mbind_assoc, interp_bind. apply wbind_ext; [intro; apply p_Rows_eqv|]. clear w. intros n w.
    destruct (n <=? x); [|reflexivity].
    rewrite mbind_assoc, interp_bind. apply wbind_ext; [intro; apply p_Rows_eqv|]. clear w. intros ar w.
    rewrite mbind_assoc, interp_bind. apply wbind_ext; [intro; apply p_Columns_eqv|]. clear w. intros bc w.
    rewrite mbind_assoc, interp_bind. apply wbind_ext; [intro; apply new_dense_eqv|]. clear w. intros p w.
    rewrite mbind_assoc, interp_bind. apply wbind_ext; [intro; apply MatrixMatrixMultiply_eqv|]. clear w. intros [] w. reflexivity.
  - cbn [tree MathOps.strassen]. unfold head. rewrite mbind_assoc, interp_bind. apply wbind_ext; [intro; apply p_Columns_eqv|]. clear w. intros ac w.
    rewrite mbind_assoc, interp_bind. apply wbind_ext; [intro; apply p_Rows_eqv|]. clear w. intros br w.
    destruct (negb (ac =? br)); [reflexivity|].
    rewrite mbind_assoc, interp_bind. apply wbind_ext; [intro; apply p_Rows_eqv|]. clear w. intros n w.
    destruct (n <=? x).
    { rewrite mbind_assoc, interp_bind. apply wbind_ext; [intro; apply p_Rows_eqv|]. clear w. intros ar w.
      rewrite mbind_assoc, interp_bind. apply wbind_ext; [intro; apply p_Columns_eqv|]. clear w. intros bc w.
      rewrite mbind_assoc, interp_bind. apply wbind_ext; [intro; apply new_dense_eqv|]. clear w. intros p w.
      rewrite mbind_assoc, interp_bind. apply wbind_ext; [intro; apply MatrixMatrixMultiply_eqv|]. clear w. intros [] w. reflexivity. }
    assert (G : forall os (ops : Z -> ptr * ptr), Forall (fun o => ops (fst o) = snd o) os ->
      eqv (gatherT (tree E x f) os) (MathOps.gather (fun i => MathOps.strassen f E (fun _ => seven) (i :: path) (fst (ops i)) (snd (ops i)) x) (map fst os))).
    { induction os as [|[i [p q]] os IHo]; intros ops H w1; [reflexivity|]. cbn [gatherT map fst MathOps.gather].
      inversion H as [|? ? H1 H2]; subst. cbn [fst snd] in H1. rewrite H1. cbn [fst snd].
      apply eqv_bind; [apply IH|]. intro r. apply eqv_bind; [apply IHo; exact H2|]. intro l. apply eqv_ret. }
    cbv beta iota. 
    assert (D : forall w, interp (let! bl := divide E (Z.quot n 2) a b in let! l := opsT E seven bl in mret l) w =
      World.mbind (MathOps.operands E (Z.quot n 2) a b) (fun ops => World.mret (map (fun i => (i, ops i)) seven)) w).
    { clear w. intro w. unfold divide, MathOps.operands.
      do 8 (rewrite mbind_assoc, interp_bind, wbind_assoc; apply wbind_ext; [intro; apply new_dense_eqv|]; clear w; intros ? w).
      rewrite mbind_assoc, interp_bind, wbind_assoc. apply wbind_ext.
      { intro w1. apply grid_eqv. intros r c. repeat (apply eqv_bind; [apply copy_cell_eqv|intros]). apply copy_cell_eqv. }
      clear w. intros [] w. cbn [mret mbind]. 
      unfold seven, opnd. cbn [opsT]. unfold opnd. cbn [Z.eqb Pos.eqb b_a11 b_a12 b_a21 b_a22 b_b11 b_b12 b_b21 b_b22].
      do 10 (cbn [mret mbind]; repeat rewrite mbind_assoc; rewrite interp_bind, wbind_assoc; apply wbind_ext; [intro; solve [apply m_Add_eqv|apply m_Subtract_eqv]|]; clear w; intros ? w).
      reflexivity. }
    transitivity (interp (mbind (let! bl := divide E (Z.quot n 2) a b in let! l := opsT E seven bl in mret l)
      (fun l => let! ms := gatherT (tree E x f) l in combine E ms)) w).
    { rewrite !mbind_assoc. apply mbind_ext. clear w. intros bl w. cbn [mret mbind]. unfold cont. cbn [app].
      rewrite mbind_assoc. apply mbind_ext. reflexivity. }
    rewrite interp_bind. rewrite (wbind_ext _ _ _ (fun l => interp (let! ms := gatherT (tree E x f) l in combine E ms)) w D) by reflexivity.
    rewrite wbind_assoc. apply wbind_ext; [reflexivity|]. clear w. intros ops w.
    unfold World.mbind at 1. unfold World.mret. apply eqv_bind.
    + replace seven with (map fst (map (fun i => (i, ops i)) seven)) at 2 by reflexivity. apply G.
      apply Forall_forall. intros o H. apply in_map_iff in H. destruct H as (i & <- & _). reflexivity.
    + intro l. apply combine_eqv.
Qed.
End FineStrassen.
Notation tstep := (turn (@gstep _)).
