(** C89: binding values to nodes and taking them off. *)
From Coq Require Import List ZArith Bool Lia.
From Verif Require Import BroadcastModel ShapeGradModel TypeModel BindModel BindSpec BindProofs.
Import ListNotations.

Section C89.
Variable V : Type.
Implicit Types w : world V.

(** Let of a Value that fits: the node's value is from then on that very object (nothing is
    copied, so later changes to it are seen), whatever derivative was stored stays, and no
    other node changes. *)
Theorem C89_let : forall w n x o v, sound w -> nth_error (bnodes w) n = Some x -> isInput x = true ->
  obAt w o = Some v -> takes x v ->
  exists w' y, letN w n (AValue o) = Ok w' /\ nth_error (bnodes w') n = Some y /\ valueOf w' y = Some o
    /\ objs w' = objs w /\ gradOf w' y = gradOf w x /\ onlyNode w w' n.
Proof.
  intros w n x o v SO E IN O (s & t & S & T & A & D). unfold letN, unsafeLet. rewrite E, IN, O, S, T.
  apply shapeEq_spec in A. rewrite A. cbn [negb]. apply dtOf_spec in D. rewrite D, (proj2 (dtype_eq_spec _ _) eq_refl).
  destruct (bind_plain V w n x o SO E) as (w' & y & B & Y & OB & _ & _ & _ & _ & VA & G & ON). exists w', y.
  split; [exact B|]. split; [exact Y|]. split; [|split; [exact OB|split; [exact G|exact ON]]].
  rewrite <- VA. unfold isInput, isArg, isRandom in IN. destruct (bkind x); try reflexivity; discriminate.
Qed.

(** Let of a Value of another shape or dtype, and Let on a node that is no input, fail. *)
Theorem C89_let_refused : forall w n x o v t, nth_error (bnodes w) n = Some x -> obAt w o = Some v ->
  bty x = Some t -> bshp x <> None -> (exists d, hasDt d t) ->
  isInput x = false \/ ~ takes x v -> letN w n (AValue o) = Err.
Proof.
  intros w n x o v t E O T NS (d & D) H. unfold letN. rewrite E. destruct (isInput x) eqn:IN; [|reflexivity].
  destruct H as [H|H]; [discriminate|]. unfold unsafeLet. rewrite E, O, T. destruct (bshp x) as [s|] eqn:S; [|contradiction].
  destruct (shapeEq s (oshape v)) eqn:A; [|reflexivity]. cbn [negb]. pose proof (proj2 (dtOf_spec t d) D) as DD. rewrite DD.
  destruct (dtype_eq d (odt v)) eqn:Q; [|reflexivity]. exfalso. apply H. apply dtype_eq_spec in Q. subst d.
  exists s, t. split; [exact S|]. split; [exact T|]. split; [apply shapeEq_spec, A|exact D].
Qed.

(** Let of a Go number is not checked at all: whatever the node's shape and dtype, it
    succeeds and the node's value is a new scalar of the number's dtype. *)
Theorem C89_let_number_refuted : forall w n x d v, sound w -> nth_error (bnodes w) n = Some x -> isInput x = true ->
  exists w' y o, letN w n (AGo d v) = Ok w' /\ nth_error (bnodes w') n = Some y /\ valueOf w' y = Some o
    /\ obAt w' o = Some (mkObj true [] d [v]) /\ bty y = bty x /\ bshp y = bshp x.
Proof.
  intros w n x d v SO E IN. unfold letN, unsafeLet. rewrite E, IN. unfold newObj.
  set (w1 := mkWorld (objs w ++ [Live (mkObj true [] d [v])]) (pool w) (duals w) (bnodes w)).
  destruct (bind_plain V w1 n x (length (objs w)) SO E) as (w' & y & B & Y & OB & _ & _ & SH & TY & VA & _ & _).
  exists w', y, (length (objs w)). split; [exact B|]. split; [exact Y|]. split; [|split; [|split; assumption]].
  - rewrite <- VA. unfold isInput, isArg, isRandom in IN. destruct (bkind x); try reflexivity; discriminate.
  - unfold obAt. rewrite OB. cbn [w1 objs]. rewrite nth_error_app2, Nat.sub_diag by lia. reflexivity.
Qed.

(** Let of a node reports success and changes nothing; UnsafeLet, which should change the
    value of any node, does not change what a constant's Value is. *)
Theorem C89_let_node_refuted : forall w n x m, nth_error (bnodes w) n = Some x -> isInput x = true ->
  exists w', letN w n (ANode m) = Ok w' /\ forall k y, nth_error (bnodes w) k = Some y -> nth_error (bnodes w') k = Some y /\ valueOf w' y = valueOf w y.
Proof.
  intros w n x m E IN. unfold letN, unsafeLet. rewrite E, IN. exists w. split; [reflexivity|]. intros k y K. split; [exact K|reflexivity].
Qed.
Theorem C89_unsafe_let_constant_refuted : forall w n x c o v, sound w -> nth_error (bnodes w) n = Some x -> bkind x = KConst c ->
  obAt w o = Some v -> takes x v -> o <> c ->
  exists w' y, unsafeLet w n (AValue o) = Ok w' /\ nth_error (bnodes w') n = Some y /\ valueOf w' y = Some c.
Proof.
  intros w n x c o v SO E K O (s & t & S & T & A & D) N. unfold unsafeLet. rewrite E, O, S, T.
  apply shapeEq_spec in A. rewrite A. cbn [negb]. apply dtOf_spec in D. rewrite D, (proj2 (dtype_eq_spec _ _) eq_refl).
  destruct (bind_plain V w n x o SO E) as (w' & y & B & Y & OB & _ & _ & _ & _ & VA & G & ON). exists w', y.
  split; [exact B|]. split; [exact Y|]. rewrite <- VA, K. reflexivity.
Qed.

(** ** Construction options *)
Lemma tyEq_ten : forall k d o, tyEq (Ten k (Dt d)) (typeOfObj (V:=V) o) = true <-> oscalar o = false /\ k = Z.of_nat (length (oshape o)) /\ d = odt o.
Proof.
  intros k d o. unfold typeOfObj. destruct (oscalar o); cbn [tyEq].
  - split; [discriminate|intros [H _]; discriminate].
  - rewrite andb_true_iff, Z.eqb_eq, dtype_eq_spec. split; [intros [A B]; repeat split; assumption|intros (_ & A & B); split; assumption].
Qed.

Lemma obAt_put : forall w o p x y, obAt w o = Some y -> obAt (setObj w p (Live x)) o = Some (if Nat.eqb p o then x else y).
Proof.
  intros w o p x y H. unfold obAt in *. cbn [setObj objs]. destruct (nth_error (objs w) o) as [[z|]|] eqn:E; try discriminate. injection H as ->.
  rewrite (put_at _ _ _ _ _ _ E). destruct (Nat.eqb p o); reflexivity.
Qed.
Lemma sound_setType : forall w n x t, sound w -> nth_error (bnodes w) n = Some x ->
  sound (setNode w n (mkBnode (bkind x) (bstmt x) t (bshp x) (bto x))).
Proof.
  intros w n x t SO E m y d M B. cbn [setNode bnodes duals] in *. destruct (Nat.eq_dec n m) as [<-|N].
  - rewrite put_same in M by (apply (some_lt _ _ _ _ E)). injection M as <-. cbn in B. apply (SO n x d E B).
  - rewrite put_other in M by exact N. apply (SO m y d M B).
Qed.

(** WithValue on a node of tensor type looks at the number of axes and the dtype only: the
    sizes may be any. Otherwise it panics. *)
Theorem C89_with_value : forall w n x o v k d s, sound w -> nth_error (bnodes w) n = Some x -> isConstant x = false -> obAt w o = Some v ->
  bty x = Some (Ten k (Dt d)) -> bshp x = Some s ->
  (oscalar v = false /\ k = Z.of_nat (length (oshape v)) /\ d = odt v ->
     exists w' y, withValue w n o = Ok w' /\ nth_error (bnodes w') n = Some y /\ valueOf w' y = Some o /\ bshp y = Some s /\ objs w' = objs w)
  /\ (~ (oscalar v = false /\ k = Z.of_nat (length (oshape v)) /\ d = odt v) -> withValue w n o = Panic).
Proof.
  intros w n x o v k d s SO E NC O T S. unfold withValue. rewrite E, O, T. split.
  - intro H. rewrite (proj2 (tyEq_ten k d v) H).
    set (w1 := setNode w n (mkBnode (bkind x) (bstmt x) (Some (Ten k (Dt d))) (bshp x) (bto x))).
    assert (SO1 : sound w1) by (apply sound_setType; assumption).
    assert (E1 : nth_error (bnodes w1) n = Some (mkBnode (bkind x) (bstmt x) (Some (Ten k (Dt d))) (bshp x) (bto x))) by (apply put_same; apply (some_lt _ _ _ _ E)).
    destruct (bind_plain V w1 n _ o SO1 E1) as (w' & y & B & Y & OB & _ & KY & SH & TY & VA & _ & _). cbn [bkind bshp] in *.
    rewrite B. rewrite Y. rewrite SH, S. exists w', y. split; [reflexivity|]. split; [exact Y|]. split; [|split; [rewrite SH; exact S|rewrite OB; reflexivity]].
    rewrite <- VA. unfold isConstant in NC. destruct (bkind x); try reflexivity; discriminate.
  - intro H. destruct (tyEq (Ten k (Dt d)) (typeOfObj v)) eqn:Q; [apply tyEq_ten in Q; contradiction|reflexivity].
Qed.

(** Two values of different sizes are accepted for the same node. *)
Theorem C89_with_value_refuted : forall w n x o v k d s, sound w -> nth_error (bnodes w) n = Some x -> isConstant x = false -> obAt w o = Some v ->
  bty x = Some (Ten k (Dt d)) -> bshp x = Some s ->
  oscalar v = false -> k = Z.of_nat (length (oshape v)) -> d = odt v -> ~ agree s (oshape v) ->
  (exists w' y, withValue w n o = Ok w' /\ nth_error (bnodes w') n = Some y /\ valueOf w' y = Some o /\ bshp y = Some s)
  /\ letN w n (AValue o) = Err.
Proof.
  intros w n x o v k d s SO E NC O T S H1 H2 H3 NA. split.
  - destruct (C89_with_value w n x o v k d s SO E NC O T S) as [H _]. destruct (H (conj H1 (conj H2 H3))) as (w' & y & A & B & C & D & _).
    exists w', y. repeat split; assumption.
  - apply (C89_let_refused w n x o v (Ten k (Dt d)) E O T); [congruence|exists d; repeat constructor|]. right. intros (s' & t' & S' & T' & A & _). congruence.
Qed.

(** WithValue of a tensor whose sizes are all one on a scalar node reshapes the caller's
    tensor. *)
Theorem C89_with_value_reshapes_refuted : forall w n x o v d s, sound w -> nth_error (bnodes w) n = Some x -> isConstant x = false -> obAt w o = Some v ->
  bty x = Some (Dt d) -> bshp x = Some s -> oscalar v = false -> Forall (fun k => k = 1%Z) (oshape v) -> odt v = d -> oshape v <> [] ->
  exists w' y, withValue w n o = Ok w' /\ nth_error (bnodes w') n = Some y /\ valueOf w' y = Some o
    /\ obAt w' o = Some (mkObj false [] d (odata v)).
Proof.
  intros w n x o v d s SO E NC O T S NS F D NE. unfold withValue. rewrite E, O, T.
  assert (Q : tyEq (Dt d) (typeOfObj v) = false) by (unfold typeOfObj; rewrite NS; reflexivity). rewrite Q, NS.
  assert (Q2 : scalarEquiv (oshape v) = true). { unfold scalarEquiv. apply forallb_forall. rewrite Forall_forall in F. intros k K. rewrite (F k K). reflexivity. }
  rewrite Q2. subst d. rewrite (proj2 (dtype_eq_spec _ _) eq_refl). cbn [negb andb].
  set (w0 := setObj w o (Live (mkObj false [] (odt v) (odata v)))).
  set (w1 := setNode w0 n (mkBnode (bkind x) (bstmt x) (Some (Dt (odt v))) (bshp x) (bto x))).
  assert (SO0 : sound w0) by exact SO. assert (E0 : nth_error (bnodes w0) n = Some x) by exact E.
  assert (SO1 : sound w1) by (apply sound_setType; assumption).
  assert (E1 : nth_error (bnodes w1) n = Some (mkBnode (bkind x) (bstmt x) (Some (Dt (odt v))) (bshp x) (bto x))) by (apply put_same; apply (some_lt _ _ _ _ E)).
  destruct (bind_plain V w1 n _ o SO1 E1) as (w' & y & B & Y & OB & _ & KY & SH & TY & VA & _ & _). cbn [bkind bshp] in *.
  rewrite B, Y, SH, S. exists w', y. split; [reflexivity|]. split; [exact Y|]. split.
  - rewrite <- VA. unfold isConstant in NC. destruct (bkind x); try reflexivity; discriminate.
  - unfold obAt. rewrite OB. pose proof (obAt_put w o o (mkObj false [] (odt v) (odata v)) v O) as H. rewrite Nat.eqb_refl in H. exact H.
Qed.

(** WithGrad stores the gradient beside the value if the number of axes and the dtype agree,
    whatever the sizes; without a value it panics. *)
Theorem C89_with_grad : forall w n x a o v g, nth_error (bnodes w) n = Some x -> isConstant x = false -> obAt w a = Some v -> obAt w o = Some g ->
  oscalar v = false -> oscalar g = false ->
  (bto x = Some (BV a) -> length (oshape v) = length (oshape g) -> odt v = odt g ->
     exists w' y, withGrad w n o = Ok w' /\ nth_error (bnodes w') n = Some y /\ valueOf w' y = Some a /\ gradOf w' y = Ok (Some o) /\ objs w' = objs w)
  /\ (bto x = Some (BV a) -> length (oshape v) <> length (oshape g) \/ odt v <> odt g -> withGrad w n o = Panic)
  /\ (bto x = None -> withGrad w n o = Panic).
Proof.
  intros w n x a o v g E NC A O NV NG. unfold withGrad. rewrite E, O. repeat split.
  - intros B L D. rewrite B, A. unfold typeOfObj. rewrite NV, NG. cbn [tyEq]. rewrite L, D, Z.eqb_refl, (proj2 (dtype_eq_spec _ _) eq_refl). cbn [andb].
    eexists. exists (withBound x (Some (BD (length (duals w))))). split; [reflexivity|]. cbn [setNode bnodes objs]. split; [apply put_same; apply (some_lt _ _ _ _ E)|].
    assert (Q : nth_error (duals w ++ [mkDual (Some a) (Some o)]) (length (duals w)) = Some (mkDual (Some a) (Some o))) by (rewrite nth_error_app2, Nat.sub_diag by lia; reflexivity).
    split; [|split; [|reflexivity]].
    + unfold valueOf. cbn [withBound bkind bto setNode duals]. rewrite Q. unfold isConstant in NC. destruct (bkind x); try reflexivity; discriminate.
    + unfold gradOf. cbn [withBound bto setNode duals]. rewrite Q. reflexivity.
  - intros B H. rewrite B, A. unfold typeOfObj. rewrite NV, NG. cbn [tyEq].
    destruct (Z.eqb_spec (Z.of_nat (length (oshape v))) (Z.of_nat (length (oshape g)))) as [Q|Q]; [|rewrite andb_false_r; reflexivity].
    destruct (dtype_eq (odt v) (odt g)) eqn:Q2; [|reflexivity]. apply dtype_eq_spec in Q2. apply Nat2Z.inj in Q. destruct H; contradiction.
  - intro B. rewrite B. reflexivity.
Qed.

(** ** Copying into a node *)
(** bindCopy into a node that has a value keeps that value's identity and shape and takes
    the entries over in order, even from a value of another shape of as many entries. *)
Theorem C89_bind_copy : forall w n x a o v g, nth_error (bnodes w) n = Some x -> bto x = Some (BV a) -> obAt w a = Some v -> obAt w o = Some g ->
  oscalar v = false -> oscalar g = false -> odt v = odt g -> length (odata v) = length (odata g) ->
  exists w', bindCopy w n o = Ok w' /\ bnodes w' = bnodes w /\ obAt w' a = Some (mkObj false (oshape v) (odt v) (odata g))
    /\ forall i y, i <> a -> obAt w i = Some y -> obAt w' i = Some y.
Proof.
  intros w n x a o v g E B A O NV NG D L. unfold bindCopy, copyInto. rewrite E, B, A, O, NV, NG, D, L, Nat.eqb_refl, (proj2 (dtype_eq_spec _ _) eq_refl). cbn [Bool.eqb andb].
  eexists. split; [reflexivity|]. split; [reflexivity|]. split.
  - rewrite (obAt_put w a a _ v A), Nat.eqb_refl. reflexivity.
  - intros i y N I. rewrite (obAt_put w i a _ y I). destruct (Nat.eqb_spec a i); [congruence|reflexivity].
Qed.
(** A clone of a node has a value of its own with the same contents. *)
Theorem C89_clone : forall w x o v, isConstant x = false -> bto x = Some (BV o) -> obAt w o = Some v ->
  exists w' y c, cloneNode w x = Ok (w', y) /\ valueOf w' y = Some c /\ obAt w' c = Some v /\ c <> o
    /\ (forall i z, obAt w i = Some z -> obAt w' i = Some z /\ i <> c) /\ bnodes w' = bnodes w.
Proof.
  intros w x o v NC B O. unfold cloneNode, cloneObj. rewrite B, O. unfold newObj. eexists. eexists. exists (length (objs w)). split; [reflexivity|].
  assert (LT : forall i z, obAt w i = Some z -> i < length (objs w)).
  { intros i z I. unfold obAt in I. destruct (nth_error (objs w) i) as [c|] eqn:Q; [|discriminate]. apply (some_lt _ _ _ _ Q). }
  split; [unfold valueOf; cbn; unfold isConstant in NC; destruct (bkind x); try reflexivity; discriminate|]. split; [|split; [|split; [|reflexivity]]].
  - unfold obAt. cbn [objs]. rewrite nth_error_app2, Nat.sub_diag by lia. reflexivity.
  - pose proof (LT o v O). lia.
  - intros i z I. split; [|pose proof (LT i z I); lia]. unfold obAt in *. cbn [objs]. rewrite nth_error_app1 by (apply (LT i z); exact I). exact I.
Qed.

(** ** Unbinding *)
(** UnbindAll takes the value off every node that is no constant, and exactly the tensors
    that were bound to a node, as value or derivative, are wiped and given to the pool;
    scalars and everything else stay. *)
Theorem C89_unbind_all : forall w, let w' := unbindAll w in
  (forall n x, nth_error (bnodes w) n = Some x -> isConstant x = false -> exists y, nth_error (bnodes w') n = Some y /\ valueOf w' y = None)
  /\ (forall i v, obAt w i = Some v ->
        ((exists n, holds w n i) /\ oscalar v = false -> obAt w' i = None)
        /\ (~ ((exists n, holds w n i) /\ oscalar v = false) -> obAt w' i = Some v)).
Proof.
  intro w. cbv zeta. rewrite all_is_step. split.
  - intros n x E NC. exists (withBound x None). split.
    + rewrite (fold_nodes V (fun _ => true) (fun _ _ => eq_refl) _ w n x E). cbn [andb].
      assert (Q : existsb (Nat.eqb n) (seq 0 (length (bnodes w))) = true).
      { apply existsb_exists. exists n. split; [apply in_seq; pose proof (some_lt _ _ _ _ E); lia|apply Nat.eqb_refl]. }
      rewrite Q. reflexivity.
    + unfold valueOf. cbn. unfold isConstant in NC. destruct (bkind x); try reflexivity; discriminate.
  - intros i v I. unfold obAt in I. destruct (nth_error (objs w) i) as [[z|]|] eqn:Q; try discriminate. injection I as ->.
    pose proof (fold_objs V (fun _ => true) (fun _ _ => eq_refl) (seq 0 (length (bnodes w))) w i _ Q) as F. unfold obAt. rewrite F. cbn [keepRecycled].
    set (b := existsb _ _). assert (HB : b = true <-> exists n, holds w n i).
    { unfold b. rewrite existsb_exists. split.
      - intros (n & _ & H). apply andb_true_iff in H. exists n. apply held_spec. apply H.
      - intros (n & H). pose proof H as (x & X & _). exists n. split; [apply in_seq; pose proof (some_lt _ _ _ _ X); lia|].
        unfold picked. rewrite X. cbn [andb]. apply held_spec, H. }
    clearbody b. destruct b; [|split].
    + split.
      * intros [_ OS]. rewrite OS. reflexivity.
      * intro N. destruct (oscalar v) eqn:OS; [reflexivity|]. exfalso. apply N. split; [apply HB; reflexivity|reflexivity].
    + intros [H _]. apply HB in H. discriminate.
    + reflexivity.
Qed.

(** So a tensor the caller bound with Let is wiped under their hands. *)
Theorem C89_unbind_wipes_refuted : forall w n x o v, sound w -> nth_error (bnodes w) n = Some x -> isInput x = true ->
  obAt w o = Some v -> takes x v -> oscalar v = false ->
  exists w', letN w n (AValue o) = Ok w' /\ obAt w' o = Some v /\ obAt (unbindAll w') o = None.
Proof.
  intros w n x o v SO E IN O T OS. destruct (C89_let w n x o v SO E IN O T) as (w' & y & L & Y & VA & OB & G & _). exists w'. split; [exact L|].
  assert (O' : obAt w' o = Some v) by (unfold obAt in *; rewrite OB; exact O). split; [exact O'|].
  apply (proj1 (proj2 (C89_unbind_all w') o v O')). split; [|exact OS]. exists n.
  exists y. split; [exact Y|]. unfold valueOf in VA. assert (K : bkind y = bkind x).
  { unfold letN, unsafeLet in L. rewrite E, IN, O in L. destruct T as (s & t & S & T & A & D). rewrite S, T in L.
    apply shapeEq_spec in A. rewrite A in L. cbn [negb] in L. apply dtOf_spec in D. rewrite D, (proj2 (dtype_eq_spec _ _) eq_refl) in L.
    destruct (bind_plain V w n x o SO E) as (w2 & y2 & B2 & Y2 & _ & _ & K2 & _). congruence. }
  rewrite K in VA. unfold isInput, isArg, isRandom in IN.
  destruct (bkind x); try discriminate;
  (destruct (bto y) as [[p|d]|] eqn:BY; [left; congruence| |discriminate]; right; destruct (nth_error (duals w') d) as [dv|] eqn:ED; [|discriminate]; exists d, dv; repeat split; [exact ED|left; exact VA]).
Qed.

(** The value of a tensor constant made with In(g), whose node is bound to the tensor its
    operator holds, is wiped too. *)
Theorem C89_unbind_constant_refuted : forall w n x c v, nth_error (bnodes w) n = Some x -> bkind x = KConst c -> bto x = Some (BV c) ->
  obAt w c = Some v -> oscalar v = false ->
  exists y, nth_error (bnodes (unbindAll w)) n = Some y /\ valueOf (unbindAll w) y = Some c /\ obAt (unbindAll w) c = None.
Proof.
  intros w n x c v E K B O OS. exists (withBound x None). split; [|split].
  - rewrite all_is_step. rewrite (fold_nodes V (fun _ => true) (fun _ _ => eq_refl) _ w n x E). cbn [andb].
    assert (Q : existsb (Nat.eqb n) (seq 0 (length (bnodes w))) = true).
    { apply existsb_exists. exists n. split; [apply in_seq; pose proof (some_lt _ _ _ _ E); lia|apply Nat.eqb_refl]. }
    rewrite Q. reflexivity.
  - unfold valueOf. cbn. rewrite K. reflexivity.
  - apply (proj1 (proj2 (C89_unbind_all w) c v O)). split; [|exact OS]. exists n, x. split; [exact E|left; exact B].
Qed.

(** UnbindAllNonInputs leaves the values of inputs bound; such an object is intact unless
    some other node, neither input nor constant, is bound to it as well, in which case it is
    wiped although the input still has it. *)
Theorem C89_unbind_non_inputs : forall w, let w' := unbindNonInputs w in
  (forall n x, nth_error (bnodes w) n = Some x -> isInput x = true -> nth_error (bnodes w') n = Some x)
  /\ (forall n x, nth_error (bnodes w) n = Some x -> isInput x = false -> isConstant x = false -> exists y, nth_error (bnodes w') n = Some y /\ valueOf w' y = None)
  /\ (forall i v, obAt w i = Some v -> (forall n x, nth_error (bnodes w) n = Some x -> holds w n i -> isInput x = true \/ isConstant x = true) -> obAt w' i = Some v)
  /\ (forall i v m y, obAt w i = Some v -> oscalar v = false -> nth_error (bnodes w) m = Some y -> isInput y = false -> isConstant y = false -> holds w m i -> obAt w' i = None).
Proof.
  intro w. cbv zeta. rewrite non_is_step.
  assert (WB : forall (x : bnode) b, negb (isInput (withBound x b) || isConstant (withBound x b)) = negb (isInput x || isConstant x)) by reflexivity.
  assert (IN : forall n x, nth_error (bnodes w) n = Some x -> existsb (Nat.eqb n) (seq 0 (length (bnodes w))) = true).
  { intros n x E. apply existsb_exists. exists n. split; [apply in_seq; pose proof (some_lt _ _ _ _ E); lia|apply Nat.eqb_refl]. }
  split; [|split; [|split]].
  - intros n x E I. rewrite (fold_nodes V _ WB _ w n x E), I. reflexivity.
  - intros n x E I C. rewrite (fold_nodes V _ WB _ w n x E), I, C, (IN n x E). cbn [orb negb andb].
    exists (withBound x None). split; [reflexivity|]. unfold valueOf. cbn. unfold isConstant in C. destruct (bkind x); try reflexivity; discriminate.
  - intros i v I H. unfold obAt in I. destruct (nth_error (objs w) i) as [[z|]|] eqn:Q; try discriminate. injection I as ->.
    unfold obAt. rewrite (fold_objs V _ WB (seq 0 (length (bnodes w))) w i _ Q).
    destruct (existsb _ _) eqn:EX; [|reflexivity]. exfalso. apply existsb_exists in EX. destruct EX as (n & _ & K). apply andb_true_iff in K. destruct K as [P HB].
    apply held_spec in HB. unfold picked in P. destruct (nth_error (bnodes w) n) as [x|] eqn:E; [|discriminate].
    destruct (H n x E HB) as [A|A]; rewrite A in P; try rewrite orb_true_r in P; discriminate.
  - intros i v m y I OS E NI NC HB. unfold obAt in I. destruct (nth_error (objs w) i) as [[z|]|] eqn:Q; try discriminate. injection I as ->.
    unfold obAt. rewrite (fold_objs V _ WB (seq 0 (length (bnodes w))) w i _ Q).
    assert (EX : existsb (fun n => picked V (fun x => negb (isInput x || isConstant x)) w n && heldBy V w n i) (seq 0 (length (bnodes w))) = true).
    { apply existsb_exists. exists m. split; [apply in_seq; pose proof (some_lt _ _ _ _ E); lia|]. unfold picked. rewrite E, NI, NC. cbn [orb negb andb]. apply held_spec, HB. }
    rewrite EX. cbn [keepRecycled]. rewrite OS. reflexivity.
Qed.

(** ** A tensor bound to two nodes *)
Lemma return_pool : forall w p, exists e, pool (returnValue w p) = pool w ++ e.
Proof.
  intros w [j|]; [|exists []; rewrite app_nil_r; reflexivity]. cbn [returnValue]. destruct (nth_error (objs w) j) as [[x|]|]; [destruct (oscalar x)|..];
    try (exists [j]; reflexivity); exists []; rewrite app_nil_r; reflexivity.
Qed.
Lemma unbind_pool : forall w n, exists e, pool (unbindN w n) = pool w ++ e.
Proof.
  intros w n. unfold unbindN. destruct (nth_error (bnodes w) n) as [x|]; [|exists []; rewrite app_nil_r; reflexivity].
  destruct (bto x) as [[o|d]|]; [apply (return_pool w (Some o))| |exists []; rewrite app_nil_r; reflexivity].
  destruct (nth_error (duals w) d) as [dv|]; [|exists []; rewrite app_nil_r; reflexivity].
  cbn [setNode setDual pool]. destruct (return_pool w (dder dv)) as (e1 & E1). destruct (return_pool (returnValue w (dder dv)) (dval dv)) as (e2 & E2).
  exists (e1 ++ e2). rewrite E2, E1, app_assoc. reflexivity.
Qed.
Lemma fold_pool : forall l w, exists e, pool (fold_left unbindN l w) = pool w ++ e.
Proof.
  induction l as [|n l IH]; intro w; [exists []; rewrite app_nil_r; reflexivity|]. cbn [fold_left]. destruct (IH (unbindN w n)) as (e & E).
  destruct (unbind_pool w n) as (e1 & E1). exists (e1 ++ e). rewrite E, E1, app_assoc. reflexivity.
Qed.
Lemma unbind_pool_one : forall w n x o, nth_error (bnodes w) n = Some x -> bto x = Some (BV o) -> isTensor V w o -> pool (unbindN w n) = pool w ++ [o].
Proof.
  intros w n x o E B (c & C & T). unfold unbindN. rewrite E, B. cbn [setNode pool returnValue]. rewrite C. destruct c as [v|]; [rewrite T|]; reflexivity.
Qed.
Lemma tensor_stays : forall w n o, isTensor V w o -> isTensor V (unbindN w n) o.
Proof.
  intros w n o (c & C & T). unfold isTensor. rewrite (unbind_objs V w n o c C). eexists. split; [reflexivity|].
  destruct (heldBy V w n o); [|exact T]. destruct c as [v|]; [rewrite T; exact I|exact I].
Qed.
Lemma tensor_fold : forall l w o, isTensor V w o -> isTensor V (fold_left unbindN l w) o.
Proof. induction l as [|n l IH]; intros w o T; [exact T|]. cbn [fold_left]. apply IH, tensor_stays, T. Qed.
Lemma node_fold : forall l w n x, ~ In n l -> nth_error (bnodes w) n = Some x -> nth_error (bnodes (fold_left unbindN l w)) n = Some x.
Proof.
  induction l as [|m l IH]; intros w n x N E; [exact E|]. cbn [fold_left]. apply IH; [intro H; apply N; right; exact H|].
  rewrite unbind_others; [exact E|]. intro H. apply N. left. congruence.
Qed.
Lemma alloc_pool : forall xs w, length xs <= length (pool w) -> snd (allocMany w xs) = firstn (length xs) (pool w).
Proof.
  induction xs as [|x xs IH]; intros w L; [reflexivity|]. cbn [allocMany]. unfold allocTensor. destruct (pool w) as [|i p] eqn:P; [cbn in L; lia|].
  specialize (IH (mkWorld (put (objs w) i (Live x)) p (duals w) (bnodes w))). cbn [pool] in IH. cbn [length] in *.
  destruct (allocMany _ xs) as [w2 is]. cbn [snd firstn] in *. f_equal. apply IH. lia.
Qed.

(** A tensor bound to two nodes goes to the pool twice, so that two tensors allocated later
    are one and the same object. *)
Theorem C89_double_return_refuted : forall w m n x y o v xs, m < n -> nth_error (bnodes w) m = Some x -> nth_error (bnodes w) n = Some y ->
  bto x = Some (BV o) -> bto y = Some (BV o) -> obAt w o = Some v -> oscalar v = false ->
  length xs = length (pool (unbindAll w)) ->
  exists i j, i < j /\ nth_error (snd (allocMany (unbindAll w) xs)) i = Some o /\ nth_error (snd (allocMany (unbindAll w) xs)) j = Some o.
Proof.
  intros w m n x y o v xs LT EM EN BX BY O OS LX. rewrite alloc_pool by lia. rewrite LX, firstn_all. clear xs LX.
  assert (T : isTensor V w o).
  { unfold obAt in O. destruct (nth_error (objs w) o) as [[z|]|] eqn:Q; try discriminate. injection O as ->. exists (Live v). split; [exact Q|exact OS]. }
  unfold unbindAll. pose proof (some_lt _ _ _ _ EN) as LN.
  assert (SP : seq 0 (length (bnodes w)) = seq 0 m ++ m :: seq (S m) (n - S m) ++ n :: seq (S n) (length (bnodes w) - S n)).
  { replace (length (bnodes w)) with (m + S ((n - S m) + S (length (bnodes w) - S n))) at 1 by lia. rewrite seq_app. cbn [seq Nat.add]. f_equal. f_equal.
    rewrite seq_app. f_equal. cbn [seq]. replace (S m + (n - S m)) with n by lia. reflexivity. }
  rewrite SP, fold_left_app. cbn [fold_left]. rewrite fold_left_app. cbn [fold_left].
  set (w1 := fold_left unbindN (seq 0 m) w).
  assert (E1 : nth_error (bnodes w1) m = Some x) by (apply node_fold; [rewrite in_seq; lia|exact EM]).
  assert (T1 : isTensor V w1 o) by (apply tensor_fold, T).
  pose proof (unbind_pool_one w1 m x o E1 BX T1) as P1. set (w2 := unbindN w1 m) in *.
  assert (E2 : nth_error (bnodes w2) n = Some y). { unfold w2. rewrite unbind_others by lia. apply node_fold; [rewrite in_seq; lia|exact EN]. }
  assert (T2 : isTensor V w2 o) by (apply tensor_stays, T1).
  set (w3 := fold_left unbindN (seq (S m) (n - S m)) w2).
  assert (E3 : nth_error (bnodes w3) n = Some y) by (apply node_fold; [rewrite in_seq; lia|exact E2]).
  assert (T3 : isTensor V w3 o) by (apply tensor_fold, T2).
  destruct (fold_pool (seq (S m) (n - S m)) w2) as (e & P3). fold w3 in P3.
  pose proof (unbind_pool_one w3 n y o E3 BY T3) as P4. set (w4 := unbindN w3 n) in *.
  destruct (fold_pool (seq (S n) (length (bnodes w) - S n)) w4) as (e' & P5). rewrite P5, P4, P3, P1.
  exists (length (pool w1)), (length ((pool w1 ++ [o]) ++ e)). split; [rewrite !app_length; cbn; lia|]. split.
  - rewrite <- !app_assoc. rewrite nth_error_app2, Nat.sub_diag by lia. reflexivity.
  - rewrite <- (app_assoc ((pool w1 ++ [o]) ++ e)). rewrite nth_error_app2, Nat.sub_diag by lia. reflexivity.
Qed.
End C89.
Print Assumptions C89_let.
Print Assumptions C89_let_refused.
Print Assumptions C89_let_number_refuted.
Print Assumptions C89_let_node_refuted.
Print Assumptions C89_unsafe_let_constant_refuted.
Print Assumptions C89_with_value.
Print Assumptions C89_with_value_refuted.
Print Assumptions C89_with_value_reshapes_refuted.
Print Assumptions C89_with_grad.
Print Assumptions C89_bind_copy.
Print Assumptions C89_clone.
Print Assumptions C89_unbind_all.
Print Assumptions C89_unbind_wipes_refuted.
Print Assumptions C89_unbind_constant_refuted.
Print Assumptions C89_unbind_non_inputs.
Print Assumptions C89_double_return_refuted.

(** Cases. A graph with two input matrices [2;2], one vector of four, a constant and a node
    computed from the first. *)
Definition exObj (s : list Z) (l : list nat) : cell nat := Live (mkObj false s F64 l).
Definition exIn (k : Z) (s : list Z) (b : option bound) : bnode := mkBnode KArg false (Some (Ten k (Dt F64))) (Some s) b.
Definition exW : world nat := mkWorld
  [exObj [2; 2]%Z [1; 2; 3; 4]; exObj [4; 1]%Z [5; 6; 7; 8]; exObj [1; 4]%Z [0; 0; 0; 1]; exObj [1; 1]%Z [9]] []
  [mkDual (Some 2) (Some 2)]
  [exIn 2 [2; 2]%Z None; exIn 1 [4]%Z (Some (BD 0)); mkBnode (KConst 3) false (Some (Ten 2 (Dt F64))) (Some [1; 1]%Z) (Some (BV 3));
   mkBnode KOther false (Some (Ten 2 (Dt F64))) (Some [2; 2]%Z) (Some (BV 0)); mkBnode KArg false (Some (Dt F64)) (Some []) None].
Example C89_ex_sound : sound exW.
Proof. intros [|[|[|[|[|n]]]]] x d E B; cbn in E; try (injection E as <-; cbn in B; congruence || (injection B as <-; cbn; lia)). destruct n; discriminate. Qed.
Example C89_ex_takes : takes (exIn 1 [4]%Z (Some (BD 0))) (mkObj false [4; 1]%Z F64 [5; 6; 7; 8]).
Proof. exists [4%Z], (Ten 1 (Dt F64)). repeat split; [|repeat constructor]. right. exists 4%Z. split; [lia|]. left. split; [reflexivity|left; reflexivity]. Qed.
Example C89_ex_let : exists w', letN exW 1 (AValue 1) = Ok w' /\ option_map (valueOf w') (nth_error (bnodes w') 1) = Some (Some 1).
Proof. eexists. split; vm_compute; reflexivity. Qed.
Example C89_ex_refused : letN exW 0 (AValue 1) = Err /\ letN exW 3 (AValue 0) = Err.
Proof. split; vm_compute; reflexivity. Qed.
Example C89_ex_number : exists w', letN exW 0 (AGo Int 7) = Ok w' /\ option_map (valueOf w') (nth_error (bnodes w') 0) = Some (Some 4).
Proof. eexists. split; vm_compute; reflexivity. Qed.
Example C89_ex_with_value : exists w', withValue exW 0 1 = Ok w' /\ option_map (valueOf w') (nth_error (bnodes w') 0) = Some (Some 1).
Proof. eexists. split; vm_compute; reflexivity. Qed.
Example C89_ex_reshapes : exists w', withValue exW 4 3 = Ok w' /\ obAt w' 3 = Some (mkObj false [] F64 [9]).
Proof. eexists. split; vm_compute; reflexivity. Qed.
Example C89_ex_unbind : objs (unbindAll exW) = [Recycled; exObj [4; 1]%Z [5; 6; 7; 8]; Recycled; Recycled] /\ pool (unbindAll exW) = [2; 2; 3; 0].
Proof. split; vm_compute; reflexivity. Qed.
Example C89_ex_shared : exists w', letN exW 0 (AValue 0) = Ok w' /\ obAt (unbindNonInputs w') 0 = None
  /\ option_map (valueOf (unbindNonInputs w')) (nth_error (bnodes (unbindNonInputs w')) 0) = Some (Some 0).
Proof. eexists. split; [vm_compute; reflexivity|]. split; vm_compute; reflexivity. Qed.

(** What counts as an input in the theorems above. *)
Theorem C89_inputs : forall x, isInput x = true <-> inputNode x.
Proof.
  intro x. unfold isInput, inputNode, isArg, isRandom. destruct (bkind x), (bstmt x); cbn; split; try discriminate; try reflexivity;
    try (intros _; split; [|reflexivity]; first [left; reflexivity|right; reflexivity]); intros [[E|E] F]; discriminate.
Qed.
Print Assumptions C89_inputs.
Example C89_inputs_case : isInput (mkBnode KRandom false None None None) = true /\ isInput (mkBnode KArg true None None None) = false.
Proof. split; reflexivity. Qed.

(** And what counts as a constant. *)
Theorem C89_constants : forall x, isConstant x = true <-> exists o, bkind x = KConst o.
Proof.
  intro x. unfold isConstant. destruct (bkind x); split; try discriminate; try (intros [o E]; discriminate E); eauto.
Qed.
Print Assumptions C89_constants.
Example C89_constants_case : isConstant (mkBnode (KConst 3) false None None None) = true /\ isConstant (mkBnode KRandom false None None None) = false.
Proof. split; reflexivity. Qed.

(** WithValue on a scalar node takes a scalar of its dtype and, as above, a tensor of its
    dtype whose sizes are all one; it panics on every other value. *)
Theorem C89_with_value_scalar : forall V (w : world V) n x o v d s, sound w -> nth_error (bnodes w) n = Some x -> (forall c, bkind x <> KConst c) ->
  obAt w o = Some v -> bty x = Some (Dt d) -> bshp x = Some s ->
  (oscalar v = true -> odt v = d ->
     exists w' y, withValue w n o = Ok w' /\ nth_error (bnodes w') n = Some y /\ valueOf w' y = Some o /\ objs w' = objs w) /\
  (odt v <> d \/ (oscalar v = false /\ ~ Forall (fun k => k = 1%Z) (oshape v)) -> withValue w n o = Panic).
Proof.
  intros V w n x o v d s SO E NC O T S. unfold withValue. rewrite E, O, T. split.
  - intros SC D. assert (Q : tyEq (Dt d) (typeOfObj v) = true) by (unfold typeOfObj; rewrite SC; cbn; apply dtype_eq_spec; congruence).
    rewrite Q. set (w1 := setNode w n (mkBnode (bkind x) (bstmt x) (Some (Dt d)) (bshp x) (bto x))).
    assert (SO1 : sound w1) by (apply sound_setType; assumption).
    assert (E1 : nth_error (bnodes w1) n = Some (mkBnode (bkind x) (bstmt x) (Some (Dt d)) (bshp x) (bto x))) by (apply put_same; apply (some_lt _ _ _ _ E)).
    destruct (bind_plain V w1 n _ o SO1 E1) as (w' & y & B & Y & OB & _ & KY & SH & TY & VA & _ & _). cbn [bkind bshp] in *.
    rewrite B, Y, SH, S. exists w', y. split; [reflexivity|]. split; [exact Y|]. split; [|rewrite OB; reflexivity].
    rewrite <- VA. destruct (bkind x) as [| |c| |]; try reflexivity; contradiction (NC c eq_refl).
  - intro H. assert (Q : tyEq (Dt d) (typeOfObj v) = false).
    { unfold typeOfObj. destruct (oscalar v) eqn:SC; [|reflexivity]. cbn. destruct (dtype_eq d (odt v)) eqn:X; [|reflexivity].
      apply dtype_eq_spec in X. destruct H as [H|[H _]]; [congruence|discriminate H]. }
    rewrite Q. destruct (oscalar v) eqn:SC; [reflexivity|]. cbn [negb andb].
    destruct (scalarEquiv (oshape v)) eqn:X1; [|reflexivity]. destruct (dtype_eq (odt v) d) eqn:X2; [|reflexivity].
    apply dtype_eq_spec in X2. destruct H as [H|[_ H]]; [contradiction|]. exfalso. apply H. apply Forall_forall.
    intros k K. unfold scalarEquiv in X1. rewrite forallb_forall in X1. specialize (X1 k K). apply Z.eqb_eq in X1. congruence.
Qed.
Print Assumptions C89_with_value_scalar.
Example C89_with_value_scalar_case : exists x v, nth_error (bnodes exW) 4 = Some x /\ bty x = Some (Dt F64) /\ obAt exW 1 = Some v /\
  oscalar v = false /\ oshape v = [4; 1]%Z /\ withValue exW 4 1 = Panic.
Proof. do 2 eexists. repeat split; vm_compute; reflexivity. Qed.
