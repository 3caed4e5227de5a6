(** Lemmas about binding and unbinding. *)
From Coq Require Import List ZArith Bool Lia.
From Verif Require Import BroadcastModel ShapeGradModel TypeModel BindModel BindSpec.
Import ListNotations.

Lemma put_length : forall A (l : list A) i x, length (put l i x) = length l.
Proof. induction l as [|y l IH]; intros [|i] x; cbn; [reflexivity..|]. rewrite IH. reflexivity. Qed.
Lemma put_same : forall A (l : list A) i x, i < length l -> nth_error (put l i x) i = Some x.
Proof. induction l as [|y l IH]; intros [|i] x H; cbn in *; [lia..|reflexivity|]. apply IH. lia. Qed.
Lemma put_other : forall A (l : list A) i j x, i <> j -> nth_error (put l i x) j = nth_error l j.
Proof. induction l as [|y l IH]; intros [|i] [|j] x H; cbn; try reflexivity; try lia. apply IH. lia. Qed.
Lemma put_at : forall A (l : list A) i j x y, nth_error l j = Some y -> nth_error (put l i x) j = Some (if Nat.eqb i j then x else y).
Proof.
  intros A l i j x y H. destruct (Nat.eqb_spec i j) as [->|N].
  - apply put_same. apply nth_error_Some. congruence.
  - rewrite put_other by exact N. exact H.
Qed.
Lemma some_lt : forall A (l : list A) i x, nth_error l i = Some x -> i < length l.
Proof. intros A l i x H. apply nth_error_Some. congruence. Qed.

Lemma eqShape_spec : forall s t, eqShape s t = true <-> s = t.
Proof. intros s t. unfold eqShape. destruct (list_eq_dec Z.eq_dec s t); split; intro H; try assumption; try reflexivity; [discriminate|contradiction]. Qed.
Lemma shapeEq_spec : forall s t, shapeEq s t = true <-> agree s t.
Proof.
  assert (V : forall x y z : Z, (((y =? 1) && (1 <? x) && (x =? z)) || ((x =? 1) && (1 <? y) && (y =? z)))%Z = true
    <-> (1 < z)%Z /\ ([x; y] = [z; 1%Z] \/ [x; y] = [1%Z; z])).
  { intros x y z. rewrite orb_true_iff, !andb_true_iff, !Z.eqb_eq, !Z.ltb_lt. split.
    - intros [[[-> H] ->]|[[-> H] ->]]; (split; [exact H|]); [left|right]; reflexivity.
    - intros [H [E|E]]; injection E as -> ->; [left|right]; repeat split; exact H. }
  assert (D : forall a b c : Z, [a; b] <> [c] /\ [c] <> [a; b]) by (intros; split; discriminate).
  intros s t. unfold agree.
  destruct s as [|x [|y [|z s]]]; destruct t as [|x' [|y' [|z' t]]]; cbn [shapeEq];
    try (rewrite eqShape_spec; split; [intro H; left; exact H|intros [H|(k & _ & [[H1 [H2|H2]]|[H1 [H2|H2]]])]; [exact H|..]; try discriminate; congruence]).
  - rewrite V. split.
    + intros [H E]. right. exists x. split; [exact H|]. left. split; [reflexivity|exact E].
    + intros [H|(k & K & [[H1 H2]|[H1 _]])]; try discriminate. injection H1 as ->. split; [exact K|exact H2].
  - rewrite V. split.
    + intros [H E]. right. exists x'. split; [exact H|]. right. split; [reflexivity|exact E].
    + intros [H|(k & K & [[H1 _]|[H1 H2]])]; try discriminate. injection H1 as ->. split; [exact K|exact H2].
Qed.
Lemma dtype_eq_spec : forall a b, dtype_eq a b = true <-> a = b.
Proof.
  intros a b; destruct a, b; cbn; split; intro H; try reflexivity; try discriminate.
  - apply Nat.eqb_eq in H. congruence.
  - injection H as ->. apply Nat.eqb_refl.
Qed.
Lemma dtOf_spec : forall t d, dtOf t = Some d <-> hasDt d t.
Proof.
  induction t as [v|e|k t IH]; intro d; cbn; split; intro H; try discriminate.
  - inversion H.
  - injection H as ->. constructor.
  - inversion H. reflexivity.
  - constructor. apply IH. exact H.
  - inversion H; subst. apply IH. assumption.
Qed.

Section V.
Variable V : Type.
Implicit Types w : world V.

(** Binding a plain value to a node. *)
Lemma bind_plain : forall w n x o, sound w -> nth_error (bnodes w) n = Some x ->
  exists w' y, bindN w n (BV o) = Ok w' /\ nth_error (bnodes w') n = Some y /\ objs w' = objs w /\ pool w' = pool w
    /\ bkind y = bkind x /\ bshp y = bshp x /\ bty y = bty x
    /\ (match bkind x with KConst c => Some c | _ => Some o end = valueOf w' y)
    /\ gradOf w' y = gradOf w x /\ onlyNode w w' n.
Proof.
  intros w n x o SO E. unfold bindN. rewrite E. pose proof (some_lt _ _ _ _ E) as L. destruct (bto x) as [[v|d]|] eqn:B.
  - eexists. exists (withBound x (Some (BV o))). split; [reflexivity|]. cbn [setNode bnodes objs pool].
    rewrite put_same by exact L. do 6 (split; [reflexivity|]). split; [unfold valueOf; cbn; destruct (bkind x); reflexivity|].
    split; [unfold gradOf; cbn; rewrite B; reflexivity|]. split; [apply put_length|]. intros m N. apply put_other. congruence.
  - pose proof (SO n x d E B) as LD. destruct (nth_error (duals w) d) as [dv|] eqn:ED; [|apply nth_error_None in ED; lia].
    eexists. exists x. split; [reflexivity|]. cbn [setDual bnodes objs pool]. split; [exact E|]. do 5 (split; [reflexivity|]).
    split; [unfold valueOf; cbn; rewrite B, put_same by exact LD; destruct (bkind x); reflexivity|].
    split; [unfold gradOf; rewrite B; cbn; rewrite put_same by exact LD; rewrite ED; reflexivity|]. split; [reflexivity|]. reflexivity.
  - eexists. exists (withBound x (Some (BV o))). split; [reflexivity|]. cbn [setNode bnodes objs pool].
    rewrite put_same by exact L. do 6 (split; [reflexivity|]). split; [unfold valueOf; cbn; destruct (bkind x); reflexivity|].
    split; [unfold gradOf; cbn; rewrite B; reflexivity|]. split; [apply put_length|]. intros m N. apply put_other. congruence.
Qed.

(** ** One unbind *)
Definition isTensor w o : Prop := exists c, nth_error (objs w) o = Some c /\ match c with Live x => oscalar x = false | Recycled => True end.

Lemma return_objs : forall w p i c, nth_error (objs w) i = Some c ->
  nth_error (objs (returnValue w p)) i = Some (match p with Some j => if Nat.eqb j i then match c with Live x => if oscalar x then c else Recycled | Recycled => Recycled end else c | None => c end).
Proof.
  intros w [j|] i c H; [|exact H]. cbn [returnValue]. destruct (Nat.eqb_spec j i) as [->|N].
  - rewrite H. destruct c as [x|]; [destruct (oscalar x); [exact H|cbn; apply put_same; apply (some_lt _ _ _ _ H)]|exact H].
  - destruct (nth_error (objs w) j) as [[x|]|]; [|exact H|exact H]. destruct (oscalar x); [exact H|]. cbn. rewrite put_other by exact N. exact H.
Qed.
Lemma return_rest : forall w p, duals (returnValue w p) = duals w /\ bnodes (returnValue w p) = bnodes w.
Proof.
  intros w [j|]; [|split; reflexivity]. cbn [returnValue]. destruct (nth_error (objs w) j) as [[x|]|]; [destruct (oscalar x)|..]; split; reflexivity.
Qed.
(** Whether node [n] holds [i], computed. *)
Definition heldBy w (n i : nat) : bool :=
  match nth_error (bnodes w) n with
  | Some x => match bto x with
              | Some (BV o) => Nat.eqb o i
              | Some (BD d) => match nth_error (duals w) d with
                               | Some dv => (match dval dv with Some o => Nat.eqb o i | None => false end) || (match dder dv with Some o => Nat.eqb o i | None => false end)
                               | None => false end
              | None => false end
  | None => false
  end.
Lemma held_spec : forall w n i, heldBy w n i = true <-> holds w n i.
Proof.
  intros w n i. unfold heldBy, holds. destruct (nth_error (bnodes w) n) as [x|] eqn:E; [|split; [discriminate|intros (x & X & _); discriminate]].
  destruct (bto x) as [[o|d]|] eqn:B.
  - rewrite Nat.eqb_eq. split; [intros ->; exists x; split; [reflexivity|left; exact B]|].
    intros (y & Y & H). injection Y as <-. destruct H as [H|(d & dv & H & _)]; congruence.
  - destruct (nth_error (duals w) d) as [dv|] eqn:ED.
    + rewrite orb_true_iff. split.
      * intro H. exists x. split; [reflexivity|]. right. exists d, dv. split; [exact B|]. split; [exact ED|].
        destruct H as [H|H]; [left; destruct (dval dv)|right; destruct (dder dv)]; try discriminate; apply Nat.eqb_eq in H; congruence.
      * intros (y & Y & H). injection Y as <-. destruct H as [H|(d' & dv' & H & K & Q)]; [congruence|]. rewrite B in H. injection H as <-. rewrite ED in K. injection K as <-.
        destruct Q as [Q|Q]; rewrite Q; [left|right]; apply Nat.eqb_refl.
    + split; [discriminate|]. intros (y & Y & H). injection Y as <-. destruct H as [H|(d' & dv' & H & K & Q)]; congruence.
  - split; [discriminate|]. intros (y & Y & H). injection Y as <-. destruct H as [H|(d' & dv' & H & K & Q)]; congruence.
Qed.

Lemma unbind_objs : forall w n i c, nth_error (objs w) i = Some c ->
  nth_error (objs (unbindN w n)) i = Some (if heldBy w n i then match c with Live x => if oscalar x then c else Recycled | Recycled => Recycled end else c).
Proof.
  intros w n i c H. unfold unbindN, heldBy. destruct (nth_error (bnodes w) n) as [x|]; [|exact H].
  destruct (bto x) as [[o|d]|]; [|destruct (nth_error (duals w) d) as [dv|]|exact H]; cbn [setNode setDual objs].
  - rewrite (return_objs _ (Some o) i c H). reflexivity.
  - rewrite (return_objs _ (dval dv) i _ (return_objs w (dder dv) i c H)). f_equal.
    destruct (dval dv) as [a|], (dder dv) as [b|]; cbn [orb]; try (destruct (Nat.eqb a i)); try (destruct (Nat.eqb b i)); cbn [orb]; try reflexivity;
      (destruct c as [y|]; [destruct (oscalar y) eqn:OY; try rewrite OY; reflexivity|reflexivity]).
  - exact H.
Qed.
Lemma unbind_node : forall w n x, nth_error (bnodes w) n = Some x -> nth_error (bnodes (unbindN w n)) n = Some (withBound x None).
Proof.
  intros w n x E. unfold unbindN. rewrite E. pose proof (some_lt _ _ _ _ E) as L.
  destruct (bto x) as [[o|d]|] eqn:B; [|destruct (nth_error (duals w) d) as [dv|]|]; cbn [setNode setDual bnodes].
  - destruct (return_rest w (Some o)) as [_ ->]. apply put_same, L.
  - destruct (return_rest (returnValue w (dder dv)) (dval dv)) as [_ ->]. destruct (return_rest w (dder dv)) as [_ ->]. apply put_same, L.
  - apply put_same, L.
  - rewrite E. destruct x; cbn in *; subst; reflexivity.
Qed.
Lemma unbind_others : forall w n m, m <> n -> nth_error (bnodes (unbindN w n)) m = nth_error (bnodes w) m.
Proof.
  intros w n m N. unfold unbindN. destruct (nth_error (bnodes w) n) as [x|] eqn:E; [|reflexivity].
  destruct (bto x) as [[o|d]|] eqn:B; [|destruct (nth_error (duals w) d) as [dv|]|reflexivity]; cbn [setNode setDual bnodes].
  - destruct (return_rest w (Some o)) as [_ ->]. apply put_other. congruence.
  - destruct (return_rest (returnValue w (dder dv)) (dval dv)) as [_ ->]. destruct (return_rest w (dder dv)) as [_ ->]. apply put_other. congruence.
  - apply put_other. congruence.
Qed.
Lemma unbind_length : forall w n, length (bnodes (unbindN w n)) = length (bnodes w).
Proof.
  intros w n. unfold unbindN. destruct (nth_error (bnodes w) n) as [x|] eqn:E; [|reflexivity].
  destruct (bto x) as [[o|d]|] eqn:B; [|destruct (nth_error (duals w) d) as [dv|]|reflexivity]; cbn [setNode setDual bnodes]; rewrite put_length; [|..].
  - destruct (return_rest w (Some o)) as [_ ->]. reflexivity.
  - destruct (return_rest (returnValue w (dder dv)) (dval dv)) as [_ ->]. destruct (return_rest w (dder dv)) as [_ ->]. reflexivity.
  - reflexivity.
Qed.
Lemma unbind_duals : forall w n d, nth_error (duals (unbindN w n)) d = nth_error (duals w) d
  \/ (nth_error (duals (unbindN w n)) d = Some (mkDual None None) /\ exists x, nth_error (bnodes w) n = Some x /\ bto x = Some (BD d)).
Proof.
  intros w n d. unfold unbindN. destruct (nth_error (bnodes w) n) as [x|] eqn:E; [|left; reflexivity].
  destruct (bto x) as [[o|e]|] eqn:B; [|destruct (nth_error (duals w) e) as [dv|] eqn:ED|left; reflexivity]; cbn [setNode setDual duals].
  - left. destruct (return_rest w (Some o)) as [-> _]. reflexivity.
  - destruct (return_rest (returnValue w (dder dv)) (dval dv)) as [-> _]. destruct (return_rest w (dder dv)) as [-> _].
    destruct (Nat.eq_dec e d) as [->|N]; [right|left; apply put_other; exact N].
    split; [apply put_same; apply (some_lt _ _ _ _ ED)|]. exists x. split; [reflexivity|exact B].
  - left. reflexivity.
Qed.
(** Unbinding one node makes no node hold more. *)
Lemma held_shrinks : forall w n m i, heldBy (unbindN w n) m i = true -> heldBy w m i = true.
Proof.
  intros w n m i H. unfold heldBy in *. destruct (Nat.eq_dec m n) as [->|N].
  - destruct (nth_error (bnodes w) n) as [x|] eqn:E; [rewrite (unbind_node w n x E) in H; discriminate|].
    unfold unbindN in H. rewrite E in H. rewrite E in H. discriminate.
  - rewrite unbind_others in H by exact N. destruct (nth_error (bnodes w) m) as [x|]; [|discriminate].
    destruct (bto x) as [[o|d]|]; [exact H| |discriminate].
    destruct (unbind_duals w n d) as [U|[U _]]; rewrite U in H; [exact H|discriminate].
Qed.
(** What another node stops holding the unbound node held as well. *)
Lemma held_stays : forall w n m i, m <> n -> heldBy w m i = true -> heldBy (unbindN w n) m i = true \/ heldBy w n i = true.
Proof.
  intros w n m i N H. unfold heldBy in *. rewrite unbind_others by exact N.
  destruct (nth_error (bnodes w) m) as [x|]; [|discriminate].
  destruct (bto x) as [[o|d]|] eqn:B; [left; exact H| |discriminate].
  destruct (unbind_duals w n d) as [->|[U (y & Y & BY)]]; [left; exact H|right]. rewrite Y, BY. exact H.
Qed.

(** ** Many *)
Section Many.
Variable which : bnode -> bool.
Hypothesis which_bound : forall x b, which (withBound x b) = which x.
Definition step w n := match nth_error (bnodes w) n with Some x => if which x then unbindN w n else w | None => w end.

Definition keepRecycled (c : cell V) : cell V := match c with Live x => if oscalar x then c else Recycled | Recycled => Recycled end.
Definition picked w n : bool := match nth_error (bnodes w) n with Some x => which x | None => false end.
Lemma picked_step : forall w n m, picked (step w n) m = picked w m.
Proof.
  intros w n m. unfold picked, step. destruct (nth_error (bnodes w) n) as [x|] eqn:E; [|reflexivity]. destruct (which x) eqn:W; [|reflexivity].
  destruct (Nat.eq_dec m n) as [->|N]; [|rewrite unbind_others by exact N; reflexivity].
  rewrite (unbind_node w n x E), E. apply which_bound.
Qed.
Lemma step_objs : forall w n i c, nth_error (objs w) i = Some c ->
  nth_error (objs (step w n)) i = Some (if picked w n && heldBy w n i then keepRecycled c else c).
Proof.
  intros w n i c H. unfold step, picked. destruct (nth_error (bnodes w) n) as [x|]; [|exact H]. destruct (which x); [|exact H].
  cbn [andb]. apply unbind_objs, H.
Qed.
Lemma step_shrinks : forall w n m i, heldBy (step w n) m i = true -> heldBy w m i = true.
Proof. intros w n m i. unfold step. destruct (nth_error (bnodes w) n) as [x|]; [|auto]. destruct (which x); [apply held_shrinks|auto]. Qed.
Lemma step_stays : forall w n m i, m <> n -> heldBy w m i = true -> heldBy (step w n) m i = true \/ picked w n && heldBy w n i = true.
Proof.
  intros w n m i N H. unfold step, picked. destruct (nth_error (bnodes w) n) as [x|]; [|left; exact H]. destruct (which x); [|left; exact H].
  cbn [andb]. apply held_stays; assumption.
Qed.
Lemma step_length : forall w n, length (bnodes (step w n)) = length (bnodes w).
Proof. intros w n. unfold step. destruct (nth_error (bnodes w) n) as [x|]; [|reflexivity]. destruct (which x); [apply unbind_length|reflexivity]. Qed.

Lemma keep_idem : forall c, keepRecycled (keepRecycled c) = keepRecycled c.
Proof. intros [x|]; cbn; [|reflexivity]. destruct (oscalar x) eqn:O; cbn; [rewrite O|]; reflexivity. Qed.
Lemma fold_objs : forall l w i c, nth_error (objs w) i = Some c ->
  nth_error (objs (fold_left step l w)) i = Some (if existsb (fun n => picked w n && heldBy w n i) l then keepRecycled c else c).
Proof.
  induction l as [|n l IH]; intros w i c H; [exact H|]. cbn [fold_left existsb]. rewrite (IH (step w n) i _ (step_objs w n i c H)). f_equal.
  assert (X : forall m, picked (step w n) m && heldBy (step w n) m i = true -> picked w m && heldBy w m i = true).
  { intros m. rewrite !andb_true_iff. intros [P Q]. rewrite picked_step in P. split; [exact P|apply (step_shrinks w n m i Q)]. }
  destruct (picked w n && heldBy w n i) eqn:HN; cbn [orb].
  - destruct (existsb _ l); [apply keep_idem|reflexivity].
  - assert (Y : existsb (fun m => picked (step w n) m && heldBy (step w n) m i) l = existsb (fun m => picked w m && heldBy w m i) l).
    { apply eq_true_iff_eq. rewrite !existsb_exists. split; intros (m & M & K).
      - exists m. split; [exact M|apply X, K].
      - exists m. split; [exact M|]. apply andb_true_iff in K. destruct K as [P Q]. rewrite picked_step, P. cbn [andb].
        destruct (Nat.eq_dec m n) as [->|N]; [rewrite P, Q in HN; discriminate|].
        destruct (step_stays w n m i N Q) as [R|R]; [exact R|congruence]. }
    rewrite Y. reflexivity.
Qed.
Lemma fold_nodes : forall l w m x, nth_error (bnodes w) m = Some x ->
  nth_error (bnodes (fold_left step l w)) m = Some (if which x && existsb (Nat.eqb m) l then withBound x None else x).
Proof.
  induction l as [|n l IH]; intros w m x E; [rewrite andb_false_r; exact E|]. cbn [fold_left existsb].
  destruct (Nat.eqb_spec m n) as [->|N].
  - destruct (which x) eqn:W; cbn [andb orb].
    + rewrite (IH (step w n) n (withBound x None)).
      * rewrite which_bound, W. destruct (existsb _ l); reflexivity.
      * unfold step. rewrite E, W. apply unbind_node, E.
    + rewrite (IH (step w n) n x); [rewrite W; reflexivity|]. unfold step. rewrite E, W. exact E.
  - cbn [orb]. apply IH. unfold step. destruct (nth_error (bnodes w) n) as [y|]; [|exact E]. destruct (which y); [|exact E].
    rewrite unbind_others by exact N. exact E.
Qed.
End Many.

Lemma all_is_step : forall w, unbindAll w = fold_left (step (fun _ => true)) (seq 0 (length (bnodes w))) w.
Proof.
  intro w. unfold unbindAll. generalize (seq 0 (length (bnodes w))). intro l. revert w. induction l as [|n l IH]; intro w; [reflexivity|]. cbn [fold_left].
  rewrite IH. f_equal. unfold step. destruct (nth_error (bnodes w) n) eqn:E; [reflexivity|]. unfold unbindN. rewrite E. reflexivity.
Qed.
Lemma non_is_step : forall w, unbindNonInputs w = fold_left (step (fun x => negb (isInput x || isConstant x))) (seq 0 (length (bnodes w))) w.
Proof.
  intro w. unfold unbindNonInputs. generalize (seq 0 (length (bnodes w))). intro l. revert w. induction l as [|n l IH]; intro w; [reflexivity|]. cbn [fold_left].
  rewrite IH. f_equal. unfold step. destruct (nth_error (bnodes w) n) as [x|]; [|reflexivity]. destruct (isInput x || isConstant x); reflexivity.
Qed.
End V.
