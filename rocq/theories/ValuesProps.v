(** C91: copying, zeroing and comparing values, and the derivative a dual value starts with. *)
Require Import Coq.Lists.List Coq.Arith.Arith Coq.Bool.Bool Coq.ZArith.ZArith Coq.micromega.Lia.
Require Import Verif.BroadcastModel Verif.ShapeGradModel Verif.ValuesModel Verif.ValuesSpec Verif.ValuesProofs.
Import ListNotations.

Section Props.
Context {E : Type}.
Variable feq : E -> E -> bool.
Variable close : E -> E -> bool.
Variables zer one : E.
Implicit Type s : st E.

(** CloneValue of scalars, tensors and dual values (with or without a derivative): an equal
    value in new memory, and nothing that existed changes. *)
Theorem C91_clone : forall s v D, reads (cells s) v D -> valued v ->
  exists s' c, CloneValue s v = Ok (s', c) /\ reads (cells s') c D /\ apart c v
  /\ forall w W, reads (cells s) w W -> reads (cells s') w W /\ apart c w.
Proof.
  intros s v D R V. destruct (clone_ok v s D R V) as (s' & c & H & Rc & F & _).
  exists s', c. split; [exact H|]. split; [exact Rc|]. split; [exact (fresh_apart _ _ _ _ _ F R)|].
  intros w W Rw. split; [|exact (fresh_apart _ _ _ _ _ F Rw)].
  destruct F as ([ext ->] & _). apply reads_ext. exact Rw.
Qed.
(** Without a value there is no clone: nil itself, or a dual value whose value is nil. *)
Theorem C91_clone_refused : forall s v D, reads (cells s) v D -> ~ valued v -> CloneValue s v = Err.
Proof.
  intros s v. revert s. induction v as [|k a|k sh a n|id v IHv d IHd]; intros s D R N.
  - reflexivity.
  - destruct (N I).
  - destruct (N I).
  - inversion R as [| | |? ? ? V0 D0 R1 R2]; subst. cbn [CloneValue].
    assert (Dec : forall u, valued u \/ ~ valued u).
    { clear. induction u as [|? ?|? ? ? ?|? u1 H1 u2 H2]; cbn [valued]; [right; intro Q; exact Q|left; exact I|left; exact I|].
      destruct H1 as [H1|H1]; [|right; intros [Q _]; exact (H1 Q)].
      destruct H2 as [H2|H2]; [left; split; [exact H1|right; exact H2]|].
      assert (N : u2 = VNil \/ u2 <> VNil) by (destruct u2; [left; reflexivity|right; discriminate|right; discriminate|right; discriminate]).
      destruct N as [N|N]; [left; split; [exact H1|left; exact N]|right; intros [_ [Q|Q]]; [exact (N Q)|exact (H2 Q)]]. }
    destruct (Dec v) as [Yv|Nv].
    + destruct (clone_ok v s V0 R1 Yv) as (s1 & c & H & _ & ([ext X] & _) & _). rewrite H. cbn [bind fst snd].
      assert (Nd : d <> VNil /\ ~ valued d) by (split; intro Q; apply N; cbn; tauto).
      destruct Nd as [Nd1 Nd2].
      assert (isNil d = false) as -> by (destruct d; try reflexivity; contradiction Nd1; reflexivity).
      rewrite (IHd s1 D0); [reflexivity| |exact Nd2]. rewrite X. apply reads_ext. exact R2.
    + rewrite (IHv s V0 R1 Nv). reflexivity.
Qed.

(** ZeroValue of a scalar or tensor: it, and so every other value that shares its memory
    there, is zero from then on; values apart from it are unchanged. *)
Theorem C91_zero : forall s v D, plain v -> reads (cells s) v D ->
  exists s', ZeroValue zer s v = Ok (s', v) /\ reads (cells s') v (fillD zer D)
  /\ (forall x, owns v x -> nth_error (cells s') x = Some zer)
  /\ (forall w W, reads (cells s) w W -> apart v w -> reads (cells s') w W).
Proof.
  intros s v D P R. destruct (fill_ok zer s v D P R) as (m' & Hm & L & R' & O & F).
  exists (mkSt m' (duals s)). split.
  - destruct v; try destruct P; cbn [ZeroValue]; rewrite <- Hm; reflexivity.
  - split; [exact R'|]. split; [exact O|]. intros w W Rw A. apply (reads_frame _ _ _ _ Rw).
    intros x Ox. apply F. intro Ov. exact (A x Ov Ox).
Qed.
(** nil and dual values make it panic. *)
Theorem C91_zero_panics : forall s v, ~ plain v <-> ZeroValue zer s v = Panic.
Proof.
  intros s [|k a|k sh a n|i v d]; cbn; split; intro H; try reflexivity; try tauto; try discriminate H;
    destruct (H I).
Qed.

(** Zeroing a clone leaves the original, zeroing the original leaves the clone. *)
Theorem C91_clone_independent : forall s v D, plain v -> reads (cells s) v D ->
  exists s1 c, CloneValue s v = Ok (s1, c)
  /\ (exists s2, ZeroValue zer s1 c = Ok (s2, c) /\ reads (cells s2) v D /\ reads (cells s2) c (fillD zer D))
  /\ (exists s2, ZeroValue zer s1 v = Ok (s2, v) /\ reads (cells s2) c D /\ reads (cells s2) v (fillD zer D)).
Proof.
  intros s v D P R. assert (V : valued v) by (destruct v; cbn in *; tauto).
  destruct (clone_ok v s D R V) as (s1 & c & H & Rc & F & _ & Pc).
  exists s1, c. split; [exact H|]. pose proof (fresh_apart _ _ _ _ _ F R) as A.
  assert (Rv : reads (cells s1) v D) by (destruct F as ([ext ->] & _); apply reads_ext; exact R).
  split.
  - destruct (C91_zero s1 c D (Pc P) Rc) as (s2 & Hz & Rz & _ & Fz). exists s2. auto.
  - destruct (C91_zero s1 v D P Rv) as (s2 & Hz & Rz & _ & Fz). exists s2. split; [exact Hz|]. split; [|exact Rz].
    apply Fz; [exact Rc|]. intros x Ov Oc. exact (A x Oc Ov).
Qed.

(** Copy of scalars: right if the kinds are the same, refused if not; also if the two share
    memory. *)
Theorem C91_copy_scalar : forall s k a x k' b y, reads (cells s) (VS k a) (DS k x) -> reads (cells s) (VS k' b) (DS k' y) ->
  (k = k' -> exists s', Copy s (VS k' b) (VS k a) = Ok (s', VS k' b)
     /\ reads (cells s') (VS k' b) (DS k x) /\ reads (cells s') (VS k a) (DS k x)
     /\ forall w W, reads (cells s) w W -> apart (VS k' b) w -> reads (cells s') w W)
  /\ (k <> k' -> Copy s (VS k' b) (VS k a) = Err).
Proof.
  intros s k a x k' b y Ra Rb. inversion Ra as [|? ? ? Ha| |]; subst. inversion Rb as [|? ? ? Hb| |]; subst.
  assert (L : b + length [x] <= length (cells s)).
  { cbn [length]. assert (b < length (cells s)) by (apply nth_error_Some; congruence). lia. }
  assert (N : nth_error (writeAt (cells s) b [x]) b = Some x).
  { pose proof (writeAt_in (cells s) b [x] 0 L ltac:(cbn; lia)) as Hw. rewrite Nat.add_0_r in Hw. exact Hw. }
  split; intro K.
  - subst. cbn [Copy]. rewrite kindEq_refl, (readAt_one _ _ _ Ha). eexists. split; [reflexivity|]. cbn [cells].
    split; [constructor; exact N|]. split.
    + constructor. destruct (Nat.eq_dec a b) as [->|Ne]; [exact N|].
      rewrite writeAt_out by (try exact L; cbn [length]; lia). exact Ha.
    + intros w W Rw A. apply (reads_frame _ _ _ _ Rw). intros z Oz. apply writeAt_out; [exact L|].
      cbn [length]. assert (z <> b) by (intros ->; exact (A b (owns_s _ _) Oz)). lia.
  - cbn [Copy]. destruct (kindEq k k') eqn:Q; [apply kindEq_spec in Q; contradiction|reflexivity].
Qed.
(** Copy of tensors of one dtype and equally many entries: the destination keeps its shape
    and gets the entries the source had, also if the two overlap. *)
Theorem C91_copy_tensor : forall s k sh a xs sh' b ys, length xs = length ys ->
  reads (cells s) (VT k sh a (length xs)) (DT k sh xs) -> reads (cells s) (VT k sh' b (length ys)) (DT k sh' ys) ->
  exists s', Copy s (VT k sh' b (length ys)) (VT k sh a (length xs)) = Ok (s', VT k sh' b (length ys))
  /\ reads (cells s') (VT k sh' b (length ys)) (DT k sh' xs)
  /\ forall w W, reads (cells s) w W -> apart (VT k sh' b (length ys)) w -> reads (cells s') w W.
Proof.
  intros s k sh a xs sh' b ys Q Ra Rb. inversion Ra as [| |? ? ? ? ? Hl Ha|]; subst. inversion Rb as [| |? ? ? ? ? Hl' Hb|]; subst.
  cbn [Copy]. rewrite kindEq_refl, Q, Nat.min_id, <- Q, (readAt_spec _ _ _ xs eq_refl Ha). eexists. split; [reflexivity|]. cbn [cells].
  destruct (in_range _ _ _ _ eq_refl Hb) as [Z0|L].
  { assert (xs = []) as -> by (destruct xs; [reflexivity|cbn in Q; lia]).
    assert (W : writeAt (cells s) b [] = cells s) by (unfold writeAt; cbn; rewrite Nat.add_0_r; apply firstn_skipn).
    rewrite W. split; [|auto]. constructor; [reflexivity|]. cbn. intros; lia. }
  assert (L' : b + length xs <= length (cells s)) by lia.
  split.
  - constructor; [reflexivity|]. intros i Hi. apply writeAt_in; [exact L'|exact Hi].
  - intros w W Rw A. apply (reads_frame _ _ _ _ Rw). intros z Oz. apply writeAt_out; [exact L'|].
    destruct (Nat.lt_ge_cases z b); [left; assumption|]. right. destruct (Nat.lt_ge_cases z (b + length xs)); [|assumption].
    exfalso. apply (A z); [|exact Oz]. replace z with (b + (z - b)) by lia. constructor. lia.
Qed.

(** ** Equality *)
Hypothesis feq_sym : forall x y, feq x y = feq y x.

Lemma pairwise_iff : forall (p : E -> E -> bool) xs ys, pairwise p xs ys = true <-> Forall2 (fun x y => p x y = true) xs ys.
Proof.
  induction xs as [|x xs IH]; intros [|y ys]; cbn; split; intro H; try constructor; try discriminate H; try (inversion H; fail).
  - apply andb_true_iff in H. apply H.
  - apply IH. apply andb_true_iff in H. apply H.
  - inversion H; subst. apply andb_true_iff. split; [assumption|]. apply IH. assumption.
Qed.
Lemma forall2_flip : forall (xs ys : list E), Forall2 (fun x y => feq x y = true) xs ys -> Forall2 (fun x y => feq x y = true) ys xs.
Proof. induction 1; constructor; [rewrite feq_sym|]; assumption. Qed.
Lemma agree_sym : forall A B, agree feq A B -> agree feq B A.
Proof.
  induction A as [|k x|k sh xs|v IHv d IHd]; intros [|k' y|k' sh' ys|v' d'] H; cbn in *; try tauto.
  - destruct H as [-> H]. rewrite feq_sym. auto.
  - destruct H as [-> [H1 H2]]. auto using sameShape_sym, forall2_flip.
  - destruct H. split; auto.
Qed.
Lemma agree_refl : forall D, entries (fun x => feq x x = true) D -> agree feq D D.
Proof.
  induction D as [|k x|k sh xs|v IHv d IHd]; cbn; intro H; auto.
  - split; [reflexivity|]. split; [apply sameShape_refl|]. induction H; constructor; auto.
  - destruct H; auto.
Qed.

Lemma flat_ok : forall m a b A B, reads m a A -> reads m b B -> plain a \/ plain b -> whole a -> whole b ->
  entries (fun x => feq x x = true) A ->
  exists r, flatEq feq m a b = Ok r /\ (r = true <-> agree feq A B).
Proof.
  intros m a b A B Ra Rb P Wa Wb N. destruct a as [|k x|k sh x n|i v d]; [destruct Wa| | |].
  - inversion Ra as [|? ? X Hx| |]; subst.
    destruct b as [|k' y|k' sh' y n'|j v' d']; [destruct Wb| | |]; cbn [flatEq]; eexists; (split; [reflexivity|]).
    + inversion Rb as [|? ? Y Hy| |]; subst. unfold scalarEq. rewrite (readAt_one _ _ _ Hx), (readAt_one _ _ _ Hy).
      cbn [pairwise agree]. rewrite andb_true_r, andb_true_iff, kindEq_spec, orb_true_iff, Nat.eqb_eq.
      split; [|tauto]. intros [-> [->|H]]; [|auto]. assert (X = Y) by congruence. subst. cbn in N. auto.
    + inversion Rb; subst. cbn. split; [discriminate|tauto].
    + inversion Rb; subst. cbn. split; [discriminate|tauto].
  - inversion Ra as [| |? ? ? ? X Hl Hx|]; subst.
    destruct b as [|k' y|k' sh' y n'|j v' d']; [destruct Wb| | |]; cbn [flatEq]; eexists; (split; [reflexivity|]).
    + inversion Rb; subst. cbn. split; [discriminate|tauto].
    + inversion Rb as [| |? ? ? ? Y Hl Hy|]; subst. unfold denseEq. rewrite (readAt_spec _ _ _ X eq_refl Hx), (readAt_spec _ _ _ Y eq_refl Hy).
      cbn [agree]. rewrite !andb_true_iff, kindEq_spec, shapeEq_same, pairwise_iff. tauto.
    + inversion Rb; subst. cbn. split; [discriminate|tauto].
  - destruct P as [[]|P]. cbn [flatEq]. eexists. split; [reflexivity|]. inversion Ra; subst.
    destruct b; try destruct P; inversion Rb; subst; cbn; split; try discriminate; tauto.
Qed.
Lemma veq_ok : forall f m a b flip A B, named f a -> named f b -> reads m a A -> reads m b B -> whole a -> whole b ->
  entries (fun x => feq x x = true) A -> entries (fun x => feq x x = true) B ->
  exists r, veq feq m flip a b = Ok r /\ (r = true <-> agree feq A B).
Proof.
  intros f m a. induction a as [|k x|k sh x n|i v IHv d IHd]; intros b flip A B Na Nb Ra Rb Wa Wb EA EB.
  - destruct Wa.
  - destruct b as [|? ?|? ? ? ?|? ? ?]; [destruct Wb| | |];
      (cbn [veq]; destruct flip;
       [destruct (flat_ok m _ _ _ _ Rb Ra (or_intror I) Wb Wa EB) as (r & H & G); exists r; split; [exact H|]; rewrite G; split; apply agree_sym
       |destruct (flat_ok m _ _ _ _ Ra Rb (or_introl I) Wa Wb EA) as (r & H & G); exists r; split; [exact H|exact G]]).
  - destruct b as [|? ?|? ? ? ?|? ? ?]; [destruct Wb| | |];
      (cbn [veq]; destruct flip;
       [destruct (flat_ok m _ _ _ _ Rb Ra (or_intror I) Wb Wa EB) as (r & H & G); exists r; split; [exact H|]; rewrite G; split; apply agree_sym
       |destruct (flat_ok m _ _ _ _ Ra Rb (or_introl I) Wa Wb EA) as (r & H & G); exists r; split; [exact H|exact G]]).
  - destruct b as [|k' y|k' sh' y n'|j v' d']; [destruct Wb| | |].
    + cbn [veq]. destruct flip;
       [destruct (flat_ok m _ _ _ _ Rb Ra (or_introl I) Wb Wa EB) as (r & H & G); exists r; split; [exact H|]; rewrite G; split; apply agree_sym
       |destruct (flat_ok m _ _ _ _ Ra Rb (or_intror I) Wa Wb EA) as (r & H & G); exists r; split; [exact H|exact G]].
    + cbn [veq]. destruct flip;
       [destruct (flat_ok m _ _ _ _ Rb Ra (or_introl I) Wb Wa EB) as (r & H & G); exists r; split; [exact H|]; rewrite G; split; apply agree_sym
       |destruct (flat_ok m _ _ _ _ Ra Rb (or_intror I) Wa Wb EA) as (r & H & G); exists r; split; [exact H|exact G]].
    + cbn [named] in Na, Nb. destruct Na as (Fa & Nv & Nd), Nb as (Fb & Nv' & Nd'). cbn [whole] in Wa, Wb.
      destruct Wa as [Wv Wd], Wb as [Wv' Wd'].
      inversion Ra as [| | |? ? ? V D R1 R2]; subst. inversion Rb as [| | |? ? ? V' D' R1' R2']; subst.
      cbn [entries] in EA, EB. destruct EA as [EV ED], EB as [EV' ED'].
      cbn [veq]. destruct (Nat.eqb i j) eqn:Q.
      * apply Nat.eqb_eq in Q. subst. rewrite Fa in Fb. injection Fb as <- <-.
        rewrite (reads_det _ _ _ _ R1' R1), (reads_det _ _ _ _ R2' R2). exists true. split; [reflexivity|].
        split; [intros _|reflexivity]. apply agree_refl. split; assumption.
      * destruct (IHv v' (negb flip) V V' Nv Nv' R1 R1' Wv Wv' EV EV') as (r1 & H1 & G1).
        destruct (IHd d' (negb flip) D D' Nd Nd' R2 R2' Wd Wd' ED ED') as (r2 & H2 & G2).
        rewrite H1, H2. cbn [bind]. exists (r1 && r2). split; [reflexivity|]. rewrite andb_true_iff, G1, G2. reflexivity.
Qed.
(** ValueEq on values without nil parts and without NaN decides equality of data: same kind,
    shape (a vector counts as its column and row), and entries; for dual values of both
    parts. *)
Theorem C91_eq : forall f s a b A B, named f a -> named f b -> reads (cells s) a A -> reads (cells s) b B ->
  whole a -> whole b -> entries (fun x => feq x x = true) A -> entries (fun x => feq x x = true) B ->
  exists r, ValueEq feq s a b = Ok r /\ (r = true <-> agree feq A B).
Proof. intros. unfold ValueEq. eapply veq_ok; eassumption. Qed.
(** It is symmetric there. *)
Theorem C91_eq_symmetric : forall f s a b A B, named f a -> named f b -> reads (cells s) a A -> reads (cells s) b B ->
  whole a -> whole b -> entries (fun x => feq x x = true) A -> entries (fun x => feq x x = true) B ->
  ValueEq feq s a b = ValueEq feq s b a.
Proof.
  intros f s a b A B Na Nb Ra Rb Wa Wb EA EB.
  destruct (C91_eq f s a b A B) as (r & -> & G); try assumption.
  destruct (C91_eq f s b a B A) as (r' & -> & G'); try assumption.
  f_equal. destruct r, r'; try reflexivity.
  - symmetry. apply G', agree_sym, G. reflexivity.
  - apply G, agree_sym, G'. reflexivity.
Qed.
(** With nil it is not: nil against a value panics, a value against nil is false. A dual value
    with a derivative against one without panics; the other way round it is false. *)
Theorem C91_eq_nil : forall s a, a <> VNil -> ValueEq feq s VNil a = Panic /\ ValueEq feq s a VNil = Ok false.
Proof. intros s [|k a|k sh a n|i v d] H; [contradiction H; reflexivity| | |]; split; reflexivity. Qed.
Theorem C91_eq_missing_derivative : forall f s i j v d v' V V', i <> j -> d <> VNil ->
  named f v -> named f v' -> reads (cells s) v V -> reads (cells s) v' V' ->
  whole v -> whole v' -> entries (fun x => feq x x = true) V -> entries (fun x => feq x x = true) V' ->
  ValueEq feq s (VD i v d) (VD j v' VNil) = Panic /\ ValueEq feq s (VD j v' VNil) (VD i v d) = Ok false.
Proof.
  intros f s i j v d v' V V' Hij Hd N1 N2 R1 R2 W1 W2 E1 E2. unfold ValueEq. cbn [veq].
  assert (Nat.eqb i j = false) as -> by (apply Nat.eqb_neq; exact Hij).
  assert (Nat.eqb j i = false) as -> by (apply Nat.eqb_neq; auto).
  destruct (veq_ok f (cells s) v v' (negb false) V V') as (r & -> & _); try assumption.
  destruct (veq_ok f (cells s) v' v (negb false) V' V) as (r' & -> & _); try assumption.
  cbn [bind negb]. split.
  - destruct d; [contradiction Hd; reflexivity| | |]; reflexivity.
  - destruct d; [contradiction Hd; reflexivity| | |]; cbn; rewrite andb_false_r; reflexivity.
Qed.
(** A scalar holding NaN equals itself, as a pointer, but not its clone. *)
Theorem C91_eq_nan : forall s k a x, reads (cells s) (VS k a) (DS k x) -> feq x x = false ->
  ValueEq feq s (VS k a) (VS k a) = Ok true
  /\ exists s' c, CloneValue s (VS k a) = Ok (s', c) /\ ValueEq feq s' (VS k a) c = Ok false.
Proof.
  intros s k a x R N. inversion R as [|? ? ? Hx| |]; subst. split.
  - unfold ValueEq. cbn [veq flatEq]. unfold scalarEq. rewrite kindEq_refl, Nat.eqb_refl. reflexivity.
  - cbn [CloneValue]. rewrite (readAt_one _ _ _ Hx). unfold allocE. eexists _, _. split; [reflexivity|].
    unfold ValueEq. cbn [veq flatEq cells]. unfold scalarEq. rewrite kindEq_refl.
    assert (La : a < length (cells s)) by (apply nth_error_Some; congruence).
    assert (Nat.eqb a (length (cells s)) = false) as -> by (apply Nat.eqb_neq; lia).
    rewrite (readAt_one _ _ x), (readAt_one _ _ x).
    + cbn. rewrite N. reflexivity.
    + rewrite <- (Nat.add_0_r (length (cells s))), nth_new. reflexivity.
    + rewrite nth_error_app1 by exact La. exact Hx.
Qed.

Lemma float_kind : forall k, (k = KF64 \/ k = KF32) <-> isFloat k = true.
Proof. intros []; cbn; split; auto; try discriminate; intros [H|H]; discriminate H. Qed.
(** ValueClose of float tensors compares entries in order and never shapes. *)
Theorem C91_close_shapes : forall s k sh a xs sh' b ys, k = KF64 \/ k = KF32 ->
  reads (cells s) (VT k sh a (length xs)) (DT k sh xs) -> reads (cells s) (VT k sh' b (length ys)) (DT k sh' ys) ->
  exists r, ValueClose feq close s (VT k sh a (length xs)) (VT k sh' b (length ys)) = Ok r
  /\ (r = true <-> Forall2 (fun x y => close x y = true) xs ys).
Proof.
  intros s k sh a xs sh' b ys F Ra Rb. apply float_kind in F. inversion Ra as [| |? ? ? ? ? _ Hx|]; subst. inversion Rb as [| |? ? ? ? ? _ Hy|]; subst.
  cbn [ValueClose]. unfold tensorClose. rewrite kindEq_refl, F, (readAt_spec _ _ _ xs eq_refl Hx), (readAt_spec _ _ _ ys eq_refl Hy).
  eexists. split; [reflexivity|]. apply pairwise_iff.
Qed.
(** Tensors of different kinds are never close. *)
Theorem C91_close_kinds : forall s k sh a n k' sh' b n', k <> k' ->
  ValueClose feq close s (VT k sh a n) (VT k' sh' b n') = Ok false.
Proof.
  intros s k sh a n k' sh' b n' N. cbn [ValueClose]. unfold tensorClose.
  destruct (kindEq k k') eqn:EK; [apply kindEq_spec in EK; contradiction|reflexivity].
Qed.
(** Float scalars are close if the kinds agree and the entries are close; other scalars only if
    they are equal. Scalars and tensors are never close. *)
Theorem C91_close_scalars : forall s k a x k' b y sh n,
  reads (cells s) (VS k a) (DS k x) -> reads (cells s) (VS k' b) (DS k' y) ->
  (exists r, ValueClose feq close s (VS k a) (VS k' b) = Ok r /\
     (k = KF64 \/ k = KF32 -> (r = true <-> k = k' /\ close x y = true)) /\
     (k <> KF64 -> k <> KF32 -> a <> b -> (r = true <-> k = k' /\ feq x y = true))) /\
  ValueClose feq close s (VS k a) (VT k' sh b n) = Ok false /\ ValueClose feq close s (VT k' sh b n) (VS k a) = Ok false.
Proof.
  intros s k a x k' b y sh n Ra Rb. inversion Ra as [|? ? ? Hx| |]; subst. inversion Rb as [|? ? ? Hy| |]; subst.
  split; [|split; reflexivity]. cbn [ValueClose]. eexists. split; [reflexivity|]. unfold scalarClose.
  rewrite (readAt_one _ _ _ Hx), (readAt_one _ _ _ Hy). split; [intro F; apply float_kind in F; rewrite F|intros F1 F2; assert (F : isFloat k = false) by (destruct k; try reflexivity; congruence); rewrite F].
  - cbn [pairwise]. rewrite andb_true_r, andb_true_iff, kindEq_spec. reflexivity.
  - intros N. unfold scalarEq. rewrite (readAt_one _ _ _ Hx), (readAt_one _ _ _ Hy). cbn [pairwise].
    assert (Nat.eqb a b = false) as -> by (apply Nat.eqb_neq; exact N). cbn [orb]. rewrite andb_true_r, andb_true_iff, kindEq_spec. reflexivity.
Qed.
(** It panics on dual values; nil is close to nil only, and panics with anything else. *)
Theorem C91_close_dual : forall s i v d b, ValueClose feq close s (VD i v d) b = Panic /\
  (b = VNil -> ValueClose feq close s VNil b = Ok true) /\ (b <> VNil -> ValueClose feq close s VNil b = Panic).
Proof. intros. destruct b; repeat split; congruence. Qed.

(** ** Dual values *)
(** dvUnit and dvUnitVar: the value itself, with a derivative of zeros or ones of its kind and
    shape in new memory; no existing value changes. *)
Theorem C91_unit : forall s v D, plain v -> reads (cells s) v D ->
  exists s' i d, dvUnit zer s v = Ok (s', VD i v d) /\ reads (cells s') d (fillD zer D) /\ plain d
  /\ forall w W, reads (cells s) w W -> reads (cells s') w W /\ apart d w.
Proof.
  intros s v D P R. assert (V : valued v) by (destruct v; cbn in *; tauto).
  destruct (clone_ok v s D R V) as (s1 & c & H & Rc & F & _ & Pc).
  destruct (C91_zero s1 c D (Pc P) Rc) as (s2 & Hz & Rz & _ & Fz).
  assert (dvUnit zer s v = constantDV zer s v) as -> by (destruct v; try destruct P; reflexivity).
  unfold constantDV. rewrite H, Hz. cbn [bind fst snd]. unfold borrowDV. eexists _, _, _. split; [reflexivity|].
  split; [exact Rz|]. split; [exact (Pc P)|]. intros w W Rw. pose proof (fresh_apart _ _ _ _ _ F Rw) as A.
  split; [|exact A]. cbn [cells]. apply Fz; [|exact A]. destruct F as ([ext ->] & _). apply reads_ext. exact Rw.
Qed.
Theorem C91_unit_variable : forall s v D, plain v -> reads (cells s) v D ->
  exists s' i d, dvUnitVar one s v = Ok (s', VD i v d) /\ reads (cells s') d (fillD one D) /\ plain d
  /\ forall w W, reads (cells s) w W -> reads (cells s') w W /\ apart d w.
Proof.
  intros s v D P R. destruct v as [|k a|k sh a n|]; try destruct P; cbn [dvUnitVar variableDV]; unfold allocE, borrowDV;
    eexists _, _, _; (split; [reflexivity|]); cbn [cells].
  - inversion R; subst. cbn [fillD]. split; [|split; [exact I|]].
    + constructor. rewrite <- (Nat.add_0_r (length (cells s))), nth_new. reflexivity.
    + intros w W Rw. split; [apply reads_ext; exact Rw|]. intros y O Oy. inversion O; subst.
      pose proof (reads_owned _ _ _ _ Rw Oy). lia.
  - inversion R as [| |? ? ? ? xs Hl Hx|]; subst. cbn [fillD]. split; [|split; [exact I|]].
    + constructor; [apply repeat_length|]. intros i Hi. apply nth_new.
    + intros w W Rw. split; [apply reads_ext; exact Rw|]. intros y O Oy. inversion O; subst.
      pose proof (reads_owned _ _ _ _ Rw Oy). lia.
Qed.

Lemma idValue_spec : forall ins, idValue ins = valuesOf ins.
Proof. induction ins as [|[] l IH]; [reflexivity|..]; cbn; f_equal; exact IH. Qed.
(** dvBind: a dual value of the operator's result, which must not be nil, with zeroes in
    memory of its own; dvBindVar: with ones. *)
Theorem C91_bind : forall s o ins s1 r R, doF o s (valuesOf ins) = Ok (s1, r) -> plain r -> reads (cells s1) r R ->
  (exists s2 i d, dvBind zer s o ins = Ok (s2, VD i r d) /\ reads (cells s2) d (fillD zer R) /\
     forall w W, reads (cells s1) w W -> reads (cells s2) w W /\ apart d w) /\
  (exists s2 i d, dvBindVar one s o ins = Ok (s2, VD i r d) /\ reads (cells s2) d (fillD one R) /\
     forall w W, reads (cells s1) w W -> reads (cells s2) w W /\ apart d w).
Proof.
  intros s o ins s1 r R H P Rr. unfold dvBind, dvBindVar. rewrite idValue_spec. rewrite H. cbn [bind fst snd]. split.
  - destruct (C91_unit s1 r R P Rr) as (s2 & i & d & Q & Rd & _ & A). exists s2, i, d. auto.
  - destruct (C91_unit_variable s1 r R P Rr) as (s2 & i & d & Q & Rd & _ & A). exists s2, i, d. auto.
Qed.
(** clone0: a dual value of zeroes of the same kinds and shapes, apart from everything. *)
Theorem C91_clone0 : forall s v d D1 D2, plain v -> plain d -> reads (cells s) v D1 -> reads (cells s) d D2 ->
  exists s' i c e, clone0 zer s v d = Ok (s', VD i c e) /\ reads (cells s') c (fillD zer D1) /\ reads (cells s') e (fillD zer D2) /\
    apart c e /\ forall w W, reads (cells s) w W -> reads (cells s') w W /\ apart c w /\ apart e w.
Proof.
  intros s v d D1 D2 Pv Pd Rv Rd. unfold clone0.
  assert (V : valued v) by (destruct v; try destruct Pv; exact I). assert (V' : valued d) by (destruct d; try destruct Pd; exact I).
  destruct (clone_ok v s D1 Rv V) as (s1 & c & -> & Rc & F1 & _ & Pc). cbn [bind fst snd].
  assert (E1 : forall w W, reads (cells s) w W -> reads (cells s1) w W) by (intros w W Rw; destruct F1 as ([ext ->] & _); apply reads_ext; exact Rw).
  destruct (clone_ok d s1 D2 (E1 _ _ Rd) V') as (s2 & e & -> & Re & F2 & _ & Pe). cbn [bind fst snd].
  assert (E2 : forall w W, reads (cells s1) w W -> reads (cells s2) w W) by (intros w W Rw; destruct F2 as ([ext ->] & _); apply reads_ext; exact Rw).
  assert (A : apart e c) by exact (fresh_apart _ _ _ _ _ F2 Rc).
  assert (A' : apart c e) by (intros x H1 H2; exact (A x H2 H1)).
  destruct (C91_zero s2 c D1 (Pc Pv) (E2 _ _ Rc)) as (s3 & -> & R3 & _ & Z3). cbn [bind fst snd].
  destruct (C91_zero s3 e D2 (Pe Pd) (Z3 _ _ Re A')) as (s4 & -> & R4 & _ & Z4). cbn [bind fst snd].
  unfold borrowDV. eexists _, _, c, e. split; [reflexivity|]. cbn [cells]. split; [exact (Z4 _ _ R3 A)|]. split; [exact R4|]. split; [exact A'|].
  intros w W Rw. pose proof (fresh_apart _ _ _ _ _ F1 Rw) as Aw. pose proof (fresh_apart _ _ _ _ _ F2 (E1 _ _ Rw)) as Aw'.
  split; [|auto]. apply Z4; [|exact Aw']. apply Z3; [|exact Aw]. apply E2, E1, Rw.
Qed.

(** What dvBind0 lets the operator do: UsePreallocDo where there is one, Do where there is
    none or where UsePreallocDo fails. *)
Definition ran0 (s : st E) (o : oper E) (v : value) (ins : list value) (p : st E * value) : Prop :=
  match preF o with
  | Some pre => pre s v (valuesOf ins) = Ok p \/ (pre s v (valuesOf ins) = Err /\ doF o s (valuesOf ins) = Ok p)
  | None => doF o s (valuesOf ins) = Ok p
  end.
(** A derivative of scalar shape ends up as a scalar. *)
Definition unboxed (z : E) (D : datum E) : datum E :=
  match D with DT k [] _ => DS k z | _ => fillD z D end.
(** dvBind0: the operator's result with a derivative of zeros — provided the derivative does
    not share memory with the result. *)
Theorem C91_bind0 : forall s o v d ins s1 r R D, ran0 s o v ins (s1, r) ->
  reads (cells s1) r R -> plain d -> reads (cells s1) d D -> (forall k xs, D = DT k [] xs -> length xs = 1) -> apart d r ->
  exists s2 d', dvBind0 zer s o v d ins = Ok (s2, r, d') /\ reads (cells s2) r R /\ reads (cells s2) d' (unboxed zer D).
Proof.
  intros s o v d ins s1 r R D H Rr P Rd Sc A. unfold dvBind0. rewrite idValue_spec.
  assert ((match preF o with
           | Some pre => match pre s v (valuesOf ins) with Ok p => Ok p | Err => doF o s (valuesOf ins) | Panic => Panic end
           | None => doF o s (valuesOf ins) end) = Ok (s1, r)) as ->.
  { unfold ran0 in H. destruct (preF o) as [pre|]; [|exact H]. destruct H as [->|[-> H]]; [reflexivity|exact H]. }
  cbn [bind fst snd]. destruct (C91_zero s1 d D P Rd) as (s2 & Hz & Rz & Oz & Fz). rewrite Hz. cbn [bind fst snd].
  pose proof (Fz r R Rr A) as Rr2.
  destruct d as [|k a|k [|z sh] a n|]; try destruct P; cbn [setDeriv].
  - eexists _, _. split; [reflexivity|]. inversion Rd; subst. auto.
  - inversion Rd as [| |? ? ? ? xs Hl Hx|]; subst. unfold allocE. eexists _, _. split; [reflexivity|]. cbn [cells].
    split; [apply reads_ext; exact Rr2|]. cbn [unboxed]. constructor.
    assert (Ha : nth_error (cells s2) a = Some zer).
    { apply Oz. rewrite <- (Nat.add_0_r a) at 2. constructor. rewrite (Sc k xs eq_refl). lia. }
    rewrite (readAt_one _ _ _ Ha). rewrite <- (Nat.add_0_r (length (cells s2))), nth_new. reflexivity.
  - eexists _, _. split; [reflexivity|]. inversion Rd; subst. auto.
Qed.
(** If they share memory, the result is lost: every shared entry of it is zero. *)
Theorem C91_bind0_shared : forall s o v d ins s1 r D, ran0 s o v ins (s1, r) ->
  plain d -> reads (cells s1) d D ->
  exists s2 d', dvBind0 zer s o v d ins = Ok (s2, r, d') /\ forall x, owns d x -> nth_error (cells s2) x = Some zer.
Proof.
  intros s o v d ins s1 r D H P Rd. unfold dvBind0. rewrite idValue_spec.
  assert ((match preF o with
           | Some pre => match pre s v (valuesOf ins) with Ok p => Ok p | Err => doF o s (valuesOf ins) | Panic => Panic end
           | None => doF o s (valuesOf ins) end) = Ok (s1, r)) as ->.
  { unfold ran0 in H. destruct (preF o) as [pre|]; [|exact H]. destruct H as [->|[-> H]]; [reflexivity|exact H]. }
  cbn [bind fst snd]. destruct (C91_zero s1 d D P Rd) as (s2 & Hz & Rz & Oz & Fz). rewrite Hz. cbn [bind fst snd].
  destruct (setDeriv s2 d) as [s3 d3] eqn:Q. eexists _, _. split; [reflexivity|].
  destruct d as [|k a|k [|z sh] a n|]; try destruct P; cbn [setDeriv] in Q.
  - injection Q as <- <-. exact Oz.
  - unfold allocE in Q. injection Q as <- <-. intros x O. cbn [cells]. rewrite nth_error_app1; [apply Oz; exact O|].
    eapply reads_owned; eassumption.
  - injection Q as <- <-. exact Oz.
Qed.
(** A dual value without a derivative (as dvUnit0 makes it) cannot be reused by dvBind0: it
    panics once the operator has succeeded; dvBindVar0 reports an error. *)
Theorem C91_bind0_no_derivative : forall s v o ins s1 r, plain v ->
  (exists s' i, dvUnit0 s v = Ok (s', VD i v VNil) /\ cells s' = cells s)
  /\ (ran0 s o v ins (s1, r) -> dvBind0 zer s o v VNil ins = Panic)
  /\ (match preF o with Some pre => pre s v (valuesOf ins) | None => doF o s (valuesOf ins) end = Ok (s1, r) ->
      dvBindVar0 one s o v VNil ins = Err).
Proof.
  intros s v o ins s1 r P. split; [|split].
  - destruct v; try destruct P; cbn [dvUnit0]; unfold borrowDV; eexists _, _; split; reflexivity.
  - intro H. unfold dvBind0. rewrite idValue_spec.
    assert ((match preF o with
             | Some pre => match pre s v (valuesOf ins) with Ok p => Ok p | Err => doF o s (valuesOf ins) | Panic => Panic end
             | None => doF o s (valuesOf ins) end) = Ok (s1, r)) as ->.
    { unfold ran0 in H. destruct (preF o) as [pre|]; [|exact H]. destruct H as [->|[-> H]]; [reflexivity|exact H]. }
    reflexivity.
  - intro H. unfold dvBindVar0. rewrite idValue_spec. rewrite H. reflexivity.
Qed.
(** dvBindVar0 does not try Do when UsePreallocDo fails, dvBind0 does. *)
Theorem C91_fallback : forall s o v d ins pre s1 r R D, preF o = Some pre -> pre s v (valuesOf ins) = Err ->
  doF o s (valuesOf ins) = Ok (s1, r) -> reads (cells s1) r R -> plain d -> reads (cells s1) d D ->
  dvBindVar0 one s o v d ins = Err /\ exists s2 d', dvBind0 zer s o v d ins = Ok (s2, r, d').
Proof.
  intros s o v d ins pre s1 r R D Hp He Hd Rr P Rd. split.
  - unfold dvBindVar0. rewrite idValue_spec. rewrite Hp, He. reflexivity.
  - destruct (C91_bind0_shared s o v d ins s1 r D) as (s2 & d' & H & _); [|exact P|exact Rd|].
    + unfold ran0. rewrite Hp. right. split; assumption.
    + exists s2, d'. exact H.
Qed.
(** dvBindVar0: ones for scalars and float tensors, again if memory is not shared; the
    derivative of a tensor of another dtype stays what it was. *)
Theorem C91_bindvar0 : forall s o v d ins s1 r R D,
  match preF o with Some pre => pre s v (valuesOf ins) | None => doF o s (valuesOf ins) end = Ok (s1, r) ->
  reads (cells s1) r R -> plain d -> reads (cells s1) d D -> apart d r ->
  exists s2 d', dvBindVar0 one s o v d ins = Ok (s2, r, d') /\ reads (cells s2) r R
  /\ reads (cells s2) d' (match D with DT KF64 _ _ | DT KF32 _ _ => fillD one D | DT _ _ _ => D | _ => fillD one D end).
Proof.
  intros s o v d ins s1 r R D H Rr P Rd A. unfold dvBindVar0. rewrite idValue_spec. rewrite H. cbn [bind fst snd].
  destruct d as [|k a|k sh a n|]; try destruct P.
  - inversion Rd; subst. unfold allocE. eexists _, _. split; [reflexivity|]. cbn [cells fillD]. split; [apply reads_ext; exact Rr|].
    constructor. rewrite <- (Nat.add_0_r (length (cells s1))), nth_new. reflexivity.
  - destruct (fill_ok one s1 (VT k sh a n) D I Rd) as (m' & Hm & L & R' & O & F).
    inversion Rd as [| |? ? ? ? xs Hl Hx|]; subst. destruct k; cbn [isFloat].
    1,2: eexists _, _; split; [reflexivity|]; cbn [cells]; split; [|exact R'];
      apply (reads_frame _ _ _ _ Rr); intros x Ox; apply F; intro Od; exact (A x Od Ox).
    all: eexists _, _; split; [reflexivity|]; auto.
Qed.

(** Cloning never hands out a dual value twice: the identities of the dual values in a clone
    lie between the number handed out before and after, so two clones made one after the other
    are different dual values, and neither is one made earlier. *)
Lemma clone_duals : forall v s s' c, CloneValue s v = Ok (s', c) -> duals s <= duals s' /\
  forall i x d, c = VD i x d -> duals s <= i < duals s'.
Proof.
  induction v as [|k a|k sh a n|j x IHx d IHd]; intros s s' c H; cbn [CloneValue] in H.
  - discriminate H.
  - unfold allocE in H. injection H as <- <-. cbn. split; [lia|intros; discriminate].
  - unfold allocE in H. injection H as <- <-. cbn. split; [lia|intros; discriminate].
  - destruct (CloneValue s x) as [[s1 x']| |] eqn:Ex; cbn [bind fst snd] in H; try discriminate H.
    destruct (IHx _ _ _ Ex) as [L _]. destruct (isNil d).
    + unfold borrowDV in H. injection H as <- <-. cbn. split; [lia|]. intros i y e He. injection He as <- _ _. lia.
    + destruct (CloneValue s1 d) as [[s2 d']| |] eqn:Ed; cbn [bind fst snd] in H; try discriminate H.
      destruct (IHd _ _ _ Ed) as [L' _]. unfold borrowDV in H. injection H as <- <-. cbn. split; [lia|].
      intros i y e He. injection He as <- _ _. lia.
Qed.
Theorem C91_clones_distinct : forall s s1 s2 v w i x d j y e k a b,
  CloneValue s v = Ok (s1, VD i x d) -> CloneValue s1 w = Ok (s2, VD j y e) ->
  dvUnit0 s2 (VS k a) = Ok b -> exists l, snd b = VD l (VS k a) VNil /\ i <> j /\ i <> l /\ j <> l.
Proof.
  intros s s1 s2 v w i x d j y e k a b H1 H2 H3. destruct (clone_duals _ _ _ _ H1) as [_ A]. destruct (clone_duals _ _ _ _ H2) as [_ B].
  specialize (A _ _ _ eq_refl). specialize (B _ _ _ eq_refl). injection H3 as <-. cbn [borrowDV snd]. eexists. split; [reflexivity|]. lia.
Qed.

(** ScalarAsTensor of a scalar is a view: it shows the scalar's entry in a shape of ones, and
    zeroing it zeroes the scalar. *)
Theorem C91_scalar_view : forall s k a x dims, reads (cells s) (VS k a) (DS k x) ->
  exists t, ScalarAsTensor s (VS k a) dims = (s, t) /\ reads (cells s) t (DT k (repeat 1%Z dims) [x])
  /\ exists s', ZeroValue zer s t = Ok (s', t) /\ reads (cells s') (VS k a) (DS k zer).
Proof.
  intros s k a x dims R. inversion R as [|? ? ? Hx| |]; subst. cbn [ScalarAsTensor]. eexists. split; [reflexivity|].
  assert (Rt : reads (cells s) (VT k (repeat 1%Z dims) a 1) (DT k (repeat 1%Z dims) [x])).
  { constructor; [reflexivity|]. intros i Hi. replace i with 0 by lia. rewrite Nat.add_0_r. exact Hx. }
  split; [exact Rt|]. destruct (C91_zero s (VT k (repeat 1%Z dims) a 1) _ I Rt) as (s' & H & _ & O & _). exists s'. split; [exact H|].
  constructor. apply O. rewrite <- (Nat.add_0_r a) at 2. constructor. lia.
Qed.
End Props.

(** ** Concrete cases: entries are integers or NaN ([None]). *)
Definition exEq (x y : option Z) : bool := match x, y with Some a, Some b => Z.eqb a b | _, _ => false end.
Definition exClose (x y : option Z) : bool := match x, y with Some a, Some b => (Z.abs (a - b) <=? 1)%Z | _, _ => false end.
Definition exS : st (option Z) := mkSt [Some 7; None; Some 1; Some 2; Some 3; Some 4; Some 5; Some 6; Some 7]%Z 5.
Definition exV : value := VT KF64 [2; 3]%Z 2 6.
Example ex_reads : reads (cells exS) (VD 0 exV (VS KF64 0)) (DD (DT KF64 [2; 3]%Z [Some 1; Some 2; Some 3; Some 4; Some 5; Some 6]%Z) (DS KF64 (Some 7%Z))).
Proof.
  repeat constructor. intros i Hi. do 6 (destruct i as [|i]; [reflexivity|]). lia.
Qed.
Example ex_clone : CloneValue exS (VD 0 exV (VS KF64 0))
  = Ok (mkSt (cells exS ++ [Some 1; Some 2; Some 3; Some 4; Some 5; Some 6; Some 7]%Z) 6,
        VD 5 (VT KF64 [2; 3]%Z 9 6) (VS KF64 15)).
Proof. reflexivity. Qed.
Example ex_eq : ValueEq exEq exS (VD 0 exV (VS KF64 0)) (VD 1 exV (VS KF64 8)) = Ok true
  /\ ValueEq exEq exS (VS KF64 0) (VS KF32 8) = Ok false
  /\ ValueEq exEq exS (VT KF64 [3]%Z 2 3) (VT KF64 [3; 1]%Z 2 3) = Ok true.
Proof. repeat split. Qed.
Example ex_missing : ValueEq exEq exS (VD 0 exV (VS KF64 0)) (VD 1 exV VNil) = Panic
  /\ ValueEq exEq exS (VD 1 exV VNil) (VD 0 exV (VS KF64 0)) = Ok false.
Proof. split; reflexivity. Qed.
Example ex_nan : ValueEq exEq exS (VS KF64 1) (VS KF64 1) = Ok true.
Proof. reflexivity. Qed.
(** Six entries in two rows or in three: close. *)
Example ex_close : ValueClose exEq exClose exS exV (VT KF64 [3; 2]%Z 3 6) = Ok true
  /\ ValueEq exEq exS exV (VT KF64 [3; 2]%Z 2 6) = Ok false.
Proof. split; reflexivity. Qed.
Example ex_close_kinds : ValueClose exEq exClose exS exV (VT KI [2; 3]%Z 2 6) = Ok false.
Proof. reflexivity. Qed.
Example ex_copy : exists s', Copy exS (VT KF64 [5]%Z 4 5) (VT KF64 [5]%Z 2 5) = Ok (s', VT KF64 [5]%Z 4 5)
  /\ cells s' = [Some 7; None; Some 1; Some 2; Some 1; Some 2; Some 3; Some 4; Some 5]%Z.
Proof. eexists. split; reflexivity. Qed.
(** An operator that works in place, on a dual value whose derivative is its value. *)
Definition exOp : oper (option Z) :=
  mkOper (fun s _ => Ok (s, VS KF64 2)) (Some (fun s v _ => match v with VNil => Err | _ => Ok (s, v) end)).
Example ex_bind0 : dvBind0 (Some 0%Z) exS exOp (VS KF64 0) (VT KF64 [3]%Z 2 3) []
  = Ok (mkSt [Some 7; None; Some 0; Some 0; Some 0; Some 4; Some 5; Some 6; Some 7]%Z 5, VS KF64 0, VT KF64 [3]%Z 2 3).
Proof. reflexivity. Qed.
Theorem C91_bind0_shared_refuted : exists s' d',
  dvBind0 (Some 0%Z) exS exOp (VS KF64 0) (VS KF64 0) [] = Ok (s', VS KF64 0, d')
  /\ reads (cells exS) (VS KF64 0) (DS KF64 (Some 7%Z)) /\ reads (cells s') (VS KF64 0) (DS KF64 (Some 0%Z)).
Proof. eexists _, _. split; [reflexivity|]. split; constructor; reflexivity. Qed.
(** Integers keep the derivative they had. *)
Example ex_bindvar0 : dvBindVar0 (Some 1%Z) exS exOp (VS KF64 0) (VT KI [3]%Z 2 3) []
  = Ok (exS, VS KF64 0, VT KI [3]%Z 2 3).
Proof. reflexivity. Qed.
Example ex_fallback : dvBindVar0 (Some 1%Z) exS exOp VNil (VS KF64 0) [] = Err
  /\ exists s', dvBind0 (Some 0%Z) exS exOp VNil (VS KF64 0) [] = Ok (s', VS KF64 2, VS KF64 0).
Proof. split; [reflexivity|]. eexists. reflexivity. Qed.
Example ex_unit : dvUnit (Some 0%Z) exS (VT KI [2]%Z 2 2)
  = Ok (mkSt (cells exS ++ [Some 0; Some 0]%Z) 6, VD 5 (VT KI [2]%Z 2 2) (VT KI [2]%Z 9 2))
  /\ dvUnitVar (Some 1%Z) exS (VT KI [2]%Z 2 2)
  = Ok (mkSt (cells exS ++ [Some 1; Some 1]%Z) 6, VD 5 (VT KI [2]%Z 2 2) (VT KI [2]%Z 9 2)).
Proof. split; reflexivity. Qed.
Example ex_bind : dvBind (Some 0%Z) exS exOp [] = Ok (mkSt (cells exS ++ [Some 0%Z]) 6, VD 5 (VS KF64 2) (VS KF64 9))
  /\ dvBindVar (Some 1%Z) exS exOp [] = Ok (mkSt (cells exS ++ [Some 1%Z]) 6, VD 5 (VS KF64 2) (VS KF64 9)).
Proof. split; reflexivity. Qed.
Example ex_clone0 : clone0 (Some 0%Z) exS (VT KI [2]%Z 2 2) (VS KF64 0)
  = Ok (mkSt (cells exS ++ [Some 0; Some 0; Some 0]%Z) 6, VD 5 (VT KI [2]%Z 9 2) (VS KF64 11)).
Proof. reflexivity. Qed.
Print Assumptions C91_clone.
Print Assumptions C91_clone_refused.
Print Assumptions C91_zero.
Print Assumptions C91_zero_panics.
Print Assumptions C91_clone_independent.
Print Assumptions C91_copy_scalar.
Print Assumptions C91_copy_tensor.
Print Assumptions C91_eq.
Print Assumptions C91_eq_symmetric.
Print Assumptions C91_eq_nil.
Print Assumptions C91_eq_missing_derivative.
Print Assumptions C91_eq_nan.
Print Assumptions C91_close_shapes.
Print Assumptions C91_close_kinds.
Print Assumptions C91_close_scalars.
Print Assumptions C91_close_dual.
Print Assumptions C91_unit.
Print Assumptions C91_unit_variable.
Print Assumptions C91_bind0.
Print Assumptions C91_bind0_shared.
Print Assumptions C91_bind0_no_derivative.
Print Assumptions C91_fallback.
Print Assumptions C91_bindvar0.
Print Assumptions C91_scalar_view.
Print Assumptions C91_bind0_shared_refuted.
Print Assumptions C91_bind.
Print Assumptions C91_clone0.
Example C91_clones_distinct_ex : exists s1 s2,
  CloneValue exS (VD 3 (VS KF64 0) VNil) = Ok (s1, VD 5 (VS KF64 9) VNil)
  /\ CloneValue s1 (VD 3 (VS KF64 0) (VS KF64 2)) = Ok (s2, VD 6 (VS KF64 10) (VS KF64 11)).
Proof. eexists _, _. split; reflexivity. Qed.
Print Assumptions C91_clones_distinct.
