(** Property C70: Tensordot and its symbolic gradient. *)
From Coq Require Import List ZArith Bool Lia Ring Sorted.
From Verif Require Import Sums BroadcastModel BroadcastSpec BroadcastProofs ShapeGradModel ShapeGradSpec ShapeGradProofs ShapeGradSum ReduceModel TdotModel TdotSpec TdotLists TdotProofs.
Import ListNotations.
Local Open Scope Z_scope.

(** ** Placing coordinates *)
Lemma placed_self axes k : forall l p, (forall a v, In (a, v) (combine axes k) -> p <= a -> v = nth (Z.to_nat (a - p)) l 0) -> length k = length axes ->
  placed axes k p (length l) (without axes p l) = l.
Proof.
  induction l as [|x l IH]; intros p H L; cbn [length placed without]; [reflexivity|].
  assert (N : forall a v, In (a, v) (combine axes k) -> p + 1 <= a -> v = nth (Z.to_nat (a - (p + 1))) l 0).
  { intros a v K Ha. rewrite (H a v K) by lia. replace (Z.to_nat (a - p)) with (S (Z.to_nat (a - (p + 1)))) by lia. reflexivity. }
  destruct (find (fun q => fst q =? p) (combine axes k)) as [[a v]|] eqn:F.
  - apply find_some in F. destruct F as [F1 F2]. cbn [fst snd] in *. apply Z.eqb_eq in F2. subst a.
    assert (X : existsb (Z.eqb p) axes = true) by (apply existsb_in; apply in_combine_l in F1; exact F1). rewrite X. rewrite IH by assumption. rewrite (H p v F1) by lia. rewrite Z.sub_diag. reflexivity.
  - assert (X : existsb (Z.eqb p) axes = false).
    { apply not_true_iff_false. intro K. apply existsb_in in K. destruct (In_nth _ _ 0 K) as [q [Hq Eq]]. pose proof (in_combine_nth axes k q Hq ltac:(lia)) as C. pose proof (find_none _ _ F _ C) as E. cbn [fst] in E. rewrite Eq, Z.eqb_refl in E. discriminate. }
    rewrite X. rewrite IH by assumption. reflexivity.
Qed.
Lemma placed_gather axes i : Forall (fun a => 0 <= a < Z.of_nat (length i)) axes -> placed axes (gather axes i) 0 (length i) (dropAxes axes i) = i.
Proof.
  intro F. rewrite drop_without. apply placed_self; [|apply len_gather]. intros a v K _. rewrite Z.sub_0_r. unfold gather in K. clear F.
  induction axes as [|b axes IH]; cbn [map combine] in K; [contradiction|]. destruct K as [E|K]; [injection E as <- <-; reflexivity|apply IH, K].
Qed.
Lemma placed_exists axes s k f : NoDup axes -> Forall (fun a => 0 <= a < Z.of_nat (length s)) axes -> inside (gather axes s) k -> inside (dropAxes axes s) f ->
  let i := placed axes k 0 (length s) f in inside s i /\ gather axes i = k /\ dropAxes axes i = f.
Proof.
  intros ND RG Hk Hf. pose proof (q_perm axes axes (length s) RG ND (fun y => iff_refl _)) as Q. set (q := axes ++ freeAxes axes (length s)) in *. pose proof Q as [QL _].
  assert (I : inside (gather q s) (k ++ f)) by (unfold q; rewrite gather_app, <- drop_gather; apply inside_app; assumption).
  pose proof (inside_scatter q (length s) s (k ++ f) Q eq_refl I) as J. pose proof (inside_len _ _ I) as LI. rewrite len_gather, QL in LI.
  pose proof (gather_scatter q (length s) (k ++ f) Q LI) as G. set (i := scatter q (k ++ f) (repeat 0 (length s))) in *. pose proof (inside_len _ _ J) as Lj.
  unfold q in G. rewrite gather_app in G. apply (join_inj true) in G; [|rewrite len_gather; rewrite (inside_len _ _ Hk), len_gather; reflexivity|rewrite len_gather, (inside_len _ _ Hf), drop_gather, len_gather; reflexivity].
  destruct G as [G1 G2]. assert (D : dropAxes axes i = f) by (rewrite drop_gather, Lj; exact G2). cbv zeta.
  pose proof (placed_gather axes i) as P. rewrite G1, D, Lj in P. rewrite P by exact RG. auto.
Qed.

Section Props.
Context {A : Type} {CR : CRing A}.
Add Ring Aring : (@cr_th A CR).
Local Open Scope cr_scope.
Notation tens := (@tens A).

(** Which calls succeed: both operands have an axis, and the axes pair up. *)
Theorem C70_accepts : forall aAxes bAxes (a b : tens),
  (exists y, tensordotApi aAxes bAxes a b = Ok y) <-> (1 <= length (shp a))%nat /\ (1 <= length (shp b))%nat /\ pairable aAxes (shp a) bAxes (shp b).
Proof.
  intros aAxes bAxes a b. split.
  - intros [y E]. destruct (api_inv _ _ _ _ _ E) as [P [L1 L2]]. auto.
  - intros [L1 [L2 P]]. rewrite (api_ok aAxes bAxes a b P L1 L2). eauto.
Qed.
(** The shape that is inferred. *)
Theorem C70_shape : forall aAxes bAxes (a b y : tens), tensordotApi aAxes bAxes a b = Ok y -> shp y = remaining aAxes (shp a) bAxes (shp b).
Proof.
  intros aAxes bAxes a b y E. destruct (api_inv _ _ _ _ _ E) as [P [L1 L2]]. rewrite (api_ok aAxes bAxes a b P L1 L2) in E. injection E as <-. cbn [shp]. unfold remaining. rewrite !drop_without. reflexivity.
Qed.
(** Its entries: a sum over the coordinates along the axes. *)
Lemma pick_placed axes (a : tens) k f (G : list Z -> A) : NoDup axes -> Forall (fun x => (0 <= x < Z.of_nat (length (shp a)))%Z) axes -> inside (gather axes (shp a)) k -> inside (dropAxes axes (shp a)) f ->
  over (shp a) (fun i => if eqShape (gather axes i) k && eqShape (dropAxes axes i) f then G i else 0) = G (placed axes k 0%Z (length (shp a)) f).
Proof.
  intros ND RG Hk Hf. destruct (placed_exists axes (shp a) k f ND RG Hk Hf) as [I1 [I2 I3]]. cbv zeta in *. set (i0 := placed axes k 0%Z (length (shp a)) f) in *.
  rewrite <- (over_pick (shp a) i0 G I1). apply over_ext. intros i Hi.
  replace (eqShape (gather axes i) k && eqShape (dropAxes axes i) f) with (eqShape i0 i); [reflexivity|]. apply eq_bool. rewrite andb_true_iff, !eqShape_iff. split.
  - intros <-. auto.
  - intros [E1 E2]. unfold i0. rewrite <- E1, <- E2. rewrite <- (inside_len _ _ Hi). apply placed_gather. rewrite (inside_len _ _ Hi). exact RG.
Qed.
Theorem C70_value : forall aAxes bAxes (a b y : tens) fa fb, tensordotApi aAxes bAxes a b = Ok y ->
  inside (without aAxes 0%Z (shp a)) fa -> inside (without bAxes 0%Z (shp b)) fb -> at_ y (fa ++ fb) = dot aAxes bAxes a b fa fb.
Proof.
  intros aAxes bAxes a b y fa fb E Ha Hb. destruct (api_inv _ _ _ _ _ E) as [P [L1 L2]]. rewrite (api_ok aAxes bAxes a b P L1 L2) in E. injection E as <-. cbn [at_]. rewrite <- drop_without in Ha, Hb.
  destruct P as [N1 [N2 [R1 [R2 EQ]]]]. unfold dot. rewrite <- over_coords. unfold contract.
  transitivity (over (shp a) (fun i => over (shp b) (fun j => over (gather aAxes (shp a)) (fun k =>
     (if eqShape (gather aAxes i) k && eqShape (dropAxes aAxes i) fa then at_ a i else 0) * (if eqShape (gather bAxes j) k && eqShape (dropAxes bAxes j) fb then at_ b j else 0))))).
  - apply over_ext. intros i Hi. apply over_ext. intros j Hj. change (permuteShape aAxes i) with (gather aAxes i). change (permuteShape bAxes j) with (gather bAxes j).
    pose proof (inside_gather_in aAxes (shp a) i R1 Hi) as GI.
    rewrite <- (over_pick _ (gather aAxes i) (fun k => if eqShape k (gather bAxes j) && eqShape (dropAxes aAxes i ++ dropAxes bAxes j) (fa ++ fb) then at_ a i * at_ b j else 0) GI).
    apply over_ext. intros k Hk.
    assert (S : eqShape (dropAxes aAxes i ++ dropAxes bAxes j) (fa ++ fb) = eqShape (dropAxes aAxes i) fa && eqShape (dropAxes bAxes j) fb).
    { apply eq_bool. rewrite andb_true_iff, !eqShape_iff. split; [|intros [-> ->]; reflexivity]. intro X. apply (join_inj true) in X; [exact X|..].
      - rewrite (inside_len _ _ Ha). apply len_drop, inside_len, Hi.
      - rewrite (inside_len _ _ Hb). apply len_drop, inside_len, Hj. }
    rewrite S. assert (SY : eqShape k (gather bAxes j) = eqShape (gather bAxes j) k) by (apply eq_bool; rewrite !eqShape_iff; split; auto). rewrite SY.
    destruct (eqShape (gather aAxes i) k), (eqShape (gather bAxes j) k), (eqShape (dropAxes aAxes i) fa), (eqShape (dropAxes bAxes j) fb); cbn [andb]; ring.
  - transitivity (over (gather aAxes (shp a)) (fun k => over (shp a) (fun i => over (shp b) (fun j =>
     (if eqShape (gather aAxes i) k && eqShape (dropAxes aAxes i) fa then at_ a i else 0) * (if eqShape (gather bAxes j) k && eqShape (dropAxes bAxes j) fb then at_ b j else 0))))).
    + symmetry. rewrite over_swap. apply over_ext. intros i _. rewrite over_swap. reflexivity.
    + apply over_ext. intros k Hk. rewrite <- (pick_placed aAxes a k fa (at_ a) N1 R1 Hk Ha).
      rewrite <- (pick_placed bAxes b k fb (at_ b) N2 R2 ltac:(rewrite <- EQ; exact Hk) Hb).
      set (B := over (shp b) _). transitivity (over (shp a) (fun i => B * (if eqShape (gather aAxes i) k && eqShape (dropAxes aAxes i) fa then at_ a i else 0))).
      * apply over_ext. intros i _. rewrite over_mul_l. fold B. ring.
      * rewrite over_mul_l. ring.
Qed.

(** The gradient, for any axes in any order, when no axis has size one: what is handed to
    each operand is the adjoint of the map that is linear in that operand. *)
Theorem C70_gradient : forall aAxes bAxes (a b y g : tens), tensordotApi aAxes bAxes a b = Ok y -> no_unit (shp a) -> no_unit (shp b) -> shp g = shp y ->
  exists ga gb, tensordotSymDiff aAxes bAxes a b g = Ok (ga, gb) /\
    (forall a' y', shp a' = shp a -> tensordotApi aAxes bAxes a' b = Ok y' -> pulled_back a' y' g ga) /\
    (forall b' y', shp b' = shp b -> tensordotApi aAxes bAxes a b' = Ok y' -> pulled_back b' y' g gb).
Proof.
  intros aAxes bAxes a b y g E NA NB SG. destruct (api_inv _ _ _ _ _ E) as [P [L1 L2]]. rewrite (api_ok aAxes bAxes a b P L1 L2) in E. injection E as <-. cbn [shp] in SG.
  pose proof P as [N1 [N2 [R1 [R2 EQ]]]]. assert (P' : pairable bAxes (shp b) aAxes (shp a)) by (split; [exact N2|split; [exact N1|split; [exact R2|split; [exact R1|symmetry; exact EQ]]]]).
  destruct (symdiff_one true aAxes bAxes (shp a) b g P NA NB L1 L2 SG) as [ga [E1 [S1 V1]]].
  destruct (symdiff_one false bAxes aAxes (shp b) a g P' NB NA L2 L1 SG) as [gb [E2 [S2 V2]]].
  exists ga, gb. unfold tensordotSymDiff. rewrite E1. cbn [bind]. rewrite E2. cbn [bind]. split; [reflexivity|]. split.
  - intros a' y' Sa E'. rewrite api_ok in E' by (rewrite ?Sa; assumption). injection E' as <-. split; [rewrite S1; auto|]. cbn [shp at_]. rewrite contract_pair by reflexivity. rewrite ip_over. rewrite Sa. apply over_ext. intros i Hi.
    rewrite V1 by exact Hi. rewrite <- over_mul_l. apply over_ext. intros j _. unfold join. destruct (eqShape (gather aAxes i) (gather bAxes j)); ring.
  - intros b' y' Sb E'. rewrite api_ok in E' by (rewrite ?Sb; assumption). injection E' as <-. split; [rewrite S2; auto|]. cbn [shp at_]. rewrite contract_pair by reflexivity. rewrite ip_over. rewrite Sb. rewrite over_swap. apply over_ext. intros j Hj.
    rewrite V2 by exact Hj. rewrite <- over_mul_l. apply over_ext. intros i _. unfold join.
    assert (SY : eqShape (gather aAxes i) (gather bAxes j) = eqShape (gather bAxes j) (gather aAxes i)) by (apply eq_bool; rewrite !eqShape_iff; split; auto). rewrite SY.
    destruct (eqShape (gather bAxes j) (gather aAxes i)); ring.
Qed.

(** ** Axes of size one *)
Lemma scalar_ones s : scalarEquiv s = true <-> Forall (eq 1%Z) s.
Proof. unfold scalarEquiv. rewrite forallb_forall, Forall_forall. split; intros H x Hx; specialize (H x Hx); [apply Z.eqb_eq in H; auto|apply Z.eqb_eq; auto]. Qed.
Lemma transpose_no_panic (t : tens) p : p <> [] -> transposeApi t p <> Panic.
Proof.
  intros NE. unfold transposeApi. destruct (negb (Nat.eqb (length p) 0) && negb (Nat.eqb (length p) (length (shp t)))); [discriminate|].
  destruct (Nat.eqb_spec (length p) 0) as [K|_]; [destruct p; [congruence|discriminate]|]. destruct p as [|x p]; [congruence|]. destruct (eqShape (x :: p) (iota (length (x :: p)))); [discriminate|].
  unfold transposeNode. destruct (shp t); [discriminate|]. destruct (_ || _); discriminate.
Qed.
Lemma hadamard_refused (o g : tens) : scalarEquiv (shp g) = true -> shp g <> [] -> scalarEquiv (shp o) = false -> hadamardProd o g = Err.
Proof.
  intros SG NG SO. unfold hadamardProd, ewiseShape. rewrite SO. cbn [andb]. destruct (shp o) as [|x so] eqn:EO; [discriminate|]. destruct (shp g) as [|z sg] eqn:EG; [congruence|]. rewrite <- EO, <- EG in *.
  assert (H : shapeEq (shp o) (shp g) = false); [|rewrite EO, EG in *; rewrite H; reflexivity].
  assert (D : eqShape (shp o) (shp g) = false) by (apply not_true_iff_false; intro K; apply eqShape_iff in K; rewrite K in SO; congruence).
  apply scalar_ones in SG. rewrite EG in SG. pose proof (Forall_inv SG) as Z1. subst z. rewrite EO, EG in *. clear EO EG.
  destruct so as [|y [|w so]], sg as [|z [|v sg]]; cbn [shapeEq]; try exact D.
  - pose proof (Forall_inv (Forall_inv_tail SG)) as Z2. subst z. reflexivity.
  - destruct (Z.ltb_spec 1 x), (Z.eqb_spec x 1), (Z.ltb_spec 1 y), (Z.eqb_spec y 1); try lia; reflexivity.
Qed.
Lemma ones_side aAxes bAxes (a b y : tens) : tensordotApi aAxes bAxes a b = Ok y -> Forall (eq 1%Z) (shp b) -> Forall (eq 1%Z) (shp y) -> scalarEquiv (shp a) = true.
Proof.
  intros E OB OY. destruct (api_inv _ _ _ _ _ E) as [P [L1 L2]]. rewrite (api_ok _ _ a b P L1 L2) in E. injection E as <-. cbn [shp] in OY. destruct P as [_ [_ [R1 [R2 EG]]]].
  apply scalar_ones, Forall_forall. intros d Hd. destruct (In_nth _ _ 0%Z Hd) as [k [Hk <-]]. rewrite Forall_forall in R1, R2, OB, OY.
  destruct (in_dec Z.eq_dec (Z.of_nat k) aAxes) as [I|I].
  - assert (G : In (nth (Z.to_nat (Z.of_nat k)) (shp a) 0%Z) (gather aAxes (shp a))) by (unfold gather; apply in_map_iff; exists (Z.of_nat k); auto).
    rewrite Nat2Z.id, EG in G. unfold gather in G. apply in_map_iff in G. destruct G as [b0 [G1 G2]]. rewrite <- G1. apply OB. apply nth_In. specialize (R2 _ G2). cbv beta in R2. lia.
  - apply OY. apply in_or_app. left. rewrite drop_gather. unfold gather. apply in_map_iff. exists (Z.of_nat k). rewrite Nat2Z.id. split; [reflexivity|]. apply free_in. split; [lia|exact I].
Qed.
(** Is the output made of axes of size one only, but not a scalar, the gradient is refused. *)
Theorem C70_unit_output_refused : forall aAxes bAxes (a b y g : tens), tensordotApi aAxes bAxes a b = Ok y -> shp g = shp y ->
  shp y <> [] -> Forall (eq 1%Z) (shp y) -> ~ (Forall (eq 1%Z) (shp a) /\ Forall (eq 1%Z) (shp b)) ->
  tensordotSymDiff aAxes bAxes a b g = Err.
Proof.
  intros aAxes bAxes a b y g E SG NY ONE NOT. destruct (api_inv _ _ _ _ _ E) as [P [L1 L2]]. apply scalar_ones in ONE. rewrite <- SG in ONE, NY.
  unfold tensordotSymDiff, tensordotSymDiff1. cbv zeta. rewrite ONE. destruct (scalarEquiv (shp b)) eqn:SB.
  - assert (SA : scalarEquiv (shp a) = false) by (apply not_true_iff_false; intro K; apply NOT; split; apply scalar_ones; assumption).
    exfalso. rewrite (ones_side _ _ a b y E (proj1 (scalar_ones _) SB)) in SA; [discriminate SA|]. apply scalar_ones. rewrite <- SG. exact ONE.
  - rewrite (hadamard_refused b g ONE NY SB). reflexivity.
Qed.
(** Contracting with the only axis, of size one, of a vector is refused as well. *)
Theorem C70_unit_operand_refused : forall k (a b y g : tens), tensordotApi [k] [0%Z] a b = Ok y -> shp b = [1%Z] -> shp g = shp y -> ~ Forall (eq 1%Z) (shp y) ->
  tensordotSymDiff [k] [0%Z] a b g = Err.
Proof.
  intros k a b y g E SB SG NOT. destruct (api_inv _ _ _ _ _ E) as [P [L1 L2]]. rewrite (api_ok _ _ a b P L1 L2) in E. injection E as <-. cbn [shp] in *. pose proof P as [N1 [_ [R1 _]]].
  assert (SE : scalarEquiv (shp g) = false) by (apply not_true_iff_false; intro K; apply NOT; rewrite <- SG; apply scalar_ones, K).
  pose proof (free_len [k] (length (shp a)) N1 R1) as FL. cbn [length] in FL.
  assert (LG : (S (length (shp g)) = length (shp a))%nat) by (rewrite SG, SB, app_length, drop_gather, len_gather; change (dropAxes [0%Z] [1%Z]) with (@nil Z); cbn [length]; lia).
  unfold tensordotSymDiff, tensordotSymDiff1. cbv zeta. rewrite SE. unfold dOtherAxes. rewrite SB. change (scalarEquiv [1%Z]) with true. cbv iota. cbn [length repeat Nat.eqb]. rewrite andb_false_r.
  assert (LP : length (gradPattern [k] [0%Z] (length (shp a))) = length (shp a)) by (unfold gradPattern; rewrite pattern_len; apply len_iota).
  destruct (tensordotApi [0%Z] (dGradAxes true (length (shp g)) 1) b g) as [t| |] eqn:T; cbn [bind]; [|reflexivity|].
  - destruct (api_inv _ _ _ _ _ T) as [P2 [M1 M2]]. rewrite (api_ok _ _ b g P2 M1 M2) in T. injection T as <-. destruct P2 as [_ [N4 [_ [R4 _]]]].
    pose proof (free_len _ _ N4 R4) as FL2.
    assert (LT : length (dropAxes [0%Z] (shp b) ++ dropAxes (dGradAxes true (length (shp g)) 1) (shp g)) <> length (shp a)).
    { rewrite app_length, drop_gather, len_gather, drop_gather, len_gather, SB. change (length (freeAxes [0%Z] (length [1%Z]))) with 0%nat. lia. }
    match goal with |- bind ?X _ = Err => assert (TE : X = Err) end; [|rewrite TE; reflexivity].
    unfold transposeApi. cbn [shp]. rewrite LP. destruct (Nat.eqb_spec (length (shp a)) 0); [lia|].
    match goal with |- context [Nat.eqb (length (shp a)) ?x] => replace (Nat.eqb (length (shp a)) x) with false by (symmetry; apply Nat.eqb_neq; intro K; apply LT; symmetry; exact K) end. reflexivity.
  - exfalso. revert T. destruct (shp g) as [|d sg] eqn:EG; [discriminate|]. rewrite <- EG in *. unfold tensordotApi. rewrite SB. destruct (Nat.ltb _ _ || Nat.ltb _ _); [intro X; discriminate X|].
    destruct (negb _); [intro X; discriminate X|]. destruct (containsDuplicate _ || _); [intro X; discriminate X|]. destruct (existsb _ _); [intro X; discriminate X|]. destruct (existsb _ _); [intro X; discriminate X|].
    unfold dGradAxes, iota. cbn [seq map dimsLoop]. change (Z.of_nat 1) with 1%Z. change (Z.of_nat 0) with 0%Z. change (0 <? 0)%Z with false. destruct (Z.ltb_spec (Z.of_nat (length (shp g)) - 1 + 0) 0) as [K|_]; [rewrite EG in K; cbn [length] in K; lia|]. cbn [orb].
    destruct (Z.eqb _ _); cbn [bind]; [|intro X; discriminate X]. unfold tensordotShape. cbv zeta.
    destruct (Nat.leb _ _) eqn:LE; cbn [bind]; [intro X; discriminate X|]. intros _. apply Nat.leb_gt in LE. rewrite app_length, !map_length in LE. change (length (freeAxes [0%Z] (length [1%Z]))) with 0%nat in LE. cbn [length] in LE.
    assert (NN : NoDup [(Z.of_nat (length (shp g)) - 1 + 0)%Z]) by (constructor; [intros []|constructor]).
    pose proof (free_len [(Z.of_nat (length (shp g)) - 1 + 0)%Z] (length (shp g)) NN) as F2. cbn [length] in F2. 
    assert (X : (1 + length (freeAxes [(Z.of_nat (length (shp g)) - 1 + 0)%Z] (length (shp g))) = length (shp g))%nat) by (apply F2; constructor; [rewrite EG; cbn [length]; lia|constructor]). lia.
Qed.
End Props.
Print Assumptions C70_accepts.
Print Assumptions C70_shape.
Print Assumptions C70_value.
Print Assumptions C70_gradient.
Print Assumptions C70_unit_output_refused.
Print Assumptions C70_unit_operand_refused.

(** ** Concrete cases over the integers *)
(** A tensor whose entry says where it is. *)
Definition numbered (s : list Z) : @tens Z := Tn s (fun idx => 1 + ravel s idx).
(** The entries in row-major order. *)
Definition entries (r : res (@tens Z)) : option (list Z * list Z) :=
  match r with Ok t => Some (shp t, map (at_ t) (coords (shp t))) | _ => None end.
Definition entries2 (r : res (@tens Z * @tens Z)) : option (list Z * list Z * (list Z * list Z)) :=
  match r with Ok (t, u) => Some (shp t, map (at_ t) (coords (shp t)), (shp u, map (at_ u) (coords (shp u)))) | _ => None end.
(** The product of two matrices. *)
Example C70_matrices : entries (tensordotApi [1] [0] (numbered [2; 3]) (numbered [3; 2])) = Some ([2; 2], [22; 28; 49; 64]).
Proof. vm_compute. reflexivity. Qed.
(** Its gradients: the output gradient times the other matrix transposed. *)
Example C70_matrices_gradient : entries2 (tensordotSymDiff [1] [0] (numbered [2; 3]) (numbered [3; 2]) (numbered [2; 2])) =
  Some ([2; 3], [5; 11; 17; 11; 25; 39], ([3; 2], [13; 18; 17; 24; 21; 30])).
Proof. vm_compute. reflexivity. Qed.
(** Two pairs of axes given out of order: the hypotheses of the gradient theorem hold and
    both gradients are there. *)
Example C70_two_axes : exists y ga gb, tensordotApi [2; 0] [0; 2] (numbered [2; 3; 4]) (numbered [4; 5; 2]) = Ok y /\ shp y = [3; 5] /\
  no_unit [2; 3; 4] /\ no_unit [4; 5; 2] /\
  tensordotSymDiff [2; 0] [0; 2] (numbered [2; 3; 4]) (numbered [4; 5; 2]) (numbered [3; 5]) = Ok (ga, gb) /\ shp ga = [2; 3; 4] /\ shp gb = [4; 5; 2] /\
  at_ ga [1; 2; 3] = 11 * 32 + 12 * 34 + 13 * 36 + 14 * 38 + 15 * 40.
Proof.
  eexists. eexists. eexists. split; [reflexivity|]. split; [reflexivity|]. split; [repeat constructor; lia|]. split; [repeat constructor; lia|]. split; [reflexivity|].
  split; [reflexivity|]. split; [reflexivity|]. vm_compute. reflexivity.
Qed.
(** A matrix with one row times a vector: the value is there, the gradient is refused. *)
Example C70_row_refuted : entries (tensordotApi [1] [0] (numbered [1; 3]) (numbered [3])) = Some ([1], [14]) /\
  tensordotSymDiff [1] [0] (numbered [1; 3]) (numbered [3]) (numbered [1]) = Err.
Proof. split; vm_compute; reflexivity. Qed.
Example C70_unit_vector : entries (tensordotApi [1] [0] (numbered [3; 1]) (numbered [1])) = Some ([3], [1; 2; 3]) /\
  tensordotSymDiff [1] [0] (numbered [3; 1]) (numbered [1]) (numbered [3]) = Err.
Proof. split; vm_compute; reflexivity. Qed.
(** A negative axis panics; an axis too many, a duplicate and unequal sizes are errors. *)
Example C70_bad_axes : tensordotApi [-1] [0] (numbered [2; 3]) (numbered [3]) = Panic /\
  tensordotApi [2] [0] (numbered [2; 3]) (numbered [3]) = Err /\ tensordotApi [0] [0] (numbered [2; 3]) (numbered [3]) = Err /\
  tensordotApi [1; 1] [0; 0] (numbered [2; 3]) (numbered [3]) = Err.
Proof. repeat split. Qed.
(** Not every gradient that the code should give is given: *)
Theorem C70_all_shapes_refuted : ~ (forall aAxes bAxes (a b y g : @tens Z), tensordotApi aAxes bAxes a b = Ok y -> shp g = shp y -> exists ga gb, tensordotSymDiff aAxes bAxes a b g = Ok (ga, gb)).
Proof.
  intro H. destruct (H [1] [0] (numbered [1; 3]) (numbered [3]) (Tn [1] (contract [1] [0] (numbered [1; 3]) (numbered [3]))) (numbered [1]) eq_refl eq_refl) as [ga [gb E]].
  rewrite (proj2 C70_row_refuted) in E. discriminate.
Qed.
Print Assumptions C70_all_shapes_refuted.
