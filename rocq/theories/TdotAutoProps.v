(** Property C78: the automatic gradient of Tensordot. *)
From Coq Require Import List ZArith Bool Lia Ring.
From Verif Require Import Sums BroadcastModel BroadcastSpec BroadcastProofs ShapeGradModel ShapeGradSpec ShapeGradProofs ShapeGradSum ReduceModel TdotModel TdotSpec TdotLists TdotProofs TdotProps TdotAutoModel.
Import ListNotations.
Local Open Scope Z_scope.

Section Ring.
Context {A : Type} {CR : CRing A}.
Add Ring Aring : (@cr_th A CR).
Local Open Scope cr_scope.
Notation tens := (@BroadcastModel.tens A).

(** [d'] is [d] with [g] added. *)
Definition raised_by (d g d' : tens) : Prop :=
  shp d' = shp d /\ forall idx, In idx (coords (shp d)) -> at_ d' idx = at_ d idx + at_ g idx.

Lemma iota_perm n : is_perm (iota n) n.
Proof. unfold is_perm. split; [apply len_iota|]. split; [unfold iota; apply FinFun.Injective_map_NoDup; [intros x z; apply Nat2Z.inj|apply seq_NoDup]|]. apply Forall_forall. intros x Hx. apply in_iota in Hx. lia. Qed.
Lemma gather_iota (l : list Z) : gather (iota (length l)) l = l.
Proof. rewrite <- (app_nil_r l) at 2. apply gather_low. Qed.
Lemma scatter_iota (l : list Z) : scatter (iota (length l)) l (repeat 0%Z (length l)) = l.
Proof.
  pose proof (gather_scatter (iota (length l)) (length l) l (iota_perm _) eq_refl) as G.
  set (s := scatter (iota (length l)) l (repeat 0%Z (length l))) in *. assert (L : length s = length l) by (unfold s; rewrite len_scatter, repeat_length; reflexivity).
  rewrite <- L in G. rewrite gather_iota in G. exact G.
Qed.

Lemma libT_ok (t gi : tens) p : p <> [] -> transposeApi t p = Ok gi ->
  exists gi', libT t p = Ok gi' /\ shp gi' = shp gi /\ forall idx, length idx = length (shp gi) -> at_ gi' idx = at_ gi idx.
Proof.
  intros NE. unfold transposeApi, libT. destruct p as [|x p]; [congruence|]. set (q := x :: p). change (Nat.eqb (length q) 0) with false. cbn [negb andb].
  destruct (Nat.eqb_spec (length q) (length (shp t))) as [L|L]; [|discriminate]. cbn [negb orb].
  replace (match q with [] => Panic | _ :: _ => if eqShape q (iota (length q)) then Ok t else transposeNode t q end) with (if eqShape q (iota (length q)) then Ok t else transposeNode t q) by reflexivity.
  destruct (eqShape q (iota (length q))) eqn:I.
  - intro E. injection E as <-. apply eqShape_iff in I. rewrite I, L. rewrite (proj2 (permOk_iff _ _) (iota_perm _)). cbn [negb]. eexists. split; [reflexivity|]. cbn [shp at_].
    split; [apply gather_iota|]. intros idx Hi. rewrite len_iota, <- Hi, scatter_iota. reflexivity.
  - unfold transposeNode. destruct (shp t) as [|d s] eqn:ES; [discriminate|]. rewrite <- ES. rewrite I, orb_false_r. destruct (permOk q (length (shp t))); [|discriminate]. cbn [negb].
    intro E. injection E as <-. eexists. split; [reflexivity|]. split; reflexivity.
Qed.

Lemma add_same (d t : tens) : shp t = shp d -> raised_by d t (addIgnored d t).
Proof.
  intro S. unfold addIgnored, addInto. assert (R : shapeEq (shp d) (shp t) = true).
  { rewrite S. unfold shapeEq. destruct (shp d) as [|x [|y [|z s]]]; apply eqShape_iff; reflexivity. }
  rewrite R. split; [reflexivity|]. intros idx Hi. cbn [at_]. rewrite S, unravel_ravel; [reflexivity|]. apply coords_in, Hi.
Qed.

(** Wherever the symbolic pass gives a gradient for shapes without unit axes, the
    automatic one adds it. *)
Lemma auto_one first iAxes oAxes si (o g d gi : tens) : pairable iAxes si oAxes (shp o) -> no_unit si -> no_unit (shp o) -> (1 <= length si)%nat -> (1 <= length (shp o))%nat ->
  shp g = join first (dropAxes iAxes si) (dropAxes oAxes (shp o)) -> shp d = si ->
  tensordotSymDiff1 first iAxes oAxes si o g = Ok gi -> shp gi = si ->
  exists d', tensordotDoDiff1 first iAxes oAxes si o g d = Ok d' /\ raised_by d gi d'.
Proof.
  intros PA NI NO LI LO SG SD E SI.
  assert (NG : no_unit (shp g)) by (rewrite SG; unfold join, no_unit; destruct first; apply Forall_app; split; apply no_unit_drop; assumption).
  assert (SO : scalarEquiv (shp o) = false) by (apply not_true_iff_false; intro K; apply (no_unit_scalar _ NO) in K; rewrite K in LO; cbn [length] in LO; lia).
  assert (SS : scalarEquiv si = false) by (apply not_true_iff_false; intro K; apply (no_unit_scalar _ NI) in K; rewrite K in LI; cbn [length] in LI; lia).
  unfold tensordotSymDiff1 in E. unfold tensordotDoDiff1. cbv zeta in E |- *. rewrite SS.
  set (p := gradPattern iAxes oAxes (length si)) in *.
  assert (NP : p <> []).
  { intro K. assert (L : length p = length si) by (unfold p, gradPattern; rewrite pattern_len; apply len_iota). rewrite K in L. cbn [length] in L. lia. }
  match type of E with bind ?m _ = _ => destruct m as [t| |] eqn:M; cbn [bind] in E; try discriminate end.
  assert (M' : exists t', (if scalarEquiv (shp g) then Ok (mulScalar o g)
     else if isVector (shp o) && isVector (shp g) && Nat.eqb (length (dOtherAxes oAxes (shp o))) 0 then
          bind (if isColVec (shp o) then Ok o else reshape o [nth 0 (shp o) 0%Z; 1%Z]) (fun o' =>
          bind (if isRowVec (shp g) then Ok g else reshape g [1%Z; nth 0 (shp g) 0%Z]) (fun g' => matMul o' g'))
     else tensorMul (dOtherAxes oAxes (shp o)) (dGradAxes first (length (shp g)) (length (dOtherAxes oAxes (shp o)))) o g) = Ok t' /\ shp t' = shp t /\ forall idx, at_ t' idx = at_ t idx).
  { destruct (scalarEquiv (shp g)) eqn:SE.
    - apply (no_unit_scalar _ NG) in SE. unfold hadamardProd, ewiseShape in M. rewrite SO, SE in M. cbn [andb] in M.
      destruct (shp o) as [|x s] eqn:EO; [cbn [length] in LO; lia|]. cbn [bind] in M. injection M as <-. eexists. split; [reflexivity|]. unfold mulScalar. cbn [shp at_]. rewrite EO, SE. split; [reflexivity|]. intro idx. reflexivity.
    - destruct (isVector (shp o) && isVector (shp g) && Nat.eqb (length (dOtherAxes oAxes (shp o))) 0).
      + exists t. split; [exact M|]. split; reflexivity.
      + destruct (api_inv _ _ _ _ _ M) as [P [L1 L2]]. rewrite (api_ok _ _ o g P L1 L2) in M. injection M as <-. destruct P as [_ [_ [_ [_ EG]]]]. unfold tensorMul.
        assert (L : length (dOtherAxes oAxes (shp o)) = length (dGradAxes first (length (shp g)) (length (dOtherAxes oAxes (shp o))))) by (apply (f_equal (@length Z)) in EG; rewrite !len_gather in EG; exact EG).
        rewrite <- L, Nat.eqb_refl. cbn [andb].
        assert (Q : eqShape (permuteShape (dOtherAxes oAxes (shp o)) (shp o)) (permuteShape (dGradAxes first (length (shp g)) (length (dOtherAxes oAxes (shp o)))) (shp g)) = true) by (apply eqShape_iff; exact EG).
        rewrite Q. eexists. split; [reflexivity|]. split; reflexivity. }
  destruct M' as [t' [-> [ST VT]]]. cbn [bind].
  assert (E' : exists gi0, transposeApi t' p = Ok gi0 /\ shp gi0 = shp gi /\ forall idx, at_ gi0 idx = at_ gi idx).
  { revert E. unfold transposeApi, transposeNode. rewrite ST. destruct (negb _ && negb _); [discriminate|]. destruct (if Nat.eqb (length p) 0 then rev (iota (length (shp t))) else p) as [|x q]; [discriminate|].
    destruct (eqShape (x :: q) (iota (length (x :: q)))).
    - intro E. injection E as <-. exists t'. split; [reflexivity|]. split; [exact ST|exact VT].
    - destruct (shp t) as [|w s]; [discriminate|]. destruct (_ || _); [discriminate|]. intro E. injection E as <-. eexists. split; [reflexivity|]. split; [reflexivity|]. intro idx. cbn [at_]. apply VT. }
  destruct E' as [gi0 [E0 [S0 V0]]]. destruct (libT_ok t' gi0 p NP E0) as [gi' [-> [S' V']]]. cbn [bind].
  eexists. split; [reflexivity|]. destruct (add_same d gi') as [R1 R2]; [congruence|]. split; [exact R1|]. intros idx Hi. rewrite R2 by exact Hi. rewrite V', V0; [reflexivity|].
  rewrite S0, SI, <- SD. apply inside_len, coords_in, Hi.
Qed.

(** For tensors without unit axes the automatic gradient adds, to the derivative of each
    input, what the contraction hands on: the adjoint of the contraction with the other
    input. *)
Theorem C78_gradient : forall aAxes bAxes (a b y g da db : tens),
  tensordotApi aAxes bAxes a b = Ok y -> no_unit (shp a) -> no_unit (shp b) -> shp g = shp y -> shp da = shp a -> shp db = shp b ->
  exists ga gb da' db', tensordotDoDiff aAxes bAxes a b g da db = Ok (da', db') /\
    raised_by da ga da' /\ raised_by db gb db' /\
    (forall a' y', shp a' = shp a -> tensordotApi aAxes bAxes a' b = Ok y' -> pulled_back a' y' g ga) /\
    (forall b' y', shp b' = shp b -> tensordotApi aAxes bAxes a b' = Ok y' -> pulled_back b' y' g gb).
Proof.
  intros aAxes bAxes a b y g da db E NA NB SG SA SB.
  destruct (C70_gradient aAxes bAxes a b y g E NA NB SG) as [ga [gb [D [PA PB]]]].
  destruct (api_inv _ _ _ _ _ E) as [P [L1 L2]]. pose proof E as E'. rewrite (api_ok aAxes bAxes a b P L1 L2) in E'. injection E' as <-. cbn [shp] in SG.
  pose proof P as [N1 [N2 [R1 [R2 EQ]]]]. assert (P' : pairable bAxes (shp b) aAxes (shp a)) by (split; [exact N2|split; [exact N1|split; [exact R2|split; [exact R1|symmetry; exact EQ]]]]).
  destruct (PA a _ eq_refl E) as [Sa _]. destruct (PB b _ eq_refl E) as [Sb _].
  unfold tensordotSymDiff in D. destruct (tensordotSymDiff1 true aAxes bAxes (shp a) b g) as [ga0| |] eqn:D1; cbn [bind] in D; try discriminate.
  destruct (tensordotSymDiff1 false bAxes aAxes (shp b) a g) as [gb0| |] eqn:D2; cbn [bind] in D; try discriminate. injection D as -> ->.
  destruct (auto_one true aAxes bAxes (shp a) b g da ga P NA NB L1 L2 SG SA D1 Sa) as [da' [F1 Q1]].
  destruct (auto_one false bAxes aAxes (shp b) a g db gb P' NB NA L2 L1 SG SB D2 Sb) as [db' [F2 Q2]].
  exists ga, gb, da', db'. split; [|auto]. unfold tensordotDoDiff. rewrite F1. cbn [bind]. rewrite F2. reflexivity.
Qed.

(** A node contracted with itself receives both gradients. *)
Theorem C78_same_node : forall aAxes bAxes (x y g dx : tens),
  tensordotApi aAxes bAxes x x = Ok y -> no_unit (shp x) -> shp g = shp y -> shp dx = shp x ->
  exists ga gb dx', tensordotDoDiffSame aAxes bAxes x g dx = Ok dx' /\ shp dx' = shp x /\
    (forall idx, In idx (coords (shp x)) -> at_ dx' idx = at_ dx idx + at_ ga idx + at_ gb idx) /\
    (forall x' y', shp x' = shp x -> tensordotApi aAxes bAxes x' x = Ok y' -> pulled_back x' y' g ga) /\
    (forall x' y', shp x' = shp x -> tensordotApi aAxes bAxes x x' = Ok y' -> pulled_back x' y' g gb).
Proof.
  intros aAxes bAxes x y g dx E NX SG SX.
  destruct (C70_gradient aAxes bAxes x x y g E NX NX SG) as [ga [gb [D [PA PB]]]].
  destruct (api_inv _ _ _ _ _ E) as [P [L1 _]]. pose proof E as E'. rewrite (api_ok aAxes bAxes x x P L1 L1) in E'. injection E' as <-. cbn [shp] in SG.
  pose proof P as [N1 [N2 [R1 [R2 EQ]]]]. assert (P' : pairable bAxes (shp x) aAxes (shp x)) by (split; [exact N2|split; [exact N1|split; [exact R2|split; [exact R1|symmetry; exact EQ]]]]).
  destruct (PA x _ eq_refl E) as [Sa _]. destruct (PB x _ eq_refl E) as [Sb _].
  unfold tensordotSymDiff in D. destruct (tensordotSymDiff1 true aAxes bAxes (shp x) x g) as [ga0| |] eqn:D1; cbn [bind] in D; try discriminate.
  destruct (tensordotSymDiff1 false bAxes aAxes (shp x) x g) as [gb0| |] eqn:D2; cbn [bind] in D; try discriminate. injection D as -> ->.
  destruct (auto_one true aAxes bAxes (shp x) x g dx ga P NX NX L1 L1 SG SX D1 Sa) as [d1 [F1 [Q1 V1]]].
  destruct (auto_one false bAxes aAxes (shp x) x g d1 gb P' NX NX L1 L1 SG ltac:(congruence) D2 Sb) as [d2 [F2 [Q2 V2]]].
  exists ga, gb, d2. split; [unfold tensordotDoDiffSame; rewrite F1; exact F2|]. split; [congruence|]. split; [|auto].
  intros idx Hi. rewrite V2 by (rewrite Q1, SX; exact Hi). rewrite V1 by (rewrite SX; exact Hi). reflexivity.
Qed.

(** When every axis of both tensors has size one but they have different numbers of axes,
    the call succeeds and adds nothing, although the derivative of the one entry is the
    product of the gradient with the other entry. *)
Lemma ones_scalar n : scalarEquiv (repeat 1%Z n) = true.
Proof. apply scalar_ones, Forall_forall. intros x Hx. apply repeat_spec in Hx. auto. Qed.
Lemma gather_ones p m : Forall (fun a => 0 <= a < Z.of_nat m)%Z p -> gather p (repeat 1%Z m) = repeat 1%Z (length p).
Proof.
  intro F. induction F as [|a p H F IH]; [reflexivity|]. cbn [length repeat gather map]. f_equal; [|exact IH].
  apply (repeat_spec m). apply nth_In. rewrite repeat_length. lia.
Qed.
Lemma lost_one first iAxes oAxes n m (o g d : tens) : shp o = repeat 1%Z m -> scalarEquiv (shp g) = true -> shp d = repeat 1%Z n -> n <> m ->
  tensordotDoDiff1 first iAxes oAxes (repeat 1%Z n) o g d = Ok d.
Proof.
  intros SO SG SD NM. unfold tensordotDoDiff1. rewrite ones_scalar, SG. cbv zeta. cbn [bind]. unfold libT. change (Nat.eqb (length (@nil Z)) 0) with true. cbv iota.
  unfold mulScalar. cbn [shp]. rewrite SO, repeat_length.
  pose proof (rev_iota_perm m) as RP. rewrite (proj2 (permOk_iff _ _) RP). destruct RP as [L [_ F]]. rewrite L, Nat.eqb_refl. cbn [negb orb bind]. f_equal.
  unfold addIgnored, addInto. cbn [shp]. rewrite SD. change (permuteShape (rev (iota m)) (repeat 1%Z m)) with (gather (rev (iota m)) (repeat 1%Z m)). rewrite gather_ones by exact F. rewrite L.
  assert (Q : shapeEq (repeat 1%Z n) (repeat 1%Z m) = false); [|rewrite Q; reflexivity].
  assert (QE : eqShape (repeat 1%Z n) (repeat 1%Z m) = false).
  { apply not_true_iff_false. intro K. apply eqShape_iff in K. apply (f_equal (@length Z)) in K. rewrite !repeat_length in K. contradiction. }
  destruct n as [|[|[|n]]], m as [|[|[|m]]]; try exact QE; reflexivity.
Qed.
Theorem C78_unit_axes_lost : forall n m aAxes bAxes (a b y g da db : tens),
  shp a = repeat 1%Z n -> shp b = repeat 1%Z m -> n <> m -> tensordotApi aAxes bAxes a b = Ok y -> shp g = shp y -> shp da = shp a -> shp db = shp b ->
  tensordotDoDiff aAxes bAxes a b g da db = Ok (da, db).
Proof.
  intros n m aAxes bAxes a b y g da db SA SB NM E SG Sa Sb.
  assert (S1 : scalarEquiv (shp g) = true).
  { destruct (api_inv _ _ _ _ _ E) as [P [L1 L2]]. rewrite (api_ok aAxes bAxes a b P L1 L2) in E. injection E as <-. rewrite SG. cbn [shp]. apply scalar_ones, Forall_app.
    rewrite SA, SB, !drop_gather, !repeat_length.
    split; apply Forall_forall; intros x Hx; apply in_map_iff in Hx; destruct Hx as [k [<- Hk]]; apply free_in in Hk; symmetry; eapply repeat_spec, nth_In; rewrite repeat_length; lia. }
  unfold tensordotDoDiff. rewrite SA, SB. rewrite (lost_one true aAxes bAxes n m b g da SB S1) by congruence. cbn [bind].
  rewrite (lost_one false bAxes aAxes m n a g db SA S1) by congruence. reflexivity.
Qed.
End Ring.
Print Assumptions C78_gradient.
Print Assumptions C78_same_node.
Print Assumptions C78_unit_axes_lost.

(** So a gradient is lost: the derivative of 5 * 7 with respect to the 5 is 7, not 0. *)
Theorem C78_unit_axes_lost_refuted : exists (a b y g da db da' db' : @tens Z),
  tensordotApi [1] [0] a b = Ok y /\ shp g = shp y /\ shp da = shp a /\ shp db = shp b /\
  tensordotDoDiff [1] [0] a b g da db = Ok (da', db') /\
  ~ (exists ga, raised_by da ga da' /\ forall a' y', shp a' = shp a -> tensordotApi [1] [0] a' b = Ok y' -> pulled_back a' y' g ga).
Proof.
  set (a := Tn [1; 1] (fun _ => 5)). set (b := Tn [1] (fun _ => 7)). set (da := Tn [1; 1] (fun _ => 0)). set (db := Tn [1] (fun _ => 0)). set (g := Tn [1] (fun _ => 1)).
  assert (E : tensordotApi [1] [0] a b = Ok (Tn [1] (contract [1] [0] a b))) by reflexivity.
  exists a, b, (Tn [1] (contract [1] [0] a b)), g, da, db, da, db.
  split; [exact E|]. split; [reflexivity|]. split; [reflexivity|]. split; [reflexivity|].
  split; [apply (C78_unit_axes_lost 2 1 [1] [0] a b _ g da db eq_refl eq_refl ltac:(lia) E eq_refl eq_refl eq_refl)|].
  intros [ga [[_ R] P]]. specialize (P a _ eq_refl E). destruct P as [_ P]. specialize (R [0; 0] (or_introl eq_refl)). change (0 = 0 + at_ ga [0; 0]) in R.
  assert (Z0 : at_ ga [0; 0] = 0) by lia. vm_compute in P. destruct ga as [s f]. cbn [at_] in Z0. rewrite Z0 in P. discriminate.
Qed.
Print Assumptions C78_unit_axes_lost_refuted.

(** Matrices: the derivatives start at 100 and receive what C70_matrices_gradient shows. *)
Example C78_matrices : entries2 (tensordotDoDiff [1] [0] (numbered [2; 3]) (numbered [3; 2]) (numbered [2; 2]) (Tn [2; 3] (fun _ => 100)) (Tn [3; 2] (fun _ => 100))) =
  Some ([2; 3], [105; 111; 117; 111; 125; 139], ([3; 2], [113; 118; 117; 124; 121; 130])) /\ no_unit [2; 3] /\ no_unit [3; 2].
Proof. split; [vm_compute; reflexivity|]. split; repeat constructor; lia. Qed.
(** The sum of the squares of a vector: its gradient is twice the vector. *)
Example C78_squares : entries (tensordotDoDiffSame [0] [0] (numbered [4]) (Tn [] (fun _ => 1)) (Tn [4] (fun _ => 0))) = Some ([4], [2; 4; 6; 8]).
Proof. vm_compute. reflexivity. Qed.
