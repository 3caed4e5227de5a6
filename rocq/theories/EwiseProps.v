(** C71 and C72: elementwise binary arithmetic on tensors and scalars, its symbolic and its
    automatic gradient. *)
From Coq Require Import List ZArith Reals Bool Lia Lra Psatz.
From Verif Require Import Sums BroadcastModel BroadcastSpec BroadcastProofs ShapeGradModel ShapeGradSpec ShapeGradProofs ReduceModel SoftmaxSpec SoftmaxProofs EwiseModel EwiseSpec EwiseProofs EwiseAuto.
Import ListNotations.
Local Open Scope R_scope.

(** ** C71 *)
(** The value: entry by entry, a scalar with every entry. *)
Theorem C71_value o (x y : @tens R) : mixable (shp x) (shp y) ->
  exists z, ewise (opR o) x y = Ok z /\ same z (applied o x y).
Proof.
  intro M. destruct (ewise_mix (opR o) x y M) as [z [E [S V]]]. exists z. split; [exact E|]. split; [exact S|]. intros idx Hi. apply coords_in in Hi.
  rewrite <- entry_full by exact Hi. rewrite S in Hi. rewrite V by exact Hi. cbn [applied at_]. apply opR_meant.
Qed.
Print Assumptions C71_value.

(** SymDiff hands each operand its gradient, of the operand's shape; a scalar gets the sum
    over all entries. *)
Theorem C71_gradient o (x y z g : @tens R) : mixable (shp x) (shp y) -> positive (shp x) -> positive (shp y) -> smooth o x y ->
  ewise (opR o) x y = Ok z -> shp g = shp z ->
  exists gx gy, ewiseSymDiff o x y z g = Ok (gx, gy) /\
    gradient_at (fun x' => applied o x' y) x g gx /\ gradient_at (fun y' => applied o x y') y g gy.
Proof.
  intros M PX PY SM Ez Sg. destruct (ewise_mix (opR o) x y M) as [z' [E [S V]]]. rewrite E in Ez. injection Ez as ->. rewrite S in Sg. set (J := joined (shp x) (shp y)) in *.
  assert (PJ : positive J) by (unfold J, joined; destruct (shp x); assumption).
  assert (HX : shp x = J \/ shp x = []) by (unfold J, joined; destruct (shp x); auto).
  assert (HY : shp y = J \/ shp y = []) by (unfold J; rewrite joined_sym by exact M; unfold joined; destruct (shp y); auto).
  destruct (exprs_ok o x y z g M SM S Sg) as [px [py [E1 [S1 [S2 V1]]]]]. { intros idx Hi. rewrite V by exact Hi. apply opR_meant. } fold J in S1, S2, V1.
  unfold ewiseSymDiff. rewrite E1. cbn [bind fst snd].
  destruct (sumScalar_ok x px J HX S1 PJ) as [gx [E2 [S3 [A1 A2]]]]. rewrite E2. cbn [bind].
  destruct (sumScalar_ok y py J HY S2 PJ) as [gy [E3 [S4 [B1 B2]]]]. rewrite E3. cbn [bind]. exists gx, gy. split; [reflexivity|]. split.
  - split; [exact S3|]. intro u. cbn [applied shp]. fold J.
    apply (d_ext (fun h => @ip R CRing_R J (fun idx => meant o (entry (moved x u h) idx) (entry y idx)) (at_ g))); [intro h; reflexivity|].
    apply (lift J x g gx (fun idx v => meant o v (entry y idx)) (fun idx => partial1 o (entry x idx) (entry y idx)) HX).
    + intros idx Hi. apply partial1_ok. apply SM. exact Hi.
    + intro EX. rewrite A1 by exact EX. apply over_ext. intros idx Hi. rewrite (proj1 (V1 idx Hi)). f_equal. apply entry_full. rewrite Sg. exact Hi.
    + intros NX idx Hi. rewrite A2 by (try exact NX; exact Hi). rewrite (proj1 (V1 idx Hi)). f_equal. apply entry_full. rewrite Sg. exact Hi.
  - split; [exact S4|]. intro u. cbn [applied shp]. fold J.
    apply (d_ext (fun h => @ip R CRing_R J (fun idx => meant o (entry x idx) (entry (moved y u h) idx)) (at_ g))); [intro h; reflexivity|].
    apply (lift J y g gy (fun idx v => meant o (entry x idx) v) (fun idx => partial2 o (entry x idx) (entry y idx)) HY).
    + intros idx Hi. apply partial2_ok. apply SM. exact Hi.
    + intro EY. rewrite B1 by exact EY. apply over_ext. intros idx Hi. rewrite (proj2 (V1 idx Hi)). f_equal. apply entry_full. rewrite Sg. exact Hi.
    + intros NY idx Hi. rewrite B2 by (try exact NY; exact Hi). rewrite (proj2 (V1 idx Hi)). f_equal. apply entry_full. rewrite Sg. exact Hi.
Qed.
Print Assumptions C71_gradient.

(** A vector and a column of as many entries are accepted as equal shapes; then the
    gradient handed to the vector is a column, for every operation. *)
Lemma ewise_shape f (a b : tensR) s : ewiseShape (shp a) (shp b) = Ok s -> exists c, ewise f a b = Ok c /\ shp c = s.
Proof. intro H. unfold ewise. rewrite H. cbn [bind]. eexists. split; reflexivity. Qed.
Section Column.
Local Open Scope Z_scope.
Lemma vec_col n : 2 <= n -> ewiseShape [n] [n; 1] = Ok [n; 1] /\ ewiseShape [n; 1] [n] = Ok [n; 1] /\ ewiseShape [n; 1] [n; 1] = Ok [n; 1] /\ ewiseShape [n] [] = Ok [n] /\ ewiseShape [n; 1] [] = Ok [n; 1].
Proof.
  intro H. unfold ewiseShape, scalarEquiv. cbn [forallb]. replace (n =? 1) with false by lia. cbn [andb].
  unfold shapeEq. cbn. rewrite ?Z.eqb_refl. replace (1 <? n) with true by lia. rewrite ?eqShape_refl. repeat split; reflexivity.
Qed.
End Column.
Theorem C71_vector_and_column o n (x y z g : @tens R) : (2 <= n)%Z -> shp x = [n] -> shp y = [n; 1%Z] -> ewise (opR o) x y = Ok z -> shp g = shp z ->
  exists gx gy, ewiseSymDiff o x y z g = Ok (gx, gy) /\ shp gx = [n; 1%Z] /\ shp gy = [n; 1%Z].
Proof.
  intros Hn Sx Sy Ez Sg. destruct (vec_col n Hn) as [W1 [W2 [W3 [W4 W5]]]].
  assert (Sz : shp z = [n; 1%Z]). { unfold ewise in Ez. rewrite Sx, Sy, W1 in Ez. cbn [bind] in Ez. injection Ez as <-. reflexivity. }
  rewrite Sz in Sg. assert (D : exists px py, diffExprs o x y z g = Ok (px, py) /\ shp px = [n; 1%Z] /\ shp py = [n; 1%Z]).
  { destruct o; cbn [diffExprs].
    - exists g, g. auto.
    - exists g, (mapT Ropp g). auto.
    - destruct (ewise_shape Rmult y g [n; 1%Z]) as [c [E1 S1]]; [congruence|]. destruct (ewise_shape Rmult x g [n; 1%Z]) as [d [E2 S2]]; [congruence|]. rewrite E1, E2. cbn [bind]. eauto.
    - destruct (ewise_shape Rdiv g y [n; 1%Z]) as [c [E1 S1]]; [congruence|]. destruct (ewise_shape Rdiv z y [n; 1%Z]) as [q [E2 S2]]; [congruence|]. rewrite E1, E2. cbn [bind].
      destruct (ewise_shape Rmult (mapT Ropp q) g [n; 1%Z]) as [d [E3 S3]]; [cbn [mapT shp]; congruence|]. rewrite E3. cbn [bind]. eauto.
    - destruct (ewise_shape Rminus y oneT [n; 1%Z]) as [m [E1 S1]]; [cbn [oneT shp]; congruence|]. destruct (ewise_shape Rpower x m [n; 1%Z]) as [p [E2 S2]]; [congruence|].
      destruct (ewise_shape Rmult g y [n; 1%Z]) as [c [E3 S3]]; [congruence|]. destruct (ewise_shape Rmult c p [n; 1%Z]) as [d [E4 S4]]; [congruence|].
      destruct (ewise_shape Rmult g z [n; 1%Z]) as [e [E5 S5]]; [congruence|]. destruct (ewise_shape Rmult e (mapT ln x) [n; 1%Z]) as [f [E6 S6]]; [cbn [mapT shp]; congruence|].
      rewrite E1. cbn [bind]. rewrite E2, E3. cbn [bind]. rewrite E4, E5. cbn [bind]. rewrite E6. cbn [bind]. eauto. }
  destruct D as [px [py [E1 [S1 S2]]]]. exists px, py. unfold ewiseSymDiff. rewrite E1. cbn [bind fst snd]. unfold sumScalar. rewrite Sx, Sy. cbn [bind]. auto.
Qed.
Print Assumptions C71_vector_and_column.
Theorem C71_accepted_operands_refuted : ~ (forall o (x y z g : @tens R), positive (shp x) -> positive (shp y) -> smooth o x y -> ewise (opR o) x y = Ok z -> shp g = shp z ->
  exists gx gy, ewiseSymDiff o x y z g = Ok (gx, gy) /\ shp gx = shp x /\ shp gy = shp y).
Proof.
  intro H. set (x := Tn [2%Z] (fun _ => 1) : tensR). set (y := Tn [2%Z; 1%Z] (fun _ => 1) : tensR).
  destruct (ewise_shape (opR OAdd) x y [2%Z; 1%Z]) as [z [Ez Sz]]; [apply (vec_col 2); lia|].
  destruct (H OAdd x y z z) as [gx [gy [E [S1 S2]]]]; [repeat (constructor; [lia|]); constructor|repeat (constructor; [lia|]); constructor|intros idx _; exact I|exact Ez|reflexivity|].
  destruct (C71_vector_and_column OAdd 2 x y z z) as [gx' [gy' [E' [S1' _]]]]; [lia|reflexivity|reflexivity|exact Ez|reflexivity|].
  rewrite E in E'. injection E' as -> ->. rewrite S1 in S1'. discriminate.
Qed.
Print Assumptions C71_accepted_operands_refuted.

(** A scalar to the power of a matrix: the operands of the theorems. *)
Example C71_ex : exists (x y z g gx gy : @tens R), shp x = [] /\ shp y = [2%Z; 3%Z] /\ smooth OPow x y /\ ewise (opR OPow) x y = Ok z /\ ewiseSymDiff OPow x y z g = Ok (gx, gy) /\
  shp gx = [] /\ gradient_at (fun x' => applied OPow x' y) x g gx.
Proof.
  set (x := Tn [] (fun _ => 2) : tensR). set (y := Tn [2%Z; 3%Z] (fun idx => IZR (nth 0 idx 0%Z + nth 1 idx 0%Z)) : tensR).
  destruct (C71_value OPow x y) as [z [Ez [Sz _]]]; [right; left; reflexivity|].
  assert (SM : smooth OPow x y) by (intros idx _; cbn; lra).
  destruct (C71_gradient OPow x y z (Tn [2%Z; 3%Z] (fun _ => 1))) as [gx [gy [E [G1 G2]]]]; [right; left; reflexivity|constructor|repeat (constructor; [lia|]); constructor|exact SM|exact Ez|rewrite Sz; reflexivity|].
  exists x, y, z, (Tn [2%Z; 3%Z] (fun _ => 1)), gx, gy. split; [reflexivity|]. split; [reflexivity|]. split; [exact SM|]. split; [exact Ez|]. split; [exact E|]. split; [apply G1|exact G1].
Qed.

(** ** C72 *)
(** The partial derivatives used below are those of the operation. *)
Theorem C72_partials o a b : smooth_at o a b ->
  derivable_pt_lim (fun t => meant o t b) a (partial1 o a b) /\ derivable_pt_lim (fun t => meant o a t) b (partial2 o a b).
Proof. intro H. split; [apply partial1_ok|apply partial2_ok]; exact H. Qed.
Print Assumptions C72_partials.

(** Two tensors: every entry's derivative grows by the partial derivative times the
    output's; so do two scalars'. *)
Theorem C72_tensors o n (x y z dx dy dz : list R) : length x = n -> length y = n -> length z = n -> length dx = n -> length dy = n -> length dz = n ->
  (forall i, (i < n)%nat -> smooth_at o (item x i) (item y i) /\ item z i = meant o (item x i) (item y i)) ->
  exists dx' dy', ewiseDoDiff o (Te x) (Te y) (Te z) (Dv (Te dx) (Te dy) (Te dz)) = Ok (Dv (Te dx') (Te dy') (Te dz)) /\ length dx' = n /\ length dy' = n /\
    forall i, (i < n)%nat -> item dx' i = item dx i + partial1 o (item x i) (item y i) * item dz i /\ item dy' i = item dy i + partial2 o (item x i) (item y i) * item dz i.
Proof.
  intros L1 L2 L3 L4 L5 L6 H. pose proof (both_tab o n (item x) (item y) (item z) (item dx) (item dy) (item dz) (fun i Hi => proj1 (H i Hi)) (fun i Hi => proj2 (H i Hi))) as K.
  rewrite <- L1 in K at 1. rewrite <- L2 in K at 1. rewrite <- L3 in K at 1. rewrite <- L4 in K at 1. rewrite <- L5 in K at 1. rewrite <- L6 in K at 1. rewrite !tab_of in K.
  rewrite <- L6 in K at 3. rewrite !tab_of in K. eexists. eexists. split; [exact K|]. split; [apply tab_len|]. split; [apply tab_len|]. intros i Hi. rewrite !tab_item by exact Hi. split; reflexivity.
Qed.
Print Assumptions C72_tensors.
Theorem C72_scalars o x y z dx dy dz : smooth_at o x y -> z = meant o x y ->
  ewiseDoDiff o (Sc x) (Sc y) (Sc z) (Dv (Sc dx) (Sc dy) (Sc dz)) = Ok (Dv (Sc (dx + partial1 o x y * dz)) (Sc (dy + partial2 o x y * dz)) (Sc dz)).
Proof. apply scalars. Qed.
Print Assumptions C72_scalars.

(** A scalar first and a tensor of [n] entries: the scalar's former derivative is counted
    [n] times. Add also adds it to every derivative of the tensor, Add and Sub to the
    output's own. *)
Theorem C72_scalar_first o n s dx (y z dy dz : list R) : (2 <= n)%nat -> length y = n -> length z = n -> length dy = n -> length dz = n ->
  (forall i, (i < n)%nat -> smooth_at o s (item y i) /\ item z i = meant o s (item y i)) ->
  exists dx' dy' dz', ewiseDoDiff o (Sc s) (Te y) (Te z) (Dv (Sc dx) (Te dy) (Te dz)) = Ok (Dv (Sc dx') (Te dy') (Te dz')) /\ length dy' = n /\ length dz' = n /\
    dx' = INR n * dx + total n (fun i => partial1 o s (item y i) * item dz i) /\
    forall i, (i < n)%nat -> item dy' i = item dy i + partial2 o s (item y i) * item dz i + match o with OAdd => dx | _ => 0 end /\
      item dz' i = item dz i + match o with OAdd | OSub => dx | _ => 0 end.
Proof.
  intros _ L2 L3 L5 L6 H. pose proof (left_tab o n s dx (item y) (item z) (item dy) (item dz) (fun i Hi => proj1 (H i Hi)) (fun i Hi => proj2 (H i Hi))) as K.
  rewrite <- L2 in K at 1. rewrite <- L3 in K at 1. rewrite <- L5 in K at 1. rewrite <- L6 in K at 1. rewrite !tab_of in K.
  eexists. eexists. eexists. split; [exact K|]. split; [apply tab_len|]. split; [apply tab_len|]. split; [reflexivity|]. intros i Hi. rewrite !tab_item by exact Hi. split; reflexivity.
Qed.
Print Assumptions C72_scalar_first.
(** A tensor first and a scalar (no power). *)
Theorem C72_scalar_second o n s dy (x z dx dz : list R) : (2 <= n)%nat -> o <> OPow -> length x = n -> length z = n -> length dx = n -> length dz = n ->
  (forall i, (i < n)%nat -> smooth_at o (item x i) s /\ item z i = meant o (item x i) s) ->
  exists dx' dy' dz', ewiseDoDiff o (Te x) (Sc s) (Te z) (Dv (Te dx) (Sc dy) (Te dz)) = Ok (Dv (Te dx') (Sc dy') (Te dz')) /\ length dx' = n /\ length dz' = n /\
    dy' = INR n * dy + total n (fun i => partial2 o (item x i) s * item dz i) /\
    forall i, (i < n)%nat -> item dx' i = item dx i + partial1 o (item x i) s * item dz i /\ item dz' i = item dz i + match o with OAdd => dy | _ => 0 end.
Proof.
  intros _ NP L2 L3 L5 L6 H. pose proof (right_tab o n (item x) s (item z) (item dx) dy (item dz) NP (fun i Hi => proj1 (H i Hi)) (fun i Hi => proj2 (H i Hi))) as K.
  rewrite <- L2 in K at 1. rewrite <- L3 in K at 1. rewrite <- L5 in K at 1. rewrite <- L6 in K at 1. rewrite !tab_of in K.
  eexists. eexists. eexists. split; [exact K|]. split; [apply tab_len|]. split; [apply tab_len|]. split; [reflexivity|]. intros i Hi. rewrite !tab_item by exact Hi. split; reflexivity.
Qed.
Print Assumptions C72_scalar_second.
(** The first operation that uses a scalar (its derivative is still 0) gets everything right. *)
Theorem C72_first_use o n s (t z dt dz : list R) : (2 <= n)%nat -> length t = n -> length z = n -> length dt = n -> length dz = n ->
  ((forall i, (i < n)%nat -> smooth_at o s (item t i) /\ item z i = meant o s (item t i)) ->
   exists dt', ewiseDoDiff o (Sc s) (Te t) (Te z) (Dv (Sc 0) (Te dt) (Te dz)) = Ok (Dv (Sc (total n (fun i => partial1 o s (item t i) * item dz i))) (Te dt') (Te dz)) /\ length dt' = n /\
     forall i, (i < n)%nat -> item dt' i = item dt i + partial2 o s (item t i) * item dz i) /\
  (o <> OPow -> (forall i, (i < n)%nat -> smooth_at o (item t i) s /\ item z i = meant o (item t i) s) ->
   exists dt', ewiseDoDiff o (Te t) (Sc s) (Te z) (Dv (Te dt) (Sc 0) (Te dz)) = Ok (Dv (Te dt') (Sc (total n (fun i => partial2 o (item t i) s * item dz i))) (Te dz)) /\ length dt' = n /\
     forall i, (i < n)%nat -> item dt' i = item dt i + partial1 o (item t i) s * item dz i).
Proof.
  intros Hn L2 L3 L5 L6.
  assert (EQ : forall l : list R, length l = n -> (forall i, (i < n)%nat -> item l i = item dz i + 0) -> l = dz).
  { intros l Ll H. apply nth_ext with (d := 0) (d' := 0); [congruence|]. intros i Hi. fold (item l i) (item dz i). rewrite H by (rewrite <- Ll; exact Hi). ring. }
  split.
  - intro H. destruct (C72_scalar_first o n s 0 t z dt dz Hn L2 L3 L5 L6 H) as [dx' [dy' [dz' [E [M1 [M2 [V W]]]]]]].
    assert (dz' = dz) as ->. { apply EQ; [exact M2|]. intros i Hi. rewrite (proj2 (W i Hi)). destruct o; reflexivity. }
    exists dy'. split; [rewrite E, V; do 3 f_equal; ring|]. split; [exact M1|]. intros i Hi. rewrite (proj1 (W i Hi)). destruct o; ring.
  - intros NP H. destruct (C72_scalar_second o n s 0 t z dt dz Hn NP L2 L3 L5 L6 H) as [dx' [dy' [dz' [E [M1 [M2 [V W]]]]]]].
    assert (dz' = dz) as ->. { apply EQ; [exact M2|]. intros i Hi. rewrite (proj2 (W i Hi)). destruct o; reflexivity. }
    exists dx'. split; [rewrite E, V; do 3 f_equal; ring|]. split; [exact M1|]. intros i Hi. exact (proj1 (W i Hi)).
Qed.
Print Assumptions C72_first_use.
(** A scalar [s] used in two operations [o2 s t2] and then, going backwards, [o1 s t1]: it
    ends up with [n1] times the contribution of the first plus that of the second. *)
Theorem C72_two_uses o1 o2 n1 n2 s (t1 z1 d1 g1 t2 z2 d2 g2 : list R) : (2 <= n1)%nat -> (2 <= n2)%nat ->
  length t1 = n1 -> length z1 = n1 -> length d1 = n1 -> length g1 = n1 -> length t2 = n2 -> length z2 = n2 -> length d2 = n2 -> length g2 = n2 ->
  (forall i, (i < n1)%nat -> smooth_at o1 s (item t1 i) /\ item z1 i = meant o1 s (item t1 i)) ->
  (forall i, (i < n2)%nat -> smooth_at o2 s (item t2 i) /\ item z2 i = meant o2 s (item t2 i)) ->
  exists e f e' f' ds, ewiseDoDiff o2 (Sc s) (Te t2) (Te z2) (Dv (Sc 0) (Te d2) (Te g2)) = Ok (Dv ds e f) /\
    ewiseDoDiff o1 (Sc s) (Te t1) (Te z1) (Dv ds (Te d1) (Te g1)) =
      Ok (Dv (Sc (INR n1 * total n2 (fun i => partial1 o2 s (item t2 i) * item g2 i) + total n1 (fun i => partial1 o1 s (item t1 i) * item g1 i))) e' f').
Proof.
  intros N1 N2 A1 A2 A3 A4 B1 B2 B3 B4 H1 H2. destruct (C72_first_use o2 n2 s t2 z2 d2 g2 N2 B1 B2 B3 B4) as [F _]. destruct (F H2) as [e [E _]].
  destruct (C72_scalar_first o1 n1 s (total n2 (fun i => partial1 o2 s (item t2 i) * item g2 i)) t1 z1 d1 g1 N1 A1 A2 A3 A4 H1) as [dx' [dy' [dz' [E' [_ [_ [-> _]]]]]]].
  eexists. eexists. eexists. eexists. eexists. split; [exact E|exact E'].
Qed.
Print Assumptions C72_two_uses.
(** So derivatives are not accumulated rightly. *)
Theorem C72_accumulation_refuted : ~ (forall o n s dx (y z dy dz : list R), (2 <= n)%nat -> length y = n -> length z = n -> length dy = n -> length dz = n ->
  (forall i, (i < n)%nat -> smooth_at o s (item y i) /\ item z i = meant o s (item y i)) ->
  exists e f, ewiseDoDiff o (Sc s) (Te y) (Te z) (Dv (Sc dx) (Te dy) (Te dz)) = Ok (Dv (Sc (dx + total n (fun i => partial1 o s (item y i) * item dz i))) e f)).
Proof.
  intro H. set (P := fun i => (i < 2)%nat -> smooth_at OMul 3 (item [1; 2] i) /\ item [3; 6] i = meant OMul 3 (item [1; 2] i)).
  assert (HP : forall i, P i). { intros [|[|i]] Hi; [| |lia]; cbn; split; try exact I; lra. }
  destruct (H OMul 2%nat 3 1 [1; 2] [3; 6] [0; 0] [1; 1]) as [e [f E]]; try reflexivity; [exact HP|].
  destruct (C72_scalar_first OMul 2 3 1 [1; 2] [3; 6] [0; 0] [1; 1]) as [dx' [dy' [dz' [E' [_ [_ [V _]]]]]]]; try reflexivity; [exact HP|].
  rewrite E in E'. injection E' as E' _ _. rewrite <- E' in V. cbn in V. lra.
Qed.
Print Assumptions C72_accumulation_refuted.
(** A tensor to the power of a scalar has no automatic gradient: an error, always. *)
Theorem C72_scalar_exponent_fails (x z dx dz : list R) s dy :
  ewiseDoDiff OPow (Te x) (Sc s) (Te z) (Dv (Te dx) (Sc dy) (Te dz)) = Err.
Proof. reflexivity. Qed.
Print Assumptions C72_scalar_exponent_fails.

(** 3 * [1; 2], the scalar's derivative being 1 before: 2 * 1 + (1 + 2) and not 1 + 3. *)
Example C72_ex : exists dx' dy' dz', ewiseDoDiff OMul (Sc 3) (Te [1; 2]) (Te [3; 6]) (Dv (Sc 1) (Te [0; 0]) (Te [1; 1])) = Ok (Dv (Sc dx') dy' dz') /\ dx' = 5.
Proof. eexists. eexists. eexists. split; [reflexivity|]. cbn. lra. Qed.
