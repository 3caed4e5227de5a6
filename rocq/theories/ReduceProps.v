(** C64: Max and its gradient. C65: Mean. C66: Norm. *)
From Coq Require Import List ZArith Reals Bool Lia Lra Sorted.
From Verif Require Import Sums BroadcastModel BroadcastSpec BroadcastProofs BroadcastProps ShapeGradModel ShapeGradSpec ShapeGradProofs ShapeGradSum ShapeGradProps ReduceModel ReduceSpec ReduceProofs ReduceFlow.
Import ListNotations.
Local Open Scope Z_scope.

Lemma axes_facts s along : reducible s along -> axes_of s along <> [] /\ Forall (fun a => 0 <= a < Z.of_nat (length s)) (axes_of s along).
Proof.
  intros [HN [HP [ND HF]]]. unfold axes_of. destruct along as [|a along]; [|split; [discriminate|exact HF]]. split.
  - destruct s; [contradiction|discriminate].
  - apply Forall_forall. intros i Hi. apply in_map_iff in Hi. destruct Hi as [k [<- Hk]]. apply in_seq in Hk. lia.
Qed.
Lemma axes_nodup s along : reducible s along -> NoDup (axes_of s along).
Proof. intros [_ [_ [ND _]]]. unfold axes_of. destruct along; [apply iota_nodup|exact ND]. Qed.
Lemma maxApi_node (x : tensR) along : shp x <> [] -> maxApi x along = maxNode x (axes_of (shp x) along).
Proof. intro H. unfold maxApi, axes_of, iota. destruct (shp x); [contradiction|]. destruct along; reflexivity. Qed.

(** ** C64 *)
(** Max takes the largest entry of every group, and its symbolic gradient hands the
    gradient of a group to each of its largest entries and 0 to the others. *)
Theorem C64_gradient : forall (x : tensR) along, reducible (shp x) along -> (length (shp x) <= 4)%nat ->
  let axes := axes_of (shp x) along in
  exists y, maxApi x along = Ok y /\ shp y = without axes 0 (shp x) /\
    (forall idx, In idx (coords (shp y)) -> is_largest (map (at_ x) (group (shp x) axes idx)) (at_ y idx)) /\
    forall g, shp g = shp y -> exists gx, maxSymDiff axes x y g = Ok gx /\ shp gx = shp x /\
      forall idx, In idx (coords (shp x)) ->
        (at_ x idx = at_ y (without axes 0 idx) -> at_ gx idx = at_ g (without axes 0 idx)) /\
        (at_ x idx <> at_ y (without axes 0 idx) -> at_ gx idx = 0%R).
Proof.
  intros x along HR H4 axes. destruct (axes_facts _ _ HR) as [AN AF]. pose proof HR as [HN [HP _]]. destruct (max_ok x axes AN (axes_nodup _ _ HR) HP AF) as [y [Ey [Sy Vy]]]. exists y. rewrite maxApi_node by exact HN.
  split; [exact Ey|]. split; [exact Sy|]. split; [intros idx Hi; apply Vy, coords_in, Hi|]. intros g Hg.
  destruct (symdiff_ok x y g axes AN HP H4 AF Sy Hg) as [gx [E [S V]]]. exists gx. split; [exact E|]. split; [exact S|]. intros idx Hi. apply coords_in in Hi. rewrite (V idx Hi).
  destruct (Req_EM_T (at_ y (without axes 0 idx)) (at_ x idx)) as [K|K]; split; intro K'; try (exfalso; congruence); lra.
Qed.

(** The value of Max after one entry is changed. *)
Lemma entry_value (x : tensR) along i v : reducible (shp x) along -> forall y yv, maxApi x along = Ok y -> maxApi (with_entry x i v) along = Ok yv -> inside (shp x) i ->
  shp yv = shp y /\ shp y = without (axes_of (shp x) along) 0 (shp x) /\
  (forall idx, inside (shp y) idx -> idx <> without (axes_of (shp x) along) 0 i -> at_ yv idx = at_ y idx) /\
  (forall m, (forall j, inside (shp x) j -> j <> i -> without (axes_of (shp x) along) 0 j = without (axes_of (shp x) along) 0 i -> (at_ x j <= m)%R) -> (v <= m)%R ->
     (v = m \/ exists j, inside (shp x) j /\ j <> i /\ without (axes_of (shp x) along) 0 j = without (axes_of (shp x) along) 0 i /\ at_ x j = m) -> at_ yv (without (axes_of (shp x) along) 0 i) = m).
Proof.
  intros HR y yv Ey Ev Hi. destruct (axes_facts _ _ HR) as [AN AF]. pose proof HR as [HN [HP _]]. set (axes := axes_of (shp x) along) in *.
  rewrite maxApi_node in Ey by exact HN. rewrite maxApi_node in Ev by exact HN. change (shp (with_entry x i v)) with (shp x) in Ev. fold axes in Ey, Ev.
  destruct (max_ok x axes AN (axes_nodup _ _ HR) HP AF) as [y' [Ey' [Sy Vy]]]. rewrite Ey in Ey'. injection Ey' as <-.
  destruct (max_ok (with_entry x i v) axes AN (axes_nodup _ _ HR) HP AF) as [y' [Ey' [Sv Vv]]]. rewrite Ev in Ey'. injection Ey' as <-. change (shp (with_entry x i v)) with (shp x) in Sv, Vv.
  split; [congruence|]. split; [exact Sy|]. split.
  - intros idx HI NJ. apply (largest_unique (map (at_ x) (group (shp x) axes idx))); [|apply Vy, HI]. specialize (Vv idx ltac:(rewrite Sv, <- Sy; exact HI)).
    replace (map (at_ x) (group (shp x) axes idx)) with (map (at_ (with_entry x i v)) (group (shp x) axes idx)); [exact Vv|]. apply map_ext_in. intros f Hf. apply group_in in Hf. destruct Hf as [_ Ef]. unfold with_entry. cbn [at_]. destruct (list_eq_dec Z.eq_dec f i) as [->|_]; [congruence|reflexivity].
  - intros m H1 H2 H3. set (J := without axes 0 i) in *. apply (largest_unique (map (at_ (with_entry x i v)) (group (shp x) axes J))).
    + apply Vv. rewrite Sv. apply without_inside, Hi.
    + split.
      * apply in_map_iff. destruct H3 as [<-|[j [Hj [Nj [Ej Vj]]]]].
        -- exists i. unfold with_entry. cbn [at_]. destruct (list_eq_dec Z.eq_dec i i); [|congruence]. split; [reflexivity|]. apply group_in. auto.
        -- exists j. unfold with_entry. cbn [at_]. destruct (list_eq_dec Z.eq_dec j i); [congruence|]. split; [exact Vj|]. apply group_in. auto.
      * intros u Hu. apply in_map_iff in Hu. destruct Hu as [j [<- Hj]]. apply group_in in Hj. destruct Hj as [Hj Ej]. unfold with_entry. cbn [at_]. destruct (list_eq_dec Z.eq_dec j i) as [E|N]; [exact H2|]. apply H1; auto.
Qed.
(** If the entry [i] is not tied with another largest entry of its group, what the
    gradient says about it is the partial derivative. *)
Theorem C64_derivative : forall (x y g gx : tensR) along i, reducible (shp x) along -> (length (shp x) <= 4)%nat -> In i (coords (shp x)) ->
  let axes := axes_of (shp x) along in
  maxApi x along = Ok y -> shp g = shp y -> maxSymDiff axes x y g = Ok gx ->
  (forall j, In j (group (shp x) axes (without axes 0 i)) -> j <> i -> at_ x j = at_ x i -> at_ x i <> at_ y (without axes 0 i)) ->
  derivable_pt_lim (fun v => match maxApi (with_entry x i v) along with Ok yv => ip (shp yv) (at_ yv) (at_ g) | _ => 0%R end) (at_ x i) (at_ gx i).
Proof.
  intros x y g gx along i HR H4 Hi axes Ey Sg Egx NT. apply coords_in in Hi. pose proof (axes_facts _ _ HR) as [AN AF]. pose proof HR as [HN [HP _]]. fold axes in AN, AF.
  destruct (max_ok x axes AN (axes_nodup _ _ HR) HP AF) as [y' [Ey' [Sy Vy]]]. pose proof Ey as Ey0. rewrite maxApi_node in Ey0 by exact HN. fold axes in Ey0. rewrite Ey0 in Ey'. injection Ey' as <-.
  destruct (symdiff_ok x y g axes AN HP H4 AF Sy Sg) as [gx' [E' [Sgx Vgx]]]. rewrite Egx in E'. injection E' as <-. specialize (Vgx i Hi). set (J := without axes 0 i) in *.
  assert (HJ : inside (shp y) J) by (rewrite Sy; apply without_inside, Hi).
  pose proof (Vy J HJ) as [VI VM].
  assert (XI : with_entry x i (at_ x i) = x \/ True) by auto. clear XI.
  assert (EV : forall v, exists yv, maxApi (with_entry x i v) along = Ok yv).
  { intro v. destruct (max_ok (with_entry x i v) axes AN (axes_nodup _ _ HR) HP AF) as [yv [Ev _]]. exists yv. rewrite maxApi_node by exact HN. exact Ev. }
  (* the value for an entry v, given the new maximum *)
  assert (VAL : forall v m yv, maxApi (with_entry x i v) along = Ok yv ->
     (forall j, inside (shp x) j -> j <> i -> without axes 0 j = J -> (at_ x j <= m)%R) -> (v <= m)%R ->
     (v = m \/ exists j, inside (shp x) j /\ j <> i /\ without axes 0 j = J /\ at_ x j = m) ->
     @ip R CRing_R (shp yv) (at_ yv) (at_ g) = (@ip R CRing_R (shp y) (at_ y) (at_ g) + (m - at_ y J) * at_ g J)%R).
  { intros v m yv Ev A1 A2 A3. destruct (entry_value x along i v HR y yv Ey Ev Hi) as [S1 [S2 [O C]]]. fold axes in O, C. fold J in O, C. rewrite S1. apply ip_change; [exact HJ|]. intros idx HI. destruct (eqShape J idx) eqn:EJ.
    - apply eqShape_iff in EJ. subst idx. rewrite (C m A1 A2 A3). lra.
    - rewrite O; [lra|exact HI|]. intros ->. rewrite eqShape_refl in EJ. discriminate. }
  assert (LEM : forall j, inside (shp x) j -> without axes 0 j = J -> (at_ x j <= at_ y J)%R).
  { intros j Hj Ej. apply VM. apply in_map_iff. exists j. split; [reflexivity|]. apply group_in. auto. }
  destruct (Req_EM_T (at_ y J) (at_ x i)) as [TOP|LOW].
  - (* the largest entry, alone *)
    assert (ST : forall u, In u (map (at_ x) (filter (fun j => if list_eq_dec Z.eq_dec j i then false else true) (group (shp x) axes J))) -> (u < at_ x i)%R).
    { intros u Hu. apply in_map_iff in Hu. destruct Hu as [j [<- Hj]]. apply filter_In in Hj. destruct Hj as [Hj Nj]. destruct (list_eq_dec Z.eq_dec j i) as [|N]; [discriminate|]. pose proof Hj as Hj'. apply group_in in Hj. destruct Hj as [Hj Ej]. pose proof (LEM j Hj Ej) as L.
      destruct (Rle_lt_or_eq_dec _ _ L) as [K|K]; [lra|]. exfalso. apply (NT j Hj' N); lra. }
    destruct (gap _ _ ST) as [d [Hd GD]].
    assert (BND : forall j, inside (shp x) j -> j <> i -> without axes 0 j = J -> (at_ x j <= at_ x i - d)%R).
    { intros j Hj Nj Ej. apply GD. apply in_map_iff. exists j. split; [reflexivity|]. apply filter_In. split; [apply group_in; auto|]. destruct (list_eq_dec Z.eq_dec j i); [contradiction|reflexivity]. }
    assert (GV : forall h, (Rabs h < d)%R -> match maxApi (with_entry x i (at_ x i + h)) along with Ok yv => @ip R CRing_R (shp yv) (at_ yv) (at_ g) | _ => 0%R end = (@ip R CRing_R (shp y) (at_ y) (at_ g) + h * at_ g J)%R).
    { intros h Hh. destruct (EV (at_ x i + h)%R) as [yv Ev]. rewrite Ev. rewrite (VAL (at_ x i + h)%R (at_ x i + h)%R yv Ev); [rewrite TOP; lra| |lra|left; reflexivity]. intros j Hj Nj Ej. specialize (BND j Hj Nj Ej). apply Rabs_def2 in Hh. lra. }
    apply (lin_deriv _ _ _ d Hd). intros h Hh. rewrite (GV h Hh). assert (Z0 := GV 0%R ltac:(rewrite Rabs_R0; exact Hd)). rewrite Rplus_0_r in Z0. rewrite Z0, Vgx. lra.
  - (* not the largest entry *)
    apply in_map_iff in VI. destruct VI as [j0 [Vj0 Hj0]]. apply group_in in Hj0. destruct Hj0 as [Hj0 Ej0].
    assert (LT : (at_ x i < at_ y J)%R) by (specialize (LEM i Hi eq_refl); lra).
    assert (NJ : j0 <> i) by (intros ->; lra).
    assert (GV : forall h, (Rabs h < at_ y J - at_ x i)%R -> match maxApi (with_entry x i (at_ x i + h)) along with Ok yv => @ip R CRing_R (shp yv) (at_ yv) (at_ g) | _ => 0%R end = @ip R CRing_R (shp y) (at_ y) (at_ g)).
    { intros h Hh. destruct (EV (at_ x i + h)%R) as [yv Ev]. rewrite Ev. apply Rabs_def2 in Hh. rewrite (VAL (at_ x i + h)%R (at_ y J) yv Ev); [lra| |lra|right; exists j0; auto]. intros j Hj Nj Ej. apply LEM; assumption. }
    apply (lin_deriv _ _ _ (at_ y J - at_ x i)); [lra|]. intros h Hh. rewrite (GV h Hh). assert (Z0 := GV 0%R ltac:(rewrite Rabs_R0; lra)). rewrite Rplus_0_r in Z0. rewrite Z0, Vgx. lra.
Qed.

Lemma max_shift (x y : tensR) along v : reducible (shp x) along -> maxApi x along = Ok y -> exists yv, maxApi (shifted x v) along = Ok yv /\ shp yv = shp y /\ forall idx, inside (shp y) idx -> at_ yv idx = (at_ y idx + v)%R.
Proof.
  intros HR Ey. destruct (axes_facts _ _ HR) as [AN AF]. pose proof HR as [HN [HP _]]. rewrite maxApi_node in Ey by exact HN. rewrite maxApi_node by exact HN. change (shp (shifted x v)) with (shp x). set (axes := axes_of (shp x) along) in *.
  destruct (max_ok x axes AN (axes_nodup _ _ HR) HP AF) as [y' [Ey' [Sy Vy]]]. rewrite Ey in Ey'. injection Ey' as <-.
  destruct (max_ok (shifted x v) axes AN (axes_nodup _ _ HR) HP AF) as [yv [Ev [Sv Vv]]]. change (shp (shifted x v)) with (shp x) in Sv, Vv. exists yv. split; [exact Ev|]. split; [congruence|]. intros idx HI.
  apply (largest_unique (map (at_ (shifted x v)) (group (shp x) axes idx))); [apply Vv; rewrite Sv, <- Sy; exact HI|]. destruct (Vy idx HI) as [V1 V2]. split.
  - apply in_map_iff in V1. destruct V1 as [f [E Hf]]. apply in_map_iff. exists f. split; [|exact Hf]. unfold shifted. cbn [at_]. rewrite E. reflexivity.
  - intros u Hu. apply in_map_iff in Hu. destruct Hu as [f [<- Hf]]. unfold shifted. cbn [at_]. assert (at_ x f <= at_ y idx)%R by (apply V2, in_map, Hf). lra.
Qed.
(** With ties the gradient is too large: over a group it adds up to the gradient of the
    group times the number of its largest entries. *)
Theorem C64_group_sum : forall (x y g gx : tensR) along idx, reducible (shp x) along -> (length (shp x) <= 4)%nat ->
  let axes := axes_of (shp x) along in
  maxApi x along = Ok y -> shp g = shp y -> maxSymDiff axes x y g = Ok gx -> In idx (coords (shp y)) ->
  lsum (map (at_ gx) (group (shp x) axes idx)) = (INR (length (filter (fun f => if Req_EM_T (at_ x f) (at_ y idx) then true else false) (group (shp x) axes idx))) * at_ g idx)%R.
Proof.
  intros x y g gx along idx HR H4 axes Ey Sg Egx Hi. destruct (axes_facts _ _ HR) as [AN AF]. pose proof HR as [HN [HP _]]. rewrite maxApi_node in Ey by exact HN. fold axes in AN, AF, Ey.
  destruct (max_ok x axes AN (axes_nodup _ _ HR) HP AF) as [y' [Ey' [Sy Vy]]]. rewrite Ey in Ey'. injection Ey' as <-.
  destruct (symdiff_ok x y g axes AN HP H4 AF Sy Sg) as [gx' [E' [Sgx Vgx]]]. rewrite Egx in E'. injection E' as <-.
  rewrite <- (lsum_const (at_ g idx)). rewrite lsum_filter. apply lsum_ext. intros f Hf. apply group_in in Hf. destruct Hf as [Hf Ef]. rewrite (Vgx f Hf), Ef. destruct (Req_EM_T (at_ y idx) (at_ x f)), (Req_EM_T (at_ x f) (at_ y idx)); try congruence; lra.
Qed.
(** So with a tie it is not the derivative in the direction in which all entries grow
    alike: the sum of the maxima grows at the rate of the sum of [g] (here 1 everywhere),
    but the gradient promises more. *)
Theorem C64_ties_refuted : forall (x y g gx : tensR) along i j, reducible (shp x) along -> (length (shp x) <= 4)%nat ->
  let axes := axes_of (shp x) along in
  maxApi x along = Ok y -> g = Tn (shp y) (fun _ => 1%R) -> maxSymDiff axes x y g = Ok gx ->
  In i (coords (shp x)) -> In j (coords (shp x)) -> i <> j -> without axes 0 i = without axes 0 j -> at_ x i = at_ y (without axes 0 i) -> at_ x j = at_ x i ->
  derivable_pt_lim (fun v => match maxApi (shifted x v) along with Ok yv => total_of yv | _ => 0%R end) 0 (total_of g) /\
  (total_of g < total_of gx)%R.
Proof.
  intros x y g gx along i j HR H4 axes Ey Eg Egx Hi Hj Nij Eij Ti Tj. destruct (axes_facts _ _ HR) as [AN AF]. pose proof HR as [HN [HP _]]. assert (Ey0 := Ey). rewrite maxApi_node in Ey by exact HN. fold axes in AN, AF, Ey.
  destruct (max_ok x axes AN (axes_nodup _ _ HR) HP AF) as [y' [Ey' [Sy Vy]]]. rewrite Ey in Ey'. injection Ey' as <-. assert (Sg : shp g = shp y) by (subst g; reflexivity).
  destruct (symdiff_ok x y g axes AN HP H4 AF Sy Sg) as [gx' [E' [Sgx Vgx]]]. rewrite Egx in E'. injection E' as <-. split.
  - apply (lin_deriv _ _ _ 1); [lra|]. intros h _. rewrite Rplus_0_l.
    assert (GV : forall v, match maxApi (shifted x v) along with Ok yv => total_of yv | _ => 0%R end = (total_of y + v * total_of g)%R).
    { intro v. destruct (max_shift x y along v HR Ey0) as [yv [Ev [Sv Vv]]]. rewrite Ev. unfold total_of. rewrite Sv, Sg. rewrite (lsum_ext (at_ yv) (fun idx => @radd R CRing_R (at_ y idx) (@rmul R CRing_R v (at_ g idx)))).
      - rewrite lsum_map_add, lsum_map_mul_l. reflexivity.
      - intros idx HI. apply coords_in in HI. rewrite (Vv idx HI). subst g. cbn [at_]. change (@radd R CRing_R) with Rplus. change (@rmul R CRing_R) with Rmult. lra. }
    rewrite !GV. lra.
  - unfold total_of. rewrite Sgx, Sg. rewrite (by_groups (shp x) axes). rewrite <- Sy.
    assert (CS : forall idx, In idx (coords (shp y)) -> @lsum R CRing_R (map (at_ gx) (group (shp x) axes idx)) = INR (length (filter (fun f => if Req_EM_T (at_ x f) (at_ y idx) then true else false) (group (shp x) axes idx)))).
    { intros idx HI. pose proof (C64_group_sum x y g gx along idx HR H4 Ey0 Sg Egx HI) as K. cbn zeta in K. fold axes in K. rewrite K. subst g. cbn [at_]. lra. }
    rewrite (lsum_ext _ _ _ CS). clear CS.
    assert (ONE : forall idx, In idx (coords (shp y)) -> (1 <= INR (length (filter (fun f => if Req_EM_T (at_ x f) (at_ y idx) then true else false) (group (shp x) axes idx))))%R).
    { intros idx HI. apply coords_in in HI. destruct (Vy idx HI) as [V1 _]. apply in_map_iff in V1. destruct V1 as [f [E Hf]]. destruct (filter _ _) as [|c l] eqn:F.
      - exfalso. assert (K : In f (filter (fun f => if Req_EM_T (at_ x f) (at_ y idx) then true else false) (group (shp x) axes idx))) by (apply filter_In; split; [exact Hf|]; destruct (Req_EM_T (at_ x f) (at_ y idx)); congruence). rewrite F in K. contradiction.
      - cbn [length]. rewrite S_INR. pose proof (pos_INR (length l)). lra. }
    assert (TWO : (2 <= INR (length (filter (fun f => if Req_EM_T (at_ x f) (at_ y (without axes 0 i)) then true else false) (group (shp x) axes (without axes 0 i)))))%R).
    { change 2%R with (INR 2). apply le_INR. change 2%nat with (length [i; j]). apply NoDup_incl_length; [constructor; [intros [K|[]]; congruence|constructor; [intros []|constructor]]|]. intros f [<-|[<-|[]]]; apply filter_In; (split; [apply group_in; split; [apply coords_in; assumption|congruence]|]); destruct (Req_EM_T _ _); congruence. }
    assert (HI : In (without axes 0 i) (coords (shp y))) by (apply coords_in; rewrite Sy; apply without_inside, coords_in, Hi). subst g. cbn [at_].
    clear - ONE TWO HI. set (c := fun idx => INR (length (filter (fun f => if Req_EM_T (at_ x f) (at_ y idx) then true else false) (group (shp x) axes idx)))) in *.
    change (2 <= c (without axes 0 i))%R in TWO. change (@lsum R CRing_R (map (fun _ => 1%R) (coords (shp y))) < @lsum R CRing_R (map c (coords (shp y))))%R.
    assert (GE : forall l, (forall idx, In idx l -> (1 <= c idx)%R) -> (@lsum R CRing_R (map (fun _ => 1%R) l) <= @lsum R CRing_R (map c l))%R).
    { induction l as [|a l IH]; intro H; cbn [map lsum]; [lra|]. change (@radd R CRing_R) with Rplus. specialize (IH ltac:(intros; apply H; right; assumption)). specialize (H a (or_introl eq_refl)). lra. }
    revert ONE HI. induction (coords (shp y)) as [|a l IH]; intros ONE HI; [contradiction|]. cbn [map lsum]. change (@radd R CRing_R) with Rplus. destruct HI as [->|HI].
    + specialize (GE l ltac:(intros; apply ONE; right; assumption)). lra.
    + specialize (IH ltac:(intros; apply ONE; right; assumption) HI). specialize (ONE a (or_introl eq_refl)). change (1 <= c a)%R in ONE. lra.
Qed.

(** Zeros left over in the shape that Broadcast asks Reshape for. *)
Lemma fill_count s : Forall (fun d => d <> 0) s -> forall ns, length (filter (Z.eqb 0) (fold_left fillFirst s ns)) = (length (filter (Z.eqb 0) ns) - length s)%nat.
Proof.
  assert (K : forall d ns, d <> 0 -> length (filter (Z.eqb 0) (fillFirst ns d)) = (length (filter (Z.eqb 0) ns) - 1)%nat).
  { intros d ns Hd. induction ns as [|x ns IH]; cbn [fillFirst filter]; [reflexivity|]. destruct (Z.eqb_spec x 0) as [->|N].
    - cbn [filter]. rewrite Z.eqb_refl. destruct (Z.eqb_spec 0 d); [congruence|]. cbn [length]. lia.
    - cbn [filter]. destruct (Z.eqb_spec 0 x); [congruence|]. exact IH. }
  induction 1 as [|d s Hd HF IH]; intro ns; cbn [fold_left length]; [lia|]. rewrite IH, K by exact Hd. lia.
Qed.
Lemma fill_nonneg s : Forall (fun d => 0 <= d) s -> forall ns, Forall (fun d => 0 <= d) ns -> Forall (fun d => 0 <= d) (fold_left fillFirst s ns).
Proof.
  assert (K : forall d ns, 0 <= d -> Forall (fun d => 0 <= d) ns -> Forall (fun d => 0 <= d) (fillFirst ns d)).
  { intros d ns Hd. induction 1 as [|x ns Hx Hn IH]; cbn [fillFirst]; [constructor|]. destruct (x =? 0); constructor; assumption. }
  induction 1 as [|d s Hd HF IH]; intros ns H; cbn [fold_left]; [exact H|]. apply IH, K; assumption.
Qed.
Lemma without_shorter axes l a s : (forall i, In i l -> In i axes) -> In a axes -> ~ In a l -> forall k, k <= a < k + Z.of_nat (length s) -> (length (without axes k s) < length (without l k s))%nat.
Proof.
  intros HL Ha Na. assert (M : forall s k, (length (without axes k s) <= length (without l k s))%nat).
  { clear s. induction s as [|d s IH]; intro k; cbn [without]; [lia|]. specialize (IH (k + 1)). destruct (existsb (Z.eqb k) l) eqn:E1, (existsb (Z.eqb k) axes) eqn:E2; cbn [length]; try lia.
    exfalso. apply mem_true, HL, mem_true in E1. congruence. }
  induction s as [|d s IH]; intros k Hk; cbn [length] in Hk; [lia|]. cbn [without]. destruct (Z.eq_dec k a) as [->|N].
  - rewrite (proj2 (mem_true a axes) Ha). destruct (existsb (Z.eqb a) l) eqn:E; [apply mem_true in E; contradiction|]. specialize (M s (a + 1)). cbn [length]. lia.
  - specialize (IH (k + 1) ltac:(lia)). destruct (existsb (Z.eqb k) l) eqn:E1, (existsb (Z.eqb k) axes) eqn:E2; cbn [length]; try lia.
    exfalso. apply mem_true, HL, mem_true in E1. congruence.
Qed.
Lemma ewise_differ f (a b : tensR) k : (5 <= length (shp b))%nat -> 2 <= nth k (shp b) 0 -> shp a <> [] -> shp a <> shp b -> ewise f a b = Err.
Proof.
  intros L5 N2 NA NE. unfold ewise, ewiseShape. replace (scalarEquiv (shp b)) with false; cycle 1.
  { symmetry. apply not_true_iff_false. intro K. unfold scalarEquiv in K. rewrite forallb_forall in K. destruct (Nat.lt_ge_cases k (length (shp b))) as [H|H]; [|rewrite nth_overflow in N2 by exact H; lia]. specialize (K _ (nth_In (shp b) 0 H)). lia. }
  rewrite andb_false_r. destruct (shp a) as [|d s] eqn:EA; [contradiction|]. destruct (shp b) as [|e [|e1 [|e2 t]]] eqn:EB; cbn [length] in L5; try lia.
  assert (SE : shapeEq (d :: s) (e :: e1 :: e2 :: t) = eqShape (d :: s) (e :: e1 :: e2 :: t)) by (unfold shapeEq; destruct s as [|d1 [|d2 s]]; reflexivity). rewrite SE. destruct (eqShape _ _) eqn:K; [apply eqShape_iff in K; congruence|reflexivity].
Qed.
(** From the fifth axis on, the pattern has no room for an axis: reducing such an axis of
    size two or more, Max can be computed but its gradient is an error. (252: beyond that
    many axes, a byte would wrap around.) *)
Theorem C64_fifth_axis_refuted : forall (x y g : tensR) along a, reducible (shp x) along -> (length (shp x) <= 252)%nat ->
  let axes := axes_of (shp x) along in
  maxApi x along = Ok y -> In a axes -> 4 <= a -> 2 <= nth (Z.to_nat a) (shp x) 0 -> maxSymDiff axes x y g = Err.
Proof.
  intros x y g along a HR H252 axes Ey Ha A4 A2. destruct (axes_facts _ _ HR) as [AN AF]. pose proof HR as [HN [HP _]]. rewrite maxApi_node in Ey by exact HN. fold axes in AN, AF, Ey.
  destruct (max_ok x axes AN (axes_nodup _ _ HR) HP AF) as [y' [Ey' [Sy Vy]]]. rewrite Ey in Ey'. injection Ey' as <-. destruct (pattern_axes axes (length (shp x)) H252) as [l [EO [ND HL]]].
  assert (AF' := AF). rewrite Forall_forall in AF'. pose proof (AF' a Ha) as Ra. cbn beta in Ra.
  assert (SUB : forall i, In i l -> In i axes) by (intros i Hi; apply HL in Hi; apply Hi).
  assert (NAL : ~ In a l) by (intro K; apply HL in K; lia).
  assert (FL : Forall (fun i => 0 <= i < Z.of_nat (length (shp x))) l) by (apply Forall_forall; intros i Hi; apply AF', SUB, Hi).
  pose proof (without_shorter axes l a (shp x) SUB Ha NAL 0 ltac:(lia)) as LS. rewrite <- Sy in LS.
  assert (LE : (length (without l 0 (shp x)) <= length (shp x))%nat) by (clear; generalize 0; induction (shp x) as [|d s IH]; intro k; cbn [without length]; [lia|]; specialize (IH (k + 1)); destruct (existsb _ _); cbn [length]; lia).
  unfold maxSymDiff, broadcast. rewrite EO. destruct l as [|l0 l'] eqn:El.
  - cbn [broadcastSide bind fst snd].
    destruct (shp y) as [|d s] eqn:E.
    + exfalso. assert (K : In 0 (axes_of (shp x) along)). { apply mem_true. destruct (existsb (Z.eqb 0) (axes_of (shp x) along)) eqn:M; [reflexivity|]. exfalso. pose proof (without_in axes (shp x) 0 0 ltac:(lia) M) as C. rewrite <- Sy in C. contradiction. }
      assert (KL : In 0 (@nil Z)) by (apply HL; split; [exact K|lia]). contradiction.
    + rewrite <- E in LS. rewrite (ewise_differ eqR y x (Z.to_nat a)); [reflexivity|lia|exact A2|rewrite E; discriminate|]. intro K. rewrite K in LS. lia.
  - rewrite <- El in *. assert (NL : l <> []) by (rewrite El; discriminate). destruct (shp y) as [|d s] eqn:E.
    + destruct (scalar_side y x l NL ND FL HP E) as [x1 [E1 [L1 [S1 _]]]]. rewrite E1. cbn [broadcastSide bind fst snd]. rewrite (ewise_differ eqR x1 x (Z.to_nat a)); [reflexivity|lia|exact A2| |].
      * intro K. rewrite K in L1. cbn [length] in L1. lia.
      * intro K. specialize (S1 (Z.to_nat a) ltac:(lia)). rewrite K, Z2Nat.id in S1 by lia. destruct (existsb (Z.eqb a) l) eqn:M; [apply mem_true in M; contradiction|]. lia.
    + assert (ER : broadcastSide y (length (shp x)) x l = Err); [|rewrite ER; reflexivity]. rewrite <- E in *.
      unfold broadcastSide. rewrite El. rewrite <- El. destruct (existsb (fun i => Z.of_nat (length (shp x)) <=? i) l) eqn:E1; [reflexivity|].
      set (ns := calcBroadcastShape (shp y) (length (shp x)) l). assert (PY : positive (shp y)) by (rewrite Sy; apply without_positive, HP).
      assert (EN : ns = fold_left fillFirst (shp y) (marks l 0 (length (shp x)))).
      { unfold ns, calcBroadcastShape. destruct (Nat.eqb_spec (length (shp y)) (length (shp x))) as [K|K]; [lia|]. rewrite E at 1. rewrite fold_marks by exact FL. reflexivity. }
      assert (NN : Forall (fun d => 0 <= d) ns). { rewrite EN. apply fill_nonneg; [eapply Forall_impl; [|exact PY]; cbn; lia|apply marks_nonneg]. }
      assert (Z0 : In 0 ns).
      { assert (C : (0 < length (filter (Z.eqb 0) ns))%nat). { rewrite EN, fill_count by (eapply Forall_impl; [|exact PY]; cbn; lia). rewrite (marks_zeros l (length (shp x)) 0 (shp x) eq_refl). lia. }
        destruct (filter (Z.eqb 0) ns) as [|z f] eqn:F; [cbn [length] in C; lia|]. assert (IZ : In z (filter (Z.eqb 0) ns)) by (rewrite F; left; reflexivity). apply filter_In in IZ. destruct IZ as [IZ EZ]. apply Z.eqb_eq in EZ. subst z. exact IZ. }
      assert (TY : 0 < totalSize (shp y)).
      { clear - PY. induction PY as [|z s0 Hz _ IH]; unfold totalSize in *; cbn [fold_right]; [lia|]. nia. }
      unfold reshape, reshapeCall. rewrite (nonneg_negs ns NN). cbn [Nat.ltb Nat.leb Nat.eqb]. rewrite (total_product ns), (proj2 (product_zero ns) Z0). rewrite E at 1. cbn [length Nat.ltb Nat.leb andb]. rewrite E in TY. rewrite E. destruct (Z.eqb_spec (totalSize (d :: s)) 0) as [K|K]; [lia|reflexivity].
Qed.
Print Assumptions C64_gradient.
Print Assumptions C64_derivative.
Print Assumptions C64_group_sum.
Print Assumptions C64_ties_refuted.
Print Assumptions C64_fifth_axis_refuted.

(** ** C65 *)
(** Mean over distinct axes is the average of every group, and its symbolic gradient is
    the adjoint of this linear map. *)
Theorem C65_mean : forall (x : tensR) along, reducible (shp x) along ->
  let axes := axes_of (shp x) along in
  exists y, meanApi x along = Ok y /\ shp y = without axes 0 (shp x) /\
    (forall idx, In idx (coords (shp y)) -> at_ y idx = average (map (at_ x) (group (shp x) axes idx))) /\
    forall g, shp g = shp y -> exists gx, meanSymDiff axes x g = Ok gx /\ pulled_back x y g gx.
Proof.
  intros x along HR axes. destruct (axes_facts _ _ HR) as [AN AF]. pose proof HR as [HN [HP _]]. fold axes in AN, AF.
  pose proof (axes_nodup _ _ HR) as NDA. fold axes in NDA.
  destruct (C60_sum x axes AN NDA AF HP) as [s [Es [Ss [Vs Gs]]]].
  assert (EM : meanApi x along = Ok (Tn (shp s) (fun idx => (at_ s idx / IZR (counts (map (fun a => nth (Z.to_nat a) (shp x) 0%Z) axes)))%R))).
  { unfold meanApi. assert (EA : match along with [] => iota (length (shp x)) | _ => along end = axes) by (unfold axes, axes_of; destruct along; reflexivity). rewrite EA. destruct (shp x) as [|d sh] eqn:E; [contradiction|]. rewrite <- E in *. rewrite Es. cbn [bind]. rewrite sizes_ok by exact AF. reflexivity. }
  rewrite counts_sizes in EM by assumption. exists (Tn (shp s) (fun idx => (at_ s idx / IZR (sizesIn axes 0 (shp x)))%R)). cbn [shp at_].
  pose proof (sizesIn_pos axes (shp x) HP 0) as PZ. assert (CN : IZR (sizesIn axes 0 (shp x)) <> 0%R) by (apply not_0_IZR; lia).
  split; [exact EM|]. split; [exact Ss|]. split.
  - intros idx HI. apply coords_in in HI. rewrite Ss in HI. rewrite Vs. unfold average. rewrite map_length. fold (group (shp x) axes idx). rewrite <- (group_len axes (shp x) idx HP HI). rewrite <- INR_IZR_INZ. reflexivity.
  - intros g Hg. unfold meanSymDiff. rewrite sizes_ok by exact AF. cbn [bind]. rewrite counts_sizes by assumption.
    destruct (Gs (Tn (shp g) (fun idx => (at_ g idx / IZR (sizesIn axes 0 (shp x)))%R)) Hg) as [gx [E [[P1 P2] _]]]. exists gx. split; [exact E|]. split; [exact P1|]. rewrite <- P2. cbn [shp at_]. apply lsum_ext. intros idx _. change (@rmul R CRing_R) with Rmult. field. exact CN.
Qed.
Print Assumptions C65_mean.

(** ** C66 *)
Lemma norm_value (x : tensR) axis p : reducible (shp x) [axis] -> exists f, normApi x axis p = Ok (without [axis] 0 (shp x), f) /\
  forall idx, f idx = let S := lsum (map (fun v => (v ^ p)%R) (map (at_ x) (group (shp x) [axis] idx))) in if Nat.eqb p 2 then Num (sqrt S) else powInv S p.
Proof.
  intros [HN [HP [_ HF]]]. set (xp := Tn (shp x) (fun idx => (at_ x idx ^ p)%R)). destruct (C60_sum xp [axis]) as [s [Es [Ss [Vs _]]]]; [discriminate|constructor; [intros []|constructor]|exact HF|exact HP|].
  unfold normApi. fold xp. rewrite Es. cbn [bind]. rewrite Ss. eexists. split; [reflexivity|]. intro idx. cbn beta. rewrite Vs. unfold group. rewrite map_map. reflexivity.
Qed.
Lemma pow_abs_even x p : Nat.even p = true -> (Rabs x ^ p = x ^ p)%R.
Proof. intro H. apply Nat.even_spec in H. destruct H as [k ->]. rewrite RPow_abs. apply Rabs_right. rewrite pow_Rsqr. apply Rle_ge, pow_le, Rle_0_sqr. Qed.
Lemma lsum_nonneg l : (forall v, In v l -> (0 <= v)%R) -> (0 <= @lsum R CRing_R l)%R.
Proof. induction l as [|v l IH]; intro H; cbn [lsum]; [change (@r0 R CRing_R) with 0%R; lra|]. change (@radd R CRing_R) with Rplus. specialize (IH ltac:(intros; apply H; right; assumption)). specialize (H v (or_introl eq_refl)). lra. Qed.
Lemma root_pow y p : (0 <= y)%R -> (1 <= p)%nat -> exists v, powInv y p = Num v /\ (0 <= v)%R /\ (v ^ p = y)%R.
Proof.
  intros Hy Hp. unfold powInv. destruct (Nat.eqb_spec p 1) as [->|N]; [exists y; split; [reflexivity|]; split; [exact Hy|cbn [pow]; lra]|].
  destruct (Rlt_dec y 0) as [L|_]; [lra|]. destruct (Req_EM_T y 0) as [->|NZ]; [exists 0%R; split; [reflexivity|]; split; [lra|apply pow_i; lia]|].
  eexists. split; [reflexivity|]. assert (Y : (0 < y)%R) by lra. assert (PR : (0 < Rpower y (/ INR p))%R) by apply exp_pos. split; [lra|]. rewrite <- Rpower_pow by exact PR. rewrite Rpower_mult. rewrite Rinv_l by (apply not_0_INR; lia). apply Rpower_1, Y.
Qed.
(** Norm is the p-norm along the axis if p is even or no entry is negative. *)
Theorem C66_norm : forall (x : tensR) axis p, reducible (shp x) [axis] -> (1 <= p)%nat ->
  exists f, normApi x axis p = Ok (without [axis] 0 (shp x), f) /\
    forall idx, In idx (coords (without [axis] 0 (shp x))) ->
      Nat.even p = true \/ (forall v, In v (map (at_ x) (group (shp x) [axis] idx)) -> (0 <= v)%R) ->
      exists v, f idx = Num v /\ is_norm p (map (at_ x) (group (shp x) [axis] idx)) v.
Proof.
  intros x axis p HR Hp. destruct (norm_value x axis p HR) as [f [E V]]. exists f. split; [exact E|]. intros idx _ C. rewrite V. set (L := map (at_ x) (group (shp x) [axis] idx)) in *. cbn zeta. unfold is_norm.
  assert (EA : @lsum R CRing_R (map (fun v => (v ^ p)%R) L) = @lsum R CRing_R (map (fun v => (Rabs v ^ p)%R) L)).
  { apply lsum_ext. intros v Hv. destruct C as [C|C]; [rewrite pow_abs_even by exact C; reflexivity|]. rewrite Rabs_right by (apply Rle_ge, C, Hv). reflexivity. }
  rewrite <- EA. assert (SN : (0 <= @lsum R CRing_R (map (fun v => (v ^ p)%R) L))%R).
  { rewrite EA. apply lsum_nonneg. intros v Hv. apply in_map_iff in Hv. destruct Hv as [u [<- _]]. apply pow_le, Rabs_pos. }
  destruct (Nat.eqb_spec p 2) as [->|N].
  - eexists. split; [reflexivity|]. split; [apply sqrt_pos|]. cbn [pow]. rewrite Rmult_1_r. apply sqrt_sqrt, SN.
  - apply root_pow; assumption.
Qed.
(** With an odd p and a negative entry it never is: the sign is kept where the absolute
    value belongs. *)
Theorem C66_odd_refuted : forall (x : tensR) axis p idx v f, reducible (shp x) [axis] -> Nat.odd p = true ->
  normApi x axis p = Ok (without [axis] 0 (shp x), f) -> In v (map (at_ x) (group (shp x) [axis] idx)) -> (v < 0)%R ->
  forall w, f idx = Num w -> ~ is_norm p (map (at_ x) (group (shp x) [axis] idx)) w.
Proof.
  intros x axis p idx v f HR Ho E Hv Lv w Ew [W1 W2]. destruct (norm_value x axis p HR) as [f' [E' V]]. rewrite E in E'. injection E' as <-. rewrite V in Ew. cbn zeta in Ew. set (L := map (at_ x) (group (shp x) [axis] idx)) in *.
  apply Nat.odd_spec in Ho. destruct Ho as [k Hk]. assert (P1 : (1 <= p)%nat) by lia. destruct (Nat.eqb_spec p 2); [lia|].
  assert (LT : (@lsum R CRing_R (map (fun u => (u ^ p)%R) L) < @lsum R CRing_R (map (fun u => (Rabs u ^ p)%R) L))%R).
  { assert (PL : forall u, (u ^ p <= Rabs u ^ p)%R) by (intro u; rewrite RPow_abs; apply Rle_abs).
    assert (GE : forall l, (@lsum R CRing_R (map (fun u => (u ^ p)%R) l) <= @lsum R CRing_R (map (fun u => (Rabs u ^ p)%R) l))%R).
    { induction l as [|u l IH]; cbn [map lsum]; [lra|]. change (@radd R CRing_R) with Rplus. specialize (PL u). lra. }
    assert (VN : (v ^ p < Rabs v ^ p)%R).
    { assert (A : (0 < Rabs v ^ p)%R) by (apply pow_lt, Rabs_pos_lt; lra). assert (B : (v ^ p < 0)%R); [|lra]. rewrite Hk, Nat.add_1_r. cbn [pow]. rewrite pow_Rsqr. assert (C : (0 < v² ^ k)%R) by (apply pow_lt, Rlt_0_sqr; lra). nra. }
    clear - PL GE VN Hv. induction L as [|u l IH]; [contradiction|]. cbn [map lsum]. change (@radd R CRing_R) with Rplus. destruct Hv as [->|Hv]; [specialize (GE l); lra|]. specialize (IH Hv). specialize (PL u). lra. }
  set (S := @lsum R CRing_R (map (fun u => (u ^ p)%R) L)) in *. destruct (Rlt_dec S 0) as [N|N].
  - unfold powInv in Ew. destruct (Nat.eqb_spec p 1) as [->|].
    + injection Ew as <-. lra.
    + destruct (Rlt_dec S 0); [discriminate|contradiction].
  - destruct (root_pow S p ltac:(lra) P1) as [w' [E1 [_ E2]]]. rewrite E1 in Ew. injection Ew as ->. lra.
Qed.
(** For odd p from 3 on the result can be no number at all. *)
Theorem C66_nan_refuted : forall (x : tensR) axis p idx, reducible (shp x) [axis] -> Nat.odd p = true -> (3 <= p)%nat ->
  (exists v, In v (map (at_ x) (group (shp x) [axis] idx)) /\ (v < 0)%R) -> (forall v, In v (map (at_ x) (group (shp x) [axis] idx)) -> (v <= 0)%R) ->
  exists f, normApi x axis p = Ok (without [axis] 0 (shp x), f) /\ f idx = NaN.
Proof.
  intros x axis p idx HR Ho H3 [v [Hv Lv]] HA. destruct (norm_value x axis p HR) as [f [E V]]. exists f. split; [exact E|]. rewrite V. cbn zeta. set (L := map (at_ x) (group (shp x) [axis] idx)) in *.
  apply Nat.odd_spec in Ho. destruct Ho as [k Hk]. destruct (Nat.eqb_spec p 2); [lia|]. unfold powInv. destruct (Nat.eqb_spec p 1); [lia|].
  assert (PL : forall u, (u <= 0)%R -> (u ^ p <= 0)%R). { intros u Hu. rewrite Hk, Nat.add_1_r. cbn [pow]. rewrite pow_Rsqr. pose proof (pow_le (Rsqr u) k (Rle_0_sqr u)). nra. }
  assert (VN : (v ^ p < 0)%R). { rewrite Hk, Nat.add_1_r. cbn [pow]. rewrite pow_Rsqr. assert (C : (0 < v² ^ k)%R) by (apply pow_lt, Rlt_0_sqr; lra). nra. }
  assert (S0 : (@lsum R CRing_R (map (fun u => (u ^ p)%R) L) < 0)%R).
  { assert (LE : forall l, (forall u, In u l -> (u <= 0)%R) -> (@lsum R CRing_R (map (fun u => (u ^ p)%R) l) <= 0)%R).
    { induction l as [|u l IH]; intro H; cbn [map lsum]; [change (@r0 R CRing_R) with 0%R; lra|]. change (@radd R CRing_R) with Rplus. specialize (IH ltac:(intros; apply H; right; assumption)). specialize (PL u (H u (or_introl eq_refl))). lra. }
    clear - PL VN Hv HA LE. induction L as [|u l IH]; [contradiction|]. cbn [map lsum]. change (@radd R CRing_R) with Rplus. destruct Hv as [->|Hv].
    - specialize (LE l ltac:(intros; apply HA; right; assumption)). lra.
    - specialize (IH Hv ltac:(intros; apply HA; right; assumption)). specialize (PL u (HA u (or_introl eq_refl))). lra. }
  destruct (Rlt_dec _ 0); [reflexivity|contradiction].
Qed.
Print Assumptions C66_norm.
Print Assumptions C66_odd_refuted.
Print Assumptions C66_nan_refuted.

(** ** Concrete cases *)
Definition exMat : tensR := Tn [2; 3] (fun idx => IZR (match idx with [0; 1] => 5 | [1; 0] => 7 | [1; 2] => 7 | _ => 1 end)).
Lemma exMat_reducible along : NoDup along -> Forall (fun a => 0 <= a < 2) along -> reducible (shp exMat) along.
Proof. intros ND H. split; [discriminate|]. split; [repeat constructor; lia|]. split; [exact ND|exact H]. Qed.
(** Rows (1,5,1) and (7,1,7), reduced along the columns: the first row has one largest
    entry, the second two. *)
Example C64_ex : exists y gx, maxApi exMat [1] = Ok y /\ at_ y [0] = 5%R /\ at_ y [1] = 7%R /\
  maxSymDiff [1] exMat y (Tn (shp y) (fun _ => 1%R)) = Ok gx /\ at_ gx [0; 1] = 1%R /\ at_ gx [0; 0] = 0%R /\ at_ gx [1; 0] = 1%R /\ at_ gx [1; 2] = 1%R.
Proof.
  destruct (C64_gradient exMat [1]) as [y [Ey [Sy [Vy G]]]]; [apply exMat_reducible; [apply nodup_one|repeat constructor; lia]|cbn; lia|]. cbn [axes_of] in *.
  assert (Y0 : at_ y [0] = 5%R). { apply (largest_unique (map (at_ exMat) (group (shp exMat) [1] [0]))); [apply Vy; rewrite Sy; compute; auto|]. change (group (shp exMat) [1] [0]) with [[0; 0]; [0; 1]; [0; 2]]. unfold is_largest. cbn. split; [auto|]. intros v [<-|[<-|[<-|[]]]]; lra. }
  assert (Y1 : at_ y [1] = 7%R). { apply (largest_unique (map (at_ exMat) (group (shp exMat) [1] [1]))); [apply Vy; rewrite Sy; compute; auto|]. change (group (shp exMat) [1] [1]) with [[1; 0]; [1; 1]; [1; 2]]. unfold is_largest. cbn. split; [auto|]. intros v [<-|[<-|[<-|[]]]]; lra. }
  destruct (G (Tn (shp y) (fun _ => 1%R)) eq_refl) as [gx [Eg [Sg Vg]]]. exists y, gx. split; [exact Ey|]. split; [exact Y0|]. split; [exact Y1|]. split; [exact Eg|].
  pose proof (Vg [0; 1] ltac:(compute; auto)) as [A _]. pose proof (Vg [0; 0] ltac:(compute; auto)) as [_ B]. pose proof (Vg [1; 0] ltac:(compute; auto 10)) as [C _]. pose proof (Vg [1; 2] ltac:(compute; auto 10)) as [D _].
  cbn in A, B, C, D. rewrite Y0 in A, B. rewrite Y1 in C, D. split; [apply A; reflexivity|]. split; [apply B; lra|]. split; [apply C; reflexivity|apply D; reflexivity].
Qed.
(** The hypotheses of the theorem on ties are met there. *)
Example C64_ex_ties : exists y gx, maxApi exMat [1] = Ok y /\ maxSymDiff [1] exMat y (Tn (shp y) (fun _ => 1%R)) = Ok gx /\ (total_of (Tn (shp y) (fun _ => 1%R)) < total_of gx)%R.
Proof.
  destruct C64_ex as [y [gx [Ey [Y0 [Y1 [Eg _]]]]]]. exists y, gx. split; [exact Ey|]. split; [exact Eg|].
  apply (C64_ties_refuted exMat y (Tn (shp y) (fun _ => 1%R)) gx [1] [1; 0] [1; 2]); try exact Ey; try exact Eg; try reflexivity.
  - apply exMat_reducible; [apply nodup_one|repeat constructor; lia].
  - cbn. lia.
  - compute. auto 10.
  - compute. auto 10.
  - discriminate.
  - cbn. rewrite Y1. reflexivity.
Qed.
Example C64_ex_fifth : forall g, exists y, maxApi (Tn [1; 1; 1; 1; 2] (fun idx => IZR (nth 4 idx 0))) [4] = Ok y /\ maxSymDiff [4] (Tn [1; 1; 1; 1; 2] (fun idx => IZR (nth 4 idx 0))) y g = Err.
Proof. intro g. eexists. split; reflexivity. Qed.
Example C65_ex : exists y, meanApi exMat [] = Ok y /\ at_ y [] = (11 / 3)%R.
Proof.
  destruct (C65_mean exMat []) as [y [Ey [Sy [Vy _]]]]; [apply exMat_reducible; constructor|]. exists y. split; [exact Ey|]. rewrite Vy; [|rewrite Sy; compute; auto]. change (group (shp exMat) (axes_of (shp exMat) []) []) with [[0; 0]; [0; 1]; [0; 2]; [1; 0]; [1; 1]; [1; 2]]. unfold average. cbn. change (@r0 R CRing_R) with 0%R. lra.
Qed.
Definition exVec : tensR := Tn [2] (fun idx => IZR (2 * nth 0 idx 0 - 3)).
(** The vector (-3, -1): its 2-norm is right, its 1-norm negative, its 3-norm no number. *)
Example C66_ex : exists f1 f2 f3, normApi exVec 0 1 = Ok ([], f1) /\ normApi exVec 0 2 = Ok ([], f2) /\ normApi exVec 0 3 = Ok ([], f3) /\
  f1 [] = Num (-4) /\ (exists v, f2 [] = Num v /\ is_norm 2 [-3; -1]%R v) /\ f3 [] = NaN.
Proof.
  assert (HR : reducible (shp exVec) [0]) by (split; [discriminate|]; split; [repeat constructor; cbn; lia|]; split; [apply nodup_one|repeat constructor; cbn; lia]).
  destruct (norm_value exVec 0 1 HR) as [f1 [E1 V1]]. destruct (C66_norm exVec 0 2 HR ltac:(lia)) as [f2 [E2 V2]].
  destruct (C66_nan_refuted exVec 0 3 [] HR eq_refl ltac:(lia)) as [f3 [E3 V3]].
  - exists (-3)%R. split; [left; reflexivity|lra].
  - intros v H. change (group (shp exVec) [0] []) with [[0]; [1]] in H. cbn in H. destruct H as [<-|[<-|[]]]; lra.
  - exists f1, f2, f3. split; [exact E1|]. split; [exact E2|]. split; [exact E3|]. split; [|split].
    + rewrite V1. change (group (shp exVec) [0] []) with [[0]; [1]]. cbn. f_equal. change (@r0 R CRing_R) with 0%R. lra.
    + apply (V2 []); [left; reflexivity|left; reflexivity].
    + exact V3.
Qed.
