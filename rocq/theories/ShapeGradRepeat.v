(** Proofs for ShapeGradProps.v: the automatic gradient of Repeat. *)
From Coq Require Import List ZArith Bool Lia Ring.
From Verif Require Import Sums BroadcastModel BroadcastSpec BroadcastProofs ShapeGradModel ShapeGradSpec ShapeGradProofs ShapeGradSlice ShapeGradConcat ShapeGradSum.
Import ListNotations.
Local Open Scope Z_scope.

Lemma without_remove a l : forall k, k <= a -> without [a] k l = removeAt l (Z.to_nat (a - k)).
Proof.
  induction l as [|x l IH]; intros k H; cbn [without]; [destruct (Z.to_nat (a - k)); reflexivity|]. cbn [existsb]. rewrite orb_false_r. destruct (Z.eqb_spec k a) as [->|N].
  - rewrite Z.sub_diag. cbn [Z.to_nat removeAt]. apply without_none. intros b [<-|[]]. lia.
  - replace (Z.to_nat (a - k)) with (S (Z.to_nat (a - (k + 1)))) by lia. cbn [removeAt]. rewrite IH by lia. reflexivity.
Qed.
Lemma ravel_merge P n r R : forall p i j q, length p = length P -> ravel (P ++ n :: r :: R) (p ++ i :: j :: q) = ravel (P ++ n * r :: R) (p ++ i * r + j :: q).
Proof.
  induction P as [|d P IH]; intros [|x p] i j q L; cbn [length] in L; try lia; cbn [app ravel].
  - unfold totalSize. cbn [fold_right]. ring.
  - rewrite IH by lia. rewrite !total_app. unfold totalSize. cbn [fold_right]. ring.
Qed.
Lemma div_app p i r q : divAt (p ++ i :: q) (length p) r = p ++ i / r :: q.
Proof. induction p as [|x p IH]; cbn [app divAt length]; [reflexivity|]. rewrite IH. reflexivity. Qed.
Fixpoint mergeAt (k : nat) (r : Z) (l : list Z) : list Z :=
  match k, l with
  | O, i :: j :: q => i * r + j :: q
  | S k', x :: l' => x :: mergeAt k' r l'
  | _, _ => l
  end.
Lemma merge_app p i j q r : mergeAt (length p) r (p ++ i :: j :: q) = p ++ i * r + j :: q.
Proof. induction p as [|x p IH]; cbn [app mergeAt length]; [reflexivity|]. rewrite IH. reflexivity. Qed.

Section Re.
Context {A : Type} {CR : CRing A}.
Add Ring Aring : (@cr_th A CR).
Local Open Scope cr_scope.
Notation tens := (@tens A).

Lemma over_merge P : forall n r R (F : list Z -> A), (0 <= n)%Z -> (0 <= r)%Z ->
  over (P ++ (n * r)%Z :: R) F = over (P ++ n :: r :: R) (fun full => F (mergeAt (length P) r full)).
Proof.
  induction P as [|d P IH]; intros n r R F Hn Hr; cbn [app over length].
  - rewrite Z2Nat.inj_mul by lia. rewrite sum_prod. apply sum_ext. intros i Hi. apply sum_ext. intros j Hj. apply over_ext. intros idx _. cbn [mergeAt]. do 2 f_equal. lia.
  - apply sum_ext. intros i Hi. rewrite IH by assumption. reflexivity.
Qed.
(** The middle of the computation: [t] is the gradient with the repeated axis split in
    two, [d] its sum along the second. *)
Lemma middle P n r R (t : tens) G : (1 <= n)%Z -> (1 <= r)%Z -> positive (P ++ n :: r :: R) -> shp t = P ++ n :: r :: R ->
  (forall p i j q, inside P p -> (0 <= i < n)%Z -> (0 <= j < r)%Z -> inside R q -> at_ t (p ++ i :: j :: q) = G (p ++ (i * r + j)%Z :: q)) ->
  exists d, sumNode t [(Z.of_nat (length P) + 1)%Z] = Ok d /\ shp d = P ++ n :: R /\
    forall idx, inside (P ++ n :: R) idx -> at_ d idx = over (P ++ (n * r)%Z :: R) (fun full => if eqShape (divAt full (length P) r) idx then G full else 0).
Proof.
  intros Hn Hr HP St Vt. destruct (sum_ok t [(Z.of_nat (length P) + 1)%Z]) as [d [Ed [Sd Vd]]]; [discriminate|apply nodup_one|rewrite St; exact HP|constructor; [rewrite St, app_length; cbn [length]; lia|constructor]|].
  exists d. split; [exact Ed|].
  assert (W : forall p i j q, length p = length P -> without [(Z.of_nat (length P) + 1)%Z] 0 (p ++ i :: j :: q) = p ++ i :: q).
  { intros p i j q L. rewrite without_remove by lia. replace (Z.to_nat (Z.of_nat (length P) + 1 - 0)) with (length (p ++ [i])) by (rewrite app_length; cbn [length]; lia). change (i :: j :: q) with ([i] ++ j :: q). rewrite app_assoc, remove_app, <- app_assoc. reflexivity. }
  split; [rewrite Sd, St; apply W; reflexivity|]. intros idx Hi. rewrite Vd, St, over_merge by lia. apply over_ext. intros full Hf. apply inside_split in Hf. destruct Hf as [p [i [r1 [-> [Hp [Hi1 Hr1]]]]]]. inversion Hr1 as [|? j ? q Hj Hq]; subst. pose proof (inside_len _ _ Hp) as Lp.
  rewrite W by exact Lp. rewrite <- Lp, merge_app, div_app. replace ((i * r + j) / r)%Z with i by (rewrite Z.div_add_l, Z.div_small by lia; lia). rewrite Vt by assumption. reflexivity.
Qed.
Lemma repeat_auto P n R rep (x y g xd : tens) : (2 <= n)%Z -> (1 <= rep)%Z -> positive P -> positive R ->
  shp x = P ++ n :: R -> repeatNode x (Z.of_nat (length P)) rep = Ok y -> shp g = shp y -> shp xd = shp x ->
  exists xd' h, repeatDoDiff (Z.of_nat (length P)) rep xd g = Ok xd' /\ pulled_back x y g h /\ shp xd' = shp x /\ forall idx, inside (shp x) idx -> at_ xd' idx = at_ xd idx + at_ h idx.
Proof.
  intros Hn Hr HP HR Sx Ey Hg Hx.
  destruct (repeat_ok x (Z.of_nat (length P)) rep) as [y' [Ey' [Sy Vy]]]; [rewrite Sx, app_length; cbn [length]; lia|]. rewrite Ey' in Ey. injection Ey as ->.
  rewrite Nat2Z.id, Sx, nth_app, set_app in Sy. rewrite Nat2Z.id in Vy.
  assert (IN : forall full, inside (P ++ (n * rep)%Z :: R) full -> inside (P ++ n :: R) (divAt full (length P) rep)).
  { intros full Hf. apply inside_split in Hf. destruct Hf as [p [i [q [-> [Hp [Hi Hq]]]]]]. rewrite <- (inside_len _ _ Hp), div_app. apply inside_split. exists p, (i / rep)%Z, q. repeat split; auto; [apply Z.div_pos; lia|apply Z.div_lt_upper_bound; lia]. }
  set (hfun := fun idx => over (P ++ (n * rep)%Z :: R) (fun full => if eqShape (divAt full (length P) rep) idx then at_ g full else 0)).
  assert (PB : pulled_back x y g (Tn (P ++ n :: R) hfun)).
  { split; cbn [shp at_]; [symmetry; exact Sx|]. rewrite Sx, Sy. transitivity (ip (P ++ (n * rep)%Z :: R) (fun full => at_ x (divAt full (length P) rep)) (at_ g)); [apply ip_ext; [intros; apply Vy|reflexivity]|]. apply push; [exact IN|]. intros idx _. reflexivity. }
  assert (CASE : (P = [] /\ R = []) \/ (match P ++ n :: R with [m] => [m; 1%Z] | s => s end) = P ++ n :: R).
  { destruct P as [|a P]; [destruct R as [|b R]; auto|]. right. destruct P; reflexivity. }
  unfold repeatDoDiff. rewrite Hx, Sx, Nat2Z.id.
  destruct CASE as [[-> ->]|EC].
  - cbn [app length nth_error Nat.add firstn skipn Z.of_nat Z.add] in *. destruct (Z.eqb_spec n 1); [lia|].
    rewrite (reshape_plain g [n; rep; 1%Z]); [|repeat constructor; lia|right; rewrite Hg, Sy; unfold totalSize; cbn [fold_right]; ring]. cbn [bind].
    set (t := Tn [n; rep; 1%Z] _). destruct (middle [] n rep [1%Z] t (fun idx => at_ g (firstn 1 idx)) ltac:(lia) Hr ltac:(repeat constructor; lia) eq_refl) as [d [Ed [Sd Vd]]].
    { intros p i j q Hp Hi Hj Hq. inversion Hp; subst. inversion Hq as [|? z ? q' Hz Hq']; subst. inversion Hq'; subst. assert (z = 0%Z) by lia. subst z. unfold t. cbn [app at_ firstn ravel]. rewrite Hg, Sy. unfold totalSize. cbn [fold_right unravel]. f_equal. f_equal. unfold totalSize. cbn [fold_right]. rewrite Z.div_1_r. ring. }
    cbn [length Z.of_nat Z.add] in Ed. rewrite Ed. cbn [bind]. cbn [app] in Sd. rewrite (reshape_plain d [n; 1%Z]); [|repeat constructor; lia|right; rewrite Sd; reflexivity]. cbn [bind].
    unfold addDeriv. cbn [shp]. unfold addInto. cbn [shp]. rewrite Hx, Sx. unfold shapeEq. rewrite (Z.eqb_refl n). cbn [orb andb Z.eqb Pos.eqb]. destruct (Z.ltb_spec 1 n) as [_|]; [|lia]. cbn [orb andb].
    eexists. exists (Tn [n] hfun). split; [reflexivity|]. split; [exact PB|]. split; [reflexivity|]. cbn [at_]. intros idx Hi. f_equal.
    inversion Hi as [|? i ? q Hi1 Hq]; subst. inversion Hq; subst. rewrite Sd.
    assert (U1 : unravel [n; 1%Z] (ravel [n] [i]) = [i; 0%Z]) by (cbn [ravel unravel]; unfold totalSize; cbn [fold_right]; rewrite !Z.mul_1_r, Z.add_0_r, Z.mod_1_r, !Z.div_1_r; reflexivity).
    rewrite U1, unravel_ravel by (repeat constructor; lia). rewrite Vd by (repeat constructor; lia). unfold hfun. cbn [app length over].
    apply sum_ext. intros m Hm. change (Z.to_nat 1) with 1%nat. cbn [sum divAt firstn]. change (Z.of_nat 0) with 0%Z.
    destruct (Z.eq_dec (Z.of_nat m / rep) i) as [E|E].
    + rewrite E, !eqShape_refl. ring.
    + assert (N1 : forall s, eqShape ((Z.of_nat m / rep)%Z :: s) (i :: s) = false) by (intro s; destruct (eqShape _ _) eqn:K; [apply eqShape_iff in K; congruence|reflexivity]).
      rewrite !N1. ring.
  - rewrite EC. rewrite nth_error_app2, Nat.sub_diag by lia. cbn [nth_error]. destruct (Z.eqb_spec n 1); [lia|].
    assert (F1 : firstn (length P + 1) (P ++ n :: R) = P ++ [n]) by (rewrite firstn_app; replace (length P + 1 - length P)%nat with 1%nat by lia; rewrite firstn_all2 by lia; reflexivity).
    assert (S1 : skipn (length P + 1) (P ++ n :: R) = R) by (rewrite skipn_app; replace (length P + 1 - length P)%nat with 1%nat by lia; rewrite skipn_all2 by lia; reflexivity).
    rewrite F1, S1, <- app_assoc. cbn [app].
    assert (PN : positive (P ++ n :: rep :: R)) by (apply Forall_app; split; [exact HP|]; constructor; [lia|]; constructor; [lia|exact HR]).
    rewrite (reshape_plain g (P ++ n :: rep :: R)); [|eapply Forall_impl; [|exact PN]; cbn; lia|right; rewrite Hg, Sy, !total_app; unfold totalSize; cbn [fold_right]; ring]. cbn [bind].
    set (t := Tn (P ++ n :: rep :: R) _). destruct (middle P n rep R t (at_ g) ltac:(lia) Hr PN eq_refl) as [d [Ed [Sd Vd]]].
    { intros p i j q Hp Hi Hj Hq. unfold t. cbn [at_]. rewrite ravel_merge by apply (inside_len _ _ Hp). rewrite Hg, Sy, unravel_ravel; [reflexivity|]. apply inside_split. exists p, (i * rep + j)%Z, q. repeat split; auto; nia. }
    rewrite Ed. cbn [bind].
    assert (F2 : firstn (length P + 1) (P ++ n :: rep :: R) ++ skipn (length P + 2) (P ++ n :: rep :: R) = P ++ n :: R).
    { rewrite firstn_app. replace (length P + 1 - length P)%nat with 1%nat by lia. rewrite firstn_all2 by lia. rewrite skipn_app. replace (length P + 2 - length P)%nat with 2%nat by lia. rewrite skipn_all2 by lia. cbn [firstn skipn app]. rewrite <- app_assoc. reflexivity. }
    assert (PX : Forall (fun v => (0 <= v)%Z) (P ++ n :: R)) by (apply Forall_app; split; [eapply Forall_impl; [|exact HP]; cbn; lia|constructor; [lia|eapply Forall_impl; [|exact HR]; cbn; lia]]).
    rewrite F2, (reshape_plain d (P ++ n :: R)); [|exact PX|right; rewrite Sd; reflexivity]. cbn [bind].
    unfold addDeriv. cbn [shp]. destruct (P ++ n :: R) as [|d0 s0] eqn:EPR; [destruct P; discriminate|]. rewrite <- EPR in *. unfold addInto. cbn [shp]. rewrite Hx, Sx.
    assert (SQ : shapeEq (P ++ n :: R) (P ++ n :: R) = true) by (clear; destruct (P ++ n :: R) as [|a [|b [|c l]]]; apply eqShape_refl). rewrite SQ.
    eexists. exists (Tn (P ++ n :: R) hfun). split; [reflexivity|]. split; [exact PB|]. split; [reflexivity|]. cbn [at_]. intros idx Hi. f_equal. rewrite Sd, !unravel_ravel by (rewrite ?unravel_ravel by exact Hi; exact Hi). apply Vd, Hi.
Qed.
End Re.
