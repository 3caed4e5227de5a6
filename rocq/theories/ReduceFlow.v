(** Derivatives and sums over groups for ReduceProps.v. *)
From Coq Require Import List ZArith Reals Bool Lia Lra Sorted.
From Verif Require Import Sums BroadcastModel BroadcastSpec BroadcastProofs BroadcastProps ShapeGradModel ShapeGradSpec ShapeGradProofs ShapeGradSum ReduceModel ReduceSpec ReduceProofs.
Import ListNotations.
Local Open Scope R_scope.

(** A function that is a straight line around a point. *)
Lemma lin_deriv f x l d : 0 < d -> (forall h, Rabs h < d -> f (x + h) = f x + l * h) -> derivable_pt_lim f x l.
Proof.
  intros Hd H eps He. exists (mkposreal d Hd). intros h Hh Hs. cbn [pos] in Hs. rewrite (H h Hs). replace ((f x + l * h - f x) / h - l) with 0 by (field; exact Hh). rewrite Rabs_R0. exact He.
Qed.
Lemma gap l x : (forall v, In v l -> v < x) -> exists d, 0 < d /\ forall v, In v l -> v <= x - d.
Proof.
  induction l as [|v l IH]; intro H; [exists 1; split; [lra|intros ? []]|]. destruct IH as [d [Hd IH]]; [intros u Hu; apply H; right; exact Hu|].
  exists (Rmin d (x - v)). pose proof (H v (or_introl eq_refl)). split; [apply Rmin_pos; lra|]. intros u [<-|Hu]; [pose proof (Rmin_r d (x - v)); lra|]. specialize (IH u Hu). pose proof (Rmin_l d (x - v)). lra.
Qed.
(** One cell changed. *)
Lemma ip_change s (J : list Z) (f f' g : list Z -> R) dh : inside s J -> (forall idx, inside s idx -> f' idx = f idx + if eqShape J idx then dh else 0) ->
  @ip R CRing_R s f' g = @ip R CRing_R s f g + dh * g J.
Proof.
  intros HJ H. rewrite !ip_over. rewrite <- (over_pick (A := R) s J (fun y => dh * g y) HJ). change Rplus with (@radd R CRing_R). rewrite <- (over_add (A := R)). apply over_ext. intros idx Hi. rewrite (H idx Hi).
  change (@rmul R CRing_R) with Rmult. change (@radd R CRing_R) with Rplus. change (@r0 R CRing_R) with 0. destruct (eqShape J idx); ring.
Qed.
Lemma lsum_filter {B} (f : B -> R) p l : @lsum R CRing_R (map f (filter p l)) = @lsum R CRing_R (map (fun x => if p x then f x else 0) l).
Proof.
  induction l as [|x l IH]; cbn [filter map lsum]; [reflexivity|]. destruct (p x); cbn [map lsum]; rewrite IH; [reflexivity|]. change (@radd R CRing_R) with Rplus. lra.
Qed.
Lemma lsum_const {B} (c : R) (l : list B) : @lsum R CRing_R (map (fun _ => c) l) = INR (length l) * c.
Proof.
  induction l as [|x l IH]; [cbn; change (@r0 R CRing_R) with 0; lra|]. cbn [map lsum]. rewrite IH. change (@radd R CRing_R) with Rplus. cbn [length]. rewrite S_INR. lra.
Qed.
Lemma group_over s axes idx (F : list Z -> R) : @lsum R CRing_R (map F (group s axes idx)) = @over R CRing_R s (fun full => if eqShape (without axes 0 full) idx then F full else 0).
Proof. rewrite over_coords. unfold group. rewrite lsum_filter. apply lsum_ext. intros x _. unfold eqShape. destruct (list_eq_dec _ _ _); reflexivity. Qed.
(** All entries, group by group. *)
Lemma by_groups s axes (F : list Z -> R) : @lsum R CRing_R (map F (coords s)) = @lsum R CRing_R (map (fun idx => @lsum R CRing_R (map F (group s axes idx))) (coords (without axes 0 s))).
Proof.
  rewrite (lsum_ext (fun idx => @lsum R CRing_R (map F (group s axes idx))) (fun idx => @over R CRing_R s (fun full => if eqShape (without axes 0 full) idx then F full else 0))) by (intros; apply group_over).
  rewrite <- (over_coords (A := R) (without axes 0 s)), <- (over_coords (A := R)). rewrite over_swap. apply over_ext. intros full Hf. symmetry. apply (@over_pick R CRing_R _ _ (fun _ => F full)). apply without_inside, Hf.
Qed.

(** ** Sizes of groups *)
Local Open Scope Z_scope.
(** Product of the sizes at the positions, counted from [k], that are in [axes]. *)
Fixpoint sizesIn (axes : list Z) (k : Z) (s : list Z) : Z :=
  match s with [] => 1 | d :: s' => (if existsb (Z.eqb k) axes then d else 1) * sizesIn axes (k + 1) s' end.
Lemma flat_len {B C} (f : B -> list C) n l : (forall x, In x l -> length (f x) = n) -> length (flat_map f l) = (length l * n)%nat.
Proof. induction l as [|x l IH]; intro H; cbn [flat_map length]; [reflexivity|]. rewrite app_length, (H x (or_introl eq_refl)), IH by (intros; apply H; right; assumption). reflexivity. Qed.
Lemma filter_none {B} (p : B -> bool) l : (forall x, p x = false) -> filter p l = [].
Proof. intro H. induction l as [|x l IH]; cbn [filter]; [reflexivity|]. rewrite H. exact IH. Qed.
Lemma group_size axes s : positive s -> forall k idx, inside (without axes k s) idx ->
  Z.of_nat (length (filter (fun full => if list_eq_dec Z.eq_dec (without axes k full) idx then true else false) (coords s))) = sizesIn axes k s.
Proof.
  induction 1 as [|d s Hd HP IH]; intros k idx H; cbn [coords sizesIn].
  - cbn [without] in H. inversion H; subst. reflexivity.
  - cbn [without] in H.
    assert (FM : forall (p : list Z -> bool) (f : nat -> list (list Z)) l, filter p (flat_map f l) = flat_map (fun i => filter p (f i)) l).
    { intros p f l. induction l as [|i l IHl]; cbn [flat_map]; [reflexivity|]. rewrite filter_app, IHl. reflexivity. }
    assert (FF : forall (p : list Z -> bool) i (l : list (list Z)), length (filter p (map (cons i) l)) = length (filter (fun r => p (i :: r)) l)).
    { intros p i l. induction l as [|r l IHl]; cbn [map filter]; [reflexivity|]. destruct (p (i :: r)); cbn [length]; rewrite IHl; reflexivity. }
    rewrite FM. destruct (existsb (Z.eqb k) axes) eqn:E.
    + rewrite (flat_len _ (Z.to_nat (sizesIn axes (k + 1) s))).
      * specialize (IH (k + 1) idx H). rewrite seq_length. rewrite Nat2Z.inj_mul, !Z2Nat.id by lia. reflexivity.
      * intros i _. rewrite FF. cbn [without]. rewrite E. rewrite <- (IH (k + 1) idx H). rewrite Nat2Z.id. reflexivity.
    + inversion H as [|? i0 ? r Hi Hr]; subst. specialize (IH (k + 1) r Hr). rewrite Z.mul_1_l, <- IH.
      assert (G : forall st n, length (flat_map (fun i => filter (fun full => if list_eq_dec Z.eq_dec (without axes k full) (i0 :: r) then true else false) (map (cons (Z.of_nat i)) (coords s))) (seq st n)) =
        if (Nat.leb st (Z.to_nat i0) && Nat.ltb (Z.to_nat i0) (st + n))%bool then length (filter (fun full => if list_eq_dec Z.eq_dec (without axes (k + 1) full) r then true else false) (coords s)) else 0%nat).
      { intros st n. revert st. induction n as [|n IHn]; intro st; cbn [seq flat_map].
        - destruct (Nat.leb_spec st (Z.to_nat i0)), (Nat.ltb_spec (Z.to_nat i0) (st + 0)); cbn [andb length]; try lia.
        - rewrite app_length, IHn, FF. cbn [without]. rewrite E. destruct (Nat.eq_dec st (Z.to_nat i0)) as [->|N].
          + destruct (Nat.leb_spec (S (Z.to_nat i0)) (Z.to_nat i0)); [lia|]. cbn [andb]. destruct (Nat.leb_spec (Z.to_nat i0) (Z.to_nat i0)); [|lia]. destruct (Nat.ltb_spec (Z.to_nat i0) (Z.to_nat i0 + S n)); [|lia]. cbn [andb]. rewrite Nat.add_0_r. f_equal. apply filter_ext. intro a. rewrite Z2Nat.id by lia.
            destruct (list_eq_dec Z.eq_dec (i0 :: without axes (k + 1) a) (i0 :: r)), (list_eq_dec Z.eq_dec (without axes (k + 1) a) r); congruence.
          + replace (filter _ (coords s)) with (@nil (list Z)); cycle 1.
            { symmetry. apply filter_none. intro a. destruct (list_eq_dec Z.eq_dec (Z.of_nat st :: without axes (k + 1) a) (i0 :: r)) as [X|X]; [|reflexivity]. injection X as X _. lia. }
            cbn [length]. rewrite Nat.add_0_l. destruct (Nat.leb_spec (S st) (Z.to_nat i0)), (Nat.leb_spec st (Z.to_nat i0)), (Nat.ltb_spec (Z.to_nat i0) (S st + n)), (Nat.ltb_spec (Z.to_nat i0) (st + S n)); cbn [andb]; try lia; reflexivity. }
      rewrite G. destruct (Nat.leb_spec 0 (Z.to_nat i0)); [|lia]. destruct (Nat.ltb_spec (Z.to_nat i0) (0 + Z.to_nat d)); [reflexivity|lia].
Qed.

Lemma group_len axes s idx : positive s -> inside (without axes 0 s) idx -> Z.of_nat (length (group s axes idx)) = sizesIn axes 0 s.
Proof. intros HP HI. apply (group_size axes s HP 0 idx HI). Qed.
Lemma sizesIn_none axes s : forall k, (forall a, In a axes -> a < k) -> sizesIn axes k s = 1.
Proof.
  induction s as [|d s IH]; intros k H; cbn [sizesIn]; [reflexivity|]. destruct (existsb (Z.eqb k) axes) eqn:E.
  - apply existsb_exists in E. destruct E as [a [Ha Ea]]. apply Z.eqb_eq in Ea. subst a. specialize (H k Ha). lia.
  - rewrite IH; [lia|]. intros a Ha. specialize (H a Ha). lia.
Qed.
Lemma sizesIn_cons a axes s : ~ In a axes -> forall k, k <= a < k + Z.of_nat (length s) -> sizesIn (a :: axes) k s = nth (Z.to_nat (a - k)) s 0 * sizesIn axes k s.
Proof.
  intro NI. induction s as [|d s IH]; intros k Hk; cbn [length] in Hk; [lia|]. cbn [sizesIn existsb]. destruct (Z.eqb_spec k a) as [->|N]; cbn [orb].
  - rewrite Z.sub_diag. cbn [Z.to_nat nth]. destruct (existsb (Z.eqb a) axes) eqn:E.
    + apply existsb_exists in E. destruct E as [b [Hb Eb]]. apply Z.eqb_eq in Eb. subst b. contradiction.
    + rewrite Z.mul_1_l. f_equal. clear. assert (K : forall k, a < k -> sizesIn (a :: axes) k s = sizesIn axes k s).
      { induction s as [|x s IH]; intros k Hk; cbn [sizesIn existsb]; [reflexivity|]. destruct (Z.eqb_spec k a); [lia|]. cbn [orb]. rewrite IH by lia. reflexivity. }
      apply K. lia.
  - rewrite IH by lia. replace (Z.to_nat (a - k)) with (S (Z.to_nat (a - (k + 1)))) by lia. cbn [nth]. ring.
Qed.
Lemma counts_sizes s axes : NoDup axes -> Forall (fun a => 0 <= a < Z.of_nat (length s)) axes -> counts (map (fun a => nth (Z.to_nat a) s 0) axes) = sizesIn axes 0 s.
Proof.
  unfold counts. assert (K : forall l c, fold_left Z.mul l c = c * fold_left Z.mul l 1).
  { induction l as [|x l IH]; intro c; cbn [fold_left]; [lia|]. rewrite IH, (IH (1 * x)). ring. }
  induction 1 as [|a axes Ha ND IH]; intro HF; cbn [map fold_left].
  - rewrite sizesIn_none by (intros ? []). reflexivity.
  - inversion_clear HF as [|? ? H1 H2]. rewrite K, IH by exact H2. rewrite sizesIn_cons by (try exact Ha; lia). rewrite Z.sub_0_r. ring.
Qed.
Lemma sizesIn_pos axes s : positive s -> forall k, 1 <= sizesIn axes k s.
Proof. induction 1 as [|d s Hd _ IH]; intro k; cbn [sizesIn]; [lia|]. specialize (IH (k + 1)). destruct (existsb _ _); nia. Qed.
