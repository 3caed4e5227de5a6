(** Proofs about the reductions of ReduceModel.v. *)
From Coq Require Import List ZArith Reals Bool Lia Lra Sorted.
From Verif Require Import Sums BroadcastModel BroadcastSpec BroadcastProofs BroadcastProps ShapeGradModel ShapeGradSpec ShapeGradProofs ShapeGradSum ReduceModel ReduceSpec.
Import ListNotations.
Local Open Scope Z_scope.

(** ** Largest values *)
Definition largest (S : list Z -> Prop) (F : list Z -> option R) (r : option R) : Prop :=
  match r with
  | None => forall idx, S idx -> F idx = None
  | Some m => (exists idx, S idx /\ F idx = Some m) /\ forall idx v, S idx -> F idx = Some v -> (v <= m)%R
  end.
Lemma largest_ext (S S' : list Z -> Prop) F r : (forall idx, S idx <-> S' idx) -> largest S F r -> largest S' F r.
Proof.
  intros E H. destruct r as [m|]; cbn [largest] in *.
  - destruct H as [[i [H1 H2]] H3]. split; [exists i; split; [apply E, H1|exact H2]|]. intros j v Hj. apply H3, E, Hj.
  - intros i Hi. apply H, E, Hi.
Qed.
Lemma largest_or (S T : list Z -> Prop) F a b : largest S F a -> largest T F b -> largest (fun i => S i \/ T i) F (omax a b).
Proof.
  intros Ha Hb. destruct a as [x|], b as [y|]; cbn [omax largest] in *.
  - destruct Ha as [[i [Hi Ei]] Ha], Hb as [[j [Hj Ej]] Hb]. split.
    + destruct (Rle_lt_dec x y) as [L|L]; [rewrite Rmax_right by exact L; exists j; auto|rewrite Rmax_left by lra; exists i; auto].
    + intros k v [Hk|Hk] Ek; [eapply Rle_trans; [apply (Ha k v Hk Ek)|apply Rmax_l]|eapply Rle_trans; [apply (Hb k v Hk Ek)|apply Rmax_r]].
  - destruct Ha as [[i [Hi Ei]] Ha]. split; [exists i; auto|]. intros k v [Hk|Hk] Ek; [apply (Ha k v Hk Ek)|rewrite (Hb k Hk) in Ek; discriminate].
  - destruct Hb as [[i [Hi Ei]] Hb]. split; [exists i; auto|]. intros k v [Hk|Hk] Ek; [rewrite (Ha k Hk) in Ek; discriminate|apply (Hb k v Hk Ek)].
  - intros k [Hk|Hk]; auto.
Qed.
Lemma overMax_ok s : forall F, largest (inside s) F (overMax s F).
Proof.
  induction s as [|d s IH]; intro F; cbn [overMax].
  - destruct (F []) as [m|] eqn:E; cbn [largest].
    + split; [exists []; split; [constructor|exact E]|]. intros idx v H Ev. inversion H; subst. rewrite E in Ev. injection Ev as <-. lra.
    + intros idx H. inversion H; subst. exact E.
  - assert (K : forall n st acc (S : list Z -> Prop), largest S F acc ->
      largest (fun idx => S idx \/ exists i r, idx = Z.of_nat i :: r /\ (st <= i < st + n)%nat /\ inside s r) F
        (fold_left (fun a i => omax a (overMax s (fun r => F (Z.of_nat i :: r)))) (seq st n) acc)).
    { induction n as [|n IHn]; intros st acc S HS; cbn [seq fold_left].
      - apply (largest_ext S); [|exact HS]. intro idx. split; [left; exact H|]. intros [H|[i [r [_ [H _]]]]]; [exact H|lia].
      - assert (H1 : largest (fun idx => S idx \/ exists r, idx = Z.of_nat st :: r /\ inside s r) F (omax acc (overMax s (fun r => F (Z.of_nat st :: r))))).
        { apply largest_or; [exact HS|]. specialize (IH (fun r => F (Z.of_nat st :: r))). destruct (overMax s _) as [m|]; cbn [largest] in *.
          - destruct IH as [[r [Hr Er]] IH]. split; [exists (Z.of_nat st :: r); split; [exists r; auto|exact Er]|]. intros idx v [r' [-> Hr']] Ev. apply (IH r' v Hr' Ev).
          - intros idx [r [-> Hr]]. apply IH, Hr. }
        specialize (IHn (Datatypes.S st) _ _ H1). eapply largest_ext; [|exact IHn]. intro idx. cbn beta. split.
        + intros [[H|[r [E Hr]]]|[i [r [E [Hi Hr]]]]]; [left; exact H|right; exists st, r; repeat split; auto; lia|right; exists i, r; repeat split; auto; lia].
        + intros [H|[i [r [E [Hi Hr]]]]]; [left; left; exact H|]. destruct (Nat.eq_dec i st) as [->|N]; [left; right; exists r; auto|right; exists i, r; repeat split; auto; lia]. }
    specialize (K (Z.to_nat d) 0%nat None (fun _ => False)). cbn [largest] in K. specialize (K ltac:(intros ? [])). eapply largest_ext; [|exact K]. intro idx. cbn beta. split.
    + intros [[]|[i [r [-> [Hi Hr]]]]]. constructor; [lia|exact Hr].
    + intro H. right. inversion H as [|? i ? r Hi Hr]; subst. exists (Z.to_nat i), r. rewrite Z2Nat.id by lia. repeat split; auto; lia.
Qed.
(** Every reduced coordinate comes from some coordinate. *)
Lemma without_onto axes s : positive s -> forall k idx, inside (without axes k s) idx -> exists full, inside s full /\ without axes k full = idx.
Proof.
  induction 1 as [|d s Hd _ IH]; intros k idx H; cbn [without] in H.
  - inversion H; subst. exists []. split; [constructor|reflexivity].
  - destruct (existsb (Z.eqb k) axes) eqn:E.
    + destruct (IH (k + 1) idx H) as [f [Hf Ef]]. exists (0 :: f). split; [constructor; [lia|exact Hf]|]. cbn [without]. rewrite E. exact Ef.
    + inversion H as [|? i ? r Hi Hr]; subst. destruct (IH (k + 1) r Hr) as [f [Hf Ef]]. exists (i :: f). split; [constructor; [lia|exact Hf]|]. cbn [without]. rewrite E, Ef. reflexivity.
Qed.
Lemma group_in s axes idx full : In full (group s axes idx) <-> inside s full /\ without axes 0 full = idx.
Proof.
  unfold group. rewrite filter_In, coords_in. destruct (list_eq_dec Z.eq_dec (without axes 0 full) idx) as [E|E]; split; intros [H1 H2]; split; auto; try discriminate; contradiction.
Qed.
Lemma largest_unique l m m' : is_largest l m -> is_largest l m' -> m = m'.
Proof. intros [H1 H2] [H3 H4]. apply Rle_antisym; auto. Qed.
Lemma max_ok (t : tensR) axes : axes <> [] -> NoDup axes -> positive (shp t) -> Forall (fun a => 0 <= a < Z.of_nat (length (shp t))) axes ->
  exists y, maxNode t axes = Ok y /\ shp y = without axes 0 (shp t) /\
    forall idx, inside (shp y) idx -> is_largest (map (at_ t) (group (shp t) axes idx)) (at_ y idx).
Proof.
  intros HN ND HP HF. unfold maxNode. rewrite shape_ok by assumption. cbn [bind]. eexists. split; [reflexivity|]. split; [reflexivity|]. intros idx HI. cbn [shp at_] in *.
  pose proof (overMax_ok (shp t) (fun full => if eqShape (dropAxes axes full) idx then Some (at_ t full) else None)) as K. destruct (overMax _ _) as [m|]; cbn [largest] in K.
  - destruct K as [[f [Hf Ef]] K]. split.
    + apply in_map_iff. exists f. rewrite drop_without in Ef. destruct (eqShape _ _) eqn:E; [|discriminate]. injection Ef as Ef. split; [exact Ef|]. apply group_in. split; [exact Hf|]. apply eqShape_iff, E.
    + intros v Hv. apply in_map_iff in Hv. destruct Hv as [g [<- Hg]]. apply group_in in Hg. destruct Hg as [Hg Eg]. apply (K g); [exact Hg|]. rewrite drop_without, Eg, eqShape_refl. reflexivity.
  - destruct (without_onto axes (shp t) HP 0 idx HI) as [f [Hf Ef]]. specialize (K f Hf). rewrite drop_without, Ef, eqShape_refl in K. discriminate.
Qed.

(** ** The stretched operands *)
Lemma leftAxes_in along n i : (n <= 252)%nat -> (In i (leftAxes along n) <-> In i along /\ 0 <= i < Z.of_nat n).
Proof.
  intro H. unfold leftAxes. rewrite in_map_iff. split.
  - intros [j [<- Hj]]. apply filter_In in Hj. destruct Hj as [Hj E]. unfold iota in Hj. apply in_map_iff in Hj. destruct Hj as [k [<- Hk]]. apply in_seq in Hk. apply existsb_exists in E. destruct E as [a [Ha Ea]]. apply Z.eqb_eq in Ea. subst a. unfold byte. rewrite Z.mod_small by lia. split; [exact Ha|lia].
  - intros [Hi Hn]. exists i. unfold byte. rewrite Z.mod_small by lia. split; [reflexivity|]. apply filter_In. split.
    + unfold iota. apply in_map_iff. exists (Z.to_nat i). split; [lia|]. apply in_seq. lia.
    + apply existsb_exists. exists i. split; [exact Hi|apply Z.eqb_refl].
Qed.
(** The axes that Broadcast stretches for maxOp: those below four. *)
Lemma pattern_axes along n : (n <= 252)%nat -> exists l, on (newBroadcastPattern (leftAxes along n) []) = (l, []) /\ NoDup l /\
  forall i, In i l <-> In i along /\ 0 <= i < 4 /\ i < Z.of_nat n.
Proof.
  intro H. destruct (C34_pattern (leftAxes along n) []) as [PL [PR [SL _]]]; [apply Forall_forall; intros i Hi; apply leftAxes_in in Hi; lia|constructor|].
  destruct (on (newBroadcastPattern (leftAxes along n) [])) as [l r]. cbn [fst snd] in *. exists l. split; [|split].
  - f_equal. destruct r as [|i r]; [reflexivity|]. destruct (proj1 (PR i) (or_introl eq_refl)) as [Hi [[]|K]]. apply leftAxes_in in K; [|exact H]. lia.
  - apply ShapeGradSum.sorted_nodup, SL.
  - intro i. rewrite PL. split.
    + intros [Hi [K|[]]]. apply leftAxes_in in K; [|exact H]. destruct K. repeat split; auto; lia.
    + intros [K1 [K2 K3]]. split; [exact K2|]. left. apply leftAxes_in; [exact H|]. split; [exact K1|lia].
Qed.
Lemma scalar_side (t other : tensR) axes : axes <> [] -> NoDup axes -> Forall (fun a => 0 <= a < Z.of_nat (length (shp other))) axes -> positive (shp other) -> shp t = [] ->
  exists t', broadcastSide t (length (shp other)) other axes = Ok t' /\ length (shp t') = length (shp other) /\
    (forall i, (i < length (shp other))%nat -> nth i (shp t') 0 = if existsb (Z.eqb (Z.of_nat i)) axes then nth i (shp other) 0 else 1) /\
    forall idx, at_ t' idx = at_ t [].
Proof.
  intros HN ND HF HP HS. unfold broadcastSide. destruct axes as [|a0 ax]; [contradiction|]. set (axes := a0 :: ax) in *.
  destruct (existsb (fun a => Z.of_nat (length (shp other)) <=? a) axes) eqn:E1; [apply existsb_exists in E1; destruct E1 as [x [Hx E1]]; rewrite Forall_forall in HF; specialize (HF x Hx); lia|].
  assert (L0 : length (shp other) <> 0%nat) by (inversion HF; lia).
  assert (EC : calcBroadcastShape (shp t) (length (shp other)) axes = repeat 1 (length (shp other))).
  { unfold calcBroadcastShape. rewrite HS. cbn [length]. destruct (Nat.eqb_spec 0 (length (shp other))) as [E|E]; [congruence|]. rewrite fold_marks by exact HF. unfold marks. rewrite map_map. clear.
    generalize 0%nat. induction (length (shp other)) as [|n IH]; intro k; cbn [seq map repeat]; [reflexivity|]. f_equal. apply IH. }
  rewrite EC. rewrite (reshape_plain t (repeat 1 (length (shp other)))); [|apply Forall_forall; intros x Hx; apply repeat_spec in Hx; lia|left; exact HS].
  rewrite sizes_ok by exact HF. set (reps := map _ _).
  destruct (repeated_ok axes reps (Tn (repeat 1 (length (shp other))) (fun idx => at_ t (unravel (shp t) (ravel (repeat 1 (length (shp other))) idx))))) as [t' [E [L [S V]]]].
  - unfold reps. rewrite map_length. reflexivity.
  - cbn [shp]. rewrite repeat_length. exact HF.
  - unfold reps. apply Forall_forall. intros r Hr. apply in_map_iff in Hr. destruct Hr as [a [<- Ha]]. rewrite Forall_forall in HF. specialize (HF a Ha). apply positive_nth; [exact HP|lia].
  - exists t'. split; [exact E|]. cbn [shp at_] in *. rewrite repeat_length in L. split; [exact L|]. split.
    + intros i Hi. rewrite S. unfold reps. rewrite mult_sizes; [|exact ND|eapply Forall_impl; [|exact HF]; cbn; lia]. rewrite (nth_indep _ 0 1) by (rewrite repeat_length; exact Hi). rewrite nth_repeat. lia.
    + intro idx. rewrite (V idx (map (fun i => nth i idx 0 / mult axes reps i) (seq 0 (length idx)))).
      * rewrite HS. reflexivity.
      * rewrite map_length, seq_length. reflexivity.
      * intro i. destruct (Nat.lt_ge_cases i (length idx)) as [Hi|Hi]; [rewrite nth_map_seq by exact Hi; reflexivity|]. rewrite !nth_overflow by (rewrite ?map_length, ?seq_length; lia). rewrite Zdiv_0_l. reflexivity.
Qed.
(** A reduced value is stretched back to the shape it came from. *)
Lemma stretch_back (t y : tensR) along : along <> [] -> positive (shp t) -> (length (shp t) <= 4)%nat -> Forall (fun a => 0 <= a < Z.of_nat (length (shp t))) along ->
  shp y = without along 0 (shp t) ->
  exists x, broadcast y t (newBroadcastPattern (leftAxes along (length (shp t))) []) = Ok (x, t) /\ shp x = shp t /\
    forall idx, inside (shp t) idx -> at_ x idx = at_ y (without along 0 idx).
Proof.
  intros HN HP H4 HF HS. destruct (pattern_axes along (length (shp t)) ltac:(lia)) as [l [EO [ND HL]]]. unfold broadcast. rewrite EO. rewrite Forall_forall in HF.
  assert (EQ : forall i, In i l <-> In i along). { intro i. rewrite HL. split; [intros [H _]; exact H|]. intro H. specialize (HF i H). cbn beta in HF. split; [exact H|lia]. }
  assert (NL : l <> []). { destruct along as [|a along]; [contradiction|]. intro K. pose proof (proj2 (EQ a) (or_introl eq_refl)) as Hi. rewrite K in Hi. contradiction. }
  assert (FL : Forall (fun a => 0 <= a < Z.of_nat (length (shp t))) l) by (apply Forall_forall; intros i Hi; apply HF, EQ, Hi).
  assert (XE : forall i, existsb (Z.eqb i) l = existsb (Z.eqb i) along).
  { intro i. apply eq_true_iff_eq. rewrite !existsb_exists. split; intros [x [Hx Ex]]; exists x; split; auto; apply EQ, Hx. }
  destruct (shp y) as [|d s] eqn:ES.
  - destruct (scalar_side y t l NL ND FL HP ES) as [x [E [L [S V]]]]. rewrite E. cbn [broadcastSide]. exists x. split; [reflexivity|]. split.
    + apply list_eq; [exact L|]. intros i Hi. rewrite S by lia. rewrite XE. destruct (existsb (Z.eqb (Z.of_nat i)) along) eqn:K; [reflexivity|]. pose proof (without_in along (shp t) i 0 ltac:(lia) K) as C. rewrite <- HS in C. contradiction.
    + intros idx Hi. rewrite V. f_equal. pose proof (without_inside along _ _ Hi 0) as C. rewrite <- HS in C. inversion C. reflexivity.
  - rewrite <- ES in *. destruct (side_insert y t l) as [x [E [ST V]]]; try assumption.
    + rewrite HS. apply without_positive, HP.
    + rewrite ES. discriminate.
    + rewrite (without_ext l along _ EQ). rewrite HS. reflexivity.
    + rewrite HS. destruct along as [|a along]; [contradiction|]. specialize (HF a (or_introl eq_refl)). cbn beta in HF. intro K.
      assert (KL : forall axes (s0 : list Z) k, (length (without axes k s0) <= length s0)%nat) by (intros axes s0; induction s0 as [|z s0 IH]; intro k; cbn [without length]; [lia|]; destruct (existsb _ _); cbn [length]; specialize (IH (k + 1)); lia).
      assert (KS : forall (s0 : list Z) k, k <= a < k + Z.of_nat (length s0) -> (length (without (a :: along) k s0) < length s0)%nat).
      { induction s0 as [|z s0 IH]; intros k Hk; cbn [length] in Hk; [lia|]. cbn [without existsb]. destruct (Z.eqb_spec k a) as [->|N]; cbn [orb length].
        - specialize (KL (a :: along) s0 (a + 1)). lia.
        - destruct (existsb _ _); cbn [length]; specialize (IH (k + 1) ltac:(lia)); lia. }
      specialize (KS (shp t) 0 ltac:(lia)). lia.
    + rewrite E. cbn [broadcastSide]. exists x. split; [reflexivity|].
      assert (SX : shp x = shp t). { apply (stretched_full l). rewrite (without_ext l along _ EQ), <- HS. exact ST. }
      split; [exact SX|]. intros idx Hi. rewrite V by (rewrite SX; exact Hi). rewrite (without_ext l along _ EQ). reflexivity.
Qed.
Lemma ewise_same f (a b : tensR) : shp a = shp b -> exists c, ewise f a b = Ok c /\ shp c = shp a /\ forall idx, inside (shp a) idx -> at_ c idx = f (at_ a idx) (at_ b idx).
Proof.
  intro E. assert (ES : ewiseShape (shp a) (shp b) = Ok (shp a)).
  { unfold ewiseShape. rewrite <- E. destruct (scalarEquiv (shp a) && scalarEquiv (shp a)); [destruct (shp a); [reflexivity|rewrite Nat.ltb_irrefl; reflexivity]|]. destruct (shp a) as [|d s]; [reflexivity|]. rewrite Nat.ltb_irrefl.
    replace (shapeEq (d :: s) (d :: s)) with true; [reflexivity|]. symmetry. unfold shapeEq. destruct s as [|d1 [|d2 s]]; apply eqShape_refl. }
  unfold ewise. rewrite ES. cbn [bind]. eexists. split; [reflexivity|]. split; [reflexivity|]. intros idx Hi. cbn [at_]. rewrite <- E. rewrite unravel_ravel by exact Hi. reflexivity.
Qed.
(** The gradient of Max. *)
Lemma symdiff_ok (t y g : tensR) along : along <> [] -> positive (shp t) -> (length (shp t) <= 4)%nat -> Forall (fun a => 0 <= a < Z.of_nat (length (shp t))) along ->
  shp y = without along 0 (shp t) -> shp g = shp y ->
  exists gx, maxSymDiff along t y g = Ok gx /\ shp gx = shp t /\
    forall idx, inside (shp t) idx -> at_ gx idx = (at_ g (without along 0 idx) * (if Req_EM_T (at_ y (without along 0 idx)) (at_ t idx) then 1 else 0))%R.
Proof.
  intros HN HP H4 HF HS HG. unfold maxSymDiff. destruct (stretch_back t y along HN HP H4 HF HS) as [x [E1 [S1 V1]]]. rewrite E1. cbn [bind fst snd].
  destruct (ewise_same eqR x t S1) as [e [E2 [S2 V2]]]. rewrite E2. cbn [bind].
  assert (SE : shp e = shp t) by congruence.
  destruct (stretch_back e g along HN) as [x2 [E3 [S3 V3]]]; rewrite ?SE; try assumption; [congruence|]. rewrite SE in E3. rewrite E3. cbn [bind fst snd].
  destruct (ewise_same Rmult x2 e S3) as [gx [E4 [S4 V4]]]. exists gx. split; [exact E4|]. split; [congruence|]. intros idx Hi. rewrite V4 by (rewrite S3, SE; exact Hi). rewrite V3 by (rewrite SE; exact Hi). rewrite V2 by (rewrite S1; exact Hi). rewrite V1 by exact Hi. reflexivity.
Qed.
