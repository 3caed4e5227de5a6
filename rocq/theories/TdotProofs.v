(** Proofs for TdotProps.v. *)
From Coq Require Import List ZArith Bool Lia Ring Sorted Permutation.
From Verif Require Import Sums BroadcastModel BroadcastSpec BroadcastProofs ShapeGradModel ShapeGradSpec ShapeGradProofs ShapeGradSum ReduceModel TdotModel TdotSpec TdotLists.
Import ListNotations.
Local Open Scope Z_scope.

(** ** Halves of a coordinate *)
Definition join (first : bool) (r f : list Z) : list Z := if first then r ++ f else f ++ r.
Definition shifted (k n : nat) : list Z := map (fun a => Z.of_nat k + a) (iota n).
Lemma in_shifted k n a : In a (shifted k n) <-> Z.of_nat k <= a < Z.of_nat (k + n).
Proof.
  unfold shifted. rewrite in_map_iff. split.
  - intros [x [<- Hx]]. apply in_iota in Hx. lia.
  - intro H. exists (a - Z.of_nat k). split; [lia|]. apply in_iota. lia.
Qed.
Lemma shifted_seq k n : shifted k n = map Z.of_nat (seq k n).
Proof.
  unfold shifted, iota. rewrite map_map. revert k. induction n as [|n IH]; intro k; [reflexivity|]. rewrite <- !cons_seq. cbn [map]. f_equal; [lia|].
  rewrite <- seq_shift, map_map. rewrite <- (IH (S k)). apply map_ext. intro. lia.
Qed.
Lemma shifted_sorted k n : StronglySorted Z.lt (shifted k n).
Proof. rewrite shifted_seq. apply seq_sorted. Qed.
Lemma free_low k n : freeAxes (iota k) (k + n) = shifted k n.
Proof. apply sorted_unique; [apply free_sorted|apply shifted_sorted|]. intro x. rewrite free_in, in_iota, in_shifted. lia. Qed.
Lemma free_high k n : freeAxes (shifted k n) (k + n) = iota k.
Proof. apply sorted_unique; [apply free_sorted|apply seq_sorted|]. intro x. rewrite free_in, in_iota, in_shifted. lia. Qed.
Lemma gather_low (l m : list Z) : gather (iota (length l)) (l ++ m) = l.
Proof.
  apply list_eq; [rewrite len_gather; apply len_iota|]. intros i Hi. rewrite len_gather, len_iota in Hi. rewrite nth_gather by (rewrite len_iota; exact Hi).
  rewrite nth_iota, Nat2Z.id, app_nth1 by exact Hi. reflexivity.
Qed.
Lemma gather_high (l m : list Z) : gather (shifted (length l) (length m)) (l ++ m) = m.
Proof.
  assert (L : length (shifted (length l) (length m)) = length m) by (unfold shifted; rewrite map_length; apply len_iota).
  apply list_eq; [rewrite len_gather; exact L|]. intros i Hi. rewrite len_gather, L in Hi. rewrite nth_gather by lia.
  rewrite shifted_seq. change 0 with (Z.of_nat 0) at 1. rewrite map_nth, seq_nth, Nat2Z.id, app_nth2 by lia. f_equal. lia.
Qed.
Lemma dGrad_eq first r f : dGradAxes first (length (join first r f)) (length f) = if first then shifted (length r) (length f) else iota (length f).
Proof.
  unfold dGradAxes, join, shifted. destruct first; [|reflexivity]. rewrite app_length. apply map_ext. intro. lia.
Qed.
Lemma dGrad_gather first r f : gather (dGradAxes first (length (join first r f)) (length f)) (join first r f) = f.
Proof. rewrite dGrad_eq. destruct first; unfold join; [apply gather_high|apply gather_low]. Qed.
Lemma dGrad_drop first r f : dropAxes (dGradAxes first (length (join first r f)) (length f)) (join first r f) = r.
Proof.
  rewrite dGrad_eq, drop_gather. destruct first; unfold join; rewrite app_length; [rewrite free_high; apply gather_low|rewrite free_low; apply gather_high].
Qed.
Lemma inside_app s t r f : inside s r -> inside t f -> inside (s ++ t) (r ++ f).
Proof. apply Forall2_app. Qed.
Lemma inside_join first s t r f : inside s r -> inside t f -> inside (join first s t) (join first r f).
Proof. intros H K. unfold join. destruct first; apply inside_app; assumption. Qed.
Lemma inside_split first s t m : inside (join first s t) m -> exists r f, m = join first r f /\ inside s r /\ inside t f.
Proof.
  intro H. unfold join in *. destruct first; apply Forall2_app_inv_l in H; destruct H as [x [y [H1 [H2 ->]]]]; [exists x, y|exists y, x]; auto.
Qed.
Lemma join_inj first r f r' f' : length r = length r' -> length f = length f' -> join first r f = join first r' f' -> r = r' /\ f = f'.
Proof.
  intros L1 L2 E. unfold join in E. destruct first.
  - clear L2. revert r' L1 E. induction r as [|x r IH]; intros [|y r'] L E; try discriminate; cbn [app] in E; [auto|]. injection E as <- E. destruct (IH r' ltac:(cbn [length] in L; lia) E) as [-> ->]. auto.
  - clear L1. revert f' L2 E. induction f as [|x f IH]; intros [|y f'] L E; try discriminate; cbn [app] in E; [auto|]. injection E as <- E. destruct (IH f' ltac:(cbn [length] in L; lia) E) as [-> ->]. auto.
Qed.
Lemma eq_bool (b c : bool) : (b = true <-> c = true) -> b = c.
Proof. destruct b, c; intuition congruence. Qed.
Lemma inside_drop axes s idx : inside s idx -> inside (dropAxes axes s) (dropAxes axes idx).
Proof. intro H. rewrite !drop_without. apply without_inside, H. Qed.
Lemma inside_gather_in axes s idx : Forall (fun a => 0 <= a < Z.of_nat (length s)) axes -> inside s idx -> inside (gather axes s) (gather axes idx).
Proof.
  intros F H. apply inside_nth in H. destruct H as [_ H]. unfold gather, inside. induction F as [|a axes Ha _ IH]; cbn [map]; constructor; [apply H; lia|exact IH].
Qed.
Lemma gather_app p q l : gather (p ++ q) l = gather p l ++ gather q l.
Proof. apply map_app. Qed.
Lemma len_drop axes l m : length l = length m -> length (dropAxes axes l) = length (dropAxes axes m).
Proof. intro L. rewrite !drop_gather, !len_gather, L. reflexivity. Qed.

Section Ring.
Context {A : Type} {CR : CRing A}.
Add Ring Aring : (@cr_th A CR).
Local Open Scope cr_scope.
Notation tens := (@tens A).

Lemma over_if s (b : bool) (F : list Z -> A) : over s (fun x => if b then F x else 0) = if b then over s F else 0.
Proof. destruct b; [reflexivity|]. apply over_zero. reflexivity. Qed.

(** ** One gradient *)
Section One.
Variables (first : bool) (iAxes oAxes si : list Z) (o g : tens).
Hypothesis PA : pairable iAxes si oAxes (shp o).
Hypothesis SG : shp g = join first (dropAxes iAxes si) (dropAxes oAxes (shp o)).
Let co := snd (sortUniqueIntWithImitator oAxes iAxes).
Let dO := freeAxes oAxes (length (shp o)).
Let dG := dGradAxes first (length (shp g)) (length dO).

Lemma axes_len : length oAxes = length iAxes.
Proof. destruct PA as [_ [_ [_ [_ E]]]]. apply (f_equal (@length Z)) in E. rewrite !len_gather in E. auto. Qed.
Lemma co_facts : NoDup co /\ length co = length iAxes /\ forall y, In y co <-> In y iAxes.
Proof. destruct PA as [H1 [H2 _]]. apply (imitator_axes oAxes iAxes H2 H1 axes_len). Qed.
Lemma sorted_gather i j : gather (sortInts oAxes) j = gather co i <-> gather iAxes i = gather oAxes j.
Proof.
  destruct PA as [H1 [H2 _]]. destruct (imitator_pairs oAxes iAxes H2 axes_len) as [L HP]. cbv zeta in *. fold co in L, HP. cbn [sortUniqueIntWithImitator fst] in HP.
  assert (LS : length (sortInts oAxes) = length co) by (rewrite sort_len, L; apply axes_len). split; intro E.
  - symmetry. apply (gather_pairs (sortInts oAxes) co oAxes iAxes j i LS axes_len HP E).
  - apply (gather_pairs oAxes iAxes (sortInts oAxes) co j i axes_len LS); [intros; symmetry; apply HP|symmetry; exact E].
Qed.
Lemma dO_gather j : length j = length (shp o) -> gather dO j = dropAxes oAxes j.
Proof. intro L. rewrite drop_gather, L. reflexivity. Qed.
Lemma dO_drop j : length j = length (shp o) -> dropAxes dO j = gather (sortInts oAxes) j.
Proof. intro L. destruct PA as [_ [H2 [_ [H4 _]]]]. rewrite drop_gather, L. unfold dO. rewrite free_free by assumption. reflexivity. Qed.
Lemma dO_len : length dO = length (dropAxes oAxes (shp o)).
Proof. rewrite drop_gather, len_gather. reflexivity. Qed.
Lemma dG_eq : dG = dGradAxes first (length (join first (dropAxes iAxes si) (dropAxes oAxes (shp o)))) (length (dropAxes oAxes (shp o))).
Proof. unfold dG. rewrite SG, dO_len. reflexivity. Qed.
Lemma join_len (r f : list Z) : length (join first r f) = (length r + length f)%nat.
Proof. unfold join. destruct first; rewrite app_length; lia. Qed.

Lemma grad_value idx : inside si idx ->
  contract dO dG o g (gather co idx ++ dropAxes iAxes idx) =
  over (shp o) (fun j => if eqShape (gather iAxes idx) (gather oAxes j) then at_ o j * at_ g (join first (dropAxes iAxes idx) (dropAxes oAxes j)) else 0).
Proof.
  intro Hi. pose proof (inside_len _ _ Hi) as Li. destruct co_facts as [CN [CL CI]]. unfold contract. apply over_ext. intros j Hj. pose proof (inside_len _ _ Hj) as Lj.
  pose proof (inside_drop iAxes si idx Hi) as I1. pose proof (inside_drop oAxes (shp o) j Hj) as I2.
  transitivity (over (shp g) (fun m => if eqShape (gather iAxes idx) (gather oAxes j) then (if eqShape (join first (dropAxes iAxes idx) (dropAxes oAxes j)) m then at_ o j * at_ g m else 0) else 0)).
  - apply over_ext. intros m Hm. rewrite SG in Hm. apply inside_split in Hm. destruct Hm as [r [f [-> [Hr Hf]]]].
    pose proof (inside_len _ _ Hr) as Lr. pose proof (inside_len _ _ Hf) as Lf.
    change (permuteShape dO j) with (gather dO j). change (permuteShape dG (join first r f)) with (gather dG (join first r f)).
    rewrite dO_gather, dO_drop by exact Lj. rewrite dG_eq.
    replace (length (join first (dropAxes iAxes si) (dropAxes oAxes (shp o)))) with (length (join first r f)) by (rewrite !join_len; lia).
    rewrite <- Lf. rewrite dGrad_gather, dGrad_drop.
    set (b1 := eqShape (dropAxes oAxes j) f && eqShape (gather (sortInts oAxes) j ++ r) (gather co idx ++ dropAxes iAxes idx)).
    assert (E : b1 = eqShape (gather iAxes idx) (gather oAxes j) && eqShape (join first (dropAxes iAxes idx) (dropAxes oAxes j)) (join first r f)).
    { apply eq_bool. unfold b1. rewrite !andb_true_iff, !eqShape_iff. split.
      - intros [E1 E2]. subst f. change (gather (sortInts oAxes) j ++ r) with (join true (gather (sortInts oAxes) j) r) in E2. change (gather co idx ++ dropAxes iAxes idx) with (join true (gather co idx) (dropAxes iAxes idx)) in E2.
        apply join_inj in E2; [|rewrite !len_gather, sort_len, CL; apply axes_len|rewrite (inside_len _ _ I1); exact Lr]. destruct E2 as [E2 ->]. split; [apply sorted_gather, E2|reflexivity].
      - intros [E1 E2]. apply join_inj in E2; [|rewrite (inside_len _ _ I1); auto|rewrite (inside_len _ _ I2); auto]. destruct E2 as [<- <-]. split; [reflexivity|]. f_equal. apply sorted_gather, E1. }
    rewrite E. destruct (eqShape (gather iAxes idx) (gather oAxes j)); [|reflexivity]. cbn [andb]. reflexivity.
  - rewrite over_if. destruct (eqShape (gather iAxes idx) (gather oAxes j)); [|reflexivity].
    apply (over_pick (shp g) (join first (dropAxes iAxes idx) (dropAxes oAxes j)) (fun m => at_ o j * at_ g m)). rewrite SG. apply inside_join; assumption.
Qed.

(** The shape of the contraction that makes the gradient. *)
Lemma grad_shape : dropAxes dO (shp o) ++ dropAxes dG (shp g) = gather (co ++ freeAxes iAxes (length si)) si.
Proof.
  rewrite dO_drop by reflexivity. rewrite gather_app, <- drop_gather. f_equal.
  - apply sorted_gather. destruct PA as [_ [_ [_ [_ E]]]]. exact E.
  - rewrite dG_eq, SG. apply dGrad_drop.
Qed.
Lemma gradPattern_eq : gradPattern iAxes oAxes (length si) = newPattern (co ++ freeAxes iAxes (length si)).
Proof. destruct PA as [H1 [_ [H3 _]]]. destruct co_facts as [CN [CL CI]]. unfold gradPattern. fold co. apply pattern_new; assumption. Qed.
Lemma q_perm' : is_perm (co ++ freeAxes iAxes (length si)) (length si).
Proof. destruct PA as [H1 [_ [H3 _]]]. destruct co_facts as [CN [CL CI]]. apply q_perm; assumption. Qed.
(** Transposing it back. *)
Lemma grad_transposed (t : tens) : (length si >= 1)%nat -> shp t = gather (co ++ freeAxes iAxes (length si)) si ->
  exists gi, transposeApi t (gradPattern iAxes oAxes (length si)) = Ok gi /\ shp gi = si /\
    forall idx, inside si idx -> at_ gi idx = at_ t (gather co idx ++ dropAxes iAxes idx).
Proof.
  intros L1 ST. pose proof q_perm' as Q. set (q := co ++ freeAxes iAxes (length si)) in *. destruct (newPattern_spec q (length si) Q) as [P _]. pose proof P as [PL _]. pose proof Q as [QL _].
  assert (LT : length (shp t) = length si) by (rewrite ST, len_gather; exact QL).
  assert (GI : forall idx, inside si idx -> gather co idx ++ dropAxes iAxes idx = gather q idx) by (intros idx Hi; unfold q; rewrite gather_app, drop_gather, (inside_len _ _ Hi); reflexivity).
  rewrite gradPattern_eq. fold q. unfold transposeApi. rewrite PL, LT, Nat.eqb_refl, andb_false_r. destruct (Nat.eqb_spec (length si) 0) as [K|_]; [lia|].
  destruct (newPattern q) as [|x p] eqn:E; [cbn [length] in PL; lia|]. rewrite <- E in *. rewrite PL. destruct (eqShape (newPattern q) (iota (length si))) eqn:F.
  - apply eqShape_iff in F. pose proof (identity_inverse q (length si) Q F) as EQ. exists t. split; [reflexivity|].
    assert (GQ : forall l : list Z, length l = length si -> gather q l = l) by (intros l Hl; rewrite EQ, <- Hl; rewrite <- (app_nil_r l) at 2; apply gather_low).
    split; [rewrite ST; apply GQ; reflexivity|]. intros idx Hi. rewrite GI by exact Hi. rewrite GQ by (apply inside_len, Hi). reflexivity.
  - assert (NE : newPattern q <> iota (length si)) by (intro K; apply eqShape_iff in K; congruence).
    rewrite (transpose_ok t (newPattern q) (length si) LT ltac:(lia) P NE). eexists. split; [reflexivity|]. cbn [shp at_]. split.
    + rewrite ST, (gather_newPattern q (length si)) by (try exact Q; rewrite len_gather; exact QL). apply (scatter_gather q (length si) si Q eq_refl).
    + intros idx Hi. rewrite (scatter_newPattern q (length si) idx Q (inside_len _ _ Hi)). rewrite GI by exact Hi. reflexivity.
Qed.
End One.

(** ** The node *)
Lemma free_len axes n : NoDup axes -> Forall (fun a => (0 <= a < Z.of_nat n)%Z) axes -> (length axes + length (freeAxes axes n) = n)%nat.
Proof. intros H1 H2. destruct (q_perm axes axes n H2 H1 (fun y => iff_refl _)) as [L _]. rewrite app_length in L. exact L. Qed.
Lemma dims_ok sa sb : forall aAxes bAxes, Forall (fun x => (0 <= x < Z.of_nat (length sa))%Z) aAxes -> Forall (fun x => (0 <= x < Z.of_nat (length sb))%Z) bAxes ->
  gather aAxes sa = gather bAxes sb -> dimsLoop aAxes bAxes sa sb = Ok tt.
Proof.
  induction aAxes as [|x aAxes IH]; intros [|y bAxes] F1 F2 E; cbn [dimsLoop]; try reflexivity.
  pose proof (Forall_inv F1) as X. pose proof (Forall_inv F2) as Y. cbv beta in X, Y. destruct (Z.ltb_spec x 0) as [K|_]; [lia|]. destruct (Z.ltb_spec y 0) as [K|_]; [lia|]. cbn [orb]. cbn [gather map] in E. injection E as E1 E2. rewrite E1, Z.eqb_refl.
  apply IH; [apply (Forall_inv_tail F1)|apply (Forall_inv_tail F2)|exact E2].
Qed.
Lemma dims_inv sa sb : forall aAxes bAxes, length aAxes = length bAxes -> dimsLoop aAxes bAxes sa sb = Ok tt ->
  Forall (fun x => (0 <= x)%Z) aAxes /\ Forall (fun x => (0 <= x)%Z) bAxes /\ gather aAxes sa = gather bAxes sb.
Proof.
  induction aAxes as [|x aAxes IH]; intros [|y bAxes] L; cbn [dimsLoop length] in *; try discriminate; [auto|].
  destruct (Z.ltb_spec x 0) as [K|K]; [discriminate|]. destruct (Z.ltb_spec y 0) as [M|M]; [discriminate|]. cbn [orb].
  destruct (Z.eqb_spec (nth (Z.to_nat x) sa 0%Z) (nth (Z.to_nat y) sb 0%Z)) as [E|_]; [|discriminate]. intro H. destruct (IH bAxes ltac:(lia) H) as [H1 [H2 H3]].
  split; [constructor; assumption|]. split; [constructor; assumption|]. cbn [gather map]. fold (gather aAxes sa) (gather bAxes sb). rewrite E, H3. reflexivity.
Qed.
Lemma ge_false l n : Forall (fun x => (0 <= x < Z.of_nat n)%Z) l -> existsb (fun x => (Z.of_nat n <=? x)%Z) l = false.
Proof. intro F. apply not_true_iff_false. intro K. apply existsb_exists in K. destruct K as [x [Hx K]]. rewrite Forall_forall in F. specialize (F x Hx). lia. Qed.
Lemma ge_inv l n : Forall (fun x => (0 <= x)%Z) l -> existsb (fun x => (Z.of_nat n <=? x)%Z) l = false -> Forall (fun x => (0 <= x < Z.of_nat n)%Z) l.
Proof.
  intros F K. rewrite Forall_forall in *. intros x Hx. specialize (F x Hx). split; [exact F|]. destruct (Z.ltb_spec x (Z.of_nat n)) as [L|L]; [exact L|].
  assert (X : existsb (fun x => (Z.of_nat n <=? x)%Z) l = true) by (apply existsb_exists; exists x; split; [exact Hx|apply Z.leb_le, L]). congruence.
Qed.
Lemma shape_ok aAxes bAxes sa sb : pairable aAxes sa bAxes sb -> tensordotShape aAxes bAxes sa sb = Ok (dropAxes aAxes sa ++ dropAxes bAxes sb).
Proof.
  intros [H1 [H2 [H3 [H4 E]]]]. unfold tensordotShape. cbv zeta. fold (gather (freeAxes aAxes (length sa)) sa) (gather (freeAxes bAxes (length sb)) sb). rewrite <- !drop_gather.
  pose proof (free_len aAxes (length sa) H1 H3) as L1. pose proof (free_len bAxes (length sb) H2 H4) as L2. apply (f_equal (@length Z)) in E. rewrite !len_gather in E.
  assert (L : length (dropAxes aAxes sa ++ dropAxes bAxes sb) = Z.to_nat (Z.of_nat (length sa) + Z.of_nat (length sb) - 2 * Z.of_nat (length aAxes))) by (rewrite app_length, !drop_gather, !len_gather; lia).
  rewrite <- L, Nat.leb_refl, Nat.sub_diag. cbn [repeat]. rewrite app_nil_r. reflexivity.
Qed.
Lemma api_ok aAxes bAxes (a b : tens) : pairable aAxes (shp a) bAxes (shp b) -> (1 <= length (shp a))%nat -> (1 <= length (shp b))%nat ->
  tensordotApi aAxes bAxes a b = Ok (Tn (dropAxes aAxes (shp a) ++ dropAxes bAxes (shp b)) (contract aAxes bAxes a b)).
Proof.
  intros P LA LB. pose proof (shape_ok _ _ _ _ P) as SH. destruct P as [H1 [H2 [H3 [H4 E]]]]. unfold tensordotApi.
  destruct (Nat.ltb_spec (length (shp a)) 1) as [K|_]; [lia|]. destruct (Nat.ltb_spec (length (shp b)) 1) as [K|_]; [lia|]. cbn [orb].
  assert (L : length aAxes = length bAxes) by (apply (f_equal (@length Z)) in E; rewrite !len_gather in E; exact E). rewrite L, Nat.eqb_refl. cbn [negb].
  rewrite (proj2 (dup_iff aAxes) H1), (proj2 (dup_iff bAxes) H2). cbn [orb]. rewrite (ge_false aAxes _ H3), (ge_false bAxes _ H4), (dims_ok _ _ _ _ H3 H4 E). cbn [bind]. rewrite SH. reflexivity.
Qed.
Lemma api_inv aAxes bAxes (a b y : tens) : tensordotApi aAxes bAxes a b = Ok y ->
  pairable aAxes (shp a) bAxes (shp b) /\ (1 <= length (shp a))%nat /\ (1 <= length (shp b))%nat.
Proof.
  unfold tensordotApi. destruct (Nat.ltb_spec (length (shp a)) 1) as [K|LA]; [discriminate|]. destruct (Nat.ltb_spec (length (shp b)) 1) as [K|LB]; [discriminate|]. cbn [orb].
  destruct (Nat.eqb_spec (length aAxes) (length bAxes)) as [L|L]; [|discriminate]. cbn [negb]. destruct (containsDuplicate aAxes) eqn:D1; [discriminate|]. destruct (containsDuplicate bAxes) eqn:D2; [discriminate|]. cbn [orb].
  destruct (existsb (fun x => (Z.of_nat (length (shp a)) <=? x)%Z) aAxes) eqn:G1; [discriminate|]. destruct (existsb (fun x => (Z.of_nat (length (shp b)) <=? x)%Z) bAxes) eqn:G2; [discriminate|].
  destruct (dimsLoop aAxes bAxes (shp a) (shp b)) as [[]| |] eqn:D; cbn [bind]; try discriminate. intros _. destruct (dims_inv _ _ _ _ L D) as [F1 [F2 E]].
  split; [|auto]. split; [apply dup_iff, D1|]. split; [apply dup_iff, D2|]. split; [apply ge_inv; assumption|]. split; [apply ge_inv; assumption|exact E].
Qed.

(** ** Both special cases *)
Lemma drop_nil (l : list Z) : dropAxes [] l = l.
Proof. rewrite drop_without. apply without_none. intros a []. Qed.
Lemma outer (o g : tens) u v : inside (shp o) u -> inside (shp g) v -> contract [] [] o g (u ++ v) = at_ o u * at_ g v.
Proof.
  intros Hu Hv. unfold contract. transitivity (over (shp o) (fun i => if eqShape u i then at_ o i * at_ g v else 0)); [|apply (over_pick (shp o) u (fun i => at_ o i * at_ g v) Hu)].
  apply over_ext. intros i Hi. transitivity (over (shp g) (fun j => if eqShape u i then (if eqShape v j then at_ o i * at_ g j else 0) else 0)).
  - apply over_ext. intros j Hj. cbn [permuteShape map]. rewrite (proj2 (eqShape_iff [] []) eq_refl). cbn [andb]. rewrite !drop_nil.
    assert (E : eqShape (i ++ j) (u ++ v) = eqShape u i && eqShape v j).
    { apply eq_bool. rewrite andb_true_iff, !eqShape_iff. split; [|intros [-> ->]; reflexivity]. intro E. apply (join_inj true) in E; [destruct E; auto|rewrite (inside_len _ _ Hi), (inside_len _ _ Hu); reflexivity|rewrite (inside_len _ _ Hj), (inside_len _ _ Hv); reflexivity]. }
    rewrite E. destruct (eqShape u i), (eqShape v j); reflexivity.
  - rewrite over_if. destruct (eqShape u i); [|reflexivity]. apply (over_pick (shp g) v (fun j => at_ o i * at_ g j) Hv).
Qed.
Lemma no_unit_scalar s : no_unit s -> scalarEquiv s = true -> s = [].
Proof. intros N E. destruct s as [|d s]; [reflexivity|]. pose proof (Forall_inv N) as K. cbn [scalarEquiv forallb] in E. apply andb_true_iff in E. destruct E as [E _]. apply Z.eqb_eq in E. cbv beta in K. lia. Qed.
Lemma no_unit_drop axes s : no_unit s -> no_unit (dropAxes axes s).
Proof.
  intro N. unfold no_unit in *. rewrite Forall_forall in *. intros x Hx. rewrite drop_gather in Hx. apply in_map_iff in Hx. destruct Hx as [a [<- Ha]]. apply free_in in Ha. apply N, nth_In. lia.
Qed.
Lemma no_unit_vector s : no_unit s -> isVector s = true -> exists d, s = [d].
Proof.
  intros N V. destruct s as [|x [|y [|z s]]]; try discriminate; [eauto|]. pose proof (Forall_inv N) as X. pose proof (Forall_inv (Forall_inv_tail N)) as Y. cbv beta in X, Y. cbn [isVector] in V.
  destruct (Z.eqb_spec x 1); [lia|]. destruct (Z.eqb_spec y 1); [lia|]. discriminate.
Qed.

Lemma symdiff_one first iAxes oAxes si (o g : tens) : pairable iAxes si oAxes (shp o) -> no_unit si -> no_unit (shp o) -> (1 <= length si)%nat -> (1 <= length (shp o))%nat ->
  shp g = join first (dropAxes iAxes si) (dropAxes oAxes (shp o)) ->
  exists gi, tensordotSymDiff1 first iAxes oAxes si o g = Ok gi /\ shp gi = si /\
    forall idx, inside si idx -> at_ gi idx = over (shp o) (fun j => if eqShape (gather iAxes idx) (gather oAxes j) then at_ o j * at_ g (join first (dropAxes iAxes idx) (dropAxes oAxes j)) else 0).
Proof.
  intros PA NI NO LI LO SG. pose proof PA as [H1 [H2 [H3 [H4 E]]]].
  pose proof (no_unit_drop iAxes si NI) as ND1. pose proof (no_unit_drop oAxes (shp o) NO) as ND2.
  assert (NG : no_unit (shp g)) by (rewrite SG; unfold join, no_unit; destruct first; apply Forall_app; auto).
  assert (SO : scalarEquiv (shp o) = false) by (apply not_true_iff_false; intro K; apply (no_unit_scalar _ NO) in K; rewrite K in LO; cbn [length] in LO; lia).
  unfold tensordotSymDiff1. cbv zeta. unfold dOtherAxes. rewrite SO.
  set (dO := freeAxes oAxes (length (shp o))). set (dG := dGradAxes first (length (shp g)) (length dO)).
  set (co := snd (sortUniqueIntWithImitator oAxes iAxes)). set (q := co ++ freeAxes iAxes (length si)).
  pose proof (grad_shape first iAxes oAxes si o g PA SG) as SH. fold dO dG co q in SH.
  assert (LD : length dO = length (dropAxes oAxes (shp o))) by apply dO_len.
  assert (DN : shp g = dropAxes iAxes si -> length dO = 0%nat -> dropAxes oAxes (shp o) = [] /\ dO = [] /\ dG = []).
  { intros _ Z0. assert (dO = []) by (destruct dO; [reflexivity|discriminate]). split; [destruct (dropAxes oAxes (shp o)); [reflexivity|rewrite Z0 in LD; discriminate]|]. split; [assumption|]. unfold dG. rewrite Z0. unfold dGradAxes. destruct first; reflexivity. }
  assert (MAIN : exists t, (if scalarEquiv (shp g) then hadamardProd o g
        else if isVector (shp o) && isVector (shp g) && Nat.eqb (length dO) 0 then
          bind (if isColVec (shp o) then Ok o else reshape o [nth 0 (shp o) 0%Z; 1%Z]) (fun o' =>
          bind (if isRowVec (shp g) then Ok g else reshape g [1%Z; nth 0 (shp g) 0%Z]) (fun g' => matMul o' g'))
        else tensordotApi dO dG o g) = Ok t /\ shp t = gather q si /\ forall idx, inside (shp t) idx -> at_ t idx = contract dO dG o g idx).
  { destruct (scalarEquiv (shp g)) eqn:SE.
    - apply (no_unit_scalar _ NG) in SE.
      assert (EM : dropAxes oAxes (shp o) = []) by (rewrite SG in SE; unfold join in SE; destruct first; apply app_eq_nil in SE; apply SE).
      assert (DO : dO = []) by (rewrite EM in LD; destruct dO; [reflexivity|discriminate]).
      assert (DG : dG = []) by (unfold dG; rewrite DO; unfold dGradAxes; destruct first; reflexivity).
      unfold hadamardProd, ewiseShape. rewrite SO, SE. cbn [andb]. rewrite DO, DG in SH |- *. rewrite !drop_nil, SE, app_nil_r in SH.
      destruct (shp o) as [|d s] eqn:ES; [cbn [length] in LO; lia|]. rewrite <- ES in *. replace (match shp o with [] => Ok [] | _ :: _ => Ok (shp o) end) with (Ok (shp o)) by (rewrite ES; reflexivity). cbn [bind].
      eexists. split; [reflexivity|]. cbn [shp at_]. split; [exact SH|]. intros idx Hi. rewrite unravel_ravel by exact Hi. cbn [unravel]. rewrite <- (app_nil_r idx) at 2. rewrite outer; [reflexivity|exact Hi|rewrite SE; constructor].
    - destruct (isVector (shp o) && isVector (shp g) && Nat.eqb (length dO) 0) eqn:V.
      + apply andb_true_iff in V. destruct V as [V V3]. apply andb_true_iff in V. destruct V as [V1 V2]. apply Nat.eqb_eq in V3.
        assert (DO : dO = []) by (destruct dO; [reflexivity|discriminate]). assert (DG : dG = []) by (unfold dG; rewrite DO; unfold dGradAxes; destruct first; reflexivity).
        rewrite DO, DG in SH |- *. rewrite !drop_nil in SH. clearbody dG dO. destruct (no_unit_vector _ NO V1) as [n En]. destruct (no_unit_vector _ NG V2) as [m Em].
        rewrite En, Em in SH |- *. cbn [isColVec isRowVec nth]. pose proof NO as NO'. pose proof NG as NG'. rewrite En in NO'. rewrite Em in NG'. pose proof (Forall_inv NO') as Bn. pose proof (Forall_inv NG') as Bm. cbv beta in Bn, Bm.
        assert (R1 : reshape o [n; 1%Z] = Ok (Tn [n; 1%Z] (fun idx => at_ o (unravel [n] (ravel [n; 1%Z] idx))))).
        { unfold reshape, reshapeCall, negs. rewrite En. cbn [filter]. destruct (Z.ltb_spec n 0); [lia|]. cbn [Z.ltb Z.compare length Nat.ltb Nat.leb Nat.eqb totalSize fold_right andb]. replace (n * 1 =? n * (1 * 1))%Z with true by (symmetry; apply Z.eqb_eq; lia). reflexivity. }
        assert (R2 : reshape g [1%Z; m] = Ok (Tn [1%Z; m] (fun idx => at_ g (unravel [m] (ravel [1%Z; m] idx))))).
        { unfold reshape, reshapeCall, negs. rewrite Em. cbn [filter Z.ltb Z.compare]. destruct (Z.ltb_spec m 0); [lia|]. cbn [length Nat.ltb Nat.leb Nat.eqb totalSize fold_right andb]. replace (m * 1 =? 1 * (m * 1))%Z with true by (symmetry; apply Z.eqb_eq; lia). reflexivity. }
        rewrite R1. cbn [bind]. rewrite R2. cbn [bind]. unfold matMul. cbn [shp at_]. rewrite Z.eqb_refl. eexists. split; [reflexivity|]. cbn [shp at_]. split; [exact SH|].
        intros idx Hi. pose proof (inside_len _ _ Hi) as Li. destruct idx as [|x [|y [|z idx]]]; try discriminate. inversion Hi as [|? ? ? ? Bx Hy]; subst. inversion Hy as [|? ? ? ? By _]; subst.
        change [x; y] with ([x] ++ [y]). rewrite outer by (rewrite ?En, ?Em; repeat constructor; lia). change (Z.to_nat 1) with 1%nat. cbn [sum app]. cbn [ravel unravel totalSize fold_right Z.of_nat].
        rewrite !Z.div_1_r, ?Z.mul_1_r, ?Z.mul_0_l, ?Z.add_0_r, ?Z.add_0_l. ring.
      + rewrite api_ok; [|..].
        * eexists. split; [reflexivity|]. cbn [shp at_]. split; [exact SH|]. reflexivity.
        * split; [apply ss_nodup, free_sorted|]. split; [unfold dG; rewrite LD, SG, dGrad_eq; destruct first; apply ss_nodup; [apply shifted_sorted|apply seq_sorted]|].
          split; [apply Forall_forall; intros x Hx; apply free_in in Hx; apply Hx|]. split.
          -- unfold dG. rewrite LD, SG, dGrad_eq. apply Forall_forall. intros x Hx. unfold join. destruct first; [apply in_shifted in Hx|apply in_iota in Hx]; rewrite app_length; lia.
          -- unfold dG. rewrite LD, SG, dGrad_gather. rewrite drop_gather. reflexivity.
        * exact LO.
        * destruct (shp g) eqn:EG; [cbn [scalarEquiv forallb] in SE; discriminate|cbn [length]; lia]. }
  destruct MAIN as [t [ET [ST VT]]]. rewrite ET. cbn [bind].
  destruct (grad_transposed iAxes oAxes si o PA t ltac:(lia) ST) as [gi [E1 [E2 E3]]]. exists gi. split; [exact E1|]. split; [exact E2|]. intros idx Hi. rewrite E3 by exact Hi.
  rewrite VT.
  - apply (grad_value first iAxes oAxes si o g PA SG idx Hi).
  - rewrite ST. unfold q. rewrite drop_gather, (inside_len _ _ Hi). fold co. rewrite <- gather_app. apply inside_gather_in; [|exact Hi]. destruct (q_perm' iAxes oAxes si o PA) as [_ [_ F]]. exact F.
Qed.

(** ** Adjoints *)
Lemma contract_pair aAxes bAxes (a b g : tens) s : s = dropAxes aAxes (shp a) ++ dropAxes bAxes (shp b) ->
  ip s (contract aAxes bAxes a b) (at_ g) =
  over (shp a) (fun i => over (shp b) (fun j => if eqShape (gather aAxes i) (gather bAxes j) then at_ a i * at_ b j * at_ g (dropAxes aAxes i ++ dropAxes bAxes j) else 0)).
Proof.
  intro Hs. rewrite ip_over. unfold contract.
  transitivity (over s (fun idx => over (shp a) (fun i => over (shp b) (fun j =>
    if eqShape (dropAxes aAxes i ++ dropAxes bAxes j) idx then (if eqShape (gather aAxes i) (gather bAxes j) then at_ a i * at_ b j * at_ g idx else 0) else 0)))).
  - apply over_ext. intros idx _.
    transitivity (at_ g idx * over (shp a) (fun i => over (shp b) (fun j => if eqShape (permuteShape aAxes i) (permuteShape bAxes j) && eqShape (dropAxes aAxes i ++ dropAxes bAxes j) idx then at_ a i * at_ b j else 0))); [ring|].
    rewrite <- over_mul_l. apply over_ext. intros i _. rewrite <- over_mul_l. apply over_ext. intros j _.
    change (permuteShape aAxes i) with (gather aAxes i). change (permuteShape bAxes j) with (gather bAxes j).
    destruct (eqShape (gather aAxes i) (gather bAxes j)), (eqShape (dropAxes aAxes i ++ dropAxes bAxes j) idx); cbn [andb]; ring.
  - rewrite over_swap. apply over_ext. intros i Hi. rewrite over_swap. apply over_ext. intros j Hj.
    rewrite (over_pick s (dropAxes aAxes i ++ dropAxes bAxes j) (fun idx => if eqShape (gather aAxes i) (gather bAxes j) then at_ a i * at_ b j * at_ g idx else 0)); [reflexivity|].
    rewrite Hs. apply inside_app; apply inside_drop; assumption.
Qed.
End Ring.
