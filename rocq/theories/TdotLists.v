(** Proofs for TdotProps.v about lists of axes: sorting with an imitator, the axes left
    over, and the pattern of the gradient. *)
From Coq Require Import List ZArith Bool Lia Sorted Permutation.
From Verif Require Import Sums BroadcastModel BroadcastSpec BroadcastProofs ShapeGradModel ShapeGradSpec ShapeGradProofs ShapeGradSum ReduceModel TdotModel TdotSpec.
Import ListNotations.
Local Open Scope Z_scope.

(** ** contains *)
Lemma contains_none l v : contains l v = None <-> ~ In v l.
Proof.
  induction l as [|x l IH]; cbn [contains In]; [split; [intros _ []|reflexivity]|]. destruct (Z.eqb_spec v x) as [->|N].
  - split; [discriminate|]. intro K. exfalso. apply K. left. reflexivity.
  - destruct (contains l v) as [k|] eqn:E; cbn [option_map].
    + split; [discriminate|]. intro K. assert (X : ~ In v l) by (intro I; apply K; right; exact I). apply IH in X. discriminate.
    + split; [|reflexivity]. intros _ [K|K]; [congruence|]. apply (proj1 IH eq_refl K).
Qed.
Lemma contains_some l v : forall k, contains l v = Some k -> (k < length l)%nat /\ nth k l 0 = v.
Proof.
  induction l as [|x l IH]; intros k; cbn [contains]; [discriminate|]. destruct (Z.eqb_spec v x) as [->|N].
  - intro E. injection E as <-. cbn [length nth]. split; [lia|reflexivity].
  - destruct (contains l v) as [j|] eqn:E; cbn [option_map]; [|discriminate]. intro K. injection K as <-. cbn [length nth]. destruct (IH j eq_refl). split; [lia|assumption].
Qed.
Lemma existsb_in l (a : Z) : existsb (Z.eqb a) l = true <-> In a l.
Proof. rewrite existsb_exists. split; [intros [x [H E]]; apply Z.eqb_eq in E; subst; exact H|intro H; exists a; rewrite Z.eqb_refl; auto]. Qed.
Lemma contains_ex l (a : Z) : match contains l a with Some _ => false | None => true end = negb (existsb (Z.eqb a) l).
Proof.
  destruct (contains l a) as [k|] eqn:E.
  - destruct (contains_some l a k E) as [H <-]. symmetry. apply negb_false_iff, existsb_in, nth_In, H.
  - apply contains_none in E. symmetry. apply negb_true_iff. destruct (existsb (Z.eqb a) l) eqn:F; [|reflexivity]. apply existsb_in in F. contradiction.
Qed.
Lemma dup_iff l : containsDuplicate l = false <-> NoDup l.
Proof.
  induction l as [|x l IH]; cbn [containsDuplicate]; [split; [constructor|reflexivity]|]. rewrite orb_false_iff, IH. split.
  - intros [H1 H2]. constructor; [|exact H2]. intro K. apply existsb_in in K. congruence.
  - intro H. inversion_clear H as [|? ? H1 H2]. split; [|exact H2]. destruct (existsb (Z.eqb x) l) eqn:E; [|reflexivity]. apply existsb_in in E. contradiction.
Qed.

(** ** The axes left over *)
Lemma in_iota n a : In a (iota n) <-> 0 <= a < Z.of_nat n.
Proof.
  unfold iota. rewrite in_map_iff. split.
  - intros [i [<- Hi]]. apply in_seq in Hi. lia.
  - intro H. exists (Z.to_nat a). split; [lia|]. apply in_seq. lia.
Qed.
Lemma free_in axes n a : In a (freeAxes axes n) <-> 0 <= a < Z.of_nat n /\ ~ In a axes.
Proof.
  unfold freeAxes. rewrite filter_In, in_iota, contains_ex, negb_true_iff, <- not_true_iff_false, existsb_in. reflexivity.
Qed.
Lemma seq_sorted n : forall b, StronglySorted Z.lt (map Z.of_nat (seq b n)).
Proof.
  induction n as [|n IH]; intro b; cbn [seq map]; constructor; [apply IH|]. apply Forall_forall. intros x Hx. apply in_map_iff in Hx. destruct Hx as [i [<- Hi]]. apply in_seq in Hi. lia.
Qed.
Lemma free_sorted axes n : StronglySorted Z.lt (freeAxes axes n).
Proof. apply filter_sorted, seq_sorted. Qed.
Lemma ss_nodup l : StronglySorted Z.lt l -> NoDup l.
Proof. induction 1 as [|x l _ IH F]; constructor; [|exact IH]. intro K. rewrite Forall_forall in F. specialize (F x K). lia. Qed.
Lemma sorted_unique l : StronglySorted Z.lt l -> forall m, StronglySorted Z.lt m -> (forall x, In x l <-> In x m) -> l = m.
Proof.
  induction 1 as [|x l Hs IH F]; intros m Hm H.
  - destruct m as [|y m]; [reflexivity|]. exfalso. apply (H y). left. reflexivity.
  - destruct m as [|y m]; [exfalso; apply (H x); left; reflexivity|]. inversion_clear Hm as [|? ? Hm' Fm]. rewrite Forall_forall in F, Fm.
    assert (E : x = y).
    { destruct (proj1 (H x) (or_introl eq_refl)) as [K|K]; [congruence|]. destruct (proj2 (H y) (or_introl eq_refl)) as [L|L]; [congruence|].
      specialize (Fm x K). specialize (F y L). lia. }
    subst y. f_equal. apply IH; [exact Hm'|]. intro z. split; intro K.
    + destruct (proj1 (H z) (or_intror K)) as [L|L]; [|exact L]. subst z. specialize (F x K). lia.
    + destruct (proj2 (H z) (or_intror K)) as [L|L]; [|exact L]. subst z. specialize (Fm x K). lia.
Qed.
Lemma combine_iota (l : list Z) : forall b, combine (map Z.of_nat (seq b (length l))) l = map (fun i => (i, nth (Z.to_nat i - b) l 0)) (map Z.of_nat (seq b (length l))).
Proof.
  induction l as [|x l IH]; intro b; cbn [length seq map combine]; [reflexivity|]. f_equal; [f_equal; replace (Z.to_nat (Z.of_nat b) - b)%nat with 0%nat by lia; reflexivity|].
  rewrite IH. rewrite !map_map. apply map_ext_in. intros i Hi. apply in_seq in Hi. f_equal. replace (Z.to_nat (Z.of_nat i) - b)%nat with (S (Z.to_nat (Z.of_nat i) - S b)) by lia. reflexivity.
Qed.
Lemma filter_map {B C} (f : C -> bool) (g : B -> C) l : filter f (map g l) = map g (filter (fun x => f (g x)) l).
Proof. induction l as [|x l IH]; cbn [map filter]; [reflexivity|]. destruct (f (g x)); cbn [map]; rewrite IH; reflexivity. Qed.
Lemma drop_gather axes l : dropAxes axes l = gather (freeAxes axes (length l)) l.
Proof.
  unfold dropAxes, gather, freeAxes, iota. rewrite (combine_iota l 0), filter_map, map_map. cbn [fst snd].
  rewrite (filter_ext _ (fun a => match contains axes a with Some _ => false | None => true end)) by (intro; symmetry; apply contains_ex).
  apply map_ext. intro a. rewrite Nat.sub_0_r. reflexivity.
Qed.

(** ** Sorting *)
Lemma insert_in v l x : In x (insertInt v l) <-> x = v \/ In x l.
Proof.
  induction l as [|y l IH]; cbn [insertInt In]; [intuition|]. destruct (v <=? y); cbn [In]; [intuition|]. rewrite IH. intuition.
Qed.
Lemma sort_in l x : In x (sortInts l) <-> In x l.
Proof. induction l as [|y l IH]; cbn [sortInts In]; [reflexivity|]. rewrite insert_in, IH. intuition. Qed.
Lemma insert_sorted v l : StronglySorted Z.lt l -> ~ In v l -> StronglySorted Z.lt (insertInt v l).
Proof.
  induction 1 as [|y l Hs IH F]; intro N; cbn [insertInt]; [constructor; constructor|]. rewrite Forall_forall in F. destruct (Z.leb_spec v y) as [H|H].
  - constructor; [constructor; [exact Hs|apply Forall_forall; exact F]|]. apply Forall_forall. intros x [<-|Hx]; [assert (y <> v) by (intros ->; apply N; left; reflexivity); lia|]. specialize (F x Hx). lia.
  - constructor; [apply IH; intro K; apply N; right; exact K|]. apply Forall_forall. intros x Hx. apply insert_in in Hx. destruct Hx as [->|Hx]; [exact H|apply F, Hx].
Qed.
Lemma sort_sorted l : NoDup l -> StronglySorted Z.lt (sortInts l).
Proof. induction 1 as [|x l H _ IH]; cbn [sortInts]; [constructor|]. apply insert_sorted; [exact IH|]. rewrite sort_in. exact H. Qed.
Lemma insert_len v l : length (insertInt v l) = S (length l).
Proof. induction l as [|y l IH]; cbn [insertInt length]; [reflexivity|]. destruct (v <=? y); cbn [length]; [reflexivity|]. rewrite IH. reflexivity. Qed.
Lemma sort_len l : length (sortInts l) = length l.
Proof. induction l as [|x l IH]; cbn [sortInts length]; [reflexivity|]. rewrite insert_len, IH. reflexivity. Qed.
Lemma search_spec l v : StronglySorted Z.lt l -> In v l -> (searchInts l v < length l)%nat /\ nth (searchInts l v) l 0 = v.
Proof.
  induction 1 as [|x l Hs IH F]; intros Hv; [contradiction|]. cbn [searchInts]. rewrite Forall_forall in F. destruct (Z.leb_spec v x) as [H|H].
  - cbn [length nth]. destruct Hv as [->|Hv]; [split; [lia|reflexivity]|]. specialize (F v Hv). lia.
  - destruct Hv as [->|Hv]; [lia|]. cbn [length nth]. destruct (IH Hv). split; [lia|assumption].
Qed.
(** What is free of the free axes is the contracted axes in order. *)
Lemma free_free axes n : NoDup axes -> Forall (fun a => 0 <= a < Z.of_nat n) axes -> freeAxes (freeAxes axes n) n = sortInts axes.
Proof.
  intros HN HF. apply sorted_unique; [apply free_sorted|apply sort_sorted, HN|]. intro x. rewrite free_in, free_in, sort_in. rewrite Forall_forall in HF. split.
  - intros [H1 H2]. destruct (in_dec Z.eq_dec x axes) as [K|K]; [exact K|]. exfalso. apply H2. split; assumption.
  - intro H. split; [apply HF, H|]. intros [_ K]. contradiction.
Qed.

(** ** The imitator *)
Lemma imitate_len s : forall v w acc, length (imitateLoop s v w acc) = length acc.
Proof. induction v as [|x v IH]; intros [|y w] acc; cbn [imitateLoop]; try reflexivity. rewrite IH. apply len_set. Qed.
Lemma imitate_old s : StronglySorted Z.lt s -> forall v w acc x, incl v s -> ~ In x v -> In x s -> length acc = length s ->
  nth (searchInts s x) (imitateLoop s v w acc) 0 = nth (searchInts s x) acc 0.
Proof.
  intro Hs. induction v as [|z v IH]; intros [|y w] acc x Hi Hx Hxs La; cbn [imitateLoop]; try reflexivity.
  rewrite IH; [|intros q Hq; apply Hi; right; exact Hq|intro K; apply Hx; right; exact K|exact Hxs|rewrite len_set; exact La].
  assert (Hz : In z s) by (apply Hi; left; reflexivity). destruct (search_spec s z Hs Hz) as [Lz Ez]. destruct (search_spec s x Hs Hxs) as [Lx Ex].
  rewrite nth_set by lia. destruct (Nat.eqb_spec (searchInts s x) (searchInts s z)) as [E|E]; [|reflexivity].
  exfalso. apply Hx. left. rewrite <- Ez, <- Ex, E. reflexivity.
Qed.
Lemma imitate_new s : StronglySorted Z.lt s -> forall v w acc, incl v s -> NoDup v -> length acc = length s ->
  forall x y, In (x, y) (combine v w) -> nth (searchInts s x) (imitateLoop s v w acc) 0 = y.
Proof.
  intro Hs. induction v as [|z v IH]; intros [|y0 w] acc Hi HN La x y Hxy; cbn [combine] in Hxy; try contradiction. cbn [imitateLoop]. inversion_clear HN as [|? ? N1 N2].
  assert (Hz : In z s) by (apply Hi; left; reflexivity). assert (Hi' : incl v s) by (intros q Hq; apply Hi; right; exact Hq). destruct (search_spec s z Hs Hz) as [Lz Ez].
  destruct Hxy as [E|Hxy].
  - injection E as <- <-. rewrite imitate_old by (try assumption; rewrite len_set; exact La). rewrite nth_set by lia. rewrite Nat.eqb_refl. reflexivity.
  - apply IH; [exact Hi'|exact N2|rewrite len_set; exact La|exact Hxy].
Qed.
Lemma in_combine_nth (l m : list Z) k : (k < length l)%nat -> length l = length m -> In (nth k l 0, nth k m 0) (combine l m).
Proof. intros H L. rewrite <- (combine_nth l m k 0 0 L). apply nth_In. rewrite combine_length. lia. Qed.
(** The pairs of a sorted value and its companion are those there were. *)
Lemma imitator_pairs v w : NoDup v -> length v = length w ->
  let p := sortUniqueIntWithImitator v w in
  length (snd p) = length w /\ forall x y, In (x, y) (combine (fst p) (snd p)) <-> In (x, y) (combine v w).
Proof.
  intros HN L. unfold sortUniqueIntWithImitator. cbv zeta. cbn [fst snd]. set (s := sortInts v). assert (Hs : StronglySorted Z.lt s) by (apply sort_sorted, HN).
  assert (Ls : length s = length v) by apply sort_len. assert (Hi : incl v s) by (intros q Hq; apply sort_in, Hq). split; [apply imitate_len|].
  assert (FW : incl (combine v w) (combine s (imitateLoop s v w w))).
  { intros [x y] Hxy. assert (Hx : In x s) by (apply Hi; apply in_combine_l in Hxy; exact Hxy). destruct (search_spec s x Hs Hx) as [Lx Ex].
    pose proof (imitate_new s Hs v w w Hi HN ltac:(lia) x y Hxy) as K. rewrite <- Ex at 1. rewrite <- K. apply in_combine_nth; [exact Lx|]. rewrite imitate_len. lia. }
  assert (ND : NoDup (combine v w)).
  { clear - HN. revert w. induction HN as [|x v Hx _ IH]; intros [|y w]; cbn [combine]; try constructor; [|apply IH]. intro K. apply in_combine_l in K. contradiction. }
  intros x y. split; [|apply FW]. apply (NoDup_length_incl ND); [|exact FW]. rewrite !combine_length, imitate_len. lia.
Qed.
Lemma imitator_axes v w : NoDup v -> NoDup w -> length v = length w ->
  let co := snd (sortUniqueIntWithImitator v w) in NoDup co /\ length co = length w /\ forall y, In y co <-> In y w.
Proof.
  intros HV HW L. destruct (imitator_pairs v w HV L) as [LC HP]. cbv zeta in *. set (p := sortUniqueIntWithImitator v w) in *.
  assert (LF : length (fst p) = length (snd p)) by (rewrite LC; unfold p, sortUniqueIntWithImitator; cbn [fst]; rewrite sort_len; exact L).
  assert (I1 : incl (snd p) w).
  { intros y Hy. destruct (In_nth _ _ 0 Hy) as [k [Hk <-]]. apply (in_combine_r v w (nth k (fst p) 0)). apply HP. apply in_combine_nth; lia. }
  assert (I2 : incl w (snd p)).
  { intros y Hy. destruct (In_nth _ _ 0 Hy) as [k [Hk <-]]. apply (in_combine_r (fst p) (snd p) (nth k v 0)). apply HP. apply in_combine_nth; lia. }
  split; [|split; [exact LC|intro y; split; [apply I1|apply I2]]]. apply (NoDup_incl_NoDup HW); [lia|exact I2].
Qed.
(** Reading two lists through paired axes: equal for the one pairing when for the other. *)
Lemma gather_pairs (s1 m1 v w j i : list Z) : length s1 = length m1 -> length v = length w ->
  (forall x y, In (x, y) (combine s1 m1) <-> In (x, y) (combine v w)) ->
  gather s1 j = gather m1 i -> gather v j = gather w i.
Proof.
  intros L1 L2 H E. apply list_eq; [rewrite !len_gather; exact L2|]. intros k Hk. rewrite len_gather in Hk. rewrite !nth_gather by lia.
  pose proof (in_combine_nth v w k Hk L2) as K. apply H in K. destruct (In_nth _ _ (0, 0) K) as [q [Hq Eq]]. rewrite combine_nth in Eq by exact L1. rewrite combine_length in Hq. injection Eq as E1 E2.
  apply (f_equal (fun l => nth q l 0)) in E. rewrite !nth_gather in E by lia. rewrite E1, E2 in E. exact E.
Qed.

(** ** The pattern *)
Lemma nodup_app_intro (l m : list Z) : NoDup l -> NoDup m -> (forall x, In x l -> In x m -> False) -> NoDup (l ++ m).
Proof.
  induction 1 as [|x l Hx _ IH]; intros Hm D; cbn [app]; [exact Hm|]. constructor.
  - rewrite in_app_iff. intros [K|K]; [contradiction|]. apply (D x); [left; reflexivity|exact K].
  - apply IH; [exact Hm|]. intros y H1 H2. apply (D y); [right; exact H1|exact H2].
Qed.
Section Pattern.
Variables (iAxes co : list Z) (n : nat).
Hypothesis ND : NoDup iAxes.
Hypothesis RG : Forall (fun a => 0 <= a < Z.of_nat n) iAxes.
Hypothesis NC : NoDup co.
Hypothesis LC : length co = length iAxes.
Hypothesis IC : forall y, In y co <-> In y iAxes.
Lemma q_perm : is_perm (co ++ freeAxes iAxes n) n.
Proof.
  assert (HN : NoDup (co ++ freeAxes iAxes n)).
  { apply nodup_app_intro; [exact NC|apply ss_nodup, free_sorted|]. intros x H1 H2. apply free_in in H2. apply IC in H1. tauto. }
  assert (HI : forall x, In x (co ++ freeAxes iAxes n) <-> In x (iota n)).
  { intro x. rewrite in_app_iff, IC, free_in, in_iota. rewrite Forall_forall in RG. split.
    - intros [H|[H _]]; [apply RG, H|exact H].
    - intro H. destruct (in_dec Z.eq_dec x iAxes) as [K|K]; [left; exact K|right; split; assumption]. }
  assert (P : Permutation (co ++ freeAxes iAxes n) (iota n)) by (apply NoDup_Permutation; [exact HN|apply ss_nodup, seq_sorted|exact HI]).
  split; [rewrite (Permutation_length P); apply len_iota|]. split; [exact HN|]. apply Forall_forall. intros x Hx. apply HI, in_iota in Hx. exact Hx.
Qed.
Lemma pattern_gen : forall m b, (b + m = n)%nat ->
  let pre := filter (fun a => match contains iAxes a with Some _ => false | None => true end) (map Z.of_nat (seq 0 b)) in
  forall i, (i < m)%nat ->
  let k := nth i (patternLoop co (map Z.of_nat (seq b m)) (Z.of_nat (length iAxes) + Z.of_nat (length pre))) 0 in
  0 <= k < Z.of_nat n /\ nth (Z.to_nat k) (co ++ freeAxes iAxes n) 0 = Z.of_nat (b + i).
Proof.
  pose proof q_perm as [QL _]. rewrite app_length in QL.
  induction m as [|m IH]; intros b Hb pre i Hi; [lia|]. cbn [seq map patternLoop].
  assert (SP : seq 0 n = seq 0 b ++ b :: seq (S b) m) by (rewrite <- Hb, seq_app; reflexivity).
  assert (FA : freeAxes iAxes n = pre ++ (if existsb (Z.eqb (Z.of_nat b)) iAxes then [] else [Z.of_nat b]) ++ filter (fun a => match contains iAxes a with Some _ => false | None => true end) (map Z.of_nat (seq (S b) m))).
  { unfold freeAxes, iota. rewrite SP, map_app, filter_app. cbn [map filter]. rewrite contains_ex. destruct (existsb (Z.eqb (Z.of_nat b)) iAxes); reflexivity. }
  specialize (IH (S b) ltac:(lia)). cbv zeta in IH.
  assert (PS : filter (fun a => match contains iAxes a with Some _ => false | None => true end) (map Z.of_nat (seq 0 (S b))) = pre ++ (if existsb (Z.eqb (Z.of_nat b)) iAxes then [] else [Z.of_nat b])).
  { rewrite seq_S, map_app, filter_app. cbn [map filter Nat.add]. rewrite contains_ex. destruct (existsb (Z.eqb (Z.of_nat b)) iAxes); reflexivity. }
  rewrite PS in IH. destruct (contains co (Z.of_nat b)) as [k|] eqn:E.
  - destruct (contains_some _ _ _ E) as [Hk Ek]. assert (X : existsb (Z.eqb (Z.of_nat b)) iAxes = true) by (apply existsb_in, IC; rewrite <- Ek; apply nth_In, Hk).
    rewrite X, app_nil_r in IH. destruct i as [|i]; cbv zeta.
    + cbn [nth]. split; [lia|]. rewrite Nat2Z.id, app_nth1 by exact Hk. rewrite Ek. f_equal. lia.
    + cbn [nth]. specialize (IH i ltac:(lia)). replace (b + S i)%nat with (S b + i)%nat by lia. exact IH.
  - assert (X : existsb (Z.eqb (Z.of_nat b)) iAxes = false) by (apply not_true_iff_false; intro K; apply existsb_in, IC in K; apply contains_none in E; contradiction).
    rewrite X in IH, FA. destruct i as [|i]; cbv zeta.
    + cbn [nth]. assert (LF : length (freeAxes iAxes n) = (length pre + S (length (filter (fun a => match contains iAxes a with Some _ => false | None => true end) (map Z.of_nat (seq (S b) m)))))%nat) by (rewrite FA, app_length; reflexivity).
      split; [lia|]. rewrite app_nth2 by lia. replace (Z.to_nat (Z.of_nat (length iAxes) + Z.of_nat (length pre)) - length co)%nat with (length pre) by lia.
      rewrite FA, app_nth2 by lia. rewrite Nat.sub_diag. cbn [app nth]. f_equal. lia.
    + cbn [nth]. specialize (IH i ltac:(lia)). replace (b + S i)%nat with (S b + i)%nat by lia. rewrite app_length in IH. cbn [length] in IH.
      replace (Z.of_nat (length iAxes) + Z.of_nat (length pre) + 1) with (Z.of_nat (length iAxes) + Z.of_nat (length pre + 1)) by lia. exact IH.
Qed.
Lemma pattern_len : forall todo c, length (patternLoop co todo c) = length todo.
Proof. induction todo as [|p todo IH]; intro c; cbn [patternLoop length]; [reflexivity|]. destruct (contains co p); cbn [length]; rewrite IH; reflexivity. Qed.
Lemma pattern_new : patternLoop co (iota n) (Z.of_nat (length iAxes)) = newPattern (co ++ freeAxes iAxes n).
Proof.
  set (q := co ++ freeAxes iAxes n). pose proof q_perm as Q. fold q in Q. destruct (newPattern_spec q n Q) as [[NL _] G]. pose proof Q as [QL [QN QF]].
  apply list_eq; [rewrite pattern_len, len_iota; symmetry; exact NL|]. intros i Hi. rewrite pattern_len, len_iota in Hi.
  pose proof (pattern_gen n 0 eq_refl i Hi) as K. cbn [seq map filter length] in K. cbv zeta in K. fold (iota n) in K. rewrite Z.add_0_r in K. destruct K as [K1 K2]. fold q in K2.
  set (k := nth i (patternLoop co (iota n) (Z.of_nat (length iAxes))) 0) in *.
  assert (G' : nth (Z.to_nat k) (gather q (newPattern q)) 0 = nth (Z.to_nat k) (iota n) 0) by (rewrite G; reflexivity).
  rewrite nth_gather in G' by lia. rewrite K2, nth_iota in G' by lia. rewrite Nat.add_0_l, Nat2Z.id in G'. rewrite G'. lia.
Qed.
End Pattern.
