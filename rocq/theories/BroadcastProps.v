(** C34: broadcast patterns and Auto. C39: Reshape. *)
From Coq Require Import List ZArith Bool Lia Sorted.
From Verif Require Import BroadcastModel BroadcastSpec BroadcastProofs.
Import ListNotations.
Local Open Scope Z_scope.

(** ** C34 *)
(** What a pattern built from any axes (bytes) reports: below four each side its own
    axes; a right axis 4..7 turns up as left axis 0..3; a left axis 252..255 turns up as
    right axis 0..3 (the byte wraps); all others are lost. *)
Theorem C34_pattern : forall la ra, Forall (fun a => 0 <= a < 256) la -> Forall (fun a => 0 <= a < 256) ra ->
  (forall i, In i (fst (on (newBroadcastPattern la ra))) <-> 0 <= i < 4 /\ (In i la \/ In (i + 4) ra)) /\
  (forall i, In i (snd (on (newBroadcastPattern la ra))) <-> 0 <= i < 4 /\ (In i ra \/ In (i + 252) la)) /\
  StronglySorted Z.lt (fst (on (newBroadcastPattern la ra))) /\ StronglySorted Z.lt (snd (on (newBroadcastPattern la ra))).
Proof.
  intros la ra Hl Hr. pose proof Hl as Hl'. rewrite Forall_forall in Hl'. split; [|split; [|apply on_sorted]]; intro i.
  - rewrite on_left. split; intros [Hi H]; (split; [exact Hi|]).
    + apply pat_bit in H; [|assumption|assumption|lia]. destruct H as [H|[a [Ha E]]]; [right; exact H|left]. specialize (Hl' a Ha). cbn beta in Hl'.
      assert (K : a + 4 < 256 \/ 256 <= a + 4) by lia. destruct K as [K|K]; [rewrite Z.mod_small in E by lia; replace i with a by lia; exact Ha|]. exfalso. replace (a + 4) with (a - 252 + 1 * 256) in E by lia. rewrite Z.mod_add, Z.mod_small in E by lia. lia.
    + apply pat_bit; [assumption|assumption|lia|]. destruct H as [H|H]; [right; exists i; split; [exact H|apply Z.mod_small; lia]|left; exact H].
  - rewrite on_right. split; intros [Hi H]; (split; [exact Hi|]).
    + apply pat_bit in H; [|assumption|assumption|lia]. destruct H as [H|[a [Ha E]]]; [left; exact H|right]. specialize (Hl' a Ha). cbn beta in Hl'.
      assert (K : a + 4 < 256 \/ 256 <= a + 4) by lia. destruct K as [K|K]; [rewrite Z.mod_small in E by lia; exfalso; lia|]. replace (a + 4) with (a - 252 + 1 * 256) in E by lia. rewrite Z.mod_add, Z.mod_small in E by lia. replace (i + 252) with a by lia. exact Ha.
    + apply pat_bit; [assumption|assumption|lia|]. destruct H as [H|H]; [left; exact H|right; exists (i + 252); split; [exact H|]]. replace (i + 252 + 4) with (i + 1 * 256) by lia. rewrite Z.mod_add, Z.mod_small by lia. reflexivity.
Qed.
Print Assumptions C34_pattern.

Example C34_ex_pattern : on (newBroadcastPattern [1; 0] [3]) = ([0; 1], [3]) /\ on (newBroadcastPattern [] [5]) = ([1], []) /\ on (newBroadcastPattern [4; 253] []) = ([], [1]).
Proof. repeat split. Qed.

Section Auto.
Context {V : Type}.
Implicit Types a b : @tens V.

Lemma auto_mem A : forall B k i, length A = length B -> 0 <= k -> k + Z.of_nat (length A) <= 256 ->
  (In i (fst (autoLoop k A B)) <-> exists j, (j < length A)%nat /\ i = k + Z.of_nat j /\ nth j B 0 < nth j A 0) /\
  (In i (snd (autoLoop k A B)) <-> exists j, (j < length A)%nat /\ i = k + Z.of_nat j /\ nth j A 0 < nth j B 0).
Proof.
  induction A as [|x A IH]; intros [|y B] k i L H0 H1; try discriminate; cbn [autoLoop length] in *.
  - cbn [fst snd In]. split; (split; [contradiction|intros [j [Hj _]]; lia]).
  - specialize (IH B (k + 1) i ltac:(lia) ltac:(lia) ltac:(lia)). destruct (autoLoop (k + 1) A B) as [l r]. cbn [fst snd] in IH. destruct IH as [IL IR].
    assert (EL : (exists j, (j < S (length A))%nat /\ i = k + Z.of_nat j /\ nth j (y :: B) 0 < nth j (x :: A) 0) <-> (i = k /\ y < x) \/ In i l).
    { rewrite IL. split.
      - intros [[|j] [Hj [E Hn]]]; cbn [nth] in Hn; [left; lia|]. right. exists j. repeat split; lia.
      - intros [[E Hn]|[j [Hj [E Hn]]]]; [exists 0%nat; cbn [nth]; repeat split; lia|exists (S j); cbn [nth]; repeat split; lia]. }
    assert (ER : (exists j, (j < S (length A))%nat /\ i = k + Z.of_nat j /\ nth j (x :: A) 0 < nth j (y :: B) 0) <-> (i = k /\ x < y) \/ In i r).
    { rewrite IR. split.
      - intros [[|j] [Hj [E Hn]]]; cbn [nth] in Hn; [left; lia|]. right. exists j. repeat split; lia.
      - intros [[E Hn]|[j [Hj [E Hn]]]]; [exists 0%nat; cbn [nth]; repeat split; lia|exists (S j); cbn [nth]; repeat split; lia]. }
    rewrite EL, ER. unfold byte. rewrite Z.mod_small by lia.
    destruct (Z.ltb_spec y x) as [C|C]; [|destruct (Z.ltb_spec x y) as [D|D]]; cbn [fst snd In]; split; (split; [intros; intuition lia|intros [[? ?]|?]; auto; lia]).
Qed.
Lemma sorted_nodup l : StronglySorted Z.lt l -> NoDup l.
Proof.
  induction 1 as [|x l H IH Hx]; constructor; auto. intro K. rewrite Forall_forall in Hx. specialize (Hx x K). lia.
Qed.
(** Which axes Broadcast is told to stretch by Auto, for up to four axes. *)
Lemma auto_axes (A B : list Z) : length A = length B -> (length A <= 4)%nat ->
  exists la ra, autoBroadcastPattern A B = Ok (ra, la) /\
  (forall i, In i (fst (on (newBroadcastPattern la ra))) <-> exists j, (j < length A)%nat /\ i = Z.of_nat j /\ nth j A 0 < nth j B 0) /\
  (forall i, In i (snd (on (newBroadcastPattern la ra))) <-> exists j, (j < length A)%nat /\ i = Z.of_nat j /\ nth j B 0 < nth j A 0).
Proof.
  intros L H4. unfold autoBroadcastPattern. rewrite (proj2 (Nat.eqb_eq _ _) L). destruct (autoLoop 0 A B) as [ra la] eqn:E. exists la, ra. split; [reflexivity|].
  assert (M : forall i, (In i ra <-> exists j, (j < length A)%nat /\ i = Z.of_nat j /\ nth j B 0 < nth j A 0) /\ (In i la <-> exists j, (j < length A)%nat /\ i = Z.of_nat j /\ nth j A 0 < nth j B 0)).
  { intro i. pose proof (auto_mem A B 0 i L ltac:(lia) ltac:(lia)) as K. rewrite E in K. cbn [fst snd] in K. exact K. }
  assert (Rr : forall i, In i ra -> 0 <= i < 4) by (intros i Hi; apply M in Hi; destruct Hi as [j [Hj [-> _]]]; lia).
  assert (Rl : forall i, In i la -> 0 <= i < 4) by (intros i Hi; apply M in Hi; destruct Hi as [j [Hj [-> _]]]; lia).
  destruct (C34_pattern la ra) as [PL [PR _]].
  { apply Forall_forall. intros i Hi. specialize (Rl i Hi). lia. } { apply Forall_forall. intros i Hi. specialize (Rr i Hi). lia. }
  split; intro i.
  - rewrite PL. destruct (M i) as [_ Ml]. rewrite <- Ml. split; [intros [Hi [K|K]]; [exact K|specialize (Rr _ K); lia]|intro K; split; [apply Rl, K|left; exact K]].
  - rewrite PR. destruct (M i) as [Mr _]. rewrite <- Mr. split; [intros [Hi [K|K]]; [exact K|specialize (Rl _ K); lia]|intro K; split; [apply Rr, K|left; exact K]].
Qed.
Lemma mem_true i l : existsb (Z.eqb i) l = true <-> In i l.
Proof. rewrite existsb_exists. split; [intros [x [Hx E]]; apply Z.eqb_eq in E; subst; exact Hx|intro H; exists i; split; [exact H|apply Z.eqb_refl]]. Qed.
Lemma compat_nth s t : length s = length t -> (compatible s t <-> forall i, (i < length s)%nat -> nth i s 0 = nth i t 0 \/ nth i s 0 = 1 \/ nth i t 0 = 1).
Proof.
  intro L. split.
  - intro H. clear L. induction H as [|x y s t Hx _ IH]; intros i Hi; cbn [length] in Hi; [lia|]. destruct i as [|i]; cbn [nth]; [exact Hx|]. apply IH. lia.
  - revert t L. induction s as [|x s IH]; intros [|y t] L H; try discriminate; constructor.
    + apply (H 0%nat). cbn [length]. lia.
    + apply IH; [cbn [length] in L; lia|]. intros i Hi. apply (H (S i)). cbn [length]. lia.
Qed.
Lemma common_nth s : forall t i, length s = length t -> (i < length s)%nat -> nth i (common s t) 0 = Z.max (nth i s 0) (nth i t 0).
Proof. unfold common. induction s as [|x s IH]; intros [|y t] [|i] L Hi; cbn [length combine map nth fst snd] in *; try lia; try discriminate. apply IH; lia. Qed.
Lemma clamp_nth s : forall idx i, length s = length idx -> nth i (clampTo s idx) 0 = if nth i s 0 =? 1 then 0 else nth i idx 0.
Proof.
  unfold clampTo. induction s as [|x s IH]; intros [|y idx] i L; try discriminate.
  - destruct i; reflexivity.
  - destruct i; cbn [combine map nth fst snd]; [reflexivity|]. apply IH. cbn [length] in L. lia.
Qed.
Lemma common_len s t : length s = length t -> length (common s t) = length s.
Proof. intro L. unfold common. rewrite map_length, combine_length. lia. Qed.
Lemma clamp_len s idx : length s = length idx -> length (clampTo s idx) = length idx.
Proof. intro L. unfold clampTo. rewrite map_length, combine_length. lia. Qed.

(** Auto on two tensors of the same number of axes, at most four: it always returns; the
    two shapes it hands to the operator agree exactly if the shapes are compatible in
    NumPy's sense, and then they are NumPy's common shape and the values are NumPy's. *)
Theorem C34_auto : forall a b, length (shp a) = length (shp b) -> (length (shp a) <= 4)%nat -> positive (shp a) -> positive (shp b) ->
  exists x y, auto a b = Ok (x, y) /\ (shp x = shp y <-> compatible (shp a) (shp b)) /\
    (compatible (shp a) (shp b) -> shp x = common (shp a) (shp b) /\
       forall idx, inside (shp x) idx -> at_ x idx = at_ a (clampTo (shp a) idx) /\ at_ y idx = at_ b (clampTo (shp b) idx)).
Proof.
  intros a b L H4 Pa Pb. destruct (auto_axes (shp a) (shp b) L H4) as [la [ra [E [ML MR]]]]. unfold auto. rewrite E. clear E. unfold broadcast.
  pose proof (on_sorted (newBroadcastPattern la ra)) as [SL SR]. destruct (on (newBroadcastPattern la ra)) as [l r]. cbn [fst snd] in *. apply sorted_nodup in SL, SR.
  destruct (side_same a b l SL L) as [x [Ex [Lx [Sx Vx]]]]; [|exact Pa|exact Pb|].
  { apply Forall_forall. intros i Hi. apply ML in Hi. destruct Hi as [j [Hj [-> _]]]. lia. }
  rewrite Ex.
  assert (GL : forall i, (i < length (shp a))%nat -> existsb (Z.eqb (Z.of_nat i)) l = (nth i (shp a) 0 <? nth i (shp b) 0)).
  { intros i Hi. apply eq_true_iff_eq. rewrite mem_true, ML, Z.ltb_lt. split; [intros [j [Hj [Eq K]]]; apply Nat2Z.inj in Eq; subst; exact K|intro K; exists i; auto]. }
  assert (GR : forall i, (i < length (shp a))%nat -> existsb (Z.eqb (Z.of_nat i)) r = (nth i (shp b) 0 <? nth i (shp a) 0)).
  { intros i Hi. apply eq_true_iff_eq. rewrite mem_true, MR, Z.ltb_lt. split; [intros [j [Hj [Eq K]]]; apply Nat2Z.inj in Eq; subst; exact K|intro K; exists i; auto]. }
  assert (Px : positive (shp x)).
  { apply Forall_forall. intros d Hd. apply (In_nth _ _ 0) in Hd. destruct Hd as [i [Hi <-]]. rewrite Sx. pose proof (positive_nth _ i Pa ltac:(lia)). pose proof (positive_nth _ i Pb ltac:(lia)). destruct (existsb _ _); nia. }
  destruct (side_same b x r SR) as [y [Ey [Ly [Sy Vy]]]]; [congruence| |exact Pb|exact Px|].
  { apply Forall_forall. intros i Hi. apply MR in Hi. destruct Hi as [j [Hj [-> _]]]. lia. }
  rewrite Lx in Ey. rewrite Ey. exists x, y. split; [reflexivity|].
  assert (Cx : compatible (shp a) (shp b) -> shp x = common (shp a) (shp b)).
  { intro C. rewrite (compat_nth _ _ L) in C. apply list_eq; [rewrite common_len by exact L; exact Lx|]. intros i Hi. rewrite Lx in Hi. rewrite common_nth, Sx, GL by assumption.
    specialize (C i Hi). pose proof (positive_nth _ i Pa Hi). pose proof (positive_nth _ i Pb ltac:(lia)). destruct (Z.ltb_spec (nth i (shp a) 0) (nth i (shp b) 0)); nia. }
  assert (Cy : compatible (shp a) (shp b) -> shp y = common (shp a) (shp b)).
  { intro C. apply list_eq; [rewrite common_len by exact L; lia|]. intros i Hi. rewrite Ly in Hi. rewrite Sy, Sx, common_nth, GL, GR by lia.
    rewrite (compat_nth _ _ L) in C. specialize (C i ltac:(lia)). pose proof (positive_nth _ i Pa ltac:(lia)). pose proof (positive_nth _ i Pb ltac:(lia)).
    destruct (Z.ltb_spec (nth i (shp a) 0) (nth i (shp b) 0)), (Z.ltb_spec (nth i (shp b) 0) (nth i (shp a) 0)); nia. }
  split; [split|].
  - intro ES. apply (compat_nth _ _ L). intros i Hi. assert (N : nth i (shp x) 0 = nth i (shp y) 0) by (rewrite ES; reflexivity). rewrite Sy, Sx, GL, GR in N by lia.
    pose proof (positive_nth _ i Pa ltac:(lia)). pose proof (positive_nth _ i Pb ltac:(lia)). destruct (Z.ltb_spec (nth i (shp a) 0) (nth i (shp b) 0)), (Z.ltb_spec (nth i (shp b) 0) (nth i (shp a) 0)); nia.
  - intro C. rewrite Cx, Cy by exact C. reflexivity.
  - intro C. split; [exact (Cx C)|]. intros idx HI. pose proof HI as HI2. rewrite (Cx C), <- (Cy C) in HI2. pose proof HI as HI3. apply inside_nth in HI3. destruct HI3 as [Li Hi]. pose proof C as C'. rewrite (compat_nth _ _ L) in C'. split.
    + apply Vx; [exact HI|apply clamp_len; congruence|]. intro i. rewrite clamp_nth by congruence. destruct (Nat.lt_ge_cases i (length (shp a))) as [K|K].
      * rewrite GL by exact K. specialize (Hi i ltac:(lia)). specialize (C' i K). pose proof (positive_nth _ i Pa ltac:(lia)). pose proof (positive_nth _ i Pb ltac:(lia)). rewrite Sx, GL in Hi by lia.
        destruct (Z.ltb_spec (nth i (shp a) 0) (nth i (shp b) 0)) as [Q|Q], (Z.eqb_spec (nth i (shp a) 0) 1) as [U|U]; try lia; rewrite ?Z.div_1_r; try lia. symmetry. apply Z.div_small. nia.
      * rewrite (nth_overflow idx) by lia. rewrite Zdiv_0_l. destruct (_ =? _); reflexivity.
    + apply Vy; [exact HI2|apply clamp_len; congruence|]. intro i. rewrite clamp_nth by congruence. destruct (Nat.lt_ge_cases i (length (shp a))) as [K|K].
      * rewrite GR by exact K. specialize (Hi i ltac:(lia)). specialize (C' i K). pose proof (positive_nth _ i Pa ltac:(lia)). pose proof (positive_nth _ i Pb ltac:(lia)). rewrite Sx, GL in Hi by lia. rewrite Sx, GL by lia.
        destruct (Z.ltb_spec (nth i (shp a) 0) (nth i (shp b) 0)) as [Q|Q], (Z.ltb_spec (nth i (shp b) 0) (nth i (shp a) 0)) as [Q2|Q2], (Z.eqb_spec (nth i (shp b) 0) 1) as [U|U]; try lia; rewrite ?Z.div_1_r; try lia. symmetry. apply Z.div_small. nia.
      * rewrite (nth_overflow idx) by lia. rewrite Zdiv_0_l. destruct (_ =? _); reflexivity.
Qed.

(** From the fifth axis on nothing is ever stretched: whatever the shapes, sizes that
    differ there still differ in what the operator is handed. *)
Theorem C34_fifth_axis_refuted : forall a b x y k, length (shp a) = length (shp b) -> positive (shp a) -> positive (shp b) ->
  auto a b = Ok (x, y) -> (4 <= k < length (shp a))%nat -> nth k (shp a) 0 <> nth k (shp b) 0 -> shp x <> shp y.
Proof.
  intros a b x y k L Pa Pb E Hk N ES. unfold auto, autoBroadcastPattern in E. rewrite L, Nat.eqb_refl in E. destruct (autoLoop 0 (shp a) (shp b)) as [ra la]. unfold broadcast in E.
  set (pat := newBroadcastPattern la ra) in *. pose proof (on_sorted pat) as [SL SR]. pose proof (on_left pat) as OL. pose proof (on_right pat) as OR. destruct (on pat) as [l r]. cbn [fst snd] in *. apply sorted_nodup in SL, SR.
  destruct (side_same a b l SL L) as [x0 [Ex [Lx [Sx _]]]]; [|exact Pa|exact Pb|]. { apply Forall_forall. intros i Hi. apply OL in Hi. lia. } rewrite Ex in E.
  assert (Px : positive (shp x0)).
  { apply Forall_forall. intros d Hd. apply (In_nth _ _ 0) in Hd. destruct Hd as [i [Hi <-]]. rewrite Sx. pose proof (positive_nth _ i Pa ltac:(lia)). pose proof (positive_nth _ i Pb ltac:(lia)). destruct (existsb _ _); nia. }
  destruct (side_same b x0 r SR) as [y0 [Ey [Ly [Sy _]]]]; [congruence| |exact Pb|exact Px|]. { apply Forall_forall. intros i Hi. apply OR in Hi. lia. } rewrite Lx in Ey. rewrite Ey in E. injection E as <- <-.
  assert (M : forall l', (forall i, In i l' -> i < 4) -> existsb (Z.eqb (Z.of_nat k)) l' = false).
  { intros l' H. apply not_true_iff_false. rewrite mem_true. intro K. specialize (H _ K). lia. }
  apply N. pose proof (f_equal (fun s => nth k s 0) ES) as Q. cbn beta in Q. rewrite Sx, Sy in Q. rewrite (M l), (M r) in Q; [lia| |]; intros i Hi; [apply OR in Hi|apply OL in Hi]; lia.
Qed.

(** An operand with fewer axes: given the axes it lacks, it gets the other operand's
    sizes there and its entries do not depend on those coordinates. *)
Theorem C34_expands : forall a b la, la <> [] -> Forall (fun i => 0 <= i < Z.of_nat (length (shp b))) la -> (length (shp b) <= 4)%nat ->
  positive (shp a) -> positive (shp b) -> shp a <> [] -> length (shp a) <> length (shp b) ->
  length (without la 0 (shp b)) = length (shp a) ->
  exists x, broadcast a b (newBroadcastPattern la []) = Ok (x, b) /\ stretched (shp a) (shp b) la (shp x) /\
    forall idx, inside (shp x) idx -> at_ x idx = at_ a (without la 0 idx).
Proof.
  intros a b la NE HA H4 Pa Pb NS LN LW. assert (Rl : forall i, In i la -> 0 <= i < 4) by (rewrite Forall_forall in HA; intros i Hi; specialize (HA i Hi); lia).
  destruct (C34_pattern la []) as [PL [PR [SL _]]]; [apply Forall_forall; intros i Hi; specialize (Rl i Hi); lia|constructor|]. unfold broadcast. destruct (on (newBroadcastPattern la [])) as [l r]. cbn [fst snd] in *.
  assert (EQ : forall i, In i l <-> In i la) by (intro i; rewrite PL; split; [intros [_ [K|[]]]; exact K|intro K; split; [apply Rl, K|left; exact K]]).
  assert (R0 : r = []). { destruct r as [|i r]; [reflexivity|]. destruct (proj1 (PR i) (or_introl eq_refl)) as [Hi [[]|K]]. specialize (Rl _ K). lia. }
  destruct (side_insert a b l) as [x [E [ST V']]]; try assumption.
  - intro K. destruct la as [|i la]; [contradiction|]. pose proof (proj2 (EQ i) (or_introl eq_refl)) as Hi. rewrite K in Hi. contradiction.
  - apply sorted_nodup, SL.
  - rewrite Forall_forall in *. intros i Hi. apply HA, EQ, Hi.
  - rewrite (without_ext l la _ EQ). exact LW.
  - rewrite E, R0. cbn [broadcastSide]. exists x. split; [reflexivity|]. split.
    + destruct ST as [S1 [S2 S3]]. split; [exact S1|]. split; [rewrite <- (without_ext l la _ EQ); exact S2|]. intros i Hi. apply S3, EQ, Hi.
    + intros idx HI. rewrite (V' idx HI), (without_ext l la _ EQ). reflexivity.
Qed.
End Auto.
Print Assumptions C34_auto.
Print Assumptions C34_fifth_axis_refuted.
Print Assumptions C34_expands.

Example C34_ex_auto : exists x y : @tens Z,
  auto (Tn [2; 1; 3] (fun idx => 100 * nth 0 idx 0 + nth 2 idx 0)) (Tn [1; 4; 3] (fun idx => 10 * nth 1 idx 0 + nth 2 idx 0)) = Ok (x, y) /\
  shp x = [2; 4; 3] /\ shp y = [2; 4; 3] /\ at_ x [1; 3; 2] = 102 /\ at_ y [1; 3; 2] = 32.
Proof. eexists _, _. split; [reflexivity|]. repeat split. Qed.
(** Equal shapes but for the fifth axis, where [b] has size one: instead of stretching [b]
    there, [a] is stretched along axis 0. *)
Example C34_ex_fifth : exists x y : @tens Z,
  auto (Tn [2; 1; 1; 1; 3] (fun idx => nth 4 idx 0)) (Tn [2; 1; 1; 1; 1] (fun idx => 0)) = Ok (x, y) /\ shp x = [4; 1; 1; 1; 3] /\ shp y = [2; 1; 1; 1; 1].
Proof. eexists _, _. split; [reflexivity|]. repeat split. Qed.
Example C34_ex_expands : exists x : @tens Z,
  broadcast (Tn [3] (fun idx => nth 0 idx 0)) (Tn [2; 3; 4] (fun idx => 0)) (newBroadcastPattern [0; 2] []) = Ok (x, Tn [2; 3; 4] (fun idx => 0)) /\ shp x = [2; 3; 4] /\ at_ x [1; 2; 3] = 2.
Proof. eexists _. split; [reflexivity|]. repeat split. Qed.

(** ** C39 *)
(** Reshape of a node with at least one axis and at most one negative entry, no zero
    beside it: it succeeds exactly if the request can be answered with the node's size,
    with that answer, which also ends up in the caller's slice; if it fails the slice is
    as before. *)
Theorem C39_reshape : forall from to, from <> [] -> Forall (fun d => 0 <= d) from -> (wildcards to = 0%nat \/ wildcards to = 1%nat /\ ~ In 0 to) ->
  ((exists r, answers to r /\ product r = product from) -> exists r, reshapeCall from to = (Ok r, r) /\ answers to r /\ product r = product from) /\
  ((forall r, answers to r -> product r <> product from) -> reshapeCall from to = (Err, to)).
Proof.
  intros from to NE HF [W|[W W0]].
  - assert (N : negs to = 0%nat) by exact W. assert (NN := negs_nonneg to N).
    assert (U : forall r, answers to r -> r = to). { intros r H. clear - H NN. induction H as [|t d to r [H1 _] _ IH]; [reflexivity|]. inversion_clear NN as [|? ? Ht Hn]. rewrite (H1 Ht), (IH Hn). reflexivity. }
    assert (A : answers to to). { clear - NN. induction NN as [|t to Ht _ IH]; constructor; [split; [reflexivity|lia]|exact IH]. }
    unfold reshapeCall. rewrite N. cbn [Nat.ltb Nat.leb Nat.eqb]. rewrite !(total_product from), (total_product to). destruct from as [|d from]; [contradiction|]. cbn [length Nat.leb andb]. split.
    + intros [r [Ar Pr]]. rewrite (U r Ar) in Pr. exists to. rewrite Pr, Z.eqb_refl. auto.
    + intro H. specialize (H to A). destruct (Z.eqb_spec (product (d :: from)) (product to)) as [Eq|_]; [congruence|reflexivity].
  - destruct (one_neg to W) as [A [x [B [-> [Hx [HA HB]]]]]]. rewrite (reshape_one from A x B HA Hx HB).
    assert (P0 : product A * product B <> 0). { intro K. apply Z.mul_eq_0 in K. apply W0, in_or_app. destruct K as [K|K]; apply product_zero in K; [left|right; right]; exact K. }
    assert (PA := product_nonneg A HA). assert (PB := product_nonneg B HB). assert (PF := product_nonneg from HF).
    assert (Self : forall C, Forall (fun t => 0 <= t) C -> answers C C). { intros C HC. induction HC as [|t to Ht _ IH]; constructor; [split; [reflexivity|lia]|exact IH]. }
    assert (Sh : forall r, answers (A ++ x :: B) r -> exists d, 0 <= d /\ r = A ++ d :: B).
    { clear - HA HB Hx. induction HA as [|t A Ht _ IH]; intros r H; cbn [app] in *; inversion H as [|? d ? r' [D1 D2] H']; subst.
      - exists d. split; [apply D2, Hx|]. f_equal. clear - H' HB. induction H' as [|t d to r [H1 _] _ IH]; [reflexivity|]. inversion_clear HB as [|? ? Ht Hn]. rewrite (H1 Ht), (IH Hn). reflexivity.
      - destruct (IH r' H') as [e [E1 E2]]. exists e. split; [exact E1|]. rewrite (D1 Ht), E2. reflexivity. }
    destruct (Z.eqb_spec (product A * product B) 0) as [K|_]; [contradiction|]. destruct (Z.eqb_spec (Z.rem (product from) (product A * product B)) 0) as [R|R]; cbn [negb].
    + assert (Q : product from = product A * product B * Z.quot (product from) (product A * product B)) by (pose proof (Z.quot_rem (product from) (product A * product B) P0); lia).
      assert (QN : 0 <= Z.quot (product from) (product A * product B)) by (apply Z.quot_pos; [exact PF|nia]).
      assert (Ans : answers (A ++ x :: B) (A ++ Z.quot (product from) (product A * product B) :: B) /\ product (A ++ Z.quot (product from) (product A * product B) :: B) = product from).
      { split; [apply Forall2_app; [apply Self, HA|constructor; [split; [lia|auto]|apply Self, HB]]|]. rewrite product_app. cbn [product]. lia. }
      split; [intros _; eexists; split; [reflexivity|exact Ans]|]. intro H. destruct Ans as [A1 A2]. destruct (H _ A1 A2).
    + split; [|reflexivity]. intros [r [Ar Pr]]. destruct (Sh r Ar) as [d [Hd ->]]. exfalso. apply R. rewrite product_app in Pr. cbn [product] in Pr. rewrite <- Pr. replace (product A * (d * product B)) with (d * (product A * product B)) by ring. apply Z.rem_mul, P0.
Qed.
Print Assumptions C39_reshape.

(** Two or more negative entries: an error; one together with a zero: a panic, also when
    the node itself has size zero. *)
Theorem C39_refused : forall from to,
  ((2 <= wildcards to)%nat -> reshapeCall from to = (Err, to)) /\
  (wildcards to = 1%nat -> In 0 to -> reshapeCall from to = (Panic, to)).
Proof.
  intros from to. split.
  - intro W. unfold reshapeCall, negs. unfold wildcards in W. destruct (Nat.ltb_spec 1 (length (filter (fun s => s <? 0) to))); [reflexivity|lia].
  - intros W H0. destruct (one_neg to W) as [A [x [B [-> [Hx [HA HB]]]]]]. rewrite (reshape_one from A x B HA Hx HB). replace (product A * product B =? 0) with true; [reflexivity|]. symmetry. apply Z.eqb_eq, Z.mul_eq_0.
    apply in_app_or in H0. destruct H0 as [H0|[H0|H0]]; [left; apply product_zero, H0|lia|right; apply product_zero, H0].
Qed.
Print Assumptions C39_refused.

(** The size is not checked for scalars: any request without negative entries passes. *)
Theorem C39_scalar_refuted : forall to, wildcards to = 0%nat -> reshapeCall [] to = (Ok to, to).
Proof. intros to W. unfold reshapeCall, negs. unfold wildcards in W. rewrite W. reflexivity. Qed.
Print Assumptions C39_scalar_refuted.

(** Because the request is overwritten, using the same slice for a second node of another
    size fails where a fresh one might not. *)
Theorem C39_reuse_refuted : forall from1 from2 to r, from2 <> [] -> product from1 <> product from2 -> wildcards to = 1%nat ->
  fst (reshapeCall from1 to) = Ok r -> Forall (fun d => 0 <= d) from1 -> reshapeCall from2 (snd (reshapeCall from1 to)) = (Err, snd (reshapeCall from1 to)).
Proof.
  intros from1 from2 to r NE N W E HF. destruct (one_neg to W) as [A [x [B [-> [Hx [HA HB]]]]]]. rewrite (reshape_one from1 A x B HA Hx HB) in *.
  assert (PA := product_nonneg A HA). assert (PB := product_nonneg B HB). assert (PF := product_nonneg from1 HF).
  destruct (Z.eqb_spec (product A * product B) 0) as [K|K]; [discriminate|]. destruct (Z.eqb_spec (Z.rem (product from1) (product A * product B)) 0) as [R|R]; [|discriminate]. cbn [negb fst snd] in *.
  set (q := Z.quot (product from1) (product A * product B)) in *.
  assert (Q : product from1 = product A * product B * q) by (pose proof (Z.quot_rem (product from1) (product A * product B) K); unfold q; lia).
  assert (QN : 0 <= q) by (unfold q; apply Z.quot_pos; [exact PF|nia]).
  assert (NN : negs (A ++ q :: B) = 0%nat) by (apply nonneg_negs, Forall_app; split; [exact HA|constructor; [exact QN|exact HB]]).
  unfold reshapeCall. rewrite NN. cbn [Nat.ltb Nat.leb Nat.eqb]. rewrite (total_product from2), (total_product (A ++ q :: B)). destruct from2 as [|d from2]; [contradiction|]. cbn [length andb].
  rewrite product_app. cbn [product]. destruct (Z.eqb_spec (d * product from2) (product A * (q * product B))) as [Eq|_]; [|reflexivity]. exfalso. apply N. cbn [product]. lia.
Qed.
Print Assumptions C39_reuse_refuted.

Example C39_ex : reshapeCall [4; 6] [3; -1; 2] = (Ok [3; 4; 2], [3; 4; 2]) /\ reshapeCall [4; 6] [5; -1] = (Err, [5; -1]) /\ reshapeCall [0; 3] [0; -1] = (Panic, [0; -1]) /\
  reshapeCall [7] [3; 4; 2] = (Err, [3; 4; 2]) /\ reshapeCall [] [5] = (Ok [5], [5]).
Proof. repeat split. Qed.
