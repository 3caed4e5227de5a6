(** Lemmas for the GPU model: thread numbers enumerate the grid, and a launch in any order
    changes exactly the elements whose number some thread has. *)
From Coq Require Import List ZArith Bool Arith Lia Permutation.
From Verif Require Import BroadcastModel ShapeGradModel GpuModel.
Import ListNotations.

Lemma seq_shift0 : forall a n, seq a n = map (fun i => a + i) (seq 0 n).
Proof.
  intros a n. revert a. induction n as [|n IH]; intro a; [reflexivity|].
  cbn [seq map]. rewrite Nat.add_0_r. f_equal.
  rewrite (IH (S a)), <- (seq_shift n 0), map_map. apply map_ext. intro i. lia.
Qed.

Lemma flat_seq : forall n m, flat_map (fun k => map (fun i => k * n + i) (seq 0 n)) (seq 0 m) = seq 0 (m * n).
Proof.
  intros n m. induction m as [|m IH]; [reflexivity|].
  rewrite seq_S, flat_map_app, IH. cbn [flat_map plus]. rewrite app_nil_r.
  replace (S m * n) with (m * n + n) by lia. rewrite seq_app. f_equal. cbn [plus].
  symmetry. apply seq_shift0.
Qed.

Lemma map_flat_map : forall {A B C} (f : B -> C) (g : A -> list B) l,
  map f (flat_map g l) = flat_map (fun a => map f (g a)) l.
Proof.
  intros A B C f g l. induction l as [|a l IH]; [reflexivity|].
  cbn [flat_map]. rewrite map_app, IH. reflexivity.
Qed.

Lemma flat_map_ext_all : forall {A B} (f g : A -> list B) l, (forall a, f a = g a) -> flat_map f l = flat_map g l.
Proof. intros A B f g l E. induction l as [|a l IH]; [reflexivity|]. cbn [flat_map]. rewrite E, IH. reflexivity. Qed.

Lemma coords_ids : forall x y z (h : nat -> nat),
  map (fun c => h (let '(i, j, k) := c in k * (x * y) + (j * x + i))) (coords x y z) = map h (seq 0 (z * (y * x))).
Proof.
  intros x y z h. unfold coords. rewrite map_flat_map.
  rewrite <- flat_seq. rewrite map_flat_map. apply flat_map_ext_all. intro k.
  rewrite map_flat_map. rewrite map_map.
  rewrite <- (map_map (fun i => k * (y * x) + i) h). rewrite <- flat_seq.
  rewrite map_flat_map, map_flat_map. apply flat_map_ext_all. intro j.
  rewrite !map_map. apply map_ext. intro i. f_equal. lia.
Qed.

(** The number of threads of a launch. *)
Definition total (g : grid) : nat := gridZ g * (gridY g * gridX g) * (blockZ g * (blockY g * blockX g)).

Lemma thread_ids : forall g, map (threadId g) (threads g) = seq 0 (total g).
Proof.
  intro g. unfold threads, total. rewrite map_flat_map.
  set (n := blockZ g * (blockY g * blockX g)).
  assert (E : forall b, map (threadId g) (map (fun t => Build_thread b t) (coords (blockX g) (blockY g) (blockZ g)))
            = (fun q => map (fun i => q * n + i) (seq 0 n)) (let '(bx, by_, bz) := b in bz * (gridX g * gridY g) + (by_ * gridX g + bx))).
  { intros [[bx by_] bz]. cbv beta. rewrite map_map. unfold threadId. cbn [bIdx tIdx].
    pose proof (coords_ids (blockX g) (blockY g) (blockZ g) (fun i => (bz * (gridX g * gridY g) + (by_ * gridX g + bx)) * n + i)) as C.
    fold n in C. rewrite <- C.
    apply map_ext. intros [[tx ty] tz]. unfold n. lia. }
  rewrite (flat_map_ext_all _ _ _ E).
  rewrite <- (flat_seq n).
  rewrite <- (map_id (seq 0 (gridZ g * (gridY g * gridX g)))).
  rewrite <- (coords_ids (gridX g) (gridY g) (gridZ g) (fun i => i)).
  rewrite !flat_map_concat_map, map_map. reflexivity.
Qed.

Section Launch.
Context {V : Type}.
Notation memory := (@memory V).

Lemma store_same : forall (m : memory) b i v, store m b i v b i = v.
Proof. intros. unfold store. rewrite !Nat.eqb_refl. reflexivity. Qed.
Lemma store_other : forall (m : memory) b i v b' i', b' <> b \/ i' <> i -> store m b i v b' i' = m b' i'.
Proof.
  intros m b i v b' i' H. unfold store.
  destruct (b' =? b) eqn:E1; [|reflexivity]. destruct (i' =? i) eqn:E2; [|reflexivity].
  apply Nat.eqb_eq in E1, E2. lia.
Qed.

(** A launch of threads with pairwise different numbers, each of which stores into buffer
    [O] at its number a function of what is there. *)
Lemma launch_points : forall (id : thread -> nat) (O size : nat) (f : nat -> V -> V) (body : memory -> thread -> memory) (m0 : memory),
  (forall m t, (forall b i, b <> O -> m b i = m0 b i) ->
     body m t = if size <=? id t then m else store m O (id t) (f (id t) (m O (id t)))) ->
  forall ts m, (forall b i, b <> O -> m b i = m0 b i) -> NoDup (map id ts) ->
  (forall i, i < size -> In i (map id ts) -> launch body ts m O i = f i (m O i))
  /\ (forall b i, b <> O \/ size <= i \/ ~ In i (map id ts) -> launch body ts m b i = m b i).
Proof.
  intros id O size f body m0 HB ts. induction ts as [|t ts IH]; intros m HM ND.
  - split; [intros i _ []|reflexivity].
  - cbn [map] in ND. apply NoDup_cons_iff in ND. destruct ND as [NI ND].
    change (launch body (t :: ts) m) with (launch body ts (body m t)).
    pose proof (HB m t HM) as EB.
    remember (body m t) as m1 eqn:DM. clear DM.
    assert (HM1 : forall b i, b <> O -> m1 b i = m0 b i).
    { intros b i NB. rewrite EB. destruct (size <=? id t); [apply HM; exact NB|].
      rewrite store_other by (left; exact NB). apply HM; exact NB. }
    destruct (IH m1 HM1 ND) as [P Q]. split.
    + intros i LT IN. cbn [map] in IN. destruct IN as [E|IN].
      * subst i. rewrite (Q O (id t)) by (right; right; exact NI). rewrite EB.
        assert (E : (size <=? id t) = false) by (apply Nat.leb_gt; exact LT).
        rewrite E, store_same. reflexivity.
      * rewrite (P i LT IN). rewrite EB. destruct (size <=? id t); [reflexivity|].
        rewrite store_other; [reflexivity|]. right. intro E. subst i. exact (NI IN).
    + intros b i H. rewrite Q.
      * rewrite EB. destruct (size <=? id t) eqn:E; [reflexivity|].
        apply Nat.leb_gt in E. apply store_other.
        destruct H as [H|[H|H]]; [left; exact H|right; lia|].
        right. intro E'. apply H. left. symmetry. exact E'.
      * destruct H as [H|[H|H]]; [left; exact H|right; left; exact H|].
        right. right. intro I. apply H. right. exact I.
Qed.

(** The same for the threads of a grid in any order. *)
Lemma launch_grid : forall (g : grid) (O size : nat) (f : nat -> V -> V) (body : memory -> thread -> memory) (m : memory) ts,
  Permutation ts (threads g) ->
  (forall m' t, (forall b i, b <> O -> m' b i = m b i) ->
     body m' t = if size <=? threadId g t then m' else store m' O (threadId g t) (f (threadId g t) (m' O (threadId g t)))) ->
  forall b i, launch body ts m b i
    = if (b =? O) && (i <? size) && (i <? total g) then f i (m O i) else m b i.
Proof.
  intros g O size f body m ts PT HB b i.
  assert (PI : Permutation (map (threadId g) ts) (seq 0 (total g))).
  { rewrite <- thread_ids. apply Permutation_map. exact PT. }
  assert (ND : NoDup (map (threadId g) ts)).
  { eapply Permutation_NoDup; [apply Permutation_sym; exact PI|apply seq_NoDup]. }
  destruct (launch_points (threadId g) O size f body m HB ts m (fun _ _ _ => eq_refl) ND) as [P Q].
  assert (IN : forall j, In j (map (threadId g) ts) <-> j < total g).
  { intro j. split; intro H.
    - apply (Permutation_in _ PI) in H. apply in_seq in H. lia.
    - apply (Permutation_in _ (Permutation_sym PI)). apply in_seq. lia. }
  destruct (b =? O) eqn:E1; cbn [andb].
  - apply Nat.eqb_eq in E1. subst b. destruct (i <? size) eqn:E2; cbn [andb].
    + apply Nat.ltb_lt in E2. destruct (i <? total g) eqn:E3.
      * apply Nat.ltb_lt in E3. apply P; [exact E2|apply IN; exact E3].
      * apply Nat.ltb_ge in E3. apply Q. right. right. rewrite IN. lia.
    + apply Nat.ltb_ge in E2. apply Q. right. left. exact E2.
  - apply Nat.eqb_neq in E1. apply Q. left. exact E1.
Qed.
End Launch.

(** ** Sizes *)
Lemma blocks_enough : forall n t, 0 < t -> n <= calcBlocks n t * t < n + t.
Proof.
  intros n t H. unfold calcBlocks.
  pose proof (Nat.div_mod (n + t - 1) t ltac:(lia)) as D.
  pose proof (Nat.mod_upper_bound (n + t - 1) t ltac:(lia)) as M.
  rewrite (Nat.mul_comm _ t). lia.
Qed.
Lemma blocks_le : forall n t k, 0 < t -> n <= k * t -> calcBlocks n t <= k.
Proof.
  intros n t k H L. pose proof (blocks_enough n t H) as B.
  assert (calcBlocks n t * t < (k + 1) * t) by lia.
  apply Nat.mul_lt_mono_pos_r in H0; lia.
Qed.
Lemma blocks_zero : forall t, 0 < t -> calcBlocks 0 t = 0.
Proof. intros t H. pose proof (blocks_le 0 t 0 H ltac:(lia)). lia. Qed.

(** How many threads each kind of size gets. *)
Lemma total_small : forall e n, 0 < mtpb e -> 0 < mgdy e -> 0 < mgdz e -> calcBlocks n (mtpb e) < mgdx e ->
  n <= total (elemGridSize e n).
Proof.
  intros e n HT HY HZ HB. pose proof (blocks_enough n (mtpb e) HT) as B. unfold elemGridSize.
  set (bl := calcBlocks n (mtpb e)) in *.
  destruct (bl =? 1); [unfold total; cbn [gridX gridY gridZ blockX blockY blockZ]; lia|].
  assert (L1 : mgdx e <= mgdx e * mgdy e) by nia.
  assert (L2 : mgdx e * mgdy e <= mgdx e * mgdy e * mgdz e) by nia.
  assert (E1 : (mgdx e * mgdy e * mgdz e <=? bl) = false) by (apply Nat.leb_gt; lia). rewrite E1.
  assert (E2 : (mgdx e * mgdy e <=? bl) = false) by (apply Nat.leb_gt; lia). rewrite E2.
  assert (E3 : (mgdx e <=? bl) = false) by (apply Nat.leb_gt; lia). rewrite E3.
  unfold total. cbn [gridX gridY gridZ blockX blockY blockZ]. lia.
Qed.
Lemma total_single : forall e n, calcBlocks n (mtpb e) = 1 -> total (elemGridSize e n) = n.
Proof.
  intros e n H. unfold elemGridSize. rewrite H. cbn [Nat.eqb]. unfold total.
  cbn [gridX gridY gridZ blockX blockY blockZ]. lia.
Qed.
