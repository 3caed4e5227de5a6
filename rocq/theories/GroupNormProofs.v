(** The row statistics of group normalisation against their specification. *)
From Coq Require Import Arith Reals List Bool Lia Lra Psatz.
From Verif Require Import Sums LoopModel LoopProofs BatchNormSpec GroupNormModel.
Import ListNotations.
Local Open Scope R_scope.

(** ** Count, mean and sum of squared deviations *)
Definition Stat (m1 m2 : R) (n : nat) (S Q : R) : Prop :=
  m1 * INR n = S /\ m2 = Q - INR n * m1 * m1.

Lemma weight_mul a b : weight a b * INR (a + b) = INR b.
Proof.
  unfold weight. destruct (Nat.eqb_spec (a + b) 0) as [E|E].
  - replace b with 0%nat by lia. cbn. ring.
  - field. apply not_0_INR. exact E.
Qed.
Lemma weight_nonneg a b : 0 <= weight a b.
Proof.
  unfold weight. destruct (Nat.eqb_spec (a + b) 0) as [E|E]; [lra|].
  apply Rmult_le_pos; [apply pos_INR|]. left. apply Rinv_0_lt_compat, lt_0_INR. lia.
Qed.

Lemma stat_merge a b a1 a2 b1 b2 Sa Qa Sb Qb :
  Stat a1 a2 a Sa Qa -> Stat b1 b2 b Sb Qb ->
  let c := weight a b in let d := b1 - a1 in
  Stat (a1 + d * c) (a2 + (d * d * c * INR a + b2)) (a + b) (Sa + Sb) (Qa + Qb).
Proof.
  intros [A1 A2] [B1 B2] c d. assert (W := weight_mul a b). fold c in W.
  assert (Ea : INR (a + b) = INR a + INR b) by apply plus_INR.
  destruct (Nat.eq_dec (a + b) 0) as [E|E].
  - replace a with 0%nat in * by lia. replace b with 0%nat in * by lia. cbn in *. subst. unfold Stat. cbn. split; ring.
  - assert (P : INR (a + b) <> 0) by (apply not_0_INR; exact E).
    assert (Ec : c = INR b / INR (a + b)) by (unfold c, weight; destruct (Nat.eqb_spec (a + b) 0); [contradiction|reflexivity]).
    rewrite Ea in P, Ec. unfold Stat. rewrite Ea, A2, B2, <- A1, <- B1, Ec. unfold d. split; field; exact P.
Qed.

Lemma stat_empty : Stat 0 0 0 0 0.
Proof. unfold Stat. cbn. split; ring. Qed.
Lemma stat_one v : Stat v 0 1 v (v * v).
Proof. unfold Stat. cbn. split; ring. Qed.

(** Welford's step is a merge with one value *)
Lemma stat_welford n m1 m2 S Q v : Stat m1 m2 n S Q ->
  let d := v - m1 in let m1' := m1 + d * (1 / INR (n + 1)) in
  Stat m1' (m2 + (v - m1') * d) (n + 1) (S + v) (Q + v * v).
Proof.
  intros H d m1'. assert (G := stat_merge n 1 m1 m2 v 0 S Q v (v * v) H (stat_one v)). cbn zeta in G.
  assert (P : INR n + 1 <> 0) by (assert (Z := pos_INR n); lra).
  assert (Ew : weight n 1 = 1 / INR (n + 1)) by (unfold weight; destruct (Nat.eqb_spec (n + 1) 0); [lia|reflexivity]).
  rewrite Ew in G. fold d in G. fold m1' in G.
  replace (m2 + (v - m1') * d) with (m2 + (d * d * (1 / INR (n + 1)) * INR n + 0)); [exact G|].
  unfold m1', d. rewrite plus_INR. change (INR 1) with 1. field. exact P.
Qed.

(** the second moment as a sum of squares *)
Lemma stat_sq n m1 m2 (f : nat -> R) :
  Stat m1 m2 n (sum n f) (sum n (fun i => f i * f i)) -> m2 = sum n (fun i => (f i - m1) * (f i - m1)).
Proof.
  intros [A B].
  assert (E : sum n (fun i => (f i - m1) * (f i - m1)) = sum n (fun i => f i * f i) - 2 * m1 * sum n f + INR n * (m1 * m1)).
  { clear. induction n as [|n IH]; [cbn; ring|]. cbn [sum radd CRing_R]. rewrite IH, S_INR. cbn. ring. }
  rewrite E, <- A, B. ring.
Qed.
Lemma sum_sq_nonneg n (f : nat -> R) : 0 <= sum n (fun i => f i * f i).
Proof. induction n as [|n IH]; [cbn; lra|]. cbn [sum radd CRing_R]. assert (H := Rle_0_sqr (f n)). unfold Rsqr in H. lra. Qed.
Lemma sum_sq_zero n (f : nat -> R) : sum n (fun i => f i * f i) = 0 -> forall i, (i < n)%nat -> f i = 0.
Proof.
  induction n as [|n IH]; intros H i Hi; [lia|]. cbn [sum radd CRing_R] in H.
  assert (A := sum_sq_nonneg n f). assert (B := Rle_0_sqr (f n)). unfold Rsqr in B.
  destruct (Nat.eq_dec i n) as [->|N]; [apply Rsqr_0_uniq; unfold Rsqr; lra|]. apply IH; [lra|lia].
Qed.
Lemma stat_nonneg n m1 m2 (f : nat -> R) :
  Stat m1 m2 n (sum n f) (sum n (fun i => f i * f i)) -> 0 <= m2.
Proof. intro H. rewrite (stat_sq _ _ _ _ H). apply (sum_sq_nonneg n (fun i => f i - m1)). Qed.
Lemma stat_pos n m1 m2 (f : nat -> R) p q :
  Stat m1 m2 n (sum n f) (sum n (fun i => f i * f i)) -> (p < n)%nat -> (q < n)%nat -> f p <> f q -> 0 < m2.
Proof.
  intros H Hp Hq D. assert (P := stat_nonneg _ _ _ _ H). destruct P as [P|P]; [exact P|]. exfalso. apply D.
  rewrite (stat_sq _ _ _ _ H) in P. symmetry in P.
  assert (A := sum_sq_zero n (fun i => f i - m1) P p Hp). assert (B := sum_sq_zero n (fun i => f i - m1) P q Hq). cbn beta in A, B. lra.
Qed.
Lemma stat_const n m1 m2 v :
  Stat m1 m2 n (sum n (fun _ => v)) (sum n (fun _ => v * v)) -> m2 = 0 /\ ((0 < n)%nat -> m1 = v).
Proof.
  assert (Ec : forall w, sum n (fun _ : nat => w) = INR n * w).
  { intro w. induction n as [|n IH]; [cbn; ring|]. cbn [sum radd CRing_R]. rewrite IH, S_INR. ring. }
  intros [A B]. rewrite Ec in A, B. destruct (Nat.eq_dec n 0) as [->|N].
  - cbn in *. split; [lra|lia].
  - assert (P : INR n <> 0) by (apply not_0_INR; exact N).
    assert (m1 = v) by (apply (Rmult_eq_reg_r (INR n)); lra). subst m1. split; [rewrite B; ring|reflexivity].
Qed.

(** ** Vectors *)
Lemma vzip_length f a b n : length a = n -> length b = n -> length (vzip f a b) = n.
Proof. revert b n. induction a as [|x a IH]; intros [|y b] n A B; cbn in *; try congruence. subst n. f_equal. apply IH; lia. Qed.
Lemma nth_vzip f a b n i : length a = n -> length b = n -> (i < n)%nat -> nth i (vzip f a b) 0 = f (nth i a 0) (nth i b 0).
Proof.
  revert b n i. induction a as [|x a IH]; intros [|y b] n i A B H; cbn in *; try lia.
  destruct i; [reflexivity|]. apply (IH b (length a)); lia.
Qed.
Lemma vscale_length a c n : length a = n -> length (vscale a c) = n.
Proof. intro H. unfold vscale. rewrite map_length. exact H. Qed.
Lemma nth_vscale a c i : nth i (vscale a c) 0 = nth i a 0 * c.
Proof. unfold vscale. replace 0 with (0 * c) at 1 by ring. exact (map_nth (fun v => v * c) a 0 i). Qed.
Lemma vzero_length : length vzero = vecSize. Proof. reflexivity. Qed.
Lemma nth_vzero i : nth i vzero 0 = 0.
Proof. unfold vzero. apply nth_repeat. Qed.

Section Row.
Variables (x : list R) (n : nat).
Hypothesis Ln : length x = n.
Let nn := (n / vecSize)%nat.

Lemma nn_le : (nn * 8 <= n)%nat.
Proof. unfold nn, vecSize. assert (H := Nat.div_mod n 8 ltac:(lia)). lia. Qed.

(** entry of vector [j], lane [l] *)
Definition X (l j : nat) : R := nth (j * 8 + l) x 0.
Definition SS l a b : R := sum (b - a) (fun i => X l (a + i)).
Definition QQ l a b : R := sum (b - a) (fun i => X l (a + i) * X l (a + i)).

Lemma SS_app l a b c : (a <= b)%nat -> (b <= c)%nat -> SS l a c = SS l a b + SS l b c.
Proof.
  intros H1 H2. unfold SS. replace (c - a)%nat with ((b - a) + (c - b))%nat by lia. rewrite (sum_split (A := R)).
  cbn [radd CRing_R]. f_equal. apply sum_ext. intros i _. f_equal. lia.
Qed.
Lemma QQ_app l a b c : (a <= b)%nat -> (b <= c)%nat -> QQ l a c = QQ l a b + QQ l b c.
Proof.
  intros H1 H2. unfold QQ. replace (c - a)%nat with ((b - a) + (c - b))%nat by lia. rewrite (sum_split (A := R)).
  cbn [radd CRing_R]. f_equal. apply sum_ext. intros i _. replace (b + i)%nat with (a + (b - a + i))%nat by lia. reflexivity.
Qed.

Definition VStat (v1 v2 : list R) (a b : nat) : Prop :=
  length v1 = vecSize /\ length v2 = vecSize /\
  forall l, (l < 8)%nat -> Stat (nth l v1 0) (nth l v2 0) (b - a) (SS l a b) (QQ l a b).

Lemma vstat_zero a : VStat vzero vzero a a.
Proof.
  split; [reflexivity|split; [reflexivity|]]. intros l Hl. rewrite nth_vzero. unfold SS, QQ. rewrite Nat.sub_diag. apply stat_empty.
Qed.

Lemma chunk_ok i m0 : (i * 16 + m0 <= nn)%nat ->
  exists v1 v2, chunk x i m0 = Some (v1, v2) /\ VStat v1 v2 (i * 16) (i * 16 + m0).
Proof.
  intro H. unfold chunk, loop.
  assert (G : forall k, (k <= m0)%nat -> exists v1 v2,
    foldM (fun (j : nat) (s : list R * list R) =>
      let base := (i * chunkSize * vecSize + j * vecSize)%nat in
      match aslice x base (base + vecSize) with
      | Some sec => let delta := vsub sec (fst s) in let m1 := vadd (fst s) (vscale delta (1 / INR (j + 1))) in
                    Some (m1, vadd (snd s) (vmul (vsub sec m1) delta))
      | None => None end) (seq 0 k) (vzero, vzero) = Some (v1, v2) /\ VStat v1 v2 (i * 16) (i * 16 + k)).
  { induction k as [|k IH]; intro Hk.
    - exists vzero, vzero. split; [reflexivity|]. rewrite Nat.add_0_r. apply vstat_zero.
    - destruct (IH ltac:(lia)) as (v1 & v2 & E & L1 & L2 & St). rewrite seq_S, foldM_app, E. cbn [foldM Nat.add fst snd].
      set (base := (i * chunkSize * vecSize + k * vecSize)%nat).
      assert (Nl := nn_le).
      assert (Hb : (base + vecSize <= length x)%nat) by (unfold base, chunkSize, vecSize; nia).
      rewrite aslice_some by (try lia; exact Hb). replace (base + vecSize - base)%nat with vecSize by lia.
      set (sec := firstn vecSize (skipn base x)).
      assert (Ls : length sec = vecSize) by (unfold sec; rewrite firstn_length, skipn_length; lia).
      assert (Ns : forall l, (l < 8)%nat -> nth l sec 0 = X l (i * 16 + k)).
      { intros l Hl. unfold X. assert (Hs : nth_error sec l = nth_error x ((i * 16 + k) * 8 + l)).
        { unfold sec. rewrite nth_firstn by (unfold vecSize; lia). rewrite nth_skipn. f_equal. unfold base, chunkSize, vecSize. lia. }
        rewrite (nth_error_nth' sec 0) in Hs by (unfold vecSize in Ls; lia). symmetry. apply nth_error_nth. congruence. }
      set (delta := vsub sec v1). set (m1 := vadd v1 (vscale delta (1 / INR (k + 1)))).
      exists m1, (vadd v2 (vmul (vsub sec m1) delta)). split; [reflexivity|].
      assert (Ld : length delta = vecSize) by (apply vzip_length; assumption).
      assert (Lm : length m1 = vecSize) by (apply vzip_length; [assumption|apply vscale_length; assumption]).
      split; [exact Lm|split].
      + apply vzip_length; [assumption|]. apply vzip_length; [apply vzip_length; assumption|assumption].
      + intros l Hl.
        assert (Dl : nth l delta 0 = X l (i * 16 + k) - nth l v1 0)
          by (unfold delta, vsub; rewrite (nth_vzip _ _ _ vecSize) by assumption; rewrite Ns by exact Hl; reflexivity).
        assert (Ml : nth l m1 0 = nth l v1 0 + nth l delta 0 * (1 / INR (k + 1))).
        { unfold m1, vadd. rewrite (nth_vzip _ _ _ vecSize); [|assumption|apply vscale_length; assumption|exact Hl]. rewrite nth_vscale. reflexivity. }
        assert (Vl : nth l (vadd v2 (vmul (vsub sec m1) delta)) 0 = nth l v2 0 + (X l (i * 16 + k) - nth l m1 0) * nth l delta 0).
        { unfold vadd, vmul, vsub. repeat (rewrite (nth_vzip _ _ _ vecSize); [|try assumption; repeat (apply vzip_length; try assumption)..]); try exact Hl.
          rewrite Ns by exact Hl. reflexivity. }
        rewrite Vl, Ml, Dl. specialize (St l Hl).
        assert (W := stat_welford _ _ _ _ _ (X l (i * 16 + k)) St). cbn zeta in W.
        replace (i * 16 + S k - i * 16)%nat with (i * 16 + k - i * 16 + 1)%nat by lia.
        rewrite (SS_app l (i * 16) (i * 16 + k) (i * 16 + S k)) by lia.
        rewrite (QQ_app l (i * 16) (i * 16 + k) (i * 16 + S k)) by lia.
        unfold SS at 2, QQ at 2. replace (i * 16 + S k - (i * 16 + k))%nat with 1%nat by lia.
        cbn [sum radd r0 CRing_R]. rewrite Nat.add_0_r, !Rplus_0_l.
        replace (k + 1)%nat with (i * 16 + k - i * 16 + 1)%nat by lia. exact W. }
  destruct (G m0 (le_n _)) as (v1 & v2 & E & V). exists v1, v2. split; assumption.
Qed.

(** ** The stacks *)
Definition Lev (st : stk) (k a b : nat) : Prop :=
  aget (m0s st) k = Some (b - a)%nat /\
  exists v1 v2, aget (m1s st) k = Some v1 /\ aget (m2s st) k = Some v2 /\ VStat v1 v2 a b.
Definition same_at (st st' : stk) (k : nat) : Prop :=
  aget (m0s st') k = aget (m0s st) k /\ aget (m1s st') k = aget (m1s st) k /\ aget (m2s st') k = aget (m2s st) k.
Lemma lev_same st st' k a b : same_at st st' k -> Lev st k a b -> Lev st' k a b.
Proof. intros (A & B & C) (H & v1 & v2 & E1 & E2 & V). split; [congruence|]. exists v1, v2. split; [congruence|split; [congruence|exact V]]. Qed.

Lemma aget_lt {A} (l : list A) i v : aget l i = Some v -> (i < length l)%nat.
Proof. intro H. apply nth_error_Some. unfold aget in H. rewrite H. discriminate. Qed.

Lemma addMomentsVec_ok st k a b b' w1 w2 : (a <= b)%nat -> (b <= b')%nat -> Lev st k a b -> VStat w1 w2 b b' ->
  exists st', addMomentsVec (b' - b) w1 w2 k (M1 k) (M2 k) st = Some st' /\ Lev st' k a b' /\
    (forall k', k' <> k -> same_at st st' k').
Proof.
  intros Hab Hbb (H0 & v1 & v2 & E1 & E2 & L1 & L2 & St) (Lw1 & Lw2 & Sw).
  unfold addMomentsVec. rewrite H0. cbn [getv]. rewrite E1. cbn zeta.
  set (c := weight (b - a) (b' - b)). set (delta := vsub w1 v1). set (v1' := vadd v1 (vscale delta c)).
  set (tmp := vadd (vscale (vscale (vmul delta delta) c) (INR (b - a))) w2).
  destruct (aset_some (m1s st) k v1' (aget_lt _ _ _ E1)) as (l1 & A1 & Ln1 & V1 & N1).
  destruct (aset_some (m2s st) k (vadd v2 tmp) (aget_lt _ _ _ E2)) as (l2 & A2 & Ln2 & V2 & N2).
  destruct (aset_some (m0s st) k (b - a + (b' - b))%nat (aget_lt _ _ _ H0)) as (l0 & A0 & Ln0 & V0 & N0).
  cbn [setv]. rewrite A1. cbn [getv m2s]. rewrite E2. cbn [setv m2s]. rewrite A2. unfold setm0. cbn [m0s m1s m2s]. rewrite A0.
  eexists. split; [reflexivity|].
  assert (Ld : length delta = vecSize) by (apply vzip_length; assumption).
  assert (Lt : length tmp = vecSize).
  { unfold tmp. apply vzip_length; [|assumption]. do 2 apply vscale_length. apply vzip_length; assumption. }
  split.
  - split; cbn [m0s m1s m2s].
    + unfold aget. rewrite V0. f_equal. lia.
    + exists v1', (vadd v2 tmp). split; [exact V1|]. split; [exact V2|]. split; [|split].
      * apply vzip_length; [assumption|apply vscale_length; assumption].
      * apply vzip_length; assumption.
      * intros l Hl.
        assert (Dl : nth l delta 0 = nth l w1 0 - nth l v1 0) by (unfold delta, vsub; rewrite (nth_vzip _ _ _ vecSize) by assumption; reflexivity).
        assert (E1' : nth l v1' 0 = nth l v1 0 + nth l delta 0 * c).
        { unfold v1', vadd. rewrite (nth_vzip _ _ _ vecSize); [|assumption|apply vscale_length; assumption|exact Hl]. rewrite nth_vscale. reflexivity. }
        assert (E2' : nth l (vadd v2 tmp) 0 = nth l v2 0 + (nth l delta 0 * nth l delta 0 * c * INR (b - a) + nth l w2 0)).
        { unfold vadd. rewrite (nth_vzip _ _ _ vecSize) by assumption. unfold tmp, vadd.
          rewrite (nth_vzip _ _ _ vecSize); [|do 2 apply vscale_length; apply vzip_length; assumption|assumption|exact Hl].
          rewrite !nth_vscale. unfold vmul. rewrite (nth_vzip _ _ _ vecSize) by assumption. reflexivity. }
        rewrite E1', E2', Dl. rewrite (SS_app l a b b'), (QQ_app l a b b') by assumption.
        replace (b' - a)%nat with ((b - a) + (b' - b))%nat by lia.
        apply stat_merge; [apply St|apply Sw]; exact Hl.
  - intros k' Nk. split; [|split]; cbn [m0s m1s m2s]; unfold aget; auto.
Qed.

Let m := ((nn + chunkSize - 1) / chunkSize)%nat.
Lemma m_spec : (nn <= m * 16 /\ (m * 16 < nn + 16))%nat.
Proof. unfold m, chunkSize. assert (H := Nat.div_mod (nn + 16 - 1) 16 ltac:(lia)). assert (H' := Nat.mod_upper_bound (nn + 16 - 1) 16 ltac:(lia)). lia. Qed.

Section Depth.
Variable depth : nat.
Hypothesis Hd : (1 <= depth)%nat.

Definition Inv (st : stk) (bs : nat -> nat) : Prop :=
  bs depth = 0%nat /\ (forall k, (k < depth)%nat -> (bs (k + 1) <= bs k)%nat /\ Lev st k (bs (k + 1)%nat) (bs k)).

Definition upd (bs : nat -> nat) j v := fun k => if (k =? j)%nat then v else bs k.

Lemma zero_level st k a b c : Lev st k a b ->
  exists st2 st3 st4, setm0 st k 0 = Some st2 /\ setv st2 (M1 k) vzero = Some st3 /\ setv st3 (M2 k) vzero = Some st4 /\
    Lev st4 k c c /\ (forall k', k' <> k -> same_at st st4 k').
Proof.
  intros (H0 & v1 & v2 & E1 & E2 & _). unfold setm0.
  destruct (aset_some (m0s st) k 0%nat (aget_lt _ _ _ H0)) as (l0 & A0 & _ & V0 & N0).
  destruct (aset_some (m1s st) k vzero (aget_lt _ _ _ E1)) as (l1 & A1 & _ & V1 & N1).
  destruct (aset_some (m2s st) k vzero (aget_lt _ _ _ E2)) as (l2 & A2 & _ & V2 & N2).
  rewrite A0. eexists _, _, _. split; [reflexivity|]. cbn [setv m1s]. rewrite A1. split; [reflexivity|]. cbn [setv m2s m0s m1s]. rewrite A2.
  split; [reflexivity|]. split.
  - split; cbn [m0s m1s m2s]; [rewrite Nat.sub_diag; exact V0|]. exists vzero, vzero. split; [exact V1|split; [exact V2|apply vstat_zero]].
  - intros k' Nk. split; [|split]; cbn [m0s m1s m2s]; unfold aget; auto.
Qed.

Lemma carry_ok fuel : forall j mask st bs, (1 <= j)%nat -> (j + fuel = depth)%nat -> Inv st bs -> bs (j - 1)%nat = bs 0%nat ->
  exists st' bs', carry fuel j mask st = Some st' /\ Inv st' bs' /\ bs' 0%nat = bs 0%nat /\
    (forall k, bs' k = bs k \/ (bs' k = bs 0%nat /\ (j <= k)%nat /\ Nat.even mask = true)) /\
    (forall k, (bs k <= bs' k)%nat) /\
    (Nat.even mask = true -> (1 <= fuel)%nat -> bs' j = bs 0%nat).
Proof.
  induction fuel as [|fuel IH]; intros j mask st bs Hj Hf I B0.
  - exists st, bs. cbn [carry]. split; [reflexivity|]. split; [exact I|]. split; [reflexivity|]. split; [auto|]. split; [auto|lia].
  - cbn [carry]. destruct (Nat.even mask) eqn:Em.
    2:{ exists st, bs. split; [reflexivity|]. split; [exact I|]. split; [reflexivity|]. split; [auto|]. split; [auto|discriminate]. }
    assert (Mono : forall k d, (k + d <= depth)%nat -> (bs (k + d)%nat <= bs k)%nat).
    { intros k d. induction d as [|d IHd]; intro H; [rewrite Nat.add_0_r; lia|].
      destruct I as [_ I]. destruct (I (k + d)%nat ltac:(lia)) as [Le _]. replace (k + S d)%nat with (k + d + 1)%nat by lia.
      specialize (IHd ltac:(lia)). lia. }
    destruct I as [Iz I].
    destruct (I j ltac:(lia)) as [Lj Hlev]. destruct (I (j - 1)%nat ltac:(lia)) as [Lj' Hlev'].
    replace (j - 1 + 1)%nat with j in * by lia.
    assert (Hl0 := Hlev'). destruct Hlev' as (H0 & v1 & v2 & E1 & E2 & V). rewrite H0, E1, E2.
    destruct (addMomentsVec_ok st j (bs (j + 1)%nat) (bs j) (bs (j - 1)%nat) v1 v2 Lj Lj' Hlev V) as (st1 & -> & Lv1 & S1).
    destruct (zero_level st1 (j - 1) (bs j) (bs (j - 1)%nat) (bs (j - 1)%nat)) as (st2 & st3 & st4 & -> & E3 & E4 & Lv4 & S4).
    { apply (lev_same st); [apply S1; lia|exact Hl0]. }
    rewrite E3, E4.
    set (bs1 := upd bs j (bs 0%nat)).
    assert (U : forall k, bs1 k = if (k =? j)%nat then bs 0%nat else bs k) by reflexivity.
    assert (I1 : Inv st4 bs1).
    { split; [rewrite U; destruct (Nat.eqb_spec depth j); [lia|exact Iz]|]. intros k Hk.
      destruct (I k Hk) as [Lk Levk]. rewrite !U. destruct (Nat.eqb_spec k j) as [->|N1].
      - destruct (Nat.eqb_spec (j + 1) j); [lia|]. split; [specialize (Mono 0%nat (j + 1)%nat ltac:(lia)); exact Mono|].
        apply (lev_same st1); [apply S4; lia|]. rewrite <- B0. exact Lv1.
      - destruct (Nat.eqb_spec (k + 1) j) as [E|N2].
        + replace k with (j - 1)%nat by lia. split; [lia|]. rewrite B0 in Lv4 |- *. exact Lv4.
        + split; [exact Lk|]. apply (lev_same st1); [apply S4; lia|]. apply (lev_same st); [apply S1; exact N1|exact Levk]. }
    destruct (IH (j + 1)%nat (Nat.div2 mask) st4 bs1 ltac:(lia) ltac:(lia) I1) as (st' & bs' & Ec & I' & Z' & Ch & Mn & _).
    { rewrite !U. replace (j + 1 - 1)%nat with j by lia. rewrite Nat.eqb_refl. destruct (Nat.eqb_spec 0 j); [lia|reflexivity]. }
    assert (U0 : bs1 0%nat = bs 0%nat) by (rewrite U; destruct (Nat.eqb_spec 0 j); [lia|reflexivity]).
    exists st', bs'. split; [exact Ec|]. split; [exact I'|]. split; [congruence|]. split; [|split].
    + intro k. destruct (Ch k) as [C|(C & Hk & _)].
      * rewrite U in C. destruct (Nat.eqb_spec k j) as [Ek|Nk]; [right; subst k; split; [exact C|split; [lia|reflexivity]]|left; exact C].
      * right. rewrite U0 in C. split; [exact C|]. split; [lia|reflexivity].
    + intro k. specialize (Mn k). rewrite U in Mn. destruct (Nat.eqb_spec k j) as [Ek|Nk]; [subst k|exact Mn].
      specialize (Mono 0%nat j ltac:(lia)). cbn [Nat.add] in Mono. lia.
    + intros _ _. destruct (Ch j) as [C|(C & Hk & _)]; [|lia]. rewrite C, U, Nat.eqb_refl. reflexivity.
Qed.

Lemma stkNew_inv : Inv (stkNew depth) (fun _ => 0%nat).
Proof.
  split; [reflexivity|]. intros k Hk. split; [lia|]. unfold stkNew.
  assert (R : forall (T : Type) (v : T), nth_error (repeat v depth) k = Some v).
  { intros T v. rewrite (nth_error_nth' _ v) by (rewrite repeat_length; exact Hk). rewrite nth_repeat. reflexivity. }
  split; cbn [m0s m1s m2s]; [apply R|]. exists vzero, vzero. split; [apply R|]. split; [apply R|]. apply vstat_zero.
Qed.


Lemma pushAll_ok : exists st bs, pushAll x nn m depth = Some st /\ Inv st bs /\ bs 0%nat = nn /\
  ((33 <= nn)%nat -> forall k, (1 <= k)%nat -> bs k = 0%nat \/ (32 <= bs k)%nat) /\
  ((33 <= nn)%nat -> (2 <= depth)%nat -> (32 <= bs 1%nat)%nat).
Proof.
  assert (Ms := m_spec).
  assert (G : forall i, (i <= m)%nat -> exists st bs,
    foldM (fun i st => let m0 := Nat.min chunkSize (nn - i * chunkSize) in
      match chunk x i m0 with
      | Some (m1vec, m2vec) => match addMomentsVec m0 m1vec m2vec 0 (M1 0) (M2 0) st with
          | Some st1 => carry (depth - 1) 1 (i + 1) st1 | None => None end
      | None => None end) (seq 0 i) (stkNew depth) = Some st /\
    Inv st bs /\ bs 0%nat = Nat.min (i * 16) nn /\
    ((33 <= nn)%nat -> forall k, (1 <= k)%nat -> bs k = 0%nat \/ (32 <= bs k)%nat) /\
    ((33 <= nn)%nat -> (2 <= depth)%nat -> (2 <= i)%nat -> (32 <= bs 1%nat)%nat)).
  { induction i as [|i IH]; intro Hi.
    - exists (stkNew depth), (fun _ => 0%nat). split; [reflexivity|]. split; [apply stkNew_inv|]. split; [reflexivity|]. split; [auto|lia].
    - destruct (IH ltac:(lia)) as (st & bs & E & I & B0 & Bz & B1). rewrite seq_S, foldM_app, E. cbn [foldM Nat.add].
      unfold chunkSize in *. set (m0 := Nat.min 16 (nn - i * 16)).
      destruct (chunk_ok i m0) as (v1 & v2 & -> & V); [unfold m0; lia|].
      destruct I as [Iz I]. destruct (I 0%nat ltac:(lia)) as [L0 Lev0]. cbn [Nat.add] in L0, Lev0.
      assert (Eb : bs 0%nat = (i * 16)%nat) by lia.
      destruct (addMomentsVec_ok st 0 (bs 1%nat) (bs 0%nat) (i * 16 + m0) v1 v2) as (st1 & Em & Lv & Sm);
        [exact L0|lia|exact Lev0|rewrite Eb; exact V|].
      replace (i * 16 + m0 - bs 0%nat)%nat with m0 in Em by lia. rewrite Em.
      set (bs1 := upd bs 0 (i * 16 + m0)).
      assert (U : forall k, bs1 k = if (k =? 0)%nat then (i * 16 + m0)%nat else bs k) by reflexivity.
      assert (I1 : Inv st1 bs1).
      { split; [rewrite U; destruct (Nat.eqb_spec depth 0); [lia|exact Iz]|]. intros k Hk. rewrite !U.
        destruct (Nat.eqb_spec (k + 1) 0); [lia|]. destruct (Nat.eqb_spec k 0) as [->|Nk].
        - split; [cbn [Nat.add]; lia|exact Lv].
        - destruct (I k Hk) as [Lk Levk]. split; [exact Lk|]. apply (lev_same st); [apply Sm; exact Nk|exact Levk]. }
      destruct (carry_ok (depth - 1) 1 (i + 1) st1 bs1 (le_n _) ltac:(lia) I1 eq_refl) as (st' & bs' & Ec & I' & Z' & Ch & Mn & Ev).
      assert (U0 : bs1 0%nat = Nat.min (S i * 16) nn) by (rewrite U; cbn [Nat.eqb]; unfold m0; lia).
      exists st', bs'. cbn zeta. rewrite Ec. split; [reflexivity|]. split; [exact I'|]. split; [congruence|]. split.
      + intros Hn k Hk. destruct (Ch k) as [C|(C & _ & Em')].
        * rewrite C, U. destruct (Nat.eqb_spec k 0); [lia|]. apply Bz; assumption.
        * right. rewrite C, U0. apply Nat.even_spec in Em'. destruct Em' as [q Eq]. lia.
      + intros Hn Hd2 Hi2. destruct (Nat.eq_dec i 1) as [->|Ni].
        * rewrite (Ev eq_refl ltac:(lia)), U0. lia.
        * specialize (B1 Hn Hd2 ltac:(lia)). specialize (Mn 1%nat). rewrite U in Mn. cbn [Nat.eqb] in Mn. lia. }
  destruct (G m (le_n _)) as (st & bs & E & I & B0 & Bz & B1). exists st, bs. split; [exact E|]. split; [exact I|].
  split; [lia|]. split; [exact Bz|]. intros Hn Hd2. apply B1; auto. lia.
Qed.

(** ** Merging the stacks: the error that the shared slice adds *)
Lemma mergeAll_ok st bs : Inv st bs ->
  exists st' v1 v2 v2' (E : nat -> R), mergeAll depth st = Some st' /\
    aget (m1s st') 0 = Some v1 /\ aget (m2s st') 0 = Some v2' /\ length v1 = vecSize /\
    aget (m2s st) 0 = Some v2 /\ v2' = v2 /\ length v2 = vecSize /\
    (forall l, (l < 8)%nat -> nth l v1 0 * INR (bs 0%nat) = SS l 0 (bs 0%nat) + E l) /\
    (forall l, (l < 8)%nat -> 0 <= E l) /\
    (forall l v, (l < 8)%nat -> (forall j, (j < bs 0%nat)%nat -> X l j = v) -> E l = 0) /\
    (forall l k p q, (l < 8)%nat -> (1 <= k < depth)%nat -> (bs (k + 1) <= p < bs k)%nat -> (bs (k + 1) <= q < bs k)%nat ->
       X l p <> X l q -> 0 < E l).
Proof.
  intros [Iz I].
  assert (Mono : forall k d, (k + d <= depth)%nat -> (bs (k + d)%nat <= bs k)%nat).
  { intros k d. induction d as [|d IHd]; intro H; [rewrite Nat.add_0_r; lia|].
    destruct (I (k + d)%nat ltac:(lia)) as [Le _]. replace (k + S d)%nat with (k + d + 1)%nat by lia.
    specialize (IHd ltac:(lia)). lia. }
  destruct (I 0%nat ltac:(lia)) as [_ Lev0]. destruct Lev0 as (H0 & w1 & w2 & E1 & E2 & Lw1 & Lw2 & Sw). cbn [Nat.add] in *.
  assert (G : forall i, (i <= depth - 1)%nat -> exists st' v1 (E : nat -> R),
    foldM (fun i0 st => let i := (i0 + 1)%nat in
      match aget (m0s st) i, aget (m1s st) i, aget (m2s st) i with
      | Some a0, Some a1, Some a2 => addMomentsVec a0 a1 a2 0 (M1 0) (M1 0) st
      | _, _, _ => None end) (seq 0 i) st = Some st' /\
    aget (m0s st') 0 = Some (bs 0%nat - bs (i + 1)%nat)%nat /\
    aget (m1s st') 0 = Some v1 /\ m2s st' = m2s st /\ length v1 = vecSize /\
    (forall k', k' <> 0%nat -> same_at st st' k') /\
    (forall l, (l < 8)%nat -> nth l v1 0 * INR (bs 0%nat - bs (i + 1)%nat) = SS l (bs (i + 1)%nat) (bs 0%nat) + E l) /\
    (forall l, (l < 8)%nat -> 0 <= E l) /\
    (forall l v, (l < 8)%nat -> (forall j, (j < bs 0%nat)%nat -> X l j = v) -> E l = 0) /\
    (forall l k p q, (l < 8)%nat -> (1 <= k <= i)%nat -> (bs (k + 1) <= p < bs k)%nat -> (bs (k + 1) <= q < bs k)%nat ->
       X l p <> X l q -> 0 < E l)).
  { induction i as [|i IH]; intro Hi.
    - exists st, w1, (fun _ => 0). split; [reflexivity|]. split; [exact H0|]. split; [exact E1|]. split; [reflexivity|]. split; [exact Lw1|].
      split; [intros; repeat split|]. split; [|split; [intros; lra|split; [reflexivity|intros; lia]]].
      intros l Hl. cbn [Nat.add]. destruct (Sw l Hl) as [A _]. rewrite A. ring.
    - destruct (IH ltac:(lia)) as (st1 & v1 & E & Ef & Z0 & Z1 & Z2 & Lv & Sm & Tot & Pos & Con & Str).
      replace (S i + 1)%nat with (i + 2)%nat in * by lia.
      rewrite seq_S, foldM_app, Ef. cbn [foldM Nat.add].
      destruct (I (i + 1)%nat ltac:(lia)) as [Le (K0 & k1 & k2 & K1 & K2 & Lk1 & Lk2 & Sk)].
      replace (i + 1 + 1)%nat with (i + 2)%nat in * by lia.
      destruct (Sm (i + 1)%nat ltac:(lia)) as (A0 & A1 & A2). cbn zeta. rewrite A0, A1, A2, K0, K1, K2.
      unfold addMomentsVec. rewrite Z0. cbn [getv]. rewrite Z1. cbn zeta.
      set (n0 := (bs 0%nat - bs (i + 1)%nat)%nat) in *. set (ni := (bs (i + 1)%nat - bs (i + 2)%nat)%nat) in *.
      set (c := weight n0 ni). set (delta := vsub k1 v1). set (u := vadd v1 (vscale delta c)).
      set (tmp := vadd (vscale (vscale (vmul delta delta) c) (INR n0)) k2).
      destruct (aset_some (m1s st1) 0 u (aget_lt _ _ _ Z1)) as (l1 & B1 & Bl1 & V1 & N1).
      cbn [setv]. rewrite B1. cbn [getv m1s]. unfold aget at 1. rewrite V1. cbn [setv m1s].
      destruct (aset_some l1 0 (vadd u tmp) ltac:(apply aget_lt in Z1; lia)) as (l2 & B2 & Bl2 & V2 & N2).
      rewrite B2. unfold setm0. cbn [m0s m1s m2s].
      destruct (aset_some (m0s st1) 0 (n0 + ni)%nat (aget_lt _ _ _ Z0)) as (l0 & B0 & Bl0 & V0 & N0). rewrite B0.
      assert (Ld : length delta = vecSize) by (apply vzip_length; assumption).
      assert (Lu : length u = vecSize) by (apply vzip_length; [assumption|apply vscale_length; assumption]).
      assert (Lt : length tmp = vecSize) by (unfold tmp; apply vzip_length; [|assumption]; do 2 apply vscale_length; apply vzip_length; assumption).
      assert (Hb1 : (bs (i + 1)%nat <= bs 0%nat)%nat) by (exact (Mono 0%nat (i + 1)%nat ltac:(lia))).
      assert (En : (n0 + ni)%nat = (bs 0%nat - bs (i + 2)%nat)%nat) by (unfold n0, ni; lia).
      set (extra := fun l => (nth l k1 0 - nth l v1 0) * (nth l k1 0 - nth l v1 0) * c * INR n0 + nth l k2 0).
      assert (Nl : forall l, (l < 8)%nat -> nth l (vadd u tmp) 0 = nth l v1 0 + (nth l k1 0 - nth l v1 0) * c + extra l).
      { intros l Hl. unfold vadd at 1. rewrite (nth_vzip _ _ _ vecSize) by assumption. unfold u, vadd at 1.
        rewrite (nth_vzip _ _ _ vecSize); [|assumption|apply vscale_length; assumption|exact Hl]. rewrite nth_vscale.
        unfold tmp, vadd. rewrite (nth_vzip _ _ _ vecSize); [|do 2 apply vscale_length; apply vzip_length; assumption|assumption|exact Hl].
        rewrite !nth_vscale. unfold vmul. rewrite (nth_vzip _ _ _ vecSize) by assumption.
        unfold delta, vsub. rewrite (nth_vzip _ _ _ vecSize) by assumption. reflexivity. }
      assert (Wm := weight_mul n0 ni). fold c in Wm. assert (Wp := weight_nonneg n0 ni). fold c in Wp.
      assert (Xp : forall l, (l < 8)%nat -> 0 <= nth l k2 0 <= extra l).
      { intros l Hl. split; [exact (stat_nonneg _ _ _ _ (Sk l Hl))|]. unfold extra.
        assert (0 <= (nth l k1 0 - nth l v1 0) * (nth l k1 0 - nth l v1 0) * c * INR n0); [|lra].
        apply Rmult_le_pos; [|apply pos_INR]. apply Rmult_le_pos; [|exact Wp]. exact (Rle_0_sqr (nth l k1 0 - nth l v1 0)). }
      eexists _, (vadd u tmp), (fun l => E l + INR (n0 + ni) * extra l). split; [reflexivity|]. cbn [m0s m1s m2s].
      split; [unfold aget; rewrite V0, En; reflexivity|]. split; [exact V2|]. split; [exact Z2|].
      split; [apply vzip_length; assumption|]. split; [|split; [|split; [|split]]].
      + intros k' Nk. destruct (Sm k' Nk) as (C0 & C1 & C2). split; [|split]; cbn [m0s m1s m2s]; unfold aget in *.
        * rewrite N0 by exact Nk. exact C0.
        * rewrite N2, N1 by exact Nk. exact C1.
        * exact C2.
      + intros l Hl. rewrite <- En, (Nl l Hl). rewrite (SS_app l (bs (i + 2)%nat) (bs (i + 1)%nat) (bs 0%nat)) by assumption.
        destruct (Sk l Hl) as [Ka _]. fold ni in Ka. specialize (Tot l Hl). rewrite <- Ka.
        assert (Ei : INR (n0 + ni) = INR n0 + INR ni) by apply plus_INR.
        transitivity (nth l v1 0 * INR (n0 + ni) + (nth l k1 0 - nth l v1 0) * (c * INR (n0 + ni)) + INR (n0 + ni) * extra l); [ring|].
        rewrite Wm, Ei. replace (SS l (bs (i + 1)%nat) (bs 0%nat)) with (nth l v1 0 * INR n0 - E l) by lra. ring.
      + intros l Hl. specialize (Pos l Hl). specialize (Xp l Hl). assert (0 <= INR (n0 + ni) * extra l); [|lra].
        apply Rmult_le_pos; [apply pos_INR|lra].
      + intros l v Hl Cv. rewrite (Con l v Hl Cv), Rplus_0_l.
        assert (Ks := Sk l Hl). assert (Tl := Tot l Hl). rewrite (Con l v Hl Cv), Rplus_0_r in Tl.
        assert (Fi : forall f a b, (b <= bs 0%nat)%nat -> sum (b - a) (fun i0 => f (X l (a + i0))) = sum (b - a) (fun _ => f v : R)).
        { intros f a b Hb. apply sum_ext. intros i0 Hi0. rewrite Cv by lia. reflexivity. }
        unfold SS in Ks, Tl. unfold QQ in Ks. rewrite (Fi (fun z => z)) in Ks, Tl by lia. rewrite (Fi (fun z => z * z)) in Ks by lia.
        destruct (stat_const _ _ _ _ Ks) as [Kz Ke].
        assert (Te : (0 < n0)%nat -> nth l v1 0 = v).
        { intro Pn. refine (proj2 (stat_const n0 (nth l v1 0) (sum n0 (fun _ => v * v) - INR n0 * nth l v1 0 * nth l v1 0) v _) Pn). split; [exact Tl|reflexivity]. }
        unfold extra. rewrite Kz. destruct (Nat.eq_dec n0 0) as [->|N0']; [cbn; ring|].
        destruct (Nat.eq_dec ni 0) as [Ez|Nz].
        * assert (c = 0). { unfold c, weight. rewrite Ez. destruct (n0 + 0 =? 0)%nat; [reflexivity|]. cbn. unfold Rdiv. ring. } rewrite H. ring.
        * fold ni in Ke. rewrite (Ke ltac:(lia)), (Te ltac:(lia)). ring.
      + intros l k p q Hl Hk Hp Hq Nx. assert (Pl := Pos l Hl). assert (Xl := Xp l Hl).
        assert (Nn : 0 <= INR (n0 + ni) * extra l) by (apply Rmult_le_pos; [apply pos_INR|lra]).
        destruct (Nat.eq_dec k (S i)) as [->|Nk].
        * replace (S i + 1)%nat with (i + 2)%nat in * by lia. replace (S i) with (i + 1)%nat in * by lia.
          assert (Kp : 0 < nth l k2 0).
          { apply (stat_pos _ _ _ _ (p - bs (i + 2)%nat) (q - bs (i + 2)%nat) (Sk l Hl)); [lia|lia|].
            replace (bs (i + 2) + (p - bs (i + 2)))%nat with p by lia. replace (bs (i + 2) + (q - bs (i + 2)))%nat with q by lia. exact Nx. }
          assert (0 < INR (n0 + ni)) by (apply lt_0_INR; unfold ni; lia).
          assert (0 < INR (n0 + ni) * extra l) by (apply Rmult_lt_0_compat; lra). lra.
        * assert (0 < E l) by (apply (Str l k p q); auto; lia). lra. }
  destruct (G (depth - 1)%nat (le_n _)) as (st' & v1 & E & Ef & _ & Z1 & Z2 & Lv & _ & Tot & Pos & Con & Str).
  replace (depth - 1 + 1)%nat with depth in Tot by lia. rewrite Iz, Nat.sub_0_r in Tot.
  exists st', v1, w2, w2, E. split; [exact Ef|]. split; [exact Z1|]. split; [rewrite Z2; exact E2|]. split; [exact Lv|].
  split; [exact E2|]. split; [reflexivity|]. split; [exact Lw2|]. split; [exact Tot|]. split; [exact Pos|]. split; [exact Con|].
  intros l k p q Hl Hk. apply Str; [exact Hl|lia].
Qed.
End Depth.

(** ** The tail and the lanes *)
Definition Stail := sum (n - nn * 8) (fun i => nth (nn * 8 + i) x 0).
Definition Qtail := sum (n - nn * 8) (fun i => nth (nn * 8 + i) x 0 * nth (nn * 8 + i) x 0).
Lemma tail_ok : exists m1 m2, tail x nn n = Some ((n - nn * 8)%nat, m1, m2) /\ Stat m1 m2 (n - nn * 8) Stail Qtail.
Proof.
  assert (Nl := nn_le). unfold tail, loop, Stail, Qtail, vecSize.
  assert (G : forall k, (k <= n - nn * 8)%nat -> exists m1 m2,
    foldM (fun i0 (s : nat * R * R) => match aget x (nn * 8 + i0) with
      | Some v => let '(m0, m1, m2) := s in let delta := v - m1 in let m1' := m1 + delta / INR (m0 + 1) in
                  Some ((m0 + 1)%nat, m1', m2 + delta * (v - m1')) | None => None end) (seq 0 k) (0%nat, 0, 0) = Some (k, m1, m2) /\
    Stat m1 m2 k (sum k (fun i => nth (nn * 8 + i) x 0)) (sum k (fun i => nth (nn * 8 + i) x 0 * nth (nn * 8 + i) x 0))).
  { induction k as [|k IH]; intro Hk; [exists 0, 0; split; [reflexivity|apply stat_empty]|].
    destruct (IH ltac:(lia)) as (m1 & m2 & E & St). rewrite seq_S, foldM_app, E. cbn [foldM Nat.add].
    unfold aget. rewrite (nth_error_nth' x 0) by lia. set (v := nth (nn * 8 + k) x 0).
    eexists _, _. split; [replace (k + 1)%nat with (S k) by lia; reflexivity|].
    assert (W := stat_welford _ _ _ _ _ v St). cbn zeta in W. replace (k + 1)%nat with (S k) in W by lia.
    cbn [sum radd CRing_R]. fold v. unfold Rdiv in *. rewrite Rmult_1_l in W. rewrite (Rmult_comm (v - m1) (v - _)). exact W. }
  destruct (G _ (le_n _)) as (m1 & m2 & E & St). exists m1, m2. split; assumption.
Qed.

Lemma lanes_ok l1 l2 t1 t2 (S' Q' : nat -> R) : length l1 = 8%nat -> length l2 = 8%nat ->
  t1 * INR (n - nn * 8) = Stail ->
  (forall l, (l < 8)%nat -> nth l l1 0 * INR nn = S' l) ->
  exists m1 m2, loop vecSize (fun i s => match aget l1 i, aget l2 i with
        | Some a1, Some a2 => Some (addMoments nn a1 a2 s) | _, _ => None end) ((n - nn * 8)%nat, t1, t2) = Some (n, m1, m2) /\
    m1 * INR n = Stail + sum 8 S' /\
    ((forall l, (l < 8)%nat -> nth l l2 0 = Q' l - INR nn * nth l l1 0 * nth l l1 0) -> t2 = Qtail - INR (n - nn * 8) * t1 * t1 ->
     m2 = (Qtail + sum 8 Q') - INR n * m1 * m1).
Proof.
  intros L1 L2 T1 A1. assert (Nl := nn_le). unfold loop.
  assert (G : forall k, (k <= 8)%nat -> exists m1 m2,
    foldM (fun i s => match aget l1 i, aget l2 i with
        | Some a1, Some a2 => Some (addMoments nn a1 a2 s) | _, _ => None end) (seq 0 k) ((n - nn * 8)%nat, t1, t2) = Some ((n - nn * 8 + k * nn)%nat, m1, m2) /\
    m1 * INR (n - nn * 8 + k * nn) = Stail + sum k S' /\
    ((forall l, (l < 8)%nat -> nth l l2 0 = Q' l - INR nn * nth l l1 0 * nth l l1 0) -> t2 = Qtail - INR (n - nn * 8) * t1 * t1 ->
     m2 = (Qtail + sum k Q') - INR (n - nn * 8 + k * nn) * m1 * m1)).
  { induction k as [|k IH]; intro Hk.
    - exists t1, t2. cbn [seq foldM Nat.mul sum r0 CRing_R]. rewrite Nat.add_0_r, !Rplus_0_r. auto.
    - destruct (IH ltac:(lia)) as (m1 & m2 & E & Sm & Qm). rewrite seq_S, foldM_app, E. cbn [foldM Nat.add].
      unfold aget. rewrite (nth_error_nth' l1 0), (nth_error_nth' l2 0) by lia. unfold addMoments.
      set (N := (n - nn * 8 + k * nn)%nat) in *. eexists _, _. split; [replace (n - nn * 8 + S k * nn)%nat with (N + nn)%nat by (unfold N; lia); reflexivity|].
      replace (n - nn * 8 + S k * nn)%nat with (N + nn)%nat by (unfold N; lia).
      assert (Ak := A1 k ltac:(lia)).
      set (m2' := Qtail + sum k Q' - INR N * m1 * m1). set (a2' := Q' k - INR nn * nth k l1 0 * nth k l1 0).
      assert (W := stat_merge N nn m1 m2' (nth k l1 0) a2' (Stail + sum k S') (Qtail + sum k Q') (S' k) (Q' k)
                    (conj Sm eq_refl) (conj Ak eq_refl)). cbn zeta in W. destruct W as [W1 W2].
      cbn [sum radd CRing_R]. rewrite <- (Rplus_assoc Stail), <- (Rplus_assoc Qtail). split.
      + rewrite (Rmult_comm (weight N nn)). exact W1.
      + intros HQ HT. rewrite (Qm HQ HT). fold m2'. rewrite (HQ k ltac:(lia)). fold a2'.
        rewrite (Rmult_comm (weight N nn)). rewrite (Rplus_comm a2'). exact W2. }
  destruct (G 8%nat (le_n _)) as (m1 & m2 & E & Sm & Qm). replace (n - nn * 8 + 8 * nn)%nat with n in * by lia.
  exists m1, m2. split; [exact E|]. split; assumption.
Qed.

(** the whole row *)
Lemma sum_lanes (f : R -> R) : sum 8 (fun l => sum nn (fun j => f (X l j))) + sum (n - nn * 8) (fun i => f (nth (nn * 8 + i) x 0))
  = sum n (fun i => f (nth i x 0)).
Proof.
  assert (Nl := nn_le). replace n with (nn * 8 + (n - nn * 8))%nat at 2 by lia. rewrite (sum_split (A := R)).
  cbn [radd CRing_R]. f_equal. rewrite (sum_prod (A := R)), (sum_swap (A := R)). reflexivity.
Qed.
Lemma add_up_map (f : R -> R) : add_up (map f x) = sum n (fun i => f (nth i x 0)).
Proof.
  rewrite <- Ln. clear. induction x as [|a l IH]; [reflexivity|]. cbn [map length]. unfold add_up in *. cbn [fold_right]. rewrite IH.
  change (S (length l)) with (1 + length l)%nat. rewrite (sum_split (A := R)). cbn [sum nth radd r0 CRing_R Nat.add]. ring.
Qed.
Lemma mean_sum : (0 < n)%nat -> mean x * INR n = sum n (fun i => nth i x 0).
Proof.
  intro P. unfold mean. rewrite Ln. assert (Z := add_up_map (fun v => v)). rewrite map_id in Z. rewrite Z. field. apply not_0_INR. lia.
Qed.
Lemma variance_sum : (0 < n)%nat -> variance x = (sum n (fun i => nth i x 0 * nth i x 0) - INR n * mean x * mean x) / INR n.
Proof.
  intro P. unfold variance, mean at 1. rewrite map_length, Ln, (add_up_map (fun v => (v - mean x) ^ 2)). f_equal.
  symmetry. rewrite (stat_sq n (mean x) _ (fun i => nth i x 0)); [|split; [apply mean_sum; exact P|reflexivity]].
  apply sum_ext. intros. ring.
Qed.

Lemma SS_full l : SS l 0 nn = sum nn (fun j => X l j).
Proof. unfold SS. rewrite Nat.sub_0_r. reflexivity. Qed.
Lemma QQ_full l : QQ l 0 nn = sum nn (fun j => X l j * X l j).
Proof. unfold QQ. rewrite Nat.sub_0_r. reflexivity. Qed.

Lemma ceilLog2_pos k : (1 <= ceilLog2 k)%nat.
Proof.
  unfold ceilLog2. destruct (Nat.leb_spec k 2); [lia|]. assert (H' := Nat.log2_up_pos k ltac:(lia)). lia.
Qed.

Lemma row_general : exists (m1 m2 : R) (E : nat -> R),
  rowwiseMoments x n = Some (m1, m2 / INR n) /\
  m1 * INR n = sum n (fun i => nth i x 0) + sum 8 E /\
  (forall l, (l < 8)%nat -> 0 <= E l) /\
  (forall l v, (l < 8)%nat -> (forall j, (j < nn)%nat -> X l j = v) -> E l = 0) /\
  ((33 <= nn)%nat -> forall l p q, (l < 8)%nat -> (p < 32)%nat -> (q < 32)%nat -> X l p <> X l q -> 0 < E l) /\
  (ceilLog2 m = 1%nat -> sum 8 E = 0 /\ m2 = sum n (fun i => nth i x 0 * nth i x 0) - INR n * m1 * m1) /\
  ((forall i, (i < n)%nat -> nth i x 0 = nth 0 x 0) -> m2 = 0).
Proof.
  assert (Hd := ceilLog2_pos m). assert (Ms := m_spec). fold m in Ms.
  destruct (pushAll_ok (ceilLog2 m) Hd) as (st & bs & Ep & I & B0 & Bz & B1). fold m in Ep.
  destruct (mergeAll_ok (ceilLog2 m) Hd st bs I) as (st' & v1 & v2 & v2' & E & Em & Z1 & Z2 & L1 & Y2 & -> & L2 & Tot & Pos & Con & Str).
  rewrite B0 in Tot. destruct tail_ok as (t1 & t2 & Et & Ts & Tq).
  destruct (lanes_ok v1 v2 t1 t2 (fun l => SS l 0 nn + E l) (fun l => QQ l 0 nn) L1 L2 Ts Tot) as (m1 & m2 & El & Sm & Qm).
  exists m1, m2, E. split.
  { unfold rowwiseMoments. fold nn. fold m. rewrite Ep, Em, Et, Z1, Z2. unfold vecSize in *. rewrite El. reflexivity. }
  assert (E8 : sum 8 (fun l => SS l 0 nn + E l) = sum 8 (fun l => sum nn (fun j => X l j)) + sum 8 E).
  { assert (Ea := sum_add (A := R) 8 (fun l => sum nn (fun j => X l j)) E). cbn [radd CRing_R] in Ea. rewrite <- Ea. apply sum_ext. intros l _. rewrite SS_full. reflexivity. }
  assert (Q8 : Qtail + sum 8 (fun l => QQ l 0 nn) = sum n (fun i => nth i x 0 * nth i x 0)).
  { rewrite <- (sum_lanes (fun v => v * v)). rewrite Rplus_comm. unfold Qtail. f_equal. apply sum_ext. intros l _. apply QQ_full. }
  split. { rewrite Sm, E8. rewrite <- (sum_lanes (fun v => v)). unfold Stail. ring. }
  split; [exact Pos|]. split; [rewrite B0 in Con; exact Con|]. split; [|split].
  - intros Hn l p q Hl Hp Hq Nx. specialize (Bz Hn).
    assert (D2 : (2 <= ceilLog2 m)%nat).
    { unfold ceilLog2. destruct (Nat.leb_spec m 2); [lia|].
      assert (Z := Nat.log2_up_le_mono 3 m ltac:(lia)). change (Nat.log2_up 3) with 2%nat in Z. exact Z. }
    specialize (B1 Hn D2). destruct I as [Iz _].
    assert (K : exists k, (1 <= k < ceilLog2 m)%nat /\ (32 <= bs k)%nat /\ bs (k + 1)%nat = 0%nat).
    { assert (Gk : forall d k, (k + d = ceilLog2 m)%nat -> (1 <= k)%nat -> (32 <= bs k)%nat -> exists k', (1 <= k' < ceilLog2 m)%nat /\ (32 <= bs k')%nat /\ bs (k' + 1)%nat = 0%nat).
      { induction d as [|d IHd]; intros k Hk Hk1 Hb; [rewrite Nat.add_0_r in Hk; rewrite Hk, Iz in Hb; lia|].
        destruct (Bz (k + 1)%nat ltac:(lia)) as [Zk|Zk]; [exists k; repeat split; auto; lia|]. apply (IHd (k + 1)%nat); lia. }
      apply (Gk (ceilLog2 m - 1)%nat 1%nat); auto; lia. }
    destruct K as (k & Hk & Hb & Hz). apply (Str l k p q Hl Hk); try lia. exact Nx.
  - intro D1. assert (Ez : sum 8 E = 0 /\ (forall l, (l < 8)%nat -> nth l v2 0 = QQ l 0 nn - INR nn * nth l v1 0 * nth l v1 0)).
    { rewrite D1 in Em, I. unfold mergeAll in Em. cbn in Em. injection Em as <-.
      destruct I as [Iz I]. destruct (I 0%nat ltac:(lia)) as [_ (H0 & w1 & w2 & W1 & W2 & Lw1 & Lw2 & Sw)]. cbn [Nat.add] in *.
      rewrite Iz, B0 in Sw. rewrite Z1 in W1. injection W1 as <-. rewrite Z2 in W2. injection W2 as <-.
      rewrite Nat.sub_0_r in Sw. split.
      - apply (@sum_zero_ext R CRing_R 8 E). intros l Hl. destruct (Sw l Hl) as [Sa _]. specialize (Tot l Hl). rewrite Sa in Tot. cbn [r0 CRing_R]. lra.
      - intros l Hl. apply (Sw l Hl). }
    destruct Ez as [Ez Eq]. split; [exact Ez|]. rewrite (Qm Eq Tq), Q8. reflexivity.
  - intro Cn. assert (Nl := nn_le). set (v := nth 0 x 0).
    assert (Cx : forall l j, (l < 8)%nat -> (j < nn)%nat -> X l j = v) by (intros l j Hl Hj; apply Cn; lia).
    destruct I as [Iz I]. destruct (I 0%nat ltac:(lia)) as [Lb (H0 & w1 & w2 & W1 & W2 & Lw1 & Lw2 & Sw)]. cbn [Nat.add] in *.
    rewrite Y2 in W2. injection W2 as <-.
    destruct (Nat.eq_dec n 0) as [Z|NZ].
    + assert (nn = 0)%nat by lia.
      assert (Eq : forall l, (l < 8)%nat -> nth l v2 0 = QQ l 0 nn - INR nn * nth l v1 0 * nth l v1 0).
      { intros l Hl. destruct (Sw l Hl) as [_ Sq]. rewrite Sq. rewrite B0. replace nn with 0%nat by lia. cbn. ring. }
      rewrite (Qm Eq Tq), Q8. rewrite Z. cbn. ring.
    + assert (Eq : forall l, (l < 8)%nat -> nth l v2 0 = QQ l 0 nn - INR nn * nth l v1 0 * nth l v1 0).
      { intros l Hl. assert (Sl := Sw l Hl). specialize (Tot l Hl). rewrite B0 in *.
        rewrite (Con l v Hl (fun j Hj => Cx l j Hl Hj)) in Tot. rewrite Rplus_0_r in Tot.
        assert (F : forall (f : R -> R) a b, (b <= nn)%nat -> sum (b - a) (fun i0 => f (X l (a + i0))) = sum (b - a) (fun _ => f v)).
        { intros f a b Hb. apply sum_ext. intros i0 Hi0. rewrite Cx by lia. reflexivity. }
        unfold SS, QQ in Sl. rewrite (F (fun z => z)), (F (fun z => z * z)) in Sl by lia. destruct (stat_const _ _ _ _ Sl) as [-> _].
        assert (St : Stat (nth l v1 0) (QQ l 0 nn - INR nn * nth l v1 0 * nth l v1 0) (nn - 0) (sum (nn - 0) (fun _ => v)) (sum (nn - 0) (fun _ => v * v))).
        { unfold SS in Tot. rewrite (F (fun z => z)) in Tot by lia. unfold QQ. rewrite (F (fun z => z * z)) by lia. rewrite !Nat.sub_0_r in *. split; [exact Tot|reflexivity]. }
        destruct (stat_const _ _ _ _ St) as [-> _]. reflexivity. }
      rewrite (Qm Eq Tq), Q8.
      assert (En : m1 * INR n = sum n (fun i => nth i x 0)).
      { rewrite Sm, E8. replace (sum 8 E) with 0; [rewrite <- (sum_lanes (fun v => v)); unfold Stail; ring|].
        symmetry. apply (@sum_zero_ext R CRing_R 8 E). intros l Hl. apply (Con l v Hl). rewrite B0. intros j Hj. apply Cx; assumption. }
      assert (St : Stat m1 (sum n (fun i => nth i x 0 * nth i x 0) - INR n * m1 * m1) n (sum n (fun _ => v)) (sum n (fun _ => v * v))).
      { assert (F : forall (f : R -> R), sum n (fun i => f (nth i x 0)) = sum n (fun _ => f v)) by (intro f; apply sum_ext; intros i Hi; rewrite Cn by exact Hi; reflexivity).
        rewrite (F (fun z => z)) in En. rewrite (F (fun z => z * z)). split; [exact En|reflexivity]. }
      destruct (stat_const _ _ _ _ St) as [-> _]. reflexivity.
Qed.

Lemma row_small : (0 < n)%nat -> (n < 264)%nat -> rowwiseMoments x n = Some (mean x, variance x).
Proof.
  intros P H. destruct row_general as (m1 & m2 & E & Er & Sm & _ & _ & _ & D1 & _).
  assert (Nb : (nn <= 32)%nat) by (assert (Nl := nn_le); lia). assert (Ms := m_spec). fold m in Ms.
  destruct D1 as [Ez Em2]. { unfold ceilLog2. destruct (Nat.leb_spec m 2); [reflexivity|lia]. }
  assert (m1 = mean x).
  { apply (Rmult_eq_reg_r (INR n)); [|apply not_0_INR; lia]. rewrite mean_sum by exact P. rewrite Sm, Ez. ring. }
  rewrite Er, Em2, variance_sum by exact P. subst m1. reflexivity.
Qed.
Lemma row_large : (264 <= n)%nat -> exists mu va, rowwiseMoments x n = Some (mu, va) /\ mean x <= mu /\
  ((exists l p q, (l < 8)%nat /\ (p < 32)%nat /\ (q < 32)%nat /\ X l p <> X l q) -> mean x < mu).
Proof.
  intro H. destruct row_general as (m1 & m2 & E & Er & Sm & Pos & _ & Str & _).
  assert (Nb : (33 <= nn)%nat) by (unfold nn, vecSize; apply Nat.div_le_lower_bound; lia).
  exists m1, (m2 / INR n). split; [exact Er|]. assert (P : 0 < INR n) by (apply lt_0_INR; lia). assert (Mx := mean_sum ltac:(lia)).
  assert (P8 : forall k, (k <= 8)%nat -> 0 <= sum k E).
  { induction k as [|k IH]; intro Hk; [cbn; lra|]. cbn [sum radd CRing_R]. specialize (IH ltac:(lia)). specialize (Pos k ltac:(lia)). lra. }
  split.
  - apply (Rmult_le_reg_r (INR n)); [exact P|]. rewrite Mx, Sm. specialize (P8 8%nat (le_n _)). lra.
  - intros (l & p & q & Hl & Hp & Hq & Nx). specialize (Str Nb l p q Hl Hp Hq Nx).
    apply (Rmult_lt_reg_r (INR n)); [exact P|]. rewrite Mx, Sm.
    assert (G : forall k, (k <= 8)%nat -> (l < k)%nat -> 0 < sum k E).
    { induction k as [|k IH]; intros Hk Hlk; [lia|]. cbn [sum radd CRing_R].
      destruct (Nat.eq_dec l k) as [<-|N]; [specialize (P8 l ltac:(lia)); lra|].
      specialize (IH ltac:(lia) ltac:(lia)). specialize (Pos k ltac:(lia)). lra. }
    specialize (G 8%nat (le_n _) Hl). lra.
Qed.
Lemma row_const v : (0 < n)%nat -> (forall i, (i < n)%nat -> nth i x 0 = v) -> rowwiseMoments x n = Some (v, 0).
Proof.
  intros P Cn. destruct row_general as (m1 & m2 & E & Er & Sm & _ & Con & _ & _ & Cz).
  assert (E0 : sum 8 E = 0).
  { apply (@sum_zero_ext R CRing_R 8 E). intros l Hl. apply (Con l v Hl). intros j Hj. assert (Nl := nn_le). apply Cn. lia. }
  assert (m2 = 0) by (apply Cz; intros i Hi; rewrite !Cn by lia; reflexivity).
  assert (m1 = v).
  { apply (Rmult_eq_reg_r (INR n)); [|apply not_0_INR; lia]. rewrite Sm, E0, (sum_ext n _ (fun _ => v)) by (intros; apply Cn; assumption).
    assert (Ec : forall k w, sum k (fun _ : nat => w) = INR k * w). { intros k w. induction k as [|k IH]; [cbn; ring|]. cbn [sum radd CRing_R]. rewrite IH, S_INR. ring. }
    rewrite Ec. ring. }
  rewrite Er. subst. f_equal. f_equal. unfold Rdiv. ring.
Qed.
End Row.
