(** The backward recursion of CTC: what the gradient operator stores. *)
From Coq Require Import Arith Lia Reals Lra List Bool.
From Verif Require Import LoopModel LoopProofs CtcModel CtcSpec CtcPaths CtcProofs.
Import ListNotations.
Local Open Scope R_scope.

Lemma total_seq_shift1 (g : nat -> R) n k j : 
  total (fun i => if (i =? k + j)%nat then g i else 0) (seq 0 n) = if (k + j <? n)%nat then g (k + j)%nat else 0.
Proof.
  destruct (Nat.ltb_spec (k + j) n) as [H|H].
  - apply (total_seq_single g n (k + j) H).
  - apply total_zero. intros x Hx. apply in_seq in Hx. destruct (Nat.eqb_spec x (k + j)); [lia|reflexivity].
Qed.

Lemma cell_index u L' c u' c' : (c < L')%nat -> (c' < L')%nat -> (u * L' + c = u' * L' + c')%nat -> u = u' /\ c = c'.
Proof.
  intros H H' E. assert (u = u').
  { destruct (Nat.lt_trichotomy u u') as [G|[G|G]]; [nia|exact G|nia]. }
  subst u'. split; [reflexivity|lia].
Qed.

(** ** Tables of probabilities *)
Section Back.
Variables (y : list nat) (L len : nat).
Hypothesis Hy : proper L y.
Hypothesis HL : (0 < L)%nat.
Hypothesis Hlen : (0 < len)%nat.
Let n := length y.
Let W := (2 * n + 1)%nat.

Fixpoint gamR (p : nat -> nat -> R) (k s : nat) : R :=
  match k with
  | O => if (s =? 2 * n)%nat then 1 else if (0 <? n)%nat && (s =? 2 * n - 1)%nat then 1 else 0
  | S k' =>
      let b s := gamR p k' s * p (len - 1 - k')%nat (pr y s) in
      b s + (if (s <? 2 * n)%nat then b (s + 1)%nat else 0) +
      (if (s + 1 <? 2 * n)%nat then if (pr y (s + 2) =? pr y s)%nat then 0 else b (s + 2)%nat else 0)
  end.
Definition betR (p : nat -> nat -> R) (k s : nat) : R := gamR p k s * p (len - 1 - k)%nat (pr y s).

(** Step from state [a] to state [s]. *)
Definition tr (a s : nat) : R :=
  (if (s =? a)%nat then 1 else 0) + (if (s =? a + 1)%nat then 1 else 0) +
  (if (s =? a + 2)%nat then if (pr y a =? pr y s)%nat then 0 else 1 else 0).

Lemma tr_forward f s : (s < W)%nat ->
  total (fun a => tr a s * f a) (seq 0 W) =
  f s + (if (0 <? s)%nat then f (s - 1)%nat else 0) +
  (if (1 <? s)%nat then if (pr y (s - 2) =? pr y s)%nat then 0 else f (s - 2)%nat else 0).
Proof.
  intro Hs.
  transitivity (total (fun a => (if (a =? s)%nat then f a else 0) +
     (if (0 <? s)%nat then (if (a =? s - 1)%nat then f a else 0) else 0) +
     (if (1 <? s)%nat then (if (a =? s - 2)%nat then if (pr y a =? pr y s)%nat then 0 else f a else 0) else 0)) (seq 0 W)).
  - apply total_ext. intros a _. unfold tr. rewrite !Rmult_plus_distr_r. f_equal; [f_equal|].
    + destruct (Nat.eqb_spec s a), (Nat.eqb_spec a s); try lia; lra.
    + destruct (Nat.ltb_spec 0 s), (Nat.eqb_spec s (a + 1)), (Nat.eqb_spec a (s - 1)); try lia; lra.
    + destruct (Nat.ltb_spec 1 s), (Nat.eqb_spec s (a + 2)), (Nat.eqb_spec a (s - 2)); try lia; try lra.
      destruct (pr y a =? pr y s)%nat; lra.
  - rewrite !total_add. f_equal; [f_equal|].
    + apply total_seq_single, Hs.
    + destruct (Nat.ltb_spec 0 s); [apply total_seq_single; lia|apply total_zero; reflexivity].
    + destruct (Nat.ltb_spec 1 s); [|apply total_zero; reflexivity].
      apply (total_seq_single (fun a => if (pr y a =? pr y s)%nat then 0 else f a)). lia.
Qed.

Lemma tr_backward g a : (a < W)%nat ->
  total (fun s => tr a s * g s) (seq 0 W) =
  g a + (if (a <? 2 * n)%nat then g (a + 1)%nat else 0) +
  (if (a + 1 <? 2 * n)%nat then if (pr y (a + 2) =? pr y a)%nat then 0 else g (a + 2)%nat else 0).
Proof.
  intro Ha.
  transitivity (total (fun s => (if (s =? a)%nat then g s else 0) + (if (s =? a + 1)%nat then g s else 0) +
     (if (s =? a + 2)%nat then if (pr y s =? pr y a)%nat then 0 else g s else 0)) (seq 0 W)).
  - apply total_ext. intros s _. unfold tr. rewrite !Rmult_plus_distr_r. f_equal; [f_equal|].
    + destruct (s =? a)%nat; lra.
    + destruct (s =? a + 1)%nat; lra.
    + destruct (s =? a + 2)%nat; [|lra]. rewrite (Nat.eqb_sym (pr y s)). destruct (pr y a =? pr y s)%nat; lra.
  - rewrite !total_add. f_equal; [f_equal|].
    + apply total_seq_single, Ha.
    + rewrite total_seq_shift1. destruct (Nat.ltb_spec (a + 1) W), (Nat.ltb_spec a (2 * n)); unfold W in *; try lia; reflexivity.
    + rewrite (total_seq_shift1 (fun s => if (pr y s =? pr y a)%nat then 0 else g s)).
      destruct (Nat.ltb_spec (a + 2) W), (Nat.ltb_spec (a + 1) (2 * n)); unfold W in *; try lia; reflexivity.
Qed.

Lemma conserve p k : (k < len)%nat ->
  total (fun s => alphaR y p (len - 1 - k) s * gamR p k s) (seq 0 W) = likelihood p L len y.
Proof.
  induction k as [|k IH]; intro Hk.
  - rewrite (likelihood_alpha y L Hy HL p len Hlen). fold n. rewrite Nat.sub_0_r. cbn [gamR].
    transitivity (total (fun s => (if (s =? 2 * n)%nat then alphaR y p (len - 1) s else 0) +
       (if (0 <? n)%nat then if (s =? 2 * n - 1)%nat then alphaR y p (len - 1) s else 0 else 0)) (seq 0 W)).
    + apply total_ext. intros s _. destruct (Nat.eqb_spec s (2 * n)) as [->|D].
      * destruct (Nat.ltb_spec 0 n); [|lra]. destruct (Nat.eqb_spec (2 * n) (2 * n - 1)); [lia|lra].
      * destruct (0 <? n)%nat; cbn [andb]; [|lra]. destruct (s =? 2 * n - 1)%nat; lra.
    + rewrite total_add. f_equal.
      * apply total_seq_single. unfold W. lia.
      * destruct (Nat.ltb_spec 0 n); [apply total_seq_single; unfold W; lia|apply total_zero; reflexivity].
  - rewrite <- IH by lia. set (u := (len - 1 - S k)%nat).
    replace (len - 1 - k)%nat with (S u) by (unfold u; lia).
    transitivity (total (fun a => total (fun s => alphaR y p u a * (tr a s * (gamR p k s * p (S u) (pr y s)))) (seq 0 W)) (seq 0 W)).
    + apply total_ext. intros a Ha. apply in_seq in Ha. rewrite total_mul_l. f_equal.
      rewrite (tr_backward (fun s => gamR p k s * p (S u) (pr y s)) a) by lia.
      cbn [gamR]. replace (len - 1 - k)%nat with (S u) by (unfold u; lia). reflexivity.
    + rewrite total_swap. apply total_ext. intros s Hs. apply in_seq in Hs.
      transitivity (total (fun a => tr a s * alphaR y p u a) (seq 0 W) * (gamR p k s * p (S u) (pr y s))).
      * rewrite <- total_mul_r. apply total_ext. intros a _. ring.
      * rewrite (tr_forward (alphaR y p u) s) by lia. cbn [alphaR]. ring.
Qed.

(** Keep at time [t] only label [c]. *)
Definition only (p : nat -> nat -> R) (t c : nat) : nat -> nat -> R :=
  fun t' c' => if (t' =? t)%nat then if (c' =? c)%nat then p t' c' else 0 else p t' c'.

Lemma only_path p t c l : forall t0, (t0 <= t < t0 + length l)%nat ->
  pathProb (only p t c) t0 l = if (nth (t - t0) l L =? c)%nat then pathProb p t0 l else 0.
Proof.
  assert (Later : forall l t0, (t < t0)%nat -> pathProb (only p t c) t0 l = pathProb p t0 l).
  { clear. induction l as [|a l IH]; intros t0 H; cbn [pathProb]; [reflexivity|].
    rewrite IH by lia. unfold only at 1. destruct (Nat.eqb_spec t0 t); [lia|reflexivity]. }
  induction l as [|a l IH]; intros t0 H; cbn [length] in H; [lia|]. cbn [pathProb].
  destruct (Nat.eq_dec t0 t) as [->|D].
  - rewrite Nat.sub_diag. cbn [nth]. rewrite Later by lia. unfold only. rewrite Nat.eqb_refl.
    destruct (a =? c)%nat; lra.
  - rewrite IH by lia. replace (t - t0)%nat with (S (t - S t0)) by lia. cbn [nth].
    unfold only at 1. destruct (Nat.eqb_spec t0 t); [lia|]. destruct (nth (t - S t0) l L =? c)%nat; lra.
Qed.
Lemma only_likelihood p t c : (t < len)%nat -> likelihood (only p t c) L len y = likelihoodAt p L len y t c.
Proof.
  intro Ht. unfold likelihood, likelihoodAt. rewrite !total_filter. apply total_ext. intros l Hl.
  apply paths_length in Hl. rewrite only_path by lia. rewrite Nat.sub_0_r.
  destruct (is_label_of y l); cbn [andb]; reflexivity.
Qed.
Lemma only_alpha_before p t c u : (u < t)%nat -> forall s, alphaR y (only p t c) u s = alphaR y p u s.
Proof.
  induction u as [|u IH]; intros Hu s; cbn [alphaR].
  - unfold only. destruct (Nat.eqb_spec 0 t); [lia|reflexivity].
  - rewrite !IH by lia. f_equal. unfold only. destruct (Nat.eqb_spec (S u) t); [lia|reflexivity].
Qed.
Lemma only_alpha p t c s : alphaR y (only p t c) t s = if (pr y s =? c)%nat then alphaR y p t s else 0.
Proof.
  destruct t as [|t]; cbn [alphaR].
  - unfold only. cbn [Nat.eqb]. destruct (Nat.eqb_spec s 0) as [->|D0].
    + change (pr y 0) with 0%nat. destruct c; reflexivity.
    + destruct (Nat.eqb_spec s 1) as [->|D1]; cbn [andb].
      * destruct (0 <? length y)%nat, (pr y 1 =? c)%nat; reflexivity.
      * destruct (pr y s =? c)%nat; reflexivity.
  - rewrite !only_alpha_before by lia. unfold only. rewrite Nat.eqb_refl.
    destruct (pr y s =? c)%nat; [reflexivity|]. ring.
Qed.
Lemma only_gam p t c k : (k < len - t)%nat -> forall s, gamR (only p t c) k s = gamR p k s.
Proof.
  induction k as [|k IH]; intros Hk s; cbn [gamR]; [reflexivity|].
  rewrite !IH by lia. unfold only. destruct (Nat.eqb_spec (len - 1 - k) t); [lia|reflexivity].
Qed.

(** The mass of the sequences with label [c] at time [t], from the two recursions. *)
Definition massAt (p : nat -> nat -> R) (t c : nat) : R :=
  total (fun s => if (pr y s =? c)%nat then alphaR y p t s * betR p (len - 1 - t) s else 0) (seq 0 W).

Theorem massAt_ok p t c : (t < len)%nat -> massAt p t c = likelihoodAt p L len y t c * p t c.
Proof.
  intro Ht. rewrite <- (only_likelihood p t c Ht). rewrite <- (conserve (only p t c) (len - 1 - t)) by lia.
  rewrite <- total_mul_r. unfold massAt. apply total_ext. intros s _.
  replace (len - 1 - (len - 1 - t))%nat with t by lia. rewrite only_alpha, only_gam by lia. unfold betR.
  replace (len - 1 - (len - 1 - t))%nat with t by lia.
  destruct (Nat.eqb_spec (pr y s) c) as [->|D]; ring.
Qed.

Lemma gamR_nonneg p k : (forall t c, 0 <= p t c) -> forall s, 0 <= gamR p k s.
Proof.
  intro H. assert (N : forall a b, 0 <= a -> 0 <= b -> 0 <= a * b) by (intros; apply Rmult_le_pos; assumption).
  induction k as [|k IH]; intro s; cbn [gamR].
  - destruct (s =? 2 * n)%nat; [lra|]. destruct ((0 <? n)%nat && (s =? 2 * n - 1)%nat); lra.
  - pose proof (N _ _ (IH s) (H (len - 1 - k)%nat (pr y s))).
    pose proof (N _ _ (IH (s + 1)%nat) (H (len - 1 - k)%nat (pr y (s + 1)))).
    pose proof (N _ _ (IH (s + 2)%nat) (H (len - 1 - k)%nat (pr y (s + 2)))).
    destruct (s <? 2 * n)%nat, (s + 1 <? 2 * n)%nat, (pr y (s + 2) =? pr y s)%nat; lra.
Qed.
Lemma betR_nonneg p k s : (forall t c, 0 <= p t c) -> 0 <= betR p k s.
Proof. intro H. apply Rmult_le_pos; [apply gamR_nonneg, H|apply H]. Qed.
End Back.

Lemma total_rev_seq (f : nat -> R) m : total (fun i => f (m - i)%nat) (seq 0 (S m)) = total f (seq 0 (S m)).
Proof.
  induction m as [|m IH]; [reflexivity|].
  transitivity (f (S m) + total (fun i => f (m - i)%nat) (seq 0 (S m))).
  - change (seq 0 (S (S m))) with (0%nat :: seq 1 (S m)). rewrite <- seq_shift.
    unfold total at 1. cbn [map fold_right]. fold (total (fun i => f (S m - i)%nat) (map S (seq 0 (S m)))).
    rewrite total_map. reflexivity.
  - rewrite IH. rewrite (seq_S (S m) 0), total_app. unfold total at 3. cbn [map fold_right Nat.add]. lra.
Qed.

(** ** One batch entry *)
Section Entry.
Variables (targets : list nat) (off : nat) (y : list nat) (L T len N : nat).
Variables (p : nat -> nat -> R) (lpp alpha : list ext).
Hypothesis Hy : proper L y.
Hypothesis HL : (0 < L)%nat.
Hypothesis Hpl : placed targets off y.
Hypothesis Hp : forall t c, 0 <= p t c.
Hypothesis Hlen : (0 < len <= T)%nat.
Hypothesis Hlpp : forall t c, (t < T)%nat -> (c < L)%nat -> nth_error lpp (t * L + c) = Some (logOf (p t c)).
Let n := length y.
Let W := (2 * n + 1)%nat.
Hypothesis HN : (len * W <= N)%nat.
Hypothesis Halpha : rows y p N len alpha.
Notation al := (alphaR y p).
Notation be := (betR y len p).

(** The part of the mass of (t, c) coming from the first [j] states, from the last
    one down. *)
Definition part (j t c : nat) : R :=
  total (fun i => if (pr y (2 * n - i) =? c)%nat then al t (2 * n - i) * be (len - 1 - t) (2 * n - i) else 0) (seq 0 j).
Lemma part_all t c : part W t c = massAt y len p t c.
Proof.
  unfold part, massAt. fold n. fold W. unfold W at 1 2. replace (2 * n + 1)%nat with (S (2 * n)) by lia.
  apply (total_rev_seq (fun s => if (pr y s =? c)%nat then al t s * be (len - 1 - t) s else 0)).
Qed.
Lemma part_S j t c : part (S j) t c = part j t c +
  (if (pr y (2 * n - j) =? c)%nat then al t (2 * n - j) * be (len - 1 - t) (2 * n - j) else 0).
Proof.
  unfold part. rewrite seq_S, total_app. unfold total at 2. cbn [map fold_right Nat.add]. lra.
Qed.
Lemma ab_nonneg t k s : 0 <= al t s * be k s.
Proof. apply Rmult_le_pos; [apply alphaR_nonneg, Hp|apply betR_nonneg, Hp]. Qed.
Lemma part_nonneg j t c : 0 <= part j t c.
Proof. apply total_nonneg. intros i _. destruct (pr y (2 * n - i) =? c)%nat; [apply ab_nonneg|lra]. Qed.

(** Rows after [k] are done, of row [t] the last [j] states; rows before hold -Inf. *)
Definition done (t j : nat) (st : list ext * list ext) : Prop :=
  length (fst st) = N /\ length (snd st) = (T * L)%nat /\
  (forall u s, (t < u < len)%nat -> (s < W)%nat -> nth_error (fst st) (u * W + s) = Some (logOf (be (len - 1 - u) s))) /\
  (forall i, (i < j)%nat -> (i < W)%nat -> nth_error (fst st) (t * W + (2 * n - i)) = Some (logOf (be (len - 1 - t) (2 * n - i)))) /\
  (forall u c, (t < u < len)%nat -> (c < L)%nat -> nth_error (snd st) (u * L + c) = Some (logOf (part W u c))) /\
  (forall c, (c < L)%nat -> nth_error (snd st) (t * L + c) = Some (logOf (part j t c))) /\
  (forall u c, (u < T)%nat -> (c < L)%nat -> (u < t \/ len <= u)%nat -> nth_error (snd st) (u * L + c) = Some MInf).

Lemma logSumMax a b : 0 <= a -> 0 <= b ->
  (if isMInf (logOf a) then logOf b
   else let m := xmax (logOf a) (logOf b) in
        xadd (xlog (xadd (xexp (xsub (logOf a) m)) (xexp (xsub (logOf b) m)))) m) = logOf (a + b).
Proof.
  intros Ha Hb. destruct (Req_EM_T a 0) as [->|Na].
  - rewrite logOf_zero. cbn [isMInf]. rewrite Rplus_0_l. reflexivity.
  - rewrite (logOf_pos a) at 1 by lra. cbn [isMInf]. cbv zeta.
    assert (M : exists m, xmax (logOf a) (logOf b) = Fin m).
    { unfold xmax. destruct (xgt (logOf b) (logOf a)) eqn:G.
      - destruct (Req_EM_T b 0) as [->|Nb]; [|rewrite logOf_pos by lra; eauto].
        rewrite logOf_zero, logOf_pos in G by lra. discriminate.
      - rewrite logOf_pos by lra. eauto. }
    destruct M as [m ->]. rewrite !xexp_shift by assumption. cbn [xadd].
    replace (a * exp (- m) + b * exp (- m)) with ((a + b) * exp (- m)) by ring. apply log_shift. lra.
Qed.

(** Writing state [s = 2n - j] of row [t]. *)
Lemma write_step t j beta grad beta' grad' : (t < len)%nat -> (j < W)%nat ->
  done t j (beta, grad) ->
  aset beta (t * W + (2 * n - j)) (logOf (be (len - 1 - t) (2 * n - j))) = Some beta' ->
  aset grad (t * L + pr y (2 * n - j)) (logOf (part j t (pr y (2 * n - j)) + al t (2 * n - j) * be (len - 1 - t) (2 * n - j))) = Some grad' ->
  done t (S j) (beta', grad').
Proof.
  intros Ht Hj [L1 [L2 [B1 [B2 [G1 [G2 G3]]]]]] Eb Eg. cbn [fst snd] in *.
  assert (Hc : (pr y (2 * n - j) < L)%nat) by (apply (pr_bound y L Hy HL); fold n; lia).
  destruct (aset_some beta (t * W + (2 * n - j)) (logOf (be (len - 1 - t) (2 * n - j)))) as [b' [E' [Lb [Vb Nb]]]].
  { rewrite L1. unfold W in *. nia. }
  rewrite Eb in E'. injection E' as <-.
  destruct (aset_some grad (t * L + pr y (2 * n - j)) (logOf (part j t (pr y (2 * n - j)) + al t (2 * n - j) * be (len - 1 - t) (2 * n - j))))
    as [g' [E' [Lg [Vg Ng]]]].
  { rewrite L2. nia. }
  rewrite Eg in E'. injection E' as <-.
  split; [cbn [fst]; lia|]. split; [cbn [snd]; lia|]. cbn [fst snd]. split; [|split; [|split; [|split]]].
  - intros u s Hu Hs. rewrite Nb; [apply B1; assumption|].
    intro E. apply cell_index in E; [lia|exact Hs|unfold W; lia].
  - intros i Hi Hw. destruct (Nat.eq_dec i j) as [->|D]; [exact Vb|].
    rewrite Nb by (unfold W in *; lia). apply B2; lia.
  - intros u c Hu Hc'. rewrite Ng; [apply G1; assumption|].
    intro E. apply cell_index in E; [lia|exact Hc'|exact Hc].
  - intros c Hc'. rewrite part_S. destruct (Nat.eqb_spec (pr y (2 * n - j)) c) as [<-|D].
    + exact Vg.
    + rewrite Rplus_0_r. rewrite Ng by lia. apply G2, Hc'.
  - intros u c Hu Hc' Ho. rewrite Ng; [apply G3; assumption|].
    intro E. apply cell_index in E; [lia|exact Hc'|exact Hc].
Qed.

Lemma betaCell_ok t j st : (t + 1 < len)%nat -> (j < W)%nat -> done t j st ->
  exists st', betaCell lpp targets off 1 n L alpha t (2 * n - j) st = Some st' /\ done t (S j) st'.
Proof.
  intros Ht Hj D. destruct st as [beta grad]. pose proof D as [L1 [L2 [B1 [B2 [G1 [G2 G3]]]]]]. cbn [fst snd] in *.
  set (s := (2 * n - j)%nat) in *. assert (Hs : (s < W)%nat) by (unfold s, W; lia).
  assert (Hc : (pr y s < L)%nat) by (apply (pr_bound y L Hy HL); fold n; exact Hs).
  unfold betaCell. cbv zeta. rewrite (prime_ok targets off y s Hpl Hs). fold W.
  set (k := (len - 1 - (t + 1))%nat). assert (Hk : (len - 1 - t = S k)%nat) by (unfold k; lia).
  assert (Hu : forall s, (s < W)%nat -> nth_error beta ((t + 1) * W + s) = Some (logOf (be k s))).
  { intros s' Hs'. apply B1; lia. }
  unfold aget at 1. rewrite Hu by exact Hs.
  assert (E2 : (if (s <? 2 * n)%nat then aget beta ((t + 1) * W + s + 1) else Some MInf) =
               Some (logOf (if (s <? 2 * n)%nat then be k (s + 1) else 0))).
  { destruct (Nat.ltb_spec s (2 * n)); [|rewrite logOf_zero; reflexivity].
    rewrite <- Nat.add_assoc. apply Hu. unfold W. lia. }
  assert (E3 : (if (s + 1 <? 2 * n)%nat then
       match getPrimeTarget targets off 1 (s + 2) with
       | Some p2 => if (p2 =? pr y s)%nat then Some MInf else aget beta ((t + 1) * W + s + 2)
       | None => None end else Some MInf) =
       Some (logOf (if (s + 1 <? 2 * n)%nat then if (pr y (s + 2) =? pr y s)%nat then 0 else be k (s + 2) else 0))).
  { destruct (Nat.ltb_spec (s + 1) (2 * n)); [|rewrite logOf_zero; reflexivity].
    rewrite (prime_ok targets off y (s + 2) Hpl) by (fold n; lia).
    destruct (pr y (s + 2) =? pr y s)%nat; [rewrite logOf_zero; reflexivity|].
    rewrite <- Nat.add_assoc. apply Hu. unfold W. lia. }
  change (length y) with n. rewrite E2, E3. clear E2 E3. unfold aget at 1. rewrite (Hlpp t (pr y s)) by (try exact Hc; lia).
  pose proof (betR_nonneg y len p k s Hp) as N1. pose proof (betR_nonneg y len p k (s + 1) Hp) as N2.
  pose proof (betR_nonneg y len p k (s + 2) Hp) as N3.
  rewrite logSum3_ok.
  2:{ exact N1. }
  2:{ destruct (s <? 2 * n)%nat; [exact N2|lra]. }
  2:{ destruct (s + 1 <? 2 * n)%nat; [|lra]. destruct (pr y (s + 2) =? pr y s)%nat; [lra|exact N3]. }
  rewrite xadd_log.
  2:{ destruct (s <? 2 * n)%nat, (s + 1 <? 2 * n)%nat, (pr y (s + 2) =? pr y s)%nat; lra. }
  2:{ apply Hp. }
  assert (V : (be k s + (if (s <? 2 * n)%nat then be k (s + 1) else 0) +
     (if (s + 1 <? 2 * n)%nat then if (pr y (s + 2) =? pr y s)%nat then 0 else be k (s + 2) else 0)) * p t (pr y s) = be (len - 1 - t) s).
  { unfold betR. rewrite Hk. cbn [gamR]. replace (len - 1 - S k)%nat with t by lia. reflexivity. }
  rewrite V.
  destruct (aset_some beta (t * W + s) (logOf (be (len - 1 - t) s))) as [beta' [Eb _]].
  { rewrite L1. unfold W in *. nia. }
  rewrite Eb. destruct Halpha as [_ Ha]. unfold aget at 1. change (length y) with n in Ha. fold W in Ha. rewrite Ha by (try exact Hs; lia).
  unfold aget. rewrite G2 by exact Hc. rewrite xadd_log by (try apply alphaR_nonneg; try apply betR_nonneg; apply Hp).
  rewrite logSumMax by (try apply part_nonneg; apply ab_nonneg).
  destruct (aset_some grad (t * L + pr y s) (logOf (part j t (pr y s) + al t s * be (len - 1 - t) s))) as [grad' [Eg _]].
  { rewrite L2. nia. }
  rewrite Eg. exists (beta', grad'). split; [reflexivity|].
  exact (write_step t j beta grad beta' grad' ltac:(lia) Hj D Eb Eg).
Qed.

Lemma betaLast_ok j st : (j = 0 \/ j = 1 /\ 0 < n)%nat -> done (len - 1) j st ->
  exists st', betaLast lpp targets off 1 len n L alpha st (2 * n - j) = Some st' /\ done (len - 1) (S j) st'.
Proof.
  intros Hj D. destruct st as [beta grad]. pose proof D as [L1 [L2 [B1 [B2 [G1 [G2 G3]]]]]]. cbn [fst snd] in *.
  set (s := (2 * n - j)%nat) in *. assert (Hs : (s < W)%nat) by (unfold s, W; lia).
  assert (Hjw : (j < W)%nat) by (unfold W; lia).
  assert (Hc : (pr y s < L)%nat) by (apply (pr_bound y L Hy HL); fold n; exact Hs).
  unfold betaLast. cbv zeta. rewrite (prime_ok targets off y s Hpl Hs). fold W.
  unfold aget at 1. rewrite (Hlpp (len - 1) (pr y s)) by (try exact Hc; lia).
  destruct Halpha as [_ Ha]. unfold aget at 1. change (length y) with n in Ha. fold W in Ha. change (length y) with n. fold W. rewrite Ha by (try exact Hs; lia).
  assert (V : be (len - 1 - (len - 1)) s = p (len - 1)%nat (pr y s)).
  { rewrite Nat.sub_diag. unfold betR. cbn [gamR]. rewrite Nat.sub_0_r. fold n. unfold s.
    destruct (Nat.eqb_spec (2 * n - j) (2 * n)); [lra|]. destruct Hj as [->|[-> Hn]]; [lia|].
    destruct (Nat.ltb_spec 0 n); [|lia]. rewrite Nat.eqb_refl. cbn [andb]. lra. }
  rewrite xadd_log by (try apply alphaR_nonneg; apply Hp). rewrite <- V.
  destruct (aset_some beta ((len - 1) * W + s) (logOf (be (len - 1 - (len - 1)) s))) as [beta' [Eb _]].
  { rewrite L1. unfold W in *. nia. }
  rewrite Eb.
  assert (P0 : part j (len - 1) (pr y s) = 0).
  { destruct Hj as [->|[-> Hn]]; [reflexivity|]. rewrite part_S. unfold part. cbn [seq]. unfold total at 1. cbn [map fold_right].
    rewrite Nat.sub_0_r, pr_even. unfold s. replace (2 * n - 1)%nat with (2 * (n - 1) + 1)%nat by lia. rewrite pr_odd.
    pose proof (nth_label y L Hy (n - 1)) as Q. fold n in Q. specialize (Q ltac:(lia)).
    destruct (Nat.eqb_spec 0 (nth (n - 1) y 0%nat)); [lia|lra]. }
  destruct (aset_some grad ((len - 1) * L + pr y s) (logOf (al (len - 1) s * be (len - 1 - (len - 1)) s))) as [grad' [Eg _]].
  { rewrite L2. nia. }
  rewrite Eg. exists (beta', grad'). split; [reflexivity|].
  apply (write_step (len - 1) j beta grad beta' grad'); [lia|exact Hjw|exact D|exact Eb|].
  fold s. rewrite P0, Rplus_0_l. exact Eg.
Qed.

(** The states the code leaves alone in the last row have no mass. *)
Lemma last_rest st j : (j = if (0 <? n)%nat then 2 else 1)%nat -> done (len - 1) j st ->
  (forall i, (j <= i)%nat -> (i < W)%nat -> nth_error (fst st) ((len - 1) * W + (2 * n - i)) = Some MInf) ->
  done (len - 1) W st.
Proof.
  intros Hj [L1 [L2 [B1 [B2 [G1 [G2 G3]]]]]] Hm.
  assert (Z : forall i, (j <= i)%nat -> (i < W)%nat -> be (len - 1 - (len - 1)) (2 * n - i) = 0).
  { intros i Hi Hw. rewrite Nat.sub_diag. unfold betR. cbn [gamR]. fold n.
    destruct (Nat.ltb_spec 0 n) as [Hn|Hn].
    - destruct (Nat.eqb_spec (2 * n - i) (2 * n)); [lia|]. destruct (Nat.eqb_spec (2 * n - i) (2 * n - 1)); [lia|].
      cbn [andb]. lra.
    - unfold W in Hw. lia. }
  assert (Hjw : (j <= W)%nat) by (unfold W; destruct (Nat.ltb_spec 0 n); lia).
  split; [exact L1|]. split; [exact L2|]. split; [exact B1|]. split; [|split; [exact G1|split; [|exact G3]]].
  - intros i Hi Hw. destruct (Nat.lt_ge_cases i j) as [H|H]; [apply B2; assumption|].
    rewrite Z by assumption. rewrite logOf_zero. apply Hm; assumption.
  - intros c Hc. rewrite G2 by exact Hc. f_equal. f_equal.
    unfold part. replace W with (j + (W - j))%nat by lia. rewrite seq_app, total_app.
    rewrite (total_zero _ (seq (0 + j) (W - j))); [lra|].
    intros i Hi. apply in_seq in Hi. rewrite Z by lia. destruct (pr y (2 * n - i) =? c)%nat; lra.
Qed.

Lemma done_next t st : (t + 1 < len)%nat -> done (t + 1) W st -> done t 0 st.
Proof.
  intros Ht [L1 [L2 [B1 [B2 [G1 [G2 G3]]]]]].
  split; [exact L1|]. split; [exact L2|]. split; [|split; [|split; [|split]]].
  - intros u s Hu Hs. destruct (Nat.eq_dec u (t + 1)) as [->|D]; [|apply B1; lia].
    specialize (B2 (2 * n - s)%nat). replace (2 * n - (2 * n - s))%nat with s in B2 by (unfold W in Hs; lia).
    apply B2; unfold W in *; lia.
  - intros i Hi. lia.
  - intros u c Hu Hc. destruct (Nat.eq_dec u (t + 1)) as [->|D]; [apply G2, Hc|apply G1; lia].
  - intros c Hc. unfold part. cbn [seq]. unfold total. cbn [map fold_right]. rewrite logOf_zero. apply G3; lia.
  - intros u c Hu Hc Ho. apply G3; lia.
Qed.

(** Every entry before the last pass: the logarithm of the mass; after it: the value
    below. *)
Definition entry (nll gOut : ext) (t c : nat) : ext :=
  xmul (xsub (xexp (logOf (p t c))) (xexp (xsub (xadd (logOf (massAt y len p t c)) nll) (logOf (p t c))))) gOut.

Theorem diffOne_ok nll gOut :
  exists g, diffOne lpp targets off 1 len n L alpha nll gOut (repeat MInf N) (repeat MInf (T * L)) = Some g /\
    length g = (T * L)%nat /\
    (forall t c, (t < len)%nat -> (c < L)%nat -> nth_error g (t * L + c) = Some (entry nll gOut t c)) /\
    (forall t c, (len <= t < T)%nat -> (c < L)%nat -> nth_error g (t * L + c) = Some MInf).
Proof.
  unfold diffOne. destruct (Nat.eqb_spec len 0); [lia|]. change (length y) with n.
  assert (D0 : done (len - 1) 0 (repeat MInf N, repeat MInf (T * L))).
  { split; [apply repeat_length|]. split; [apply repeat_length|]. cbn [fst snd].
    split; [intros; lia|]. split; [intros; lia|]. split; [intros; lia|]. split.
    - intros c Hc. unfold part. cbn [seq]. unfold total. cbn [map fold_right]. rewrite logOf_zero.
      apply nth_error_repeat. nia.
    - intros u c Hu Hc _. apply nth_error_repeat. nia. }
  destruct (betaLast_ok 0 _ (or_introl eq_refl) D0) as [st1 [E1 D1]].
  rewrite Nat.sub_0_r in E1.
  assert (M1 : forall i, (1 <= i)%nat -> (i < W)%nat -> nth_error (fst st1) ((len - 1) * W + (2 * n - i)) = Some MInf).
  { intros i Hi Hw. unfold betaLast in E1.
    destruct (getPrimeTarget targets off 1 (2 * n)); [|discriminate].
    destruct (aget lpp _); [|discriminate]. destruct (aget alpha _); [|discriminate]. cbv zeta in E1.
    destruct (aset (repeat MInf N) _ _) as [b'|] eqn:Eb; [|discriminate].
    destruct (aset (repeat MInf (T * L)) _ _) as [g'|] eqn:Eg; [|discriminate]. injection E1 as <-. cbn [fst].
    fold W in Eb. assert (Hb : ((len - 1) * W + 2 * n < length (repeat MInf N))%nat) by (rewrite repeat_length; unfold W in *; nia).
    destruct (aset_some (repeat MInf N) ((len - 1) * W + 2 * n) e Hb) as [b2 [Eb2 [_ [_ Nb]]]].
    rewrite Eb in Eb2. injection Eb2 as <-. rewrite Nb by (unfold W in *; lia). apply nth_error_repeat. unfold W in *. nia. }
  rewrite E1.
  assert (S2 : exists st2, (if (0 <? n)%nat then betaLast lpp targets off 1 len n L alpha st1 (2 * n - 1) else Some st1) = Some st2 /\
                done (len - 1) W st2).
  { destruct (Nat.ltb_spec 0 n) as [Hn|Hn].
    - destruct (betaLast_ok 1 st1 ltac:(lia) D1) as [st2 [E2 D2]]. exists st2. split; [exact E2|].
      apply (last_rest st2 2); [destruct (Nat.ltb_spec 0 n); [reflexivity|lia]|exact D2|].
      intros i Hi Hw. unfold betaLast in E2. destruct st1 as [b1 g1]. cbn [fst] in M1.
      destruct (getPrimeTarget targets off 1 (2 * n - 1)); [|discriminate].
      destruct (aget lpp _); [|discriminate]. destruct (aget alpha _); [|discriminate]. cbv zeta in E2.
      destruct (aset b1 _ _) as [b'|] eqn:Eb; [|discriminate].
      destruct (aset g1 _ _) as [g'|] eqn:Eg; [|discriminate]. injection E2 as <-. cbn [fst].
      fold W in Eb. assert (Hb : ((len - 1) * W + (2 * n - 1) < length b1)%nat).
      { destruct D1 as [LL _]. cbn [fst] in LL. rewrite LL. unfold W in *; nia. }
      destruct (aset_some b1 ((len - 1) * W + (2 * n - 1)) e Hb) as [b2 [Eb2 [_ [_ Nb]]]].
      rewrite Eb in Eb2. injection Eb2 as <-. rewrite Nb by (unfold W in *; lia). apply M1; lia.
    - exists st1. split; [reflexivity|]. apply (last_rest st1 1); [destruct (Nat.ltb_spec 0 n); [lia|reflexivity]|exact D1|exact M1]. }
  destruct S2 as [st2 [-> D2]].
  match goal with |- context [loop (len - 1) ?f st2] =>
    destruct (loop_inv (len - 1) f (fun k st => done (len - 1 - k) W st) st2) as [[beta grad] [-> D3]] end.
  - rewrite Nat.sub_0_r. exact D2.
  - intros k st Hk Dk. fold W.
    destruct (loop_inv W (fun j => betaCell lpp targets off 1 n L alpha (len - 2 - k) (2 * n - j)) (fun j st => done (len - 2 - k) j st) st)
      as [st' [E' D']].
    + apply done_next; [lia|]. replace (len - 2 - k + 1)%nat with (len - 1 - k)%nat by lia. exact Dk.
    + intros j s Hj Dj. apply betaCell_ok; [lia|exact Hj|exact Dj].
    + exists st'. split; [exact E'|]. replace (len - 1 - S k)%nat with (len - 2 - k)%nat by lia. exact D'.
  - rewrite Nat.sub_diag in D3. destruct D3 as [L1 [L2 [B1 [B2 [G1 [G2 G3]]]]]]. cbn [fst snd] in *.
    set (val := fun t c => logOf (part W t c)).
    assert (G0 : length grad = (T * L)%nat /\
      (forall t c, (t < T)%nat -> (c < L)%nat -> nth_error grad (t * L + c) =
         Some (if (t <? len)%nat then val t c else MInf))).
    { split; [exact L2|]. intros t c Ht Hc. destruct (Nat.ltb_spec t len) as [H|H].
      - destruct (Nat.eq_dec t 0) as [->|D]; [apply G2, Hc|apply G1; lia].
      - apply G3; lia. }
    set (inv := fun k j (g : list ext) => length g = (T * L)%nat /\
      (forall t c, (t < T)%nat -> (c < L)%nat -> nth_error g (t * L + c) =
         Some (if (t <? len)%nat then if (t <? k)%nat || ((t =? k)%nat && (c <? j)%nat) then entry nll gOut t c else val t c else MInf))).
    match goal with |- context [loop len ?f grad] =>
      destruct (loop_inv len f (fun k g => inv k 0%nat g) grad) as [g [Eg [Lg Hg]]] end.
    + split; [apply G0|]. intros t c Ht Hc. rewrite (proj2 G0) by assumption.
      destruct (t <? len)%nat; [|reflexivity]. rewrite andb_false_r. cbn [orb Nat.ltb Nat.leb]. reflexivity.
    + intros k g Hk Ik.
      match goal with |- context [loop L ?f g] =>
        destruct (loop_inv L f (fun j g => inv k j g) g Ik) as [g' [E' I']] end.
      * intros c g1 Hc [Lg1 Hg1]. unfold aget. rewrite Hg1 by lia.
        destruct (Nat.ltb_spec k len) as [_|]; [|lia].
        rewrite Nat.eqb_refl, !Nat.ltb_irrefl. cbn [andb orb]. rewrite (Hlpp k c) by lia.
        unfold val. rewrite part_all. fold (entry nll gOut k c).
        destruct (aset_some g1 (k * L + c) (entry nll gOut k c)) as [g2 [E2 [L2' [V2 N2]]]].
        { rewrite Lg1. nia. }
        exists g2. split; [exact E2|]. split; [lia|]. intros t c' Ht Hc'.
        destruct (Nat.eq_dec t k) as [->|D].
        -- destruct (Nat.eq_dec c' c) as [->|D'].
           ++ rewrite V2. destruct (Nat.ltb_spec k len); [|lia].
              rewrite Nat.ltb_irrefl, Nat.eqb_refl. destruct (Nat.ltb_spec c (S c)); [reflexivity|lia].
           ++ rewrite N2 by lia. rewrite Hg1 by assumption. destruct (Nat.ltb_spec k len); [|lia].
              rewrite Nat.ltb_irrefl, Nat.eqb_refl. cbn [orb andb].
              destruct (Nat.ltb_spec c' c), (Nat.ltb_spec c' (S c)); try lia; reflexivity.
        -- rewrite N2. 2:{ intro E. apply cell_index in E; lia. }
           rewrite Hg1 by assumption. destruct (Nat.eqb_spec t k); [lia|]. cbn [andb]. reflexivity.
      * exists g'. split; [exact E'|]. destruct I' as [La Ha]. split; [exact La|]. intros t c Ht Hc.
        rewrite Ha by assumption. destruct (t <? len)%nat; [|reflexivity]. f_equal.
        rewrite andb_false_r, orb_false_r. destruct (Nat.ltb_spec c L); [|lia]. rewrite andb_true_r.
        destruct (Nat.ltb_spec t k), (Nat.eqb_spec t k), (Nat.ltb_spec t (S k)); try lia; reflexivity.
    + exists g. split; [exact Eg|]. split; [exact Lg|]. split.
      * intros t c Ht Hc. rewrite Hg by lia. destruct (Nat.ltb_spec t len); [reflexivity|lia].
      * intros t c Ht Hc. rewrite Hg by lia. destruct (Nat.ltb_spec t len); [lia|reflexivity].
Qed.
End Entry.
