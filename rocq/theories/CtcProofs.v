(** The tables of the CTC operator hold the logarithms of the forward sums. *)
From Coq Require Import Arith Lia Reals Lra List Bool.
From Verif Require Import LoopModel LoopProofs ConvProofs SparsemaxProofs CtcModel CtcSpec CtcPaths.
Import ListNotations.
Local Open Scope R_scope.

Lemma loop_inv {S} n (f : nat -> S -> option S) (P : nat -> S -> Prop) s0 :
  P 0%nat s0 -> (forall i s, (i < n)%nat -> P i s -> exists s', f i s = Some s' /\ P (Datatypes.S i) s') ->
  exists s', loop n f s0 = Some s' /\ P n s'.
Proof.
  intros H0 Hs. unfold loop.
  assert (G : forall m a s, (a + m <= n)%nat -> P a s -> exists s', foldM f (seq a m) s = Some s' /\ P (a + m)%nat s').
  { induction m as [|m IH]; intros a s H Hp.
    - exists s. rewrite Nat.add_0_r. split; [reflexivity|exact Hp].
    - cbn [seq foldM]. destruct (Hs a s ltac:(lia) Hp) as [s' [-> Hp']].
      destruct (IH (Datatypes.S a) s' ltac:(lia) Hp') as [s'' [E Q]]. exists s''. split; [exact E|].
      replace (a + Datatypes.S m)%nat with (Datatypes.S a + m)%nat by lia. exact Q. }
  destruct (G n 0%nat s0 (Nat.le_refl n) H0) as [s' [E Q]]. exists s'. auto.
Qed.

Lemma add_sub a s k : (k <= s)%nat -> (a + s - k = a + (s - k))%nat.
Proof. lia. Qed.

(** ** Logarithms *)

Lemma logOf_pos q : 0 < q -> logOf q = Fin (ln q).
Proof. intro H. unfold logOf. destruct (Rlt_dec 0 q); [reflexivity|contradiction]. Qed.
Lemma logOf_zero : logOf 0 = MInf.
Proof. unfold logOf. destruct (Rlt_dec 0 0); [lra|reflexivity]. Qed.

Lemma xexp_shift a m : 0 <= a -> xexp (xsub (logOf a) (Fin m)) = Fin (a * exp (- m)).
Proof.
  intro H. destruct (Req_EM_T a 0) as [->|N].
  - rewrite logOf_zero. cbn. f_equal. lra.
  - rewrite logOf_pos by lra. cbn [xsub xneg xadd xexp]. f_equal. rewrite exp_plus, exp_ln by lra. reflexivity.
Qed.
Lemma xexp_log a : 0 <= a -> xexp (logOf a) = Fin a.
Proof.
  intro H. destruct (Req_EM_T a 0) as [->|N].
  - rewrite logOf_zero. reflexivity.
  - rewrite logOf_pos by lra. cbn [xexp]. f_equal. apply exp_ln. lra.
Qed.
Lemma xadd_log a b : 0 <= a -> 0 <= b -> xadd (logOf a) (logOf b) = logOf (a * b).
Proof.
  intros Ha Hb. destruct (Req_EM_T a 0) as [->|Na].
  - rewrite Rmult_0_l, logOf_zero. destruct (Req_EM_T b 0) as [->|Nb]; [rewrite logOf_zero|rewrite logOf_pos by lra]; reflexivity.
  - destruct (Req_EM_T b 0) as [->|Nb].
    + rewrite Rmult_0_r, logOf_zero, logOf_pos by lra. reflexivity.
    + assert (0 < a * b) by (apply Rmult_lt_0_compat; lra).
      rewrite !logOf_pos by lra. cbn [xadd]. f_equal. symmetry. apply ln_mult; lra.
Qed.
(** Whatever finite number is taken out of the exponentials. *)
Lemma log_shift S m : 0 <= S -> xadd (xlog (Fin (S * exp (- m)))) (Fin m) = logOf S.
Proof.
  intro H. unfold xlog. pose proof (exp_pos (- m)) as E. destruct (Req_EM_T S 0) as [->|N].
  - rewrite Rmult_0_l. destruct (Rlt_dec 0 0); [lra|]. destruct (Req_EM_T 0 0); [|contradiction].
    rewrite logOf_zero. reflexivity.
  - assert (P : 0 < S * exp (- m)) by (apply Rmult_lt_0_compat; lra).
    destruct (Rlt_dec 0 (S * exp (- m))); [|contradiction]. rewrite logOf_pos by lra. cbn [xadd]. f_equal.
    rewrite ln_mult, ln_exp by lra. lra.
Qed.
Definition flog (x : ext) : Prop := exists q, 0 <= q /\ x = logOf q.
Lemma flog_fin x : flog x -> exists m, (if isMInf x then Fin 0 else x) = Fin m.
Proof.
  intros [q [H ->]]. destruct (Req_EM_T q 0) as [->|N].
  - rewrite logOf_zero. exists 0. reflexivity.
  - rewrite logOf_pos by lra. eexists. reflexivity.
Qed.
Lemma logSum3_ok a b c : 0 <= a -> 0 <= b -> 0 <= c -> logSum3 (logOf a) (logOf b) (logOf c) = logOf (a + b + c).
Proof.
  intros Ha Hb Hc. unfold logSum3. cbv zeta.
  match goal with |- context [xsub (logOf a) ?m] => assert (M : exists r, m = Fin r) end.
  { apply flog_fin. destruct (xgt (logOf b) (logOf a)).
    - destruct (xgt (logOf c) (logOf b)); [exists c|exists b]; auto.
    - destruct (xgt (logOf c) (logOf a)); [exists c|exists a]; auto. }
  destruct M as [m ->]. rewrite !xexp_shift by assumption. cbn [xadd].
  replace (a * exp (- m) + b * exp (- m) + c * exp (- m)) with ((a + b + c) * exp (- m)) by ring.
  apply log_shift. lra.
Qed.
Lemma logSum2_ok a b : 0 <= a -> 0 <= b -> logSum2 (logOf a) (logOf b) = logOf (a + b).
Proof.
  intros Ha Hb. unfold logSum2. cbv zeta.
  match goal with |- context [xsub (logOf a) ?m] => assert (M : exists r, m = Fin r) end.
  { apply flog_fin. destruct (xgt (logOf b) (logOf a)); [exists b|exists a]; auto. }
  destruct M as [m ->]. rewrite !xexp_shift by assumption. cbn [xadd].
  replace (a * exp (- m) + b * exp (- m)) with ((a + b) * exp (- m)) by ring.
  apply log_shift. lra.
Qed.
Lemma negLogOf_neg q : xneg (logOf q) = negLogOf q.
Proof. unfold logOf, negLogOf. destruct (Rlt_dec 0 q); reflexivity. Qed.

(** ** One batch entry *)

(** Where the target of an entry lies. *)
Definition placed (targets : list nat) (off : nat) (y : list nat) : Prop :=
  forall k, (k < length y)%nat -> nth_error targets (off + k) = Some (nth k y 0%nat).

Lemma prime_ok targets off y s : placed targets off y -> (s < 2 * length y + 1)%nat ->
  getPrimeTarget targets off 1 s = Some (pr y s).
Proof.
  intros H Hs. unfold getPrimeTarget. destruct (Nat.Even_or_Odd s) as [[k ->]|[k ->]].
  - rewrite pr_even. rewrite Nat.mul_comm, Nat.mod_mul by lia. reflexivity.
  - rewrite pr_odd. replace (2 * k + 1)%nat with (1 + k * 2)%nat by lia.
    rewrite Nat.mod_add, Nat.div_add by lia. cbn [Nat.modulo Nat.divmod fst snd Nat.sub Nat.eqb].
    change (1 / 2)%nat with 0%nat. replace (off + 1 * (0 + k))%nat with (off + k)%nat by lia.
    apply H. lia.
Qed.

Section Entry.
Variables (targets : list nat) (off : nat) (y : list nat) (L T len : nat).
Variables (p : nat -> nat -> R) (lpp : list ext).
Hypothesis Hy : proper L y.
Hypothesis HL : (0 < L)%nat.
Hypothesis Hpl : placed targets off y.
Hypothesis Hp : forall t c, 0 <= p t c.
Hypothesis Hlen : (0 < len <= T)%nat.
Hypothesis Hlpp : forall t c, (t < T)%nat -> (c < L)%nat -> nth_error lpp (t * L + c) = Some (logOf (p t c)).
Let n := length y.
Let W := (2 * n + 1)%nat.
Notation al := (alphaR y p).

Definition rows (N k : nat) (sec : list ext) : Prop :=
  length sec = N /\ forall t s, (t < k)%nat -> (s < W)%nat -> nth_error sec (t * W + s) = Some (logOf (al t s)).

Lemma alphaCell_ok N t s sec : (len * W <= N)%nat -> (0 < t < len)%nat -> (s < W)%nat ->
  rows N t sec -> (forall s', (s' < s)%nat -> nth_error sec (t * W + s') = Some (logOf (al t s'))) ->
  exists sec', alphaCell lpp targets off 1 n L t s sec = Some sec' /\ rows N t sec' /\
    (forall s', (s' < S s)%nat -> nth_error sec' (t * W + s') = Some (logOf (al t s'))).
Proof.
  intros HN Ht Hs [Hl Hr] Hrow. unfold alphaCell. cbv zeta.
  rewrite (prime_ok targets off y s Hpl Hs). fold W.
  replace (aget sec ((t - 1) * W + s)) with (Some (logOf (al (t - 1) s))) by (symmetry; apply Hr; lia).
  assert (E2 : (if (0 <? s)%nat then aget sec ((t - 1) * W + s - 1) else Some MInf) =
               Some (logOf (if (0 <? s)%nat then al (t - 1) (s - 1) else 0))).
  { destruct (Nat.ltb_spec 0 s); [|rewrite logOf_zero; reflexivity].
    rewrite add_sub by lia. apply Hr; lia. }
  assert (E3 : (if (1 <? s)%nat then
       match getPrimeTarget targets off 1 (s - 2) with
       | Some p2 => if (p2 =? pr y s)%nat then Some MInf else aget sec ((t - 1) * W + s - 2)
       | None => None end else Some MInf) =
       Some (logOf (if (1 <? s)%nat then if (pr y (s - 2) =? pr y s)%nat then 0 else al (t - 1) (s - 2) else 0))).
  { destruct (Nat.ltb_spec 1 s); [|rewrite logOf_zero; reflexivity].
    rewrite (prime_ok targets off y (s - 2) Hpl) by (unfold W in Hs; fold n; lia).
    destruct (pr y (s - 2) =? pr y s)%nat; [rewrite logOf_zero; reflexivity|].
    rewrite add_sub by lia. apply Hr; lia. }
  rewrite E2, E3. clear E2 E3. unfold aget at 1.
  rewrite (Hlpp t (pr y s)) by (try lia; apply pr_bound; assumption).
  rewrite logSum3_ok.
  2:{ apply alphaR_nonneg, Hp. }
  2:{ destruct (0 <? s)%nat; [apply alphaR_nonneg, Hp|lra]. }
  2:{ destruct (1 <? s)%nat; [|lra]. destruct (pr y (s - 2) =? pr y s)%nat; [lra|apply alphaR_nonneg, Hp]. }
  rewrite xadd_log.
  2:{ pose proof (alphaR_nonneg y p (t - 1) Hp s). pose proof (alphaR_nonneg y p (t - 1) Hp (s - 1)).
      pose proof (alphaR_nonneg y p (t - 1) Hp (s - 2)).
      destruct (0 <? s)%nat, (1 <? s)%nat, (pr y (s - 2) =? pr y s)%nat; lra. }
  2:{ apply Hp. }
  assert (V : (al (t - 1) s + (if (0 <? s)%nat then al (t - 1) (s - 1) else 0) +
     (if (1 <? s)%nat then if (pr y (s - 2) =? pr y s)%nat then 0 else al (t - 1) (s - 2) else 0)) * p t (pr y s) = al t s).
  { destruct t as [|t]; [lia|]. replace (S t - 1)%nat with t by lia. reflexivity. }
  rewrite V. assert (Hb : (t * W + s < length sec)%nat) by nia.
  destruct (aset_some sec (t * W + s) (logOf (al t s)) Hb) as [sec' [E [L' [Hv Hn]]]].
  exists sec'. split; [exact E|]. split.
  - split; [lia|]. intros t' s' Ht' Hs'. rewrite Hn by nia. apply Hr; assumption.
  - intros s' Hs'. destruct (Nat.eq_dec s' s) as [->|D]; [exact Hv|]. rewrite Hn by lia. apply Hrow. lia.
Qed.

Lemma alphaLoop_ok N sec : (len * W <= N)%nat -> rows N 1 sec ->
  exists sec', loop (len - 1) (fun k => loop W (fun s => alphaCell lpp targets off 1 n L (k + 1) s)) sec = Some sec' /\ rows N len sec'.
Proof.
  intros HN H0.
  destruct (loop_inv (len - 1) (fun k => loop W (fun s => alphaCell lpp targets off 1 n L (k + 1) s))
              (fun k sec => rows N (S k) sec) sec H0) as [sec' [E Hr]].
  - intros k s Hk Hrow.
    destruct (loop_inv W (fun s => alphaCell lpp targets off 1 n L (k + 1) s)
               (fun j sec => rows N (k + 1) sec /\ forall s', (s' < j)%nat -> nth_error sec ((k + 1) * W + s') = Some (logOf (al (k + 1) s'))) s)
      as [s2 [E2 [R2 Q2]]].
    + split; [replace (k + 1)%nat with (S k) by lia; exact Hrow|intros s' Hs'; lia].
    + intros j s1 Hj [R1 Q1]. destruct (alphaCell_ok N (k + 1) j s1 HN ltac:(lia) Hj R1 Q1) as [s3 [E3 [R3 Q3]]].
      exists s3. auto.
    + exists s2. split; [exact E2|]. destruct R2 as [Hl Hr]. split; [exact Hl|].
      intros t s' Ht Hs'. destruct (Nat.eq_dec t (S k)) as [->|D].
      * replace (S k) with (k + 1)%nat by lia. apply Q2, Hs'.
      * apply Hr; lia.
  - exists sec'. split; [exact E|]. replace (S (len - 1)) with len in Hr by lia. exact Hr.
Qed.

(** The first row. *)
Lemma alphaTable_ok width : (W <= width)%nat ->
  let sec0 := repeat MInf width ++ repeat (Fin 0) ((T - 1) * width) in
  exists sec, alphaTable lpp targets off 1 len n L sec0 = Some sec /\ rows (T * width) len sec.
Proof.
  intros Hw sec0.
  assert (Hlen0 : length sec0 = (T * width)%nat).
  { unfold sec0. rewrite app_length, !repeat_length. nia. }
  assert (HN : (len * W <= T * width)%nat) by nia.
  unfold alphaTable. pose proof (Hlpp 0 0 ltac:(lia) HL) as E0. cbn [Nat.mul Nat.add] in E0. unfold aget at 1. rewrite E0.
  destruct (aset_some sec0 0 (logOf (p 0%nat 0%nat)) ltac:(nia)) as [sec1 [-> [L1 [V1 N1]]]].
  assert (Z : forall s, (s < W)%nat -> nth_error sec0 s = Some MInf).
  { intros s Hs. unfold sec0. rewrite nth_error_app1 by (rewrite repeat_length; lia). apply nth_error_repeat. lia. }
  change (length y) with n. destruct (Nat.ltb_spec 0 n) as [Hn|Hn].
  - rewrite (prime_ok targets off y 1 Hpl) by (fold n; lia).
    pose proof (Hlpp 0 (pr y 1) ltac:(lia) ltac:(apply pr_bound; [assumption|assumption|fold n; lia])) as E1.
    cbn [Nat.mul Nat.add] in E1. unfold aget at 1. rewrite E1.
    destruct (aset_some sec1 1 (logOf (p 0%nat (pr y 1))) ltac:(rewrite L1, Hlen0; unfold W in Hw; nia)) as [sec2 [-> [L2 [V2 N2]]]].
    apply alphaLoop_ok; [exact HN|]. split; [lia|]. intros t s Ht Hs. assert (t = 0)%nat by lia. subst t.
    cbn [Nat.mul Nat.add alphaR]. fold n. destruct (Nat.eqb_spec s 0) as [->|D0].
    + rewrite N2 by lia. exact V1.
    + destruct (Nat.eqb_spec s 1) as [->|D1].
      * destruct (Nat.ltb_spec 0 n); [|lia]. exact V2.
      * cbn [andb]. rewrite N2, N1 by lia. rewrite logOf_zero. apply Z, Hs.
  - apply alphaLoop_ok; [exact HN|]. split; [lia|]. intros t s Ht Hs. assert (t = 0)%nat by lia. subst t.
    assert (s = 0)%nat by (unfold W in Hs; lia). subst s. exact V1.
Qed.

Lemma read_ok N sec : rows N len sec ->
  readLikelihood len n sec =
    Some (if (n =? 0)%nat then logOf (likelihood p L len y) else negLogOf (likelihood p L len y)).
Proof.
  intros [Hl Hr]. unfold readLikelihood. destruct (Nat.eqb_spec len 0); [lia|]. change (length y) with n.
  rewrite (likelihood_alpha y L Hy HL p len ltac:(lia)). fold n.
  destruct (Nat.eqb_spec n 0) as [E|D].
  - destruct (Nat.ltb_spec 0 n); [lia|]. rewrite Rplus_0_r.
    fold W. rewrite <- (Nat.add_0_r ((len - 1) * W)).
    replace (2 * n)%nat with 0%nat by lia.
    apply Hr; unfold W; lia.
  - destruct (Nat.ltb_spec 0 n); [|lia].
    fold W. replace (n * 2)%nat with (2 * n)%nat by lia. rewrite add_sub by lia.
    unfold aget. rewrite !Hr by (unfold W; lia). rewrite logSum2_ok by (apply alphaR_nonneg, Hp).
    rewrite negLogOf_neg. reflexivity.
Qed.
End Entry.
