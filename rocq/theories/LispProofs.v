(** Lemmas about the lisp machine. *)
From Coq Require Import Arith ZArith Reals List Bool Lia Lra.
From Verif Require Import CalcModel CalcSpec CalcProofs BackpropModel GradModel GradSpec GradProofs
  LispModel LispSpec.
Import ListNotations.
Local Open Scope nat_scope.

(* ------------------------------------------------------------------ *)
(** * Control flow *)
Section Control.
Variable S : Type.
Variable sorted : list nat.
Variable exec : nat -> S -> S * bool.
Variable isAD : nat -> bool.
Variable bad : nat -> S -> bool.
Variable diff : nat -> S -> S * bool.
Variable runBwd : bool.

Notation fwdRound := (fwdRound S sorted exec isAD bad runBwd).
Notation fwdLoop := (fwdLoop S sorted exec isAD bad runBwd).
Notation bwdRound := (bwdRound S diff).
Notation bwdLoop := (bwdLoop S diff).

(** A round that works: executed and no NaN found. *)
Notation watched := (watched exec bad).

Definition queued (l : list nat) : list nat := filter (fun n => isAD n && runBwd) l.

Lemma queued_app l l' : queued (l ++ l') = queued l ++ queued l'.
Proof. apply filter_app. Qed.

Lemma fwdRound_at k n b q s : nth_error sorted k = Some n ->
  fwdRound (LM (Z.of_nat k) b q s) =
  (let (s', ok) := exec n s in
   if ok then (LM (Z.of_nat (Datatypes.S k)) b (q ++ queued [n]) s', negb (bad n s'))
   else (LM (Z.of_nat (Datatypes.S k)) b q s', false)).
Proof.
  intro H. unfold LispModel.fwdRound. cbn [lfwd lbwd lq lst].
  destruct (Z.ltb_spec (Z.of_nat k) 0) as [L|L]; [lia|]. rewrite Nat2Z.id, H.
  destruct (exec n s) as [s' ok]. replace (Z.of_nat k + 1)%Z with (Z.of_nat (Datatypes.S k)) by lia.
  unfold queued. cbn [filter]. destruct ok; [|reflexivity].
  destruct (isAD n && runBwd); [reflexivity|]. rewrite app_nil_r. reflexivity.
Qed.

Lemma fwdLoop_done fuel b q s :
  fwdLoop fuel (LM (Z.of_nat (length sorted)) b q s) = (LM (Z.of_nat (length sorted)) b q s, true).
Proof.
  destruct fuel; unfold LispModel.fwdLoop; cbn [lfwd]; rewrite Z.ltb_irrefl; reflexivity.
Qed.

Lemma fwdLoop_S fuel k b q s : k < length sorted ->
  fwdLoop (Datatypes.S fuel) (LM (Z.of_nat k) b q s) =
  (let (m', ok) := fwdRound (LM (Z.of_nat k) b q s) in if ok then fwdLoop fuel m' else (m', false)).
Proof.
  intro H. cbn [LispModel.fwdLoop lfwd].
  destruct (Z.ltb_spec (Z.of_nat k) (Z.of_nat (length sorted))) as [L|L]; [reflexivity|lia].
Qed.

Lemma fwd_prefix l1 : forall l0 l2 fuel b q s s1,
  sorted = l0 ++ l1 ++ l2 -> all_done watched l1 s s1 ->
  fwdLoop (length l1 + fuel) (LM (Z.of_nat (length l0)) b q s)
  = fwdLoop fuel (LM (Z.of_nat (length l0 + length l1)) b (q ++ queued l1) s1).
Proof.
  induction l1 as [|n l1 IH]; intros l0 l2 fuel b q s s1 E A.
  - inversion A; subst. simpl. rewrite app_nil_r, Nat.add_0_r. reflexivity.
  - inversion A as [|n' l' s0 s' s'' W A']; subst n' l' s0 s''.
    assert (Hk : nth_error sorted (length l0) = Some n).
    { rewrite E, nth_error_app2 by lia. rewrite Nat.sub_diag. reflexivity. }
    assert (Hl : length l0 < length sorted) by (apply nth_error_Some; congruence).
    cbn [length Nat.add]. rewrite fwdLoop_S by exact Hl. rewrite (fwdRound_at _ n) by exact Hk.
    unfold LispSpec.watched in W. destruct (exec n s) as [t ok]. injection W as -> W.
    apply andb_prop in W. destruct W as [-> W]. rewrite W.
    replace (Datatypes.S (length l0)) with (length (l0 ++ [n])) by (rewrite app_length; simpl; lia).
    rewrite (IH (l0 ++ [n]) l2 fuel b _ s' s1).
    + rewrite app_length. cbn [length]. rewrite <- app_assoc.
      change (n :: l1) with ([n] ++ l1). rewrite queued_app.
      f_equal. f_equal. f_equal. lia.
    + rewrite E, <- app_assoc. reflexivity.
    + exact A'.
Qed.

Lemma fwd_all l0 l1 b q s s1 fuel :
  sorted = l0 ++ l1 -> all_done watched l1 s s1 -> length l1 <= fuel ->
  fwdLoop fuel (LM (Z.of_nat (length l0)) b q s)
  = (LM (Z.of_nat (length sorted)) b (q ++ queued l1) s1, true).
Proof.
  intros E A F. replace fuel with (length l1 + (fuel - length l1)) by lia.
  rewrite (fwd_prefix l1 l0 [] _ b q s s1); [|rewrite app_nil_r; exact E|exact A].
  replace (length l0 + length l1) with (length sorted) by (rewrite E, app_length; lia).
  apply fwdLoop_done.
Qed.

Lemma fwd_fail l0 l1 n l2 b q s s1 s2 fuel :
  sorted = l0 ++ l1 ++ n :: l2 -> all_done watched l1 s s1 -> exec n s1 = (s2, false) ->
  length l1 < fuel ->
  fwdLoop fuel (LM (Z.of_nat (length l0)) b q s)
  = (LM (Z.of_nat (length l0 + Datatypes.S (length l1))) b (q ++ queued l1) s2, false).
Proof.
  intros E A X F. replace fuel with (length l1 + Datatypes.S (fuel - Datatypes.S (length l1))) by lia.
  rewrite (fwd_prefix l1 l0 (n :: l2) _ b q s s1); [|exact E|exact A].
  assert (Hk : nth_error sorted (length l0 + length l1) = Some n).
  { rewrite E, nth_error_app2 by lia. rewrite nth_error_app2 by lia.
    replace (length l0 + length l1 - length l0 - length l1) with 0 by lia. reflexivity. }
  rewrite fwdLoop_S by (apply nth_error_Some; congruence).
  rewrite (fwdRound_at _ n) by exact Hk. rewrite X.
  replace (length l0 + Datatypes.S (length l1)) with (Datatypes.S (length l0 + length l1)) by lia. reflexivity.
Qed.

Lemma bwdRound_at f k q n s : nth_error q k = Some n ->
  bwdRound (LM f (Z.of_nat k) q s) =
  (let (s', ok) := diff n s in (LM f (Z.of_nat k - 1) q s', ok)).
Proof.
  intro H. unfold LispModel.bwdRound. cbn [lfwd lbwd lq lst]. rewrite Nat2Z.id, H. reflexivity.
Qed.

Lemma bwd_all f q1 : forall q2 s s1 fuel,
  all_done diff (rev q1) s s1 -> length q1 <= fuel ->
  bwdLoop fuel (LM f (Z.of_nat (length q1) - 1) (q1 ++ q2) s) = (LM f (-1) (q1 ++ q2) s1, true).
Proof.
  induction q1 as [|n q1 IH] using rev_ind; intros q2 s s1 fuel A F.
  - inversion A; subst. destruct fuel; reflexivity.
  - rewrite rev_app_distr in A. simpl in A. inversion A as [|n' l' s0 s' s'' W A']; subst.
    rewrite app_length in *. cbn [length] in *.
    destruct fuel as [|fuel]; [lia|]. cbn [LispModel.bwdLoop lbwd].
    destruct (Z.leb_spec 0 (Z.of_nat (length q1 + 1) - 1)) as [L|L]; [|lia].
    replace (Z.of_nat (length q1 + 1) - 1)%Z with (Z.of_nat (length q1)) by lia.
    rewrite (bwdRound_at f (length q1) _ n).
    + rewrite W. rewrite <- app_assoc. apply IH; [exact A'|lia].
    + rewrite <- app_assoc, nth_error_app2 by lia. rewrite Nat.sub_diag. reflexivity.
Qed.

Notation runAll := (runAll S sorted exec isAD bad diff true runBwd).

Lemma bwd_half f q s s1 : all_done diff (rev q) s s1 ->
  backwardHalf S diff (LM f (-1) q s) = (LM f (-1) q s1, true).
Proof.
  intro A. unfold backwardHalf. cbn [lfwd lbwd lq lst].
  change ((-1 <? 0)%Z) with true. cbn iota.
  pose proof (bwd_all f q [] s s1 (Datatypes.S (Z.to_nat (Z.of_nat (length q) - 1))) A) as H.
  rewrite app_nil_r in H. apply H. destruct q; simpl length; lia.
Qed.

Lemma run_from l0 l1 s s1 s2 : runBwd = true ->
  sorted = l0 ++ l1 -> all_done watched l1 s s1 -> all_done diff (rev (filter isAD l1)) s1 s2 ->
  runAll (LM (Z.of_nat (length l0)) (-1) [] s) = (LM (Z.of_nat (length sorted)) (-1) [] s2, Done).
Proof.
  intros R E A D. unfold LispModel.runAll, forwardHalf.
  rewrite (fwd_all l0 l1 _ _ s s1); [|exact E|exact A|rewrite E, app_length; lia].
  cbn [negb app]. rewrite R. cbn [negb].
  replace (queued l1) with (filter isAD l1).
  - rewrite (bwd_half _ _ s1 s2 D). unfold dropQ. reflexivity.
  - unfold queued. rewrite R. apply filter_ext. intro a. rewrite andb_true_r. reflexivity.
Qed.

Lemma run_from_fwdonly l0 l1 s s1 q b : runBwd = false ->
  sorted = l0 ++ l1 -> all_done watched l1 s s1 ->
  runAll (LM (Z.of_nat (length l0)) b q s) = (LM (Z.of_nat (length sorted)) b q s1, Done).
Proof.
  intros R E A. unfold LispModel.runAll, forwardHalf.
  rewrite (fwd_all l0 l1 _ _ s s1); [|exact E|exact A|rewrite E, app_length; lia].
  cbn [negb]. rewrite R. cbn [negb].
  replace (queued l1) with (@nil nat); [rewrite app_nil_r; reflexivity|].
  unfold queued. rewrite R. symmetry. clear. induction l1 as [|a l IH]; [reflexivity|].
  cbn [filter]. rewrite andb_false_r. exact IH.
Qed.

Lemma run_fails l1 n l2 s s1 s2 :
  sorted = l1 ++ n :: l2 -> all_done watched l1 s s1 -> exec n s1 = (s2, false) ->
  runAll (newMachine S s) =
    (LM (Z.of_nat (length l1 + 1)) (-1) [] s2, Failed (hd_error l2)).
Proof.
  intros E A X. unfold LispModel.runAll, forwardHalf, newMachine.
  change 0%Z with (Z.of_nat (length (@nil nat))).
  rewrite (fwd_fail [] l1 n l2 _ _ s s1 s2); [|exact E|exact A|exact X|].
  2:{ rewrite E, app_length. simpl. lia. }
  cbn [negb app length]. replace (0 + Datatypes.S (length l1)) with (length l1 + 1) by lia.
  unfold dropQ, nameOf. cbn [lfwd lbwd lq lst]. f_equal.
  - f_equal. destruct runBwd eqn:R; [reflexivity|]. unfold queued. rewrite R. clear.
    induction l1 as [|a l IH]; [reflexivity|]. cbn [filter]. rewrite andb_false_r. exact IH.
  - f_equal. rewrite Nat2Z.id. destruct (Z.ltb_spec (Z.of_nat (length l1 + 1)) (Z.of_nat (length sorted))) as [L|L].
    + rewrite E, nth_error_app2 by lia. replace (length l1 + 1 - length l1) with 1 by lia.
      simpl. destruct l2; reflexivity.
    + assert (H : length sorted = length l1 + Datatypes.S (length l2)) by (rewrite E, app_length; reflexivity).
      destruct l2; [reflexivity|]. simpl in H. lia.
Qed.

Lemma background_prefix f r qa qb : forall s s1, all_done diff (rev qb) s s1 ->
  background S diff (LM f (Z.of_nat (length (qa ++ qb)) - 1) (qa ++ qb ++ r) s)
                    (LM f (Z.of_nat (length qa) - 1) (qa ++ qb ++ r) s1).
Proof.
  revert r. induction qb as [|n q2 IH] using rev_ind; intros r s s1 A.
  - inversion A; subst. rewrite app_nil_r. constructor.
  - rewrite rev_app_distr in A. simpl in A. inversion A as [|n' l' s0 s' s'' W A']; subst.
    eapply bg_round with (m' := LM f (Z.of_nat (length (qa ++ q2)) - 1) (qa ++ (q2 ++ [n]) ++ r) s').
    + cbn [lbwd]. rewrite !app_length. simpl. lia.
    + replace (Z.of_nat (length (qa ++ q2 ++ [n])) - 1)%Z with (Z.of_nat (length (qa ++ q2)))
        by (rewrite !app_length; simpl; lia).
      rewrite (bwdRound_at f _ _ n); [rewrite W; reflexivity|].
      rewrite <- app_assoc, app_assoc, nth_error_app2 by lia. rewrite Nat.sub_diag. reflexivity.
    + rewrite <- !app_assoc. apply (IH ([n] ++ r)). exact A'.
Qed.
End Control.

Lemma runAll_q (S : Type) sorted exec isAD bad diff f m :
  lq (fst (runAll S sorted exec isAD bad diff f true m)) = [].
Proof.
  unfold runAll. destruct (forwardHalf S sorted exec isAD bad f true m) as [m1 [|]]; cbn [negb].
  - destruct (backwardHalf S diff m1) as [m2 ok2]. reflexivity.
  - reflexivity.
Qed.

(* ------------------------------------------------------------------ *)
(** * Scalar graphs *)
Section Scalar.
Variable prog : nat -> gnode.
Hypothesis Hwf : wf_prog prog.
Variable isRoot : nat -> bool.
Variable x : nat -> R.

Notation num := (number prog x).

Lemma numberF_fuel y f : forall n f', n < f -> n < f' -> numberF prog y f n = numberF prog y f' n.
Proof.
  induction f as [|f IH]; intros n f' H1 H2; [lia|]. destruct f' as [|f']; [lia|].
  cbn [numberF]. pose proof (Hwf n) as W. destruct (prog n) as [|r|o c|o a b]; try reflexivity.
  - f_equal. apply IH; lia.
  - f_equal; apply IH; lia.
Qed.

Lemma number_eq y n : number prog y n =
  match prog n with
  | GIn => y n
  | GConst r => r
  | GU o c => math_u o (number prog y c)
  | GB o a b => math_b o (number prog y a) (number prog y b)
  end.
Proof.
  unfold number at 1. cbn [numberF]. pose proof (Hwf n) as W.
  destruct (prog n) as [|r|o c|o a b]; try reflexivity.
  - f_equal. apply numberF_fuel; lia.
  - f_equal; apply numberF_fuel; lia.
Qed.

(** Forward mode derivative of the number of a node. *)
Fixpoint tanF (w fuel n : nat) : R :=
  match fuel with
  | O => 0%R
  | S f => match prog n with
           | GIn => if Nat.eqb n w then 1%R else 0%R
           | GConst _ => 0%R
           | GU o c => (dsem o (num c) * tanF w f c)%R
           | GB o a b => (dbx o (num a) (num b) * tanF w f a + dby o (num a) (num b) * tanF w f b)%R
           end
  end.
Definition tan w n := tanF w (S n) n.

Lemma tanF_fuel w f : forall n f', n < f -> n < f' -> tanF w f n = tanF w f' n.
Proof.
  induction f as [|f IH]; intros n f' H1 H2; [lia|]. destruct f' as [|f']; [lia|].
  cbn [tanF]. pose proof (Hwf n) as W. destruct (prog n) as [|r|o c|o a b]; try reflexivity.
  - f_equal. apply IH; lia.
  - rewrite (IH a f'), (IH b f') by lia. reflexivity.
Qed.

Lemma tan_eq w n : tan w n =
  match prog n with
  | GIn => if Nat.eqb n w then 1%R else 0%R
  | GConst _ => 0%R
  | GU o c => (dsem o (num c) * tan w c)%R
  | GB o a b => (dbx o (num a) (num b) * tan w a + dby o (num a) (num b) * tan w b)%R
  end.
Proof.
  unfold tan at 1. cbn [tanF]. pose proof (Hwf n) as W.
  destruct (prog n) as [|r|o c|o a b]; try reflexivity.
  - f_equal. apply tanF_fuel; lia.
  - unfold tan. rewrite (tanF_fuel w n a (S a)), (tanF_fuel w n b (S b)) by lia. reflexivity.
Qed.

Hypothesis Hsm : smooth_auto prog x.

Lemma number_set_same w n : number prog (setInput x w (x w)) n = num n.
Proof.
  induction n as [n IH] using (well_founded_induction lt_wf).
  rewrite !number_eq. pose proof (Hwf n) as W. destruct (prog n) as [|r|o c|o a b].
  - unfold setInput. destruct (Nat.eqb_spec n w) as [->|]; reflexivity.
  - reflexivity.
  - rewrite IH by lia. reflexivity.
  - rewrite !IH by lia. reflexivity.
Qed.

Lemma tan_deriv w n : prog w = GIn ->
  has_deriv (fun t => number prog (setInput x w t) n) (x w) (tan w n).
Proof.
  intro Hw. unfold has_deriv.
  induction n as [n IH] using (well_founded_induction lt_wf).
  eapply deriv_ext; [intro t; symmetry; apply number_eq|]. cbv beta.
  rewrite tan_eq. pose proof (Hwf n) as W. pose proof (Hsm n) as Sm.
  destruct (prog n) as [|r|o c|o a b] eqn:E.
  - destruct (Nat.eqb_spec n w) as [->|Hne].
    + eapply deriv_ext; [|apply derivable_pt_lim_id]. intro t. unfold setInput, id.
      rewrite Nat.eqb_refl. reflexivity.
    + eapply deriv_ext; [|apply (derivable_pt_lim_const (x n))]. intro t. unfold setInput, fct_cte.
      destruct (Nat.eqb_spec n w); [contradiction|reflexivity].
  - eapply deriv_ext; [|apply (derivable_pt_lim_const r)]. intro t. reflexivity.
  - destruct Sm as [_ Sm].
    apply (derivable_pt_lim_comp (fun t => number prog (setInput x w t) c) (math_u o)
             (x w) (tan w c) (dsem o (num c))); [apply IH; lia|].
    rewrite number_set_same. apply math_u_deriv. exact Sm.
  - destruct W as [Wa Wb].
    eapply deriv_ext; [intro t; apply bsem_math|].
    eapply deriv_eq.
    + apply (bsem_total o (fun t => number prog (setInput x w t) a)
               (fun t => number prog (setInput x w t) b) (x w) (tan w a) (tan w b)).
      * rewrite !number_set_same. exact Sm.
      * apply IH; lia.
      * apply IH; lia.
    + rewrite !number_set_same. reflexivity.
Qed.

Lemma bin_auto o a b xd yd zd : bdef o a b ->
  binDiff o a b (bsem o a b) xd yd zd = (xd + zd * dbx o a b, yd + zd * dby o a b)%R.
Proof.
  intro H. destruct (binDiff_ok o a b xd yd zd H) as [dx [dy [A [B E]]]].
  destruct (bin_partials o a b H) as [P Q].
  rewrite (uniqueness_limite _ _ _ _ P A), (uniqueness_limite _ _ _ _ Q B). exact E.
Qed.

(** ** Forward half *)
Variable s0 : bindings.
Definition d0 (n : nat) : R := match s0 n with Some (BDual _ d) => d | _ => 0%R end.
Definition seed (n : nat) : R :=
  match prog n with GIn => d0 n | _ => if isRoot n then 1%R else 0%R end.

Notation ex := (watched (execScalar prog isRoot) (fun _ _ => false)).

Lemma exec_step done n s :
  (forall m, In m done -> s m = Some (BDual (num m) (seed m))) ->
  (prog n = GIn -> s n = s0 n /\ valueOf s0 n = Some (x n)) ->
  match prog n with
  | GU _ c => In c done
  | GB _ a b => In a done /\ In b done
  | _ => True
  end ->
  exists s', ex n s = (s', true) /\ s' n = Some (BDual (num n) (seed n)) /\
             forall m, m <> n -> s' m = s m.
Proof.
  intros Hd Hi Hc. unfold LispSpec.watched, execScalar, compute, seed, d0, dualOf, valueOf in *.
  rewrite (number_eq x n). destruct (prog n) as [|r|o c|o a b] eqn:E.
  - destruct (Hi eq_refl) as [Es Ev]. rewrite Es.
    destruct (s0 n) as [[v|v d]|] eqn:E0; try discriminate; injection Ev as ->.
    + eexists. split; [reflexivity|]. split; [unfold upd; rewrite Nat.eqb_refl; reflexivity|].
      intros m Hm. unfold upd. destruct (Nat.eqb_spec m n); [contradiction|reflexivity].
    + eexists. split; [reflexivity|]. split; [exact Es|]. reflexivity.
  - eexists. split; [reflexivity|]. split; [unfold upd; rewrite Nat.eqb_refl; reflexivity|].
    intros m Hm. unfold upd. destruct (Nat.eqb_spec m n); [contradiction|reflexivity].
  - rewrite (Hd c Hc). eexists. split; [reflexivity|].
    split; [unfold upd; rewrite Nat.eqb_refl, usem_math; reflexivity|].
    intros m Hm. unfold upd. destruct (Nat.eqb_spec m n); [contradiction|reflexivity].
  - destruct Hc as [Ha Hb]. rewrite (Hd a Ha), (Hd b Hb). eexists. split; [reflexivity|].
    split; [unfold upd; rewrite Nat.eqb_refl, bsem_math; reflexivity|].
    intros m Hm. unfold upd. destruct (Nat.eqb_spec m n); [contradiction|reflexivity].
Qed.

Lemma forward_scalar todo : forall done s,
  executable prog done todo ->
  (forall m, In m done -> s m = Some (BDual (num m) (seed m))) ->
  (forall m, ~ In m done -> s m = s0 m) ->
  (forall m, In m todo -> prog m = GIn -> valueOf s0 m = Some (x m)) ->
  exists s', all_done ex todo s s' /\
    (forall m, In m (done ++ todo) -> s' m = Some (BDual (num m) (seed m))) /\
    (forall m, ~ In m (done ++ todo) -> s' m = s0 m).
Proof.
  induction todo as [|n todo IH]; intros done s Hx Hd Hn Hi.
  - exists s. rewrite app_nil_r. split; [constructor|]. split; assumption.
  - destruct Hx as [Hnd [Hc Hx]].
    destruct (exec_step done n s Hd) as [s1 [E1 [E2 E3]]].
    { intro Eg. split; [apply Hn; exact Hnd|apply Hi; [left; reflexivity|exact Eg]]. }
    { exact Hc. }
    destruct (IH (done ++ [n]) s1 Hx) as [s' [A [B C]]].
    + intros m Hm. destruct (Nat.eq_dec m n) as [->|Hne]; [exact E2|].
      rewrite E3 by exact Hne. apply Hd. apply in_app_or in Hm. destruct Hm as [Hm|[Hm|[]]]; [exact Hm|congruence].
    + intros m Hm. rewrite E3.
      * apply Hn. intro H. apply Hm. apply in_or_app. left; exact H.
      * intros ->. apply Hm. apply in_or_app. right; left; reflexivity.
    + intros m Hm. apply Hi. right; exact Hm.
    + exists s'. split; [econstructor; eauto|]. rewrite <- app_assoc in B, C. split; assumption.
Qed.

(** ** Backward half *)
Variable w : nat.

Definition isOp (n : nat) : bool := isADScalar prog n.
Definition Phi (l : list nat) (D : nat -> R) : R :=
  (D w + fold_right Rplus 0 (map (fun m => if isOp m then D m * tan w m else 0) l))%R.

Lemma tan_nonop n : isOp n = false -> n <> w -> tan w n = 0%R.
Proof.
  intros H Hn. rewrite tan_eq. unfold isOp, isADScalar in H.
  destruct (prog n); try discriminate; [|reflexivity].
  destruct (Nat.eqb_spec n w); [contradiction|reflexivity].
Qed.
Lemma tan_w : prog w = GIn -> tan w w = 1%R.
Proof. intro Hw. rewrite tan_eq, Hw, Nat.eqb_refl. reflexivity. Qed.
Lemma op_w : prog w = GIn -> isOp w = false.
Proof. intro Hw. unfold isOp, isADScalar. rewrite Hw. reflexivity. Qed.

Lemma sum_upd_out l D c v : ~ In c l ->
  map (fun m => if isOp m then (upd D c v) m * tan w m else 0)%R l
  = map (fun m => if isOp m then D m * tan w m else 0)%R l.
Proof.
  intro H. apply map_ext_in. intros m Hm. unfold upd.
  destruct (Nat.eqb_spec m c) as [->|]; [contradiction|reflexivity].
Qed.

Lemma Phi_upd l D c dl : prog w = GIn -> NoDup l -> In c l ->
  Phi l (upd D c (D c + dl)%R) = (Phi l D + dl * tan w c)%R.
Proof.
  intros Hw N Hc. unfold Phi.
  assert (X : fold_right Rplus 0%R (map (fun m => if isOp m then upd D c (D c + dl)%R m * tan w m else 0)%R l)
            = (fold_right Rplus 0 (map (fun m => if isOp m then D m * tan w m else 0) l)
               + (if isOp c then dl * tan w c else 0))%R).
  { induction l as [|a l IH]; [contradiction|]. inversion N as [|? ? N1 N2]; subst.
    cbn [map fold_right]. destruct Hc as [->|Hc].
    - rewrite sum_upd_out by exact N1. unfold upd at 1. rewrite Nat.eqb_refl.
      destruct (isOp c); ring.
    - rewrite (IH N2 Hc). unfold upd at 1.
      destruct (Nat.eqb_spec a c) as [->|]; [contradiction|]. ring. }
  rewrite X. unfold upd. destruct (Nat.eqb_spec w c) as [Ew|Hne].
  - rewrite <- Ew, op_w, tan_w by exact Hw. ring.
  - destruct (isOp c) eqn:Eo; [ring|]. rewrite (tan_nonop c Eo) by congruence. ring.
Qed.

Variable A : list nat.
Definition Rel (s : bindings) (D : nat -> R) : Prop :=
  forall m, In m A -> s m = Some (BDual (num m) (D m)).

Lemma Rel_upd s D c v : Rel s D -> In c A ->
  Rel (upd s c (Some (BDual (num c) v))) (upd D c v).
Proof.
  intros H Hc m Hm. unfold upd. destruct (Nat.eqb_spec m c) as [->|]; [reflexivity|apply H; exact Hm].
Qed.

Lemma Rel_dual s D m : Rel s D -> In m A -> dualOf s m = Some (num m, D m).
Proof. intros H Hm. unfold dualOf. rewrite (H m Hm). reflexivity. Qed.

Lemma diff_step l n s D : Rel s D -> NoDup l -> incl l A -> In n A -> ~ In n l -> isOp n = true ->
  match prog n with
  | GU _ c => In c l
  | GB _ a b => In a l /\ In b l
  | _ => True
  end ->
  exists s1 D1, diffScalar prog n s = (s1, true) /\ Rel s1 D1 /\
    (prog w = GIn -> Phi l D1 = (Phi l D + D n * tan w n)%R) /\ (forall m, ~ In m A -> s1 m = s m).
Proof.
  intros HR N Hi HnA Hnl Ho Hc. unfold isOp, isADScalar in Ho. unfold diffScalar.
  pose proof (Hsm n) as Sm. pose proof (number_eq x n) as Nn. pose proof (tan_eq w n) as Tn.
  destruct (prog n) as [|r|o c|o a b] eqn:E; try discriminate.
  - rewrite (Rel_dual s D c HR (Hi c Hc)), (Rel_dual s D n HR HnA), Nn, <- usem_math.
    destruct Sm as [S1 S2].
    rewrite (unaryDiff_ok o (num c) (D c) (D n)); [|destruct o; simpl; auto; contradiction|exact S2].
    eexists. exists (upd D c (D c + D n * dsem o (num c))%R). split; [reflexivity|].
    split; [apply Rel_upd; [exact HR|apply Hi; exact Hc]|]. split.
    + intro Hw. rewrite Phi_upd by assumption. rewrite Tn. ring.
    + intros m Hm. unfold upd. destruct (Nat.eqb_spec m c) as [->|]; [exfalso; apply Hm, Hi, Hc|reflexivity].
  - destruct Hc as [Ha Hb].
    rewrite (Rel_dual s D a HR (Hi a Ha)), (Rel_dual s D b HR (Hi b Hb)), (Rel_dual s D n HR HnA), Nn, <- bsem_math.
    set (skip := fun c => match o with OMul => isConstG prog c | _ => false end).
    assert (Sk : prog w = GIn -> forall c, skip c = true -> tan w c = 0%R).
    { intros Hw c H. apply tan_nonop.
      - unfold skip, isConstG in H. unfold isOp, isADScalar. destruct o; try discriminate.
        destruct (prog c); try discriminate; reflexivity.
      - intros ->. unfold skip, isConstG in H. rewrite Hw in H. destruct o; discriminate. }
    assert (B1 : exists s1 D1,
      (if skip a then s else upd s a (Some (BDual (num a)
          (fst (binDiff o (num a) (num b) (bsem o (num a) (num b)) (D a) 0 (D n)))))) = s1 /\
      Rel s1 D1 /\ (prog w = GIn -> Phi l D1 = (Phi l D + D n * dbx o (num a) (num b) * tan w a)%R) /\
      (forall m, ~ In m A -> s1 m = s m)).
    { destruct (skip a) eqn:Ka.
      - exists s, D. split; [reflexivity|]. split; [exact HR|]. split; [|reflexivity].
        intro Hw. rewrite (Sk Hw a Ka). ring.
      - eexists. exists (upd D a (D a + D n * dbx o (num a) (num b))%R). split; [reflexivity|].
        rewrite bin_auto by exact Sm. cbn [fst].
        split; [apply Rel_upd; [exact HR|apply Hi; exact Ha]|].
        split; [intro Hw; rewrite Phi_upd by assumption; ring|].
        intros m Hm. unfold upd. destruct (Nat.eqb_spec m a) as [->|]; [exfalso; apply Hm, Hi, Ha|reflexivity]. }
    destruct B1 as [s1 [D1 [E1 [R1 [P1 F1]]]]]. cbv beta in E1. unfold skip in E1. rewrite E1.
    rewrite (Rel_dual s1 D1 b R1 (Hi b Hb)). fold (skip b).
    destruct (skip b) eqn:Kb.
    + exists s1, D1. split; [reflexivity|]. split; [exact R1|]. split; [|exact F1].
      intro Hw. rewrite (P1 Hw), Tn, (Sk Hw b Kb). ring.
    + eexists. exists (upd D1 b (D1 b + D n * dby o (num a) (num b))%R). split; [reflexivity|].
      rewrite bin_auto by exact Sm. cbn [snd].
      split; [apply Rel_upd; [exact R1|apply Hi; exact Hb]|].
      split; [intro Hw; rewrite Phi_upd by assumption; rewrite (P1 Hw), Tn; ring|].
      intros m Hm. unfold upd. destruct (Nat.eqb_spec m b) as [->|]; [exfalso; apply Hm, Hi, Hb|apply F1; exact Hm].
Qed.

Lemma executable_snoc done l n : executable prog done (l ++ [n]) ->
  executable prog done l /\ ~ In n (done ++ l) /\
  match prog n with
  | GU _ c => In c (done ++ l)
  | GB _ a b => In a (done ++ l) /\ In b (done ++ l)
  | _ => True
  end.
Proof.
  revert done. induction l as [|a l IH]; intros done H.
  - simpl in H. rewrite app_nil_r. simpl. tauto.
  - cbn [app executable] in H. destruct H as [H1 [H2 H3]]. destruct (IH _ H3) as [K1 [K2 K3]].
    rewrite <- app_assoc in K2, K3. cbn [app] in K2, K3. cbn [executable]. tauto.
Qed.

Lemma executable_NoDup l : executable prog [] l -> NoDup l.
Proof.
  induction l as [|n l IH] using rev_ind; intro H; [constructor|].
  destruct (executable_snoc _ _ _ H) as [K1 [K2 K3]]. cbn [app] in K2.
  apply NoDup_rev in IH; [|exact K1]. rewrite <- (rev_involutive (l ++ [n])). apply NoDup_rev.
  rewrite rev_app_distr. simpl. constructor; [|exact IH]. rewrite <- in_rev. exact K2.
Qed.

Lemma backward_scalar l : forall s D, executable prog [] l -> incl l A -> Rel s D ->
  exists s' D', all_done (diffScalar prog) (rev (filter (isADScalar prog) l)) s s' /\
    Rel s' D' /\ (prog w = GIn -> D' w = Phi l D) /\ (forall m, ~ In m A -> s' m = s m).
Proof.
  induction l as [|n l IH] using rev_ind; intros s D Hx Hi HR.
  - exists s, D. split; [constructor|]. split; [exact HR|]. split; [|reflexivity].
    unfold Phi. simpl. intros _. ring.
  - destruct (executable_snoc _ _ _ Hx) as [K1 [K2 K3]]. cbn [app] in K2, K3.
    assert (Hl : incl l A) by (intros m Hm; apply Hi, in_or_app; left; exact Hm).
    rewrite filter_app, rev_app_distr. cbn [filter].
    assert (Ph : forall D, Phi (l ++ [n]) D = (Phi l D + (if isOp n then D n * tan w n else 0))%R).
    { intro E. unfold Phi. rewrite map_app, fold_right_app. cbn [map fold_right].
      generalize (if isOp n then (E n * tan w n)%R else 0%R). intro z.
      assert (Y : forall (k : list R) z, fold_right Rplus z k = (fold_right Rplus 0 k + z)%R).
      { induction k as [|q k IHk]; intro y; cbn [fold_right]; [ring|]. rewrite IHk. ring. }
      rewrite (Y _ (z + 0)%R). ring. }
    fold (isOp n). destruct (isOp n) eqn:Eo.
    + destruct (diff_step l n s D HR (executable_NoDup l K1) Hl) as [s1 [D1 [X1 [X2 [X3 X4]]]]]; auto.
      { apply Hi, in_or_app. right; left; reflexivity. }
      destruct (IH s1 D1 K1 Hl X2) as [s' [D' [Y1 [Y2 [Y3 Y4]]]]].
      exists s', D'. split; [econstructor; eauto|]. split; [exact Y2|].
      split; [intro Hw; rewrite Y3, X3, Ph by exact Hw; reflexivity|]. intros m Hm. rewrite Y4, X4 by exact Hm. reflexivity.
    + destruct (IH s D K1 Hl HR) as [s' [D' [Y1 [Y2 [Y3 Y4]]]]].
      exists s', D'. split; [exact Y1|]. split; [exact Y2|]. split; [intro Hw; rewrite Y3, Ph by exact Hw; ring|exact Y4].
Qed.
End Scalar.

(** ** A whole run *)
Lemma all_done_fun {S : Type} (step : nat -> S -> S * bool) l : forall s a b,
  all_done step l s a -> all_done step l s b -> a = b.
Proof.
  induction l as [|n l IH]; intros s a b Ha Hb; 
    inversion Ha as [|? ? ? a1 ? Ea Ra]; inversion Hb as [|? ? ? b1 ? Eb Rb]; subst; [reflexivity|].
  rewrite Ea in Eb. injection Eb as <-. eapply IH; eauto.
Qed.

Section Run.
Variable prog : nat -> gnode.
Hypothesis Hwf : wf_prog prog.
Variable isRoot : nat -> bool.
Variable x : nat -> R.
Hypothesis Hsm : smooth_auto prog x.
Variable sorted : list nat.
Hypothesis Hex : executable prog [] sorted.

Definition gradOf (w : nat) : R :=
  fold_right Rplus 0%R (map (fun n => if isRoot n then
     match prog n with GIn => 0%R | _ => tan prog x w n end else 0%R) sorted).

Lemma cost_deriv w : prog w = GIn ->
  has_deriv (fun t => cost_of prog (filter isRoot sorted) (setInput x w t)) (x w) (gradOf w).
Proof.
  intro Hw. unfold has_deriv, cost_of, gradOf. clear Hex.
  induction sorted as [|n l IH].
  - apply (derivable_pt_lim_const 0%R).
  - cbn [filter map fold_right]. destruct (isRoot n).
    + cbn [map fold_right]. apply (derivable_pt_lim_plus (fun t => match prog n with GIn => 0%R | _ => number prog (setInput x w t) n end)); [|exact IH].
      pose proof (tan_deriv prog Hwf x Hsm w n Hw) as T. unfold has_deriv in T.
      destruct (prog n) eqn:E; try exact T. apply (derivable_pt_lim_const 0%R).
    + eapply deriv_eq; [exact IH|]. ring.
Qed.

Lemma Phi_seed s0 w : prog w = GIn ->
  Phi prog x w sorted (seed prog isRoot s0) = (before (gradAt s0 w) + gradOf w)%R.
Proof.
  intro Hw. unfold Phi, gradOf. f_equal.
  - unfold seed, d0, before, gradAt. rewrite Hw. destruct (s0 w) as [[|]|]; reflexivity.
  - f_equal. apply map_ext. intro n. unfold isOp, isADScalar, seed.
    pose proof (tan_eq prog Hwf x w n) as T.
    destruct (prog n); destruct (isRoot n); try ring; try reflexivity.
    rewrite T. reflexivity.
Qed.

Lemma lisp_run_state s0 :
  (forall n, In n sorted -> prog n = GIn -> valueOf s0 n = Some (x n)) ->
  exists s, freshRun prog isRoot sorted s0 = (s, Done) /\
    (forall n, In n sorted -> valueOf s n = Some (number prog x n)) /\
    (forall w, In w sorted -> prog w = GIn ->
       gradAt s w = Some (before (gradAt s0 w) + gradOf w)%R).
Proof.
  intro Hi.
  destruct (forward_scalar prog Hwf isRoot x s0 sorted [] s0 Hex) as [s1 [F1 [F2 F3]]];
    [intros m []|reflexivity|exact Hi|]. cbn [app] in F2.
  destruct (backward_scalar prog Hwf isRoot x Hsm 0 sorted sorted s1 (seed prog isRoot s0) Hex
              (incl_refl _) F2) as [s2 [D2 [B1 [B2 _]]]].
  exists s2. split; [|split].
  - unfold freshRun, runScalar.
    rewrite (run_from bindings sorted _ _ _ _ true [] sorted s0 s1 s2); auto.
  - intros n Hn. unfold valueOf. rewrite (B2 n Hn). reflexivity.
  - intros w Hw1 Hw2.
    destruct (backward_scalar prog Hwf isRoot x Hsm w sorted sorted s1 (seed prog isRoot s0) Hex
              (incl_refl _) F2) as [s3 [D3 [C1 [C2 [C3 _]]]]].
    rewrite <- (all_done_fun _ _ _ _ _ C1 B1). unfold gradAt at 1. rewrite (C2 w Hw1), (C3 Hw2).
    rewrite Phi_seed by exact Hw2. reflexivity.
Qed.

Lemma lisp_runs_state k : forall s0,
  (forall n, In n sorted -> prog n = GIn -> valueOf s0 n = Some (x n)) ->
  exists s, freshRuns prog isRoot (S k) sorted s0 = (s, Done) /\
    (forall w, In w sorted -> prog w = GIn ->
       gradAt s w = Some (before (gradAt s0 w) + INR (S k) * gradOf w)%R).
Proof.
  induction k as [|k IH]; intros s0 Hi; destruct (lisp_run_state s0 Hi) as [s1 [R1 [R2 R3]]].
  - exists s1. cbn [freshRuns]. rewrite R1. split; [reflexivity|]. intros w Hw1 Hw2.
    rewrite (R3 w Hw1 Hw2). f_equal. simpl. ring.
  - destruct (IH s1) as [s2 [Q1 Q2]].
    { intros n Hn Eg. rewrite (R2 n Hn), (number_eq prog Hwf), Eg. reflexivity. }
    exists s2. change (freshRuns prog isRoot (S (S k)) sorted s0)
      with (let (s', o) := freshRun prog isRoot sorted s0 in
            match o with Done => freshRuns prog isRoot (S k) sorted s' | Failed w => (s', Failed w) end).
    rewrite R1. split; [exact Q1|]. intros w Hw1 Hw2. rewrite (Q2 w Hw1 Hw2), (R3 w Hw1 Hw2).
    cbn [before]. f_equal. rewrite (S_INR (S k)). ring.
Qed.
End Run.
