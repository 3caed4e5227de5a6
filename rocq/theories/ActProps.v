(** C80: BinaryXent, LeakyRelu, Rectify and Mish. *)
From Coq Require Import Reals List PeanoNat Lra Lia ZArith.
From Flocq Require Import Core.
From Verif Require Import CalcModel CalcSpec CalcProofs PwGradModel PwGradSpec PwGradProps ActModel.
Import ListNotations.
Open Scope R_scope.

(** The documented cross-entropy of a probability and a target (nn.go:13-15). *)
Definition xent (p t : R) : R := - (t * ln p) - (1 - t) * ln (1 - p).
(** The documented rectifiers (nn.go:79-82). *)
Definition relu_spec (x : R) : R := Rmax x 0.
Definition leaky_spec (alpha x : R) : R := if Rlt_dec x 0 then alpha * x else x.
Definition mish_spec (x : R) : R := x * math_u Tanh (ln (1 + exp x)).
(** What arrives at input n by Backprop. *)
Definition gradient stab env e g n := total (map (meaning env) (received stab e g n)).

(** ** BinaryXent *)

(** The value, whatever nodes output and target are and with or without stabilisation. *)
Theorem C80_xent_value : forall stab env o t,
  defined env o -> defined env t -> 0 < meaning env o < 1 ->
  meaning env (binaryXent stab 1 o t) = xent (meaning env o) (meaning env t).
Proof.
  intros stab env o t Do Dt [P0 P1]. rewrite <- (eval_meaning env o) in *. rewrite <- (eval_meaning env t), <- eval_meaning. unfold binaryXent, mkAdd, mkMul.
  rewrite mkNeg_eval. cbn [eval bsem].
  destruct (mkLog_ok stab env o) as [_ ->]; [split; [exact Do|exact P0]|].
  rewrite mkSub_eval. destruct (mkSub_ok stab env (CUser 1) o I Do) as [D1 E1].
  destruct (mkLog_ok stab env (mkSub stab (CUser 1) o)) as [_ ->].
  { split; [exact D1|]. cbn [udef]. rewrite E1. cbn [eval]. lra. }
  rewrite E1. cbn [eval]. unfold xent. ring.
Qed.
Print Assumptions C80_xent_value.

Lemma uniq f x d d' : has_deriv f x d -> has_deriv f x d' -> d = d'.
Proof. apply uniqueness_limite. Qed.

Lemma meaning_mkNeg stab env a : meaning env (mkNeg stab a) = - meaning env a.
Proof. rewrite <- !eval_meaning. apply mkNeg_eval. Qed.

(** Gradients by the probability and by the target. *)
Theorem C80_xent_gradient : forall stab env g, 0 < env 0%nat < 1 ->
  let e := binaryXent stab 1 (Var 0) (Var 1) in
  let p := env 0%nat in let t := env 1%nat in
  gradient stab env e g 0 = meaning env g * ((p - t) / (p * (1 - p))) /\
  gradient stab env e g 1 = meaning env g * (ln (1 - p) - ln p) /\
  has_deriv (fun q => xent q t) p ((p - t) / (p * (1 - p))) /\
  has_deriv (fun s => xent p s) t (ln (1 - p) - ln p).
Proof.
  intros stab env g P. cbv zeta.
  assert (E : binaryXent stab 1 (Var 0) (Var 1) = U Neg (B OAdd (B OMul (Var 1) (U Ln (Var 0))) (B OMul (B OSub COne (Var 1)) (U Ln (B OSub (CUser 1) (Var 0)))))) by (destruct stab; reflexivity).
  rewrite E.
  assert (G0 : gradient stab env (U Neg (B OAdd (B OMul (Var 1) (U Ln (Var 0))) (B OMul (B OSub COne (Var 1)) (U Ln (B OSub (CUser 1) (Var 0)))))) g 0 =
    meaning env g * ((env 0%nat - env 1%nat) / (env 0%nat * (1 - env 0%nat)))).
  { unfold gradient. cbn [received unaryDiffExpr binDiffExpr Nat.eqb app map total fold_right meaning math_u math_b mkMul mkDiv].
    repeat first [rewrite meaning_mkNeg | progress cbn [meaning math_b math_u mkDiv mkMul]]. unfold mkDiv, mkMul. cbn [meaning math_b]. rewrite ?meaning_mkNeg. field. lra. }
  assert (G1 : gradient stab env (U Neg (B OAdd (B OMul (Var 1) (U Ln (Var 0))) (B OMul (B OSub COne (Var 1)) (U Ln (B OSub (CUser 1) (Var 0)))))) g 1 =
    meaning env g * (ln (1 - env 0%nat) - ln (env 0%nat))).
  { unfold gradient. cbn [received unaryDiffExpr binDiffExpr Nat.eqb app map total fold_right meaning math_u math_b mkMul mkDiv].
    repeat first [rewrite meaning_mkNeg | progress cbn [meaning math_b math_u mkDiv mkMul]]. unfold mkDiv, mkMul. cbn [meaning math_b math_u]. rewrite ?meaning_mkNeg. ring. }
  split; [exact G0|]. split; [exact G1|].
  unfold xent, has_deriv. split.
  - eapply deriv_eq.
    + apply (derivable_pt_lim_minus (fun q => - (env 1%nat * ln q)) (fun q => (1 - env 1%nat) * ln (1 - q)) _ (- (env 1%nat * / env 0%nat)) ((1 - env 1%nat) * (-1 / (1 - env 0%nat)))).
      * apply (derivable_pt_lim_opp (fun q => env 1%nat * ln q)). apply (derivable_pt_lim_scal ln). apply derivable_pt_lim_ln, P.
      * apply (derivable_pt_lim_scal (fun q => ln (1 - q))). apply deriv_ln_of; [lra|].
        eapply deriv_eq; [apply (derivable_pt_lim_minus (fct_cte 1) id _ 0 1); [apply derivable_pt_lim_const|apply derivable_pt_lim_id]|ring].
    + field. lra.
  - eapply deriv_eq.
    + apply (derivable_pt_lim_minus (fun s => - (s * ln (env 0%nat))) (fun s => (1 - s) * ln (1 - env 0%nat)) _ (- (ln (env 0%nat))) (- ln (1 - env 0%nat))).
      * eapply deriv_eq; [apply (derivable_pt_lim_opp (fun s => s * ln (env 0%nat)) _ (1 * ln (env 0%nat) + id (env 1%nat) * 0)); apply (derivable_pt_lim_mult id (fct_cte (ln (env 0%nat)))); [apply derivable_pt_lim_id|apply derivable_pt_lim_const]|unfold id; ring].
      * eapply deriv_eq; [apply (derivable_pt_lim_mult (fun s => 1 - s) (fct_cte (ln (1 - env 0%nat))) _ (0 - 1) 0); [apply (derivable_pt_lim_minus (fct_cte 1) id _ 0 1); [apply derivable_pt_lim_const|apply derivable_pt_lim_id]|apply derivable_pt_lim_const]|unfold fct_cte; ring].
    + ring.
Qed.
Print Assumptions C80_xent_gradient.

(** Logistic regression: the gradient by the argument of the sigmoid is sigmoid - target,
    although stabilisation changes the graph. *)
Theorem C80_logistic_gradient : forall stab env g,
  let e := binaryXent stab 1 (U Sigmoid (Var 0)) (Var 1) in
  gradient stab env e g 0 = meaning env g * (math_u Sigmoid (env 0%nat) - env 1%nat) /\
  has_deriv (fun x => xent (math_u Sigmoid x) (env 1%nat)) (env 0%nat) (math_u Sigmoid (env 0%nat) - env 1%nat).
Proof.
  intros stab env g. cbv zeta.
  pose proof (sigmoid_pos (env 0%nat)) as S0. pose proof (sigmoid_lt1 (env 0%nat)) as S1.
  assert (Sm : smooth env (binaryXent stab 1 (U Sigmoid (Var 0)) (Var 1))).
  { change (sigmoidR (env 0%nat)) with (usem Sigmoid (env 0%nat)) in S0, S1. rewrite usem_math in S0, S1. cbn [math_u] in S0, S1.
    destruct stab; cbn; repeat split; lra. }
  assert (V : forall x, meaning (set env 0 x) (binaryXent stab 1 (U Sigmoid (Var 0)) (Var 1)) = xent (math_u Sigmoid x) (env 1%nat)).
  { intro x. rewrite C80_xent_value; [reflexivity|cbn; auto|cbn; auto|]. cbn [meaning]. rewrite <- (usem_math Sigmoid). cbn [usem set Nat.eqb]. split; [apply sigmoid_pos|apply sigmoid_lt1]. }
  destruct (C79_symbolic stab env (binaryXent stab 1 (U Sigmoid (Var 0)) (Var 1)) g 0 Sm) as [d [D T]];
    [destruct stab; cbn; repeat split; discriminate|destruct stab; cbn; repeat split; discriminate|].
  unfold gradient. rewrite T. unfold partial_deriv, has_deriv in D.
  assert (D' : has_deriv (fun x => xent (math_u Sigmoid x) (env 1%nat)) (env 0%nat) d) by (eapply deriv_ext; [exact V|exact D]).
  assert (K : has_deriv (fun x => xent (math_u Sigmoid x) (env 1%nat)) (env 0%nat) (math_u Sigmoid (env 0%nat) - env 1%nat)).
  { unfold has_deriv. eapply deriv_eq.
    - apply (deriv_ext (fun x => env 1%nat * softplusR (- x) + (1 - env 1%nat) * softplusR x)).
      + intro y. unfold xent. rewrite <- (usem_math Sigmoid). cbn [usem]. rewrite one_minus_sigmoid, !ln_sigmoid, Ropp_involutive. ring.
      + apply (derivable_pt_lim_plus (fun x => env 1%nat * softplusR (- x)) (fun x => (1 - env 1%nat) * softplusR x) _ (env 1%nat * (sigmoidR (- env 0%nat) * -1)) ((1 - env 1%nat) * sigmoidR (env 0%nat))).
        * apply (derivable_pt_lim_scal (fun x => softplusR (- x))). apply (derivable_pt_lim_comp Ropp softplusR _ (-1)); [apply (derivable_pt_lim_opp id _ 1), derivable_pt_lim_id|apply deriv_softplus].
        * apply (derivable_pt_lim_scal softplusR), deriv_softplus.
    - rewrite <- (usem_math Sigmoid). cbn [usem]. rewrite <- one_minus_sigmoid. ring. }
  rewrite (uniq _ _ _ _ D' K). auto.
Qed.
Print Assumptions C80_logistic_gradient.

(** oneMore, meant to keep the logarithm away from 0, is 1 in float64 and in float32. *)
Theorem C80_one_more_is_one :
  round radix2 (FLT_exp (-1074) 53) ZnearestE oneMoreLiteral = 1 /\
  round radix2 (FLT_exp (-149) 24) ZnearestE oneMoreLiteral = 1.
Proof.
  assert (K : forall emin prec, (emin <= 1 - prec)%Z -> (1 < prec <= 53)%Z -> round radix2 (FLT_exp emin prec) ZnearestE oneMoreLiteral = 1).
  { intros emin prec L1 L2. assert (T16 : 10 ^ 16 = 10000000000000000) by ring.
    assert (P16 : 0 < / 10 ^ 16 < / 9007199254740992) by (rewrite T16; lra).
    assert (M : mag radix2 oneMoreLiteral = 1%Z :> Z).
    { apply mag_unique. unfold oneMoreLiteral. rewrite Rabs_pos_eq by lra. cbn. lra. }
    unfold round, F2R, scaled_mantissa, cexp. rewrite M. unfold FLT_exp. rewrite Z.max_l by lia. cbn [Fnum Fexp].
    assert (Z1 : ZnearestE (oneMoreLiteral * bpow radix2 (- (1 - prec))) = Zpower 2 (prec - 1)).
    { apply Znearest_imp. replace (- (1 - prec))%Z with (prec - 1)%Z by lia.
      change 2%Z with (radix_val radix2). rewrite IZR_Zpower by lia.
      unfold oneMoreLiteral. replace ((1 + / 10 ^ 16) * bpow radix2 (prec - 1) - bpow radix2 (prec - 1)) with (/ 10 ^ 16 * bpow radix2 (prec - 1)) by ring.
      assert (B : bpow radix2 (prec - 1) <= bpow radix2 52) by (apply bpow_le; lia).
      pose proof (bpow_gt_0 radix2 (prec - 1)). rewrite Rabs_pos_eq by (apply Rmult_le_pos; [apply Rlt_le, P16|apply bpow_ge_0]).
      clear M T16. revert P16. generalize (/ 10 ^ 16). intros q P16.
      replace (bpow radix2 52) with 4503599627370496 in B by (cbn; ring).
      assert (Q : q * bpow radix2 (prec - 1) <= q * 4503599627370496) by (apply Rmult_le_compat_l; lra).
      change (/ IZR radix2) with (/ 2). lra. }
    rewrite Z1. change 2%Z with (radix_val radix2). rewrite IZR_Zpower by lia. rewrite <- bpow_plus. replace (prec - 1 + (1 - prec))%Z with 0%Z by lia. reflexivity. }
  split; apply K; lia.
Qed.
Print Assumptions C80_one_more_is_one.

(** Beyond the sigmoid's cut-off at 19 the loss is infinite or NaN for every target in
    [0, 1], with or without stabilisation, although the true loss is a number. *)
Theorem C80_logistic_saturates : forall stab (x t : R), 19 < x -> 0 <= t <= 1 ->
  xeval (fun n => match n with O => Fin x | _ => Fin t end) (binaryXent stab 1 (U Sigmoid (Var 0)) (Var 1)) =
    Some (if Req_EM_T t 1 then NaN else PInf).
Proof.
  intros stab x t Hx Ht.
  assert (S1 : sigmoid_code x = 1) by (unfold sigmoid_code; destruct (Rlt_dec x (-709)); [lra|]; destruct (Rlt_dec 19 x); [reflexivity|lra]).
  assert (L0 : xlog (xsub (Fin 1) (Fin 1)) = MInf).
  { unfold xsub, xneg, xadd, xlog. destruct (Rlt_dec 0 (1 + - (1))); [lra|]. destruct (Req_EM_T (1 + - (1)) 0); [reflexivity|lra]. }
  assert (M : xmul (xsub (Fin 1) (Fin t)) MInf = if Req_EM_T t 1 then NaN else MInf).
  { unfold xsub, xneg, xadd, xmul, xscaleInf. destruct (Req_EM_T t 1); destruct (Req_EM_T (1 + - t) 0); try lra; try reflexivity. destruct (Rlt_dec 0 (1 + - t)); [reflexivity|lra]. }
  assert (F : forall r, Some (xneg (xadd (Fin r) (if Req_EM_T t 1 then NaN else MInf))) = Some (if Req_EM_T t 1 then NaN else PInf)) by (intro r; destruct (Req_EM_T t 1); reflexivity).
  destruct stab; cbn -[xlog xsub xmul xadd sigmoid_code softplus_code xneg]; rewrite S1, L0, M.
  - unfold xmul at 1. cbn -[xadd softplus_code]. apply F.
  - assert (L1 : xlog (Fin 1) = Fin (ln 1)) by (unfold xlog; destruct (Rlt_dec 0 1); [reflexivity|lra]).
    rewrite L1. unfold xmul at 1. apply F.
Qed.
Print Assumptions C80_logistic_saturates.

Theorem C80_logistic_saturates_refuted : ~ (forall stab (x t : R), 0 <= t <= 1 ->
  exists v, xeval (fun n => match n with O => Fin x | _ => Fin t end) (binaryXent stab 1 (U Sigmoid (Var 0)) (Var 1)) = Some (Fin v)).
Proof.
  intro H. destruct (H true 20 0 ltac:(lra)) as [v E]. rewrite C80_logistic_saturates in E by lra.
  destruct (Req_EM_T 0 1); [lra|discriminate].
Qed.
Print Assumptions C80_logistic_saturates_refuted.

(** ** Rectifiers *)

Theorem C80_rectifier_values : forall alpha x,
  meaning (reluEnv x) rectify = relu_spec x /\ meaning (reluEnv x) (leakyRelu alpha) = leaky_spec alpha x.
Proof.
  intros alpha x. cbn. unfold gteSame, ltSame, relu_spec, leaky_spec, Rmax.
  destruct (Rle_dec 0 x), (Rle_dec x 0), (Rlt_dec x 0); split; lra.
Qed.
Print Assumptions C80_rectifier_values.

(** The gradients are right off 0; at 0 the right-hand derivative is used.  By Backprop
    and, accumulating, on the lisp machine. *)
Theorem C80_rectifier_gradients : forall stab alpha x g yd acc,
  let d1 := if Rlt_dec x 0 then 0 else 1 in let da := if Rlt_dec x 0 then alpha else 1 in
  gradient stab (reluEnv x) rectify g 0 = meaning (reluEnv x) g * d1 /\
  gradient stab (reluEnv x) (leakyRelu alpha) g 0 = meaning (reluEnv x) g * da /\
  accumulated (reluEnv x) rectify yd 0 acc = acc + yd * d1 /\
  accumulated (reluEnv x) (leakyRelu alpha) yd 0 acc = acc + yd * da /\
  (x <> 0 -> has_deriv relu_spec x d1 /\ has_deriv (leaky_spec alpha) x da).
Proof.
  intros stab alpha x g yd acc. cbv zeta. unfold gradient. cbn. unfold gteSame, ltSame.
  destruct (Rlt_dec x 0) as [L|L]; (destruct (Rle_dec 0 x) as [M|M]; [|]; try lra);
    (split; [ring|]; split; [ring|]; split; [ring|]; split; [ring|]; intro X; unfold has_deriv; split).
  - intros eps He. exists (mkposreal (- x) ltac:(lra)). cbn. intros h Hh Hd. apply Rabs_def2 in Hd.
    unfold relu_spec. rewrite !Rmax_right by lra. replace ((0 - 0) / h - 0) with 0 by (field; exact Hh). rewrite Rabs_R0. exact He.
  - intros eps He. exists (mkposreal (- x) ltac:(lra)). cbn. intros h Hh Hd. apply Rabs_def2 in Hd.
    unfold leaky_spec. destruct (Rlt_dec (x + h) 0); [|lra]. destruct (Rlt_dec x 0); [|lra].
    replace ((alpha * (x + h) - alpha * x) / h - alpha) with 0 by (field; exact Hh). rewrite Rabs_R0. exact He.
  - intros eps He. exists (mkposreal x ltac:(lra)). cbn. intros h Hh Hd. apply Rabs_def2 in Hd.
    unfold relu_spec. rewrite !Rmax_left by lra. replace ((x + h - x) / h - 1) with 0 by (field; exact Hh). rewrite Rabs_R0. exact He.
  - intros eps He. exists (mkposreal x ltac:(lra)). cbn. intros h Hh Hd. apply Rabs_def2 in Hd.
    unfold leaky_spec. destruct (Rlt_dec (x + h) 0); [lra|]. destruct (Rlt_dec x 0); [lra|].
    replace ((x + h - x) / h - 1) with 0 by (field; exact Hh). rewrite Rabs_R0. exact He.
Qed.
Print Assumptions C80_rectifier_gradients.

(** Infinities: Rectify of -Inf and LeakyRelu of either infinity are NaN, whatever alpha;
    finite numbers are as specified. *)
Theorem C80_rectifier_infinities : forall alpha,
  (forall x, xeval (xreluEnv (Fin x)) rectify = Some (Fin (relu_spec x)) /\
             xeval (xreluEnv (Fin x)) (leakyRelu alpha) = Some (Fin (leaky_spec alpha x))) /\
  xeval (xreluEnv PInf) rectify = Some PInf /\ xeval (xreluEnv MInf) rectify = Some NaN /\
  xeval (xreluEnv PInf) (leakyRelu alpha) = Some NaN /\ xeval (xreluEnv MInf) (leakyRelu alpha) = Some NaN.
Proof.
  intro alpha. split.
  - intro x. cbn. unfold relu_spec, leaky_spec, Rmax.
    destruct (Rle_dec 0 x), (Rle_dec x 0), (Rlt_dec x 0); cbn; split; do 2 f_equal; lra.
  - cbn. unfold xscaleInf. destruct (Req_EM_T 1 0); [lra|]. destruct (Rlt_dec 0 1); [|lra]. destruct (Req_EM_T 0 0); [|lra]. cbn. auto.
Qed.
Print Assumptions C80_rectifier_infinities.

(** ** Mish *)

Theorem C80_mish : forall stab env g yd acc,
  let x := env 0%nat in let y := tanh (ln (1 + exp x)) in let s := exp x / (1 + exp x) in
  let d := y + x * ((1 - y * y) * s) in
  meaning env (mish (Var 0)) = mish_spec x /\ has_deriv mish_spec x d /\
  gradient stab env (mish (Var 0)) g 0 = meaning env g * d /\
  accumulated env (mish (Var 0)) yd 0 acc = acc + yd * d.
Proof.
  intros stab env g yd acc. cbv zeta.
  set (d := tanh (ln (1 + exp (env 0%nat))) + env 0%nat * ((1 - tanh (ln (1 + exp (env 0%nat))) * tanh (ln (1 + exp (env 0%nat)))) * (exp (env 0%nat) / (1 + exp (env 0%nat))))).
  assert (D : has_deriv mish_spec (env 0%nat) d).
  { unfold has_deriv, mish_spec. eapply deriv_eq.
    - apply (derivable_pt_lim_mult id (fun x => math_u Tanh (ln (1 + exp x))) _ 1 ((1 - tanh (ln (1 + exp (env 0%nat))) * tanh (ln (1 + exp (env 0%nat)))) * sigmoidR (env 0%nat))); [apply derivable_pt_lim_id|].
      apply (derivable_pt_lim_comp softplusR (math_u Tanh)); [apply deriv_softplus|]. apply (deriv_ext tanh); [intro; exact (usem_math Tanh y)|]. apply deriv_tanh.
    - rewrite <- (usem_math Tanh). unfold d, id. cbn [usem]. pose proof (usem_math Sigmoid (env 0%nat)) as Q. cbn [usem math_u] in Q. rewrite Q. ring. }
  split; [reflexivity|]. split; [exact D|].
  destruct (C79_symbolic stab env (mish (Var 0)) g 0) as [d1 [D1 T1]]; [cbn; tauto|cbn; repeat split; discriminate|cbn; repeat split; discriminate|].
  destruct (C79_automatic env (mish (Var 0)) yd 0 acc) as [d2 [D2 T2]]; [cbn; tauto|cbn; repeat split; discriminate|].
  unfold gradient. rewrite T1, T2.
  rewrite (uniq _ _ _ _ D1 D), (uniq _ _ _ _ D2 D). auto.
Qed.
Print Assumptions C80_mish.

(** The limit at -infinity is 0, the result NaN. *)
Theorem C80_mish_infinities :
  xeval (fun _ => PInf) (mish (Var 0)) = Some PInf /\ xeval (fun _ => MInf) (mish (Var 0)) = Some NaN.
Proof.
  cbn. unfold xscaleInf. destruct (Req_EM_T 1 0); [lra|]. destruct (Rlt_dec 0 1); [|lra].
  assert (T0 : tanh 0 = 0) by (unfold tanh; rewrite sinh_0; unfold Rdiv; ring).
  rewrite T0. destruct (Req_EM_T 0 0); [auto|lra].
Qed.
Print Assumptions C80_mish_infinities.

(** Probability 1/2 and target 1: the loss is ln 2 and the gradient by the probability -2.
    Rectifiers at -3 with slope 1/10. *)
Example act_ex : xent (1 / 2) 1 = ln 2 /\
  gradient true (fun n => match n with O => 1 / 2 | _ => 1 end) (binaryXent true 1 (Var 0) (Var 1)) COne 0 = -2 /\
  meaning (reluEnv (-3)) (leakyRelu (1 / 10)) = - 3 / 10 /\ meaning (reluEnv (-3)) rectify = 0.
Proof.
  split; [unfold xent; replace (1 / 2) with (/ 2) by field; rewrite ln_Rinv by lra; ring|].
  split; [destruct (C80_xent_gradient true (fun n => match n with O => 1 / 2 | _ => 1 end) COne ltac:(lra)) as [-> _]; cbn; field|].
  destruct (C80_rectifier_values (1 / 10) (-3)) as [-> ->]. unfold leaky_spec, relu_spec.
  split; [destruct (Rlt_dec (-3) 0); lra|apply Rmax_right; lra].
Qed.

(** Infinite scores: the loss is infinite, or NaN where it should be 0. *)
Theorem C80_logistic_infinities : forall stab (t : R), 0 <= t <= 1 ->
  let loss x := xeval (fun n => match n with O => x | _ => Fin t end) (binaryXent stab 1 (U Sigmoid (Var 0)) (Var 1)) in
  loss PInf = Some (if Req_EM_T t 1 then NaN else PInf) /\ loss MInf = Some (if Req_EM_T t 0 then NaN else PInf).
Proof.
  intros stab t Ht. cbv zeta.
  assert (L0 : xlog (xsub (Fin 1) (Fin 1)) = MInf).
  { unfold xsub, xneg, xadd, xlog. destruct (Rlt_dec 0 (1 + - (1))); [lra|]. destruct (Req_EM_T (1 + - (1)) 0); [reflexivity|lra]. }
  assert (Z0 : xlog (Fin 0) = MInf).
  { unfold xlog. destruct (Rlt_dec 0 0); [lra|]. destruct (Req_EM_T 0 0); [reflexivity|lra]. }
  assert (L1 : exists r, xlog (xsub (Fin 1) (Fin 0)) = Fin r).
  { unfold xsub, xneg, xadd, xlog. destruct (Rlt_dec 0 (1 + - 0)); [eauto|lra]. }
  assert (L2 : exists r, xlog (Fin 1) = Fin r) by (unfold xlog; destruct (Rlt_dec 0 1); [eauto|lra]).
  destruct L1 as [r1 L1]. destruct L2 as [r2 L2].
  assert (M : xmul (xsub (Fin 1) (Fin t)) MInf = if Req_EM_T t 1 then NaN else MInf).
  { unfold xsub, xneg, xadd, xmul, xscaleInf. destruct (Req_EM_T t 1); destruct (Req_EM_T (1 + - t) 0); try lra; try reflexivity. destruct (Rlt_dec 0 (1 + - t)); [reflexivity|lra]. }
  assert (M0 : xmul (Fin t) MInf = if Req_EM_T t 0 then NaN else MInf).
  { unfold xmul, xscaleInf. destruct (Req_EM_T t 0); [reflexivity|]. destruct (Rlt_dec 0 t); [reflexivity|lra]. }
  split.
  - destruct stab; cbn -[xlog xsub xmul xadd xneg]; rewrite L0, M; [|rewrite L2]; destruct (Req_EM_T t 1); reflexivity.
  - destruct stab; cbn -[xlog xsub xmul xadd xneg]; rewrite L1; [|rewrite Z0; rewrite M0; destruct (Req_EM_T t 0); reflexivity].
    change (xneg (xsoftplus (xneg MInf))) with MInf. rewrite M0. destruct (Req_EM_T t 0); reflexivity.
Qed.
Print Assumptions C80_logistic_infinities.
Example C80_ex_infinity : xeval (fun n => match n with O => PInf | _ => Fin 1 end) (binaryXent true 1 (U Sigmoid (Var 0)) (Var 1)) = Some NaN.
Proof. destruct (C80_logistic_infinities true 1 ltac:(lra)) as [H _]. rewrite H. destruct (Req_EM_T 1 1); [reflexivity|lra]. Qed.
