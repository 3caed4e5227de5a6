(** Property theorems C13, C14, C15, C18, C20, C46. *)
From Coq Require Import Reals List Lra.
From Verif Require Import CalcModel CalcSpec CalcProofs.
Import ListNotations.
Open Scope R_scope.

(** ** C13 *)

(** Every differentiable operator except log2 and inverse square root: the
    expression built for the gradient evaluates to incoming gradient times the
    derivative; with stabilisation on or off, for every node [y] holding the
    operator's value. *)
Theorem C13_symbolic_unary_rules :
  forall (stab : bool) (env : nat -> R) (o : uop) (x y g : expr),
    o <> Log2 -> o <> InverseSqrt ->
    diff_point o (eval env x) ->
    eval env y = math_u o (eval env x) ->
    exists e d, unaryDiffExpr stab o x y g = Some e /\
                has_deriv (math_u o) (eval env x) d /\
                eval env e = eval env g * d.
Proof.
  intros stab env o x y g H1 H2 H3. apply stab_cor; [|exact H3].
  destruct o; try exact I; contradiction.
Qed.
Print Assumptions C13_symbolic_unary_rules.

(** The rules used by the lisp machine add gradient times derivative to what is
    there already; here log2 is right too. *)
Theorem C13_automatic_unary_rules :
  forall (o : uop) (x xd yd : R),
    o <> InverseSqrt -> diff_point o x ->
    exists d, has_deriv (math_u o) x d /\
              unaryDiff o x (math_u o x) xd yd = Some (xd + yd * d).
Proof. exact unaryDiff_cor. Qed.
Print Assumptions C13_automatic_unary_rules.

(** The scalar kernels are the mathematical functions of those names. *)
Theorem C13_kernels : forall o x, usem o x = math_u o x.
Proof. exact usem_math. Qed.
Print Assumptions C13_kernels.

Example C13_case : exists e d,
  unaryDiffExpr true Tanh (B OMul (Var 0) (Var 1)) (U Tanh (B OMul (Var 0) (Var 1))) (Var 2)
    = Some e /\
  has_deriv (math_u Tanh) (3 * 5) d /\
  eval (fun n => match n with 0%nat => 3 | 1%nat => 5 | _ => 7 end) e = 7 * d.
Proof.
  apply (C13_symbolic_unary_rules true
          (fun n => match n with 0%nat => 3 | 1%nat => 5 | _ => 7 end)
          Tanh (B OMul (Var 0) (Var 1)) (U Tanh (B OMul (Var 0) (Var 1))) (Var 2));
    try discriminate; [exact I|]. cbn [eval]. apply C13_kernels.
Qed.

(** ** C14 *)

Theorem C14_log2_symbolic_refuted :
  forall (stab : bool) (env : nat -> R) (x y g : expr) (d : R) (e : expr),
    0 < eval env x -> eval env g <> 0 ->
    unaryDiffExpr stab Log2 x y g = Some e ->
    has_deriv (fun t => ln t / ln 2) (eval env x) d ->
    eval env e <> eval env g * d.
Proof. exact log2_wrong_cor. Qed.
Print Assumptions C14_log2_symbolic_refuted.

Theorem C14_inverse_sqrt_symbolic_refuted :
  forall (stab : bool) (env : nat -> R) (x y g : expr) (d : R) (e : expr),
    0 < eval env x -> eval env x <> 1 ->
    eval env g <> 0 -> eval env y = / sqrt (eval env x) ->
    unaryDiffExpr stab InverseSqrt x y g = Some e ->
    has_deriv (fun t => / sqrt t) (eval env x) d ->
    eval env e <> eval env g * d.
Proof. exact invsqrt_wrong_cor. Qed.
Print Assumptions C14_inverse_sqrt_symbolic_refuted.

(** 1 is the only accidental crossing point. *)
Theorem C14_inverse_sqrt_at_one :
  forall (stab : bool) (env : nat -> R) (x y g : expr) (d : R) (e : expr),
    eval env x = 1 -> eval env y = / sqrt (eval env x) ->
    unaryDiffExpr stab InverseSqrt x y g = Some e ->
    has_deriv (fun t => / sqrt t) (eval env x) d ->
    eval env e = eval env g * d.
Proof. exact invsqrt_at_one. Qed.
Print Assumptions C14_inverse_sqrt_at_one.

(** The automatic rule never adds anything. *)
Theorem C14_inverse_sqrt_automatic_refuted :
  forall x xd yd d, 0 < x -> yd <> 0 ->
    has_deriv (fun t => / sqrt t) x d ->
    unaryDiff InverseSqrt x (/ sqrt x) xd yd = Some xd /\ xd <> xd + yd * d.
Proof. exact invsqrt_auto_wrong. Qed.
Print Assumptions C14_inverse_sqrt_automatic_refuted.

(** The values the two symbolic rules do give. *)
Theorem C14_values :
  forall (stab : bool) (env : nat -> R) (x y g : expr), 0 < eval env x ->
    (exists e, unaryDiffExpr stab Log2 x y g = Some e /\
               eval env e = eval env g * ln 2 / eval env x) /\
    (eval env y = math_u InverseSqrt (eval env x) ->
     exists e, unaryDiffExpr stab InverseSqrt x y g = Some e /\
               eval env e = - eval env g * (eval env x * sqrt (eval env x)) / 2).
Proof.
  intros. split; [apply log2DiffExpr_value; assumption|].
  intro Hy. apply inverseSqrtDiffExpr_value; [assumption|].
  rewrite usem_math; exact Hy.
Qed.
Print Assumptions C14_values.

(** Hypotheses are met: the derivatives exist at every positive point. *)
Example C14_case_log2 : exists e d,
  unaryDiffExpr true Log2 (CUser 4) (U Log2 (CUser 4)) COne = Some e /\
  has_deriv (fun t => ln t / ln 2) 4 d /\ eval (fun _ => 0) e <> 1 * d.
Proof.
  eexists. exists (dsem Log2 4). split; [reflexivity|].
  assert (Hd : has_deriv (fun t => ln t / ln 2) 4 (dsem Log2 4))
    by (apply (math_u_deriv Log2); simpl; lra).
  split; [exact Hd|].
  apply (C14_log2_symbolic_refuted true (fun _ => 0) (CUser 4) (U Log2 (CUser 4)) COne);
    [simpl; lra|simpl; lra|reflexivity|exact Hd].
Qed.

Example C14_case_invsqrt : exists e d,
  unaryDiffExpr false InverseSqrt (CUser 4) (U InverseSqrt (CUser 4)) COne = Some e /\
  has_deriv (fun t => / sqrt t) 4 d /\ eval (fun _ => 0) e <> 1 * d.
Proof.
  eexists. exists (dsem InverseSqrt 4). split; [reflexivity|].
  assert (Hd : has_deriv (fun t => / sqrt t) 4 (dsem InverseSqrt 4))
    by (apply (math_u_deriv InverseSqrt); simpl; lra).
  split; [exact Hd|].
  apply (C14_inverse_sqrt_symbolic_refuted false (fun _ => 0) (CUser 4)
           (U InverseSqrt (CUser 4)) COne);
    [simpl; lra|simpl; lra|simpl; lra| |reflexivity|exact Hd].
  cbn [eval]. apply C13_kernels.
Qed.

(** ** C15 *)

Theorem C15_symbolic_binary_rules :
  forall (stab : bool) (env : nat -> R) (o : bop) (x y z g : expr),
    bdef o (eval env x) (eval env y) -> defined env x -> defined env y ->
    eval env z = math_b o (eval env x) (eval env y) ->
    exists dx dy,
      has_deriv (fun t => math_b o t (eval env y)) (eval env x) dx /\
      has_deriv (fun t => math_b o (eval env x) t) (eval env y) dy /\
      eval env (fst (binDiffExpr stab o x y z g)) = eval env g * dx /\
      eval env (snd (binDiffExpr stab o x y z g)) = eval env g * dy.
Proof. exact binDiffExpr_math. Qed.
Print Assumptions C15_symbolic_binary_rules.

Theorem C15_automatic_binary_rules :
  forall (o : bop) (x y xd yd zd : R), bdef o x y ->
    exists dx dy,
      has_deriv (fun t => math_b o t y) x dx /\
      has_deriv (fun t => math_b o x t) y dy /\
      binDiff o x y (math_b o x y) xd yd zd = (xd + zd * dx, yd + zd * dy).
Proof. exact binDiff_math. Qed.
Print Assumptions C15_automatic_binary_rules.

Example C15_case : exists dx dy,
  has_deriv (fun t => Rpower t 5) 3 dx /\
  has_deriv (fun t => Rpower 3 t) 5 dy /\
  binDiff OPow 3 5 (Rpower 3 5) 1 2 7 = (1 + 7 * dx, 2 + 7 * dy).
Proof. apply (C15_automatic_binary_rules OPow 3 5 1 2 7). simpl; lra. Qed.

(** ** C18 *)

(** What Log, Log1p, Sub and Neg build has the value asked for wherever the
    plain expression is defined, and is itself defined there; whether or not
    stabilisation is on. *)
Theorem C18_log :
  forall (stab : bool) (env : nat -> R) (a : expr),
    defined env a -> 0 < eval env a ->
    defined env (mkLog stab a) /\ eval env (mkLog stab a) = ln (eval env a).
Proof. intros stab env a H1 H2. apply mkLog_ok. split; assumption. Qed.
Print Assumptions C18_log.

Theorem C18_log1p :
  forall (stab : bool) (env : nat -> R) (a : expr),
    defined env a -> 0 < 1 + eval env a ->
    defined env (mkLog1p stab a) /\ eval env (mkLog1p stab a) = ln (1 + eval env a).
Proof. intros stab env a H1 H2. apply mkLog1p_ok. split; assumption. Qed.
Print Assumptions C18_log1p.

Theorem C18_sub :
  forall (stab : bool) (env : nat -> R) (a b : expr),
    defined env a -> defined env b ->
    defined env (mkSub stab a b) /\ eval env (mkSub stab a b) = eval env a - eval env b.
Proof. exact mkSub_ok. Qed.
Print Assumptions C18_sub.

Theorem C18_neg :
  forall (stab : bool) (env : nat -> R) (a : expr),
    defined env a ->
    defined env (mkNeg stab a) /\ eval env (mkNeg stab a) = - eval env a.
Proof. exact mkNeg_ok. Qed.
Print Assumptions C18_neg.

(** The rewritings do fire: the stabilised expressions differ from the plain
    ones. *)
Example C18_cases :
  mkLog true (B OAdd COne (U Exp (Var 0))) = U Softplus (Var 0) /\
  mkLog true (B OAdd (Var 0) COne) = U Log1p (Var 0) /\
  mkLog true (B OSub COne (U Sigmoid (Var 0))) = U Neg (U Softplus (Var 0)) /\
  mkLog true (U Sigmoid (U Neg (Var 0))) = U Neg (U Softplus (Var 0)) /\
  mkSub true (U Exp (Var 0)) COne = U Expm1 (Var 0) /\
  mkSub true COne (U Sigmoid (Var 0)) = U Sigmoid (U Neg (Var 0)) /\
  mkNeg true (U Neg (Var 0)) = Var 0 /\
  mkLog false (B OAdd (Var 0) COne) = U Ln (B OAdd (Var 0) COne).
Proof. repeat split; reflexivity. Qed.

Example C18_case_defined :
  defined (fun _ => 3) (B OSub COne (U Sigmoid (Var 0))) /\
  0 < eval (fun _ => 3) (B OSub COne (U Sigmoid (Var 0))).
Proof. simpl. split; [tauto|]. pose proof (sigmoid_lt1 3). lra. Qed.

(** ** C20 *)

(** Right exactly at vectors whose maximum is 0 … *)
Theorem C20_lse_right_if_max_zero :
  forall l, is_max l 0 -> logSumExp l = Some (true_lse l).
Proof. exact lse_max0. Qed.
Print Assumptions C20_lse_right_if_max_zero.

(** … too small for every vector with a positive maximum … *)
Theorem C20_lse_positive_max_refuted :
  forall l m, is_max l m -> 0 < m ->
    exists v, logSumExp l = Some v /\ v < true_lse l.
Proof. exact lse_pos_wrong. Qed.
Print Assumptions C20_lse_positive_max_refuted.

(** … and wrong for singletons between -1 and 0 (below -1 the argument of the
    logarithm is not positive). *)
Theorem C20_lse_negative_singleton_refuted :
  forall m, -1 < m < 0 ->
    exists v, logSumExp [m] = Some v /\ v <> true_lse [m].
Proof. exact lse_single_neg_wrong. Qed.
Print Assumptions C20_lse_negative_singleton_refuted.

Example C20_case : is_max [1; 2; -3] 2 /\ is_max [-1; 0] 0.
Proof.
  split; split; simpl; try tauto; intros x H;
    repeat destruct H as [<-|H]; try lra; contradiction.
Qed.

(** ** C46 *)

(** The cut-offs of the scalar kernels of sigmoid and softplus. *)
Theorem C46_sigmoid_cutoff :
  forall x, Rabs (sigmoid_code x - math_u Sigmoid x) <= exp (-19).
Proof. intro x. rewrite <- usem_math. apply sigmoid_cutoff. Qed.
Print Assumptions C46_sigmoid_cutoff.

Theorem C46_softplus_cutoff :
  forall x, Rabs (softplus_code x - math_u Softplus x) <= exp (-16).
Proof. intro x. rewrite <- usem_math. apply softplus_cutoff. Qed.
Print Assumptions C46_softplus_cutoff.

(** Both sides of a cut-off are inhabited. *)
Example C46_case : sigmoid_code 20 = 1 /\ softplus_code 17 = 17 /\
  sigmoid_code 0 = 1 / (1 + exp (- 0)).
Proof.
  unfold sigmoid_code, softplus_code. repeat split;
  repeat match goal with |- context [Rlt_dec ?a ?b] => destruct (Rlt_dec a b); try lra end.
Qed.
