From Coq Require Import Reals Lra Lia List.
From Verif Require Import CalcModel CalcSpec.
Open Scope R_scope.

(* ---------- small facts ---------- *)
Lemma exp_pos' x : 0 < exp x. Proof. apply exp_pos. Qed.

Lemma one_exp_pos x : 0 < 1 + exp x.
Proof. pose proof (exp_pos x); lra. Qed.

Lemma sigmoid_pos x : 0 < sigmoidR x.
Proof. unfold sigmoidR. apply Rinv_0_lt_compat, one_exp_pos. Qed.

Lemma sigmoid_lt1 x : sigmoidR x < 1.
Proof.
  unfold sigmoidR. rewrite <- Rinv_1 at 2.
  apply Rinv_lt_contravar; pose proof (exp_pos (- x)); lra.
Qed.

Lemma one_minus_sigmoid x : 1 - sigmoidR x = sigmoidR (- x).
Proof.
  unfold sigmoidR. rewrite Ropp_involutive.
  pose proof (exp_pos x) as H1. pose proof (exp_pos (-x)) as H2.
  assert (E : exp x * exp (- x) = 1).
  { rewrite <- exp_plus. rewrite Rplus_opp_r. apply exp_0. }
  field_simplify_eq; [ | lra ]. nra.
Qed.

Lemma ln_sigmoid x : ln (sigmoidR x) = - softplusR (- x).
Proof.
  unfold sigmoidR, softplusR. rewrite ln_Rinv; [reflexivity|apply one_exp_pos].
Qed.

Lemma ln2_pos : 0 < ln 2.
Proof. rewrite <- ln_1. apply ln_increasing; lra. Qed.

Lemma ln2_lt1 : ln 2 < 1.
Proof.
  rewrite <- (ln_exp 1). apply ln_increasing; [lra|].
  pose proof (exp_ineq1 1 ltac:(lra)). lra.
Qed.

(* ---------- derivatives ---------- *)
Lemma deriv_ext f g x d :
  (forall y, f y = g y) -> derivable_pt_lim f x d -> derivable_pt_lim g x d.
Proof.
  intros E H eps Heps. destruct (H eps Heps) as [delta Hd]. exists delta.
  intros h Hh Hl. rewrite <- !E. apply Hd; assumption.
Qed.

Lemma deriv_eq f x d d' : derivable_pt_lim f x d -> d = d' -> derivable_pt_lim f x d'.
Proof. intros H <-; exact H. Qed.

Lemma deriv_abs x : x <> 0 -> derivable_pt_lim Rabs x (signR x).
Proof.
  intro Hx. unfold signR. destruct (Rlt_dec x 0) as [Hn|Hn].
  - apply Rabs_derive_2; exact Hn.
  - apply Rabs_derive_1; lra.
Qed.

Lemma deriv_inv x : x <> 0 -> derivable_pt_lim (fun t => 1 / t) x (- (1 / x * (1 / x))).
Proof.
  intro Hx.
  eapply deriv_eq.
  - eapply deriv_ext; [ | apply (derivable_pt_lim_div (fct_cte 1) id x 0 1) ].
    + intro y; reflexivity.
    + apply derivable_pt_lim_const.
    + apply derivable_pt_lim_id.
    + exact Hx.
  - unfold id, fct_cte, Rsqr. field. exact Hx.
Qed.

Lemma deriv_invsqrt x : 0 < x ->
  derivable_pt_lim (fun t => 1 / sqrt t) x (- (1 / sqrt x) ^ 3 / 2).
Proof.
  intro Hx. pose proof (sqrt_lt_R0 x Hx) as Hs.
  eapply deriv_eq.
  - eapply deriv_ext;
      [ | apply (derivable_pt_lim_comp sqrt (fun t => 1 / t) x (/ (2 * sqrt x))) ].
    + intro y; reflexivity.
    + apply derivable_pt_lim_sqrt; exact Hx.
    + apply deriv_inv. lra.
  - field. lra.
Qed.

Lemma deriv_exp_neg x : derivable_pt_lim (fun t => exp (- t)) x (- exp (- x)).
Proof.
  eapply deriv_eq.
  - eapply deriv_ext; [ | apply (derivable_pt_lim_comp Ropp exp x (-1)) ].
    + intro y; reflexivity.
    + apply (derivable_pt_lim_opp id x 1). apply derivable_pt_lim_id.
    + apply derivable_pt_lim_exp.
  - ring.
Qed.

Lemma deriv_1plus f x d : derivable_pt_lim f x d -> derivable_pt_lim (fun t => 1 + f t) x d.
Proof.
  intro H. eapply deriv_eq.
  - eapply deriv_ext; [ | apply (derivable_pt_lim_plus (fct_cte 1) f x 0 d) ].
    + intro y; reflexivity.
    + apply derivable_pt_lim_const.
    + exact H.
  - ring.
Qed.

Lemma deriv_sigmoid x : derivable_pt_lim sigmoidR x (sigmoidR x * (1 - sigmoidR x)).
Proof.
  pose proof (one_exp_pos (-x)) as Hp.
  eapply deriv_eq.
  - eapply deriv_ext;
     [ | apply (derivable_pt_lim_comp (fun t => 1 + exp (- t)) (fun t => 1 / t) x (- exp (- x))) ].
    + intro y; unfold comp, sigmoidR. field. pose proof (one_exp_pos (-y)); lra.
    + apply deriv_1plus, deriv_exp_neg.
    + apply deriv_inv. lra.
  - unfold sigmoidR. field. lra.
Qed.

Lemma deriv_ln_of f x d : 0 < f x -> derivable_pt_lim f x d ->
  derivable_pt_lim (fun t => ln (f t)) x (d / f x).
Proof.
  intros Hp H. eapply deriv_eq.
  - eapply deriv_ext; [ | apply (derivable_pt_lim_comp f ln x d) ].
    + intro y; reflexivity.
    + exact H.
    + apply derivable_pt_lim_ln; exact Hp.
  - field. lra.
Qed.

Lemma deriv_softplus x : derivable_pt_lim softplusR x (sigmoidR x).
Proof.
  eapply deriv_eq.
  - apply (deriv_ln_of (fun t => 1 + exp t) x (exp x)).
    + apply one_exp_pos.
    + apply deriv_1plus, derivable_pt_lim_exp.
  - unfold sigmoidR. rewrite exp_Ropp.
    pose proof (exp_pos x). field. lra.
Qed.

Lemma deriv_tanh x : derivable_pt_lim tanh x (1 - tanh x * tanh x).
Proof.
  assert (Hc : cosh x <> 0).
  { unfold cosh. pose proof (exp_pos x); pose proof (exp_pos (-x)); lra. }
  eapply deriv_eq.
  - eapply deriv_ext; [ | apply (derivable_pt_lim_div sinh cosh x (cosh x) (sinh x)) ].
    + intro y; reflexivity.
    + apply derivable_pt_lim_sinh.
    + apply derivable_pt_lim_cosh.
    + exact Hc.
  - unfold tanh, Rsqr. field. exact Hc.
Qed.

Lemma deriv_id x : derivable_pt_lim (fun t => t) x 1.
Proof. apply derivable_pt_lim_id. Qed.

Lemma deriv_square x : derivable_pt_lim (fun t => t * t) x (2 * x).
Proof.
  eapply deriv_eq.
  - eapply deriv_ext; [ | apply (derivable_pt_lim_mult id id x 1 1) ].
    + intro y; reflexivity.
    + apply derivable_pt_lim_id.
    + apply derivable_pt_lim_id.
  - unfold id. ring.
Qed.

Lemma deriv_cube x : derivable_pt_lim (fun t => t * t * t) x (3 * (x * x)).
Proof.
  eapply deriv_eq.
  - eapply deriv_ext; [ | apply (derivable_pt_lim_mult (fun t => t * t) id x (2 * x) 1) ].
    + intro y; reflexivity.
    + apply deriv_square.
    + apply derivable_pt_lim_id.
  - unfold id. ring.
Qed.

(** The derivative of each operator, as a function of x only. *)
Definition dsem (o : uop) (x : R) : R :=
  match o with
  | Abs => signR x
  | Sin => cos x
  | Cos => - sin x
  | Exp => exp x
  | Ln => / x
  | Log2 => / (x * ln 2)
  | Neg => -1
  | Square => 2 * x
  | Sqrt => / (2 * sqrt x)
  | Inverse => - (1 / x * (1 / x))
  | InverseSqrt => - (1 / sqrt x) ^ 3 / 2
  | Cube => 3 * (x * x)
  | Tanh => 1 - tanh x * tanh x
  | Sigmoid => sigmoidR x * (1 - sigmoidR x)
  | Log1p => / (1 + x)
  | Expm1 => exp x
  | Softplus => sigmoidR x
  | _ => 0
  end.

Lemma usem_deriv o x : diff_point o x -> has_deriv (usem o) x (dsem o x).
Proof.
  unfold has_deriv. destruct o; simpl; intro H; try contradiction.
  - apply deriv_abs; exact H.
  - apply derivable_pt_lim_sin.
  - apply derivable_pt_lim_cos.
  - apply derivable_pt_lim_exp.
  - apply derivable_pt_lim_ln; exact H.
  - pose proof ln2_pos. eapply deriv_eq.
    + eapply deriv_ext; [ | apply (derivable_pt_lim_scal ln (/ ln 2) x (/ x)) ].
      * intro y. cbn [usem]. unfold mult_real_fct, Rdiv. ring.
      * apply derivable_pt_lim_ln; exact H.
    + field. lra.
  - eapply deriv_ext; [ | apply (derivable_pt_lim_opp id x 1) ].
    + intro y; reflexivity.
    + apply derivable_pt_lim_id.
  - apply deriv_square.
  - apply derivable_pt_lim_sqrt; exact H.
  - apply deriv_inv; exact H.
  - apply deriv_invsqrt; exact H.
  - apply deriv_cube.
  - apply deriv_tanh.
  - apply deriv_sigmoid.
  - eapply deriv_eq.
    + apply (deriv_ln_of (fun t => 1 + t) x 1).
      * lra.
      * apply deriv_1plus, deriv_id.
    + field. lra.
  - eapply deriv_eq.
    + eapply deriv_ext; [ | apply (derivable_pt_lim_minus exp (fct_cte 1) x (exp x) 0) ].
      * intro y; reflexivity.
      * apply derivable_pt_lim_exp.
      * apply derivable_pt_lim_const.
    + ring.
  - apply deriv_softplus.
Qed.

(* ---------- the stabilising constructors preserve value and definedness ---------- *)
Section Stab.
Variable stab : bool.
Variable env : nat -> R.

Lemma mkNeg_ok a : defined env a ->
  defined env (mkNeg stab a) /\ eval env (mkNeg stab a) = - eval env a.
Proof.
  intro H. unfold mkNeg. destruct stab; [ | simpl; auto ].
  destruct a; simpl in *; auto. destruct o; simpl in *; auto.
  split; [ tauto | ring ].
Qed.

Lemma mkNeg_eval a : eval env (mkNeg stab a) = - eval env a.
Proof.
  unfold mkNeg. destruct stab; [ | reflexivity ].
  destruct a; try reflexivity. destruct o; try reflexivity.
  simpl. ring.
Qed.

Lemma mkLog1p_ok a : defined env (U Log1p a) ->
  defined env (mkLog1p stab a) /\ eval env (mkLog1p stab a) = ln (1 + eval env a).
Proof.
  intros [Ha Hl]. unfold mkLog1p.
  destruct stab eqn:Es; [ | simpl; auto ].
  destruct a as [n| | | | |r|o a|o a b]; try (simpl in *; auto; fail).
  destruct o; try (simpl in *; auto; fail).
  - (* neg *)
    destruct a as [n| | | | |r|o a|o a b]; try (simpl in *; auto; fail).
    destruct o; try (simpl in *; auto; fail).
    split.
    + unfold mkNeg, mkSoftplus; simpl in *. tauto.
    + unfold mkNeg, mkSoftplus; simpl.
      replace (1 + - sigmoidR (eval env a)) with (1 - sigmoidR (eval env a)) by ring.
      rewrite one_minus_sigmoid, ln_sigmoid, Ropp_involutive. reflexivity.
Qed.

Lemma mkLog_ok a : defined env (U Ln a) ->
  defined env (mkLog stab a) /\ eval env (mkLog stab a) = ln (eval env a).
Proof.
  intros [Ha Hl]. unfold mkLog.
  destruct stab eqn:Es; [ | simpl; auto ].
  destruct a as [n| | | | |r|o a|o a b]; try (simpl in *; auto; fail).
  - destruct o; try (simpl in *; auto; fail).
    simpl in Ha. destruct Ha as [Ha _].
    pose proof (mkNeg_ok a Ha) as [D1 E1]. rewrite Es in *.
    cbn [logSigmoidStabilization].
    split.
    + unfold mkNeg at 1, mkSoftplus; simpl. simpl in D1. tauto.
    + unfold mkNeg at 1, mkSoftplus. cbn [eval usem].
      rewrite E1, ln_sigmoid. reflexivity.
  - cbn [logSigmoidStabilization logStabilization].
    destruct o; try (simpl in *; tauto).
    + simpl in Ha, Hl.
      destruct (isOne a) eqn:Ea.
      { destruct a; try discriminate. simpl in Hl.
        rewrite <- Es. apply mkLog1p_ok. simpl. tauto. }
      destruct (isOne b) eqn:Eb.
      { destruct b; try discriminate. simpl in Hl.
        assert (D : defined env (U Log1p a)) by (simpl; split; [tauto|lra]).
        destruct (mkLog1p_ok a D) as [D' E']. rewrite Es in *. split; [exact D'|].
        rewrite E'. simpl. f_equal. ring. }
      simpl; tauto.
    + simpl in Ha, Hl.
      destruct (isOne a) eqn:Ea.
      { destruct a; try discriminate. simpl in Hl.
        assert (Db : defined env b) by tauto.
        destruct (mkNeg_ok b Db) as [D1 E1]. rewrite Es in *.
        assert (D : defined env (U Log1p (mkNeg true b))).
        { cbn [defined udef]. split; [exact D1|]. rewrite E1. lra. }
        destruct (mkLog1p_ok (mkNeg true b) D) as [D' E']. rewrite Es in *.
        split; [exact D'|]. rewrite E', E1. simpl. f_equal. }
      simpl; tauto.
Qed.

Lemma mkSub_ok a b : defined env a -> defined env b ->
  defined env (mkSub stab a b) /\ eval env (mkSub stab a b) = eval env a - eval env b.
Proof.
  intros Ha Hb. unfold mkSub. destruct stab eqn:Es; [ | simpl; auto ].
  assert (Plain : defined env (B OSub a b) /\ eval env (B OSub a b) = eval env a - eval env b)
    by (simpl; auto).
  assert (Sig : forall x, a = COne -> b = U Sigmoid x ->
     defined env (mkSigmoid (mkNeg true x)) /\
     eval env (mkSigmoid (mkNeg true x)) = eval env a - eval env b).
  { intros x -> ->. simpl in Hb. destruct (mkNeg_ok x ltac:(tauto)) as [D E].
    rewrite Es in *. unfold mkSigmoid. cbn [defined udef eval usem]. split; [tauto|].
    rewrite E, one_minus_sigmoid. reflexivity. }
  assert (Rest : defined env (match isOne a, b with
        | true, U Sigmoid x => mkSigmoid (mkNeg true x) | _, _ => B OSub a b end)
     /\ eval env (match isOne a, b with
        | true, U Sigmoid x => mkSigmoid (mkNeg true x) | _, _ => B OSub a b end)
        = eval env a - eval env b).
  { destruct (isOne a) eqn:Ea; [ | exact Plain ].
    destruct a; try discriminate.
    destruct b as [n| | | | |r|o b|o b c]; try exact Plain.
    destruct o; try exact Plain. apply Sig; reflexivity. }
  destruct a as [n| | | | |r|o a|o a c]; try (destruct (isOne b); exact Rest).
  destruct o; try (destruct (isOne b); exact Rest).
  destruct (isOne b) eqn:Eb; [ | exact Rest ].
  destruct b; try discriminate. simpl in *. tauto.
Qed.

Lemma mkSub_eval a b : eval env (mkSub stab a b) = eval env a - eval env b.
Proof.
  unfold mkSub. destruct stab eqn:Es; [ | reflexivity ].
  assert (Rest : eval env (match isOne a, b with
        | true, U Sigmoid x => mkSigmoid (mkNeg true x) | _, _ => B OSub a b end)
        = eval env a - eval env b).
  { destruct (isOne a) eqn:Ea; [ | reflexivity ].
    destruct a; try discriminate.
    destruct b as [n| | | | |r|o b|o b c]; try reflexivity.
    destruct o; try reflexivity. unfold mkSigmoid.
    pose proof (mkNeg_eval b) as E. rewrite Es in E. cbn [eval usem].
    rewrite E, one_minus_sigmoid. reflexivity. }
  destruct a as [n| | | | |r|o a|o a c]; try (destruct (isOne b); exact Rest).
  destruct o; try (destruct (isOne b); exact Rest).
  destruct (isOne b) eqn:Eb; [ | exact Rest ].
  destruct b; try discriminate. reflexivity.
Qed.

(* ---------- unary rules ---------- *)
Definition good_uop (o : uop) : Prop :=
  match o with Sign | Ceil | Floor | Log2 | InverseSqrt => False | _ => True end.

Lemma unaryDiffExpr_ok o x y g :
  good_uop o -> diff_point o (eval env x) -> eval env y = usem o (eval env x) ->
  exists e, unaryDiffExpr stab o x y g = Some e /\ eval env e = eval env g * dsem o (eval env x).
Proof.
  intros Hg Hd Hy.
  destruct o; simpl in Hg; try contradiction; (eexists; split; [reflexivity|]);
    unfold mkMul, mkDiv, mkU, mkAdd, mkSigmoid; cbn [diff_point] in Hd;
    cbn [eval bsem]; rewrite ?mkNeg_eval, ?mkSub_eval; cbn [eval bsem];
    rewrite ?Hy; cbn [usem dsem].
  - ring.
  - ring.
  - ring.
  - ring.
  - field. lra.
  - ring.
  - ring.
  - pose proof (sqrt_lt_R0 _ Hd). field. lra.
  - field. exact Hd.
  - ring.
  - ring.
  - ring.
  - field. lra.
  - ring.
  - ring.
Qed.

Lemma log2DiffExpr_value x y g : 0 < eval env x ->
  exists e, unaryDiffExpr stab Log2 x y g = Some e /\
            eval env e = eval env g * ln 2 / eval env x.
Proof.
  intro H. eexists; split; [reflexivity|].
  unfold mkDiv; cbn [eval usem bsem]. pose proof ln2_pos. field. lra.
Qed.

Lemma log2DiffExpr_wrong x y g d e : 0 < eval env x -> eval env g <> 0 ->
  unaryDiffExpr stab Log2 x y g = Some e ->
  has_deriv (usem Log2) (eval env x) d ->
  eval env e <> eval env g * d.
Proof.
  intros Hx Hg He Hd Heq.
  destruct (log2DiffExpr_value x y g Hx) as [e' [He' Hv]].
  rewrite He in He'. injection He' as <-.
  pose proof (uniqueness_limite _ _ _ _ Hd (usem_deriv Log2 (eval env x) Hx)) as ->.
  rewrite Hv in Heq. simpl in Heq.
  pose proof ln2_pos as H0. pose proof ln2_lt1 as H1.
  assert (E : ln 2 * ln 2 = 1).
  { apply (Rmult_eq_reg_l (eval env g / eval env x)).
    - transitivity (eval env g * ln 2 / eval env x * ln 2); [field; lra|].
      rewrite Heq. field. lra.
    - unfold Rdiv. apply Rmult_integral_contrapositive_currified; [exact Hg|].
      apply Rinv_neq_0_compat. lra. }
  nra.
Qed.

Lemma inverseSqrtDiffExpr_value x y g : 0 < eval env x ->
  eval env y = usem InverseSqrt (eval env x) ->
  exists e, unaryDiffExpr stab InverseSqrt x y g = Some e /\
            eval env e = - eval env g * (eval env x * sqrt (eval env x)) / 2.
Proof.
  intros H Hy. eexists; split; [reflexivity|].
  rewrite mkNeg_eval. unfold mkDiv, mkMul, mkU. cbn [eval usem bsem]. rewrite Hy. cbn [usem].
  pose proof (sqrt_lt_R0 _ H) as Hs. pose proof (sqrt_sqrt (eval env x) ltac:(lra)) as Hss.
  set (s := sqrt (eval env x)) in *. rewrite <- Hss. field. lra.
Qed.

Lemma inverseSqrtDiffExpr_wrong x y g d e : 0 < eval env x -> eval env x <> 1 ->
  eval env g <> 0 -> eval env y = usem InverseSqrt (eval env x) ->
  unaryDiffExpr stab InverseSqrt x y g = Some e ->
  has_deriv (usem InverseSqrt) (eval env x) d ->
  eval env e <> eval env g * d.
Proof.
  intros Hx Hx1 Hg Hy He Hd Heq.
  destruct (inverseSqrtDiffExpr_value x y g Hx Hy) as [e' [He' Hv]].
  rewrite He in He'. injection He' as <-.
  pose proof (uniqueness_limite _ _ _ _ Hd (usem_deriv InverseSqrt (eval env x) Hx)) as ->.
  rewrite Hv in Heq. cbn [dsem] in Heq.
  pose proof (sqrt_lt_R0 _ Hx) as Hs. pose proof (sqrt_sqrt (eval env x) ltac:(lra)) as Hss.
  set (s := sqrt (eval env x)) in *. set (X := eval env x) in *.
  assert (E : X * X * X = 1).
  { apply (Rmult_eq_reg_l (eval env g)); [|exact Hg].
    transitivity (- 2 * (s * s * s) * (- eval env g * (X * s) / 2)).
    - rewrite <- Hss. field.
    - rewrite Heq. field. lra. }
  assert (H0 : (X - 1) * (X * X + X + 1) = 0) by (ring_simplify; ring_simplify in E; lra).
  apply Rmult_integral in H0. destruct H0 as [H0|H0]; [lra|nra].
Qed.

(* ---------- binary rules ---------- *)
Lemma deriv_pow_exponent x y : 0 < x ->
  derivable_pt_lim (fun t => Rpower x t) y (Rpower x y * ln x).
Proof.
  intro Hx. unfold Rpower. eapply deriv_eq.
  - eapply deriv_ext; [ | apply (derivable_pt_lim_comp (fun t => t * ln x) exp y (ln x)) ].
    + intro t; reflexivity.
    + eapply deriv_eq.
      * eapply deriv_ext; [ | apply (derivable_pt_lim_scal id (ln x) y 1) ].
        -- intro t. unfold mult_real_fct, id. ring.
        -- apply derivable_pt_lim_id.
      * ring.
    + apply derivable_pt_lim_exp.
  - ring.
Qed.

Lemma deriv_pow_base x y : 0 < x ->
  derivable_pt_lim (fun t => Rpower t y) x (y * Rpower x (y - 1)).
Proof. intro Hx. apply derivable_pt_lim_power. exact Hx. Qed.

Lemma binDiffExpr_ok o x y z g :
  bdef o (eval env x) (eval env y) -> defined env x -> defined env y ->
  eval env z = bsem o (eval env x) (eval env y) ->
  exists dx dy,
    has_deriv (fun t => bsem o t (eval env y)) (eval env x) dx /\
    has_deriv (fun t => bsem o (eval env x) t) (eval env y) dy /\
    eval env (fst (binDiffExpr stab o x y z g)) = eval env g * dx /\
    eval env (snd (binDiffExpr stab o x y z g)) = eval env g * dy.
Proof.
  intros Hd Dx Dy Hz. unfold has_deriv.
  destruct o; simpl in Hd; cbn [bsem].
  - exists 1, 1. repeat split; cbn [binDiffExpr fst snd]; try ring.
    + eapply deriv_eq.
      * eapply deriv_ext; [ | apply (derivable_pt_lim_plus id (fct_cte (eval env y)) _ 1 0) ].
        -- intro; reflexivity.
        -- apply derivable_pt_lim_id.
        -- apply derivable_pt_lim_const.
      * ring.
    + eapply deriv_eq.
      * eapply deriv_ext; [ | apply (derivable_pt_lim_plus (fct_cte (eval env x)) id _ 0 1) ].
        -- intro; reflexivity.
        -- apply derivable_pt_lim_const.
        -- apply derivable_pt_lim_id.
      * ring.
  - exists 1, (-1). repeat split; cbn [binDiffExpr fst snd]; rewrite ?mkNeg_eval; try ring.
    + eapply deriv_eq.
      * eapply deriv_ext; [ | apply (derivable_pt_lim_minus id (fct_cte (eval env y)) _ 1 0) ].
        -- intro; reflexivity.
        -- apply derivable_pt_lim_id.
        -- apply derivable_pt_lim_const.
      * ring.
    + eapply deriv_eq.
      * eapply deriv_ext; [ | apply (derivable_pt_lim_minus (fct_cte (eval env x)) id _ 0 1) ].
        -- intro; reflexivity.
        -- apply derivable_pt_lim_const.
        -- apply derivable_pt_lim_id.
      * ring.
  - exists (eval env y), (eval env x).
    repeat split; cbn [binDiffExpr fst snd]; unfold mkMul; cbn [eval bsem]; try ring.
    + eapply deriv_eq.
      * eapply deriv_ext; [ | apply (derivable_pt_lim_scal id (eval env y) _ 1) ].
        -- intro t; unfold mult_real_fct, id; ring.
        -- apply derivable_pt_lim_id.
      * ring.
    + eapply deriv_eq.
      * eapply deriv_ext; [ | apply (derivable_pt_lim_scal id (eval env x) _ 1) ].
        -- intro t; unfold mult_real_fct, id; ring.
        -- apply derivable_pt_lim_id.
      * ring.
  - exists (/ eval env y), (- (eval env x / (eval env y * eval env y))).
    repeat split; cbn [binDiffExpr fst snd]; unfold mkMul, mkDiv; cbn [eval bsem];
      rewrite ?mkNeg_eval; cbn [eval bsem]; rewrite ?Hz; cbn [bsem].
    + eapply deriv_eq.
      * eapply deriv_ext; [ | apply (derivable_pt_lim_scal id (/ eval env y) _ 1) ].
        -- intro t; unfold mult_real_fct, id, Rdiv; ring.
        -- apply derivable_pt_lim_id.
      * ring.
    + eapply deriv_eq.
      * eapply deriv_ext; [ | apply (derivable_pt_lim_scal (fun t => 1 / t) (eval env x) (eval env y)
            (- (1 / eval env y * (1 / eval env y)))) ].
        -- intro t; unfold mult_real_fct, Rdiv; ring.
        -- apply deriv_inv; exact Hd.
      * field. exact Hd.
    + field. exact Hd.
  - exists (eval env y * Rpower (eval env x) (eval env y - 1)),
           (Rpower (eval env x) (eval env y) * ln (eval env x)).
    assert (Dl : defined env (U Ln x)) by (simpl; auto).
    destruct (mkLog_ok x Dl) as [_ El].
    repeat split; cbn [binDiffExpr fst snd]; unfold mkMul, mkPow; cbn [eval bsem];
      rewrite ?mkSub_eval, ?El; cbn [eval]; rewrite ?Hz; cbn [bsem].
    + apply deriv_pow_base; exact Hd.
    + apply deriv_pow_exponent; exact Hd.
    + ring.
    + ring.
Qed.
End Stab.

(* ---------- automatic rules ---------- *)
Lemma unaryDiff_ok o x xd yd :
  good_uop o \/ o = Log2 -> diff_point o x ->
  unaryDiff o x (usem o x) xd yd = Some (xd + yd * dsem o x).
Proof.
  intros Hg Hd.
  assert (Hg' : match o with Sign | Ceil | Floor | InverseSqrt => False | _ => True end).
  { destruct o; try exact I; simpl in Hd; try contradiction.
    simpl in Hg. destruct Hg as [[]|Hg]; discriminate Hg. }
  clear Hg.
  destruct o; simpl in Hg'; try contradiction; cbn [unaryDiff usem dsem diff_point] in *; apply (f_equal Some).
  - ring.
  - ring.
  - ring.
  - ring.
  - field. lra.
  - pose proof ln2_pos. field. lra.
  - ring.
  - ring.
  - pose proof (sqrt_lt_R0 _ Hd). field. lra.
  - field. exact Hd.
  - ring.
  - ring.
  - ring.
  - field. lra.
  - ring.
  - ring.
Qed.

Lemma binDiff_ok o x y xd yd zd : bdef o x y ->
  exists dx dy,
    has_deriv (fun t => bsem o t y) x dx /\ has_deriv (fun t => bsem o x t) y dy /\
    binDiff o x y (bsem o x y) xd yd zd = (xd + zd * dx, yd + zd * dy).
Proof.
  intro Hd.
  assert (Dx : defined (fun n => if Nat.eqb n 0 then x else if Nat.eqb n 1 then y else
               if Nat.eqb n 2 then bsem o x y else zd) (Var 0)) by exact I.
  destruct (binDiffExpr_ok false _ o (Var 0) (Var 1) (Var 2) (Var 3)
              Hd Dx I eq_refl) as [dx [dy [H1 [H2 [H3 H4]]]]].
  exists dx, dy. split; [exact H1|]. split; [exact H2|].
  destruct o; cbn in H3, H4; cbn [binDiff bsem]; f_equal.
  - rewrite <- H3; ring.
  - rewrite <- H4; ring.
  - rewrite <- H3; ring.
  - rewrite <- H4; ring.
  - rewrite <- H3; ring.
  - rewrite <- H4; ring.
  - rewrite <- H3; ring.
  - rewrite <- H4; ring.
  - rewrite <- H3; ring.
  - rewrite <- H4; ring.
Qed.

(* ---------- cut-offs ---------- *)
Lemma exp_mono a b : a <= b -> exp a <= exp b.
Proof.
  intros [H|H]; [left; apply exp_increasing; exact H | right; rewrite H; reflexivity].
Qed.

Lemma sigmoid_cutoff x : Rabs (sigmoid_code x - sigmoidR x) <= exp (-19).
Proof.
  unfold sigmoid_code. destruct (Rlt_dec x (-709)) as [H|H].
  - rewrite Rminus_0_l, Rabs_Ropp, Rabs_right; [|left; apply sigmoid_pos].
    apply Rle_trans with (exp x).
    + unfold sigmoidR.
      apply Rle_trans with (/ exp (- x)).
      * apply Rinv_le_contravar; [apply exp_pos|]. lra.
      * rewrite exp_Ropp, Rinv_inv. lra.
    + apply exp_mono. lra.
  - destruct (Rlt_dec 19 x) as [H2|H2].
    + rewrite one_minus_sigmoid.
      rewrite Rabs_right; [|left; apply sigmoid_pos].
      apply Rle_trans with (exp (- x)).
      * unfold sigmoidR. rewrite Ropp_involutive.
        apply Rle_trans with (/ exp x).
        -- apply Rinv_le_contravar; [apply exp_pos|]. lra.
        -- rewrite <- exp_Ropp. lra.
      * apply exp_mono. lra.
    + unfold sigmoidR. replace (1 / (1 + exp (- x)) - / (1 + exp (- x))) with 0.
      * rewrite Rabs_R0. left. apply exp_pos.
      * unfold Rdiv. ring.
Qed.

Lemma ln1p_le t : 0 < t -> ln (1 + t) <= t.
Proof.
  intro H. rewrite <- (ln_exp t) at 2. left. apply ln_increasing; [lra|].
  apply exp_ineq1. lra.
Qed.

Lemma softplus_cutoff x : Rabs (softplus_code x - softplusR x) <= exp (-16).
Proof.
  unfold softplus_code, softplusR. destruct (Rlt_dec x (-708)) as [H|H].
  - pose proof (exp_pos x) as Hp.
    assert (H0 : 0 <= ln (1 + exp x)).
    { rewrite <- ln_1. left. apply ln_increasing; lra. }
    rewrite Rminus_0_l, Rabs_Ropp, Rabs_right; [|lra].
    eapply Rle_trans; [apply ln1p_le; exact Hp|]. apply exp_mono; lra.
  - destruct (Rlt_dec 16 x) as [H2|H2].
    + assert (E : ln (1 + exp x) = x + ln (1 + exp (- x))).
      { rewrite <- (ln_exp x) at 2. rewrite <- ln_mult.
        - f_equal. rewrite Rmult_plus_distr_l, <- exp_plus, Rplus_opp_r, exp_0. ring.
        - apply exp_pos.
        - apply one_exp_pos. }
      rewrite E. pose proof (exp_pos (- x)) as Hp.
      assert (H0 : 0 <= ln (1 + exp (- x))).
      { rewrite <- ln_1. left. apply ln_increasing; lra. }
      replace (x - (x + ln (1 + exp (- x)))) with (- ln (1 + exp (- x))) by ring.
      rewrite Rabs_Ropp, Rabs_right; [|lra].
      eapply Rle_trans; [apply ln1p_le; exact Hp|]. apply exp_mono; lra.
    + rewrite Rminus_eq_0, Rabs_R0. left. apply exp_pos.
Qed.

(* ---------- the operators compute the mathematical functions ---------- *)
Lemma usem_math o x : usem o x = math_u o x.
Proof.
  destruct o; cbn [usem math_u]; try reflexivity.
  - unfold signR. destruct (Rlt_dec x 0), (Rle_dec 0 x); lra.
  - ring.
  - unfold Rdiv. ring.
  - unfold Rdiv. ring.
  - ring.
  - unfold tanh, sinh, cosh. pose proof (exp_pos x); pose proof (exp_pos (-x)).
    field. lra.
  - unfold sigmoidR. rewrite exp_Ropp. pose proof (exp_pos x). field. lra.
Qed.

Lemma bsem_math o x y : bsem o x y = math_b o x y.
Proof. destruct o; reflexivity. Qed.

Lemma math_u_deriv o x : diff_point o x -> has_deriv (math_u o) x (dsem o x).
Proof.
  intro H. eapply deriv_ext; [apply usem_math|]. apply usem_deriv; exact H.
Qed.

Lemma stab_cor stab env o x y g :
  good_uop o -> diff_point o (eval env x) -> eval env y = math_u o (eval env x) ->
  exists e d, unaryDiffExpr stab o x y g = Some e /\ has_deriv (math_u o) (eval env x) d /\ eval env e = eval env g * d.
Proof.
  intros Hg Hd Hy. rewrite <- usem_math in Hy.
  destruct (unaryDiffExpr_ok stab env o x y g Hg Hd Hy) as [e [H1 H2]].
  exists e, (dsem o (eval env x)). split; [exact H1|]. split; [|exact H2].
  apply math_u_deriv; exact Hd.
Qed.

Lemma unaryDiff_cor o x xd yd :
  o <> InverseSqrt -> diff_point o x ->
  exists d, has_deriv (math_u o) x d /\ unaryDiff o x (math_u o x) xd yd = Some (xd + yd * d).
Proof.
  intros Hg Hd. exists (dsem o x). split; [apply math_u_deriv; exact Hd|].
  rewrite <- usem_math. apply unaryDiff_ok; [|exact Hd].
  destruct o; simpl; auto.
Qed.

Lemma log2_wrong_cor stab env x y g d e : 0 < eval env x -> eval env g <> 0 ->
  unaryDiffExpr stab Log2 x y g = Some e ->
  has_deriv (fun t => ln t / ln 2) (eval env x) d ->
  eval env e <> eval env g * d.
Proof.
  intros Hx Hg He Hd. apply (log2DiffExpr_wrong stab env x y g d e Hx Hg He).
  eapply deriv_ext; [|exact Hd]. intro t; reflexivity.
Qed.

Lemma invsqrt_wrong_cor stab env x y g d e : 0 < eval env x -> eval env x <> 1 ->
  eval env g <> 0 -> eval env y = / sqrt (eval env x) ->
  unaryDiffExpr stab InverseSqrt x y g = Some e ->
  has_deriv (fun t => / sqrt t) (eval env x) d ->
  eval env e <> eval env g * d.
Proof.
  intros Hx Hx1 Hg Hy He Hd.
  apply (inverseSqrtDiffExpr_wrong stab env x y g d e Hx Hx1 Hg); [|exact He|].
  - rewrite Hy. rewrite usem_math. reflexivity.
  - eapply deriv_ext; [|exact Hd]. intro t. rewrite usem_math. reflexivity.
Qed.

Lemma invsqrt_at_one stab env x y g d e : eval env x = 1 ->
  eval env y = / sqrt (eval env x) ->
  unaryDiffExpr stab InverseSqrt x y g = Some e ->
  has_deriv (fun t => / sqrt t) (eval env x) d ->
  eval env e = eval env g * d.
Proof.
  intros Hx Hy He Hd.
  destruct (inverseSqrtDiffExpr_value stab env x y g) as [e' [He' Hv]].
  - lra.
  - rewrite Hy, usem_math. reflexivity.
  - rewrite He in He'. injection He' as <-. rewrite Hv.
    assert (H0 : 0 < eval env x) by lra.
    pose proof (math_u_deriv InverseSqrt (eval env x) H0) as Hd'.
    pose proof (uniqueness_limite _ _ _ _ Hd Hd') as ->.
    cbn [dsem]. rewrite Hx, sqrt_1. field.
Qed.

Lemma invsqrt_auto_wrong x xd yd d : 0 < x -> yd <> 0 ->
  has_deriv (fun t => / sqrt t) x d ->
  unaryDiff InverseSqrt x (/ sqrt x) xd yd = Some xd /\ xd <> xd + yd * d.
Proof.
  intros Hx Hy Hd. split; [reflexivity|].
  pose proof (math_u_deriv InverseSqrt x Hx) as Hd'.
  pose proof (uniqueness_limite _ _ _ _ Hd Hd') as ->. cbn [dsem].
  intro E. assert (E' : yd * (- (1 / sqrt x) ^ 3 / 2) = 0) by lra.
  pose proof (sqrt_lt_R0 x Hx) as Hs.
  apply Rmult_integral in E'. destruct E' as [E'|E']; [contradiction|].
  assert (0 < (1 / sqrt x) ^ 3).
  { apply pow_lt. apply Rdiv_lt_0_compat; lra. }
  lra.
Qed.

(* ---------- LogSumExp ---------- *)
Lemma sumV_fold l : sumV l = fold_right Rplus 0 l.
Proof. induction l; simpl; congruence. Qed.

Lemma fold_Rmax_ge l : forall a, a <= fold_left Rmax l a /\ forall x, In x l -> x <= fold_left Rmax l a.
Proof.
  induction l as [|b l IH]; simpl; intro a; [split; [lra|contradiction]|].
  destruct (IH (Rmax a b)) as [H1 H2]. split.
  - eapply Rle_trans; [apply Rmax_l|exact H1].
  - intros x [->|Hx]; [eapply Rle_trans; [apply Rmax_r|exact H1]|auto].
Qed.

Lemma fold_Rmax_in l : forall a, fold_left Rmax l a = a \/ In (fold_left Rmax l a) l.
Proof.
  induction l as [|b l IH]; simpl; intro a; [auto|].
  destruct (IH (Rmax a b)) as [H|H]; [|auto].
  rewrite H. unfold Rmax. destruct (Rle_dec a b); auto.
Qed.

Lemma maxV_is_max l m : is_max l m -> maxV l = Some m.
Proof.
  intros [Hin Hle]. destruct l as [|a l]; [contradiction|]. unfold maxV. f_equal.
  destruct (fold_Rmax_ge l a) as [H1 H2].
  apply Rle_antisym.
  - destruct (fold_Rmax_in l a) as [H|H]; rewrite ?H; apply Hle; simpl; auto.
  - destruct Hin as [<-|Hin]; auto.
Qed.

Lemma sum_exp_shift l m :
  sumV (map exp (map (fun x => x - m) l)) = exp (- m) * sumV (map exp l).
Proof.
  induction l as [|a l IH]; cbn [map sumV]; [ring|].
  rewrite IH. unfold Rminus. rewrite exp_plus. ring.
Qed.

Lemma sum_exp_nonneg l : 0 <= sumV (map exp l).
Proof.
  induction l as [|a l IH]; cbn [map sumV]; [lra|]. pose proof (exp_pos a); lra.
Qed.

Lemma sum_exp_ge_in l m : In m l -> exp m <= sumV (map exp l).
Proof.
  induction l as [|a l IH]; cbn [map sumV]; [contradiction|].
  intros [->|H].
  - pose proof (sum_exp_nonneg l); lra.
  - specialize (IH H). pose proof (exp_pos a); lra.
Qed.

Lemma lse_value l m : is_max l m ->
  logSumExp l = Some (ln (exp (- m) * sumV (map exp l) + m)) /\ 1 <= exp (- m) * sumV (map exp l).
Proof.
  intro H. unfold logSumExp. rewrite (maxV_is_max l m H).
  rewrite sum_exp_shift. split; [reflexivity|].
  destruct H as [Hin _]. pose proof (sum_exp_ge_in l m Hin) as Hs.
  assert (E : exp (- m) * exp m = 1) by (rewrite <- exp_plus, Rplus_opp_l; apply exp_0).
  pose proof (exp_pos (- m)). nra.
Qed.

Lemma lse_max0 l : is_max l 0 -> logSumExp l = Some (true_lse l).
Proof.
  intro H. destruct (lse_value l 0 H) as [E _]. rewrite E. unfold true_lse.
  rewrite (sumV_fold (map exp l)), Ropp_0, exp_0. apply (f_equal (fun z => Some (ln z))). ring.
Qed.

Lemma lse_pos_wrong l m : is_max l m -> 0 < m ->
  exists v, logSumExp l = Some v /\ v < true_lse l.
Proof.
  intros H Hm. destruct (lse_value l m H) as [E Hs]. rewrite E.
  eexists; split; [reflexivity|]. unfold true_lse. change (fold_right Rplus 0 (map exp l)) with (sumV (map exp l)).
  remember (sumV (map exp l)) as T eqn:HT.
  apply ln_increasing; [lra|].
  pose proof (exp_ineq1 m ltac:(lra)) as He.
  assert (E1 : exp m * exp (- m) = 1) by (rewrite <- exp_plus, Rplus_opp_r; apply exp_0).
  assert (E2 : T = exp m * (exp (- m) * T)) by (rewrite <- Rmult_assoc, E1; ring).
  remember (exp (- m) * T) as S0 eqn:HS. nra.
Qed.

Lemma lse_single_neg_wrong m : -1 < m < 0 ->
  exists v, logSumExp (m :: nil) = Some v /\ v <> true_lse (m :: nil).
Proof.
  intros [H1 H2].
  assert (Hm : is_max (m :: nil) m).
  { split; [left; reflexivity|]. intros x [->|[]]. lra. }
  destruct (lse_value _ _ Hm) as [E _]. rewrite E. eexists; split; [reflexivity|].
  unfold true_lse. simpl.
  assert (E1 : exp (- m) * exp m = 1) by (rewrite <- exp_plus, Rplus_opp_l; apply exp_0).
  rewrite !Rplus_0_r, E1, ln_exp.
  intro Hl. pose proof (exp_ineq1 m ltac:(lra)) as He.
  assert (exp (ln (1 + m)) = exp m) by (rewrite Hl; reflexivity).
  rewrite exp_ln in H; lra.
Qed.

Lemma binDiffExpr_math stab env o x y z g :
  bdef o (eval env x) (eval env y) -> defined env x -> defined env y ->
  eval env z = math_b o (eval env x) (eval env y) ->
  exists dx dy,
    has_deriv (fun t => math_b o t (eval env y)) (eval env x) dx /\
    has_deriv (fun t => math_b o (eval env x) t) (eval env y) dy /\
    eval env (fst (binDiffExpr stab o x y z g)) = eval env g * dx /\
    eval env (snd (binDiffExpr stab o x y z g)) = eval env g * dy.
Proof.
  intros H1 H2 H3 H4. rewrite <- bsem_math in H4.
  destruct (binDiffExpr_ok stab env o x y z g H1 H2 H3 H4) as [dx [dy [A [B0 [C D]]]]].
  exists dx, dy. split; [|split; [|split; [exact C|exact D]]].
  - eapply deriv_ext; [|exact A]. intro t. apply bsem_math.
  - eapply deriv_ext; [|exact B0]. intro t. apply bsem_math.
Qed.

Lemma binDiff_math o x y xd yd zd : bdef o x y ->
  exists dx dy,
    has_deriv (fun t => math_b o t y) x dx /\ has_deriv (fun t => math_b o x t) y dy /\
    binDiff o x y (math_b o x y) xd yd zd = (xd + zd * dx, yd + zd * dy).
Proof.
  intros H1. rewrite <- bsem_math.
  destruct (binDiff_ok o x y xd yd zd H1) as [dx [dy [A [B0 C]]]].
  exists dx, dy. split; [|split; [|exact C]].
  - eapply deriv_ext; [|exact A]. intro t. apply bsem_math.
  - eapply deriv_ext; [|exact B0]. intro t. apply bsem_math.
Qed.
