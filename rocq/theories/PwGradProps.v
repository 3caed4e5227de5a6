(** C79: the gradient of any composition of pointwise operators. *)
From Coq Require Import Reals List PeanoNat Lra FunctionalExtensionality.
From Verif Require Import CalcModel CalcSpec CalcProofs PwGradModel PwGradSpec.
Import ListNotations.
Open Scope R_scope.

Lemma eval_meaning env e : eval env e = meaning env e.
Proof. induction e; cbn [eval meaning]; try reflexivity; [rewrite IHe; apply usem_math|rewrite IHe1, IHe2; apply bsem_math]. Qed.

Lemma meaning_ext env env' e : (forall n, env n = env' n) -> meaning env e = meaning env' e.
Proof. intro H. induction e; cbn [meaning]; congruence. Qed.

Lemma set_id env n m : set env n (env n) m = env m.
Proof. unfold set. destruct (Nat.eqb_spec m n); congruence. Qed.

Lemma meaning_set env n e : meaning (set env n (env n)) e = meaning env e.
Proof. apply meaning_ext. intro; apply set_id. Qed.

Lemma diff_udef o x : diff_point o x -> udef o x.
Proof. destruct o; cbn; try tauto; intros; lra. Qed.

Lemma smooth_defined env e : smooth env e -> defined env e.
Proof.
  induction e; cbn [smooth defined]; auto.
  - intros [H1 H2]. split; [auto|]. rewrite eval_meaning. apply diff_udef, H2.
  - intros [H1 [H2 H3]]. rewrite !eval_meaning. auto.
Qed.

(** The chain rule for an operator of two differentiable arguments. *)
Lemma chain_b o u v x du dv dx dy : bdef o (u x) (v x) ->
  has_deriv u x du -> has_deriv v x dv ->
  has_deriv (fun t => math_b o t (v x)) (u x) dx -> has_deriv (fun t => math_b o (u x) t) (v x) dy ->
  has_deriv (fun t => math_b o (u t) (v t)) x (dx * du + dy * dv).
Proof.
  unfold has_deriv. intros Hb Hu Hv Hx Hy. destruct o; cbn [math_b bdef] in *.
  - assert (E1 : dx = 1) by (eapply uniqueness_limite; [exact Hx|]; eapply deriv_eq; [apply (derivable_pt_lim_plus id (fct_cte (v x)) (u x) 1 0); [apply derivable_pt_lim_id|apply derivable_pt_lim_const]|ring]).
    assert (E2 : dy = 1) by (eapply uniqueness_limite; [exact Hy|]; eapply deriv_eq; [apply (derivable_pt_lim_plus (fct_cte (u x)) id (v x) 0 1); [apply derivable_pt_lim_const|apply derivable_pt_lim_id]|ring]).
    subst. eapply deriv_eq; [apply (derivable_pt_lim_plus u v x du dv); assumption|ring].
  - assert (E1 : dx = 1) by (eapply uniqueness_limite; [exact Hx|]; eapply deriv_eq; [apply (derivable_pt_lim_minus id (fct_cte (v x)) (u x) 1 0); [apply derivable_pt_lim_id|apply derivable_pt_lim_const]|ring]).
    assert (E2 : dy = -1) by (eapply uniqueness_limite; [exact Hy|]; eapply deriv_eq; [apply (derivable_pt_lim_minus (fct_cte (u x)) id (v x) 0 1); [apply derivable_pt_lim_const|apply derivable_pt_lim_id]|ring]).
    subst. eapply deriv_eq; [apply (derivable_pt_lim_minus u v x du dv); assumption|ring].
  - assert (E1 : dx = v x) by (eapply uniqueness_limite; [exact Hx|]; eapply deriv_eq; [apply (derivable_pt_lim_mult id (fct_cte (v x)) (u x) 1 0); [apply derivable_pt_lim_id|apply derivable_pt_lim_const]|unfold fct_cte, id; ring]).
    assert (E2 : dy = u x) by (eapply uniqueness_limite; [exact Hy|]; eapply deriv_eq; [apply (derivable_pt_lim_mult (fct_cte (u x)) id (v x) 0 1); [apply derivable_pt_lim_const|apply derivable_pt_lim_id]|unfold fct_cte, id; ring]).
    subst. eapply deriv_eq; [apply (derivable_pt_lim_mult u v x du dv); assumption|ring].
  - assert (E1 : dx = / v x) by (eapply uniqueness_limite; [exact Hx|]; eapply deriv_eq; [apply (derivable_pt_lim_div id (fct_cte (v x)) (u x) 1 0); [apply derivable_pt_lim_id|apply derivable_pt_lim_const|exact Hb]|unfold fct_cte, id, Rsqr; field; exact Hb]).
    assert (E2 : dy = - u x / (v x * v x)) by (eapply uniqueness_limite; [exact Hy|]; eapply deriv_eq; [apply (derivable_pt_lim_div (fct_cte (u x)) id (v x) 0 1); [apply derivable_pt_lim_const|apply derivable_pt_lim_id|exact Hb]|unfold fct_cte, id, Rsqr; field; exact Hb]).
    subst. eapply deriv_eq; [apply (derivable_pt_lim_div u v x du dv); assumption|unfold Rsqr; field; exact Hb].
  - assert (E1 : dx = v x / u x * Rpower (u x) (v x)).
    { eapply uniqueness_limite; [exact Hx|]. unfold Rpower. eapply deriv_eq.
      - apply (derivable_pt_lim_comp (fun t => v x * ln t) exp (u x) (v x * / u x)); [|apply derivable_pt_lim_exp].
        apply (derivable_pt_lim_scal ln (v x)). apply derivable_pt_lim_ln, Hb.
      - unfold Rdiv. ring. }
    assert (E2 : dy = ln (u x) * Rpower (u x) (v x)).
    { eapply uniqueness_limite; [exact Hy|]. eapply deriv_eq; [apply deriv_pow_exponent, Hb|ring]. }
    subst. unfold Rpower. eapply deriv_eq.
    + apply (derivable_pt_lim_comp (fun t => v t * ln (u t)) exp x (dv * ln (u x) + v x * (du / u x))); [|apply derivable_pt_lim_exp].
      apply (derivable_pt_lim_mult v (fun t => ln (u t)) x dv (du / u x)); [exact Hv|]. apply deriv_ln_of; assumption.
    + field. lra.
Qed.

(** Every smooth expression has a partial derivative, computed from the operators' ones. *)
Lemma deriv_tree env n : forall e, smooth env e ->
  match e with
  | Var m => partial_deriv env e n (if Nat.eqb m n then 1 else 0)
  | U o a => forall da, partial_deriv env a n da -> partial_deriv env e n (dsem o (meaning env a) * da)
  | B o a b => forall da db dx dy, partial_deriv env a n da -> partial_deriv env b n db ->
      has_deriv (fun t => math_b o t (meaning env b)) (meaning env a) dx ->
      has_deriv (fun t => math_b o (meaning env a) t) (meaning env b) dy ->
      partial_deriv env e n (dx * da + dy * db)
  | _ => partial_deriv env e n 0
  end.
Proof.
  unfold partial_deriv, has_deriv. intros e S. destruct e; cbn [meaning]; try (apply derivable_pt_lim_const).
  - unfold set. destruct (Nat.eqb n0 n); [apply derivable_pt_lim_id|apply derivable_pt_lim_const].
  - intros da H. destruct S as [_ S].
    eapply deriv_eq; [apply (derivable_pt_lim_comp (fun t => meaning (set env n t) e) (math_u o) (env n) da (dsem o (meaning env e)) H)|ring].
    rewrite meaning_set. apply math_u_deriv, S.
  - intros da db dx dy H1 H2 H3 H4. destruct S as [_ [_ S]].
    apply (chain_b o (fun t => meaning (set env n t) e1) (fun t => meaning (set env n t) e2)); rewrite ?meaning_set; assumption.
Qed.

Lemma total_app a b : total (a ++ b) = total a + total b.
Proof. unfold total. induction a as [|x a IH]; cbn; [ring|rewrite IH; ring]. Qed.

(** The symbolic gradient of every composition is the gradient, unless Log2 or
    InverseSqrt occur (C13 shows that their rules are wrong). *)
Theorem C79_symbolic : forall stab env e g n,
  smooth env e -> without Log2 e -> without InverseSqrt e ->
  exists d, partial_deriv env e n d /\
    total (map (meaning env) (received stab e g n)) = meaning env g * d.
Proof.
  intros stab env e. induction e as [m| | | | |r|o a IH|o a IHa b IHb]; intros g n S W1 W2;
    try (exists 0; split; [exact (deriv_tree env n _ S)|cbn [received map total fold_right]; ring]).
  - exists (if Nat.eqb m n then 1 else 0). split; [exact (deriv_tree env n _ S)|].
    cbn [received]. destruct (Nat.eqb m n); cbn [map total fold_right]; ring.
  - destruct S as [Sa So]. destruct W1 as [W1 V1], W2 as [W2 V2].
    assert (G : good_uop o). { destruct o; cbn in *; auto; contradiction. }
    rewrite <- eval_meaning in So.
    destruct (unaryDiffExpr_ok stab env o a (U o a) g G So eq_refl) as [ga [Eg Vg]].
    destruct (IH ga n Sa V1 V2) as [da [Da Ta]].
    exists (dsem o (meaning env a) * da). split; [apply (deriv_tree env n (U o a)); [rewrite eval_meaning in So; split; assumption|exact Da]|].
    cbn [received]. rewrite Eg, Ta, <- (eval_meaning env ga), Vg, !eval_meaning. ring.
  - destruct S as [Sa [Sb So]]. destruct W1 as [W1 V1], W2 as [W2 V2].
    destruct (binDiffExpr_math stab env o a b (B o a b) g) as [dx [dy [Hx [Hy [Ex Ey]]]]].
    { rewrite !eval_meaning. exact So. } { apply smooth_defined, Sa. } { apply smooth_defined, Sb. }
    { cbn [eval]. apply bsem_math. }
    rewrite !eval_meaning in *.
    cbn [received]. destruct (binDiffExpr stab o a b (B o a b) g) as [ga gb]. cbn [fst snd] in *.
    destruct (IHa ga n Sa W1 W2) as [da [Da Ta]]. destruct (IHb gb n Sb V1 V2) as [db [Db Tb]].
    exists (dx * da + dy * db). split; [exact (deriv_tree env n (B o a b) (conj Sa (conj Sb So)) da db dx dy Da Db Hx Hy)|].
    rewrite map_app, total_app, Ta, Tb, Ex, Ey. ring.
Qed.
Print Assumptions C79_symbolic.

(** The lisp machine: likewise, with Log2 right; it adds to what the input had. *)
Theorem C79_automatic : forall env e yd n acc,
  smooth env e -> without InverseSqrt e ->
  exists d, partial_deriv env e n d /\ accumulated env e yd n acc = acc + yd * d.
Proof.
  intros env e. induction e as [m| | | | |r|o a IH|o a IHa b IHb]; intros yd n acc S W;
    try (exists 0; split; [exact (deriv_tree env n _ S)|cbn [accumulated]; ring]).
  - exists (if Nat.eqb m n then 1 else 0). split; [exact (deriv_tree env n _ S)|].
    cbn [accumulated]. destruct (Nat.eqb m n); ring.
  - destruct S as [Sa So]. destruct W as [W V].
    cbn [accumulated eval]. rewrite eval_meaning.
    rewrite unaryDiff_ok; [|destruct o; cbn; auto; contradiction|exact So].
    destruct (IH (0 + yd * dsem o (meaning env a)) n acc Sa V) as [da [Da ->]].
    exists (dsem o (meaning env a) * da). split; [apply (deriv_tree env n (U o a)); [split; assumption|exact Da]|]. ring.
  - destruct S as [Sa [Sb So]]. destruct W as [W V].
    cbn [accumulated]. rewrite !eval_meaning. cbn [meaning].
    destruct (binDiff_math o (meaning env a) (meaning env b) 0 0 yd So) as [dx [dy [Hx [Hy E]]]]. rewrite E.
    destruct (IHa (0 + yd * dx) n acc Sa W) as [da [Da ->]].
    destruct (IHb (0 + yd * dy) n (acc + (0 + yd * dx) * da) Sb V) as [db [Db ->]].
    exists (dx * da + dy * db). split; [exact (deriv_tree env n (B o a b) (conj Sa (conj Sb So)) da db dx dy Da Db Hx Hy)|]. ring.
Qed.
Print Assumptions C79_automatic.

(** x * tanh(x) + x^y at x = 1, y = 3 is smooth and free of the two operators, and the
    gradient by y, ln 1 * 1, is 0. *)
Definition pw_ex : expr := B OAdd (B OMul (Var 0) (U Tanh (Var 0))) (B OPow (Var 0) (Var 1)).
Definition pw_env (n : nat) : R := match n with O => 1 | _ => 3 end.
Example pw_ex_ok : smooth pw_env pw_ex /\ without Log2 pw_ex /\ without InverseSqrt pw_ex /\
  length (received true pw_ex COne 0) = 3%nat /\ accumulated pw_env pw_ex 1 1 5 = 5.
Proof.
  split; [cbn; repeat split; lra|]. split; [cbn; repeat split; discriminate|]. split; [cbn; repeat split; discriminate|].
  split; [reflexivity|]. cbn. rewrite ln_1. ring.
Qed.
