From Coq Require Import Arith Reals List Bool Lia Lra Permutation.
From Verif Require Import CalcModel CalcSpec CalcProofs BackpropModel BackpropSpec BackpropProofs GradModel GradSpec.
Import ListNotations.
Open Scope R_scope.

(* ---------- binary chain rule ---------- *)
Definition dbx (o : bop) (x y : R) : R :=
  match o with
  | OAdd | OSub => 1
  | OMul => y
  | ODiv => / y
  | OPow => y * Rpower x (y - 1)
  end.
Definition dby (o : bop) (x y : R) : R :=
  match o with
  | OAdd => 1
  | OSub => -1
  | OMul => x
  | ODiv => - (x / (y * y))
  | OPow => Rpower x y * ln x
  end.

Lemma bsem_total o f g x a b :
  bdef o (f x) (g x) -> derivable_pt_lim f x a -> derivable_pt_lim g x b ->
  derivable_pt_lim (fun t => bsem o (f t) (g t)) x (dbx o (f x) (g x) * a + dby o (f x) (g x) * b).
Proof.
  intros Hd Hf Hg. destruct o; simpl in Hd; cbn [bsem dbx dby].
  - eapply deriv_eq; [apply (derivable_pt_lim_plus f g x a b Hf Hg)|ring].
  - eapply deriv_eq; [apply (derivable_pt_lim_minus f g x a b Hf Hg)|ring].
  - eapply deriv_eq; [apply (derivable_pt_lim_mult f g x a b Hf Hg)|ring].
  - eapply deriv_eq; [apply (derivable_pt_lim_div f g x a b Hf Hg Hd)|].
    unfold Rsqr. field. exact Hd.
  - unfold Rpower at 1. eapply deriv_eq.
    + apply (derivable_pt_lim_comp (fun t => g t * ln (f t)) exp x (b * ln (f x) + g x * (a / f x))).
      * apply (derivable_pt_lim_mult g (fun t => ln (f t)) x b (a / f x) Hg).
        apply deriv_ln_of; [exact Hd|exact Hf].
      * apply derivable_pt_lim_exp.
    + assert (E : Rpower (f x) (g x - 1) = Rpower (f x) (g x) / f x).
      { unfold Rminus. rewrite Rpower_plus, Rpower_Ropp, Rpower_1 by exact Hd. reflexivity. }
      rewrite E. unfold Rpower. field. lra.
Qed.

Lemma bin_partials o x y : bdef o x y ->
  has_deriv (fun t => bsem o t y) x (dbx o x y) /\ has_deriv (fun t => bsem o x t) y (dby o x y).
Proof.
  intro H. unfold has_deriv. split.
  - eapply deriv_eq; [apply (bsem_total o id (fct_cte y) x 1 0 H)|].
    + apply derivable_pt_lim_id.
    + apply derivable_pt_lim_const.
    + unfold id, fct_cte. ring.
  - eapply deriv_eq; [apply (bsem_total o (fct_cte x) id y 0 1 H)|].
    + apply derivable_pt_lim_const.
    + apply derivable_pt_lim_id.
    + unfold id, fct_cte. ring.
Qed.

Lemma bin_rule stab env o x y z g :
  bdef o (eval env x) (eval env y) -> defined env x -> defined env y ->
  eval env z = bsem o (eval env x) (eval env y) ->
  eval env (fst (binDiffExpr stab o x y z g)) = eval env g * dbx o (eval env x) (eval env y) /\
  eval env (snd (binDiffExpr stab o x y z g)) = eval env g * dby o (eval env x) (eval env y).
Proof.
  intros H1 H2 H3 H4.
  destruct (binDiffExpr_ok stab env o x y z g H1 H2 H3 H4) as [dx [dy [A [B0 [C D]]]]].
  destruct (bin_partials o _ _ H1) as [P Q].
  rewrite (uniqueness_limite _ _ _ _ P A), (uniqueness_limite _ _ _ _ Q B0). auto.
Qed.

Lemma diff_udef o x : diff_point o x -> udef o x.
Proof. destruct o; simpl; auto; lra. Qed.

(* ---------- the graph ---------- *)
Section G.
Variable stab : bool.
Variable env : nat -> R.
Variable prog : nat -> gnode.
Hypothesis Hwf : wf_prog prog.

Lemma unfold_fuel f : forall n f', (n < f)%nat -> (n < f')%nat -> unfoldN prog f n = unfoldN prog f' n.
Proof.
  induction f as [|f IH]; intros n f' H1 H2; [lia|]. destruct f' as [|f']; [lia|].
  cbn [unfoldN]. pose proof (Hwf n) as W. destruct (prog n) as [|r|o c|o a b]; try reflexivity.
  - f_equal. apply IH; lia.
  - f_equal; apply IH; lia.
Qed.

Lemma exprOf_eq n : exprOf prog n =
  match prog n with
  | GIn => Var n
  | GConst r => CUser r
  | GU o c => U o (exprOf prog c)
  | GB o a b => B o (exprOf prog a) (exprOf prog b)
  end.
Proof.
  unfold exprOf at 1. cbn [unfoldN]. pose proof (Hwf n) as W.
  destruct (prog n) as [|r|o c|o a b]; try reflexivity.
  - f_equal. apply unfold_fuel; lia.
  - f_equal; apply unfold_fuel; lia.
Qed.

Notation v n := (eval env (exprOf prog n)).

(* every operator is applied where it is differentiable and its rule is right *)
Hypothesis Hgood : forall n, match prog n with
  | GU o c => o <> Log2 /\ o <> InverseSqrt /\ diff_point o (v c)
  | GB o a b => bdef o (v a) (v b)
  | _ => True
  end.

Lemma defined_all n : defined env (exprOf prog n).
Proof.
  induction n as [n IH] using (well_founded_induction lt_wf). rewrite exprOf_eq.
  pose proof (Hwf n) as W. pose proof (Hgood n) as Gd.
  destruct (prog n) as [|r|o c|o a b]; simpl; auto.
  - split; [apply IH; lia|]. apply diff_udef. tauto.
  - split; [apply IH; lia|]. split; [apply IH; lia|exact Gd].
Qed.

Definition pullR (n i : nat) (g : R) : R :=
  match prog n, i with
  | GU o c, O => g * dsem o (v c)
  | GB o a b, O => g * dbx o (v a) (v b)
  | GB o a b, S O => g * dby o (v a) (v b)
  | _, _ => 0
  end.

Definition GS : gradSem R.
Proof.
  refine {| gzero := 0; gadd := Rplus; pull := pullR |}.
  - intros; ring.
  - intros; ring.
  - intros; ring.
  - intros n i a b. unfold pullR. destruct (prog n) as [| | |]; destruct i as [|[|i]]; ring.
  - intros n i. unfold pullR. destruct (prog n) as [| | |]; destruct i as [|[|i]]; ring.
Defined.

Lemma good_differentiable n o c : prog n = GU o c -> unaryDifferentiable o = true.
Proof.
  intro E. pose proof (Hgood n) as Gd. rewrite E in Gd. destruct Gd as [_ [_ Gd]].
  destruct o; simpl in Gd; try reflexivity; contradiction.
Qed.

Lemma wf_nd : wf_nodes (ndOf prog).
Proof.
  intro n. unfold ndOf. destruct (prog n) as [|r|o c|o a b]; simpl; repeat split; auto; discriminate.
Qed.

Lemma rules : right_rules GS (ndOf prog) addTOf (symDiffOf stab prog) (eval env).
Proof.
  split.
  - intros a b c H. unfold addTOf in H. injection H as <-. reflexivity.
  - intros n g l H. unfold symDiffOf in H. unfold ndOf. cbn [pull GS]. unfold pullR.
    pose proof (Hgood n) as Gd. pose proof (exprOf_eq n) as En.
    destruct (prog n) as [|r|o c|o a b] eqn:E; [discriminate| | |].
    + injection H as <-. split; [reflexivity|]. intros i _ Hi. simpl in Hi. lia.
    + destruct Gd as [G1 [G2 G3]].
      destruct (unaryDiffExpr_ok stab env o (exprOf prog c) (exprOf prog n) g) as [e [X1 X2]].
      { destruct o; try exact I; contradiction. }
      { exact G3. }
      { rewrite En. reflexivity. }
      rewrite X1 in H. injection H as <-. split; [reflexivity|].
      intros [|i] _ Hi; [|simpl in Hi; lia]. exists e. split; [reflexivity|exact X2].
    + destruct (bin_rule stab env o (exprOf prog a) (exprOf prog b) (exprOf prog n) g Gd
                  (defined_all a) (defined_all b)) as [X1 X2].
      { rewrite En. reflexivity. }
      destruct (binDiffExpr stab o (exprOf prog a) (exprOf prog b) (exprOf prog n) g) as [ga gb].
      simpl in X1, X2. injection H as <-. split; [reflexivity|].
      intros [|[|i]] _ Hi; simpl in Hi; [| |lia]; eexists; (split; [reflexivity|]); assumption.
Qed.

Lemma sym_total n g : sdop (ndOf prog n) = true -> exists l, symDiffOf stab prog n g = Some l.
Proof.
  unfold ndOf, symDiffOf. intro H. pose proof (Hgood n) as Gd.
  destruct (prog n) as [|r|o c|o a b] eqn:E; [discriminate|eauto| |].
  - pose proof (good_differentiable _ _ _ E) as D.
    destruct o; try discriminate; simpl; eauto.
  - destruct (binDiffExpr stab o (exprOf prog a) (exprOf prog b) (exprOf prog n) g). eauto.
Qed.

(* ---------- path sums are derivatives ---------- *)
Notation nd := (ndOf prog).

Lemma pullPath_scale p : forall d g, pullPath GS p (g * d) = pullPath GS p g * d.
Proof.
  induction p as [|[n i] p IH]; intros d g; [reflexivity|]. cbn [pullPath pull GS].
  rewrite <- IH. f_equal. unfold pullR. destruct (prog n); destruct i as [|[|i]]; ring.
Qed.

Lemma sum_scale d l : gsum GS (map (fun p => pullPath GS p (1 * d)) l)
                      = gsum GS (map (fun p => pullPath GS p 1) l) * d.
Proof.
  induction l as [|p l IH]; cbn [map gsum gadd gzero GS]; [ring|].
  cbn [gadd GS gzero] in *. rewrite IH, pullPath_scale. ring.
Qed.

Lemma gsum_map_cons n i l :
  gsum GS (map (fun p => pullPath GS p 1) (map (cons (n, i)) l))
  = gsum GS (map (fun p => pullPath GS p (pullR n i 1)) l).
Proof. rewrite map_map. reflexivity. Qed.

Lemma cons_nodup (e : edge) l : NoDup l -> NoDup (map (cons e) l).
Proof. apply NoDup_map_inj. congruence. Qed.

Lemma tangent w n : prog w = GIn ->
  exists D L, NoDup L /\ (forall p, In p L <-> Path nd n p w) /\
    D = gsum GS (map (fun p => pullPath GS p 1) L) /\
    derivable_pt_lim (fun t => eval (upd env w t) (exprOf prog n)) (env w) D.
Proof.
  intro Hw. induction n as [n IH] using (well_founded_induction lt_wf).
  assert (Env : upd env w (env w) = env \/ True) by auto. clear Env.
  assert (EE : forall e, eval (upd env w (env w)) e = eval env e).
  { induction e; simpl; try congruence. unfold upd.
    destruct (Nat.eqb_spec n0 w) as [->|]; reflexivity. }
  pose proof (Hwf n) as W. pose proof (Hgood n) as Gd. pose proof (exprOf_eq n) as En.
  destruct (prog n) as [|r|o c|o a b] eqn:E.
  - (* input *)
    destruct (Nat.eq_dec n w) as [->|Hne].
    + exists 1, [[]]. split; [repeat constructor; intros []|]. split.
      { intro p. split.
        - intros [<-|[]]. constructor.
        - intro H. inversion H as [|? i c q ? X _ _]; subst; [left; reflexivity|].
          unfold ndOf in X. rewrite Hw in X. destruct i; discriminate. }
      split; [simpl; ring|].
      rewrite En. eapply deriv_ext; [|apply derivable_pt_lim_id].
      intro t. simpl. unfold upd, id. rewrite Nat.eqb_refl. reflexivity.
    + exists 0, []. split; [constructor|]. split.
      { intro p. split; [intros []|]. intro H.
        inversion H as [|? i c q ? X _ _]; subst; [congruence|].
        unfold ndOf in X. rewrite E in X. destruct i; discriminate. }
      split; [reflexivity|]. rewrite En.
      eapply deriv_ext; [|apply (derivable_pt_lim_const (env n))].
      intro t. simpl. unfold upd, fct_cte. destruct (Nat.eqb_spec n w); [contradiction|reflexivity].
  - exists 0, []. split; [constructor|]. split.
    { intro p. split; [intros []|]. intro H.
      inversion H as [|? i c q ? X _ _]; subst; [congruence|].
      unfold ndOf in X. rewrite E in X. destruct i; discriminate. }
    split; [reflexivity|]. rewrite En.
    eapply deriv_ext; [|apply (derivable_pt_lim_const r)]. intro t. reflexivity.
  - destruct (IH c W) as [D [L [N1 [N2 [N3 N4]]]]].
    pose proof (good_differentiable _ _ _ E) as Hdf.
    exists (dsem o (v c) * D), (map (cons (n, 0%nat)) L).
    split; [apply cons_nodup; exact N1|]. split.
    { intro p. split.
      - intro H. apply in_map_iff in H. destruct H as [q [<- H]].
        econstructor; [| |apply N2; exact H]; unfold ndOf; rewrite E; [reflexivity|].
        simpl. rewrite Hdf. reflexivity.
      - intro H. inversion H as [|? i c' q ? X1 X2 X3]; subst; [congruence|].
        unfold ndOf in X1. rewrite E in X1. destruct i as [|[|i]]; try discriminate.
        simpl in X1. injection X1 as <-. apply in_map. apply N2. exact X3. }
    split.
    { rewrite gsum_map_cons. unfold pullR. rewrite E, sum_scale, <- N3. ring. }
    rewrite En. destruct Gd as [_ [_ Gd]].
    apply (derivable_pt_lim_comp (fun t => eval (upd env w t) (exprOf prog c)) (usem o)
             (env w) D (dsem o (v c)) N4).
    rewrite EE. apply usem_deriv. exact Gd.
  - destruct W as [Wa Wb].
    destruct (IH a Wa) as [Da [La [A1 [A2 [A3 A4]]]]].
    destruct (IH b Wb) as [Db [Lb [B1 [B2 [B3 B4]]]]].
    exists (dbx o (v a) (v b) * Da + dby o (v a) (v b) * Db),
           (map (cons (n, 0%nat)) La ++ map (cons (n, 1%nat)) Lb).
    split.
    { apply NoDup_app_i; [apply cons_nodup; exact A1|apply cons_nodup; exact B1|].
      intros p H1 H2. apply in_map_iff in H1, H2. destruct H1 as [p1 [<- _]].
      destruct H2 as [p2 [H2 _]]. congruence. }
    split.
    { intro p. rewrite in_app_iff. split.
      - intros [H|H]; apply in_map_iff in H; destruct H as [q [<- H]].
        + econstructor; [| |apply A2; exact H]; unfold ndOf; rewrite E; reflexivity.
        + econstructor; [| |apply B2; exact H]; unfold ndOf; rewrite E; reflexivity.
      - intro H. inversion H as [|? i c' q ? X1 X2 X3]; subst; [congruence|].
        unfold ndOf in X1. rewrite E in X1. destruct i as [|[|[|i]]]; try discriminate;
          simpl in X1; injection X1 as <-.
        + left. apply in_map. apply A2. exact X3.
        + right. apply in_map. apply B2. exact X3. }
    split.
    { rewrite map_app, gsum_app, !gsum_map_cons. cbn [gadd GS]. unfold pullR. rewrite E.
      rewrite !sum_scale, <- A3, <- B3. ring. }
    rewrite En. eapply deriv_eq.
    + apply (bsem_total o (fun t => eval (upd env w t) (exprOf prog a))
               (fun t => eval (upd env w t) (exprOf prog b)) (env w) Da Db); auto.
      rewrite !EE. exact Gd.
    + rewrite !EE. reflexivity.
Qed.

Lemma gsum_perm l l' : Permutation l l' -> gsum GS l = gsum GS l'.
Proof.
  induction 1; cbn [gsum gadd GS] in *; try congruence; try ring. 
Qed.

Lemma path_sum_unique w n val D L :
  is_path_sum GS nd [n] (fun _ => 1) w val ->
  NoDup L -> (forall p, In p L <-> Path nd n p w) ->
  D = gsum GS (map (fun p => pullPath GS p 1) L) -> val = D.
Proof.
  intros [M [M1 [M2 M3]]] L1 L2 L3. rewrite M3, L3.
  replace (map (fun p => pullPath GS p 1) L)
    with (map (fun op : nat * list edge => pullPath GS (snd op) 1) (map (fun p => (n, p)) L))
    by (rewrite map_map; reflexivity).
  apply gsum_perm. apply Permutation_map. apply NoDup_Permutation; [exact M1| |].
  - apply NoDup_map_inj; [congruence|exact L1].
  - intros [o p]. rewrite M2, in_map_iff. split.
    + intros [[<-|[]] H]. exists p. split; [reflexivity|]. apply L2; exact H.
    + intros [q [H1 H2]]. injection H1 as <- <-. split; [left; reflexivity|]. apply L2; exact H2.
Qed.

Theorem grad_is_derivative nparents sorted cost wrt :
  topo nd sorted -> In cost sorted -> wrt <> [] ->
  (forall w, In w wrt -> In w sorted /\ prog w = GIn /\ exists p, Path nd cost p w) ->
  exists gs, gradOf stab prog nparents sorted cost wrt = Ok gs /\ length gs = length wrt /\
    forall i w g, nth_error wrt i = Some w -> nth_error gs i = Some g ->
      derivable_pt_lim (fun t => eval (upd env w t) (exprOf prog cost)) (env w) (eval env g).
Proof.
  intros Ht Hc Hne Hw.
  destruct (backprop_succeeds nd wf_nd nparents GS addTOf (symDiffOf stab prog) (eval env) rules
              [cost] (fun a b => ex_intro _ _ eq_refl) sym_total sorted wrt [COne])
    as [[gs d] Hbp].
  - exact Ht.
  - repeat constructor; intros [].
  - intros o [<-|[]]. exact Hc.
  - intros w H. apply Hw; exact H.
  - intros n _. unfold ndOf. destruct (prog n); simpl; auto.
  - intros w H. left. destruct (Hw w H) as [_ [Hi _]]. unfold ndOf. rewrite Hi. reflexivity.
  - reflexivity.
  - intros w H. destruct (Hw w H) as [_ [_ [p Hp]]]. exists cost, p. split; [left; reflexivity|exact Hp].
  - intros o [<-|[]]. destruct wrt as [|w wrt]; [congruence|].
    destruct (Hw w (or_introl eq_refl)) as [_ [_ [p Hp]]]. exists w, p. split; [left; reflexivity|exact Hp].
  - exists gs. unfold gradOf. rewrite Hbp. split; [reflexivity|].
    destruct (backprop_correct nd wf_nd nparents GS addTOf (symDiffOf stab prog) (eval env) rules
                [cost] (fun _ => 1) sorted wrt [COne] gs d Ht) as [C1 C2].
    + repeat constructor; intros [].
    + intros o [<-|[]]. exact Hc.
    + intros w H. apply Hw; exact H.
    + intros [|[|i]] o t H1 H2; try discriminate. simpl in H2. injection H2 as <-. reflexivity.
    + exact Hbp.
    + split; [exact C1|]. intros i w g Hi Hg.
      destruct (C2 i w Hi) as [t [Ht' Hs]]. rewrite Hg in Ht'. injection Ht' as <-.
      destruct (Hw w (nth_error_In _ _ Hi)) as [_ [Hin _]].
      destruct (tangent w cost Hin) as [D [L [N1 [N2 [N3 N4]]]]].
      rewrite (path_sum_unique _ _ _ D L Hs N1 N2 N3). exact N4.
Qed.
End G.

Section Final.
Variable prog : nat -> gnode.
Hypothesis Hwf : wf_prog prog.

Lemma numberF_eval x f : forall n, (n < f)%nat -> numberF prog x f n = eval x (unfoldN prog f n).
Proof.
  induction f as [|f IH]; intros n H; [lia|]. cbn [numberF unfoldN].
  pose proof (Hwf n) as W. destruct (prog n) as [|r|o c|o a b]; simpl; try reflexivity.
  - rewrite usem_math, IH by lia. reflexivity.
  - rewrite bsem_math, !IH by lia. reflexivity.
Qed.

Lemma number_eval x n : number prog x n = eval x (exprOf prog n).
Proof. apply numberF_eval. lia. Qed.

Lemma ordered_topo l : ordered prog l -> topo (ndOf prog) l.
Proof.
  induction l as [|n l IH]; simpl; [auto|]. intros [H1 [H2 H3]].
  split; [exact H1|]. split; [|apply IH; exact H3].
  intros c Hc. assert (X : In c l).
  { unfold ndOf in Hc. destruct (prog n) as [|r|o d|o a b]; simpl in Hc; try contradiction.
    - destruct Hc as [<-|[]]. exact H2.
    - destruct Hc as [<-|[<-|[]]]; tauto. }
  split; [exact X|]. intros ->. contradiction.
Qed.

Theorem grad_main stab x nparents sorted cost wrt :
  smooth_at prog x ->
  ordered prog sorted -> In cost sorted -> wrt <> [] ->
  (forall w, In w wrt -> In w sorted /\ prog w = GIn /\ depends prog w cost) ->
  exists gs, gradOf stab prog nparents sorted cost wrt = Ok gs /\ length gs = length wrt /\
    forall i w g, nth_error wrt i = Some w -> nth_error gs i = Some g ->
      has_deriv (fun t => number prog (setInput x w t) cost) (x w) (eval x g).
Proof.
  intros Hs Ho Hc Hne Hw.
  assert (Hgood : forall n, match prog n with
    | GU o c => o <> Log2 /\ o <> InverseSqrt /\ diff_point o (eval x (exprOf prog c))
    | GB o a b => bdef o (eval x (exprOf prog a)) (eval x (exprOf prog b))
    | _ => True end).
  { intro n. pose proof (Hs n) as H. destruct (prog n); auto; rewrite <- !number_eval; exact H. }
  destruct (grad_is_derivative stab x prog Hwf Hgood nparents sorted cost wrt (ordered_topo _ Ho) Hc Hne)
    as [gs [G1 [G2 G3]]].
  - intros w H. destruct (Hw w H) as [H1 [H2 H3]]. split; [exact H1|]. split; [exact H2|].
    clear - H3 Hgood. induction H3 as [|n o c E _ [p Hp]|n o a b E _ [p Hp]|n o a b E _ [p Hp]].
    + exists []. constructor.
    + exists ((n, 0%nat) :: p). econstructor; [| |exact Hp]; unfold ndOf; rewrite E; [reflexivity|].
      simpl. rewrite (good_differentiable x prog Hgood n o c E). reflexivity.
    + exists ((n, 0%nat) :: p). econstructor; [| |exact Hp]; unfold ndOf; rewrite E; reflexivity.
    + exists ((n, 1%nat) :: p). econstructor; [| |exact Hp]; unfold ndOf; rewrite E; reflexivity.
  - exists gs. split; [exact G1|]. split; [exact G2|]. intros i w g Hi Hg.
    unfold has_deriv. eapply deriv_ext; [|exact (G3 i w g Hi Hg)].
    intro t. symmetry. apply number_eval.
Qed.

Theorem grad_rejects stab nparents sorted cost wrt w :
  In w wrt -> ~ depends prog w cost ->
  gradOf stab prog nparents sorted cost wrt = Fail ENonDiffWRT.
Proof.
  intros Hw Hd. unfold gradOf.
  rewrite (backprop_rejects (ndOf prog) (wf_nd prog) nparents addTOf (symDiffOf stab prog) [cost]
             sorted (fun _ => None) wrt [COne] w); [reflexivity| |exact Hw|].
  - intros n _. unfold ndOf. destruct (prog n); simpl; auto.
  - intros o p [<-|[]] Hp. apply Hd. clear - Hp.
    remember cost as c0 eqn:Ec. clear Ec. induction Hp as [a|a i c p b X1 X2 Hp IH]; [constructor|].
    unfold ndOf in X1. destruct (prog a) as [|r|o c'|o a' b'] eqn:E; simpl in X1.
    + destruct i; discriminate.
    + destruct i; discriminate.
    + destruct i as [|[|i]]; try discriminate. injection X1 as <-. eapply dep_u; eauto.
    + destruct i as [|[|[|i]]]; try discriminate; injection X1 as <-; [eapply dep_l|eapply dep_r]; eauto.
Qed.
End Final.
