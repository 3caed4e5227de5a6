(** Property theorems C12 and C53: the lisp machine. *)
From Coq Require Import Arith ZArith Reals List Bool Lra Lia.
From Verif Require Import CalcModel CalcSpec CalcProofs BackpropModel GradModel GradSpec GradProofs
  LispModel LispSpec LispProofs.
Import ListNotations.
Local Open Scope nat_scope.

(** ** C12 *)

(** A fresh machine executes all nodes in order, then differentiates those with
    a differentiable operator in the opposite order. *)
Theorem C12_first_run_is_complete :
  forall (S : Type) (sorted : list nat) (exec : nat -> S -> S * bool) (isAD : nat -> bool)
         (bad : nat -> S -> bool) (diff : nat -> S -> S * bool) (s s1 s2 : S),
    all_done (watched exec bad) sorted s s1 ->
    all_done diff (rev (filter isAD sorted)) s1 s2 ->
    exists m, runAll S sorted exec isAD bad diff true true (newMachine S s) = (m, Done) /\
              lst m = s2.
Proof.
  intros S sorted exec isAD bad diff s s1 s2 A D. eexists. split.
  - apply (run_from S sorted exec isAD bad diff true [] sorted s s1 s2); auto.
  - reflexivity.
Qed.

(** Running again without Reset changes nothing. *)
Theorem C12_second_run_does_nothing :
  forall (S : Type) (sorted : list nat) (exec : nat -> S -> S * bool) (isAD : nat -> bool)
         (bad : nat -> S -> bool) (diff : nat -> S -> S * bool) (s s1 s2 : S) m,
    all_done (watched exec bad) sorted s s1 ->
    all_done diff (rev (filter isAD sorted)) s1 s2 ->
    runAll S sorted exec isAD bad diff true true (newMachine S s) = (m, Done) ->
    runAll S sorted exec isAD bad diff true true m = (m, Done).
Proof.
  intros S sorted exec isAD bad diff s s1 s2 m A D E.
  pose proof (run_from S sorted exec isAD bad diff true [] sorted s s1 s2 eq_refl eq_refl A D) as F.
  unfold newMachine in E. cbn [length Z.of_nat] in F. rewrite F in E. injection E as <-.
  apply (run_from S sorted exec isAD bad diff true sorted [] s2 s2 s2); auto;
    [rewrite app_nil_r; reflexivity|constructor|constructor].
Qed.

(** After any run and a Reset, only the last node is executed, and it is the only
    one that is differentiated. *)
Theorem C12_after_reset_only_the_last_node :
  forall (S : Type) (l : list nat) (n : nat) (exec : nat -> S -> S * bool) (isAD : nat -> bool)
         (bad : nat -> S -> bool) (diff : nat -> S -> S * bool) m0 m o (s1 s2 : S),
    let run := runAll S (l ++ [n]) exec isAD bad diff true true in
    run m0 = (m, o) ->
    watched exec bad n (lst m) = (s1, true) ->
    all_done diff (if isAD n then [n] else []) s1 s2 ->
    exists m', run (reset S (l ++ [n]) m) = (m', Done) /\ lst m' = s2.
Proof.
  intros S l n exec isAD bad diff m0 m o s1 s2 run E W D.
  assert (Q : lq m = []).
  { pose proof (runAll_q S (l ++ [n]) exec isAD bad diff true m0) as Q.
    fold run in Q. rewrite E in Q. exact Q. }
  unfold reset. rewrite Q. simpl length. rewrite app_length. simpl length.
  replace (Z.of_nat (length l + 1) - 1)%Z with (Z.of_nat (length l)) by lia.
  eexists. split.
  - apply (run_from S (l ++ [n]) exec isAD bad diff true l [n] (lst m) s1 s2); auto.
    + econstructor; [exact W|constructor].
    + simpl. destruct (isAD n); exact D.
  - reflexivity.
Qed.

(** A forward-only machine is the same in this. *)
Theorem C12_after_reset_forward_only :
  forall (S : Type) (l : list nat) (n : nat) (exec : nat -> S -> S * bool) (isAD : nat -> bool)
         (bad : nat -> S -> bool) (diff : nat -> S -> S * bool) m (s1 : S),
    let run := runAll S (l ++ [n]) exec isAD bad diff true false in
    watched exec bad n (lst m) = (s1, true) ->
    exists m', run (reset S (l ++ [n]) m) = (m', Done) /\ lst m' = s1.
Proof.
  intros S l n exec isAD bad diff m s1 run W. unfold reset. rewrite app_length. simpl length.
  replace (Z.of_nat (length l + 1) - 1)%Z with (Z.of_nat (length l)) by lia.
  eexists. split.
  - apply (run_from_fwdonly S (l ++ [n]) exec isAD bad diff false l [n] (lst m) s1); auto.
    econstructor; [exact W|constructor].
  - reflexivity.
Qed.

(** When a node fails, the error names the one after it (none for the last), and
    the next RunAll goes on behind the failed node as if it had worked. *)
Theorem C12_error_names_the_next_node :
  forall (S : Type) (l1 : list nat) (n : nat) (l2 : list nat) (exec : nat -> S -> S * bool)
         (isAD : nat -> bool) (bad : nat -> S -> bool) (diff : nat -> S -> S * bool)
         (s s1 s2 s3 s4 : S),
    let run := runAll S (l1 ++ n :: l2) exec isAD bad diff true true in
    all_done (watched exec bad) l1 s s1 -> exec n s1 = (s2, false) ->
    exists m, run (newMachine S s) = (m, Failed (hd_error l2)) /\ lst m = s2 /\
      (all_done (watched exec bad) l2 s2 s3 -> all_done diff (rev (filter isAD l2)) s3 s4 ->
       exists m', run m = (m', Done) /\ lst m' = s4).
Proof.
  intros S l1 n l2 exec isAD bad diff s s1 s2 s3 s4 run A X.
  eexists. split; [apply (run_fails S _ exec isAD bad diff true l1 n l2 s s1 s2); auto|].
  split; [reflexivity|]. intros A2 D2. eexists. split.
  - replace (length l1 + 1) with (length (l1 ++ [n])) by (rewrite app_length; reflexivity).
    apply (run_from S _ exec isAD bad diff true (l1 ++ [n]) l2 s2 s3 s4); auto.
    rewrite <- app_assoc. reflexivity.
  - reflexivity.
Qed.

(** When a node fails the goroutine goes on: it may still differentiate any
    number of the executed nodes (last first) after RunAll has returned the
    error. *)
Theorem C12_backward_half_after_the_error :
  forall (S : Type) (l1 : list nat) (n : nat) (l2 : list nat) (exec : nat -> S -> S * bool)
         (isAD : nat -> bool) (bad : nat -> S -> bool) (diff : nat -> S -> S * bool)
         (s s1 s2 s3 : S) (qa qb : list nat),
    all_done (watched exec bad) l1 s s1 -> exec n s1 = (s2, false) ->
    filter isAD l1 = qa ++ qb -> all_done diff (rev qb) s2 s3 ->
    exists m m', forwardHalf S (l1 ++ n :: l2) exec isAD bad true true (newMachine S s) = (m, false) /\
      background S diff (LM (lfwd m) (Z.of_nat (length (lq m)) - 1) (lq m) (lst m)) m' /\
      lst m' = s3.
Proof.
  intros S l1 n l2 exec isAD bad diff s s1 s2 s3 qa qb A X Q D.
  eexists. eexists. split; [|split].
  - unfold forwardHalf, newMachine. change 0%Z with (Z.of_nat (length (@nil nat))).
    apply (fwd_fail S _ exec isAD bad true [] l1 n l2 _ _ s s1 s2); auto.
    rewrite app_length. simpl. lia.
  - cbn [lfwd lbwd lq lst app]. unfold queued.
    rewrite (filter_ext _ isAD) by (intro; apply andb_true_r). rewrite Q.
    pose proof (background_prefix S diff (Z.of_nat (length (@nil nat) + Datatypes.S (length l1)))
                  [] qa qb s2 s3 D) as B.
    rewrite app_nil_r in B. exact B.
  - reflexivity.
Qed.

(** The cases, with the trace of what was done as the state: nodes 0..3, node 0
    an input; executing is logged as (true, n), differentiating as (false, n);
    node [k] fails. *)
Definition traceRun (k : nat) (m : lm (list (bool * nat))) :=
  runAll (list (bool * nat)) [0; 1; 2; 3]
    (fun n s => if Nat.eqb n k then (s, false) else (s ++ [(true, n)], true))
    (fun n => negb (Nat.eqb n 0)) (fun _ _ => false)
    (fun n s => (s ++ [(false, n)], true)) true true m.
Example C12_case_first : lst (fst (traceRun 9 (newMachine _ []))) =
  [(true, 0); (true, 1); (true, 2); (true, 3); (false, 3); (false, 2); (false, 1)].
Proof. reflexivity. Qed.
Example C12_case_reset :
  traceRun 9 (reset _ [0; 1; 2; 3] (LM 4 (-1) [] [])) = (LM 4 (-1) [] [(true, 3); (false, 3)], Done).
Proof. reflexivity. Qed.
Example C12_case_error : traceRun 1 (newMachine _ []) = (LM 2 (-1) [] [(true, 0)], Failed (Some 2)) /\
  snd (traceRun 3 (newMachine _ [])) = Failed None /\
  traceRun 1 (fst (traceRun 1 (newMachine _ []))) =
    (LM 4 (-1) [] [(true, 0); (true, 2); (true, 3); (false, 3); (false, 2)], Done).
Proof. repeat split; reflexivity. Qed.

(** Resetting and running once more does not recompute the graph, so after a new
    Let the results are not those of the new inputs: tanh(w) * tanh(w) at w = 0,
    then w set to 1. *)
Definition lispProg (n : nat) : gnode :=
  match n with 0 => GIn | 1 => GU Tanh 0 | 2 => GB OMul 1 1 | _ => GConst 0 end.
Theorem C12_reset_recomputes_refuted :
  ~ (forall prog isRoot sorted s m m' w v,
       prog w = GIn -> In w sorted ->
       runScalar prog isRoot sorted (newMachine _ s) = (m, Done) ->
       runScalar prog isRoot sorted
         (reset _ sorted (LM (lfwd m) (lbwd m) (lq m) (letValue (lst m) w v))) = (m', Done) ->
       forall n, In n sorted -> valueOf (lst m') n =
         Some (number prog (setInput (fun i => before (valueOf s i)) w v) n)).
Proof.
  intro H.
  set (s := fun n => if Nat.eqb n 0 then Some (BVal 0%R) else None) in *.
  set (r := runScalar lispProg (fun n => Nat.eqb n 2) [0; 1; 2]) in *.
  set (m := fst (r (newMachine _ s))) in *.
  set (m' := fst (r (reset _ [0; 1; 2] (LM (lfwd m) (lbwd m) (lq m) (letValue (lst m) 0 1%R))))) in *.
  specialize (H lispProg (fun n => Nat.eqb n 2) [0; 1; 2] s m m' 0 1%R eq_refl (or_introl eq_refl)).
  fold r in H.
  assert (E1 : r (newMachine _ s) = (m, Done)).
  { rewrite (surjective_pairing (r (newMachine _ s))). f_equal. }
  assert (E2 : r (reset _ [0; 1; 2] (LM (lfwd m) (lbwd m) (lq m) (letValue (lst m) 0 1%R))) = (m', Done)).
  { rewrite (surjective_pairing (r (reset _ _ _))). f_equal. }
  specialize (H E1 E2 1 (or_intror (or_introl eq_refl))).
  assert (L : valueOf (lst m') 1 = Some (tanh 0)).
  { lazy beta iota zeta delta -[usem unaryDiff binDiff bsem Rplus Rmult]. reflexivity. }
  assert (K : number lispProg (setInput (fun i => before (valueOf s i)) 0 1%R) 1 = tanh 1).
  { change (math_u Tanh 1%R = usem Tanh 1%R). symmetry. apply usem_math. }
  rewrite L, K in H. clear - H. injection H as H.
  unfold tanh, sinh, cosh in H. rewrite Ropp_0, exp_0 in H.
  pose proof (exp_increasing (-1) 1 ltac:(lra)) as I.
  pose proof (exp_pos (-1)) as P. pose proof (exp_pos 1) as Q.
  change (- (1))%R with (-1)%R in H. assert (Z : (0 < (exp 1 - exp (-1)) / 2 / ((exp 1 + exp (-1)) / 2))%R).
  { apply Rdiv_lt_0_compat; lra. }
  rewrite <- H in Z. replace ((1 - 1) / 2 / ((1 + 1) / 2))%R with 0%R in Z by field. lra.
Qed.

(** ** C53 *)

Lemma C53_input_value : forall prog x n, prog n = GIn -> number prog x n = x n.
Proof. intros prog x n H. unfold number. cbn [numberF]. rewrite H. reflexivity. Qed.

(** On every graph of scalar operators: a fresh machine succeeds, every node gets
    its value, and to each input's gradient exactly the derivative of the sum of
    the roots is added. *)
Theorem C53_lisp_values_and_gradients :
  forall (prog : nat -> gnode) (isRoot : nat -> bool) (x : nat -> R) (sorted : list nat)
         (s0 : bindings),
    wf_prog prog -> executable prog [] sorted -> smooth_auto prog x ->
    (forall n, In n sorted -> prog n = GIn -> valueOf s0 n = Some (x n)) ->
    exists s, freshRun prog isRoot sorted s0 = (s, Done) /\
      (forall n, In n sorted -> valueOf s n = Some (number prog x n)) /\
      (forall w, In w sorted -> prog w = GIn ->
         exists d, has_deriv (fun t => cost_of prog (filter isRoot sorted) (setInput x w t)) (x w) d /\
                   gradAt s w = Some (before (gradAt s0 w) + d)%R).
Proof.
  intros prog isRoot x sorted s0 Hwf Hex Hsm Hi.
  destruct (lisp_run_state prog Hwf isRoot x Hsm sorted Hex s0 Hi) as [s [A [B C]]].
  exists s. split; [exact A|]. split; [exact B|]. intros w Hw1 Hw2.
  exists (gradOf prog isRoot x sorted w). split; [apply cost_deriv; assumption|apply C; assumption].
Qed.

(** So training with a new machine per step and never zeroing the gradients adds
    them up: k runs give k times the derivative. *)
Theorem C53_gradients_accumulate_over_machines :
  forall (prog : nat -> gnode) (isRoot : nat -> bool) (x : nat -> R) (sorted : list nat)
         (s0 : bindings) (k : nat),
    wf_prog prog -> executable prog [] sorted -> smooth_auto prog x ->
    (forall n, In n sorted -> prog n = GIn -> valueOf s0 n = Some (x n)) ->
    exists s, freshRuns prog isRoot (S k) sorted s0 = (s, Done) /\
      (forall w, In w sorted -> prog w = GIn ->
         exists d, has_deriv (fun t => cost_of prog (filter isRoot sorted) (setInput x w t)) (x w) d /\
                   gradAt s w = Some (before (gradAt s0 w) + INR (S k) * d)%R).
Proof.
  intros prog isRoot x sorted s0 k Hwf Hex Hsm Hi.
  destruct (lisp_runs_state prog Hwf isRoot x Hsm sorted Hex k s0 Hi) as [s [A C]].
  exists s. split; [exact A|]. intros w Hw1 Hw2.
  exists (gradOf prog isRoot x sorted w). split; [apply cost_deriv; assumption|apply C; assumption].
Qed.

(** Nor does binding a new value to an input between two machines: [Let] replaces the
    value inside the dual value, and the second machine adds the derivative at the
    new point to the derivative at the old one. *)
Theorem C53_let_keeps_the_gradient :
  forall (prog : nat -> gnode) (isRoot : nat -> bool) (x : nat -> R) (sorted : list nat)
         (s0 : bindings) (w : nat) (v : R),
    wf_prog prog -> executable prog [] sorted ->
    smooth_auto prog x -> smooth_auto prog (setInput x w v) ->
    (forall n, In n sorted -> prog n = GIn -> valueOf s0 n = Some (x n)) ->
    In w sorted -> prog w = GIn ->
    exists s s', freshRun prog isRoot sorted s0 = (s, Done) /\
      freshRun prog isRoot sorted (letValue s w v) = (s', Done) /\
      (forall n, In n sorted -> valueOf s' n = Some (number prog (setInput x w v) n)) /\
      (forall u, In u sorted -> prog u = GIn ->
         exists d d',
           has_deriv (fun t => cost_of prog (filter isRoot sorted) (setInput x u t)) (x u) d /\
           has_deriv (fun t => cost_of prog (filter isRoot sorted) (setInput (setInput x w v) u t))
                     (setInput x w v u) d' /\
           gradAt s' u = Some (before (gradAt s0 u) + d + d')%R).
Proof.
  intros prog isRoot x sorted s0 w v Hwf Hex Hs1 Hs2 Hi Hw Gw.
  destruct (C53_lisp_values_and_gradients prog isRoot x sorted s0 Hwf Hex Hs1 Hi) as [s [A [B C]]].
  assert (V : forall n, In n sorted -> prog n = GIn ->
              valueOf (letValue s w v) n = Some (setInput x w v n)).
  { intros n Hn Gn. pose proof (B n Hn) as Bn. pose proof (C53_input_value prog x n Gn) as En.
    unfold valueOf, letValue, upd, setInput in *.
    destruct (Nat.eqb n w) eqn:E.
    - apply Nat.eqb_eq in E. subst. destruct (s w) as [[]|]; reflexivity.
    - rewrite En in Bn. exact Bn. }
  destruct (C53_lisp_values_and_gradients prog isRoot (setInput x w v) sorted (letValue s w v) Hwf Hex Hs2 V)
    as [s' [A' [B' C']]].
  exists s, s'. split; [exact A|]. split; [exact A'|]. split; [exact B'|].
  intros u Hu Gu. destruct (C u Hu Gu) as [d [D G]]. destruct (C' u Hu Gu) as [d' [D' G']].
  exists d, d'. split; [exact D|]. split; [exact D'|]. rewrite G'. f_equal. f_equal.
  assert (K : gradAt (letValue s w v) u = gradAt s u).
  { unfold gradAt, letValue, upd in *. destruct (Nat.eqb u w) eqn:E; [|reflexivity].
    apply Nat.eqb_eq in E. subst. destruct (s w) as [[]|]; try discriminate G. reflexivity. }
  rewrite K, G. reflexivity.
Qed.

(** tanh(w) * tanh(w), w = 2 with a gradient of 5 left from before. *)
Example C53_case : let sorted := [0; 1; 2] in
  let s0 := fun n => if Nat.eqb n 0 then Some (BDual 2 5) else None in
  let x := fun _ => 2%R in
  (wf_prog lispProg /\ executable lispProg [] sorted /\ smooth_auto lispProg x /\
   (forall n, In n sorted -> lispProg n = GIn -> valueOf s0 n = Some (x n))) /\
  gradAt (fst (freshRun lispProg (fun n => Nat.eqb n 2) sorted s0)) 0
    = Some (5 + 2 * tanh 2 * (1 - tanh 2 * tanh 2))%R.
Proof.
  cbv zeta. split; [split; [|split; [|split]]|].
  - intro n. destruct n as [|[|[|n]]]; simpl; lia.
  - simpl. intuition discriminate.
  - intro n. destruct n as [|[|[|n]]]; simpl; auto. split; [discriminate|exact I].
  - intros n [<-|[<-|[<-|[]]]] E; try discriminate. reflexivity.
  - lazy beta iota zeta delta -[tanh Rplus Rmult Rminus IZR]. f_equal. ring.
Qed.

Print Assumptions C12_first_run_is_complete.
Print Assumptions C12_second_run_does_nothing.
Print Assumptions C12_after_reset_only_the_last_node.
Print Assumptions C12_after_reset_forward_only.
Print Assumptions C12_error_names_the_next_node.
Print Assumptions C12_backward_half_after_the_error.
Print Assumptions C12_reset_recomputes_refuted.
Print Assumptions C53_lisp_values_and_gradients.
Print Assumptions C53_let_keeps_the_gradient.
Print Assumptions C53_gradients_accumulate_over_machines.

(** A machine told to run backward only has an empty queue: any number of runs does
    nothing, and each reports success. *)
Fixpoint runs {S} (k : nat) sorted exec isAD bad diff runBwd (m : lm S) : lm S * list outcome :=
  match k with
  | O => (m, [])
  | Datatypes.S k' => let (m1, o) := runAll S sorted exec isAD bad diff false runBwd m in
                      let (m2, l) := runs k' sorted exec isAD bad diff runBwd m1 in (m2, o :: l)
  end.
Theorem C12_backward_only :
  forall (S : Type) sorted (exec : nat -> S -> S * bool) isAD bad diff runBwd s k,
    runs k sorted exec isAD bad diff runBwd (newMachine S s) = (newMachine S s, repeat Done k).
Proof.
  intros S sorted exec isAD bad diff runBwd s k. induction k as [|k IH]; [reflexivity|]. cbn [runs repeat].
  replace (runAll S sorted exec isAD bad diff false runBwd (newMachine S s)) with (newMachine S s, Done) by (destruct runBwd; reflexivity).
  rewrite IH. reflexivity.
Qed.
Print Assumptions C12_backward_only.
Example C12_ex_backward_only : runs 2 [0; 1] (fun n s => (n :: s, true)) (fun _ => true) (fun _ _ => false) (fun n s => (n :: s, true)) true (newMachine (list nat) [7])
  = (LM 0 (-1) [] [7], [Done; Done]).
Proof. reflexivity. Qed.

(** The derivative with respect to a constant is left out in a product and written down in
    a sum. *)
Definition withConst (o : bop) (k : R) (n : nat) : gnode :=
  match n with 0 => GIn | 1 => GConst k | _ => GB o 0 1 end.
Theorem C53_constant_operands : forall o (v k : R), o = OMul \/ o = OAdd ->
  exists s, freshRun (withConst o k) (Nat.eqb 2) [0; 1; 2] (fun n => match n with 0 => Some (BVal v) | _ => None end) = (s, Done) /\
    gradAt s 0 = Some (match o with OMul => k | _ => 1 end)%R /\ gradAt s 1 = Some (match o with OMul => 0 | _ => 1 end)%R /\
    valueOf s 2 = Some (match o with OMul => v * k | _ => v + k end)%R.
Proof.
  intros o v k [-> | ->]; (eexists; split; [cbv -[Rplus Rmult IZR]; reflexivity|]); cbv -[Rplus Rmult IZR]; repeat split; f_equal; ring.
Qed.
Print Assumptions C53_constant_operands.
Example C53_ex_constant : exists s, freshRun (withConst OMul 3%R) (Nat.eqb 2) [0; 1; 2] (fun n => match n with 0 => Some (BVal 5%R) | _ => None end) = (s, Done) /\ gradAt s 1 = Some 0%R.
Proof. destruct (C53_constant_operands OMul 5%R 3%R (or_introl eq_refl)) as (s & A & _ & B & _). eauto. Qed.
