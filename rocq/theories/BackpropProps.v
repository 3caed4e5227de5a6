(** Property theorems C17, C45, C47. *)
From Coq Require Import Arith ZArith Reals List Bool Lra Lia.
From Verif Require Import CalcModel CalcSpec BackpropModel BackpropSpec BackpropProofs
  GradModel GradSpec GradProofs.
Import ListNotations.
Local Open Scope nat_scope.

(** ** C17 *)

(** For every graph, every gradient domain and every set of right operator
    rules: what Backpropagate returns for each requested node is the sum over
    all paths from the outputs, each path counted once. *)
Theorem C17_sum_over_all_paths :
  forall (nd : nat -> nodeInfo) (nparents : nat -> nat) (A T : Type) (G : gradSem A)
         (addT : T -> T -> option T) (symDiff : nat -> T -> option (list (option T)))
         (val : T -> A) (outputs : list nat) (seed : nat -> A)
         (sorted wrt : list nat) (gradOutputs r : list T) (deriv' : nat -> option T),
    wf_nodes nd -> right_rules G nd addT symDiff val ->
    topo nd sorted -> NoDup outputs ->
    (forall o, In o outputs -> In o sorted) -> (forall w, In w wrt -> In w sorted) ->
    (forall i o t, nth_error outputs i = Some o -> nth_error gradOutputs i = Some t ->
       seed o = val t) ->
    backpropagate nd nparents T addT symDiff sorted (fun _ => None) outputs gradOutputs wrt
      = Ok (r, deriv') ->
    length r = length wrt /\
    forall i w, nth_error wrt i = Some w ->
      exists t, nth_error r i = Some t /\ is_path_sum G nd outputs seed w (val t).
Proof.
  intros. eapply backprop_correct; eauto.
Qed.
Print Assumptions C17_sum_over_all_paths.

(** It does succeed when every requested node lies below an output, every
    output above a requested node, and building gradient nodes does not fail. *)
Theorem C17_succeeds :
  forall (nd : nat -> nodeInfo) (nparents : nat -> nat) (A T : Type) (G : gradSem A)
         (addT : T -> T -> option T) (symDiff : nat -> T -> option (list (option T)))
         (val : T -> A) (outputs sorted wrt : list nat) (gradOutputs : list T),
    wf_nodes nd -> right_rules G nd addT symDiff val ->
    (forall a b, exists c, addT a b = Some c) ->
    (forall n g, sdop (nd n) = true -> exists l, symDiff n g = Some l) ->
    topo nd sorted -> NoDup outputs ->
    (forall o, In o outputs -> In o sorted) -> (forall w, In w wrt -> In w sorted) ->
    (forall n, In n sorted -> sdop (nd n) = true \/ children (nd n) = []) ->
    (forall w, In w wrt -> isInput (nd w) = true \/ sdop (nd w) = true) ->
    length gradOutputs = length outputs ->
    (forall w, In w wrt -> exists o p, In o outputs /\ Path nd o p w) ->
    (forall o, In o outputs -> exists w p, In w wrt /\ Path nd o p w) ->
    exists r, backpropagate nd nparents T addT symDiff sorted (fun _ => None)
                outputs gradOutputs wrt = Ok r.
Proof. intros. eapply backprop_succeeds; eauto. Qed.
Print Assumptions C17_succeeds.

(** A requested node that no output depends on is refused, whatever else. *)
Theorem C17_unreachable_rejected :
  forall (nd : nat -> nodeInfo) (nparents : nat -> nat) (T : Type)
         (addT : T -> T -> option T) (symDiff : nat -> T -> option (list (option T)))
         (outputs sorted wrt : list nat) (deriv : nat -> option T) (gradOutputs : list T) (w : nat),
    wf_nodes nd ->
    (forall n, In n sorted -> sdop (nd n) = true \/ children (nd n) = []) ->
    In w wrt -> (forall o p, In o outputs -> ~ Path nd o p w) ->
    backpropagate nd nparents T addT symDiff sorted deriv outputs gradOutputs wrt
      = Fail ENonDiffWRT.
Proof. intros. eapply backprop_rejects; eauto. Qed.
Print Assumptions C17_unreachable_rejected.

(** The backward analysis fails exactly if some node of the graph that is no statement has
    no gradient rule and has a child, itself not a leaf, that feeds nothing else; and then
    Backpropagate fails, whether or not a path goes through that node. *)
Theorem C17_cut_off :
  forall (nd : nat -> nodeInfo) (nparents : nat -> nat) (T : Type)
         (addT : T -> T -> option T) (symDiff : nat -> T -> option (list (option T)))
         (outputs sorted wrt : list nat) (deriv : nat -> option T) (gradOutputs : list T),
    wf_nodes nd ->
    let cut := exists n c, In n sorted /\ sdop (nd n) = false /\ isStmt (nd n) = false /\
                 In c (children (nd n)) /\ nparents c = 1 /\ children (nd c) <> [] in
    (backwardDiffAnalysis nd nparents wrt sorted = Fail EUnreachable <-> cut) /\
    (~ cut -> exists affected, backwardDiffAnalysis nd nparents wrt sorted = Ok affected) /\
    (cut -> exists e, backpropagate nd nparents T addT symDiff sorted deriv outputs gradOutputs wrt = Fail e).
Proof.
  intros nd nparents T addT symDiff outputs sorted wrt deriv gradOutputs W cut.
  assert (X : forall rs ds, backwardLoop nd nparents rs ds = Fail EUnreachable <->
    exists n c, In n rs /\ sdop (nd n) = false /\ isStmt (nd n) = false /\
                 In c (children (nd n)) /\ nparents c = 1 /\ children (nd c) <> []).
  { induction rs as [|n rest IH]; intros ds.
    - split; [discriminate|]. intros (n & c & [] & _).
    - assert (Skip : ~ (exists c, sdop (nd n) = false /\ isStmt (nd n) = false /\ In c (children (nd n)) /\ nparents c = 1 /\ children (nd c) <> []) ->
        forall ds', backwardLoop nd nparents rest ds' = Fail EUnreachable <->
        exists m c, In m (n :: rest) /\ sdop (nd m) = false /\ isStmt (nd m) = false /\ In c (children (nd m)) /\ nparents c = 1 /\ children (nd c) <> []).
      { intros N ds'. rewrite IH. split.
        - intros (m & c & H & R). exists m, c. split; [right; exact H|exact R].
        - intros (m & c & [<-|H] & R); [exfalso; apply N; exists c; exact R|]. exists m, c. split; assumption. }
      cbn [backwardLoop]. destruct (if sdop (nd n) then diffWRT (nd n) else []) as [|d0 dr] eqn:Ed.
      + destruct (isStmt (nd n) || isInput (nd n) || match children (nd n) with [] => true | _ => false end) eqn:E1.
        * apply Skip. intros (c & S & St & Hc & _). destruct (W n) as [W1 _]. rewrite St in E1. cbn [orb] in E1.
          apply orb_true_iff in E1. destruct E1 as [E1|E1]; [rewrite (W1 E1) in Hc; destruct Hc|].
          destruct (children (nd n)); [destruct Hc|discriminate].
        * apply orb_false_iff in E1. destruct E1 as [E1 E3]. apply orb_false_iff in E1. destruct E1 as [E1 E2].
          assert (S : sdop (nd n) = false).
          { destruct (sdop (nd n)) eqn:S; [|reflexivity]. destruct (W n) as (_ & W2 & _). specialize (W2 E2 S).
            rewrite Ed in W2. destruct (children (nd n)); [discriminate E3|discriminate W2]. }
          destruct (existsb _ (children (nd n))) eqn:Ex.
          { split; [|reflexivity]. intros _. apply existsb_exists in Ex. destruct Ex as (c & Hc & Ec). apply andb_true_iff in Ec.
            destruct Ec as [Ec1 Ec2]. apply Nat.eqb_eq in Ec1. exists n, c. split; [left; reflexivity|]. split; [exact S|]. split; [exact E1|].
            split; [exact Hc|]. split; [exact Ec1|]. intros Z. rewrite Z in Ec2. discriminate. }
          apply Skip. intros (c & _ & _ & Hc & P & Nc).
          assert (Y : existsb (fun c : nat => (nparents c =? 1) && negb (match children (nd c) with [] => true | _ => false end)) (children (nd n)) = true).
          { apply existsb_exists. exists c. split; [exact Hc|]. rewrite P, Nat.eqb_refl. destruct (children (nd c)); [congruence|reflexivity]. }
          congruence.
      + assert (S : sdop (nd n) = true) by (destruct (sdop (nd n)); [reflexivity|discriminate]).
        assert (N : ~ (exists c, sdop (nd n) = false /\ isStmt (nd n) = false /\ In c (children (nd n)) /\ nparents c = 1 /\ children (nd c) <> [])).
        { intros (c & F & _). congruence. }
        destruct (anyChild ds (children (nd n)) (d0 :: dr)) as [[|]|] eqn:Ea; [apply Skip; exact N|apply Skip; exact N|].
        exfalso. destruct (backward_nopanic nd W nparents (n :: rest) ds) as [NP _]. apply NP. cbn [backwardLoop]. rewrite Ed, Ea. reflexivity. }
  assert (Y : backwardDiffAnalysis nd nparents wrt sorted = Fail EUnreachable <-> cut).
  { unfold backwardDiffAnalysis. rewrite X. unfold cut. split; intros (n & c & H & R); exists n, c; (split; [|exact R]).
    - apply in_rev. exact H.
    - apply -> in_rev. exact H. }
  split; [exact Y|]. split.
  - intros N. destruct (backwardDiffAnalysis nd nparents wrt sorted) as [A|e] eqn:E; [eauto|]. exfalso. apply N. apply Y.
    unfold backwardDiffAnalysis in E. rewrite (proj2 (backward_nopanic nd W nparents _ _) _ E). reflexivity.
  - intros C. apply Y in C. unfold backpropagate. destruct (forwardDiffAnalysis nd outputs sorted); [rewrite C|]; eauto.
Qed.
Print Assumptions C17_cut_off.

(** cost = x * x; beside it c = round(tanh(x)) without a gradient rule: no gradient of cost. *)
Example C17_cut_off_case :
  let nd n := match n with
    | 0 => {| children := []; sdop := false; diffWRT := []; isInput := true; isStmt := false |}
    | 1 => {| children := [0; 0]; sdop := true; diffWRT := [true; true]; isInput := false; isStmt := false |}
    | 2 => {| children := [0]; sdop := true; diffWRT := [true]; isInput := false; isStmt := false |}
    | _ => {| children := [2]; sdop := false; diffWRT := []; isInput := false; isStmt := false |}
    end in
  backpropagate nd (fun n => match n with 0 => 2 | 2 => 1 | _ => 0 end) Z (fun a b => Some (a + b)%Z) (fun n g => Some [Some g; Some g])
    [3; 2; 1; 0] (fun _ => None) [1] [1%Z] [0] = Fail EUnreachable.
Proof. reflexivity. Qed.

(** End to end, for graphs of scalar operators with any sharing: Grad succeeds
    and each expression it returns evaluates to the derivative of the cost with
    respect to that input. *)
Theorem C17_grad_is_the_derivative :
  forall (prog : nat -> gnode) (stab : bool) (x : nat -> R) (nparents : nat -> nat)
         (sorted : list nat) (cost : nat) (wrt : list nat),
    wf_prog prog -> smooth_at prog x ->
    ordered prog sorted -> In cost sorted -> wrt <> [] ->
    (forall w, In w wrt -> In w sorted /\ prog w = GIn /\ depends prog w cost) ->
    exists gs, gradOf stab prog nparents sorted cost wrt = Ok gs /\ length gs = length wrt /\
      forall i w g, nth_error wrt i = Some w -> nth_error gs i = Some g ->
        has_deriv (fun t => number prog (setInput x w t) cost) (x w) (eval x g).
Proof. intros. eapply grad_main; eauto. Qed.
Print Assumptions C17_grad_is_the_derivative.

Theorem C17_grad_rejects_independent_input :
  forall (prog : nat -> gnode) (stab : bool) (nparents : nat -> nat)
         (sorted : list nat) (cost : nat) (wrt : list nat) (w : nat),
    In w wrt -> ~ depends prog w cost ->
    gradOf stab prog nparents sorted cost wrt = Fail ENonDiffWRT.
Proof. intros. eapply grad_rejects; eauto. Qed.
Print Assumptions C17_grad_rejects_independent_input.

(** A concrete graph with sharing: x, h = tanh(x), cost = h * h. *)
Definition exProg (n : nat) : gnode :=
  match n with
  | 0 => GIn
  | 1 => GU Tanh 0
  | 2 => GB OMul 1 1
  | _ => GIn
  end.
Example C17_case : exists gs,
  gradOf true exProg (fun _ => 1) [2; 1; 0] 2 [0] = Ok gs /\ length gs = 1 /\
  forall i w g, nth_error [0] i = Some w -> nth_error gs i = Some g ->
    has_deriv (fun t => number exProg (setInput (fun _ => 3%R) w t) 2) 3%R (eval (fun _ => 3%R) g).
Proof.
  apply (C17_grad_is_the_derivative exProg true (fun _ => 3%R)).
  - intro n. destruct n as [|[|[|n]]]; simpl; auto.
  - intro n. destruct n as [|[|[|n]]]; simpl; auto. repeat split; discriminate.
  - simpl. repeat split; auto; intuition congruence.
  - simpl; auto.
  - discriminate.
  - intros w [<-|[]]. split; [simpl; auto|]. split; [reflexivity|].
    eapply dep_l; [reflexivity|]. eapply dep_u; [reflexivity|]. constructor.
Qed.

(** ** C45 *)

Theorem C45_unsupported_cost_gives_no_error :
  forall (X : Type) (dt : option dtype) (inputs : list bool) (bp : dtype -> gradRes X),
    (forall b, In b inputs -> b = true) ->
    dt <> Some Float64 -> dt <> Some Float32 ->
    grad true dt inputs bp = NilNil.
Proof.
  intros X dt inputs bp H H1 H2. unfold grad.
  replace (forallb (fun b => b) inputs) with true.
  - destruct dt as [[| |]|]; try reflexivity; contradiction.
  - symmetry. apply forallb_forall. exact H.
Qed.
Print Assumptions C45_unsupported_cost_gives_no_error.

(** Grad on supported types is Backpropagate. *)
Theorem C45_supported_cost_is_backpropagated :
  forall (X : Type) (d : dtype) (inputs : list bool) (bp : dtype -> gradRes X),
    (forall b, In b inputs -> b = true) -> d <> OtherDtype ->
    grad true (Some d) inputs bp = bp d.
Proof.
  intros X d inputs bp H H1. unfold grad.
  replace (forallb (fun b => b) inputs) with true.
  - destruct d; try reflexivity; contradiction.
  - symmetry. apply forallb_forall. exact H.
Qed.
Print Assumptions C45_supported_cost_is_backpropagated.

Example C45_case : grad (X := nat) true (Some OtherDtype) [true; true] (fun _ => GOk 7) = NilNil
                /\ grad (X := nat) true (Some Float32) [true; true] (fun _ => GOk 7) = GOk 7.
Proof. split; reflexivity. Qed.

(** ** C47 *)

(** If the requested node and all nodes directly using it were differentiated
    before, Backpropagate returns the old derivative, whatever the outputs, the
    incoming gradients and the rules are now. *)
Theorem C47_second_gradient_is_the_first :
  forall (nd : nat -> nodeInfo) (nparents : nat -> nat) (T : Type)
         (addT : T -> T -> option T) (symDiff : nat -> T -> option (list (option T)))
         (sorted : list nat) (deriv deriv' : nat -> option T) (outputs : list nat)
         (gradOutputs : list T) (wrt : list nat) (r : list T) (i w : nat) (d : T),
    topo nd sorted -> NoDup outputs ->
    backpropagate nd nparents T addT symDiff sorted deriv outputs gradOutputs wrt = Ok (r, deriv') ->
    nth_error wrt i = Some w -> In w sorted -> ~ In w outputs ->
    deriv w = Some d ->
    (forall n j, nth_error (children (nd n)) j = Some w ->
                 nth_error (diffWRT (nd n)) j = Some true -> deriv n <> None) ->
    nth_error r i = Some d.
Proof.
  intros. eapply backprop_stale; eauto. intros n [j [E1 E2]]. eauto.
Qed.
Print Assumptions C47_second_gradient_is_the_first.

(** Witness over the integers: x (0), h = 5x (1), c1 = 2h (2), c2 = 3h (3).
    After the gradient of c1 the gradient of c2 comes out as that of c1, 10,
    while on a fresh graph it is 15. *)
Definition exNd (n : nat) : nodeInfo :=
  match n with
  | 0 => {| children := []; sdop := false; diffWRT := []; isInput := true; isStmt := false |}
  | 1 => {| children := [0]; sdop := true; diffWRT := [true]; isInput := false; isStmt := false |}
  | 2 | 3 => {| children := [1]; sdop := true; diffWRT := [true]; isInput := false; isStmt := false |}
  | _ => {| children := []; sdop := false; diffWRT := []; isInput := true; isStmt := false |}
  end.
Definition exSym (n : nat) (g : Z) : option (list (option Z)) :=
  match n with
  | 1 => Some [Some (5 * g)%Z]
  | 2 => Some [Some (2 * g)%Z]
  | 3 => Some [Some (3 * g)%Z]
  | _ => Some []
  end.
Theorem C47_second_gradient_refuted :
  exists deriv1 deriv2 deriv3,
    backpropagate exNd (fun _ => 1) Z (fun a b => Some (a + b)%Z) exSym
      [3; 2; 1; 0] (fun _ => None) [2] [1%Z] [0] = Ok ([10%Z], deriv1) /\
    backpropagate exNd (fun _ => 1) Z (fun a b => Some (a + b)%Z) exSym
      [3; 2; 1; 0] deriv1 [3] [1%Z] [0] = Ok ([10%Z], deriv2) /\
    backpropagate exNd (fun _ => 1) Z (fun a b => Some (a + b)%Z) exSym
      [3; 2; 1; 0] (fun _ => None) [3] [1%Z] [0] = Ok ([15%Z], deriv3).
Proof. do 3 eexists. repeat split; reflexivity. Qed.
Print Assumptions C47_second_gradient_refuted.
