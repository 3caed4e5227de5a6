(** C100: CompileFunction. *)
From Coq Require Import List Arith Bool Lia String.
From Verif Require Import GraphModel GraphSpec GraphHistory GraphProps TapeModel TapeSpec TapeProofs TapeProps FuncModel FuncSpec.
Import ListNotations.
Local Open Scope nat_scope.
Local Open Scope list_scope.

Lemma unused_in sub : forall inputs p, In p (unusedOf sub inputs) <-> In p inputs /\ ~ In p sub.
Proof.
  induction inputs as [|i r IH]; intros p; cbn [unusedOf]; [cbn; intuition|].
  assert (B : existsb (Nat.eqb i) sub = true <-> In i sub).
  { rewrite existsb_exists. split; [intros (x & I & E); apply Nat.eqb_eq in E; subst; exact I|].
    intros I. exists i. split; [exact I|apply Nat.eqb_refl]. }
  destruct (existsb (Nat.eqb i) sub) eqn:E.
  - rewrite IH. cbn [In]. split; [intros [A N]; split; [right; exact A|exact N]|].
    intros [[->|A] N]; [exfalso; apply N, B; reflexivity|split; assumption].
  - assert (Ni : ~ In i sub) by (intros I; apply B in I; discriminate).
    cbn [In]. rewrite IH. split.
    + intros [->|[A N]]; [split; [left; reflexivity|exact Ni]|split; [right; exact A|exact N]].
    + intros [[->|A] N]; [left; reflexivity|right; split; assumption].
Qed.

Section Call.
Variable P : Type.
Variable sortG : graph -> option (list ptr).
Variable gen : nat -> graph -> list ptr -> P.
Notation call := (compileFunction sortG gen).

(** A call is refused for unused inputs exactly if some input is not needed by any output,
    and the inputs named are those; a program is made from the needed nodes alone. *)
Theorem C100_unused : forall H fmtTS g inputs outputs, built H fmtTS g -> (forall r, In r outputs -> In r (all g)) ->
  (forall us, call g inputs outputs = FUnused us -> us <> [] /\ forall p, In p us <-> In p inputs /\ ~ needed g outputs p) /\
  (forall r p, call g inputs outputs = FProg r -> In p inputs -> needed g outputs p) /\
  (forall r, call g inputs outputs = FProg r -> exists sub l, r = gen (List.length inputs) sub l /\ sortG sub = Some l /\
     forall p, In p (all sub) <-> needed g outputs p).
Proof.
  intros H fmtTS g inputs outputs B O. unfold compileFunction.
  destruct (exactSubgraphRoots g outputs) as [sub|] eqn:E; [|split; [intros; discriminate|split; intros; discriminate]].
  assert (A : forall p, In p (all sub) <-> needed g outputs p) by (intros p; apply (C48_exactSubgraphRoots H fmtTS g outputs sub p B O E)).
  pose proof (unused_in (all sub) inputs) as U.
  destruct (unusedOf (all sub) inputs) as [|u us'] eqn:Eu.
  - destruct (sortG sub) as [l|] eqn:Es; [|split; [intros; discriminate|split; intros; discriminate]].
    destruct inputs as [|i r0]; [split; [intros; discriminate|split; intros; discriminate]|].
    split; [intros; discriminate|]. split.
    + intros r p _ Ip. apply A. destruct (in_dec Nat.eq_dec p (all sub)) as [I|N]; [exact I|].
      exfalso. apply (proj2 (U p)). split; assumption.
    + intros r Er. injection Er as <-. exists sub, l. split; [reflexivity|]. split; [exact Es|exact A].
  - split; [|split; intros; discriminate]. intros us Er. injection Er as <-. split; [discriminate|].
    intros p. rewrite U, A. reflexivity.
Qed.
(** Which inputs are named makes no difference to the program beyond their number: an input
    that the outputs need may be left out. *)
Theorem C100_missing_inputs : forall g inputs inputs' outputs r,
  call g inputs outputs = FProg r -> inputs' <> [] -> List.length inputs' = List.length inputs ->
  (exists H fmtTS, built H fmtTS g) -> (forall q, In q outputs -> In q (all g)) ->
  (forall p, In p inputs' -> needed g outputs p) -> call g inputs' outputs = FProg r.
Proof.
  intros g inputs inputs' outputs r E N L (H & fmtTS & B) O A.
  unfold compileFunction in *. destruct (exactSubgraphRoots g outputs) as [sub|] eqn:Es; [|discriminate].
  destruct (unusedOf (all sub) inputs); [|discriminate]. destruct (sortG sub) as [l|]; [|discriminate].
  destruct inputs as [|i r0]; [discriminate|].
  destruct (unusedOf (all sub) inputs') as [|u us] eqn:Eu.
  - destruct inputs' as [|i' r']; [contradiction|]. rewrite L. exact E.
  - exfalso. destruct (proj1 (unused_in (all sub) inputs' u)) as [I Nu]; [rewrite Eu; left; reflexivity|].
    apply Nu. apply (C48_exactSubgraphRoots H fmtTS g outputs sub u B O Es). apply A, I.
Qed.
(** A function of no inputs never compiles. *)
Theorem C100_no_inputs : forall g outputs, call g [] outputs = FPanic \/ call g [] outputs = FSort.
Proof.
  intros g outputs. unfold compileFunction. destruct (exactSubgraphRoots g outputs) as [sub|]; [|left; reflexivity].
  cbn [unusedOf]. destruct (sortG sub); [left|right]; reflexivity.
Qed.
End Call.

(** ** The values a function computes *)
Section Values.
Variable V : Type.
Variable sem : nat -> list V -> option V.
Variables (sub ns : list tnode) (e : nat -> nat).
Hypothesis Part : partOf sub ns e.
Hypothesis SG : sortedGraph sub.
Variables inp inp' : nat -> V.
Hypothesis Inp : forall i, i < List.length sub -> tk (nodeAt sub i) = TArg \/ tk (nodeAt sub i) = TConst -> inp' i = inp (e i).

Lemma down : forall i v, i < List.length sub -> evals ns sem inp (e i) v -> evals sub sem inp' i v.
Proof.
  induction i as [i IH] using lt_wf_ind. intros v Hi E. destruct (Part i Hi) as (A & K & T & C).
  inversion E as [j Hj Kj Ej Ev|j Hj Kj Ej Ev|j vs w Hj Kj Ea Es Ej Ev]; subst.
  - rewrite <- Inp by (try exact Hi; left; congruence). apply ev_arg; [exact Hi|congruence].
  - rewrite <- Inp by (try exact Hi; right; congruence). apply ev_const; [exact Hi|congruence].
  - apply (ev_op _ _ _ _ i vs); [exact Hi|rewrite <- K; exact Kj| |rewrite <- T; exact Es].
    rewrite C in Ea. assert (Kd : forall c, In c (tkids (nodeAt sub i)) -> c < i) by (intros c Ic; apply (sg_kids sub SG i c Hi Ic)).
    clear - Ea Kd IH Hi. revert vs Ea. induction (tkids (nodeAt sub i)) as [|c cs IHc]; intros vs Ea; inversion Ea; subst; constructor.
    + apply IH; [apply Kd; left; reflexivity| |assumption]. specialize (Kd c (or_introl eq_refl)). lia.
    + apply IHc; [intros c' Ic; apply Kd; right; exact Ic|assumption].
Qed.
Lemma up : forall i v, i < List.length sub -> evals sub sem inp' i v -> evals ns sem inp (e i) v.
Proof.
  induction i as [i IH] using lt_wf_ind. intros v Hi E. destruct (Part i Hi) as (A & K & T & C).
  inversion E as [j Hj Kj Ej Ev|j Hj Kj Ej Ev|j vs w Hj Kj Ea Es Ej Ev]; subst.
  - rewrite Inp by (try exact Hi; left; congruence). apply ev_arg; [exact A|congruence].
  - rewrite Inp by (try exact Hi; right; congruence). apply ev_const; [exact A|congruence].
  - apply (ev_op _ _ _ _ (e i) vs); [exact A|rewrite K; exact Kj| |rewrite T; exact Es].
    rewrite C. assert (Kd : forall c, In c (tkids (nodeAt sub i)) -> c < i) by (intros c Ic; apply (sg_kids sub SG i c Hi Ic)).
    clear - Ea Kd IH Hi. revert vs Ea. induction (tkids (nodeAt sub i)) as [|c cs IHc]; intros vs Ea; inversion Ea; subst; cbn [map]; constructor.
    + apply IH; [apply Kd; left; reflexivity| |assumption]. specialize (Kd c (or_introl eq_refl)). lia.
    + apply IHc; [intros c' Ic; apply Kd; right; exact Ic|assumption].
Qed.
End Values.

(** The program of a function leaves in every output that no other output needs the value that
    the expression has in the whole graph, and in its register likewise. *)
Theorem C100_values :
  forall V (blank : V) sem caddr sub ns e leaves m0 inp,
  partOf sub ns e -> sortedGraph sub -> noLet sub -> noAlias sub -> noCollision sub ->
  (forall p, In p leaves -> p < List.length sub) -> ready sub caddr m0 ->
  (forall i, i < List.length sub -> tk (nodeAt sub i) = TArg \/ tk (nodeAt sub i) = TConst -> given sub caddr m0 i = inp (e i)) ->
  (forall i, hasValue sub i -> exists v, evals ns sem inp (e i) v) ->
  exists m, runAll blank sem caddr sub (compile sub leaves) (VM m0 0) = (VM m (List.length (compile sub leaves)), true) /\
    forall i, hasValue sub i -> (forall k, ~ usedBy sub i k) ->
      exists v, evals ns sem inp (e i) v /\ regValue m (locOf sub leaves i) = Some v /\ nodeValue m i = Some v.
Proof.
  intros V blank sem caddr sub ns e leaves m0 inp Pt SG NL NA NC LV RD Inp Hv.
  destruct (C09_at_the_end V blank sem caddr sub leaves m0 SG NL NA NC LV RD) as (m & E & A & _).
  { intros i HV. destruct (Hv i HV) as [v Ev]. exists v. exact (down V sem sub ns e Pt SG inp _ Inp i v (proj1 HV) Ev). }
  exists m. split; [exact E|]. intros i HV U. destruct (A i HV (or_intror U)) as (v & Ev & R & N).
  exists v. split; [exact (up V sem sub ns e Pt SG inp _ Inp i v (proj1 HV) Ev)|]. split; assumption.
Qed.

(** y = x * w and z = y + x: both asked for as outputs, whole graph with one more node. *)
Definition fnSub : list tnode := [ arg_ 0; arg_ 1; bin_ 1 [0; 1] 2; bin_ 2 [2; 0] 3 ].
Definition fnWhole : list tnode := [ arg_ 0; bin_ 2 [0; 0] 4; arg_ 1; bin_ 1 [0; 2] 2; bin_ 2 [3; 0] 3 ].
Definition fnPlace (i : nat) : nat := match i with 0 => 0 | S i' => S (S i') end.
Definition fnEnd : mstate nat := vst (fst (runAll 0 exSem exCaddr fnSub (compile fnSub [0; 1]) (VM exM 0))).
(** An output that another output needs loses its value: the later one is computed in its
    place. *)
Theorem C100_outputs_refuted :
  partOf fnSub fnWhole fnPlace /\ sortedGraph fnSub /\
  evals fnWhole exSem (fun i => match i with 0 => 5 | _ => 7 end) (fnPlace 2) 35 /\
  evals fnWhole exSem (fun i => match i with 0 => 5 | _ => 7 end) (fnPlace 3) 40 /\
  snd (runAll 0 exSem exCaddr fnSub (compile fnSub [0; 1]) (VM exM 0)) = true /\
  nodeValue fnEnd 3 = Some 40 /\ nodeValue fnEnd 2 = Some 40.
Proof.
  split; [|split; [|split; [|split; [|split; [|split]]]]].
  - intros i Hi. do 4 (destruct i as [|i]; [cbn; repeat split; lia|]). cbn in Hi. lia.
  - constructor; intros i; do 4 (destruct i as [|i]; [cbn; intros; unfold hasValue; cbn;
    repeat match goal with
           | H : _ \/ _ |- _ => destruct H
           | H : False |- _ => destruct H
           | H : Some _ = Some _ |- _ => injection H as H
           end; subst; try discriminate;
    repeat split; cbn; try lia; try discriminate; try reflexivity |]); cbn; intros; lia.
  - apply (ev_op _ _ _ _ 3 [5; 7]); [cbn; lia|left; reflexivity| |reflexivity]. cbn. constructor.
    + apply (ev_arg fnWhole _ _ (fun i => match i with 0 => 5 | _ => 7 end) 0); [cbn; lia|reflexivity].
    + constructor; [|constructor]. apply (ev_arg fnWhole _ _ (fun i => match i with 0 => 5 | _ => 7 end) 2); [cbn; lia|reflexivity].
  - assert (E0 : evals fnWhole exSem (fun i => match i with 0 => 5 | _ => 7 end) 0 5)
      by (apply (ev_arg fnWhole _ _ (fun i => match i with 0 => 5 | _ => 7 end) 0); [cbn; lia|reflexivity]).
    apply (ev_op _ _ _ _ 4 [35; 5]); [cbn; lia|left; reflexivity| |reflexivity]. cbn. constructor; [|constructor; [exact E0|constructor]].
    apply (ev_op _ _ _ _ 3 [5; 7]); [cbn; lia|left; reflexivity| |reflexivity]. cbn. constructor; [exact E0|].
    constructor; [|constructor]. apply (ev_arg fnWhole _ _ (fun i => match i with 0 => 5 | _ => 7 end) 2); [cbn; lia|reflexivity].
  - vm_compute. reflexivity.
  - vm_compute. reflexivity.
  - vm_compute. reflexivity.
Qed.

(** The graph with x + y (node 2) and 1 + that (node 5): the function of x for node 2 compiles
    without y; node 4 is a constant that node 2 does not need. *)
Example C100_case :
  (exists p, compileFunction (fun s => Some (all s)) (fun n s l => (n, l)) exG5 [0] [2] = FProg p /\ fst p = 1 /\ In 1 (snd p)) /\
  compileFunction (fun s => Some (all s)) (fun n s l => (n, l)) exG5 [0; 5] [2] = FUnused [5].
Proof. split; [eexists; vm_compute; split; [reflexivity|split; [reflexivity|tauto]]|vm_compute; reflexivity]. Qed.

Print Assumptions C100_unused.
Print Assumptions C100_missing_inputs.
Print Assumptions C100_no_inputs.
Print Assumptions C100_values.
Print Assumptions C100_outputs_refuted.
