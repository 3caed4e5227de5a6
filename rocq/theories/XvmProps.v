(** C37: the concurrent graph machine of x/vm. *)
From Coq Require Import List Arith ZArith Bool Lia.
From Verif Require Import XvmModel XvmSpec XvmProofs XvmLive.
Import ListNotations.
Local Open Scope nat_scope.

Section Props.
Context {V : Type}.
Notation node := (@node V).
Notation gnode := (@gnode V).
Notation st := (@st V).

(** ** From the expression graph to the machine's nodes *)
Lemma machine_nth (gs : list gnode) g : newMachine gs = Some g -> length g = length gs /\ forall i n, nth_error gs i = Some n -> exists m, newNode n = Some m /\ nth_error g i = Some m.
Proof.
  revert g. induction gs as [|n gs IH]; intros g H; cbn [newMachine] in H.
  - injection H as <-. split; [reflexivity|]. intros [|i] n H; discriminate.
  - destruct (newNode n) as [m|] eqn:E; [|discriminate]. destruct (newMachine gs) as [l|] eqn:F; [|discriminate]. injection H as <-. destruct (IH l eq_refl) as [L K]. split; [cbn [length]; lia|].
    intros [|i] n' H; cbn [nth_error] in *; [injection H as <-; exists m; auto|apply K, H].
Qed.
Lemma machine_back (gs : list gnode) g i m : newMachine gs = Some g -> nth_error g i = Some m -> exists n, nth_error gs i = Some n /\ newNode n = Some m.
Proof.
  intros H E. destruct (machine_nth gs g H) as [L K]. destruct (nth_error gs i) as [n|] eqn:E'; [|apply nth_error_None in E'; apply lt_len in E; lia].
  destruct (K i n E') as [m' [A B]]. exists n. split; [reflexivity|congruence].
Qed.
Lemma node_op (n : gnode) a f cs : newNode n = Some (N (Op a f) cs) -> exists z v, n = GN (Some (z, f)) v cs /\ (0 < z)%Z /\ a = Z.to_nat z.
Proof.
  destruct n as [[[z f']|] v cs']; cbn [newNode g_op g_val g_children]; [|discriminate]. destruct (Z.eqb_spec z 0); [discriminate|]. destruct (Z.ltb_spec z 0); [discriminate|]. intro Q. injection Q as <- -> ->. exists z, v. repeat split; try reflexivity. lia.
Qed.
Lemma node_input (n : gnode) v cs : newNode n = Some (N (Input v) cs) -> n = GN None v cs \/ exists f, n = GN (Some (0%Z, f)) v cs.
Proof.
  destruct n as [[[z f']|] v' cs']; cbn [newNode g_op g_val g_children]; [|intro Q; injection Q as -> ->; left; reflexivity]. destruct (Z.eqb_spec z 0) as [->|]; [intro Q; injection Q as -> ->; right; exists f'; reflexivity|]. destruct (Z.ltb_spec z 0); discriminate.
Qed.
Lemma machine_acyclic (gs : list gnode) (g : list node) : newMachine gs = Some g -> dag gs -> acyclic g.
Proof.
  intros H [rank K]. exists rank. intros i a f cs c E Hc. destruct (machine_back gs g i _ H E) as [n [En EN]]. destruct (node_op n a f cs EN) as [z [v [-> _]]]. destruct (machine_nth gs g H) as [L _]. rewrite L. apply (K i _ c En Hc).
Qed.
Lemma machine_saturated (gs : list gnode) (g : list node) : newMachine gs = Some g -> honest gs -> saturated g.
Proof.
  intros H K i a f cs E. destruct (machine_back gs g i _ H E) as [n [En EN]]. destruct (node_op n a f cs EN) as [z [v [-> [Hz ->]]]]. destruct (K i z f v cs En) as [K1 K2]. lia.
Qed.
Lemma machine_roomy (gs : list gnode) (g : list node) : newMachine gs = Some g -> generous gs -> roomy g.
Proof.
  intros H K i a f cs E. destruct (machine_back gs g i _ H E) as [n [En EN]]. destruct (node_op n a f cs EN) as [z [v [-> [Hz ->]]]]. destruct (K i z f v cs En) as [K1 K2]. lia.
Qed.
Lemma honest_generous gs : honest (V := V) gs -> generous gs.
Proof. intros H i a f v0 cs E. destruct (H i a f v0 cs E). split; lia. Qed.
Lemma evals_meaning (gs : list gnode) (g : list node) : newMachine gs = Some g -> generous gs -> dag gs -> forall i v, evals g i v -> meaning gs i v.
Proof.
  intros H GE [rank D] i. remember (rank i) as m eqn:Em. revert i Em. induction m as [m IH] using (well_founded_induction Wf_nat.lt_wf). intros i -> v E.
  inversion E as [? ? cs E1|? a f cs vs ? E1 F1 R1]; subst.
  - destruct (machine_back gs g i _ H E1) as [n [En EN]]. destruct (node_input n v cs EN) as [->|[f ->]]; [eapply me_input; exact En|]. destruct (GE i _ _ _ _ En). lia.
  - destruct (machine_back gs g i _ H E1) as [n [En EN]]. destruct (node_op n a f cs EN) as [z [v0 [-> [Hz _]]]]. eapply me_op; [exact En| |exact R1].
    assert (Q : forall c, In c cs -> rank c < rank i) by (intros c Hc; apply (D i _ c En Hc)). clear - IH Q F1. induction F1 as [|c v cs vs Hv F1 IHF]; constructor; [eapply IH; [apply Q; left; reflexivity|reflexivity|exact Hv]|apply IHF; intros; apply Q; right; assumption].
Qed.
Lemma meaning_evals (gs : list gnode) (g : list node) : newMachine gs = Some g -> generous gs -> dag gs -> forall i v, meaning gs i v -> evals g i v.
Proof.
  intros H GE [rank D] i. remember (rank i) as m eqn:Em. revert i Em. induction m as [m IH] using (well_founded_induction Wf_nat.lt_wf). intros i -> v E.
  destruct (machine_nth gs g H) as [_ MN]. inversion E as [? ? cs E1|? a f v0 cs vs ? E1 F1 R1]; subst.
  - destruct (MN i _ E1) as [m [EN En]]. cbn in EN. injection EN as <-. eapply ev_input; exact En.
  - destruct (MN i _ E1) as [m [EN En]]. destruct (GE i _ _ _ _ E1) as [G1 _]. cbn [newNode g_op g_children] in EN. destruct (Z.eqb_spec a 0); [lia|]. destruct (Z.ltb_spec a 0); [lia|]. injection EN as <-. eapply ev_op; [exact En| |exact R1].
    assert (Q : forall c, In c cs -> rank c < rank i) by (intros c Hc; apply (D i _ c E1 Hc)). clear - IH Q F1. induction F1 as [|c v cs vs Hv F1 IHF]; constructor; [eapply IH; [apply Q; left; reflexivity|reflexivity|exact Hv]|apply IHF; intros; apply Q; right; assumption].
Qed.
Lemma failing_broken (gs : list gnode) (g : list node) i : newMachine gs = Some g -> generous gs -> dag gs -> failing g i <-> broken gs i.
Proof.
  intros H GE D. split.
  - intros [a [f [cs [vs [E1 [F1 R1]]]]]]. destruct (machine_back gs g i _ H E1) as [n [En EN]]. destruct (node_op n a f cs EN) as [z [v0 [-> [Hz _]]]]. exists z, f, v0, cs, vs. split; [exact En|]. split; [|exact R1]. clear - F1 H GE D. induction F1; constructor; [eapply evals_meaning; eassumption|assumption].
  - intros [a [f [v0 [cs [vs [E1 [F1 R1]]]]]]]. destruct (machine_nth gs g H) as [_ MN]. destruct (MN i _ E1) as [m [EN En]]. destruct (GE i _ _ _ _ E1) as [G1 _]. cbn [newNode g_op g_children] in EN. destruct (Z.eqb_spec a 0); [lia|]. destruct (Z.ltb_spec a 0); [lia|]. injection EN as <-.
    exists (Z.to_nat a), f, cs, vs. split; [exact En|]. split; [|exact R1]. clear - F1 H GE D. induction F1; constructor; [eapply meaning_evals; eassumption|assumption].
Qed.

(** ** Executions *)
Lemma reachable_inv g (s s' : st) : fine g -> reachable g s s' -> (exists r, Inv g r s) -> exists r, Inv g r s'.
Proof. intros F R H. induction R as [|s s' s'' l R IH Hf]; [exact H|]. destruct (IH H) as [r I]. eapply inv_step; eassumption. Qed.
Lemma reachable_weak g (s s' : st) : reachable g s s' -> Weak g s -> Weak g s'.
Proof. intros R H. induction R as [|s s' s'' l R IH Hf]; [exact H|]. eapply weak_step; [apply IH, H|exact Hf]. Qed.
Lemma reaches_reachable g (s s' : st) : reaches g s s' -> reachable g s s'.
Proof. intro R. induction R as [|s s' s'' R IH [l [_ Hf]]]; [constructor|]. econstructor; eassumption. Qed.
Lemma step_ext g (s s' : st) : step g s s' -> ctxExt s' = ctxExt s.
Proof.
  intros [l [NL Hf]]. destruct s as [ph0 ins0 out0 bc0 ed0 mn0 x0 n0 p0]. cbn [fire] in Hf. destruct l as [i|i p|i|i|i|c|i|c|i p|]; [| | | | | | | | |contradiction];
  repeat match goal with H : match ?x with _ => _ end = Some _ |- _ => destruct x; try discriminate H | H : Some (match ?x with _ => _ end) = Some _ |- _ => destruct x end; injection Hf as <-; reflexivity.
Qed.
Lemma fire_ext g l (s s' : st) : fire g l s = Some s' -> ctxExt s = true -> ctxExt s' = true.
Proof.
  intros Hf X. destruct l; try (rewrite (step_ext g s s'); [exact X|eexists; split; [|exact Hf]; discriminate]). destruct s as [ph0 ins0 out0 bc0 ed0 mn0 x0 n0 p0]. cbn [fire ctxExt] in *. subst x0. discriminate.
Qed.
Lemma reaches_ext g (s s' : st) : reaches g s s' -> ctxExt s' = ctxExt s.
Proof. intro R. induction R as [|s s' s'' R IH Hs]; [reflexivity|]. rewrite (step_ext _ _ _ Hs). exact IH. Qed.

Lemma sized_machine (gs : list gnode) (g : list node) ins0 : newMachine gs = Some g -> sizedFor gs ins0 -> sized g ins0.
Proof. intros H K i a f cs E. destruct (machine_back gs g i _ H E) as [n [En EN]]. destruct (node_op n a f cs EN) as [z [v [-> [Hz ->]]]]. apply (K i z f v cs En). lia. Qed.

(** Whatever an earlier Run left in the nodes, whenever the caller cancels and however the
    goroutines are scheduled: if Run returns nil, GetResult of every node is the value of
    the expression at that node. *)
Theorem C37_result (gs : list gnode) (g : list node) ins0 out0 cancelled s :
  newMachine gs = Some g -> dag gs -> generous gs -> sizedFor gs ins0 ->
  reachable g (start g ins0 out0 cancelled) s -> returned g s [] ->
  forall i, i < length gs -> meaning gs i (getResult s i) /\ forall v, meaning gs i v -> getResult s i = v.
Proof.
  intros HM D GE SZ R [M _] i Hi. pose proof (machine_acyclic gs g HM D) as AC. pose proof (machine_roomy gs g HM GE) as RM. destruct (machine_nth gs g HM) as [L _]. rewrite <- L in Hi.
  destruct (reachable_inv g _ _ (conj AC RM) R (ex_intro _ _ (inv_start g ins0 out0 cancelled (sized_machine _ _ _ HM SZ)))) as [r I].
  assert (EV : evals g i (out s i)).
  { pose proof (iMain _ _ _ I) as JM. rewrite M in JM. destruct JM as [M1 [M2 [M3 M4]]]. destruct (M1 i Hi) as [[e|] P]; [exfalso; apply (M3 i e Hi P); reflexivity|].
    destruct (nth_error g i) as [[[v|a f] cs]|] eqn:E; [| |apply nth_error_None in E; lia].
    - destruct (iIn _ _ _ I i v cs E) as [-> _]. eapply ev_input; exact E.
    - destruct (iOp _ _ _ I i a f cs E) as [_ [_ [_ [_ [_ [_ K]]]]]]. apply K. right. exists true. exact P. }
  split; [eapply evals_meaning; eassumption|]. intros v Hv. eapply evals_det; [exact AC|exact EV|]. eapply meaning_evals; eassumption.
Qed.
(** If Run returns an error, the caller has cancelled or some operator fails on the values
    of its children. *)
Theorem C37_error (gs : list gnode) (g : list node) ins0 out0 cancelled s errs :
  newMachine gs = Some g -> dag gs -> generous gs -> sizedFor gs ins0 ->
  reachable g (start g ins0 out0 cancelled) s -> returned g s errs -> errs <> [] ->
  ctxExt s = true \/ exists j, broken gs j.
Proof.
  intros HM D GE SZ R [M _] NE. pose proof (machine_acyclic gs g HM D) as AC. pose proof (machine_roomy gs g HM GE) as RM.
  destruct (reachable_inv g _ _ (conj AC RM) R (ex_intro _ _ (inv_start g ins0 out0 cancelled (sized_machine _ _ _ HM SZ)))) as [r I].
  pose proof (iMain _ _ _ I) as JM. rewrite M in JM. destruct JM as [M1 [M2 [M3 M4]]]. destruct (M4 NE) as [X|[j B]]; [left; exact X|right; exists j; eapply failing_broken; eassumption].
Qed.
(** No deadlock and no endless run: when every operator has as many children as arguments,
    every execution in which the caller does not cancel comes to the point where Run
    returns; the error is nil exactly if no operator fails, and then the results are the
    values of the expressions. *)
Theorem C37_always (gs : list gnode) (g : list node) ins0 out0 :
  newMachine gs = Some g -> dag gs -> honest gs -> sizedFor gs ins0 -> gs <> [] ->
  inevitably g (fun s => exists errs, returned g s errs /\ (errs = [] <-> forall j, ~ broken gs j) /\
                           (errs = [] -> forall i, i < length gs -> meaning gs i (getResult s i)))
             (start g ins0 out0 false).
Proof.
  intros HM D HO SZ NE. pose proof (honest_generous _ HO) as GE. pose proof (machine_acyclic gs g HM D) as AC. pose proof (machine_roomy gs g HM GE) as RM. pose proof (machine_saturated gs g HM HO) as SA. destruct (machine_nth gs g HM) as [L MN].
  assert (NG : g <> []) by (intro; subst; destruct gs; [contradiction|discriminate]).
  set (s0 := start g ins0 out0 false).
  apply (inevitably_size g (fun s => reaches g s0 s)); [| |constructor].
  2: { intros s s' R Hs. econstructor; eassumption. }
  intros s R. pose proof (reaches_reachable _ _ _ R) as RR.
  destruct (reachable_inv g _ _ (conj AC RM) RR (ex_intro _ _ (inv_start g ins0 out0 false (sized_machine _ _ _ HM SZ)))) as [r I].
  pose proof (reachable_weak _ _ _ RR (weak_start g ins0 out0 false)) as W.
  destruct (progress g r s AC SA NG I W) as [[errs RT]|K]; [|right; exact K]. left. exists errs. split; [exact RT|].
  assert (RES : errs = [] -> forall i, i < length gs -> meaning gs i (getResult s i) /\ forall v, meaning gs i v -> getResult s i = v) by (intros ->; eapply C37_result; eassumption).
  split; [|intros Z i Hi; apply (RES Z i Hi)]. split.
  - intros Z j [a [f [v0 [cs [vs [E1 [F1 R1]]]]]]]. assert (Hj : j < length gs) by (apply nth_error_Some; congruence). destruct (RES Z j Hj) as [MJ _].
    inversion MJ as [? ? cs2 E2|? a2 f2 v2 cs2 vs2 ? E2 F2 R2]; subst; [congruence|]. rewrite E1 in E2. injection E2 as <- <- <- <-.
    assert (vs = vs2); [|congruence]. clear - F1 F2 HM GE D AC. revert vs2 F2. induction F1 as [|c v cs vs Hv F1 IHF]; intros vs2 F2; inversion F2 as [|? w ? ws Hw F2']; subst; [reflexivity|]. f_equal; [|apply IHF; exact F2']. eapply evals_det; [exact AC| |]; eapply meaning_evals; eassumption.
  - intro NB. destruct errs as [|e errs]; [reflexivity|]. exfalso. destruct (C37_error gs g ins0 out0 false s (e :: errs) HM D GE SZ RR RT ltac:(discriminate)) as [X|[j B]]; [|exact (NB j B)]. rewrite (reaches_ext _ _ _ R) in X. discriminate.
Qed.
(** After the caller cancels, Run returns, whatever the graph: cycles, wrong arities and
    operators that never get their arguments included. *)
Theorem C37_cancel g ins0 out0 cancelled (s : st) :
  g <> [] -> reachable g (start g ins0 out0 cancelled) s -> ctxExt s = true ->
  inevitably g (fun s' => exists errs, returned g s' errs) s.
Proof.
  intros NE R X. apply (inevitably_size g (fun s => Weak g s /\ ctxExt s = true)).
  - intros s1 [W X1]. pose proof W as [_ WM]. destruct (mn s1) as [t errs|errs] eqn:M.
    + destruct WM as [T1 [T2 T3]]. specialize (T2 NE). rewrite T1 in T2. destruct (unreported_some g _ T2) as [i [Hi NR]]. right. eapply abort_step; [exact W|rewrite X1; reflexivity|exists t, errs; exact M|exact Hi|exact NR].
    + destruct (wind_down g s1 errs M WM) as [K|K]; [left; exists errs; exact K|right; exact K].
  - intros s1 s2 [W X1] [l [NL Hf]]. split; [eapply weak_step; eassumption|eapply fire_ext; eassumption].
  - split; [eapply reachable_weak; [exact R|apply weak_start]|exact X].
Qed.
Lemma op_step g l (s s' : st) i a f cs : nth_error g i = Some (N (Op a f) cs) -> fire g l s = Some s' -> ph s i = Start \/ (exists c, ph s i = Recv c) ->
  ph s' i = Start \/ (exists c, ph s' i = Recv c) \/ ph s' i = Comp \/ exists e b, ph s' i = Fin (Some e) b.
Proof.
  intros E H P. destruct s as [ph0 ins0 out0 bc0 ed0 mn0 x0 n0 p0]. cbn [fire] in H. cbn [ph] in P.
  assert (SAME : forall ph1 : nat -> phase, ph1 i = ph0 i -> ph1 i = Start \/ (exists c, ph1 i = Recv c) \/ ph1 i = Comp \/ exists e b, ph1 i = Fin (Some e) b) by (intros ph1 ->; destruct P as [P|P]; auto).
  assert (UPD : forall j x, (j = i -> x = Start \/ (exists c, x = Recv c) \/ x = Comp \/ exists e b, x = Fin (Some e) b) ->
     upd ph0 j x i = Start \/ (exists c, upd ph0 j x i = Recv c) \/ upd ph0 j x i = Comp \/ exists e b, upd ph0 j x i = Fin (Some e) b).
  { intros j x Hx. destruct (Nat.eq_dec j i) as [->|NE]; [rewrite upd_same; apply Hx; reflexivity|apply SAME; apply upd_other; congruence]. }
  destruct l as [j|j p|j|j|j|c|j|c|j p|].
  - destruct (nth_error g j) as [nd|] eqn:Ej; [|discriminate]. destruct (ph0 j); try discriminate. injection H as <-. cbn [ph]. apply UPD. intros ->. assert (nd = N (Op a f) cs) by congruence. subst. right. left. exists 0. reflexivity.
  - destruct (nth_error g j) as [[[v0|a' f'] cs']|] eqn:Ej; try discriminate. destruct (ph0 j) as [|c0| | |] eqn:Pj; try discriminate. destruct (ed0 j p) as [|v|]; try discriminate. destruct (p <? length cs'); [|discriminate]. injection H as <-. destruct (a' <=? p); cbn [ph]; apply UPD; intros _; [right; right; right; eexists; eexists; reflexivity|]. destruct (S c0 <? a'); [right; left; eexists; reflexivity|right; right; left; reflexivity].
  - destruct (nth_error g j) as [[[v0|a' f'] cs']|] eqn:Ej; try discriminate. destruct (ph0 j) eqn:Pj; try discriminate. injection H as <-. destruct (f' (ins0 j)); cbn [ph]; apply UPD; intros ->; [|right; right; right; eexists; eexists; reflexivity]. destruct P as [P|[c P]]; congruence.
  - destruct (nth_error g j) eqn:Ej; [|discriminate]. destruct (ph0 j) eqn:Pj; try discriminate. destruct (hasOut g j); [destruct (bc0 j); try discriminate|]; injection H as <-; cbn [ph]; apply UPD; intros ->; destruct P as [P|[c P]]; congruence.
  - destruct (x0 || n0); [|discriminate]. destruct (nth_error g j) as [nd|] eqn:Ej; [|discriminate]. destruct (ph0 j) eqn:Pj; try discriminate; [|destruct (hasOut g j); [|discriminate]]; injection H as <-; cbn [ph]; apply UPD; intros _; right; right; right; eexists; eexists; reflexivity.
  - destruct (nth_error g c); [|discriminate]. destruct (bc0 c); try discriminate. destruct (nth_error (subs g c) k) as [[i' p]|]; [|discriminate]. destruct (ed0 i' p); try discriminate. injection H as <-. apply SAME. reflexivity.
  - destruct (nth_error g j) as [nd|] eqn:Ej; [|discriminate]. destruct (ph0 j) as [| | | |e b] eqn:Pj; try discriminate. destruct b; [discriminate|]. destruct mn0 as [t errs|]; [|discriminate]. injection H as <-. destruct (t - 1 =? 0); cbn [ph]; apply UPD; intros ->; destruct P as [P|[c P]]; congruence.
  - destruct ((x0 || p0) && (c <? length g)); [|discriminate]. destruct (bc0 c); try discriminate; injection H as <-; apply SAME; reflexivity.
  - destruct (x0 || p0); [|discriminate]. destruct (nth_error g j) as [nd|]; [|discriminate]. destruct (isOp nd && (p <? length (ch nd))); [|discriminate]. destruct (ed0 j p); try discriminate; injection H as <-; apply SAME; reflexivity.
  - destruct x0; [discriminate|]. injection H as <-. apply SAME. reflexivity.
Qed.
(** If some operator says that it takes more arguments than it has children - as
    constantTensor does, whose Arity is 1 - and no operator fails, every execution gets
    stuck and Run never returns unless the caller cancels. *)
Theorem C37_constant_refuted (gs : list gnode) (g : list node) ins0 out0 i a f v0 cs :
  newMachine gs = Some g -> dag gs -> generous gs -> sizedFor gs ins0 -> (forall j, ~ broken gs j) ->
  nth_error gs i = Some (GN (Some (a, f)) v0 cs) -> (Z.of_nat (length cs) < a)%Z ->
  (forall s errs, reaches g (start g ins0 out0 false) s -> ~ returned g s errs) /\
  inevitably g (fun s => forall s', ~ step g s s') (start g ins0 out0 false).
Proof.
  intros HM D GE SZ NB Ei Ha. pose proof (machine_acyclic gs g HM D) as AC. pose proof (machine_roomy gs g HM GE) as RM. destruct (machine_nth gs g HM) as [L MN]. split.
  - assert (AA : fine g) by (split; assumption). pose proof (sized_machine _ _ _ HM SZ) as SZ'.
    destruct (MN i _ Ei) as [m [EN En]]. cbn [newNode g_op g_children] in EN. destruct (Z.eqb_spec a 0); [lia|]. destruct (Z.ltb_spec a 0); [lia|]. injection EN as <-. pose proof (lt_len _ _ _ En) as Hi.
    assert (INV : forall s, reaches g (start g ins0 out0 false) s -> (exists r, Inv g r s) /\ ctxExt s = false).
    { intros s R. split; [|rewrite (reaches_ext _ _ _ R); reflexivity]. eapply reachable_inv; [exact AA|apply reaches_reachable; exact R|]. eexists. apply inv_start; assumption. }
    assert (ST : forall s, reaches g (start g ins0 out0 false) s -> ph s i = Start \/ exists c, ph s i = Recv c).
    { intros s R. remember (start g ins0 out0 false) as s0 eqn:E0. induction R as [s|s s' s'' R IH Hs]; [left; subst; reflexivity|].
      destruct (INV s'' ltac:(subst; econstructor; eassumption)) as [[r I] X]. destruct Hs as [l [NL Hf]]. destruct (op_step g l s' s'' i _ _ _ En Hf (IH E0 INV)) as [K|[K|[K|[e [b K]]]]]; [left; exact K|right; exact K| |]; exfalso.
      - destruct (iOp _ _ _ I i _ _ _ En) as [K1 [K2 [K3 [K4 [K5 [K6 K7]]]]]]. specialize (K6 K).
        assert (IC : incl (r i) (seq 0 (length cs))). { intros p Hp. destruct (K3 p Hp) as [c [v [Hc _]]]. apply in_seq. split; [lia|]. apply nth_error_Some. congruence. }
        pose proof (NoDup_incl_length K2 IC) as Q. rewrite seq_length in Q. lia.
      - destruct (iFail _ _ _ I i e b Hi K) as [Y|[j B]]; [congruence|]. apply (NB j). eapply failing_broken; eassumption. }
    intros s errs R [M _]. destruct (INV s R) as [[r I] _]. pose proof (iMain _ _ _ I) as JM. rewrite M in JM. destruct JM as [M1 _]. destruct (M1 i Hi) as [e P]. destruct (ST s R) as [Q|[c Q]]; congruence.
  - apply (inevitably_size g (fun _ => True)); [|intros; exact I|exact I]. intros s _. destruct (step_dec g s) as [K|K]; [right; exact K|left; exact K].
Qed.
(** Run on a machine without nodes never returns, not even when the caller cancels: it
    waits on errC for a report that never comes. *)
Theorem C37_empty_refuted ins0 out0 cancelled (s : st) errs :
  reachable [] (start [] ins0 out0 cancelled) s -> ~ returned [] s errs.
Proof.
  intro R. assert (K : exists t e, mn s = Loop t e).
  { remember (start [] ins0 out0 cancelled) as s0 eqn:E0. induction R as [s|s s' s'' l R IH Hf]; [subst; eexists; eexists; reflexivity|]. destruct (IH E0) as [t [e M]]. destruct s' as [ph1 ins1 out1 bc1 ed1 mn1 x1 n1 p1]. cbn [mn] in M. subst mn1. cbn [fire] in Hf.
    assert (NN : forall j, nth_error (@nil node) j = None) by (intros [|j]; reflexivity).
    destruct l as [i|i p|i|i|i|c|i|c|i p|]; rewrite ?NN in Hf; try discriminate Hf.
    - destruct (x1 || n1); discriminate Hf.
    - rewrite andb_false_r in Hf. discriminate.
    - destruct (x1 || p1); discriminate Hf.
    - destruct x1; [discriminate|]. injection Hf as <-. eexists; eexists; reflexivity. }
  destruct K as [t [e M]]. intros [M' _]. congruence.
Qed.
(** An operator that says it takes no arguments - randomOp, letOp, readOp - is never run:
    the result of its node is the value the node had when the machine was made. *)
Theorem C37_nullary_refuted (gs : list gnode) (g : list node) ins0 out0 cancelled s i f v0 cs :
  newMachine gs = Some g -> nth_error gs i = Some (GN (Some (0%Z, f)) v0 cs) ->
  reachable g (start g ins0 out0 cancelled) s -> getResult s i = v0.
Proof.
  intros HM Ei R. destruct (machine_nth gs g HM) as [L MN]. destruct (MN i _ Ei) as [m [EN En]]. cbn in EN. injection EN as <-. unfold getResult.
  remember (start g ins0 out0 cancelled) as s0 eqn:E0. induction R as [s|s s' s'' l R IH Hf]; [subst; cbn [start out]; rewrite En; reflexivity|]. rewrite <- (IH E0).
  assert (OUT : out s'' i = out s' i); [|exact OUT]. destruct s' as [ph1 ins1 out1 bc1 ed1 mn1 x1 n1 p1]. cbn [out]. cbn [fire] in Hf. clear IH.
  destruct l as [j|j p|j|j|j|c|j|c|j p|].
  3: { destruct (nth_error g j) as [[[w|a' f'] cs']|] eqn:Ej; try discriminate. destruct (ph1 j) eqn:Pj; try discriminate. injection Hf as <-. destruct (f' (ins1 j)); cbn [out]; [|reflexivity]. apply upd_other. intro; subst. congruence. }
  all: repeat match goal with H : match ?x with _ => _ end = Some _ |- _ => destruct x; try discriminate H | H : Some (match ?x with _ => _ end) = Some _ |- _ => destruct x end; injection Hf as <-; reflexivity.
Qed.
(** NewMachine panics exactly if some operator says a negative number of arguments, as
    concatOp does. *)
Theorem C37_negative_arity (gs : list gnode) :
  newMachine gs = None <-> exists i a f v0 cs, nth_error gs i = Some (GN (Some (a, f)) v0 cs) /\ (a < 0)%Z.
Proof.
  induction gs as [|n gs IH]; cbn [newMachine].
  - split; [discriminate|]. intros [[|i] [a [f [v0 [cs [E _]]]]]]; discriminate.
  - split.
    + intro H. destruct n as [[[a f]|] v0 cs]; cbn [newNode g_op g_val g_children] in H.
      * destruct (Z.eqb_spec a 0); [|destruct (Z.ltb_spec a 0); [exists 0, a, f, v0, cs; auto|]]; (destruct (newMachine gs); [discriminate|]; destruct (proj1 IH eq_refl) as [i K]; exists (S i); exact K).
      * destruct (newMachine gs); [discriminate|]. destruct (proj1 IH eq_refl) as [i K]. exists (S i). exact K.
    + intros [[|i] [a [f [v0 [cs [E Ha]]]]]]; cbn [nth_error] in E.
      * injection E as ->. cbn [newNode g_op]. destruct (Z.eqb_spec a 0); [lia|]. destruct (Z.ltb_spec a 0); [reflexivity|lia].
      * rewrite (proj2 IH) by (exists i, a, f, v0, cs; auto). destruct (newNode n); reflexivity.
Qed.
End Props.
Print Assumptions C37_result.
Print Assumptions C37_error.
Print Assumptions C37_always.
Print Assumptions C37_cancel.
Print Assumptions C37_constant_refuted.
Print Assumptions C37_empty_refuted.
Print Assumptions C37_nullary_refuted.
Print Assumptions C37_negative_arity.

(** ** Cases *)
Definition zadd (l : list Z) : option Z := match l with [x; y] => Some (x + y)%Z | _ => None end.
Definition zsub (l : list Z) : option Z := match l with [x; y] => Some (x - y)%Z | _ => None end.
Definition zdiv (l : list Z) : option Z := match l with [x; y] => if (y =? 0)%Z then None else Some (x / y)%Z | _ => None end.
(** x, y, x+x, (x+x)-y: a child twice, and an operator that is not commutative. *)
Definition exprZ (op : list Z -> option Z) (y : Z) : list (@gnode Z) :=
  [GN None 5%Z []; GN None y []; GN (Some (2%Z, zadd)) 0%Z [0; 0]; GN (Some (2%Z, op)) 0%Z [2; 1]].
Lemma exprZ_dag op y : dag (exprZ op y).
Proof. exists (fun i => i). intros [|[|[|[|i]]]] n c E Hc; try (destruct i; discriminate); cbn in E; injection E as <-; cbn in Hc; cbn [length exprZ]; intuition subst; lia. Qed.
Lemma exprZ_honest op y : honest (exprZ op y).
Proof. intros [|[|[|[|i]]]] a f v0 cs E; try (destruct i; discriminate); cbn in E; try discriminate; injection E as <- <- <- <-; cbn; lia. Qed.
Lemma exprZ_sized op y : sizedFor (exprZ op y) (fun _ => [0; 0]%Z).
Proof. intros [|[|[|[|i]]]] a f v0 cs E Ha; try (destruct i; discriminate); cbn in E; try discriminate; injection E as <- <- <- <-; reflexivity. Qed.
Fixpoint runs {V} (g : list (@node V)) (ls : list label) (s : st) : option st :=
  match ls with [] => Some s | l :: ls' => match fire g l s with Some s' => runs g ls' s' | None => None end end.
Definition machineZ op y := match newMachine (exprZ op y) with Some g => g | None => [] end.
(** One execution, with y's value arriving before that of the sum. *)
Example C37_run_ex : match runs (machineZ zsub 3) [LStart 1; LEmit 1; LStart 3; LDeliver 1; LInput 3 1; LStart 0; LEmit 0; LReport 0; LDeliver 0; LStart 2; LDeliver 0; LInput 2 1; LInput 2 0; LComp 2; LEmit 2;
     LDeliver 2; LInput 3 0; LComp 3; LEmit 3; LReport 3; LReport 2; LReport 1; LExitB 0; LExitB 1; LExitB 2; LExitE 2 0; LExitE 2 1; LExitE 3 0; LExitE 3 1]
     (start (machineZ zsub 3) (fun _ => [0; 0]%Z) (fun _ => 0%Z) false) with
  | Some s => mn s = Ended [] /\ map (getResult s) [0; 1; 2; 3] = [5; 3; 10; 7]%Z /\ map (bc s) [0; 1; 2; 3] = [BExit; BExit; BExit; BExit]
  | None => False end.
Proof. vm_compute. repeat split. Qed.
Lemma exprZ_mean op y : (exists v, op [10; y]%Z = Some v) -> forall j, ~ broken (exprZ op y) j.
Proof.
  intros [v Hv] [|[|[|[|j]]]] [a [f [v0 [cs [vs [E [F R]]]]]]]; try (destruct j; discriminate); cbn in E; try discriminate; injection E as <- <- <- <-.
  - inversion F as [|? x ? ? Hx F1]; subst. inversion F1 as [|? x' ? ? Hx' F2]; subst. inversion F2; subst. discriminate.
  - inversion F as [|? x ? ? Hx F1]; subst. inversion F1 as [|? x' ? ? Hx' F2]; subst. inversion F2; subst.
    inversion Hx' as [? ? ? E|? ? ? ? ? ? ? E]; subst; cbn in E; [injection E as <- _|discriminate].
    inversion Hx as [? ? ? E1|? ? ? ? ? ws ? E1 F1' R1]; subst; cbn in E1; [discriminate|]. injection E1 as <- <- <- <-.
    inversion F1' as [|? z ? ? Hz F3]; subst. inversion F3 as [|? z' ? ? Hz' F4]; subst. inversion F4; subst.
    inversion Hz as [? ? ? E2|? ? ? ? ? ? ? E2]; subst; cbn in E2; [injection E2 as <- _|discriminate]. inversion Hz' as [? ? ? E3|? ? ? ? ? ? ? E3]; subst; cbn in E3; [injection E3 as <- _|discriminate]. cbn in R1. injection R1 as <-. congruence.
Qed.
(** Every execution of it ends with nil, and 7 at the root. *)
Example C37_always_ex : inevitably (machineZ zsub 3) (fun s => returned (machineZ zsub 3) s [] /\ getResult s 3 = 7%Z) (start (machineZ zsub 3) (fun _ => [0; 0]%Z) (fun _ => 0%Z) false).
Proof.
  pose proof (C37_always (exprZ zsub 3) (machineZ zsub 3) (fun _ => [0; 0]%Z) (fun _ => 0%Z) eq_refl (exprZ_dag _ _) (exprZ_honest _ _) (exprZ_sized _ _) ltac:(discriminate)) as H.
  assert (W : forall s errs, returned (machineZ zsub 3) s errs /\ (errs = [] <-> (forall j : nat, ~ broken (exprZ zsub 3) j)) /\ (errs = [] -> forall i : nat, i < length (exprZ zsub 3) -> meaning (exprZ zsub 3) i (getResult s i)) -> returned (machineZ zsub 3) s [] /\ getResult s 3 = 7%Z).
  { intros s errs [R [K1 K2]]. assert (errs = []) by (apply K1, exprZ_mean; eexists; reflexivity). subst. split; [exact R|]. pose proof (K2 eq_refl 3 ltac:(cbn; lia)) as M.
    assert (M' : meaning (exprZ zsub 3) 3 7%Z).
    { eapply (me_op _ 3 2%Z zsub 0%Z [2; 1] [10; 3]%Z); [reflexivity| |reflexivity]. constructor; [|constructor; [eapply me_input; reflexivity|constructor]]. eapply (me_op _ 2 2%Z zadd 0%Z [0; 0] [5; 5]%Z); [reflexivity| |reflexivity]. repeat constructor; eapply me_input; reflexivity. }
    pose proof (honest_generous _ (exprZ_honest zsub 3)) as GE. pose proof (exprZ_dag zsub 3) as D.
    eapply (evals_det (machineZ zsub 3)); [apply (machine_acyclic (exprZ zsub 3)); [reflexivity|exact D]| |]; eapply (meaning_evals (exprZ zsub 3)); try reflexivity; eassumption. }
  revert W. generalize (start (machineZ zsub 3) (fun _ => [0; 0]%Z) (fun _ => 0%Z) false) H. clear H. intros s H W. induction H as [s [errs K]|s K1 K2 IH]; [apply i_now, (W s errs K)|apply i_later; [exact K1|exact IH]].
Qed.
(** Division by zero at the root: an error comes back in every execution. *)
Example C37_broken_ex : broken (exprZ zdiv 0) 3.
Proof.
  exists 2%Z, zdiv, 0%Z, [2; 1], [10; 0]%Z. split; [reflexivity|]. split; [|reflexivity]. constructor; [|constructor; [eapply me_input; reflexivity|constructor]]. eapply (me_op _ 2 2%Z zadd 0%Z [0; 0] [5; 5]%Z); [reflexivity| |reflexivity]. repeat constructor; eapply me_input; reflexivity.
Qed.
(** A constant tensor: an operator of arity 1 without children. *)
Definition exprK : list (@gnode Z) := [GN (Some (1%Z, fun _ => Some 4%Z)) 4%Z []; GN None 5%Z []; GN (Some (2%Z, zadd)) 0%Z [0; 1]].
Example C37_constant_ex : let g := match newMachine exprK with Some g => g | None => [] end in
  (forall s errs, reaches g (start g (fun i => if i =? 0 then [0]%Z else [0; 0]%Z) (fun _ => 0%Z) false) s -> ~ returned g s errs) /\
  inevitably g (fun s => forall s', ~ step g s s') (start g (fun i => if i =? 0 then [0]%Z else [0; 0]%Z) (fun _ => 0%Z) false).
Proof.
  intro g. apply (C37_constant_refuted exprK g _ _ 0 1%Z (fun _ => Some 4%Z) 4%Z []); try reflexivity.
  - exists (fun i => i). intros [|[|[|i]]] n c E Hc; try (destruct i; discriminate); cbn in E; injection E as <-; cbn in Hc; cbn [length exprK]; intuition subst; lia.
  - intros [|[|[|i]]] a f v0 cs E; try (destruct i; discriminate); cbn in E; try discriminate; injection E as <- <- <- <-; cbn; lia.
  - intros [|[|[|i]]] a f v0 cs E Ha; try (destruct i; discriminate); cbn in E; try discriminate; injection E as <- <- <- <-; reflexivity.
  - intros [|[|[|j]]] [a [f [v0 [cs [vs [E [F R]]]]]]]; try (destruct j; discriminate); cbn in E; try discriminate; injection E as <- <- <- <-; [discriminate|].
    inversion F as [|? x ? ? Hx F1]; subst. inversion F1 as [|? x' ? ? Hx' F2]; subst. inversion F2; subst. discriminate.
Qed.
Example C37_cancel_ex : let g := match newMachine exprK with Some g => g | None => [] end in
  inevitably g (fun s' => exists errs, returned g s' errs) (start g (fun _ => []) (fun _ => 0%Z) true).
Proof. intro g. eapply C37_cancel; [discriminate|constructor|reflexivity]. Qed.
Example C37_negative_ex : newMachine [GN None 1%Z []; GN (Some (-1, zadd))%Z 0%Z [0; 0]] = None.
Proof. reflexivity. Qed.
Example C37_nullary_ex : newMachine [GN (Some (0%Z, fun _ => Some 9%Z)) 2%Z []] = Some [N (Input 2%Z) []].
Proof. reflexivity. Qed.
