(** C68: RunAll, Step and Reset in a loop on a tape machine. *)
From Coq Require Import Arith List Reals Bool Lia Lra.
From Verif Require Import BroadcastModel TrainModel TrainSpec TrainProofs.
Import ListNotations.
Local Open Scope R_scope.

(** With BindDualValues(ws...): the k-th iterate of gradient descent, for every k. *)
Theorem C68_training g c inputs ws grad e eta s0 k :
  prepared g c inputs e s0 -> ordered (kindOf g) inputs [] (order g) ->
  ws <> [] -> NoDup ws -> incl ws inputs -> (forall w, In w ws -> gradient_node g w (grad w)) ->
  exists s, train g (Some ws) eta ws k s0 = Ok s /\
    forall n, In n inputs -> value_is g s n (times k (descend g c grad eta ws) e n).
Proof.
  intros P O NE ND Hi GN. destruct (prepared_inv g c inputs ws e s0 Hi P) as [x [X1 [X2 I]]].
  destruct (train_ok g c inputs ws x X1 X2 Hi NE grad eta k s0 e ND I O GN) as [s [E1 I1]]. exists s. split; [exact E1|]. intros n Hn.
  exists (x n). destruct (X2 n Hn) as [K _]. unfold nodeValue. rewrite K. split; [apply (i_x _ _ _ _ _ _ _ _ _ I1 n Hn)|apply (x_lt _ _ _ _ _ _ _ _ _ n I1 Hn)].
Qed.
Print Assumptions C68_training.

(** Without a solver between the runs Grad holds the sum over all runs. *)
Theorem C68_accumulates g c inputs ws grad e s0 k :
  prepared g c inputs e s0 -> ordered (kindOf g) inputs [] (order g) ->
  ws <> [] -> NoDup ws -> incl ws inputs -> (forall w, In w ws -> gradient_node g w (grad w)) ->
  exists s, runMany g (Some ws) (S k) s0 = Ok s /\
    (forall n, In n inputs -> value_is g s n (e n)) /\
    forall w, In w ws -> grad_is g s w (INR (S k) * values c (kindOf g) (order g) e (grad w)).
Proof.
  intros P O NE ND Hi GN. destruct (prepared_inv g c inputs ws e s0 Hi P) as [x [X1 [X2 I]]].
  destruct (many_ok g c inputs ws x X1 Hi NE grad (S k) s0 e _ I O GN) as [s [E1 [I1 D1]]]. exists s. split; [exact E1|]. split.
  - intros n Hn. exists (x n). destruct (X2 n Hn) as [K _]. unfold nodeValue. rewrite K. split; [apply (i_x _ _ _ _ _ _ _ _ _ I1 n Hn)|apply (x_lt _ _ _ _ _ _ _ _ _ n I1 Hn)].
  - intros w Hw. specialize (D1 ltac:(discriminate) w Hw). pose proof (i_d _ _ _ _ _ _ _ _ _ I1 w Hw) as Q. unfold grad_is, nodeGrad. unfold dOf in *. destruct (bound s w) as [[y|y d]|]; try congruence.
    exists d. split; [reflexivity|]. destruct Q as [_ [-> _]]. lra.
Qed.
Print Assumptions C68_accumulates.

(** Without BindDualValues: right if every weight has a gradient node to itself that is
    not a constant. *)
Theorem C68_plain g c inputs ws grad e eta s0 k :
  prepared g c inputs e s0 -> ordered (kindOf g) inputs [] (order g) -> NoDup ws -> incl ws inputs ->
  (forall w, In w ws -> In (grad w) (order g) /\ deriv g w = Some (grad w) /\ exists f cs, kindOf g (grad w) = KOp f cs) ->
  (forall w w', In w ws -> In w' ws -> grad w = grad w' -> w = w') ->
  exists s, train g None eta ws k s0 = Ok s /\
    forall n, In n inputs -> value_is g s n (times k (descend g c grad eta ws) e n).
Proof.
  intros P O ND Hi GN GJ. destruct (prepared_rest g c inputs e s0 P) as [x [X1 [X2 I]]].
  destruct (train_plain g inputs x X1 X2 c grad eta ws k s0 e Hi ND I O GN GJ) as [s [E1 [I1 _]]]. exists s. split; [exact E1|]. intros n Hn.
  exists (x n). destruct (X2 n Hn) as [K _]. destruct (I1 n Hn) as [B [_ M]]. unfold nodeValue, valueAt. rewrite K, B. auto.
Qed.
Print Assumptions C68_plain.

(** A weight whose gradient node is a constant moves once, and never again. *)
Theorem C68_plain_constant g c inputs w m a e eta s0 k :
  prepared g c inputs e s0 -> ordered (kindOf g) inputs [] (order g) ->
  In w inputs -> In m (order g) -> deriv g w = Some m -> kindOf g m = KConst a ->
  exists s, train g None eta [w] (S k) s0 = Ok s /\ value_is g s w (e w - eta * c a) /\ value_is g s m 0.
Proof.
  intros P O Hw Hm Dm Km. destruct (prepared_rest g c inputs e s0 P) as [x [X1 [X2 I]]].
  destruct (train_const g inputs x X1 X2 a m w eta k c s0 e Hw I O Hm Dm Km) as [s [E' [c' [T [[R1 R2] [T2 T3]]]]]]. exists s. split; [exact T|]. split.
  - exists (x w). destruct (X2 w Hw) as [K _]. destruct (R1 w Hw) as [B [_ M]]. unfold nodeValue, valueAt. rewrite K, B. split; [reflexivity|congruence].
  - exists a. unfold nodeValue. rewrite Km. split; [reflexivity|]. destruct (R2 m a Km) as [_ M]. congruence.
Qed.
Print Assumptions C68_plain_constant.

(** Of two weights with one gradient node the second never moves. *)
Theorem C68_plain_shared g c inputs w1 w2 m e eta s0 k :
  prepared g c inputs e s0 -> ordered (kindOf g) inputs [] (order g) ->
  In w1 inputs -> In w2 inputs -> w1 <> w2 -> In m (order g) -> deriv g w1 = Some m -> deriv g w2 = Some m ->
  exists s, train g None eta [w1; w2] k s0 = Ok s /\ value_is g s w2 (e w2).
Proof.
  intros P O H1 H2 N Hm D1 D2. destruct (prepared_rest g c inputs e s0 P) as [x [X1 [X2 I]]].
  assert (Km : kindOf g m <> KIn).
  { clear - O Hm. revert O. generalize (@nil nat). induction (order g) as [|n ns IH]; intros seen O; [destruct Hm|]. destruct O as [_ [_ [O1 [_ O2]]]]. destruct Hm as [->|Hm]; [exact O1|apply (IH Hm _ O2)]. }
  destruct (train_shared g inputs x X1 X2 m w1 w2 eta k c s0 e H1 H2 N I O Hm Km D1 D2) as [s [E' [c' [T [[R1 R2] T2]]]]]. exists s. split; [exact T|].
  exists (x w2). destruct (X2 w2 H2) as [K _]. destruct (R1 w2 H2) as [B [_ M]]. unfold nodeValue, valueAt. rewrite K, B. split; [reflexivity|congruence].
Qed.
Print Assumptions C68_plain_shared.

(** A derivative once bound stays bound through any run, also when the node computes a new
    value, and is the same as before unless a gradient node of the node runs. *)
Lemma bindGrads_keep listed v n srcs : forall s s' a d, bindGrads listed v srcs s = Ok s' -> bound s n = Some (BD a d) -> (d < nxt s)%nat ->
  exists a' d', bound s' n = Some (BD a' d') /\ (d' < nxt s')%nat /\ (~ In n srcs -> d' = d /\ mem s' d = mem s d).
Proof.
  induction srcs as [|src srcs IH]; intros s s' a d E B L; cbn [bindGrads] in E; [injection E as <-; eauto 8|].
  destruct (negb _ && negb _); [destruct (IH _ _ _ _ E B L) as [a' [d' [K1 [K2 K3]]]]; exists a', d'; split; [exact K1|]; split; [exact K2|]; intros NI; apply K3; intros I; apply NI; right; exact I|].
  destruct (bindGrad v src s) as [s1| |] eqn:E1; try discriminate.
  assert (K : exists a1 d1, bound s1 n = Some (BD a1 d1) /\ (d1 < nxt s1)%nat /\ (n <> src -> d1 = d /\ mem s1 d = mem s d)).
  { unfold bindGrad in E1. destruct (Nat.eq_dec n src) as [Q|Q].
    - subst src. rewrite B in E1. cbn [new] in E1. injection E1 as <-. exists a, (nxt s). cbn [rebind bound nxt]. rewrite Nat.eqb_refl. split; [reflexivity|]. split; [lia|congruence].
    - destruct (bound s src) as [[y|y dd]|]; try discriminate; cbn [new] in E1; injection E1 as <-; exists a, d; cbn [rebind bound nxt mem]; rewrite (proj2 (Nat.eqb_neq n src) Q);
        (split; [exact B|]); (split; [lia|]); intros _; (split; [reflexivity|]); repeat (rewrite (proj2 (Nat.eqb_neq _ _)) by lia); reflexivity. }
  destruct K as [a1 [d1 [B1 [L1 K1]]]]. destruct (IH _ _ _ _ E B1 L1) as [a' [d' [K2 [K3 K4]]]]. exists a', d'. split; [exact K2|]. split; [exact K3|].
  intros NI. destruct K4 as [-> M1]; [intros I; apply NI; right; exact I|]. destruct K1 as [-> M2]; [intros ->; apply NI; left; reflexivity|]. split; [reflexivity|congruence].
Qed.
Theorem C68_derivatives_persist g dv n ns : forall s s' a d, execAll g dv ns s = Ok s' -> bound s n = Some (BD a d) -> (d < nxt s)%nat ->
  exists a' d', bound s' n = Some (BD a' d') /\ (d' < nxt s')%nat /\
    ((forall m, In m ns -> ~ In n (derivOf g m)) -> d' = d /\ mem s' d = mem s d).
Proof.
  induction ns as [|m ns IH]; intros s s' a d E B L; cbn [execAll] in E; [injection E as <-; eauto 8|].
  destruct (exec g dv m s) as [s1| |] eqn:E1; try discriminate.
  assert (K : exists a1 d1, bound s1 n = Some (BD a1 d1) /\ (d1 < nxt s1)%nat /\ (~ In n (derivOf g m) -> d1 = d /\ mem s1 d = mem s d)).
  { unfold exec in E1. destruct (doOp g m s) as [[s2 v]| |] eqn:E2; try discriminate.
    assert (K2 : bound s2 = bound s /\ (nxt s <= nxt s2)%nat /\ mem s2 d = mem s d).
    { unfold doOp in E2. destruct (kindOf g m) as [|c|f cs]; try discriminate; [injection E2 as <- _; auto|]. destruct (valuesAt s cs); [|discriminate]. unfold new in E2. injection E2 as <- _. cbn [bound nxt mem]. rewrite (proj2 (Nat.eqb_neq _ _)) by lia. auto. }
    destruct K2 as [K2 [K3 K4]].
    assert (K5 : exists a2, bound (bindValue m v s2) n = Some (BD a2 d)).
    { unfold bindValue, rebind. cbn [bound]. destruct (Nat.eqb n m) eqn:Q; [|rewrite K2; eauto]. apply Nat.eqb_eq in Q. subst m. rewrite K2, B. eauto. }
    destruct K5 as [a2 K5]. assert (K6 : (d < nxt (bindValue m v s2))%nat) by (cbn [bindValue rebind nxt]; lia).
    destruct dv as [listed|]; [|injection E1 as <-; exists a2, d; split; [exact K5|]; split; [exact K6|]; intros _; split; [reflexivity|exact K4]].
    destruct (bindGrads_keep _ _ n _ _ _ _ _ E1 K5 K6) as [a1 [d1 [Q1 [Q2 Q3]]]]. exists a1, d1. split; [exact Q1|]. split; [exact Q2|]. intros NI. destruct (Q3 NI) as [Q4 Q5]. split; [exact Q4|]. rewrite Q5. exact K4. }
  destruct K as [a1 [d1 [B1 [L1 K1]]]]. destruct (IH _ _ _ _ E B1 L1) as [a' [d' [K2 [K3 K4]]]]. exists a', d'. split; [exact K2|]. split; [exact K3|].
  intros NI. destruct K4 as [-> M1]; [intros m' I; apply NI; right; exact I|]. destruct (K1 (NI m (or_introl eq_refl))) as [-> M2]. split; [reflexivity|congruence].
Qed.
Print Assumptions C68_derivatives_persist.

(** BindDualValues() without nodes binds the derivative of every node: the first run of a
    fresh graph panics exactly if a gradient node runs before the node it is for. *)
Theorem C68_all_nodes g c inputs e s0 :
  prepared g c inputs e s0 -> ordered (kindOf g) inputs [] (order g) -> (forall n, In n (order g) -> bound s0 n = None) ->
  (forall n src, In n (order g) -> In src (derivOf g n) -> In src inputs \/ In src (order g)) ->
  (runAll g (Some []) s0 = Panic <->
   exists pre n post src, order g = pre ++ n :: post /\ In src (derivOf g n) /\ In src post) /\
  (runAll g (Some []) s0 <> Panic -> exists s, runAll g (Some []) s0 = Ok s).
Proof.
  intros P O U C. assert (H : forall m, In m (inputs ++ []) -> isB s0 m = true).
  { intros m Hm. rewrite app_nil_r in Hm. destruct P as [[x [X _]] _]. destruct (X m Hm) as [_ [B _]]. unfold isB. rewrite B. reflexivity. }
  unfold runAll. destruct (all_isB g inputs (order g) s0 [] H O) as [[[pre [n [post [src [E1 [E2 [E3 [E4 E5]]]]]]]] Q]|[s' [A Q]]]; rewrite Q.
  - split; [|congruence]. split; [intros _|reflexivity]. exists pre, n, post, src. split; [exact E1|]. split; [exact E2|].
    destruct (C n src) as [K|K]; [rewrite E1; apply in_or_app; right; left; reflexivity|exact E2|rewrite (H src) in E5 by (rewrite app_nil_r; exact K); discriminate|].
    rewrite E1 in K. apply in_app_or in K. destruct K as [K|[K|K]]; [contradiction|congruence|exact K].
  - split; [|intros _; exists s'; reflexivity]. split; [discriminate|]. intros [pre [n [post [src [E1 [E2 E3]]]]]]. exfalso.
    pose proof (ordered_nodup _ _ _ _ O) as ND. rewrite E1 in ND. destruct (A pre n post src E1 E2) as [->|[K|K]].
    + apply NoDup_remove_2 in ND. apply ND. apply in_or_app. right. exact E3.
    + clear - ND K E3. induction pre as [|p pre IH]; [destruct K|]. inversion ND as [|? ? N1 N2]; subst. destruct K as [->|K]; [|apply IH; auto]. apply N1. apply in_or_app. right. right. exact E3.
    + unfold isB in K. rewrite U in K; [discriminate|]. rewrite E1. apply in_or_app. right. right. exact E3.
Qed.
Print Assumptions C68_all_nodes.

(** cost = x * w + b as Grad leaves it: 0 = w, 1 = b, 2 = x, 3 = x * w, 4 = cost,
    5 = the constant one (the gradient of 4, 3 and b), 6 = x * 1 (the gradient of w). *)
Definition line_fit : graph :=
  G (fun n => match n with
              | 3 | 6 => KOp (fun v => match v with [a; b] => a * b | _ => 0 end)%R (if Nat.eqb n 3 then [2; 0]%nat else [2; 5]%nat)
              | 4 => KOp (fun v => match v with [a; b] => a + b | _ => 0 end)%R [3; 1]%nat
              | 5 => KConst 0
              | _ => KIn
              end%nat)
    (fun n => match n with 5 => [4; 3; 1] | 6 => [0] | _ => [] end%nat)
    (fun n => match n with 0 => Some 6 | 1 | 3 | 4 => Some 5 | _ => None end%nat)
    [3; 4; 5; 6]%nat.
Definition line_start : st :=
  St (fun a => match a with 0 => 1%R | 1 => 10%R | 2 => 20%R | _ => 3%R end%nat) 4 (fun n => if Nat.ltb n 3 then Some (BV (S n)) else None).
Definition ones (a : nat) : R := 1.
Definition line_env (n : nat) : R := match n with 0 => 10%R | 1 => 20%R | _ => 3%R end%nat.
Ltac which := cbn [In] in *; repeat match goal with H : _ \/ _ |- _ => destruct H as [H|H] | H : False |- _ => destruct H end; subst.
Lemma line_prepared : prepared line_fit ones [0; 1; 2]%nat line_env line_start.
Proof.
  assert (KC : forall k a, kindOf line_fit k = KConst a -> a = 0%nat).
  { intros k a Hk. do 7 (destruct k as [|k]; [try discriminate; try (injection Hk as <-; reflexivity)|]). discriminate. }
  split.
  - exists S. split; [|intros n m _ _ Q; injection Q; auto]. intros n Hn. which; (split; [reflexivity|]); (split; [reflexivity|]); (split; [cbn; lia|]); (split; [reflexivity|]); intros k a Hk; rewrite (KC k a Hk); discriminate.
  - intros k a Hk. rewrite (KC k a Hk). split; [cbn; lia|reflexivity].
Qed.
Lemma line_ordered : ordered (kindOf line_fit) [0; 1; 2]%nat [] (order line_fit).
Proof.
  cbn [order line_fit ordered kindOf]. repeat split; try (intro K; cbn in K; repeat (destruct K as [K|K]; [discriminate|]); exact K); try discriminate;
  intros f cs K; injection K as _ <-; intros y Hy; cbn in Hy; which; cbn; auto 8.
Qed.
Lemma line_gradients w : In w [0; 1]%nat -> gradient_node line_fit w (if Nat.eqb w 0 then 6 else 5)%nat.
Proof.
  intros H. which; unfold gradient_node; cbn [Nat.eqb]; (split; [cbn; auto|]); (split; [reflexivity|]); (split; [reflexivity|]); intros m' Hm N K; cbn in Hm; which; cbn in K; which; congruence.
Qed.
(** One round moves w by eta * x and b by eta, the next does the same again. *)
Example C68_ex : exists s, train line_fit (Some [0; 1]%nat) (1 / 2) [0; 1]%nat 2 line_start = Ok s /\ value_is line_fit s 0 7 /\ value_is line_fit s 1 19.
Proof.
  destruct (C68_training line_fit ones [0; 1; 2]%nat [0; 1]%nat (fun w => if Nat.eqb w 0 then 6 else 5)%nat line_env (1 / 2) line_start 2) as [s [T V]].
  - exact line_prepared.
  - exact line_ordered.
  - discriminate.
  - repeat constructor; cbn; intuition discriminate.
  - intros y Hy. which; cbn; auto.
  - exact line_gradients.
  - exists s. split; [exact T|]. split; [specialize (V 0%nat ltac:(cbn; auto))|specialize (V 1%nat ltac:(cbn; auto))]; destruct V as [a [V1 V2]]; exists a; (split; [exact V1|]); rewrite V2; cbn; unfold ones; lra.
Qed.
(** The same loop without BindDualValues: b moves once. *)
Example C68_constant_ex : exists s, train line_fit None (1 / 2) [1]%nat 100 line_start = Ok s /\ value_is line_fit s 1 (39 / 2).
Proof.
  destruct (C68_plain_constant line_fit ones [0; 1; 2]%nat 1 5 0 line_env (1 / 2) line_start 99 line_prepared line_ordered) as [s [T [V _]]]; [cbn; auto|cbn; auto|reflexivity|reflexivity|].
  exists s. split; [exact T|]. destruct V as [a [V1 V2]]. exists a. split; [exact V1|]. rewrite V2. cbn. unfold ones. lra.
Qed.
(** w alone is right without it. *)
Example C68_plain_ex : exists s, train line_fit None (1 / 2) [0]%nat 2 line_start = Ok s /\ value_is line_fit s 0 7.
Proof.
  destruct (C68_plain line_fit ones [0; 1; 2]%nat [0]%nat (fun _ => 6%nat) line_env (1 / 2) line_start 2 line_prepared line_ordered) as [s [T V]].
  - repeat constructor; cbn; intuition discriminate.
  - intros y Hy. which; cbn; auto.
  - intros w Hw. which. split; [cbn; auto|]. split; [reflexivity|]. eexists; eexists; reflexivity.
  - intros u v Hu Hv _. which. reflexivity.
  - exists s. split; [exact T|]. specialize (V 0%nat ltac:(cbn; auto)). destruct V as [a [V1 V2]]. exists a. split; [exact V1|]. rewrite V2. cbn. unfold ones. lra.
Qed.
Example C68_accumulates_ex : exists s, runMany line_fit (Some [0; 1]%nat) 3 line_start = Ok s /\ grad_is line_fit s 0 9 /\ grad_is line_fit s 1 3.
Proof.
  destruct (C68_accumulates line_fit ones [0; 1; 2]%nat [0; 1]%nat (fun w => if Nat.eqb w 0 then 6 else 5)%nat line_env line_start 2 line_prepared line_ordered) as [s [T [_ V]]].
  - discriminate.
  - repeat constructor; cbn; intuition discriminate.
  - intros y Hy. which; cbn; auto.
  - exact line_gradients.
  - exists s. split; [exact T|]. split; [specialize (V 0%nat ltac:(cbn; auto))|specialize (V 1%nat ltac:(cbn; auto))]; destruct V as [a [V1 V2]]; exists a; (split; [exact V1|]); rewrite V2; cbn; unfold ones; lra.
Qed.
(** cost = a + b: 0 = a, 1 = b, 2 = cost, 3 = the constant one, the gradient of all. *)
Definition sum_graph : graph :=
  G (fun n => match n with 2 => KOp (fun v => match v with [a; b] => a + b | _ => 0 end)%R [0; 1]%nat | 3 => KConst 0 | _ => KIn end%nat)
    (fun n => match n with 3 => [2; 0; 1] | _ => [] end%nat) (fun n => Some 3%nat) [2; 3]%nat.
Example C68_shared_ex : exists s, train sum_graph None (1 / 2) [0; 1]%nat 3 line_start = Ok s /\ value_is sum_graph s 1 20.
Proof.
  apply (C68_plain_shared sum_graph ones [0; 1]%nat 0 1 3 line_env (1 / 2) line_start 3).
  - assert (KC : forall k a, kindOf sum_graph k = KConst a -> a = 0%nat).
    { intros k a Hk. do 4 (destruct k as [|k]; [try discriminate; try (injection Hk as <-; reflexivity)|]). discriminate. }
    split.
    + exists S. split; [|intros n m _ _ Q; injection Q; auto]. intros n Hn. which; (split; [reflexivity|]); (split; [reflexivity|]); (split; [cbn; lia|]); (split; [reflexivity|]); intros k a Hk; rewrite (KC k a Hk); discriminate.
    + intros k a Hk. rewrite (KC k a Hk). split; [cbn; lia|reflexivity].
  - cbn [order sum_graph ordered kindOf]. repeat split; try (intro K; cbn in K; repeat (destruct K as [K|K]; [discriminate|]); exact K); try discriminate;
    intros f cs K; injection K as _ <-; intros y Hy; cbn in Hy; which; cbn; auto 8.
  - cbn; auto.
  - cbn; auto.
  - discriminate.
  - cbn; auto.
  - reflexivity.
  - reflexivity.
Qed.
(** In this order the constant one runs after the cost; one place earlier the run panics. *)
Example C68_all_nodes_ex : (exists s, runAll line_fit (Some []) line_start = Ok s) /\
  runAll (G (kindOf line_fit) (derivOf line_fit) (deriv line_fit) [5; 3; 4; 6]%nat) (Some []) line_start = Panic.
Proof.
  assert (P2 : prepared (G (kindOf line_fit) (derivOf line_fit) (deriv line_fit) [5; 3; 4; 6]%nat) ones [0; 1; 2]%nat line_env line_start) by exact line_prepared.
  assert (C : forall n src, In n [3; 4; 5; 6]%nat -> In src (derivOf line_fit n) -> In src [0; 1; 2]%nat \/ In src [3; 4; 5; 6]%nat).
  { intros n src Hn Hs. which; cbn in Hs; which; cbn; auto 8. }
  split.
  - apply (C68_all_nodes line_fit ones [0; 1; 2]%nat line_env line_start line_prepared line_ordered).
    + intros n Hn. cbn in Hn. which; reflexivity.
    + exact C.
    + intro K. apply (C68_all_nodes line_fit ones [0; 1; 2]%nat line_env line_start line_prepared line_ordered) in K; [|intros n Hn; cbn in Hn; which; reflexivity|exact C].
      destruct K as [pre [n [post [src [K1 [K2 K3]]]]]]. cbn [order line_fit] in K1.
      do 4 (destruct pre as [|? pre]; [injection K1 as <- <-; cbn in K2, K3; which; discriminate|injection K1 as ? K1]). destruct pre; discriminate.
  - apply (C68_all_nodes _ ones [0; 1; 2]%nat line_env line_start P2).
    + cbn [order line_fit ordered kindOf]. repeat split; try (intro K; cbn in K; repeat (destruct K as [K|K]; [discriminate|]); exact K); try discriminate;
      intros f cs K; injection K as _ <-; intros y Hy; cbn in Hy; which; cbn; auto 8.
    + intros n Hn. cbn in Hn. which; reflexivity.
    + intros n src Hn Hs. cbn [order derivOf] in Hn, Hs. which; cbn in Hs; which; cbn; auto 8.
    + exists [], 5%nat, [3; 4; 6]%nat, 4%nat. repeat split; cbn; auto.
Qed.

(** "The loop performs gradient descent whether or not BindDualValues is given." *)
Theorem C68_needs_dual_values_refuted :
  ~ forall g c inputs ws grad e eta s0 k, prepared g c inputs e s0 -> ordered (kindOf g) inputs [] (order g) ->
      ws <> [] -> NoDup ws -> incl ws inputs -> (forall w, In w ws -> gradient_node g w (grad w)) ->
      exists s, train g None eta ws k s0 = Ok s /\ forall n, In n inputs -> value_is g s n (times k (descend g c grad eta ws) e n).
Proof.
  intro H. destruct (H line_fit ones [0; 1; 2]%nat [1]%nat (fun _ => 5%nat) line_env (1 / 2) line_start 2%nat line_prepared line_ordered) as [s [T V]].
  - discriminate.
  - repeat constructor; cbn; intuition discriminate.
  - intros y Hy. which; cbn; auto.
  - intros w Hw. which. apply (line_gradients 1). cbn. auto.
  - destruct (C68_plain_constant line_fit ones [0; 1; 2]%nat 1 5 0 line_env (1 / 2) line_start 1 line_prepared line_ordered) as [s' [T' [[a [V1 V2]] _]]]; [cbn; auto|cbn; auto|reflexivity|reflexivity|].
    rewrite T in T'. injection T' as <-. specialize (V 1%nat ltac:(cbn; auto)). destruct V as [a' [V1' V2']]. rewrite V1 in V1'. injection V1' as <-. rewrite V2 in V2'. cbn in V2'. unfold ones in V2'. lra.
Qed.
Print Assumptions C68_needs_dual_values_refuted.
