(** A run only allocates; a step writes to the weights and their own derivatives. *)
From Coq Require Import Arith List Reals Bool Lia Lra.
From Verif Require Import BroadcastModel TrainModel TrainSpec.
Import ListNotations.
Local Open Scope R_scope.

Lemma values_keep c kd ns : forall e m, ~ In m ns -> values c kd ns e m = e m.
Proof.
  induction ns as [|n ns IH]; intros e m H; [reflexivity|]. cbn [values fold_left]. unfold values in IH. rewrite IH by (intro K; apply H; right; exact K).
  destruct (Nat.eq_dec m n) as [->|_]; [exfalso; apply H; left; reflexivity|reflexivity].
Qed.
Lemma values_cons c kd n ns e : values c kd (n :: ns) e = values c kd ns (fun m => if Nat.eq_dec m n then calc c kd e n else e m).
Proof. reflexivity. Qed.

Section Run.
Variables (g : graph) (c : nat -> R) (inputs ws : list nat) (x : nat -> nat).
Hypothesis xinj : forall n m, In n inputs -> In m inputs -> x n = x m -> n = m.
Hypothesis xin : forall n, In n inputs -> kindOf g n = KIn /\ forall k a, kindOf g k = KConst a -> a <> x n.
Hypothesis wsin : incl ws inputs.
Hypothesis wsne : ws <> [].

(** Status of the derivative of one weight: [D w] is what it holds. *)
Definition dOf (s : st) (w : nat) : option nat := match bound s w with Some (BD _ d) => Some d | _ => None end.
Record inv (s : st) (seen : list nat) (E D : nat -> R) : Prop := Inv {
  i_val : forall n, In n (inputs ++ seen) -> exists a, valueAt s n = Some a /\ (a < nxt s)%nat /\ mem s a = E n;
  i_x : forall n, In n inputs -> valueAt s n = Some (x n);
  i_const : forall k a, kindOf g k = KConst a -> (a < nxt s)%nat /\ mem s a = c a;
  i_d : forall w, In w ws -> match dOf s w with
          | None => D w = 0 /\ forall n, In n seen -> ~ In w (derivOf g n)
          | Some d => (d < nxt s)%nat /\ mem s d = D w /\ (forall n, In n inputs -> d <> x n) /\ (forall k a, kindOf g k = KConst a -> d <> a)
          end;
  i_dd : forall w w' d, In w ws -> In w' ws -> dOf s w = Some d -> dOf s w' = Some d -> w = w' }.

Lemma x_lt s seen E D n : inv s seen E D -> In n inputs -> (x n < nxt s)%nat /\ mem s (x n) = E n.
Proof. intros I H. destruct (i_val _ _ _ _ I n (in_or_app _ _ _ (or_introl H))) as [a [V [L M]]]. rewrite (i_x _ _ _ _ I n H) in V. injection V as <-. auto. Qed.

Lemma values_at s seen E D cs : inv s seen E D -> incl cs (inputs ++ seen) -> valuesAt s cs = Some (map E cs).
Proof.
  intros I. induction cs as [|k cs IH]; intro H; [reflexivity|]. cbn [valuesAt map]. destruct (i_val _ _ _ _ I k (H k (or_introl eq_refl))) as [a [V [_ M]]]. rewrite V, IH, M; [reflexivity|].
  intros y Hy. apply H. right. exact Hy.
Qed.

(** One gradient bound. *)
Lemma bind_grad s seen E D v src : inv s seen E D -> In src ws -> (v < nxt s)%nat ->
  exists s', bindGrad v src s = Ok s' /\ inv s' seen E (fun w => if Nat.eq_dec w src then D w + mem s v else D w) /\ (nxt s <= nxt s')%nat /\ mem s' v = mem s v /\
    (forall n, n <> src -> bound s' n = bound s n) /\ (forall n, valueAt s' n = valueAt s n) /\ dOf s' src <> None.
Proof.
  intros I Hs Hv. pose proof (wsin src Hs) as Hi. pose proof (i_x _ _ _ _ I src Hi) as X. unfold bindGrad, valueAt in *.
  assert (K : exists d0 st1, match bound s src with None => Panic | Some (BV x0) => let (s1, d) := new 0 s in let (s2, d') := new (mem s1 d + mem s1 v) s1 in Ok (rebind src (BD x0 d') s2)
      | Some (BD x0 d) => let (s1, d') := new (mem s d + mem s v) s in Ok (rebind src (BD x0 d') s1) end = Ok (rebind src (BD (x src) d0) st1) /\
      bound st1 = bound s /\ (nxt s <= d0)%nat /\ (d0 < nxt st1)%nat /\ mem st1 d0 = D src + mem s v /\ (forall a, (a < nxt s)%nat -> mem st1 a = mem s a)).
  { pose proof (i_d _ _ _ _ I src Hs) as DI. unfold dOf in DI. destruct (bound s src) as [[y|y d]|]; [| |discriminate]; injection X as ->; cbn [new].
    - eexists; eexists; split; [reflexivity|]. cbn [bound nxt mem]. rewrite !Nat.eqb_refl. destruct DI as [-> _]. destruct (Nat.eqb_spec v (nxt s)) as [|_]; [lia|]. repeat split; try lia.
      intros a La. destruct (Nat.eqb_spec a (S (nxt s))); [lia|]. destruct (Nat.eqb_spec a (nxt s)); [lia|reflexivity].
    - eexists; eexists; split; [reflexivity|]. cbn [bound nxt mem]. rewrite !Nat.eqb_refl. destruct DI as [_ [-> _]]. repeat split; try lia.
      intros a La. destruct (Nat.eqb_spec a (nxt s)); [lia|reflexivity]. }
  destruct K as [d0 [s1 [-> [B [L1 [L2 [M F]]]]]]]. eexists. split; [reflexivity|].
  assert (VE : forall n, valueAt (rebind src (BD (x src) d0) s1) n = valueAt s n).
  { intro n. unfold valueAt. cbn [rebind bound]. destruct (Nat.eqb_spec n src) as [->|_]; [symmetry; exact X|]. rewrite B. reflexivity. }
  assert (DE : forall w, dOf (rebind src (BD (x src) d0) s1) w = if Nat.eq_dec w src then Some d0 else dOf s w).
  { intro w. unfold dOf. cbn [rebind bound]. destruct (Nat.eqb_spec w src) as [->|N]; destruct (Nat.eq_dec _ _); try congruence. rewrite B. reflexivity. }
  split; [constructor|].
  - intros n Hn. destruct (i_val _ _ _ _ I n Hn) as [a [V [L Ma]]]. exists a. rewrite VE. cbn [rebind nxt mem]. rewrite F by exact L. repeat split; auto; lia.
  - intros n Hn. rewrite VE. apply (i_x _ _ _ _ I n Hn).
  - intros k a Hk. destruct (i_const _ _ _ _ I k a Hk) as [L Ma]. cbn [rebind nxt mem]. rewrite F by exact L. split; [lia|exact Ma].
  - intros w Hw. rewrite DE. destruct (Nat.eq_dec w src) as [->|N].
    + cbn [rebind nxt mem]. rewrite M. repeat split; auto.
      * intros n Hn E0. destruct (x_lt _ _ _ _ n I Hn). lia.
      * intros k a Hk E0. destruct (i_const _ _ _ _ I k a Hk). lia.
    + pose proof (i_d _ _ _ _ I w Hw) as Q. destruct (dOf s w) as [d|]; [|exact Q]. destruct Q as [Q1 [Q2 [Q3 Q4]]]. cbn [rebind nxt mem]. rewrite F by exact Q1. repeat split; auto; lia.
  - intros w w' d Hw Hw'. rewrite !DE. destruct (Nat.eq_dec w src) as [->|N], (Nat.eq_dec w' src) as [->|N']; intros E1 E2; auto.
    + injection E1 as <-. pose proof (i_d _ _ _ _ I w' Hw') as Q. rewrite E2 in Q. lia.
    + injection E2 as <-. pose proof (i_d _ _ _ _ I w Hw) as Q. rewrite E1 in Q. lia.
    + apply (i_dd _ _ _ _ I w w' d); auto.
  - split; [cbn [rebind nxt]; lia|]. split; [cbn [rebind mem]; apply F; exact Hv|]. split; [|split; [exact VE|]].
    + intros n N. cbn [rebind bound]. destruct (Nat.eqb_spec n src); [contradiction|]. rewrite B. reflexivity.
    + rewrite DE. destruct (Nat.eq_dec src src); congruence.
Qed.
Lemma inv_ext s seen E D D' : (forall w, In w ws -> D w = D' w) -> inv s seen E D -> inv s seen E D'.
Proof. intros H [A B C F G]. constructor; auto. intros w Hw. specialize (F w Hw). rewrite <- (H w Hw). exact F. Qed.

(** All gradients of one node. *)
Lemma bind_grads v srcs : forall s seen E D, inv s seen E D -> (v < nxt s)%nat ->
  exists s', bindGrads ws v srcs s = Ok s' /\ inv s' seen E (fun w => D w + INR (count_occ Nat.eq_dec srcs w) * mem s v) /\ (nxt s <= nxt s')%nat /\
    (forall n, valueAt s' n = valueAt s n) /\ (forall w, In w ws -> dOf s' w = None -> dOf s w = None /\ ~ In w srcs).
Proof.
  induction srcs as [|src srcs IH]; intros s seen E D I Hv.
  - exists s. split; [reflexivity|]. split; [|split; [lia|split; [reflexivity|auto]]]. apply (inv_ext _ _ _ D); [|exact I]. intros w _. cbn [count_occ INR]. lra.
  - cbn [bindGrads]. assert (LN : Nat.eqb (length ws) 0 = false) by (destruct ws; [congruence|reflexivity]). rewrite LN. cbn [negb andb].
    destruct (existsb (Nat.eqb src) ws) eqn:Ex; cbn [negb].
    + apply existsb_exists in Ex. destruct Ex as [y [Hy Ey]]. apply Nat.eqb_eq in Ey. subst y.
      destruct (bind_grad s seen E D v src I Hy Hv) as [s1 [E1 [I1 [N1 [M1 [B1 [V1 D1]]]]]]]. rewrite E1.
      destruct (IH s1 seen E _ I1 ltac:(lia)) as [s2 [E2 [I2 [N2 [V2 D2]]]]]. exists s2. split; [exact E2|]. split; [|split; [lia|split]].
      * apply (inv_ext _ _ _ (fun w => (if Nat.eq_dec w src then D w + mem s v else D w) + INR (count_occ Nat.eq_dec srcs w) * mem s1 v)); [|exact I2].
        intros w _. cbn [count_occ]. rewrite M1. destruct (Nat.eq_dec w src) as [->|N]; destruct (Nat.eq_dec src _) as [e0|N']; try congruence; rewrite S_INR; lra.
      * intro n. rewrite V2. apply V1.
      * intros w Hw Dn. destruct (D2 w Hw Dn) as [Q1 Q2]. destruct (Nat.eq_dec w src) as [->|N]; [congruence|]. unfold dOf in *. rewrite (B1 w N) in Q1. split; [exact Q1|]. intros [K|K]; [congruence|contradiction].
    + destruct (IH s seen E D I Hv) as [s2 [E2 [I2 [N2 [V2 D2]]]]]. exists s2. split; [exact E2|]. split; [|split; [lia|split; [exact V2|]]].
      * apply (inv_ext _ _ _ (fun w => D w + INR (count_occ Nat.eq_dec srcs w) * mem s v)); [|exact I2].
        intros w Hw. cbn [count_occ]. destruct (Nat.eq_dec src w) as [->|]; [|reflexivity]. exfalso. assert (K : existsb (Nat.eqb w) ws = true) by (apply existsb_exists; exists w; split; [exact Hw|apply Nat.eqb_refl]). congruence.
      * intros w Hw Dn. destruct (D2 w Hw Dn) as [Q1 Q2]. split; [exact Q1|]. intros [K|K]; [|contradiction]. subst. assert (existsb (Nat.eqb w) ws = true) by (apply existsb_exists; exists w; split; [exact Hw|apply Nat.eqb_refl]). congruence.
Qed.

(** One instruction. *)
Lemma exec_ok s seen E D n : inv s seen E D -> ~ In n inputs -> ~ In n seen -> kindOf g n <> KIn -> (forall f cs, kindOf g n = KOp f cs -> incl cs (inputs ++ seen)) ->
  exists s', exec g (Some ws) n s = Ok s' /\
    inv s' (n :: seen) (fun m => if Nat.eq_dec m n then calc c (kindOf g) E n else E m) (fun w => D w + INR (count_occ Nat.eq_dec (derivOf g n) w) * calc c (kindOf g) E n).
Proof.
  intros I NI NS NK HC.
  assert (K : exists s1 v, doOp g n s = Ok (s1, v) /\ (v < nxt s1)%nat /\ mem s1 v = calc c (kindOf g) E n /\ (nxt s <= nxt s1)%nat /\ bound s1 = bound s /\ forall a, (a < nxt s)%nat -> mem s1 a = mem s a).
  { unfold doOp, calc. destruct (kindOf g n) as [|a|f cs] eqn:KN; [congruence| |].
    - destruct (i_const _ _ _ _ I n a KN) as [L M]. exists s, a. repeat split; auto.
    - rewrite (values_at s seen E D cs I (HC f cs eq_refl)). eexists; eexists. split; [reflexivity|]. cbn [nxt mem bound]. rewrite Nat.eqb_refl. repeat split; try lia.
      intros a La. destruct (Nat.eqb_spec a (nxt s)); [lia|reflexivity]. }
  destruct K as [s1 [v [E1 [Lv [Mv [N1 [B1 F1]]]]]]]. unfold exec. rewrite E1. set (s2 := bindValue n v s1).
  assert (NW : ~ In n ws) by (intro K; apply NI, wsin, K).
  assert (VA : forall m, valueAt s2 m = if Nat.eq_dec m n then Some v else valueAt s m).
  { intro m. unfold s2, bindValue, valueAt. cbn [rebind bound]. destruct (Nat.eqb_spec m n) as [->|N]; destruct (Nat.eq_dec _ _); try congruence.
    - destruct (bound s1 n) as [[?|? ?]|]; reflexivity.
    - rewrite B1. reflexivity. }
  assert (DA : forall w, In w ws -> dOf s2 w = dOf s w).
  { intros w Hw. unfold s2, bindValue, dOf. cbn [rebind bound]. destruct (Nat.eqb_spec w n) as [->|N]; [contradiction|]. rewrite B1. reflexivity. }
  (* everything but the statement about gradients of [n] itself *)
  assert (I2 : inv s2 seen (fun m => if Nat.eq_dec m n then calc c (kindOf g) E n else E m) D).
  { constructor.
    - intros m Hm. destruct (i_val _ _ _ _ I m Hm) as [a [V [L M]]]. rewrite VA. destruct (Nat.eq_dec m n) as [->|N].
      + exists v. auto.
      + exists a. cbn [s2 bindValue rebind nxt mem]. rewrite F1 by exact L. repeat split; auto; lia.
    - intros m Hm. rewrite VA. destruct (Nat.eq_dec m n) as [->|_]; [contradiction|]. apply (i_x _ _ _ _ I m Hm).
    - intros k a Hk. destruct (i_const _ _ _ _ I k a Hk) as [L M]. cbn [s2 bindValue rebind nxt mem]. rewrite F1 by exact L. split; [lia|exact M].
    - intros w Hw. rewrite (DA w Hw). pose proof (i_d _ _ _ _ I w Hw) as Q. destruct (dOf s w) as [d|]; [|exact Q]. destruct Q as [Q1 [Q2 [Q3 Q4]]]. cbn [s2 bindValue rebind nxt mem]. rewrite F1 by exact Q1. repeat split; auto; lia.
    - intros w w' d Hw Hw'. rewrite (DA w Hw), (DA w' Hw'). apply (i_dd _ _ _ _ I w w' d Hw Hw'). }
  destruct (bind_grads v (derivOf g n) s2 seen _ _ I2 Lv) as [s3 [E3 [I3 [N3 [V3 D3]]]]]. exists s3. split; [exact E3|].
  replace (mem s2 v) with (calc c (kindOf g) E n) in I3. constructor.
  - intros m Hm. destruct (Nat.eq_dec m n) as [->|N].
    + (* the node itself *) destruct (Nat.eq_dec n n); [|congruence]. exists v. rewrite V3, VA. destruct (Nat.eq_dec n n); [|congruence].
      assert (Q : forall srcs s4 s5, (v < nxt s4)%nat -> bindGrads ws v srcs s4 = Ok s5 -> mem s5 v = mem s4 v).
      { clear. induction srcs as [|src srcs IH]; intros s4 s5 L H; cbn [bindGrads] in H; [injection H as <-; reflexivity|].
        destruct (negb (Nat.eqb (length ws) 0) && negb (existsb (Nat.eqb src) ws)); [apply (IH s4 s5 L H)|].
        unfold bindGrad in H. destruct (bound s4 src) as [[y|y d]|]; [| |discriminate]; cbn [new] in H.
        - pose proof (fun L => IH _ s5 L H) as Q0. cbn [rebind nxt mem] in Q0. rewrite Q0 by lia. destruct (Nat.eqb_spec v (S (nxt s4))); [lia|]. destruct (Nat.eqb_spec v (nxt s4)); [lia|reflexivity].
        - pose proof (fun L => IH _ s5 L H) as Q0. cbn [rebind nxt mem] in Q0. rewrite Q0 by lia. destruct (Nat.eqb_spec v (nxt s4)); [lia|reflexivity]. }
      rewrite (Q (derivOf g n) s2 s3 Lv E3). split; [reflexivity|]. split; [cbn [s2 bindValue rebind nxt] in *; lia|exact Mv].
    + assert (Hm' : In m (inputs ++ seen)). { apply in_or_app. apply in_app_or in Hm. destruct Hm as [Hm|[Hm|Hm]]; auto. congruence. }
      destruct (i_val _ _ _ _ I3 m Hm') as [a Ha]. exists a. destruct (Nat.eq_dec m n); [contradiction|exact Ha].
  - apply (i_x _ _ _ _ I3).
  - apply (i_const _ _ _ _ I3).
  - intros w Hw. pose proof (i_d _ _ _ _ I3 w Hw) as Q. destruct (dOf s3 w) as [d|] eqn:Dw; [exact Q|]. destruct Q as [Q1 Q2]. split; [exact Q1|]. destruct (D3 w Hw Dw) as [_ Q3]. intros m [<-|Hm]; [exact Q3|apply Q2, Hm].
  - apply (i_dd _ _ _ _ I3).
Qed.

(** All instructions. What each weight's derivative gains. *)
Definition gain (E : nat -> R) (ns : list nat) (w : nat) : R := fold_right (fun n acc => INR (count_occ Nat.eq_dec (derivOf g n) w) * E n + acc) 0 ns.
Lemma gain_ext E E' ns w : (forall n, In n ns -> E n = E' n) -> gain E ns w = gain E' ns w.
Proof. induction ns as [|n ns IH]; intro H; [reflexivity|]. cbn [gain fold_right]. rewrite (H n (or_introl eq_refl)). f_equal. apply IH. intros m Hm. apply H. right. exact Hm. Qed.
Lemma ordered_notin kd ins ns : forall seen m, ordered kd ins seen ns -> In m seen -> ~ In m ns.
Proof. induction ns as [|n ns IH]; intros seen m H Hm; [auto|]. destruct H as [H1 [_ [_ [_ H2]]]]. intros [->|K]; [contradiction|]. apply (IH (n :: seen) m H2 (or_intror Hm) K). Qed.
Lemma ordered_inputs kd ins ns : forall seen m, ordered kd ins seen ns -> In m ins -> ~ In m ns.
Proof. induction ns as [|n ns IH]; intros seen m H Hm; [auto|]. destruct H as [_ [H1 [_ [_ H2]]]]. intros [->|K]; [contradiction|]. apply (IH (n :: seen) m H2 Hm K). Qed.
Lemma run_ok ns : forall s seen E D, inv s seen E D -> ordered (kindOf g) inputs seen ns ->
  exists s', execAll g (Some ws) ns s = Ok s' /\ inv s' (rev ns ++ seen) (values c (kindOf g) ns E) (fun w => D w + gain (values c (kindOf g) ns E) ns w).
Proof.
  induction ns as [|n ns IH]; intros s seen E D I O.
  - exists s. split; [reflexivity|]. apply (inv_ext _ _ _ D); [|exact I]. intros w _. cbn [gain fold_right]. lra.
  - destruct O as [O1 [O2 [O3 [O4 O5]]]]. destruct (exec_ok s seen E D n I O2 O1 O3 O4) as [s1 [E1 I1]]. cbn [execAll]. rewrite E1.
    destruct (IH s1 (n :: seen) _ _ I1 O5) as [s2 [E2 I2]]. exists s2. split; [exact E2|]. rewrite values_cons. cbn [rev]. rewrite <- app_assoc. cbn [app].
    eapply inv_ext; [|exact I2]. intros w _. cbn beta. cbn [gain fold_right].
    rewrite (values_keep c (kindOf g) ns _ n) by (apply (ordered_notin _ _ _ _ _ O5); left; reflexivity).
    destruct (Nat.eq_dec n n); [|congruence]. unfold gain. ring.
Qed.
Lemma inv_forget s seen E D : inv s seen E D -> inv s [] E D.
Proof.
  intros [A B C F G]. constructor; auto.
  - intros n Hn. apply A. apply in_or_app. left. rewrite app_nil_r in Hn. exact Hn.
  - intros w Hw. specialize (F w Hw). destruct (dOf s w); [exact F|]. destruct F as [F _]. split; [exact F|]. intros n [].
Qed.
Lemma inv_env s E E' D : (forall n, In n inputs -> E n = E' n) -> inv s [] E D -> inv s [] E' D.
Proof. intros H [A B C F G]. constructor; auto. intros n Hn. rewrite app_nil_r in Hn. rewrite <- (H n Hn). apply A. rewrite app_nil_r. exact Hn. Qed.

(** The gain of a weight with one gradient node. *)
Lemma gain_node E ns w m : NoDup ns -> In m ns -> count_occ Nat.eq_dec (derivOf g m) w = 1%nat -> (forall m', In m' ns -> m' <> m -> ~ In w (derivOf g m')) -> gain E ns w = E m.
Proof.
  intros ND Hm C H. induction ns as [|n ns IH]; [destruct Hm|]. inversion ND as [|? ? N1 N2]; subst. cbn [gain fold_right]. fold (gain E ns w).
  assert (Z : forall ns', incl ns' ns -> ~ In m ns' -> gain E ns' w = 0).
  { induction ns' as [|k ns' IH']; intros Hi Hn; [reflexivity|]. cbn [gain fold_right]. fold (gain E ns' w). rewrite IH'; [|intros y Hy; apply Hi; right; exact Hy|intro K; apply Hn; right; exact K].
    assert (K0 : count_occ Nat.eq_dec (derivOf g k) w = 0%nat). { apply count_occ_not_In. apply H; [right; apply Hi; left; reflexivity|]. intro K. apply Hn. left. exact K. } rewrite K0. cbn [INR]. lra. }
  destruct (Nat.eq_dec n m) as [->|N].
  - rewrite C, (Z ns (incl_refl _) N1). cbn [INR]. lra.
  - destruct Hm as [->|Hm]; [congruence|]. rewrite IH; auto; [|intros m' Hm'; apply H; right; exact Hm'].
    assert (K0 : count_occ Nat.eq_dec (derivOf g n) w = 0%nat). { apply count_occ_not_In. apply H; [left; reflexivity|exact N]. } rewrite K0. cbn [INR]. lra.
Qed.
Lemma ordered_nodup kd ins ns : forall seen, ordered kd ins seen ns -> NoDup ns.
Proof. induction ns as [|n ns IH]; intros seen H; [constructor|]. destruct H as [_ [_ [_ [_ H]]]]. constructor; [apply (ordered_notin _ _ _ _ _ H); left; reflexivity|apply (IH _ H)]. Qed.

(** One run from between two rounds. *)
Lemma round_run s E D grad : inv s [] E D -> ordered (kindOf g) inputs [] (order g) -> (forall w, In w ws -> gradient_node g w (grad w)) ->
  exists s', runAll g (Some ws) s = Ok s' /\ inv s' [] E (fun w => D w + values c (kindOf g) (order g) E (grad w)) /\ (forall w, In w ws -> dOf s' w <> None).
Proof.
  intros I O GN. destruct (run_ok (order g) s [] E D I O) as [s' [E1 I1]]. exists s'. split; [exact E1|]. split.
  - apply inv_forget in I1. apply (inv_env _ _ E) in I1.
    + eapply inv_ext; [|exact I1]. intros w Hw. cbn beta. f_equal. destruct (GN w Hw) as [G1 [_ [G2 G3]]]. apply gain_node; auto. apply (ordered_nodup _ _ _ _ O).
    + intros n Hn. apply values_keep. apply (ordered_inputs _ _ _ _ _ O Hn).
  - intros w Hw Dn. pose proof (i_d _ _ _ _ I1 w Hw) as Q. rewrite Dn in Q. destruct Q as [_ Q]. destruct (GN w Hw) as [G1 [_ [G2 _]]].
    apply (Q (grad w)); [rewrite app_nil_r; rewrite <- in_rev; exact G1|]. apply (count_occ_In Nat.eq_dec). lia.
Qed.

(** One weight stepped. *)
Lemma step_one s E D eta w : inv s [] E D -> In w ws -> dOf s w <> None ->
  exists s', stepOne g eta w s = Ok s' /\ inv s' [] (fun n => if Nat.eq_dec n w then E n - eta * D n else E n) (fun n => if Nat.eq_dec n w then 0 else D n) /\ (forall n, dOf s' n = dOf s n).
Proof.
  intros I Hw Dn. pose proof (wsin w Hw) as Hi. destruct (xin w Hi) as [KI KA]. destruct (x_lt _ _ _ _ w I Hi) as [Lx Mx]. pose proof (i_x _ _ _ _ I w Hi) as VX. pose proof (i_d _ _ _ _ I w Hw) as Q.
  unfold stepOne, nodeGrad, nodeValue. rewrite KI, VX. unfold dOf in Q, Dn. destruct (bound s w) as [[y|y d]|] eqn:Bw; try congruence. destruct Q as [Ld [Md [Dx Dc]]].
  assert (DO : dOf s w = Some d) by (unfold dOf; rewrite Bw; reflexivity).
  eexists. split; [reflexivity|]. split; [|reflexivity]. rewrite Mx, Md.
  assert (MA : forall a, a <> x w -> a <> d -> mem (write d 0 (write (x w) (E w + - eta * D w) s)) a = mem s a).
  { intros a A1 A2. cbn [write mem]. destruct (Nat.eqb_spec a d); [contradiction|]. destruct (Nat.eqb_spec a (x w)); [contradiction|reflexivity]. }
  constructor.
  - intros n Hn. rewrite app_nil_r in Hn. exists (x n). split; [exact (i_x _ _ _ _ I n Hn)|]. destruct (x_lt _ _ _ _ n I Hn) as [Ln Mn]. split; [exact Ln|].
    destruct (Nat.eq_dec n w) as [->|N].
    + cbn [write mem]. destruct (Nat.eqb_spec (x w) d) as [e|_]; [exfalso; apply (Dx w Hi); symmetry; exact e|]. rewrite Nat.eqb_refl. ring.
    + rewrite MA; [exact Mn| |apply not_eq_sym, Dx, Hn]. intro K. apply N, xinj; auto.
  - intros n Hn. exact (i_x _ _ _ _ I n Hn).
  - intros k a Hk. destruct (i_const _ _ _ _ I k a Hk) as [La Ma]. split; [exact La|]. rewrite MA; [exact Ma|apply (KA k a Hk)|apply not_eq_sym, (Dc k a Hk)].
  - intros w' Hw'. change (dOf (write d 0 (write (x w) (E w + - eta * D w) s)) w') with (dOf s w'). pose proof (i_d _ _ _ _ I w' Hw') as Q. destruct (dOf s w') as [d'|] eqn:D'.
    + destruct Q as [Q1 [Q2 [Q3 Q4]]]. repeat split; auto. destruct (Nat.eq_dec w' w) as [->|N].
      * cbn [write mem]. replace d' with d by congruence. rewrite Nat.eqb_refl. reflexivity.
      * rewrite MA; [exact Q2|apply Q3, Hi|]. intro K. subst d'. apply N. apply (i_dd _ _ _ _ I w' w d); auto.
    + destruct (Nat.eq_dec w' w) as [->|N]; [congruence|exact Q].
  - intros a b d' Ha Hb. apply (i_dd _ _ _ _ I a b d' Ha Hb).
Qed.
Lemma step_all us : forall s E D eta, incl us ws -> NoDup us -> inv s [] E D -> (forall w, In w ws -> dOf s w <> None) ->
  exists s', step g eta us s = Ok s' /\ inv s' [] (fun n => if in_dec Nat.eq_dec n us then E n - eta * D n else E n) (fun n => if in_dec Nat.eq_dec n us then 0 else D n).
Proof.
  induction us as [|u us IH]; intros s E D eta Hi ND I Dn.
  - exists s. split; [reflexivity|]. exact I.
  - inversion ND as [|? ? N1 N2]; subst. destruct (step_one s E D eta u I (Hi u (or_introl eq_refl)) (Dn u (Hi u (or_introl eq_refl)))) as [s1 [E1 [I1 D1]]]. cbn [step]. rewrite E1.
    destruct (IH s1 _ _ eta (fun y Hy => Hi y (or_intror Hy)) N2 I1 ltac:(intros w Hw; rewrite D1; apply Dn, Hw)) as [s2 [E2 I2]]. exists s2. split; [exact E2|].
    apply (inv_env _ (fun n => if in_dec Nat.eq_dec n us then (if Nat.eq_dec n u then E n - eta * D n else E n) - eta * (if Nat.eq_dec n u then 0 else D n) else if Nat.eq_dec n u then E n - eta * D n else E n)).
    + intros n _. destruct (in_dec Nat.eq_dec n us) as [H|H], (in_dec Nat.eq_dec n (u :: us)) as [H'|H'], (Nat.eq_dec n u) as [e|e]; subst; auto; try contradiction; exfalso; [apply H'; right; exact H|destruct H'; congruence|apply H'; left; reflexivity].
    + eapply inv_ext; [|exact I2]. intros n _. cbn beta. destruct (in_dec Nat.eq_dec n us) as [H|H], (in_dec Nat.eq_dec n (u :: us)) as [H'|H'], (Nat.eq_dec n u) as [e|e]; subst; auto; try contradiction; exfalso; [apply H'; right; exact H|destruct H'; congruence|apply H'; left; reflexivity].
Qed.

Lemma inv_zero_forget s seen E D : inv s seen E D -> (forall w, In w ws -> D w = 0) -> inv s [] E (fun _ => 0).
Proof. intros I H. apply (inv_ext _ _ _ D); [intros w Hw; apply H, Hw|]. apply (inv_forget s seen), I. Qed.
Lemma train_ok grad eta k : forall s E, NoDup ws -> inv s [] E (fun _ => 0) -> ordered (kindOf g) inputs [] (order g) -> (forall w, In w ws -> gradient_node g w (grad w)) ->
  exists s', train g (Some ws) eta ws k s = Ok s' /\ inv s' [] (times k (descend g c grad eta ws) E) (fun _ => 0).
Proof.
  induction k as [|k IH]; intros s E ND I O GN.
  - exists s. split; [reflexivity|exact I].
  - cbn [train times]. destruct (round_run s E _ grad I O GN) as [s1 [E1 [I1 D1]]]. rewrite E1. destruct (step_all ws s1 _ _ eta (incl_refl _) ND I1 D1) as [s2 [E2 I2]]. rewrite E2.
    apply (IH s2); auto. apply (inv_zero_forget s2 [] _ (fun n => if in_dec Nat.eq_dec n ws then 0 else 0 + values c (kindOf g) (order g) E (grad n))).
    + eapply inv_env; [|exact I2]. intros n _. unfold descend. cbn beta. destruct (in_dec Nat.eq_dec n ws); [|reflexivity]. ring.
    + intros w Hw. destruct (in_dec Nat.eq_dec w ws); [reflexivity|contradiction].
Qed.
Lemma many_ok grad k : forall s E D, inv s [] E D -> ordered (kindOf g) inputs [] (order g) -> (forall w, In w ws -> gradient_node g w (grad w)) ->
  exists s', runMany g (Some ws) k s = Ok s' /\ inv s' [] E (fun w => D w + INR k * values c (kindOf g) (order g) E (grad w)) /\ (k <> 0%nat -> forall w, In w ws -> dOf s' w <> None).
Proof.
  induction k as [|k IH]; intros s E D I O GN.
  - exists s. split; [reflexivity|]. split; [|congruence]. apply (inv_ext _ _ _ D); [|exact I]. intros w _. cbn [INR]. lra.
  - cbn [runMany]. destruct (round_run s E D grad I O GN) as [s1 [E1 [I1 D1]]]. rewrite E1. destruct (IH s1 E _ I1 O GN) as [s2 [E2 [I2 D2]]]. exists s2. split; [exact E2|]. split.
    + eapply inv_ext; [|exact I2]. intros w _. cbn beta. rewrite S_INR. ring.
    + intros _. destruct k as [|k]; [|apply D2; discriminate]. cbn [runMany] in E2. injection E2 as <-. exact D1.
Qed.
End Run.

Lemma prepared_inv g c inputs ws e s : incl ws inputs -> prepared g c inputs e s ->
  exists x, (forall n m, In n inputs -> In m inputs -> x n = x m -> n = m) /\ (forall n, In n inputs -> kindOf g n = KIn /\ forall k a, kindOf g k = KConst a -> a <> x n) /\ inv g c inputs ws x s [] e (fun _ => 0).
Proof.
  intros Hi [[x [H1 H2]] HC]. exists x. split; [exact H2|]. split; [intros n Hn; destruct (H1 n Hn) as [A [_ [_ [_ B]]]]; auto|]. constructor.
  - intros n Hn. rewrite app_nil_r in Hn. destruct (H1 n Hn) as [_ [B [L [M _]]]]. exists (x n). unfold valueAt. rewrite B. auto.
  - intros n Hn. destruct (H1 n Hn) as [_ [B _]]. unfold valueAt. rewrite B. reflexivity.
  - exact HC.
  - intros w Hw. destruct (H1 w (Hi w Hw)) as [_ [B _]]. unfold dOf. rewrite B. split; [reflexivity|intros n []].
  - intros w w' d Hw _ Dw. destruct (H1 w (Hi w Hw)) as [_ [B _]]. unfold dOf in Dw. rewrite B in Dw. discriminate.
Qed.

(** Without BindDualValues. *)
Section Plain.
Variables (g : graph) (inputs : list nat) (x : nat -> nat).
Hypothesis xinj : forall n m, In n inputs -> In m inputs -> x n = x m -> n = m.
Hypothesis xin : forall n, In n inputs -> kindOf g n = KIn /\ forall k a, kindOf g k = KConst a -> a <> x n.

Record inv0 (c : nat -> R) (n0 : nat) (s : st) (seen : list nat) (E : nat -> R) : Prop := Inv0 {
  p_n : (n0 <= nxt s)%nat;
  p_in : forall n, In n inputs -> bound s n = Some (BV (x n)) /\ (x n < n0)%nat /\ mem s (x n) = E n;
  p_const : forall k a, kindOf g k = KConst a -> (a < n0)%nat /\ mem s a = c a;
  p_seen : forall n, In n seen -> exists a, valueAt s n = Some a /\ (a < nxt s)%nat /\ mem s a = E n /\ forall f cs, kindOf g n = KOp f cs -> (n0 <= a)%nat;
  p_inj : forall n m f cs f' cs', In n seen -> In m seen -> kindOf g n = KOp f cs -> kindOf g m = KOp f' cs' -> valueAt s n = valueAt s m -> n = m }.

Lemma values_at0 c n0 s seen E cs : inv0 c n0 s seen E -> incl cs (inputs ++ seen) -> valuesAt s cs = Some (map E cs).
Proof.
  intros I. induction cs as [|k cs IH]; intro H; [reflexivity|]. cbn [valuesAt map]. rewrite (IH (fun y Hy => H y (or_intror Hy))).
  destruct (in_app_or _ _ _ (H k (or_introl eq_refl))) as [K|K].
  - destruct (p_in _ _ _ _ _ I k K) as [B [_ M]]. unfold valueAt. rewrite B, M. reflexivity.
  - destruct (p_seen _ _ _ _ _ I k K) as [a [V [_ [M _]]]]. rewrite V, M. reflexivity.
Qed.
Lemma exec_ok0 c n0 s seen E n : inv0 c n0 s seen E -> ~ In n inputs -> ~ In n seen -> kindOf g n <> KIn -> (forall f cs, kindOf g n = KOp f cs -> incl cs (inputs ++ seen)) ->
  exists s', exec g None n s = Ok s' /\ inv0 c n0 s' (n :: seen) (fun m => if Nat.eq_dec m n then calc c (kindOf g) E n else E m).
Proof.
  intros I NI NS NK HC.
  assert (K : exists s1 v, doOp g n s = Ok (s1, v) /\ (v < nxt s1)%nat /\ mem s1 v = calc c (kindOf g) E n /\ (nxt s <= nxt s1)%nat /\ bound s1 = bound s /\ (forall a, (a < nxt s)%nat -> mem s1 a = mem s a) /\ forall f cs, kindOf g n = KOp f cs -> v = nxt s).
  { unfold doOp, calc. destruct (kindOf g n) as [|a|f cs] eqn:KN; [congruence| |].
    - destruct (p_const _ _ _ _ _ I n a KN) as [L M]. pose proof (p_n _ _ _ _ _ I). exists s, a. repeat split; auto; [lia|discriminate].
    - rewrite (values_at0 c n0 s seen E cs I (HC f cs eq_refl)). eexists; eexists. split; [reflexivity|]. cbn [nxt mem bound]. rewrite Nat.eqb_refl. repeat split; try lia.
      intros a La. destruct (Nat.eqb_spec a (nxt s)); [lia|reflexivity]. }
  destruct K as [s1 [v [E1 [Lv [Mv [N1 [B1 [F1 Vf]]]]]]]]. unfold exec. rewrite E1. eexists. split; [reflexivity|].
  assert (VA : forall m, valueAt (bindValue n v s1) m = if Nat.eq_dec m n then Some v else valueAt s m).
  { intro m. unfold bindValue, valueAt. cbn [rebind bound]. destruct (Nat.eqb_spec m n) as [->|N]; destruct (Nat.eq_dec _ _); try congruence.
    - destruct (bound s1 n) as [[?|? ?]|]; reflexivity.
    - rewrite B1. reflexivity. }
  pose proof (p_n _ _ _ _ _ I) as PN. constructor.
  - cbn [bindValue rebind nxt]. lia.
  - intros m Hm. destruct (p_in _ _ _ _ _ I m Hm) as [B [L M]]. destruct (Nat.eq_dec m n) as [->|N]; [contradiction|]. cbn [bindValue rebind bound mem]. destruct (Nat.eqb_spec m n); [contradiction|]. rewrite B1, F1 by lia. auto.
  - intros k a Hk. destruct (p_const _ _ _ _ _ I k a Hk) as [L M]. cbn [bindValue rebind mem]. rewrite F1 by lia. auto.
  - intros m Hm. rewrite VA. destruct (Nat.eq_dec m n) as [->|N].
    + exists v. cbn [bindValue rebind mem nxt]. repeat split; auto. intros f cs Hf. rewrite (Vf f cs Hf). exact PN.
    + destruct Hm as [Hm|Hm]; [congruence|]. destruct (p_seen _ _ _ _ _ I m Hm) as [a [V [L [M O]]]]. exists a. cbn [bindValue rebind mem nxt]. rewrite F1 by exact L. repeat split; auto; lia.
  - intros m1 m2 f cs f' cs' H1 H2 K1 K2. rewrite !VA. destruct (Nat.eq_dec m1 n) as [->|Na], (Nat.eq_dec m2 n) as [->|Nb]; intro EV; auto.
    + destruct H2 as [H2|H2]; [congruence|]. destruct (p_seen _ _ _ _ _ I m2 H2) as [a [V [L _]]]. rewrite V in EV. injection EV as ->. rewrite (Vf f cs K1) in L. lia.
    + destruct H1 as [H1|H1]; [congruence|]. destruct (p_seen _ _ _ _ _ I m1 H1) as [a [V [L _]]]. rewrite V in EV. injection EV as ->. rewrite (Vf f' cs' K2) in L. lia.
    + destruct H1 as [H1|H1]; [congruence|]. destruct H2 as [H2|H2]; [congruence|]. apply (p_inj _ _ _ _ _ I m1 m2 f cs f' cs'); auto.
Qed.
Lemma run_ok0 c n0 ns : forall s seen E, inv0 c n0 s seen E -> ordered (kindOf g) inputs seen ns ->
  exists s', execAll g None ns s = Ok s' /\ inv0 c n0 s' (rev ns ++ seen) (values c (kindOf g) ns E).
Proof.
  induction ns as [|n ns IH]; intros s seen E I O.
  - exists s. split; [reflexivity|exact I].
  - destruct O as [O1 [O2 [O3 [O4 O5]]]]. destruct (exec_ok0 c n0 s seen E n I O2 O1 O3 O4) as [s1 [E1 I1]]. cbn [execAll]. rewrite E1.
    destruct (IH s1 (n :: seen) _ I1 O5) as [s2 [E2 I2]]. exists s2. split; [exact E2|]. rewrite values_cons. cbn [rev]. rewrite <- app_assoc. exact I2.
Qed.

(** Between two rounds. *)
Definition rest (c : nat -> R) (s : st) (E : nat -> R) : Prop :=
  (forall n, In n inputs -> bound s n = Some (BV (x n)) /\ (x n < nxt s)%nat /\ mem s (x n) = E n) /\ (forall k a, kindOf g k = KConst a -> (a < nxt s)%nat /\ mem s a = c a).
Lemma rest_inv0 c s E : rest c s E -> inv0 c (nxt s) s [] E.
Proof. intros [H1 H2]. constructor; auto; intros; contradiction. Qed.

(** Where the gradient is after a run. *)
Lemma grad_at c n0 s E w m : inv0 c n0 s (rev (order g) ++ []) E -> In w inputs -> deriv g w = Some m -> In m (order g) -> kindOf g m <> KIn ->
  exists a, nodeGrad g s w = Ok (Some a) /\ nodeValue g s m = Some a /\ (kindOf g m = KConst a \/ valueAt s m = Some a /\ mem s a = E m /\ exists f cs, kindOf g m = KOp f cs /\ (n0 <= a)%nat).
Proof.
  intros I Hw Dm Hm NK. destruct (p_in _ _ _ _ _ I w Hw) as [B _]. unfold nodeGrad, nodeValue. rewrite B, Dm. destruct (kindOf g m) as [|a|f cs] eqn:Km; [congruence| |].
  - exists a. auto.
  - destruct (p_seen _ _ _ _ _ I m) as [a [V [_ [M O]]]]; [rewrite app_nil_r, <- in_rev; exact Hm|]. exists a. rewrite V. split; [reflexivity|]. split; [reflexivity|]. right. split; [reflexivity|]. split; [exact M|]. exists f, cs. split; [reflexivity|]. apply (O f cs Km).
Qed.
Lemma step_one0 s w a eta : In w inputs -> bound s w = Some (BV (x w)) -> nodeGrad g s w = Ok (Some a) ->
  stepOne g eta w s = Ok (write a 0 (write (x w) (mem s (x w) + - eta * mem s a) s)).
Proof. intros Hw B N. destruct (xin w Hw) as [K _]. unfold stepOne. rewrite N. unfold nodeValue, valueAt. rewrite K, B. reflexivity. Qed.
Lemma step_all0 (ga : nat -> nat) eta us : forall s, incl us inputs -> NoDup us -> (forall n, In n inputs -> bound s n = Some (BV (x n))) ->
  (forall w, In w us -> nodeGrad g s w = Ok (Some (ga w)) /\ forall n, In n inputs -> ga w <> x n) -> (forall w w', In w us -> In w' us -> ga w = ga w' -> w = w') ->
  exists s', step g eta us s = Ok s' /\ bound s' = bound s /\ nxt s' = nxt s /\
    (forall n, In n inputs -> mem s' (x n) = if in_dec Nat.eq_dec n us then mem s (x n) - eta * mem s (ga n) else mem s (x n)) /\
    (forall a, (forall n, In n inputs -> a <> x n) -> (forall w, In w us -> a <> ga w) -> mem s' a = mem s a) /\ (forall w, In w us -> mem s' (ga w) = 0).
Proof.
  induction us as [|u us IH]; intros s Hi ND Bx Hg Hj.
  - exists s. repeat split; auto. intros w [].
  - inversion ND as [|? ? N1 N2]; subst. pose proof (Hi u (or_introl eq_refl)) as Hu. destruct (Hg u (or_introl eq_refl)) as [G1 G2]. cbn [step]. rewrite (step_one0 s u (ga u) eta Hu (Bx u Hu) G1).
    set (s1 := write (ga u) 0 (write (x u) (mem s (x u) + - eta * mem s (ga u)) s)).
    assert (M1 : forall a, a <> x u -> a <> ga u -> mem s1 a = mem s a).
    { intros a A1 A2. unfold s1. cbn [write mem]. destruct (Nat.eqb_spec a (ga u)); [contradiction|]. destruct (Nat.eqb_spec a (x u)); [contradiction|reflexivity]. }
    assert (MX : mem s1 (x u) = mem s (x u) - eta * mem s (ga u)).
    { unfold s1. cbn [write mem]. destruct (Nat.eqb_spec (x u) (ga u)) as [e|_]; [exfalso; apply (G2 u Hu); symmetry; exact e|]. rewrite Nat.eqb_refl. ring. }
    assert (MG : mem s1 (ga u) = 0) by (unfold s1; cbn [write mem]; rewrite Nat.eqb_refl; reflexivity).
    destruct (IH s1 (fun y Hy => Hi y (or_intror Hy)) N2 Bx (fun w Hw => Hg w (or_intror Hw)) (fun w w' Hw Hw' => Hj w w' (or_intror Hw) (or_intror Hw'))) as [s2 [E2 [B2 [X2 [M2 [O2 Z2]]]]]].
    exists s2. split; [exact E2|]. split; [exact B2|]. split; [exact X2|]. split; [|split].
    + intros n Hn. rewrite (M2 n Hn). destruct (in_dec Nat.eq_dec n us) as [H|H], (in_dec Nat.eq_dec n (u :: us)) as [H'|H'].
      * assert (Nu : n <> u) by (intros ->; contradiction). rewrite (M1 (x n)), (M1 (ga n)); [reflexivity| | | |].
        -- destruct (Hg n (or_intror H)) as [_ Q]. apply (Q u Hu).
        -- intro K. apply Nu, (Hj n u); [right; exact H|left; reflexivity|exact K].
        -- intro K. apply Nu, xinj; auto.
        -- intro K. apply (G2 n Hn). symmetry. exact K.
      * exfalso. apply H'. right. exact H.
      * destruct H' as [->|H']; [exact MX|contradiction].
      * apply M1; [intro K; apply H'; left; symmetry; apply xinj; auto|intro K; apply (G2 n Hn); symmetry; exact K].
    + intros a A1 A2. rewrite O2; [|exact A1|intros w Hw; apply A2; right; exact Hw]. apply M1; [apply A1, Hu|apply A2; left; reflexivity].
    + intros w [<-|Hw]; [|apply Z2, Hw]. rewrite O2; [exact MG|exact G2|]. intros w Hw K. assert (u = w) by (apply Hj; [left; reflexivity|right; exact Hw|exact K]). subst w. contradiction.
Qed.

(** Every weight has a gradient node of its own that is an operator. *)
Lemma train_plain c grad eta ws k : forall s E, incl ws inputs -> NoDup ws -> rest c s E -> ordered (kindOf g) inputs [] (order g) ->
  (forall w, In w ws -> In (grad w) (order g) /\ deriv g w = Some (grad w) /\ exists f cs, kindOf g (grad w) = KOp f cs) -> (forall w w', In w ws -> In w' ws -> grad w = grad w' -> w = w') ->
  exists s', train g None eta ws k s = Ok s' /\ rest c s' (times k (descend g c grad eta ws) E).
Proof.
  induction k as [|k IH]; intros s E Hi ND R O GN GJ.
  - exists s. split; [reflexivity|exact R].
  - cbn [train times]. unfold runAll. destruct (run_ok0 c (nxt s) (order g) s [] E (rest_inv0 c s E R) O) as [s1 [E1 I1]]. rewrite E1.
    assert (GA : forall w, In w ws -> exists a, nodeGrad g s1 w = Ok (Some a) /\ valueAt s1 (grad w) = Some a /\ mem s1 a = values c (kindOf g) (order g) E (grad w) /\ (nxt s <= a)%nat).
    { intros w Hw. destruct (GN w Hw) as [G1 [G2 [f [cs G3]]]]. destruct (grad_at c (nxt s) s1 _ w (grad w) I1 (Hi w Hw) G2 G1 ltac:(congruence)) as [a [A1 [_ [A2|[A2 [A3 [f' [cs' [_ A4]]]]]]]]]; [congruence|]. exists a. auto. }
    set (ga := fun w => match nodeGrad g s1 w with Ok (Some a) => a | _ => 0%nat end).
    assert (GA' : forall w, In w ws -> nodeGrad g s1 w = Ok (Some (ga w)) /\ valueAt s1 (grad w) = Some (ga w) /\ mem s1 (ga w) = values c (kindOf g) (order g) E (grad w) /\ (nxt s <= ga w)%nat).
    { intros w Hw. destruct (GA w Hw) as [a [A1 A]]. unfold ga. rewrite A1. auto. }
    destruct (step_all0 ga eta ws s1 Hi ND (fun n Hn => proj1 (p_in _ _ _ _ _ I1 n Hn))) as [s2 [E2 [B2 [X2 [M2 [O2 _]]]]]].
    { intros w Hw. destruct (GA' w Hw) as [A1 [_ [_ A2]]]. split; [exact A1|]. intros n Hn. destruct (p_in _ _ _ _ _ I1 n Hn) as [_ [L _]]. lia. }
    { intros w w' Hw Hw' K. apply GJ; auto. destruct (GA' w Hw) as [_ [A1 _]], (GA' w' Hw') as [_ [A2 _]], (GN w Hw) as [H1 [_ [f [cs H2]]]], (GN w' Hw') as [H3 [_ [f' [cs' H4]]]].
      apply (p_inj _ _ _ _ _ I1 (grad w) (grad w') f cs f' cs'); auto; try (rewrite app_nil_r, <- in_rev; assumption). congruence. }
    rewrite E2. apply IH; auto. pose proof (p_n _ _ _ _ _ I1) as PN. split.
    + intros n Hn. destruct (p_in _ _ _ _ _ I1 n Hn) as [B [L M]]. rewrite B2, X2, (M2 n Hn), M. split; [exact B|]. split; [lia|]. unfold descend.
      rewrite (values_keep c (kindOf g) (order g) E n) by (apply (ordered_inputs _ _ _ _ _ O Hn)). destruct (in_dec Nat.eq_dec n ws) as [H|H]; [|reflexivity]. destruct (GA' n H) as [_ [_ [-> _]]]. reflexivity.
    + intros j a Hj. destruct (p_const _ _ _ _ _ I1 j a Hj) as [L M]. rewrite X2, O2; [split; [lia|exact M]| |].
      * intros n Hn. destruct (xin n Hn) as [_ Q]. apply (Q j a Hj).
      * intros w Hw. destruct (GA' w Hw) as [_ [_ [_ Q]]]. lia.
Qed.

(** A weight whose gradient node is a constant. *)
Lemma train_const a m w eta k : forall c s E, In w inputs -> rest c s E -> ordered (kindOf g) inputs [] (order g) -> In m (order g) -> deriv g w = Some m -> kindOf g m = KConst a ->
  exists s' E' c', train g None eta [w] (S k) s = Ok s' /\ rest c' s' E' /\ E' w = E w - eta * c a /\ c' a = 0.
Proof.
  assert (One : forall c s E, In w inputs -> rest c s E -> ordered (kindOf g) inputs [] (order g) -> In m (order g) -> deriv g w = Some m -> kindOf g m = KConst a ->
    exists s1 s2 E' c', runAll g None s = Ok s1 /\ step g eta [w] s1 = Ok s2 /\ rest c' s2 E' /\ E' w = E w - eta * c a /\ c' a = 0).
  { intros c s E Hw R O Hm Dm Km. unfold runAll. destruct (run_ok0 c (nxt s) (order g) s [] E (rest_inv0 c s E R) O) as [s1 [E1 I1]]. exists s1.
    destruct (grad_at c (nxt s) s1 _ w m I1 Hw Dm Hm ltac:(congruence)) as [a' [A1 [A2 _]]]. unfold nodeValue in A2. rewrite Km in A2. injection A2 as <-. destruct (p_const _ _ _ _ _ I1 m a Km) as [La Ma].
    destruct (step_all0 (fun _ => a) eta [w] s1) as [s2 [E2 [B2 [X2 [M2 [O2 Z2]]]]]].
    - intros y [<-|[]]. exact Hw.
    - repeat constructor; auto.
    - intros n Hn. apply (p_in _ _ _ _ _ I1 n Hn).
    - intros w' [<-|[]]. split; [exact A1|]. intros n Hn. destruct (xin n Hn) as [_ Q]. apply (Q m a Km).
    - intros u u' [<-|[]] [<-|[]] _. reflexivity.
    - exists s2, (fun n => mem s2 (x n)), (mem s2). split; [exact E1|]. split; [exact E2|]. pose proof (p_n _ _ _ _ _ I1) as PN. split; [split|split].
      + intros n Hn. destruct (p_in _ _ _ _ _ I1 n Hn) as [B [L M]]. rewrite B2, X2. repeat split; auto. lia.
      + intros j b Hj. destruct (p_const _ _ _ _ _ I1 j b Hj) as [L M]. rewrite X2. split; [lia|reflexivity].
      + rewrite (M2 w Hw). destruct (in_dec Nat.eq_dec w [w]) as [_|N]; [|exfalso; apply N; left; reflexivity]. destruct (p_in _ _ _ _ _ I1 w Hw) as [_ [_ ->]]. rewrite Ma. f_equal. apply values_keep, (ordered_inputs _ _ _ _ _ O Hw).
      + apply (Z2 w). left. reflexivity. }
  induction k as [|k IH]; intros c s E Hw R O Hm Dm Km.
  - destruct (One c s E Hw R O Hm Dm Km) as [s1 [s2 [E' [c' [H1 [H2 H3]]]]]]. exists s2, E', c'. cbn [train]. rewrite H1, H2. auto.
  - destruct (One c s E Hw R O Hm Dm Km) as [s1 [s2 [E' [c' [H1 [H2 [H3 [H4 H5]]]]]]]]. destruct (IH c' s2 E' Hw H3 O Hm Dm Km) as [s3 [E'' [c'' [T1 [T2 [T3 T4]]]]]]. exists s3, E'', c''.
    remember (S k) as k1 eqn:Hk1. cbn [train]. rewrite H1, H2. split; [exact T1|]. split; [exact T2|]. split; [|exact T4]. rewrite T3, H5, H4. ring.
Qed.

(** Two weights with the same gradient node. *)
Lemma train_shared m w1 w2 eta k : forall c s E, In w1 inputs -> In w2 inputs -> w1 <> w2 -> rest c s E -> ordered (kindOf g) inputs [] (order g) -> In m (order g) -> kindOf g m <> KIn ->
  deriv g w1 = Some m -> deriv g w2 = Some m -> exists s' E' c', train g None eta [w1; w2] k s = Ok s' /\ rest c' s' E' /\ E' w2 = E w2.
Proof.
  induction k as [|k IH]; intros c s E H1 H2 N R O Hm Km D1 D2; [exists s, E, c; auto|].
  cbn [train]. unfold runAll. destruct (run_ok0 c (nxt s) (order g) s [] E (rest_inv0 c s E R) O) as [s1 [E1 I1]]. rewrite E1.
  destruct (grad_at c (nxt s) s1 _ w1 m I1 H1 D1 Hm Km) as [a [A1 [A2 A3]]]. destruct (grad_at c (nxt s) s1 _ w2 m I1 H2 D2 Hm Km) as [a' [A1' [A2' _]]]. rewrite A2 in A2'. injection A2' as <-.
  assert (NA : forall n, In n inputs -> a <> x n).
  { intros n Hn. destruct A3 as [A3|[_ [_ [f [cs [_ A3]]]]]]; [destruct (xin n Hn) as [_ Q]; apply (Q m a A3)|]. destruct (p_in _ _ _ _ _ I1 n Hn) as [_ [L _]]. lia. }
  destruct (p_in _ _ _ _ _ I1 w1 H1) as [B1 [L1 M1]]. destruct (p_in _ _ _ _ _ I1 w2 H2) as [B2 [L2 M2]]. cbn [step]. rewrite (step_one0 s1 w1 a eta H1 B1 A1).
  set (s2 := write a 0 (write (x w1) (mem s1 (x w1) + - eta * mem s1 a) s1)). rewrite (step_one0 s2 w2 a eta H2 B2 A1'). set (s3 := write a 0 _).
  pose proof (p_n _ _ _ _ _ I1) as PN.
  destruct (IH (mem s3) s3 (fun n => mem s3 (x n)) H1 H2 N) as [s4 [E4 [c4 [T1 [T2 T3]]]]]; auto.
  - split; [|intros j b Hj; destruct (p_const _ _ _ _ _ I1 j b Hj) as [L _]; split; [exact (Nat.lt_le_trans _ _ _ L PN)|reflexivity]].
    intros n Hn. destruct (p_in _ _ _ _ _ I1 n Hn) as [B [L _]]. split; [exact B|]. split; [exact (Nat.lt_le_trans _ _ _ L PN)|reflexivity].
  - exists s4, E4, c4. split; [exact T1|]. split; [exact T2|]. rewrite T3. unfold s3, s2. cbn [write mem]. rewrite !Nat.eqb_refl. pose proof (NA w2 H2). pose proof (NA w1 H1).
    destruct (Nat.eqb_spec (x w2) a) as [e|_]; [congruence|]. destruct (Nat.eqb_spec (x w2) (x w1)) as [e|_]; [exfalso; apply N, xinj; auto|]. rewrite M2. rewrite (values_keep c (kindOf g) (order g) E w2) by (apply (ordered_inputs _ _ _ _ _ O H2)). ring.
Qed.
End Plain.

Lemma prepared_rest g c inputs e s : prepared g c inputs e s -> exists x, (forall n m, In n inputs -> In m inputs -> x n = x m -> n = m) /\ (forall n, In n inputs -> kindOf g n = KIn /\ forall k a, kindOf g k = KConst a -> a <> x n) /\ rest g inputs x c s e.
Proof.
  intros [[x [H1 H2]] HC]. exists x. split; [exact H2|]. split; [intros n Hn; destruct (H1 n Hn) as [A [_ [_ [_ B]]]]; auto|]. split; [|exact HC]. intros n Hn. destruct (H1 n Hn) as [_ [B [L [M _]]]]. auto.
Qed.

(** BindDualValues without arguments: only what is bound matters. *)
Definition isB (s : st) (n : nat) : bool := match bound s n with Some _ => true | None => false end.
Lemma isB_value s n : isB s n = true -> valueAt s n <> None.
Proof. unfold isB, valueAt. destruct (bound s n) as [[?|? ?]|]; congruence. Qed.
Lemma isB_values s cs : (forall k, In k cs -> isB s k = true) -> valuesAt s cs <> None.
Proof.
  induction cs as [|k cs IH]; intro H; [discriminate|]. cbn [valuesAt]. pose proof (isB_value s k (H k (or_introl eq_refl))). destruct (valueAt s k); [|congruence].
  specialize (IH (fun y Hy => H y (or_intror Hy))). destruct (valuesAt s cs); congruence.
Qed.
Lemma bindGrad_isB v src s : (isB s src = false /\ bindGrad v src s = Panic) \/ exists s', isB s src = true /\ bindGrad v src s = Ok s' /\ forall n, isB s' n = isB s n.
Proof.
  unfold bindGrad, isB. destruct (bound s src) as [[y|y d]|] eqn:B; [right|right|left; auto]; cbn [new]; eexists; (split; [reflexivity|]); (split; [reflexivity|]); intro n; cbn [rebind bound]; destruct (Nat.eqb_spec n src) as [->|_]; try rewrite B; reflexivity.
Qed.
Lemma bindGrads_isB v srcs : forall s, ((exists src, In src srcs /\ isB s src = false) /\ bindGrads [] v srcs s = Panic) \/
  exists s', (forall src, In src srcs -> isB s src = true) /\ bindGrads [] v srcs s = Ok s' /\ forall n, isB s' n = isB s n.
Proof.
  induction srcs as [|src srcs IH]; intro s; [right; exists s; split; [intros ? []|auto]|]. cbn [bindGrads length Nat.eqb negb andb].
  destruct (bindGrad_isB v src s) as [[U ->]|[s1 [B [-> F]]]]; [left; split; [exists src; split; [left; reflexivity|exact U]|reflexivity]|].
  destruct (IH s1) as [[[u [Hu Ub]] ->]|[s2 [A [-> F2]]]].
  - left. split; [|reflexivity]. exists u. rewrite F in Ub. split; [right; exact Hu|exact Ub].
  - right. exists s2. split; [|split; [reflexivity|intro n; rewrite F2; apply F]]. intros y [<-|Hy]; [exact B|]. rewrite <- F. apply A, Hy.
Qed.
Lemma exec_isB g inputs seen n s : (forall m, In m (inputs ++ seen) -> isB s m = true) -> kindOf g n <> KIn -> (forall f cs, kindOf g n = KOp f cs -> incl cs (inputs ++ seen)) ->
  ((exists src, In src (derivOf g n) /\ src <> n /\ isB s src = false) /\ exec g (Some []) n s = Panic) \/
  exists s', (forall src, In src (derivOf g n) -> src = n \/ isB s src = true) /\ exec g (Some []) n s = Ok s' /\ forall m, isB s' m = if Nat.eq_dec m n then true else isB s m.
Proof.
  intros H NK HC. assert (K : exists s1 v, doOp g n s = Ok (s1, v) /\ bound s1 = bound s).
  { unfold doOp. destruct (kindOf g n) as [|a|f cs] eqn:KN; [congruence|exists s, a; auto|]. pose proof (isB_values s cs (fun k Hk => H k (HC f cs eq_refl k Hk))). destruct (valuesAt s cs); [|congruence]. eexists; eexists; split; reflexivity. }
  destruct K as [s1 [v [E1 B1]]]. unfold exec. rewrite E1.
  assert (B2 : forall m, isB (bindValue n v s1) m = if Nat.eq_dec m n then true else isB s m).
  { intro m. unfold isB, bindValue. cbn [rebind bound]. destruct (Nat.eqb_spec m n), (Nat.eq_dec m n); try congruence. rewrite B1. reflexivity. }
  destruct (bindGrads_isB v (derivOf g n) (bindValue n v s1)) as [[[u [Hu Ub]] ->]|[s2 [A [-> F]]]].
  - left. split; [|reflexivity]. exists u. rewrite B2 in Ub. destruct (Nat.eq_dec u n); [discriminate|]. auto.
  - right. exists s2. split; [|split; [reflexivity|intro m; rewrite F; apply B2]]. intros u Hu. specialize (A u Hu). rewrite B2 in A. destruct (Nat.eq_dec u n); auto.
Qed.
Lemma all_isB g inputs ns : forall s seen, (forall m, In m (inputs ++ seen) -> isB s m = true) -> ordered (kindOf g) inputs seen ns ->
  ((exists pre n post src, ns = pre ++ n :: post /\ In src (derivOf g n) /\ src <> n /\ ~ In src pre /\ isB s src = false) /\ execAll g (Some []) ns s = Panic) \/
  exists s', (forall pre n post src, ns = pre ++ n :: post -> In src (derivOf g n) -> src = n \/ In src pre \/ isB s src = true) /\ execAll g (Some []) ns s = Ok s'.
Proof.
  induction ns as [|n ns IH]; intros s seen H O.
  - right. exists s. split; [|reflexivity]. intros pre n post src K. destruct pre; discriminate.
  - destruct O as [O1 [O2 [O3 [O4 O5]]]]. cbn [execAll]. destruct (exec_isB g inputs seen n s H O3 O4) as [[[u [Hu [Nu Ub]]] ->]|[s1 [A [-> F]]]].
    + left. split; [|reflexivity]. exists [], n, ns, u. repeat split; auto.
    + destruct (IH s1 (n :: seen)) as [[[pre [m [post [u [K1 [K2 [K3 [K4 K5]]]]]]]] ->]|[s2 [A2 ->]]].
      * intros m Hm. rewrite F. destruct (Nat.eq_dec m n) as [|N]; [reflexivity|]. apply H. apply in_or_app. apply in_app_or in Hm. destruct Hm as [Hm|[Hm|Hm]]; auto. congruence.
      * exact O5.
      * left. split; [|reflexivity]. rewrite F in K5. destruct (Nat.eq_dec u n) as [|N]; [discriminate|]. exists (n :: pre), m, post, u. rewrite K1. repeat split; auto. intros [K|K]; [congruence|contradiction].
      * right. exists s2. split; [|reflexivity]. intros [|p pre] m post u K Hu; cbn [app] in K.
        -- injection K as -> ->. destruct (A u Hu); auto.
        -- injection K as -> K. destruct (A2 pre m post u K Hu) as [Q|[Q|Q]]; auto. right. left. right. exact Q. rewrite F in Q. destruct (Nat.eq_dec u p) as [->|]; [right; left; left; reflexivity|auto].
Qed.
