(** Property C84: two normalisations of one node. *)
From Coq Require Import Arith ZArith Reals Lra List Bool String Lia.
From Flocq Require Import Core.Raux Core.Generic_fmt Core.Round_NE.
From Verif Require Import GraphModel GraphSpec GraphProofs GraphHistory GraphProps
  BatchNormModel BatchNormSpec BatchNormProofs BatchNormProps OpHashModel OpHashProofs NormHashModel.
From Verif Require GroupNormModel GroupNormSpec GroupNormProps.
Import ListNotations.
Open Scope list_scope.

(** ** Spec: two numbers print alike with one decimal. *)
Definition alike1 (a b : R) : Prop := exists k : Z,
  (Rabs (a - IZR k / 10) < 1 / 20 /\ Rabs (b - IZR k / 10) < 1 / 20)%R.

Lemma tenths_near : forall r k, (Rabs (r - IZR k / 10) < 1 / 20)%R -> tenths r = k.
Proof.
  intros r k A. unfold tenths. apply Znearest_imp.
  replace (10 * r - IZR k)%R with (10 * (r - IZR k / 10))%R by field.
  rewrite Rabs_mult, (Rabs_pos_eq 10) by lra. lra.
Qed.
Lemma tenths_nonneg : forall r, (0 <= r)%R -> (0 <= tenths r)%Z.
Proof.
  intros r P. unfold tenths. apply Z.le_trans with (Zfloor (10 * r)).
  - apply Zfloor_lub. cbn. lra.
  - apply Znearest_ge_floor.
Qed.
Lemma fixed1_inj : forall a b c r c' r', (0 <= a)%R -> (0 <= b)%R -> isDigit c = false -> isDigit c' = false ->
  (fixed1 a ++ String c r = fixed1 b ++ String c' r')%string -> tenths a = tenths b /\ r = r'.
Proof.
  intros a b c r c' r' Pa Pb N N' E. unfold fixed1 in E.
  rewrite !app_assoc_s in E. cbn [append] in E.
  apply dec_sep in E; [|reflexivity|reflexivity]. destruct E as [E1 E].
  apply dec_sep in E; [|auto|auto]. destruct E as [E2 E]. split; [|exact E].
  assert (Qa := tenths_nonneg a Pa). assert (Qb := tenths_nonneg b Pb).
  assert (D1 : (tenths a / 10 = tenths b / 10)%Z).
  { apply Z2Nat.inj; auto; apply Z.div_pos; lia. }
  assert (D2 : (tenths a mod 10 = tenths b mod 10)%Z).
  { apply Z2Nat.inj; auto; apply Z.mod_pos_bound; lia. }
  rewrite (Z.div_mod (tenths a) 10), (Z.div_mod (tenths b) 10), D1, D2 by lia. reflexivity.
Qed.
Lemma bnHash_iff : forall a b, (0 <= momentum a)%R -> (0 <= momentum b)%R -> (0 <= epsilon a)%R -> (0 <= epsilon b)%R ->
  (bnHash a = bnHash b <-> tenths (momentum a) = tenths (momentum b) /\ tenths (epsilon a) = tenths (epsilon b)).
Proof.
  intros a b P1 P2 P3 P4. unfold bnHash. split.
  - intro E. apply (f_equal (fun s => append s "!")) in E. rewrite !app_assoc_s in E. cbn [append] in E.
    injection E as E. apply fixed1_inj in E; auto. destruct E as [E1 E].
    apply (fixed1_inj (epsilon a) (epsilon b) _ "" _ "") in E; auto. tauto.
  - intros [E1 E2]. unfold fixed1. rewrite E1, E2. reflexivity.
Qed.

(** ** C84 *)

(** Whether an operator belongs to a node: made by this call or an earlier one. *)
Definition fresh_op (op : bnOp) (mom eps : R) (channels : nat) : Prop :=
  momentum op = mom /\ epsilon op = eps /\ training op = true /\ List.length (chans op) = channels.

(** A second BatchNorm of the same node, of momentum and epsilon that print alike
    with one decimal, gives the first one's node; the operator object it returns is
    new and is not the node's, whose operator stays. *)
Theorem C84_second_call :
  forall H fmtTS w t s channels x mom1 eps1 mom2 eps2 w1 p k1 w2,
    built H fmtTS (wgraph w) -> In x (all (wgraph w)) ->
    alike1 mom1 mom2 -> alike1 eps1 eps2 ->
    batchNorm H fmtTS w t s channels x mom1 eps1 = Some (w1, p, k1) ->
    reaches H fmtTS (wgraph w1) (wgraph w2) -> constantsUncollided (wgraph w2) ->
    opAt w2 p = opAt w1 p -> (exists q, opAt w1 p = Some q /\ q < List.length (wops w2)) ->
    exists w3 k2,
      batchNorm H fmtTS w2 t s channels x mom2 eps2 = Some (w3, p, k2) /\
      all (wgraph w3) = all (wgraph w2) /\
      (exists op, nth_error (wops w3) k2 = Some op /\ fresh_op op mom2 eps2 channels) /\
      opOf w3 p = opOf w2 p /\ opAt w3 p <> Some k2.
Proof.
  intros H ft w t s ch x mom1 eps1 mom2 eps2 w1 p k1 w2 B Ix (km & Am1 & Am2) (ke & Ae1 & Ae2) E R U Eo (q & Eq & Lq).
  unfold batchNorm in E.
  set (op1 := Build_bnOp mom1 eps1 true (repeat (Build_chan 0 0 0 0) ch)) in E.
  destruct (newUniqueNode H ft (wgraph w) (mkLabel KOp EmptyString t s (bnHash op1) false) [x]) as [[g1 m1]|] eqn:E1; [|discriminate].
  assert (Ep : m1 = p) by congruence. assert (Eg : wgraph w1 = g1) by (injection E as <- _ _; reflexivity). subst m1.
  unfold batchNorm. set (op2 := Build_bnOp mom2 eps2 true (repeat (Build_chan 0 0 0 0) ch)).
  assert (Hh : bnHash op1 = bnHash op2).
  { unfold bnHash, fixed1, op1, op2; cbn [momentum epsilon].
    rewrite (tenths_near mom1 km), (tenths_near mom2 km), (tenths_near eps1 ke), (tenths_near eps2 ke); auto. }
  rewrite Eg in R.
  destruct (repeat_same H ft (wgraph w) (mkLabel KOp EmptyString t s (bnHash op1) false)
              (mkLabel KOp EmptyString t s (bnHash op2) false) [x] g1 p (wgraph w2)) as (g3 & E3 & Ea);
    auto using built_full; try discriminate.
  - intro C; destruct (C eq_refl).
  - intro C; destruct (C eq_refl).
  - repeat split; try reflexivity. right. cbn. repeat split; try discriminate. exact Hh.
  - assert (Ip : In p (all (wgraph w2))).
    { rewrite <- Ea. assert (Ux : okUse (wgraph w2) (UNew (mkLabel KOp EmptyString t s (bnHash op2) false) [x])).
      { split; [|intro C; destruct (C eq_refl)]. constructor; [left|constructor].
        assert (F1G1 : full H ft g1 /\ grows (wgraph w) g1).
        { eapply useStep_full with (u := UNew (mkLabel KOp EmptyString t s (bnHash op1) false) [x]); eauto using built_full.
          - split; [|intro C; destruct (C eq_refl)]. constructor; [left; exact Ix|constructor].
          - cbn [useStep]. rewrite E1. reflexivity. }
        destruct F1G1 as [F1 G1]. destruct (reaches_full _ _ _ _ R F1) as [F2 G2].
        eapply grows_in; [exact G2|]. eapply grows_in; [exact G1|exact Ix]. }
      assert (B2 : built H ft (wgraph w2)).
      { assert (B1 : built H ft g1).
        { eapply reaches_step with (u := UNew (mkLabel KOp EmptyString t s (bnHash op1) false) [x]);
            [exact B| |cbn [useStep]; rewrite E1; reflexivity].
          split; [|intro C; destruct (C eq_refl)]. constructor; [left; exact Ix|constructor]. }
        clear - B1 R. revert B1. induction R as [|a b u c r R IH O Es]; intro B1; [exact B1|].
        eapply reaches_step; [apply IH, B1|exact O|exact Es]. }
      destruct (C01_never_panics H ft (wgraph w2) _ _ B2 Ux) as (g4 & m4 & E4 & I4).
      rewrite E3 in E4. injection E4 as <- <-. exact I4. }
    rewrite E3.
    assert (Ex : existsb (Nat.eqb p) (all (wgraph w2)) = true).
    { apply existsb_exists. exists p. split; [exact Ip|apply Nat.eqb_refl]. }
    rewrite Ex. eexists. eexists. split; [reflexivity|]. cbn [wgraph wops opAt].
    split; [exact Ea|]. split; [|split].
    + exists op2. rewrite nth_error_app2, Nat.sub_diag by lia. split; [reflexivity|].
      unfold fresh_op, op2; cbn. rewrite repeat_length. auto.
    + unfold opOf; cbn [opAt wops]. rewrite Eo, Eq. rewrite nth_error_app1 by exact Lq. reflexivity.
    + rewrite Eo, Eq. intro C. injection C as C. lia.
Qed.
Print Assumptions C84_second_call.

(** Switching the mode of an operator that is not the node's changes nothing for the
    node. *)
Theorem C84_mode_without_effect :
  forall w p k b, opAt w p <> Some k -> opOf (setMode w k b) p = opOf w p.
Proof.
  intros w p k b N. unfold opOf, setMode.
  destruct (nth_error (wops w) k) as [op|] eqn:E; [|reflexivity]. cbn [opAt wops].
  destruct (opAt w p) as [q|]; [|reflexivity].
  assert (G : forall (l : list bnOp) i j (y : bnOp), i <> j -> nth_error (setNth l i y) j = nth_error l j).
  { induction l as [|z l IH]; intros [|i] [|j] y Ne; cbn; auto; try congruence. }
  apply G. congruence.
Qed.
Print Assumptions C84_mode_without_effect.

(** Switching the mode of the node's own operator does: it is in the mode asked for, with the
    same momentum and epsilon. *)
Theorem C84_mode_with_effect :
  forall w p k b op, opAt w p = Some k -> nth_error (wops w) k = Some op ->
  exists op', opOf (setMode w k b) p = Some op' /\ training op' = b /\ momentum op' = momentum op /\ epsilon op' = epsilon op.
Proof.
  intros w p k b op A E. unfold opOf, setMode. rewrite E. cbn [opAt wops]. rewrite A.
  assert (G : forall (l : list bnOp) i (y x : bnOp), nth_error l i = Some x -> nth_error (setNth l i y) i = Some y).
  { induction l as [|z l IH]; intros [|i] y x H; cbn in *; try discriminate; eauto. }
  rewrite (G _ _ _ _ E). eexists. split; [reflexivity|]. destruct op, b; repeat split.
Qed.
Print Assumptions C84_mode_with_effect.

Example C84_mode_with_effect_ex : forall g, let w := mkWorld g [Build_bnOp (9/10) (1/1000) true []] (fun _ => Some 0) in
  exists op', opOf (setMode w 0 false) 5 = Some op' /\ training op' = false.
Proof. intros g w. eexists. split; reflexivity. Qed.

(** Every epsilon in use is below 1/20, so epsilon never tells two operators apart,
    and momenta do only by their first decimal. *)
Theorem C84_small_epsilons :
  forall e1 e2, (0 <= e1 < 1 / 20)%R -> (0 <= e2 < 1 / 20)%R -> alike1 e1 e2.
Proof.
  intros e1 e2 P Q. exists 0%Z. cbn. replace (0 / 10)%R with 0%R by field.
  rewrite !Rminus_0_r, !Rabs_pos_eq by lra. lra.
Qed.
Print Assumptions C84_small_epsilons.

(** Conversely operators whose momentum or epsilon print differently are told
    apart, if the hash function does not collide. *)
Theorem C84_told_apart :
  forall H fmtTS g t s op1 op2 x g1 p1 g2 g3 p2,
    (0 <= momentum op1)%R -> (0 <= momentum op2)%R -> (0 <= epsilon op1)%R -> (0 <= epsilon op2)%R ->
    built H fmtTS g -> In x (all g) -> In x (all g2) ->
    newUniqueNode H fmtTS g (mkLabel KOp "" t s (bnHash op1) false) [x] = Some (g1, p1) ->
    reaches H fmtTS g1 g2 -> constantsUncollided g2 ->
    newUniqueNode H fmtTS g2 (mkLabel KOp "" t s (bnHash op2) false) [x] = Some (g3, p2) ->
    noCollision H fmtTS g3 ->
    (p1 = p2 <-> tenths (momentum op1) = tenths (momentum op2) /\ tenths (epsilon op1) = tenths (epsilon op2)).
Proof.
  intros H ft g t s op1 op2 x g1 p1 g2 g3 p2 P1 P2 P3 P4 B I1 I2 E1 R U E2 NC.
  rewrite (C01_same_node_iff H ft g (mkLabel KOp "" t s (bnHash op1) false) [x] g1 p1 g2
             (mkLabel KOp "" t s (bnHash op2) false) [x] g3 p2); auto; try discriminate.
  rewrite <- bnHash_iff by auto. unfold sameLabel; cbn. split.
  - intros [(_ & _ & [(C & _)|(_ & _ & E)]) _]; [discriminate C|exact E].
  - intro E. repeat split. right. repeat split; try discriminate. exact E.
Qed.
Print Assumptions C84_told_apart.

(** What the program gets is not what it asked for: the two epsilons give different
    outputs, in evaluation mode for every input off the running mean. *)
Theorem C84_epsilon_refuted :
  forall mom e1 e2 ch v, (0 <= runVar ch)%R -> (0 < e1 < 1 / 20)%R -> (0 < e2 < 1 / 20)%R -> e1 <> e2 ->
    v <> runMean ch ->
    bnHash (Build_bnOp mom e1 false [ch]) = bnHash (Build_bnOp mom e2 false [ch]) /\
    option_map snd (bnDo (Build_bnOp mom e1 false [ch]) 1 1 1 [v]) <>
    option_map snd (bnDo (Build_bnOp mom e2 false [ch]) 1 1 1 [v]).
Proof.
  intros mom e1 e2 ch v Pv P1 P2 Ne Nv. split.
  - destruct (C84_small_epsilons e1 e2) as (k & A1 & A2); try lra.
    unfold bnHash, fixed1; cbn [momentum epsilon]. rewrite (tenths_near e1 k), (tenths_near e2 k) by auto. reflexivity.
  - rewrite !(bnDo_eval 1 1 1) by reflexivity. cbn [option_map snd]. change (seq 0 (1 * 1 * 1)) with [0]. cbn [map chans epsilon].
    change (AvgProofs.row3 1 1 0) with 0. cbn [nth].
    intro C. injection C as C.
    assert (S1 : (0 < sqrt (runVar ch + e1))%R) by (apply sqrt_lt_R0; lra).
    assert (S2 : (0 < sqrt (runVar ch + e2))%R) by (apply sqrt_lt_R0; lra).
    assert (S : sqrt (runVar ch + e1) = sqrt (runVar ch + e2)).
    { apply Rmult_eq_reg_l with ((v - runMean ch) / (sqrt (runVar ch + e1) * sqrt (runVar ch + e2)))%R.
      - transitivity ((v - runMean ch) / sqrt (runVar ch + e2))%R; [field; lra|]. rewrite <- C. field; lra.
      - apply Rmult_integral_contrapositive_currified; [lra|]. apply Rinv_neq_0_compat. nra. }
    apply sqrt_inj in S; lra.
Qed.
Print Assumptions C84_epsilon_refuted.

(** GroupNorm: epsilon is in no way part of the hash. *)
Theorem C84_group_norm :
  forall H fmtTS g t s groups channels e1 e2 x g1 p g2,
    built H fmtTS g -> In x (all g) ->
    newUniqueNode H fmtTS g (mkLabel KOp "" t s (gnHash groups channels e1) false) [x] = Some (g1, p) ->
    reaches H fmtTS g1 g2 -> constantsUncollided g2 ->
    exists g3, newUniqueNode H fmtTS g2 (mkLabel KOp "" t s (gnHash groups channels e2) false) [x] = Some (g3, p) /\
      all g3 = all g2.
Proof.
  intros H ft g t s gr ch e1 e2 x g1 p g2 B I E R U.
  apply (repeat_same H ft g (mkLabel KOp "" t s (gnHash gr ch e1) false)
              (mkLabel KOp "" t s (gnHash gr ch e2) false) [x] g1 p g2); auto using built_full; try discriminate.
  - intro C; destruct (C eq_refl).
  - intro C; destruct (C eq_refl).
  - repeat split; try reflexivity. right. repeat split; discriminate.
Qed.
Print Assumptions C84_group_norm.
Theorem C84_group_norm_hash :
  forall g1 c1 e1 g2 c2 e2, gnHash g1 c1 e1 = gnHash g2 c2 e2 <-> g1 = g2 /\ c1 = c2.
Proof.
  intros. unfold gnHash. split; [|intros [-> ->]; reflexivity]. intro E. cbn [append] in E. injection E as E.
  apply dec_sep in E; [|reflexivity|reflexivity]. destruct E as [-> E]. injection E as E.
  apply dec_sep in E; [|reflexivity|reflexivity]. destruct E as [-> _]. auto.
Qed.
Print Assumptions C84_group_norm_hash.
Theorem C84_group_norm_refuted : exists x, forall e1 e2, (0 < e1)%R -> (0 < e2)%R -> e1 <> e2 ->
  option_map snd (GroupNormModel.gnDo (GroupNormModel.gnNew 1 1 e1) 1 1 2 x) <>
  option_map snd (GroupNormModel.gnDo (GroupNormModel.gnNew 1 1 e2) 1 1 2 x).
Proof.
  exists [0; 2]%R. intros e1 e2 P1 P2 Ne.
  destruct (GroupNormProps.C62_output 1 1 2 1 e1 [0; 2]%R ltac:(lia) ltac:(lia) eq_refl) as [o1 E1].
  destruct (GroupNormProps.C62_output 1 1 2 1 e2 [0; 2]%R ltac:(lia) ltac:(lia) eq_refl) as [o2 E2].
  cbn [Nat.mul Nat.add] in E1, E2. rewrite E1, E2. cbn [option_map snd].
  unfold GroupNormSpec.group_normalise. cbn [length map seq].
  intro C. injection C as C _.
  assert (El : forall q r, q = 0 -> r = 0 -> GroupNormSpec.group_values 1 1 2 [0; 2]%R q r = [0; 2]%R)
    by (intros q r -> ->; reflexivity).
  rewrite El in C by reflexivity. clear El.
  assert (Em : mean [0; 2]%R = 1%R) by (unfold mean, add_up; cbn; lra).
  assert (Ev : variance [0; 2]%R = 1%R) by (unfold variance; rewrite Em; unfold mean, add_up; cbn; field).
  rewrite Em, Ev in C. cbn [nth] in C.
  assert (S1 : (0 < sqrt (1 + e1))%R) by (apply sqrt_lt_R0; lra).
  assert (S2 : (0 < sqrt (1 + e2))%R) by (apply sqrt_lt_R0; lra).
  assert (S : sqrt (1 + e1) = sqrt (1 + e2)).
  { apply Rmult_eq_reg_l with ((0 - 1) / (sqrt (1 + e1) * sqrt (1 + e2)))%R.
    - transitivity ((0 - 1) / sqrt (1 + e2))%R; [field; lra|]. rewrite <- C. field; lra.
    - apply Rmult_integral_contrapositive_currified; [lra|]. apply Rinv_neq_0_compat. nra. }
  apply sqrt_inj in S; lra.
Qed.
Print Assumptions C84_group_norm_refuted.

(** BatchNorm(x, .., 0.9, 1e-5) and BatchNorm(x, .., 0.9, 1e-3) in the graph of the
    inputs x and y: one node. *)
Example C84_ex : alike1 0.9 0.9 /\ alike1 (1 / 100000) (1 / 1000) /\
  forall mom e1, exists w1 p,
    batchNorm fnv32a printTS (mkWorld exG2 [] (fun _ => None)) vec [3] 1 0 mom e1 = Some (w1, p, 0) /\
    opAt w1 p = Some 0 /\ List.length (wops w1) = 1.
Proof.
  split; [|split].
  - exists 9%Z. split; rewrite Rabs_pos_eq; lra.
  - apply C84_small_epsilons; lra.
  - intros mom e1. unfold batchNorm. cbn [wgraph wops opAt].
    set (l := mkLabel KOp "" vec [3] (bnHash (Build_bnOp mom e1 true (repeat (Build_chan 0 0 0 0) 1))) false).
    destruct (C01_never_panics fnv32a printTS exG2 l (@cons ptr 0 nil) exG2_built) as (g' & m & E & I).
    { split; [|intro C; destruct (C eq_refl)]. constructor; [left; vm_compute; auto|constructor]. }
    rewrite E.
    assert (Eh : heap exG2 = [ofLabel (inputL "x") []; ofLabel (inputL "y") []]) by (vm_compute; reflexivity).
    assert (Ha : all exG2 = [0; 1]) by (vm_compute; reflexivity).
    assert (U : constantsUncollided exG2).
    { intros p Ip [n [En K]]. assert (Ip' := Ip). rewrite Ha in Ip'. rewrite Eh in En.
      destruct Ip' as [<-|[<-|[]]]; cbn in En; injection En as <-; discriminate K. }
    assert (Hs : Forall (settled exG2) (@cons ptr 0 nil)).
    { apply settled_all; [exact U|]. constructor; [rewrite Ha; left; reflexivity|constructor]. }
    assert (Hk : lkind l <> KOp -> @cons ptr 0 nil = []) by (intro C; destruct (C eq_refl)).
    assert (Hc : lkind l <> KConst) by (unfold l; cbn [lkind]; congruence).
    destruct (newUnique_result fnv32a printTS exG2 l (@cons ptr 0 nil) g' m (built_full _ _ _ exG2_built) Hs Hk Hc E)
      as (_ & G & _ & _ & (b & Eb & Nb) & _ & D).
    destruct D as [[Im _]|(_ & Nm & _)].
    + exfalso. assert (Im' := Im). rewrite Ha in Im'.
      assert (K : isInputN b = true).
      { destruct Im' as [<-|[<-|[]]].
        - assert (Q : nth_error (heap g') 0 = Some (ofLabel (inputL "x") []))
            by (eapply grows_nth; [exact G|rewrite Eh; reflexivity]). rewrite Q in Eb. injection Eb as <-. reflexivity.
        - assert (Q : nth_error (heap g') 1 = Some (ofLabel (inputL "y") []))
            by (eapply grows_nth; [exact G|rewrite Eh; reflexivity]). rewrite Q in Eb. injection Eb as <-. reflexivity. }
      unfold nodeEqN in Nb. rewrite K in Nb. cbn in Nb. discriminate.
    + assert (Ex : existsb (Nat.eqb m) (all exG2) = false).
      { destruct (existsb (Nat.eqb m) (all exG2)) eqn:X; [|reflexivity]. apply existsb_exists in X.
        destruct X as (y & Iy & Ey). apply Nat.eqb_eq in Ey. subst. destruct (Nm Iy). }
      rewrite Ex. eexists. eexists. split; [reflexivity|]. cbn [opAt wops app List.length].
      unfold updP. rewrite Nat.eqb_refl. auto.
Qed.
