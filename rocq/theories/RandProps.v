(** Property C81: which random input nodes are the same node. *)
From Coq Require Import Reals Arith List String Lra Lia.
From Coq Require Import Ascii NArith.
From Verif Require Import GraphModel GraphSpec GraphProofs GraphHistory GraphProps RandModel.
Import ListNotations.
Open Scope list_scope.

(** ** Spec: the ways a program asks for a random input. *)
Inductive asked (fmtRandom : randomOp -> string) (H : string -> word)
  (fmtTS : ntype -> list nat -> string) (g : graph)
  : randomOp -> option (graph * ptr) -> Prop :=
| asked_uniform : forall dt a b s, asked fmtRandom H fmtTS g (mkRandomOp Uniform s dt a b)
    (uniformRandomNode fmtRandom H fmtTS g dt a b s)
| asked_gaussian : forall dt a b s, asked fmtRandom H fmtTS g (mkRandomOp Gaussian s dt a b)
    (gaussianRandomNode fmtRandom H fmtTS g dt a b s)
| asked_binomial : forall dt a b s, asked fmtRandom H fmtTS g (mkRandomOp Binomial s dt a b)
    (binomialRandomNode fmtRandom H fmtTS g dt a b s).

Lemma asked_label : forall fr H ft g op r, asked fr H ft g op r ->
  r = newUniqueNode H ft g (randomLabel fr op) [].
Proof. intros fr H ft g op r []; reflexivity. Qed.

Lemma randomType_inj : forall dt1 s dt2, randomType dt1 s = randomType dt2 s -> dt1 = dt2.
Proof. intros dt1 [|d s] dt2 E; cbn in E; congruence. Qed.

(** Two random inputs of the same dtype and shape are one node, whatever their
    distributions and parameters and whatever was done in between; the second
    request adds nothing.  For every hash function. *)
Theorem C81_same_shape_one_node :
  forall fmtRandom H fmtTS g op1 op2 g1 m g2 r,
    built H fmtTS g -> constantsUncollided g2 ->
    rdt op1 = rdt op2 -> rshape op1 = rshape op2 ->
    asked fmtRandom H fmtTS g op1 (Some (g1, m)) -> reaches H fmtTS g1 g2 ->
    asked fmtRandom H fmtTS g2 op2 r ->
    exists g3, r = Some (g3, m) /\ all g3 = all g2.
Proof.
  intros fr H ft g op1 op2 g1 m g2 r B U Ed Es A1 R A2.
  apply asked_label in A1. apply asked_label in A2. subst r.
  apply (repeat_same H ft g (randomLabel fr op1) (randomLabel fr op2) [] g1 m g2);
    auto using built_full; try discriminate.
  unfold sameLabel, randomLabel; cbn. rewrite Ed, Es. auto 6.
Qed.
Print Assumptions C81_same_shape_one_node.

(** Without hash collisions that is the only case: random inputs differing in dtype
    or shape are two nodes. *)
Theorem C81_one_node_iff :
  forall fmtRandom H fmtTS g op1 op2 g1 m1 g2 g3 m2,
    built H fmtTS g -> asked fmtRandom H fmtTS g op1 (Some (g1, m1)) -> reaches H fmtTS g1 g2 ->
    asked fmtRandom H fmtTS g2 op2 (Some (g3, m2)) -> constantsUncollided g2 ->
    noCollision H fmtTS g3 ->
    (m1 = m2 <-> rdt op1 = rdt op2 /\ rshape op1 = rshape op2).
Proof.
  intros fr H ft g op1 op2 g1 m1 g2 g3 m2 B A1 R A2 U NC.
  apply asked_label in A1. apply asked_label in A2. symmetry in A1, A2.
  rewrite (C01_same_node_iff H ft g (randomLabel fr op1) [] g1 m1 g2 (randomLabel fr op2) [] g3 m2);
    auto; try discriminate.
  unfold sameLabel, randomLabel; cbn. split.
  - intros [(Et & Es & _) _]. split; [|exact Es]. rewrite Es in Et. eapply randomType_inj; eauto.
  - intros [Ed Es]. rewrite Ed, Es. auto 8.
Qed.
Print Assumptions C81_one_node_iff.

(** An ordinary input without a name is merged with random inputs too: it then
    holds what the generator draws; one with a name never is. *)
Theorem C81_input_becomes_random :
  forall fmtRandom H fmtTS g op g1 m g2,
    built H fmtTS g -> constantsUncollided g2 ->
    asked fmtRandom H fmtTS g op (Some (g1, m)) -> reaches H fmtTS g1 g2 ->
    exists g3, newInput H fmtTS g2 (rdt op) "" (rshape op) = Some (g3, m) /\ all g3 = all g2.
Proof.
  intros fr H ft g op g1 m g2 B U A R. apply asked_label in A.
  apply (repeat_same H ft g (randomLabel fr op) _ [] g1 m g2); auto using built_full; try discriminate.
  unfold sameLabel, randomLabel; cbn. auto 6.
Qed.
Print Assumptions C81_input_becomes_random.

Theorem C81_named_input_is_its_own :
  forall fmtRandom H fmtTS g op g1 m g2 dt name s g3 m2,
    built H fmtTS g -> asked fmtRandom H fmtTS g op (Some (g1, m)) -> reaches H fmtTS g1 g2 ->
    name <> EmptyString -> newInput H fmtTS g2 dt name s = Some (g3, m2) ->
    constantsUncollided g2 -> noCollision H fmtTS g3 -> m2 <> m.
Proof.
  intros fr H ft g op g1 m g2 dt nm s g3 m2 B A R Nn E U NC Em. apply asked_label in A. symmetry in A.
  assert (X := C01_same_node_iff H ft g (randomLabel fr op) [] g1 m g2 (mkLabel KInput nm (randomType dt s) s EmptyString false) [] g3 m2 B).
  destruct X as [X _]; try exact E; auto; try discriminate.
  destruct (X (eq_sym Em)) as [(_ & _ & [(_ & _ & K)|(K & _)]) _]; cbn in K; congruence.
Qed.
Print Assumptions C81_named_input_is_its_own.

(** Which operator the one node runs: that of the request that made it. *)
Theorem C81_first_operator_stays :
  forall fmtRandom H fmtTS g op1 op2 g1 m g2 r,
    built H fmtTS g -> constantsUncollided g -> constantsUncollided g2 ->
    asked fmtRandom H fmtTS g op1 (Some (g1, m)) -> ~ In m (all g) -> reaches H fmtTS g1 g2 ->
    rdt op1 = rdt op2 -> rshape op1 = rshape op2 -> asked fmtRandom H fmtTS g2 op2 r ->
    exists g3 n, r = Some (g3, m) /\ isA g2 m n /\ isA g3 m n /\ nop n = fmtRandom op1.
Proof.
  intros fr H ft g op1 op2 g1 m g2 r B U U2 A1 Nm R Ed Es A2.
  assert (A1' := asked_label _ _ _ _ _ _ A1). symmetry in A1'.
  destruct (C01_new_node_is_as_asked H ft g (randomLabel fr op1) [] g1 m B U) as [En Ea]; auto; try discriminate.
  destruct (C81_same_shape_one_node fr H ft g op1 op2 g1 m g2 r B U2 Ed Es A1 R A2) as (g3 & -> & _).
  assert (Okn : forall h op, okUse h (UNew (randomLabel fr op) [])) by (intros; split; auto).
  assert (B1 : built H ft g1).
  { eapply reaches_step; [exact B|exact (Okn g op1)|]. cbn [useStep]. rewrite A1'. reflexivity. }
  assert (Ia : In m (all g1)) by (rewrite Ea; apply in_or_app; right; left; reflexivity).
  destruct (In_nth_error _ _ Ia) as [i Ei].
  assert (R3 : reaches H ft g1 g3).
  { apply asked_label in A2. eapply reaches_step; [exact R|exact (Okn g2 op2)|]. cbn [useStep].
    rewrite <- A2. reflexivity. }
  destruct (C01_nodes_never_change H ft g1 g2 m _ i B1 R Ei En) as (_ & N2 & _).
  destruct (C01_nodes_never_change H ft g1 g3 m _ i B1 R3 Ei En) as (_ & N3 & _).
  eexists g3, _. split; [reflexivity|]. split; [exact N2|]. split; [exact N3|reflexivity].
Qed.
Print Assumptions C81_first_operator_stays.

(** ** A graph with one random input, then a second asked for. *)
Definition unit3 : randomOp := mkRandomOp Uniform [3] 0 0 1.
Definition fives3 : randomOp := mkRandomOp Uniform [3] 0 5 6.
Definition rG1 (fr : randomOp -> string) : graph := exNew exG0 (randomLabel fr unit3) [].

Lemma rG1_built : forall fr, built fnv32a printTS (rG1 fr) /\
  uniformRandomNode fr fnv32a printTS exG0 0 0 1 [3] = Some (rG1 fr, 0) /\
  all (rG1 fr) = [0].
Proof.
  intro fr. split; [|split; reflexivity].
  apply (exNew_step exG0 _ (randomLabel fr unit3) []); [apply reaches_refl|split; auto|reflexivity|].
  discriminate.
Qed.
Lemma rG1_uncollided : forall fr, constantsUncollided (rG1 fr).
Proof.
  intros fr p Ip [n [En K]]. destruct (rG1_built fr) as (_ & _ & Ea). rewrite Ea in Ip.
  destruct Ip as [<-|[]]. cbn in En. injection En as <-. discriminate K.
Qed.

(** A first request is served as asked: the node has one axis for every size, and all its
    draws, from generator values in [0, 1), lie within the bounds and can come arbitrarily
    close to both. *)
Theorem C81_first_request : forall fr low high dt s,
  (low < high)%R -> let op := mkRandomOp Uniform s dt low high in
  (forall u, (0 <= u < 1)%R -> (low <= uniformDraw op u < high)%R) /\
  (forall x, (low <= x < high)%R -> exists u, (0 <= u < 1)%R /\ uniformDraw op u = x) /\
  ltyp (randomLabel fr op) = (if Nat.eqb (List.length s) 0 then TScalar dt else TTensor (List.length s) dt).
Proof.
  intros fr low high dt s L op. unfold uniformDraw, op. cbn [ra rb]. split; [|split].
  - intros u [U1 U2]. assert (0 <= u * (high - low))%R by (apply Rmult_le_pos; lra).
    assert (u * (high - low) < 1 * (high - low))%R by (apply Rmult_lt_compat_r; lra). lra.
  - intros x [X1 X2]. exists ((x - low) / (high - low))%R. split; [split|field; lra].
    + apply Rmult_le_pos; [lra|]. left. apply Rinv_0_lt_compat. lra.
    + apply (Rmult_lt_reg_r (high - low)); [lra|]. unfold Rdiv. rewrite Rmult_assoc, Rinv_l by lra. lra.
  - destruct s; reflexivity.
Qed.
Print Assumptions C81_first_request.
Example C81_first_request_ex : forall fr, uniformDraw (mkRandomOp Uniform [3] 0 5 7) (1/2) = 6%R /\
  ltyp (randomLabel fr (mkRandomOp Uniform [2; 3] 0 5 7)) = TTensor 2 0.
Proof. intro fr. split; [unfold uniformDraw; cbn [ra rb]; field|reflexivity]. Qed.

(** The claim that a random input draws from the interval it was asked for is
    false: UniformRandomNode(g, 5, 6, 3) after UniformRandomNode(g, 0, 1, 3) gives
    the first node, which draws from [0, 1) only. *)
Theorem C81_interval_refuted : ~ (forall fmtRandom g dt low high s g' m n u op,
    built fnv32a printTS g -> (low < high)%R -> (0 <= u < 1)%R ->
    uniformRandomNode fmtRandom fnv32a printTS g dt low high s = Some (g', m) ->
    isA g' m n -> which op = Uniform -> nop n = fmtRandom op ->
    (forall op', fmtRandom op' = fmtRandom op -> op' = op) ->
    (low <= uniformDraw op u < high)%R).
Proof.
  intro C.
  (* a printer that tells [unit3] from everything else *)
  pose (fr := fun op => if Req_EM_T (rb op) 1 then if Req_EM_T (ra op) 0 then
      match op with mkRandomOp Uniform [3] 0 _ _ => "u"%string | _ => "x"%string end else "x"%string else "x"%string).
  assert (Inj : forall op', fr op' = fr unit3 -> op' = unit3).
  { intro op'. unfold fr, unit3; cbn [ra rb].
    destruct (Req_EM_T 1 1) as [_|n1]; [|congruence]. destruct (Req_EM_T 0 0) as [_|n0]; [|congruence].
    destruct op' as [w sh d a b]; cbn [ra rb].
    destruct (Req_EM_T b 1) as [->|]; [|discriminate]. destruct (Req_EM_T a 0) as [->|]; [|discriminate].
    destruct w; [|discriminate|discriminate].
    destruct sh as [|[|[|[|[|x]]]] [|y sh]]; try (intro Q; discriminate Q).
    destruct d; [reflexivity|discriminate]. }
  destruct (rG1_built fr) as (B & E & Ea).
  destruct (C81_first_operator_stays fr fnv32a printTS exG0 unit3 fives3 (rG1 fr) 0 (rG1 fr)
              (uniformRandomNode fr fnv32a printTS (rG1 fr) 0 5 6 [3]))
    as (g3 & n & E3 & _ & N3 & Eo); auto using rG1_uncollided.
  - apply reaches_refl.
  - intros p [].
  - assert (A := asked_uniform fr fnv32a printTS exG0 0 0 1 [3]). rewrite E in A. exact A.
  - apply reaches_refl.
  - exact (asked_uniform fr fnv32a printTS (rG1 fr) 0 5 6 [3]).
  - assert (X := C fr (rG1 fr) 0 5%R 6%R [3] g3 0 n 0%R unit3 B).
    unfold uniformDraw, unit3 in X; cbn [ra rb] in X.
    destruct X as [X _]; auto; lra.
Qed.
Print Assumptions C81_interval_refuted.

Example C81_ex : forall fr,
  option_map (fun r => (snd r, all (fst r)))
    (gaussianRandomNode fr fnv32a printTS (rG1 fr) 0 0 100 [3]) = Some (0, [0]) /\
  option_map (fun r => (snd r, all (fst r)))
    (gaussianRandomNode fr fnv32a printTS (rG1 fr) 0 0 100 [2; 2]) = Some (1, [0; 1]) /\
  option_map (fun r => (snd r, all (fst r)))
    (newInput fnv32a printTS (rG1 fr) 0 "x" [3]) = Some (1, [0; 1]).
Proof. intro fr. repeat split; reflexivity. Qed.
