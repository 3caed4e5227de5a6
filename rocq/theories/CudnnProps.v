(** C117: the cuDNN operators of ops/nn. *)
From Coq Require Import Reals List String Lra Lia.
From Verif Require Import BroadcastModel GraphModel GraphSpec GraphProofs GraphHistory CudnnModel.
Import ListNotations.
Open Scope R_scope.

Lemma blend_length a r b p : List.length r = List.length p -> List.length (blend a r b p) = List.length p.
Proof. intro L. unfold blend. rewrite map_length, combine_length, L. apply Nat.min_id. Qed.
Lemma blend_10 r : forall p, List.length r = List.length p -> blend 1 r 0 p = r.
Proof. induction r as [|x r IH]; intros [|y p] L; cbn in L; try discriminate; [reflexivity|]. unfold blend in *. cbn. rewrite IH by lia. f_equal. lra. Qed.
Lemma blend_01 p : forall r, List.length r = List.length p -> blend 0 r 1 p = p.
Proof. induction p as [|x p IH]; intros [|y r] L; cbn in L; try discriminate; [reflexivity|]. unfold blend in *. cbn. rewrite IH by lia. f_equal. lra. Qed.
Lemma blend_nth a r b p i : List.length r = List.length p -> (i < List.length p)%nat -> nth i (blend a r b p) 0 = a * nth i r 0 + b * nth i p 0.
Proof.
  revert p i. induction r as [|x r IH]; intros [|y p] i L I; cbn in *; try lia. destruct i as [|i]; [reflexivity|]. apply IH; lia.
Qed.

(** The convolution adds to what is in its memory, so it is right exactly if that is zero, and
    k runs of a machine leave k times the convolution on top of what was there. *)
Theorem C117_conv_adds conv bwdData bwdFilter env im filter (y0 : gvec) k :
  List.length (conv (env im) (env filter)) = List.length y0 ->
  exists y, execTimes conv bwdData bwdFilter k env (OConv, [im; filter]) y0 = Ok y /\ List.length y = List.length y0 /\
    (forall i, (i < List.length y0)%nat -> nth i y 0 = INR k * nth i (conv (env im) (env filter)) 0 + nth i y0 0) /\
    (k = 1%nat -> (y = conv (env im) (env filter) <-> Forall (fun z => z = 0) y0)).
Proof.
  intro L. assert (G : exists y, execTimes conv bwdData bwdFilter k env (OConv, [im; filter]) y0 = Ok y /\ List.length y = List.length y0 /\
    (forall i, (i < List.length y0)%nat -> nth i y 0 = INR k * nth i (conv (env im) (env filter)) 0 + nth i y0 0)).
  { revert y0 L. induction k as [|k IH]; intros y0 L.
    - exists y0. split; [reflexivity|]. split; [reflexivity|]. intros i _. cbn. lra.
    - cbn [execTimes execC fst snd map convDo]. destruct (IH (blend 1 (conv (env im) (env filter)) 1 y0)) as [y [E [Ly N]]]; [rewrite blend_length; exact L|].
      rewrite blend_length in Ly, N by exact L. exists y. split; [exact E|]. split; [exact Ly|]. intros i I. rewrite (N i I), blend_nth, S_INR by (exact L || exact I). lra. }
  destruct G as [y [E [Ly N]]]. exists y. split; [exact E|]. split; [exact Ly|]. split; [exact N|]. intros ->. split.
  - intros ->. apply Forall_forall. intros z J. apply (In_nth _ _ 0) in J as [i [I <-]]. specialize (N i I). cbn in N. lra.
  - intro Z0. apply (nth_ext _ _ 0 0); [congruence|]. intros i I. rewrite Ly in I. rewrite (N i I). rewrite Forall_forall in Z0. rewrite (Z0 (nth i y0 0)) by (apply nth_In; exact I). cbn. lra.
Qed.
Print Assumptions C117_conv_adds.

(** The gradients of a convolution: each one is computed from the input it is the gradient
    of in place of the other one. *)
Theorem C117_conv_gradients conv bwdData bwdFilter env im filter grad (dIm dFilter : gvec) :
  List.length (bwdData (env im) (env grad)) = List.length dIm -> List.length (bwdFilter (env filter) (env grad)) = List.length dFilter ->
  Forall (fun z => z = 0) dIm -> Forall (fun z => z = 0) dFilter ->
  match convSymDiff im filter grad with
  | [a; b] => execC conv bwdData bwdFilter env a dIm = Ok (bwdData (env im) (env grad)) /\ execC conv bwdData bwdFilter env b dFilter = Ok (bwdFilter (env filter) (env grad))
  | _ => False
  end.
Proof.
  intros L1 L2 Z1 Z2. cbn [convSymDiff]. assert (B : forall r p, List.length r = List.length p -> Forall (fun z => z = 0) p -> blend 1 r 1 p = r).
  { intros r p L Z. apply (nth_ext _ _ 0 0); [rewrite blend_length; congruence|]. intros i I. rewrite blend_length in I by exact L. rewrite blend_nth by assumption. rewrite Forall_forall in Z. rewrite (Z (nth i p 0)) by (apply nth_In; exact I). lra. }
  split; cbn [execC fst snd map convDiffImDo convDiffFilterDo]; rewrite B by assumption; reflexivity.
Qed.
Print Assumptions C117_conv_gradients.
(** The library on images and filters of a single number, where a convolution is a product. *)
Definition product1 (a b : gvec) : gvec := [nth 0 a 0 * nth 0 b 0].
(** There the gradients, with zeroed memory, are right exactly if image and filter are equal
    or nothing comes in. *)
Theorem C117_conv_gradients_refuted (x w g : R) (a b : cop * list nat) :
  let env := fun n => match n with O => [x] | 1%nat => [w] | _ => [g] end in
  convSymDiff 0 1 2 = [a; b] ->
  exists dx dw, execC product1 product1 product1 env a [0] = Ok [dx] /\ execC product1 product1 product1 env b [0] = Ok [dw] /\
    (derivable_pt_lim (fun t => t * w * g) x dx <-> x = w \/ g = 0) /\
    (derivable_pt_lim (fun t => x * t * g) w dw <-> x = w \/ g = 0).
Proof.
  intros env E. injection E as <- <-. exists (x * g), (w * g).
  split; [cbn; do 2 f_equal; lra|]. split; [cbn; do 2 f_equal; lra|].
  assert (D1 : derivable_pt_lim (fun t => t * w * g) x (w * g)).
  { intros e He. exists (mkposreal 1 Rlt_0_1). intros h Hh _. replace (((x + h) * w * g - x * w * g) / h - w * g) with 0 by (field; exact Hh). rewrite Rabs_R0. exact He. }
  assert (D2 : derivable_pt_lim (fun t => x * t * g) w (x * g)).
  { intros e He. exists (mkposreal 1 Rlt_0_1). intros h Hh _. replace ((x * (w + h) * g - x * w * g) / h - x * g) with 0 by (field; exact Hh). rewrite Rabs_R0. exact He. }
  assert (Q : x * g = w * g <-> x = w \/ g = 0).
  { split; [|intros [->| ->]; lra]. intro A. assert (P : (x - w) * g = 0) by lra. apply Rmult_integral in P as [P|P]; [left; lra|right; exact P]. }
  split; rewrite <- Q; split.
  - intro D. eapply uniqueness_limite; [exact D|exact D1].
  - intros ->. exact D1.
  - intro D. symmetry. eapply uniqueness_limite; [exact D|exact D2].
  - intros <-. exact D2.
Qed.
Print Assumptions C117_conv_gradients_refuted.

(** MaxPool2D and Rectify are exact whatever was in their memory, also their gradients, which
    panic if the operator itself has not been executed before. *)
Theorem C117_pool_and_relu pool poolBwd act actBwd x y dy (p d : gvec) :
  (List.length (pool x) = List.length p -> forall s, poolDo pool s [x] p = (true, Ok (pool x))) /\
  (List.length (poolBwd y dy x) = List.length d -> poolDiffDo poolBwd true [x; y; dy] d = Ok (poolBwd y dy x)) /\
  (List.length (act x) = List.length p -> forall s, actDo act s [x] p = (true, Ok (act x))) /\
  (List.length (actBwd y dy x) = List.length d -> actDiffDo actBwd true [x; y; dy] d = Ok (actBwd y dy x)) /\
  poolDiffDo poolBwd false [x; y; dy] d = Panic /\ actDiffDo actBwd false [x; y; dy] d = Panic.
Proof.
  split; [intros L s; cbn; rewrite blend_10 by exact L; reflexivity|]. split; [intro L; cbn; rewrite blend_10 by exact L; reflexivity|].
  split; [intros L s; cbn; rewrite blend_10 by exact L; reflexivity|]. split; [intro L; cbn; rewrite blend_10 by exact L; reflexivity|]. split; reflexivity.
Qed.
Print Assumptions C117_pool_and_relu.

(** BatchNorm puts nothing into its output: what was in the memory stays, whatever the input;
    only the statistics move, in training.  Its gradient does nothing at all. *)
Theorem C117_batchnorm_writes_nothing bnTrain bnMean bnVar bnSaveMean bnSaveVar bnInfer bnDx bnDscale bnDbias :
  forall training momentum x scale bias m (p : gvec) m' y,
  List.length (bnTrain x scale bias) = List.length p -> List.length (bnInfer x scale bias (mMean m) (mVar m)) = List.length p ->
  bnDo bnTrain bnMean bnVar bnSaveMean bnSaveVar bnInfer training momentum x scale bias m p = (m', y) ->
  y = p /\ (training = false -> m' = m) /\
  (training = true -> List.length (bnMean x) = List.length (mMean m) -> List.length (bnVar x) = List.length (mVar m) ->
     mCachedMean m' = bnSaveMean x /\ mCachedVar m' = bnSaveVar x /\
     (forall i, (i < List.length (mMean m))%nat -> nth i (mMean m') 0 - nth i (mMean m) 0 = momentum * (nth i (bnMean x) 0 - nth i (mMean m) 0)) /\
     (forall i, (i < List.length (mVar m))%nat -> nth i (mVar m') 0 - nth i (mVar m) 0 = momentum * (nth i (bnVar x) 0 - nth i (mVar m) 0))) /\
  (forall dscale dbias dy dx, let cm := mCachedMean m' in let cv := mCachedVar m' in
     List.length (bnDx x scale dy cm cv) = List.length dx -> List.length (bnDscale x scale dy cm cv) = List.length dscale -> List.length (bnDbias x scale dy cm cv) = List.length dbias ->
     bnDiffDo bnDx bnDscale bnDbias x scale dscale dbias dy cm cv dx = (dx, dscale, dbias)).
Proof.
  intros training momentum x scale bias m p m' y L1 L2 E. unfold bnDo in E.
  assert (Gr : forall dscale dbias dy dx, let cm := mCachedMean m' in let cv := mCachedVar m' in
     List.length (bnDx x scale dy cm cv) = List.length dx -> List.length (bnDscale x scale dy cm cv) = List.length dscale -> List.length (bnDbias x scale dy cm cv) = List.length dbias ->
     bnDiffDo bnDx bnDscale bnDbias x scale dscale dbias dy cm cv dx = (dx, dscale, dbias)).
  { intros dscale dbias dy dx cm cv K1 K2 K3. unfold bnDiffDo. rewrite !blend_01 by assumption. reflexivity. }
  destruct training; injection E as <- <-; rewrite blend_01 by assumption.
  - split; [reflexivity|]. split; [discriminate|]. split; [|exact Gr]. intros _ K1 K2. split; [reflexivity|]. split; [reflexivity|].
    cbn [mMean mVar]. split; intros i I; rewrite blend_nth by assumption; lra.
  - split; [reflexivity|]. split; [reflexivity|]. split; [discriminate|exact Gr].
Qed.
Print Assumptions C117_batchnorm_writes_nothing.

(** Two BatchNorms in a graph whose inputs have the same shape and dtype, however they are
    named and whatever is added in between, have the same running mean and variance and the
    same cached ones. *)
Theorem C117_batchnorms_share H fmtTS fmtShape fmtDt g x1 x2 shape dt g1 ids1 g2 g3 ids2 :
  built H fmtTS g -> bnScratch H fmtTS fmtShape fmtDt g x1 shape dt = Some (g1, ids1) ->
  reaches H fmtTS g1 g2 -> bnScratch H fmtTS fmtShape fmtDt g2 x2 shape dt = Some (g3, ids2) -> constantsUncollided g3 ->
  ids1 = ids2.
Proof.
  intros B E1 R E2 U.
  assert (Step : forall a l b p, newUniqueNode H fmtTS a l [] = Some (b, p) -> lkind l = KOp -> reaches H fmtTS a b).
  { intros a l b p E K. eapply reaches_step with (u := UNew l []); [apply reaches_refl| |cbn [useStep]; rewrite E; reflexivity]. split; [constructor|congruence]. }
  assert (Same : forall a l1 b p c l2 d q, built H fmtTS a -> lkind l1 = KOp -> lkind l2 = KOp -> sameLabel l1 l2 ->
    newUniqueNode H fmtTS a l1 [] = Some (b, p) -> reaches H fmtTS b c -> constantsUncollided c -> newUniqueNode H fmtTS c l2 [] = Some (d, q) -> p = q).
  { intros a l1 b p c l2 d q Ba K1 K2 SL Ea Rb Uc Ed. destruct (repeat_same H fmtTS a l1 l2 [] b p c) as [g' [Eq _]]; auto using built_full; congruence. }
  assert (Back : forall a b, built H fmtTS a -> reaches H fmtTS a b -> constantsUncollided b -> constantsUncollided a).
  { intros a b Ba Rb Ub. destruct (reaches_full _ _ _ _ Rb (built_full _ _ _ Ba)) as [_ G]. eapply uncollided_back; [exact G|apply (built_full _ _ _ Ba)|exact Ub]. }
  unfold bnScratch, newScratch in *. destruct shape as [|n [|ch [|h [|w rest]]]]; try discriminate E1. set (shp := n :: ch :: h :: w :: rest) in *. cbn beta iota zeta in E1, E2.
  destruct (newUniqueNode H fmtTS g _ []) as [[a1 p1]|] eqn:P1; [|discriminate E1]. destruct (newUniqueNode H fmtTS a1 _ []) as [[a2 p2]|] eqn:P2; [|discriminate E1].
  destruct (newUniqueNode H fmtTS a2 _ []) as [[a3 p3]|] eqn:P3; [|discriminate E1]. destruct (newUniqueNode H fmtTS a3 _ []) as [[a4 p4]|] eqn:P4; [|discriminate E1]. injection E1 as <- <-.
  destruct (newUniqueNode H fmtTS g2 _ []) as [[b1 q1]|] eqn:Q1; [|discriminate E2]. destruct (newUniqueNode H fmtTS b1 _ []) as [[b2 q2]|] eqn:Q2; [|discriminate E2].
  destruct (newUniqueNode H fmtTS b2 _ []) as [[b3 q3]|] eqn:Q3; [|discriminate E2]. destruct (newUniqueNode H fmtTS b3 _ []) as [[b4 q4]|] eqn:Q4; [|discriminate E2]. injection E2 as <- <-.
  pose proof (Step _ _ _ _ P1 eq_refl) as S1. pose proof (Step _ _ _ _ P2 eq_refl) as S2. pose proof (Step _ _ _ _ P3 eq_refl) as S3. pose proof (Step _ _ _ _ P4 eq_refl) as S4.
  pose proof (Step _ _ _ _ Q1 eq_refl) as T1. pose proof (Step _ _ _ _ Q2 eq_refl) as T2. pose proof (Step _ _ _ _ Q3 eq_refl) as T3. pose proof (Step _ _ _ _ Q4 eq_refl) as T4.
  assert (tr := fun a b c => reaches_trans H fmtTS a b c).
  assert (B1 : built H fmtTS a1) by (eapply tr; eauto). assert (B2 : built H fmtTS a2) by (eapply tr; eauto). assert (B3 : built H fmtTS a3) by (eapply tr; eauto). assert (B4 : built H fmtTS a4) by (eapply tr; eauto).
  assert (C0 : built H fmtTS g2) by (eapply tr; eauto). assert (C1 : built H fmtTS b1) by (eapply tr; eauto). assert (C2 : built H fmtTS b2) by (eapply tr; eauto). assert (C3 : built H fmtTS b3) by (eapply tr; eauto).
  assert (V3 : constantsUncollided b3) by (eapply Back; eauto). assert (V2 : constantsUncollided b2) by (eapply Back; eauto). assert (V1 : constantsUncollided b1) by (eapply Back; eauto). assert (V0 : constantsUncollided g2) by (eapply Back; eauto).
  assert (SL : forall l1 l2, ltyp l1 = ltyp l2 -> lshape l1 = lshape l2 -> lkind l1 = KOp -> lkind l2 = KOp -> lop l1 = lop l2 -> sameLabel l1 l2) by (intros l1 l2 X1 X2 X3 X4 X5; split; [exact X1|]; split; [exact X2|]; right; repeat split; congruence).
  assert (p1 = q1). { eapply (Same _ _ _ _ _ _ _ _ B); [| | |exact P1| |exact V0|exact Q1]; try reflexivity; [apply SL; reflexivity|]. eapply tr; [exact S2|]. eapply tr; [exact S3|]. eapply tr; [exact S4|]. exact R. }
  assert (p2 = q2). { eapply (Same _ _ _ _ _ _ _ _ B1); [| | |exact P2| |exact V1|exact Q2]; try reflexivity; [apply SL; reflexivity|]. eapply tr; [exact S3|]. eapply tr; [exact S4|]. eapply tr; [exact R|]. exact T1. }
  assert (p3 = q3). { eapply (Same _ _ _ _ _ _ _ _ B2); [| | |exact P3| |exact V2|exact Q3]; try reflexivity; [apply SL; reflexivity|]. eapply tr; [exact S4|]. eapply tr; [exact R|]. eapply tr; [exact T1|]. exact T2. }
  assert (p4 = q4). { eapply (Same _ _ _ _ _ _ _ _ B3); [| | |exact P4| |exact V3|exact Q4]; try reflexivity; [apply SL; reflexivity|]. eapply tr; [exact R|]. eapply tr; [exact T1|]. eapply tr; [exact T2|]. exact T3. }
  congruence.
Qed.
Print Assumptions C117_batchnorms_share.

(** Two runs of a convolution 2 * 3 into memory that held 5; the gradients; a BatchNorm. *)
Example C117_ex :
  let env := fun n => match n with O => [2] | 1%nat => [3] | _ => [10] end in
  execTimes product1 product1 product1 2 env (OConv, [0; 1]%nat) [5] = Ok [17] /\
  map (fun n => execC product1 product1 product1 env n [0]) (convSymDiff 0 1 2) = [Ok [20]; Ok [30]] /\
  bnDo (fun x _ _ => x) (fun x => x) (fun _ => [0]) (fun x => x) (fun x => x) (fun x _ _ _ _ => x) true (1/2) [8] [1] [0] (BNMem [4] [2] [0] [0]) [7] = (BNMem [6] [1] [8] [8], [7]).
Proof.
  intro env. unfold execTimes, execC, convDo, convDiffImDo, convDiffFilterDo, bnDo, blend, product1, convSymDiff. cbn.
  repeat match goal with |- _ /\ _ => split end; repeat (f_equal; try lra).
Qed.
Example C117_ex_nodes :
  match bnScratch fnv32a printTS (fun _ => "(2, 3, 4, 4)"%string) (fun _ => "float64"%string) (emptyGraph []) "x" [2; 3; 4; 4]%nat 0 with
  | Some (g1, ids) => option_map snd (bnScratch fnv32a printTS (fun _ => "(2, 3, 4, 4)"%string) (fun _ => "float64"%string) g1 "y" [2; 3; 4; 4]%nat 0) = Some ids /\ NoDup ids
  | None => False
  end.
Proof. vm_compute. split; [reflexivity|]. repeat constructor; cbn; intuition discriminate. Qed.
