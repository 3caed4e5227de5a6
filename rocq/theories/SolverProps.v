(** C31, C32, C33, C56, C58: what the solvers compute. *)
From Coq Require Import Reals List Bool Arith Lia Lra.
From Verif Require Import SolverModel SolverSpec SolverProofs SolverLoops SolverAdamW.
Import ListNotations.
Open Scope R_scope.

(** ** C31 *)
(** Over any number of rounds every weight of a fitting model follows the formula of
    gradient descent, gradients are zeroed, nothing else is written. *)
Theorem C31_vanilla_follows : forall p model rs h,
  (useClip p = true -> 0 < clip p) -> fit model h -> Forall (fitRound model h) rs ->
  exists h', rounds (vanillaOut p) model rs tt h = Done tt h' /\ follows (vanillaRule p) model rs h h'.
Proof.
  intros p model rs h HC F HF. destruct (follows_ok _ _ _ (vanilla_ok p HC) model rs tt h F) as [s' [h' [E G]]]; [|exact HF|destruct s'; eauto].
  rewrite Forall_map. apply Forall_forall. reflexivity.
Qed.
Print Assumptions C31_vanilla_follows.

Lemma vanilla_app p A : forall B h, vanillaStep p (A ++ B) h = bind (vanillaStep p A) (fun _ => vanillaStep p B) h.
Proof.
  induction A as [|n A IH]; intros B h; cbn [app vanillaStep]; [reflexivity|]. unfold bind. destruct (vanillaNode p n h) as [u h1|h1|]; try reflexivity. rewrite IH. reflexivity.
Qed.
(** A node without a gradient: the Step fails, the nodes before it were updated, the
    nodes after it were not. *)
Theorem C31_missing_gradient : forall p A n B h,
  (useClip p = true -> 0 < clip p) -> fit A h -> grad n = None ->
  exists h', vanillaStep p (A ++ n :: B) h = Err h' /\
    (forall a g cw cg, In a A -> grad a = Some g -> cells h (weights a) = Some cw -> cells h g = Some cg ->
       exists cw', cells h' (weights a) = Some cw' /\ alike cw cw' /\
         forall j, (j < size cw)%nat -> entry cw' j = entry cw j - eta p * penalised p (if isDn cw then sgn (entry cw j) else sgnS (entry cw j)) (entry cw j) (entry cg j)) /\
    (forall q, (q < nextp h)%nat -> ~ In q (flat_map pointers A) -> cells h' q = cells h q).
Proof.
  intros p A n B h HC F Hn. destruct (fit_good A h F) as [G [Qn [Qc Qp]]].
  destruct (vanilla_loop p 1 HC (map (toEnt h) A) [] h G) as [E' [h' [Q [G' [F2 [N [X Fr]]]]]]].
  { assert (HN : Forall (fun cv => cv = None) (map ecv (map (toEnt h) A))) by (rewrite Qc, Forall_map; apply Forall_forall; reflexivity). rewrite Forall_map in HN. exact HN. }
  rewrite Qn in Q. exists h'. split; [|split].
  - rewrite vanilla_app, (bind_ok _ _ _ _ _ Q). cbn [vanillaStep]. unfold vanillaNode, extractWeightGrad. rewrite Hn. reflexivity.
  - intros a g cw cg Ha Hg Ew Eg. apply In_nth_error in Ha. destruct Ha as [i Hi].
    assert (H1 : nth_error (map (toEnt h) A) i = Some (toEnt h a)) by (rewrite nth_error_map, Hi; reflexivity).
    assert (S1 : exists e', nth_error E' i = Some e' /\ stepped (vanillaRule p) 1 (toEnt h a) e').
    { clear - F2 H1. revert i H1. induction F2 as [|x y l l' Hs _ IH]; intros [|i] H; cbn [nth_error] in *; try discriminate; [injection H as ->; eauto|eauto]. }
    destruct S1 as [e' [He [cv ->]]]. destruct G' as [Ga _ _]. rewrite Forall_forall in Ga. specialize (Ga _ (nth_error_In _ _ He)).
    destruct G as [Gb _ _]. rewrite Forall_forall in Gb. specialize (Gb _ (nth_error_In _ _ H1)).
    unfold toEnt in *. rewrite Ew, Hg, Eg in *. destruct Gb as [_ [_ [L1 [L2 [L3 _]]]]]. destruct Ga as [_ [_ [L1' [_ [_ [W _]]]]]]. cbn [upd en ew eg ecv eb em elw elg] in *.
    pose proof (pt_length (vanillaRule p) (isDn cw) 1 (zeros (map (fun x => (x, x)) (lst cw))) (lst cw) (lst cg) L1 L2) as PL.
    eexists. split; [exact W|]. split.
    + destruct cw; cbn [isDn mk alike]; [exact I|]. rewrite map_length. exact (eq_trans L1 (eq_sym PL)).
    + intros j Hj. rewrite <- lst_size in Hj. rewrite entry_mk; [|intro Hb; rewrite map_length, PL; auto|rewrite map_length, PL, <- L1; exact Hj].
      rewrite (map_nth snd _ ((0, 0), 0)%R j : nth j (map snd _) 0%R = _). rewrite pt_nth by (auto; rewrite <- L1; exact Hj).
      rewrite !entry_lst by (rewrite ?L2, <- ?L1; exact Hj). reflexivity.
  - intros q Hq Nq. apply Fr; [exact Hq|]. cbn [app]. rewrite Qp. exact Nq.
Qed.
Print Assumptions C31_missing_gradient.

(** Scalars and tensors differ in the L1 penalty of a weight that is zero... *)
Theorem C31_zero_weight_refuted : forall p h w g y, w <> g -> (w < nextp h)%nat -> (g < nextp h)%nat ->
  useL1Reg p = true -> useL2Reg p = false -> useClip p = false -> batch p <= 1 -> l1reg p <> 0 -> eta p <> 0 ->
  forall n, n = Nd 0 w (Some g) ->
  exists hs ht, vanillaNode p n (set (set h w (Sc 0)) g (Sc y)) = Ok tt hs /\ cells hs w = Some (Sc (- eta p * (y + l1reg p))) /\
    vanillaNode p n (set (set h w (Dn [0])) g (Dn [y])) = Ok tt ht /\ cells ht w = Some (Dn [- eta p * y]) /\
    - eta p * (y + l1reg p) <> - eta p * y.
Proof.
  intros p h w g y N Lw Lg U1 U2 UC Hb H1 He n ->.
  assert (Fs : forall b x, fit [Nd 0 w (Some g)] (set (set h w (mk b [0])) g (mk b [x]))).
  { intros b x. split.
    - constructor; [|constructor]. exists g, (mk b [0]), (mk b [x]). cbn [grad weights]. split; [reflexivity|]. split; [look; reflexivity|]. split; [look; reflexivity|]. destruct b; reflexivity.
    - cbn [flat_map pointers grad weights app]. repeat constructor; cbn [In]; intuition.
    - cbn [flat_map pointers grad weights app]. repeat constructor; ne. }
  assert (V : forall n h, vanillaStep p [n] h = vanillaNode p n h). { intros. cbn [vanillaStep]. unfold bind. destruct (vanillaNode p n h0) as [[] h1|h1|]; reflexivity. }
  assert (Q : forall b, exists h', vanillaNode p (Nd 0 w (Some g)) (set (set h w (mk b [0])) g (mk b [y])) = Ok tt h' /\ cells h' w = Some (mk b [snd (vanillaRule p b 1%nat (0, 0) 0 y)])).
  { intro b. destruct (fit_good _ _ (Fs b y)) as [G [Qn [Qc _]]]. destruct (vanilla_loop p 1 ltac:(intro; congruence) _ [] _ G) as [E' [h' [Q [G' [F2 _]]]]]; [cbn [map] in Qc |- *; injection Qc as Qc; repeat constructor; exact Qc|].
    rewrite Qn, V in Q. exists h'. split; [exact Q|]. inversion F2 as [|? e' ? ? [cv Hcv] F3]; subst. destruct G' as [Ga _ _]. inversion Ga as [|? ? Gx _]; subst. destruct Gx as [_ [_ [_ [_ [_ [W _]]]]]].
    unfold toEnt in W. cbn [weights grad] in W. rewrite cs_ne, !cs_eq in W by exact N. cbn [upd ew eb elw em elg] in W. rewrite W. destruct b; reflexivity. }
  destruct (Q false) as [hs [Q1 W1]]. destruct (Q true) as [ht [Q2 W2]]. cbn [mk hd] in *. exists hs, ht.
  assert (B1 : batchSize p = 1) by (unfold batchSize; destruct (Rlt_dec 1 (batch p)); lra).
  assert (Es : snd (vanillaRule p false 1%nat (0, 0) 0 y) = - eta p * (y + l1reg p)).
  { unfold vanillaRule, penalised, clipped, l1, l2, sgnS. rewrite UC, U1, U2, B1. cbn [snd]. destruct (Rlt_dec 0 0); [lra|]. field. }
  assert (Et : snd (vanillaRule p true 1%nat (0, 0) 0 y) = - eta p * y).
  { unfold vanillaRule, penalised, clipped, l1, l2, sgn. rewrite UC, U1, U2, B1. cbn [snd]. destruct (Rlt_dec 0 0); [lra|]. field. }
  rewrite Es in W1. rewrite Et in W2. repeat (split; [assumption|]). nra.
Qed.
Print Assumptions C31_zero_weight_refuted.

(** ... and when the bound for clipping is zero: a scalar never moves again, a tensor moves
    as if there were no bound. *)
Theorem C31_zero_clip_refuted : forall p h w g x y, w <> g ->
  useL1Reg p = false -> useL2Reg p = false -> useClip p = true -> clip p = 0 -> batch p <= 1 ->
  forall n, n = Nd 0 w (Some g) ->
  exists hs ht, vanillaNode p n (set (set h w (Sc x)) g (Sc y)) = Ok tt hs /\ cells hs w = Some (Sc x) /\
    vanillaNode p n (set (set h w (Dn [x])) g (Dn [y])) = Ok tt ht /\ cells ht w = Some (Dn [x - eta p * y]).
Proof.
  intros p h w g x y N U1 U2 UC Hc Hb n ->. unfold vanillaNode, extractWeightGrad. cbn [grad weights]. rewrite !ret_b. cbn [fst snd].
  assert (Rb : Rltb 1 (batch p) = false) by (unfold Rltb; destruct (Rlt_dec 1 (batch p)); [lra|reflexivity]).
  assert (R0 : Rltb 0 0 = false) by (unfold Rltb; destruct (Rlt_dec 0 0); [lra|reflexivity]).
  rewrite !cs_ne, !cs_eq by exact N. unfold vanillaScalar, vanillaDense, prepScalar, prepDense. rewrite U1, U2, UC, Hc, Rb, R0. cbn [andb].
  do 2 op. unfold clipS. rewrite Ropp_0. eexists _, _. op. split; [reflexivity|]. split.
  - look. do 2 f_equal. unfold Rltb. destruct (Rlt_dec 0 y), (Rlt_dec y 0); try lra. replace y with 0 by lra. ring.
  - rewrite cs_ne by exact N. rewrite cs_eq. erewrite (bind_ok _ _ _ tt) by reflexivity. op. op. erewrite zero_ok by find. split; [reflexivity|]. look. unfold map2. cbn [map combine fst snd]. do 3 f_equal. ring.
Qed.
Print Assumptions C31_zero_clip_refuted.

(** ** C32 *)
Lemma momentum_ok p : saneClip p -> StepOK cache (momentumStep p) (cached (fun _ c => c)) (momentumRule p).
Proof. intro HC. apply (cached_ok (momentumStep p) (fun _ c => c) _ _ (momentum_body p HC)). intros. unfold momentumStep. destruct (stepLoop _ _ _ _ _); reflexivity. Qed.
Lemma adagrad_ok p : saneClip p -> StepOK cache (adagradStep p) (cached (fun _ c => c)) (adagradRule p).
Proof. intro HC. apply (cached_ok (adagradStep p) (fun _ c => c) _ _ (adagrad_body p HC)). intros. unfold adagradStep. destruct (stepLoop _ _ _ _ _); reflexivity. Qed.
Lemma rmsprop_ok p : saneClip p -> saneL2 p -> StepOK cache (rmspropStep p) (cached (fun _ c => c)) (rmspropRule p).
Proof. intros HC HL. apply (cached_ok (rmspropStep p) (fun _ c => c) _ _ (rmsprop_body p HC HL)). intros. unfold rmspropStep. destruct (stepLoop _ _ _ _ _); reflexivity. Qed.
Lemma adam_ok p : saneClip p -> StepOK (nat * cache) (adamStep p) (cached pair) (adamRule p).
Proof. intro HC. apply (cached_ok (adamStep p) pair _ _ (adam_body p HC)). intros. unfold adamStep. cbn [fst snd]. destruct (stepLoop _ _ _ _ _); reflexivity. Qed.

(** From "follows" to statements about one scalar and about the entries of one tensor. *)
Lemma follows_scalar r model rs h h' : follows r model rs h h' -> forall i n x, nth_error model i = Some n -> cells h (weights n) = Some (Sc x) ->
  cells h' (weights n) = Some (Sc (after r false x (map (fun rd => entry (rd i) 0) rs))).
Proof.
  intros [G1 _] i n x Hn Hc. destruct (G1 i n _ Hn Hc) as [c' [E1 [A1 V1]]]. destruct c' as [x'|]; [|contradiction]. rewrite E1. specialize (V1 0%nat ltac:(cbn [size]; lia)). cbn [entry isDn] in V1. rewrite V1. reflexivity.
Qed.
Lemma follows_dense r model rs h h' : follows r model rs h h' -> forall i n l, nth_error model i = Some n -> cells h (weights n) = Some (Dn l) ->
  exists l', cells h' (weights n) = Some (Dn l') /\ length l' = length l /\ forall j, (j < length l)%nat -> nth j l' 0 = after r true (nth j l 0) (map (fun rd => entry (rd i) j) rs).
Proof.
  intros [G1 _] i n l Hn Hc. destruct (G1 i n _ Hn Hc) as [c' [E1 [A1 V1]]]. destruct c' as [|l']; [contradiction|]. exists l'. split; [exact E1|]. split; [cbn [alike] in A1; congruence|].
  intros j Hj. exact (V1 j Hj).
Qed.
Lemma momentum_false p : forall gs k m w, snd (traj (momentumRule p) false k (0, m) w gs) = descend (fun w g => w - eta p * penalised p (sgnS w) w g) w gs.
Proof. unfold descend. induction gs as [|g gs IH]; intros k m w; cbn [traj fold_left snd]; [reflexivity|]. cbn [momentumRule fst snd]. rewrite IH. f_equal. ring. Qed.
Lemma momentum_true p : forall gs k v m w, snd (traj (momentumRule p) true k (v, m) w gs) = heavyBall p v w gs.
Proof. induction gs as [|g gs IH]; intros k v m w; cbn [traj heavyBall snd]; [reflexivity|]. cbn [momentumRule fst snd]. rewrite IH. reflexivity. Qed.
Lemma adagrad_false p : forall gs k m w, snd (traj (adagradRule p) false k (0, m) w gs) = descend (fun w g => w - eta p * clipped p g / sqrt (g * g + eps p) - l2 p * w) w gs.
Proof. unfold descend. induction gs as [|g gs IH]; intros k m w; cbn [traj fold_left snd]; [reflexivity|]. cbn [adagradRule fst snd]. rewrite IH, Rplus_0_l. reflexivity. Qed.
Lemma adagrad_true p : forall gs k v m w, snd (traj (adagradRule p) true k (v, m) w gs) = adagrad p v w gs.
Proof. induction gs as [|g gs IH]; intros k v m w; cbn [traj adagrad snd]; [reflexivity|]. cbn [adagradRule fst snd]. rewrite IH. reflexivity. Qed.

(** The momentum solver moves a scalar weight like plain gradient descent: whatever the
    momentum, the velocity is not kept.  The entries of a tensor have a velocity. *)
Theorem C32_momentum : forall p model rs h,
  (useClip p = true -> 0 < clip p) -> fit model h -> Forall (fitRound model h) rs ->
  exists c' h', rounds (momentumStep p) model rs None h = Done c' h' /\
    (forall i n x, nth_error model i = Some n -> cells h (weights n) = Some (Sc x) ->
       cells h' (weights n) = Some (Sc (descend (fun w g => w - eta p * penalised p (sgnS w) w g) x (map (fun rd => entry (rd i) 0) rs)))) /\
    (forall i n l, nth_error model i = Some n -> cells h (weights n) = Some (Dn l) ->
       exists l', cells h' (weights n) = Some (Dn l') /\ length l' = length l /\
         forall j, (j < length l)%nat -> nth j l' 0 = heavyBall p 0 (nth j l 0) (map (fun rd => entry (rd i) j) rs)) /\
    (forall q, (q < nextp h)%nat -> ~ In q (flat_map pointers model) -> cells h' q = cells h q).
Proof.
  intros p model rs h HS F HF. destruct (follows_ok _ _ _ (momentum_ok p HS) model rs None h F) as [s' [h' [E G]]]; [exists None; split; [reflexivity|left; auto]|exact HF|].
  exists s', h'. split; [exact E|]. split; [|split; [|apply G]].
  - intros i n x Hn Hc. rewrite (follows_scalar _ _ _ _ _ G i n x Hn Hc). unfold after. rewrite momentum_false. reflexivity.
  - intros i n l Hn Hc. destruct (follows_dense _ _ _ _ _ G i n l Hn Hc) as [l' [E1 [L1 V1]]]. exists l'. split; [exact E1|]. split; [exact L1|]. intros j Hj. rewrite V1 by exact Hj. apply momentum_true.
Qed.
Print Assumptions C32_momentum.

(** Said as a comparison of two solvers with the same settings. *)
Theorem C32_momentum_scalar_plain : forall p model rs h,
  (useClip p = true -> 0 < clip p) -> fit model h -> Forall (fitRound model h) rs ->
  exists c hm hv, rounds (momentumStep p) model rs None h = Done c hm /\ rounds (vanillaOut p) model rs tt h = Done tt hv /\
    forall n x, In n model -> cells h (weights n) = Some (Sc x) -> cells hm (weights n) = cells hv (weights n).
Proof.
  intros p model rs h HS F HF. destruct (follows_ok _ _ _ (momentum_ok p HS) model rs None h F) as [s' [hm [E G]]]; [exists None; split; [reflexivity|left; auto]|exact HF|].
  destruct (C31_vanilla_follows p model rs h HS F HF) as [hv [E2 G2]]. exists s', hm, hv. split; [exact E|]. split; [exact E2|]. intros n x Hin Hc. apply In_nth_error in Hin. destruct Hin as [i Hn].
  rewrite (follows_scalar _ _ _ _ _ G i n x Hn Hc), (follows_scalar _ _ _ _ _ G2 i n x Hn Hc). unfold after. rewrite momentum_false. do 2 f_equal. unfold descend.
  generalize (map (fun rd : nat -> cell => entry (rd i) 0) rs). intro gs. generalize 1%nat. generalize (0, 0). clear. revert x. induction gs as [|g gs IH]; intros x m k; cbn [traj fold_left snd]; [reflexivity|]. cbn [vanillaRule fst snd]. apply IH.
Qed.
Print Assumptions C32_momentum_scalar_plain.

(** AdaGrad: a scalar is scaled by its last gradient only, the entries of a tensor by all
    gradients so far. *)
Theorem C32_adagrad : forall opts model rs h (p := newSolver AdaGrad opts),
  fit model h -> Forall (fitRound model h) rs ->
  exists c' h', rounds (adagradStep p) model rs None h = Done c' h' /\ 0 < eps p /\
    (forall i n x, nth_error model i = Some n -> cells h (weights n) = Some (Sc x) ->
       cells h' (weights n) = Some (Sc (descend (fun w g => w - eta p * clipped p g / sqrt (g * g + eps p) - l2 p * w) x (map (fun rd => entry (rd i) 0) rs)))) /\
    (forall i n l, nth_error model i = Some n -> cells h (weights n) = Some (Dn l) ->
       exists l', cells h' (weights n) = Some (Dn l') /\ length l' = length l /\
         forall j, (j < length l)%nat -> nth j l' 0 = adagrad p 0 (nth j l 0) (map (fun rd => entry (rd i) j) rs)) /\
    (forall q, (q < nextp h)%nat -> ~ In q (flat_map pointers model) -> cells h' q = cells h q).
Proof.
  intros opts model rs h p F HF.
  assert (P : p = defaults AdaGrad).
  { unfold p, newSolver. induction opts as [|o opts IH]; cbn [fold_left]; [reflexivity|]. destruct o; exact IH. }
  assert (HS : saneClip p) by (rewrite P; intro; discriminate).
  destruct (follows_ok _ _ _ (adagrad_ok p HS) model rs None h F) as [s' [h' [E G]]]; [exists None; split; [reflexivity|left; auto]|exact HF|].
  exists s', h'. split; [exact E|]. split; [rewrite P; cbn [eps defaults]; unfold em8; lra|]. split; [|split; [|apply G]].
  - intros i n x Hn Hc. rewrite (follows_scalar _ _ _ _ _ G i n x Hn Hc). unfold after. rewrite adagrad_false. reflexivity.
  - intros i n l Hn Hc. destruct (follows_dense _ _ _ _ _ G i n l Hn Hc) as [l' [E1 [L1 V1]]]. exists l'. split; [exact E1|]. split; [exact L1|]. intros j Hj. rewrite V1 by exact Hj. apply adagrad_true.
Qed.
Print Assumptions C32_adagrad.

(** ** C33 *)
(** Whatever AdamW is given and however it ends, it writes gradients and its own tensors
    only: with gradients stored apart from the weights, no weight ever changes. *)
Theorem C33_weights_stay : forall p model rs h q,
  (q < nextp h)%nat -> (forall n, In n model -> grad n <> Some q) ->
  match rounds (adamwStep p) model rs (0%nat, []) h with
  | Done _ h' => cells h' q = cells h q
  | Fail _ h' => cells h' q = cells h q
  | Crash => True
  end.
Proof.
  intros p model rs h q Hq Nq.
  pose proof (adamwRounds_safe (nextp h) (fun x => exists n, In n model /\ grad n = Some x) p model) as S1.
  specialize (S1 ltac:(apply Forall_forall; intros n Hn g Hg; left; eauto) rs (0%nat, []) h ltac:(lia) ltac:(constructor)).
  destruct (rounds (adamwStep p) model rs (0%nat, []) h) as [s h'|s h'|]; auto; apply S1; auto; intros [n [Hn Hg]]; exact (Nq n Hn Hg).
Qed.
Print Assumptions C33_weights_stay.

(** And it does run: on tensors every Step succeeds and zeroes the gradients, so the
    training loop sees no sign of it. *)
Theorem C33_steps_succeed : forall p model rs h,
  fit model h -> NoDup (map nid model) -> (forall n, In n model -> exists l, cells h (weights n) = Some (Dn l)) -> Forall (fitRound model h) rs ->
  exists s' h', rounds (adamwStep p) model rs (0%nat, []) h = Done s' h' /\
    (forall n, In n model -> cells h' (weights n) = cells h (weights n)) /\
    (rs <> [] -> forall n g, In n model -> grad n = Some g -> exists c, cells h' g = Some c /\ forall j, entry c j = 0).
Proof.
  intros p model rs h F ND DN HF. pose proof F as [F1 F2 F3]. rewrite Forall_forall in F1.
  set (sz := fun n => match cells h (weights n) with Some (Dn l) => length l | _ => 0%nat end).
  assert (Old : forall n, In n model -> (weights n < nextp h)%nat /\ forall g, grad n = Some g -> (g < nextp h)%nat).
  { rewrite Forall_forall in F3. intros n Hn. split; [apply F3; apply in_flat_map; exists n; split; [exact Hn|left; reflexivity]|]. intros g Hg. apply F3. apply in_flat_map. exists n. split; [exact Hn|]. unfold pointers. rewrite Hg. right; left; reflexivity. }
  assert (R : ready (nextp h) sz model [] h).
  { split; [lia|]. split; [constructor|]. intros m Hm. destruct (F1 m Hm) as [g [cw [cg [E1 [E2 [E3 E4]]]]]]. destruct (DN m Hm) as [l El]. rewrite El in E2. injection E2 as <-. destruct cg as [|lg]; [contradiction|]. cbn [alike] in E4.
    destruct (Old m Hm) as [O1 O2]. exists g. split; [exact E1|]. split; [auto|]. unfold sz. rewrite El. split; [split; [exact O1|exists l; auto]|]. split; [split; [auto|exists lg; auto]|]. intros a b c Hf. discriminate. }
  assert (Dis : forall m m', In m model -> In m' model -> nid m = nid m' -> m = m').
  { clear - ND. induction model as [|n model IH]; intros m m' Hm Hm' E; [contradiction|]. cbn [map] in ND. inversion_clear ND as [|? ? N1 N2]. destruct Hm as [<-|Hm], Hm' as [<-|Hm']; auto.
    - exfalso. apply N1. rewrite E. apply in_map, Hm'.
    - exfalso. apply N1. rewrite <- E. apply in_map, Hm. }
  assert (NG : NoDup (map grad model)).
  { clear - F1 F2. induction model as [|n model IH]; cbn [map]; [constructor|]. cbn [flat_map] in F2. assert (F2' : NoDup (flat_map pointers model)) by (clear - F2; induction (pointers n) as [|x l IH]; [exact F2|inversion_clear F2; auto]).
    constructor; [|apply IH; [intros m Hm; apply F1; right; exact Hm|exact F2']]. intro Hin. apply in_map_iff in Hin. destruct Hin as [m [Em Hm]]. destruct (F1 n (or_introl eq_refl)) as [g [cw [cg [E1 _]]]].
    rewrite E1 in Em. unfold pointers at 1 in F2. rewrite E1 in F2. cbn [app] in F2. inversion_clear F2 as [|? ? _ N2]. inversion_clear N2 as [|? ? N3 _]. apply N3. apply in_flat_map. exists m. split; [exact Hm|]. unfold pointers. rewrite Em. right; left; reflexivity. }
  destruct (adamwRounds_runs (nextp h) sz model Dis p NG rs (0%nat, []) h R) as [s' [h' [E Z]]].
  { eapply Forall_impl; [|exact HF]. intros rd H i m Hm. destruct (DN m (nth_error_In _ _ Hm)) as [l El]. specialize (H i m _ Hm El). destruct (rd i) as [|l']; [contradiction|]. exists l'. split; [reflexivity|]. unfold sz. rewrite El. cbn [alike] in H. congruence. }
  exists s', h'. split; [exact E|]. split.
  - intros n Hn. pose proof (C33_weights_stay p model rs h (weights n) (proj1 (Old n Hn))) as S1. rewrite E in S1. apply S1. intros m Hm Hg.
    assert (In2 : forall (l : list node) m n, In m l -> In n l -> grad m = Some (weights n) -> (forall k, In k l -> exists g, grad k = Some g) -> ~ NoDup (flat_map pointers l)).
    { clear. induction l as [|k l IH]; intros m n Hm Hn Hg HA ND; [contradiction|]. cbn [flat_map] in ND. destruct (HA k (or_introl eq_refl)) as [gk Egk]. unfold pointers at 1 in ND. rewrite Egk in ND. cbn [app] in ND.
      inversion_clear ND as [|? ? N1 N2]. inversion_clear N2 as [|? ? N3 N4]. destruct Hm as [<-|Hm], Hn as [<-|Hn].
      - apply N1. left. congruence.
      - apply N3. rewrite Egk in Hg. injection Hg as ->. apply in_flat_map. exists n. split; [exact Hn|left; reflexivity].
      - apply N1. right. apply in_flat_map. exists m. split; [exact Hm|]. unfold pointers. rewrite Hg. right; left; reflexivity.
      - apply (IH m n Hm Hn Hg); [|exact N4]. intros x Hx. apply HA. right; exact Hx. }
    apply (In2 model m n Hm Hn Hg); [|exact F2]. intros k Hk. destruct (F1 k Hk) as [g [_ [_ [E1 _]]]]. eauto.
  - intros Hrs n g Hn Hg. destruct (Z Hrs n g Hn Hg) as [l [E1 [_ E2]]]. exists (Dn l). split; [exact E1|]. intro j. cbn [entry]. clear - E2. revert j. induction E2 as [|x l Hx _ IH]; intros [|j]; cbn [nth]; auto.
Qed.
Print Assumptions C33_steps_succeed.

(** A scalar weight is not accepted at all. *)
Theorem C33_scalar_crashes : forall p model n h x g s r,
  grad n = Some g -> weights n <> g -> cells h (weights n) = Some (Sc x) -> Forall (fun m => grad m <> Some (weights n)) model ->
  rounds (adamwStep p) (n :: model) [r] s h = Crash.
Proof.
  intros p model n h x g s r Hg N Hc HF. cbn [rounds]. unfold adamwStep. cbn [feed adamwLoop]. unfold extractWeightGrad. rewrite Hg. cbn [ret].
  assert (E : cells (feed model 1 r (set h g (r 0%nat))) (weights n) = Some (Sc x)).
  { assert (K : forall l i h, Forall (fun m => grad m <> Some (weights n)) l -> cells (feed l i r h) (weights n) = cells h (weights n)).
    { clear. induction l as [|m l IH]; intros i h H; cbn [feed]; [reflexivity|]. inversion_clear H as [|? ? H1 H2]. rewrite IH by exact H2. destruct (grad m) as [g|]; [|reflexivity]. apply cs_ne. congruence. }
    rewrite K by exact HF. rewrite cs_ne by exact N. exact Hc. }
  unfold bind, dense at 1. rewrite E. reflexivity.
Qed.
Print Assumptions C33_scalar_crashes.

(** ** C56 *)
Lemma rmsprop_l2 opts : saneL2 (newSolver RMSProp opts).
Proof.
  unfold newSolver. assert (K : forall p, saneL2 p -> saneL2 (fold_left (applyOpt RMSProp) opts p)); [|apply K; intros _; reflexivity].
  induction opts as [|o opts IH]; intros p H; cbn [fold_left]; [exact H|]. apply IH. unfold saneL2 in *. destruct p as [? ? ? ? ? ? ? ? ? ? ? ? ?], o; cbn in *; auto; discriminate.
Qed.
(** RMSProp: the decaying mean of the squares; a scalar is not clipped ([rmspropRule]). *)
Theorem C56_rmsprop_follows : forall opts model rs h (p := newSolver RMSProp opts),
  sane p -> fit model h -> Forall (fitRound model h) rs ->
  exists c' h', rounds (rmspropStep p) model rs None h = Done c' h' /\ follows (rmspropRule p) model rs h h'.
Proof.
  intros opts model rs h p HS F HF. destruct (follows_ok _ _ _ (rmsprop_ok p (sane_clip _ HS) (rmsprop_l2 opts)) model rs None h F) as [s' [h' [E G]]]; [exists None; split; [reflexivity|left; auto]|exact HF|eauto].
Qed.
Print Assumptions C56_rmsprop_follows.
(** Adam, with bias correction by the number of the Step; scalars and tensors alike. *)
Theorem C56_adam_follows : forall p model rs h,
  sane p -> fit model h -> Forall (fitRound model h) rs ->
  exists c' h', rounds (adamStep p) model rs (0%nat, None) h = Done (length rs, c') h' /\ follows (adamRule p) model rs h h'.
Proof.
  intros p model rs h HS F HF. destruct (follows_ok _ _ _ (adam_ok p (sane_clip _ HS)) model rs (0%nat, None) h F) as [s' [h' [E G]]]; [exists None; split; [reflexivity|left; auto]|exact HF|].
  assert (K : forall rs s h s' h', rounds (adamStep p) model rs s h = Done s' h' -> fst s' = (fst s + length rs)%nat).
  { clear. induction rs as [|r rs IH]; intros s h s' h' E; cbn [rounds length] in *; [injection E as <- <-; lia|].
    destruct (adamStep p model s (feed model 0 r h)) as [s1 h1|s1 h1|] eqn:E1; try discriminate. rewrite (IH _ _ _ _ E). unfold adamStep in E1.
    destruct (stepLoop _ _ _ _ _) in E1; try discriminate. injection E1 as <- <-. cbn [fst]. lia. }
  specialize (K rs (0%nat, None) h s' h' E). cbn [fst plus] in K. destruct s' as [k c]. cbn [fst] in K. subst k. eauto.
Qed.
Print Assumptions C56_adam_follows.

(** ** C58 *)
(** AdaGrad ignores every option, also the ones its own struct has fields for. *)
Theorem C58_adagrad_ignores_options : forall opts, newSolver AdaGrad opts = defaults AdaGrad.
Proof. unfold newSolver. induction opts as [|o opts IH]; cbn [fold_left]; [reflexivity|]. destruct o; exact IH. Qed.
Print Assumptions C58_adagrad_ignores_options.

(** For the other solvers the last learn rate given wins, whatever stands around it. *)
Theorem C58_last_rate_wins : forall k before x after, k <> AdaGrad -> (forall y, ~ In (WithLearnRate y) after) ->
  eta (newSolver k (before ++ WithLearnRate x :: after)) = x.
Proof.
  intros k before x after' Hk Hn. unfold newSolver. rewrite fold_left_app. cbn [fold_left]. generalize (fold_left (applyOpt k) before (defaults k)). intro p.
  assert (E : eta (applyOpt k p (WithLearnRate x)) = x) by (destruct p, k; try reflexivity; contradiction).
  revert E. generalize (applyOpt k p (WithLearnRate x)). induction after' as [|o l IH]; intros q E; cbn [fold_left]; [exact E|].
  apply IH; [intros y Hy; exact (Hn y (or_intror Hy))|]. rewrite <- E. destruct q, o, k; try reflexivity; exfalso; eapply Hn; left; reflexivity.
Qed.
Print Assumptions C58_last_rate_wins.

(** Every option a solver listens to sets its parameter, the last one given wins, and the
    other parameters keep their default; clipping and regularisation are switched on
    exactly when they were asked for. *)
Theorem C58_options : forall k opts,
  let p := newSolver k opts in let d := defaults k in
  let is asks v d := (listens k asks -> v = latest asks opts d) /\ (~ listens k asks -> v = d) in
  let on asks v := (listens k asks -> v = asked asks opts) /\ (~ listens k asks -> v = false) in
  is asksRate (eta p) (eta d) /\ is asksEps (eps p) (eps d) /\ is asksBeta1 (beta1 p) (beta1 d) /\ is asksBeta2 (beta2 p) (beta2 d) /\
  is asksRho (decay p) (decay d) /\ is asksMomentum (momentum p) (momentum d) /\ is asksClip (clip p) (clip d) /\
  is asksL1 (l1reg p) (l1reg d) /\ is asksL2 (l2reg p) (l2reg d) /\ is asksBatch (batch p) (batch d) /\
  on asksClip (useClip p) /\ on asksL1 (useL1Reg p) /\ on asksL2 (useL2Reg p).
Proof.
  assert (G : forall k opts (fld : params -> R) asks, (listens k asks -> forall p o, fld (applyOpt k p o) = match asks o with Some x => x | None => fld p end) ->
    (~ listens k asks -> forall p o, fld (applyOpt k p o) = fld p) ->
    (listens k asks -> fld (newSolver k opts) = latest asks opts (fld (defaults k))) /\ (~ listens k asks -> fld (newSolver k opts) = fld (defaults k))).
  { intros k opts fld asks H1 H2. unfold newSolver, latest. generalize (defaults k). split; intro L; revert p.
    - induction opts as [|o opts IH]; intro p; cbn [fold_left]; [reflexivity|]. rewrite IH, (H1 L). reflexivity.
    - induction opts as [|o opts IH]; intro p; cbn [fold_left]; [reflexivity|]. rewrite IH. apply H2, L. }
  assert (B : forall k opts (fld : params -> bool) asks, fld (defaults k) = false ->
    (listens k asks -> forall p o, fld (applyOpt k p o) = (match asks o with Some _ => true | None => false end || fld p)%bool) ->
    (~ listens k asks -> forall p o, fld (applyOpt k p o) = fld p) ->
    (listens k asks -> fld (newSolver k opts) = asked asks opts) /\ (~ listens k asks -> fld (newSolver k opts) = false)).
  { intros k opts fld asks H0 H1 H2. unfold newSolver, asked. split; intro L.
    - assert (X : forall p, fld (fold_left (applyOpt k) opts p) = (existsb (fun o => match asks o with Some _ => true | None => false end) opts || fld p)%bool).
      { induction opts as [|o opts IH]; intro p; cbn [fold_left existsb]; [reflexivity|]. rewrite IH, (H1 L).
        destruct (match asks o with Some _ => true | None => false end), (existsb _ opts), (fld p); reflexivity. }
      rewrite X, H0. apply Bool.orb_false_r.
    - rewrite <- H0. generalize (defaults k). induction opts as [|o opts IH]; intro p; cbn [fold_left]; [reflexivity|]. rewrite IH. apply H2, L. }
  intros k opts. cbv zeta. repeat apply conj; (apply G || (apply B; [destruct k; reflexivity|..])); intros L p o; destruct k; cbn [listens In] in L;
    destruct p, o; try reflexivity; try (exfalso; apply L; tauto); exfalso; clear - L;
    repeat match type of L with _ \/ _ => destruct L as [L|L] end; try contradiction;
    match type of L with ?f = ?g => idtac end;
    first [ pose proof (f_equal (fun f => f (WithL2Reg 0%R)) L) as X; cbn in X; discriminate X
          | pose proof (f_equal (fun f => f (WithL1Reg 0%R)) L) as X; cbn in X; discriminate X
          | pose proof (f_equal (fun f => f (WithBatchSize 0%R)) L) as X; cbn in X; discriminate X
          | pose proof (f_equal (fun f => f (WithEps 0%R)) L) as X; cbn in X; discriminate X
          | pose proof (f_equal (fun f => f (WithClip 0%R)) L) as X; cbn in X; discriminate X
          | pose proof (f_equal (fun f => f (WithLearnRate 0%R)) L) as X; cbn in X; discriminate X
          | pose proof (f_equal (fun f => f (WithBeta1 0%R)) L) as X; cbn in X; discriminate X
          | pose proof (f_equal (fun f => f (WithBeta2 0%R)) L) as X; cbn in X; discriminate X
          | pose proof (f_equal (fun f => f (WithRho 0%R)) L) as X; cbn in X; discriminate X
          | pose proof (f_equal (fun f => f (WithMomentum 0%R)) L) as X; cbn in X; discriminate X ].
Qed.
Print Assumptions C58_options.
Example C58_options_ex : listens RMSProp asksRho /\ ~ listens Adam asksRho /\
  decay (newSolver RMSProp [WithRho 0.5; WithClip 3; WithRho 0.25]) = 0.25%R.
Proof.
  split; [cbn; tauto|]. split; [|reflexivity]. cbn [listens In]. intro L.
  repeat match type of L with _ \/ _ => destruct L as [L|L] end; try contradiction;
  pose proof (f_equal (fun f => f (WithRho 0%R)) L) as X; cbn in X; discriminate X.
Qed.

Lemma stepLoop_app body A : forall B i c h, stepLoop body (A ++ B) i c h = match stepLoop body A i c h with Done c' h' => stepLoop body B (i + length A) c' h' | Fail c' h' => Fail c' h' | Crash => Crash end.
Proof.
  induction A as [|n A IH]; intros B i c h; cbn [app stepLoop length]; [rewrite Nat.add_0_r; reflexivity|].
  destruct (extractWeightGrad n h) as [[w g] h1|h1|]; try reflexivity. destruct (getCache c i) as [e|]; [|reflexivity].
  destruct (match e with Some cv => Ok cv h1 | None => newCachedDV w g true h1 end) as [cv h2|h2|]; try reflexivity.
  destruct (body n w g cv h2) as [cv' h3|h3|]; try reflexivity. rewrite IH, Nat.add_succ_r. reflexivity.
Qed.
Lemma grown_crash body r k E n g B h : BodyOK body r -> Good h E -> grad n = Some g ->
  stepLoop (body k) (map en E ++ n :: B) 0 (Some (map ecv E)) h = Crash.
Proof.
  intros HB G Hg. rewrite stepLoop_app. destruct (loop_ok body r k HB E [] h G) as [E' [h' [Q [_ [F _]]]]]. cbn [app length] in Q. rewrite Q. cbn [stepLoop]. unfold extractWeightGrad. rewrite Hg. cbn [ret getCache].
  replace (nth_error (map ecv E') (0 + length (map en E))) with (@None (option (nat * nat))); [reflexivity|]. symmetry. apply nth_error_None. pose proof (f_equal (@length node) (stepped_en r k E E' F)) as LE. rewrite !map_length in *. lia.
Qed.
Lemma grown {St} (step : list node -> St -> heap -> out St) (emb : nat -> cache -> St) body r : BodyOK body r ->
  (forall model k c h, step model (emb k c) h = match stepLoop (body (S k)) model 0 (initCache model c) h with Done c' h' => Done (emb (S k) c') h' | Fail c' h' => Fail (emb (S k) c') h' | Crash => Crash end) ->
  forall model rs n g B h s h', fit model h -> Forall (fitRound model h) rs -> rs <> [] -> grad n = Some g ->
  rounds step model rs (emb 0%nat None) h = Done s h' -> step (model ++ n :: B) s h' = Crash.
Proof.
  intros HB HE model rs n g B h s h' F HF Hrs Hg E. destruct (fit_good model h F) as [G [Qn [Qc Qp]]].
  destruct (rounds_ok _ _ _ _ (cached_ok step emb body r HB HE) rs 0%nat (emb 0%nat None) (map (toEnt h) model) h G) as [E' [s' [h2 [Q [G' [L [Rn [[c [-> Hc]] _]]]]]]]].
  { exists None. split; [reflexivity|]. left. rewrite Qn. auto. } { apply fit_rounds; assumption. }
  rewrite Qn, E in Q. injection Q as -> ->. destruct Hc as [[Hc _]| ->]; [destruct rs; [contradiction|discriminate]|].
  pose proof (same_nodes _ _ _ _ _ L Rn) as En'. rewrite Qn in En'. rewrite <- En', HE. cbn [initCache]. rewrite (grown_crash body r _ E' n g B h2 HB G' Hg). reflexivity.
Qed.
(** The caches have the length of the first model: when a node is added to the model after
    some Step, the next Step panics. *)
Theorem C58_grown_model_crashes : forall p model rs n g B h,
  (useClip p = true -> 0 < clip p) -> fit model h -> Forall (fitRound model h) rs -> rs <> [] -> grad n = Some g ->
  (forall s h', rounds (momentumStep p) model rs None h = Done s h' -> momentumStep p (model ++ n :: B) s h' = Crash) /\
  (forall s h', rounds (adagradStep p) model rs None h = Done s h' -> adagradStep p (model ++ n :: B) s h' = Crash) /\
  (forall s h', rounds (adamStep p) model rs (0%nat, None) h = Done s h' -> adamStep p (model ++ n :: B) s h' = Crash).
Proof.
  intros p model rs n g B h HC F HF Hrs Hg. split; [|split]; intros s h'.
  - intro E. refine (grown (momentumStep p) (fun _ c => c) _ _ (momentum_body p HC) _ model rs n g B h s h' F HF Hrs Hg E). intros. unfold momentumStep. destruct (stepLoop _ _ _ _ _); reflexivity.
  - intro E. refine (grown (adagradStep p) (fun _ c => c) _ _ (adagrad_body p HC) _ model rs n g B h s h' F HF Hrs Hg E). intros. unfold adagradStep. destruct (stepLoop _ _ _ _ _); reflexivity.
  - intro E. refine (grown (adamStep p) pair _ _ (adam_body p HC) _ model rs n g B h s h' F HF Hrs Hg E). intros. unfold adamStep. cbn [fst snd]. destruct (stepLoop _ _ _ _ _); reflexivity.
Qed.
Print Assumptions C58_grown_model_crashes.

(** ** A case with a scalar and a tensor *)
Definition exModel : list node := [Nd 0 0 (Some 1%nat); Nd 1 2 (Some 3%nat)].
Definition exHeap : heap := Heap (fun q => match q with 0%nat => Some (Sc 2) | 1%nat => Some (Sc 0) | 2%nat => Some (Dn [1; -1]) | 3%nat => Some (Dn [0; 0]) | _ => None end) 4.
Definition exRound : nat -> cell := fun i => match i with 0%nat => Sc 1 | _ => Dn [1; 3] end.
Lemma ex_fit : fit exModel exHeap.
Proof.
  split.
  - constructor; [|constructor; [|constructor]].
    + exists 1%nat, (Sc 2), (Sc 0). repeat split.
    + exists 3%nat, (Dn [1; -1]), (Dn [0; 0]). repeat split.
  - cbn. repeat constructor; cbn [In]; intuition lia.
  - cbn. repeat constructor; lia.
Qed.
Lemma ex_round : fitRound exModel exHeap exRound.
Proof. intros [|[|i]] n c Hn Hc; cbn in Hn; try (injection Hn as <-; cbn in Hc; injection Hc as <-; cbn; auto). destruct i; discriminate. Qed.
Lemma em_val : em3 = / 1000. Proof. reflexivity. Qed.

(** Two Steps with the defaults, learn rate 1/1000: the scalar 2 goes to 2 - 2/1000 with
    every one of the first two solvers; the tensor has a velocity in the second. *)
Example C31_ex : exists h', rounds (vanillaOut (newSolver Vanilla [])) exModel [exRound; exRound] tt exHeap = Done tt h' /\
  cells h' 0%nat = Some (Sc (1998 / 1000)) /\ (exists c, cells h' 1%nat = Some c /\ entry c 0 = 0) /\ exists a b, cells h' 2%nat = Some (Dn [a; b]) /\ a = 998 / 1000 /\ b = - 1006 / 1000.
Proof.
  destruct (C31_vanilla_follows (newSolver Vanilla []) exModel [exRound; exRound] exHeap) as [h' [E G]]; [discriminate|exact ex_fit|repeat constructor; exact ex_round|].
  exists h'. split; [exact E|]. split; [|split].
  - pose proof (follows_scalar _ _ _ _ _ G 0%nat (Nd 0 0 (Some 1%nat)) 2 eq_refl eq_refl) as K. cbn [weights] in K. rewrite K. clear K. do 2 f_equal. unfold after. cbn. unfold penalised, clipped, l1, l2, batchSize. cbn. destruct (Rlt_dec 1 1); [lra|]. unfold em3. lra.
  - destruct G as [_ [G _]]. destruct (G (Nd 0 0 (Some 1%nat)) 1%nat (or_introl eq_refl) eq_refl ltac:(discriminate)) as [c [Ec Zc]].
    exists c. split; [exact Ec|apply Zc].
  - destruct (follows_dense _ _ _ _ _ G 1%nat (Nd 1 2 (Some 3%nat)) [1; -1] eq_refl eq_refl) as [l [El [Ll V]]]. destruct l as [|a [|b [|? l]]]; try discriminate. exists a, b. split; [exact El|].
    pose proof (V 0%nat ltac:(cbn; lia)) as V0. pose proof (V 1%nat ltac:(cbn; lia)) as V1. cbn [nth] in V0, V1. rewrite V0, V1. unfold after. cbn. unfold penalised, clipped, l1, l2, batchSize. cbn. destruct (Rlt_dec 1 1); [lra|]. unfold em3. lra.
Qed.

Example C32_ex : exists c h', rounds (momentumStep (newSolver Momentum [])) exModel [exRound; exRound] None exHeap = Done c h' /\
  cells h' 0%nat = Some (Sc (1998 / 1000)) /\ exists a b, cells h' 2%nat = Some (Dn [a; b]) /\ a = 1 - 1 / 1000 - 19 / 10000.
Proof.
  destruct (C32_momentum (newSolver Momentum []) exModel [exRound; exRound] exHeap) as [c [h' [E [G1 [G2 _]]]]]; [discriminate|exact ex_fit|repeat constructor; exact ex_round|].
  exists c, h'. split; [exact E|]. split.
  - pose proof (G1 0%nat (Nd 0 0 (Some 1%nat)) 2 eq_refl eq_refl) as K. cbn [weights] in K. rewrite K. clear K. do 2 f_equal. cbn. unfold penalised, clipped, l1, l2, batchSize. cbn. destruct (Rlt_dec 1 1); [lra|]. unfold em3. lra.
  - destruct (G2 1%nat (Nd 1 2 (Some 3%nat)) [1; -1] eq_refl eq_refl) as [l [El [Ll V]]]. destruct l as [|a [|b [|? l]]]; try discriminate. exists a, b. split; [exact El|].
    pose proof (V 0%nat ltac:(cbn; lia)) as V0. cbn [nth] in V0. rewrite V0. cbn. unfold penalised, clipped, l1, l2, batchSize. cbn. destruct (Rlt_dec 1 1); [lra|]. unfold em3. lra.
Qed.

(** AdamW on the tensor alone, two Steps. *)
Example C33_ex : exists s h', rounds (adamwStep (newSolver AdamW [])) [Nd 1 2 (Some 3%nat)] [(fun _ => Dn [1; 3]); (fun _ => Dn [2; 5])] (0%nat, []) exHeap = Done s h' /\ cells h' 2%nat = Some (Dn [1; -1]).
Proof.
  destruct (C33_steps_succeed (newSolver AdamW []) [Nd 1 2 (Some 3%nat)] [(fun _ => Dn [1; 3]); (fun _ => Dn [2; 5])] exHeap) as [s [h' [E [G _]]]].
  - destruct ex_fit as [F1 F2 F3]. split.
    + inversion F1; assumption.
    + cbn. repeat constructor; cbn [In]; intuition lia.
    + cbn. repeat constructor; lia.
  - repeat constructor. intros [].
  - intros n [<-|[]]. exists [1; -1]. reflexivity.
  - repeat constructor; intros [|i] n c Hn Hc; cbn in Hn; try (injection Hn as <-; cbn in Hc; injection Hc as <-; reflexivity); destruct i; discriminate.
  - exists s, h'. split; [exact E|]. exact (G _ (or_introl eq_refl)).
Qed.

Lemma sane_adam : sane (newSolver Adam []).
Proof. split; cbn; unfold em8; try lra; try discriminate. Qed.
(** One Step of Adam moves a weight by about the learn rate, against the gradient's sign. *)
Example C56_ex : exists c h', rounds (adamStep (newSolver Adam [])) exModel [exRound] (0%nat, None) exHeap = Done (1%nat, c) h' /\
  cells h' 0%nat = Some (Sc (2 - / 1000 * 1 / (1 + / 100000000))).
Proof.
  destruct (C56_adam_follows (newSolver Adam []) exModel [exRound] exHeap sane_adam ex_fit) as [c [h' [E G]]]; [repeat constructor; exact ex_round|].
  exists c, h'. split; [exact E|]. pose proof (follows_scalar _ _ _ _ _ G 0%nat (Nd 0 0 (Some 1%nat)) 2 eq_refl eq_refl) as K. cbn [weights] in K. rewrite K. clear K. do 2 f_equal. unfold after. cbn [map traj]. unfold adamRule, penalised, clipped, l1, l2, batchSize. cbn. unfold em3, em8.
  destruct (Rlt_dec 1 1); [lra|].
  match goal with |- context [sqrt ?a] => replace a with 1 by field end. rewrite sqrt_1. field.
Qed.
(** The hypotheses of the other theorems are met. *)
Example C31_ex_missing : exists h', vanillaStep (newSolver Vanilla []) (exModel ++ [Nd 2 4 None; Nd 3 5 (Some 6%nat)]) exHeap = Err h' /\ cells h' 2%nat = cells exHeap 2%nat.
Proof.
  destruct (C31_missing_gradient (newSolver Vanilla []) exModel (Nd 2 4 None) [Nd 3 5 (Some 6%nat)] exHeap ltac:(discriminate) ex_fit eq_refl) as [h' [E [G _]]]. exists h'. split; [exact E|].
  destruct (G (Nd 1 2 (Some 3%nat)) 3%nat (Dn [1; -1]) (Dn [0; 0]) ltac:(right; left; reflexivity) eq_refl eq_refl eq_refl) as [c [Ec [Ac V]]]. cbn [weights] in Ec. rewrite Ec. destruct c as [|[|a [|b [|? l]]]]; try contradiction; try discriminate.
  pose proof (V 0%nat ltac:(cbn; lia)) as V0. pose proof (V 1%nat ltac:(cbn; lia)) as V1. cbn in V0, V1. unfold penalised, clipped, l1, l2, batchSize in V0, V1. cbn in V0, V1. destruct (Rlt_dec 1 1); [lra|]. 
  cbn [cells exHeap]. do 2 f_equal. apply f_equal2; [lra|]. apply f_equal2; [lra|reflexivity].
Qed.
Example C31_ex_zero : exists p, useL1Reg p = true /\ useL2Reg p = false /\ useClip p = false /\ batch p <= 1 /\ l1reg p <> 0 /\ eta p <> 0.
Proof. exists (newSolver Vanilla [WithL1Reg 1]). cbn. unfold em3. repeat split; lra. Qed.
Example C31_ex_clip : exists p, useL1Reg p = false /\ useL2Reg p = false /\ useClip p = true /\ clip p = 0 /\ batch p <= 1.
Proof. exists (newSolver Vanilla [WithClip 0]). cbn. repeat split; lra. Qed.
Example C32_ex_adagrad : exists c h', rounds (adagradStep (newSolver AdaGrad [WithLearnRate 5])) exModel [exRound; exRound] None exHeap = Done c h' /\
  cells h' 0%nat = Some (Sc (2 - / 1000 * 1 / sqrt (1 * 1 + / 100000000) - 0 * 2 - / 1000 * 1 / sqrt (1 * 1 + / 100000000) - 0 * (2 - / 1000 * 1 / sqrt (1 * 1 + / 100000000) - 0 * 2))).
Proof.
  destruct (C32_adagrad [WithLearnRate 5] exModel [exRound; exRound] exHeap ex_fit ltac:(repeat constructor; exact ex_round)) as [c [h' [E [_ [G _]]]]]. exists c, h'. split; [exact E|].
  exact (G 0%nat (Nd 0 0 (Some 1%nat)) 2 eq_refl eq_refl).
Qed.
Example C58_ex : exists c h', rounds (momentumStep (newSolver Momentum [])) exModel [exRound] None exHeap = Done c h' /\ momentumStep (newSolver Momentum []) (exModel ++ [Nd 2 4 (Some 5%nat)]) c h' = Crash.
Proof.
  destruct (C32_momentum (newSolver Momentum []) exModel [exRound] exHeap) as [c [h' [E _]]]; [discriminate|exact ex_fit|repeat constructor; exact ex_round|].
  exists c, h'. split; [exact E|]. exact (proj1 (C58_grown_model_crashes (newSolver Momentum []) exModel [exRound] (Nd 2 4 (Some 5%nat)) 5%nat [] exHeap ltac:(discriminate) ex_fit ltac:(repeat constructor; exact ex_round) ltac:(discriminate) eq_refl) c h' E).
Qed.
