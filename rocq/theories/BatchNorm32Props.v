(** Property C77: batch normalisation in float32. *)
From Coq Require Import Arith Reals List Bool Lia Lra.
From Verif Require Import Sums LoopModel LoopProofs ConvProofs AvgProofs DropoutSpec BatchNormModel BatchNorm32Model BatchNormSpec BatchNormProofs BatchNormGrad BatchNormProps.
Import ListNotations.
Local Open Scope R_scope.

Lemma bnDo32_eval B C D op x : training op = false -> length x = (B * C * D)%nat -> length (chans op) = C ->
  bnDo32 op B C D x = Some
   (op, map (fun j => (nth j x 0 - runMean (nth (row3 C D j) (chans op) ch0)) / sqrt (runVar (nth (row3 C D j) (chans op) ch0) + epsilon op)) (seq 0 (B * C * D))).
Proof.
  intros T L Lc. unfold bnDo32, bnPrealloc32, newChans32. rewrite T.
  rewrite scaleAll_ok by auto. destruct op as [m e t cs]. cbn [training] in T. subst t. cbn [momentum epsilon training chans] in *.
  apply f_equal, f_equal2; [reflexivity|].
  apply map_ext_in. intros j Hj. unfold betaOf, alphaOf. cbn [training chans epsilon]. unfold Rdiv. ring.
Qed.

(** In both modes the float32 kernel returns the output of the float64 one; in training
    it also leaves the same statistics. *)
Theorem C77_outputs : forall op B C D x,
  length x = (B * C * D)%nat -> length (chans op) = C ->
  exists op32 op64 out, bnDo32 op B C D x = Some (op32, out) /\ bnDo op B C D x = Some (op64, out) /\
    (training op = true -> op32 = op64).
Proof.
  intros op B C D x L Lc. destruct (training op) eqn:T.
  - unfold bnDo32, bnPrealloc32, newChans32. rewrite T.
    assert (E := bnDo_training B C D op x T L Lc). unfold bnDo, bnPrealloc in *.
    destruct (newChans op B C D x) as [chs|]; [|discriminate].
    destruct (scaleAll op B C D chs x) as [out|]; [|discriminate].
    do 3 eexists. rewrite T in *. repeat split.
  - rewrite (bnDo32_eval B C D), (bnDo_eval B C D) by assumption. do 3 eexists. split; [reflexivity|]. split; [reflexivity|]. discriminate.
Qed.
Print Assumptions C77_outputs.

(** Out of training an evaluation changes nothing in the operator, so the saved
    statistics are those of the last training batch, whatever was evaluated since. *)
Theorem C77_evaluation_keeps : forall op B C D x op' out,
  training op = false -> length x = (B * C * D)%nat -> length (chans op) = C ->
  bnDo32 op B C D x = Some (op', out) -> op' = op.
Proof. intros op B C D x op' out T L Lc E. rewrite (bnDo32_eval B C D) in E by assumption. injection E as <- _. reflexivity. Qed.
Print Assumptions C77_evaluation_keeps.

(** Train on [x0], switch to evaluation, evaluate [x] and take the gradient.  With more
    than one entry per channel and sample the gradient is divided by the deviation of
    the training batch [x0] instead of the running deviation the output was divided by. *)
Theorem C77_evaluation_gradient_spatial : forall op B C D x0 x g ig op1 out0 op2 out c,
  training op = true -> (D <> 1)%nat ->
  length x0 = (B * C * D)%nat -> length x = (B * C * D)%nat -> length g = (B * C * D)%nat -> length ig = (B * C * D)%nat ->
  length (chans op) = C -> (c < C)%nat ->
  bnDo32 op B C D x0 = Some (op1, out0) ->
  bnDo32 (bnSetTraining op1 false) B C D x = Some (op2, out) ->
  exists d ch, bnDiff op2 B C D x g ig = Some d /\ nth_error (chans op2) c = Some ch /\
    channel B C D c out = map (fun v => (v - runMean ch) / sqrt (runVar ch + epsilon op)) (channel B C D c x) /\
    channel B C D c d = map (fun v => v / sqrt (variance (channel B C D c x0) + epsilon op)) (channel B C D c g).
Proof.
  intros op B C D x0 x g ig op1 out0 op2 out c T HD L0 L Lg Li Lc Hc E0 E.
  destruct (C77_outputs op B C D x0 L0 Lc) as (o32 & o64 & o & E1 & E2 & Q). specialize (Q T). subst o64.
  rewrite E0 in E1. injection E1 as <- <-. clear E0.
  rewrite (bnDo_training B C D) in E2 by assumption. injection E2 as <- _.
  set (op3 := bnSetTraining (after op (map (fun c => newChan B C D op x0 c (nth c (chans op) ch0)) (seq 0 C))) false) in *.
  assert (L3 : length (chans op3) = C) by (unfold op3, bnSetTraining, after; cbn [chans]; rewrite map_length, seq_length; reflexivity).
  assert (N3 : forall k, (k < C)%nat -> nth k (chans op3) ch0 = newChan B C D op x0 k (nth k (chans op) ch0)).
  { intros k Hk. unfold op3, bnSetTraining, after. cbn [chans].
    apply nth_error_nth. rewrite nth_error_map, nth_seq0 by exact Hk. reflexivity. }
  rewrite (bnDo32_eval B C D) in E by (try reflexivity; assumption). injection E as <- <-.
  rewrite (bnDiff_eval B C D); try assumption; [|reflexivity].
  exists (map (fun j => nth j g 0 * (1 / sqrt ((if (D =? 1)%nat then runVar (nth (row3 C D j) (chans op3) ch0) else saveVar (nth (row3 C D j) (chans op3) ch0) / INR (D * B)) + epsilon op3))) (seq 0 (B * C * D))), (nth c (chans op3) ch0).
  split; [reflexivity|]. split; [apply nth_error_nth'; lia|]. split.
  - rewrite (channel_map B C D (fun c v => (v - runMean (nth c (chans op3) ch0)) / sqrt (runVar (nth c (chans op3) ch0) + epsilon op3))) by exact Hc.
    reflexivity.
  - rewrite channel_var.
    rewrite <- (channel_map B C D (fun k v => v / sqrt (csq B C D x0 k / INR (D * B) + epsilon op)) c g Hc). f_equal.
    apply map_ext_in. intros j Hj. apply in_seq in Hj.
    destruct (at3_cover B C D j ltac:(lia)) as (s & k & d & Hs & Hk & Hd & Ej).
    destruct (at3_div C D s k d Hk Hd) as [_ [Ek _]]. rewrite <- Ej in Ek. rewrite Ek.
    apply Nat.eqb_neq in HD. rewrite HD, N3 by exact Hk. unfold newChan. cbn [saveVar].
    change (epsilon op3) with (epsilon op). unfold Rdiv. ring.
Qed.
Print Assumptions C77_evaluation_gradient_spatial.

Definition bnOut32 (op : bnOp) (B C D : nat) (x : list R) : list R :=
  match bnDo32 op B C D x with Some (_, out) => out | None => [] end.

(** With one entry per channel and sample the float32 gradient is right. *)
Theorem C77_evaluation_gradient_flat : forall op B C x g ig op' out,
  training op = false -> length x = (B * C * 1)%nat -> length g = (B * C * 1)%nat -> length ig = (B * C * 1)%nat ->
  length (chans op) = C -> bnDo32 op B C 1 x = Some (op', out) ->
  exists d, bnDiff op' B C 1 x g ig = Some d /\ is_gradient (bnOut32 op B C 1) x g d.
Proof.
  intros op B C x g ig op' out T L Lg Li Lc E.
  rewrite (C77_evaluation_keeps op B C 1 x op' out T L Lc E).
  assert (E64 := bnDo_eval B C 1 op x T L Lc).
  destruct (C28_evaluation_gradient_flat op B C x g ig _ _ T L Lg Li Lc E64) as (d & Ed & [Ld G]).
  assert (Z : bnDiff op B C 1 x g ig = Some d).
  { rewrite <- Ed. rewrite !(bnDiff_eval B C 1); try assumption; [|unfold after; cbn [chans]; rewrite map_length; exact Lc].
    f_equal. apply map_ext_in. intros j Hj. apply in_seq in Hj. cbv zeta. cbn [Nat.eqb]. unfold after. cbn [chans epsilon].
    destruct (at3_cover B C 1 j ltac:(lia)) as (s & k & e & Hs & Hk & He & Ej).
    destruct (at3_div C 1 s k e Hk He) as [_ [Ek _]]. rewrite <- Ej in Ek. rewrite Ek.
    rewrite (nth_indep (map zeroSaved (chans op)) ch0 (zeroSaved ch0)) by (rewrite map_length; lia). rewrite map_nth. reflexivity. }
  exists d. split; [exact Z|]. split; [exact Ld|]. intros u Lu. specialize (G u Lu).
  intros e He. destruct (G e He) as [del H]. exists del. intros h Hh Hd. specialize (H h Hh Hd).
  assert (X : forall t, bnOut32 op B C 1 (shifted x u t) = bnOut op B C 1 (shifted x u t)).
  { intro t. unfold bnOut32, bnOut. assert (Ls : length (shifted x u t) = (B * C * 1)%nat) by (rewrite shifted_len; congruence).
    destruct (C77_outputs op B C 1 _ Ls Lc) as (a & b & o & -> & -> & _). reflexivity. }
  rewrite !X. exact H.
Qed.
Print Assumptions C77_evaluation_gradient_flat.

(** Otherwise it is not, and the two precisions disagree: after the same training batch
    and evaluation, with the same gradient of the output, float32 answers 1/5, float64
    answers 1/3 and the derivative is 1/4. *)
Theorem C77_evaluation_gradient_refuted : exists op x0 x g op1 out0 op2 out op2' d32 d64,
  training op = true /\ 0 < epsilon op /\ length x = (1 * 1 * 2)%nat /\
  bnDo32 op 1 1 2 x0 = Some (op1, out0) /\ bnDo op 1 1 2 x0 = Some (op1, out0) /\
  bnDo32 (bnSetTraining op1 false) 1 1 2 x = Some (op2, out) /\ bnDiff op2 1 1 2 x g [0; 0] = Some d32 /\
  bnDo (bnSetTraining op1 false) 1 1 2 x = Some (op2', out) /\ bnDiff op2' 1 1 2 x g [0; 0] = Some d64 /\
  d32 <> d64 /\ ~ is_gradient (bnOut32 (bnSetTraining op1 false) 1 1 2) x g d32 /\
  ~ is_gradient (bnOut (bnSetTraining op1 false) 1 1 2) x g d64.
Proof.
  set (op := {| momentum := 0; epsilon := 9; training := true; chans := [{| saveMean := 0; saveVar := 0; runMean := 0; runVar := 7 |}] |}).
  destruct (C77_outputs op 1 1 2 [4; -4] eq_refl eq_refl) as (op1 & op1' & out0 & E32 & E64 & Q). specialize (Q eq_refl). subst op1'.
  assert (O1 := E64). rewrite (bnDo_training 1 1 2) in O1 by reflexivity. injection O1 as O1 _.
  set (op3 := bnSetTraining op1 false).
  assert (T3 : training op3 = false) by reflexivity.
  assert (L3 : length (chans op3) = 1%nat) by (unfold op3; rewrite <- O1; reflexivity).
  assert (V3 : nth 0 (chans op3) ch0 = newChan 1 1 2 op [4; -4] 0 {| saveMean := 0; saveVar := 0; runMean := 0; runVar := 7 |}) by (unfold op3; rewrite <- O1; reflexivity).
  assert (Ep : epsilon op3 = 9) by (unfold op3; rewrite <- O1; reflexivity).
  assert (RM : runMean (nth 0 (chans op3) ch0) = 0) by (rewrite V3; unfold newChan; cbn [runMean momentum op]; ring).
  assert (RV : runVar (nth 0 (chans op3) ch0) = 7) by (rewrite V3; unfold newChan; cbn [runVar momentum op]; ring).
  assert (S4 : sqrt (7 + 9) = 4) by (replace (7 + 9) with (4 * 4) by ring; apply sqrt_square; lra).
  assert (E2 := bnDo32_eval 1 1 2 op3 [0; 0] T3 eq_refl L3).
  assert (E2' := bnDo_eval 1 1 2 op3 [0; 0] T3 eq_refl L3).
  destruct (C77_evaluation_gradient_spatial op 1 1 2 [4; -4] [0; 0] [1; 0] [0; 0] op1 out0 _ _ 0%nat eq_refl ltac:(lia) eq_refl eq_refl eq_refl eq_refl eq_refl ltac:(lia) E32 E2) as (d & ch & Ed & _ & _ & Hd).
  destruct (C28_evaluation_gradient_spatial op3 1 1 2 [0; 0] [1; 0] [0; 0] _ _ 0%nat T3 ltac:(lia) eq_refl eq_refl eq_refl L3 E2' ltac:(lia)) as (d' & Ed' & Hd').
  assert (D0 : nth 0 d 0 = 1 / 5).
  { unfold channel in Hd. cbn [flat_map seq map app Nat.mul Nat.add nth epsilon op] in Hd. injection Hd as Hd _. rewrite Hd.
    replace (variance [4; -4] + 9) with (5 * 5).
    - rewrite sqrt_square by lra. reflexivity.
    - unfold variance, mean, add_up. cbn [map fold_right length INR]. field. }
  assert (D0' : nth 0 d' 0 = 1 / 3).
  { unfold channel in Hd'. cbn [flat_map seq map app Nat.mul Nat.add nth] in Hd'. injection Hd' as Hd' _. rewrite Hd'. replace (epsilon op1) with 9 by (symmetry; exact Ep).
    replace 9 with (3 * 3) by ring. rewrite sqrt_square by lra. reflexivity. }
  assert (H2 : forall f, (forall t, f t = t / 4) -> derivable_pt_lim f 0 (1/4)).
  { intros f Ef e He. exists (mkposreal 1 Rlt_0_1). intros h Hh _. rewrite !Ef.
    replace (((0 + h) / 4 - 0 / 4) / h - 1 / 4) with 0 by (field; exact Hh). rewrite Rabs_R0. exact He. }
  assert (F : forall t, ip (bnOut32 op3 1 1 2 (shifted [0; 0] [1; 0] t)) [1; 0] = t / 4).
  { intro t. unfold bnOut32. rewrite (bnDo32_eval 1 1 2 op3 (shifted [0; 0] [1; 0] t)) by (reflexivity || assumption).
    cbn [seq map Nat.mul Nat.add ip nth shifted row3]. unfold row3. cbn [Nat.div Nat.modulo Nat.divmod fst snd Nat.sub].
    rewrite RM, RV, Ep, S4. field. }
  assert (F' : forall t, ip (bnOut op3 1 1 2 (shifted [0; 0] [1; 0] t)) [1; 0] = t / 4).
  { intro t. rewrite <- F. unfold bnOut, bnOut32. destruct (C77_outputs op3 1 1 2 (shifted [0; 0] [1; 0] t) eq_refl L3) as (a & b & o & -> & -> & _). reflexivity. }
  exists op, [4; -4], [0; 0], [1; 0], op1, out0. do 3 eexists. exists d, d'.
  split; [reflexivity|]. split; [cbn; lra|]. split; [reflexivity|]. split; [exact E32|]. split; [exact E64|].
  split; [exact E2|]. split; [exact Ed|]. split; [exact E2'|]. split; [exact Ed'|].
  split; [intro X; rewrite X in D0; lra|].
  assert (I : forall w k, length w = 2%nat -> nth 0 w 0 = k -> ip [1; 0] w = k).
  { intros w k Lw Nw. destruct w as [|a [|b [|]]]; cbn in Lw; try discriminate. cbn in Nw |- *. lra. }
  split; intros [Ld H]; specialize (H [1; 0] eq_refl).
  - rewrite (I d (1/5) Ld D0) in H. assert (Z := uniqueness_limite _ _ _ _ H (H2 _ F)). lra.
  - rewrite (I d' (1/3) Ld D0') in H. assert (Z := uniqueness_limite _ _ _ _ H (H2 _ F')). lra.
Qed.
Print Assumptions C77_evaluation_gradient_refuted.

(** The refutation is also a case of the theorems above: one training step, a switch,
    an evaluation and a gradient. *)
Example bn32_ex : exists op1 out0,
  bnDo32 {| momentum := 1/10; epsilon := 1; training := true; chans := [ch0; ch0] |} 1 2 2 [1; 2; 3; 5] = Some (op1, out0) /\
  length (chans op1) = 2%nat.
Proof.
  destruct (C77_outputs {| momentum := 1/10; epsilon := 1; training := true; chans := [ch0; ch0] |} 1 2 2 [1; 2; 3; 5] eq_refl eq_refl) as (a & b & o & E & E' & Q).
  specialize (Q eq_refl). subst b. exists a, o. split; [exact E|].
  rewrite (bnDo_training 1 2 2) in E' by reflexivity. injection E' as <- _. reflexivity.
Qed.
