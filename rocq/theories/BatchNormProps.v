(** C28: batch normalisation. *)
From Coq Require Import Arith Reals List Bool Lia Lra.
From Verif Require Import Sums LoopModel LoopProofs ConvProofs AvgProofs DropoutSpec BatchNormModel BatchNormSpec BatchNormProofs BatchNormGrad.
Import ListNotations.
Local Open Scope R_scope.

(** In training, every channel of the output is the channel of the input minus its
    mean, divided by the root of its variance plus epsilon. *)
Theorem C28_training_output : forall op B C D x,
  training op = true -> length x = (B * C * D)%nat -> length (chans op) = C ->
  exists op' out, bnDo op B C D x = Some (op', out) /\ length out = length x /\
    forall c, (c < C)%nat -> channel B C D c out =
      map (fun v => (v - mean (channel B C D c x)) / sqrt (variance (channel B C D c x) + epsilon op)) (channel B C D c x).
Proof.
  intros op B C D x T L Lc. rewrite (bnDo_training B C D) by assumption.
  eexists. eexists. split; [reflexivity|]. split; [rewrite map_length, seq_length; congruence|].
  intros c Hc.
  rewrite (channel_map B C D (fun c v => (v - cmean B C D x c) / sqrt (csq B C D x c / INR (D * B) + epsilon op))) by exact Hc.
  rewrite channel_mean, channel_var. reflexivity.
Qed.
Print Assumptions C28_training_output.

Lemma add_up_scale (l : list R) m k : add_up (map (fun v => (v - m) / k) l) = (add_up l - INR (length l) * m) / k.
Proof.
  unfold Rdiv. induction l as [|a l IH]; [cbn; ring|]. cbn [map length]. rewrite S_INR. unfold add_up in *. cbn [fold_right].
  rewrite IH. ring.
Qed.
Lemma add_up_scale2 (l : list R) m k : add_up (map (fun v => ((v - m) / k) ^ 2) l) = add_up (map (fun v => (v - m) ^ 2) l) / (k * k).
Proof.
  unfold Rdiv. rewrite Rinv_mult. unfold add_up. induction l as [|a l IH]; [cbn; ring|]. cbn [map fold_right]. rewrite IH. ring.
Qed.

(** So every channel of the output has mean 0 and mean square var/(var+eps). *)
Theorem C28_normalised : forall op B C D x op' out c,
  training op = true -> 0 < epsilon op -> (0 < B)%nat -> (0 < D)%nat ->
  length x = (B * C * D)%nat -> length (chans op) = C -> bnDo op B C D x = Some (op', out) -> (c < C)%nat ->
  let v := variance (channel B C D c x) in
  mean (channel B C D c out) = 0 /\
  mean (map (fun y => y ^ 2) (channel B C D c out)) = v / (v + epsilon op) /\ 0 <= v / (v + epsilon op) < 1.
Proof.
  intros op B C D x op' out c T He HB HD L Lc E Hc v.
  destruct (C28_training_output op B C D x T L Lc) as (o1 & o2 & E' & _ & H). rewrite E in E'. injection E' as <- <-.
  rewrite (H c Hc).
  set (l := channel B C D c x) in *.
  assert (Ln : length l = (D * B)%nat) by apply channel_length.
  assert (Np : 0 < INR (length l)) by (rewrite Ln; apply lt_0_INR; nia).
  assert (Vp : 0 <= v).
  { unfold v, l. rewrite channel_var. fold l in Ln. rewrite <- Ln. apply Rmult_le_pos; [apply csq_nonneg|left; apply Rinv_0_lt_compat; exact Np]. }
  assert (Sp : 0 < sqrt (v + epsilon op)) by (apply sqrt_lt_R0; lra).
  assert (Sq : sqrt (v + epsilon op) * sqrt (v + epsilon op) = v + epsilon op) by (apply sqrt_sqrt; lra).
  fold v. split; [|split].
  - unfold mean at 1. rewrite add_up_scale, map_length. unfold mean. field. lra.
  - rewrite map_map. unfold mean at 1. rewrite add_up_scale2, map_length, Sq.
    unfold v at 2, variance, mean at 2. rewrite map_length. field. split; lra.
  - split.
    + apply Rmult_le_pos; [exact Vp|left; apply Rinv_0_lt_compat; lra].
    + apply Rmult_lt_reg_r with (v + epsilon op); [lra|]. unfold Rdiv. rewrite Rmult_assoc, Rinv_l by lra. lra.
Qed.
Print Assumptions C28_normalised.

(** The running statistics move towards the mean and the sample variance of the
    batch, at the rate of the momentum. *)
Theorem C28_running_statistics : forall op B C D x op' out c ch,
  training op = true -> (2 <= D * B)%nat -> length x = (B * C * D)%nat -> length (chans op) = C ->
  bnDo op B C D x = Some (op', out) -> nth_error (chans op) c = Some ch ->
  exists ch', nth_error (chans op') c = Some ch' /\
    runMean ch' = runMean ch + momentum op * (mean (channel B C D c x) - runMean ch) /\
    runVar ch' = runVar ch + momentum op * (sample_variance (channel B C D c x) - runVar ch).
Proof.
  intros op B C D x op' out c ch T Hn L Lc E Ech.
  rewrite (bnDo_training B C D) in E by assumption. injection E as <- _. unfold after. cbn [chans].
  assert (Hc : (c < C)%nat) by (rewrite <- Lc; apply nth_error_Some; congruence).
  eexists. rewrite nth_error_map, nth_seq0 by exact Hc. cbn [option_map]. split; [reflexivity|].
  rewrite (nth_error_nth _ _ ch0 Ech). unfold newChan. cbn [runMean runVar].
  rewrite channel_mean, channel_sample_var by lia. split; ring.
Qed.
Print Assumptions C28_running_statistics.

(** Out of training the running statistics are used and left alone; the saved ones
    are zeroed. *)
Theorem C28_evaluation : forall op B C D x,
  training op = false -> length x = (B * C * D)%nat -> length (chans op) = C ->
  exists op' out, bnDo op B C D x = Some (op', out) /\ length out = length x /\
    forall c ch, nth_error (chans op) c = Some ch ->
      channel B C D c out = map (fun v => (v - runMean ch) / sqrt (runVar ch + epsilon op)) (channel B C D c x) /\
      exists ch', nth_error (chans op') c = Some ch' /\ runMean ch' = runMean ch /\ runVar ch' = runVar ch /\
        saveMean ch' = 0 /\ saveVar ch' = 0.
Proof.
  intros op B C D x T L Lc. rewrite (bnDo_eval B C D) by assumption.
  eexists. eexists. split; [reflexivity|]. split; [rewrite map_length, seq_length; congruence|].
  intros c ch Ech. assert (Hc : (c < C)%nat) by (rewrite <- Lc; apply nth_error_Some; congruence). split.
  - rewrite (channel_map B C D (fun c v => (v - runMean (nth c (chans op) ch0)) / sqrt (runVar (nth c (chans op) ch0) + epsilon op))) by exact Hc.
    rewrite (nth_error_nth _ _ ch0 Ech). reflexivity.
  - unfold after. cbn [chans]. rewrite nth_error_map, Ech. cbn [option_map]. eexists. split; [reflexivity|]. do 3 (split; [reflexivity|]). reflexivity.
Qed.
Print Assumptions C28_evaluation.

(** Leaving training keeps the running statistics; entering it sets every running mean
    to 0 and every running variance to 1. So training followed by evaluation uses what
    training gathered, and evaluation right after entering training divides by the root
    of 1 + epsilon. *)
Theorem C28_set_training : forall op b c ch,
  training (bnSetTraining op b) = b /\ epsilon (bnSetTraining op b) = epsilon op /\ momentum (bnSetTraining op b) = momentum op /\
  length (chans (bnSetTraining op b)) = length (chans op) /\
  (nth_error (chans op) c = Some ch ->
   exists ch', nth_error (chans (bnSetTraining op b)) c = Some ch' /\
     (b = false -> runMean ch' = runMean ch /\ runVar ch' = runVar ch) /\
     (b = true -> runMean ch' = 0 /\ runVar ch' = 1)).
Proof.
  intros op b c ch. destruct b; unfold bnSetTraining, bnReset; cbn [training epsilon momentum chans].
  - rewrite map_length. do 4 (split; [reflexivity|]). intro E. rewrite nth_error_map, E. eexists. split; [reflexivity|].
    split; [discriminate|]. intros _. split; reflexivity.
  - do 4 (split; [reflexivity|]). intro E. exists ch. split; [exact E|]. split; [auto|discriminate].
Qed.
Print Assumptions C28_set_training.

Theorem C28_evaluation_after_toggle : forall op B C D x,
  length x = (B * C * D)%nat -> length (chans op) = C ->
  exists op' out, bnDo (bnSetTraining (bnSetTraining op true) false) B C D x = Some (op', out) /\
    forall c, (c < C)%nat -> channel B C D c out = map (fun v => v / sqrt (1 + epsilon op)) (channel B C D c x).
Proof.
  intros op B C D x L Lc.
  destruct (C28_set_training (bnSetTraining op true) false 0 ch0) as [T [Ee [_ [Ln _]]]].
  destruct (C28_set_training op true 0 ch0) as [_ [Ee' [_ [Ln' _]]]].
  destruct (C28_evaluation _ B C D x T L ltac:(congruence)) as [op' [out [E [_ H]]]].
  exists op', out. split; [exact E|]. intros c Hc.
  destruct (nth_error (chans op) c) as [ch|] eqn:G; [|apply nth_error_None in G; lia].
  destruct (C28_set_training op true c ch) as [_ [_ [_ [_ F]]]]. destruct (F G) as [ch1 [G1 [_ V]]].
  destruct (C28_set_training (bnSetTraining op true) false c ch1) as [_ [_ [_ [_ F']]]]. destruct (F' G1) as [ch2 [G2 [W _]]].
  destruct (H c ch2 G2) as [-> _]. destruct (V eq_refl) as [V1 V2]. destruct (W eq_refl) as [W1 W2].
  apply map_ext. intro v. rewrite W1, W2, V1, V2, Ee, Ee'. f_equal. ring.
Qed.
Print Assumptions C28_evaluation_after_toggle.

(** ** The gradient *)
Definition bnOut (op : bnOp) (B C D : nat) (x : list R) : list R :=
  match bnDo op B C D x with Some (_, out) => out | None => [] end.

(** In training, the gradient operator run after the forward pass returns the
    gradient of the whole map, through the mean and the variance too. *)
Theorem C28_training_gradient : forall op B C D x g ig op' out,
  training op = true -> 0 < epsilon op -> (0 < B)%nat -> (0 < D)%nat ->
  length x = (B * C * D)%nat -> length g = (B * C * D)%nat -> length ig = (B * C * D)%nat -> length (chans op) = C ->
  bnDo op B C D x = Some (op', out) ->
  exists d, bnDiff op' B C D x g ig = Some d /\ is_gradient (bnOut op B C D) x g d.
Proof.
  intros op B C D x g ig op' out T He HB HD L Lg Li Lc E.
  rewrite (bnDo_training B C D) in E by assumption. injection E as <- _.
  rewrite (bnDiff_training B C D); try assumption; [|unfold after; cbn [chans]; rewrite map_length, seq_length; reflexivity].
  eexists. split; [reflexivity|]. split; [rewrite map_length, seq_length; congruence|].
  intros u Lu0. assert (Lu : length u = (B * C * D)%nat) by congruence.
  set (F := fun c t => csum B C D c (fun i =>
      (nth i (shifted x u t) 0 - cmean B C D (shifted x u t) c) / sqrt (csq B C D (shifted x u t) c / INR (D * B) + epsilon op) * nth i g 0)).
  assert (EF : forall t, ip (bnOut op B C D (shifted x u t)) g = sum C (fun c => F c t)).
  { intro t. unfold bnOut. assert (Ls : length (shifted x u t) = (B * C * D)%nat) by (rewrite shifted_len by congruence; exact L).
    rewrite (bnDo_training B C D) by assumption.
    rewrite (ip_channels B C D) by (try rewrite map_length, seq_length; auto).
    apply sum_ext. intros c Hc. unfold F. unfold csum. apply sum_ext. intros s Hs. apply sum_ext. intros d Hd.
    rewrite nth_map_seq by (apply at3_lt; assumption). destruct (at3_div C D s c d Hc Hd) as [_ [-> _]]. reflexivity. }
  assert (Dl := deriv_sum C F (fun c => csum B C D c (fun i => nth i u 0 *
     ((nth i g 0 - csum B C D c (fun i => nth i g 0) / INR (D * B) - (nth i x 0 - cmean B C D x c) *
        (csum B C D c (fun i => (nth i x 0 - cmean B C D x c) * nth i g 0) * (1 / sqrt (csq B C D x c / INR (D * B) + epsilon op))
          * (1 / sqrt (csq B C D x c / INR (D * B) + epsilon op)) / INR (D * B))) * (1 / sqrt (csq B C D x c / INR (D * B) + epsilon op)))))).
  rewrite (ip_channels B C D) by (try rewrite map_length, seq_length; auto).
  match goal with |- derivable_pt_lim _ _ ?l => match type of Dl with _ -> derivable_pt_lim _ _ ?l' => replace l with l' end end.
  - intros e Hee. destruct (Dl ltac:(intros c Hc; apply channel_deriv; auto; nia) e Hee) as [dd Hd].
    exists dd. intros h Hh Hl. rewrite !EF. apply Hd; assumption.
  - apply sum_ext. intros c Hc.
    match goal with |- csum B C D c ?f = csum B C D c ?h => change (sum B (fun s => sum D (fun d => f (at3 C D s c d))) = sum B (fun s => sum D (fun d => h (at3 C D s c d)))) end.
    apply sum_ext. intros s Hs. apply sum_ext. intros d Hd.
    rewrite nth_map_seq by (apply at3_lt; assumption).
    unfold tgrad. cbv zeta. destruct (at3_div C D s c d Hc Hd) as [_ [-> _]]. unfold after. cbn [chans].
    set (G := fun c => newChan B C D op x c (nth c (chans op) ch0)).
    rewrite (nth_error_nth (map G (seq 0 C)) c ch0 (x := G c)) by (rewrite nth_error_map, nth_seq0 by exact Hc; reflexivity).
    unfold invstd, gmean, G, newChan. cbn [saveMean saveVar epsilon]. reflexivity.
Qed.
Print Assumptions C28_training_gradient.

Definition op_ex := {| momentum := 1/10; epsilon := 1; training := true; chans := [ch0; ch0] |}.
Example training_ex :
  training op_ex = true /\ 0 < epsilon op_ex /\ length [1; 5; 3; 7] = (2 * 2 * 1)%nat /\ length (chans op_ex) = 2%nat /\
  channel 2 2 1 1 [1; 5; 3; 7] = [5; 7] /\ mean [5; 7] = 6 /\ variance [5; 7] = 1 /\ sample_variance [5; 7] = 2.
Proof.
  unfold op_ex. cbn [training epsilon chans length]. repeat split; try lra; try reflexivity;
  unfold variance, sample_variance, mean, add_up; cbn; lra.
Qed.

(** Out of training with one entry per channel and sample, the gradient operator is
    right. *)
Theorem C28_evaluation_gradient_flat : forall op B C x g ig op' out,
  training op = false -> length x = (B * C * 1)%nat -> length g = (B * C * 1)%nat -> length ig = (B * C * 1)%nat ->
  length (chans op) = C -> bnDo op B C 1 x = Some (op', out) ->
  exists d, bnDiff op' B C 1 x g ig = Some d /\ is_gradient (bnOut op B C 1) x g d.
Proof.
  intros op B C x g ig op' out T L Lg Li Lc E.
  rewrite (bnDo_eval B C 1) in E by assumption. injection E as <- _.
  rewrite (bnDiff_eval B C 1); try assumption; [|unfold after; cbn [chans]; rewrite map_length; exact Lc].
  eexists. split; [reflexivity|]. split; [rewrite map_length, seq_length; congruence|].
  intros u Lu0. assert (Lu : length u = (B * C * 1)%nat) by congruence.
  set (iv := fun c => 1 / sqrt (runVar (nth c (chans op) ch0) + epsilon op)).
  set (l := sum C (fun c => csum B C 1 c (fun i => nth i u 0 * (nth i g 0 * iv c)))).
  assert (E1 : ip u (map (fun j => let ch := nth (row3 C 1 j) (chans (after op (map zeroSaved (chans op)))) ch0 in
        nth j g 0 * (1 / sqrt ((if (1 =? 1)%nat then runVar ch else saveVar ch / INR (1 * B)) + epsilon (after op (map zeroSaved (chans op)))))) (seq 0 (B * C * 1))) = l).
  { rewrite (ip_channels B C 1) by (try rewrite map_length, seq_length; auto).
    apply sum_ext. intros c Hc. unfold csum. apply sum_ext. intros s Hs. apply sum_ext. intros d Hd.
    rewrite nth_map_seq by (apply at3_lt; assumption). cbv zeta. destruct (at3_div C 1 s c d Hc Hd) as [_ [-> _]].
    unfold after. cbn [chans epsilon Nat.eqb].
    rewrite (nth_indep _ ch0 (zeroSaved ch0)) by (rewrite map_length; lia). rewrite map_nth. reflexivity. }
  rewrite E1.
  assert (E2 : forall t, ip (bnOut op B C 1 (shifted x u t)) g = ip (bnOut op B C 1 x) g + t * l).
  { assert (G : forall z, length z = (B * C * 1)%nat ->
       ip (bnOut op B C 1 z) g = sum C (fun c => csum B C 1 c (fun i => (nth i z 0 - runMean (nth c (chans op) ch0)) * iv c * nth i g 0))).
    { intros z Lz. unfold bnOut. rewrite (bnDo_eval B C 1) by assumption.
      rewrite (ip_channels B C 1) by (try rewrite map_length, seq_length; auto).
      apply sum_ext. intros c Hc. unfold csum. apply sum_ext. intros s Hs. apply sum_ext. intros d Hd.
      rewrite nth_map_seq by (apply at3_lt; assumption). destruct (at3_div C 1 s c d Hc Hd) as [_ [-> _]].
      unfold iv, Rdiv. ring. }
    intro t. rewrite !G by (try rewrite shifted_len by congruence; congruence). unfold l.
    assert (M := @sum_mul_l R CRing_R C t (fun c => csum B C 1 c (fun i => nth i u 0 * (nth i g 0 * iv c)))). cbn [rmul CRing_R] in M.
    rewrite <- M. assert (Ad := @sum_add R CRing_R C (fun c => csum B C 1 c (fun i => (nth i x 0 - runMean (nth c (chans op) ch0)) * iv c * nth i g 0))
      (fun c => t * csum B C 1 c (fun i => nth i u 0 * (nth i g 0 * iv c)))). cbn [radd CRing_R] in Ad. rewrite <- Ad.
    apply sum_ext. intros c Hc. rewrite <- (csum_mul B C 1), <- (csum_add B C 1). unfold csum.
    apply sum_ext. intros s Hs. apply sum_ext. intros d Hd. rewrite nth_shifted_gen by congruence. ring. }
  intros e Hee. exists (mkposreal 1 Rlt_0_1). intros h Hh _. rewrite !E2.
  replace ((ip (bnOut op B C 1 x) g + (0 + h) * l - (ip (bnOut op B C 1 x) g + 0 * l)) / h - l) with 0 by (field; exact Hh).
  rewrite Rabs_R0. exact Hee.
Qed.
Print Assumptions C28_evaluation_gradient_flat.

(** With more entries it divides by the root of epsilon alone: the batch variance it
    uses was zeroed by the forward pass. *)
Theorem C28_evaluation_gradient_spatial : forall op B C D x g ig op' out c,
  training op = false -> (D <> 1)%nat -> length x = (B * C * D)%nat -> length g = (B * C * D)%nat -> length ig = (B * C * D)%nat ->
  length (chans op) = C -> bnDo op B C D x = Some (op', out) -> (c < C)%nat ->
  exists d, bnDiff op' B C D x g ig = Some d /\
    channel B C D c d = map (fun v => v / sqrt (epsilon op)) (channel B C D c g).
Proof.
  intros op B C D x g ig op' out c T HD L Lg Li Lc E Hc.
  rewrite (bnDo_eval B C D) in E by assumption. injection E as <- _.
  rewrite (bnDiff_eval B C D); try assumption; [|unfold after; cbn [chans]; rewrite map_length; exact Lc].
  eexists. split; [reflexivity|]. cbv zeta.
  rewrite <- (channel_map B C D (fun _ v => v / sqrt (epsilon op)) c g Hc). f_equal.
  apply map_ext_in. intros j Hj. apply in_seq in Hj.
  destruct (at3_cover B C D j ltac:(lia)) as (s & k & d & Hs & Hk & Hd & Ej).
  destruct (at3_div C D s k d Hk Hd) as [_ [Ek _]]. rewrite <- Ej in Ek. rewrite Ek.
  apply Nat.eqb_neq in HD. rewrite HD. unfold after. cbn [chans epsilon].
  rewrite (nth_indep _ ch0 (zeroSaved ch0)) by (rewrite map_length; lia). rewrite map_nth. cbn [zeroSaved saveVar].
  unfold Rdiv. rewrite Rmult_0_l, Rplus_0_l. ring.
Qed.
Print Assumptions C28_evaluation_gradient_spatial.

Theorem C28_evaluation_gradient_refuted : exists op x g d op' out,
  training op = false /\ 0 < epsilon op /\ length x = (1 * 1 * 2)%nat /\
  bnDo op 1 1 2 x = Some (op', out) /\ bnDiff op' 1 1 2 x g [0; 0] = Some d /\
  ~ is_gradient (bnOut op 1 1 2) x g d.
Proof.
  set (op := {| momentum := 0; epsilon := 1; training := false; chans := [{| saveMean := 0; saveVar := 0; runMean := 0; runVar := 3 |}] |}).
  assert (Eo := bnDo_eval 1 1 2 op [0; 0] eq_refl eq_refl eq_refl).
  destruct (C28_evaluation_gradient_spatial op 1 1 2 [0; 0] [1; 0] [0; 0] _ _ 0%nat eq_refl ltac:(lia) eq_refl eq_refl eq_refl eq_refl Eo ltac:(lia)) as (d & Ed & Hd).
  exists op, [0; 0], [1; 0], d. do 2 eexists. split; [reflexivity|]. split; [cbn; lra|]. split; [reflexivity|]. split; [exact Eo|]. split; [exact Ed|].
  intros [Ld H]. specialize (H [1; 0] eq_refl).
  assert (S4 : sqrt (3 + 1) = 2) by (replace (3 + 1) with (2 * 2) by ring; apply sqrt_square; lra).
  assert (D0 : nth 0 d 0 = 1).
  { change (channel 1 1 2 0 d) with [nth 0 d 0; nth 1 d 0] in Hd. unfold channel in Hd. cbn [flat_map seq map app Nat.mul Nat.add nth epsilon op] in Hd.
    injection Hd as Hd _. rewrite Hd, sqrt_1. field. }
  assert (I : ip [1; 0] d = 1).
  { destruct d as [|d0 [|d1 [|]]]; cbn in Ld; try discriminate. cbn in D0 |- *. lra. }
  rewrite I in H.
  assert (H2 : derivable_pt_lim (fun t => ip (bnOut op 1 1 2 (shifted [0; 0] [1; 0] t)) [1; 0]) 0 (1/2)).
  { assert (E2 : forall t, ip (bnOut op 1 1 2 (shifted [0; 0] [1; 0] t)) [1; 0] = t / 2).
    { intro t. unfold bnOut. rewrite (bnDo_eval 1 1 2 op (shifted [0; 0] [1; 0] t)) by reflexivity.
      cbn [seq map Nat.mul Nat.add ip nth shifted row3]. unfold row3. cbn [Nat.div Nat.modulo Nat.divmod fst snd Nat.sub nth chans op runMean runVar epsilon].
      rewrite S4. field. }
    intros e He. exists (mkposreal 1 Rlt_0_1). intros h Hh _. rewrite !E2.
    replace (((0 + h) / 2 - 0 / 2) / h - 1 / 2) with 0 by (field; exact Hh). rewrite Rabs_R0. exact He. }
  assert (Q := uniqueness_limite _ _ _ _ H H2). lra.
Qed.
Print Assumptions C28_evaluation_gradient_refuted.

(** ** The buffer is read instead of the input *)
Theorem C28_prealloc_ignores_input : forall op B C D pre x,
  training op = false -> length pre = (B * C * D)%nat -> length (chans op) = C ->
  bnPrealloc op B C D pre x = bnDo op B C D pre.
Proof. intros op B C D pre x T _ _. unfold bnDo, bnPrealloc, newChans. rewrite T. reflexivity. Qed.
Print Assumptions C28_prealloc_ignores_input.

(** Run again with a buffer that already holds a value, as the tape machine does when
    the destination register is not empty (vm_tape_nocuda.go:36-60), it does not
    return the output of that input. *)
Theorem C28_reused_buffer_refuted : exists op x op' out op'' out',
  training op = false /\ bnDo op 1 1 1 x = Some (op', out) /\
  bnPrealloc op' 1 1 1 out x = Some (op'', out') /\ out' <> out.
Proof.
  set (op := {| momentum := 0; epsilon := 1; training := false; chans := [{| saveMean := 0; saveVar := 0; runMean := 0; runVar := 3 |}] |}).
  assert (S4 : sqrt (3 + 1) = 2) by (replace (3 + 1) with (2 * 2) by ring; apply sqrt_square; lra).
  assert (E1 := bnDo_eval 1 1 1 op [4] eq_refl eq_refl eq_refl).
  cbn [seq map Nat.mul Nat.add nth] in E1. unfold row3 in E1.
  cbn [Nat.div Nat.modulo Nat.divmod fst snd Nat.sub nth chans op runMean runVar epsilon map] in E1. rewrite S4 in E1.
  match type of E1 with _ = Some (?o, ?r) => set (op1 := o) in E1; set (out1 := r) in E1 end.
  assert (E2 := bnDo_eval 1 1 1 op1 out1 eq_refl eq_refl eq_refl).
  exists op, [4], op1, out1. do 2 eexists. split; [reflexivity|]. split; [exact E1|]. split.
  - rewrite C28_prealloc_ignores_input by reflexivity. exact E2.
  - cbn [seq map Nat.mul Nat.add nth]. unfold row3.
    cbn [Nat.div Nat.modulo Nat.divmod fst snd Nat.sub nth chans op op1 after runMean runVar epsilon map zeroSaved out1]. rewrite S4.
    intro H. injection H as H. lra.
Qed.
Print Assumptions C28_reused_buffer_refuted.
