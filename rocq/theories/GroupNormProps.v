(** C61 and C62: the statistics, the output and the gradient of group normalisation. *)
From Coq Require Import Arith Reals List Bool Lia Lra.
From Verif Require Import Sums LoopModel LoopProofs ConvProofs AvgProofs DropoutSpec BatchNormSpec BatchNormProofs BatchNormGrad
  GroupNormModel GroupNormSpec GroupNormProofs GroupNormFlow GroupNormGrad.
Import ListNotations.
Local Open Scope R_scope.

(** ** C61: the statistics of a row *)

(** Up to 263 values the row statistics are the mean and the variance. *)
Theorem C61_small_rows : forall x, (0 < length x < 264)%nat ->
  rowwiseMoments x (length x) = Some (mean x, variance x).
Proof. intros x H. apply row_small; [reflexivity|lia|lia]. Qed.
Print Assumptions C61_small_rows.

(** From 264 values on the returned mean is never below the true one, and it is above it
    as soon as two of the first 256 values that are a multiple of 8 apart differ. *)
Theorem C61_large_rows : forall x, (264 <= length x)%nat ->
  exists mu va, rowwiseMoments x (length x) = Some (mu, va) /\ mean x <= mu /\
    (forall i j, (i < 256)%nat -> (j < 256)%nat -> (i mod 8 = j mod 8)%nat -> nth i x 0 <> nth j x 0 -> mean x < mu).
Proof.
  intros x H. destruct (row_large x (length x) eq_refl H) as (mu & va & E & Le & Lt). exists mu, va. split; [exact E|]. split; [exact Le|].
  intros i j Hi Hj Em N. apply Lt. exists (i mod 8)%nat, (i / 8)%nat, (j / 8)%nat.
  assert (Di := Nat.div_mod i 8 ltac:(lia)). assert (Dj := Nat.div_mod j 8 ltac:(lia)). assert (Mi := Nat.mod_upper_bound i 8 ltac:(lia)).
  split; [exact Mi|]. split; [apply Nat.div_lt_upper_bound; lia|]. split; [apply Nat.div_lt_upper_bound; lia|].
  unfold X. replace (i / 8 * 8 + i mod 8)%nat with i by lia. rewrite Em. replace (j / 8 * 8 + j mod 8)%nat with j by lia. exact N.
Qed.
Print Assumptions C61_large_rows.

(** A constant row of any size gives its value and 0. *)
Theorem C61_constant_rows : forall v n, (0 < n)%nat -> rowwiseMoments (repeat v n) n = Some (v, 0).
Proof. intros v n H. apply row_const; [apply repeat_length|exact H|]. intros i Hi. apply nth_error_nth. apply nth_error_repeat. exact Hi. Qed.
Print Assumptions C61_constant_rows.

Theorem C61_mean_refuted : exists x, length x = 264%nat /\ forall va, rowwiseMoments x 264 <> Some (mean x, va).
Proof.
  set (x := 1 :: repeat 0 263). assert (L : length x = 264%nat) by (unfold x; cbn [length]; rewrite repeat_length; reflexivity).
  exists x. split; [exact L|]. intros va E.
  destruct (C61_large_rows x ltac:(lia)) as (mu & va' & E' & _ & Lt). rewrite L in E'. rewrite E in E'. injection E' as <- _.
  specialize (Lt 0%nat 8%nat ltac:(lia) ltac:(lia) eq_refl).
  apply (Rlt_irrefl (mean x)), Lt. unfold x. cbn [nth]. rewrite nth_repeat. lra.
Qed.
Print Assumptions C61_mean_refuted.

Example small_rows_ex : rowwiseMoments [1; 2; 3; 4; 5; 6; 7; 8; 9] 9 = Some (5, 20/3).
Proof.
  change 9%nat with (length [1; 2; 3; 4; 5; 6; 7; 8; 9]) at 1. rewrite C61_small_rows by (cbn; lia).
  unfold variance, mean, add_up. cbn [map fold_right length INR]. f_equal. f_equal; field.
Qed.

(** ** C62: output and gradient *)

(** With the channels a multiple of the groups and fewer than 264 values per group, the
    output is the input with every group centred and scaled. *)
Theorem C62_output : forall groups d img batch eps x,
  (0 < groups)%nat -> (0 < d * img < 264)%nat -> length x = (batch * (groups * d) * img)%nat ->
  exists op', gnDo (gnNew batch groups eps) batch (groups * d) img x = Some (op', group_normalise (groups * d) d img eps x).
Proof.
  intros groups d img batch eps x Pg Pi L. eexists.
  refine (gnDo_small (gnNew batch groups eps) batch d img x Pg Pi L _ _); apply repeat_length.
Qed.
Print Assumptions C62_output.

(** The gradient operator, given the gradient of the output, then returns the gradient of
    that map. *)
Theorem C62_gradient : forall groups d img batch eps x g op' y,
  (0 < groups)%nat -> (0 < d * img < 264)%nat -> 0 < eps -> length x = (batch * (groups * d) * img)%nat -> length g = length x ->
  gnDo (gnNew batch groups eps) batch (groups * d) img x = Some (op', y) ->
  exists dx, gnDiff op' batch (groups * d) img x g = Some dx /\ is_gradient (group_normalise (groups * d) d img eps) x g dx.
Proof.
  intros groups d img batch eps x g op' y Pg Pi He L Lg E.
  refine (grad_small (gnNew batch groups eps) batch d img x g op' y Pg Pi He L Lg _ _ E); apply repeat_length.
Qed.
Print Assumptions C62_gradient.

Lemma nth_vadd a b n i : length a = n -> length b = n -> (i < n)%nat -> nth i (vadd a b) 0 = nth i a 0 + nth i b 0.
Proof. apply nth_vzip. Qed.

(** Automatic differentiation hands the output itself to that operator.  What it adds to
    the input's derivative is eps * y / (var + eps)^(3/2), whatever the output's
    derivative is. *)
Theorem C62_automatic : forall groups d img batch eps x xd yd op' y,
  (0 < groups)%nat -> (0 < d * img < 264)%nat -> 0 < eps -> length x = (batch * (groups * d) * img)%nat -> length xd = length x ->
  gnDo (gnNew batch groups eps) batch (groups * d) img x = Some (op', y) ->
  exists xd', gnDoDiff op' batch (groups * d) img x y xd yd = Some xd' /\
    forall i, (i < length x)%nat ->
      let v := variance (group_values (groups * d) d img x (i / img / (groups * d)) (i / img mod (groups * d) / d)) in
      nth i xd' 0 = nth i xd 0 + eps * nth i y 0 / ((v + eps) * sqrt (v + eps)).
Proof.
  intros groups d img batch eps x xd yd op' y Pg Pi He L Lxd E.
  rewrite (gnDo_small (gnNew batch groups eps)) in E by (try assumption; apply repeat_length). injection E as <- <-.
  cbn [numGroups epsilon gnNew].
  set (G := (batch * groups)%nat) in *. set (inner := (d * img)%nat) in *.
  match goal with |- context [gnDoDiff ?o] => set (op' := o) end.
  set (y := group_normalise (groups * d) d img eps x).
  assert (Ly : length y = length x) by (unfold y, group_normalise; rewrite map_length, seq_length; reflexivity).
  assert (Ed := gnDiff_ok op' batch d img x y Pg L Ly). change (numGroups op') with groups in Ed.
  specialize (Ed ltac:(unfold op'; cbn [gmeans]; rewrite map_length, seq_length; reflexivity) ltac:(unfold op'; cbn [rstds]; rewrite map_length, seq_length; reflexivity)).
  unfold gnDoDiff. rewrite Ed. eexists. split; [reflexivity|]. intros i Hi. cbv zeta.
  rewrite (nth_vadd _ _ (length x)); [|exact Lxd|rewrite map_length, seq_length; reflexivity|exact Hi]. f_equal.
  assert (EL : length x = (1 * G * inner)%nat) by (rewrite L; unfold G, inner; ring).
  destruct (cell_group groups d img batch i ltac:(lia)) as (Hs & Hg & Eq).
  rewrite (group_values_blk groups d img x _ _ batch) by assumption. rewrite <- Eq. fold inner.
  set (c := (i / inner)%nat). assert (Hc : (c < G)%nat) by (apply Nat.div_lt_upper_bound; lia).
  rewrite nth_map_seq by exact Hi. unfold dcell. fold inner. fold c. unfold op'. cbn [gmeans rstds]. rewrite !nth_map_seq by exact Hc.
  rewrite (blk_channel G) by (try assumption; lia). rewrite channel_mean, channel_var.
  set (mu := cmean 1 G inner x c). set (k := INR (inner * 1)). set (v := csq 1 G inner x c / k).
  assert (Ek : k = INR inner) by (unfold k; rewrite Nat.mul_1_r; reflexivity). rewrite <- Ek.
  assert (Kp : 0 < k) by (rewrite Ek; apply lt_0_INR; lia).
  assert (Vp : 0 <= v). { unfold v. apply Rmult_le_pos; [apply csq_nonneg|left; apply Rinv_0_lt_compat; exact Kp]. }
  assert (Sp : 0 < sqrt (v + eps)) by (apply sqrt_lt_R0; lra).
  assert (Sq : sqrt (v + eps) * sqrt (v + eps) = v + eps) by (apply sqrt_sqrt; lra). set (q := sqrt (v + eps)) in *.
  assert (Yc : forall p, (p < inner)%nat -> nth (c * inner + p) y 0 = (nth (c * inner + p) x 0 - mu) / q).
  { intros p Hp. assert (Hl : (c * inner + p < length x)%nat) by (assert ((c + 1) * inner <= G * inner)%nat by (apply Nat.mul_le_mono_r; lia); lia).
    unfold y. rewrite (normalise_cell groups d img eps batch) by (try assumption; lia). fold inner. fold G.
    replace ((c * inner + p) / inner)%nat with c by (apply (Nat.div_unique _ _ _ p); lia). fold mu. rewrite <- Ek. reflexivity. }
  assert (Yi : nth i y 0 = (nth i x 0 - mu) / q).
  { assert (D := Nat.div_mod i inner ltac:(lia)). assert (M := Nat.mod_upper_bound i inner ltac:(lia)). fold c in D.
    replace i with (c * inner + i mod inner)%nat by lia. apply Yc. exact M. }
  assert (Az : csum 1 G inner c (fun j => nth j x 0 - mu) = 0) by (apply a_zero; [exact Hc|lia]).
  assert (B0 : gsum d img c (fun j => nth j y 0) = 0).
  { unfold gsum. fold inner. transitivity (/ q * csum 1 G inner c (fun j => nth j x 0 - mu)); [|rewrite Az; ring].
    rewrite <- csum_mul, csum_gsum. apply sum_ext. intros p Hp. rewrite Yc by exact Hp. unfold Rdiv. ring. }
  assert (B1 : gsum d img c (fun j => nth j y 0 * nth j x 0) = k * v / q).
  { unfold gsum. fold inner.
    transitivity (/ q * csum 1 G inner c (fun j => (nth j x 0 - mu) * (nth j x 0 - mu)) + / q * mu * csum 1 G inner c (fun j => nth j x 0 - mu)).
    - rewrite <- !csum_mul, <- csum_add, csum_gsum. apply sum_ext. intros p Hp. rewrite Yc by exact Hp. unfold Rdiv. ring.
    - rewrite Az. change (csum 1 G inner c (fun j => (nth j x 0 - mu) * (nth j x 0 - mu))) with (csq 1 G inner x c). unfold v. field. split; lra. }
  rewrite B0, B1, Yi, <- Sq. clearbody q. clear - Sq Sp Kp.
  replace eps with (q * q - v) by lra. field. lra.
Qed.
Print Assumptions C62_automatic.

(** So with a zero derivative of the output the input still gets one. *)
Theorem C62_automatic_refuted : exists x y op' dx,
  gnDo (gnNew 1 1 1) 1 (1 * 1) 2 x = Some (op', y) /\
  gnDoDiff op' 1 (1 * 1) 2 x y [0; 0] [0; 0] = Some dx /\
  ~ is_gradient (group_normalise (1 * 1) 1 2 1) x [0; 0] dx.
Proof.
  destruct (C62_output 1 1 2 1 1 [0; 2] ltac:(lia) ltac:(lia) eq_refl) as [op' E].
  destruct (C62_automatic 1 1 2 1 1 [0; 2] [0; 0] [0; 0] op' _ ltac:(lia) ltac:(lia) Rlt_0_1 eq_refl eq_refl E) as (dx & Ed & V).
  exists [0; 2]. eexists. exists op', dx. split; [exact E|]. split; [exact Ed|].
  intros [Ld Hg]. specialize (Hg [1; 0] eq_refl).
  assert (D0 : derivable_pt_lim (fun t => ip (group_normalise (1 * 1) 1 2 1 (shifted [0; 2] [1; 0] t)) [0; 0]) 0 0).
  { intros e He. exists (mkposreal 1 Rlt_0_1). intros h Hh _.
    assert (Z : forall l, ip l [0; 0] = 0) by (intros [|a [|b [|c l]]]; cbn; ring).
    rewrite !Z. replace ((0 - 0) / h - 0) with 0 by (unfold Rdiv; ring). rewrite Rabs_R0. exact He. }
  assert (U := uniqueness_limite _ _ _ _ Hg D0).
  specialize (V 0%nat ltac:(cbn; lia)). cbv zeta in V.
  change (group_values (1 * 1) 1 2 [0; 2] (0 / 2 / (1 * 1)) (0 / 2 mod (1 * 1) / 1)) with [0; 2] in V.
  assert (Ev : variance [0; 2] = 1) by (unfold variance, mean, add_up; cbn; field).
  assert (Em : mean [0; 2] = 1) by (unfold mean, add_up; cbn; field).
  assert (Y0 : nth 0 (group_normalise (1 * 1) 1 2 1 [0; 2]) 0 = (0 - mean [0; 2]) / sqrt (variance [0; 2] + 1)) by reflexivity.
  rewrite Y0, Ev, Em in V. cbn [nth] in V.
  assert (Sp : 0 < sqrt (1 + 1)) by (apply sqrt_lt_R0; lra).
  assert (Sq : sqrt (1 + 1) * sqrt (1 + 1) = 1 + 1) by (apply sqrt_sqrt; lra).
  destruct dx as [|a [|b [|]]]; cbn in Ld; try discriminate. cbn [nth ip] in V, U.
  assert (a = 0) by lra. rewrite H in V.
  assert (0 + 1 * ((0 - 1) / sqrt (1 + 1)) / ((1 + 1) * sqrt (1 + 1)) = -1/4).
  { transitivity (-1 / (2 * (sqrt (1 + 1) * sqrt (1 + 1)))); [field; lra|]. rewrite Sq. field. }
  lra.
Qed.
Print Assumptions C62_automatic_refuted.

(** With 264 or more values per group the output of a group does not have mean 0: its sum
    is negative as soon as two of the group's first 256 values a multiple of 8 apart differ. *)
Theorem C62_large_groups : forall groups d img batch eps x s g i j,
  (0 < groups)%nat -> (264 <= d * img)%nat -> 0 < eps -> length x = (batch * (groups * d) * img)%nat ->
  (s < batch)%nat -> (g < groups)%nat ->
  (i < 256)%nat -> (j < 256)%nat -> (i mod 8 = j mod 8)%nat ->
  nth i (group_values (groups * d) d img x s g) 0 <> nth j (group_values (groups * d) d img x s g) 0 ->
  exists op' y, gnDo (gnNew batch groups eps) batch (groups * d) img x = Some (op', y) /\
    add_up (group_values (groups * d) d img y s g) < 0.
Proof.
  intros groups d img batch eps x s g i j Pg Pi He L Hs Hg Hi Hj Em N.
  set (inner := (d * img)%nat) in *. set (G := (batch * groups)%nat).
  assert (EL : length x = (G * inner)%nat) by (rewrite L; unfold G, inner; ring).
  set (mu := fun c => match rowwiseMoments (blk x inner c) inner with Some (a, _) => a | None => 0 end).
  set (va := fun c => match rowwiseMoments (blk x inner c) inner with Some (_, b) => b | None => 0 end).
  assert (Lb : forall c, (c < G)%nat -> length (blk x inner c) = inner) by (intros c Hc; apply blk_length; rewrite EL; apply Nat.mul_le_mono_r; lia).
  assert (Hm : forall c, (c < G)%nat -> rowwiseMoments (blk x inner c) inner = Some (mu c, va c)).
  { intros c Hc. destruct (row_large (blk x inner c) inner (Lb c Hc) Pi) as (a & b & E & _). unfold mu, va. rewrite E. reflexivity. }
  assert (E := gnDo_general (gnNew batch groups eps) batch (groups * d) img x mu va). cbn [numGroups gnNew] in E. cbv zeta in E.
  rewrite div_groups in E by exact Pg. fold inner in E. fold G in E.
  specialize (E ltac:(lia) ltac:(apply repeat_length) ltac:(apply repeat_length) Hm). eexists. eexists. split; [exact E|].
  match goal with |- add_up (group_values _ _ _ ?z _ _) < 0 => set (y := z) end.
  assert (Ly : length y = length x) by (unfold y; rewrite map_length, seq_length; reflexivity).
  rewrite (group_values_blk groups d img y s g batch) by (try assumption; congruence).
  rewrite (group_values_blk groups d img x s g batch) in N by assumption. fold inner in N. fold inner.
  set (c := (s * groups + g)%nat) in *. assert (Hc : (c < G)%nat) by (unfold c, G; nia).
  destruct (C61_large_rows (blk x inner c) ltac:(rewrite Lb by exact Hc; exact Pi)) as (a & b & Er & _ & Lt).
  rewrite Lb in Er by exact Hc. rewrite Hm in Er by exact Hc. injection Er as <- _. specialize (Lt i j Hi Hj Em N).
  assert (P : 0 < INR inner) by (apply lt_0_INR; lia).
  assert (Ms := mean_sum (blk x inner c) inner (Lb c Hc) ltac:(lia)).
  assert (Ya := add_up_map (blk y inner c) inner ltac:(apply blk_length; rewrite Ly, EL; apply Nat.mul_le_mono_r; lia) (fun v => v)).
  rewrite map_id in Ya. rewrite Ya.
  set (r := rs (gnNew batch groups eps) va c).
  assert (Rp : 0 < r). { unfold r, rs, rsOf. cbn [epsilon gnNew]. apply Rdiv_lt_0_compat; [lra|]. apply sqrt_lt_R0. assert (Z := Rmax_r (va c) 0). lra. }
  assert (Sy : sum inner (fun p => nth p (blk y inner c) 0) = r * sum inner (fun p => nth p (blk x inner c) 0) - INR inner * (r * mu c)).
  { assert (B1 := @sum_mul_l R CRing_R inner r (fun p => nth p (blk x inner c) 0)). cbn [rmul CRing_R] in B1. rewrite <- B1, <- sum_const.
    assert (B2 := @sum_sub R CRing_R inner (fun p => r * nth p (blk x inner c) 0) (fun _ => r * mu c)). cbn [rsub CRing_R] in B2. rewrite <- B2.
    apply sum_ext. intros p Hp. assert (Hb : ((c + 1) * inner <= length x)%nat) by (rewrite EL; apply Nat.mul_le_mono_r; lia).
    rewrite !nth_blk by (try assumption; congruence). unfold y. rewrite nth_map_seq by lia.
    destruct (Nat.ltb_spec (c * inner + p) (G * inner)); [|lia]. unfold tf. fold inner.
    replace ((c * inner + p) / inner)%nat with c by (apply (Nat.div_unique _ _ _ p); lia). fold r. ring. }
  rewrite Sy, <- Ms. replace (r * (mean (blk x inner c) * INR inner) - INR inner * (r * mu c)) with (- (r * INR inner * (mu c - mean (blk x inner c)))) by ring.
  assert (0 < r * INR inner * (mu c - mean (blk x inner c))); [|lra]. apply Rmult_lt_0_compat; [apply Rmult_lt_0_compat; assumption|lra].
Qed.
Print Assumptions C62_large_groups.

(** With channels that are not a multiple of the groups the last batch * (channels mod
    groups) channels of the output are never written: they are 0. *)
Theorem C62_remainder : forall groups channels img batch eps x,
  (0 < groups)%nat -> length x = (batch * channels * img)%nat ->
  exists op' y, gnDo (gnNew batch groups eps) batch channels img x = Some (op', y) /\ length y = length x /\
    forall i, (length x - batch * (channels mod groups) * img <= i < length x)%nat -> nth i y 0 = 0.
Proof.
  intros groups channels img batch eps x Pg L. set (d := (channels / groups)%nat). set (inner := (d * img)%nat). set (G := (batch * groups)%nat).
  assert (D := Nat.div_mod channels groups ltac:(lia)). fold d in D.
  assert (EL : length x = (G * inner + batch * (channels mod groups) * img)%nat) by (rewrite L, D at 1; unfold G, inner; ring).
  set (mu := fun c => match rowwiseMoments (blk x inner c) inner with Some (a, _) => a | None => 0 end).
  set (va := fun c => match rowwiseMoments (blk x inner c) inner with Some (_, b) => b | None => 0 end).
  assert (Hm : forall c, (c < G)%nat -> rowwiseMoments (blk x inner c) inner = Some (mu c, va c)).
  { intros c Hc. assert (Lb : length (blk x inner c) = inner) by (apply blk_length; assert ((c + 1) * inner <= G * inner)%nat by (apply Nat.mul_le_mono_r; lia); lia).
    destruct (row_general (blk x inner c) inner Lb) as (a & b & e & E & _). unfold mu, va. rewrite E. reflexivity. }
  assert (E := gnDo_general (gnNew batch groups eps) batch channels img x mu va). cbn [numGroups gnNew] in E. cbv zeta in E.
  fold d in E. fold inner in E. fold G in E.
  specialize (E ltac:(lia) ltac:(apply repeat_length) ltac:(apply repeat_length) Hm). eexists. eexists. split; [exact E|].
  split; [rewrite map_length, seq_length; reflexivity|]. intros i Hi. rewrite nth_map_seq by lia.
  destruct (Nat.ltb_spec i (G * inner)); [lia|reflexivity].
Qed.
Print Assumptions C62_remainder.

Example output_ex : exists op', gnDo (gnNew 1 2 1) 1 (2 * 1) 2 [0; 2; 5; 5] = Some (op', group_normalise (2 * 1) 1 2 1 [0; 2; 5; 5]) /\
  group_values (2 * 1) 1 2 [0; 2; 5; 5] 0 0 = [0; 2] /\ group_values (2 * 1) 1 2 [0; 2; 5; 5] 0 1 = [5; 5] /\
  nth 1 (group_normalise (2 * 1) 1 2 1 [0; 2; 5; 5]) 0 = 1 / sqrt 2.
Proof.
  destruct (C62_output 2 1 2 1 1 [0; 2; 5; 5] ltac:(lia) ltac:(lia) eq_refl) as [op' E]. exists op'. split; [exact E|].
  split; [reflexivity|]. split; [reflexivity|].
  assert (Ev : variance [0; 2] = 1) by (unfold variance, mean, add_up; cbn; field).
  assert (Em : mean [0; 2] = 1) by (unfold mean, add_up; cbn; field).
  transitivity ((2 - mean [0; 2]) / sqrt (variance [0; 2] + 1)); [reflexivity|]. rewrite Ev, Em.
  replace (1 + 1) with 2 by ring. f_equal. ring.
Qed.
(** A remainder: three channels in two groups. *)
Example remainder_ex : (3 mod 2 = 1)%nat /\ (length [1; 2; 3] - 1 * (3 mod 2) * 1 <= 2 < length [1; 2; 3])%nat.
Proof. cbn. lia. Qed.
