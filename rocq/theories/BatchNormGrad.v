(** Batch normalisation against its specification: channels, and the derivative of
    the normalisation. *)
From Coq Require Import Arith Reals List Bool Lia Lra.
From Verif Require Import Sums LoopModel LoopProofs ConvProofs AvgProofs DropoutSpec BatchNormModel BatchNormSpec BatchNormProofs.
Import ListNotations.
Local Open Scope R_scope.

Section Bridge.
Variables B C D : nat.
Local Notation N := (B * C * D)%nat.
Local Notation csum := (csum B C D).

Lemma csum_add c f g : csum c (fun i => f i + g i) = csum c f + csum c g.
Proof.
  unfold BatchNormProofs.csum.
  assert (E := sum_add (A := R) B (fun s => sum D (fun d => f (at3 C D s c d))) (fun s => sum D (fun d => g (at3 C D s c d)))).
  cbn [radd CRing_R] in E. rewrite <- E.
  apply sum_ext. intros s _. exact (@sum_add R CRing_R D (fun d => f (at3 C D s c d)) (fun d => g (at3 C D s c d))).
Qed.
Lemma csum_mul c k f : csum c (fun i => k * f i) = k * csum c f.
Proof.
  unfold BatchNormProofs.csum. assert (E := sum_mul_l (A := R) B k (fun s => sum D (fun d => f (at3 C D s c d)))).
  cbn [rmul CRing_R] in E. rewrite <- E.
  apply sum_ext. intros s _. exact (@sum_mul_l R CRing_R D k (fun d => f (at3 C D s c d))).
Qed.
Lemma sum_const n (k : R) : sum n (fun _ => k) = INR n * k.
Proof. induction n as [|n IH]; [cbn; lra|]. cbn [sum]. rewrite IH, S_INR. cbn [radd CRing_R]. ring. Qed.
Lemma csum_const c k : csum c (fun _ => k) = INR (D * B) * k.
Proof.
  unfold BatchNormProofs.csum. rewrite (sum_ext B _ (fun _ => INR D * k)) by (intros; apply sum_const).
  rewrite sum_const, mult_INR. ring.
Qed.

Lemma ip_sum p q : forall n, length p = n -> length q = n -> ip p q = sum n (fun i => nth i p 0 * nth i q 0).
Proof.
  revert q. induction p as [|a p IH]; intros [|b q] [|n] Lp Lq; cbn in Lp, Lq; try discriminate; [reflexivity|].
  cbn [ip]. rewrite (IH q n) by lia. change (Datatypes.S n) with (1 + n)%nat. rewrite (sum_split (A := R)).
  cbn [sum nth radd r0 CRing_R Nat.add]. ring.
Qed.

Lemma ip_channels p q : length p = N -> length q = N ->
  ip p q = sum C (fun c => csum c (fun i => nth i p 0 * nth i q 0)).
Proof.
  intros Lp Lq. rewrite (ip_sum p q N) by assumption. rewrite (sum_prod (A := R)), (sum_prod (A := R)).
  rewrite (sum_swap (A := R) B C). reflexivity.
Qed.

Lemma add_up_app l l' : add_up (l ++ l') = add_up l + add_up l'.
Proof. unfold add_up. induction l as [|a l IH]; cbn; [lra|]. rewrite IH. lra. Qed.
Lemma add_up_seq (f : nat -> R) n : add_up (map f (seq 0 n)) = sum n f.
Proof.
  induction n as [|n IH]; [reflexivity|]. rewrite seq_S, map_app, add_up_app, IH. cbn. lra.
Qed.
Lemma channel_sum f c x : add_up (map f (channel B C D c x)) = csum c (fun i => f (nth i x 0)).
Proof.
  unfold channel, BatchNormProofs.csum.
  assert (G : forall m, add_up (map f (flat_map (fun s => map (fun d => nth ((s * C + c) * D + d)%nat x 0) (seq 0 D)) (seq 0 m)))
     = sum m (fun s => sum D (fun d => f (nth (at3 C D s c d) x 0)))).
  { induction m as [|m IH]; [reflexivity|]. rewrite seq_S, flat_map_app, map_app, add_up_app, IH.
    cbn [flat_map Nat.add sum]. rewrite app_nil_r, map_map, add_up_seq. reflexivity. }
  apply G.
Qed.
Lemma channel_length c x : length (channel B C D c x) = (D * B)%nat.
Proof.
  unfold channel. rewrite (flat_map_seq_length _ D) by (intros; rewrite map_length, seq_length; reflexivity). lia.
Qed.
Lemma channel_mean c x : mean (channel B C D c x) = cmean B C D x c.
Proof.
  unfold mean, cmean. rewrite channel_length. rewrite <- (channel_sum (fun v => v)), map_id. reflexivity.
Qed.
Lemma channel_sq c x : add_up (map (fun v => (v - mean (channel B C D c x)) ^ 2) (channel B C D c x)) = csq B C D x c.
Proof.
  rewrite channel_sum, channel_mean. unfold csq.
  unfold BatchNormProofs.csum. apply sum_ext. intros s _. apply sum_ext. intros d _. ring.
Qed.
Lemma channel_var c x : variance (channel B C D c x) = csq B C D x c / INR (D * B).
Proof. unfold variance, mean at 1. rewrite channel_sq, map_length, channel_length. reflexivity. Qed.
Lemma channel_sample_var c x : (1 <= D * B)%nat -> sample_variance (channel B C D c x) = csq B C D x c / INR (D * B - 1).
Proof.
  intro H. unfold sample_variance. rewrite channel_sq, channel_length, minus_INR by exact H. reflexivity.
Qed.

Lemma nth_map_seq (f : nat -> R) n i : (i < n)%nat -> nth i (map f (seq 0 n)) 0 = f i.
Proof. intro H. apply nth_error_nth. rewrite nth_error_map, nth_seq0 by exact H. reflexivity. Qed.

Lemma channel_map (F : nat -> R -> R) c x : (c < C)%nat ->
  channel B C D c (map (fun j => F (row3 C D j) (nth j x 0)) (seq 0 N)) = map (F c) (channel B C D c x).
Proof.
  intro Hc. unfold channel. rewrite flat_map_concat_map, flat_map_concat_map, concat_map, map_map.
  f_equal. apply map_ext_in. intros s Hs. apply in_seq in Hs. rewrite map_map. apply map_ext_in. intros d Hd. apply in_seq in Hd.
  change ((s * C + c) * D + d)%nat with (at3 C D s c d).
  rewrite nth_map_seq by (apply at3_lt; lia). destruct (at3_div C D s c d Hc ltac:(lia)) as [_ [-> _]]. reflexivity.
Qed.

(** csq is not negative *)
Lemma sum_nonneg n (f : nat -> R) : (forall i, 0 <= f i) -> 0 <= sum n f.
Proof. intro H. induction n as [|n IH]; cbn; [lra|]. specialize (H n). lra. Qed.
Lemma csq_nonneg x c : 0 <= csq B C D x c.
Proof.
  unfold csq, BatchNormProofs.csum. apply sum_nonneg. intro s. apply sum_nonneg. intro d.
  exact (Rle_0_sqr (nth (at3 C D s c d) x 0 - cmean B C D x c)).
Qed.

(** ** The derivative of a normalised channel *)
Lemma quot_deriv G0 G1 q0 V1 V2 : 0 < q0 ->
  derivable_pt_lim (fun t => (G0 + t * G1) / sqrt (q0 + 2 * t * V1 + t * t * V2)) 0
    (G1 / sqrt q0 - G0 * V1 / (sqrt q0 * sqrt q0 * sqrt q0)).
Proof.
  intro P. set (q := fun t => q0 + 2 * t * V1 + t * t * V2).
  assert (Dq : derivable_pt_lim q 0 (2 * V1)).
  { assert (Hd : derivable_pt_lim (fct_cte q0 + (mult_real_fct (2 * V1) id) + mult_real_fct V2 (id * id))%F 0
       (0 + 2 * V1 * 1 + V2 * (1 * id 0 + id 0 * 1))).
    { apply derivable_pt_lim_plus; [apply derivable_pt_lim_plus|].
      - apply derivable_pt_lim_const.
      - apply derivable_pt_lim_scal, derivable_pt_lim_id.
      - apply derivable_pt_lim_scal. apply derivable_pt_lim_mult; apply derivable_pt_lim_id. }
    replace (2 * V1) with (0 + 2 * V1 * 1 + V2 * (1 * id 0 + id 0 * 1)) by (unfold id; ring).
    intros eps He. destruct (Hd eps He) as [d Hd']. exists d. intros h Hh Hl. specialize (Hd' h Hh Hl).
    unfold plus_fct, fct_cte, mult_real_fct, mult_fct, id in Hd'. unfold q.
    replace (q0 + 2 * (0 + h) * V1 + (0 + h) * (0 + h) * V2 - (q0 + 2 * 0 * V1 + 0 * 0 * V2))
      with (q0 + 2 * V1 * (0 + h) + V2 * ((0 + h) * (0 + h)) - (q0 + 2 * V1 * 0 + V2 * (0 * 0))) by ring.
    exact Hd'. }
  assert (Q0 : q 0 = q0) by (unfold q; ring).
  assert (Ds : derivable_pt_lim (comp sqrt q) 0 (/ (2 * sqrt q0) * (2 * V1))).
  { apply derivable_pt_lim_comp; [exact Dq|]. rewrite Q0. apply derivable_pt_lim_sqrt. exact P. }
  assert (Dn : derivable_pt_lim (fun t => G0 + t * G1) 0 G1).
  { intros eps He. exists (mkposreal 1 Rlt_0_1). intros h Hh _.
    replace ((G0 + (0 + h) * G1 - (G0 + 0 * G1)) / h - G1) with 0 by (field; exact Hh). rewrite Rabs_R0. exact He. }
  assert (Sp : 0 < sqrt q0) by (apply sqrt_lt_R0; exact P).
  assert (Ne : comp sqrt q 0 <> 0) by (unfold comp; rewrite Q0; lra).
  assert (H := derivable_pt_lim_div _ _ 0 _ _ Dn Ds Ne). unfold div_fct in H.
  unfold comp in H. rewrite Q0 in H. rewrite Rmult_0_l, Rplus_0_r in H.
  replace (G1 / sqrt q0 - G0 * V1 / (sqrt q0 * sqrt q0 * sqrt q0))
    with ((G1 * sqrt q0 - / (2 * sqrt q0) * (2 * V1) * G0) / Rsqr (sqrt q0)).
  - exact H.
  - unfold Rsqr. field. lra.
Qed.

(** one channel moving along [u] *)
Lemma nth_shifted_gen x u t i : length u = length x -> nth i (shifted x u t) 0 = nth i x 0 + t * nth i u 0.
Proof.
  revert u i. induction x as [|a x IH]; intros [|b u] i L; cbn in L; try discriminate; [destruct i; cbn; lra|].
  destruct i; cbn; [reflexivity|]. apply IH. lia.
Qed.
Lemma shifted_len x u t : length u = length x -> length (shifted x u t) = length x.
Proof. revert u. induction x as [|a x IH]; intros [|b u] L; cbn in *; try discriminate; auto. Qed.

Section OneChannel.
Variables (c : nat) (x u g : list R).
Hypotheses (Hc : (c < C)%nat) (Lx : length x = N) (Lu : length u = N) (Lg : length g = N).
Hypothesis Pn : (0 < D * B)%nat.
Let n := INR (D * B).
Let a i := nth i x 0 - cmean B C D x c.
Let b i := nth i u 0 - cmean B C D u c.

Lemma n_pos : 0 < n. Proof. apply lt_0_INR. exact Pn. Qed.

Lemma csum_ext' f h : (forall i, f i = h i) -> csum c f = csum c h.
Proof. intro H. apply csum_ext; [exact Hc|]. intros; apply H. Qed.

Lemma csum_lin f h t : csum c (fun i => f i + t * h i) = csum c f + t * csum c h.
Proof. rewrite csum_add, csum_mul. reflexivity. Qed.

Lemma cmean_shifted t : cmean B C D (shifted x u t) c = cmean B C D x c + t * cmean B C D u c.
Proof.
  unfold cmean. rewrite (csum_ext' _ (fun i => nth i x 0 + t * nth i u 0)).
  - rewrite csum_lin. unfold Rdiv. ring.
  - intro i. apply nth_shifted_gen. congruence.
Qed.
Lemma centred_shifted t i : nth i (shifted x u t) 0 - cmean B C D (shifted x u t) c = a i + t * b i.
Proof. rewrite cmean_shifted, nth_shifted_gen by congruence. unfold a, b. ring. Qed.
Lemma csq_shifted t : csq B C D (shifted x u t) c =
  csum c (fun i => a i * a i) + 2 * t * csum c (fun i => a i * b i) + t * t * csum c (fun i => b i * b i).
Proof.
  unfold csq. rewrite (csum_ext' _ (fun i => (a i * a i + (2 * t) * (a i * b i)) + (t * t) * (b i * b i))).
  - rewrite csum_lin, csum_lin. reflexivity.
  - intro i. rewrite centred_shifted. ring.
Qed.

Lemma a_zero : csum c a = 0.
Proof.
  unfold a. rewrite (csum_ext' _ (fun i => nth i x 0 + (-1) * cmean B C D x c)) by (intro; ring).
  rewrite csum_add, csum_const. unfold cmean. fold n. field. apply Rgt_not_eq, n_pos.
Qed.

Lemma channel_deriv eps : 0 < eps ->
  let iv := 1 / sqrt (csq B C D x c / n + eps) in
  derivable_pt_lim (fun t => csum c (fun i =>
      (nth i (shifted x u t) 0 - cmean B C D (shifted x u t) c) / sqrt (csq B C D (shifted x u t) c / n + eps) * nth i g 0)) 0
    (csum c (fun i => nth i u 0 * ((nth i g 0 - csum c (fun i => nth i g 0) / n - a i * (csum c (fun i => a i * nth i g 0) * iv * iv / n)) * iv))).
Proof.
  intros He iv.
  set (G0 := csum c (fun i => a i * nth i g 0)). set (G1 := csum c (fun i => b i * nth i g 0)).
  set (V1 := csum c (fun i => a i * b i) / n). set (V2 := csum c (fun i => b i * b i) / n).
  set (q0 := csq B C D x c / n + eps).
  assert (Np := n_pos).
  assert (Q0 : 0 < q0).
  { assert (S0 := csq_nonneg x c). assert (0 <= csq B C D x c / n) by (apply Rmult_le_pos; [exact S0|left; apply Rinv_0_lt_compat; exact Np]). unfold q0. lra. }
  assert (E0 : csum c (fun i => a i * a i) = csq B C D x c) by reflexivity.
  assert (EF : forall t, csum c (fun i =>
      (nth i (shifted x u t) 0 - cmean B C D (shifted x u t) c) / sqrt (csq B C D (shifted x u t) c / n + eps) * nth i g 0)
      = (G0 + t * G1) / sqrt (q0 + 2 * t * V1 + t * t * V2)).
  { intro t. rewrite csq_shifted, E0.
    replace ((csq B C D x c + 2 * t * csum c (fun i => a i * b i) + t * t * csum c (fun i => b i * b i)) / n + eps)
      with (q0 + 2 * t * V1 + t * t * V2) by (unfold q0, V1, V2, Rdiv; ring).
    set (sq := sqrt (q0 + 2 * t * V1 + t * t * V2)).
    rewrite (csum_ext' _ (fun i => / sq * (a i * nth i g 0 + t * (b i * nth i g 0)))).
    - rewrite csum_mul, csum_lin. unfold Rdiv, G0, G1. ring.
    - intro i. rewrite centred_shifted. unfold Rdiv. ring. }
  assert (Dl := quot_deriv G0 G1 q0 V1 V2 Q0).
  replace (csum c (fun i => nth i u 0 * ((nth i g 0 - csum c (fun i => nth i g 0) / n - a i * (G0 * iv * iv / n)) * iv)))
    with (G1 / sqrt q0 - G0 * V1 / (sqrt q0 * sqrt q0 * sqrt q0)).
  - intros e Hee. destruct (Dl e Hee) as [d Hd]. exists d. intros h Hh Hl. rewrite !EF. apply Hd; assumption.
  - assert (Uu : forall i, nth i u 0 = b i + cmean B C D u c) by (intro; unfold b; ring).
    set (gm := csum c (fun i => nth i g 0) / n).
    set (k := G0 * iv * iv / n).
    rewrite (csum_ext' (fun i => nth i u 0 * ((nth i g 0 - gm - a i * k) * iv))
      (fun i => (iv * (b i * nth i g 0) + (iv * cmean B C D u c) * nth i g 0) + (- gm * iv) * nth i u 0 + (- k * iv) * (a i * b i) + (- k * iv * cmean B C D u c) * a i)).
    2:{ intro i. rewrite (Uu i). ring. }
    rewrite !csum_add, !csum_mul, a_zero.
    fold G1.
    assert (Eu : csum c (fun i => nth i u 0) = n * cmean B C D u c) by (unfold cmean; fold n; field; lra).
    assert (Eg : csum c (fun i => nth i g 0) = n * gm) by (unfold gm; field; lra).
    assert (Ev : csum c (fun i => a i * b i) = n * V1) by (unfold V1; field; lra).
    rewrite Eu, Eg, Ev. unfold k.
    assert (Ei : iv = 1 / sqrt q0) by reflexivity. rewrite Ei.
    assert (0 < sqrt q0) by (apply sqrt_lt_R0; exact Q0). field. lra.
Qed.
End OneChannel.

Lemma deriv_sum m (F : nat -> R -> R) (l : nat -> R) : (forall c, (c < m)%nat -> derivable_pt_lim (F c) 0 (l c)) ->
  derivable_pt_lim (fun t => sum m (fun c => F c t)) 0 (sum m l).
Proof.
  induction m as [|m IH]; intro H.
  - cbn [sum]. apply (derivable_pt_lim_const 0).
  - cbn [sum]. apply (derivable_pt_lim_plus (fun t => sum m (fun c => F c t)) (F m)); [apply IH; auto|apply H; lia].
Qed.
End Bridge.
