(** The Barzilai-Borwein solver (C57). *)
From Coq Require Import Reals List Bool Arith Lia Lra.
From Verif Require Import SolverModel SolverSpec SolverProofs BBSpec BBProofs.
Import ListNotations.
Local Open Scope nat_scope.

Lemma fit_rounds model h xs ys rs : St h model xs ys -> Forall (fitRound model h) rs ->
  Forall (fun r => forall j x, nth_error xs j = Some x -> alike (Dn x) (r j)) rs.
Proof.
  intros H F. eapply Forall_impl; [|exact F]. cbn beta. intros r A j x X. clear F rs.
  assert (K : forall m xs ys, St h m xs ys -> forall j x, nth_error xs j = Some x -> exists n, nth_error m j = Some n /\ cells h (weights n) = Some (Dn x)).
  { clear. induction 1 as [|n g x y m xs ys G W Y L H IH]; intros [|j] z Z; cbn [nth_error] in *; try discriminate; [|apply IH; exact Z]. injection Z as <-. eauto. }
  destruct (K _ _ _ H j x X) as [n [N W]]. eapply A; eauto.
Qed.
Lemma St_size h h' : forall m xs ys xs' ys', St h m xs ys -> St h' m xs' ys' -> map (@length R) xs' = map (@length R) xs ->
  forall n l, In n m -> cells h (weights n) = Some (Dn l) -> exists l', cells h' (weights n) = Some (Dn l') /\ length l' = length l.
Proof.
  induction m as [|n m IH]; intros xs ys xs' ys' H H' L n0 l I E; [destruct I|].
  inversion H as [|? g x y ? xs1 ys1 G W Y L1 H1]; subst. inversion H' as [|? g' x' y' ? xs1' ys1' G' W' Y' L1' H1']; subst. cbn [map] in L. injection L as La Lb.
  destruct I as [<-|I]; [|eapply IH; eauto]. rewrite W in E. injection E as <-. eauto.
Qed.
Lemma St_zero h : forall m xs ys, St h m xs ys -> Forall (Forall (eq 0%R)) ys -> forall n g, In n m -> grad n = Some g -> exists c, cells h g = Some c /\ forall j, entry c j = 0%R.
Proof.
  induction 1 as [|n g x y m xs ys G W Y L H IH]; intros F n0 g0 I E; [destruct I|]. inversion_clear F as [|? ? F1 F2].
  destruct I as [<-|I]; [|eapply IH; eauto]. rewrite G in E. injection E as <-. exists (Dn y). split; [exact Y|]. intros j. cbn [entry].
  clear - F1. revert j. induction F1 as [|a y A F IH]; intros [|j]; cbn [nth]; auto.
Qed.

(** ** C57 *)
(** On a model of tensors the solver follows the recurrence on the vector of all weights:
    the learn rate of the first Step is the given one, that of a later Step is taken over
    the whole model from the last two points and gradients, as long as it is defined. *)
Theorem C57_follows : forall p model rs h e x,
  (useClip p = true -> (0 <= clip p)%R) ->
  fit model h -> tensors model h -> Forall (fitRound model h) rs ->
  bb p (eta p) None (weightsIn h model) (map (gradsOf model) rs) = Some (e, x) ->
  exists c' h', rounds (bbStep p) model rs (eta p, None) h = Done (e, c') h' /\ weightsIn h' model = x /\
    (forall n l, In n model -> cells h (weights n) = Some (Dn l) -> exists l', cells h' (weights n) = Some (Dn l') /\ length l' = length l) /\
    (forall n g, In n model -> grad n = Some g -> rs <> [] -> exists c, cells h' g = Some c /\ forall j, entry c j = 0%R) /\
    (forall q, (q < nextp h)%nat -> ~ In q (flat_map pointers model) -> cells h' q = cells h q).
Proof.
  intros p model rs h e x HC F T HF E. destruct (fit_St _ _ F T) as [xs [ys [H S]]]. rewrite (St_weights _ _ _ _ H) in E.
  destruct (rounds_ok p model (nextp h) HC S rs h (eta p) None None xs ys e x H) as [c' [h' [xs' [ys' [prev' [G1 [G2 [G3 [G4 [G5 [G6 [G7 [G8 [G9 G10]]]]]]]]]]]]]]; auto; [reflexivity|discriminate|eapply fit_rounds; eauto|].
  exists c', h'. split; [exact G1|]. split; [rewrite (St_weights _ _ _ _ G3); exact G4|]. split; [eapply St_size; eauto|]. split; [|exact G10].
  intros n g I Gn NE. eapply St_zero; eauto.
Qed.
Print Assumptions C57_follows.

(** What the rate means: without clipping it is the best fit of the change of the point by
    a multiple of the change of the gradient. *)
Theorem C57_best_fit : forall p dx dg eta0 k, length dx = length dg -> useClip p = false -> rate p dx dg = Some eta0 ->
  (dot (vsub dx (scale eta0 dg)) (vsub dx (scale eta0 dg)) <= dot (vsub dx (scale k dg)) (vsub dx (scale k dg)))%R.
Proof.
  intros p dx dg e k L U E. unfold rate in E. destruct (Req_EM_T (dot dg dg) 0) as [Z|Z]; [discriminate|]. injection E as <-. unfold limit. rewrite U.
  assert (K : forall k, dot (vsub dx (scale k dg)) (vsub dx (scale k dg)) = (dot dx dx - 2 * k * dot dx dg + k * k * dot dg dg)%R).
  { clear - L. intros k. revert dg L. induction dx as [|a dx IH]; intros [|b dg] L; cbn [scale map vsub dot length] in *; try discriminate; [ring|]. fold (scale k dg). rewrite IH by lia. ring. }
  rewrite !K. assert (P : (0 < dot dg dg)%R) by (pose proof (dot_self_nonneg dg); lra). set (A := dot dg dg) in *. set (B := dot dx dg).
  apply Rminus_le. replace (_ - _)%R with (- (A * ((B / A - k) * (B / A - k))))%R by (field; lra). pose proof (Rle_0_sqr (B / A - k)) as Q. unfold Rsqr in Q. nra.
Qed.
Print Assumptions C57_best_fit.

(** Two Steps reach the minimum [mid] of a cost whose gradient is [a] times the distance
    from it, from any starting point and with any first learn rate that moves there. *)
Lemma diff_scale a : forall mid x1 x, length mid = length x -> length x1 = length x -> vsub (scale a (vsub x1 mid)) (scale a (vsub x mid)) = scale a (vsub x1 x).
Proof. induction mid as [|c mid IH]; intros [|u x1] [|v x] L Lx; cbn [vsub scale map length] in *; try discriminate; try reflexivity. f_equal; [ring|]. apply IH; lia. Qed.
Lemma back_scale a : a <> 0%R -> forall mid x, length mid = length x -> vsub x (scale (/ a) (scale a (vsub x mid))) = mid.
Proof. intros A. induction mid as [|c mid IH]; intros [|v x] L; cbn [vsub scale map length] in *; try discriminate; try reflexivity. f_equal; [field; exact A|]. apply IH; lia. Qed.
Lemma two_steps p a e mid x : a <> 0%R -> e <> 0%R -> useClip p = false -> length mid = length x -> mid <> x ->
  let g1 := scale a (vsub x mid) in let x1 := vsub x (scale e g1) in let g2 := scale a (vsub x1 mid) in
  bb p e None x [g1; g2] = Some ((/ a)%R, mid).
Proof.
  intros A E U L N g1 x1 g2. cbn [bb]. fold x1.
  assert (Lx : length x1 = length x) by (unfold x1, g1; rewrite vsub_len; [reflexivity|]; rewrite !scale_len, vsub_len; congruence).
  assert (Dx : vsub x1 x = scale (- (e * a)) (vsub x mid)).
  { unfold x1, g1. clear - L. revert mid L. induction x as [|b x IH]; intros [|c mid] L; cbn [vsub scale map length] in *; try discriminate; [reflexivity|]. f_equal; [ring|]. apply IH. lia. }
  assert (Dg : vsub g2 g1 = scale a (vsub x1 x)).
  { unfold g2, g1. apply diff_scale; assumption. }
  rewrite Dg. unfold rate.
  assert (Sc : forall k v w, dot (scale k v) w = (k * dot v w)%R).
  { clear. intros k v. induction v as [|b v IH]; intros [|c w]; cbn [scale map dot]; try ring. fold (scale k v). rewrite IH. ring. }
  assert (Cm : forall v w, dot v w = dot w v).
  { clear. intros v. induction v as [|b v IH]; intros [|c w]; cbn [dot]; try reflexivity. rewrite IH. ring. }
  rewrite (Sc a (vsub x1 x)). rewrite !(Cm (vsub x1 x) (scale a (vsub x1 x))). rewrite !(Sc a (vsub x1 x)). set (D := dot (vsub x1 x) (vsub x1 x)).
  assert (Ea : (- (e * a))%R <> 0%R) by (apply Ropp_neq_0_compat; apply Rmult_integral_contrapositive_currified; assumption).
  assert (Dn0 : D <> 0%R).
  { unfold D. rewrite Dx. rewrite Sc. rewrite Cm. rewrite Sc. intros Z. apply Rmult_integral in Z. destruct Z as [Z|Z]; [contradiction|]. apply Rmult_integral in Z. destruct Z as [Z|Z]; [contradiction|].
    apply N. symmetry. apply vsub_zero; [congruence|]. apply dot_self_zero. exact Z. }
  destruct (Req_EM_T _ 0) as [Z|Z]; [exfalso; revert Z; repeat apply Rmult_integral_contrapositive_currified; assumption|]. unfold limit. rewrite U. f_equal. replace (a * D / (a * (a * D)))%R with (/ a)%R by (field; auto).
  f_equal. unfold g2. apply back_scale; [exact A|congruence].
Qed.
Theorem C57_quadratic : forall p a mid model h r1 r2,
  fit model h -> tensors model h -> Forall (fitRound model h) [r1; r2] -> useClip p = false -> a <> 0%R -> eta p <> 0%R ->
  let x := weightsIn h model in length mid = length x -> mid <> x ->
  gradsOf model r1 = scale a (vsub x mid) ->
  gradsOf model r2 = scale a (vsub (vsub x (scale (eta p) (scale a (vsub x mid)))) mid) ->
  exists s' h', rounds (bbStep p) model [r1; r2] (eta p, None) h = Done s' h' /\ weightsIn h' model = mid /\ fst s' = (/ a)%R.
Proof.
  intros p a mid model h r1 r2 F T HF U A E x L N G1 G2.
  destruct (C57_follows p model [r1; r2] h (/ a)%R mid) as [c' [h' [K1 [K2 _]]]]; auto.
  - congruence.
  - cbn [map]. rewrite G1, G2. apply two_steps; auto.
  - exists ((/ a)%R, c'), h'. auto.
Qed.
Print Assumptions C57_quadratic.

(** The rate is defined unless two gradients in a row agree in all entries. *)
Theorem C57_defined : forall p dx g g0, length g = length g0 -> (rate p dx (vsub g g0) = None <-> g = g0).
Proof.
  intros p dx g g0 L. unfold rate. destruct (Req_EM_T _ 0) as [Z|Z]; split; intros E; try discriminate; try reflexivity.
  - apply vsub_zero; [exact L|]. apply dot_self_zero. exact Z.
  - subst g0. exfalso. apply Z. apply dot_zero_r. apply vsub_self.
Qed.
Print Assumptions C57_defined.

(** Then the Step divides zero by zero: numerator and denominator, as computed, are both
    zero (NaN in the code; nothing is claimed about what follows). *)
Theorem C57_same_gradients : forall p model rs r h e x,
  (useClip p = true -> (0 <= clip p)%R) ->
  fit model h -> tensors model h -> Forall (fitRound model h) (rs ++ [r]) ->
  bb p (eta p) None (weightsIn h model) (map (gradsOf model) (rs ++ [r])) = Some (e, x) ->
  exists c' h', rounds (bbStep p) model (rs ++ [r]) (eta p, None) h = Done (e, c') h' /\
    bbSums model 0 c' (0%R, 0%R) (feed model 0 r h') = Ok (0%R, 0%R) (feed model 0 r h').
Proof.
  intros p model rs r h e x HC F T HF E. destruct (fit_St _ _ F T) as [xs [ys [H S]]]. rewrite (St_weights _ _ _ _ H) in E.
  pose proof (fit_rounds _ _ _ _ _ H HF) as HR.
  destruct (rounds_ok p model (nextp h) HC S (rs ++ [r]) h (eta p) None None xs ys e x H) as [c' [h' [xs' [ys' [prev' [G1 [G2 [G3 [G4 [G5 [G6 [G7 [G8 [G9 G10]]]]]]]]]]]]]]; auto; [reflexivity|discriminate|].
  exists c', h'. split; [exact G1|]. destruct (G9 rs r eq_refl) as [xo P].
  assert (A : forall j x, nth_error xs' j = Some x -> alike (Dn x) (r (0 + j)%nat)).
  { intros j z Z. rewrite Forall_forall in HR. specialize (HR r ltac:(apply in_or_app; right; left; reflexivity)). cbn [plus].
    pose proof (map_nth_error (@length R) j _ Z) as Q. rewrite G5, nth_error_map in Q. destruct (nth_error xs j) as [x0|] eqn:X0; [|discriminate]. injection Q as Q. specialize (HR j x0 X0).
    destruct (r j); cbn [alike] in *; [contradiction|congruence]. }
  pose proof (Known_feed r model 0 h' xs' ys' (nextp h) c' prev' G3 S A G7) as K.
  destruct (feed_ok r model 0 h' xs' ys' (nextp h) G3 S A) as [F1 _]. rewrite P in K. cbn [Known] in K. destruct K as [l [Ec [_ [V [Lo Ln]]]]]. specialize (G8 _ _ P).
  pose proof (St_lens _ _ _ _ F1) as [L1 _].
  rewrite (sums_ok c' _ (nextp h) model 0 _ _ _ _ (0%R, 0%R) F1 V G8) by congruence. cbn [fst snd].
  do 2 f_equal; rewrite Rplus_0_l; apply dot_zero_r; apply vsub_self.
Qed.
Print Assumptions C57_same_gradients.

(** ** Where it fails *)
Lemma update_app e a : forall b h, bbUpdate e (a ++ b) h = match bbUpdate e a h with Ok _ h' => bbUpdate e b h' | Err h' => Err h' | Panic => Panic end.
Proof.
  induction a as [|n a IH]; intros b h; [reflexivity|]. cbn [app bbUpdate]. unfold bind.
  repeat match goal with |- match match ?x with _ => _ end with _ => _ end = _ => destruct x; try reflexivity | |- match ?x with _ => _ end = match match ?x with _ => _ end with _ => _ end => destruct x; try reflexivity end. apply IH.
Qed.
Lemma sums_app c a : forall b i acc h, bbSums (a ++ b) i c acc h = match bbSums a i c acc h with Ok acc' h' => bbSums b (i + length a) c acc' h' | Err h' => Err h' | Panic => Panic end.
Proof.
  induction a as [|n a IH]; intros b i acc h; [cbn [app bbSums length]; rewrite Nat.add_0_r; reflexivity|]. cbn [app bbSums length]. unfold bind. rewrite <- Nat.add_succ_comm.
  repeat match goal with
  | |- match match ?x with _ => _ end with _ => _ end = _ => destruct x; try reflexivity
  | |- match ?x with _ => _ end = match match ?x with _ => _ end with _ => _ end => destruct x; try reflexivity
  | |- (match ?x with _ => _ end) _ = match (match ?x with _ => _ end) _ with _ => _ end => destruct x; try reflexivity
  | |- (if ?x then _ else _) _ = match (if ?x then _ else _) _ with _ => _ end => destruct x; try reflexivity
  end; apply IH.
Qed.
Lemma save_any : forall m i l h, Forall (fun n => exists g cw cg, grad n = Some g /\ cells h (weights n) = Some cw /\ cells h g = Some cg) m ->
  Forall (fun q => (q < nextp h)%nat) (flat_map pointers m) -> (i + length m <= length l)%nat ->
  exists c' h', bbSave m i (Some l) h = Done c' h' /\ (nextp h <= nextp h')%nat /\ (forall q, (q < nextp h)%nat -> cells h' q = cells h q).
Proof.
  induction m as [|n m IH]; intros i l h F B Hl; [exists (Some l), h; auto|]. cbn [length] in Hl.
  pose proof (Forall_inv F) as [g [cw [cg [G [W Y]]]]]. pose proof (Forall_inv_tail F) as F'.
  cbn [flat_map] in B. unfold pointers at 1 in B. rewrite G in B. cbn [app] in B. pose proof (Forall_inv B) as B1. pose proof (Forall_inv_tail B) as B'. pose proof (Forall_inv B') as B2. apply Forall_inv_tail in B'. cbn beta in B1, B2.
  cbn [bbSave]. unfold extractWeightGrad. rewrite G. unfold ret. cbn [getCache]. destruct (nth_error l i) as [o|] eqn:El; [|apply nth_error_None in El; lia].
  rewrite (cached_ok _ _ _ _ _ W Y) by lia. cbn [setCache]. set (h1 := allocate (allocate h cw) cg).
  assert (F1 : forall q, (q < nextp h)%nat -> cells h1 q = cells h q) by (intros q Q; unfold h1; look; reflexivity).
  destruct (IH (S i) (setNth l i (Some (nextp h, S (nextp h)))) h1) as [c' [h' [E1 [E2 E3]]]].
  - apply Forall_forall. intros n' I. rewrite Forall_forall in F'. destruct (F' n' I) as [g' [cw' [cg' [G' [W' Y']]]]]. rewrite Forall_forall in B'.
    exists g', cw', cg'. split; [exact G'|]. rewrite !F1; auto; apply B'; apply in_flat_map; exists n'; (split; [exact I|]); unfold pointers; rewrite ?G'; cbn [In]; auto.
  - eapply Forall_impl; [|exact B']. cbn beta. intros q Q. unfold h1. ne.
  - rewrite setNth_len. lia.
  - exists c', h'. split; [exact E1|]. assert (nextp h1 = S (S (nextp h))) by reflexivity. split; [lia|]. intros q Q. rewrite E3 by lia. auto.
Qed.

(** A scalar weight: the first Step fails, after it has updated the nodes before the
    scalar and none after it. *)
Theorem C57_scalar : forall p pre n post h w r,
  fit (pre ++ n :: post) h -> tensors pre h -> cells h (weights n) = Some (Sc w) -> fitRound (pre ++ n :: post) h r ->
  exists s' h', bbStep p (pre ++ n :: post) (eta p, None) (feed (pre ++ n :: post) 0 r h) = Fail s' h' /\
    weightsIn h' pre = vsub (weightsIn h pre) (scale (eta p) (gradsOf pre r)) /\
    (forall n', In n' (n :: post) -> cells h' (weights n') = cells h (weights n')).
Proof.
  intros p pre n post h w r F T W A. set (model := pre ++ n :: post) in *. set (hf := feed model 0 r h).
  (* memory after feeding *)
  assert (Ff : forall m i h, NoDup (flat_map pointers m) -> nextp (feed m i r h) = nextp h /\
     (forall q, ~ In q (flat_map (fun n => match grad n with Some g => [g] | None => [] end) m) -> cells (feed m i r h) q = cells h q) /\
     (forall j n g, nth_error m j = Some n -> grad n = Some g -> cells (feed m i r h) g = Some (r (i + j)%nat))).
  { clear. induction m as [|n m IH]; intros i h N; cbn [feed flat_map] in *; [repeat split; auto; intros [|j] ? ? Q; discriminate|].
    assert (N' : NoDup (flat_map pointers m)) by (clear - N; induction (pointers n) as [|a l IHl]; cbn [app] in N; [exact N|inversion_clear N; auto]).
    destruct (IH (S i) (match grad n with Some g => set h g (r i) | None => h end) N') as [K1 [K2 K3]]. split; [rewrite K1; destruct (grad n); reflexivity|]. split.
    - intros q Q. rewrite K2 by (intros I; apply Q; apply in_or_app; auto). destruct (grad n) as [g|]; [|reflexivity]. apply cs_ne. intros ->. apply Q. left. reflexivity.
    - intros [|j] n' g' E G; cbn [nth_error] in E; [injection E as <-|rewrite Nat.add_succ_r; eapply K3; eauto]. rewrite Nat.add_0_r. rewrite K2; [rewrite G; apply cs_eq|].
      intros I. unfold pointers at 1 in N. rewrite G in N. cbn [app] in N. inversion_clear N as [|? ? _ N2]. inversion_clear N2 as [|? ? N3 _]. apply N3. clear - I.
      apply in_flat_map in I. destruct I as [n1 [I1 I2]]. apply in_flat_map. exists n1. split; [exact I1|]. unfold pointers. destruct (grad n1); cbn [In] in *; auto. }
  destruct F as [Fn Fs Fo]. destruct (Ff model 0 h Fs) as [N1 [K1 K2]]. fold hf in N1, K1, K2.
  assert (Wf : forall n', In n' model -> cells hf (weights n') = cells h (weights n')).
  { intros n' I. apply K1. intros J. apply in_flat_map in J. destruct J as [n1 [J1 J2]]. destruct (grad n1) as [g1|] eqn:G1; [|destruct J2]. destruct J2 as [J2|[]].
    clear - Fs I J1 J2 G1. revert Fs I J1. generalize model. intros m N. induction m as [|n0 m IH]; intros I J; [destruct I|]. cbn [flat_map] in N.
    assert (N' : NoDup (flat_map pointers m)) by (clear - N; induction (pointers n0) as [|a l IHl]; cbn [app] in N; [exact N|inversion_clear N; auto]).
    destruct I as [<-|I], J as [<-|J]; [| | |auto].
    - unfold pointers at 1 in N. rewrite G1 in N. cbn [app] in N. inversion_clear N as [|? ? Q _]. apply Q. left. auto.
    - unfold pointers at 1 in N. cbn [app] in N. inversion_clear N as [|? ? Q _]. apply Q. apply in_or_app. right. rewrite <- J2. apply in_flat_map. exists n1. split; [exact J|]. unfold pointers. rewrite G1. right. left. reflexivity.
    - unfold pointers at 1 in N. rewrite G1 in N. cbn [app] in N. inversion_clear N as [|? ? _ Q]. inversion_clear Q as [|? ? Q' _]. apply Q'. rewrite J2. apply in_flat_map. exists n'. split; [exact I|]. left. reflexivity. }
  unfold bbStep. cbn [fst snd].
  destruct (save_any model 0 (map (fun _ => None) model) hf) as [c' [h1 [E1 [E2 E3]]]].
  - apply Forall_forall. intros n' I. destruct (In_nth_error _ _ I) as [j J]. rewrite Forall_forall in Fn. destruct (Fn n' I) as [g [cw [cg [G [Wn [Y _]]]]]].
    exists g, cw, (r j). split; [exact G|]. split; [rewrite Wf by exact I; exact Wn|]. exact (K2 j n' g J G).
  - rewrite N1. exact Fo.
  - rewrite map_length. lia.
  - rewrite E1.
    (* the tensors before the scalar *)
    assert (Spre : exists xs, St hf pre xs (map (fun j => datum (r j)) (seq 0 (length pre))) /\ weightsIn h pre = concat xs).
    { assert (Q : forall pre0 i, (forall j n', nth_error pre0 j = Some n' -> nth_error model (i + j) = Some n') -> Forall (fun n => exists l, cells h (weights n) = Some (Dn l)) pre0 ->
        exists xs, St hf pre0 xs (map (fun j => datum (r j)) (seq i (length pre0))) /\ weightsIn h pre0 = concat xs).
      { induction pre0 as [|n0 pre0 IH]; intros i Hn Hd; [exists []; split; [constructor|reflexivity]|]. pose proof (Forall_inv Hd) as [l Hl]. apply Forall_inv_tail in Hd.
        destruct (IH (S i)) as [xs [S1 S2]]; [intros j n' J; rewrite Nat.add_succ_l, <- Nat.add_succ_r; apply Hn; exact J|exact Hd|].
        pose proof (Hn 0%nat n0 eq_refl) as H0. rewrite Nat.add_0_r in H0. pose proof (nth_error_In _ _ H0) as I0. rewrite Forall_forall in Fn. destruct (Fn n0 I0) as [g [cw [cg [G [Wn [Y Al]]]]]].
        pose proof (A i n0 _ H0 Hl) as Ai. destruct (r i) as [|z] eqn:Ri; cbn [alike] in Ai; [contradiction|].
        exists (l :: xs). split; [|unfold weightsIn in *; cbn [map concat]; rewrite Hl, S2; reflexivity]. cbn [length seq map]. rewrite Ri. cbn [datum].
        econstructor; [exact G|rewrite Wf by exact I0; exact Hl| |exact Ai|exact S1]. rewrite (K2 i n0 g H0 G). cbn [plus]. rewrite Ri. reflexivity. }
      apply (Q pre 0%nat); [|exact T]. intros j n' J. cbn [plus]. unfold model. rewrite nth_error_app1; [exact J|]. apply nth_error_Some. congruence. }
    destruct Spre as [xs [S1 S2]].
    assert (Sp : Sep pre (nextp hf)).
    { unfold model in Fs, Fo. rewrite flat_map_app in Fs, Fo. apply Forall_app in Fo. rewrite N1. split; [|tauto]. clear - Fs. induction (flat_map pointers pre) as [|a l IH]; [constructor|]. cbn [app] in Fs. inversion_clear Fs as [|? ? Q1 Q2]. constructor; [|auto]. intros I. apply Q1. apply in_or_app. auto. }
    assert (S1' : St h1 pre xs (map (fun j => datum (r j)) (seq 0 (length pre)))).
    { apply (St_frame hf); [exact S1|]. intros q Q. apply E3. destruct Sp as [_ Sp]. rewrite Forall_forall in Sp. apply Sp. exact Q. }
    destruct (update_ok (eta p) pre h1 xs _ (nextp hf) S1' Sp E2) as [h2 [U1 [U2 [U3 U4]]]].
    unfold model. rewrite update_app, U1. cbn [bbUpdate].
    assert (In0 : In n model) by (unfold model; apply in_or_app; right; left; reflexivity).
    assert (Fr : forall n', In n' (n :: post) -> cells h2 (weights n') = cells h (weights n')).
    { intros n' I. assert (Im : In n' model) by (unfold model; apply in_or_app; auto). assert (Ip : In (weights n') (flat_map pointers (n :: post))) by (apply in_flat_map; exists n'; split; [exact I|left; reflexivity]).
      assert (Lt : (weights n' < nextp h)%nat) by (rewrite Forall_forall in Fo; apply Fo; unfold model; rewrite flat_map_app; apply in_or_app; auto).
      rewrite U4; [rewrite E3 by lia; apply Wf; exact Im|lia|]. unfold model in Fs. rewrite flat_map_app in Fs. intros Q. clear - Fs Ip Q. induction (flat_map pointers pre) as [|a l IH]; [destruct Q|]. cbn [app] in Fs. inversion_clear Fs as [|? ? Q1 Q2]. destruct Q as [->|Q]; [|auto]. apply Q1. apply in_or_app. auto. }
    rewrite Forall_forall in Fn. destruct (Fn n In0) as [g [cw [cg [G _]]]]. unfold extractWeightGrad. rewrite G, ret_b. cbn [fst snd]. unfold isDense at 1, bind at 1. rewrite (Fr n) by (left; reflexivity). rewrite W.
    eexists _, h2. split; [reflexivity|]. split; [|exact Fr]. rewrite (St_weights _ _ _ _ U3), S2. fold (upd (eta p) xs (map (fun j => datum (r j)) (seq 0 (length pre)))). rewrite upd_concat by (apply (St_lens _ _ _ _ S1)). reflexivity.
Qed.
Print Assumptions C57_scalar.

(** The model must not grow: a solver that has stepped [model] crashes on a longer one. *)
Theorem C57_grown_crashes : forall p model n more rs h e x,
  (useClip p = true -> (0 <= clip p)%R) ->
  fit (model ++ n :: more) h -> tensors (model ++ n :: more) h -> Forall (fitRound model h) rs -> rs <> [] ->
  bb p (eta p) None (weightsIn h model) (map (gradsOf model) rs) = Some (e, x) ->
  exists s' h', rounds (bbStep p) model rs (eta p, None) h = Done s' h' /\ bbStep p (model ++ n :: more) s' h' = Crash.
Proof.
  intros p model n more rs h e x HC F T HF NE E. destruct (fit_St _ _ F T) as [xa [ya [Ha Sa]]].
  assert (Fm : fit model h).
  { destruct F as [F1 F2 F3]. rewrite flat_map_app in F2, F3. apply Forall_app in F1, F3. split; try tauto. clear - F2. induction (flat_map pointers model) as [|a l IH]; [constructor|]. cbn [app] in F2. inversion_clear F2 as [|? ? Q1 Q2]. constructor; [|auto]. intros I. apply Q1. apply in_or_app. auto. }
  assert (Tm : tensors model h) by (unfold tensors in *; apply Forall_app in T; tauto).
  destruct (fit_St _ _ Fm Tm) as [xs [ys [H S]]]. rewrite (St_weights _ _ _ _ H) in E.
  destruct (rounds_ok p model (nextp h) HC S rs h (eta p) None None xs ys e x H) as [c' [h' [xs' [ys' [prev' [G1 [G2 [G3 [G4 [G5 [G6 [G7 [G8 [G9 G10]]]]]]]]]]]]]]; auto; [reflexivity|discriminate|eapply fit_rounds; eauto|].
  exists (e, c'), h'. split; [exact G1|].
  destruct (exists_last NE) as [rs0 [r0 Er]]. destruct (G9 rs0 r0 Er) as [xo P]. rewrite P in G7. cbn [Known] in G7. destruct G7 as [l [Ec [Ll [V [Lo Ln]]]]]. specialize (G8 _ _ P).
  pose proof (St_lens _ _ _ _ G3) as [L1 _]. unfold bbStep. cbn [snd]. rewrite Ec at 1. rewrite sums_app.
  rewrite (sums_ok c' h' (nextp h) model 0 _ _ _ _ (0%R, 0%R) G3 V G8) by congruence. cbn [plus bbSums].
  assert (Hn : exists g lw lg, grad n = Some g /\ cells h' (weights n) = Some (Dn lw) /\ cells h' g = Some (Dn lg)).
  { assert (I : In n (model ++ n :: more)) by (apply in_or_app; right; left; reflexivity). destruct F as [F1 F2 F3]. rewrite Forall_forall in F1. destruct (F1 n I) as [g [cw [cg [G [W [Y A]]]]]].
    unfold tensors in T. rewrite Forall_forall in T. destruct (T n I) as [lw Tw]. rewrite W in Tw. injection Tw as ->. destruct cg as [|lg]; cbn [alike] in A; [contradiction|].
    assert (Q : forall q, In q (pointers n) -> cells h' q = cells h q).
    { intros q Iq. assert (Iq' : In q (flat_map pointers (n :: more))) by (cbn [flat_map]; apply in_or_app; auto). apply G10.
      - rewrite Forall_forall in F3. apply F3. rewrite flat_map_app. apply in_or_app. auto.
      - intros Im. rewrite flat_map_app in F2. clear - F2 Im Iq'. induction (flat_map pointers model) as [|a l IH]; [destruct Im|]. cbn [app] in F2. inversion_clear F2 as [|? ? Q1 Q2]. destruct Im as [->|Im]; [|auto]. apply Q1. apply in_or_app. auto. }
    exists g, lw, lg. split; [exact G|]. rewrite !Q; unfold pointers; rewrite ?G; cbn [In]; auto. }
  destruct Hn as [g [lw [lg [G [W Y]]]]]. unfold extractWeightGrad. rewrite G, ret_b. cbn [fst snd]. rewrite (isDense_b _ _ _ _ W), (isDense_b _ _ _ _ Y).
  rewrite Ec. cbn [getCache]. rewrite (proj2 (nth_error_None l (length model))) by lia. reflexivity.
Qed.
Print Assumptions C57_grown_crashes.

(** After a first Step that failed because a gradient was missing the solver is spoiled: it
    crashes on the same model when the gradient is there. *)
Definition noGrad (n : node) : node := Nd (nid n) (weights n) None.
Theorem C57_retry_crashes : forall p pre n post h,
  fit (pre ++ n :: post) h -> tensors (pre ++ n :: post) h ->
  exists s' h', bbStep p (pre ++ noGrad n :: post) (eta p, None) h = Fail s' h' /\ bbStep p (pre ++ n :: post) s' h' = Crash.
Proof.
  intros p pre n post h F T. destruct (fit_St _ _ F T) as [xa [ya [Ha Sa]]].
  assert (Hs : exists xs ys x y xs2 ys2, St h pre xs ys /\ St h (n :: post) (x :: xs2) (y :: ys2) /\ Sep pre (nextp h) /\ Sep (n :: post) (nextp h)).
  { destruct Sa as [S1 S2]. rewrite flat_map_app in S1, S2. apply Forall_app in S2.
    assert (Q : forall a xs ys b, St h (a ++ b) xs ys -> exists xs1 ys1 xs2 ys2, St h a xs1 ys1 /\ St h b xs2 ys2).
    { clear. induction a as [|n a IH]; intros xs ys b H; cbn [app] in H; [exists [], [], xs, ys; split; [constructor|exact H]|]. inversion H as [|? g x y ? xs' ys' G W Y L H']; subst. destruct (IH _ _ _ H') as [xs1 [ys1 [xs2 [ys2 [K1 K2]]]]]. exists (x :: xs1), (y :: ys1), xs2, ys2. split; [econstructor; eauto|exact K2]. }
    destruct (Q _ _ _ _ Ha) as [xs1 [ys1 [xs2 [ys2 [K1 K2]]]]]. inversion K2 as [|? g x y ? xs' ys' G W Y L H']; subst. exists xs1, ys1, x, y, xs', ys'. repeat split; auto; try tauto.
    - clear - S1. induction (flat_map pointers pre) as [|a l IH]; [constructor|]. cbn [app] in S1. inversion_clear S1 as [|? ? Q1 Q2]. constructor; [|auto]. intros I. apply Q1. apply in_or_app. auto.
    - clear - S1. induction (flat_map pointers pre) as [|a l IH]; [exact S1|]. cbn [app] in S1. inversion_clear S1; auto. }
  destruct Hs as [xs [ys [x [y [xs2 [ys2 [H1 [H2 [P1 P2]]]]]]]]].
  assert (Sa' : forall a b i l h, bbSave (a ++ b) i (Some l) h = match bbSave a i (Some l) h with Done (Some l') h' => bbSave b (i + length a) (Some l') h' | Done None h' => bbSave b (i + length a) None h' | Fail c h' => Fail c h' | Crash => Crash end).
  { clear. induction a as [|n a IH]; intros b i l h; [cbn [app bbSave length]; rewrite Nat.add_0_r; reflexivity|]. cbn [app bbSave length]. destruct (extractWeightGrad n h) as [[w g] h1|h1|]; try reflexivity. cbn [getCache]. destruct (nth_error l i); [|reflexivity].
    destruct (newCachedDV w g false h1) as [cv h2|h2|]; try reflexivity. cbn [setCache]. rewrite IH. rewrite Nat.add_succ_comm. reflexivity. }
  unfold bbStep at 1. cbn [fst snd]. rewrite Sa'. set (l0 := map (fun _ : node => @None (nat * nat)) (pre ++ noGrad n :: post)).
  destruct (save_ok pre 0 l0 h xs ys (nextp h) H1 P1 (le_n _)) as [l' [h' [E1 [E2 [E3 [E4 [E5 E6]]]]]]]; [unfold l0; rewrite map_length, app_length; lia|].
  rewrite E1. cbn [bbSave]. unfold extractWeightGrad at 1. cbn [noGrad grad].
  exists (eta p, Some l'), h'. split; [reflexivity|]. unfold bbStep. cbn [snd]. rewrite sums_app.
  pose proof (St_lens _ _ _ _ H1) as [L1 [L2 L3]].
  assert (H1' : St h' pre xs ys) by (apply (St_frame h); [exact H1|]; intros q Q; apply E4; destruct P1 as [_ P1]; rewrite Forall_forall in P1; apply P1; exact Q).
  rewrite (sums_ok (Some l') h' (nextp h) pre 0 xs ys xs ys (0%R, 0%R) H1' E6) by reflexivity. cbn [plus bbSums].
  assert (H2' : St h' (n :: post) (x :: xs2) (y :: ys2)) by (apply (St_frame h); [exact H2|]; intros q Q; apply E4; destruct P2 as [_ P2]; rewrite Forall_forall in P2; apply P2; exact Q).
  inversion H2' as [|? g ? ? ? ? ? G W Y L H']; subst. unfold extractWeightGrad. rewrite G, ret_b. cbn [fst snd]. rewrite (isDense_b _ _ _ _ W), (isDense_b _ _ _ _ Y). cbn [getCache].
  assert (En : nth_error l' (length pre) = Some None).
  { assert (Kp : forall m i l h c h1, bbSave m i (Some l) h = Done c h1 -> forall j, (i + length m <= j)%nat -> getCache c j = nth_error l j).
    { clear. induction m as [|n m IH]; intros i l h c h1 E j J; cbn [bbSave length] in *; [injection E as <- <-; reflexivity|]. destruct (extractWeightGrad n h) as [[w g] h2|h2|]; try discriminate. cbn [getCache] in E. destruct (nth_error l i); [|discriminate].
      destruct (newCachedDV w g false h2) as [cv h3|h3|]; try discriminate. cbn [setCache] in E. rewrite (IH _ _ _ _ _ E j) by lia. apply setNth_ne. lia. }
    pose proof (Kp _ _ _ _ _ _ E1 (length pre) ltac:(lia)) as Q. cbn [getCache] in Q. rewrite Q. unfold l0. rewrite map_app, nth_error_app2 by (rewrite map_length; lia). rewrite map_length, Nat.sub_diag. reflexivity. }
  rewrite En. reflexivity.
Qed.
Print Assumptions C57_retry_crashes.

(** ** Cases *)
(** A 2-vector and a 1-vector; the cost is the squared distance from (0, 0 | 1). *)
Definition bbModel : list node := [Nd 0 0 (Some 1); Nd 1 2 (Some 3)].
Definition bbHeap : heap := Heap (fun q => match q with 0 => Some (Dn [3; 1]%R) | 1 => Some (Dn [0; 0]%R) | 2 => Some (Dn [2]%R) | 3 => Some (Dn [0]%R) | _ => None end) 4.
Definition bbP : params := newSolver BarzilaiBorwein [WithLearnRate (1 / 4)].
Definition bbR1 (i : nat) : cell := match i with 0 => Dn [6; 2]%R | _ => Dn [2]%R end.
Definition bbR2 (i : nat) : cell := match i with 0 => Dn [3; 1]%R | _ => Dn [1]%R end.
Lemma bb_fit : fit bbModel bbHeap /\ tensors bbModel bbHeap /\ Forall (fitRound bbModel bbHeap) [bbR1; bbR2].
Proof.
  split; [split|split].
  - repeat constructor; do 3 eexists; repeat split; cbn; reflexivity.
  - cbn. repeat constructor; cbn [In]; intuition lia.
  - cbn. repeat constructor; lia.
  - repeat constructor; eexists; reflexivity.
  - repeat constructor; intros [|[|i]] n c Hn Hc; cbn in Hn; try (injection Hn as <-; cbn in Hc; injection Hc as <-; reflexivity); destruct i; discriminate.
Qed.
Example C57_quadratic_ex : exists s' h', rounds (bbStep bbP) bbModel [bbR1; bbR2] (eta bbP, None) bbHeap = Done s' h' /\ weightsIn h' bbModel = [0; 0; 1]%R /\ fst s' = (/ 2)%R.
Proof.
  destruct bb_fit as [F [T HF]]. apply (C57_quadratic bbP 2 [0; 0; 1]%R bbModel bbHeap bbR1 bbR2); auto; cbn; try lra; try reflexivity; try (intros E; injection E; lra); repeat (f_equal; try lra).
Qed.
(** The same Step again is undefined; a clipped rate; the model grown by a node. *)
Example C57_undefined_ex : rate bbP (vsub [2; 1] [1; 1])%R (vsub [5; 5] [5; 5])%R = None /\
  rate (newSolver BarzilaiBorwein [WithClip 1]) (vsub [9; 0] [1; 0])%R (vsub [3; 0] [1; 0])%R = Some 1%R.
Proof.
  split; [apply C57_defined; reflexivity|]. unfold rate. cbn. destruct (Req_EM_T _ 0) as [Z|Z]; [exfalso; lra|]. unfold limit, between. cbn. f_equal.
  replace ((9 - 1) * (3 - 1) + ((0 - 0) * (0 - 0) + 0))%R with 16%R by ring. replace ((3 - 1) * (3 - 1) + ((0 - 0) * (0 - 0) + 0))%R with 4%R by ring. rewrite Rmin_left by lra. apply Rmax_right. lra.
Qed.
Example C57_grown_ex : exists s' h', rounds (bbStep bbP) [Nd 0 0 (Some 1)] [bbR1] (eta bbP, None) bbHeap = Done s' h' /\ bbStep bbP bbModel s' h' = Crash.
Proof.
  destruct bb_fit as [F [T HF]]. eapply (C57_grown_crashes bbP [Nd 0 0 (Some 1)] (Nd 1 2 (Some 3)) [] [bbR1] bbHeap); [discriminate|exact F|exact T| |discriminate|reflexivity].
  constructor; [|constructor]. intros [|i] n c Hn Hc; cbn in Hn; [injection Hn as <-; cbn in Hc; injection Hc as <-; reflexivity|destruct i; discriminate].
Qed.
Example C57_retry_ex : exists s' h', bbStep bbP [Nd 0 0 (Some 1); Nd 1 2 None] (eta bbP, None) bbHeap = Fail s' h' /\ bbStep bbP bbModel s' h' = Crash.
Proof. destruct bb_fit as [F [T _]]. exact (C57_retry_crashes bbP [Nd 0 0 (Some 1)] (Nd 1 2 (Some 3)) [] bbHeap F T). Qed.
(** A vector and a scalar. *)
Example C57_scalar_ex : exists s' h', bbStep bbP bbModel (eta bbP, None) (feed bbModel 0 (fun i => match i with 0 => Dn [4; 8]%R | _ => Sc 1%R end) (set (set bbHeap 2 (Sc 5%R)) 3 (Sc 0%R))) = Fail s' h' /\
  weightsIn h' [Nd 0 0 (Some 1)] = [2; -1]%R /\ cells h' 2 = Some (Sc 5%R).
Proof.
  set (h := set (set bbHeap 2 (Sc 5%R)) 3 (Sc 0%R)). set (r := fun i => match i with 0 => Dn [4; 8]%R | _ => Sc 1%R end).
  destruct (C57_scalar bbP [Nd 0 0 (Some 1)] (Nd 1 2 (Some 3)) [] h 5%R r) as [s' [h' [K1 [K2 K3]]]].
  - split; cbn [app].
    + repeat constructor; do 3 eexists; repeat split; cbn; try reflexivity.
    + cbn. repeat constructor; cbn [In]; intuition lia.
    + cbn. repeat constructor; lia.
  - repeat constructor; eexists; reflexivity.
  - reflexivity.
  - intros [|[|i]] n c Hn Hc; cbn in Hn; try (injection Hn as <-; cbn in Hc; injection Hc as <-; cbn; auto; fail); destruct i; discriminate.
  - exists s', h'. split; [exact K1|]. split; [rewrite K2; cbn; repeat (f_equal; try lra)|]. exact (K3 (Nd 1 2 (Some 3)) (or_introl eq_refl)).
Qed.
