(** Entries of mixed elementwise operations, partial derivatives, the symbolic gradient. *)
From Coq Require Import List ZArith Reals Bool Lia Lra Psatz.
From Verif Require Import Sums BroadcastModel BroadcastSpec BroadcastProofs ShapeGradModel ShapeGradSpec ShapeGradProofs ShapeGradSum ReduceModel ReduceSpec ReduceProofs ReduceFlow CalcProofs SoftmaxSpec SoftmaxProofs EwiseModel EwiseSpec.
Import ListNotations.
Local Open Scope R_scope.

Lemma inside_nil idx : inside [] idx -> idx = [].
Proof. intro H. inversion H. reflexivity. Qed.
Lemma entry_full (t : tensR) idx : inside (shp t) idx -> entry t idx = at_ t idx.
Proof. intro H. unfold entry. destruct (shp t) eqn:E; [|reflexivity]. rewrite (inside_nil _ H). reflexivity. Qed.
Lemma entry_scalar (t : tensR) idx : shp t = [] -> entry t idx = at_ t [].
Proof. intro E. unfold entry. rewrite E. reflexivity. Qed.

Lemma ewise_mix f (a b : tensR) : mixable (shp a) (shp b) ->
  exists c, ewise f a b = Ok c /\ shp c = joined (shp a) (shp b) /\ forall idx, inside (joined (shp a) (shp b)) idx -> entry c idx = f (entry a idx) (entry b idx).
Proof.
  assert (U : forall s idx, inside s idx -> unravel s (ravel s idx) = idx) by (intros; apply unravel_ravel; assumption).
  intros [E|[E|E]].
  - destruct (ewise_same f a b E) as [c [E1 [S1 V1]]]. exists c. rewrite <- E. replace (joined (shp a) (shp a)) with (shp a) by (unfold joined; destruct (shp a); reflexivity).
    split; [exact E1|]. split; [exact S1|]. intros idx Hi. rewrite entry_full by (rewrite S1; exact Hi). rewrite V1 by exact Hi. rewrite !entry_full by (rewrite <- ?E; exact Hi). reflexivity.
  - unfold ewise. replace (ewiseShape (shp a) (shp b)) with (Ok (shp b)); cycle 1.
    { unfold ewiseShape. rewrite E. cbn [scalarEquiv forallb andb]. destruct (shp b); [reflexivity|]. destruct (scalarEquiv _); reflexivity. }
    cbn [bind]. eexists. split; [reflexivity|]. rewrite E. cbn [joined shp]. split; [reflexivity|]. intros idx Hi.
    rewrite entry_full by exact Hi. cbn [at_]. rewrite U by exact Hi. rewrite (entry_scalar a) by exact E. rewrite (entry_full b) by exact Hi. reflexivity.
  - unfold ewise. replace (ewiseShape (shp a) (shp b)) with (Ok (shp a)); cycle 1.
    { unfold ewiseShape. rewrite E. destruct (shp a); [reflexivity|]. destruct (_ && _); reflexivity. }
    cbn [bind]. eexists. split; [reflexivity|]. rewrite E. replace (joined (shp a) []) with (shp a) by (unfold joined; destruct (shp a); reflexivity). split; [reflexivity|]. intros idx Hi.
    rewrite entry_full by exact Hi. cbn [at_]. rewrite U by exact Hi. rewrite (entry_scalar b) by exact E. rewrite (entry_full a) by exact Hi. reflexivity.
Qed.

Lemma opR_meant o a b : opR o a b = meant o a b.
Proof. destruct o; reflexivity. Qed.

(** ** Partial derivatives *)
Lemma partial1_ok o a b : smooth_at o a b -> derivable_pt_lim (fun t => meant o t b) a (partial1 o a b).
Proof.
  intro H. destruct o; cbn [meant partial1 smooth_at] in *.
  - apply (lin_deriv _ a 1 1); [lra|]. intros. ring.
  - apply (lin_deriv _ a 1 1); [lra|]. intros. ring.
  - apply (lin_deriv _ a b 1); [lra|]. intros. ring.
  - apply (lin_deriv _ a (/ b) 1); [lra|]. intros. unfold Rdiv. ring.
  - exact (deriv_pow_base a b H).
Qed.
Lemma partial2_ok o a b : smooth_at o a b -> derivable_pt_lim (fun t => meant o a t) b (partial2 o a b).
Proof.
  intro H. destruct o; cbn [meant partial2 smooth_at] in *.
  - apply (lin_deriv _ b 1 1); [lra|]. intros. ring.
  - apply (lin_deriv _ b (-1) 1); [lra|]. intros. ring.
  - apply (lin_deriv _ b a 1); [lra|]. intros. ring.
  - pose proof (derivable_pt_lim_scal (fun t => 1 / t) a b _ (deriv_inv b H)) as K.
    replace (- (a / (b * b))) with (a * - (1 / b * (1 / b))) by (field; exact H).
    apply (d_ext (mult_real_fct a (fun t => 1 / t))); [|exact K]. intro t. unfold mult_real_fct, Rdiv. ring.
  - exact (deriv_pow_exponent a b H).
Qed.

(** A function of one operand, entry by entry. *)
Lemma lift s (x g gx : tensR) (F : list Z -> R -> R) (D : list Z -> R) :
  (shp x = s \/ shp x = []) -> (forall idx, inside s idx -> derivable_pt_lim (F idx) (entry x idx) (D idx)) ->
  (shp x = [] -> at_ gx [] = @over R CRing_R s (fun idx => D idx * at_ g idx)) ->
  (shp x <> [] -> forall idx, inside s idx -> at_ gx idx = D idx * at_ g idx) ->
  forall u, derivable_pt_lim (fun h => @ip R CRing_R s (fun idx => F idx (entry (moved x u h) idx)) (at_ g)) 0 (@ip R CRing_R (shp x) u (at_ gx)).
Proof.
  intros HS HD H1 H2 u. set (v := fun idx => match shp x with [] => u [] | _ => u idx end).
  assert (K : forall i, In i (coords s) -> derivable_pt_lim (fun h => F i (entry (moved x u h) i)) 0 (v i * D i)).
  { intros i Hi. apply coords_in in Hi. assert (L : derivable_pt_lim (fun h => entry x i + h * v i) 0 (v i)).
    { apply (lin_deriv _ 0 (v i) 1); [lra|]. intros. ring. }
    pose proof (derivable_pt_lim_comp (fun h => entry x i + h * v i) (F i) 0 (v i) (D i) L) as C.
    cbv beta in C. replace (entry x i + 0 * v i) with (entry x i) in C by ring. specialize (C (HD i Hi)). rewrite Rmult_comm.
    apply (d_ext (comp (F i) (fun h => entry x i + h * v i))); [|exact C]. intro h. unfold comp. f_equal. unfold entry, moved, v. cbn [shp at_]. destruct (shp x); reflexivity. }
  pose proof (ip_deriv s _ _ (at_ g) K) as Q. match type of Q with derivable_pt_lim _ _ ?d => match goal with |- derivable_pt_lim _ _ ?e => replace e with d; [exact Q|] end end.
  destruct (shp x) as [|d0 s0] eqn:E.
  - unfold ip. cbn [coords map]. rewrite H1 by reflexivity. rewrite over_coords. unfold v.
    transitivity (u [] * lsumR (map (fun i => D i * at_ g i) (coords s))).
    + rewrite Rmult_comm, <- lsum_mul_r. apply lsum_ext. intros i _. ring.
    + rewrite lsumR_cons, lsumR_nil. change (@rmul R CRing_R) with Rmult. ring.
  - destruct HS as [HS|HS]; [|discriminate]. subst s. unfold ip. apply lsum_ext. intros i Hi. apply coords_in in Hi. rewrite H2 by (try discriminate; exact Hi). unfold v.
    change (@rmul R CRing_R) with Rmult. ring.
Qed.

(** ** Gradients *)
Lemma joined_l s t : mixable s t -> joined s (joined s t) = joined s t.
Proof. intro H. unfold joined. destruct s; reflexivity. Qed.
Lemma mix_l s t : mixable s t -> mixable s (joined s t).
Proof. intros H. unfold mixable, joined. destruct s; [right; left; reflexivity|left; reflexivity]. Qed.
Lemma mix_r s t : mixable s t -> mixable t (joined s t).
Proof. intros [E|[E|E]]; subst; unfold mixable, joined; [destruct t; auto|auto|auto]. Qed.
Lemma mix_sym s t : mixable s t -> mixable t s.
Proof. intros [E|[E|E]]; unfold mixable; auto. Qed.
Lemma joined_sym s t : mixable s t -> joined s t = joined t s.
Proof. intros [E|[E|E]]; subst; unfold joined; [reflexivity|destruct t; reflexivity|destruct s; reflexivity]. Qed.
Lemma joined_r s t : mixable s t -> joined t (joined s t) = joined s t.
Proof. intros H. rewrite (joined_sym s t H). apply joined_l, mix_sym, H. Qed.
Lemma joined_self s : joined s s = s.
Proof. destruct s; reflexivity. Qed.

(** The two expressions before the sums, with their entries. *)
Lemma exprs_ok o (x y z g : tensR) : mixable (shp x) (shp y) -> smooth o x y -> shp z = joined (shp x) (shp y) -> shp g = joined (shp x) (shp y) ->
  (forall idx, inside (joined (shp x) (shp y)) idx -> entry z idx = meant o (entry x idx) (entry y idx)) ->
  exists px py, diffExprs o x y z g = Ok (px, py) /\ shp px = joined (shp x) (shp y) /\ shp py = joined (shp x) (shp y) /\
    (forall idx, inside (joined (shp x) (shp y)) idx -> entry px idx = partial1 o (entry x idx) (entry y idx) * entry g idx /\ entry py idx = partial2 o (entry x idx) (entry y idx) * entry g idx).
Proof.
  intros M SM Sz Sg Vz. set (J := joined (shp x) (shp y)) in *.
  assert (MX : mixable (shp x) J) by (apply mix_l, M). assert (MY : mixable (shp y) J) by (apply mix_r, M).
  assert (JX : joined (shp x) J = J) by (apply joined_l, M). assert (JY : joined (shp y) J = J) by (apply joined_r, M).
  assert (JX' : joined J (shp x) = J) by (rewrite joined_sym by (apply mix_sym, MX); exact JX). assert (JY' : joined J (shp y) = J) by (rewrite joined_sym by (apply mix_sym, MY); exact JY).
  destruct o; cbn [diffExprs].
  - exists g, g. split; [reflexivity|]. split; [exact Sg|]. split; [exact Sg|]. intros idx _. cbn. split; ring.
  - exists g, (mapT Ropp g). split; [reflexivity|]. split; [exact Sg|]. split; [exact Sg|]. intros idx _. split; [cbn; ring|].
    unfold entry at 1. unfold mapT at 1 2. cbn [at_ shp]. fold (entry g idx). cbn. ring.
  - destruct (ewise_mix Rmult y g) as [c [E1 [S1 V1]]]; [rewrite Sg; exact MY|]. rewrite E1. cbn [bind].
    destruct (ewise_mix Rmult x g) as [c' [E2 [S2 V2]]]; [rewrite Sg; exact MX|]. rewrite E2. cbn [bind]. rewrite Sg, JY in S1, V1. rewrite Sg, JX in S2, V2.
    exists c, c'. split; [reflexivity|]. split; [exact S1|]. split; [exact S2|]. intros idx Hi. rewrite V1, V2 by exact Hi. split; reflexivity.
  - destruct (ewise_mix Rdiv g y) as [c [E1 [S1 V1]]]; [rewrite Sg; apply mix_sym, MY|]. rewrite E1. cbn [bind].
    destruct (ewise_mix Rdiv z y) as [q [E2 [S2 V2]]]; [rewrite Sz; apply mix_sym, MY|]. rewrite E2. cbn [bind]. rewrite Sg, JY' in S1, V1. rewrite Sz, JY' in S2, V2.
    destruct (ewise_mix Rmult (mapT Ropp q) g) as [c' [E3 [S3 V3]]]; [left; cbn [mapT shp]; congruence|]. rewrite E3. cbn [bind]. cbn [mapT shp] in S3, V3. rewrite Sg, S2, joined_self in S3, V3.
    exists c, c'. split; [reflexivity|]. split; [exact S1|]. split; [exact S3|]. intros idx Hi. rewrite V1, V3 by exact Hi. pose proof (SM idx Hi) as N. cbn [smooth_at] in N. split; [cbn; unfold Rdiv; ring|].
    unfold entry at 1. cbn [at_ shp mapT]. fold (entry q idx). rewrite V2 by exact Hi. rewrite Vz by exact Hi. cbn. field. exact N.
  - destruct (ewise_mix Rminus y oneT) as [m [E1 [S1 V1]]]; [right; right; reflexivity|]. rewrite E1. cbn [bind]. cbn [oneT shp] in S1, V1.
    replace (joined (shp y) []) with (shp y) in S1, V1 by (destruct (shp y); reflexivity).
    destruct (ewise_mix Rpower x m) as [p [E2 [S2 V2]]]; [rewrite S1; exact M|]. rewrite E2. cbn [bind]. rewrite S1 in S2, V2. fold J in S2, V2.
    destruct (ewise_mix Rmult g y) as [c [E3 [S3 V3]]]; [rewrite Sg; apply mix_sym, MY|]. rewrite E3. cbn [bind]. rewrite Sg, JY' in S3, V3.
    destruct (ewise_mix Rmult c p) as [d [E4 [S4 V4]]]; [left; congruence|]. rewrite E4. cbn [bind]. rewrite S3, S2, joined_self in S4, V4.
    destruct (ewise_mix Rmult g z) as [e [E5 [S5 V5]]]; [left; congruence|]. rewrite E5. cbn [bind]. rewrite Sg, Sz, joined_self in S5, V5.
    destruct (ewise_mix Rmult e (mapT ln x)) as [f [E6 [S6 V6]]]; [rewrite S5; cbn [mapT shp]; apply mix_sym, MX|]. rewrite E6. cbn [bind]. cbn [mapT shp] in S6, V6. rewrite S5, JX' in S6, V6.
    exists d, f. split; [reflexivity|]. split; [exact S4|]. split; [exact S6|]. intros idx Hi. rewrite V4, V6, V3, V2, V5 by exact Hi. split.
    + assert (Em : entry m idx = entry y idx - 1).
      { destruct (shp y) as [|dy sy] eqn:Ey.
        - rewrite (entry_scalar m) by exact S1. rewrite <- (entry_scalar m []) by exact S1. rewrite V1 by constructor. f_equal. rewrite !entry_scalar by exact Ey. reflexivity.
        - assert (HJ : J = dy :: sy) by (rewrite <- JY; reflexivity). rewrite HJ in Hi. rewrite V1 by exact Hi. reflexivity. }
      rewrite Em. cbn. unfold Rpower. ring.
    + assert (El : entry (mapT ln x) idx = ln (entry x idx)) by (unfold entry; cbn [mapT at_ shp]; reflexivity). rewrite Vz by exact Hi.
      change (entry (Tn (shp x) (fun idx0 => ln (at_ x idx0))) idx) with (entry (mapT ln x) idx). rewrite El. cbn. ring.
Qed.

Lemma whole_without (s : list Z) idx : length idx = length s -> without (iota (length s)) 0 idx = [].
Proof.
  intro E. rewrite <- E. clear E. assert (H : forall (l : list Z) i, (forall k, (k < length l)%nat -> In (i + Z.of_nat k)%Z (iota (length idx))) -> without (iota (length idx)) i l = []).
  { induction l as [|a l IH]; intros i H; [reflexivity|]. cbn [without]. rewrite (proj2 (existsb_exists _ _)).
    - apply IH. intros k Hk. replace (i + 1 + Z.of_nat k)%Z with (i + Z.of_nat (S k))%Z by lia. apply H. cbn [length]. lia.
    - exists i. split; [|apply Z.eqb_refl]. replace i with (i + Z.of_nat 0)%Z by lia. apply H. cbn [length]. lia. }
  apply H. intros k Hk. unfold iota. apply in_map_iff. exists k. split; [lia|]. apply in_seq. lia.
Qed.
Lemma sumScalar_ok (x p : tensR) s : (shp x = s \/ shp x = []) -> shp p = s -> positive s ->
  exists gx, sumScalar x p = Ok gx /\ shp gx = shp x /\
    (shp x = [] -> at_ gx [] = @over R CRing_R s (fun idx => entry p idx)) /\
    (shp x <> [] -> forall idx, inside s idx -> at_ gx idx = entry p idx).
Proof.
  intros HS Sp HP. unfold sumScalar. destruct (shp x) as [|d0 s0] eqn:E.
  - destruct (shp p) as [|d1 s1] eqn:Ep.
    + exists p. subst s. split; [reflexivity|]. split; [exact Ep|]. split; [|congruence]. intros _. rewrite over_coords. cbn [coords map]. rewrite lsumR_cons, lsumR_nil, Rplus_0_r. symmetry. apply entry_scalar, Ep.
    + assert (EA : sumApi p [] = sumNode p (iota (length (shp p)))) by (unfold sumApi; rewrite Ep; reflexivity). rewrite EA. destruct (sum_ok p (iota (length (shp p)))) as [c [E1 [S1 V1]]].
      * rewrite Ep. unfold iota. cbn [length seq map]. discriminate.
      * apply iota_nodup.
      * rewrite Ep, Sp. exact HP.
      * apply Forall_forall. intros a Ha. unfold iota in Ha. apply in_map_iff in Ha. destruct Ha as [k [<- Hk]]. apply in_seq in Hk. lia.
      * exists c. split; [exact E1|]. assert (Sc : shp c = []) by (rewrite S1; apply whole_without; reflexivity). split; [exact Sc|]. split; [|congruence]. intros _.
        rewrite V1. rewrite Ep, Sp. apply over_ext. intros full Hf. rewrite whole_without; [|apply inside_len; exact Hf]. cbn [eqShape]. rewrite eqShape_refl. symmetry. apply entry_full. rewrite Ep, Sp. exact Hf.
  - destruct HS as [HS|HS]; [|discriminate]. exists p. split; [reflexivity|]. split; [congruence|]. split; [discriminate|]. intros _ idx Hi. symmetry. apply entry_full. rewrite Sp. exact Hi.
Qed.
