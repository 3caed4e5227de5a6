(** C101: conversion of dtypes. *)
From Coq Require Import List Arith Bool ZArith QArith Qabs Lia Lqa.
From Verif Require Import BroadcastModel CvtModel CvtSpec.
Import ListNotations.
Local Open Scope nat_scope.

Lemma loop_ok {X Y} (f : X -> Y) : forall a r, length a = length r -> cvLoop f a r = Some (map f a).
Proof.
  induction a as [|x a IH]; intros [|y r] L; cbn in *; try reflexivity; try discriminate.
  rewrite IH by lia. reflexivity.
Qed.
Lemma forall2_map {X Y} (P : X -> Y -> Prop) f : forall l, (forall x, In x l -> P x (f x)) -> Forall2 P l (map f l).
Proof. induction l; intros A; constructor; [apply A; left; reflexivity|apply IHl; intros; apply A; right; assumption]. Qed.
Lemma abs_nonneg q : (0 <= Qabs q)%Q. Proof. apply Qabs_nonneg. Qed.
Ltac qabs := repeat match goal with
  | H : context [Qabs ?x] |- _ => revert H; apply (Qabs_case x); intros
  | |- context [Qabs ?x] => apply (Qabs_case x); intros
  end.
Lemma inj_le_1 z : (inject_Z z < 1)%Q -> (z <= 0)%Z.
Proof. unfold Qlt, inject_Z. cbn. lia. Qed.
Lemma drops_abs x z : dropsFraction x z -> (Qabs x < 1)%Q -> z = 0%Z.
Proof.
  intros (A & _ & _) L. assert (B : (Qabs (inject_Z z) < 1)%Q) by lra.
  revert B. apply Qabs_case; unfold Qle, Qlt, Qopp, inject_Z; cbn; intros; lia.
Qed.
Lemma drops_int k z x : (x == inject_Z k)%Q -> dropsFraction x z -> z = k.
Proof.
  intros E (A & B & S). rewrite E in A, B, S. revert A B.
  apply (Qabs_case (inject_Z k)); apply (Qabs_case (inject_Z z)); intros Hz Hk A B; revert Hz Hk A B S;
    unfold Qle, Qlt, Qmult, Qplus, Qopp, inject_Z; cbn; intros; nia.
Qed.

Section Props.
Variables (toInt : Q -> Z) (toF64 toF32 : Z -> Q).
Hypothesis Go : goConversions toInt toF64 toF32.
Notation Do := (cvDo toInt toF64 toF32).
Notation Pre := (cvPrealloc toInt toF64 toF32).
Notation prod := (fold_right Nat.mul 1).

Lemma new_ints s : s <> [] -> cvNew CvInt s = CV s (DInts (repeat 0%Z (prod s))).
Proof. destruct s; [contradiction|reflexivity]. Qed.
Lemma new_f64 s : s <> [] -> cvNew CvF64 s = CV s (DF64s (repeat 0%Q (prod s))).
Proof. destruct s; [contradiction|reflexivity]. Qed.
Lemma new_f32 s : s <> [] -> cvNew CvF32 s = CV s (DF32s (repeat 0%Q (prod s))).
Proof. destruct s; [contradiction|reflexivity]. Qed.

Lemma zeros_ints s : holdsInts (CV s (DInts (repeat 0%Z (prod s)))) s (repeat 0%Z (prod s)).
Proof. split; [reflexivity|]. split; [reflexivity|apply repeat_length]. Qed.
Lemma zeros_f64 s : holdsF64 (CV s (DF64s (repeat 0%Q (prod s)))) s (repeat 0%Q (prod s)).
Proof. split; [reflexivity|]. split; [reflexivity|apply repeat_length]. Qed.

(** Floats become integers without their fractions, entry by entry, whatever was in the memory
    given. *)
Theorem C101_to_int : forall s l a r0 pre, holdsInts pre s r0 -> (forall x, In x l -> (Qabs x < inject_Z (2 ^ 63))%Q) ->
  (holdsF64 a s l -> exists r zs, Pre (COp s CvF64 CvInt) pre a = Ok r /\ holdsInts r s zs /\ Forall2 dropsFraction l zs) /\
  (holdsF32 a s l -> exists r zs, Pre (COp s CvF32 CvInt) pre a = Ok r /\ holdsInts r s zs /\ Forall2 dropsFraction l zs).
Proof.
  intros s l a r0 pre (Ps & Pd & Pl) R.
  split; intros (As & Ad & Al); unfold cvPrealloc; cbn [cvFrom cvTo]; rewrite Ad, Pd, (loop_ok toInt l r0) by congruence; cbn [cvPut omap];
    eexists _, (map toInt l); (split; [reflexivity|]; split; [|apply forall2_map; intros x I; apply (gc_int _ _ _ Go), R, I]);
    (split; [exact Ps|]; split; [reflexivity|rewrite map_length; exact Al]).
Qed.
(** Integers become floats, exactly up to 2^53 and 2^24. *)
Theorem C101_to_float : forall s l a r0 pre, holdsInts a s l ->
  (holdsF64 pre s r0 -> (forall z, In z l -> (Z.abs z <= 2 ^ 53)%Z) ->
     exists r xs, Pre (COp s CvInt CvF64) pre a = Ok r /\ holdsF64 r s xs /\ Forall2 (fun z x => x == inject_Z z)%Q l xs) /\
  (holdsF32 pre s r0 -> (forall z, In z l -> (Z.abs z <= 2 ^ 24)%Z) ->
     exists r xs, Pre (COp s CvInt CvF32) pre a = Ok r /\ holdsF32 r s xs /\ Forall2 (fun z x => x == inject_Z z)%Q l xs).
Proof.
  intros s l a r0 pre (As & Ad & Al). split; intros (Ps & Pd & Pl) R; unfold cvPrealloc; cbn [cvFrom cvTo]; rewrite Ad, Pd.
  - rewrite (loop_ok toF64 l r0) by congruence. eexists _, (map toF64 l). split; [reflexivity|]. split.
    + split; [exact Ps|]. split; [reflexivity|rewrite map_length; exact Al].
    + apply forall2_map. intros x I. apply (gc_f64 _ _ _ Go), R, I.
  - rewrite (loop_ok toF32 l r0) by congruence. eexists _, (map toF32 l). split; [reflexivity|]. split.
    + split; [exact Ps|]. split; [reflexivity|rewrite map_length; exact Al].
    + apply forall2_map. intros x I. apply (gc_f32 _ _ _ Go), R, I.
Qed.
(** Do gives what UsePreallocDo gives with fresh memory of the shape. *)
Theorem C101_do : forall s l a, s <> [] -> (forall x, In x l -> (Qabs x < inject_Z (2 ^ 63))%Q) -> holdsF64 a s l ->
  exists r zs, Do (COp s CvF64 CvInt) a = Ok r /\ holdsInts r s zs /\ Forall2 dropsFraction l zs.
Proof.
  intros s l a N R A. unfold cvDo. cbn [inshape cvTo]. rewrite (new_ints s N).
  apply (proj1 (C101_to_int s l a (repeat 0%Z (prod s)) _ (zeros_ints s) R) A).
Qed.
(** Any other pair of dtypes can be built into a graph, and fails in every run; that includes
    the conversion of a dtype to itself. *)
Theorem C101_other_pairs : forall x from to,
  ~ ((from = CvF64 \/ from = CvF32) /\ to = CvInt) -> ~ (from = CvInt /\ (to = CvF64 \/ to = CvF32)) ->
  nDt x = from ->
  exists op n, convType x from to = Ok (op, n) /\ nShape n = nShape x /\ nDt n = to /\ forall pre a, Pre op pre a = Err /\ Do op a = Err.
Proof.
  intros x from to N1 N2 E. unfold convType. rewrite E.
  assert (Q : cvtEq from from = true) by (destruct from; cbn; try reflexivity; apply Nat.eqb_refl). rewrite Q.
  eexists _, _. split; [reflexivity|]. split; [reflexivity|]. split; [reflexivity|]. intros pre a.
  assert (A : forall p, Pre (COp (nShape x) from to) p a = Err).
  { intros p. unfold cvPrealloc. cbn [cvFrom cvTo].
    destruct from, to; try reflexivity; exfalso; first [apply N1; split; [auto|reflexivity] | apply N2; split; [reflexivity|auto]]. }
  split; [apply A|apply A].
Qed.
(** A wrong [from] is refused when the graph is built. *)
Theorem C101_wrong_from : forall x from to, nDt x <> from -> convType x from to = Err.
Proof.
  intros x from to N. unfold convType. destruct (cvtEq (nDt x) from) eqn:E; [|reflexivity].
  exfalso. apply N. destruct (nDt x), from; cbn in E; try discriminate; try reflexivity. apply Nat.eqb_eq in E. congruence.
Qed.
(** A scalar does not stay one: the value has the shape (1), the node that of a scalar. *)
Theorem C101_scalars : forall x z sh,
  exists op n r op' n' r', convType (CN [] CvF64) CvF64 CvInt = Ok (op, n) /\ Do op (CV sh (DF64 x)) = Ok r /\
    convType (CN [] CvInt) CvInt CvF64 = Ok (op', n') /\ Do op' (CV sh (DInt z)) = Ok r' /\
    nShape n = [] /\ cvShape r = [1] /\ nShape n' = [] /\ cvShape r' = [1] /\
    cvOf r = DInts [toInt x] /\ cvOf r' = DF64s [toF64 z].
Proof. intros. do 6 eexists. repeat (split; [reflexivity|]). reflexivity. Qed.
(** There and back: integers up to 2^53 come back through float64, up to 2^24 through float32. *)
Theorem C101_round_trip : forall s l a, s <> [] -> holdsInts a s l ->
  ((forall z, In z l -> (Z.abs z <= 2 ^ 53)%Z) ->
     exists m r, Do (COp s CvInt CvF64) a = Ok m /\ Do (COp s CvF64 CvInt) m = Ok r /\ holdsInts r s l) /\
  ((forall z, In z l -> (Z.abs z <= 2 ^ 24)%Z) ->
     exists m r, Do (COp s CvInt CvF32) a = Ok m /\ Do (COp s CvF32 CvInt) m = Ok r /\ holdsInts r s l).
Proof.
  intros s l a N (As & Ad & Al). unfold cvDo. cbn [inshape cvTo]. rewrite (new_ints s N), (new_f64 s N), (new_f32 s N).
  assert (B : forall x z, (x == inject_Z z)%Q -> (Z.abs z <= 2 ^ 53)%Z -> (Qabs x < inject_Z (2 ^ 63))%Q).
  { intros x z E L. rewrite E. apply Qabs_case; intros _; unfold Qlt, Qopp, inject_Z; cbn; lia. }
  split; intros R; unfold cvPrealloc; cbn [cvFrom cvTo cvOf]; rewrite Ad.
  - rewrite (loop_ok toF64 l (repeat 0%Q (prod s))) by (rewrite repeat_length; exact Al). cbn [cvPut omap].
    eexists _, _. split; [reflexivity|]. cbn [cvOf]. split; [
      rewrite (loop_ok toInt (map toF64 l) (repeat 0%Z (prod s))) by (rewrite map_length, repeat_length; exact Al); reflexivity|].
    split; [reflexivity|]. split; [|exact Al]. cbn [cvOf]. f_equal. rewrite map_map. apply (eq_trans (y := map (fun z => z) l)); [|apply map_id].
    apply map_ext_in. intros z I. assert (E := gc_f64 _ _ _ Go z (R z I)).
    apply (drops_int z _ _ E). apply (gc_int _ _ _ Go). exact (B _ _ E (R z I)).
  - rewrite (loop_ok toF32 l (repeat 0%Q (prod s))) by (rewrite repeat_length; exact Al). cbn [cvPut omap].
    eexists _, _. split; [reflexivity|]. cbn [cvOf]. split; [
      rewrite (loop_ok toInt (map toF32 l) (repeat 0%Z (prod s))) by (rewrite map_length, repeat_length; exact Al); reflexivity|].
    split; [reflexivity|]. split; [|exact Al]. cbn [cvOf]. f_equal. rewrite map_map. apply (eq_trans (y := map (fun z => z) l)); [|apply map_id].
    apply map_ext_in. intros z I. assert (E := gc_f32 _ _ _ Go z (R z I)).
    assert (R' : (Z.abs z <= 2 ^ 53)%Z) by (specialize (R z I); lia).
    apply (drops_int z _ _ E). apply (gc_int _ _ _ Go). exact (B _ _ E R').
Qed.
(** The gradient of float to integer is passed through as it is, although the conversion is
    constant around every number that is not an integer. *)
Theorem C101_gradient_to_int : forall s gr a x z, s <> [] -> holdsInts a s gr -> (forall z, In z gr -> (Z.abs z <= 2 ^ 53)%Z) ->
  (exists r xs, Do (cvDiffOp (COp s CvF64 CvInt) s) a = Ok r /\ holdsF64 r s xs /\ Forall2 (fun z x => x == inject_Z z)%Q gr xs) /\
  (dropsFraction x z -> (forall k, ~ x == inject_Z k)%Q ->
   exists eps, (0 < eps)%Q /\ forall y, (Qabs (y - x) < eps)%Q -> dropsFraction y z).
Proof.
  intros s gr a x z N A R. split.
  - unfold cvDo, cvDiffOp. cbn [inshape cvTo cvFrom]. rewrite (new_f64 s N).
    apply (proj1 (C101_to_float s gr a (repeat 0%Q (prod s)) _ A) (zeros_f64 s) R).
  - intros (B & C & D) NI. pose proof (NI z) as Nz. pose proof (NI 0%Z) as N0. change (inject_Z 0) with 0%Q in N0.
    assert (X : (0 < Qabs x)%Q) by (apply Qabs_case; intros; [|]; destruct (Qlt_le_dec 0 x); destruct (Qlt_le_dec x 0); lra).
    assert (S : (Qabs (inject_Z z) < Qabs x)%Q).
    { destruct (Qlt_le_dec (Qabs (inject_Z z)) (Qabs x)) as [L|G]; [exact L|]. exfalso.
      assert (E : (Qabs (inject_Z z) == Qabs x)%Q) by lra. revert E. apply (Qabs_case x); apply (Qabs_case (inject_Z z)); intros Hz Hx E; [apply Nz; lra| | |apply Nz; lra].
      - apply Nz. assert (0 < x)%Q by lra. assert (inject_Z z < 0)%Q by lra. assert (inject_Z z * x < 0)%Q by nra. lra.
      - apply Nz. assert (x < 0)%Q by lra. assert (0 < inject_Z z)%Q by lra. assert (inject_Z z * x < 0)%Q by nra. lra. }
    assert (M : exists eps, (0 < eps)%Q /\ (eps <= Qabs x)%Q /\ (eps <= Qabs x - Qabs (inject_Z z))%Q /\ (eps <= Qabs (inject_Z z) + 1 - Qabs x)%Q).
    { set (p := Qabs x) in *. set (q := (p - Qabs (inject_Z z))%Q). set (t := (Qabs (inject_Z z) + 1 - p)%Q).
      assert (0 < q)%Q by (unfold q; lra). assert (0 < t)%Q by (unfold t; lra).
      destruct (Qlt_le_dec p q), (Qlt_le_dec p t), (Qlt_le_dec q t); first [exists p; repeat split; lra | exists q; repeat split; lra | exists t; repeat split; lra]. }
    destruct M as (eps & E0 & E1 & E2 & E3). exists eps. split; [exact E0|]. intros y Y.
    assert (T1 : (Qabs y - Qabs x <= Qabs (y - x))%Q) by apply Qabs_triangle_reverse.
    assert (T2 : (Qabs x - Qabs y <= Qabs (y - x))%Q) by (rewrite Qabs_Qminus; apply Qabs_triangle_reverse).
    split; [lra|]. split; [lra|].
    revert D E1 Y. apply (Qabs_case x); apply (Qabs_case (y - x)); intros; clear - D H H0 E1 Y X N0.
    all: destruct (Qlt_le_dec 0 x) as [P|P].
    all: try (assert (0 <= inject_Z z)%Q by (destruct (Qlt_le_dec (inject_Z z) 0); [assert (inject_Z z * x < 0)%Q by nra; lra|assumption]); assert (0 <= y)%Q by lra; nra).
    all: try (assert (x < 0)%Q by (destruct (Qlt_le_dec x 0); [assumption|exfalso; apply N0; lra]);
              assert (inject_Z z <= 0)%Q by (destruct (Qlt_le_dec 0 (inject_Z z)); [assert (inject_Z z * x < 0)%Q by nra; lra|assumption]); assert (y <= 0)%Q by lra; nra).
Qed.
(** The gradient of integer to float loses its fraction; whatever is smaller than 1 is lost. *)
Theorem C101_gradient_to_float : forall s gr a, s <> [] -> holdsF64 a s gr -> (forall x, In x gr -> (Qabs x < 1)%Q) ->
  exists r, Do (cvDiffOp (COp s CvInt CvF64) s) a = Ok r /\ holdsInts r s (repeat 0%Z (length gr)).
Proof.
  intros s gr a N A R. unfold cvDiffOp. cbn [cvTo cvFrom].
  destruct (C101_do s gr a N) as (r & zs & E & (H1 & H2 & H3) & F).
  { intros x I. specialize (R x I). apply (Qlt_trans _ 1); [exact R|reflexivity]. }
  { exact A. }
  exists r. split; [exact E|]. assert (Z : zs = repeat 0%Z (length gr)).
  { clear - F R. induction F as [|x z l zs D F IH]; [reflexivity|]. cbn [length repeat]. f_equal; [apply (drops_abs x z D), R; left; reflexivity|].
    apply IH. intros y I. apply R. right. exact I. }
  subst zs. split; [exact H1|]. split; [exact H2|exact H3].
Qed.
End Props.
Print Assumptions C101_to_int.
Print Assumptions C101_to_float.
Print Assumptions C101_do.
Print Assumptions C101_other_pairs.
Print Assumptions C101_wrong_from.
Print Assumptions C101_scalars.
Print Assumptions C101_round_trip.
Print Assumptions C101_gradient_to_int.
Print Assumptions C101_gradient_to_float.

(** Lawful conversions exist: truncation and the exact embedding. *)
Definition goInt (x : Q) : Z := (Z.quot (Qnum x) (Zpos (Qden x)))%Z.
Lemma goConversions_exist : goConversions goInt inject_Z inject_Z.
Proof.
  split; [|intros; reflexivity|intros; reflexivity]. intros [n d] _. unfold goInt, dropsFraction, Qabs, inject_Z, Qle, Qlt, Qmult, Qplus. cbn -[Z.mul Z.add Z.quot].
  assert (D : (0 < Zpos d)%Z) by lia. pose proof (Z.quot_rem' n (Zpos d)) as E. pose proof (Z.rem_bound_abs n (Zpos d) ltac:(lia)) as Rb.
  pose proof (Z.rem_sign_nz n (Zpos d) ltac:(lia)) as Rs.
  assert (Sg : (0 <= Z.quot n (Zpos d) * n)%Z).
  { destruct (Z.le_gt_cases 0 n); [assert (0 <= Z.quot n (Zpos d))%Z by (apply Z.quot_pos; lia); nia|].
    assert (Z.quot n (Zpos d) <= 0)%Z by (rewrite <- (Z.opp_involutive n), Z.quot_opp_l by lia; assert (0 <= Z.quot (- n) (Zpos d))%Z by (apply Z.quot_pos; lia); lia). nia. }
  set (q := Z.quot n (Zpos d)) in *. set (r := Z.rem n (Zpos d)) in *. clearbody q r.
  assert (Rsg : (r = 0 \/ Z.sgn r = Z.sgn n)%Z) by (destruct (Z.eq_dec r 0); auto).
  split; [|split].
  - destruct Rsg as [->|Rsg]; [nia|]. destruct (Z.abs_spec n), (Z.abs_spec q), (Z.sgn_spec n), (Z.sgn_spec r); nia.
  - destruct Rsg as [->|Rsg]; [nia|]. destruct (Z.abs_spec n), (Z.abs_spec q), (Z.abs_spec r), (Z.sgn_spec n), (Z.sgn_spec r); nia.
  - nia.
Qed.
(** (2.75, -2.75) to integers and back. *)
Example C101_case : cvDo goInt inject_Z inject_Z (COp [2] CvF64 CvInt) (CV [2] (DF64s [11 # 4; -11 # 4]%Q)) = Ok (CV [2] (DInts [2; -2]%Z)) /\
  cvDo goInt inject_Z inject_Z (COp [2] CvInt CvF64) (CV [2] (DInts [2; -2]%Z)) = Ok (CV [2] (DF64s [2; -2]%Q)) /\
  holdsF64 (CV [2] (DF64s [11 # 4; -11 # 4]%Q)) [2] [11 # 4; -11 # 4]%Q /\ dropsFraction (11 # 4) 2 /\ dropsFraction (-11 # 4) (-2).
Proof. repeat split; try reflexivity; vm_compute; intros; discriminate. Qed.
