(** C106: the kernels of the build tag fastmath. *)
From Coq Require Import Reals ZArith Lra Lia Psatz Bool.
From Verif Require Import BroadcastModel FastModel FastSpec.
Open Scope R_scope.

(** ** Bits *)
Lemma cast64 : forall neg e m b x, normal64 neg e m b x -> castUF 11 52 b = Some x.
Proof.
  intros neg e m b x (He & Hm & -> & ->). unfold castUF.
  change (2 ^ (11 + 52))%Z with 9223372036854775808%Z. change (2 ^ 52)%Z with 4503599627370496%Z.
  change (2 ^ 11)%Z with 2048%Z. change (2 ^ (11 - 1))%Z with 1024%Z.
  assert (E1 : (((if neg then 9223372036854775808 else 0) + e * 4503599627370496 + m) / 9223372036854775808
                = if neg then 1 else 0)%Z)
    by (destruct neg; Z.div_mod_to_equations; lia).
  assert (E2 : (((if neg then 9223372036854775808 else 0) + e * 4503599627370496 + m) mod 4503599627370496
                = m)%Z)
    by (destruct neg; Z.div_mod_to_equations; lia).
  assert (E3 : ((((if neg then 9223372036854775808 else 0) + e * 4503599627370496 + m) / 4503599627370496) mod 2048
                = e)%Z)
    by (destruct neg; Z.div_mod_to_equations; lia).
  rewrite E1, E2, E3.
  replace (e =? 2048 - 1)%Z with false by (symmetry; apply Z.eqb_neq; lia).
  replace (e =? 0)%Z with false by (symmetry; apply Z.eqb_neq; lia).
  destruct neg; reflexivity.
Qed.

Lemma cast32 : forall neg e m b x, normal32 neg e m b x -> castUF 8 23 b = Some x.
Proof.
  intros neg e m b x (He & Hm & -> & ->). unfold castUF.
  change (2 ^ (8 + 23))%Z with 2147483648%Z. change (2 ^ 23)%Z with 8388608%Z.
  change (2 ^ 8)%Z with 256%Z. change (2 ^ (8 - 1))%Z with 128%Z.
  assert (E1 : (((if neg then 2147483648 else 0) + e * 8388608 + m) / 2147483648
                = if neg then 1 else 0)%Z)
    by (destruct neg; Z.div_mod_to_equations; lia).
  assert (E2 : (((if neg then 2147483648 else 0) + e * 8388608 + m) mod 8388608 = m)%Z)
    by (destruct neg; Z.div_mod_to_equations; lia).
  assert (E3 : ((((if neg then 2147483648 else 0) + e * 8388608 + m) / 8388608) mod 256 = e)%Z)
    by (destruct neg; Z.div_mod_to_equations; lia).
  rewrite E1, E2, E3.
  replace (e =? 256 - 1)%Z with false by (symmetry; apply Z.eqb_neq; lia).
  replace (e =? 0)%Z with false by (symmetry; apply Z.eqb_neq; lia).
  destruct neg; reflexivity.
Qed.

(** ** Refinement *)
Lemma refine_err : forall n x f, 1 - x * refine n x f = (1 - x * f) ^ (2 ^ n).
Proof.
  induction n; intros x f.
  - cbn [refine Nat.pow]. ring.
  - cbn [refine]. rewrite IHn.
    replace (1 - x * (2 * f - f * f * x)) with ((1 - x * f) ^ 2) by ring.
    rewrite <- pow_mult. reflexivity.
Qed.

Lemma p2 : forall a b, powerRZ 2 a * powerRZ 2 b = powerRZ 2 (a + b).
Proof. intros. rewrite powerRZ_add; lra. Qed.

(** The first guess of the float64 code. *)
Lemma guess64 : forall neg e m b x, normal64 neg e m b x -> (e <= 2043)%Z ->
  exists f, castUF 11 52 ((0x7FDE623822FC16E6 - b) mod 2 ^ 64) = Some f /\
            Rabs (1 - x * f) <= 506 / 10000.
Proof.
  intros neg e m b x N He. destruct N as (H1 & H2 & Hb & Hx).
  set (c := 4048642918586086%Z).
  set (d := if (m <=? c)%Z then (2045 - e)%Z else (2044 - e)%Z).
  set (k := if (m <=? c)%Z then (c - m)%Z else (c + 4503599627370496 - m)%Z).
  assert (N : normal64 neg d k ((0x7FDE623822FC16E6 - b) mod 2 ^ 64)
                ((if neg then -1 else 1) * powerRZ 2 (d - 1023) * (1 + IZR k / 4503599627370496))).
  { repeat split.
    1,2,3,4: unfold d, k, c; destruct (Z.leb_spec m 4048642918586086); lia.
    rewrite Hb. change (2 ^ 64)%Z with 18446744073709551616%Z.
    unfold d, k, c. destruct neg; destruct (Z.leb_spec m 4048642918586086);
      Z.div_mod_to_equations; lia. }
  exists ((if neg then -1 else 1) * powerRZ 2 (d - 1023) * (1 + IZR k / 4503599627370496)).
  split; [exact (cast64 _ _ _ _ _ N)|].
  set (a := IZR m / 4503599627370496).
  assert (Ha : 0 <= a < 1).
  { unfold a. assert (0 <= IZR m) by (apply IZR_le; lia).
    assert (IZR m < 4503599627370496) by (apply IZR_lt; lia). split; [lra|].
    apply Rmult_lt_reg_r with 4503599627370496; [lra|]. field_simplify; lra. }
  replace (x * ((if neg then -1 else 1) * powerRZ 2 (d - 1023) * (1 + IZR k / 4503599627370496)))
    with (powerRZ 2 (e + d - 2046) * ((1 + a) * (1 + IZR k / 4503599627370496))).
  2:{ rewrite Hx. fold a.
      replace (e + d - 2046)%Z with ((e - 1023) + (d - 1023))%Z by lia. rewrite <- p2.
      destruct neg; ring. }
  unfold d, k. destruct (Z.leb_spec m c) as [L|L].
  - replace (e + (2045 - e) - 2046)%Z with (-1)%Z by lia.
    rewrite minus_IZR. 
    replace ((IZR c - IZR m) / 4503599627370496) with (IZR c / 4503599627370496 - a) by (unfold a; field).
    assert (La : a <= IZR c / 4503599627370496).
    { unfold a. apply Rmult_le_compat_r; [lra|]. apply IZR_le; lia. }
    assert (Hc : 0.898979317 <= IZR c / 4503599627370496 <= 0.898979318) by (unfold c; lra).
    set (q := IZR c / 4503599627370496) in *. clearbody q a.
    replace (powerRZ 2 (-1)) with (1 / 2) by (change (powerRZ 2 (-1)) with (/ 2 ^ 1); field).
    clear - Ha La Hc.
    assert (P : 0 <= a * (q - a)) by (apply Rmult_le_pos; lra).
    assert (P2 : 0 <= (a - q / 2) * (a - q / 2)) by apply Rle_0_sqr.
    assert (P3 : 0 <= (q - 0.898979317) * (1 - q)) by (apply Rmult_le_pos; lra).
    apply Rabs_le. split; nra.
  - replace (e + (2044 - e) - 2046)%Z with (-2)%Z by lia.
    rewrite minus_IZR, plus_IZR.
    replace ((IZR c + 4503599627370496 - IZR m) / 4503599627370496)
      with (IZR c / 4503599627370496 + 1 - a) by (unfold a; field).
    assert (La : IZR c / 4503599627370496 <= a).
    { unfold a. apply Rmult_le_compat_r; [lra|]. apply IZR_le; lia. }
    assert (Hc : 0.898979317 <= IZR c / 4503599627370496 <= 0.898979318) by (unfold c; lra).
    set (q := IZR c / 4503599627370496) in *. clearbody q a.
    replace (powerRZ 2 (-2)) with (1 / 4) by (change (powerRZ 2 (-2)) with (/ 2 ^ 2); field).
    clear - Ha La Hc.
    assert (P : 0 <= (a - q) * (1 - a)) by (apply Rmult_le_pos; lra).
    assert (P2 : 0 <= (a - (1 + q) / 2) * (a - (1 + q) / 2)) by apply Rle_0_sqr.
    assert (P3 : 0 <= (q - 0.898979317) * (1 - q)) by (apply Rmult_le_pos; lra).
    apply Rabs_le. split; nra.
Qed.

(** The first guess of the float32 code: for every mantissa, exactly how far off. *)
Lemma guess32 : forall neg e m b x, normal32 neg e m b x -> (e <= 252)%Z ->
  exists f, castUF 8 23 ((0x7F000000 - b) mod 2 ^ 32) = Some f /\
            x * f = 1 + (IZR m / 8388608) * (1 - IZR m / 8388608) / 2.
Proof.
  intros neg e m b x N He. destruct N as (H1 & H2 & Hb & Hx).
  set (d := if (m =? 0)%Z then (254 - e)%Z else (253 - e)%Z).
  set (k := if (m =? 0)%Z then 0%Z else (8388608 - m)%Z).
  assert (N : normal32 neg d k ((0x7F000000 - b) mod 2 ^ 32)
                ((if neg then -1 else 1) * powerRZ 2 (d - 127) * (1 + IZR k / 8388608))).
  { repeat split.
    1,2,3,4: unfold d, k; destruct (Z.eqb_spec m 0); lia.
    rewrite Hb. change (2 ^ 32)%Z with 4294967296%Z.
    unfold d, k. destruct neg; destruct (Z.eqb_spec m 0);
      Z.div_mod_to_equations; lia. }
  exists ((if neg then -1 else 1) * powerRZ 2 (d - 127) * (1 + IZR k / 8388608)).
  split; [exact (cast32 _ _ _ _ _ N)|].
  set (a := IZR m / 8388608).
  replace (x * ((if neg then -1 else 1) * powerRZ 2 (d - 127) * (1 + IZR k / 8388608)))
    with (powerRZ 2 (e + d - 254) * ((1 + a) * (1 + IZR k / 8388608))).
  2:{ rewrite Hx. fold a.
      replace (e + d - 254)%Z with ((e - 127) + (d - 127))%Z by lia. rewrite <- p2.
      destruct neg; ring. }
  unfold d, k, a. destruct (Z.eqb_spec m 0) as [->|L].
  - replace (e + (254 - e) - 254)%Z with 0%Z by lia. cbn [powerRZ]. field.
  - replace (e + (253 - e) - 254)%Z with (-1)%Z by lia. rewrite minus_IZR.
    change (powerRZ 2 (-1)) with (/ 2 ^ 1). field.
Qed.

(** ** Reciprocals *)
(** For every normal float64 (up to 2^1020 in size, beyond which the guess is no
    normal float), [_inversef64] in exact arithmetic is within 0.0506^8 < 5e-11
    of the reciprocal, relative to it. *)
Theorem C106_inverse64 : forall neg e m b x, normal64 neg e m b x -> (e <= 2043)%Z ->
  exists y, inversef64 b = Some y /\ relErr x y <= (506 / 10000) ^ 8.
Proof.
  intros neg e m b x N He. unfold inversef64.
  rewrite (cast64 _ _ _ _ _ N).
  destruct (guess64 _ _ _ _ _ N He) as (f & -> & Hf).
  exists (refine 3 x f). split; [reflexivity|]. unfold relErr.
  rewrite refine_err. change (2 ^ 3)%nat with 8%nat. rewrite <- RPow_abs.
  apply pow_incr. split; [apply Rabs_pos|exact Hf].
Qed.
Print Assumptions C106_inverse64.

(** [_inversef32] is off by exactly half of m·(1-m), [m] the mantissa in [0,1). *)
Theorem C106_inverse32 : forall neg e m b x, normal32 neg e m b x -> (e <= 252)%Z ->
  exists y, inversef32 b = Some y /\
            relErr x y = (IZR m / 8388608) * (1 - IZR m / 8388608) / 2.
Proof.
  intros neg e m b x N He. unfold inversef32.
  rewrite (cast32 _ _ _ _ _ N).
  destruct (guess32 _ _ _ _ _ N He) as (f & -> & Hf).
  exists f. split; [reflexivity|]. unfold relErr. rewrite Hf.
  destruct N as (_ & Hm & _ & _).
  assert (0 <= IZR m) by (apply IZR_le; lia).
  assert (IZR m < 8388608) by (apply IZR_lt; lia).
  set (a := IZR m / 8388608).
  assert (0 <= a) by (unfold a; lra).
  assert (a <= 1) by (unfold a; lra). clearbody a.
  rewrite Rabs_left1; nra.
Qed.
Print Assumptions C106_inverse32.

(** The refinement that the comment of the function counts on would have left at
    most 1/4096: it is computed from the same guess, and dropped. *)
Theorem C106_inverse32_refined : forall neg e m b x y, normal32 neg e m b x -> (e <= 252)%Z ->
  inversef32 b = Some y ->
  let y1 := 2 * y - y * y * x in
  let y2 := 2 * y1 - y1 * y1 * x in
  relErr x y2 = relErr x y ^ 4 /\ relErr x y2 <= 1 / 4096.
Proof.
  intros neg e m b x y N He Hy y1 y2.
  destruct (C106_inverse32 _ _ _ _ _ N He) as (y' & Hy' & Er).
  rewrite Hy in Hy'. injection Hy' as <-.
  assert (E : relErr x y2 = relErr x y ^ 4).
  { unfold relErr. rewrite RPow_abs. f_equal. unfold y2, y1. ring. }
  split; [exact E|]. rewrite E, Er.
  destruct N as (_ & Hm & _ & _).
  assert (0 <= IZR m) by (apply IZR_le; lia).
  assert (IZR m < 8388608) by (apply IZR_lt; lia).
  set (a := IZR m / 8388608).
  assert (0 <= a) by (unfold a; lra).
  assert (a <= 1) by (unfold a; lra). clearbody a.
  replace (1 / 4096) with ((1 / 8) ^ 4) by lra.
  assert (0 <= a * (1 - a)) by (apply Rmult_le_pos; lra).
  assert (0 <= (a - 1 / 2) * (a - 1 / 2)) by apply Rle_0_sqr.
  apply pow_incr. split; lra.
Qed.
Print Assumptions C106_inverse32_refined.

(** 1.5 is a float32 and so is 1/1.5 up to one part in 2^24, but the code says
    0.75. *)
Theorem C106_inverse32_refuted : exists b x y,
  normal32 false 127 4194304 b x /\ x = 3/2 /\ inversef32 b = Some y /\
  y = 3/4 /\ relErr x y = 1/8.
Proof.
  exists 1069547520%Z, (3/2), (3/4).
  assert (N : normal32 false 127 4194304 1069547520 (3/2)).
  { repeat split; try lia. change (powerRZ 2 (127 - 127)) with 1. lra. }
  split; [exact N|]. split; [reflexivity|].
  assert (E : relErr (3/2) (3/4) = 1/8).
  { unfold relErr. rewrite Rabs_left1; lra. }
  split; [|split; [reflexivity|exact E]].
  unfold inversef32. rewrite (cast32 _ _ _ _ _ N).
  change ((0x7F000000 - 1069547520) mod 2 ^ 32)%Z with 1061158912%Z.
  rewrite (cast32 false 126 4194304 1061158912 (3/4)); [reflexivity|].
  repeat split; try lia. change (powerRZ 2 (126 - 127)) with (/ 2 ^ 1). lra.
Qed.
Print Assumptions C106_inverse32_refuted.

(** ** The hyperbolic tangent *)
Ltac ang := unfold anguita in *;
  repeat match goal with
         | |- context [Rlt_dec ?a ?b] => destruct (Rlt_dec a b)
         | |- context [Rle_dec ?a ?b] => destruct (Rle_dec a b)
         | H : context [Rlt_dec ?a ?b] |- _ => destruct (Rlt_dec a b)
         | H : context [Rle_dec ?a ?b] |- _ => destruct (Rle_dec a b)
         end; try discriminate; try (exfalso; lra).

(** Level 2, both widths: zero, and no other number, panics. *)
Theorem C106_tanh_panics : forall x,
  (tanhf64 2 x = Panic <-> x = 0) /\ (tanhf32 2 x = Panic <-> x = 0).
Proof.
  intros x. unfold tanhf64, tanhf32. cbn [Z.eqb orb Pos.eqb].
  assert (A : anguita x = None <-> x = 0).
  { split; [intros H; ang; lra|]. intros ->. ang. reflexivity. }
  destruct (anguita x) as [y|] eqn:E;
    split; (split; [discriminate|]) || (split; [intros _|reflexivity]);
    try (apply A; reflexivity); intros H; apply A in H; discriminate.
Qed.
Print Assumptions C106_tanh_panics.

(** The levels other than 0, 1 and 2, all accepted by SetOptimizationLevel, panic
    on every number. *)
Theorem C106_tanh_levels : forall lvl x, (lvl < 0 \/ 2 < lvl)%Z ->
  tanhf64 lvl x = Panic /\ tanhf32 lvl x = Panic.
Proof.
  intros lvl x H. unfold tanhf64, tanhf32.
  destruct (Z.eqb_spec lvl 0); [lia|]. destruct (Z.eqb_spec lvl 1); [lia|].
  destruct (Z.eqb_spec lvl 2); [lia|]. split; reflexivity.
Qed.
Print Assumptions C106_tanh_levels.

(** Level 0 of both widths and level 1 of float32 are the hyperbolic tangent. *)
Theorem C106_tanh_exact : forall x,
  let t := (exp x - exp (- x)) / (exp x + exp (- x)) in
  tanhf64 0 x = Ok t /\ tanhf32 0 x = Ok t /\ tanhf32 1 x = Ok t.
Proof.
  intros x t. assert (E : tanh x = t).
  { unfold tanh, sinh, cosh, t. field. pose proof (exp_pos x). pose proof (exp_pos (- x)). lra. }
  unfold tanhf64, tanhf32. cbn [Z.eqb orb Pos.eqb]. rewrite E. auto.
Qed.
Print Assumptions C106_tanh_exact.

(** Level 2 away from zero: an odd function, with the sign of its argument,
    bounded by 0.96016 and monotone. *)
Theorem C106_tanh_two : forall x y, tanhf64 2 x = Ok y ->
  tanhf64 2 (- x) = Ok (- y) /\ tanhf32 2 x = Ok y /\
  0 < x * y /\ Rabs y <= 96016/100000 /\
  (forall x' y', x <= x' -> tanhf64 2 x' = Ok y' -> y <= y').
Proof.
  intros x y H. unfold tanhf64, tanhf32 in *. cbn [Z.eqb orb Pos.eqb] in *.
  destruct (anguita x) as [v|] eqn:E; [|discriminate]. injection H as ->.
  split; [|split; [reflexivity|split; [|split]]].
  - replace (anguita (- x)) with (Some (- y)); [reflexivity|].
    ang; injection E as <-; f_equal; try lra; try nra.
    all: assert (x = 192033/100000) as -> by lra; lra.
  - ang; injection E as <-; nra.
  - ang; injection E as <-; apply Rabs_le; split; nra.
  - intros x' y' L H'. destruct (anguita x') as [v'|] eqn:E'; [|discriminate].
    injection H' as ->. ang; injection E as <-; injection E' as <-; nra.
Qed.
Print Assumptions C106_tanh_two.

(** Level 1 of float64 is odd and has the sign of its argument, but it grows past
    every bound: it lies above x/28 on the positive side, so that it is not even
    within [-1, 1]. *)
Theorem C106_tanh_one : forall x y, tanhf64 1 x = Ok y ->
  tanhf64 1 (- x) = Ok (- y) /\ (0 < x -> x / 28 < y).
Proof.
  intros x y H. cbn in H. injection H as <-. 
  assert (Hb : 0 < 135135 + x * x * (62370 + x * x * (3150 + x * x * 28))).
  { assert (0 <= x * x) by nra. set (q := x * x) in *. clearbody q.
    assert (0 <= q * q) by nra. assert (0 <= q * q * q) by nra. nra. }
  split.
  - cbn. f_equal. unfold lambert. replace (- x * - x) with (x * x) by ring.
    field. lra.
  - intros Hx. unfold lambert.
    set (b := 135135 + x * x * (62370 + x * x * (3150 + x * x * 28))) in *.
    apply Rmult_lt_reg_r with (28 * b); [lra|].
    replace (x / 28 * (28 * b)) with (x * b) by field.
    match goal with |- _ < ?n / b * (28 * b) => replace (n / b * (28 * b)) with (28 * n) by (field; lra) end.
    unfold b. assert (0 < x * x) by nra. set (q := x * x) in *. clearbody q.
    assert (0 < q * q) by nra.
    assert (0 < x * (3513510 + 422730 * q + 7434 * (q * q) + 135135)) by nra. nra.
Qed.
Print Assumptions C106_tanh_one.

(** Refuted: level 1 does not stay within [-1, 1]. *)
Theorem C106_tanh_one_refuted : exists x y, tanhf64 1 x = Ok y /\ 1 < y /\
  tanh x < 1 /\ x = 5.
Proof.
  exists 5, (lambert 5). split; [reflexivity|]. split; [unfold lambert; lra|].
  split; [|reflexivity]. unfold tanh, sinh, cosh.
  pose proof (exp_pos 5). pose proof (exp_pos (Ropp 5)).
  set (u := exp 5) in *. set (v := exp (Ropp 5)) in *. clearbody u v.
  apply Rmult_lt_reg_r with ((u + v) / 2); [lra|].
  replace ((u - v) / 2 / ((u + v) / 2) * ((u + v) / 2)) with ((u - v) / 2) by (field; lra). lra.
Qed.
Print Assumptions C106_tanh_one_refuted.

(** ** The logistic function *)
(** The two sigmoids of the tag are zero everywhere; the logistic function is so
    nowhere. *)
Theorem C106_sigmoid_refuted : forall x,
  sigmoidf64 x = 0 /\ sigmoidf32 x = 0 /\ 0 < logistic x < 1.
Proof.
  intros x. split; [reflexivity|]. split; [reflexivity|]. unfold logistic.
  pose proof (exp_pos (- x)). split.
  - apply Rdiv_lt_0_compat; lra.
  - apply Rmult_lt_reg_r with (1 + exp (- x)); [lra|].
    replace (1 / (1 + exp (- x)) * (1 + exp (- x))) with 1 by (field; lra). lra.
Qed.
Print Assumptions C106_sigmoid_refuted.

(** A float64 within the hypotheses: minus six. *)
Example C106_ex64 : normal64 true 1025 2251799813685248 (-1 + 9223372036854775808 + 1025 * 4503599627370496 + 2251799813685249) (-6) /\ (1025 <= 2043)%Z.
Proof.
  split; [|lia]. repeat split; try lia.
  change (powerRZ 2 (1025 - 1023)) with (2 ^ 2). lra.
Qed.

(** An argument of level 2 within the hypotheses. *)
Example C106_ex_two : exists y, tanhf64 2 (-1) = Ok y.
Proof.
  unfold tanhf64. cbn [Z.eqb Pos.eqb]. destruct (anguita (-1)) as [y|] eqn:E.
  - exists y. reflexivity.
  - exfalso. ang.
Qed.
