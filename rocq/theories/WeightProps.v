(** C98: initial weights. *)
From Coq Require Import List Arith Reals Lra Lia.
From Verif Require Import BroadcastModel ShapeGradModel WeightModel WeightSpec.
Import ListNotations.
Local Open Scope R_scope.

Lemma wsize_prod s : wsize s = prodN s.
Proof. induction s as [|d s IH]; [reflexivity|]. cbn [wsize fold_right prodN]. unfold wsize in IH. rewrite IH. reflexivity. Qed.
Lemma foldl_prod s : forall a, fold_left Nat.mul s a = (a * prodN s)%nat.
Proof. induction s as [|d s IH]; intros a; cbn [fold_left prodN]; [lia|]. rewrite IH. lia. Qed.
Lemma foldl_prodR s : forall a, fold_left (fun f v => f * INR v) s a = a * INR (prodN s).
Proof.
  induction s as [|d s IH]; intros a; cbn [fold_left prodN]; [cbn; lra|].
  rewrite IH, mult_INR. ring.
Qed.
Lemma fill_ok g : forall n i f, (forall j, f j = Ok (g j)) -> fillFrom f i n = Ok (map g (seq i n)).
Proof.
  induction n as [|n IH]; intros i f E; [reflexivity|].
  cbn [fillFrom seq map]. rewrite E. cbn [bind]. rewrite (IH (S i) f E). reflexivity.
Qed.
Lemma fill_panic f i n : f i = Panic -> (0 < n)%nat -> fillFrom f i n = Panic.
Proof. intros E Hn. destruct n; [lia|]. cbn [fillFrom]. rewrite E. reflexivity. Qed.
Lemma range_ok lo hi u : lo < hi -> rangeDraw lo hi u = Ok (lo + u * (hi - lo)).
Proof. intros H. unfold rangeDraw. destruct (Rlt_dec lo hi); [reflexivity|contradiction]. Qed.
Lemma range_panic lo hi u : ~ lo < hi -> rangeDraw lo hi u = Panic.
Proof. intros H. unfold rangeDraw. destruct (Rlt_dec lo hi); [contradiction|reflexivity]. Qed.
Lemma fill_range lo hi us n :
  fillFrom (fun i => rangeDraw lo hi (us i)) 0 n
  = if Rlt_dec lo hi then Ok (map (fun i => lo + us i * (hi - lo)) (seq 0 n)) else match n with O => Ok [] | _ => Panic end.
Proof.
  destruct (Rlt_dec lo hi) as [H|H].
  - apply fill_ok. intros j. apply range_ok, H.
  - destruct n; [reflexivity|]. cbn [fillFrom]. rewrite range_panic by exact H. reflexivity.
Qed.
Lemma sizes_fans s fi fo : glorotFans s = Some (fi, fo) ->
  exists n1 n2 f, glorotSizes s = Ok (n1, n2, f) /\ ((n1 + n2) * f = fi + fo)%nat.
Proof.
  destruct s as [|n1 [|n2 r]]; intros E; cbn in E; try discriminate; injection E as <- <-; cbn [glorotSizes].
  - exists 1%nat, n1, 1%nat. split; [reflexivity|lia].
  - exists n1, n2, (fold_left Nat.mul r 1%nat). split; [reflexivity|]. rewrite foldl_prod. lia.
Qed.
Lemma fans_pos s fi fo : glorotFans s = Some (fi, fo) -> prodN s <> 0%nat -> (0 < fi + fo)%nat.
Proof.
  destruct s as [|n1 [|n2 r]]; intros E H; cbn in E; try discriminate; injection E as <- <-; [lia|].
  cbn [prodN] in H. nia.
Qed.
Lemma fan_he s f : heFan s = Some f -> heFanIn s = Ok (INR f).
Proof.
  destruct s as [|a [|b [|c r]]]; cbn [heFan heFanIn tl]; intros E; try discriminate; injection E as <-; [reflexivity|].
  rewrite foldl_prodR, Rmult_1_l. reflexivity.
Qed.
Lemma he_pos s f : heFan s = Some f -> prodN s <> 0%nat -> (0 < f)%nat.
Proof.
  destruct s as [|a [|b [|c r]]]; cbn [heFan tl]; intros E H; try discriminate; injection E as <-; cbn [prodN] in *; nia.
Qed.
Lemma stdev_sq gain c n : (0 < n)%nat -> 0 <= c -> (gain * sqrt (c / INR n)) * (gain * sqrt (c / INR n)) * INR n = c * (gain * gain).
Proof.
  intros Hn Hc. assert (P : 0 < INR n) by (apply lt_0_INR; exact Hn).
  assert (Q0 : 0 <= c / INR n) by (apply Rmult_le_pos; [exact Hc|left; apply Rinv_0_lt_compat, P]).
  replace (gain * sqrt (c / INR n) * (gain * sqrt (c / INR n)) * INR n)
    with (gain * gain * (sqrt (c / INR n) * sqrt (c / INR n)) * INR n) by ring.
  rewrite sqrt_sqrt by exact Q0. field. lra.
Qed.
Lemma stdev_sign gain c n : (0 < n)%nat -> 0 < c -> (0 < gain <-> 0 < gain * sqrt (c / INR n)).
Proof.
  intros Hn Hc. assert (P : 0 < INR n) by (apply lt_0_INR; exact Hn).
  assert (Q0 : 0 < sqrt (c / INR n)) by (apply sqrt_lt_R0, Rmult_lt_0_compat; [exact Hc|apply Rinv_0_lt_compat, P]).
  split; intros H; [apply Rmult_lt_0_compat; assumption|]. nra.
Qed.
Lemma sqrt3_pos : 0 < sqrt 3. Proof. apply sqrt_lt_R0. lra. Qed.
Lemma spread_iff x : (0 - sqrt 3 * x < 0 + sqrt 3 * x) <-> 0 < x.
Proof. pose proof sqrt3_pos. split; intros; nra. Qed.
Lemma ranged_nth d : forall n st incr i, (i < n)%nat -> nth i (ranged st incr n) d = st + INR i * incr.
Proof.
  induction n as [|n IH]; intros st incr i H; [lia|]. destruct i; cbn [ranged nth]; [cbn; ring|].
  rewrite IH by lia. rewrite S_INR. ring.
Qed.
Lemma ranged_len : forall n st incr, length (ranged st incr n) = n.
Proof. induction n; intros; cbn; [|rewrite IHn]; reflexivity. Qed.
Lemma fill_len f : forall n i xs, fillFrom f i n = Ok xs -> length xs = n.
Proof.
  induction n as [|n IH]; intros i xs E; cbn [fillFrom] in E; [injection E as <-; reflexivity|].
  destruct (f i); cbn [bind] in E; try discriminate. destruct (fillFrom f (S i) n) eqn:E2; cbn [bind] in E; try discriminate.
  injection E as <-. cbn. rewrite (IH _ _ E2). reflexivity.
Qed.

Section Props.
Variable rnd : R -> R.
Variables gauss unif unif32 : Z -> nat -> R.
Notation initial := (initial rnd gauss unif unif32).

(** Weights fill their shape: a slice of the dtype asked for with one number per entry. The
    exception is [Ones] for a scalar, which gives the number itself. *)
Theorem C98_size : forall w seed dt s b, initial w seed dt s = Ok b ->
  match b with
  | Slice dt' xs => dt' = dt /\ length xs = prodN s
  | Single dt' x => w = Ones /\ s = [] /\ dt' = dt /\ x = 1
  end.
Proof.
  intros w seed dt s b E.
  assert (SL : forall dt0 r, slice dt0 r = Ok b -> exists xs, r = Ok xs /\ b = Slice dt0 xs).
  { intros dt0 r Es. destruct r as [xs| |]; cbn in Es; try discriminate. injection Es as <-. exists xs. split; reflexivity. }
  destruct w as [| |start|st0 inc|v|mean stdev|lo hi|gain|gain|gain|gain]; cbn [WeightModel.initial] in E.
  - injection E as <-. rewrite repeat_length, wsize_prod. split; reflexivity.
  - destruct s as [|d s]; injection E as <-; [repeat split; reflexivity|]. rewrite repeat_length, wsize_prod. split; reflexivity.
  - injection E as <-. rewrite map_length, seq_length, wsize_prod. split; reflexivity.
  - destruct (toNumber rnd dt st0); cbn [bind] in E; try discriminate. destruct (toNumber rnd dt inc); cbn [bind] in E; try discriminate.
    injection E as <-. rewrite ranged_len, wsize_prod. split; reflexivity.
  - destruct (assertValue dt v); cbn [bind] in E; try discriminate. injection E as <-. rewrite repeat_length, wsize_prod. split; reflexivity.
  - destruct dt; try discriminate; apply SL in E as (xs & Ex & ->); apply fill_len in Ex; rewrite wsize_prod in Ex; split; [reflexivity|exact Ex|reflexivity|exact Ex].
  - destruct dt; try discriminate; apply SL in E as (xs & Ex & ->); apply fill_len in Ex; rewrite wsize_prod in Ex; split; [reflexivity|exact Ex|reflexivity|exact Ex].
  - destruct dt; try discriminate; apply SL in E as (xs & Ex & ->); unfold glorotN32, glorotN64 in Ex;
      destruct (glorotSizes s) as [[[n1 n2] f]| |]; cbn [bind] in Ex; try discriminate.
    + apply fill_len in Ex. rewrite wsize_prod in Ex. split; [reflexivity|exact Ex].
    + destruct (fillFrom _ _ _) eqn:Ef; cbn [bind] in Ex; try discriminate. injection Ex as <-. apply fill_len in Ef.
      rewrite wsize_prod in Ef. split; [reflexivity|]. rewrite map_length. exact Ef.
  - destruct dt; try discriminate; apply SL in E as (xs & Ex & ->); unfold glorotU64, glorotU32, glorotN64 in Ex;
      destruct (glorotSizes s) as [[[n1 n2] f]| |]; cbn [bind] in Ex; try discriminate.
    + apply fill_len in Ex. rewrite wsize_prod in Ex. split; [reflexivity|exact Ex].
    + destruct (fillFrom _ _ _) eqn:Ef; cbn [bind] in Ex; try discriminate. injection Ex as <-. apply fill_len in Ef.
      rewrite wsize_prod in Ef. split; [reflexivity|]. rewrite map_length. exact Ef.
  - destruct dt; try discriminate. apply SL in E as (xs & Ex & ->). unfold heN64 in Ex. destruct (heFanIn s); cbn [bind] in Ex; try discriminate.
    apply fill_len in Ex. rewrite wsize_prod in Ex. split; [reflexivity|exact Ex].
  - destruct dt; try discriminate. apply SL in E as (xs & Ex & ->). unfold heU64 in Ex. destruct (heFanIn s); cbn [bind] in Ex; try discriminate.
    apply fill_len in Ex. rewrite wsize_prod in Ex. split; [reflexivity|exact Ex].
Qed.

(** Zeroes, ones, a value, and numbers in steps. *)
Theorem C98_fixed : forall seed dt s,
  initial Zeroes seed dt s = Ok (Slice dt (repeat 0 (prodN s))) /\
  (s <> [] -> initial Ones seed dt s = Ok (Slice dt (repeat 1 (prodN s)))) /\
  initial Ones seed dt [] = Ok (Single dt 1) /\
  (forall v x, initial (ValuesOf v) seed dt s = Ok x -> exists r, (v = IF64 r \/ v = IF32 r \/ exists z, v = IInt z /\ r = IZR z) /\ x = Slice dt (repeat r (prodN s))) /\
  (forall start, exists xs, initial (RangedFrom start) seed dt s = Ok (Slice dt xs) /\
     forall i, (i < prodN s)%nat -> nth i xs 0 = IZR start + INR i).
Proof.
  intros seed dt s. split; [|split; [|split; [|split]]].
  - cbn. rewrite wsize_prod. reflexivity.
  - intros H. destruct s as [|d s]; [contradiction|]. cbn [WeightModel.initial]. rewrite wsize_prod. reflexivity.
  - reflexivity.
  - intros v x E. cbn [WeightModel.initial] in E.
    destruct dt, v; cbn in E; try discriminate; injection E as <-; rewrite wsize_prod.
    + exists x0. split; [left; reflexivity|reflexivity].
    + exists x0. split; [right; left; reflexivity|reflexivity].
    + exists (IZR z). split; [right; right; exists z; split; reflexivity|reflexivity].
  - intros start. exists (map (fun i => IZR (start + Z.of_nat i)) (seq 0 (wsize s))). split; [reflexivity|].
    intros i Hi. rewrite wsize_prod.
    rewrite nth_indep with (d' := (fun i => IZR (start + Z.of_nat i)) 0%nat) by (rewrite map_length, seq_length; exact Hi).
    rewrite (map_nth (fun i => IZR (start + Z.of_nat i))), seq_nth by exact Hi.
    rewrite plus_IZR, <- INR_IZR_INZ. reflexivity.
Qed.
(** Entry i of RangedFromWithStep is the start plus i times the step. *)
Theorem C98_steps : forall seed dt s a b x, initial (RangedFromWithStep a b) seed dt s = Ok x ->
  exists xs, x = Slice dt xs /\
  forall i, (i < prodN s)%nat -> nth i xs 0 = meant rnd dt a + INR i * meant rnd dt b.
Proof.
  intros seed dt s a b x E. cbn [WeightModel.initial] in E.
  destruct (toNumber rnd dt a) as [st| |] eqn:Ea; cbn [bind] in E; try discriminate.
  destruct (toNumber rnd dt b) as [incr| |] eqn:Eb; cbn [bind] in E; try discriminate.
  assert (M : forall y r, toNumber rnd dt y = Ok r -> r = meant rnd dt y).
  { intros y r Ey. destruct dt, y; cbn in Ey; try discriminate; injection Ey as <-; reflexivity. }
  apply M in Ea. apply M in Eb. subst st incr.
  injection E as <-. eexists. split; [reflexivity|].
  intros i Hi. apply ranged_nth. rewrite wsize_prod. exact Hi.
Qed.

Lemma glorotN_eq seed gain s fi fo : glorotFans s = Some (fi, fo) ->
  glorotN64 gauss seed gain s = Ok (map (fun i => 0 + gain * sqrt (2 / INR (fi + fo)) * gauss seed i) (seq 0 (prodN s))).
Proof.
  intros F. destruct (sizes_fans _ _ _ F) as (n1 & n2 & f & E1 & E2).
  unfold glorotN64. rewrite E1. cbn [bind]. unfold glorotStdev. rewrite E2, wsize_prod.
  apply (fill_ok (fun i => 0 + gain * sqrt (2 / INR (fi + fo)) * gauss seed i)). intros j. reflexivity.
Qed.

(** GlorotN: standard normal numbers times a deviation whose square is 2·gain² divided by the
    sum of the inputs and outputs of a unit, also after conversion to float32. *)
Theorem C98_glorot_normal : forall seed gain s fi fo, glorotFans s = Some (fi, fo) -> prodN s <> 0%nat ->
  exists sd, sd * sd * (INR fi + INR fo) = 2 * (gain * gain) /\ (0 < gain -> 0 < sd) /\
    let ws := map (fun i => sd * gauss seed i) (seq 0 (prodN s)) in
    initial (GlorotN gain) seed W64 s = Ok (Slice W64 ws) /\
    initial (GlorotN gain) seed W32 s = Ok (Slice W32 (map rnd ws)).
Proof.
  intros seed gain s fi fo F P. pose proof (fans_pos _ _ _ F P) as Hp.
  exists (gain * sqrt (2 / INR (fi + fo))). rewrite <- plus_INR.
  split; [apply stdev_sq; [exact Hp|lra]|]. split; [intros Hg; apply stdev_sign; [exact Hp|lra|exact Hg]|].
  assert (EM : map (fun i => 0 + gain * sqrt (2 / INR (fi + fo)) * gauss seed i) (seq 0 (prodN s))
             = map (fun i => gain * sqrt (2 / INR (fi + fo)) * gauss seed i) (seq 0 (prodN s))) by (apply map_ext; intros; ring).
  cbn [WeightModel.initial]. unfold glorotN32. rewrite (glorotN_eq _ _ _ _ _ F), EM. split; reflexivity.
Qed.

(** GlorotU on Float64: uniform numbers between bounds -l and l, l² = 6·gain² divided by the
    sum of inputs and outputs, so that the variance is that of GlorotN. *)
Theorem C98_glorot_uniform : forall seed gain s fi fo, glorotFans s = Some (fi, fo) -> prodN s <> 0%nat -> 0 < gain ->
  exists l, 0 < l /\ l * l * (INR fi + INR fo) = 6 * (gain * gain) /\
    initial (GlorotU gain) seed W64 s = Ok (Slice W64 (map (fun i => l * (2 * unif seed i - 1)) (seq 0 (prodN s)))) /\
    (forall x, (forall i, 0 <= unif seed i < 1) -> In x (map (fun i => l * (2 * unif seed i - 1)) (seq 0 (prodN s))) -> - l <= x < l).
Proof.
  intros seed gain s fi fo F P Hg. pose proof (fans_pos _ _ _ F P) as Hp.
  destruct (sizes_fans _ _ _ F) as (n1 & n2 & f & E1 & E2).
  set (sd := gain * sqrt (2 / INR (fi + fo))).
  assert (Hs : 0 < sd) by (apply stdev_sign; [exact Hp|lra|exact Hg]).
  pose proof sqrt3_pos as H3. pose proof (sqrt_sqrt 3 ltac:(lra)) as H33.
  pose proof (stdev_sq gain 2 (fi + fo) Hp ltac:(lra)) as Hq. fold sd in Hq. rewrite plus_INR in Hq.
  exists (sqrt 3 * sd). split; [apply Rmult_lt_0_compat; assumption|]. split.
  { replace (sqrt 3 * sd * (sqrt 3 * sd) * (INR fi + INR fo)) with (sqrt 3 * sqrt 3 * (sd * sd * (INR fi + INR fo))) by ring.
    rewrite H33, Hq. ring. }
  split.
  - cbn [WeightModel.initial]. unfold glorotU64. rewrite E1. cbn [bind]. unfold glorotStdev. rewrite E2, wsize_prod. fold sd.
    rewrite fill_range. destruct (Rlt_dec _ _) as [_|N]; [|exfalso; apply N, spread_iff, Hs].
    cbn [slice bind]. f_equal. f_equal. apply map_ext. intros i. ring.
  - intros x U I. apply in_map_iff in I as (i & <- & _). specialize (U i).
    assert (Hl : 0 < sqrt 3 * sd) by (apply Rmult_lt_0_compat; assumption).
    set (l := sqrt 3 * sd) in *. clearbody l. clear - U Hl. nra.
Qed.
(** GlorotU on Float32 does not draw uniform numbers: whatever the generators give, the
    weights are those of GlorotN. *)
Theorem C98_glorot_uniform32 : forall seed gain s, initial (GlorotU gain) seed W32 s = initial (GlorotN gain) seed W32 s.
Proof. reflexivity. Qed.

(** HeN and HeU on Float64: deviation with square gain² divided by the inputs of a unit;
    bounds with the same variance. *)
Theorem C98_he : forall seed gain s f, heFan s = Some f -> prodN s <> 0%nat ->
  exists sd l, sd * sd * INR f = gain * gain /\ l * l * INR f = 3 * (gain * gain) /\
    (0 < gain -> 0 < sd /\ 0 < l) /\
    initial (HeN gain) seed W64 s = Ok (Slice W64 (map (fun i => sd * gauss seed i) (seq 0 (prodN s)))) /\
    (0 < gain -> initial (HeU gain) seed W64 s = Ok (Slice W64 (map (fun i => l * (2 * unif seed i - 1)) (seq 0 (prodN s))))).
Proof.
  intros seed gain s f F P. pose proof (he_pos _ _ F P) as Hp. pose proof (fan_he _ _ F) as E1.
  set (sd := gain * sqrt (1 / INR f)).
  pose proof sqrt3_pos as H3. pose proof (sqrt_sqrt 3 ltac:(lra)) as H33.
  pose proof (stdev_sq gain 1 f Hp ltac:(lra)) as Hq. fold sd in Hq.
  exists sd, (sqrt 3 * sd). split; [rewrite Hq; ring|]. split.
  { replace (sqrt 3 * sd * (sqrt 3 * sd) * INR f) with (sqrt 3 * sqrt 3 * (sd * sd * INR f)) by ring. rewrite H33, Hq. ring. }
  assert (Hs : 0 < gain -> 0 < sd) by (intros; apply stdev_sign; [exact Hp|lra|assumption]).
  split; [intros Hg; split; [apply Hs, Hg|apply Rmult_lt_0_compat; [exact H3|apply Hs, Hg]]|]. split.
  - cbn [WeightModel.initial]. unfold heN64. rewrite E1. cbn [bind]. rewrite wsize_prod. fold sd.
    rewrite (fill_ok (fun i => sd * gauss seed i)); [reflexivity|]. intros j. unfold gaussianDraw. f_equal. ring.
  - intros Hg. cbn [WeightModel.initial]. unfold heU64. rewrite E1. cbn [bind]. rewrite wsize_prod. fold sd.
    rewrite fill_range. destruct (Rlt_dec _ _) as [_|N]; [|exfalso; apply N, spread_iff, Hs, Hg].
    cbn [slice bind]. f_equal. f_equal. apply map_ext. intros i. ring.
Qed.

(** Uniform: numbers from the first bound (included) to the second (excluded); on Float32 the
    bounds are converted first. *)
Theorem C98_uniform : forall seed lo hi s,
  (forall i, 0 <= unif seed i < 1) -> (forall i, 0 <= unif32 seed i < 1) ->
  (forall xs, initial (Uniform lo hi) seed W64 s = Ok (Slice W64 xs) -> Forall (fun x => lo <= x < hi) xs) /\
  (forall xs, initial (Uniform lo hi) seed W32 s = Ok (Slice W32 xs) -> Forall (fun x => rnd lo <= x < rnd hi) xs).
Proof.
  intros seed lo hi s U U32. split; intros xs E; cbn [WeightModel.initial] in E; unfold uniform64, uniform32 in E; rewrite fill_range in E.
  - destruct (Rlt_dec lo hi) as [L|L].
    + cbn in E. injection E as <-. apply Forall_forall. intros x I. apply in_map_iff in I as (i & <- & _). specialize (U i). nra.
    + destruct (wsize s); cbn in E; [|discriminate]. injection E as <-. constructor.
  - destruct (Rlt_dec (rnd lo) (rnd hi)) as [L|L].
    + cbn in E. injection E as <-. apply Forall_forall. intros x I. apply in_map_iff in I as (i & <- & _). specialize (U32 i). nra.
    + destruct (wsize s); cbn in E; [|discriminate]. injection E as <-. constructor.
Qed.

(** Exactly when there are weights; everything else is a panic. In particular HeN and HeU
    know Float64 only, Glorot's refuse scalars, and a gain that is not positive gives no
    uniform weights. *)
Theorem C98_supported : forall w seed dt s,
  (supported rnd w dt s -> exists b, initial w seed dt s = Ok b) /\
  (~ supported rnd w dt s -> initial w seed dt s = Panic).
Proof.
  intros w seed dt s.
  destruct w as [| |start|a b|v|mean sd|lo hi|gain|gain|gain|gain]; cbn [supported WeightModel.initial].
  - split; [eexists; reflexivity|tauto].
  - split; [destruct s; eexists; reflexivity|tauto].
  - split; [eexists; reflexivity|tauto].
  - destruct dt, a; cbn [fits toNumber bind]; (split; [intros [H1 H2]; try contradiction H1|intros N; try reflexivity]);
      destruct b; cbn [fits toNumber bind] in *; try contradiction; try (eexists; reflexivity); try reflexivity; exfalso; apply N; split; exact I.
  - destruct dt, v; cbn [fitsExactly assertValue bind]; (split; [intros H; try contradiction H; eexists; reflexivity|intros N; try reflexivity; exfalso; apply N; exact I]).
  - assert (G : forall f, fillFrom (fun i => Ok (f i)) 0 (wsize s) = Ok (map f (seq 0 (wsize s)))) by (intros; apply fill_ok; reflexivity).
    destruct dt; (split; [intros [H|H]; try discriminate H|intros N; try reflexivity]).
    + unfold gaussian64. rewrite (G (fun i => gaussianDraw mean sd (gauss seed i))). eexists; reflexivity.
    + exfalso. apply N. left. reflexivity.
    + unfold gaussian32. rewrite (G (fun i => rnd (gaussianDraw mean sd (gauss seed i)))). eexists; reflexivity.
    + exfalso. apply N. right. reflexivity.
  - destruct dt; (split; [intros [[H L]|[H L]]; try discriminate H|intros N; try reflexivity]).
    + unfold uniform64. rewrite fill_range, wsize_prod. destruct (Rlt_dec lo hi); [eexists; reflexivity|].
      destruct L as [-> |L]; [eexists; reflexivity|contradiction].
    + unfold uniform64. rewrite fill_range, wsize_prod. destruct (Rlt_dec lo hi) as [L|L].
      * exfalso. apply N. left. split; [reflexivity|right; exact L].
      * destruct (prodN s) eqn:P; [|reflexivity]. exfalso. apply N. left. split; [reflexivity|left; reflexivity].
    + unfold uniform32. rewrite fill_range, wsize_prod. destruct (Rlt_dec (rnd lo) (rnd hi)); [eexists; reflexivity|].
      destruct L as [-> |L]; [eexists; reflexivity|contradiction].
    + unfold uniform32. rewrite fill_range, wsize_prod. destruct (Rlt_dec (rnd lo) (rnd hi)) as [L|L].
      * exfalso. apply N. right. split; [reflexivity|right; exact L].
      * destruct (prodN s) eqn:P; [|reflexivity]. exfalso. apply N. right. split; [reflexivity|left; reflexivity].
  - split.
    + intros [D Hs]. destruct (glorotFans s) as [[fi fo]|] eqn:F; [|destruct s as [|? [|? ?]]; [contradiction|discriminate F|discriminate F]].
      destruct D as [-> | ->]; unfold glorotN32; rewrite (glorotN_eq _ _ _ _ _ F); eexists; reflexivity.
    + intros N. destruct s as [|d s].
      * destruct dt; reflexivity.
      * destruct dt; try reflexivity; exfalso; apply N; (split; [|discriminate]); [left|right]; reflexivity.
  - split.
    + intros [Hs D]. destruct (glorotFans s) as [[fi fo]|] eqn:F; [|destruct s as [|? [|? ?]]; [contradiction|discriminate F|discriminate F]].
      destruct D as [[-> G]| ->].
      * destruct (sizes_fans _ _ _ F) as (n1 & n2 & f & E1 & E2). unfold glorotU64. rewrite E1. cbn [bind]. rewrite fill_range, wsize_prod.
        destruct (Rlt_dec _ _) as [L|L]; [eexists; reflexivity|]. destruct (prodN s) eqn:P; [eexists; reflexivity|].
        destruct G as [G|G]; [discriminate|]. exfalso. apply L, spread_iff. unfold glorotStdev. rewrite E2.
        apply stdev_sign; [apply (fans_pos _ _ _ F); rewrite P; discriminate|lra|exact G].
      * unfold glorotU32. rewrite (glorotN_eq _ _ _ _ _ F). eexists; reflexivity.
    + intros N. destruct s as [|d s0] eqn:Es; [destruct dt; reflexivity|]. rewrite <- Es in *.
      assert (Hs : s <> []) by (rewrite Es; discriminate).
      destruct dt; try reflexivity; [|exfalso; apply N; split; [exact Hs|right; reflexivity]].
      destruct (glorotFans s) as [[fi fo]|] eqn:F; [|destruct s as [|? [|? ?]]; [contradiction|discriminate F|discriminate F]].
      destruct (sizes_fans _ _ _ F) as (n1 & n2 & f & E1 & E2). unfold glorotU64. rewrite E1. cbn [bind]. rewrite fill_range, wsize_prod.
      destruct (prodN s) eqn:P; [exfalso; apply N; split; [exact Hs|left; split; [reflexivity|left; reflexivity]]|].
      destruct (Rlt_dec _ _) as [L|L]; [|reflexivity]. exfalso. apply N. split; [exact Hs|]. left. split; [reflexivity|right].
      apply spread_iff in L. unfold glorotStdev in L. rewrite E2 in L.
      apply stdev_sign in L; [exact L|apply (fans_pos _ _ _ F); rewrite P; discriminate|lra].
  - split.
    + intros [-> Hs]. destruct (heFan s) as [f|] eqn:F; [|destruct s as [|? [|? [|? ?]]]; cbn in Hs, F; try lia; discriminate F].
      unfold heN64. rewrite (fan_he _ _ F). cbn [bind].
      rewrite (fill_ok (fun i => gaussianDraw 0 (gain * sqrt (1 / INR f)) (gauss seed i))); [eexists; reflexivity|reflexivity].
    + intros N. destruct dt; try reflexivity. destruct s as [|a [|b s]]; try reflexivity.
      exfalso. apply N. split; [reflexivity|cbn; lia].
  - split.
    + intros [-> [Hs G]]. destruct (heFan s) as [f|] eqn:F; [|destruct s as [|? [|? [|? ?]]]; cbn in Hs, F; try lia; discriminate F].
      unfold heU64. rewrite (fan_he _ _ F). cbn [bind]. rewrite fill_range, wsize_prod.
      destruct (Rlt_dec _ _) as [L|L]; [eexists; reflexivity|]. destruct (prodN s) eqn:P; [eexists; reflexivity|].
      destruct G as [G|G]; [discriminate|]. exfalso. apply L, spread_iff.
      apply stdev_sign; [apply (he_pos _ _ F); rewrite P; discriminate|lra|exact G].
    + intros N. destruct dt; try reflexivity. destruct (heFan s) as [f|] eqn:F; [|destruct s as [|? [|? [|? ?]]]; try discriminate F; reflexivity].
      assert (Hs : (2 <= length s)%nat) by (destruct s as [|? [|? ?]]; try discriminate F; cbn; lia).
      unfold heU64. rewrite (fan_he _ _ F). cbn [bind]. rewrite fill_range, wsize_prod.
      destruct (prodN s) eqn:P; [exfalso; apply N; split; [reflexivity|split; [exact Hs|left; reflexivity]]|].
      destruct (Rlt_dec _ _) as [L|L]; [|reflexivity]. exfalso. apply N. split; [reflexivity|]. split; [exact Hs|right].
      apply spread_iff in L. apply stdev_sign in L; [exact L|apply (he_pos _ _ F); rewrite P; discriminate|lra].
Qed.

(** Every call makes a generator from the clock: weights made at one reading of the clock by
    equal initialisers agree on every entry both have. *)
Theorem C98_same_clock : forall seed dt s s' xs ys i,
  forall w, (exists m d, w = Gaussian m d) \/ (exists lo hi, w = Uniform lo hi) ->
  initial w seed dt s = Ok (Slice dt xs) -> initial w seed dt s' = Ok (Slice dt ys) ->
  (i < prodN s)%nat -> (i < prodN s')%nat -> nth_error xs i = nth_error ys i.
Proof.
  intros seed dt s s' xs ys i w W E E' Hi Hi'.
  assert (NT : forall (g : nat -> R) n, (i < n)%nat -> nth_error (map g (seq 0 n)) i = Some (g i)).
  { intros g n Hn. rewrite nth_error_map, nth_error_nth' with (d := 0%nat) by (rewrite seq_length; exact Hn).
    rewrite seq_nth by exact Hn. reflexivity. }
  assert (FG : forall (g : nat -> R) n, fillFrom (fun j => Ok (g j)) 0 n = Ok (map g (seq 0 n))) by (intros; apply fill_ok; reflexivity).
  destruct W as [(m & d & ->)|(lo & hi & ->)]; cbn [WeightModel.initial] in E, E'; destruct dt; try discriminate;
    unfold gaussian64, gaussian32, uniform64, uniform32 in *; rewrite wsize_prod in E, E'.
  - rewrite (FG (fun j => gaussianDraw m d (gauss seed j))) in E, E'. cbn in E, E'. injection E as <-. injection E' as <-. rewrite !NT by assumption. reflexivity.
  - rewrite (FG (fun j => rnd (gaussianDraw m d (gauss seed j)))) in E, E'. cbn in E, E'. injection E as <-. injection E' as <-. rewrite !NT by assumption. reflexivity.
  - rewrite fill_range in E, E'. destruct (Rlt_dec lo hi).
    + cbn in E, E'. injection E as <-. injection E' as <-. rewrite !NT by assumption. reflexivity.
    + destruct (prodN s); [lia|discriminate].
  - rewrite fill_range in E, E'. destruct (Rlt_dec (rnd lo) (rnd hi)).
    + cbn in E, E'. injection E as <-. injection E' as <-. rewrite !NT by assumption. reflexivity.
    + destruct (prodN s); [lia|discriminate].
Qed.
End Props.

(** The documentation promises uniform weights from GlorotU: there is no bound at all on
    Float32. *)
Theorem C98_glorot_uniform32_refuted : forall unif unif32 seed gain s B, 0 < gain -> s <> [] -> prodN s <> 0%nat ->
  exists gauss x xs, initial (fun r => r) gauss unif unif32 (GlorotU gain) seed W32 s = Ok (Slice W32 (x :: xs)) /\ x > B.
Proof.
  intros unif unif32 seed gain s B Hg Hs P.
  destruct (glorotFans s) as [[fi fo]|] eqn:F; [|destruct s as [|? [|? ?]]; [contradiction|discriminate F|discriminate F]].
  pose proof (fans_pos _ _ _ F P) as Hp.
  set (sd := gain * sqrt (2 / INR (fi + fo))).
  assert (H0 : 0 < sd) by (apply stdev_sign; [exact Hp|lra|exact Hg]).
  exists (fun _ _ => (Rabs B + 1) / sd).
  cbn [initial]. unfold glorotU32. rewrite (glorotN_eq _ _ _ _ _ _ F). fold sd.
  destruct (prodN s) as [|n]; [contradiction|]. cbn [seq map bind slice].
  eexists. eexists. split; [reflexivity|].
  replace (0 + sd * ((Rabs B + 1) / sd)) with (Rabs B + 1) by (field; lra).
  pose proof (Rle_abs B). lra.
Qed.

(** A kernel (8, 3, 3, 3): 27 inputs and 72 outputs of a unit for Glorot, 27 inputs for He;
    shape (2, 3) from 5 in steps of 2. *)
Example C98_case : glorotFans [8; 3; 3; 3]%nat = Some (27, 72)%nat /\ heFan [8; 3; 3; 3]%nat = Some 27%nat /\ heFan [5; 7]%nat = Some 5%nat /\
  (exists xs, initial (fun r => r) (fun _ _ => 0) (fun _ _ => 0) (fun _ _ => 0) (RangedFromWithStep (IInt 5) (IF64 2)) 0 W64 [2; 3]%nat = Ok (Slice W64 xs) /\
     nth 4 xs 0 = 13) /\
  (exists g b, initial (fun r => r) g (fun _ _ => 0) (fun _ _ => 0) (GlorotU 1) 0 W32 [2; 3]%nat = Ok b) /\
  initial (fun r => r) (fun _ _ => 0) (fun _ _ => 0) (fun _ _ => 0) (HeN 1) 0 W32 [2; 3]%nat = Panic.
Proof.
  split; [reflexivity|]. split; [reflexivity|]. split; [reflexivity|]. split; [|split; [|reflexivity]].
  - eexists. split; [reflexivity|]. cbn. lra.
  - exists (fun _ _ => 0). eexists. reflexivity.
Qed.

Print Assumptions C98_size.
Print Assumptions C98_fixed.
Print Assumptions C98_steps.
Print Assumptions C98_glorot_normal.
Print Assumptions C98_glorot_uniform.
Print Assumptions C98_glorot_uniform32.
Print Assumptions C98_glorot_uniform32_refuted.
Print Assumptions C98_he.
Print Assumptions C98_uniform.
Print Assumptions C98_supported.
Print Assumptions C98_same_clock.
