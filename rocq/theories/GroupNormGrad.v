(** The gradient operator of group normalisation. *)
From Coq Require Import Arith Reals List Bool Lia Lra.
From Verif Require Import Sums LoopModel LoopProofs ConvProofs AvgProofs DropoutSpec BatchNormSpec BatchNormProofs BatchNormGrad
  GroupNormModel GroupNormSpec GroupNormProofs GroupNormFlow.
Import ListNotations.
Local Open Scope R_scope.

Lemma div_groups groups d : (0 < groups)%nat -> (groups * d / groups)%nat = d.
Proof. intro H. rewrite Nat.mul_comm. apply Nat.div_mul. lia. Qed.

Lemma nth_map_seq' {A} (f : nat -> A) n i dv : (i < n)%nat -> nth i (map f (seq 0 n)) dv = f i.
Proof. intro H. apply nth_error_nth. rewrite nth_error_map, nth_seq0 by exact H. reflexivity. Qed.

Lemma gnDo_small op batch d img x :
  (0 < numGroups op)%nat -> (0 < d * img < 264)%nat -> length x = (batch * (numGroups op * d) * img)%nat ->
  length (gmeans op) = (batch * numGroups op)%nat -> length (rstds op) = (batch * numGroups op)%nat ->
  gnDo op batch (numGroups op * d) img x = Some
    ({| numGroups := numGroups op; epsilon := epsilon op;
        gmeans := map (fun i => mean (blk x (d * img) i)) (seq 0 (batch * numGroups op));
        rstds := map (fun i => 1 / sqrt (variance (blk x (d * img) i) + epsilon op)) (seq 0 (batch * numGroups op)) |},
     group_normalise (numGroups op * d) d img (epsilon op) x).
Proof.
  intros Pg Pi L Lm Lr. set (groups := numGroups op) in *.
  assert (EL : length x = (batch * groups * (d * img))%nat) by (rewrite L; ring).
  rewrite (gnDo_general op batch (groups * d) img x (fun i => mean (blk x (d * img) i)) (fun i => variance (blk x (d * img) i)));
    fold groups; rewrite ?div_groups by exact Pg; try assumption; try lia.
  2:{ intros i Hi. apply row_small; [|lia|lia]. apply blk_length. rewrite EL. apply Nat.mul_le_mono_r. lia. }
  f_equal. f_equal.
  - f_equal. apply map_ext. intro i. unfold rs, rsOf. rewrite Rmax_left by apply variance_nonneg. reflexivity.
  - unfold group_normalise. apply map_ext_in. intros i Hi. apply in_seq in Hi.
    destruct (Nat.ltb_spec i (batch * groups * (d * img))); [|lia].
    destruct (cell_group groups d img batch i ltac:(lia)) as (Hs & Hg & Eq). cbv zeta.
    rewrite (group_values_blk groups d img x _ _ batch) by assumption. rewrite <- Eq.
    unfold tf, rs, rsOf. rewrite Rmax_left by apply variance_nonneg. unfold Rdiv. ring.
Qed.

(** ** The gradient operator *)
Lemma loop_sum_pair n (f g : nat -> R) (a b : nat -> option R) s :
  (forall j, (j < n)%nat -> a j = Some (f j) /\ b j = Some (g j)) ->
  loop n (fun j (acc : R * R) => match a j, b j with Some u, Some v => Some (fst acc + u, snd acc + v) | _, _ => None end) s
  = Some (fst s + sum n f, snd s + sum n g).
Proof.
  intro H. unfold loop.
  assert (K : forall k, (k <= n)%nat -> foldM (fun j (acc : R * R) => match a j, b j with Some u, Some v => Some (fst acc + u, snd acc + v) | _, _ => None end) (seq 0 k) s
    = Some (fst s + sum k f, snd s + sum k g)).
  { induction k as [|k IH]; intro Hk.
    - cbn. rewrite !Rplus_0_r. destruct s; reflexivity.
    - rewrite seq_S, foldM_app, IH by lia. cbn [foldM Nat.add fst snd]. destruct (H k ltac:(lia)) as [-> ->].
      cbn [sum radd CRing_R]. rewrite !Rplus_assoc. reflexivity. }
  apply K. lia.
Qed.

Section Diff.
Variables (op : gnOp) (batch d img : nat) (x g : list R).
Let groups := numGroups op.
Let inner := (d * img)%nat.
Let G := (batch * groups)%nat.
Hypothesis Pg : (0 < groups)%nat.
Hypothesis Lx : length x = (batch * (groups * d) * img)%nat.
Hypothesis Lg : length g = length x.
Hypothesis Lm : length (gmeans op) = G.
Hypothesis Lr : length (rstds op) = G.

Definition gsum (c : nat) (f : nat -> R) : R := sum inner (fun p => f (c * inner + p)%nat).
Definition dcell (j : nat) : R :=
  let c := (j / inner)%nat in
  let c1 := nth c (rstds op) 0 in let mu := nth c (gmeans op) 0 in
  let db := gsum c (fun i => nth i g 0) in let ds := gsum c (fun i => nth i g 0 * nth i x 0) in
  let c2 := (db * mu - ds) * c1 * c1 * c1 * (1 / INR inner) in
  c1 * nth j g 0 + c2 * nth j x 0 + (- c2 * mu - db * c1 * (1 / INR inner)).

Lemma internal_ok : internalGradients batch (groups * d) img x g = Some
  (map (fun i => sum img (fun j => nth (i * img + j) g 0 * nth (i * img + j) x 0)) (seq 0 (batch * (groups * d))),
   map (fun i => sum img (fun j => nth (i * img + j) g 0)) (seq 0 (batch * (groups * d)))).
Proof.
  unfold internalGradients, loop at 1. set (N := (batch * (groups * d))%nat).
  assert (K : forall k, (k <= N)%nat -> foldM (fun i (acc : list R * list R) =>
      match loop img (fun j (s : R * R) => match aget g (i * img + j), aget x (i * img + j) with
              | Some gv, Some v => Some (fst s + gv * v, snd s + gv) | _, _ => None end) (0, 0) with
      | Some (ds, db) => Some (fst acc ++ [ds], snd acc ++ [db]) | None => None end) (seq 0 k) ([], []) = Some
   (map (fun i => sum img (fun j => nth (i * img + j) g 0 * nth (i * img + j) x 0)) (seq 0 k),
    map (fun i => sum img (fun j => nth (i * img + j) g 0)) (seq 0 k))).
  { induction k as [|k IH]; intro Hk; [reflexivity|]. rewrite seq_S, foldM_app, IH by lia. cbn [foldM Nat.add].
    assert (E : loop img (fun j (s : R * R) => match aget g (k * img + j), aget x (k * img + j) with
              | Some gv, Some v => Some (fst s + gv * v, snd s + gv) | _, _ => None end) (0, 0)
      = Some (0 + sum img (fun j => nth (k * img + j) g 0 * nth (k * img + j) x 0), 0 + sum img (fun j => nth (k * img + j) g 0))).
    { rewrite <- (loop_sum_pair img _ _ (fun j => match aget g (k * img + j), aget x (k * img + j) with Some gv, Some v => Some (gv * v) | _, _ => None end)
         (fun j => aget g (k * img + j)) (0, 0)).
      - unfold loop. apply foldM_ext. intros j s _. destruct (aget g (k * img + j)); [|reflexivity]. destruct (aget x (k * img + j)); reflexivity.
      - intros j Hj. assert (k * img + j < length x)%nat by (rewrite Lx; fold N; assert ((k + 1) * img <= N * img)%nat by (apply Nat.mul_le_mono_r; lia); lia).
        unfold aget. rewrite (nth_error_nth' g 0), (nth_error_nth' x 0) by lia. split; reflexivity. }
    rewrite E, !Rplus_0_l. cbn [fst snd]. rewrite !map_app. reflexivity. }
  apply K. lia.
Qed.

Lemma gnDiff_ok : gnDiff op batch (groups * d) img x g = Some (map dcell (seq 0 (length x))).
Proof.
  unfold gnDiff. fold groups. rewrite div_groups by exact Pg. rewrite internal_ok.
  set (ds := map (fun i => sum img (fun j => nth (i * img + j) g 0 * nth (i * img + j) x 0)) (seq 0 (batch * (groups * d)))).
  set (db := map (fun i => sum img (fun j => nth (i * img + j) g 0)) (seq 0 (batch * (groups * d)))).
  assert (EL : length x = (G * inner)%nat) by (rewrite Lx; unfold G, inner; ring).
  change (batch * groups)%nat with G.
  assert (K : forall k, (k <= G)%nat -> exists y, foldM (diffBody op d img x g ds db) (seq 0 k) x = Some y /\ length y = length x /\
    forall p, (p < k * inner)%nat -> nth_error y p = Some (dcell p)).
  { induction k as [|k IH]; intro Hk; [exists x; split; [reflexivity|]; split; [reflexivity|intros; lia]|].
    destruct (IH ltac:(lia)) as (y & E & Ly & V). rewrite seq_S, foldM_app, E. cbn [foldM Nat.add].
    assert (Hk2 : ((k + 1) * inner <= G * inner)%nat) by (apply Nat.mul_le_mono_r; lia).
    unfold diffBody. cbv zeta.
    assert (S2 : forall f : nat -> R, sum d (fun j => sum img (fun q => f ((k * d + j) * img + q)%nat)) = gsum k f).
    { intro f. unfold gsum, inner. rewrite (sum_prod (A := R)). apply sum_ext. intros j _. apply sum_ext. intros q _. f_equal. ring. }
    rewrite (loop_sum_pair d (fun j => sum img (fun q => nth ((k * d + j) * img + q) g 0 * nth ((k * d + j) * img + q) x 0))
       (fun j => sum img (fun q => nth ((k * d + j) * img + q) g 0))
       (fun j => aget ds (k * d + j)) (fun j => aget db (k * d + j)) (0, 0)).
    2:{ intros j Hj. assert (k * d + j < batch * (groups * d))%nat.
        { assert ((k + 1) * d <= G * d)%nat by (apply Nat.mul_le_mono_r; lia). unfold G in *. nia. }
        unfold aget, ds, db. rewrite !nth_error_map, nth_seq0 by assumption. split; reflexivity. }
    cbn [fst snd]. rewrite !Rplus_0_l.
    rewrite (S2 (fun i => nth i g 0 * nth i x 0)), (S2 (fun i => nth i g 0)).
    unfold aget at 1 2. rewrite (nth_error_nth' (gmeans op) 0), (nth_error_nth' (rstds op) 0) by lia. fold inner.
    match goal with |- context [loop d ?F y] => set (body := F) end.
    destruct (fill2 (length x) dcell (k * inner) d img (fun j k0 dx =>
        match aget x ((k * d + j) * img + k0), aget g ((k * d + j) * img + k0) with
        | Some v, Some gv => aset dx ((k * d + j) * img + k0) (dcell ((k * d + j) * img + k0)) | _, _ => None end))
      with (out := y) as (y' & Ef & Ly' & V'); [|fold inner; lia|exact Ly|].
    { intros j k0 out Hj Hk0 Lo. replace ((k * d + j) * img + k0)%nat with (k * inner + j * img + k0)%nat by (unfold inner; ring).
      assert (Hi : (j * img + k0 < inner)%nat) by (unfold inner; nia).
      unfold aget. rewrite (nth_error_nth' x 0), (nth_error_nth' g 0) by lia. reflexivity. }
    assert (Eb : loop d body y = Some y').
    { rewrite <- Ef. unfold loop. apply foldM_ext. intros j o Hj. apply in_seq in Hj. apply foldM_ext. intros k0 o' Hk0. apply in_seq in Hk0.
      replace ((k * d + j) * img + k0)%nat with (k * inner + j * img + k0)%nat by (unfold inner; ring).
      assert (Hi : (j * img + k0 < inner)%nat) by (unfold inner; nia).
      unfold aget. rewrite (nth_error_nth' x 0), (nth_error_nth' g 0) by lia. f_equal.
      unfold dcell. replace ((k * inner + j * img + k0) / inner)%nat with k; [reflexivity|].
      apply (Nat.div_unique _ _ _ (j * img + k0)%nat); lia. }
    rewrite Eb. exists y'. split; [reflexivity|]. split; [exact Ly'|].
    intros p Hp. rewrite V'. fold inner. cbn [Nat.mul] in Hp.
      destruct (Nat.leb_spec (k * inner) p); destruct (Nat.ltb_spec p (k * inner + inner)); cbn [andb]; try reflexivity; try lia. apply V. lia. }
  destruct (K G (le_n _)) as (y & E & Ly & V). unfold loop. rewrite E. f_equal.
  apply nth_ext with (d := 0) (d' := 0); [rewrite map_length, seq_length; exact Ly|]. intros p Hp. rewrite Ly in Hp.
  rewrite nth_map_seq by exact Hp. apply nth_error_nth. apply V. lia.
Qed.
End Diff.

(** ** Blocks as the channels of a batch of one *)
Section AsChannels.
Variables (G inner : nat).
Lemma csum_gsum c f : csum 1 G inner c f = sum inner (fun p => f (c * inner + p)%nat).
Proof. unfold csum. cbn [sum radd r0 CRing_R]. rewrite Rplus_0_l. apply sum_ext. intros p _. reflexivity. Qed.
Lemma blk_channel x c : (c < G)%nat -> length x = (G * inner)%nat -> blk x inner c = channel 1 G inner c x.
Proof.
  intros Hc L. assert (Hb : ((c + 1) * inner <= length x)%nat) by (rewrite L; apply Nat.mul_le_mono_r; lia).
  apply nth_ext with (d := 0) (d' := 0); [rewrite blk_length by exact Hb; rewrite channel_length; lia|].
  rewrite blk_length by exact Hb. intros p Hp. rewrite nth_blk by assumption. unfold channel. cbn [seq flat_map]. rewrite app_nil_r.
  rewrite nth_map_seq by exact Hp. reflexivity.
Qed.
End AsChannels.

Lemma normalise_cell groups d img eps batch x i : (0 < d * img)%nat -> length x = (batch * (groups * d) * img)%nat -> (i < length x)%nat ->
  nth i (group_normalise (groups * d) d img eps x) 0 =
  (nth i x 0 - cmean 1 (batch * groups) (d * img) x (i / (d * img))) / sqrt (csq 1 (batch * groups) (d * img) x (i / (d * img)) / INR (d * img) + eps).
Proof.
  intros Pi L Hi. unfold group_normalise. rewrite nth_map_seq by exact Hi. cbv zeta.
  destruct (cell_group groups d img batch i ltac:(lia)) as (Hs & Hg & Eq).
  rewrite (group_values_blk groups d img x _ _ batch) by assumption. rewrite <- Eq.
  rewrite (blk_channel (batch * groups)); [|apply Nat.div_lt_upper_bound; [lia|]; rewrite L in Hi; lia|rewrite L; ring].
  rewrite channel_mean, channel_var, Nat.mul_1_r. reflexivity.
Qed.

Lemma grad_small op batch d img x g op' y :
  let groups := numGroups op in
  (0 < groups)%nat -> (0 < d * img < 264)%nat -> 0 < epsilon op -> length x = (batch * (groups * d) * img)%nat -> length g = length x ->
  length (gmeans op) = (batch * groups)%nat -> length (rstds op) = (batch * groups)%nat ->
  gnDo op batch (groups * d) img x = Some (op', y) ->
  exists dx, gnDiff op' batch (groups * d) img x g = Some dx /\
    is_gradient (group_normalise (groups * d) d img (epsilon op)) x g dx.
Proof.
  intros groups Pg Pi He L Lg Lm Lr E. rewrite gnDo_small in E by assumption. injection E as <- _.
  set (G := (batch * groups)%nat) in *. set (inner := (d * img)%nat) in *.
  assert (EL : length x = (1 * G * inner)%nat) by (rewrite L; unfold G, inner; ring).
  match goal with |- exists dx, gnDiff ?o _ _ _ _ _ = _ /\ _ => set (op' := o) end.
  assert (Ed := gnDiff_ok op' batch d img x g Pg L Lg). change (numGroups op') with groups in Ed.
  specialize (Ed ltac:(unfold op'; cbn [gmeans]; rewrite map_length, seq_length; reflexivity) ltac:(unfold op'; cbn [rstds]; rewrite map_length, seq_length; reflexivity)).
  eexists. split; [exact Ed|]. split; [rewrite map_length, seq_length; reflexivity|].
  intros u Lu.
  set (F := fun c t => csum 1 G inner c (fun i =>
      (nth i (shifted x u t) 0 - cmean 1 G inner (shifted x u t) c) / sqrt (csq 1 G inner (shifted x u t) c / INR (inner * 1) + epsilon op) * nth i g 0)).
  assert (Div : forall c p, (c < G)%nat -> (p < inner)%nat -> ((c * inner + p) / inner = c)%nat /\ (c * inner + p < length x)%nat).
  { intros c p Hc Hp. split; [symmetry; apply (Nat.div_unique _ _ _ p); lia|]. assert ((c + 1) * inner <= G * inner)%nat by (apply Nat.mul_le_mono_r; lia). lia. }
  assert (Ln : forall z, length (group_normalise (groups * d) d img (epsilon op) z) = length z) by (intro z; unfold group_normalise; rewrite map_length, seq_length; reflexivity).
  assert (EF : forall t, ip (group_normalise (groups * d) d img (epsilon op) (shifted x u t)) g = sum G (fun c => F c t)).
  { intro t. assert (Ls : length (shifted x u t) = length x) by (apply shifted_len; exact Lu).
    rewrite (ip_channels 1 G inner) by (rewrite ?Ln; lia). apply sum_ext. intros c Hc. unfold F. rewrite !csum_gsum. apply sum_ext. intros p Hp.
    destruct (Div c p Hc Hp) as [D1 D2].
    rewrite (normalise_cell groups d img (epsilon op) batch) by (try assumption; try lia). fold inner. fold G. rewrite D1, Nat.mul_1_r. reflexivity. }
  assert (Dl := deriv_sum G F (fun c => csum 1 G inner c (fun i => nth i u 0 *
     ((nth i g 0 - csum 1 G inner c (fun i => nth i g 0) / INR (inner * 1) - (nth i x 0 - cmean 1 G inner x c) *
        (csum 1 G inner c (fun i => (nth i x 0 - cmean 1 G inner x c) * nth i g 0) * (1 / sqrt (csq 1 G inner x c / INR (inner * 1) + epsilon op))
          * (1 / sqrt (csq 1 G inner x c / INR (inner * 1) + epsilon op)) / INR (inner * 1))) * (1 / sqrt (csq 1 G inner x c / INR (inner * 1) + epsilon op)))))).
  rewrite (ip_channels 1 G inner) by (rewrite ?map_length, ?seq_length; lia).
  match goal with |- derivable_pt_lim _ _ ?l => match type of Dl with _ -> derivable_pt_lim _ _ ?l' => replace l with l' end end.
  - intros e Hee. destruct (Dl ltac:(intros c Hc; apply channel_deriv; auto; lia) e Hee) as [dd Hd].
    exists dd. intros h Hh Hl. rewrite !EF. apply Hd; assumption.
  - apply sum_ext. intros c Hc.
    set (mu := cmean 1 G inner x c). set (iv := 1 / sqrt (csq 1 G inner x c / INR (inner * 1) + epsilon op)). set (k := INR (inner * 1)).
    assert (Ek : k = INR inner) by (unfold k; rewrite Nat.mul_1_r; reflexivity).
    assert (Es : csum 1 G inner c (fun i => (nth i x 0 - mu) * nth i g 0) = csum 1 G inner c (fun i => nth i g 0 * nth i x 0) - mu * csum 1 G inner c (fun i => nth i g 0)).
    { assert (Ec := csum_add 1 G inner c (fun i => nth i g 0 * nth i x 0) (fun i => - mu * nth i g 0)).
      assert (Em := csum_mul 1 G inner c (- mu) (fun i => nth i g 0)). cbn beta in Ec, Em.
      transitivity (csum 1 G inner c (fun i => nth i g 0 * nth i x 0 + - mu * nth i g 0)).
      - rewrite !csum_gsum. apply sum_ext. intros. ring.
      - rewrite Ec, Em. ring. }
    rewrite !Es. rewrite !csum_gsum. apply sum_ext. intros p Hp. destruct (Div c p Hc Hp) as [D1 D2].
    rewrite nth_map_seq by exact D2. unfold dcell. fold inner. rewrite D1. unfold gsum. fold inner.
    unfold op'. cbn [gmeans rstds]. rewrite !nth_map_seq by exact Hc.
    rewrite (blk_channel G) by (try assumption; lia). rewrite channel_mean, channel_var. fold mu. fold iv. rewrite <- Ek.
    assert (0 < k) by (rewrite Ek; apply lt_0_INR; lia). field. lra.
Qed.
