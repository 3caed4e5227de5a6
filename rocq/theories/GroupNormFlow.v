(** Group normalisation and its gradient, over whole tensors. *)
From Coq Require Import Arith Reals List Bool Lia Lra.
From Verif Require Import Sums LoopModel LoopProofs ConvProofs AvgProofs DropoutSpec BatchNormSpec BatchNormProofs BatchNormGrad
  GroupNormModel GroupNormSpec GroupNormProofs.
Import ListNotations.
Local Open Scope R_scope.

(** ** Writing a range of cells *)
Lemma fill1 L (t : nat -> R) base n (body : nat -> list R -> option (list R)) :
  (forall k out, (k < n)%nat -> length out = L -> body k out = aset out (base + k) (t (base + k)%nat)) -> (base + n <= L)%nat ->
  forall out, length out = L -> exists out', loop n body out = Some out' /\ length out' = L /\
    forall p, nth_error out' p = if ((base <=? p) && (p <? base + n))%nat then Some (t p) else nth_error out p.
Proof.
  intros H Hb out Lo. unfold loop.
  assert (G : forall k, (k <= n)%nat -> exists out', foldM body (seq 0 k) out = Some out' /\ length out' = L /\
    forall p, nth_error out' p = if ((base <=? p) && (p <? base + k))%nat then Some (t p) else nth_error out p).
  { induction k as [|k IH]; intro Hk.
    - exists out. split; [reflexivity|]. split; [exact Lo|]. intro p.
      destruct (Nat.leb_spec base p); destruct (Nat.ltb_spec p (base + 0)); cbn [andb]; try reflexivity. lia.
    - destruct (IH ltac:(lia)) as (o & E & Le & V). rewrite seq_S, foldM_app, E. cbn [foldM Nat.add]. rewrite H by (auto; lia).
      destruct (aset_some o (base + k) (t (base + k)%nat) ltac:(lia)) as (o' & -> & Le' & V' & N'). exists o'.
      split; [reflexivity|]. split; [lia|]. intro p. destruct (Nat.eq_dec p (base + k)) as [->|D].
      + rewrite V'. destruct (Nat.leb_spec base (base + k)); destruct (Nat.ltb_spec (base + k) (base + S k)); cbn [andb]; try lia. reflexivity.
      + rewrite N' by exact D. rewrite V.
        destruct (Nat.leb_spec base p); destruct (Nat.ltb_spec p (base + S k)); destruct (Nat.ltb_spec p (base + k)); cbn [andb]; try reflexivity; lia. }
  apply (G n (le_n _)).
Qed.

Lemma fill2 L (t : nat -> R) base d img (body : nat -> nat -> list R -> option (list R)) :
  (forall j k out, (j < d)%nat -> (k < img)%nat -> length out = L ->
     body j k out = aset out (base + j * img + k) (t (base + j * img + k)%nat)) -> (base + d * img <= L)%nat ->
  forall out, length out = L -> exists out', loop d (fun j => loop img (body j)) out = Some out' /\ length out' = L /\
    forall p, nth_error out' p = if ((base <=? p) && (p <? base + d * img))%nat then Some (t p) else nth_error out p.
Proof.
  intros H Hb out Lo. unfold loop at 1.
  assert (G : forall k, (k <= d)%nat -> exists out', foldM (fun j => loop img (body j)) (seq 0 k) out = Some out' /\ length out' = L /\
    forall p, nth_error out' p = if ((base <=? p) && (p <? base + k * img))%nat then Some (t p) else nth_error out p).
  { induction k as [|k IH]; intro Hk.
    - exists out. split; [reflexivity|]. split; [exact Lo|]. intro p.
      destruct (Nat.leb_spec base p); destruct (Nat.ltb_spec p (base + 0 * img)); cbn [andb]; try reflexivity. lia.
    - destruct (IH ltac:(lia)) as (o & E & Le & V). rewrite seq_S, foldM_app, E. cbn [foldM Nat.add].
      assert (Hk2 : ((k + 1) * img <= d * img)%nat) by (apply Nat.mul_le_mono_r; lia).
      destruct (fill1 L t (base + k * img) img (body k)) with (out := o) as (o' & -> & Le' & V'); [| |exact Le|].
      + intros k' out' Hk' Lo'. apply H; auto.
      + lia.
      + exists o'. split; [reflexivity|]. split; [exact Le'|]. intro p. rewrite V', V. cbn [Nat.mul].
        destruct (Nat.leb_spec base p); destruct (Nat.leb_spec (base + k * img) p); destruct (Nat.ltb_spec p (base + k * img + img));
        destruct (Nat.ltb_spec p (base + k * img)); destruct (Nat.ltb_spec p (base + (img + k * img))); cbn [andb]; try reflexivity; lia. }
  apply (G d (le_n _)).
Qed.

(** ** The forward operator *)
Definition blk (x : list R) (inner i : nat) : list R := firstn inner (skipn (i * inner) x).
Lemma blk_length x inner i : ((i + 1) * inner <= length x)%nat -> length (blk x inner i) = inner.
Proof. intro H. unfold blk. rewrite firstn_length, skipn_length. lia. Qed.
Lemma nth_blk x inner i p : (p < inner)%nat -> ((i + 1) * inner <= length x)%nat -> nth p (blk x inner i) 0 = nth (i * inner + p) x 0.
Proof.
  intros Hp H. assert (E : nth_error (blk x inner i) p = nth_error x (i * inner + p)).
  { unfold blk. rewrite nth_firstn by exact Hp. apply nth_skipn. }
  rewrite (nth_error_nth' (blk x inner i) 0) in E by (rewrite blk_length; lia). symmetry. apply nth_error_nth. congruence.
Qed.

Definition rsOf (eps va : R) : R := 1 / sqrt (Rmax va 0 + eps).

Section Fwd.
Variables (op : gnOp) (d img G : nat) (x : list R).
Let inner := (d * img)%nat.
Variables (mu va : nat -> R).
Hypothesis HL : (G * inner <= length x)%nat.
Hypothesis Hm : forall i, (i < G)%nat -> rowwiseMoments (blk x inner i) inner = Some (mu i, va i).
Definition rs i := rsOf (epsilon op) (va i).
Definition tf j := rs (j / inner) * nth j x 0 + - rs (j / inner) * mu (j / inner)%nat.

Lemma group_loop y0 ms0 rs0 : length y0 = length x -> length ms0 = G -> length rs0 = G ->
  exists y, loop G (groupBody op d img x) (y0, ms0, rs0) = Some (y, map mu (seq 0 G), map rs (seq 0 G)) /\ length y = length x /\
    forall p, nth_error y p = if (p <? G * inner)%nat then Some (tf p) else nth_error y0 p.
Proof.
  intros Ly Lm Lr. unfold loop.
  assert (K : forall k, (k <= G)%nat -> exists y ms rss, foldM (groupBody op d img x) (seq 0 k) (y0, ms0, rs0) = Some (y, ms, rss) /\
    length y = length x /\ length ms = G /\ length rss = G /\
    (forall p, nth_error y p = if (p <? k * inner)%nat then Some (tf p) else nth_error y0 p) /\
    (forall i, (i < k)%nat -> nth_error ms i = Some (mu i) /\ nth_error rss i = Some (rs i))).
  { induction k as [|k IH]; intro Hk.
    - exists y0, ms0, rs0. split; [reflexivity|]. do 3 (split; [assumption|]). split; [intro p; cbn; reflexivity|intros; lia].
    - destruct (IH ltac:(lia)) as (y & ms & rss & E & Ly' & Lm' & Lr' & V & W). rewrite seq_S, foldM_app, E. cbn [foldM Nat.add].
      unfold groupBody. cbv zeta. fold inner.
      assert (Hk2 : ((k + 1) * inner <= G * inner)%nat) by (apply Nat.mul_le_mono_r; lia).
      rewrite aslice_some by lia. replace (k * inner + inner - k * inner)%nat with inner by lia.
      change (firstn inner (skipn (k * inner) x)) with (blk x inner k). rewrite (Hm k ltac:(lia)).
      change (1 / sqrt (Rmax (va k) 0 + epsilon op)) with (rs k).
      destruct (fill2 (length x) tf (k * inner) d img (fun j k0 y =>
          match aget x ((k * d + j) * img + k0) with Some v => aset y ((k * d + j) * img + k0) (rs k * v + - rs k * mu k) | None => None end))
        with (out := y) as (y' & Ef & Ly'' & V'); [|fold inner; lia|exact Ly'|].
      { intros j k0 out Hj Hk0 Lo. replace ((k * d + j) * img + k0)%nat with (k * inner + j * img + k0)%nat by (unfold inner; ring).
        assert (Hi : (j * img + k0 < inner)%nat) by (unfold inner; nia).
        unfold aget. rewrite (nth_error_nth' x 0) by lia. f_equal. unfold tf.
        replace ((k * inner + j * img + k0) / inner)%nat with k; [reflexivity|].
        apply (Nat.div_unique _ _ _ (j * img + k0)%nat); lia. }
      rewrite Ef.
      destruct (aset_some ms k (mu k) ltac:(lia)) as (ms' & -> & Lm'' & Vm & Nm).
      destruct (aset_some rss k (rs k) ltac:(lia)) as (rs' & -> & Lr'' & Vr & Nr).
      exists y', ms', rs'. split; [reflexivity|]. split; [exact Ly''|]. split; [lia|]. split; [lia|]. split.
      + intro p. rewrite V', V. fold inner. cbn [Nat.mul].
        destruct (Nat.leb_spec (k * inner) p); destruct (Nat.ltb_spec p (k * inner + inner)); destruct (Nat.ltb_spec p (k * inner));
        destruct (Nat.ltb_spec p (inner + k * inner)); cbn [andb]; try reflexivity; lia.
      + intros i Hi. destruct (Nat.eq_dec i k) as [->|Ni]; [auto|]. rewrite Nm, Nr by exact Ni. apply W. lia. }
  destruct (K G (le_n _)) as (y & ms & rss & E & Ly' & Lm' & Lr' & V & W). exists y. split; [|split; assumption].
  rewrite E. f_equal. f_equal; [f_equal|]; symmetry.
  - apply nth_ext with (d := mu 0%nat) (d' := mu 0%nat); [rewrite map_length, seq_length; lia|]. rewrite map_length, seq_length. intros i Hi.
    rewrite (map_nth mu), seq_nth by exact Hi. symmetry. apply nth_error_nth, W, Hi.
  - apply nth_ext with (d := rs 0%nat) (d' := rs 0%nat); [rewrite map_length, seq_length; lia|]. rewrite map_length, seq_length. intros i Hi.
    rewrite (map_nth rs), seq_nth by exact Hi. symmetry. apply nth_error_nth, W, Hi.
Qed.
End Fwd.

Lemma gnDo_general op batch channels img x mu va :
  let d := (channels / numGroups op)%nat in let inner := (d * img)%nat in let G := (batch * numGroups op)%nat in
  (G * inner <= length x)%nat -> length (gmeans op) = G -> length (rstds op) = G ->
  (forall i, (i < G)%nat -> rowwiseMoments (blk x inner i) inner = Some (mu i, va i)) ->
  gnDo op batch channels img x = Some
    ({| numGroups := numGroups op; epsilon := epsilon op; gmeans := map mu (seq 0 G); rstds := map (rs op va) (seq 0 G) |},
     map (fun p => if (p <? G * inner)%nat then tf op d img x mu va p else 0) (seq 0 (length x))).
Proof.
  intros d inner G HL Lm Lr Hm. unfold gnDo, gnPrealloc. fold d.
  destruct (group_loop op d img G x mu va HL Hm (repeat 0 (length x)) (gmeans op) (rstds op)) as (y & E & Ly & V);
    [apply repeat_length|exact Lm|exact Lr|].
  replace (numGroups op * batch)%nat with G by (unfold G; lia). rewrite E. f_equal. f_equal.
  apply nth_ext with (d := 0) (d' := 0); [rewrite map_length, seq_length; exact Ly|]. intros p Hp. rewrite Ly in Hp.
  rewrite (nth_map_seq (fun p => if (p <? G * inner)%nat then tf op d img x mu va p else 0)) by exact Hp.
  specialize (V p). fold inner in V. rewrite (nth_error_nth' y 0) in V by lia.
  destruct (p <? G * inner)%nat; [congruence|].
  rewrite (nth_error_nth' _ 0) in V by (rewrite repeat_length; exact Hp). rewrite nth_repeat in V. congruence.
Qed.

(** ** Groups are blocks *)
Lemma group_values_blk groups d img x s g batch : (g < groups)%nat -> (s < batch)%nat -> length x = (batch * (groups * d) * img)%nat ->
  group_values (groups * d) d img x s g = blk x (d * img) (s * groups + g).
Proof.
  intros Hg Hs L.
  assert (Lb : ((s * groups + g + 1) * (d * img) <= length x)%nat).
  { rewrite L. replace (batch * (groups * d) * img)%nat with (batch * groups * (d * img))%nat by ring. apply Nat.mul_le_mono_r. nia. }
  assert (Lg : length (group_values (groups * d) d img x s g) = (d * img)%nat).
  { unfold group_values. apply flat_map_seq_length. intros. rewrite map_length, seq_length. reflexivity. }
  apply nth_ext with (d := 0) (d' := 0); [rewrite Lg, blk_length by exact Lb; reflexivity|]. intros p Hp. rewrite Lg in Hp.
  rewrite nth_blk by assumption.
  assert (Hi : img <> 0%nat) by nia. assert (D := Nat.div_mod p img Hi). assert (M := Nat.mod_upper_bound p img Hi).
  assert (Hc : (p / img < d)%nat) by (apply Nat.div_lt_upper_bound; lia).
  apply nth_error_nth. unfold group_values.
  replace (nth_error _ p) with (nth_error (flat_map (fun c => map (fun q => nth ((s * (groups * d) + (g * d + c)) * img + q)%nat x 0) (seq 0 img)) (seq 0 d)) (p / img * img + p mod img))
    by (f_equal; lia).
  rewrite nth_flat_map_seq; [|intros; rewrite map_length, seq_length; reflexivity|exact Hc|exact M].
  rewrite nth_error_map, nth_seq0 by exact M. cbn [option_map]. f_equal. f_equal.
  replace ((s * groups + g) * (d * img) + p)%nat with ((s * groups + g) * (d * img) + (p / img * img + p mod img))%nat by lia. ring.
Qed.

(** the group of a cell *)
Lemma cell_group groups d img batch i : (i < batch * (groups * d) * img)%nat ->
  let s := (i / img / (groups * d))%nat in let g := (i / img mod (groups * d) / d)%nat in
  (s < batch)%nat /\ (g < groups)%nat /\ (i / (d * img) = s * groups + g)%nat.
Proof.
  intros H s g. assert (Hi : img <> 0%nat) by nia. assert (Hc : (groups * d <> 0)%nat) by nia. assert (Hd : d <> 0%nat) by nia.
  assert (D1 := Nat.div_mod i img Hi). assert (M1 := Nat.mod_upper_bound i img Hi).
  set (q := (i / img)%nat) in *. assert (D2 := Nat.div_mod q (groups * d) Hc). assert (M2 := Nat.mod_upper_bound q (groups * d) Hc).
  set (r := (q mod (groups * d))%nat) in *. fold s in D2. assert (D3 := Nat.div_mod r d Hd). assert (M3 := Nat.mod_upper_bound r d Hd). fold g in D3.
  split; [|split].
  - unfold s. apply Nat.div_lt_upper_bound; [exact Hc|]. unfold q. apply Nat.div_lt_upper_bound; [exact Hi|]. lia.
  - unfold g. apply Nat.div_lt_upper_bound; [exact Hd|]. lia.
  - symmetry. apply (Nat.div_unique _ _ _ (r mod d * img + i mod img)%nat); nia.
Qed.

Lemma variance_nonneg l : 0 <= variance l.
Proof.
  unfold variance, mean at 1. rewrite map_length. unfold Rdiv. apply Rmult_le_pos.
  - unfold add_up. generalize (mean l) as m. intro m. induction l as [|a l IH]; [cbn; lra|]. cbn [map fold_right].
    assert (H := pow2_ge_0 (a - m)). lra.
  - destruct (Nat.eq_dec (length l) 0) as [->|N]; [cbn; rewrite Rinv_0; lra|]. left. apply Rinv_0_lt_compat, lt_0_INR. lia.
Qed.
