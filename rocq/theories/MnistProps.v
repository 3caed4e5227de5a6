(** C118: the MNIST files.  Reading undoes writing, a file cut short is an error, and the
    places where the reader is silent or wrong. *)
From Coq Require Import List ZArith QArith Lia Bool.
From Coq.Floats Require Import SpecFloat.
Import ListNotations.
From Verif Require Import BroadcastModel MnistModel MnistSpec.
Local Open Scope Z_scope.

Lemma int32_id : forall z, - 2 ^ 31 <= z < 2 ^ 31 -> int32 z = z.
Proof. intros z H. unfold int32. rewrite Z.mod_small; lia. Qed.

Lemma be32_read : forall n r, 0 <= n < 2 ^ 31 -> readInt32 (be32 n ++ r) = Ok (n, r).
Proof.
  intros n r H. unfold be32. cbn [app readInt32].
  assert (E : ((n / 2 ^ 24 * 256 + (n / 2 ^ 16) mod 256) * 256 + (n / 2 ^ 8) mod 256) * 256
              + n mod 256 = n).
  { change (2 ^ 24) with (2 ^ 16 * 256). change (2 ^ 16) with (2 ^ 8 * 256).
    change (2 ^ 8) with 256.
    rewrite <- !Z.div_div by lia.
    pose proof (Z.div_mod n 256). pose proof (Z.div_mod (n / 256) 256).
    pose proof (Z.div_mod (n / 256 / 256) 256). lia. }
  rewrite E, int32_id by lia. reflexivity.
Qed.

Lemma be32_short : forall n k r, (k < 4)%nat -> readInt32 (firstn k (be32 n ++ r)) = Err.
Proof.
  intros n k r H. unfold be32. do 4 (destruct k as [|k]; [reflexivity|]). lia.
Qed.

Lemma be32_firstn : forall n k r, (4 <= k)%nat -> 0 <= n < 2 ^ 31 ->
  readInt32 (firstn k (be32 n ++ r)) = Ok (n, firstn (k - 4) r).
Proof.
  intros n k r H Hn. rewrite firstn_app. change (length (be32 n)) with 4%nat.
  rewrite firstn_all2 by (change (length (be32 n)) with 4%nat; lia).
  now apply be32_read.
Qed.

Lemma readLabels_app : forall ls rest, readLabels (length ls) (ls ++ rest) = Ok ls.
Proof.
  induction ls as [|l ls IH]; intros rest; cbn; [reflexivity|]. now rewrite IH.
Qed.

Lemma readLabels_short : forall n r, (length r < n)%nat -> readLabels n r = Err.
Proof.
  induction n as [|n IH]; intros r H; [lia|].
  destruct r as [|l r]; cbn; [reflexivity|]. cbn in H. rewrite IH by lia. reflexivity.
Qed.

Lemma readImages_app : forall m ims rest,
  Forall (fun im => length im = Z.to_nat m) ims -> 0 <= m ->
  readImages (length ims) m (concat ims ++ rest) = Ok ims.
Proof.
  intros m ims rest H Hm. induction H as [|im ims Hi _ IH]; cbn [readImages length concat].
  - reflexivity.
  - destruct (m <? 0) eqn:E; [apply Z.ltb_lt in E; lia|].
    unfold readFull. rewrite <- app_assoc, app_length.
    destruct (Nat.ltb_spec (length im + length (concat ims ++ rest)) (Z.to_nat m)); [lia|].
    rewrite firstn_app, skipn_app, Hi, Nat.sub_diag, firstn_all2, skipn_all2 by lia.
    cbn [firstn skipn app]. rewrite app_nil_r, IH. reflexivity.
Qed.

Lemma readImages_short : forall m n r, 0 <= m -> (length r < n * Z.to_nat m)%nat ->
  readImages n m r = Err.
Proof.
  intros m. induction n as [|n IH]; intros r Hm H; [cbn in H; lia|]. cbn [readImages].
  destruct (m <? 0) eqn:E; [apply Z.ltb_lt in E; lia|].
  unfold readFull. destruct (Nat.ltb_spec (length r) (Z.to_nat m)); [reflexivity|].
  rewrite IH; [reflexivity|lia|]. rewrite skipn_length. cbn in H. lia.
Qed.

(** Reading undoes writing, whatever follows in the file. *)
Theorem C118_labels_round_trip : forall ls rest, Z.of_nat (length ls) < 2 ^ 31 ->
  readLabelFile (Some (labelFile ls ++ rest)) = Ok ls.
Proof.
  intros ls rest H. unfold readLabelFile, labelFile. rewrite <- !app_assoc.
  rewrite be32_read by lia. change (2049 =? labelMagic) with true. cbv iota.
  rewrite be32_read by lia.
  destruct (Z.of_nat (length ls) <? 0) eqn:E; [apply Z.ltb_lt in E; lia|].
  rewrite Nat2Z.id. apply readLabels_app.
Qed.

Print Assumptions C118_labels_round_trip.

Theorem C118_images_round_trip : forall nrow ncol ims rest,
  0 <= nrow < 2 ^ 31 -> 0 <= ncol < 2 ^ 31 -> nrow * ncol < 2 ^ 31 ->
  Z.of_nat (length ims) < 2 ^ 31 ->
  Forall (fun im => Z.of_nat (length im) = nrow * ncol) ims ->
  readImageFile (Some (imageFile nrow ncol ims ++ rest)) = Ok ims.
Proof.
  intros nrow ncol ims rest Hr Hc Hp Hl Hi. unfold readImageFile, imageFile.
  rewrite <- !app_assoc, be32_read by lia.
  change (2051 =? imageMagic) with true. cbv iota.
  rewrite !be32_read by lia.
  destruct (Z.of_nat (length ims) <? 0) eqn:E; [apply Z.ltb_lt in E; lia|].
  rewrite int32_id by lia. rewrite Nat2Z.id. apply readImages_app; [|lia].
  eapply Forall_impl; [|exact Hi]. intros im H. cbv beta in H. lia.
Qed.

Print Assumptions C118_images_round_trip.

(** A file cut off anywhere is an error. *)
Theorem C118_cut_short : forall ls k, Z.of_nat (length ls) < 2 ^ 31 ->
  (k < length (labelFile ls))%nat ->
  readLabelFile (Some (firstn k (labelFile ls))) = Err.
Proof.
  intros ls k Hl Hk. unfold readLabelFile, labelFile in *.
  destruct (Nat.lt_ge_cases k 4) as [L|L]; [now rewrite be32_short|].
  rewrite be32_firstn by lia. change (2049 =? labelMagic) with true. cbv iota.
  destruct (Nat.lt_ge_cases (k - 4) 4) as [L2|L2]; [now rewrite be32_short|].
  rewrite be32_firstn by lia.
  destruct (Z.of_nat (length ls) <? 0) eqn:E; [apply Z.ltb_lt in E; lia|].
  apply readLabels_short. rewrite firstn_length. rewrite !app_length in Hk.
  change (length (be32 2049)) with 4%nat in Hk.
  change (length (be32 (Z.of_nat (length ls)))) with 4%nat in Hk. lia.
Qed.

Print Assumptions C118_cut_short.

Lemma concat_len : forall m (ims : list (list Z)),
  Forall (fun im => Z.of_nat (length im) = m) ims -> 0 <= m ->
  length (concat ims) = (length ims * Z.to_nat m)%nat.
Proof.
  intros m ims H Hm. induction H as [|im ims Hi _ IH]; cbn; [reflexivity|].
  rewrite app_length, IH. lia.
Qed.

Theorem C118_cut_short_images : forall nrow ncol ims k,
  0 <= nrow < 2 ^ 31 -> 0 <= ncol < 2 ^ 31 -> nrow * ncol < 2 ^ 31 ->
  Z.of_nat (length ims) < 2 ^ 31 ->
  Forall (fun im => Z.of_nat (length im) = nrow * ncol) ims ->
  (k < length (imageFile nrow ncol ims))%nat ->
  readImageFile (Some (firstn k (imageFile nrow ncol ims))) = Err.
Proof.
  intros nrow ncol ims k Hr Hc Hp Hl Hi Hk. unfold readImageFile, imageFile in *.
  destruct (Nat.lt_ge_cases k 4) as [L|L]; [now rewrite be32_short|].
  rewrite be32_firstn by lia. change (2051 =? imageMagic) with true. cbv iota.
  destruct (Nat.lt_ge_cases (k - 4) 4) as [L2|L2]; [now rewrite be32_short|].
  rewrite be32_firstn by lia.
  destruct (Nat.lt_ge_cases (k - 4 - 4) 4) as [L3|L3]; [now rewrite be32_short|].
  rewrite be32_firstn by lia.
  destruct (Nat.lt_ge_cases (k - 4 - 4 - 4) 4) as [L4|L4]; [now rewrite be32_short|].
  rewrite be32_firstn by lia.
  destruct (Z.of_nat (length ims) <? 0) eqn:E; [apply Z.ltb_lt in E; lia|].
  rewrite int32_id by lia. rewrite Nat2Z.id. apply readImages_short; [lia|].
  rewrite firstn_length. rewrite !app_length in Hk.
  rewrite (concat_len (nrow * ncol)) in * by (auto; lia).
  change (length (be32 2051)) with 4%nat in Hk.
  change (length (be32 (Z.of_nat (length ims)))) with 4%nat in Hk.
  change (length (be32 nrow)) with 4%nat in Hk. change (length (be32 ncol)) with 4%nat in Hk.
  lia.
Qed.

Print Assumptions C118_cut_short_images.

(** A file with another magic number: an error for labels, but no images and no error for
    images; Load then panics. *)
Theorem C118_wrong_magic : forall a b c d r ls dt,
  0 <= a < 256 -> 0 <= b < 256 -> 0 <= c < 256 -> 0 <= d < 256 ->
  [a; b; c; d] <> [0; 0; 8; 3] -> Z.of_nat (length ls) < 2 ^ 31 ->
  readImageFile (Some (a :: b :: c :: d :: r)) = Ok [] /\
  load Train (Files (Some (labelFile ls)) (Some (a :: b :: c :: d :: r)) None None) dt = Panic.
Proof.
  intros a b c d r ls dt Ha Hb Hc Hd Ne Hl.
  assert (R : readImageFile (Some (a :: b :: c :: d :: r)) = Ok []).
  { unfold readImageFile. cbn [readInt32].
    destruct (Z.eqb_spec (int32 (((a * 256 + b) * 256 + c) * 256 + d)) imageMagic) as [E|_];
      [|reflexivity].
    exfalso. apply Ne. unfold int32, imageMagic in E.
    set (v := ((a * 256 + b) * 256 + c) * 256 + d) in *.
    assert (V : v = 0x803 \/ v = 0x803 + 2 ^ 32 \/ v = 0x803 - 2 ^ 32).
    { pose proof (Z.div_mod (v + 2 ^ 31) (2 ^ 32)). 
      assert (0 <= (v + 2 ^ 31) / 2 ^ 32 <= 1).
      { split; [apply Z.div_pos; lia|]. apply Z.div_le_upper_bound; lia. }
      assert ((v + 2 ^ 31) / 2 ^ 32 = 0 \/ (v + 2 ^ 31) / 2 ^ 32 = 1) as [Q|Q] by lia;
        rewrite Q in *; lia. }
    assert (a = 0 /\ b = 0 /\ c = 8 /\ d = 3) as (-> & -> & -> & ->) by lia.
    reflexivity. }
  split; [exact R|].
  unfold load. cbn [trainL trainI].
  pose proof (C118_labels_round_trip ls [] Hl) as RT. rewrite app_nil_r in RT.
  rewrite RT, R. reflexivity.
Qed.

Print Assumptions C118_wrong_magic.

Theorem C118_wrong_label_magic : forall a b c d r,
  0 <= a < 256 -> 0 <= b < 256 -> 0 <= c < 256 -> 0 <= d < 256 ->
  [a; b; c; d] <> [0; 0; 8; 1] ->
  readLabelFile (Some (a :: b :: c :: d :: r)) = Err.
Proof.
  intros a b c d r Ha Hb Hc Hd Ne. unfold readLabelFile. cbn [readInt32].
  destruct (Z.eqb_spec (int32 (((a * 256 + b) * 256 + c) * 256 + d)) labelMagic) as [E|_];
    [|reflexivity].
  exfalso. apply Ne. unfold int32, labelMagic in E.
  set (v := ((a * 256 + b) * 256 + c) * 256 + d) in *.
  assert (V : v = 0x801 \/ v = 0x801 + 2 ^ 32 \/ v = 0x801 - 2 ^ 32).
  { pose proof (Z.div_mod (v + 2 ^ 31) (2 ^ 32)). 
    assert (0 <= (v + 2 ^ 31) / 2 ^ 32 <= 1).
    { split; [apply Z.div_pos; lia|]. apply Z.div_le_upper_bound; lia. }
    assert ((v + 2 ^ 31) / 2 ^ 32 = 0 \/ (v + 2 ^ 31) / 2 ^ 32 = 1) as [Q|Q] by lia;
      rewrite Q in *; lia. }
  assert (a = 0 /\ b = 0 /\ c = 8 /\ d = 1) as (-> & -> & -> & ->) by lia.
  reflexivity.
Qed.

Print Assumptions C118_wrong_label_magic.

Lemma nth_flat_map : forall {A B} (f : A -> list B) w (d : B) (da : A) l i j,
  (forall x, In x l -> length (f x) = w) -> (i < length l)%nat -> (j < w)%nat ->
  nth (i * w + j) (flat_map f l) d = nth j (f (nth i l da)) d.
Proof.
  intros A B f w d da l. induction l as [|x l IH]; intros i j H Hi Hj; cbn in Hi; [lia|].
  cbn [flat_map]. destruct i as [|i].
  - cbn. rewrite app_nth1; [reflexivity|]. rewrite H by now left. exact Hj.
  - rewrite app_nth2 by (rewrite H by (now left); cbn; lia).
    rewrite H by now left. cbn [nth].
    replace (S i * w + j - w)%nat with (i * w + j)%nat by (cbn; lia).
    apply IH; [intros y Hy; apply H; now right|lia|exact Hj].
Qed.

(** What Load makes of two well formed files: a row for each image with the weights of its
    pixels, a row for each label with 0.9 in the column of the label and 0.1 elsewhere.  It
    never compares the two numbers of rows. *)
Theorem C118_load : forall typ nrow ncol ims ls dt fs,
  typ <> OtherName ->
  (match typ with Test => testL fs | _ => trainL fs end) = Some (labelFile ls) ->
  (match typ with Test => testI fs | _ => trainI fs end) = Some (imageFile nrow ncol ims) ->
  0 <= nrow < 2 ^ 31 -> 0 <= ncol < 2 ^ 31 -> nrow * ncol < 2 ^ 31 ->
  Z.of_nat (length ims) < 2 ^ 31 -> Z.of_nat (length ls) < 2 ^ 31 -> ims <> [] ->
  Forall (fun im => Z.of_nat (length im) = nrow * ncol) ims ->
  exists x y, load typ fs dt = Ok (x, y) /\
    mRows x = length ims /\ Z.of_nat (mCols x) = nrow * ncol /\
    length (mData x) = (length ims * mCols x)%nat /\
    mRows y = length ls /\ mCols y = 10%nat /\ length (mData y) = (length ls * 10)%nat /\
    (forall i j, (i < length ims)%nat -> (j < mCols x)%nat ->
       nth (i * mCols x + j) (mData x) S754_nan
       = store dt (pixelWeight (nth j (nth i ims []) 0))) /\
    (forall i j, (i < length ls)%nat -> (j < 10)%nat ->
       nth (i * 10 + j) (mData y) S754_nan
       = store dt (if Z.eq_dec (nth i ls 0) (Z.of_nat j) then c09 else c01)).
Proof.
  intros typ nrow ncol ims ls dt fs Ht EL EI Hr Hc Hp Hl Hls Ne Hi.
  pose proof (C118_labels_round_trip ls [] Hls) as RL. rewrite app_nil_r in RL.
  pose proof (C118_images_round_trip nrow ncol ims [] Hr Hc Hp Hl Hi) as RI.
  rewrite app_nil_r in RI.
  destruct ims as [|m0 ims]; [congruence|].
  pose proof (Forall_inv Hi) as H0. cbv beta in H0.
  assert (Hw : forall x, In x (m0 :: ims) ->
            length (map (fun px => store dt (pixelWeight px)) x) = length m0).
  { intros x Hx. rewrite map_length. rewrite Forall_forall in Hi. specialize (Hi x Hx).
    cbv beta in Hi. lia. }
  assert (Hf : forall {A B} (f : A -> list B) w l, (forall x, In x l -> length (f x) = w) ->
             length (flat_map f l) = (length l * w)%nat).
  { intros A B f w l. induction l as [|x l IH]; intros H; [reflexivity|]. cbn [flat_map length].
    rewrite app_length, H by now left. rewrite IH by (intros y Hy; apply H; now right).
    cbn. lia. }
  exists (Mat (length (m0 :: ims)) (length m0)
        (flat_map (map (fun px => store dt (pixelWeight px))) (m0 :: ims))), (prepareY ls dt).
  split.
  { unfold load. destruct typ; cbn [trainL trainI testL testI] in *; try congruence;
      rewrite EL, EI, RL, RI; reflexivity. }
  cbn [mRows mCols mData prepareY]. split; [reflexivity|]. split; [exact H0|].
  split; [now apply Hf|]. split; [reflexivity|]. split; [reflexivity|].
  split; [apply Hf; intros; now rewrite map_length, seq_length|].
  split.
  - intros i j Hii Hj. rewrite (nth_flat_map _ (length m0) _ []) by assumption.
    set (im := nth i (m0 :: ims) []).
    assert (Lm : length im = length m0).
    { assert (Hin : In im (m0 :: ims)) by now apply nth_In.
      specialize (Hw im Hin). now rewrite map_length in Hw. }
    rewrite nth_indep with (d' := store dt (pixelWeight 0)) by (rewrite map_length; lia).
    apply (map_nth (fun px => store dt (pixelWeight px))).
  - intros i j Hii Hj. unfold prepareY. cbn [mData].
    rewrite (nth_flat_map _ 10 _ 0) by (try assumption; intros; now rewrite map_length, seq_length).
    set (l := nth i ls 0).
    rewrite nth_indep with (d' := store dt (if Z.of_nat 0 =? l then c09 else c01))
      by (rewrite map_length, seq_length; lia).
    rewrite (map_nth (fun j => store dt (if Z.of_nat j =? l then c09 else c01))).
    rewrite seq_nth by exact Hj. cbn [Nat.add].
    destruct (Z.eqb_spec (Z.of_nat j) l), (Z.eq_dec l (Z.of_nat j)); congruence.
Qed.

Print Assumptions C118_load.

(** The header is not checked against its own product: 65536 rows of 65536 columns are read as
    images without pixels, and the file need not hold any. *)
Theorem C118_size_refuted : exists f x,
  readImageFile (Some f) = Ok x /\ x = [[]; []] /\
  f = be32 2051 ++ be32 2 ++ be32 65536 ++ be32 65536.
Proof. eexists _, _. split; [|split; reflexivity]. reflexivity. Qed.

Print Assumptions C118_size_refuted.

(** A label above nine gives a row without a mark, and no error. *)
Theorem C118_label_range_refuted : exists y,
  load Train (Files (Some (labelFile [10])) (Some (imageFile 1 1 [[0]])) None None) F64
  = Ok (Mat 1 1 [pixelWeight 0], y) /\ mData y = repeat c01 10.
Proof. eexists. split; reflexivity. Qed.

Print Assumptions C118_label_range_refuted.

Definition bytesUp : list Z := map Z.of_nat (seq 0 256).

Lemma all_bytes : forall P : Z -> bool, forallb P bytesUp = true ->
  forall p, 0 <= p < 256 -> P p = true.
Proof.
  intros P H p Hp. rewrite forallb_forall in H. apply H. unfold bytesUp.
  rewrite in_map_iff. exists (Z.to_nat p). split; [lia|]. apply in_seq. lia.
Qed.

(** The weight of a pixel, computed with IEEE rounding, is the number intended to within
    2 ^ -52 (float64) and 2 ^ -24 (float32). *)
Theorem C118_weight : forall p, 0 <= p < 256 ->
  within (1 # 2 ^ 52) (toQ (store F64 (pixelWeight p))) (weight p) /\
  within (1 # 2 ^ 24) (toQ (store F32 (pixelWeight p))) (weight p).
Proof.
  pose (P := fun p =>
    let a := (toQ (store F64 (pixelWeight p)) - weight p)%Q in
    let b := (toQ (store F32 (pixelWeight p)) - weight p)%Q in
    Qle_bool (- (1 # 2 ^ 52)) a && Qle_bool a (1 # 2 ^ 52) &&
    Qle_bool (- (1 # 2 ^ 24)) b && Qle_bool b (1 # 2 ^ 24)).
  intros p Hp. assert (T : P p = true) by (apply all_bytes; [vm_compute; reflexivity|lia]).
  unfold P in T. cbv zeta in T. rewrite !andb_true_iff, !Qle_bool_iff in T.
  unfold within. tauto.
Qed.

Print Assumptions C118_weight.

(** The two marks of [C118_load] are the numbers nearest to 0.9 and 0.1. *)
Theorem C118_marks :
  within (1 # 2 ^ 54) (toQ (store F64 c09)) (9 # 10) /\
  within (1 # 2 ^ 57) (toQ (store F64 c01)) (1 # 10) /\
  within (1 # 2 ^ 25) (toQ (store F32 c09)) (9 # 10) /\
  within (1 # 2 ^ 28) (toQ (store F32 c01)) (1 # 10).
Proof.
  unfold within. repeat split; apply Qle_bool_iff; vm_compute; reflexivity.
Qed.

Print Assumptions C118_marks.

(** The numbers stored for Float32 are float32: their mantissa is below 2^24 and their exponent
    within the format; for Float64 below 2^53. *)
Theorem C118_stored_format : forall x, (exists p, 0 <= p < 256 /\ x = pixelWeight p) \/ x = c09 \/ x = c01 ->
  (exists s m e, store F32 x = S754_finite s m e /\ Z.pos m < 2 ^ 24 /\ -149 <= e <= 104) /\
  (exists s m e, store F64 x = S754_finite s m e /\ Z.pos m < 2 ^ 53 /\ -1074 <= e <= 971).
Proof.
  pose (Q := fun (x : spec_float) (b lo hi : Z) => match x with S754_finite _ m e => (Z.pos m <? b) && (lo <=? e) && (e <=? hi) | _ => false end).
  assert (QE : forall x b lo hi, Q x b lo hi = true -> exists s m e, x = S754_finite s m e /\ Z.pos m < b /\ lo <= e <= hi).
  { intros x b lo hi H. destruct x as [| | |s m e]; try discriminate H. cbn in H.
    rewrite !andb_true_iff, Z.ltb_lt, !Z.leb_le in H. exists s, m, e. repeat split; tauto. }
  pose (P := fun x => Q (store F32 x) (2 ^ 24) (-149) 104 && Q (store F64 x) (2 ^ 53) (-1074) 971).
  assert (PE : forall x, P x = true ->
    (exists s m e, store F32 x = S754_finite s m e /\ Z.pos m < 2 ^ 24 /\ -149 <= e <= 104) /\
    (exists s m e, store F64 x = S754_finite s m e /\ Z.pos m < 2 ^ 53 /\ -1074 <= e <= 971)).
  { intros x H. apply andb_true_iff in H. destruct H. split; apply QE; assumption. }
  intros x [[p [Hp ->]]|[->| ->]]; apply PE; [|vm_compute; reflexivity|vm_compute; reflexivity].
  apply (all_bytes (fun p => P (pixelWeight p))); [vm_compute; reflexivity|lia].
Qed.

Print Assumptions C118_stored_format.

Example C118_stored_format_ex : store F32 (pixelWeight 128) <> store F64 (pixelWeight 128).
Proof. vm_compute. discriminate. Qed.

(** Darker pixels have strictly larger weights, all of them between 0 and 1, in both dtypes. *)
Theorem C118_weight_increases : forall dt p, 0 <= p < 255 ->
  (0 < toQ (store dt (pixelWeight p)) < toQ (store dt (pixelWeight (p + 1))) /\
   toQ (store dt (pixelWeight (p + 1))) < 1)%Q.
Proof.
  pose (lt := fun a b => negb (Qle_bool b a)).
  assert (L : forall a b, lt a b = true -> (a < b)%Q).
  { intros a b H. unfold lt in H. rewrite negb_true_iff in H. apply Qnot_le_lt. intros C.
    apply Qle_bool_iff in C. congruence. }
  pose (P := fun dt p => (255 <=? p) ||
    (lt 0%Q (toQ (store dt (pixelWeight p))) &&
     lt (toQ (store dt (pixelWeight p))) (toQ (store dt (pixelWeight (p + 1)))) &&
     lt (toQ (store dt (pixelWeight (p + 1)))) 1%Q)).
  intros dt p Hp.
  assert (T : P dt p = true)
    by (apply all_bytes; [destruct dt; vm_compute; reflexivity|lia]).
  unfold P in T. apply orb_true_iff in T. destruct T as [T|T]; [apply Z.leb_le in T; lia|].
  rewrite !andb_true_iff in T. destruct T as ((A & B) & C). auto.
Qed.

Print Assumptions C118_weight_increases.

(** reversePixelWeight gives no pixel back: it lands one or two above it, modulo 256; black
    becomes white. *)
Theorem C118_reverse_refuted :
  (forall p, 0 <= p < 256 ->
     let q := reversePixelWeight (pixelWeight p) in
     (q = (p + 1) mod 256 \/ q = (p + 2) mod 256) /\ q <> p) /\
  reversePixelWeight (pixelWeight 255) = 0.
Proof.
  split; [|vm_compute; reflexivity].
  pose (P := fun p => let q := reversePixelWeight (pixelWeight p) in
    ((q =? (p + 1) mod 256) || (q =? (p + 2) mod 256)) && negb (q =? p)).
  intros p Hp. assert (T : P p = true) by (apply all_bytes; [vm_compute; reflexivity|lia]).
  unfold P in T. cbv zeta in T. cbv zeta.
  rewrite andb_true_iff, orb_true_iff, negb_true_iff, !Z.eqb_eq, Z.eqb_neq in T. exact T.
Qed.

Print Assumptions C118_reverse_refuted.

Example C118_ex_load : exists x y,
  load Dev (Files (Some (labelFile [7; 0])) (Some (imageFile 1 2 [[0; 255]; [3; 4]])) None None)
       F32 = Ok (x, y) /\
  mRows x = 2%nat /\ mCols x = 2%nat /\ mRows y = 2%nat /\
  nth 1 (mData x) S754_nan = toF32 c0999 /\ nth 7 (mData y) S754_nan = toF32 c09 /\
  nth 10 (mData y) S754_nan = toF32 c09.
Proof. eexists _, _. vm_compute. repeat split. Qed.

Example C118_ex_cut :
  readImageFile (Some (firstn 19 (imageFile 1 2 [[0; 255]; [3; 4]]))) = Err /\
  readImageFile (Some (imageFile 1 2 [[0; 255]; [3; 4]])) = Ok [[0; 255]; [3; 4]].
Proof. vm_compute. split; reflexivity. Qed.

Example C118_ex_magic :
  load Train (Files (Some (labelFile [1])) (Some (labelFile [1])) None None) F64 = Panic.
Proof. reflexivity. Qed.
