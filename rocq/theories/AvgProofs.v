(** Proofs for average pooling and upsampling. *)
From Coq Require Import Arith ZArith Reals List Bool Lia Ring Lra.
From Verif Require Import Sums LoopModel LoopProofs ConvModel ConvSpec ConvProofs PoolModel PoolSpec PoolProofs.
Import ListNotations.
Local Open Scope nat_scope.

Section WindowSums.
Context {A : Type} {CR : CRing A}.
Add Ring Aring4 : (@cr_th A CR).

Lemma lsum_seq (f : nat -> A) lo n : lsum (map f (seq lo n)) = sum n (fun i => f (lo + i)).
Proof.
  induction n as [|n IH]; [reflexivity|].
  rewrite seq_S, map_app, lsum_app, IH. cbn [map lsum sum]. ring.
Qed.

Lemma lsum_range (f : nat -> A) lo n size : (lo + n <= size \/ n = 0) ->
  lsum (map f (seq lo n)) = sum size (fun r => if (lo <=? r) && (r <? lo + n) then f r else r0).
Proof.
  intros [H|H].
  - rewrite lsum_seq. replace size with (lo + (n + (size - lo - n))) by lia. rewrite !sum_split.
    rewrite (sum_zero_ext lo).
    2:{ intros i Hi. destruct (Nat.leb_spec lo i); [lia|reflexivity]. }
    rewrite (sum_zero_ext (size - lo - n)).
    2:{ intros i Hi. destruct (Nat.ltb_spec (lo + (n + i)) (lo + n)); [lia|]. rewrite andb_false_r. reflexivity. }
    rewrite (sum_ext n (fun i => if (lo <=? lo + i) && (lo + i <? lo + n) then f (lo + i) else r0) (fun i => f (lo + i))).
    2:{ intros i Hi. destruct (Nat.leb_spec lo (lo + i)); [|lia]. destruct (Nat.ltb_spec (lo + i) (lo + n)); [reflexivity|lia]. }
    ring.
  - subst n. rewrite sum_zero_ext; [reflexivity|]. intros i _.
    destruct (Nat.leb_spec lo i); destruct (Nat.ltb_spec i (lo + 0)); try reflexivity; lia.
Qed.

Definition inSpan (p stride pad k r : nat) : bool := (p * stride <=? r + pad) && (r + pad <? p * stride + k).

Lemma lsum_span (f : nat -> A) p stride pad k size :
  lsum (map f (span p stride pad k size)) = sum size (fun r => if inSpan p stride pad k r then f r else r0).
Proof.
  unfold span. rewrite (lsum_range _ _ _ size).
  2:{ unfold winStart, winEnd. lia. }
  apply sum_ext. intros r Hr.
  assert (E : ((Z.to_nat (winStart p stride pad) <=? r) &&
    (r <? Z.to_nat (winStart p stride pad) + (Z.to_nat (winEnd p stride pad k size) - Z.to_nat (winStart p stride pad))))
    = inSpan p stride pad k r).
  { unfold inSpan, winStart, winEnd. apply eq_true_iff_eq.
    rewrite !andb_true_iff, !Nat.leb_le, !Nat.ltb_lt. lia. }
  rewrite E. reflexivity.
Qed.

(** A sum over kernel positions as a sum over the pixels they fall on. *)
Lemma kernel_sum (g : Z -> A) (a : Z) k size :
  (forall z, (z < 0 \/ Z.of_nat size <= z)%Z -> g z = r0) ->
  sum k (fun y => g (a + Z.of_nat y)%Z) =
  sum size (fun r => if ((a <=? Z.of_nat r) && (Z.of_nat r <? a + Z.of_nat k))%Z then g (Z.of_nat r) else r0).
Proof.
  intro Hg. induction k as [|k IH].
  - cbn [sum]. symmetry. apply sum_zero_ext. intros r _.
    destruct (Z.leb_spec a (Z.of_nat r)); destruct (Z.ltb_spec (Z.of_nat r) (a + Z.of_nat 0)); try reflexivity; lia.
  - cbn [sum]. rewrite IH.
    assert (E : g (a + Z.of_nat k)%Z = sum size (fun r => if (Z.of_nat r =? a + Z.of_nat k)%Z then g (Z.of_nat r) else r0)).
    { destruct (Z.ltb_spec (a + Z.of_nat k) 0) as [L|L]; [|destruct (Z.ltb_spec (a + Z.of_nat k) (Z.of_nat size)) as [L2|L2]].
      - rewrite Hg by lia. symmetry. apply sum_zero_ext. intros r _. destruct (Z.eqb_spec (Z.of_nat r) (a + Z.of_nat k)); [lia|reflexivity].
      - rewrite (sum_single size (Z.to_nat (a + Z.of_nat k))).
        + rewrite Z2Nat.id by lia. rewrite Z.eqb_refl. reflexivity.
        + lia.
        + intros i _ Hi. destruct (Z.eqb_spec (Z.of_nat i) (a + Z.of_nat k)); [lia|reflexivity].
      - rewrite Hg by lia. symmetry. apply sum_zero_ext. intros r Hr. destruct (Z.eqb_spec (Z.of_nat r) (a + Z.of_nat k)); [lia|reflexivity]. }
    rewrite E, <- sum_add. apply sum_ext. intros r _.
    destruct (Z.leb_spec a (Z.of_nat r)); destruct (Z.ltb_spec (Z.of_nat r) (a + Z.of_nat k));
      destruct (Z.eqb_spec (Z.of_nat r) (a + Z.of_nat k)); destruct (Z.ltb_spec (Z.of_nat r) (a + Z.of_nat (S k)));
      cbn [andb]; try lia; ring.
Qed.

Lemma pixel_row inH inW (plane : list A) (r : nat) (c : Z) :
  pixel inH inW plane (Z.of_nat r) c =
  if r <? inH then (if ((0 <=? c) && (c <? Z.of_nat inW))%Z then nth (r * inW + Z.to_nat c) plane r0 else r0) else r0.
Proof.
  unfold pixel. rewrite Nat2Z.id. destruct (Z.leb_spec 0 (Z.of_nat r)); [|lia].
  destruct (Z.ltb_spec (Z.of_nat r) (Z.of_nat inH)); destruct (Nat.ltb_spec r inH); cbn [andb]; try lia; [|reflexivity].
  destruct (0 <=? c)%Z; destruct (c <? Z.of_nat inW)%Z; reflexivity.
Qed.

Lemma window_sum_pixels kh kw padH padW sH sW inH inW ph pw (plane : list A) :
  window_sum kh kw padH padW sH sW inH inW ph pw plane =
  sum inH (fun r => if inSpan ph sH padH kh r then
    sum inW (fun c => if inSpan pw sW padW kw c then nth (r * inW + c) plane r0 else r0) else r0).
Proof.
  unfold window_sum.
  set (F := fun z => sum kw (fun x => pixel inH inW plane z (Z.of_nat pw * Z.of_nat sW + Z.of_nat x - Z.of_nat padW))).
  rewrite (sum_ext kh _ (fun y => F ((Z.of_nat ph * Z.of_nat sH - Z.of_nat padH) + Z.of_nat y)%Z)).
  2:{ intros y _. unfold F. apply sum_ext. intros x _. f_equal. lia. }
  rewrite (kernel_sum F _ kh inH).
  2:{ intros z Hz. unfold F. apply sum_zero_ext. intros x _. unfold pixel.
      destruct (Z.leb_spec 0 z); destruct (Z.ltb_spec z (Z.of_nat inH)); cbn [andb]; try reflexivity; lia. }
  apply sum_ext. intros r Hr.
  replace ((Z.of_nat ph * Z.of_nat sH - Z.of_nat padH <=? Z.of_nat r) &&
           (Z.of_nat r <? Z.of_nat ph * Z.of_nat sH - Z.of_nat padH + Z.of_nat kh))%Z%bool
    with (inSpan ph sH padH kh r).
  2:{ unfold inSpan. apply eq_true_iff_eq. rewrite !andb_true_iff, Nat.leb_le, Nat.ltb_lt, Z.leb_le, Z.ltb_lt. lia. }
  destruct (inSpan ph sH padH kh r); [|reflexivity].
  unfold F.
  set (G := fun z => pixel inH inW plane (Z.of_nat r) z).
  rewrite (sum_ext kw _ (fun x => G ((Z.of_nat pw * Z.of_nat sW - Z.of_nat padW) + Z.of_nat x)%Z)).
  2:{ intros x _. unfold G. f_equal. lia. }
  rewrite (kernel_sum G _ kw inW).
  2:{ intros z Hz. unfold G. rewrite pixel_row. destruct (r <? inH); [|reflexivity].
      destruct (Z.leb_spec 0 z); destruct (Z.ltb_spec z (Z.of_nat inW)); cbn [andb]; try reflexivity; lia. }
  apply sum_ext. intros c Hc.
  replace ((Z.of_nat pw * Z.of_nat sW - Z.of_nat padW <=? Z.of_nat c) &&
           (Z.of_nat c <? Z.of_nat pw * Z.of_nat sW - Z.of_nat padW + Z.of_nat kw))%Z%bool
    with (inSpan pw sW padW kw c).
  2:{ unfold inSpan. apply eq_true_iff_eq. rewrite !andb_true_iff, Nat.leb_le, Nat.ltb_lt, Z.leb_le, Z.ltb_lt. lia. }
  destruct (inSpan pw sW padW kw c); [|reflexivity].
  unfold G. rewrite pixel_row. destruct (Nat.ltb_spec r inH); [|lia].
  destruct (Z.leb_spec 0 (Z.of_nat c)); [|lia]. destruct (Z.ltb_spec (Z.of_nat c) (Z.of_nat inW)); [|lia].
  cbn [andb]. rewrite Nat2Z.id. reflexivity.
Qed.

Lemma lsum_flat_map {B C} (f : C -> A) (g : B -> list C) L :
  lsum (map f (flat_map g L)) = lsum (map (fun x => lsum (map f (g x))) L).
Proof.
  induction L as [|a L IH]; [reflexivity|]. cbn [flat_map map lsum]. rewrite map_app, lsum_app, IH. reflexivity.
Qed.

Lemma lsum_winList op inH inW ph pw (f : nat -> A) :
  lsum (map f (winList op inH inW ph pw)) =
  sum inH (fun r => if inSpan ph (pstrideH op) (usedPadH op) (ph_ op) r then
    sum inW (fun c => if inSpan pw (pstrideW op) (usedPadW op) (pw_ op) c then f (r * inW + c) else r0) else r0).
Proof.
  unfold winList. rewrite lsum_flat_map, lsum_span. apply sum_ext. intros r _.
  destruct (inSpan ph (pstrideH op) (usedPadH op) (ph_ op) r); [|reflexivity].
  rewrite map_map, lsum_span. reflexivity.
Qed.

Lemma winList_sum op inH inW ph pw (plane : list A) :
  lsum (map (fun i => nth i plane r0) (winList op inH inW ph pw)) =
  window_sum (ph_ op) (pw_ op) (usedPadH op) (usedPadW op) (pstrideH op) (pstrideW op) inH inW ph pw plane.
Proof. rewrite lsum_winList, window_sum_pixels. reflexivity. Qed.

Lemma dot_sum (u v : list A) n : length u = n -> length v = n ->
  dot u v = sum n (fun i => rmul (nth i u r0) (nth i v r0)).
Proof.
  revert v n. induction u as [|a u IH]; intros v n Hu Hv.
  - subst n. reflexivity.
  - destruct v as [|b v]; [simpl in *; lia|]. destruct n as [|n]; [discriminate|].
    change (Datatypes.S n) with (1 + n). rewrite sum_split. cbn [sum nth Nat.add dot].
    rewrite (IH v n) by (simpl in *; lia). ring.
Qed.

Lemma nth_pairs (F : nat * nat -> A) n m i j : i < n -> j < m -> nth (i * m + j) (map F (pairs n m)) r0 = F (i, j).
Proof.
  intros Hi Hj. apply nth_error_nth. rewrite nth_error_map, pairs_nth by assumption. reflexivity.
Qed.

Lemma dot_pairs (u : list A) n m (F : nat * nat -> A) : length u = n * m ->
  dot u (map F (pairs n m)) = sum n (fun i => sum m (fun j => rmul (nth (i * m + j) u r0) (F (i, j)))).
Proof.
  intro Hu. rewrite (dot_sum _ _ (n * m)) by (try rewrite map_length, pairs_length; lia).
  rewrite sum_prod. apply sum_ext. intros i Hi. apply sum_ext. intros j Hj. rewrite nth_pairs by assumption. reflexivity.
Qed.
End WindowSums.

(** ** Average pooling *)
Section Avg.
Local Open Scope R_scope.

Definition lastZ (L : list nat) (b : Z) : Z := fold_left (fun _ i => Z.of_nat i) L b.

Lemma avg_cell_ok data k L : forall (d1 r1 : list R) (d2 r2 : list Z) a b,
  (forall i, In i L -> (i < length data)%nat) -> length d1 = k -> length d2 = k ->
  foldM (fun i (st : list R * list Z) =>
    match aget data i with
    | Some x => match incr (fst st) k x, aset (snd st) k (Z.of_nat i) with
                | Some o', Some m' => Some (o', m')
                | _, _ => None
                end
    | None => None
    end) L (d1 ++ a :: r1, d2 ++ b :: r2)
  = Some (d1 ++ (a + lsum (map (fun i => nth i data 0) L)) :: r1, d2 ++ lastZ L b :: r2).
Proof.
  induction L as [|i L IH]; intros d1 r1 d2 r2 a b H H1 H2.
  - cbn [foldM map lsum lastZ fold_left]. change r0 with 0. rewrite Rplus_0_r. reflexivity.
  - cbn [foldM fst snd]. unfold aget at 1.
    rewrite (nth_error_nth' data 0) by (apply H; left; reflexivity).
    unfold incr. rewrite aget_mid, !aset_mid by assumption.
    rewrite IH; auto; [|intros; apply H; right; assumption].
    cbn [map lsum]. unfold lastZ. cbn [fold_left]. change (@radd R CRing_R) with Rplus. rewrite Rplus_assoc. reflexivity.
Qed.

Lemma avgPlane_ok op inH inW outH outW data : length data = (inH * inW)%nat ->
  avgPlane op inH inW outH outW data =
  Some (map (fun p => lsum (map (fun i => nth i data 0) (winList op inH inW (fst p) (snd p))) / INR inW) (pairs outH outW),
        map (fun p => lastZ (winList op inH inW (fst p) (snd p)) (-1)) (pairs outH outW)).
Proof.
  intro Hl. unfold avgPlane. rewrite loop2_pairs. apply plane_ok.
  intros ph pw d1 s1 d2 s2 Hp Hw H1 H2. cbv zeta. cbn [fst snd]. rewrite window_list.
  rewrite avg_cell_ok; auto.
  - cbn [fst snd]. rewrite aget_mid, aset_mid by assumption. rewrite Rplus_0_l. reflexivity.
  - intros i Hi. apply winList_in in Hi. rewrite Hl. eapply windowOf_lt, Hi.
Qed.

(** The in-place sliding sum of the gradient, with stride 1 and no padding, reads
    only entries it has not yet written. *)
Lemma slide_ok op inH inW d : pstrideH op = 1%nat -> pstrideW op = 1%nat -> usedPadH op = 0%nat -> usedPadW op = 0%nat ->
  length d = (inH * inW)%nat ->
  loop inH (fun ph =>
      loop inW (fun pw d =>
        match window op inH inW ph pw (fun i total =>
                match aget d i with Some x => Some (total + x) | None => None end) 0 with
        | Some total => aset d (ph * inW + pw)%nat (total / INR inW)
        | None => None
        end)) d
  = Some (map (fun p => lsum (map (fun i => nth i d 0) (winList op inH inW (fst p) (snd p))) / INR inW) (pairs inH inW)).
Proof.
  intros SH SW PH PW Hl. rewrite loop2_pairs.
  set (F := fun p => lsum (map (fun i => nth i d 0) (winList op inH inW (fst p) (snd p))) / INR inW).
  assert (Tot : forall (e : list R) L a, (forall i, In i L -> (i < length e)%nat) ->
     foldM (fun i total => match aget e i with Some x => Some (total + x) | None => None end) L a
     = Some (a + lsum (map (fun i => nth i e 0) L))).
  { intros e L. induction L as [|i L IH]; intros a H; cbn [foldM map lsum].
    - change r0 with 0. rewrite Rplus_0_r. reflexivity.
    - unfold aget. rewrite (nth_error_nth' e 0) by (apply H; left; reflexivity).
      fold (aget e). rewrite IH by (intros; apply H; right; assumption).
      change (@radd R CRing_R) with Rplus. rewrite Rplus_assoc. reflexivity. }
  destruct (foldM_inv (fun p (e : list R) =>
      match window op inH inW (fst p) (snd p) (fun i total =>
                match aget e i with Some x => Some (total + x) | None => None end) 0 with
        | Some total => aset e (fst p * inW + snd p)%nat (total / INR inW)
        | None => None
        end)
      (fun done e => e = map F done ++ skipn (length done) d) (pairs inH inW) d) as [r [E R]].
  - reflexivity.
  - intros done [ph pw] rest e E ->. cbn [fst snd].
    assert (N : nth_error (pairs inH inW) (length done) = Some (ph, pw)).
    { rewrite E, nth_error_app2, Nat.sub_diag by lia. reflexivity. }
    apply pairs_nth_inv in N. destruct N as [N [Hp Hw]].
    set (e := map F done ++ skipn (length done) d).
    assert (Hd : (length done < length d)%nat) by nia.
    assert (Le : length e = length d).
    { unfold e. rewrite app_length, map_length, skipn_length. lia. }
    rewrite window_list, Tot by (intros i Hi; rewrite Le, Hl; apply winList_in in Hi; eapply windowOf_lt, Hi).
    assert (Same : map (fun i => nth i e 0) (winList op inH inW ph pw) = map (fun i => nth i d 0) (winList op inH inW ph pw)).
    { apply map_ext_in. intros i Hi. apply winList_in in Hi. destruct Hi as (r & c & Hr & Hc & -> & Hrr & Hcc).
      rewrite SH, PH in Hrr. rewrite SW, PW in Hcc.
      assert (G : (length done <= r * inW + c)%nat) by nia.
      unfold e. rewrite app_nth2 by (rewrite map_length; exact G). rewrite map_length.
      rewrite <- (firstn_skipn (length done) d) at 2.
      rewrite app_nth2 by (rewrite firstn_length; lia). rewrite firstn_length. f_equal. lia. }
    rewrite Same, Rplus_0_l. exists (map F (done ++ [(ph, pw)]) ++ skipn (length (done ++ [(ph, pw)])) d).
    split; [|reflexivity].
    rewrite map_app, <- app_assoc. cbn [map app]. rewrite app_length. cbn [length].
    assert (exists x, nth_error d (length done) = Some x) as [x Ex] by (apply aget_some; exact Hd).
    assert (Sk : skipn (length done) d = x :: skipn (length done + 1) d).
    { clear -Ex. revert Ex. generalize (length done) as n. intro n. revert d. induction n as [|n IH]; intros [|y d] H; try discriminate.
      - injection H as ->. reflexivity.
      - cbn [skipn Nat.add]. apply IH. exact H. }
    unfold e. rewrite Sk, <- N. rewrite aset_mid by apply map_length. reflexivity.
  - rewrite E. f_equal. rewrite R, pairs_length, <- Hl, skipn_all, app_nil_r. reflexivity.
Qed.

Lemma lastZ_snoc L x b : lastZ (L ++ [x]) b = Z.of_nat x.
Proof. unfold lastZ. rewrite fold_left_app. reflexivity. Qed.

Lemma span_plain p k size : (p + k <= size)%nat -> span p 1 0 k size = seq p k.
Proof. intro H. unfold span, winStart, winEnd. f_equal; lia. Qed.

Lemma winList_last op inH inW ph pw : pstrideH op = 1%nat -> pstrideW op = 1%nat -> usedPadH op = 0%nat -> usedPadW op = 0%nat ->
  (1 <= ph_ op)%nat -> (1 <= pw_ op)%nat -> (ph + ph_ op <= inH)%nat -> (pw + pw_ op <= inW)%nat ->
  lastZ (winList op inH inW ph pw) (-1) = Z.of_nat ((ph + ph_ op - 1) * inW + (pw + pw_ op - 1)).
Proof.
  intros SH SW PH PW K1 K2 H1 H2. unfold winList. rewrite SH, SW, PH, PW, !span_plain by assumption.
  destruct (ph_ op) as [|a]; [lia|]. destruct (pw_ op) as [|b]; [lia|].
  rewrite (seq_S a ph), flat_map_app. cbn [flat_map]. rewrite app_nil_r.
  rewrite (seq_S b pw), map_app. cbn [map]. rewrite app_assoc, lastZ_snoc. f_equal. f_equal; [f_equal|]; lia.
Qed.

Lemma avg_adjoint op inH inW x u g o m :
  pstrideH op = 1%nat -> pstrideW op = 1%nat -> usedPadH op = 0%nat -> usedPadW op = 0%nat ->
  (1 <= ph_ op <= inH)%nat -> (1 <= pw_ op <= inW)%nat ->
  let outH := (inH - ph_ op + 1)%nat in let outW := (inW - pw_ op + 1)%nat in
  length x = (inH * inW)%nat -> length u = (inH * inW)%nat -> length g = (outH * outW)%nat ->
  avgPlane op inH inW outH outW x = Some (o, m) ->
  exists r ou, avgDiffPlane op inH inW outH outW g m = Some r /\
               avgPlane op inH inW outH outW u = Some (ou, m) /\ dot u r = dot ou g.
Proof.
  intros SH SW PH PW K1 K2 outH outW Hx Hu Hg Ex.
  rewrite avgPlane_ok in Ex by exact Hx. injection Ex as _ Em.
  set (V := fun q : nat * nat => sum inH (fun r => if inSpan r 1 0 (ph_ op) (fst q) then
     sum inW (fun c => if inSpan c 1 0 (pw_ op) (snd q) then nth (r * inW + c) u 0 else 0) else 0) / INR inW).
  assert (Hz : forall z, In z m -> (0 <= z < Z.of_nat (inH * inW))%Z).
  { intros z Hz. rewrite <- Em in Hz. apply in_map_iff in Hz. destruct Hz as [[ph pw] [<- Hp]]. cbn [fst snd].
    apply In_nth_error in Hp. destruct Hp as [n Hn]. apply pairs_nth_inv in Hn. destruct Hn as [_ [Hp Hw]].
    unfold outH, outW in *. rewrite winList_last by (assumption || lia). nia. }
  destruct (maxDiffPlane_ok (inH * inW) outH outW g m) as [d [Ed [Ld D]]]; [exact Hg| |exact Hz|].
  { rewrite <- Em, map_length. apply pairs_length. }
  eexists _, _. split; [|split].
  - unfold avgDiffPlane. rewrite Ed. apply slide_ok; assumption.
  - rewrite avgPlane_ok by exact Hu. rewrite Em. reflexivity.
  - transitivity (dot (map V (pairs inH inW)) d).
    + rewrite dot_pairs by exact Hu. cbn [fst snd].
      rewrite (dot_comm (map V _)), dot_pairs by exact Ld.
      assert (Ex : forall r c, lsum (map (fun i => nth i d 0) (winList op inH inW r c)) =
         sum inH (fun r' => sum inW (fun c' => if inSpan r 1 0 (ph_ op) r' then if inSpan c 1 0 (pw_ op) c' then nth (r' * inW + c') d 0 else 0 else 0))).
      { intros r c. rewrite lsum_winList, SH, SW, PH, PW. apply sum_ext. intros r' _.
        destruct (inSpan r 1 0 (ph_ op) r'); [reflexivity|]. symmetry. exact (@sum_zero R CRing_R inW). }
      assert (Ev : forall r' c', V (r', c') =
         sum inH (fun r => sum inW (fun c => if inSpan r 1 0 (ph_ op) r' then if inSpan c 1 0 (pw_ op) c' then nth (r * inW + c) u 0 else 0 else 0)) / INR inW).
      { intros r' c'. unfold V. cbn [fst snd]. f_equal. apply sum_ext. intros r _.
        destruct (inSpan r 1 0 (ph_ op) r'); [reflexivity|]. symmetry. exact (@sum_zero R CRing_R inW). }
      set (W := INR inW).
      transitivity (sum inH (fun r => sum inW (fun c => sum inH (fun r' => sum inW (fun c' =>
         if inSpan r 1 0 (ph_ op) r' then if inSpan c 1 0 (pw_ op) c' then nth (r * inW + c) u 0 * (nth (r' * inW + c') d 0 / W) else 0 else 0))))).
      * apply sum_ext. intros r _. apply sum_ext. intros c _. rewrite Ex.
        unfold Rdiv. change (@rmul R CRing_R) with Rmult.
        rewrite <- (@sum_mul_r R CRing_R). rewrite <- (@sum_mul_l R CRing_R). apply sum_ext. intros r' _.
        rewrite <- (@sum_mul_r R CRing_R). rewrite <- (@sum_mul_l R CRing_R). apply sum_ext. intros c' _.
        cbn [rmul r0 CRing_R]. destruct (inSpan r 1 0 (ph_ op) r'); [destruct (inSpan c 1 0 (pw_ op) c')|]; ring.
      * rewrite (sum_ext inH _ (fun r => sum inH (fun r' => sum inW (fun c => sum inW (fun c' =>
           if inSpan r 1 0 (ph_ op) r' then if inSpan c 1 0 (pw_ op) c' then nth (r * inW + c) u 0 * (nth (r' * inW + c') d 0 / W) else 0 else 0))))).
        2:{ intros r _. apply sum_swap. }
        rewrite sum_swap. apply sum_ext. intros r' _.
        rewrite (sum_ext inH _ (fun r => sum inW (fun c' => sum inW (fun c =>
           if inSpan r 1 0 (ph_ op) r' then if inSpan c 1 0 (pw_ op) c' then nth (r * inW + c) u 0 * (nth (r' * inW + c') d 0 / W) else 0 else 0)))).
        2:{ intros r _. apply sum_swap. }
        rewrite sum_swap. apply sum_ext. intros c' _. rewrite Ev.
        unfold Rdiv. change (@rmul R CRing_R) with Rmult.
        rewrite <- (@sum_mul_r R CRing_R). rewrite <- (@sum_mul_l R CRing_R). apply sum_ext. intros r _.
        rewrite <- (@sum_mul_r R CRing_R). rewrite <- (@sum_mul_l R CRing_R). apply sum_ext. intros c _.
        cbn [rmul r0 CRing_R]. destruct (inSpan r 1 0 (ph_ op) r'); [destruct (inSpan c 1 0 (pw_ op) c')|]; unfold W; ring.
    + rewrite D by (rewrite map_length; apply pairs_length). f_equal. rewrite <- Em, map_map.
      apply map_ext_in. intros [ph pw] Hp.
      apply In_nth_error in Hp. destruct Hp as [n Hn]. apply pairs_nth_inv in Hn. destruct Hn as [_ [Hp Hw]].
      cbn [fst snd]. unfold outH, outW in *. rewrite winList_last by (assumption || lia).
      unfold sel. rewrite Nat2Z.id, nth_pairs by lia. unfold V. cbn [fst snd]. f_equal.
      rewrite lsum_winList, SH, SW, PH, PW. apply sum_ext. intros r _.
      replace (inSpan r 1 0 (ph_ op) (ph + ph_ op - 1)) with (inSpan ph 1 0 (ph_ op) r).
      2:{ unfold inSpan. apply eq_true_iff_eq. rewrite !andb_true_iff, !Nat.leb_le, !Nat.ltb_lt. lia. }
      destruct (inSpan ph 1 0 (ph_ op) r); [|reflexivity]. apply sum_ext. intros c _.
      replace (inSpan c 1 0 (pw_ op) (pw + pw_ op - 1)) with (inSpan pw 1 0 (pw_ op) c).
      2:{ unfold inSpan. apply eq_true_iff_eq. rewrite !andb_true_iff, !Nat.leb_le, !Nat.ltb_lt. lia. }
      reflexivity.
Qed.
End Avg.

(** ** Upsampling *)
Section Upsample.
Context {A : Type} {CR : CRing A}.
Add Ring Aring5 : (@cr_th A CR).

(** A loop body that writes the target values on [P] and keeps everything else. *)
Definition writes (N : nat) (t : nat -> A) (body : list A -> option (list A)) (P : nat -> Prop) : Prop :=
  forall out, length out = N -> exists out', body out = Some out' /\ length out' = N /\
    (forall j, nth_error out' j = nth_error out j \/ nth_error out' j = Some (t j)) /\
    (forall j, P j -> nth_error out' j = Some (t j)).

Lemma writes_aset N t i v : i < N -> v = t i -> writes N t (fun out => aset out i v) (fun j => j = i).
Proof.
  intros Hi -> out Ho. destruct (aset_some out i (t i) ltac:(lia)) as [o [E [L [Hv Hn]]]].
  exists o. split; [exact E|]. split; [lia|]. split.
  - intro j. destruct (Nat.eq_dec j i) as [->|D]; [right; exact Hv|left; apply Hn, D].
  - intros j ->. exact Hv.
Qed.

Lemma writes_loop N t n (body : nat -> list A -> option (list A)) (P : nat -> nat -> Prop) :
  (forall i, i < n -> writes N t (body i) (P i)) ->
  writes N t (loop n body) (fun j => exists i, i < n /\ P i j).
Proof.
  intros H out Ho. unfold loop.
  assert (G : forall m, m <= n -> exists out', foldM body (seq 0 m) out = Some out' /\ length out' = N /\
    (forall j, nth_error out' j = nth_error out j \/ nth_error out' j = Some (t j)) /\
    (forall j, (exists i, i < m /\ P i j) -> nth_error out' j = Some (t j))).
  { induction m as [|m IH]; intro Hm.
    - exists out. split; [reflexivity|]. split; [exact Ho|]. split; [auto|]. intros j [i [Hi _]]. lia.
    - destruct IH as [o1 [E1 [L1 [K1 T1]]]]; [lia|].
      destruct (H m ltac:(lia) o1 L1) as [o2 [E2 [L2 [K2 T2]]]].
      exists o2. rewrite seq_S, foldM_app, E1. cbn [foldM Nat.add]. rewrite E2.
      split; [reflexivity|]. split; [exact L2|]. split.
      + intro j. destruct (K2 j) as [->|]; auto.
      + intros j [i [Hi Hp]]. destruct (Nat.eq_dec i m) as [->|D]; [apply T2, Hp|].
        destruct (K2 j) as [->|]; auto. apply T1. exists i. split; [lia|exact Hp]. }
  apply G. lia.
Qed.

Lemma writes_ext N t b b' (P Q : nat -> Prop) : (forall o, b o = b' o) -> (forall j, Q j -> P j) -> writes N t b P -> writes N t b' Q.
Proof.
  intros E HQ W out Ho. destruct (W out Ho) as [o' H]. exists o'. rewrite <- E. firstorder.
Qed.

Lemma writes_all N t body P out : writes N t body P -> (forall j, j < N -> P j) -> length out = N ->
  body out = Some (map t (seq 0 N)).
Proof.
  intros W C Ho. destruct (W out Ho) as [o [-> [L [_ T]]]]. f_equal.
  apply nth_ext with (d := t 0) (d' := t 0); [rewrite map_length, seq_length; exact L|].
  intros j Hj. rewrite L in Hj. rewrite (map_nth t), seq_nth by exact Hj.
  apply nth_error_nth. apply T, C, Hj.
Qed.

(** Position of pixel (i,j) of plane k. *)
Definition at3 (H W k i j : nat) : nat := (k * H + i) * W + j.

Lemma at3_lt n H W k i j : k < n -> i < H -> j < W -> at3 H W k i j < n * H * W.
Proof.
  intros H1 H2 H3. unfold at3. assert (k * H + i < n * H) by nia.
  assert (S (k * H + i) * W <= n * H * W) by (apply Nat.mul_le_mono_r; lia). lia.
Qed.

Definition col3 (W x : nat) := x mod W.
Definition row3 (H W x : nat) := (x / W) mod H.
Definition plane3 (H W x : nat) := x / W / H.

Lemma at3_div H W k i j : i < H -> j < W ->
  plane3 H W (at3 H W k i j) = k /\ row3 H W (at3 H W k i j) = i /\ col3 W (at3 H W k i j) = j.
Proof.
  intros Hi Hj. unfold plane3, row3, col3, at3.
  assert (E : ((k * H + i) * W + j) / W = k * H + i).
  { symmetry. apply (Nat.div_unique _ W _ j); lia. }
  rewrite E. split; [|split].
  - symmetry. apply (Nat.div_unique _ H _ i); lia.
  - symmetry. apply (Nat.mod_unique _ H k); lia.
  - symmetry. apply (Nat.mod_unique _ W (k * H + i)); lia.
Qed.

Lemma at3_cover n H W x : x < n * H * W ->
  exists k i j, k < n /\ i < H /\ j < W /\ x = at3 H W k i j.
Proof.
  intro Hx. assert (W <> 0) by nia. assert (H <> 0) by nia.
  exists (plane3 H W x), (row3 H W x), (col3 W x). unfold plane3, row3, col3, at3.
  assert (M1 := Nat.mod_upper_bound x W ltac:(assumption)).
  assert (M2 := Nat.mod_upper_bound (x / W) H ltac:(assumption)).
  assert (D1 := Nat.div_mod x W ltac:(assumption)).
  assert (D2 := Nat.div_mod (x / W) H ltac:(assumption)).
  repeat split; try assumption.
  - apply Nat.div_lt_upper_bound; [assumption|]. apply Nat.div_lt_upper_bound; [assumption|]. nia.
  - nia.
Qed.

Definition upT (s h w : nat) (x : list A) (j : nat) : A :=
  nth (at3 h w (plane3 (h * s) (w * s) j) (row3 (h * s) (w * s) j / s) (col3 (w * s) j / s)) x r0.

Lemma div_cell s i j : j < s -> (i * s + j) / s = i.
Proof. intro H. symmetry. apply (Nat.div_unique _ s _ j); lia. Qed.

Lemma upT_at s h w x k i j : i < h * s -> j < w * s ->
  upT s h w x (at3 (h * s) (w * s) k i j) = nth (at3 h w k (i / s) (j / s)) x r0.
Proof.
  intros Hi Hj. unfold upT. destruct (at3_div (h * s) (w * s) k i j Hi Hj) as [-> [-> ->]]. reflexivity.
Qed.

Lemma upsample_ok s b c h w x : 1 <= s -> length x = b * c * h * w ->
  upsampleDo s b c h w x = Some (map (upT s h w x) (seq 0 (b * c * (h * s) * (w * s)))).
Proof.
  intros Hs Hx. unfold upsampleDo.
  set (N := b * c * (h * s) * (w * s)).
  refine (writes_all N (upT s h w x) _ _ _ _ _ (repeat_length _ _)).
  - refine (writes_loop _ _ _ _ (fun bi j => exists ci, ci < c /\ exists hi, hi < h /\ exists wi, wi < w /\
       exists si, si < s /\ exists sj, sj < s /\ j = at3 (h * s) (w * s) (bi * c + ci) (hi * s + si) (wi * s + sj)) _).
    intros bi Hb. refine (writes_loop _ _ _ _ _ _). intros ci Hc. refine (writes_loop _ _ _ _ _ _). intros hi Hh.
    refine (writes_loop _ _ _ _ _ _). intros wi Hw.
    assert (G : (((bi * c + ci) * h + hi) * w + wi) < length x).
    { rewrite Hx. apply (at3_lt (b * c) h w); nia. }
    unfold aget. rewrite (nth_error_nth' x r0 G).
    refine (writes_loop _ _ _ _ _ _). intros si Hsi. refine (writes_loop _ _ _ _ _ _). intros sj Hsj.
    apply writes_aset.
    + apply (at3_lt (b * c) (h * s) (w * s)); nia.
    + change (((bi * c + ci) * (h * s) + (hi * s + si)) * (w * s) + (wi * s + sj))
        with (at3 (h * s) (w * s) (bi * c + ci) (hi * s + si) (wi * s + sj)).
      rewrite upT_at by nia. rewrite !div_cell by assumption. reflexivity.
  - intros j Hj. destruct (at3_cover (b * c) (h * s) (w * s) j Hj) as (k & i & jj & Hk & Hi & Hjj & ->).
    assert (c <> 0) by nia. assert (s <> 0) by lia.
    assert (D0 := Nat.div_mod k c ltac:(assumption)). assert (M0 := Nat.mod_upper_bound k c ltac:(assumption)).
    assert (D1 := Nat.div_mod i s ltac:(assumption)). assert (M1 := Nat.mod_upper_bound i s ltac:(assumption)).
    assert (D2 := Nat.div_mod jj s ltac:(assumption)). assert (M2 := Nat.mod_upper_bound jj s ltac:(assumption)).
    exists (k / c). split; [apply Nat.div_lt_upper_bound; nia|].
    exists (k mod c). split; [assumption|].
    exists (i / s). split; [apply Nat.div_lt_upper_bound; nia|].
    exists (jj / s). split; [apply Nat.div_lt_upper_bound; nia|].
    exists (i mod s). split; [assumption|]. exists (jj mod s). split; [assumption|].
    f_equal; lia.
Qed.

Lemma loop_sum n (f : nat -> option A) (v : nat -> A) a : (forall i, i < n -> f i = Some (v i)) ->
  loop n (fun i acc => match f i with Some x => Some (radd acc x) | None => None end) a = Some (radd a (sum n v)).
Proof.
  unfold loop. induction n as [|n IH]; intro H.
  - cbn [seq foldM sum]. f_equal. ring.
  - rewrite seq_S, foldM_app, IH by (intros; apply H; lia). cbn [foldM Nat.add sum]. rewrite H by lia. f_equal. ring.
Qed.

Lemma loop_sum2 n m (f : nat -> nat -> option A) (v : nat -> nat -> A) a :
  (forall i j, i < n -> j < m -> f i j = Some (v i j)) ->
  loop n (fun i => loop m (fun j acc => match f i j with Some x => Some (radd acc x) | None => None end)) a
  = Some (radd a (sum n (fun i => sum m (v i)))).
Proof.
  intro H. rewrite <- (loop_sum n (fun i => Some (sum m (v i))) (fun i => sum m (v i)) a) by reflexivity.
  unfold loop at 1 3. apply foldM_ext. intros i t Hi. apply in_seq in Hi.
  apply (loop_sum m (f i) (v i)). intros j Hj. apply H; [lia|exact Hj].
Qed.

Definition downT (s h w : nat) (g : list A) (j : nat) : A :=
  sum s (fun si => sum s (fun sj =>
    nth (at3 (h * s) (w * s) (plane3 h w j) (row3 h w j * s + si) (col3 w j * s + sj)) g r0)).

Lemma upsampleDiff_ok s b c h w g : length g = b * c * (h * s) * (w * s) ->
  upsampleDiffDo s b c h w g = Some (map (downT s h w g) (seq 0 (b * c * h * w))).
Proof.
  intros Hg. unfold upsampleDiffDo.
  set (N := b * c * h * w).
  refine (writes_all N (downT s h w g) _ _ _ _ _ (repeat_length _ _)).
  - refine (writes_loop _ _ _ _ (fun bi j => exists ci, ci < c /\ exists hi, hi < h /\ exists wi, wi < w /\
       j = at3 h w (bi * c + ci) hi wi) _).
    intros bi Hb. refine (writes_loop _ _ _ _ _ _). intros ci Hc. refine (writes_loop _ _ _ _ _ _). intros hi Hh.
    refine (writes_loop _ _ _ _ _ _). intros wi Hw.
    set (v := fun si sj => nth (at3 (h * s) (w * s) (bi * c + ci) (hi * s + si) (wi * s + sj)) g r0).
    eapply writes_ext; [|intros j Hj; exact Hj|apply (writes_aset N (downT s h w g) (at3 h w (bi * c + ci) hi wi) (radd r0 (sum s (fun i => sum s (v i)))))].
    + intro o. cbv beta.
      rewrite (loop_sum2 s s (fun sh sw => aget g (((bi * c + ci) * (h * s) + (hi * s + sh)) * (w * s) + (wi * s + sw))) v).
      * reflexivity.
      * intros i j Hi Hj. unfold aget, v. apply nth_error_nth'. rewrite Hg.
        apply (at3_lt (b * c) (h * s) (w * s)); nia.
    + apply (at3_lt (b * c) h w); nia.
    + unfold downT. destruct (at3_div h w (bi * c + ci) hi wi Hh Hw) as [-> [-> ->]]. fold v. 
      transitivity (sum s (fun i => sum s (v i))); [ring|reflexivity].
  - intros j Hj. destruct (at3_cover (b * c) h w j Hj) as (k & i & jj & Hk & Hi & Hjj & ->).
    assert (c <> 0) by nia.
    assert (D0 := Nat.div_mod k c ltac:(assumption)). assert (M0 := Nat.mod_upper_bound k c ltac:(assumption)).
    exists (k / c). split; [apply Nat.div_lt_upper_bound; nia|].
    exists (k mod c). split; [assumption|]. exists i. split; [assumption|]. exists jj. split; [assumption|].
    f_equal; lia.
Qed.

Lemma dot_seq (x : list A) N t : length x = N -> dot x (map t (seq 0 N)) = sum N (fun i => rmul (nth i x r0) (t i)).
Proof.
  intro Hx. rewrite (dot_sum x (map t (seq 0 N)) N) by (try rewrite map_length, seq_length; auto).
  apply sum_ext. intros i Hi. f_equal. apply nth_error_nth. rewrite nth_error_map, nth_seq0 by exact Hi. reflexivity.
Qed.

Lemma upsample_adjoint s b c h w x g : 1 <= s -> length x = b * c * h * w -> length g = b * c * (h * s) * (w * s) ->
  dot x (map (downT s h w g) (seq 0 (b * c * h * w))) =
  dot (map (upT s h w x) (seq 0 (b * c * (h * s) * (w * s)))) g.
Proof.
  intros Hs Hx Hg. rewrite (dot_comm (map _ _) g), !dot_seq by assumption.
  rewrite <- !Nat.mul_assoc. rewrite !(Nat.mul_assoc b c). set (n := b * c).
  rewrite (sum_prod n (h * w)), (sum_prod n (h * (s * (w * s)))). apply sum_ext. intros k Hk.
  replace (h * (s * (w * s))) with ((h * s) * (w * s)) by lia.
  rewrite (sum_prod h w), (sum_prod (h * s) (w * s)).
  rewrite (sum_prod h s). apply sum_ext. intros i Hi.
  transitivity (sum w (fun j => sum s (fun si => sum s (fun sj =>
     rmul (nth (at3 (h * s) (w * s) k (i * s + si) (j * s + sj)) g r0) (nth (at3 h w k i j) x r0))))).
  - apply sum_ext. intros j Hj.
    replace (k * (h * w) + (i * w + j)) with (at3 h w k i j) by (unfold at3; nia).
    unfold downT. destruct (at3_div h w k i j Hi Hj) as [-> [-> ->]].
    rewrite <- sum_mul_l. apply sum_ext. intros si _. rewrite <- sum_mul_l. apply sum_ext. intros sj _. ring.
  - rewrite sum_swap. apply sum_ext. intros si Hsi. rewrite (sum_prod w s). apply sum_ext. intros j Hj.
    apply sum_ext. intros sj Hsj.
    replace (k * (h * s * (w * s)) + ((i * s + si) * (w * s) + (j * s + sj)))
      with (at3 (h * s) (w * s) k (i * s + si) (j * s + sj)) by (unfold at3; nia).
    rewrite upT_at by nia. rewrite !div_cell by assumption. reflexivity.
Qed.
End Upsample.
