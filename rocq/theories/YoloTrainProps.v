(** C87: the training output of YOLOv3. *)
From Coq Require Import List ZArith QArith Bool Arith Lia Field Lqa.
From Verif Require Import BroadcastModel ShapeGradModel YoloModel YoloSpec YoloProofs YoloProps.
Import ListNotations.
Local Open Scope nat_scope.

(** ** Overlap *)
Lemma filter_prod : forall (f g : Z -> bool) l l', length (filter (fun p => f (fst p) && g (snd p)) (list_prod l l')) = length (filter f l) * length (filter g l').
Proof.
  intros f g l l'. induction l as [|a l IH]; [reflexivity|]. cbn [list_prod filter]. rewrite filter_app, app_length, IH.
  assert (X : length (filter (fun p => f (fst p) && g (snd p)) (map (fun y => (a, y)) l')) = if f a then length (filter g l') else 0).
  { clear IH. induction l' as [|b l' IH']; [destruct (f a); reflexivity|]. cbn [map filter fst snd]. destruct (f a) eqn:Fa; cbn [andb].
    - destruct (g b); cbn [length]; rewrite IH'; reflexivity.
    - exact IH'. }
  rewrite X. destruct (f a); cbn [length]; lia.
Qed.
Lemma filter_range : forall lo n a c, (lo <= a -> a <= c -> c <= lo + Z.of_nat n ->
  Z.of_nat (length (filter (fun z => (a <=? z) && (z <? c)) (map (fun k => lo + Z.of_nat k) (seq 0 n)))) = c - a)%Z.
Proof.
  intros lo n a c Ha Hac Hc.
  assert (G : forall m, (Z.of_nat (length (filter (fun z => (a <=? z) && (z <? c)) (map (fun k => lo + Z.of_nat k) (seq 0 m)))) = Z.max 0 (Z.min c (lo + Z.of_nat m) - a))%Z).
  { induction m. { cbn [seq map filter length]. lia. }
    rewrite seq_S, map_app, filter_app, app_length, Nat2Z.inj_add, IHm. cbn [map filter Nat.add].
    destruct (Z.leb_spec a (lo + Z.of_nat m)) as [X|X]; destruct (Z.ltb_spec (lo + Z.of_nat m) c) as [Y|Y]; cbn [andb length]; lia. }
  rewrite G. lia.
Qed.
Lemma count_rect : forall lo n a b c d, (lo <= a -> a <= c -> c <= lo + Z.of_nat n -> lo <= b -> b <= d -> d <= lo + Z.of_nat n ->
  count (inside a b c d) (pixels lo n) = (c - a) * (d - b))%Z.
Proof.
  intros lo n a b c d A1 A2 A3 B1 B2 B3. unfold count, pixels.
  rewrite (filter_ext _ (fun p => (fun z => (a <=? z) && (z <? c))%Z (fst p) && (fun z => (b <=? z) && (z <? d))%Z (snd p))).
  - rewrite (filter_prod (fun z => (a <=? z) && (z <? c))%Z (fun z => (b <=? z) && (z <? d))%Z), Nat2Z.inj_mul, !filter_range by assumption. reflexivity.
  - intros [x y]. unfold inside. cbn [fst snd]. rewrite <- !andb_assoc. reflexivity.
Qed.
Lemma count_either : forall (f g : Z * Z -> bool) l, (count (fun p => f p || g p) l = count f l + count g l - count (fun p => f p && g p) l)%Z.
Proof.
  intros f g l. unfold count. induction l as [|p l IH]; [reflexivity|]. cbn [filter]. destruct (f p), (g p); cbn [orb andb length]; rewrite ?Nat2Z.inj_succ; lia.
Qed.
Lemma count_none : forall (f : Z * Z -> bool) l, (forall p, f p = false) -> count f l = 0%Z.
Proof. intros f l H. unfold count. rewrite (filter_ext _ (fun _ => false)) by exact H. induction l; [reflexivity|exact IHl]. Qed.

(** A rectangle with its corners in order, and within a square of pixels. *)
Definition proper (r : rect) : Prop := (x0 r <= x1 r /\ y0 r <= y1 r)%Z.
Definition within (lo : Z) (n : nat) (r : rect) : Prop := (lo <= x0 r /\ lo <= y0 r /\ x1 r <= lo + Z.of_nat n /\ y1 r <= lo + Z.of_nat n)%Z.
Definition insideR (r : rect) : Z * Z -> bool := inside (x0 r) (y0 r) (x1 r) (y1 r).

Lemma intersect_count : forall r s lo n, proper r -> proper s -> within lo n r -> within lo n s ->
  count (fun p => insideR r p && insideR s p) (pixels lo n) = (dx (intersect r s) * dy (intersect r s))%Z.
Proof.
  intros r s lo n (Rx & Ry) (Sx & Sy) (R1 & R2 & R3 & R4) (S1 & S2 & S3 & S4).
  assert (B : forall p, insideR r p && insideR s p = inside (Z.max (x0 r) (x0 s)) (Z.max (y0 r) (y0 s)) (Z.min (x1 r) (x1 s)) (Z.min (y1 r) (y1 s)) p).
  { intros [x y]. unfold insideR, inside. cbn [fst snd]. apply eq_true_iff_eq. rewrite !andb_true_iff, !Z.leb_le, !Z.ltb_lt. lia. }
  unfold intersect, emptyR. cbn [x0 y0 x1 y1].
  destruct (Z.leb_spec (Z.min (x1 r) (x1 s)) (Z.max (x0 r) (x0 s))) as [X|X]; cbn [orb].
  { rewrite count_none; [reflexivity|]. intro p. rewrite B. destruct p as [x y]. unfold inside. cbn [fst snd]. apply not_true_iff_false. rewrite !andb_true_iff, !Z.leb_le, !Z.ltb_lt. lia. }
  destruct (Z.leb_spec (Z.min (y1 r) (y1 s)) (Z.max (y0 r) (y0 s))) as [Y|Y].
  { rewrite count_none; [reflexivity|]. intro p. rewrite B. destruct p as [x y]. unfold inside. cbn [fst snd]. apply not_true_iff_false. rewrite !andb_true_iff, !Z.leb_le, !Z.ltb_lt. lia. }
  unfold dx, dy. cbn [x0 y0 x1 y1]. unfold count. rewrite (filter_ext _ _ B). apply count_rect; lia.
Qed.

(** The overlap of two rectangles is the number of pixels in both over the number of
    pixels in one of them; without pixels it is a NaN. *)
Theorem C87_overlap : forall r s lo n, proper r -> proper s -> within lo n r -> within lo n s ->
  let both := count (fun p => insideR r p && insideR s p) (pixels lo n) in
  let either := count (fun p => insideR r p || insideR s p) (pixels lo n) in
  iou r s = if (either =? 0)%Z then None else Some (inject_Z both / inject_Z either)%Q.
Proof.
  intros r s lo n Pr Ps Wr Ws both either.
  assert (E : either = (dx r * dy r + dx s * dy s - both)%Z).
  { unfold either, both. rewrite count_either. f_equal. f_equal.
    - apply count_rect; destruct Pr, Wr as (? & ? & ? & ?); lia.
    - apply count_rect; destruct Ps, Ws as (? & ? & ? & ?); lia. }
  unfold iou. rewrite <- (intersect_count r s lo n Pr Ps Wr Ws). fold both. rewrite <- E. reflexivity.
Qed.
Print Assumptions C87_overlap.
Example C87_ex_overlap : proper (Rc 0 0 4 2) /\ within 0 6 (Rc 0 0 4 2) /\ within 0 6 (Rc 2 1 6 3) /\
  iou (Rc 0 0 4 2) (Rc 2 1 6 3) = Some (2 / 14)%Q /\ iou (Rc 1 1 1 1) (Rc 0 0 0 5) = None.
Proof. repeat split; try discriminate; reflexivity. Qed.

(** Every rectangle compared is proper, so the overlap is a fraction between 0 and 1. *)
Lemma rectify_proper : forall x y h w img, proper (rectifyBox x y h w img).
Proof. intros. unfold rectifyBox, mkRect, proper. cbn [x0 x1 y0 y1]. lia. Qed.
Lemma iou_range : forall r s q, proper r -> proper s -> iou r s = Some q -> (0 <= q /\ q <= 1)%Q.
Proof.
  intros r s q Pr Ps E.
  set (lo := Z.min (Z.min (x0 r) (y0 r)) (Z.min (x0 s) (y0 s))). set (n := Z.to_nat (Z.max (Z.max (x1 r) (y1 r)) (Z.max (x1 s) (y1 s)) - lo)).
  assert (Wr : within lo n r) by (destruct Pr; unfold within, n, lo; lia). assert (Ws : within lo n s) by (destruct Ps; unfold within, n, lo; lia).
  rewrite (C87_overlap r s lo n Pr Ps Wr Ws) in E. cbv zeta in E.
  set (both := count (fun p => insideR r p && insideR s p) (pixels lo n)) in *. set (either := count (fun p => insideR r p || insideR s p) (pixels lo n)) in *.
  destruct (Z.eqb_spec either 0) as [X|X]; [discriminate E|]. injection E as <-.
  assert (B0 : (0 <= both)%Z) by (unfold both, count; lia).
  assert (L : (both <= either)%Z).
  { unfold both, either, count. clear. induction (pixels lo n) as [|p l IH]; [cbn; lia|]. cbn [filter]. destruct (insideR r p), (insideR s p); cbn [andb orb length]; lia. }
  assert (P : (0 < inject_Z either)%Q) by (change 0%Q with (inject_Z 0); rewrite <- Zlt_Qlt; lia).
  split.
  - apply Qle_shift_div_l; [exact P|]. rewrite Qmult_0_l. change 0%Q with (inject_Z 0). rewrite <- Zle_Qle. exact B0.
  - apply Qle_shift_div_r; [exact P|]. rewrite Qmult_1_l. rewrite <- Zle_Qle. exact L.
Qed.

(** The sides of a box are taken for one another: the numbers 2 and 3 of a box are width
    and height (C86), and the rectangle is made with height and width. *)
Definition rectOf (x y width height : Q) (img : nat) : rect :=
  mkRect (Z.max (trunc (x - width / 2)) 0) (Z.max (trunc (y - height / 2)) 0)
         (Z.min (trunc (x + width / 2 + 1)) (Z.of_nat img)) (Z.min (trunc (y + height / 2 + 1)) (Z.of_nat img)).
Theorem C87_sides_swapped : forall l i img,
  boxRect l i img = rectOf (at0 l i) (at0 l (i + 1)) (at0 l (i + 3)) (at0 l (i + 2)) img.
Proof. reflexivity. Qed.
Print Assumptions C87_sides_swapped.
(** It matters: boxes of width 20 and height 4 side by side overlap by a third, and the
    operator finds nothing. *)
Theorem C87_overlap_refuted :
  ~ (forall b target img, (0 < img)%nat ->
     fst (bestIOU (boxRect b 0 img) target img) =
     fst (bestIOU (rectOf (at0 b 0) (at0 b 1) (at0 b 2) (at0 b 3) img)
                  [at0 target 0; at0 target 1; at0 target 2; at0 target 4; at0 target 3] img)).
Proof.
  intro H. specialize (H [30; 50; 19; 3; 1]%Q [0; 4 # 10; 5 # 10; 19 # 100; 3 # 100]%Q 100 ltac:(lia)). vm_compute in H. discriminate H.
Qed.
Print Assumptions C87_overlap_refuted.
Example C87_ex_overlap_numbers :
  map Qred [fst (bestIOU (boxRect [30; 50; 19; 3; 1]%Q 0 100) [0; 4 # 10; 5 # 10; 19 # 100; 3 # 100]%Q 100);
            fst (bestIOU (rectOf 30 50 19 3 100) [0; 4 # 10; 5 # 10; 3 # 100; 19 # 100]%Q 100)] = [0; 1 # 3]%Q.
Proof. vm_compute. reflexivity. Qed.

(** ** The best target of a box *)
Theorem C87_best_target : forall r target img, proper r ->
  let n := length target / 5 in let q := fst (bestIOU r target img) in let j := snd (bestIOU r target img) in
  let over k := iou r (targetRect target (k * 5) img) in
  (0 <= q /\ q <= 1)%Q /\ (forall k p, k < n -> over k = Some p -> (p <= q)%Q) /\
  ((j = -1)%Z /\ q = 0%Q \/
   exists k, k < n /\ j = Z.of_nat k /\ over k = Some q /\ (0 < q)%Q /\ forall k' p, k' < k -> over k' = Some p -> (p < q)%Q).
Proof.
  intros r target img Pr. cbv zeta. unfold bestIOU. generalize (length target / 5) as n.
  induction n as [|n IH].
  { cbn [seq fold_left fst snd]. split; [lra|]. split; [intros; lia|]. left. split; reflexivity. }
  rewrite seq_S, fold_left_app. cbn [fold_left Nat.add]. set (acc := fold_left _ (seq 0 n) _) in *.
  destruct IH as (Rg & Ub & W).
  destruct (iou r (targetRect target (n * 5) img)) as [p|] eqn:E.
  - pose proof (iou_range r _ p Pr (rectify_proper _ _ _ _ _) E) as Rp.
    destruct (Qle_bool p (fst acc)) eqn:Q; cbn [negb].
    + apply Qle_bool_iff in Q. split; [exact Rg|]. split.
      * intros k p' Hk E'. destruct (Nat.eq_dec k n) as [->|]; [rewrite E in E'; injection E' as <-; exact Q|]. apply (Ub k); [lia|exact E'].
      * destruct W as [W|(k & Hk & W)]; [left; exact W|]. right. exists k. split; [lia|exact W].
    + assert (Q' : (fst acc < p)%Q). { apply Qnot_le_lt. intro X. apply Qle_bool_iff in X. rewrite X in Q. discriminate Q. }
      cbn [fst snd]. split; [exact Rp|]. split.
      * intros k p' Hk E'. destruct (Nat.eq_dec k n) as [->|]; [rewrite E in E'; injection E' as <-; apply Qle_refl|].
        apply Qlt_le_weak. eapply Qle_lt_trans; [apply (Ub k); [lia|exact E']|exact Q'].
      * right. exists n. split; [lia|]. split; [reflexivity|]. split; [exact E|]. split; [eapply Qle_lt_trans; [apply Rg|exact Q']|].
        intros k' p' Hk' E'. eapply Qle_lt_trans; [apply (Ub k'); [lia|exact E']|exact Q'].
  - split; [exact Rg|]. split.
    + intros k p' Hk E'. destruct (Nat.eq_dec k n) as [->|]; [rewrite E in E'; discriminate E'|]. apply (Ub k); [lia|exact E'].
    + destruct W as [W|(k & Hk & W)]; [left; exact W|]. right. exists k. split; [lia|exact W].
Qed.
Print Assumptions C87_best_target.
Example C87_ex_best : let t := [0; 1 # 10; 1 # 10; 1 # 10; 1 # 10; 3; 5 # 10; 5 # 10; 2 # 10; 2 # 10]%Q in
  snd (bestIOU (boxRect [50; 48; 20; 20; 1]%Q 0 100) t 100) = 1%Z /\ snd (bestIOU (boxRect [90; 90; 5; 5; 1]%Q 0 100) t 100) = (-1)%Z.
Proof. vm_compute. split; reflexivity. Qed.

(** ** Where the loss is written *)
Lemma setL_ok : forall l i v, i < length l -> exists l', setL l i v = Some l' /\ length l' = length l /\
  forall k, at0 l' k = if Nat.eqb k i then v else at0 l k.
Proof.
  induction l as [|a l IH]; intros i v H; [cbn in H; lia|]. destruct i.
  - eexists. split; [reflexivity|]. split; [reflexivity|]. intro k. destruct k; reflexivity.
  - cbn in H. destruct (IH i v ltac:(lia)) as (l' & E & L & V). cbn [setL]. rewrite E. eexists. split; [reflexivity|]. split; [cbn; lia|].
    intro k. destruct k; [reflexivity|]. exact (V k).
Qed.
Lemma setL_bad : forall l i v, length l <= i -> setL l i v = None.
Proof. induction l as [|a l IH]; intros i v H; [reflexivity|]. destruct i; cbn in H; [lia|]. cbn [setL]. rewrite IH by lia. reflexivity. Qed.
Lemma nth_map_seq : forall (f : nat -> Q) n k, k < n -> nth k (map f (seq 0 n)) 0%Q = f k.
Proof. intros f n k H. rewrite (nth_indep _ 0%Q (f 0)) by (rewrite map_length, seq_length; exact H). rewrite map_nth, seq_nth by exact H. reflexivity. Qed.
(** The value last written at [k]. *)
Definition lastw (w : list (nat * Q)) (k : nat) (d : Q) : Q := fold_left (fun acc p => if Nat.eqb k (fst p) then snd p else acc) w d.
Lemma setAll_ok : forall w l, Forall (fun p => fst p < length l) w -> exists l', setAll l w = Some l' /\ length l' = length l /\
  forall k, at0 l' k = lastw w k (at0 l k).
Proof.
  induction w as [|[i v] w IH]; intros l F; [eexists; split; [reflexivity|]; split; reflexivity|].
  pose proof (Forall_inv F) as F0. cbn [fst] in F0. destruct (setL_ok l i v F0) as (l1 & E & L & V). cbn [setAll]. rewrite E.
  destruct (IH l1) as (l' & E' & L' & V'). { rewrite L. exact (Forall_inv_tail F). }
  exists l'. split; [exact E'|]. split; [lia|]. intro k. rewrite V', V. reflexivity.
Qed.
Lemma setAll_len : forall w l l', setAll l w = Some l' -> length l' = length l /\ Forall (fun p => fst p < length l) w.
Proof.
  induction w as [|[i v] w IH]; intros l l' E; cbn [setAll] in E; [injection E as <-; split; [reflexivity|constructor]|].
  destruct (le_lt_dec (length l) i) as [X|X]; [rewrite setL_bad in E by exact X; discriminate E|].
  destruct (setL_ok l i v X) as (l1 & E1 & L & _). rewrite E1 in E. destruct (IH _ _ E) as (L' & F). rewrite L in L', F. split; [lia|]. constructor; [exact X|exact F].
Qed.
Lemma lastw_none : forall w k d, Forall (fun p => fst p <> k) w -> lastw w k d = d.
Proof. induction w as [|[i v] w IH]; intros k d F; [reflexivity|]. unfold lastw. cbn [fold_left fst snd]. pose proof (Forall_inv F) as F0. cbn [fst] in F0. replace (Nat.eqb k i) with false by (symmetry; apply Nat.eqb_neq; congruence). apply IH. exact (Forall_inv_tail F). Qed.

Section Loss.
Variable lg : Q -> Q.
Notation TW := (targetWrites lg).

Lemma writes_range : forall input boxes target an nc grid i n gi gj idx,
  Forall (fun p => idx <= fst p < idx + (5 + nc)) (TW input boxes target an nc grid i n gi gj idx).
Proof.
  intros. unfold targetWrites. repeat (constructor; [cbn [fst]; lia|]). apply Forall_forall. intros p H. apply in_map_iff in H. destruct H as (j & <- & H). apply in_seq in H. cbn [fst]. lia.
Qed.
Lemma lastw_app : forall w1 w2 k d, lastw (w1 ++ w2) k d = lastw w2 k (lastw w1 k d).
Proof. intros. unfold lastw. apply fold_left_app. Qed.
Lemma writes_class : forall input boxes target an nc grid i n gi gj idx j d, j < nc ->
  lastw (TW input boxes target an nc grid i n gi gj idx) (idx + 5 + j) d = bceLoss lg (Z.of_nat j =? trunc (at0 target i))%Z (at0 boxes (idx + 4)).
Proof.
  intros input boxes target an nc grid i n gi gj idx j d Hj. unfold targetWrites. rewrite lastw_app.
  rewrite (lastw_none [_; _; _; _; _]) by (repeat (constructor; [cbn [fst]; lia|]); constructor).
  generalize d. induction nc as [|nc IH]; [lia|]. intro d0. rewrite seq_S, map_app, lastw_app. cbn [map Nat.add].
  destruct (Nat.eq_dec j nc) as [->|N].
  - unfold lastw at 1. cbn [fold_left fst snd]. rewrite Nat.eqb_refl. reflexivity.
  - rewrite (lastw_none [_]) by (repeat (constructor; [cbn [fst]; lia|]); constructor). apply IH. lia.
Qed.
Lemma writes_first : forall input boxes target an nc grid i n gi gj idx j d, j < 5 ->
  lastw (TW input boxes target an nc grid i n gi gj idx) (idx + j) d =
  let scale := (2 - at0 target (i * 5 + 3) * at0 target (i * 5 + 4))%Q in
  match j with
  | 0 => mseLoss (invsigm lg (at0 target (i * 5 + 1) * qn grid - inject_Z gi)) (at0 input idx) scale
  | 1 => mseLoss (invsigm lg (at0 target (i * 5 + 2) * qn grid - inject_Z gj)) (at0 input (idx + 1)) scale
  | 2 => mseLoss (lg (at0 target (i * 5 + 3) / at0 an n + eps16)) (at0 input (idx + 2)) scale
  | 3 => mseLoss (lg (at0 target (i * 5 + 4) / at0 an (n + 1) + eps16)) (at0 input (idx + 3)) scale
  | _ => bceLoss lg true (at0 boxes (idx + 4))
  end.
Proof.
  intros input boxes target an nc grid i n gi gj idx j d Hj. unfold targetWrites. rewrite lastw_app.
  rewrite (lastw_none (map _ _)).
  2:{ apply Forall_forall. intros p H. apply in_map_iff in H. destruct H as (m & <- & H). apply in_seq in H. cbn [fst]. lia. }
  unfold lastw. cbn [fold_left fst snd]. cbv zeta.
  assert (T : forall a b, Nat.eqb (idx + a) (idx + b) = Nat.eqb a b). { intros a b. destruct (Nat.eqb_spec a b) as [->|X]; [apply Nat.eqb_refl|apply Nat.eqb_neq; lia]. }
  assert (T0 : forall a, Nat.eqb (idx + a) idx = Nat.eqb a 0). { intros a. destruct (Nat.eqb_spec a 0) as [->|X]; [rewrite Nat.add_0_r; apply Nat.eqb_refl|apply Nat.eqb_neq; lia]. }
  rewrite T0, !T. do 5 (destruct j; [reflexivity|]). lia.
Qed.

(** The place target [i] is written at, when its anchor is among the masks. *)
Definition place (target an : list Q) (ms : list Z) (img grid i : nat) : option Z :=
  match bestAnchors target (i * 5) an ms img grid with
  | None => None
  | Some (n, gi, gj) => Some (gj * Z.of_nat (grid * length ms) + gi * Z.of_nat (length ms) + Z.of_nat n)%Z
  end.

Lemma writeTarget_place : forall input boxes target an ms nc img grid out i out', writeTarget lg input boxes target an ms nc img grid out i = Some out' ->
  length out' = length out /\ forall k, (forall p, place target an ms img grid i = Some p -> ~ (p <= Z.of_nat k < p + Z.of_nat (5 + nc))%Z) -> at0 out' k = at0 out k.
Proof.
  intros input boxes target an ms nc img grid out i out' E. unfold writeTarget, place in *.
  destruct (bestAnchors target (i * 5) an ms img grid) as [[[n gi] gj]|]; [|injection E as <-; split; [reflexivity|intros; reflexivity]].
  set (idx := (gj * Z.of_nat (grid * length ms) + gi * Z.of_nat (length ms) + Z.of_nat n)%Z) in *.
  destruct (Z.ltb_spec idx 0) as [X|X]; [discriminate E|]. destruct (setAll_len _ _ _ E) as (L & F).
  destruct (setAll_ok _ _ F) as (o & Eo & _ & V). rewrite Eo in E. injection E as <-. split; [exact L|].
  intros k H. rewrite V. apply lastw_none. eapply Forall_impl; [|apply writes_range]. cbv beta. intros p Hp Eq. apply (H idx eq_refl). lia.
Qed.

(** Away from the places of the targets the output is the loss of no object for boxes that
    overlap no target by more than the threshold, and 0. *)
Theorem C87_elsewhere : forall input boxes target an ms nc img grid thresh out,
  prepareOutput lg input boxes target an ms nc img grid thresh = Some out ->
  length out = length boxes /\
  forall k, k < length boxes ->
    (forall i p, i < length target / 5 -> place target an ms img grid i = Some p -> ~ (p <= Z.of_nat k < p + Z.of_nat (5 + nc))%Z) ->
    at0 out k = if Nat.eqb (k mod (5 + nc)) 4 && Qle_bool (fst (bestIOU (boxRect boxes (k - 4) img) target img)) thresh
                then bceLoss lg false (at0 boxes k) else 0%Q.
Proof.
  intros input boxes target an ms nc img grid thresh out E. unfold prepareOutput in E.
  destruct (negb (Nat.eqb (length target mod 5) 0) || negb (Nat.eqb (length an mod 2) 0)); [discriminate E|].
  assert (G : forall is o o', writeTargets lg input boxes target an ms nc img grid o is = Some o' ->
    length o' = length o /\ forall k, (forall i p, In i is -> place target an ms img grid i = Some p -> ~ (p <= Z.of_nat k < p + Z.of_nat (5 + nc))%Z) -> at0 o' k = at0 o k).
  { induction is as [|i is IH]; intros o o' W; cbn [writeTargets] in W; [injection W as <-; split; [reflexivity|intros; reflexivity]|].
    destruct (writeTarget lg input boxes target an ms nc img grid o i) as [o1|] eqn:W1; [|discriminate W].
    destruct (writeTarget_place _ _ _ _ _ _ _ _ _ _ _ W1) as (L1 & V1). destruct (IH _ _ W) as (L & V). split; [lia|].
    intros k H. rewrite V by (intros i' p I; apply H; right; exact I). apply V1. intros p. apply H. left. reflexivity. }
  destruct (G _ _ _ E) as (L & V). unfold noObject in L. rewrite map_length, seq_length in L. split; [exact L|].
  intros k Hk H. rewrite V by (intros i p I; apply H; apply in_seq in I; lia). unfold at0 at 1.
  unfold noObject. rewrite nth_map_seq by exact Hk. reflexivity.
Qed.

(** The last target: everything it writes, from its place on, for its box in the cell
    (gi, gj) and the [n]-th mask. *)
Theorem C87_last_target : forall input boxes target an ms nc img grid thresh out i n gi gj,
  prepareOutput lg input boxes target an ms nc img grid thresh = Some out ->
  S i = length target / 5 -> bestAnchors target (i * 5) an ms img grid = Some (n, gi, gj) ->
  exists p, Z.of_nat p = (gj * Z.of_nat (grid * length ms) + gi * Z.of_nat (length ms) + Z.of_nat n)%Z /\ p + 5 + nc <= length boxes /\
    (let scale := (2 - at0 target (i * 5 + 3) * at0 target (i * 5 + 4))%Q in
     at0 out p = mseLoss (invsigm lg (at0 target (i * 5 + 1) * qn grid - inject_Z gi)) (at0 input p) scale /\
     at0 out (p + 1) = mseLoss (invsigm lg (at0 target (i * 5 + 2) * qn grid - inject_Z gj)) (at0 input (p + 1)) scale /\
     at0 out (p + 2) = mseLoss (lg (at0 target (i * 5 + 3) / at0 an n + eps16)) (at0 input (p + 2)) scale /\
     at0 out (p + 3) = mseLoss (lg (at0 target (i * 5 + 4) / at0 an (n + 1) + eps16)) (at0 input (p + 3)) scale) /\
    at0 out (p + 4) = bceLoss lg true (at0 boxes (p + 4)) /\
    forall j, j < nc -> at0 out (p + 5 + j) = bceLoss lg (Z.of_nat j =? trunc (at0 target i))%Z (at0 boxes (p + 4)).
Proof.
  intros input boxes target an ms nc img grid thresh out i n gi gj E Hi B. unfold prepareOutput in E.
  destruct (negb (Nat.eqb (length target mod 5) 0) || negb (Nat.eqb (length an mod 2) 0)); [discriminate E|].
  rewrite <- Hi, seq_S in E. cbn [Nat.add] in E.
  assert (G : forall is o o', writeTargets lg input boxes target an ms nc img grid o (is ++ [i]) = Some o' ->
    exists o1, length o1 = length o /\ writeTarget lg input boxes target an ms nc img grid o1 i = Some o').
  { induction is as [|k is IH]; intros o o' W; cbn [app writeTargets] in W.
    - exists o. split; [reflexivity|]. destruct (writeTarget lg input boxes target an ms nc img grid o i) as [o2|]; [exact W|discriminate W].
    - destruct (writeTarget lg input boxes target an ms nc img grid o k) as [o2|] eqn:W1; [|discriminate W].
      destruct (writeTarget_place _ _ _ _ _ _ _ _ _ _ _ W1) as (L1 & _). destruct (IH _ _ W) as (o1 & L & V). exists o1. split; [lia|exact V]. }
  destruct (G _ _ _ E) as (o1 & L & W). unfold noObject in L. rewrite map_length, seq_length in L.
  unfold writeTarget in W. rewrite B in W. set (idx := (gj * Z.of_nat (grid * length ms) + gi * Z.of_nat (length ms) + Z.of_nat n)%Z) in *.
  destruct (Z.ltb_spec idx 0) as [X|X]; [discriminate W|]. exists (Z.to_nat idx). split; [lia|].
  destruct (setAll_len _ _ _ W) as (L2 & F). destruct (setAll_ok _ _ F) as (o & Eo & _ & V). rewrite Eo in W. injection W as <-.
  assert (Bd : Z.to_nat idx + 5 + nc <= length boxes).
  { rewrite <- L. destruct nc as [|m].
    - rewrite Forall_forall in F. specialize (F (Z.to_nat idx + 4, bceLoss lg true (at0 boxes (Z.to_nat idx + 4)))). cbn [fst] in F.
      assert (Z.to_nat idx + 4 < length o1); [|lia]. apply F. unfold targetWrites. cbn [app]. do 4 right. left. reflexivity.
    - rewrite Forall_forall in F. assert (Z.to_nat idx + 5 + m < length o1); [|lia].
      specialize (F (Z.to_nat idx + 5 + m, bceLoss lg (Z.of_nat m =? trunc (at0 target i))%Z (at0 boxes (Z.to_nat idx + 4)))). cbn [fst] in F. apply F.
      unfold targetWrites. apply in_or_app. right. apply in_map_iff. exists m. split; [reflexivity|]. apply in_seq. lia. }
  split; [exact Bd|]. rewrite !V.
  assert (P0 : Z.to_nat idx = Z.to_nat idx + 0) by lia.
  split; [cbv zeta; repeat split; [rewrite P0 at 2; rewrite (writes_first _ _ _ _ _ _ _ _ _ _ _ 0); [reflexivity|lia]
    |rewrite (writes_first _ _ _ _ _ _ _ _ _ _ _ 1); [reflexivity|lia]|rewrite (writes_first _ _ _ _ _ _ _ _ _ _ _ 2); [reflexivity|lia]|rewrite (writes_first _ _ _ _ _ _ _ _ _ _ _ 3); [reflexivity|lia]]|].
  split; [rewrite (writes_first _ _ _ _ _ _ _ _ _ _ _ 4); [reflexivity|lia]|].
  intros j Hj. rewrite V. apply writes_class. exact Hj.
Qed.

(** The raw numbers the output depends on: four from the place of each target, not from
    its row. *)
Theorem C87_read : forall input input' boxes target an ms nc img grid thresh,
  (forall i p j, i < length target / 5 -> place target an ms img grid i = Some p -> j < 4 -> (0 <= p)%Z -> at0 input (Z.to_nat p + j) = at0 input' (Z.to_nat p + j)) ->
  prepareOutput lg input boxes target an ms nc img grid thresh = prepareOutput lg input' boxes target an ms nc img grid thresh.
Proof.
  intros input input' boxes target an ms nc img grid thresh H. unfold prepareOutput.
  destruct (negb (Nat.eqb (length target mod 5) 0) || negb (Nat.eqb (length an mod 2) 0)); [reflexivity|].
  assert (G : forall is o, (forall i, In i is -> i < length target / 5) -> writeTargets lg input boxes target an ms nc img grid o is = writeTargets lg input' boxes target an ms nc img grid o is).
  { induction is as [|i is IH]; intros o I; [reflexivity|]. cbn [writeTargets].
    assert (W : writeTarget lg input boxes target an ms nc img grid o i = writeTarget lg input' boxes target an ms nc img grid o i).
    { pose proof (fun p j => H i p j (I i (or_introl eq_refl))) as Hi. unfold place in Hi. unfold writeTarget. destruct (bestAnchors target (i * 5) an ms img grid) as [[[n gi] gj]|]; [|reflexivity].
      set (idx := (gj * Z.of_nat (grid * length ms) + gi * Z.of_nat (length ms) + Z.of_nat n)%Z) in *.
      destruct (Z.ltb_spec idx 0) as [X|X]; [reflexivity|]. f_equal. unfold targetWrites. f_equal.
      pose proof (Hi idx 0 eq_refl ltac:(lia) X) as H0. rewrite Nat.add_0_r in H0.
      rewrite H0, (Hi idx 1 eq_refl ltac:(lia) X), (Hi idx 2 eq_refl ltac:(lia) X), (Hi idx 3 eq_refl ltac:(lia) X). reflexivity. }
    rewrite W. destruct (writeTarget lg input' boxes target an ms nc img grid o i); [|reflexivity]. apply IH. intros k K. apply I. right. exact K. }
  apply G. intros i I. apply in_seq in I. lia.
Qed.
(** So with one target whose box is not the first, the raw numbers of that box (its row
    begins at p times the numbers of a box) do not matter. *)
Theorem C87_own_box_ignored : forall input input' boxes target an ms nc img grid thresh p,
  length target = 5 -> place target an ms img grid 0 = Some (Z.of_nat p) -> 0 < p ->
  (forall k, (k < p * (5 + nc) \/ p * (5 + nc) + 4 <= k) -> at0 input k = at0 input' k) ->
  prepareOutput lg input boxes target an ms nc img grid thresh = prepareOutput lg input' boxes target an ms nc img grid thresh.
Proof.
  intros input input' boxes target an ms nc img grid thresh p L P P0 H. apply C87_read. intros i q j Hi Q Hj Hq.
  rewrite L in Hi. change (5 / 5) with 1 in Hi. assert (i = 0) as -> by lia. rewrite P in Q. injection Q as <-. rewrite Nat2Z.id. apply H. left. nia.
Qed.
(** The class of the second of two targets is taken from the first target's column: with
    coordinates in the unit interval it is always class 0. *)
Theorem C87_second_class : forall input boxes target an ms nc img grid thresh out n gi gj,
  prepareOutput lg input boxes target an ms nc img grid thresh = Some out ->
  length target = 10 -> (0 <= at0 target 1 /\ at0 target 1 < 1)%Q -> bestAnchors target 5 an ms img grid = Some (n, gi, gj) ->
  exists p, Z.of_nat p = (gj * Z.of_nat (grid * length ms) + gi * Z.of_nat (length ms) + Z.of_nat n)%Z /\
    forall j, j < nc -> at0 out (p + 5 + j) = bceLoss lg (Nat.eqb j 0) (at0 boxes (p + 4)).
Proof.
  intros input boxes target an ms nc img grid thresh out n gi gj E L (U0 & U1) B.
  destruct (C87_last_target _ _ _ _ _ _ _ _ _ _ 1 n gi gj E ltac:(rewrite L; reflexivity) B) as (p & P & _ & _ & _ & C).
  exists p. split; [exact P|]. intros j Hj. rewrite (C j Hj).
  assert (T : trunc (at0 target 1) = 0%Z).
  { unfold trunc. apply Z.quot_small. unfold Qle in U0. unfold Qlt in U1. cbn in U0, U1. lia. }
  rewrite T. destruct j; reflexivity.
Qed.
End Loss.
Print Assumptions C87_elsewhere.
Print Assumptions C87_last_target.
Print Assumptions C87_read.
Print Assumptions C87_own_box_ignored.
Print Assumptions C87_second_class.

(** One anchor, three classes, a grid of 2 by 2 of 32 pixels; a target of class 2 in the
    last cell. Its row is 3, which begins at 24; the loss is written from 3 on. *)
Definition exTarget := [2; 3 # 4; 3 # 4; 5 # 32; 5 # 32]%Q.
Definition exBoxes := map (fun k => inject_Z (Z.of_nat k) / 10)%Q (seq 0 32).
Definition exLg (q : Q) : Q := (q - 1)%Q.
Example C87_ex_place : place exTarget [10; 13]%Q [0]%Z 32 2 0 = Some 3%Z /\
  exists out, prepareOutput exLg exBoxes exBoxes exTarget [10; 13]%Q [0]%Z 3 32 2 (1 # 2) = Some out /\
  map (fun k => negb (Qeq_bool (at0 out k) 0)) (seq 0 32) =
    [false; false; false; true; true; true; true; true; true; true; true; false; true; false; false; false;
     false; false; false; false; true; false; false; false; false; false; false; false; true; false; false; false].
Proof. split; [vm_compute; reflexivity|]. eexists. split; vm_compute; reflexivity. Qed.
Example C87_ex_second : let t := exTarget ++ [2; 1 # 4; 3 # 4; 5 # 32; 5 # 32]%Q in
  bestAnchors t 5 [10; 13]%Q [0]%Z 32 2 = Some (0, 0%Z, 1%Z) /\
  exists out, prepareOutput exLg exBoxes exBoxes t [10; 13]%Q [0]%Z 3 32 2 (1 # 2) = Some out /\
  map (fun k => Qred (at0 out k)) (seq 7 3) = map (fun j => Qred (bceLoss exLg (Nat.eqb j 0) (at0 exBoxes 6))) (seq 0 3).
Proof. split; [vm_compute; reflexivity|]. eexists. split; vm_compute; reflexivity. Qed.

(** ** The boxes decoded in training *)
Lemma dropChannel_at : forall t C H W k, ysh t = [1; S C; H; W] -> k < C * H * W -> ysh (dropChannel t) = [1; C; H; W] /\ ydat (dropChannel t) k = ydat t k.
Proof.
  intros t C H W k E Hk. unfold dropChannel. rewrite E. cbn [ysh ydat]. replace (S C - 1) with C by lia. split; [reflexivity|].
  rewrite Nat.div_small, Nat.mod_small by exact Hk. reflexivity.
Qed.
Lemma moved_lt : forall G A attrs k, k < attrs * A * (G * G) -> moved G A attrs k < attrs * A * (G * G).
Proof.
  intros G A attrs k H. unfold moved. rewrite Nat.div_small by exact H. assert (0 < attrs * A) by (destruct (attrs * A); lia). assert (0 < G * G) by (destruct (G * G); lia).
  pose proof (Nat.mod_upper_bound k (attrs * A) ltac:(lia)). pose proof (Nat.mod_upper_bound (k / (attrs * A)) (G * G) ltac:(lia)). cbn [Nat.mul Nat.add]. apply lt_mul; assumption.
Qed.
(** Evaluation regroups the raw numbers once; training decodes numbers that have been
    regrouped twice. *)
Theorem C87_regrouped_twice : forall sg ex op t G cur,
  let A := length (masks op) in let attrs := 5 + numClasses op in
  0 < A -> ysh t = [1; S (attrs * A); G; G] ->
  exists inp boxes, trainInput op t 1 G = (inp, true) /\ trainBoxes sg ex op t 1 G cur = (boxes, Ok tt) /\
    forall r j, r < G * G * A -> j < attrs ->
      ydat inp (r * attrs + j) = ydat t (moved G A attrs (r * attrs + j)) /\
      ydat boxes (r * attrs + j) = decoded sg ex (dimensions op / G) G A cur r j (ydat t (moved G A attrs (moved G A attrs (r * attrs + j)))).
Proof.
  intros sg ex op t G cur A attrs HA E. unfold trainBoxes, trainInput. fold A. fold attrs.
  assert (D : ysh (dropChannel t) = [1; attrs * A; G; G]) by (unfold dropChannel; rewrite E; cbn [ysh]; replace (S (attrs * A) - 1) with (attrs * A) by lia; reflexivity).
  rewrite regroup_ok by (rewrite D, prodn4; lia). cbn [fst]. set (inp := Yt _ _). exists inp.
  destruct (evaluate_ok sg ex inp (dimensions op / G) G attrs A cur ltac:(unfold attrs; lia) HA) as (boxes & Ev & _ & V). { unfold inp. cbn [ysh]. rewrite prodn3. lia. }
  exists boxes. split; [reflexivity|]. split; [exact Ev|]. intros r j Hr Hj.
  assert (K : r * attrs + j < attrs * A * (G * G)). { replace (attrs * A * (G * G)) with (G * G * A * attrs) by lia. apply lt_mul; assumption. }
  assert (M : forall k, k < attrs * A * (G * G) -> ydat (dropChannel t) k = ydat t k). { intros k Hk. apply (dropChannel_at t (attrs * A) G G k E). lia. }
  split.
  - unfold inp. cbn [ydat]. apply M. apply moved_lt. exact K.
  - rewrite V by assumption. f_equal. unfold inp. cbn [ydat]. apply M. apply moved_lt. apply moved_lt. exact K.
Qed.
Print Assumptions C87_regrouped_twice.

(** The probability of an object that training compares with the targets is another number
    than the one evaluation reports, and it can be anything. *)
Theorem C87_training_boxes_refuted : forall sg ex a b,
  let op := Yolo [10; 13]%Q [0]%Z 0 8 0 in
  exists t t', ysh t = [1; 6; 2; 2] /\ ysh t' = [1; 5; 2; 2] /\ (forall k, k < 20 -> ydat t k = ydat t' k) /\
    ydat (fst (yoloDo sg ex op t')) 4 = sg a /\ ydat (fst (trainBoxes sg ex op t 1 2 [10; 13]%Q)) 4 = sg b.
Proof.
  intros sg ex a b op. set (f := fun k => if Nat.eqb k 16 then a else if Nat.eqb k 7 then b else 0%Q).
  exists (Yt [1; 6; 2; 2] f), (Yt [1; 5; 2; 2] f). repeat split.
Qed.
Print Assumptions C87_training_boxes_refuted.

(** On a single cell both agree. *)
Theorem C87_single_cell : forall sg ex op t t' cur,
  let A := length (masks op) in let attrs := 5 + numClasses op in
  masks_ok op -> ysh t = [1; S (attrs * A); 1; 1] -> ysh t' = [1; attrs * A; 1; 1] -> (forall k, k < attrs * A -> ydat t k = ydat t' k) ->
  currentAnchors (anchors op) 0 (masks op) = Ok cur ->
  forall k, k < attrs * A -> ydat (fst (trainBoxes sg ex op t 1 1 cur)) k = ydat (fst (yoloDo sg ex op t')) k.
Proof.
  intros sg ex op t t' cur A attrs (N & F & L) E E' H C k Hk.
  assert (HA : 0 < A) by (unfold A; destruct (masks op); [congruence|cbn; lia]).
  assert (M : forall k, k < attrs * A -> moved 1 A attrs k = k).
  { intros m Hm. unfold moved. cbn [Nat.mul]. change (1 + 0) with 1. rewrite !Nat.mul_1_r. rewrite Nat.div_small, (Nat.mod_small m (attrs * A)) by exact Hm. rewrite Nat.mod_1_r. lia. }
  destruct (C87_regrouped_twice sg ex op t 1 cur HA E) as (inp & boxes & _ & Tb & V). rewrite Tb. cbn [fst].
  destruct (evaluate_ok sg ex t' (dimensions op / 1) 1 attrs A cur ltac:(unfold attrs; lia) HA) as (out & Ev & _ & V'). { rewrite E', prodn4. lia. }
  unfold yoloDo. rewrite E', C. cbn [Nat.eqb]. fold A. fold attrs. rewrite Ev. cbn [fst].
  pose proof (Nat.div_mod_eq k attrs) as D. pose proof (Nat.mod_upper_bound k attrs ltac:(unfold attrs; lia)) as B.
  assert (R : k / attrs < 1 * 1 * A) by (apply Nat.div_lt_upper_bound; [unfold attrs; lia|lia]).
  assert (D' : k / attrs * attrs + k mod attrs = k) by lia.
  pose proof (proj2 (V (k / attrs) (k mod attrs) R B)) as Vk. fold A in Vk. fold attrs in Vk. pose proof (V' _ _ R B) as Vk'.
  rewrite D' in Vk, Vk'. rewrite Vk, Vk', !M by (rewrite ?M; exact Hk). rewrite H by exact Hk. reflexivity.
Qed.
Print Assumptions C87_single_cell.
Example C87_ex_single_cell : let op := Yolo [10; 13; 16; 30]%Q [0; 1]%Z 0%Q 8 0 in
  masks_ok op /\ currentAnchors (anchors op) 0 (masks op) = Ok [10; 13; 16; 30]%Q /\
  let f k := if Nat.eqb k 10 then 0%Q else inject_Z (Z.of_nat k) in
  map (ydat (fst (trainBoxes exSg exSg op (Yt [1; 11; 1; 1] f) 1 1 [10; 13; 16; 30]%Q))) (seq 0 10) =
  map (ydat (fst (yoloDo exSg exSg op (Yt [1; 10; 1; 1] f)))) (seq 0 10).
Proof. split; [repeat split; [discriminate|repeat constructor|cbn; lia]|]. split; vm_compute; reflexivity. Qed.

(** The whole operator in training: the loss has one number for every number of a box, and
    the input tensor is not changed (yoloTrain has no new state). *)
Theorem C87_training_shape : forall sg ex lg op t out, yoloTrain sg ex lg op t = Ok out ->
  exists c G w, ysh t = [1; c; G; w] /\ ysh out = [1; G * G * length (masks op); 5 + numClasses op].
Proof.
  intros sg ex lg op t out E. unfold yoloTrain in E. destruct (ysh t) as [|b [|c [|G [|w [|? ?]]]]] eqn:Sh; try discriminate E.
  destruct (at4 t 0 (c - 1) 0 0) as [num|]; [|discriminate E]. destruct (Nat.eqb G 0); [discriminate E|].
  destruct (currentAnchors (anchors op) 0 (masks op)) as [cur| |]; try discriminate E. cbn [bind] in E.
  destruct (trunc num <? 0)%Z; [discriminate E|]. destruct (readTargets t (c - 1) G (seq 1 (Z.to_nat (trunc num)))) as [target|]; [|discriminate E].
  destruct (trainInput op t b G) as [inp ok] eqn:Ti. destruct ok; [|discriminate E]. cbn [negb] in E.
  assert (b = 1) as ->.
  { destruct (trainBoxes sg ex op t b G cur) as [bx r] eqn:Tb. unfold trainBoxes, evaluate in Tb. rewrite Ti in Tb. cbn [fst] in Tb.
    destruct (regroup inp b G (5 + numClasses op) (length (masks op))) as [t1 ok1]. destruct ok1; cbn [negb] in Tb.
    - destruct (Nat.eqb_spec b 1) as [Eb|Eb]; [exact Eb|]. cbn [negb] in Tb. injection Tb as _ <-. cbn [snd bind] in E. discriminate E.
    - injection Tb as _ <-. cbn [snd bind] in E. discriminate E. }
  exists c, G, w. split; [reflexivity|].
  destruct (snd (trainBoxes sg ex op t 1 G cur)) as [[]| |]; try discriminate E. cbn [bind] in E.
  destruct (prepareOutput lg _ _ _ _ _ _ _ _ _) as [o|]; [|discriminate E]. injection E as <-. reflexivity.
Qed.
Print Assumptions C87_training_shape.
Example C87_ex_train : let op := Yolo [10; 13]%Q [0]%Z (1 # 2) 32 0 in
  let t := Yt [1; 6; 3; 3] (fun k => if Nat.leb 45 k then nth (k - 45) [5; 0; 3 # 4; 3 # 4; 5 # 32; 5 # 32]%Q 0%Q else inject_Z (Z.of_nat k) / 10)%Q in
  exists out, yoloTrain exSg exSg exLg op t = Ok out /\ ysh out = [1; 9; 5].
Proof. eexists. split; [vm_compute; reflexivity|reflexivity]. Qed.
