(** Lemmas for BroadcastProps. *)
From Coq Require Import List ZArith Bool Lia Sorted.
From Verif Require Import BroadcastModel BroadcastSpec.
Import ListNotations.
Local Open Scope Z_scope.

(** ** Patterns *)
Lemma shl1_bit a n : 0 <= a -> 0 <= n -> Z.testbit (shl1 a) n = (a =? n) && (n <? 8).
Proof.
  intros Ha Hn. unfold shl1, byte. change 256 with (2 ^ 8). destruct (Z.ltb_spec n 8) as [L|L].
  - rewrite Z.mod_pow2_bits_low by exact L. rewrite Z.shiftl_spec by exact Hn. rewrite andb_true_r. destruct (Z.eqb_spec a n) as [->|N].
    + rewrite Z.sub_diag. reflexivity.
    + change 1 with (2 ^ 0). rewrite Z.pow2_bits_eqb by lia. apply Z.eqb_neq. lia.
  - rewrite Z.mod_pow2_bits_high by lia. rewrite andb_false_r. reflexivity.
Qed.
Lemma lor_bit (f : Z -> Z) l : forall s n, Z.testbit (fold_left (fun st a => Z.lor st (f a)) l s) n = Z.testbit s n || existsb (fun a => Z.testbit (f a) n) l.
Proof.
  induction l as [|a l IH]; intros s n; cbn [fold_left existsb]; [rewrite orb_false_r; reflexivity|]. rewrite IH, Z.lor_spec, orb_assoc. reflexivity.
Qed.
Lemma bit_land x n : 0 <= n -> (Z.land (Z.shiftr x n) 1 =? 1) = Z.testbit x n.
Proof.
  intro Hn. change (Z.land (Z.shiftr x n) 1) with (Z.land (Z.shiftr x n) (Z.ones 1)). rewrite Z.land_ones by lia. change (2 ^ 1) with 2. rewrite <- (Z.add_0_l n) at 2. rewrite <- Z.shiftr_spec by lia.
  rewrite Z.bit0_odd, Zmod_odd. destruct (Z.odd _); reflexivity.
Qed.
Definition isByte (a : Z) : Prop := 0 <= a < 256.
Lemma pat_bit la ra n : Forall isByte la -> Forall isByte ra -> 0 <= n < 8 ->
  (Z.testbit (newBroadcastPattern la ra) n = true <-> In n ra \/ exists a, In a la /\ (a + 4) mod 256 = n).
Proof.
  intros Hl Hr Hn. unfold newBroadcastPattern. rewrite !lor_bit. rewrite Z.bits_0. cbn [orb]. rewrite orb_true_iff, !existsb_exists. rewrite Forall_forall in Hl, Hr. split.
  - intros [[a [Ha H]]|[a [Ha H]]].
    + right. exists a. split; [exact Ha|]. unfold byte, bcAllowableAxes in H. pose proof (Z.mod_pos_bound (a + 4) 256). rewrite shl1_bit in H by lia. apply andb_true_iff in H. destruct H as [H _]. apply Z.eqb_eq in H. exact H.
    + left. specialize (Hr a Ha). unfold isByte in Hr. rewrite shl1_bit in H by lia. apply andb_true_iff in H. destruct H as [H _]. apply Z.eqb_eq in H. subst. exact Ha.
  - intros [H|[a [Ha H]]].
    + right. exists n. split; [exact H|]. rewrite shl1_bit by lia. rewrite Z.eqb_refl. apply Z.ltb_lt. lia.
    + left. exists a. split; [exact Ha|]. unfold byte, bcAllowableAxes. rewrite H, shl1_bit by lia. rewrite Z.eqb_refl. apply Z.ltb_lt. lia.
Qed.
Lemma on_left pat i : In i (fst (on pat)) <-> 0 <= i < 4 /\ Z.testbit pat (i + 4) = true.
Proof.
  unfold on. cbn [fst]. rewrite filter_In. unfold bc, bcAllowableAxes. split.
  - intros [Hi H]. assert (Hr : 0 <= i < 4) by (cbn [In] in Hi; lia). split; [exact Hr|]. unfold byte in H. rewrite !Z.mod_small in H by (rewrite ?Z.mod_small; lia). rewrite bit_land in H by lia. exact H.
  - intros [Hr H]. split; [cbn [In]; lia|]. unfold byte. rewrite !Z.mod_small by (rewrite ?Z.mod_small; lia). rewrite bit_land by lia. exact H.
Qed.
Lemma on_right pat i : In i (snd (on pat)) <-> 0 <= i < 4 /\ Z.testbit pat i = true.
Proof.
  unfold on. cbn [snd]. rewrite filter_In. unfold bc. split.
  - intros [Hi H]. assert (Hr : 0 <= i < 4) by (cbn [In] in Hi; lia). split; [exact Hr|]. unfold byte in H. rewrite !Z.mod_small in H by lia. rewrite bit_land in H by lia. exact H.
  - intros [Hr H]. split; [cbn [In]; lia|]. unfold byte. rewrite !Z.mod_small by lia. rewrite bit_land by lia. exact H.
Qed.
Lemma filter_sorted (f : Z -> bool) l : StronglySorted Z.lt l -> StronglySorted Z.lt (filter f l).
Proof.
  induction 1 as [|x l H IH Hx]; cbn [filter]; [constructor|]. destruct (f x); [|exact IH]. constructor; [exact IH|]. rewrite Forall_forall in *. intros y Hy. apply Hx. apply filter_In in Hy. apply Hy.
Qed.
Lemma on_sorted pat : StronglySorted Z.lt (fst (on pat)) /\ StronglySorted Z.lt (snd (on pat)).
Proof. split; apply filter_sorted; repeat constructor; lia. Qed.

(** ** Reshape *)
Lemma total_product s : totalSize s = product s.
Proof. induction s as [|d s IH]; cbn [totalSize fold_right product]; [reflexivity|]. unfold totalSize in IH; rewrite IH; reflexivity. Qed.
Lemma infer_none to : forall i acc, negs to = 0%nat -> inferAt to i acc = acc.
Proof.
  unfold negs. induction to as [|s to IH]; intros i acc H; cbn [inferAt filter length] in *; [reflexivity|]. destruct (s <? 0); [discriminate|]. apply IH, H.
Qed.
(** With one negative entry: it splits the request. *)
Lemma one_neg to : negs to = 1%nat -> exists A x B, to = A ++ x :: B /\ x < 0 /\ Forall (fun t => 0 <= t) A /\ Forall (fun t => 0 <= t) B.
Proof.
  unfold negs. induction to as [|s to IH]; cbn [filter length]; intro H; [discriminate|]. destruct (Z.ltb_spec s 0) as [L|L].
  - exists [], s, to. split; [reflexivity|]. split; [exact L|]. split; [constructor|]. cbn [length] in H. injection H as H. apply length_zero_iff_nil in H. apply Forall_forall. intros y Hy.
    destruct (Z.ltb_spec y 0) as [K|K]; [|exact K]. assert (Hin : In y (filter (fun s0 => s0 <? 0) to)) by (apply filter_In; split; [exact Hy|apply Z.ltb_lt, K]). rewrite H in Hin. contradiction.
  - destruct (IH H) as [A [x [B [-> [Hx [HA HB]]]]]]. exists (s :: A), x, B. repeat split; auto.
Qed.
Lemma nonneg_negs A : Forall (fun t => 0 <= t) A -> negs A = 0%nat.
Proof. unfold negs. induction 1 as [|t A Ht _ IH]; cbn [filter]; [reflexivity|]. destruct (Z.ltb_spec t 0); [lia|exact IH]. Qed.
Lemma negs_nonneg A : negs A = 0%nat -> Forall (fun t => 0 <= t) A.
Proof.
  unfold negs. induction A as [|t A IH]; cbn [filter]; intro H; constructor; destruct (Z.ltb_spec t 0); try discriminate; auto.
Qed.
Lemma infer_split A x B : Forall (fun t => 0 <= t) A -> x < 0 -> Forall (fun t => 0 <= t) B -> forall i acc, inferAt (A ++ x :: B) i acc = (i + length A)%nat.
Proof.
  intros HA Hx HB. induction HA as [|a A Ha _ IH]; intros i acc; cbn [app inferAt length].
  - destruct (Z.ltb_spec x 0); [|lia]. rewrite infer_none; [lia|]. apply nonneg_negs, HB.
  - destruct (Z.ltb_spec a 0); [lia|]. rewrite IH. lia.
Qed.
Lemma prod_out B : forall i infer, (infer < i)%nat -> prodExcept B i infer = product B.
Proof. induction B as [|b B IH]; intros i infer H; cbn [prodExcept product]; [reflexivity|]. destruct (Nat.eqb_spec i infer); [lia|]. rewrite IH by lia. reflexivity. Qed.
Lemma prod_split A x B : forall i, prodExcept (A ++ x :: B) i (i + length A)%nat = product A * product B.
Proof.
  induction A as [|a A IH]; intro i; cbn [app prodExcept length product].
  - rewrite Nat.add_0_r, Nat.eqb_refl, prod_out by lia. ring.
  - destruct (Nat.eqb_spec i (i + S (length A))); [lia|]. replace (i + S (length A))%nat with (S i + length A)%nat by lia. rewrite IH. ring.
Qed.
Lemma set_split A x B v : setZ (A ++ x :: B) (length A) v = A ++ v :: B.
Proof. induction A as [|a A IH]; cbn [app setZ length]; [reflexivity|]. rewrite IH. reflexivity. Qed.
Lemma product_app A B : product (A ++ B) = product A * product B.
Proof. induction A as [|a A IH]; cbn [app product]; [ring|]. rewrite IH. ring. Qed.
Lemma product_nonneg A : Forall (fun t => 0 <= t) A -> 0 <= product A.
Proof. induction 1; cbn [product]; [lia|]. apply Z.mul_nonneg_nonneg; assumption. Qed.
Lemma product_zero A : product A = 0 <-> In 0 A.
Proof.
  induction A as [|a A IH]; cbn [product In]; [split; [discriminate|contradiction]|]. rewrite Z.mul_eq_0, IH. split; intros [H|H]; auto.
Qed.
(** The call on a request with one negative entry. *)
Lemma reshape_one from A x B : Forall (fun t => 0 <= t) A -> x < 0 -> Forall (fun t => 0 <= t) B ->
  reshapeCall from (A ++ x :: B) =
  if product A * product B =? 0 then (Panic, A ++ x :: B)
  else if negb (Z.rem (product from) (product A * product B) =? 0) then (Err, A ++ x :: B)
  else let r := A ++ Z.quot (product from) (product A * product B) :: B in (Ok r, r).
Proof.
  intros HA Hx HB. unfold reshapeCall.
  assert (N : negs (A ++ x :: B) = 1%nat).
  { unfold negs. rewrite filter_app, app_length. cbn [filter]. destruct (Z.ltb_spec x 0); [|lia]. cbn [length]. pose proof (nonneg_negs A HA) as NA. pose proof (nonneg_negs B HB) as NB. unfold negs in NA, NB. rewrite NA, NB. reflexivity. }
  rewrite N. cbn [Nat.ltb Nat.leb Nat.eqb]. rewrite (infer_split A x B HA Hx HB 0 0). pose proof (prod_split A x B 0) as P. cbn [plus] in *. rewrite P, set_split. rewrite (total_product from), (total_product (A ++ _)).
  destruct (Z.eqb_spec (product A * product B) 0) as [E|E]; [reflexivity|]. destruct (Z.eqb_spec (Z.rem (product from) (product A * product B)) 0) as [R|R]; [|reflexivity]. cbn [negb].
  assert (T : product from = product (A ++ Z.quot (product from) (product A * product B) :: B)).
  { rewrite product_app. cbn [product]. pose proof (Z.quot_rem (product from) (product A * product B) E) as Q. rewrite R in Q. lia. }
  rewrite <- T, Z.eqb_refl, andb_false_r. reflexivity.
Qed.

(** ** Lists read by position *)
Lemma nth_set l : forall i v j, (i < length l)%nat -> nth j (setZ l i v) 0 = if Nat.eqb j i then v else nth j l 0.
Proof.
  induction l as [|x l IH]; intros [|i] v [|j] H; cbn [setZ nth length Nat.eqb] in *; try lia; try reflexivity. apply IH. lia.
Qed.
Lemma len_set l : forall i v, length (setZ l i v) = length l.
Proof. induction l as [|x l IH]; intros [|i] v; cbn [setZ length]; auto. Qed.
Lemma len_div l : forall k r, length (divAt l k r) = length l.
Proof. induction l as [|x l IH]; intros [|k] r; cbn [divAt length]; auto. Qed.
Lemma nth_div l : forall k r j, nth j (divAt l k r) 0 = if Nat.eqb j k then nth j l 0 / r else nth j l 0.
Proof.
  induction l as [|x l IH]; intros [|k] r [|j]; cbn [divAt nth Nat.eqb]; try reflexivity.
  - destruct (Nat.eqb j k); rewrite ?Zdiv_0_l; reflexivity.
  - apply IH.
Qed.
Lemma list_eq (l m : list Z) : length l = length m -> (forall i, (i < length l)%nat -> nth i l 0 = nth i m 0) -> l = m.
Proof. intros L H. apply (nth_ext l m 0 0 L H). Qed.
Lemma inside_len s idx : inside s idx -> length idx = length s.
Proof. intro H. induction H as [|x y l1 l2 _ _ IH]; [reflexivity|]. cbn [length]. rewrite IH. reflexivity. Qed.
Lemma inside_nth s idx : inside s idx <-> length idx = length s /\ forall i, (i < length s)%nat -> 0 <= nth i idx 0 < nth i s 0.
Proof.
  split.
  - intro H. split; [apply inside_len, H|]. induction H as [|d i s idx Hd H IH]; intros k Hk; cbn [length] in Hk; [lia|]. destruct k as [|k]; cbn [nth]; [exact Hd|]. apply IH. lia.
  - revert idx. induction s as [|d s IH]; intros [|i idx] [L H]; try discriminate; constructor.
    + apply (H 0%nat). cbn [length]. lia.
    + apply IH. split; [cbn [length] in L; lia|]. intros k Hk. apply (H (S k)). cbn [length]. lia.
Qed.
Lemma positive_nth s i : positive s -> (i < length s)%nat -> 1 <= nth i s 0.
Proof. intros H Hi. unfold positive in H. rewrite Forall_forall in H. apply H, nth_In, Hi. Qed.

(** ** Row-major layout *)
Lemma inside_positive s idx : inside s idx -> 0 < totalSize s.
Proof. induction 1 as [|d i s idx Hd _ IH]; cbn [totalSize fold_right]; [lia|]. unfold totalSize in IH. apply Z.mul_pos_pos; lia. Qed.
Lemma ravel_range s idx : inside s idx -> 0 <= ravel s idx < totalSize s.
Proof.
  induction 1 as [|d i s idx Hd Hs IH]; cbn [ravel totalSize fold_right]; [lia|]. unfold totalSize in *. pose proof (inside_positive _ _ Hs) as P. unfold totalSize in P. nia.
Qed.
Lemma unravel_ravel s idx : inside s idx -> unravel s (ravel s idx) = idx.
Proof.
  induction 1 as [|d i s idx Hd Hs IH]; cbn [unravel ravel]; [reflexivity|]. pose proof (ravel_range _ _ Hs) as R. pose proof (inside_positive _ _ Hs) as P.
  rewrite Z.div_add_l, Z.div_small, Z.add_0_r by lia. rewrite (Z.add_comm (i * _)), Z.mod_add, Z.mod_small by lia. rewrite IH. reflexivity.
Qed.

(** ** Repetition along several axes *)
Fixpoint mult (axes reps : list Z) (i : nat) : Z :=
  match axes, reps with a :: axes', r :: reps' => (if Nat.eqb i (Z.to_nat a) then r else 1) * mult axes' reps' i | _, _ => 1 end.
Lemma mult_pos axes : forall reps i, Forall (fun r => 1 <= r) reps -> 1 <= mult axes reps i.
Proof.
  induction axes as [|a axes IH]; intros [|r reps] i H; cbn [mult]; try lia. inversion_clear H as [|? ? H1 H2]. specialize (IH reps i H2). destruct (Nat.eqb i (Z.to_nat a)); nia.
Qed.
Lemma nth_map_seq (f : nat -> Z) n i : (i < n)%nat -> nth i (map f (seq 0 n)) 0 = f i.
Proof. intro H. rewrite (nth_indep _ 0 (f 0%nat)) by (rewrite map_length, seq_length; exact H). rewrite map_nth, seq_nth by exact H. reflexivity. Qed.
Section Rep.
Context {V : Type}.
Implicit Types t other : @tens V.
Lemma repeat_ok t a r : 0 <= a < Z.of_nat (length (shp t)) ->
  exists t', repeatNode t a r = Ok t' /\ shp t' = setZ (shp t) (Z.to_nat a) (nth (Z.to_nat a) (shp t) 0 * r) /\ forall idx, at_ t' idx = at_ t (divAt idx (Z.to_nat a) r).
Proof.
  intro Ha. unfold repeatNode, repeatShape. destruct (Nat.leb_spec (length (shp t)) (Z.to_nat a)) as [L|L]; [lia|]. rewrite andb_false_r.
  destruct (shp t) as [|d s] eqn:E; [cbn [length] in Ha; lia|]. rewrite (nth_error_nth' (d :: s) 0) by lia. cbv zeta. rewrite len_set. cbn [length Nat.max]. rewrite Nat.eqb_refl. cbn [orb]. eexists. split; [reflexivity|]. split; reflexivity.
Qed.
Lemma repeated_ok axes : forall reps t, length axes = length reps -> Forall (fun a => 0 <= a < Z.of_nat (length (shp t))) axes -> Forall (fun r => 1 <= r) reps ->
  exists t', repeatedApply t axes reps = Ok t' /\ length (shp t') = length (shp t) /\
    (forall i, nth i (shp t') 0 = nth i (shp t) 0 * mult axes reps i) /\
    (forall idx idx', length idx' = length idx -> (forall i, nth i idx' 0 = nth i idx 0 / mult axes reps i) -> at_ t' idx = at_ t idx').
Proof.
  induction axes as [|a axes IH]; intros [|r reps] t L HA HR; try discriminate; cbn [repeatedApply].
  - exists t. split; [reflexivity|]. split; [reflexivity|]. split; [intro i; cbn [mult]; ring|]. intros idx idx' Ll H. f_equal. apply list_eq; [auto|]. intros i _. rewrite H. cbn [mult]. rewrite Z.div_1_r. reflexivity.
  - inversion_clear HA as [|? ? Ha HA']. inversion_clear HR as [|? ? Hr HR']. destruct (repeat_ok t a r Ha) as [t1 [E [S1 A1]]]. rewrite E.
    assert (L1 : length (shp t1) = length (shp t)) by (rewrite S1; apply len_set).
    destruct (IH reps t1) as [t' [E' [L' [S' A']]]]; [injection L; auto|rewrite L1; exact HA'|exact HR'|]. exists t'. split; [exact E'|]. split; [congruence|]. split.
    + intro i. rewrite S', S1, nth_set by lia. cbn [mult]. destruct (Nat.eqb_spec i (Z.to_nat a)) as [->|N]; ring.
    + intros idx idx' Ll H. set (idx1 := map (fun i => nth i idx 0 / mult axes reps i) (seq 0 (length idx))).
      assert (N1 : forall i, (i < length idx)%nat -> nth i idx1 0 = nth i idx 0 / mult axes reps i).
      { intros i Hi. unfold idx1. rewrite nth_map_seq by exact Hi. reflexivity. }
      assert (L2 : length idx1 = length idx) by (unfold idx1; rewrite map_length, seq_length; reflexivity).
      rewrite (A' idx idx1 L2).
      * rewrite A1. f_equal. apply list_eq; [rewrite len_div; congruence|]. intros i Hi. rewrite len_div in Hi. rewrite nth_div, H, N1 by lia. cbn [mult]. pose proof (mult_pos axes reps i HR') as P.
        destruct (Nat.eqb_spec i (Z.to_nat a)); [rewrite Z.mul_comm, Z.div_div by lia; reflexivity|]. rewrite Z.mul_1_l. reflexivity.
      * intro i. destruct (Nat.lt_ge_cases i (length idx)) as [K|K]; [apply N1, K|]. rewrite !nth_overflow by lia. rewrite Zdiv_0_l. reflexivity.
Qed.

(** The sizes read by Broadcast. *)
Lemma sizes_ok axes (other : @tens V) : Forall (fun a => 0 <= a < Z.of_nat (length (shp other))) axes -> sizesOf axes other = Ok (map (fun a => nth (Z.to_nat a) (shp other) 0) axes).
Proof.
  induction 1 as [|a axes Ha _ IH]; cbn [sizesOf map]; [reflexivity|]. unfold sizeOf at 1. rewrite (nth_error_nth' (shp other) 0) by lia. rewrite IH. reflexivity.
Qed.
Lemma mult_sizes (s : list Z) axes i : NoDup axes -> Forall (fun a => 0 <= a) axes ->
  mult axes (map (fun a => nth (Z.to_nat a) s 0) axes) i = if existsb (Z.eqb (Z.of_nat i)) axes then nth i s 0 else 1.
Proof.
  intros ND. induction axes as [|a axes IH]; intro H; cbn [mult map existsb]; [reflexivity|]. inversion_clear ND as [|? ? N1 N2]. inversion_clear H as [|? ? H1 H2]. rewrite IH by assumption.
  destruct (Z.eqb_spec (Z.of_nat i) a) as [E|E]; cbn [orb].
  - subst a. rewrite Nat2Z.id, Nat.eqb_refl. replace (existsb (Z.eqb (Z.of_nat i)) axes) with false; [ring|]. symmetry. apply not_true_iff_false. intro K. apply existsb_exists in K. destruct K as [b [Hb Eb]]. apply Z.eqb_eq in Eb. subst b. contradiction.
  - destruct (Nat.eqb_spec i (Z.to_nat a)) as [K|K]; [lia|]. apply Z.mul_1_l.
Qed.

(** Reshaping to a shape without negative entries. *)
Lemma reshape_plain t to : Forall (fun d => 0 <= d) to -> (shp t = [] \/ totalSize (shp t) = totalSize to) ->
  reshape t to = Ok (Tn to (fun idx => at_ t (unravel (shp t) (ravel to idx)))).
Proof.
  intros H E. unfold reshape, reshapeCall. rewrite (nonneg_negs to H). cbn [Nat.ltb Nat.leb Nat.eqb]. destruct E as [E|E].
  - rewrite E. reflexivity.
  - rewrite E, Z.eqb_refl, andb_false_r. reflexivity.
Qed.
(** One side, both operands with the same number of axes. *)
Lemma side_same t (other : @tens V) axes : NoDup axes -> length (shp t) = length (shp other) -> Forall (fun a => 0 <= a < Z.of_nat (length (shp t))) axes ->
  positive (shp t) -> positive (shp other) ->
  exists t', broadcastSide t (length (shp other)) other axes = Ok t' /\ length (shp t') = length (shp t) /\
    (forall i, nth i (shp t') 0 = nth i (shp t) 0 * (if existsb (Z.eqb (Z.of_nat i)) axes then nth i (shp other) 0 else 1)) /\
    (forall idx idx', inside (shp t') idx -> length idx' = length idx ->
       (forall i, nth i idx' 0 = nth i idx 0 / (if existsb (Z.eqb (Z.of_nat i)) axes then nth i (shp other) 0 else 1)) -> at_ t' idx = at_ t idx').
Proof.
  intros ND L HA P1 P2. destruct axes as [|a0 axes'] eqn:EA.
  - exists t. cbn [broadcastSide existsb]. split; [reflexivity|]. split; [reflexivity|]. split; [intro i; ring|]. intros idx idx' _ Ll H. f_equal. apply list_eq; [auto|]. intros i _. rewrite H, Z.div_1_r. reflexivity.
  - rewrite <- EA in *. assert (Q : broadcastSide t (length (shp other)) other axes = if existsb (fun a => Z.of_nat (length (shp other)) <=? a) axes then Err
      else match reshape t (calcBroadcastShape (shp t) (length (shp other)) axes) with Ok t1 => match sizesOf axes other with Ok reps => repeatedApply t1 axes reps | Err => Err | Panic => Panic end | Err => Err | Panic => Panic end) by (rewrite EA; reflexivity).
    rewrite Q. clear Q. replace (existsb (fun a => Z.of_nat (length (shp other)) <=? a) axes) with false.
    2: { symmetry. apply not_true_iff_false. intro K. apply existsb_exists in K. destruct K as [b [Hb Eb]]. rewrite Forall_forall in HA. specialize (HA b Hb). apply Z.leb_le in Eb. lia. }
    assert (C : calcBroadcastShape (shp t) (length (shp other)) axes = shp t).
    { unfold calcBroadcastShape. rewrite L, Nat.eqb_refl. destruct (shp t) as [|d s] eqn:E; [|reflexivity]. rewrite Forall_forall in HA. specialize (HA a0). rewrite EA in HA. specialize (HA (or_introl eq_refl)). cbn [length] in HA. lia. }
    assert (NN : Forall (fun d => 0 <= d) (shp t)) by (eapply Forall_impl; [|exact P1]; cbn; lia).
    rewrite C, reshape_plain by auto. set (t1 := Tn (shp t) _). rewrite sizes_ok by (rewrite <- L; exact HA).
    assert (RP : Forall (fun r => 1 <= r) (map (fun a => nth (Z.to_nat a) (shp other) 0) axes)).
    { rewrite Forall_map. eapply Forall_impl; [|exact HA]. cbn beta. intros a Ha. apply positive_nth; [exact P2|lia]. }
    destruct (repeated_ok axes (map (fun a => nth (Z.to_nat a) (shp other) 0) axes) t1) as [t' [E [L' [S' A']]]]; [rewrite map_length; reflexivity|exact HA|exact RP|].
    exists t'. split; [exact E|]. split; [exact L'|].
    assert (HP : Forall (fun a => 0 <= a) axes) by (eapply Forall_impl; [|exact HA]; cbn; lia).
    assert (M : forall i, mult axes (map (fun a => nth (Z.to_nat a) (shp other) 0) axes) i = if existsb (Z.eqb (Z.of_nat i)) axes then nth i (shp other) 0 else 1) by (intro i; apply mult_sizes; assumption).
    split; [intro i; rewrite S', M; reflexivity|]. intros idx idx' HI Ll H. rewrite (A' idx idx' Ll) by (intro i; rewrite M; apply H).
    unfold t1. cbn [at_ shp]. rewrite unravel_ravel; [reflexivity|]. apply inside_nth in HI. destruct HI as [HL HN]. apply inside_nth. split; [rewrite Ll, HL; exact L'|]. cbn [shp] in *. intros i Hi. specialize (HN i ltac:(unfold t1 in L'; cbn [shp] in L'; lia)). rewrite S', M in HN. rewrite H.
    assert (P : 1 <= if existsb (Z.eqb (Z.of_nat i)) axes then nth i (shp other) 0 else 1) by (destruct (existsb _ _); [apply positive_nth; [exact P2|lia]|lia]).
    unfold t1 in HN. cbn [shp] in HN. split; [apply Z.div_pos; lia|]. apply Z.div_lt_upper_bound; lia.
Qed.

(** One side, a tensor of another rank: unit axes are inserted first. *)
Fixpoint merge (ns s : list Z) : list Z :=
  match ns with
  | [] => []
  | x :: ns' => if x =? 0 then match s with [] => x :: merge ns' [] | d :: s' => d :: merge ns' s' end else x :: merge ns' s
  end.
Lemma fill_skip s : forall x ns, x <> 0 -> fold_left fillFirst s (x :: ns) = x :: fold_left fillFirst s ns.
Proof. induction s as [|d s IH]; intros x ns H; cbn [fold_left]; [reflexivity|]. cbn [fillFirst]. destruct (Z.eqb_spec x 0); [contradiction|]. apply IH, H. Qed.
Lemma fill_merge ns : forall s, Forall (fun d => d <> 0) s -> length (filter (Z.eqb 0) ns) = length s -> fold_left fillFirst s ns = merge ns s.
Proof.
  induction ns as [|x ns IH]; intros s HS HL.
  - cbn [filter length merge] in *. destruct s; [reflexivity|discriminate].
  - cbn [filter merge] in *. destruct (Z.eqb_spec 0 x) as [E|E].
    + subst x. cbn [Z.eqb]. destruct s as [|d s]; [discriminate|]. inversion_clear HS as [|? ? H1 H2]. cbn [fold_left fillFirst Z.eqb]. rewrite fill_skip by exact H1. rewrite IH; [reflexivity|exact H2|]. cbn [length] in HL. lia.
    + destruct (Z.eqb_spec x 0); [lia|]. rewrite fill_skip by assumption. rewrite IH by assumption. reflexivity.
Qed.
Definition marks (axes : list Z) (k : Z) (n : nat) : list Z := map (fun j => if existsb (Z.eqb (k + Z.of_nat j)) axes then 1 else 0) (seq 0 n).
Lemma marks_S axes k n : marks axes k (S n) = (if existsb (Z.eqb k) axes then 1 else 0) :: marks axes (k + 1) n.
Proof.
  unfold marks. cbn [seq map]. rewrite Z.add_0_r. f_equal. rewrite <- seq_shift, map_map. apply map_ext. intro j. replace (k + Z.of_nat (S j)) with (k + 1 + Z.of_nat j) by lia. reflexivity.
Qed.
Lemma fold_marks axes n : Forall (fun a => 0 <= a < Z.of_nat n) axes -> fold_left (fun ns i => setZ ns (Z.to_nat i) 1) axes (repeat 0 n) = marks axes 0 n.
Proof.
  intro H. assert (K : forall axes ns, Forall (fun a => 0 <= a < Z.of_nat n) axes -> length ns = n ->
    length (fold_left (fun ns i => setZ ns (Z.to_nat i) 1) axes ns) = n /\ forall j, nth j (fold_left (fun ns i => setZ ns (Z.to_nat i) 1) axes ns) 0 = if existsb (Z.eqb (Z.of_nat j)) axes then 1 else nth j ns 0).
  { clear. induction axes as [|a axes IH]; intros ns H L; cbn [fold_left existsb]; [auto|]. inversion_clear H as [|? ? H1 H2]. destruct (IH (setZ ns (Z.to_nat a) 1) H2 ltac:(rewrite len_set; exact L)) as [I1 I2]. split; [exact I1|]. intro j. rewrite I2, nth_set by lia.
    destruct (Nat.eqb_spec j (Z.to_nat a)), (Z.eqb_spec (Z.of_nat j) a); try lia; cbn [orb]; destruct (existsb _ _); reflexivity. }
  destruct (K axes (repeat 0 n) H (repeat_length 0 n)) as [L N]. unfold marks. apply list_eq; [rewrite L, map_length, seq_length; reflexivity|]. intros i Hi. rewrite N, nth_map_seq by lia. cbn [Z.add]. destruct (existsb _ _); [reflexivity|]. apply nth_repeat.
Qed.
(** The merged shape: length, size, what is left without the axes, and its layout. *)
Lemma merge_marks axes n : forall k s, length (filter (Z.eqb 0) (marks axes k n)) = length s ->
  length (merge (marks axes k n) s) = n /\ without axes k (merge (marks axes k n) s) = s /\ totalSize (merge (marks axes k n) s) = totalSize s /\
  (forall j, existsb (Z.eqb (k + Z.of_nat j)) axes = true -> (j < n)%nat -> nth j (merge (marks axes k n) s) 0 = 1) /\
  (forall idx, inside (merge (marks axes k n) s) idx -> ravel (merge (marks axes k n) s) idx = ravel s (without axes k idx) /\ inside s (without axes k idx)).
Proof.
  induction n as [|n IH]; intros k s H.
  - cbn [marks seq map filter length merge] in *. destruct s; [|discriminate]. repeat split; try reflexivity; try lia. inversion_clear H0; constructor.
  - rewrite marks_S in *. cbn [filter] in H. destruct (existsb (Z.eqb k) axes) eqn:E.
    + cbn [Z.eqb] in H. destruct (IH (k + 1) s H) as [I1 [I2 [I3 [I4 I5]]]]. cbn [merge Z.eqb length without]. rewrite E. repeat split.
      * rewrite I1. reflexivity.
      * exact I2.
      * cbn [totalSize fold_right]. unfold totalSize in I3. rewrite I3. apply Z.mul_1_l.
      * intros [|j] Hj Hn; cbn [nth]; [reflexivity|]. apply I4; [|lia]. replace (k + 1 + Z.of_nat j) with (k + Z.of_nat (S j)) by lia. exact Hj.
      * inversion H0 as [|? i ? idx' Hi Hx]; subst. cbn [ravel without]. rewrite E. replace i with 0 by lia. destruct (I5 _ Hx) as [I6 _]. rewrite I6. ring.
      * inversion H0 as [|? i ? idx' Hi Hx]; subst. cbn [without]. rewrite E. apply I5, Hx.
    + cbn [Z.eqb length] in H. destruct s as [|d s]; [discriminate|]. cbn [length] in H. destruct (IH (k + 1) s ltac:(lia)) as [I1 [I2 [I3 [I4 I5]]]]. cbn [merge Z.eqb length without]. rewrite E. repeat split.
      * rewrite I1. reflexivity.
      * rewrite I2. reflexivity.
      * cbn [totalSize fold_right]. unfold totalSize in I3. rewrite I3. reflexivity.
      * intros [|j] Hj Hn; [rewrite Z.add_0_r, E in Hj; discriminate|]. cbn [nth]. apply I4; [|lia]. replace (k + 1 + Z.of_nat j) with (k + Z.of_nat (S j)) by lia. exact Hj.
      * inversion H0 as [|? i ? idx' Hi Hx]; subst. cbn [ravel without]. rewrite E. cbn [ravel]. destruct (I5 _ Hx) as [I6 _]. rewrite I6, I3. reflexivity.
      * inversion H0 as [|? i ? idx' Hi Hx]; subst. cbn [without]. rewrite E. constructor; [exact Hi|]. apply I5, Hx.
Qed.
Lemma marks_zeros axes n : forall k (l : list Z), length l = n -> length (filter (Z.eqb 0) (marks axes k n)) = length (without axes k l).
Proof.
  induction n as [|n IH]; intros k [|x l] H; try discriminate; [reflexivity|]. rewrite marks_S. cbn [filter without]. destruct (existsb (Z.eqb k) axes); cbn [Z.eqb length]; rewrite (IH (k + 1) l) by (cbn [length] in H; lia); reflexivity.
Qed.
Lemma marks_nonneg axes n k : Forall (fun d => 0 <= d) (marks axes k n).
Proof. unfold marks. rewrite Forall_map. apply Forall_forall. intros j _. destruct (existsb _ _); lia. Qed.
Lemma merge_pos ns : forall s, Forall (fun d => 0 <= d) ns -> Forall (fun d => 0 <= d) s -> Forall (fun d => 0 <= d) (merge ns s).
Proof.
  induction ns as [|x ns IH]; intros s H1 H2; cbn [merge]; [constructor|]. inversion_clear H1 as [|? ? Hx Hn]. destruct (x =? 0); [|constructor; auto]. destruct s as [|d s]; [constructor; auto|]. inversion_clear H2. constructor; auto.
Qed.
Lemma without_ext axes axes' l : (forall i, In i axes <-> In i axes') -> forall k, without axes k l = without axes' k l.
Proof.
  intro H. assert (E : forall i, existsb (Z.eqb i) axes = existsb (Z.eqb i) axes').
  { intro i. apply eq_true_iff_eq. rewrite !existsb_exists. split; intros [x [Hx Ex]]; exists x; split; auto; apply H, Hx. }
  induction l as [|x l IH]; intro k; cbn [without]; [reflexivity|]. rewrite E, IH. reflexivity.
Qed.
Lemma without_same axes l m : length l = length m -> forall k, (forall j, existsb (Z.eqb (k + Z.of_nat j)) axes = false -> nth j l 0 = nth j m 0) -> without axes k l = without axes k m.
Proof.
  revert m. induction l as [|x l IH]; intros [|y m] L k H; try discriminate; cbn [without]; [reflexivity|].
  rewrite (IH m ltac:(cbn [length] in L; lia) (k + 1)); [destruct (existsb (Z.eqb k) axes) eqn:E; [reflexivity|]; f_equal; apply (H 0%nat); rewrite Z.add_0_r; exact E|].
  intros j Hj. apply (H (S j)). replace (k + Z.of_nat (S j)) with (k + 1 + Z.of_nat j) by lia. exact Hj.
Qed.
Lemma side_insert t (other : @tens V) axes : axes <> [] -> NoDup axes -> Forall (fun a => 0 <= a < Z.of_nat (length (shp other))) axes ->
  positive (shp t) -> positive (shp other) -> shp t <> [] -> length (without axes 0 (shp other)) = length (shp t) -> length (shp t) <> length (shp other) ->
  exists t', broadcastSide t (length (shp other)) other axes = Ok t' /\ stretched (shp t) (shp other) axes (shp t') /\
    forall idx, inside (shp t') idx -> at_ t' idx = at_ t (without axes 0 idx).
Proof.
  intros NE ND HA P1 P2 NS LW LN. destruct axes as [|a0 axes'] eqn:EA; [contradiction|]. rewrite <- EA in *.
  assert (Q : broadcastSide t (length (shp other)) other axes = if existsb (fun a => Z.of_nat (length (shp other)) <=? a) axes then Err
      else match reshape t (calcBroadcastShape (shp t) (length (shp other)) axes) with Ok t1 => match sizesOf axes other with Ok reps => repeatedApply t1 axes reps | Err => Err | Panic => Panic end | Err => Err | Panic => Panic end) by (rewrite EA; reflexivity).
  rewrite Q. clear Q. replace (existsb (fun a => Z.of_nat (length (shp other)) <=? a) axes) with false.
  2: { symmetry. apply not_true_iff_false. intro K. apply existsb_exists in K. destruct K as [b [Hb Eb]]. rewrite Forall_forall in HA. specialize (HA b Hb). apply Z.leb_le in Eb. lia. }
  set (n := length (shp other)) in *. set (M := merge (marks axes 0 n) (shp t)).
  assert (Z0 : length (filter (Z.eqb 0) (marks axes 0 n)) = length (shp t)) by (rewrite (marks_zeros axes n 0 (shp other) eq_refl); exact LW).
  assert (C : calcBroadcastShape (shp t) n axes = M).
  { unfold calcBroadcastShape. destruct (Nat.eqb_spec (length (shp t)) n); [contradiction|]. rewrite fold_marks by exact HA. destruct (shp t) as [|d s] eqn:E; [contradiction|]. unfold M. apply fill_merge; [|exact Z0]. eapply Forall_impl; [|exact P1]. cbn. lia. }
  destruct (merge_marks axes n 0 (shp t) Z0) as [M1 [M2 [M3 [M4 M5]]]]. fold M in M1, M2, M3, M4, M5.
  assert (NN : Forall (fun d => 0 <= d) M). { apply merge_pos; [apply marks_nonneg|]. eapply Forall_impl; [|exact P1]. cbn. lia. }
  rewrite C, reshape_plain by auto. set (t1 := Tn M _). rewrite sizes_ok by exact HA.
  assert (RP : Forall (fun r => 1 <= r) (map (fun a => nth (Z.to_nat a) (shp other) 0) axes)).
  { rewrite Forall_map. eapply Forall_impl; [|exact HA]. cbn beta. intros a Ha. apply positive_nth; [exact P2|lia]. }
  destruct (repeated_ok axes (map (fun a => nth (Z.to_nat a) (shp other) 0) axes) t1) as [t' [E [L' [S' A']]]]; [rewrite map_length; reflexivity|cbn [shp t1]; rewrite M1; exact HA|exact RP|].
  exists t'. split; [exact E|]. cbn [shp t1] in L', S'.
  assert (HP : Forall (fun a => 0 <= a) axes) by (eapply Forall_impl; [|exact HA]; cbn; lia).
  assert (MS : forall i, mult axes (map (fun a => nth (Z.to_nat a) (shp other) 0) axes) i = if existsb (Z.eqb (Z.of_nat i)) axes then nth i (shp other) 0 else 1) by (intro i; apply mult_sizes; assumption).
  split.
  - unfold stretched. split; [rewrite L'; exact M1|]. split.
    + transitivity (without axes 0 M); [|exact M2]. apply without_same; [exact L'|]. intros j Hj. cbn [Z.add] in Hj. rewrite S', MS, Hj. ring.
    + intros i Hi Hr. rewrite S', MS, Z2Nat.id by lia. assert (X : existsb (Z.eqb i) axes = true) by (apply existsb_exists; exists i; split; [exact Hi|apply Z.eqb_refl]). rewrite X.
      rewrite (M4 (Z.to_nat i)); [ring| |lia]. rewrite Z2Nat.id by lia. exact X.
  - intros idx HI. set (d := fun i : nat => if existsb (Z.eqb (Z.of_nat i)) axes then nth i (shp other) 0 else 1).
    set (idx' := map (fun i => nth i idx 0 / d i) (seq 0 (length idx))). apply inside_nth in HI. destruct HI as [HL HN].
    assert (Li : length idx' = length idx) by (unfold idx'; rewrite map_length, seq_length; reflexivity).
    assert (Ni : forall i, nth i idx' 0 = nth i idx 0 / d i).
    { intro i. destruct (Nat.lt_ge_cases i (length idx)) as [K|K]; [unfold idx'; rewrite nth_map_seq by exact K; reflexivity|]. rewrite !nth_overflow by lia. rewrite Zdiv_0_l. reflexivity. }
    rewrite (A' idx idx' Li) by (intro i; rewrite MS; apply Ni). unfold t1. cbn [at_].
    assert (HI' : inside M idx').
    { apply inside_nth. split; [congruence|]. intros i Hi. rewrite Ni. specialize (HN i ltac:(lia)). rewrite S', MS in HN. fold (d i) in HN.
      assert (P : 1 <= d i) by (unfold d; destruct (existsb _ _); [apply positive_nth; [exact P2|unfold n in *; lia]|lia]). split; [apply Z.div_pos; lia|]. apply Z.div_lt_upper_bound; lia. }
    destruct (M5 idx' HI') as [R1 R2]. rewrite R1, unravel_ravel by exact R2. f_equal. apply without_same; [exact Li|]. intros j Hj. cbn [Z.add] in Hj. rewrite Ni. unfold d. rewrite Hj, Z.div_1_r. reflexivity.
Qed.
End Rep.
