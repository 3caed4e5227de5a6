(** C35: the bitmap. C36: NodeSet. *)
From Coq Require Import List ZArith Bool Lia Permutation.
From Verif Require Import BroadcastModel BroadcastProofs BitsetModel BitsetSpec.
Import ListNotations.
Local Open Scope Z_scope.

(** ** C35 *)
Definition bitAt (bm : bitmap) (i : Z) : bool := Z.testbit (nth (Z.to_nat (i / 64)) (words bm) 0) (i mod 64).
Definition wellFormed (bm : bitmap) : Prop := bmax bm <= 64 * Z.of_nat (length (words bm)).
Lemma in_range bm i : wellFormed bm -> 0 <= i < bmax bm -> (Z.to_nat (i / 64) < length (words bm))%nat.
Proof. unfold wellFormed. intros W H. pose proof (Z.div_lt_upper_bound i 64 (Z.of_nat (length (words bm)))). pose proof (Z.div_pos i 64). lia. Qed.
Lemma word_write bm i f : wellFormed bm -> 0 <= i < bmax bm ->
  exists bm', onWord bm i f = Ok bm' /\ bmax bm' = bmax bm /\ wellFormed bm' /\
    forall j, 0 <= j -> bitAt bm' j = if j / 64 =? i / 64 then Z.testbit (f (nth (Z.to_nat (i / 64)) (words bm) 0) (i mod 64)) (j mod 64) else bitAt bm j.
Proof.
  intros W H. pose proof (in_range bm i W H) as L. unfold onWord, bitmapBits. rewrite Z.quot_div_nonneg, Z.rem_mod_nonneg by lia. rewrite (nth_error_nth' (words bm) 0 L). eexists. split; [reflexivity|]. split; [reflexivity|].
  split; [unfold wellFormed; cbn [words bmax]; rewrite len_set; exact W|]. intros j Hj. unfold bitAt. cbn [words]. rewrite nth_set by exact L. pose proof (Z.div_pos i 64). pose proof (Z.div_pos j 64).
  destruct (Nat.eqb_spec (Z.to_nat (j / 64)) (Z.to_nat (i / 64))), (Z.eqb_spec (j / 64) (i / 64)); try lia; reflexivity.
Qed.
Lemma same_place i j : 0 <= i -> 0 <= j -> (j / 64 =? i / 64) && (i mod 64 =? j mod 64) = (j =? i).
Proof.
  intros Hi Hj. pose proof (Z.div_mod i 64). pose proof (Z.div_mod j 64). destruct (Z.eqb_spec (j / 64) (i / 64)), (Z.eqb_spec (i mod 64) (j mod 64)), (Z.eqb_spec j i); subst; try reflexivity; cbn [andb]; lia.
Qed.
Lemma one_bit p n : 0 <= p -> 0 <= n < 64 -> Z.testbit (u64 (Z.shiftl 1 p)) n = (p =? n).
Proof.
  intros Hp Hn. unfold u64. rewrite Z.mod_pow2_bits_low by lia. rewrite Z.shiftl_spec by lia. destruct (Z.eqb_spec p n) as [->|N]; [rewrite Z.sub_diag; reflexivity|]. change 1 with (2 ^ 0). rewrite Z.pow2_bits_eqb by lia. apply Z.eqb_neq. lia.
Qed.
Lemma set_ok bm i : wellFormed bm -> 0 <= i < bmax bm -> exists bm', bmSet bm i = Ok bm' /\ bmax bm' = bmax bm /\ wellFormed bm' /\ forall j, 0 <= j -> bitAt bm' j = (j =? i) || bitAt bm j.
Proof.
  intros W H. unfold bmSet. destruct (Z.leb_spec (bmax bm) i), (Z.ltb_spec i 0); try lia. cbn [orb]. destruct (word_write bm i (fun w pos => Z.lor w (u64 (Z.shiftl 1 pos))) W H) as [bm' [E [M [W' B]]]]. exists bm'. split; [exact E|]. split; [exact M|]. split; [exact W'|].
  intros j Hj. rewrite B by exact Hj. rewrite <- (same_place i j) by lia. destruct (Z.eqb_spec (j / 64) (i / 64)) as [Eq|]; [|reflexivity]. pose proof (Z.mod_pos_bound j 64). pose proof (Z.mod_pos_bound i 64). rewrite Z.lor_spec, one_bit by lia. cbn [andb]. rewrite orb_comm. f_equal. unfold bitAt. rewrite Eq. reflexivity.
Qed.
Lemma clear_ok bm i : wellFormed bm -> 0 <= i < bmax bm -> exists bm', bmClear bm i = Ok bm' /\ bmax bm' = bmax bm /\ wellFormed bm' /\ forall j, 0 <= j -> bitAt bm' j = negb (j =? i) && bitAt bm j.
Proof.
  intros W H. unfold bmClear. destruct (Z.leb_spec (bmax bm) i), (Z.ltb_spec i 0); try lia. cbn [orb]. destruct (word_write bm i (fun w pos => Z.land w (Z.lxor (u64 (Z.shiftl 1 pos)) (2 ^ 64 - 1))) W H) as [bm' [E [M [W' B]]]]. exists bm'. split; [exact E|]. split; [exact M|]. split; [exact W'|].
  intros j Hj. rewrite B by exact Hj. rewrite <- (same_place i j) by lia. destruct (Z.eqb_spec (j / 64) (i / 64)) as [Eq|]; [|reflexivity]. pose proof (Z.mod_pos_bound j 64). pose proof (Z.mod_pos_bound i 64). rewrite Z.land_spec, Z.lxor_spec, one_bit by lia.
  change (2 ^ 64 - 1) with (Z.ones 64). rewrite Z.ones_spec_low by lia. rewrite xorb_true_r. cbn [andb]. rewrite andb_comm. f_equal. unfold bitAt. rewrite Eq. reflexivity.
Qed.
Lemma isset_ok bm i : wellFormed bm -> 0 <= i < bmax bm -> bmIsSet bm i = Ok (bitAt bm i).
Proof.
  intros W H. pose proof (in_range bm i W H) as L. unfold bmIsSet. destruct (Z.leb_spec (bmax bm) i), (Z.ltb_spec i 0); try lia. cbn [orb]. unfold bitmapBits. rewrite Z.quot_div_nonneg, Z.rem_mod_nonneg by lia. rewrite (nth_error_nth' (words bm) 0 L). rewrite bit_land by (apply Z.mod_pos_bound; lia). reflexivity.
Qed.
Lemma new_ok size : 0 <= size -> exists bm, newBitmap size = Ok bm /\ bmax bm = size /\ wellFormed bm /\ forall j, bitAt bm j = false.
Proof.
  intro H. unfold newBitmap, bitmapBits. rewrite Z.quot_div_nonneg, Z.rem_mod_nonneg by lia. pose proof (Z.div_pos size 64). pose proof (Z.div_mod size 64). pose proof (Z.mod_pos_bound size 64).
  set (q := if 0 <? size mod 64 then size / 64 + 1 else size / 64). assert (Q : size <= 64 * q /\ 0 <= q) by (unfold q; destruct (Z.ltb_spec 0 (size mod 64)); lia). destruct (Z.ltb_spec q 0); [lia|]. eexists. split; [reflexivity|]. split; [reflexivity|].
  split; [unfold wellFormed; cbn [words bmax]; rewrite repeat_length; lia|]. intro j. unfold bitAt. cbn [words]. rewrite nth_repeat. apply Z.bits_0.
Qed.
Lemma run_ok ops : forall bm b0, wellFormed bm -> Forall (fun o => 0 <= target o < bmax bm) ops -> (forall i, 0 <= i -> bitAt bm i = b0 i) ->
  exists bm', bmRun bm ops = Ok bm' /\ bmax bm' = bmax bm /\ wellFormed bm' /\
    forall i, 0 <= i -> bitAt bm' i = fold_left (fun b o => match o with OpSet j => if Z.eqb i j then true else b | OpClear j => if Z.eqb i j then false else b end) ops (b0 i).
Proof.
  induction ops as [|o ops IH]; intros bm b0 W HF HB; cbn [bmRun fold_left].
  - exists bm. auto.
  - inversion_clear HF as [|? ? H1 H2]. destruct o as [i|i]; cbn [target bmApply] in *.
    + destruct (set_ok bm i W H1) as [bm1 [E1 [M1 [W1 B1]]]]. rewrite E1. destruct (IH bm1 (fun j => if j =? i then true else b0 j) W1) as [bm' [E [M [W' B']]]]; [rewrite M1; exact H2| |].
      * intros j Hj. rewrite B1, HB by exact Hj. destruct (j =? i); reflexivity.
      * exists bm'. rewrite M, M1. auto.
    + destruct (clear_ok bm i W H1) as [bm1 [E1 [M1 [W1 B1]]]]. rewrite E1. destruct (IH bm1 (fun j => if j =? i then false else b0 j) W1) as [bm' [E [M [W' B']]]]; [rewrite M1; exact H2| |].
      * intros j Hj. rewrite B1, HB by exact Hj. destruct (j =? i); reflexivity.
      * exists bm'. rewrite M, M1. auto.
Qed.
(** After any calls of Set and Clear within range every bit is what the last call that
    named it made it; after that a call out of range panics. *)
Theorem C35_bitmap : forall size ops, 0 <= size -> Forall (fun o => 0 <= target o < size) ops ->
  exists bm0 bm, newBitmap size = Ok bm0 /\ bmRun bm0 ops = Ok bm /\
    (forall i, 0 <= i < size -> bmIsSet bm i = Ok (lastSet ops i)) /\
    (forall i, i < 0 \/ size <= i -> bmIsSet bm i = Panic /\ bmSet bm i = Panic /\ bmClear bm i = Panic).
Proof.
  intros size ops H HF. destruct (new_ok size H) as [bm0 [E0 [M0 [W0 B0]]]]. destruct (run_ok ops bm0 (fun _ => false) W0) as [bm [E [M [W B]]]]; [rewrite M0; exact HF|auto|]. exists bm0, bm. split; [exact E0|]. split; [exact E|]. split.
  - intros i Hi. rewrite isset_ok by (try exact W; lia). rewrite B by lia. reflexivity.
  - intros i Hi. unfold bmIsSet, bmSet, bmClear. destruct (Z.leb_spec (bmax bm) i), (Z.ltb_spec i 0); try lia; cbn [orb]; auto.
Qed.
Print Assumptions C35_bitmap.

(** BlocksWithZero: the first word with a run of more than [atleast] zero bits. *)
Definition hasRun (m : nat) (l : list bool) : Prop := exists p, forall j, (p <= j < p + m)%nat -> nth j l true = false.
Lemma nth_false n : forall j, (j < n)%nat -> nth j (repeat false n) true = false.
Proof. induction n as [|n IH]; intros [|j] Hj; cbn [repeat nth]; try lia; auto. apply IH. lia. Qed.
Lemma run_loop bs : forall c k, 0 <= c <= k -> (runLoop bs c k = true <-> hasRun (Z.to_nat (k + 1)) (repeat false (Z.to_nat c) ++ bs)).
Proof.
  induction bs as [|b bs IH]; intros c k H; cbn [runLoop].
  - split; [discriminate|]. intros [p Hp]. specialize (Hp (p + Z.to_nat k)%nat ltac:(lia)). rewrite app_nil_r in Hp. destruct (Nat.lt_ge_cases (p + Z.to_nat k) (Z.to_nat c)) as [K|K]; [lia|]. rewrite nth_overflow in Hp by (rewrite repeat_length; exact K). discriminate.
  - destruct b.
    + destruct (Z.ltb_spec k 0); [lia|]. rewrite IH by lia. cbn [Z.to_nat repeat app]. set (n := Z.to_nat c). split.
      * intros [p Hp]. exists (n + 1 + p)%nat. intros j Hj. rewrite app_nth2 by (rewrite repeat_length; lia). rewrite repeat_length. replace (j - n)%nat with (S (j - n - 1)) by lia. cbn [nth]. apply Hp. lia.
      * intros [p Hp]. destruct (Nat.lt_ge_cases n p) as [K|K].
        -- exists (p - n - 1)%nat. intros j Hj. specialize (Hp (n + 1 + j)%nat ltac:(lia)). rewrite app_nth2 in Hp by (rewrite repeat_length; lia). rewrite repeat_length in Hp. replace (n + 1 + j - n)%nat with (S j) in Hp by lia. exact Hp.
        -- exfalso. specialize (Hp n ltac:(lia)). rewrite app_nth2 in Hp by (rewrite repeat_length; lia). rewrite repeat_length, Nat.sub_diag in Hp. discriminate.
    + assert (E : repeat false (Z.to_nat c) ++ false :: bs = repeat false (Z.to_nat (c + 1)) ++ bs).
      { replace (Z.to_nat (c + 1)) with (Z.to_nat c + 1)%nat by lia. rewrite repeat_app, <- app_assoc. reflexivity. }
      rewrite E. destruct (Z.ltb_spec k (c + 1)) as [K|K]; [|apply IH; lia]. split; [intros _|reflexivity]. exists 0%nat. intros j Hj. rewrite app_nth1 by (rewrite repeat_length; lia). apply nth_false. lia.
Qed.
Lemma leading l : forall j, (Z.of_nat j < leadingFalse l) -> nth j l true = false.
Proof.
  induction l as [|b l IH]; intros j Hj; cbn [leadingFalse] in Hj; [lia|]. destruct b; [lia|]. destruct j as [|j]; cbn [nth]; [reflexivity|]. apply IH. lia.
Qed.
Lemma leading_bound l : 0 <= leadingFalse l <= Z.of_nat (length l).
Proof. induction l as [|[] l IH]; cbn [leadingFalse length]; lia. Qed.
Lemma bits_len w : length (bitsOf w) = 64%nat.
Proof. unfold bitsOf. rewrite map_length, seq_length. reflexivity. Qed.
Lemma bits_nth w j : (j < 64)%nat -> nth j (bitsOf w) true = Z.testbit w (Z.of_nat j).
Proof. intro H. unfold bitsOf. rewrite (nth_indep _ true (Z.testbit w (Z.of_nat 0))) by (rewrite map_length, seq_length; exact H). rewrite (map_nth (fun j => Z.testbit w (Z.of_nat j))), seq_nth by exact H. reflexivity. Qed.
Lemma all_true l : length (filter (fun b : bool => b) l) = length l -> forall j, nth j l true = true.
Proof.
  assert (B : forall l : list bool, (length (filter (fun b : bool => b) l) <= length l)%nat) by (clear; induction l as [|[] l IH]; cbn [filter length]; lia).
  induction l as [|b l IH]; intros H j; [destruct j; reflexivity|]. destruct b; cbn [filter length] in H; [|specialize (B l); lia]. destruct j as [|j]; cbn [nth]; [reflexivity|]. apply IH. lia.
Qed.
Lemma list_fits (l : list bool) n k : 0 <= k -> length l = n ->
  ((if Z.of_nat (length (filter (fun b : bool => b) l)) =? Z.of_nat n then false else if k <? leadingFalse (rev l) then true else runLoop l 0 k) = true <-> hasRun (Z.to_nat (k + 1)) l).
Proof.
  intros Hk Hl. destruct (Z.eqb_spec (Z.of_nat (length (filter (fun b : bool => b) l))) (Z.of_nat n)) as [E|E].
  - split; [discriminate|]. intros [p Hp]. specialize (Hp p ltac:(lia)). rewrite all_true in Hp by lia. discriminate.
  - destruct (Z.ltb_spec k (leadingFalse (rev l))) as [L|L].
    + split; [intros _|reflexivity]. pose proof (leading_bound (rev l)) as LB. rewrite rev_length, Hl in LB. exists (n - Z.to_nat (k + 1))%nat. intros j Hj.
      pose proof (leading (rev l) (n - 1 - j)%nat ltac:(lia)) as Q. rewrite rev_nth in Q by lia. rewrite Hl in Q. replace (n - S (n - 1 - j))%nat with j in Q by lia. exact Q.
    + rewrite run_loop by lia. reflexivity.
Qed.
Lemma word_fits w k : 0 <= k -> (wordFits w k = true <-> zeroRun w (k + 1)).
Proof.
  intro Hk. transitivity (hasRun (Z.to_nat (k + 1)) (bitsOf w)); [exact (list_fits (bitsOf w) 64 k Hk (bits_len w))|]. split.
  - intros [p Hp]. assert (P : (p + Z.to_nat (k + 1) <= 64)%nat).
    { destruct (Nat.le_gt_cases (p + Z.to_nat (k + 1)) 64) as [K|K]; [exact K|]. specialize (Hp (p + Z.to_nat k)%nat ltac:(lia)). rewrite nth_overflow in Hp by (rewrite bits_len; lia). discriminate. }
    exists (Z.of_nat p). split; [lia|]. split; [lia|]. intros j Hj. specialize (Hp (Z.to_nat j) ltac:(lia)). rewrite bits_nth, Z2Nat.id in Hp by lia. exact Hp.
  - intros [p [H1 [H2 H3]]]. exists (Z.to_nat p). intros j Hj. rewrite bits_nth by lia. apply H3. lia.
Qed.
(** BlocksWithZero returns the first word that has more than [atleast] zero bits in a row,
    and -1 if there is none; exactly [atleast] do not suffice. *)
Theorem C35_blocks : forall bm atleast, 0 <= atleast ->
  (blocksWithZero bm atleast = -1 /\ forall w, In w (words bm) -> ~ zeroRun w (atleast + 1)) \/
  (exists A w B, words bm = A ++ w :: B /\ blocksWithZero bm atleast = Z.of_nat (length A) /\ zeroRun w (atleast + 1) /\ forall v, In v A -> ~ zeroRun v (atleast + 1)).
Proof.
  intros bm k Hk. unfold blocksWithZero. assert (G : forall ws i, (blocksLoop ws i k = -1 /\ forall w, In w ws -> ~ zeroRun w (k + 1)) \/
    (exists A w B, ws = A ++ w :: B /\ blocksLoop ws i k = i + Z.of_nat (length A) /\ zeroRun w (k + 1) /\ forall v, In v A -> ~ zeroRun v (k + 1))).
  { induction ws as [|w ws IH]; intro i; cbn [blocksLoop]; [left; split; [reflexivity|contradiction]|]. destruct (wordFits w k) eqn:E.
    - right. exists [], w, ws. split; [reflexivity|]. split; [cbn [length]; lia|]. split; [apply word_fits; assumption|contradiction].
    - assert (N : ~ zeroRun w (k + 1)) by (intro K; apply word_fits in K; [congruence|exact Hk]). destruct (IH (i + 1)) as [[H1 H2]|[A [v [B [-> [H1 [H2 H3]]]]]]].
      + left. split; [exact H1|]. intros v [<-|Hv]; auto.
      + right. exists (w :: A), v, B. split; [reflexivity|]. split; [cbn [length]; lia|]. split; [exact H2|]. intros u [<-|Hu]; auto. }
  destruct (G (words bm) 0) as [H|[A [w [B [H1 [H2 H3]]]]]]; [left; exact H|right; exists A, w, B; auto].
Qed.
Print Assumptions C35_blocks.

(** So a bitmap of 64 free bits has no block for "at least 64" of them, although it has
    for 63; and the bits past the size of the bitmap count as free. *)
Theorem C35_blocks_refuted : exists bm, newBitmap 64 = Ok bm /\ zeroRun (nth 0 (words bm) 0) 64 /\ blocksWithZero bm 64 = -1 /\ blocksWithZero bm 63 = 0 /\
  exists b1 b2, newBitmap 2 = Ok b1 /\ bmRun b1 [OpSet 0; OpSet 1] = Ok b2 /\ blocksWithZero b2 1 = 0.
Proof.
  eexists. split; [reflexivity|]. split; [exists 0; split; [lia|]; split; [lia|]; intros j _; apply Z.bits_0|]. split; [reflexivity|]. split; [reflexivity|]. eexists _, _. split; [reflexivity|]. split; reflexivity.
Qed.
Print Assumptions C35_blocks_refuted.
Example C35_ex : exists b0 b1, newBitmap 100 = Ok b0 /\ bmRun b0 [OpSet 3; OpSet 70; OpClear 3; OpSet 64] = Ok b1 /\ bmIsSet b1 70 = Ok true /\ bmIsSet b1 3 = Ok false /\ bmIsSet b1 64 = Ok true /\ bmIsSet b1 100 = Panic.
Proof. eexists _, _. repeat split; reflexivity. Qed.

(** ** C36 *)
Local Open Scope nat_scope.
Lemma memb_In x l : memb x l = true <-> In x l.
Proof. unfold memb. rewrite existsb_exists. split; [intros [y [Hy E]]; apply Nat.eqb_eq in E; subst; exact Hy|intro H; exists x; split; [exact H|apply Nat.eqb_refl]]. Qed.
Lemma memb_cons y x xs : memb y (x :: xs) = Nat.eqb y x || memb y xs.
Proof. reflexivity. Qed.
Definition wf (h : sheap) : Prop := forall r, NoDup (maps h r).
(** A call that returned [u] made it a new set with the members [f] and touched no other. *)
Definition produces (h h' : sheap) (u : nat) (f : nat -> bool) : Prop :=
  snext h <= u < snext h' /\ (forall q, q < snext h -> maps h' q = maps h q) /\ wf h' /\ forall x, memb x (maps h' u) = f x.
(** Same next reference, only [u] touched. *)
Definition touches (h h' : sheap) (u : nat) (f : nat -> bool) : Prop :=
  snext h' = snext h /\ (forall q, q <> u -> maps h' q = maps h q) /\ wf h' /\ forall x, memb x (maps h' u) = f x.
Lemma add_ok r x h : wf h -> touches h (snd (setAdd r x h)) r (fun y => Nat.eqb y x || memb y (maps h r)).
Proof.
  intro W. unfold setAdd. cbn [snd]. destruct (memb x (maps h r)) eqn:E.
  - repeat split; auto. intro y. destruct (Nat.eqb_spec y x); [subst; exact E|reflexivity].
  - unfold upd. cbn [maps snext]. repeat split.
    + intros q Hq. cbn [maps]. destruct (Nat.eqb_spec q r); [contradiction|reflexivity].
    + intro q. cbn [maps]. destruct (Nat.eqb_spec q r); [|apply W]. constructor; [|apply W]. rewrite <- memb_In, E. discriminate.
    + intro y. cbn [maps]. rewrite Nat.eqb_refl. unfold memb. cbn [existsb]. reflexivity.
Qed.
Lemma addall_ok r xs : forall h, wf h -> touches h (addAll r xs h) r (fun y => memb y xs || memb y (maps h r)).
Proof.
  induction xs as [|x xs IH]; intros h W; cbn [addAll]; [repeat split; auto|]. destruct (add_ok r x h W) as [A1 [A2 [A3 A4]]]. destruct (IH _ A3) as [B1 [B2 [B3 B4]]]. split; [congruence|]. split; [intros q Hq; rewrite B2, A2 by exact Hq; reflexivity|]. split; [exact B3|].
  intro y. rewrite B4, A4. unfold memb. cbn [existsb]. destruct (Nat.eqb y x), (existsb (Nat.eqb y) xs); reflexivity.
Qed.
Lemma addif_ok u o want xs : u <> o -> forall h, wf h -> touches h (addIf u o want xs h) u (fun y => (memb y xs && Bool.eqb (memb y (maps h o)) want) || memb y (maps h u)).
Proof.
  intro N. induction xs as [|x xs IH]; intros h W; cbn [addIf]; [repeat split; auto|]. unfold setContains at 1. destruct (Bool.eqb (memb x (maps h o)) want) eqn:E.
  - destruct (add_ok u x h W) as [A1 [A2 [A3 A4]]]. destruct (IH _ A3) as [B1 [B2 [B3 B4]]]. split; [congruence|]. split; [intros q Hq; rewrite B2, A2 by exact Hq; reflexivity|]. split; [exact B3|].
    intro y. rewrite B4, A4, A2 by auto. rewrite memb_cons. destruct (Nat.eqb_spec y x) as [->|]; cbn [orb]; [rewrite E; destruct (memb x xs); reflexivity|]. reflexivity.
  - destruct (IH _ W) as [B1 [B2 [B3 B4]]]. split; [exact B1|]. split; [exact B2|]. split; [exact B3|]. intro y. rewrite B4, memb_cons. destruct (Nat.eqb_spec y x) as [->|]; cbn [orb]; [rewrite E; rewrite !andb_false_r; reflexivity|reflexivity].
Qed.
Lemma make_ok h : wf h -> produces h (snd (setMake h)) (fst (setMake h)) (fun _ => false).
Proof.
  intro W. unfold setMake. cbn [fst snd]. split; [cbn [snext]; lia|]. split; [|split].
  - intros q Hq. cbn [maps]. destruct (Nat.eqb_spec q (snext h)); [lia|reflexivity].
  - intro q. cbn [maps]. destruct (Nat.eqb q (snext h)); [constructor|apply W].
  - intro x. cbn [maps]. rewrite Nat.eqb_refl. reflexivity.
Qed.
Lemma produces_touches h h1 h2 u f g : produces h h1 u f -> touches h1 h2 u g -> produces h h2 u g.
Proof.
  intros [[P0 P1] [P2 [P3 P4]]] [T1 [T2 [T3 T4]]]. split; [lia|]. split; [|auto]. intros q Hq. rewrite T2 by lia. apply P2, Hq.
Qed.
Lemma produces_ext h h' u f g : (forall x, f x = g x) -> produces h h' u f -> produces h h' u g.
Proof. intros E [P1 [P2 [P3 P4]]]. split; [exact P1|]. split; [exact P2|]. split; [exact P3|]. intro x. rewrite P4. apply E. Qed.
Lemma new_set_ok xs h : wf h -> produces h (snd (newNodeSet xs h)) (fst (newNodeSet xs h)) (fun x => memb x xs).
Proof.
  intro W. unfold newNodeSet. pose proof (make_ok h W) as P. destruct (setMake h) as [r h1]. cbn [fst snd] in *. pose proof P as [P1 [P2 [P3 P4]]]. eapply produces_touches; [exact P|]. destruct (addall_ok r xs h1 P3) as [A1 [A2 [A3 A4]]]. split; [exact A1|]. split; [exact A2|]. split; [exact A3|]. intro x. rewrite A4, P4, orb_false_r. reflexivity.
Qed.
Section Ord.
Variable order : nat -> list nat -> list nat.
Hypothesis any_order : forall k l, Permutation (order k l) l.
Lemma order_memb k l x : memb x (order k l) = memb x l.
Proof. apply eq_true_iff_eq. rewrite !memb_In. split; apply Permutation_in; [apply any_order|apply Permutation_sym, any_order]. Qed.
Lemma forallb_order k l (f : nat -> bool) : forallb f (order k l) = forallb f l.
Proof. apply eq_true_iff_eq. rewrite !forallb_forall. split; intros H x Hx; apply H; eapply Permutation_in; try exact Hx; [apply Permutation_sym|]; apply any_order. Qed.
Lemma union_ok r o h : wf h -> r < snext h -> o < snext h -> produces h (snd (setUnion order r o h)) (fst (setUnion order r o h)) (fun x => memb x (maps h r) || memb x (maps h o)).
Proof.
  intros W Hr Ho. unfold setUnion. pose proof (new_set_ok [] h W) as P. destruct (newNodeSet [] h) as [u h1]. cbn [fst snd] in *. pose proof P as [P1 [P2 [P3 P4]]].
  destruct (addall_ok u (order 3 (maps h1 r)) h1 P3) as [A1 [A2 [A3 A4]]]. set (h2 := addAll u (order 3 (maps h1 r)) h1) in *. destruct (addall_ok u (order 4 (maps h2 o)) h2 A3) as [B1 [B2 [B3 B4]]].
  eapply produces_touches; [exact P|]. split; [congruence|]. split; [intros q Hq; rewrite B2, A2 by exact Hq; reflexivity|]. split; [exact B3|]. intro x. rewrite B4, A4, !order_memb, P4. rewrite A2, !P2 by lia. cbn [memb existsb]. rewrite orb_false_r. apply orb_comm.
Qed.
Lemma difference_ok r o h : wf h -> r < snext h -> o < snext h -> produces h (snd (setDifference order r o h)) (fst (setDifference order r o h)) (fun x => memb x (maps h r) && negb (memb x (maps h o))).
Proof.
  intros W Hr Ho. unfold setDifference. pose proof (new_set_ok [] h W) as P. destruct (newNodeSet [] h) as [u h1]. cbn [fst snd] in *. pose proof P as [P1 [P2 [P3 P4]]].
  destruct (addif_ok u o false (order 7 (maps h1 r)) ltac:(lia) h1 P3) as [A1 [A2 [A3 A4]]]. eapply produces_touches; [exact P|]. split; [exact A1|]. split; [exact A2|]. split; [exact A3|]. intro x. rewrite A4, order_memb, P4, !P2 by lia. cbn [memb existsb]. rewrite orb_false_r. destruct (memb x (maps h o)); reflexivity.
Qed.
Lemma intersect_ok r o h : wf h -> r < snext h -> o < snext h -> produces h (snd (setIntersect order r o h)) (fst (setIntersect order r o h)) (fun x => memb x (maps h r) && memb x (maps h o)).
Proof.
  intros W Hr Ho. unfold setIntersect. pose proof (new_set_ok [] h W) as P. destruct (newNodeSet [] h) as [u h1]. cbn [fst snd] in *. pose proof P as [P1 [P2 [P3 P4]]]. destruct (setCard r h1 <? setCard o h1); cbn [fst snd].
  - destruct (addif_ok u o true (order 5 (maps h1 r)) ltac:(lia) h1 P3) as [A1 [A2 [A3 A4]]]. eapply produces_touches; [exact P|]. split; [exact A1|]. split; [exact A2|]. split; [exact A3|]. intro x. rewrite A4, order_memb, P4, !P2 by lia. cbn [memb existsb]. rewrite orb_false_r. destruct (memb x (maps h o)); reflexivity.
  - destruct (addif_ok u r true (order 6 (maps h1 o)) ltac:(lia) h1 P3) as [A1 [A2 [A3 A4]]]. eapply produces_touches; [exact P|]. split; [exact A1|]. split; [exact A2|]. split; [exact A3|]. intro x. rewrite A4, order_memb, P4, !P2 by lia. cbn [memb existsb]. rewrite orb_false_r. destruct (memb x (maps h r)), (memb x (maps h o)); reflexivity.
Qed.
Lemma clone_ok r h : wf h -> r < snext h -> produces h (snd (setClone order r h)) (fst (setClone order r h)) (fun x => memb x (maps h r)).
Proof.
  intros W Hr. unfold setClone. pose proof (new_set_ok [] h W) as P. destruct (newNodeSet [] h) as [u h1]. cbn [fst snd] in *. pose proof P as [P1 [P2 [P3 P4]]]. destruct (addall_ok u (order 9 (maps h1 r)) h1 P3) as [A1 [A2 [A3 A4]]].
  eapply produces_touches; [exact P|]. split; [exact A1|]. split; [exact A2|]. split; [exact A3|]. intro x. rewrite A4, order_memb, P4, P2 by lia. cbn [memb existsb]. apply orb_false_r.
Qed.
Lemma symdiff_ok r o h : wf h -> r < snext h -> o < snext h -> produces h (snd (setSymmetricDifference order r o h)) (fst (setSymmetricDifference order r o h)) (fun x => xorb (memb x (maps h r)) (memb x (maps h o))).
Proof.
  intros W Hr Ho. unfold setSymmetricDifference. pose proof (difference_ok r o h W Hr Ho) as P. destruct (setDifference order r o h) as [a h1]. cbn [fst snd] in P. destruct P as [P1 [P2 [P3 P4]]].
  pose proof (difference_ok o r h1 P3 ltac:(lia) ltac:(lia)) as Q. destruct (setDifference order o r h1) as [b h2]. cbn [fst snd] in Q. destruct Q as [Q1 [Q2 [Q3 Q4]]].
  destruct (union_ok a b h2 Q3 ltac:(lia) ltac:(lia)) as [R1 [R2 [R3 R4]]]. split; [lia|]. split; [intros q Hq; rewrite R2, Q2, P2 by lia; reflexivity|]. split; [exact R3|]. intro x. rewrite R4, Q4, Q2, P4, !P2 by lia. destruct (memb x (maps h r)), (memb x (maps h o)); reflexivity.
Qed.

(** The variables and the characteristic functions agree. *)
Record agree (vs : list nat) (h : sheap) (cs : chars) : Prop := {
  ag_len : length vs = length cs; ag_dup : NoDup vs; ag_old : forall k, k < length vs -> nth k vs 0 < snext h; ag_wf : wf h;
  ag_mem : forall k x, k < length vs -> memb x (maps h (nth k vs 0)) = char cs k x }.
Lemma bind_ok vs h cs u h' f : agree vs h cs -> produces h h' u f -> agree (vs ++ [u]) h' (cs ++ [f]).
Proof.
  intros [A1 A2 A3 A4 A5] [[P0 P1] [P2 [P3 P4]]]. constructor.
  - rewrite !app_length. cbn [length]. lia.
  - apply (Permutation_NoDup (l := u :: vs)); [apply Permutation_cons_append|]. constructor; [|exact A2]. intro K. apply (In_nth _ _ 0) in K. destruct K as [k [Hk E]]. specialize (A3 k Hk). lia.
  - intros k Hk. rewrite app_length in Hk. cbn [length] in Hk. destruct (Nat.lt_ge_cases k (length vs)) as [K|K]; [rewrite app_nth1 by exact K; specialize (A3 k K); lia|]. rewrite app_nth2 by exact K. replace (k - length vs) with 0 by lia. cbn [nth]. lia.
  - exact P3.
  - intros k x Hk. rewrite app_length in Hk. cbn [length] in Hk. unfold char. destruct (Nat.lt_ge_cases k (length vs)) as [K|K].
    + rewrite !app_nth1 by lia. rewrite P2 by (apply A3, K). apply A5, K.
    + rewrite !app_nth2 by lia. replace (k - length vs) with 0 by lia. replace (k - length cs) with 0 by lia. apply P4.
Qed.
Lemma put_len cs : forall k f, length (putChar cs k f) = length cs.
Proof. induction cs as [|c cs IH]; intros [|k] f; cbn [putChar length]; auto. Qed.
Lemma put_nth cs : forall k f j, k < length cs -> char (putChar cs k f) j = if Nat.eqb j k then f else char cs j.
Proof. unfold char. induction cs as [|c cs IH]; intros [|k] f [|j] H; cbn [putChar nth length Nat.eqb] in *; try lia; auto. apply IH. lia. Qed.
Lemma setnat_len l : forall k v, length (setNat l k v) = length l.
Proof. induction l as [|c l IH]; intros [|k] v; cbn [setNat length]; auto. Qed.
Lemma setnat_nth l : forall k v j, k < length l -> nth j (setNat l k v) 0 = if Nat.eqb j k then v else nth j l 0.
Proof. induction l as [|c l IH]; intros [|k] v [|j] H; cbn [setNat nth length Nat.eqb] in *; try lia; auto. apply IH. lia. Qed.
Lemma touch_ok vs h cs k h' f : agree vs h cs -> k < length vs -> touches h h' (nth k vs 0) f -> agree vs h' (putChar cs k f).
Proof.
  intros [A1 A2 A3 A4 A5] Hk [T1 [T2 [T3 T4]]]. constructor; auto.
  - rewrite put_len. exact A1.
  - intros j Hj. rewrite T1. apply A3, Hj.
  - intros j x Hj. rewrite put_nth by lia. destruct (Nat.eqb_spec j k) as [->|N]; [apply T4|]. rewrite T2; [apply A5, Hj|]. intro E. apply N. apply (proj1 (NoDup_nth vs 0) A2); auto.
Qed.
Lemma touches_ext h h' u f g : (forall x, f x = g x) -> touches h h' u f -> touches h h' u g.
Proof. intros E [P1 [P2 [P3 P4]]]. split; [exact P1|]. split; [exact P2|]. split; [exact P3|]. intro x. rewrite P4. apply E. Qed.
Lemma step_ok vs h cs o : agree vs h cs -> usable (length vs) o -> agree (fst (sstep order (vs, h) o)) (snd (sstep order (vs, h) o)) (cstep cs o).
Proof.
  intros A U. pose proof A as [A1 A2 A3 A4 A5]. destruct o as [xs|k x|k x|k j|k j|k j|k j|k|k]; cbn [usable] in U; cbn [sstep cstep bindVar fst snd].
  - eapply bind_ok; [exact A|]. apply (new_set_ok xs h A4).
  - apply (touch_ok vs h cs k _ _ A U). eapply touches_ext; [|apply add_ok, A4]. intro y. cbn beta. rewrite A5 by exact U. reflexivity.
  - apply (touch_ok vs h cs k _ _ A U). unfold setRemove, upd. split; [reflexivity|]. split; [intros q Hq; cbn [maps]; destruct (Nat.eqb_spec q (nth k vs 0)); [contradiction|reflexivity]|]. split.
    + intro q. cbn [maps]. destruct (Nat.eqb q (nth k vs 0)); [apply NoDup_filter|]; apply A4.
    + intro y. cbn [maps]. rewrite Nat.eqb_refl. rewrite <- A5 by exact U. apply eq_true_iff_eq. rewrite andb_true_iff, !memb_In, filter_In. tauto.
  - eapply bind_ok; [exact A|]. eapply produces_ext; [|apply (union_ok (nth k vs 0) (nth j vs 0) h A4); apply A3; tauto]. intro y. cbn beta. rewrite !A5 by tauto. reflexivity.
  - eapply bind_ok; [exact A|]. eapply produces_ext; [|apply (intersect_ok (nth k vs 0) (nth j vs 0) h A4); apply A3; tauto]. intro y. cbn beta. rewrite !A5 by tauto. reflexivity.
  - eapply bind_ok; [exact A|]. eapply produces_ext; [|apply (difference_ok (nth k vs 0) (nth j vs 0) h A4); apply A3; tauto]. intro y. cbn beta. rewrite !A5 by tauto. reflexivity.
  - eapply bind_ok; [exact A|]. eapply produces_ext; [|apply (symdiff_ok (nth k vs 0) (nth j vs 0) h A4); apply A3; tauto]. intro y. cbn beta. rewrite !A5 by tauto. reflexivity.
  - eapply bind_ok; [exact A|]. eapply produces_ext; [|apply (clone_ok (nth k vs 0) h A4); apply A3, U]. intro y. cbn beta. rewrite !A5 by exact U. reflexivity.
  - pose proof (make_ok h A4) as P. unfold setClear. destruct (setMake h) as [r h1]. cbn [fst snd] in *. destruct P as [[P0 P1] [P2 [P3 P4]]]. constructor.
    + rewrite setnat_len, put_len. exact A1.
    + apply (NoDup_nth _ 0). rewrite setnat_len. intros i j Hi Hj. rewrite !setnat_nth by exact U. pose proof (A3 i Hi). pose proof (A3 j Hj). destruct (Nat.eqb_spec i k), (Nat.eqb_spec j k); try lia. apply (proj1 (NoDup_nth vs 0) A2); auto.
    + rewrite setnat_len. intros j Hj. rewrite setnat_nth by exact U. pose proof (A3 j Hj). destruct (Nat.eqb j k); lia.
    + exact P3.
    + rewrite setnat_len. intros j x Hj. rewrite setnat_nth, put_nth by lia. destruct (Nat.eqb j k); [apply P4|]. rewrite P2 by (apply A3, Hj). apply A5, Hj.
Qed.
Lemma step_len vs h o : length (fst (sstep order (vs, h) o)) = match o with SAdd _ _ | SRemove _ _ | SClear _ => length vs | _ => S (length vs) end.
Proof.
  destruct o; cbn [sstep bindVar fst snd]; try reflexivity; try (rewrite app_length; cbn [length]; lia). unfold setClear. destruct (setMake h). cbn [fst]. apply setnat_len.
Qed.
Lemma runs_ok ops : forall vs h cs, agree vs h cs -> usableAll (length vs) ops ->
  agree (fst (fold_left (sstep order) ops (vs, h))) (snd (fold_left (sstep order) ops (vs, h))) (fold_left cstep ops cs).
Proof.
  induction ops as [|o ops IH]; intros vs h cs A U; cbn [fold_left]; [exact A|]. destruct U as [U1 U2]. pose proof (step_ok vs h cs o A U1) as S1. pose proof (step_len vs h o) as L. destruct (sstep order (vs, h) o) as [vs' h']. cbn [fst snd] in *. apply IH; [exact S1|]. rewrite L. exact U2.
Qed.
Lemma card_same (l m : list nat) : NoDup l -> NoDup m -> length l = length m -> incl l m -> incl m l.
Proof. intros N1 N2 L I. apply NoDup_length_incl; [exact N1|lia|exact I]. Qed.

(** Any program over sets, with any iteration order of the maps: every variable holds the
    set it holds in mathematics, so no call changes a set it does not name, and all tests
    give the mathematical answers. *)
Theorem C36_programs : forall ops, usableAll 0 ops ->
  let vs := fst (srun order ops) in let h := snd (srun order ops) in let cs := crun ops in
  length vs = length cs /\ forall k j, k < length vs -> j < length vs ->
    (forall x, setContains (nth k vs 0) x h = char cs k x) /\
    (setIsSubset order (nth k vs 0) (nth j vs 0) h = true <-> forall x, char cs k x = true -> char cs j x = true) /\
    (setIsSuperset order (nth k vs 0) (nth j vs 0) h = true <-> forall x, char cs j x = true -> char cs k x = true) /\
    (setEqual order (nth k vs 0) (nth j vs 0) h = true <-> forall x, char cs k x = char cs j x) /\
    (forall xs, setContainsAll (nth k vs 0) xs h = true <-> forall x, In x xs -> char cs k x = true) /\
    NoDup (setToSlice order (nth k vs 0) h) /\ (forall x, In x (setToSlice order (nth k vs 0) h) <-> char cs k x = true) /\
    setCard (nth k vs 0) h = length (setToSlice order (nth k vs 0) h) /\
    (forall x, fst (setAdd (nth k vs 0) x h) = negb (char cs k x)).
Proof.
  intros ops U vs h cs. assert (A : agree vs h cs).
  { apply runs_ok; [|exact U]. constructor; [reflexivity|constructor|intros k Hk; cbn [length] in Hk; lia|intro r; constructor|]. intros k x Hk. cbn [length] in Hk. lia. }
  destruct A as [A1 A2 A3 A4 A5]. split; [exact A1|]. intros k j Hk Hj. assert (M : forall i x, i < length vs -> (In x (maps h (nth i vs 0)) <-> char cs i x = true)) by (intros i x Hi; rewrite <- memb_In, A5 by exact Hi; tauto).
  assert (Sub : forall k j, k < length vs -> j < length vs -> (setIsSubset order (nth k vs 0) (nth j vs 0) h = true <-> forall x, char cs k x = true -> char cs j x = true)).
  { intros k' j' Hk' Hj'. unfold setIsSubset. rewrite forallb_order, forallb_forall. unfold setContains. split; intros H x Hx; [rewrite <- A5 by exact Hj'; apply H, M; assumption|rewrite A5 by exact Hj'; apply H, M; assumption]. }
  split; [intro x; apply A5, Hk|]. split; [apply Sub; assumption|]. split; [unfold setIsSuperset; apply Sub; assumption|]. split.
  - unfold setEqual, setCard. destruct (Nat.eqb_spec (length (maps h (nth k vs 0))) (length (maps h (nth j vs 0)))) as [E|E].
    + rewrite forallb_order, forallb_forall. unfold setContains. split.
      * intros H x. assert (I : incl (maps h (nth k vs 0)) (maps h (nth j vs 0))) by (intros y Hy; apply memb_In, H, Hy). pose proof (card_same _ _ (A4 _) (A4 _) E I) as I'. apply eq_true_iff_eq. rewrite <- !M by assumption. split; [apply I|apply I'].
      * intros H x Hx. apply memb_In, M; [exact Hj|]. rewrite <- H. apply M; assumption.
    + split; [discriminate|]. intro H. exfalso. apply E. apply Nat.le_antisymm; (apply NoDup_incl_length; [apply A4|]); intros x Hx; apply M in Hx; try assumption; apply M; try assumption; [rewrite <- H|rewrite H]; exact Hx.
  - split; [|split; [|split; [|split]]].
    + intro xs. unfold setContainsAll. rewrite forallb_forall. unfold setContains. split; intros H x Hx; [rewrite <- A5 by exact Hk|rewrite A5 by exact Hk]; apply H, Hx.
    + unfold setToSlice. eapply Permutation_NoDup; [apply Permutation_sym, any_order|apply A4].
    + intro x. unfold setToSlice. rewrite <- M by exact Hk. split; apply Permutation_in; [apply any_order|apply Permutation_sym, any_order].
    + unfold setCard, setToSlice. symmetry. apply Permutation_length, any_order.
    + intro x. unfold setAdd. cbn [fst]. rewrite A5 by exact Hk. reflexivity.
Qed.
End Ord.
Print Assumptions C36_programs.

Definition prog : list sop := [SNew [1; 2; 3]; SNew [3; 4; 3]; SUnion 0 1; SIntersect 0 1; SSymmetric 0 1; SRemove 0 3; SClear 1; SAdd 1 9].
Example C36_ex : usableAll 0 prog /\ map (fun r => rev (maps (snd (srun (fun _ l => rev l) prog)) r)) (fst (srun (fun _ l => rev l) prog)) = [[1; 2]; [9]; [1; 2; 3; 4]; [3]; [1; 2; 4]].
Proof. split; [vm_compute; repeat split; repeat constructor|vm_compute; reflexivity]. Qed.
