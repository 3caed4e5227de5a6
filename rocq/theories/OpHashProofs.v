(** Printing of numbers is injective, and so are the formats of the hashes. *)
From Coq Require Import Arith ZArith NArith List Bool String Ascii Lia.
From Verif Require Import ConvModel PoolModel DropoutModel CtcModel OpHashModel OpHashSpec.
Import ListNotations.
Open Scope string_scope.
Open Scope nat_scope.

Lemma app_assoc_s a b c : (a ++ b) ++ c = a ++ (b ++ c).
Proof. induction a as [|x a IH]; cbn [append]; [reflexivity|]. rewrite IH. reflexivity. Qed.
Lemma app_nil_s a : a ++ "" = a.
Proof. induction a as [|x a IH]; cbn [append]; [reflexivity|]. rewrite IH. reflexivity. Qed.
Lemma app_length_s a b : String.length (a ++ b) = String.length a + String.length b.
Proof. induction a as [|x a IH]; cbn [append String.length]; [reflexivity|]. rewrite IH. reflexivity. Qed.

(** ** Digits *)
Definition isDigit (c : ascii) : bool := (48 <=? nat_of_ascii c) && (nat_of_ascii c <=? 57).
Fixpoint allDigits (s : string) : bool :=
  match s with EmptyString => true | String c r => isDigit c && allDigits r end.
Lemma digit_val n : n < 10 -> nat_of_ascii (digit n) = 48 + n.
Proof. intro H. unfold digit. apply nat_ascii_embedding. lia. Qed.
Lemma digit_ok n : n < 10 -> isDigit (digit n) = true.
Proof. intro H. unfold isDigit. rewrite digit_val by exact H. apply andb_true_intro. split; apply Nat.leb_le; lia. Qed.
Lemma allDigits_app a b : allDigits (a ++ b) = allDigits a && allDigits b.
Proof. induction a as [|x a IH]; cbn [append allDigits]; [reflexivity|]. rewrite IH, andb_assoc. reflexivity. Qed.

Fixpoint value (acc : nat) (s : string) : nat :=
  match s with EmptyString => acc | String c r => value (10 * acc + (nat_of_ascii c - 48)) r end.
Lemma value_snoc s c : forall acc, value acc (s ++ String c "") = 10 * value acc s + (nat_of_ascii c - 48).
Proof. induction s as [|x s IH]; intro acc; cbn [append value]; [reflexivity|]. apply IH. Qed.

Lemma digitsF_ok fuel : forall n, n < fuel -> allDigits (digitsF fuel n) = true /\ value 0 (digitsF fuel n) = n.
Proof.
  induction fuel as [|f IH]; intros n H; [lia|]. cbn [digitsF]. destruct (Nat.ltb_spec n 10) as [L|L].
  - cbn [allDigits value]. rewrite digit_ok, digit_val by exact L. split; [reflexivity|lia].
  - assert (D : n / 10 < n) by (apply Nat.div_lt; lia).
    assert (M : n mod 10 < 10) by (apply Nat.mod_upper_bound; lia).
    destruct (IH (n / 10) ltac:(lia)) as [A B]. rewrite allDigits_app, A, value_snoc, B. cbn [allDigits].
    rewrite digit_ok, digit_val by exact M. split; [reflexivity|]. pose proof (Nat.div_mod n 10 ltac:(lia)). lia.
Qed.
Lemma dec_digits n : allDigits (dec n) = true.
Proof. apply digitsF_ok. lia. Qed.
Lemma dec_inj n m : dec n = dec m -> n = m.
Proof.
  intro E. unfold dec in E. rewrite <- (proj2 (digitsF_ok (S n) n ltac:(lia))), <- (proj2 (digitsF_ok (S m) m ltac:(lia))).
  rewrite E. reflexivity.
Qed.

(** ** Taking formats apart *)
Lemma split_digits s : forall s' c r c' r', allDigits s = true -> allDigits s' = true -> isDigit c = false -> isDigit c' = false ->
  s ++ String c r = s' ++ String c' r' -> s = s' /\ c = c' /\ r = r'.
Proof.
  induction s as [|x s IH]; intros [|x' s'] c r c' r' A A' N N' E; cbn [append allDigits] in *.
  - injection E as -> ->. auto.
  - injection E as -> ->. apply andb_prop in A'. destruct A' as [A' _]. congruence.
  - injection E as -> <-. apply andb_prop in A. destruct A as [A _]. congruence.
  - injection E as -> E. apply andb_prop in A, A'. destruct (IH s' c r c' r') as [-> [-> ->]]; tauto.
Qed.
Lemma dec_sep n m c r c' r' : isDigit c = false -> isDigit c' = false ->
  dec n ++ String c r = dec m ++ String c' r' -> n = m /\ r = r'.
Proof.
  intros N N' E. apply split_digits in E; auto using dec_digits. destruct E as [E [_ ->]]. apply dec_inj in E. auto.
Qed.
Lemma app_tail_inj a : forall a' b b', String.length b = String.length b' -> a ++ b = a' ++ b' -> a = a' /\ b = b'.
Proof.
  induction a as [|x a IH]; intros [|x' a'] b b' L E; cbn [append] in E.
  - auto.
  - exfalso. subst b. cbn [String.length] in L. rewrite app_length_s in L. lia.
  - exfalso. subst b'. cbn [String.length] in L. rewrite app_length_s in L. lia.
  - injection E as -> E. destruct (IH a' b b' L E) as [-> ->]. auto.
Qed.

Lemma decZ_sep z z' c r c' r' : isDigit c = false -> isDigit c' = false ->
  decZ z ++ String c r = decZ z' ++ String c' r' -> z = z' /\ r = r'.
Proof.
  assert (D : forall n, exists d t, dec n = String d t /\ isDigit d = true).
  { intro n. assert (A := dec_digits n). destruct (dec n) as [|d t] eqn:E.
    - exfalso. unfold dec in E. cbn [digitsF] in E. destruct (Nat.ltb n 10); [discriminate|].
      destruct (digitsF n (n / 10)); discriminate.
    - exists d, t. cbn [allDigits] in A. apply andb_prop in A. split; [reflexivity|tauto]. }
  intros N N' E. unfold decZ in E. destruct (Z.ltb_spec z 0), (Z.ltb_spec z' 0).
  - cbn [append] in E. injection E as E. apply dec_sep in E; auto. destruct E as [E ->]. split; [lia|reflexivity].
  - exfalso. destruct (D (Z.to_nat z')) as [d [t [Q Qd]]]. rewrite Q in E. cbn [append] in E. injection E as <- _. discriminate.
  - exfalso. destruct (D (Z.to_nat z)) as [d [t [Q Qd]]]. rewrite Q in E. cbn [append] in E. injection E as -> _. discriminate.
  - apply dec_sep in E; auto. destruct E as [E ->]. split; [lia|reflexivity].
Qed.

Lemma lowByte_eq a b : lowByte a = lowByte b <-> a mod 256 = b mod 256.
Proof.
  assert (M : forall n, nat_of_ascii (ascii_of_nat n) = n mod 256).
  { intro n. unfold nat_of_ascii, ascii_of_nat, ascii_of_N, N_of_ascii.
    assert (P : forall k, N_of_ascii (ascii_of_N k) = (k mod 256)%N).
    { intro k. destruct k as [|p]; [reflexivity|].
      change (ascii_of_N (N.pos p)) with (ascii_of_pos p).
      do 8 (try (destruct p as [p|p|]; [| |reflexivity])).
      all: try reflexivity. all: apply (N.mod_unique _ _ (N.pos p)); reflexivity. }
    fold (ascii_of_N (N.of_nat n)). fold (N_of_ascii (ascii_of_N (N.of_nat n))).
    rewrite P. rewrite N2Nat.inj_mod, Nat2N.id. reflexivity. }
  unfold lowByte. split.
  - intro E. injection E as E. rewrite <- !M, E. reflexivity.
  - intro E. f_equal. rewrite <- (ascii_nat_embedding (ascii_of_nat a)), <- (ascii_nat_embedding (ascii_of_nat b)), !M, E. reflexivity.
Qed.

Ltac peel E :=
  repeat (cbn [append] in E;
    match type of E with
    | (dec _ ++ String _ _ = dec _ ++ String _ _)%string =>
        apply dec_sep in E; [let H := fresh "P" in destruct E as [H E]|reflexivity|reflexivity]
    | (decZ _ ++ String _ _ = decZ _ ++ String _ _)%string =>
        apply decZ_sep in E; [let H := fresh "P" in destruct E as [H E]|reflexivity|reflexivity]
    | String _ _ = String _ _ => injection E as E
    end).

Lemma colBytes_inj i j : colBytes i = colBytes j <->
  kh i = kh j /\ kw i = kw j /\ ConvModel.padH i = ConvModel.padH j /\ ConvModel.padW i = ConvModel.padW j
  /\ strideH i = strideH j /\ strideW i = strideW j.
Proof.
  unfold colBytes. split.
  - intro E. peel E. apply dec_inj in E. auto 10.
  - intros (-> & -> & -> & -> & -> & ->). reflexivity.
Qed.
Lemma poolBytes_inj b c h w p b' c' h' w' p' : poolBytes b c h w p = poolBytes b' c' h' w' p' <->
  b = b' /\ c = c' /\ h = h' /\ w = w' /\ ph_ p = ph_ p' /\ pw_ p = pw_ p' /\ padNorth p = padNorth p'
  /\ padWest p = padWest p' /\ pstrideH p = pstrideH p' /\ pstrideW p = pstrideW p'.
Proof.
  unfold poolBytes. split.
  - intro E. peel E. auto 15.
  - intros (-> & -> & -> & -> & -> & -> & -> & -> & -> & ->). reflexivity.
Qed.
Lemma fmtBool_inj a b r r' : fmtBool a ++ r = fmtBool b ++ r' -> a = b /\ r = r'.
Proof. destruct a, b; cbn [fmtBool append]; intro E; try discriminate; injection E as E; auto. Qed.

Lemma sliceBytes_inj d al s d' al' s' :
  writeHash (Slice d al s) = writeHash (Slice d' al' s') <-> seenOf (Slice d al s) = seenOf (Slice d' al' s').
Proof.
  cbn [writeHash seenOf]. split.
  - intro E. cbn [append] in E. injection E as E1 E.
    assert (Hd : lowByte d = lowByte d') by (unfold lowByte; congruence). apply lowByte_eq in Hd.
    apply app_tail_inj in E; [|reflexivity]. destruct E as [Ea Eb]. apply dec_inj in Ea.
    cbn [append lowByte] in Eb. injection Eb as X Y Z.
    assert (Hx : lowByte (sStart s) = lowByte (sStart s')) by (unfold lowByte; congruence).
    assert (Hy : lowByte (sEnd s) = lowByte (sEnd s')) by (unfold lowByte; congruence).
    assert (Hz : lowByte (sStep s) = lowByte (sStep s')) by (unfold lowByte; congruence).
    apply lowByte_eq in Hx, Hy, Hz. congruence.
  - intro E. injection E as Hd -> Hx Hy Hz. apply lowByte_eq in Hd, Hx, Hy, Hz. rewrite Hd, Hx, Hy, Hz. reflexivity.
Qed.

Lemma writeHash_iff a b : writeHash a = writeHash b <-> seenOf a = seenOf b.
Proof.
  destruct a, b; try apply sliceBytes_inj;
    try (split; intro E; exfalso; cbn [writeHash seenOf append] in E; discriminate E).
  all: cbn [writeHash seenOf].
  - split; [intro E; peel E; congruence|intro E; injection E as ->; reflexivity].
  - split; [intro E; peel E; apply fmtBool_inj in E; destruct E; congruence|intro E; injection E as -> ->; reflexivity].
  - split; reflexivity.
  - split; [intro E; peel E; apply fmtBool_inj in E; destruct E; congruence|intro E; injection E as ->; reflexivity].
  - split; [intro E; peel E; apply colBytes_inj in E; decompose [and] E; congruence|].
    intro E. f_equal. apply colBytes_inj. injection E. auto 10.
  - split; [intro E; peel E; apply colBytes_inj in E; decompose [and] E; congruence|].
    intro E. f_equal. apply colBytes_inj. injection E. auto 10.
  - split; [intro E; peel E; apply poolBytes_inj in E; decompose [and] E; congruence|].
    intro E. f_equal. apply poolBytes_inj. injection E. intros. subst. auto 15.
  - split; [intro E; peel E; apply poolBytes_inj in E; decompose [and] E; congruence|].
    intro E. f_equal. apply poolBytes_inj. injection E. intros. subst. auto 15.
  - split; reflexivity.
  - split; [intro E; peel E; congruence|intro E; injection E as ->; reflexivity].
  - split; [intro E; peel E; congruence|intro E; injection E as ->; reflexivity].
  - split; [intro E; peel E; congruence|intro E; injection E as ->; reflexivity].
  - split; [intro E; peel E; congruence|intro E; injection E as ->; reflexivity].
  - split; [intro E; peel E; apply dec_inj in E; congruence|intro E; injection E as -> ->; reflexivity].
Qed.
