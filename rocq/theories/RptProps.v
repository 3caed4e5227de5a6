(** C108: repeating a value at run time. *)
From Coq Require Import ZArith QArith List Bool Arith Lia.
From Verif Require Import BroadcastModel RptModel RptSpec.
Import ListNotations.
Open Scope nat_scope.

(** ** Entries *)
Lemma nth_rep : forall (c : list Q) rep i k, i < rep -> k < length c ->
  nth_error (concat (repeat c rep)) (i * length c + k) = nth_error c k.
Proof.
  induction rep as [|rep IH]; intros i k Hi Hk; [lia|]. cbn [repeat concat].
  destruct i as [|i].
  - rewrite nth_error_app1 by lia. reflexivity.
  - rewrite nth_error_app2 by lia.
    replace (S i * length c + k - length c) with (i * length c + k) by lia.
    apply IH; lia.
Qed.
Lemma len_rep : forall (c : list Q) rep, length (concat (repeat c rep)) = rep * length c.
Proof.
  induction rep as [|rep IH]; [reflexivity|]. cbn [repeat concat]. rewrite app_length, IH. lia.
Qed.

Lemma spreadF_len : forall m fuel inner rep d, length d = m * inner -> m <= fuel \/ inner = 0 ->
  length (spreadF fuel inner rep d) = m * rep * inner.
Proof.
  induction m as [|m IH]; intros fuel inner rep d L F.
  - destruct d; [|discriminate]. destruct fuel; reflexivity.
  - destruct inner as [|inner].
    { assert (d = []) as -> by (destruct d; [reflexivity|cbn in L; lia]).
      destruct fuel; cbn; lia. }
    destruct fuel as [|fuel]; [lia|]. cbn [spreadF].
    destruct d as [|a d]; [cbn in L; lia|].
    rewrite app_length, len_rep, firstn_length, Nat.min_l by lia.
    rewrite IH; [lia| |lia]. rewrite skipn_length. lia.
Qed.

Lemma spreadF_nth : forall m fuel inner rep d i k, length d = m * inner -> m <= fuel ->
  i < m * rep -> k < inner ->
  nth_error (spreadF fuel inner rep d) (i * inner + k) = nth_error d (i / rep * inner + k).
Proof.
  induction m as [|m IH]; intros fuel inner rep d i k L F Hi Hk; [lia|].
  destruct fuel as [|fuel]; [lia|]. cbn [spreadF].
  destruct d as [|a d']; [cbn in L; lia|]. set (d := a :: d') in *.
  assert (Lf : length (firstn inner d) = inner) by (rewrite firstn_length; lia).
  assert (R0 : rep <> 0) by lia.
  destruct (lt_dec i rep) as [Li|Li].
  - rewrite nth_error_app1.
    + rewrite <- Lf at 2. rewrite nth_rep by lia. rewrite Nat.div_small by exact Li.
      cbn [Nat.mul Nat.add]. rewrite <- (firstn_skipn inner d) at 2.
      rewrite nth_error_app1 by lia. reflexivity.
    + rewrite len_rep, Lf. nia.
  - rewrite nth_error_app2 by (rewrite len_rep, Lf; nia). rewrite len_rep, Lf.
    replace (i * inner + k - rep * inner) with ((i - rep) * inner + k) by nia.
    rewrite (IH fuel inner rep (skipn inner d)); [|rewrite skipn_length; lia|lia|nia|exact Hk].
    assert (D : i / rep = S ((i - rep) / rep)).
    { replace i with ((i - rep) + 1 * rep) at 1 by lia. rewrite Nat.div_add by exact R0. lia. }
    rewrite D. rewrite <- (firstn_skipn inner d) at 2.
    rewrite nth_error_app2 by lia. rewrite Lf. f_equal. lia.
Qed.

Lemma total_prod : forall s, total s = prod s.
Proof. induction s as [|n s IH]; [reflexivity|]. cbn. unfold total in IH. rewrite IH. reflexivity. Qed.
Lemma prod_app : forall a b, prod (a ++ b) = prod a * prod b.
Proof. induction a as [|n a IH]; intros b; cbn; [lia|]. rewrite IH. lia. Qed.
Lemma setAt_mid : forall P n R v, setAt (P ++ n :: R) (length P) v = P ++ v :: R.
Proof. induction P as [|a P IH]; intros; cbn; [reflexivity|]. rewrite IH. reflexivity. Qed.

Lemma cut_int : forall n, Z.quot (Qnum (inject_Z n)) (Zpos (Qden (inject_Z n))) = n.
Proof. intros n. cbn. apply Z.quot_1_r. Qed.
Lemma counts_int : forall v n, counts v n -> valueToInt v = Ok n.
Proof.
  intros v n (t & T & ->). unfold valueToInt. rewrite cut_int. destruct t; try reflexivity. congruence.
Qed.

Lemma spread_one : forall P n R d, length d = prod P * n * prod R -> spread P n R 1 d d.
Proof.
  intros P n R d L. split; [lia|]. intros o j k Ho Hj Hk.
  rewrite Nat.div_1_r, Nat.mul_1_r. reflexivity.
Qed.

Lemma libRepeat_axis : forall P n R d rep, P ++ n :: R = [n] \/ 2 <= length (P ++ n :: R) ->
  length d = prod (P ++ n :: R) -> (1 <= rep)%Z ->
  exists d', libRepeat (P ++ n :: R) d (length P) rep =
             Ok (P ++ (n * Z.to_nat rep) :: R, d') /\ spread P n R (Z.to_nat rep) d d'.
Proof.
  intros P n R d rep HP L Hr. unfold libRepeat.
  destruct (Z.ltb_spec rep 1) as [Hc|_]; [lia|].
  assert (E : match P ++ n :: R with [] => [1] | [n0] => n0 :: repeat 1 (length P) | _ :: _ :: _ => P ++ n :: R end
              = P ++ n :: R).
  { destruct P as [|p P]; cbn [app] in *.
    - destruct R; reflexivity.
    - destruct (P ++ n :: R) eqn:F; [destruct P; discriminate|reflexivity]. }
  rewrite E. rewrite nth_error_app2, Nat.sub_diag by lia. cbn [nth_error].
  rewrite setAt_mid. exists (spreadF (length d) (total (skipn (S (length P)) (P ++ n :: R))) (Z.to_nat rep) d).
  split; [reflexivity|].
  assert (Es : skipn (S (length P)) (P ++ n :: R) = R).
  { rewrite skipn_app, skipn_all2 by lia. replace (S (length P) - length P) with 1 by lia. reflexivity. }
  rewrite Es, total_prod. rewrite prod_app in L. cbn [prod] in L.
  set (k := Z.to_nat rep) in *. assert (Hk : 1 <= k) by lia.
  split.
  - rewrite (spreadF_len (prod P * n)); [lia|lia|]. destruct (prod R); [right; reflexivity|left; nia].
  - intros o j i Ho Hj Hi. rewrite (spreadF_nth (prod P * n)).
    + f_equal. f_equal. f_equal. replace (o * (n * k) + j) with (o * n * k + j) by lia.
      apply Nat.div_add_l. lia.
    + lia.
    + destruct (prod R); [lia|nia].
    + nia.
    + exact Hi.
Qed.

(** Do repeats along the axis, whatever the shape around it. *)
Theorem C108_repeat : forall t P n R d count rep,
  length d = prod (P ++ n :: R) -> counts count rep -> (1 <= rep)%Z ->
  exists d', repeatDo (length P) (VT t (P ++ n :: R) d) count =
             Ok (VT t (P ++ (n * Z.to_nat rep) :: R) d') /\
             spread P n R (Z.to_nat rep) d d'.
Proof.
  intros t P n R d count rep L C Hr. unfold repeatDo. rewrite (counts_int _ _ C).
  destruct (Z.eqb_spec rep 1) as [->|N].
  - exists d. change (Z.to_nat 1) with 1. rewrite Nat.mul_1_r. split; [reflexivity|].
    apply spread_one. rewrite prod_app in L. cbn [prod] in L. lia.
  - destruct (libRepeat_axis P n R d rep) as (d' & E & S); auto.
    { destruct P as [|p P]; [destruct R as [|r R]|]; cbn [app]; [left; reflexivity|right; cbn; lia|].
      right. cbn. rewrite app_length. cbn. lia. }
    rewrite E. exists d'. auto.
Qed.
Print Assumptions C108_repeat.

(** A scalar becomes a vector of copies, except for one copy, which has no axis. *)
Theorem C108_repeat_scalar : forall t a count rep,
  counts count rep -> (1 <= rep)%Z ->
  repeatDo 0 (VS t a) count =
  Ok (VT t (if (rep =? 1)%Z then [] else [Z.to_nat rep]) (repeat a (Z.to_nat rep))).
Proof.
  intros t a count rep C Hr. unfold repeatDo. rewrite (counts_int _ _ C).
  destruct (Z.eqb_spec rep 1) as [->|N]; [reflexivity|].
  unfold libRepeat. destruct (Z.ltb_spec rep 1); [lia|]. cbn.
  rewrite app_nil_r, Nat.add_0_r. do 2 f_equal.
  induction (Z.to_nat rep) as [|k IH]; [reflexivity|]. cbn. rewrite IH. reflexivity.
Qed.
Print Assumptions C108_repeat_scalar.

(** ** Into memory set aside *)
Lemma map_const : forall (a : Q) (l : list Q), map (fun _ => a) l = repeat a (length l).
Proof. induction l as [|b l IH]; [reflexivity|]. cbn. rewrite IH. reflexivity. Qed.
Lemma dty_eqb_refl : forall t, dty_eqb t t = true.
Proof. destruct t; reflexivity. Qed.
Lemma all_same : forall (a : Q) l, (forall i x, nth_error l i = Some x -> x = a) -> l = repeat a (length l).
Proof.
  induction l as [|b l IH]; intros F; [reflexivity|]. cbn. f_equal; [exact (F 0 b eq_refl)|].
  apply IH. intros i x E. exact (F (S i) x E).
Qed.
Lemma concat_rep_one : forall (a : Q) k, concat (repeat [a] k) = repeat a k.
Proof. induction k as [|k IH]; [reflexivity|]. cbn. rewrite IH. reflexivity. Qed.
Lemma scalarEquiv_prod : forall s, scalarEquiv s = true -> prod s = 1.
Proof.
  induction s as [|n s IH]; intros E; [reflexivity|]. cbn in E.
  apply andb_true_iff in E as [En Es]. cbn [prod]. rewrite (IH Es).
  destruct n as [|[|n]]; try discriminate. reflexivity.
Qed.
Lemma scalarEquiv_tail : forall s i, scalarEquiv s = true -> total (skipn i s) = 1.
Proof.
  intros s i E. rewrite total_prod. apply scalarEquiv_prod. unfold scalarEquiv in *.
  rewrite forallb_forall in *. intros x Hx. apply E.
  rewrite <- (firstn_skipn i s). apply in_or_app. right. exact Hx.
Qed.

(** A result that Do gives, written into memory of its type and shape, is the same
    entries: for scalars, for floats, and for whatever has more than one entry. *)
Theorem C108_prealloc : forall along x count rep t s d pd,
  counts count rep ->
  (forall t' s' d', x = VT t' s' d' -> length d' = prod s') ->
  repeatDo along x count = Ok (VT t s d) ->
  length pd = length d ->
  (forall t' s' d', x = VT t' s' d' -> t' = DF64 \/ t' = DF32 \/ prod s' <> 1) ->
  (forall t' s' d', x = VT t' s' d' -> s <> []) ->
  repeatPrealloc (VT t s pd) along x count = Ok (VT t s d).
Proof.
  intros along x count rep t s d pd C Wf E L Fl Ns. unfold repeatDo in E.
  unfold repeatPrealloc. rewrite (counts_int _ _ C) in *.
  destruct x as [t0 a|t0 s0 d0].
  - destruct (Z.eqb_spec rep 1) as [->|N].
    + injection E as <- <- <-. rewrite dty_eqb_refl, map_const, L. reflexivity.
    + destruct (libRepeat [] [a] along rep) as [[s' d']| |] eqn:El; try discriminate.
      injection E as <- <- <-. rewrite dty_eqb_refl, map_const, L.
      unfold libRepeat in El. destruct (rep <? 1)%Z; [discriminate|].
      destruct along as [|along]; [|destruct along; discriminate].
      cbn in El. injection El as <- <-. rewrite app_nil_r, concat_rep_one, repeat_length. reflexivity.
  - specialize (Wf _ _ _ eq_refl). specialize (Fl _ _ _ eq_refl). specialize (Ns _ _ _ eq_refl).
    destruct (scalarEquiv s0) eqn:Es.
    + pose proof (scalarEquiv_prod _ Es) as P1. rewrite P1 in Wf.
      destruct d0 as [|a [|b d0]]; try discriminate.
      assert (t = t0 /\ d = repeat a (length d)) as [-> Ed].
      { destruct (Z.eqb_spec rep 1) as [->|N].
        - injection E as <- <- <-. auto.
        - destruct (libRepeat s0 [a] along rep) as [[s' d']| |] eqn:El; try discriminate.
          injection E as <- <- <-. split; [reflexivity|].
          unfold libRepeat in El. destruct (rep <? 1)%Z; [discriminate|].
          set (s1 := match s0 with [] => [1] | [n] => n :: repeat 1 along | _ :: _ :: _ => s0 end) in *.
          assert (Es1 : scalarEquiv s1 = true).
          { unfold s1. destruct s0 as [|n [|m s0]]; auto. cbn in Es |- *.
            rewrite andb_true_r in Es. rewrite Es. cbn. clear. induction along; auto. }
          destruct (nth_error s1 along); [|discriminate].
          assert (Ein : total (skipn (S along) s1) = 1) by (apply scalarEquiv_tail; exact Es1).
          injection El as _ Ed. cbn [skipn] in Ein. rewrite Ein in Ed. cbn in Ed.
          rewrite app_nil_r, concat_rep_one in Ed. subst d'. rewrite repeat_length. reflexivity. }
      destruct Fl as [-> |[-> |F]]; [| |congruence]; rewrite dty_eqb_refl;
        (destruct s as [|z s]; [congruence|]); cbn [andb negb]; rewrite map_const, L; congruence.
    + destruct (Z.eqb_spec rep 1) as [->|N].
      * injection E as <- <- <-. rewrite dty_eqb_refl, L, Nat.eqb_refl. reflexivity.
      * destruct (libRepeat s0 d0 along rep) as [[s' d']| |] eqn:El; try discriminate.
        injection E as <- <- <-. rewrite dty_eqb_refl.
        destruct (list_eq_dec Nat.eq_dec s' s'); [reflexivity|congruence].
Qed.
Print Assumptions C108_prealloc.

(** The single entry of a tensor of any other type is not written at all: the
    result is what the memory held before, though Do repeats the entry. *)
Theorem C108_prealloc_skipped : forall along t s d count rep pd ps,
  counts count rep -> prod s = 1 -> t <> DF64 -> t <> DF32 ->
  repeatPrealloc (VT t ps pd) along (VT t s d) count = Ok (VT t ps pd).
Proof.
  intros along t s d count rep pd ps C P1 N1 N2. unfold repeatPrealloc. rewrite (counts_int _ _ C).
  assert (Es : scalarEquiv s = true).
  { clear -P1. induction s as [|n s IH]; [reflexivity|]. cbn [prod] in P1.
    apply Nat.eq_mul_1 in P1 as [-> P1]. cbn. apply IH. exact P1. }
  rewrite Es. destruct t; try reflexivity; congruence.
Qed.
Print Assumptions C108_prealloc_skipped.

(** Memory that is a scalar is refused; a scalar of another type than the memory's is not
    written; a float tensor of size one panics on memory of shape () or of another type. *)
Theorem C108_prealloc_other : forall along count rep,
  (forall t a x, repeatPrealloc (VS t a) along x count = Err) /\
  (forall t a pt ps pd, counts count rep -> t <> pt ->
     repeatPrealloc (VT pt ps pd) along (VS t a) count = Ok (VT pt ps pd)) /\
  (forall t s d pt ps pd, counts count rep -> prod s = 1 -> t = DF64 \/ t = DF32 -> ps = [] \/ t <> pt ->
     repeatPrealloc (VT pt ps pd) along (VT t s d) count = Panic).
Proof.
  intros along count rep. split; [reflexivity|]. split.
  - intros t a pt ps pd C N. unfold repeatPrealloc. rewrite (counts_int _ _ C).
    destruct t, pt; cbn; congruence.
  - intros t s d pt ps pd C P1 T O. unfold repeatPrealloc. rewrite (counts_int _ _ C).
    assert (Es : scalarEquiv s = true).
    { clear -P1. induction s as [|n s IH]; [reflexivity|]. cbn [prod] in P1.
      apply Nat.eq_mul_1 in P1 as [-> P1]. cbn. apply IH. exact P1. }
    rewrite Es. destruct O as [-> |N].
    + rewrite andb_false_r. destruct T as [-> | ->]; reflexivity.
    + replace (dty_eqb t pt) with false by (destruct t, pt; cbn; congruence). destruct T as [-> | ->]; reflexivity.
Qed.
Print Assumptions C108_prealloc_other.

(** Refuted: UsePreallocDo gives what Do gives.  The integer matrix ((7)) repeated
    three times along its first axis. *)
Theorem C108_prealloc_refuted :
  repeatDo 0 (VT DI [1; 1] [7%Q]) (VS DI 3) = Ok (VT DI [3; 1] [7%Q; 7%Q; 7%Q]) /\
  repeatPrealloc (VT DI [3; 1] [0%Q; 0%Q; 0%Q]) 0 (VT DI [1; 1] [7%Q]) (VS DI 3) =
  Ok (VT DI [3; 1] [0%Q; 0%Q; 0%Q]).
Proof. split; reflexivity. Qed.
Print Assumptions C108_prealloc_refuted.

(** ** Counts *)
(** A float count is cut towards zero; a boolean or a tensor is no count. *)
Theorem C108_count : forall v z, valueToInt v = Ok z <->
  exists t q, v = VS t q /\ t <> DB /\ cutOff q z.
Proof.
  assert (Q1 : forall q z, z = Z.quot (Qnum q) (Zpos (Qden q)) -> cutOff q z).
  { intros q z ->. unfold cutOff, Qle, Qlt, inject_Z. cbn.
    set (a := Qnum q). set (b := Zpos (Qden q)). assert (Hb : (0 < b)%Z) by (unfold b; lia).
    clearbody a b. pose proof (Z.quot_rem' a b) as D.
    destruct (Z_le_gt_dec 0 a) as [Ha|Ha].
    + left. pose proof (Z.rem_bound_pos a b Ha Hb). nia.
    + right. pose proof (Z.rem_nonpos a b ltac:(lia) ltac:(lia)) as R0.
      pose proof (Z.rem_bound_abs a b ltac:(lia)) as R1. nia. }
  assert (Q2 : forall q z z', cutOff q z -> cutOff q z' -> z = z').
  { intros q z z'. unfold cutOff, Qle, Qlt, inject_Z. cbn.
    set (a := Qnum q). set (b := Zpos (Qden q)). assert (Hb : (0 < b)%Z) by (unfold b; lia).
    clearbody a b.
    assert (M : forall x y, (x + 1 <= y)%Z -> ((x + 1) * b <= y * b)%Z) by (intros; nia).
    intros C1 C2. destruct (Z.lt_trichotomy z z') as [G|[G|G]]; [|exact G|].
    - pose proof (M z z' ltac:(lia)) as M1. pose proof (M (z - 1)%Z (z' - 1)%Z ltac:(lia)) as M2.
      destruct C1 as [(A1 & A2 & A3)|(A1 & A2 & A3)], C2 as [(B1 & B2 & B3)|(B1 & B2 & B3)]; try lia.
      all: assert (a = 0)%Z by lia; subst a;
        assert (-1 < z < 1)%Z by (split; nia); assert (-1 < z' < 1)%Z by (split; nia); lia.
    - pose proof (M z' z ltac:(lia)) as M1. pose proof (M (z' - 1)%Z (z - 1)%Z ltac:(lia)) as M2.
      destruct C1 as [(A1 & A2 & A3)|(A1 & A2 & A3)], C2 as [(B1 & B2 & B3)|(B1 & B2 & B3)]; try lia.
      all: assert (a = 0)%Z by lia; subst a;
        assert (-1 < z < 1)%Z by (split; nia); assert (-1 < z' < 1)%Z by (split; nia); lia. }
  intros v z. split.
  - intros E. destruct v as [t q|]; [|discriminate].
    assert (T : t <> DB) by (intros ->; discriminate).
    assert (Ez : z = Z.quot (Qnum q) (Zpos (Qden q))) by (destruct t; cbn in E; congruence).
    exists t, q. repeat split; auto.
  - intros (t & q & -> & T & C).
    rewrite (Q2 q z _ C (Q1 q _ eq_refl)). destruct t; try reflexivity. congruence.
Qed.
Print Assumptions C108_count.

Lemma round_small : forall p n, (0 < p)%Z -> (0 <= n <= 2 ^ p)%Z -> roundBits p n = n.
Proof.
  intros p n Hp Hn. unfold roundBits.
  destruct (Z.eq_dec n 0) as [->|N0].
  { cbn [Z.log2]. rewrite Z.max_l by lia. reflexivity. }
  destruct (Z.eq_dec n (2 ^ p)) as [->|N1].
  - rewrite Z.log2_pow2 by lia. rewrite Z.max_r by lia. replace (p + 1 - p)%Z with 1%Z by lia.
    change (2 ^ 1)%Z with 2%Z.
    assert (M : (2 ^ p mod 2 = 0)%Z).
    { replace p with (p - 1 + 1)%Z by lia. rewrite Z.pow_add_r by lia. apply Z.mod_mul. lia. }
    rewrite M. cbn [Z.mul Z.ltb Z.compare]. pose proof (Z.div_mod (2 ^ p) 2). lia.
  - assert (Z.log2 n < p)%Z by (apply Z.log2_lt_pow2; lia).
    rewrite Z.max_l by lia. change (2 ^ 0)%Z with 1%Z. rewrite Z.mod_1_r, Z.div_1_r. cbn. lia.
Qed.

Lemma round_err : forall p n, (0 < p)%Z -> (0 <= n)%Z -> (2 ^ p * Z.abs (roundBits p n - n) <= n)%Z.
Proof.
  intros p n Hp Hn. destruct (Z_le_gt_dec n (2 ^ p)) as [L|L].
  { rewrite round_small by lia. replace (n - n)%Z with 0%Z by lia. cbn. lia. }
  assert (P0 : (0 < 2 ^ p)%Z) by (apply Z.pow_pos_nonneg; lia).
  unfold roundBits. set (l := Z.log2 n).
  assert (Hl : (2 ^ l <= n < 2 ^ Z.succ l)%Z) by (apply Z.log2_spec; lia).
  assert (Lp : (p <= l)%Z).
  { apply Z.log2_le_pow2; lia. }
  rewrite Z.max_r by lia. set (e := (l + 1 - p)%Z).
  assert (E : (2 ^ p * 2 ^ e = 2 * 2 ^ l)%Z).
  { rewrite <- Z.pow_add_r by (unfold e; lia). unfold e. replace (p + (l + 1 - p))%Z with (Z.succ l) by lia.
    apply Z.pow_succ_r. unfold l. apply Z.log2_nonneg. }
  assert (U0 : (0 < 2 ^ e)%Z) by (apply Z.pow_pos_nonneg; unfold e; lia).
  set (u := (2 ^ e)%Z) in *. clearbody u. pose proof (Z.div_mod n u ltac:(lia)) as D.
  pose proof (Z.mod_pos_bound n u U0) as M. set (q := (n / u)%Z) in *. set (r := (n mod u)%Z) in *.
  assert (Key : forall x, (Z.abs (x - n) * 2 <= u)%Z -> (2 ^ p * Z.abs (x - n) <= n)%Z) by (intros x Hx; nia).
  destruct (Z.ltb_spec (2 * r) u); [apply Key; lia|].
  destruct (Z.ltb_spec u (2 * r)); [apply Key; lia|].
  destruct (Z.even q); apply Key; lia.
Qed.

(** The size of an axis, read back as a count, is the size: always for integers,
    up to 2^53 for float64 and up to 2^24 for float32; beyond it is off by at most
    one part in 2^53 or 2^24. *)
Theorem C108_size : forall t s d axis n,
  nth_error s axis = Some n -> t = DF64 \/ t = DF32 \/ t = DI ->
  exists v z, sizeDo (Z.of_nat axis) (VT t s d) = Ok v /\ valueToInt v = Ok z /\
    (t = DI -> z = Z.of_nat n) /\
    (t = DF64 -> (Z.of_nat n <= 2 ^ 53)%Z -> z = Z.of_nat n) /\
    (t = DF32 -> (Z.of_nat n <= 2 ^ 24)%Z -> z = Z.of_nat n) /\
    (t = DF64 -> (2 ^ 53 * Z.abs (z - Z.of_nat n) <= Z.of_nat n)%Z) /\
    (t = DF32 -> (2 ^ 24 * Z.abs (z - Z.of_nat n) <= Z.of_nat n)%Z).
Proof.
  intros t s d axis n E T. unfold sizeDo.
  assert (L : axis < length s) by (apply nth_error_Some; congruence).
  destruct (Z.leb_spec (Z.of_nat (length s)) (Z.of_nat axis)); [lia|].
  destruct (Z.ltb_spec (Z.of_nat axis) 0); [lia|]. rewrite Nat2Z.id, E.
  destruct T as [-> |[-> | ->]]; (eexists; eexists; split; [reflexivity|]); cbn [valueToInt];
    rewrite cut_int; (split; [reflexivity|]); repeat split; try discriminate; intros _.
  - intros Hn. apply round_small; lia.
  - apply round_err; lia.
  - intros Hn. apply round_small; lia.
  - apply round_err; lia.
Qed.
Print Assumptions C108_size.

(** What has no size: an axis the tensor lacks (an error, or a panic when it is
    negative), and the other types. *)
Theorem C108_no_size : forall t s d axis,
  ((Z.of_nat (length s) <= axis)%Z -> sizeDo axis (VT t s d) = Err) /\
  ((axis < 0)%Z -> sizeDo axis (VT t s d) = Panic) /\
  (t <> DF64 -> t <> DF32 -> t <> DI -> (0 <= axis)%Z -> sizeDo axis (VT t s d) = Err).
Proof.
  intros t s d axis. unfold sizeDo. repeat split; intros.
  - destruct (Z.leb_spec (Z.of_nat (length s)) axis); [reflexivity|lia].
  - destruct (Z.leb_spec (Z.of_nat (length s)) axis); [lia|].
    destruct (Z.ltb_spec axis 0); [reflexivity|lia].
  - destruct (Z.leb_spec (Z.of_nat (length s)) axis); [reflexivity|].
    destruct (Z.ltb_spec axis 0); [lia|].
    destruct (nth_error s (Z.to_nat axis)) eqn:E; [destruct t; try reflexivity; congruence|].
    apply nth_error_None in E. lia.
Qed.
Print Assumptions C108_no_size.

(** Refuted: the size of an axis of a float32 tensor is the count of its entries. *)
Theorem C108_size_refuted : forall n s d, Z.of_nat n = 16777217%Z -> nth_error s 0 = Some n ->
  exists v, sizeDo 0 (VT DF32 s d) = Ok v /\ valueToInt v = Ok 16777216%Z.
Proof.
  intros n s d Hn E. unfold sizeDo. destruct s as [|n' s]; [discriminate|].
  cbn [nth_error] in E. injection E as ->.
  cbn [length]. destruct (Z.leb_spec (Z.of_nat (S (length s))) 0); [lia|].
  change (0 <? 0)%Z with false. cbn [nth_error Z.to_nat].
  exists (VS DF32 (inject_Z 16777216)). split; [|reflexivity].
  rewrite Hn. reflexivity.
Qed.
Print Assumptions C108_size_refuted.

(** The size of a scalar is one, in its own type, of a boolean in int. *)
Theorem C108_size_scalar : forall axis t a,
  sizeDo axis (VS t a) = Ok (VS (match t with DB => DI | _ => t end) 1) /\
  (forall v, sizeDo axis (VS t a) = Ok v -> valueToInt v = Ok 1%Z).
Proof. intros axis t a. split; [|intros v E]; destruct t; try reflexivity; injection E as <-; reflexivity. Qed.
Print Assumptions C108_size_scalar.

(** intRange: from [a] up to [b] or down to it, [b] left out. *)
Theorem C108_range : forall a b,
  length (intRange a b) = Z.to_nat (Z.abs (b - a)) /\
  forall i z, nth_error (intRange a b) i = Some z ->
    (z = a + (if (a <=? b)%Z then Z.of_nat i else - Z.of_nat i))%Z /\ z <> b.
Proof.
  intros a b. unfold intRange. split.
  - rewrite map_length, seq_length. destruct (Z.ltb_spec b a); f_equal; lia.
  - intros i z E.
    assert (L : i < length (seq 0 (Z.to_nat (if (b <? a)%Z then a - b else b - a)))).
    { apply nth_error_Some. intros N. rewrite nth_error_map, N in E. discriminate. }
    rewrite seq_length in L.
    rewrite nth_error_map, nth_error_nth' with (d := 0) in E by (rewrite seq_length; exact L).
    rewrite seq_nth in E by exact L. cbn [option_map Nat.add] in E.
    destruct (Z.ltb_spec b a), (Z.leb_spec a b); try lia; injection E as <-; lia.
Qed.
Print Assumptions C108_range.

(** valuesToInts is valueToInt on every value. *)
Theorem C108_counts : forall vs l, valuesToInts vs = Ok l <-> Forall2 (fun v z => valueToInt v = Ok z) vs l.
Proof.
  induction vs as [|v vs IH]; intros l; cbn [valuesToInts]; split.
  - intros E. injection E as <-. constructor.
  - intros F. inversion F. reflexivity.
  - intros E. destruct (valueToInt v) as [z| |] eqn:Ev; try discriminate.
    destruct (valuesToInts vs) as [l'| |]; try discriminate. injection E as <-.
    constructor; [exact Ev|]. apply IH. reflexivity.
  - intros F. inversion F as [|? z ? l' Ez F']; subst. rewrite Ez.
    rewrite (proj2 (IH l') F'). reflexivity.
Qed.
Print Assumptions C108_counts.

(** Concrete cases. *)
Example C108_ex : repeatDo 1 (VT DF64 [2; 2; 1] [1; 2; 3; 4]%Q) (VS DF32 (5 # 2)) =
  Ok (VT DF64 [2; 4; 1] [1; 1; 2; 2; 3; 3; 4; 4]%Q) /\
  repeatPrealloc (VT DF64 [2; 4; 1] (repeat 0%Q 8)) 1 (VT DF64 [2; 2; 1] [1; 2; 3; 4]%Q) (VS DI 2) =
  Ok (VT DF64 [2; 4; 1] [1; 1; 2; 2; 3; 3; 4; 4]%Q) /\
  intRange 3 0 = [3; 2; 1]%Z /\ counts (VS DI 2) 2.
Proof. repeat split; try reflexivity. exists DI. split; [discriminate|reflexivity]. Qed.
