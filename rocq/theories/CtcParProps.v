(** C123: the loops of the CTC loss in parallel. *)
From Coq Require Import List Arith Bool Lia.
From Verif Require Import ParModel ParSpec ParProofs CtcParModel.
Import ListNotations.
Local Open Scope nat_scope.

Section C.
Variable V : Type.
Variables (T B N M : nat) (inputLen targetLen : nat -> nat) (prime : nat -> nat -> nat) (negInf : V).
Notation W := (2 * M + 1).

Lemma touches_rdIf (rd wr : loc -> Prop) c l k : (c = true -> rd l \/ wr l) -> (forall v, touches rd wr (k v)) -> touches rd wr (rdIf negInf c l k).
Proof. intros H K. unfold rdIf. destruct c; [constructor; auto|apply K]. Qed.

Lemma in_sec t s tl : t < T -> tl <= M -> s < 2 * tl + 1 -> t * (2 * tl + 1) + s < T * W.
Proof. intros. apply Nat.lt_le_trans with ((t + 1) * (2 * tl + 1)); [nia|]. apply Nat.mul_le_mono; lia. Qed.

(** The cells a callback may use in the loss: its own section of logAlpha and its own entry of
    the likelihoods to store to, the log probabilities to load from. *)
Definition mine (a : nat) (b : nat) (l : loc) : Prop := fst l = a /\ exists x, x < T * W /\ snd l = b * (T * W) + x.

(** Its own section of the log probabilities. *)
Definition ownLpp (a : nat) (b : nat) (l : loc) : Prop := fst l = a /\ exists x, x < T * N /\ snd l = b * (T * N) + x.

(** The loss.  The lengths are those the operation accepts (inputLengths at most the number of
    rows) and those with which no index is negative (at least one row each); the width of
    logAlpha is that of the longest target. *)
Theorem C123_loss : forall lpp alpha nll comb final,
  ~ In lpp [alpha; nll] -> alpha <> nll -> (forall b, b < B -> 1 <= inputLen b <= T /\ targetLen b <= M) ->
  (forall b, b < B -> (forall s, s <= 2 * targetLen b -> prime b s < N) ->
     touches (ownLpp lpp b) (fun l => mine alpha b l \/ l = (nll, b))
     (ctcForward T N W inputLen targetLen prime negInf lpp alpha nll comb final b)) /\
  likeALoop (ctcForward T N W inputLen targetLen prime negInf lpp alpha nll comb final) B.
Proof.
  intros lpp alpha nll comb final NL NA LE.
  assert (TT : forall (rd : loc -> Prop) b, b < B -> (forall t s, t < T -> s <= 2 * targetLen b -> rd (lppAt T N lpp b (t * N + prime b s))) -> rd (lppAt T N lpp b 0) ->
     touches rd (fun l => mine alpha b l \/ l = (nll, b))
     (ctcForward T N W inputLen targetLen prime negInf lpp alpha nll comb final b)).
  { intros rd b Hb RD R0. destruct (LE b Hb) as [L1 L2]. unfold ctcForward. cbv zeta.
    set (il := inputLen b) in *. set (tl := targetLen b) in *.
    assert (OK : forall x, x < T * W -> mine alpha b (secAt T W alpha b x)) by (intros x Hx; split; [reflexivity|]; exists x; split; [exact Hx|reflexivity]).
    assert (IN : forall t s, t < T -> s < 2 * tl + 1 -> t * (2 * tl + 1) + s < T * W) by (intros; apply in_sec; assumption).
    match goal with |- touches _ _ (Rd _ (fun x => Wr _ x (if _ then Rd _ (fun y => Wr _ y ?r) else _))) => assert (R : touches rd (fun l => mine alpha b l \/ l = (nll, b)) r) end.
    { apply touches_loop.
      - intros t a k Ht K. apply touches_loop; [|exact K]. intros s a' k' Hs K'.
        assert (P : (t - 1) * (2 * tl + 1) + s < T * W) by (apply IN; lia).
        constructor; [right; left; apply OK, P|]. intro la1.
        apply touches_rdIf; [intros _; right; left; apply OK; lia|]. intro la2.
        apply touches_rdIf; [intros _; right; left; apply OK; lia|]. intro la3.
        constructor; [left; apply RD; lia|]. intro lp. constructor; [left; apply OK, IN; lia|]. apply K'.
      - intros _. destruct (Nat.eqb_spec tl 0) as [E|E].
        + constructor; [right; left; apply OK; rewrite <- (Nat.add_0_r ((il - 1) * _)); apply IN; lia|]. intro. constructor; [right; reflexivity|constructor].
        + assert (P : (il - 1) * (2 * tl + 1) + tl * 2 < T * W) by (apply IN; lia).
          constructor; [right; left; apply OK, P|]. intro. constructor; [right; left; apply OK; lia|]. intro. constructor; [right; reflexivity|constructor]. }
    constructor; [left; exact R0|]. intro. constructor; [left; apply OK; pose proof (IN 0 0); lia|].
    destruct (Nat.ltb_spec 0 tl) as [E|E]; [|exact R].
    constructor; [left; apply (RD 0 1); lia|]. intro. constructor; [left; apply OK; pose proof (IN 0 1); lia|exact R]. }
  split.
  - intros b Hb PR. destruct (LE b Hb) as [L1 L2]. pose proof (PR 0 ltac:(lia)). apply TT; [exact Hb| |].
    + intros t s Ht Hs. split; [reflexivity|]. exists (t * N + prime b s). split; [pose proof (PR s Hs); nia|reflexivity].
    + split; [reflexivity|]. exists 0. split; [nia|reflexivity].
  - apply (like_a_loop V _ B (fun _ l => fst l = lpp) (fun b l => mine alpha b l \/ l = (nll, b))).
    { intros b Hb. apply TT; [exact Hb|reflexivity|reflexivity]. }
    intros i j l Hi Hj ND [[W1 (x & Hx & W2)]|W1].
    + split; [intro E; apply NL; left; congruence|]. intros [[_ (y & Hy & W3)]|E].
      * apply ND. apply (row_inj (T * W) i x j y); [assumption|assumption|congruence].
      * subst l. cbn in W1. congruence.
    + subst l. split; [cbn; intro E; apply NL; right; left; exact E|]. intros [[E _]|E]; [cbn in E; congruence|injection E; congruence].
Qed.

(** The cells of the gradient of one sample: all rows, its own N columns. *)
Definition column (grad : nat) (b : nat) (l : loc) : Prop := fst l = grad /\ exists t c, c < N /\ snd l = t * B * N + b * N + c.

(** The gradient.  Here the labels have to be below the number of labels, too. *)
Theorem C123_gradient : forall lpp alpha nll beta grad comb add join value,
  ~ In beta [lpp; alpha; nll; grad] -> ~ In grad [lpp; alpha; nll] ->
  (forall b, b < B -> inputLen b <= T /\ targetLen b <= M) -> (forall b s, b < B -> s <= 2 * targetLen b -> prime b s < N) ->
  (forall b, b < B -> touches (fun l => ownLpp lpp b l \/ mine alpha b l \/ l = (nll, b)) (fun l => mine beta b l \/ column grad b l)
     (ctcBackward T B N W inputLen targetLen prime negInf lpp alpha nll beta grad comb add join value b)) /\
  likeALoop (ctcBackward T B N W inputLen targetLen prime negInf lpp alpha nll beta grad comb add join value) B.
Proof.
  intros lpp alpha nll beta grad comb add join value NB NG LE PR.
  assert (TT : forall b, b < B -> touches (fun l => ownLpp lpp b l \/ mine alpha b l \/ l = (nll, b)) (fun l => mine beta b l \/ column grad b l)
     (ctcBackward T B N W inputLen targetLen prime negInf lpp alpha nll beta grad comb add join value b)).
  { intros b Hb. destruct (LE b Hb) as [L1 L2]. assert (P : forall s, s <= 2 * targetLen b -> prime b s < N) by (intros; apply PR; assumption). unfold ctcBackward. cbv zeta.
    set (il := inputLen b) in *. set (tl := targetLen b) in *.
    assert (OK : forall x, x < T * W -> mine beta b (secAt T W beta b x)) by (intros x Hx; split; [reflexivity|]; exists x; split; [exact Hx|reflexivity]).
    assert (AL : forall x, x < T * W -> mine alpha b (secAt T W alpha b x)) by (intros x Hx; split; [reflexivity|]; exists x; split; [exact Hx|reflexivity]).
    assert (LP : forall t c, t < T -> c < N -> ownLpp lpp b (lppAt T N lpp b (t * N + c))) by (intros t c Ht Hc; split; [reflexivity|]; exists (t * N + c); split; [nia|reflexivity]).
    assert (GR : forall t c, c < N -> column grad b (gradAt B N grad b t c)) by (intros t c Hc; split; [reflexivity|]; exists t, c; split; [exact Hc|reflexivity]).
    assert (IN : forall t s, t < T -> s < 2 * tl + 1 -> t * (2 * tl + 1) + s < T * W) by (intros; apply in_sec; assumption).
    constructor; [left; right; right; reflexivity|]. intro n. destruct (Nat.eqb_spec il 0) as [Z|Z]; [constructor|].
    assert (N0 : 0 < N) by (specialize (P 0); lia).
    match goal with |- context [if 0 <? tl then _ else ?r] => assert (R : touches (fun l => ownLpp lpp b l \/ mine alpha b l \/ l = (nll, b)) (fun l => mine beta b l \/ column grad b l) r) end.
    { apply touches_loop.
      - intros i a k Hi K. apply touches_loop; [|exact K]. intros j a' k' Hj K'.
        remember (il - 2 - i) as t eqn:Et. remember (2 * tl - j) as s eqn:Es.
        assert (X : t + 1 < T) by lia. assert (Y : s < 2 * tl + 1) by lia. clear Et Es.
        constructor; [right; left; apply OK, IN; lia|]. intro.
        apply touches_rdIf; [intro C; apply Nat.ltb_lt in C; right; left; apply OK; rewrite <- Nat.add_assoc; apply IN; lia|]. intro.
        apply touches_rdIf; [intro C; apply andb_true_iff in C; destruct C as [C _]; apply Nat.ltb_lt in C; right; left; apply OK; rewrite <- (Nat.add_assoc _ s 2); apply IN; lia|]. intro.
        constructor; [left; left; apply LP; [lia|apply P; lia]|]. intro. constructor; [left; apply OK, IN; lia|].
        constructor; [left; right; left; apply AL, IN; lia|]. intro. constructor; [right; left; apply OK, IN; lia|]. intro.
        constructor; [right; right; apply GR, P; lia|]. intro. constructor; [right; apply GR, P; lia|]. apply K'.
      - intros _. apply touches_loop; [|intros; constructor]. intros t a k Ht K. apply touches_loop; [|exact K]. intros c a' k' Hc K'.
        constructor; [right; right; apply GR; lia|]. intro. constructor; [left; left; apply LP; lia|]. intro. constructor; [right; apply GR; lia|]. apply K'. }
    constructor; [left; left; rewrite <- (Nat.add_0_r ((il - 1) * N)); apply LP; lia|]. intro. constructor; [left; apply OK, IN; lia|].
    constructor; [left; right; left; apply AL, IN; lia|]. intro. constructor; [right; left; apply OK, IN; lia|]. intro. constructor; [right; apply GR, N0|].
    destruct (Nat.ltb_spec 0 tl) as [E|E]; [|exact R].
    constructor; [left; left; apply LP; [lia|apply P; lia]|]. intro. constructor; [left; apply OK, IN; lia|].
    constructor; [left; right; left; apply AL, IN; lia|]. intro. constructor; [right; left; apply OK, IN; lia|]. intro. constructor; [right; apply GR, P; lia|exact R]. }
  split; [exact TT|].
  apply (like_a_loop V _ B (fun b l => ownLpp lpp b l \/ mine alpha b l \/ l = (nll, b)) (fun b l => mine beta b l \/ column grad b l) TT).
  intros i j l Hi Hj ND [[W1 (x & Hx & W2)]|[W1 (t & c & Hc & W2)]].
  - split; [intros [[E _]|[[E _]|E]]; apply NB; rewrite <- W1; rewrite E; cbn; auto|]. intros [[_ (y & Hy & W3)]|[E _]].
    + apply ND. apply (row_inj (T * W) i x j y); [assumption|assumption|congruence].
    + apply NB. rewrite W1 in E. cbn. auto.
  - split; [intros [[E _]|[[E _]|E]]; apply NG; rewrite <- W1; rewrite E; cbn; auto|]. intros [[E _]|[_ (t' & c' & Hc' & W3)]].
    + apply NB. rewrite W1 in E. cbn. auto.
    + apply ND. apply (place_inj B N t i c t' j c'); [apply Hi|apply Hj|assumption|assumption|congruence].
Qed.
End C.
Print Assumptions C123_loss.
Print Assumptions C123_gradient.

(** Two samples with targets of one label (1, then 2), two rows, three labels; log probabilities
    b*6 + t*3 + c + 1; "adding up" as a sum.  The plain loop, and so every schedule, leaves these
    likelihoods; and the call does return. *)
Example C123_ex :
  let pr := fun b s => if s =? 1 then S b else 0 in
  let m : mem nat := fun l => if fst l =? 0 then snd l + 1 else 0 in
  let cb := ctcForward 2 3 3 (fun _ => 2) (fun _ => 1) pr 0 0 1 2 (fun a b c d => a + b + c + d) plus in
  map (fun i => oneByOne cb 0 2 m (2, i)) [0; 1] = [14; 47] /\
  (forall s, steps 2 cb (start 0 m) s -> returned 2 s -> memory s (2, 0) = 14 /\ memory s (2, 1) = 47) /\
  (exists s, steps 2 cb (start 0 m) s /\ returned 2 s).
Proof.
  cbv zeta. set (cb := ctcForward 2 3 3 _ _ _ 0 0 1 2 _ _). set (m := fun l : loc => _).
  assert (A : oneByOne cb 0 2 m (2, 0) = 14 /\ oneByOne cb 0 2 m (2, 1) = 47) by (split; vm_compute; reflexivity).
  destruct (C123_loss nat 2 2 3 1 (fun _ => 2) (fun _ => 1) (fun b s => if s =? 1 then S b else 0) 0 0 1 2 (fun a b c d => a + b + c + d) plus) as [_ H];
    [cbn; lia|lia|intros; lia|].
  split; [cbn [map]; rewrite (proj1 A), (proj2 A); reflexivity|]. split.
  - intros s S R. destruct (H m s S) as [_ F]. destruct (F R) as [_ E]. rewrite !E. exact A.
  - apply (H m). apply steps_refl.
Qed.

(** The gradient of the same two samples, with 100 in the cells of logAlpha of the first: the
    entries of its two rows (cells 0-2 and 6-8). *)
Example C123_ex_gradient :
  let pr := fun b s => if s =? 1 then S b else 0 in
  let m : mem nat := fun l => if fst l =? 0 then snd l + 1 else if (fst l =? 1) && (snd l <? 6) then 100 else 0 in
  let cb := ctcBackward 2 2 3 3 (fun _ => 2) (fun _ => 1) pr 0 0 1 2 3 4 (fun a b c d => a + b + c + d) plus plus (fun lp r n => lp + r + n) in
  likeALoop cb 2 /\ map (fun i => oneByOne cb 0 2 m (4, i)) [0; 1; 2; 6; 7; 8] = [212; 113; 3; 108; 110; 6].
Proof.
  cbv zeta. split.
  - apply (C123_gradient nat 2 2 3 1); [cbn; lia|cbn; lia|intros; lia|].
    intros b s Hb Hs. destruct (s =? 1); lia.
  - vm_compute. reflexivity.
Qed.
