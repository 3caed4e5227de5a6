(** Property theorems C120: gradients in the tape machine of CUDA builds. *)
From Coq Require Import List Arith Bool ZArith Lia.
From Verif Require Import DvModel DvSpec DvProofs.
Import ListNotations.

Section Props.
Variable V : Type.
Variable zero : V.
Variable add : V -> V -> V.
Variable listed : list nat.
Variable getMem : nat -> option nat.

(** If all gradients of a node are computed in one place, on the host or on one card, the node
    ends up with its old derivative plus all of them, in program order, in whatever way the
    goroutines take turns, whatever memory the allocator hands out and whatever else is
    computed, once the program has ended without error and the queues are empty. *)
Theorem C120_sum : forall p h m ls y s P,
  run zero add listed getMem ls (start p h m) = Some y ->
  prog y = [] -> todo y = [] -> failed y = false -> (forall c, que y c = []) ->
  h s <> Unbound -> (listed = [] \/ In s listed) ->
  (forall i, In i p -> In s (gof i) -> gdev i = P) ->
  host y s <> Unbound /\ deriv zero (host y s) = fold_left add (shares s p) (deriv zero (h s)).
Proof.
  intros p h m ls y s P R Ep Et Ef Eq Hb Al One.
  assert (I : Inv V zero add s P (fold_left add (shares s p) (deriv zero (h s))) y).
  { apply (run_inv V zero add listed getMem s P _ Al ls (start p h m)); [|exact R]. right. cbn [start host prog cur todo].
    split; [exact Hb|]. split; [|split; [|split]].
    - intro c. exists (P0), []. split; [reflexivity|]. split; [|intros _; split; [exact I|constructor]].
      intros _. split; [|intros i Hi; discriminate Hi]. cbn. destruct (h s); reflexivity.
    - intros _. cbn. destruct (h s); reflexivity.
    - exact One.
    - intros i Hi. discriminate Hi. }
  destruct I as [F|(B & Q & H & _ & _)]; [congruence|]. split; [exact B|].
  assert (Rs : rest V s y = []). { unfold rest. rewrite Ep, Et. destruct (cur y); reflexivity. }
  assert (U : unit zero (host y s) = deriv zero (host y s)) by (destruct (host y s); reflexivity).
  rewrite <- U. destruct P as [|c].
  - rewrite Rs in H. exact (H eq_refl).
  - destruct (Q c) as (p0 & bs & Hd & J & _). destruct (J eq_refl) as [J1 _]. rewrite Rs in J1. rewrite Eq in Hd.
    destruct p0; try discriminate Hd. destruct bs as [|[] ?]; try discriminate Hd. exact J1.
Qed.

Definition still (s : nat) (b : bound V -> Prop) (x : st V) : Prop :=
  b (host x s) /\ forall c, Forall (fun k => ~ touches s k) (que x c).

Lemma work_still s b x c y : still s b x -> workStep zero add x c = Some y -> still s b y.
Proof.
  intros [B Q] H. unfold workStep in H. destruct (que x c) as [|k q] eqn:E; [discriminate H|].
  assert (Qc := Q c). rewrite E in Qc. inversion Qc as [|? ? Hk Hq]; subst. cbv zeta in H.
  assert (QQ : forall c', Forall (fun k => ~ touches s k) (upd (que x) c q c')).
  { intro c'. unfold upd. destruct (c' =? c); [exact Hq|apply Q]. }
  destruct k as [r v|n a|a r|n a]; injection H as <-; (split; [|exact QQ]); cbn [host]; try exact B.
  unfold upd. destruct (Nat.eqb_spec s n) as [->|]; [|exact B]. exfalso. apply Hk. reflexivity.
Qed.

Lemma source_still s b x i n t : still s b x ->
  (n = s -> negb (Nat.eqb (length listed) 0) && negb (existsb (Nat.eqb s) listed) = true \/ host x s = Unbound) ->
  still s b (source zero add listed getMem x i n t).
Proof.
  intros [B Q] H. unfold source.
  destruct (Nat.eq_dec n s) as [->|N].
  - destruct (H eq_refl) as [-> | E]; [split; [exact B|exact Q]|]. rewrite E.
    destruct (_ && _); (split; [exact B|exact Q]).
  - assert (U : forall z, upd (host x) n z s = host x s) by (intro z; unfold upd; destruct (Nat.eqb_spec s n); [congruence|reflexivity]).
    clear H. destruct (negb (length listed =? 0) && negb (existsb (Nat.eqb n) listed)); [split; [exact B|exact Q]|].
    assert (G : forall c0 a c, Forall (fun k => ~ touches s k) (upd (que x) c0 (que x c0 ++ [HtoD n a; KAdd a (greg i); DtoH n a]) c)).
    { intros c0 a c. unfold upd. destruct (Nat.eqb_spec c c0) as [->|]; [|apply Q]. apply Forall_app. split; [apply Q|].
      repeat constructor; cbn; auto. }
    destruct (host x n); [split; [exact B|exact Q]|..]; (destruct (gdev i) as [|c0]; [split; [cbn [host]; rewrite U; exact B|exact Q]|]);
    (destruct (getMem (gets x)); (split; [cbn [host]; rewrite ?U; exact B|cbn [que]; first [apply G|exact Q]])).
Qed.

Lemma begin_still s b x y : still s b x -> begin x = Some y ->
  (forall i p, prog x = i :: p -> b (upd (host x) (gnode i) (match host x (gnode i) with Unbound => Plain | z => z end) s)) ->
  still s b y.
Proof.
  intros [B Q] H Hb. unfold begin in H. destruct (prog x) as [|i p]; [discriminate H|]. injection H as <-.
  split; [cbn [host]; apply (Hb i p eq_refl)|]. cbn [que]. intro c. destruct (gdev i) as [|c0]; [apply Q|].
  unfold upd. destruct (Nat.eqb_spec c c0) as [->|]; [|apply Q]. apply Forall_app. split; [apply Q|]. repeat constructor. cbn. auto.
Qed.

(** A machine made with a list of nodes to bind leaves the derivatives of all others alone, at
    every moment of every run. *)
Theorem C120_not_listed : forall p h m ls y s,
  run zero add listed getMem ls (start p h m) = Some y -> listed <> [] -> ~ In s listed ->
  deriv zero (host y s) = deriv zero (h s).
Proof.
  intros p h m ls y s R Ne Ni.
  assert (Sk : negb (Nat.eqb (length listed) 0) && negb (existsb (Nat.eqb s) listed) = true).
  { apply andb_true_iff. split; [destruct listed; [contradiction|reflexivity]|]. apply negb_true_iff.
    destruct (existsb (Nat.eqb s) listed) eqn:E; [|reflexivity]. apply existsb_exists in E. destruct E as (z & Iz & Ez).
    apply Nat.eqb_eq in Ez. subst z. contradiction. }
  assert (G : forall ls x y, still s (fun z => deriv zero z = deriv zero (h s)) x -> run zero add listed getMem ls x = Some y ->
    still s (fun z => deriv zero z = deriv zero (h s)) y).
  { clear - Sk. induction ls as [|l ls IH]; intros x y S H; cbn in H; [injection H as <-; exact S|].
    destruct l as [|c].
    - destruct (mainStep zero add listed getMem x) as [z|] eqn:E; [|discriminate H]. apply (IH z y); [|exact H].
      unfold mainStep in E. destruct (failed x); [discriminate E|].
      assert (Bg : begin x = Some z -> still s (fun z => deriv zero z = deriv zero (h s)) z).
      { intro E'. apply (begin_still s _ x z S E'). intros i p _. destruct S as [B _]. unfold upd.
        destruct (Nat.eqb_spec s (gnode i)) as [<-|]; [|exact B]. destruct (host x s); exact B. }
      destruct (cur x) as [i|]; [|exact (Bg E)]. destruct (todo x) as [|n t]; [exact (Bg E)|]. injection E as <-.
      apply source_still; [exact S|]. intros ->. left. exact Sk.
    - destruct (workStep zero add x c) as [z|] eqn:E; [|discriminate H]. apply (IH z y); [|exact H]. exact (work_still s _ x c z S E). }
  apply (G ls (start p h m) y); [|exact R]. split; [reflexivity|]. intro c. constructor.
Qed.

(** The gradient of a node that has no value and gets none is dropped, and nothing fails. *)
Theorem C120_dropped : forall p h m ls y s,
  run zero add listed getMem ls (start p h m) = Some y -> h s = Unbound ->
  (forall i, In i p -> gnode i <> s) -> (forall k, getMem k <> None) ->
  host y s = Unbound /\ failed y = false.
Proof.
  intros p h m ls y s R Hu Hn Hg.
  assert (G : forall ls x y, still s (fun z => z = Unbound) x /\ (forall i, In i (prog x) -> gnode i <> s) /\ failed x = false ->
    run zero add listed getMem ls x = Some y -> still s (fun z => z = Unbound) y /\ (forall i, In i (prog y) -> gnode i <> s) /\ failed y = false).
  { clear - Hg. induction ls as [|l ls IH]; intros x y (S & N & F) H; cbn in H; [injection H as <-; auto|].
    destruct l as [|c].
    - destruct (mainStep zero add listed getMem x) as [z|] eqn:E; [|discriminate H]. apply (IH z y); [|exact H].
      unfold mainStep in E. rewrite F in E.
      assert (Bg : begin x = Some z -> still s (fun z => z = Unbound) z /\ (forall i, In i (prog z) -> gnode i <> s) /\ failed z = false).
      { intro E'. split; [|].
        - apply (begin_still s _ x z S E'). intros i p Ep. destruct S as [B _]. unfold upd.
          destruct (Nat.eqb_spec s (gnode i)) as [Es|]; [|exact B]. exfalso. apply (N i); [rewrite Ep; left; reflexivity|congruence].
        - unfold begin in E'. destruct (prog x) as [|i p]; [discriminate E'|]. injection E' as <-. cbn. split; [|reflexivity].
          intros j Hj. apply N. right. exact Hj. }
      destruct (cur x) as [i|]; [|exact (Bg E)]. destruct (todo x) as [|n t]; [exact (Bg E)|]. injection E as <-.
      split; [apply source_still; [exact S|intros ->; right; exact (proj1 S)]|].
      unfold source. destruct (_ && _); [auto|]. destruct (host x n); [auto|..]; (destruct (gdev i); [auto|]);
      (destruct (getMem (gets x)) eqn:Eg; [auto|exfalso; exact (Hg _ Eg)]).
    - destruct (workStep zero add x c) as [z|] eqn:E; [|discriminate H]. apply (IH z y); [|exact H]. split; [exact (work_still s _ x c z S E)|].
      unfold workStep in E. destruct (que x c) as [|[] ?]; try discriminate E; injection E as <-; auto. }
  destruct (G ls (start p h m) y) as ((B & _) & _ & F); [|exact R|auto].
  split; [split; [exact Hu|intro c; constructor]|]. split; [exact Hn|reflexivity].
Qed.
End Props.
Print Assumptions C120_sum.
Print Assumptions C120_not_listed.
Print Assumptions C120_dropped.

(** ** Concrete cases: node 0 is an input with derivative 100, the gradients are integers. *)
Definition hx : nat -> bound Z := fun n => if n =? 0 then Dual 100%Z else Unbound.
Definition mx : nat -> cell -> Z := fun _ _ => 0%Z.
Definition runZ := run 0%Z Z.add [] (fun k => Some 7).
Definition g (n : nat) (P : place) (r : nat) (v : Z) (of : list nat) : ginstr Z := GI n P r v of.

(** Two gradients of node 0 on card 1, in the same register and the same temporary memory, with
    work done in between and at the end. *)
Example C120_sum_ex : exists y,
  runZ [Main; Main; Work 1; Work 1; Main; Work 1; Main; Work 1; Work 1; Work 1; Work 1; Work 1]
    (start [g 5 (Card 1) 2 10 [0]; g 6 (Card 1) 2 1 [0]] hx mx) = Some y
  /\ prog y = [] /\ todo y = [] /\ failed y = false /\ (forall c, que y c = []) /\ host y 0 = Dual 111%Z.
Proof. eexists. split; [cbv; reflexivity|]. repeat split. intro c. destruct c as [|[|c]]; reflexivity. Qed.

Example C120_not_listed_ex : exists y,
  run 0%Z Z.add [3] (fun k => Some 7) [Main; Main; Work 1] (start [g 5 (Card 1) 2 10 [0]] hx mx) = Some y /\ host y 0 = Dual 100%Z.
Proof. eexists. split; cbv; reflexivity. Qed.

Example C120_dropped_ex : exists y,
  runZ [Main; Main; Work 1] (start [g 5 (Card 1) 2 10 [4]] hx mx) = Some y /\ host y 4 = Unbound /\ failed y = false.
Proof. eexists. split; cbv; [reflexivity|auto]. Qed.

(** When the program has ended the derivative on the host need not have arrived. *)
Theorem C120_arrived_refuted : exists y,
  runZ [Main; Main] (start [g 5 (Card 1) 2 10 [0]] hx mx) = Some y
  /\ prog y = [] /\ todo y = [] /\ failed y = false /\ host y 0 = Dual 100%Z.
Proof. eexists. split; [cbv; reflexivity|]. repeat split. Qed.

(** With one gradient on a card and one on the host, one of them can be lost: here the host's 1,
    added between the two copies. *)
Theorem C120_mixed_refuted : exists y,
  runZ [Main; Main; Work 1; Work 1; Main; Main; Work 1; Work 1]
    (start [g 5 (Card 1) 2 10 [0]; g 6 Host 3 1 [0]] hx mx) = Some y
  /\ prog y = [] /\ todo y = [] /\ failed y = false /\ (forall c, que y c = []) /\ host y 0 = Dual 110%Z.
Proof. eexists. split; [cbv; reflexivity|]. repeat split. intro c. destruct c as [|[|c]]; reflexivity. Qed.

(** The same with two cards. *)
Theorem C120_two_cards_refuted : exists y,
  runZ [Main; Main; Main; Main; Work 0; Work 0; Work 1; Work 1; Work 1; Work 1; Work 0; Work 0]
    (start [g 5 (Card 0) 2 10 [0]; g 6 (Card 1) 2 1 [0]] hx mx) = Some y
  /\ prog y = [] /\ todo y = [] /\ failed y = false /\ (forall c, que y c = []) /\ host y 0 = Dual 110%Z.
Proof. eexists. split; [cbv; reflexivity|]. repeat split. intro c. destruct c as [|[|c]]; reflexivity. Qed.

(** A gradient computed before its node is lost without an error, although the node has a value
    at the end. *)
Theorem C120_early_refuted : exists y,
  runZ [Main; Main; Main] (start [g 5 Host 2 10 [6]; g 6 Host 3 1 []] hx mx) = Some y
  /\ prog y = [] /\ todo y = [] /\ failed y = false /\ (forall c, que y c = []) /\ host y 6 = Plain
  /\ shares 6 [g 5 Host 2 10 [6]; g 6 Host 3 1 []] = [10%Z].
Proof. eexists. split; [cbv; reflexivity|]. repeat split. Qed.
Print Assumptions C120_arrived_refuted.
Print Assumptions C120_mixed_refuted.
Print Assumptions C120_two_cards_refuted.
Print Assumptions C120_early_refuted.
