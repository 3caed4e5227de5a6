(** Proofs for XvmProps.v: progress and termination of the concurrent machine. *)
From Coq Require Import List Arith ZArith Bool Lia Wf_nat.
From Verif Require Import XvmModel XvmSpec XvmProofs.
Import ListNotations.

Section Live.
Context {V : Type}.
Variable g : list (@node V).
Notation st := (@st V).
Notation node := (@node V).

(** ** A step exists *)
(** What holds for every graph whatsoever. *)
Definition Weak (s : st) : Prop :=
  (forall i v cs, nth_error g i = Some (N (Input v) cs) -> (forall c, ph s i <> Recv c) /\ ph s i <> Comp) /\
  match mn s with Loop t _ => t = unreported g (ph s) /\ (g <> [] -> t <> 0) /\ ctxPs s = false | Ended _ => ctxPs s = true end.
Lemma weak_start ins0 out0 b : Weak (start g ins0 out0 b).
Proof.
  split; cbn [start ph mn ctxPs]; [intros; split; discriminate|]. unfold unreported. cbn [isRep negb].
  assert (F : forall l : list nat, filter (fun _ => true) l = l) by (induction l as [|x l IH]; cbn [filter]; congruence). rewrite F, seq_length. split; [reflexivity|]. split; [|reflexivity]. intros H K. apply H. destruct g; [reflexivity|discriminate].
Qed.
Lemma unrep_same (f : nat -> phase) i x : isRep (f i) = false -> isRep x = false -> unreported g (upd f i x) = unreported g f.
Proof. intros H1 H2. apply unreported_ext. intros j _. destruct (Nat.eq_dec j i) as [->|N]; [rewrite upd_same; congruence|rewrite upd_other by exact N; reflexivity]. Qed.
Lemma weak_step s l s' : Weak s -> fire g l s = Some s' -> Weak s'.
Proof.
  intros [W1 W2] H. destruct s as [ph0 ins0 out0 bc0 ed0 mn0 x0 n0 p0]. cbn [ph mn ctxPs] in *.
  assert (PH : forall i x, i < length g -> isRep (ph0 i) = false -> isRep x = false -> (forall v cs, nth_error g i = Some (N (Input v) cs) -> (forall c, x <> Recv c) /\ x <> Comp) ->
    forall ins1 out1 bc1 ed1 x1 n1, Weak (St (upd ph0 i x) ins1 out1 bc1 ed1 mn0 x1 n1 p0)).
  { intros i x Hi R1 R2 HX ins1 out1 bc1 ed1 x1 n1. split; cbn [ph mn ctxPs].
    - intros j v cs Ej. destruct (Nat.eq_dec j i) as [->|N]; [rewrite upd_same; eapply HX; exact Ej|rewrite upd_other by exact N; eapply W1; exact Ej].
    - rewrite unrep_same by assumption. exact W2. }
  cbn [fire] in H. destruct l as [i|i p|i|i|i|c|i|c|i p|].
  - destruct (nth_error g i) as [nd|] eqn:E; [|discriminate]. destruct (ph0 i) eqn:P; try discriminate. injection H as <-. apply PH; [eapply lt_len; exact E|rewrite P; reflexivity|destruct (isOp nd); reflexivity|].
    intros v cs Ev. assert (nd = N (Input v) cs) by congruence. subst nd. cbn. split; discriminate.
  - destruct (nth_error g i) as [[[v0|a f] cs]|] eqn:E; try discriminate. destruct (ph0 i) as [|c0| | |] eqn:P; try discriminate. destruct (ed0 i p) as [|v|] eqn:D; try discriminate. destruct (p <? length cs); [|discriminate]. injection H as <-.
    destruct (a <=? p); apply PH; try (eapply lt_len; exact E); try (rewrite P; reflexivity); try reflexivity; try (intros; congruence). destruct (S c0 <? a); reflexivity.
  - destruct (nth_error g i) as [[[v0|a f] cs]|] eqn:E; try discriminate. destruct (ph0 i) eqn:P; try discriminate. injection H as <-. destruct (f (ins0 i)); apply PH; try (eapply lt_len; exact E); try (rewrite P; reflexivity); try reflexivity; intros; congruence.
  - destruct (nth_error g i) as [nd|] eqn:E; [|discriminate]. destruct (ph0 i) eqn:P; try discriminate. destruct (hasOut g i); [destruct (bc0 i); try discriminate|]; injection H as <-; apply PH; try (eapply lt_len; exact E); try (rewrite P; reflexivity); try reflexivity; intros; split; discriminate.
  - destruct (x0 || n0); [|discriminate]. destruct (nth_error g i) as [nd|] eqn:E; [|discriminate]. destruct (ph0 i) eqn:P; try discriminate; [|destruct (hasOut g i); [|discriminate]]; injection H as <-; apply PH; try (eapply lt_len; exact E); try (rewrite P; reflexivity); try reflexivity; intros; split; discriminate.
  - destruct (nth_error g c); [|discriminate]. destruct (bc0 c); try discriminate. destruct (nth_error (subs g c) k) as [[i p]|]; [|discriminate]. destruct (ed0 i p); try discriminate. injection H as <-. split; assumption.
  - destruct (nth_error g i) as [nd|] eqn:E; [|discriminate]. destruct (ph0 i) as [| | | |e b] eqn:P; try discriminate. destruct b; [discriminate|]. destruct mn0 as [t errs|]; [|discriminate]. injection H as <-. destruct W2 as [M1 [M2 M3]].
    assert (NR : isRep (ph0 i) = false) by (rewrite P; reflexivity). pose proof (unreported_report g ph0 i e (lt_len _ _ _ E) NR) as CNT.
    assert (W1' : forall j v cs, nth_error g j = Some (N (Input v) cs) -> (forall c, upd ph0 i (Fin e true) j <> Recv c) /\ upd ph0 i (Fin e true) j <> Comp).
    { intros j v cs Ej. destruct (Nat.eq_dec j i) as [->|N]; [rewrite upd_same; split; discriminate|rewrite upd_other by exact N; eapply W1; exact Ej]. }
    destruct (Nat.eqb_spec (t - 1) 0); split; cbn [ph mn ctxPs]; try exact W1'; [reflexivity|]. split; [lia|]. split; [intros _; assumption|exact M3].
  - destruct ((x0 || p0) && (c <? length g)); [|discriminate]. assert (s' = St ph0 ins0 out0 (upd bc0 c BExit) ed0 mn0 x0 n0 p0) by (destruct (bc0 c); congruence). subst s'. split; assumption.
  - destruct (x0 || p0); [|discriminate]. destruct (nth_error g i) as [nd|]; [|discriminate]. destruct (isOp nd && (p <? length (ch nd))); [|discriminate]. assert (s' = St ph0 ins0 out0 bc0 (upd2 ed0 i p EExit) mn0 x0 n0 p0) by (destruct (ed0 i p); congruence). subst s'. split; assumption.
  - destruct x0; [discriminate|]. injection H as <-. split; assumption.
Qed.

(** Bounded search. *)
Lemma search (P : nat -> bool) n : (exists i, i < n /\ P i = true) \/ forall i, i < n -> P i = false.
Proof.
  induction n as [|n [[i [Hi Pi]]|IH]]; [right; intros; lia|left; exists i; split; [lia|exact Pi]|].
  destruct (P n) eqn:E; [left; exists n; split; [lia|exact E]|]. right. intros i Hi. destruct (Nat.eq_dec i n) as [->|]; [exact E|apply IH; lia].
Qed.
Lemma unreported_some f : unreported g f <> 0 -> exists i, i < length g /\ isRep (f i) = false.
Proof.
  intro H. destruct (search (fun i => negb (isRep (f i))) (length g)) as [[i [Hi Pi]]|K]; [exists i; split; [exact Hi|]; destruct (isRep (f i)); [discriminate|reflexivity]|].
  exfalso. apply H. unfold unreported. assert (F : forall l, (forall i, In i l -> negb (isRep (f i)) = false) -> filter (fun i => negb (isRep (f i))) l = []).
  { induction l as [|x l IH]; intro Q; [reflexivity|]. cbn [filter]. rewrite (Q x (or_introl eq_refl)). apply IH. intros; apply Q; right; assumption. }
  rewrite F; [reflexivity|]. intros i Hi. apply K. apply in_seq in Hi. lia.
Qed.
(** The network winds down when its context is done. *)
Lemma wind_down s errs : mn s = Ended errs -> ctxPs s = true -> returned g s errs \/ exists s', step g s s'.
Proof.
  intros M P. destruct s as [ph0 ins0 out0 bc0 ed0 mn0 x0 n0 p0]. cbn [mn ctxPs] in *. subst mn0 p0.
  destruct (search (fun c => match bc0 c with BExit => false | _ => true end) (length g)) as [[c [Hc K]]|K].
  - right. eexists. exists (LExitB c). split; [discriminate|]. cbn [fire]. rewrite orb_true_r. destruct (Nat.ltb_spec c (length g)); [|lia]. cbn [andb]. destruct (bc0 c); [reflexivity|reflexivity|discriminate].
  - destruct (search (fun i => match nth_error g i with Some n => isOp n && existsb (fun p => match ed0 i p with EExit => false | _ => true end) (seq 0 (length (ch n))) | None => false end) (length g)) as [[i [Hi L]]|L].
    + right. destruct (nth_error g i) as [nd|] eqn:E; [|discriminate]. apply andb_prop in L. destruct L as [L1 L2]. apply existsb_exists in L2. destruct L2 as [p [Hp L2]]. apply in_seq in Hp.
      eexists. exists (LExitE i p). split; [discriminate|]. cbn [fire]. rewrite orb_true_r, E, L1. destruct (Nat.ltb_spec p (length (ch nd))); [|lia]. cbn [andb]. destruct (ed0 i p); [reflexivity|reflexivity|discriminate].
    + left. split; [reflexivity|]. cbn [bc ed]. split.
      * intros c Hc. specialize (K c Hc). cbn beta in K. destruct (bc0 c); congruence.
      * intros i nd p E O Hp. specialize (L i (lt_len _ _ _ E)). cbn beta in L. rewrite E, O in L. cbn [andb] in L. destruct (ed0 i p) eqn:D; try reflexivity; exfalso; apply not_true_iff_false in L; apply L; apply existsb_exists; exists p; (split; [apply in_seq; lia|rewrite D; reflexivity]).
Qed.
(** A node that is not through can go on once its context is done. *)
Lemma abort_step s i : Weak s -> ctxExt s || ctxNodes s = true -> (exists t errs, mn s = Loop t errs) -> i < length g -> isRep (ph s i) = false -> exists s', step g s s'.
Proof.
  intros [W1 _] CX [t [errs M]] Hi NR. destruct s as [ph0 ins0 out0 bc0 ed0 mn0 x0 n0 p0]. cbn [ph mn ctxExt ctxNodes] in *. subst mn0.
  destruct (nth_error g i) as [nd|] eqn:E; [|apply nth_error_None in E; lia]. destruct (ph0 i) as [|c| | |e b] eqn:P.
  - eexists. exists (LStart i). split; [discriminate|]. cbn [fire]. rewrite E, P. reflexivity.
  - eexists. exists (LAbort i). split; [discriminate|]. cbn [fire]. rewrite CX, E, P. reflexivity.
  - destruct nd as [[v|a f] cs]; [exfalso; destruct (W1 i v cs E) as [_ K]; congruence|]. eexists. exists (LComp i). split; [discriminate|]. cbn [fire]. rewrite E, P. reflexivity.
  - destruct (hasOut g i) eqn:O.
    + eexists. exists (LAbort i). split; [discriminate|]. cbn [fire]. rewrite CX, E, P, O. reflexivity.
    + eexists. exists (LEmit i). split; [discriminate|]. cbn [fire]. rewrite E, P, O. reflexivity.
  - destruct b; [discriminate|]. eexists. exists (LReport i). split; [discriminate|]. cbn [fire]. rewrite E, P. reflexivity.
Qed.
(** The node of least rank that is not through. *)
Lemma least (P : nat -> bool) (rank : nat -> nat) : forall m i, rank i <= m -> i < length g -> P i = true ->
  exists i', i' < length g /\ P i' = true /\ forall j, j < length g -> rank j < rank i' -> P j = false.
Proof.
  induction m as [|m IH]; intros i Hr Hi HP.
  - exists i. split; [exact Hi|]. split; [exact HP|]. intros. lia.
  - destruct (search (fun j => P j && (rank j <? rank i)) (length g)) as [[j [Hj K]]|K].
    + apply andb_prop in K. destruct K as [K1 K2]. apply Nat.ltb_lt in K2. apply (IH j); [lia|exact Hj|exact K1].
    + exists i. split; [exact Hi|]. split; [exact HP|]. intros j Hj L. specialize (K j Hj). cbn beta in K. apply andb_false_iff in K. destruct K as [K|K]; [exact K|apply Nat.ltb_ge in K; lia].
Qed.
Lemma missing (r : list nat) n : NoDup r -> length r < n -> exists p, p < n /\ ~ In p r.
Proof.
  intros ND L. destruct (search (fun p => if in_dec Nat.eq_dec p r then false else true) n) as [[p [Hp K]]|K].
  - exists p. split; [exact Hp|]. destruct (in_dec Nat.eq_dec p r); [discriminate|assumption].
  - exfalso. assert (IC : incl (seq 0 n) r). { intros p Hp. apply in_seq in Hp. specialize (K p ltac:(lia)). cbn beta in K. destruct (in_dec Nat.eq_dec p r); [assumption|discriminate]. }
    pose proof (NoDup_incl_length (seq_NoDup n 0) IC) as Q. rewrite seq_length in Q. lia.
Qed.
(** Unless Run has returned something can happen. *)
Lemma progress r s : acyclic g -> saturated g -> g <> [] -> Inv g r s -> Weak s -> (exists errs, returned g s errs) \/ exists s', step g s s'.
Proof.
  intros AC SAT NE I W. pose proof W as [_ WM]. destruct (mn s) as [t errs|errs] eqn:M.
  2: { destruct (wind_down s errs M WM) as [K|K]; [left; exists errs; exact K|right; exact K]. }
  right. destruct WM as [T1 [T2 T3]]. specialize (T2 NE). rewrite T1 in T2.
  destruct (ctxExt s || ctxNodes s) eqn:CX.
  { destruct (unreported_some _ T2) as [i [Hi NR]]. apply (abort_step s i W CX (ex_intro _ t (ex_intro _ errs M)) Hi NR). }
  apply orb_false_elim in CX. destruct CX as [X0 N0]. pose proof (iMain _ _ _ I) as JM. rewrite M in JM. destruct JM as [M1 [M2 [M3 [M4 [M5 M6]]]]].
  assert (EE : errs = []) by (destruct errs; [reflexivity|]; specialize (M4 ltac:(discriminate)); congruence).
  destruct (unreported_some _ T2) as [i0 [Hi0 NR0]]. destruct AC as [rank AC].
  destruct (least (fun i => negb (isRep (ph s i))) rank (rank i0) i0 (le_n _) Hi0 ltac:(cbn beta; rewrite NR0; reflexivity)) as [i [Hi [NR LE]]].
  assert (CH : forall c, c < length g -> rank c < rank i -> exists b, ph s c = Fin None b).
  { intros c Hc Hr. specialize (LE c Hc Hr). cbn beta in LE. destruct (ph s c) as [| | | |[e|] b] eqn:P; try discriminate; [|exists b; reflexivity]. destruct b; [|discriminate]. exfalso. apply (M3 c e Hc P). exact EE. }
  destruct (nth_error g i) as [nd|] eqn:E; [|apply nth_error_None in E; lia].
  pose proof (iIn _ _ _ I) as JI. pose proof (iOp _ _ _ I) as JO. pose proof (iEdge _ _ _ I) as JE. pose proof (iBc _ _ _ I) as JB. destruct s as [ph0 ins0 out0 bc0 ed0 mn0 x0 n0 p0]. cbn [ph ins out bc ed mn ctxExt ctxNodes ctxPs] in *. subst mn0 x0 n0 p0.
  destruct (ph0 i) as [|c| | |e b] eqn:P.
  - eexists. exists (LStart i). split; [discriminate|]. cbn [fire]. rewrite E, P. reflexivity.
  - destruct nd as [[v|a f] cs]; [exfalso; destruct (JI i v cs E) as [_ [K _]]; eapply K; exact P|].
    destruct (JO i a f cs E) as [K1 [K2 [K3 [K4 [K5 [K6 K7]]]]]]. destruct (K5 c P) as [L1 L2]. destruct (SAT i a f cs E) as [A1 A2].
    destruct (missing (r i) a K2 ltac:(lia)) as [p [Hp NI]]. destruct (nth_error cs p) as [c1|] eqn:Ec; [|apply nth_error_None in Ec; lia].
    destruct (AC i a f cs c1 E (nth_error_In _ _ Ec)) as [Hc1 Rc1].
    assert (IS : In (i, p) (subs g c1)) by (apply subs_in; exists a, f, cs; auto). destruct (In_nth_error _ _ IS) as [k Hk].
    destruct (JE i a f cs p c1 k E Ec Hk) as [F1 [F2 F3]]. destruct (F3 eq_refl eq_refl) as [F4 F5]. destruct (CH c1 Hc1 Rc1) as [b Db].
    destruct (ed0 i p) as [|v|] eqn:D; [|eexists; exists (LInput i p); split; [discriminate|]; cbn [fire]; rewrite E, P, D; destruct (Nat.ltb_spec p (length cs)); [reflexivity|lia]|congruence].
    destruct (bc0 c1) as [|v k'|] eqn:B.
    + exfalso. destruct (F5 (ex_intro _ b Db)) as [Q|[v Q]]; [intros v' k' Q; cbn [bc] in Q; congruence|contradiction|discriminate].
    + destruct (JB c1) as [B1 B2]. destruct (B1 v k' B) as [EV [Lk DC]]. destruct (nth_error (subs g c1) k') as [[j q]|] eqn:Ek; [|apply nth_error_None in Ek; lia].
      pose proof (nth_error_In _ _ Ek) as IS'. apply subs_in in IS'. destruct IS' as [a' [f' [cs' [E' Ec']]]]. destruct (JE j a' f' cs' q c1 k' E' Ec' Ek) as [G1 [G2 G3]]. destruct (G3 eq_refl eq_refl) as [G4 _].
      destruct (nth_error g c1) as [n1|] eqn:E1; [|apply nth_error_None in E1; lia].
      destruct (ed0 j q) as [|w|] eqn:D'; [|exfalso; destruct (G1 (or_intror (ex_intro _ w eq_refl))) as [_ Q]; specialize (Q v k' B); lia|congruence].
      eexists. exists (LDeliver c1). split; [discriminate|]. cbn [fire]. rewrite E1, B, Ek, D'. reflexivity.
    + exfalso. destruct (JB c1) as [_ B2]. apply (B2 eq_refl eq_refl); [|exact B]. eapply parent_out; eassumption.
  - destruct nd as [[v|a f] cs]; [exfalso; destruct (JI i v cs E) as [_ [_ K]]; congruence|]. eexists. exists (LComp i). split; [discriminate|]. cbn [fire]. rewrite E, P. reflexivity.
  - destruct (hasOut g i) eqn:O.
    + destruct (JB i) as [B1 B2]. destruct (bc0 i) as [|v k|] eqn:B; [|exfalso; destruct (B1 v k eq_refl) as [_ [_ [b Q]]]; congruence|exfalso; apply (B2 eq_refl eq_refl O); reflexivity].
      eexists. exists (LEmit i). split; [discriminate|]. cbn [fire]. rewrite E, P, O, B. reflexivity.
    + eexists. exists (LEmit i). split; [discriminate|]. cbn [fire]. rewrite E, P, O. reflexivity.
  - destruct b; [discriminate|]. eexists. exists (LReport i). split; [discriminate|]. cbn [fire]. rewrite E, P. reflexivity.
Qed.

(** ** Every execution ends *)
Fixpoint nsum (n : nat) (F : nat -> nat) : nat := match n with O => O | S m => nsum m F + F m end.
Lemma nsum_ext n F G : (forall j, j < n -> F j = G j) -> nsum n F = nsum n G.
Proof. induction n as [|n IH]; intro H; cbn [nsum]; [reflexivity|]. rewrite IH by (intros; apply H; lia). rewrite (H n) by lia. reflexivity. Qed.
Lemma nsum_change n F G i : i < n -> (forall j, j <> i -> F j = G j) -> nsum n F + G i = nsum n G + F i.
Proof.
  induction n as [|n IH]; intros Hi H; [lia|]. cbn [nsum]. destruct (Nat.eq_dec i n) as [->|N].
  - rewrite (nsum_ext n F G) by (intros; apply H; lia). lia.
  - specialize (IH ltac:(lia) H). rewrite (H n) by lia. lia.
Qed.
Definition ar (i : nat) : nat := match nth_error g i with Some (N (Op a _) _) => a | _ => 0 end.
Definition width (i : nat) : nat := match nth_error g i with Some n => if isOp n then length (ch n) else 0 | None => 0 end.
Definition nw (i : nat) (p : phase) : nat :=
  let K := 2 * length (subs g i) in
  match p with Start => 6 + ar i + K | Recv c => 5 + (ar i - c) + K | Comp => 4 + K | Emit => 3 + K | Fin _ false => 1 | Fin _ true => 0 end.
Definition bw (c : nat) (b : @bstate V) : nat := match b with BIdle => 1 | BSend _ k => 2 * (length (subs g c) - k) + 1 | BExit => 0 end.
Definition ew (e : @estate V) : nat := match e with EIdle => 1 | EHold _ => 2 | EExit => 0 end.
Definition size (s : st) : nat :=
  nsum (length g) (fun i => nw i (ph s i)) + nsum (length g) (fun c => bw c (bc s c)) + nsum (length g) (fun i => nsum (width i) (fun p => ew (ed s i p))) + (if ctxExt s then 0 else 1).
Lemma size_ph f i x : i < length g -> nsum (length g) (fun j => nw j (upd f i x j)) + nw i (f i) = nsum (length g) (fun j => nw j (f j)) + nw i x.
Proof. intro Hi. pose proof (nsum_change (length g) (fun j => nw j (upd f i x j)) (fun j => nw j (f j)) i Hi) as K. cbn beta in K. rewrite upd_same in K. apply K. intros j Hj. rewrite upd_other by exact Hj. reflexivity. Qed.
Lemma size_bc f i x : i < length g -> nsum (length g) (fun j => bw j (upd f i x j)) + bw i (f i) = nsum (length g) (fun j => bw j (f j)) + bw i x.
Proof. intro Hi. pose proof (nsum_change (length g) (fun j => bw j (upd f i x j)) (fun j => bw j (f j)) i Hi) as K. cbn beta in K. rewrite upd_same in K. apply K. intros j Hj. rewrite upd_other by exact Hj. reflexivity. Qed.
Lemma size_ed f i p x : i < length g -> p < width i ->
  nsum (length g) (fun j => nsum (width j) (fun q => ew (upd2 f i p x j q))) + ew (f i p) = nsum (length g) (fun j => nsum (width j) (fun q => ew (f j q))) + ew x.
Proof.
  intros Hi Hp. pose proof (nsum_change (length g) (fun j => nsum (width j) (fun q => ew (upd2 f i p x j q))) (fun j => nsum (width j) (fun q => ew (f j q))) i Hi) as K. cbn beta in K.
  assert (K' := nsum_change (width i) (fun q => ew (upd2 f i p x i q)) (fun q => ew (f i q)) p Hp). cbn beta in K'. rewrite upd2_same in K'.
  assert (A1 : forall q, q <> p -> ew (upd2 f i p x i q) = ew (f i q)) by (intros q Hq; rewrite upd2_other by congruence; reflexivity). specialize (K' A1).
  assert (A2 : forall j, j <> i -> nsum (width j) (fun q => ew (upd2 f i p x j q)) = nsum (width j) (fun q => ew (f j q))) by (intros j Hj; apply nsum_ext; intros q _; rewrite upd2_other by congruence; reflexivity). specialize (K A2). lia.
Qed.
Lemma size_step s l s' : fire g l s = Some s' -> size s' < size s.
Proof.
  intro H. destruct s as [ph0 ins0 out0 bc0 ed0 mn0 x0 n0 p0]. cbn [fire] in H. unfold size. cbn [ph bc ed ctxExt].
  destruct l as [i|i p|i|i|i|c|i|c|i p|].
  - destruct (nth_error g i) as [nd|] eqn:E; [|discriminate]. destruct (ph0 i) eqn:P; try discriminate. injection H as <-. cbn [ph bc ed ctxExt]. pose proof (size_ph ph0 i (if isOp nd then Recv 0 else Emit) (lt_len _ _ _ E)) as Q. rewrite P in Q. destruct (isOp nd); cbn [nw] in Q; lia.
  - destruct (nth_error g i) as [[[v0|a f] cs]|] eqn:E; try discriminate. destruct (ph0 i) as [|c0| | |] eqn:P; try discriminate. destruct (ed0 i p) as [|v|] eqn:D; try discriminate. destruct (Nat.ltb_spec p (length cs)); [|discriminate]. injection H as <-.
    assert (WP : p < width i) by (unfold width; rewrite E; cbn; assumption). assert (AI : ar i = a) by (unfold ar; rewrite E; reflexivity).
    pose proof (size_ed ed0 i p EIdle (lt_len _ _ _ E) WP) as Q2. rewrite D in Q2. cbn [ew] in Q2.
    destruct (a <=? p); cbn [ph bc ed ctxExt].
    + pose proof (size_ph ph0 i (Fin (Some EArity) false) (lt_len _ _ _ E)) as Q. rewrite P in Q. cbn [nw] in Q. lia.
    + pose proof (size_ph ph0 i (if S c0 <? a then Recv (S c0) else Comp) (lt_len _ _ _ E)) as Q. rewrite P in Q. destruct (Nat.ltb_spec (S c0) a); cbn [nw] in Q; rewrite ?AI in Q; lia.
  - destruct (nth_error g i) as [[[v0|a f] cs]|] eqn:E; try discriminate. destruct (ph0 i) eqn:P; try discriminate. injection H as <-. destruct (f (ins0 i)); cbn [ph bc ed ctxExt].
    + pose proof (size_ph ph0 i Emit (lt_len _ _ _ E)) as Q. rewrite P in Q. cbn [nw] in Q. lia.
    + pose proof (size_ph ph0 i (Fin (Some EDo) false) (lt_len _ _ _ E)) as Q. rewrite P in Q. cbn [nw] in Q. lia.
  - destruct (nth_error g i) as [nd|] eqn:E; [|discriminate]. destruct (ph0 i) eqn:P; try discriminate. pose proof (size_ph ph0 i (Fin None false) (lt_len _ _ _ E)) as Q. rewrite P in Q. cbn [nw] in Q.
    destruct (hasOut g i); [destruct (bc0 i) eqn:B; try discriminate|]; injection H as <-; cbn [ph bc ed ctxExt]; [|lia].
    pose proof (size_bc bc0 i (bnext g i (out0 i) 0) (lt_len _ _ _ E)) as Q2. rewrite B in Q2. unfold bnext in *. destruct (0 <? length (subs g i)); cbn [bw] in Q2; lia.
  - destruct (x0 || n0); [|discriminate]. destruct (nth_error g i) as [nd|] eqn:E; [|discriminate]. pose proof (size_ph ph0 i (Fin (Some EDone) false) (lt_len _ _ _ E)) as Q.
    destruct (ph0 i) eqn:P; try discriminate; [|destruct (hasOut g i); [|discriminate]]; injection H as <-; cbn [ph bc ed ctxExt nw] in *; lia.
  - destruct (nth_error g c) as [nc|] eqn:Ec; [|discriminate]. destruct (bc0 c) as [|v k|] eqn:B; try discriminate. destruct (nth_error (subs g c) k) as [[i p]|] eqn:Ek; [|discriminate]. destruct (ed0 i p) eqn:D; try discriminate. injection H as <-. cbn [ph bc ed ctxExt].
    pose proof (nth_error_In _ _ Ek) as IS. apply subs_in in IS. destruct IS as [a [f [cs [E Ec']]]]. assert (LK : k < length (subs g c)) by (apply nth_error_Some; congruence).
    assert (WP : p < width i) by (unfold width; rewrite E; cbn; apply nth_error_Some; congruence).
    pose proof (size_ed ed0 i p (EHold v) (lt_len _ _ _ E) WP) as Q2. rewrite D in Q2. pose proof (size_bc bc0 c (bnext g c v (S k)) (lt_len _ _ _ Ec)) as Q. rewrite B in Q. unfold bnext in *. destruct (Nat.ltb_spec (S k) (length (subs g c))); cbn [bw ew] in *; lia.
  - destruct (nth_error g i) as [nd|] eqn:E; [|discriminate]. destruct (ph0 i) as [| | | |e b] eqn:P; try discriminate. destruct b; [discriminate|]. destruct mn0 as [t errs|]; [|discriminate]. injection H as <-. pose proof (size_ph ph0 i (Fin e true) (lt_len _ _ _ E)) as Q. rewrite P in Q. cbn [nw] in Q. destruct (t - 1 =? 0); cbn [ph bc ed ctxExt]; lia.
  - destruct (x0 || p0); [|discriminate]. destruct (Nat.ltb_spec c (length g)) as [Hc|]; [|discriminate]. cbn [andb] in H. pose proof (size_bc bc0 c BExit Hc) as Q. destruct (bc0 c) eqn:B; try discriminate; injection H as <-; cbn [ph bc ed ctxExt bw] in *; lia.
  - destruct (x0 || p0); [|discriminate]. destruct (nth_error g i) as [nd|] eqn:E; [|discriminate]. destruct (isOp nd) eqn:O; [|discriminate]. destruct (Nat.ltb_spec p (length (ch nd))); [|discriminate]. cbn [andb] in H.
    assert (WP : p < width i) by (unfold width; rewrite E, O; assumption). pose proof (size_ed ed0 i p EExit (lt_len _ _ _ E) WP) as Q. destruct (ed0 i p) eqn:D; try discriminate; injection H as <-; cbn [ph bc ed ctxExt ew] in *; lia.
  - destruct x0; [discriminate|]. injection H as <-. cbn [ph bc ed ctxExt]. lia.
Qed.
Lemma inevitably_size (J P : st -> Prop) : (forall s, J s -> P s \/ exists s', step g s s') -> (forall s s', J s -> step g s s' -> J s') -> forall s, J s -> inevitably g P s.
Proof.
  intros HP HS s. remember (size s) as m eqn:Em. revert s Em. induction m as [m IH] using (well_founded_induction lt_wf). intros s -> HJ. destruct (HP s HJ) as [K|K]; [apply i_now, K|].
  apply i_later; [exact K|]. intros s' Hs. apply (IH (size s')); [destruct Hs as [l [_ Hf]]; eapply size_step; exact Hf|reflexivity|eapply HS; eassumption].
Qed.
(** Whether anything can happen can be decided. *)
Lemma step_dec s : (exists s', step g s s') \/ forall s', ~ step g s s'.
Proof.
  set (ok := fun l => match fire g l s with Some _ => true | None => false end).
  assert (Y : forall l, l <> LCancel -> ok l = true -> exists s', step g s s') by (intros l NL K; unfold ok in K; destruct (fire g l s) as [s'|] eqn:E; [exists s', l; auto|discriminate]).
  destruct (search (fun i => ok (LStart i) || ok (LComp i) || ok (LEmit i) || ok (LAbort i) || ok (LDeliver i) || ok (LReport i) || ok (LExitB i)) (length g)) as [[i [Hi K]]|K].
  { left. repeat (apply orb_prop in K; destruct K as [K|K]); (eapply Y; [|exact K]; discriminate). }
  destruct (search (fun i => existsb (fun p => ok (LInput i p) || ok (LExitE i p)) (seq 0 (width i))) (length g)) as [[i [Hi L]]|L].
  { left. apply existsb_exists in L. destruct L as [p [_ L]]. apply orb_prop in L. destruct L as [L|L]; (eapply Y; [|exact L]; discriminate). }
  right. intros s' [l [NL Hf]].
  assert (K' : forall i, i < length g -> ok (LStart i) = false /\ ok (LComp i) = false /\ ok (LEmit i) = false /\ ok (LAbort i) = false /\ ok (LDeliver i) = false /\ ok (LReport i) = false /\ ok (LExitB i) = false).
  { intros i Hi. specialize (K i Hi). cbn beta in K. repeat (apply orb_false_elim in K; destruct K as [K ?]). repeat split; assumption. }
  assert (L' : forall i p, i < length g -> p < width i -> ok (LInput i p) = false /\ ok (LExitE i p) = false).
  { intros i p Hi Hp. specialize (L i Hi). cbn beta in L. destruct (ok (LInput i p) || ok (LExitE i p)) eqn:Q; [|apply orb_false_elim, Q]. exfalso. apply not_true_iff_false in L. apply L. apply existsb_exists. exists p. split; [apply in_seq; lia|exact Q]. }
  assert (OK : ok l = true) by (unfold ok; rewrite Hf; reflexivity).
  assert (G : match l with LStart i | LComp i | LEmit i | LAbort i | LDeliver i | LReport i | LExitB i => i < length g | LInput i p | LExitE i p => i < length g /\ p < width i | LCancel => True end).
  { clear - Hf. destruct s as [ph0 ins0 out0 bc0 ed0 mn0 x0 n0 p0]. cbn [fire] in Hf. destruct l as [i|i p|i|i|i|c|i|c|i p|]; try exact I.
    - destruct (nth_error g i) eqn:E; [eapply lt_len; exact E|discriminate].
    - destruct (nth_error g i) as [[[v0|a f] cs]|] eqn:E; try discriminate. destruct (ph0 i); try discriminate. destruct (ed0 i p); try discriminate. destruct (Nat.ltb_spec p (length cs)); [|discriminate]. split; [eapply lt_len; exact E|]. unfold width. rewrite E. assumption.
    - destruct (nth_error g i) eqn:E; [eapply lt_len; exact E|discriminate].
    - destruct (nth_error g i) eqn:E; [eapply lt_len; exact E|discriminate].
    - destruct (x0 || n0); [|discriminate]. destruct (nth_error g i) eqn:E; [eapply lt_len; exact E|discriminate].
    - destruct (nth_error g c) eqn:E; [eapply lt_len; exact E|discriminate].
    - destruct (nth_error g i) eqn:E; [eapply lt_len; exact E|discriminate].
    - destruct (x0 || p0); [|discriminate]. destruct (Nat.ltb_spec c (length g)); [assumption|discriminate].
    - destruct (x0 || p0); [|discriminate]. destruct (nth_error g i) as [nd|] eqn:E; [|discriminate]. destruct (isOp nd) eqn:O; [|discriminate]. destruct (Nat.ltb_spec p (length (ch nd))); [|discriminate]. split; [eapply lt_len; exact E|]. unfold width. rewrite E, O. assumption. }
  destruct l as [i|i p|i|i|i|c|i|c|i p|]; try (destruct (K' _ G) as [? [? [? [? [? [? ?]]]]]]; congruence); try (destruct G as [G1 G2]; destruct (L' _ _ G1 G2); congruence). contradiction.
Qed.
(** Direct evaluation gives one value. *)
Lemma evals_det : acyclic g -> forall i v w, evals g i v -> evals g i w -> v = w.
Proof.
  intros [rank AC] i. remember (rank i) as m eqn:Em. revert i Em. induction m as [m IH] using (well_founded_induction lt_wf). intros i -> v w H1 H2.
  inversion H1 as [? ? ? E1|? ? f ? vs ? E1 F1 R1]; inversion H2 as [? ? ? E2|? ? f' ? ws ? E2 F2 R2]; subst; try congruence.
  rewrite E1 in E2. injection E2 as <- <- <-. assert (vs = ws); [|congruence].
  assert (AC' : forall c, In c cs -> rank c < rank i) by (intros c Hc; apply (AC i a f cs c E1 Hc)). clear - IH AC' F1 F2. revert ws F2. induction F1 as [|c v cs vs Hv F1 IHF]; intros ws F2; inversion F2 as [|? w ? ws' Hw F2']; subst; [reflexivity|]. f_equal.
  - eapply (IH (rank c)); [apply AC'; left; reflexivity|reflexivity|exact Hv|exact Hw].
  - apply IHF; [|exact F2']. intros; apply AC'; right; assumption.
Qed.
End Live.
